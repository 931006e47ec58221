(** Model of the tabulated Gauss-Lobatto rules, fenris-quadrature/src/univariate.rs:119-134 and src/codegen/gauss_lobatto_rules.rs. Doubles are pairs of mantissa and exponent. *)
From Coq Require Import ZArith NArith List.
From Verif Require Import PolyquadModel LobattoData.
Import ListNotations.
Local Open Scope Z_scope.

(** the double the compiler reads a decimal literal as: the nearest one, ties to even *)
Definition literal_f64 (l : literal) : Z * Z :=
  if fst l =? 0 then (0, 0) else let (m, e) := round_positive (Z.abs (fst l)) (10 ^ Z.of_N (snd l)) in (Z.sgn (fst l) * m, e).
Definition f64_rule : Type := (list (Z * Z) * list (Z * Z))%type.
Definition literal_rule (r : list literal * list literal) : f64_rule := (map literal_f64 (fst r), map literal_f64 (snd r)).
(** gauss_lobatto_rules.rs:3295-3334 *)
Definition codegen_gauss_lobatto (n : N) : option f64_rule :=
  match n with
  | 2%N => Some (literal_rule gauss_lobatto_2)
  | 3%N => Some (literal_rule gauss_lobatto_3)
  | 4%N => Some (literal_rule gauss_lobatto_4)
  | 5%N => Some (literal_rule gauss_lobatto_5)
  | 6%N => Some (literal_rule gauss_lobatto_6)
  | 7%N => Some (literal_rule gauss_lobatto_7)
  | 8%N => Some (literal_rule gauss_lobatto_8)
  | 9%N => Some (literal_rule gauss_lobatto_9)
  | 10%N => Some (literal_rule gauss_lobatto_10)
  | 11%N => Some (literal_rule gauss_lobatto_11)
  | 12%N => Some (literal_rule gauss_lobatto_12)
  | 13%N => Some (literal_rule gauss_lobatto_13)
  | 14%N => Some (literal_rule gauss_lobatto_14)
  | 15%N => Some (literal_rule gauss_lobatto_15)
  | 16%N => Some (literal_rule gauss_lobatto_16)
  | 17%N => Some (literal_rule gauss_lobatto_17)
  | 18%N => Some (literal_rule gauss_lobatto_18)
  | 19%N => Some (literal_rule gauss_lobatto_19)
  | 20%N => Some (literal_rule gauss_lobatto_20)
  | 21%N => Some (literal_rule gauss_lobatto_21)
  | 22%N => Some (literal_rule gauss_lobatto_22)
  | 23%N => Some (literal_rule gauss_lobatto_23)
  | 24%N => Some (literal_rule gauss_lobatto_24)
  | 25%N => Some (literal_rule gauss_lobatto_25)
  | 26%N => Some (literal_rule gauss_lobatto_26)
  | 27%N => Some (literal_rule gauss_lobatto_27)
  | 28%N => Some (literal_rule gauss_lobatto_28)
  | 29%N => Some (literal_rule gauss_lobatto_29)
  | 30%N => Some (literal_rule gauss_lobatto_30)
  | 31%N => Some (literal_rule gauss_lobatto_31)
  | 32%N => Some (literal_rule gauss_lobatto_32)
  | 64%N => Some (literal_rule gauss_lobatto_64)
  | 128%N => Some (literal_rule gauss_lobatto_128)
  | 256%N => Some (literal_rule gauss_lobatto_256)
  | 512%N => Some (literal_rule gauss_lobatto_512)
  | _ => None
  end.
(** univariate.rs:129, 130: [first_mut] and [last_mut] of an empty list are the panics [None] *)
Definition set_first {A} (x : A) (l : list A) : option (list A) := match l with [] => None | _ :: l => Some (x :: l) end.
Definition set_last {A} (x : A) (l : list A) : option (list A) := option_map (fun r => rev r) (set_first x (rev l)).
(** univariate.rs:125-134; the outer [None] is a panic *)
Definition try_gauss_lobatto (n : N) : option (option f64_rule) :=
  match codegen_gauss_lobatto n with
  | None => Some None
  | Some (weights, points) =>
      match set_first (-1, 0) points with
      | None => None
      | Some points => option_map (fun points => Some (weights, points)) (set_last (1, 0) points)
      end
  end.

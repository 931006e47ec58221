(** Model of the quadrature rules that fenris constructs: tensor products of Gauss rules (fenris-quadrature/src/tensor.rs), Gauss rules from the Legendre recurrence
    (univariate.rs), rules by subdivision (src/quadrature/subdivide.rs) and the integrals of rules (fenris-quadrature/src/lib.rs, src/quadrature.rs).
    Exact reals instead of floats; conversions between scalar types (src/quadrature.rs:288-316, src/quadrature/{tensor,univariate}.rs) are the identity. A rule is its
    weights and its points; a point of the interval is a number, other points are coordinate functions as in ElementModel. *)
From Coq Require Import Reals List Arith.
From Verif Require Import ElementModel.
Import ListNotations.
Local Open Scope R_scope.

Definition rule (P : Type) : Type := (list R * list P)%type.

(** fenris-quadrature/src/lib.rs:124-127 [integrate]; a sum starts with the value 0 *)
Definition rule_integrate {P} (q : rule P) (f : P -> R) : R :=
  fold_left (fun acc wp => acc + fst wp * f (snd wp)) (List.combine (fst q) (snd q)) 0.
(** src/quadrature.rs:45-55 [Quadrature::integrate] *)
Definition quadrature_integrate {P} (q : rule P) (f : P -> R) : R :=
  fold_left (fun acc wp => acc + f (snd wp) * fst wp) (List.combine (fst q) (snd q)) 0.

(** fenris-quadrature/src/tensor.rs:13-30 [quadrilateral_gauss]; the one-dimensional rule [gauss(n)] is the argument *)
Definition quadrilateral_tensor (q : rule R) : rule point :=
  fold_left (fun r x => fold_left (fun r y => (fst r ++ [fst x * fst y], snd r ++ [pt [snd x; snd y]])) (List.combine (fst q) (snd q)) r)
    (List.combine (fst q) (snd q)) ([], []).
(** tensor.rs:36-55 [hexahedron_gauss] *)
Definition hexahedron_tensor (q : rule R) : rule point :=
  fold_left (fun r x => fold_left (fun r y => fold_left (fun r z => (fst r ++ [fst x * fst y * fst z], snd r ++ [pt [snd x; snd y; snd z]]))
    (List.combine (fst q) (snd q)) r) (List.combine (fst q) (snd q)) r) (List.combine (fst q) (snd q)) ([], []).

(** src/quadrature/subdivide.rs:26-60 [subdivide_univariate_]. With no pieces the size of a piece is never used. *)
Definition subdivide_univariate (q : rule R) (pieces : nat) : rule R :=
  let size := 2 / INR pieces in
  fold_left (fun r i =>
    let a := INR i * size - 1 in
    let b := a + size in
    let jacobian := (b - a) / 2 in
    fold_left (fun r wp => (fst r ++ [fst wp * jacobian], snd r ++ [((b - a) * snd wp + (b + a)) / 2])) (List.combine (fst q) (snd q)) r)
  (seq 0 pieces) ([], []).

(** src/integrate.rs:23-39 [volume_form] for a square Jacobian, here two by two *)
Definition volume_form2 (J : nat -> nat -> R) : R := Rabs (J 0%nat 0%nat * J 1%nat 1%nat - J 0%nat 1%nat * J 1%nat 0%nat).

(** subdivide.rs:127-141 [add_triangle_quadrature] *)
Definition add_triangle (r : rule point) (vs : list point) (q : rule point) : rule point :=
  fold_left (fun r wx => (fst r ++ [volume_form2 (el_jacobian tri3 vs (snd wx)) * fst wx], snd r ++ [el_map tri3 vs (snd wx)])) (List.combine (fst q) (snd q)) r.

Definition vec_plus (p v : point) : point := fun k => p k + v k.
Definition vec_scale (v : point) (s : R) : point := fun k => v k * s.

(** subdivide.rs:82-125 [subdivide_triangle_]; [None] is the panic for zero subdivisions *)
Definition subdivide_triangle (q : rule point) (subdivisions : nat) : option (rule point) :=
  if (subdivisions =? 0)%nat then None
  else
    let cell_size := 2 / INR subdivisions in
    Some (fold_left (fun r i => fold_left (fun r j =>
      let cell_center := pt [-1 + cell_size * (INR j + 1 / 2); 1 - cell_size * (INR i + 1 / 2)] in
      let corner a b := vec_plus cell_center (vec_scale (vec_scale (pt [a; b]) (1 / 2)) cell_size) in
      let v0 := corner (-1) (-1) in let v1 := corner 1 (-1) in let v2 := corner 1 1 in let v3 := corner (-1) 1 in
      let r := add_triangle r [v0; v1; v3] q in
      if negb (i =? j)%nat then add_triangle r [v1; v2; v3] q else r) (seq 0 (i + 1)) r) (seq 0 subdivisions) ([], [])).

(** fenris-quadrature/src/univariate.rs:23-37 [LegendreRecurrence::evaluate]: the values at degrees n and n - 1 *)
Definition legendre_evaluate (n : nat) (x : R) : R * R :=
  fold_left (fun p m => (((2 * INR m - 1) * x * fst p - (INR m - 1) * snd p) / INR m, fst p)) (seq 1 n) (1, 0).
(** univariate.rs:39-49 *)
Definition legendre_value (n : nat) (x : R) : R := fst (legendre_evaluate n x).
Definition legendre_derivative (n : nat) (x : R) : R :=
  INR n * (x * fst (legendre_evaluate n x) - snd (legendre_evaluate n x)) / (x * x - 1).

(** univariate.rs:80-98, the initial guess and Newton's method; the loop has no bound in the code, here it runs on fuel ([None]: not finished) *)
Definition gauss_guess (n i : nat) : R := cos (PI * (INR i + 3 / 4) / (INR n + 1 / 2)).
Fixpoint gauss_newton (fuel n : nat) (x p dp : R) : option R :=
  match fuel with
  | O => None
  | S fuel =>
      let dx := - p / dp in
      let x := x + dx in
      let p := legendre_value n x in
      let dp := legendre_derivative n x in
      if Rle_dec (Rabs dx) (/ 10 ^ 15) then Some x else gauss_newton fuel n x p dp
  end.
Definition newton_root (fuel n i : nat) : option R :=
  let x := gauss_guess n i in gauss_newton fuel n x (legendre_value n x) (legendre_derivative n x).

(** univariate.rs:66-118 [gauss]; the search for a root is an argument ([newton_root] in the code), so that properties can also be stated for an exact one.
    [None]: the panic for n = 0 or a search that does not end. [dp] is the derivative at the point that the search returns. *)
Definition gauss (root : nat -> nat -> option R) (n : nat) : option (rule R) :=
  if (n =? 0)%nat then None
  else
    let m := ((n + 1) / 2)%nat in
    let first := fold_left (fun acc i =>
        match acc, root n i with
        | Some r, Some x => let dp := legendre_derivative n x in Some (fst r ++ [2 / ((1 - x * x) * dp * dp)], snd r ++ [x])
        | _, _ => None
        end) (seq 0 m) (Some ([], [])) in
    fold_left (fun acc i =>
        match acc with
        | Some r =>
            match nth_error (snd r) (n - i - 1), nth_error (fst r) (n - i - 1) with
            | Some x, Some w => Some (fst r ++ [w], snd r ++ [- x])
            | _, _ => None
            end
        | None => None
        end) (seq m (n - m)) first.

(** src/quadrature/tensor.rs and fenris-quadrature/src/tensor.rs: the tensor rules of a number of points per dimension *)
Definition quadrilateral_gauss (root : nat -> nat -> option R) (n : nat) : option (rule point) := option_map quadrilateral_tensor (gauss root n).
Definition hexahedron_gauss (root : nat -> nat -> option R) (n : nat) : option (rule point) := option_map hexahedron_tensor (gauss root n).

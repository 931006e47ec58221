(** Model of the tabulated ("polyquad") quadrature rules: /repo/polyquad-parse/src/lib.rs:46-140 (text format), /repo/fenris-quadrature/build.rs:42-202 (loading of the
    files and generated functions), /repo/fenris-quadrature/src/polyquad.rs:27-95 and /repo/src/quadrature/total_order.rs:13-41 (selection of a rule).
    Rust's [str::parse::<f64>] is an argument of the parser; [decimal_f64] below is its documented behaviour on plain decimals (correct rounding), without the forms with
    exponents, infinities and NaNs. Errors carry the data their messages are made of. The code that build.rs generates is modelled by what it computes. *)
From Coq Require Import ZArith NArith List String Ascii Bool.
Import ListNotations.
Local Open Scope string_scope.

(** ** Text *)
(** [char::is_ascii_whitespace] *)
Definition is_space (c : ascii) : bool :=
  match nat_of_ascii c with 9 | 10 | 12 | 13 | 32 => true | _ => false end.
Definition is_newline (c : ascii) : bool := Nat.eqb (nat_of_ascii c) 10.
(** [str::lines]: the pieces between line feeds, without an empty last piece. That it also drops a carriage return before the line feed has no effect here, since this is
    white space for [split_ascii_whitespace]. *)
Fixpoint lines (s : string) : list string :=
  match s with
  | EmptyString => []
  | String c s => if is_newline c then EmptyString :: lines s else match lines s with [] => [String c EmptyString] | l :: ls => String c l :: ls end
  end.
(** [str::split_ascii_whitespace]: the maximal nonempty pieces without white space *)
Definition push_word (w : string) (ws : list string) : list string := match w with EmptyString => ws | _ => w :: ws end.
Fixpoint words_from (s : string) : string * list string :=
  match s with
  | EmptyString => (EmptyString, [])
  | String c s => let (w, ws) := words_from s in if is_space c then (EmptyString, push_word w ws) else (String c w, ws)
  end.
Definition words (s : string) : list string := let (w, ws) := words_from s in push_word w ws.

(** [ParseError], lib.rs:24-43 *)
Inductive parse_error := FloatError (token label : string) | UnexpectedEntries (found expected : nat).

Section Parser.
Context {F : Type} (parse_float : string -> option F).

(** lib.rs:84-88: the entries of one line; [i] is the index of the first token *)
Fixpoint parse_entries (labels : list string) (i : nat) (tokens : list string) : list F + parse_error :=
  match tokens with
  | [] => inl []
  | t :: tokens =>
      match parse_float t with
      | None => inr (FloatError t (nth i labels "unlabeled entry"))
      | Some x => match parse_entries labels (S i) tokens with inl xs => inl (x :: xs) | inr e => inr e end
      end
  end.
(** [parse_helper], lib.rs:70-95; [handler] appends one line to the rule *)
Fixpoint parse_lines {A : Type} (labels : list string) (handler : A -> list F -> A + parse_error) (rule : A) (ls : list string) : A + parse_error :=
  match ls with
  | [] => inl rule
  | l :: ls =>
      match words l with
      | [] => parse_lines labels handler rule ls
      | tokens =>
          match parse_entries labels 0 tokens with
          | inr e => inr e
          | inl xs => match handler rule xs with inr e => inr e | inl rule => parse_lines labels handler rule ls end
          end
      end
  end.
(** weights and points, as in build.rs:34; a point is the list of its coordinates *)
Definition table : Type := (list F * list (list F))%type.
(** lib.rs:109-116 *)
Definition handler2 (rule : table) (entries : list F) : table + parse_error :=
  match entries with
  | [x; y; w] => inl ((fst rule ++ [w])%list, (snd rule ++ [[x; y]])%list)
  | _ => inr (UnexpectedEntries (List.length entries) 3)
  end.
(** lib.rs:131-138 *)
Definition handler3 (rule : table) (entries : list F) : table + parse_error :=
  match entries with
  | [x; y; z; w] => inl ((fst rule ++ [w])%list, (snd rule ++ [[x; y; z]])%list)
  | _ => inr (UnexpectedEntries (List.length entries) 4)
  end.
(** [parse2d], lib.rs:104-120 *)
Definition parse2d (data : string) : table + parse_error :=
  parse_lines ["x coordinate"; "y coordinate"; "weight"] handler2 ([], []) (lines data).
(** [parse3d], lib.rs:129-140 *)
Definition parse3d (data : string) : table + parse_error :=
  parse_lines ["x coordinate"; "y coordinate"; "z coordinate"; "weight"] handler3 ([], []) (lines data).

(** ** Loading *)
(** [usize::from_str]: an optional plus sign and decimal digits, below 2^64 *)
Definition digit (c : ascii) : option N :=
  let n := N_of_ascii c in if ((48 <=? n) && (n <=? 57))%N then Some (n - 48)%N else None.
Fixpoint digits (acc : N) (s : string) : option N :=
  match s with
  | EmptyString => Some acc
  | String c s => match digit c with Some d => digits (10 * acc + d)%N s | None => None end
  end.
Definition parse_usize (s : string) : option N :=
  let s := match s with String "+" r => r | _ => s end in
  match s with
  | EmptyString => None
  | _ => match digits 0 s with Some n => if (n <? 2 ^ 64)%N then Some n else None | None => None end
  end.
(** [str::split("-")] *)
Fixpoint split_dash (s : string) : list string :=
  match s with
  | EmptyString => [EmptyString]
  | String c s => if Ascii.eqb c "-" then EmptyString :: split_dash s else match split_dash s with [] => [] | l :: ls => String c l :: ls end
  end.
(** [try_match_stem_to_strength_and_size], build.rs:43-58 *)
Definition match_stem (stem : string) : option (N * N) :=
  match split_dash stem with
  | [a; b] => match parse_usize a, parse_usize b with Some strength, Some size => Some (strength, size) | _, _ => None end
  | _ => None
  end.
(** a directory entry: whether it is a file, [file_stem], [extension] and contents *)
Record entry := { en_is_file : bool; en_stem : string; en_extension : option string; en_text : string }.
(** the strength and size of a rule file, build.rs:64-82; [None] for entries that are ignored *)
Definition rule_file (e : entry) : option (N * N) :=
  if en_is_file e then
    match en_extension e with Some ext => if String.eqb ext "txt" then match_stem (en_stem e) else None | None => None end
  else None.
(** [load_polyquad_rules] before sorting, build.rs:107-136; [None] is a panic *)
Fixpoint load_files (parse : string -> table + parse_error) (dir : list entry) : option (list (N * table)) :=
  match dir with
  | [] => Some []
  | e :: dir =>
      match rule_file e with
      | None => load_files parse dir
      | Some (strength, size) =>
          match parse (en_text e) with
          | inr _ => None
          | inl rule =>
              if (N.of_nat (List.length (fst rule)) =? size)%N && (List.length (fst rule) =? List.length (snd rule))%nat then
                match load_files parse dir with Some rules => Some ((strength, rule) :: rules) | None => None end
              else None
          end
      end
  end.
(** [sort_by_key], stable, build.rs:138 *)
Fixpoint insert_rule (r : N * table) (rules : list (N * table)) : list (N * table) :=
  match rules with [] => [r] | s :: rules => if (fst r <=? fst s)%N then r :: s :: rules else s :: insert_rule r rules end.
Definition sort_rules (rules : list (N * table)) : list (N * table) := fold_right insert_rule [] rules.
Definition load_rules (parse : string -> table + parse_error) (dir : list entry) : option (list (N * table)) :=
  match load_files parse dir with Some rules => Some (sort_rules rules) | None => None end.

(** ** Generated code *)
(** the generated [{domain}_select_minimum], build.rs:172-199: the calls with increasing strength. Inner [None] is the error [NoRuleAvailable], outer [None] is that the
    fuel ran out. *)
Fixpoint select_from (fuel : nat) (rules : list (N * table)) (max_strength strength : N) : option (option table) :=
  match fuel with
  | O => None
  | S fuel =>
      match find (fun r => (fst r =? strength)%N) rules with
      | Some r => Some (Some (snd r))
      | None => if (strength <=? max_strength)%N then select_from fuel rules max_strength (strength + 1)%N else Some None
      end
  end.
(** whether the generated functions, named after the strengths, have different names *)
Fixpoint distinct (l : list N) : bool := match l with [] => true | x :: l => negb (existsb (N.eqb x) l) && distinct l end.
(** the function [triangle], [quadrilateral], ... of a domain, polyquad.rs:27-95. Outer [None]: the files do not yield a program, because of a panic of the build script
    (malformed file, wrong size, no files) or because two functions have the same name. *)
Definition select_minimum (parse : string -> table + parse_error) (dir : list entry) (strength : N) : option (option table) :=
  match load_rules parse dir with
  | Some ((_ :: _) as rules) =>
      if distinct (map fst rules) then
        let max_strength := fold_right N.max 0%N (map fst rules) in
        select_from (S (N.to_nat (max_strength + 1 - strength))) rules max_strength strength
      else None
  | _ => None
  end.
End Parser.

(** ** Numbers *)
(** a plain decimal: sign, digits and number of digits after the point *)
Fixpoint decimal_digits (acc : Z) (scale : N) (point seen : bool) (s : string) : option (Z * N) :=
  match s with
  | EmptyString => if seen then Some (acc, scale) else None
  | String c s =>
      match digit c with
      | Some d => decimal_digits (10 * acc + Z.of_N d) (if point then N.succ scale else scale) point true s
      | None => if Ascii.eqb c "." && negb point then decimal_digits acc scale true seen s else None
      end
  end.
Definition decimal (s : string) : option (Z * N) :=
  match s with
  | String "-" s => match decimal_digits 0 0 false false s with Some (n, k) => Some (- n, k)%Z | None => None end
  | String "+" s => decimal_digits 0 0 false false s
  | _ => decimal_digits 0 0 false false s
  end.
(** the double nearest to n/d, for positive n and d, ties to even: mantissa and exponent *)
Definition round_positive (n d : Z) : Z * Z :=
  let scaled e := if (0 <=? e)%Z then (n, d * 2 ^ e)%Z else (n * 2 ^ (- e), d)%Z in
  let e0 := (Z.log2 n - Z.log2 d - 53)%Z in
  let e1 := let (a, b) := scaled e0 in if (b * 2 ^ 53 <=? a)%Z then (e0 + 1)%Z else e0 in
  let e := Z.max e1 (-1074) in
  let (a, b) := scaled e in
  let q := (a / b)%Z in
  match (2 * (a - q * b) ?= b)%Z with
  | Lt => (q, e)
  | Gt => (q + 1, e)%Z
  | Eq => (if Z.even q then q else q + 1, e)%Z
  end.
(** the double a plain decimal is read as; [None] if it is not one or rounds to infinity *)
Definition decimal_f64 (s : string) : option (Z * Z) :=
  match decimal s with
  | None => None
  | Some (n, k) =>
      if (n =? 0)%Z then Some (0, 0)%Z else
      let (m, e) := round_positive (Z.abs n) (10 ^ Z.of_N k) in
      if (e <? 971)%Z || ((e =? 971) && (m <? 2 ^ 53))%Z then Some (Z.sgn n * m, e)%Z else None
  end.

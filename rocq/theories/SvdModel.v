(** Model of small dense linear-algebra helpers of src/util.rs over the reals. Matrices are functions of row and column, with their
    dimension given separately. *)
From Coq Require Import List Reals.
Import ListNotations.
Local Open Scope R_scope.

Definition matrix := nat -> nat -> R.

(** nalgebra [determinant()], here by expansion along the first row. *)
Fixpoint rsum (n : nat) (f : nat -> R) : R := match n with O => 0 | S m => rsum m f + f m end.
Definition skip (j c : nat) : nat := if Nat.ltb c j then c else S c.
Definition minor (a : matrix) (j : nat) : matrix := fun r c => a (S r) (skip j c).
Fixpoint determinant (n : nat) (a : matrix) : R :=
  match n with
  | O => 1
  | S m => rsum n (fun j => (if Nat.even j then 1 else -1) * a 0%nat j * determinant m (minor a j))
  end.

(** nalgebra [imin]: the first index of a smallest entry; [None] is the panic on an empty vector. *)
Fixpoint imin_from (l : list R) (i best : nat) (v : R) : nat :=
  match l with
  | [] => best
  | x :: l' => if Rlt_dec x v then imin_from l' (S i) i x else imin_from l' (S i) best v
  end.
Definition imin (l : list R) : option nat := match l with [] => None | x :: l' => Some (imin_from l' 1 0 x) end.

Definition negate_column (k : nat) (a : matrix) : matrix := fun r c => if Nat.eqb c k then a r c * -1 else a r c.
Definition negate_row (k : nat) (a : matrix) : matrix := fun r c => if Nat.eqb r k then a r c * -1 else a r c.
Definition negate_entry (k : nat) (s : nat -> R) : nat -> R := fun i => if Nat.eqb i k then s i * -1 else s i.

(** util.rs:125-154 [rotation_svd], given the factors [u], [s], [v_t] that nalgebra's [svd] returns for a matrix of dimension [n]. *)
Definition rotation_svd (n : nat) (u : matrix) (s : nat -> R) (v_t : matrix) : option (matrix * (nat -> R) * matrix) :=
  match imin (map s (seq 0 n)) with
  | None => None
  | Some k =>
      let '(u, s) := if Rlt_dec (determinant n u) 0 then (negate_column k u, negate_entry k s) else (u, s) in
      let '(v_t, s) := if Rlt_dec (determinant n v_t) 0 then (negate_row k v_t, negate_entry k s) else (v_t, s) in
      Some (u, s, v_t)
  end.

(** util.rs:247-261 [diag_left_mul]. *)
Definition diag_left_mul (diag : nat -> R) (a : matrix) : matrix := fun r c => a r c * diag r.

(** util.rs:409-424, 443-459 [min_eigenvalue_symmetric], [min_max_symmetric_eigenvalues], given the eigenvalues that
    nalgebra's [symmetric_eigenvalues] returns; [None] is the panic of [unwrap]. [min_by] keeps the first of equal elements,
    and the greatest element is the last one. *)
Definition min_eigenvalue (eigenvalues : list R) : option R :=
  match eigenvalues with [] => None | x :: l => Some (fold_left (fun m y => if Rlt_dec y m then y else m) l x) end.
Definition max_eigenvalue (eigenvalues : list R) : option R :=
  match eigenvalues with [] => None | x :: l => Some (fold_left (fun m y => if Rlt_dec y m then m else y) l x) end.
Definition min_max_eigenvalues (eigenvalues : list R) : option (R * R) :=
  match min_eigenvalue eigenvalues, max_eigenvalue eigenvalues with Some a, Some b => Some (a, b) | _, _ => None end.
(** util.rs:461-479 [condition_number_symmetric]; the quotient by zero is infinite in floating point. *)
Definition condition_number (eigenvalues : list R) : option R :=
  match min_max_eigenvalues eigenvalues with Some (a, b) => Some (Rabs b / Rabs a) | None => None end.

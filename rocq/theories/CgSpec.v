(** Specification vocabulary for the conjugate gradient solver: linear operators on R^n. *)
From Coq Require Import Reals.
From Verif Require Import CgModel.
Open Scope R_scope.

(** Equality of the first [n] entries. *)
Definition veq (n : nat) (x y : vec) : Prop := forall i, (i < n)%nat -> x i = y i.

(** Inner product, written as a sum over the indices. *)
Definition inner (n : nat) (x y : vec) : R := match n with O => 0 | S m => sum_f_R0 (fun i => x i * y i) m end.

Record linear_map (n : nat) (L : vec -> vec) : Prop := {
  lin_ext : forall x y, veq n x y -> veq n (L x) (L y);
  lin_add : forall x y a, veq n (L (fun i => x i + a * y i)) (fun i => L x i + a * L y i);
}.
Definition symmetric_map (n : nat) (L : vec -> vec) : Prop := forall x y, inner n (L x) y = inner n x (L y).
Definition positive_map (n : nat) (L : vec -> vec) : Prop := forall x, ~ veq n x (fun _ => 0) -> 0 < inner n x (L x).

(** A fallible operator that computes [L] when it does not fail. *)
Definition computes (n : nat) (A : vec -> option vec) (L : vec -> vec) : Prop := forall x y, A x = Some y -> veq n y (L x).
Definition never_fails (A : vec -> option vec) : Prop := forall x, A x <> None.

Definition residual (L : vec -> vec) (b x : vec) : vec := fun i => b i - L x i.

(** Euclidean length. *)
Definition length2 (n : nat) (x : vec) : R := sqrt (inner n x x).

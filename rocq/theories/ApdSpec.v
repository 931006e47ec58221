(** Specification vocabulary for the polar decomposition. *)
From Coq Require Import Reals.
From Verif Require Import ApdModel.
Local Open Scope R_scope.

Definition unit (q : quat) : Prop := qw q * qw q + qi q * qi q + qj q * qj q + qk q * qk q = 1.

(** Rotations: orthogonal with determinant one. *)
Definition delta (i j : nat) : R := if Nat.eqb i j then 1 else 0.
Definition det3 (A : mat3) : R :=
  A 0%nat 0%nat * (A 1%nat 1%nat * A 2%nat 2%nat - A 1%nat 2%nat * A 2%nat 1%nat)
  - A 0%nat 1%nat * (A 1%nat 0%nat * A 2%nat 2%nat - A 1%nat 2%nat * A 2%nat 0%nat)
  + A 0%nat 2%nat * (A 1%nat 0%nat * A 2%nat 1%nat - A 1%nat 1%nat * A 2%nat 0%nat).
Definition rotation (A : mat3) : Prop :=
  (forall i j, (i < 3)%nat -> (j < 3)%nat -> A 0%nat i * A 0%nat j + A 1%nat i * A 1%nat j + A 2%nat i * A 2%nat j = delta i j) /\ det3 A = 1.

Definition mul3 (A B : mat3) : mat3 := fun r c => A r 0%nat * B 0%nat c + A r 1%nat * B 1%nat c + A r 2%nat * B 2%nat c.
Definition sum3 (f : nat -> R) : R := f 0%nat + f 1%nat + f 2%nat.
Definition transpose (A : mat3) : mat3 := fun r c => A c r.
Definition quad_form (A : mat3) (x : vec3) : R := sum3 (fun r => sum3 (fun c => x r * A r c * x c)).
Definition symmetric (A : mat3) : Prop := forall i j, (i < 3)%nat -> (j < 3)%nat -> A i j = A j i.
Definition positive_definite (A : mat3) : Prop :=
  symmetric A /\ forall x, (exists i, (i < 3)%nat /\ x i <> 0) -> 0 < quad_form A x.

(** [R] is the rotation of the polar decomposition F = R S. *)
Definition polar (F R : mat3) : Prop := rotation R /\ positive_definite (mul3 (transpose R) F).

(** Squared distance of matrices; the polar rotation is the closest one. *)
Definition dist2 (A B : mat3) : R := sum3 (fun r => sum3 (fun c => (A r c - B r c) * (A r c - B r c))).

(** The curve of rotations through the one of [q] in direction [omega] that the iteration moves along. *)
Definition along (q : quat) (omega : vec3) (t : R) : mat3 := to_rotation (qmul q (cayley (fun i => t * omega i))).
(** tr(B) I - (B + B^T) / 2 *)
Definition true_hessian (B : mat3) : mat3 := fun r c => sum3 (fun i => B i i) * delta r c - (B r c + B c r) / 2.

(** Specification vocabulary for boxes and index sets. *)
From Coq Require Import Reals List.
From Verif Require Import CgModel CgSpec AabbModel.
Import ListNotations.
Open Scope R_scope.

(** A point of the box. *)
Definition inside (D : nat) (a : aabb) (p : vec) : Prop := forall i, (i < D)%nat -> bmin a i <= p i <= bmax a i.
(** A box with at least one point. *)
Definition proper (D : nat) (a : aabb) : Prop := forall i, (i < D)%nat -> bmin a i <= bmax a i.
(** Squared distance. *)
Definition dist2 (D : nat) (p q : vec) : R := inner D (fun i => p i - q i) (fun i => p i - q i).
(** A vertex of the box. *)
Definition is_corner (D : nat) (a : aabb) (p : vec) : Prop := forall i, (i < D)%nat -> p i = bmin a i \/ p i = bmax a i.

(** One list is the other one read cyclically from some position. *)
Definition rotation_of {T} (R : T -> T -> Prop) (x y : list T) : Prop := exists l r, x = l ++ r /\ Forall2 R (r ++ l) y.

Definition dot3 (u v : R * R * R) : R := let '(a, b, c) := u in let '(d, e, f) := v in a * d + b * e + c * f.
Definition cross3 (u v : R * R * R) : R * R * R := let '(a, b, c) := u in let '(d, e, f) := v in (b * f - c * e, c * d - a * f, a * e - b * d).

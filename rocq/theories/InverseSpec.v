(** Specification vocabulary for the inversion of geometry maps. *)
From Coq Require Import Reals List.
From Verif Require Import CgModel CgSpec AabbSpec ClosestSpec ElementModel.
Import ListNotations.
Open Scope R_scope.

(** Euclidean distance of two points. *)
Definition dist (D : nat) (p q : vec) : R := sqrt (dist2 D p q).

(** The reference domains: interval, triangle, square, tetrahedron and cube, by dimension and number of corners. *)
Definition reference_domain (dim corners : nat) (xi : vec) : Prop :=
  match dim, corners with
  | 1%nat, 2%nat => -1 <= xi 0%nat <= 1
  | 2%nat, 3%nat => -1 <= xi 0%nat /\ -1 <= xi 1%nat /\ xi 0%nat + xi 1%nat <= 0
  | 2%nat, 4%nat => -1 <= xi 0%nat <= 1 /\ -1 <= xi 1%nat <= 1
  | 3%nat, 4%nat => -1 <= xi 0%nat /\ -1 <= xi 1%nat /\ -1 <= xi 2%nat /\ xi 0%nat + xi 1%nat + xi 2%nat <= -1
  | 3%nat, 8%nat => -1 <= xi 0%nat <= 1 /\ -1 <= xi 1%nat <= 1 /\ -1 <= xi 2%nat <= 1
  | _, _ => False
  end.
Definition in_reference (el : element) (xi : vec) : Prop := reference_domain (el_dim el) (el_corners el) xi.

(** Twice the signed area of a triangle in the plane. *)
Definition turn (a b c : vec) : R := (b 0%nat - a 0%nat) * (c 1%nat - a 1%nat) - (b 1%nat - a 1%nat) * (c 0%nat - a 0%nat).
(** A quadrilateral that turns the same way at each corner. *)
Definition strictly_convex (a b c d : vec) : Prop :=
  0 < turn d a b /\ 0 < turn a b c /\ 0 < turn b c d /\ 0 < turn c d a \/
  turn d a b < 0 /\ turn a b c < 0 /\ turn b c d < 0 /\ turn c d a < 0.
(** No corner is flatter than the given fraction of the mean over the four corners. *)
Definition shape_regular (m : R) (a b c d : vec) : Prop :=
  let average := (turn d a b + turn a b c + turn b c d + turn c d a) / 4 in
  let flat t := 0 < average /\ m * average <= t \/ average < 0 /\ t <= m * average in
  flat (turn d a b) /\ flat (turn a b c) /\ flat (turn b c d) /\ flat (turn c d a).
(** Points that span a simplex: only the trivial combination with total weight zero vanishes. *)
Definition affinely_independent (D : nat) (vs : list vec) : Prop :=
  forall d, total (length vs) d = 0 -> veq D (mean d vs) (fun _ => 0) -> forall i, (i < length vs)%nat -> d i = 0.

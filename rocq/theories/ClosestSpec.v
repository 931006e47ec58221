(** Specification vocabulary for closest points: convex and slightly enlarged hulls of vertices. *)
From Coq Require Import Reals List.
From Verif Require Import CgModel CgSpec AabbSpec.
Import ListNotations.
Open Scope R_scope.

Fixpoint total (n : nat) (f : nat -> R) : R := match n with O => 0 | S m => total m f + f m end.
(** The mean of the vertices with the given weights. *)
Definition mean (w : nat -> R) (vs : list vec) : vec := fun k => total (length vs) (fun i => w i * nth i vs (fun _ => 0) k).
(** Weights of n vertices: they sum to one and none is below - delta. *)
Definition weighting (delta : R) (n : nat) (w : nat -> R) : Prop := (forall i, (i < n)%nat -> - delta <= w i) /\ total n w = 1.
(** The convex hull of the vertices, the set of points of a triangle or tetrahedron; with a positive delta it is enlarged. *)
Definition hull (delta : R) (D : nat) (vs : list vec) (x : vec) : Prop := exists w, weighting delta (length vs) w /\ veq D x (mean w vs).
(** The boundary: one of the weights vanishes. *)
Definition hull_boundary (D : nat) (vs : list vec) (x : vec) : Prop :=
  exists w j, weighting 0 (length vs) w /\ (j < length vs)%nat /\ w j = 0 /\ veq D x (mean w vs).
(** A nearest point of a set. *)
Definition nearest (D : nat) (S : vec -> Prop) (p x : vec) : Prop := forall y, S y -> dist2 D p x <= dist2 D p y.
(** Reference coordinates and the point they stand for: the same weights of the reference vertices and of the vertices. *)
Definition located (delta : R) (D : nat) (reference vs : list vec) (xi x : vec) : Prop :=
  exists w, weighting delta (length vs) w /\ veq (length vs - 1) xi (mean w reference) /\ veq D x (mean w vs).

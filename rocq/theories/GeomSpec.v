(** Specification vocabulary for C42-C48 and C63: points between two points, half planes, disks and signed areas, without reference
    to the model. *)
From Coq Require Import Reals List Arith.
From Verif Require Import CgModel CgSpec.
Import ListNotations.
Open Scope R_scope.

(** the point dividing the segment from [a] to [b] in the ratio t : 1 - t *)
Definition mix (a b : R * R) (t : R) : R * R := ((1 - t) * fst a + t * fst b, (1 - t) * snd a + t * snd b).
Definition between (a b x : R * R) : Prop := exists t, 0 <= t <= 1 /\ x = mix a b t.
Definition dist2 (p q : R * R) : R := (fst p - fst q) ^ 2 + (snd p - snd q) ^ 2.
Definition dist (p q : R * R) : R := sqrt (dist2 p q).

(** the half plane through [x0] with outward normal [n] *)
Definition on_side (x0 n p : R * R) : Prop := fst n * (fst p - fst x0) + snd n * (snd p - snd x0) <= 0.
Definition on_border (x0 n p : R * R) : Prop := fst n * (fst p - fst x0) + snd n * (snd p - snd x0) = 0.
Definition in_disk (c : R * R) (r : R) (p : R * R) : Prop := dist2 p c <= r ^ 2.

(** twice the signed area of the triangle a b x, positive when x is to the left of the way from a to b *)
Definition left_of (a b x : R * R) : R := (fst b - fst a) * (snd x - snd a) - (snd b - snd a) * (fst x - fst a).
(** vertex [i] of a closed polygon, counted cyclically *)
Definition corner (vs : list (R * R)) (i : nat) : R * R := nth (i mod length vs) vs (0, 0).
Definition sum_to (n : nat) (f : nat -> R) : R := fold_right Rplus 0 (map f (seq 0 n)).
(** Gauss's area formula *)
Definition shoelace (vs : list (R * R)) : R :=
  sum_to (length vs) (fun i => fst (corner vs i) * snd (corner vs (i + 1)) - snd (corner vs i) * fst (corner vs (i + 1))) / 2.
(** the points to the left of every side *)
Definition left_of_all (vs : list (R * R)) (x : R * R) : Prop :=
  forall i, (i < length vs)%nat -> 0 <= left_of (corner vs i) (corner vs (i + 1)) x.

(** the same in any dimension *)
Definition mixd (a b : vec) (t : R) : vec := fun i => (1 - t) * a i + t * b i.
Definition distd (D : nat) (p q : vec) : R := length2 D (fun i => p i - q i).

(** the smallest convex set containing the points *)
Inductive hull (vs : list (R * R)) : R * R -> Prop :=
| hull_point v : In v vs -> hull vs v
| hull_mix x y t : hull vs x -> hull vs y -> 0 <= t <= 1 -> hull vs (mix x y t).
(** no vertex is to the right of a side *)
Definition convex_polygon (vs : list (R * R)) : Prop :=
  forall i j, (i < length vs)%nat -> (j < length vs)%nat -> 0 <= left_of (corner vs i) (corner vs (i + 1)) (corner vs j).
(** the same with every corner strictly to the left of every side it is not on *)
Definition strictly_convex (vs : list (R * R)) : Prop :=
  (3 <= length vs)%nat /\ forall i j, (i < length vs)%nat -> (j < length vs)%nat -> j <> i -> j <> ((i + 1) mod length vs)%nat ->
    0 < left_of (corner vs i) (corner vs (i + 1)) (corner vs j).

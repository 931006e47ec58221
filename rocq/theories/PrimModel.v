(** Model of half spaces, planes and triangles of fenris-geometry/src/primitives. Scalars are exact reals, points and vectors are functions
    on the coordinates. Normalising the zero vector, which gives NaN in the code, gives zero here; all comparisons with it are then
    false, as with NaN. *)
From Coq Require Import Reals List Bool Arith.
From Verif Require Import CgModel GeomModel SolidModel.
Import ListNotations.
Open Scope R_scope.

(** * primitives/half_space.rs, in [D] dimensions *)
Record half_space := HalfSpace { hs_point : vec; hs_normal : vec }.
(** 33-36 [signed_distance_to_point] *)
Definition signed_distance_to_point (D : nat) (h : half_space) (p : vec) : R := dot D (hs_normal h) (sub3 p (hs_point h)).
(** 38-40 [contains_point] *)
Definition contains_point (D : nat) (h : half_space) (p : vec) : bool := if Rle_dec (signed_distance_to_point D h p) 0 then true else false.
(** 57-59 [complement] *)
Definition hs_complement (h : half_space) : half_space := HalfSpace (hs_point h) (fun i => - hs_normal h i).

(** * primitives/plane.rs *)
Record plane := Plane { pl_point : vec; pl_normal : vec }.
(** 26-31 [flipped] *)
Definition flipped (p : plane) : plane := Plane (pl_point p) (fun i => - pl_normal p i).
(** half_space.rs:66-72 [plane], [from_plane] *)
Definition hs_plane (h : half_space) : plane := Plane (hs_point h) (hs_normal h).
Definition from_plane (p : plane) : half_space := HalfSpace (pl_point p) (pl_normal p).

(** * primitives/triangle.rs *)
Inductive orientation := Clockwise | Counterclockwise.
Inductive orientation_test := Positive | Zero | Negative.
(** A triangle is the list of its three vertices. *)
Definition triangle : Type := nat -> vec.
(** 47-49 [swap_vertices] *)
Definition swap_vertices (t : triangle) (i j : nat) : triangle := fun k => if k =? i then t j else if k =? j then t i else t k.
(** 51-56 [edge]; [None] is the failed assertion *)
Definition tri_edge (t : triangle) (index : nat) : option (vec * vec) :=
  if (index <? 3)%nat then Some (t ((index + 0) mod 3)%nat, t ((index + 1) mod 3)%nat) else None.
(** 65-71 [centroid] *)
Definition centroid (t : triangle) : vec := fun c => fold_left (fun acc p => acc + t p c * (1 / 3)) [0; 1; 2]%nat 0.
(** 74-79 [sides] *)
Definition sides (t : triangle) : list vec := [sub3 (t 1%nat) (t 0%nat); sub3 (t 2%nat) (t 1%nat); sub3 (t 0%nat) (t 2%nat)].
(** 95-102 [signed_area] in the plane *)
Definition signed_area2 (t : triangle) : R :=
  let ab := sub3 (t 1%nat) (t 0%nat) in let ac := sub3 (t 2%nat) (t 0%nat) in 1/2 * (ab 0%nat * ac 1%nat - ab 1%nat * ac 0%nat).
(** 86-92 [orientation] in the plane *)
Definition orientation2 (t : triangle) : orientation := if Rle_dec 0 (signed_area2 t) then Counterclockwise else Clockwise.
(** 104-106 [area] *)
Definition area2 (t : triangle) : R := Rabs (signed_area2 t).
(** predicates.rs:4-9 [orient2d_inexact]: the determinant of a 3 x 3 matrix *)
Definition orient2d_inexact (a b c : vec) : R :=
  a 0%nat * (b 1%nat * 1 - c 1%nat * 1) - a 1%nat * (b 0%nat * 1 - c 0%nat * 1) + 1 * (b 0%nat * c 1%nat - c 0%nat * b 1%nat).
(** 114-122 [normal_dir] *)
Definition tri_normal_dir (t : triangle) : vec := cross (sub3 (t 1%nat) (t 0%nat)) (sub3 (t 2%nat) (t 0%nat)).
(** 124-126 [normal] *)
Definition tri_normal (t : triangle) : vec := normalize3 (tri_normal_dir t).
(** 140-151 [signed_area], [area] in space *)
Definition signed_area3 (t : triangle) : R := 1/2 * norm 3 (tri_normal_dir t).
Definition area3 (t : triangle) : R := Rabs (signed_area3 t).
(** 129-135 [orientation] in space *)
Definition orientation3 (t : triangle) : orientation := if Rle_dec 0 (signed_area3 t) then Clockwise else Counterclockwise.
(** 161-177 [point_orientation] *)
Definition point_orientation (t : triangle) (x : vec) : orientation_test :=
  let n := normalize3 (tri_normal_dir t) in
  let projected_dist := dot 3 n (sub3 x (t 0%nat)) in
  if Rlt_dec 0 projected_dist then Positive else if Rlt_dec projected_dist 0 then Negative else Zero.

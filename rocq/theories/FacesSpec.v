(** Specification vocabulary for face tables. *)
From stdpp Require Import base list list_numbers.
From Coq Require Import Reals.
From Verif Require Import Prelude MeshModel MeshSpec.
Local Open Scope R_scope.

Definition point3 := (R * R * R)%type.
Definition sub3 (a b : point3) : point3 := (a.1.1 - b.1.1, a.1.2 - b.1.2, a.2 - b.2).
Definition det3 (u v w : point3) : R :=
  u.1.1 * (v.1.2 * w.2 - v.2 * w.1.2) - u.1.2 * (v.1.1 * w.2 - v.2 * w.1.1) + u.2 * (v.1.1 * w.1.2 - v.1.2 * w.1.1).
(** Six times the signed volume of the tetrahedron (a, b, c, d); negative when d lies behind the oriented triangle (a, b, c). *)
Definition orient3 (a b c d : point3) : R := det3 (sub3 b a) (sub3 c a) (sub3 d a).

(** The oriented (planar) face with local nodes [t] has node [j] strictly behind it, whichever three consecutive corners
    define its plane. *)
Definition behind (p : nat -> point3) (t : list nat) (j : nat) : Prop :=
  forall i a b c, t !! i = Some a -> t !! ((i + 1) mod length t)%nat = Some b -> t !! ((i + 2) mod length t)%nat = Some c ->
    orient3 (p a) (p b) (p c) (p j) < 0.

(** Corners of the reference hexahedron (src/element/hexahedron.rs:142-153) under the affine map with origin [o] and axes u, v, w. *)
Definition hex_corners : list point3 :=
  [(-1, -1, -1); (1, -1, -1); (1, 1, -1); (-1, 1, -1); (-1, -1, 1); (1, -1, 1); (1, 1, 1); (-1, 1, 1)].
Definition parallelepiped (o u v w : point3) (j : nat) : point3 :=
  let x := default (0, 0, 0) (hex_corners !! j) in
  (o.1.1 + x.1.1 * u.1.1 + x.1.2 * v.1.1 + x.2 * w.1.1, o.1.2 + x.1.1 * u.1.2 + x.1.2 * v.1.2 + x.2 * w.1.2,
   o.2 + x.1.1 * u.2 + x.1.2 * v.2 + x.2 * w.2).

(** Directed edges of a polygon with the given corners. *)
Definition loop_edges {A} (l : list A) : list (A * A) := match l with [] => [] | x :: l' => zip l (l' ++ [x]) end.

(** Corners of all faces of a cell; [n] is the number of corners of a face. *)
Definition face_corners (k : conn_kind) (n : nat) (cell : list nat) : list (list nat) :=
  omap (fun l => take n <$> face_of k cell l) (seq 0 (ck_num_faces k)).

Definition mean (l : list R) : R := foldr Rplus 0 l / INR (length l).
(** Node [n] lies at the mean of nodes [cs], for all (n, cs) in the table (one coordinate at a time). *)
Definition at_means (table : list (nat * list nat)) (p : nat -> R) : Prop :=
  Forall (fun e => p e.1 = mean (map p e.2)) table.

(** Node numbering conventions of the documentation (gmsh). *)
Definition tri6_nodes : list (nat * list nat) := [(3, [0; 1]); (4, [1; 2]); (5, [2; 0])]%nat.
Definition quad8_nodes : list (nat * list nat) := [(4, [0; 1]); (5, [1; 2]); (6, [2; 3]); (7, [3; 0])]%nat.
Definition quad9_nodes : list (nat * list nat) := quad8_nodes ++ [(8, [0; 1; 2; 3])]%nat.
Definition tet10_nodes : list (nat * list nat) := [(4, [0; 1]); (5, [1; 2]); (6, [0; 2]); (7, [0; 3]); (8, [2; 3]); (9, [1; 3])]%nat.
Definition hex20_nodes : list (nat * list nat) :=
  [(8, [0; 1]); (9, [0; 3]); (10, [0; 4]); (11, [1; 2]); (12, [1; 5]); (13, [2; 3]); (14, [2; 6]); (15, [3; 7]);
   (16, [4; 5]); (17, [4; 7]); (18, [5; 6]); (19, [6; 7])]%nat.
Definition hex27_nodes : list (nat * list nat) :=
  hex20_nodes ++ [(20, [0; 1; 2; 3]); (21, [0; 1; 4; 5]); (22, [0; 3; 4; 7]); (23, [1; 2; 5; 6]); (24, [2; 3; 6; 7]);
   (25, [4; 5; 6; 7]); (26, [0; 1; 2; 3; 4; 5; 6; 7])]%nat.

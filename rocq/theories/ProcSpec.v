(** Specification vocabulary for procedural meshes: coordinates and signed measures. *)
From stdpp Require Import base list list_numbers.
From Coq Require Import Reals.
From Verif Require Import Prelude ReorderModel ElementModel FacesSpec ConvertModel ConvertSpec.

Definition xy (vs : list point) (v : nat) : R * R := (coord vs 0 v, coord vs 1 v).
Definition xyz (vs : list point) (v : nat) : point3 := (coord vs 0 v, coord vs 1 v, coord vs 2 v).
Definition Rsum (l : list R) : R := foldr Rplus 0%R l.

(** Signed area of a quadrilateral (shoelace formula). *)
Definition quad_area (vs : list point) (cell : list nat) : R :=
  match map (xy vs) cell with
  | [a; b; c; d] => ((a.1 * b.2 - b.1 * a.2 + (b.1 * c.2 - c.1 * b.2) + (c.1 * d.2 - d.1 * c.2) + (d.1 * a.2 - a.1 * d.2)) / 2)%R
  | _ => 0%R
  end.
(** Signed volume of a parallelepiped with the node order of Hex8: determinant of the edges at node 0. *)
Definition box_volume (vs : list point) (cell : list nat) : R :=
  match map (xyz vs) cell with
  | [a; b; c; d; e; f; g; h] => det3 (sub3 b a) (sub3 d a) (sub3 e a)
  | _ => 0%R
  end.
(** Signed volume of a tetrahedron. *)
Definition tet_volume (vs : list point) (cell : list nat) : R :=
  match map (xyz vs) cell with [a; b; c; d] => (orient3 a b c d / 6)%R | _ => 0%R end.

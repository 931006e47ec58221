(** Specification of the conventions of Gmsh and VTK, stated without the model of the code: the number of nodes of each element type and
    the position of each node in a straight-sided element, as an average of corners. *)
From Coq Require Import NArith ZArith Reals List.
From Verif Require Import ElementModel IoModel.
Import ListNotations.

(** the mean of the corners with the given numbers *)
Definition mean (corners : list (nat -> R)) (g : list nat) : nat -> R :=
  fun i => (fold_right Rplus 0 (map (fun j => nth j corners (fun _ => 0%R) i) g) / INR (List.length g))%R.

(** Gmsh reference manual, "Node ordering": for every node the corners it is the mean of *)
Definition gmsh_tet : list (list nat) := [[0]; [1]; [2]; [3]]%nat.
Definition gmsh_hex : list (list nat) := [[0]; [1]; [2]; [3]; [4]; [5]; [6]; [7]]%nat.
Definition gmsh_groups (t : msh_type) : list (list nat) :=
  match t with
  | MTri3 => [[0]; [1]; [2]]
  | MTri6 => [[0]; [1]; [2]; [0; 1]; [1; 2]; [2; 0]]
  | MQua4 => [[0]; [1]; [2]; [3]]
  | MQua9 => [[0]; [1]; [2]; [3]; [0; 1]; [1; 2]; [2; 3]; [3; 0]; [0; 1; 2; 3]]
  | MTet4 => gmsh_tet
  | MTet10 => gmsh_tet ++ [[0; 1]; [1; 2]; [2; 0]; [3; 0]; [2; 3]; [1; 3]]
  | MHex8 => gmsh_hex
  | MHex27 => gmsh_hex ++ [[0; 1]; [0; 3]; [0; 4]; [1; 2]; [1; 5]; [2; 3]; [2; 6]; [3; 7]; [4; 5]; [4; 7]; [5; 6]; [6; 7]]
      ++ [[0; 3; 2; 1]; [0; 1; 5; 4]; [0; 4; 7; 3]; [1; 2; 6; 5]; [2; 3; 7; 6]; [4; 5; 6; 7]] ++ [[0; 1; 2; 3; 4; 5; 6; 7]]
  | MOther _ => []
  end%nat.

(** VTK file formats, "Linear cell types" and "Non-linear cell types" *)
Definition vtk_groups (t : cell_type) : list (list nat) :=
  match t with
  | Line => [[0]; [1]]
  | Triangle => [[0]; [1]; [2]]
  | QuadraticTriangle => [[0]; [1]; [2]; [0; 1]; [1; 2]; [2; 0]]
  | Quad => [[0]; [1]; [2]; [3]]
  | QuadraticQuad => [[0]; [1]; [2]; [3]; [0; 1]; [1; 2]; [2; 3]; [3; 0]]
  | Tetra => [[0]; [1]; [2]; [3]]
  | QuadraticTetra => [[0]; [1]; [2]; [3]; [0; 1]; [1; 2]; [2; 0]; [0; 3]; [1; 3]; [2; 3]]
  | Hexahedron => [[0]; [1]; [2]; [3]; [4]; [5]; [6]; [7]]
  | QuadraticHexahedron => [[0]; [1]; [2]; [3]; [4]; [5]; [6]; [7]; [0; 1]; [1; 2]; [2; 3]; [3; 0]; [4; 5]; [5; 6]; [6; 7]; [7; 4]; [0; 4]; [1; 5]; [2; 6]; [3; 7]]
  end%nat.

(** parametric coordinates of the corners of the cell types in VTK *)
Definition vtk_corners (t : cell_type) : list (list R) :=
  match t with
  | Line => [[0]; [1]]
  | Triangle | QuadraticTriangle => [[0; 0]; [1; 0]; [0; 1]]
  | Quad | QuadraticQuad => [[0; 0]; [1; 0]; [1; 1]; [0; 1]]
  | Tetra | QuadraticTetra => [[0; 0; 0]; [1; 0; 0]; [0; 1; 0]; [0; 0; 1]]
  | Hexahedron | QuadraticHexahedron => [[0; 0; 0]; [1; 0; 0]; [1; 1; 0]; [0; 1; 0]; [0; 0; 1]; [1; 0; 1]; [1; 1; 1]; [0; 1; 1]]
  end%R.

(** the element of a connectivity *)
Definition element_of (c : conn) : element :=
  match c with
  | Segment2d2 | Segment2d3 => segment2 | Tri3d2 | Tri3d3 => tri3 | Tri6d2 => tri6 | Quad4d2 => quad4 | Quad9d2 => quad9
  | IoModel.Tet4 => tet4 | Tet10 => tet10 | Tet20 => tet20 | Hex8 => hex8 | Hex20 => hex20 | Hex27 => hex27
  end.
(** a straight-sided cell: every vertex is the image of the corresponding reference node under the geometry map *)
Definition straight (el : element) (vs : list (nat -> R)) : Prop :=
  List.length vs = List.length (el_ref el) /\ forall i, (i < List.length (el_ref el))%nat -> forall a, nth i vs (fun _ => 0%R) a = el_map el vs (pt (nth i (el_ref el) [])) a.

(** A list of cells in the legacy format of VTK: for every cell its number of nodes, then the nodes. *)
Inductive legacy : list N -> list (list N) -> Prop :=
| legacy_nil : legacy [] []
| legacy_cons c l cs : legacy l cs -> legacy (N.of_nat (List.length c) :: c ++ l) (c :: cs).
(** data for three components per item: the given components, then zeros *)
Inductive padded {T} (zero : T) : list T -> list (list T) -> Prop :=
| padded_nil : padded zero [] []
| padded_cons v l vs : (List.length v <= 3)%nat -> padded zero l vs -> padded zero ((v ++ repeat zero (3 - List.length v)) ++ l) (v :: vs).

(** Meshes of any element type as finite element spaces: src/space/space_impl.rs:17-141 ([num_elements], [num_nodes], [element_node_count], [populate_element_nodes], [populate_element_basis],
    [populate_element_gradients], [element_reference_jacobian], [map_element_reference_coords]). The element of a cell takes the vertices with the indices of the cell in order, [ElementConnectivity::element]:
    segment.rs:202-207, 218-222, triangle.rs:279-288, 299-311, quadrilateral.rs:350-360, 371-380, tetrahedron.rs:25-34, 45-58, 69-82, hexahedron.rs:20-31, 345-353, 573-581.
    An index out of range is [None]: a panic of the space, [None] from [element] except for segments and Quad9, where [element] itself panics. The dimension of the geometry is that of the reference element here,
    so surface and curve meshes are not included. Indices of elements out of range and slices of wrong lengths panic in the code and are not modelled. *)
From stdpp Require Import base list.
From Coq Require Import Reals.
From Verif Require Import ElementModel EllipticModel GlobalModel.

Definition cell_points (vertices : list point) (cell : list nat) : option (list point) := mapM (fun a => vertices !! a) cell.
Definition element_fe (el : ElementModel.element) (vs : list point) : EllipticModel.element point :=
  EllipticModel.Element point (length (el_ref el)) (ElementModel.el_dim el) (fun xi I => nth I (ElementModel.el_basis el xi) 0%R) (fun xi I j => nth j (nth I (el_grads el xi) []) 0%R) (ElementModel.el_map el vs) (ElementModel.el_jacobian el vs).
Definition element_space (el : ElementModel.element) (vertices : list point) (cells : list (list nat)) : fe_space point :=
  FeSpace (length cells) (length vertices) (fun e => length (nth e cells [])) (fun e _ => nth e cells [])
    (fun e => element_fe el (match cell_points vertices (nth e cells []) with Some vs => vs | None => [] end)).

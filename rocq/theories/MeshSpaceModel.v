(** Meshes as finite element spaces: src/space/space_impl.rs:20-141, for the three kinds of meshes of [ClosestModel]. The element of an index is the vertices of its cell together with the
    basis, gradients, map and Jacobian of [ElementModel]; indices out of range, which panic, are excluded where elements are used. *)
From Coq Require Import Reals List.
From Verif Require Import CgModel EllipticModel GlobalModel ElementModel ClosestModel PointInterpModel.
Import ListNotations.
Local Open Scope R_scope.

Definition kind_fe (k : kind) (vs : list vec) : EllipticModel.element vec :=
  let el := kind_element k in
  EllipticModel.Element vec (length (el_ref el)) (el_dim el) (fun xi I => nth I (el_basis el xi) 0) (fun xi I j => nth j (nth I (el_grads el xi) []) 0) (el_map el vs) (el_jacobian el vs).
Definition mesh_fe (m : mesh) : fe_space vec :=
  FeSpace (length (m_cells m)) (length (m_vertices m)) (fun e => length (nth e (m_cells m) [])) (fun e _ => nth e (m_cells m) [])
    (fun e => kind_fe (m_kind m) (match mesh_element m e with Some vs => vs | None => [] end)).
(** [SpatiallyIndexed::from_space(mesh)] with [interpolate_at_points_into] and [interpolate_gradient_at_points_into], spatially_indexed.rs:333-366 *)
Definition mesh_interpolate (neighbors : list (AabbModel.aabb * nat) -> vec -> list (AabbModel.aabb * nat)) (epsilon : R) (usize_max : nat) (m : mesh) :=
  interpolate_at_points origin usize_max (mesh_fe m) (find_closest neighbors (mesh_space epsilon m)).
Definition mesh_interpolate_gradient (neighbors : list (AabbModel.aabb * nat) -> vec -> list (AabbModel.aabb * nat)) (epsilon : R) (usize_max : nat) (m : mesh) :=
  interpolate_gradient_at_points origin usize_max (mesh_fe m) (find_closest neighbors (mesh_space epsilon m)) (kind_dim (m_kind m)).

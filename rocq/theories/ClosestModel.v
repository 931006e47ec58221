(** Model of closest-point queries: [ClosestPointInElement] and [BoundsForElement] for [Tri3d2Element], [Tri3d3Element] (src/element/triangle.rs) and
    [Tet4Element] (src/element/tetrahedron.rs), the same queries for meshes (src/space/space_impl.rs), the boxes of elements (src/space/mod.rs) and
    [SpatiallyIndexed] (src/space/spatially_indexed.rs). Scalars are exact reals, so comparisons always succeed and conversions to f64 are the identity;
    [T::default_epsilon()] is the argument [epsilon]. [None] is a panic. *)
From Coq Require Import Reals List Bool Arith.
From Verif Require Import CgModel AabbModel GeomModel MeshModel MaterialModel ElementModel.
Import ListNotations.
Local Open Scope R_scope.

Definition origin : vec := fun _ => 0.
(** nalgebra's [distance_squared] and [norm_squared] of a difference *)
Definition distance_squared (D : nat) (p q : vec) : R := let d := fun i => p i - q i in dot D d d.

(** [Iterator::min_by] on the given key: the first of the smallest *)
Definition min_by {A} (key : A -> R) (l : list A) : option A :=
  match l with
  | [] => None
  | a :: l => Some (fold_left (fun x y => if Rlt_dec (key y) (key x) then y else x) l a)
  end.

(** src/element.rs:460-486 *)
Inductive closest := InElement (xi : vec) | ClosestPoint (xi : vec).
Definition closest_coords (r : closest) : vec := match r with InElement xi | ClosestPoint xi => xi end.

Section closest_points.
Variable epsilon : R.

(** * src/element/triangle.rs *)
(** 444-448 *)
Definition is_likely_in_tri_ref_interior (xi : vec) : bool :=
  let eps := 4 * epsilon in
  rleb (-1 - eps) (xi 0%nat) && rleb (-1 - eps) (xi 1%nat) && rleb (xi 0%nat + xi 1%nat) eps.

(** 484-508, 554-574: number of the edge, parameter of the closest point, squared distance *)
Definition closest_edge_of (D : nat) (a b c p : vec) : option (nat * R * R) :=
  let edges := [(a, b); (b, c); (c, a)] in
  min_by snd (map (fun '(idx, (x1, x2)) =>
    let t := dclosest_parametric D x1 x2 p in
    let point := dseg_at x1 x2 t in
    (idx, t, distance_squared D p point)) (List.combine (seq 0 3) edges)).
(** 510-514, 576-580: the vertices of the reference element are 58-60 *)
Definition edge_ref_coords (idx : nat) (t : R) : vec :=
  let vertices := map pt tri3_ref in
  dseg_at (nth ((idx + 0) mod 3) vertices origin) (nth ((idx + 1) mod 3) vertices origin) t.

Definition filter_opt (f : vec -> bool) (o : option vec) : option vec := match o with Some xi => if f xi then Some xi else None | None => None end.

(** 452-526 *)
Definition tri3d2_closest (a b c p : vec) : option closest :=
  let vs := [a; b; c] in
  let xi_interior := filter_opt is_likely_in_tri_ref_interior
    (option_map (fun a_inv => let p0 := el_map tri3 vs origin in mulv 2 a_inv (fun i => p i - p0 i)) (try_inverse 2 (el_jacobian tri3 vs origin))) in
  match closest_edge_of 2 a b c p with
  | None => None
  | Some (idx, t, dist2_edge) =>
      let on_edge := Some (ClosestPoint (edge_ref_coords idx t)) in
      match xi_interior with
      | Some xi_interior =>
          let x_interior := el_map tri3 vs xi_interior in
          let dist2_interior := distance_squared 2 p x_interior in
          if Rlt_dec dist2_interior dist2_edge then Some (InElement xi_interior) else on_edge
      | None => on_edge
      end
  end.

(** 535-596 *)
Definition tri3d3_closest (a b c p : vec) : option closest :=
  let vs := [a; b; c] in
  let A := el_jacobian tri3 vs origin in
  let p0 := el_map tri3 vs origin in
  let ATA := mmul 3 (transpose A) A in
  let xi_interior := filter_opt is_likely_in_tri_ref_interior
    (option_map (fun ATA_inv => mulv 2 ATA_inv (mulv 3 (transpose A) (fun i => p i - p0 i))) (try_inverse 2 ATA)) in
  match closest_edge_of 3 a b c p with
  | None => None
  | Some (idx, t, dist2_edge) =>
      let on_edge := Some (ClosestPoint (edge_ref_coords idx t)) in
      match xi_interior with
      | Some xi_interior =>
          let x_interior := el_map tri3 vs xi_interior in
          let dist2_interior := distance_squared 3 p x_interior in
          if Rlt_dec dist2_interior dist2_edge then Some (ClosestPoint xi_interior) else on_edge
      | None => on_edge
      end
  end.

(** * src/element/tetrahedron.rs *)
(** 571-575 *)
Definition is_likely_in_tet_ref_interior (xi : vec) : bool :=
  let eps := 4 * epsilon in
  rleb (-1 - eps) (xi 0%nat) && rleb (-1 - eps) (xi 1%nat) && rleb (-1 - eps) (xi 2%nat) && rleb (xi 0%nat + xi 1%nat + xi 2%nat) (-1 + eps).

(** [Tri3d3Connectivity::element] of a local face (connectivity.rs:525-543, triangle.rs:433-442): its three vertices *)
Definition face_vertices (vs : list vec) (face_idx : nat) : option (vec * vec * vec) :=
  match ck_face tet4_kind face_idx with
  | Some [i; j; k] =>
      match nth_error vs i, nth_error vs j, nth_error vs k with
      | Some a, Some b, Some c => Some (a, b, c)
      | _, _, _ => None
      end
  | _ => None
  end.

(** 633-648: number of the face, reference coordinates in the face, squared distance *)
Definition face_candidate (vs : list vec) (p : vec) (face_idx : nat) : option (nat * vec * R) :=
  match face_vertices vs face_idx with
  | None => None
  | Some (a, b, c) =>
      match tri3d3_closest a b c p with
      | None => None
      | Some r =>
          let xi_closest := closest_coords r in
          let x_closest := el_map tri3 [a; b; c] xi_closest in
          Some (face_idx, xi_closest, distance_squared 3 x_closest p)
      end
  end.
Fixpoint sequence {A} (l : list (option A)) : option (list A) :=
  match l with
  | [] => Some []
  | Some a :: l => option_map (cons a) (sequence l)
  | None :: _ => None
  end.

(** 618-670 *)
Definition tet4_closest (a b c d p : vec) : option closest :=
  let vs := [a; b; c; d] in
  let xi_interior := filter_opt is_likely_in_tet_ref_interior
    (option_map (fun a_inv => let p0 := el_map tet4 vs origin in mulv 3 a_inv (fun i => p i - p0 i)) (try_inverse 3 (el_jacobian tet4 vs origin))) in
  match sequence (map (face_candidate vs p) (seq 0 4)) with
  | None => None
  | Some candidates =>
      match min_by snd candidates with
      | None => None
      | Some (face_idx, xi_face, dist2_face) =>
          let on_face :=
            match face_vertices (map pt tet4_ref) face_idx with
            | None => None
            | Some (a, b, c) => Some (ClosestPoint (el_map tri3 [a; b; c] xi_face))
            end in
          match xi_interior with
          | Some xi_interior =>
              let x_interior := el_map tet4 vs xi_interior in
              let dist2_interior := distance_squared 3 p x_interior in
              if Rlt_dec dist2_interior dist2_face then Some (InElement xi_interior) else on_face
          | None => on_face
          end
      end
  end.

(** * Meshes *)
(** The three kinds of elements with closest points: geometry dimension, number of vertices, element type, closest point of the vertices of an element *)
Inductive kind := Tri3d2 | Tri3d3 | Tet4.
Definition kind_dim (k : kind) : nat := match k with Tri3d2 => 2 | Tri3d3 | Tet4 => 3 end.
Definition kind_element (k : kind) : element := match k with Tri3d2 | Tri3d3 => tri3 | Tet4 => tet4 end.
Definition kind_closest (k : kind) (vs : list vec) (p : vec) : option closest :=
  match k, vs with
  | Tri3d2, [a; b; c] => tri3d2_closest a b c p
  | Tri3d3, [a; b; c] => tri3d3_closest a b c p
  | Tet4, [a; b; c; d] => tet4_closest a b c d p
  | _, _ => None
  end.
(** triangle.rs:529-533, 599-603, tetrahedron.rs:610-614 *)
Definition element_bounds (k : kind) (vs : list vec) : option aabb := match from_points (kind_dim k) vs with Some (Some box) => Some box | _ => None end.

Record mesh := Mesh { m_kind : kind; m_vertices : list vec; m_cells : list (list nat) }.
(** [connectivity()[element_index].element(vertices).unwrap()]: the vertices of an element *)
Definition mesh_element (m : mesh) (e : nat) : option (list vec) :=
  match nth_error (m_cells m) e with Some cell => sequence (map (nth_error (m_vertices m)) cell) | None => None end.
(** space_impl.rs:155-171, 133-141, 173-185 *)
Definition mesh_closest (m : mesh) (e : nat) (p : vec) : option closest := match mesh_element m e with Some vs => kind_closest (m_kind m) vs p | None => None end.
Definition mesh_map (m : mesh) (e : nat) (xi : vec) : option vec := option_map (fun vs => el_map (kind_element (m_kind m)) vs xi) (mesh_element m e).
Definition mesh_bounds (m : mesh) (e : nat) : option aabb := match mesh_element m e with Some vs => element_bounds (m_kind m) vs | None => None end.
End closest_points.

(** * SpatiallyIndexed *)
(** what the search needs of a space: dimension, number of elements, bounds, closest point and geometry map of an element *)
Record search_space := SearchSpace {
  ss_dim : nat;
  ss_elements : nat;
  ss_bounds : nat -> option aabb;
  ss_closest : nat -> vec -> option closest;
  ss_map : nat -> vec -> option vec }.
Definition mesh_space (epsilon : R) (m : mesh) : search_space :=
  SearchSpace (kind_dim (m_kind m)) (length (m_cells m)) (mesh_bounds m) (mesh_closest epsilon m) (mesh_map m).

(** space/mod.rs:200-204 [bounds_for_all_elements] *)
Definition bounds_for_all_elements (sp : search_space) : option (list aabb) := sequence (map (ss_bounds sp) (seq 0 (ss_elements sp))).

(** the entries of the tree: an enlarged box and the number of the element *)
Notation entry := (aabb * nat)%type.
(** spatially_indexed.rs:90-115 [from_bounding_boxes]; [RTree::bulk_load] keeps the entries *)
Definition from_bounding_boxes (D : nat) (boxes : list aabb) : option (list entry) :=
  sequence (map (fun '(i, bounding_box) =>
    match uniformly_scale bounding_box (101 / 100) with
    | None => None
    | Some bounding_box => option_map (fun box => (box, i)) (aabb_new D (bmin bounding_box) (bmax bounding_box))
    end) (List.combine (seq 0 (length boxes)) boxes)).
(** spatially_indexed.rs:168-177 [from_space] *)
Definition from_space (sp : search_space) : option (list entry) :=
  match bounds_for_all_elements sp with Some boxes => from_bounding_boxes (ss_dim sp) boxes | None => None end.

Fixpoint take_while {A} (f : A -> bool) (l : list A) : list A :=
  match l with [] => [] | a :: l => if f a then a :: take_while f l else [] end.

Section search.
(** [RTree::nearest_neighbor_iter] with the distance 72-74: the entries in the order the iterator yields them *)
Variable nearest_neighbors : list entry -> vec -> list entry.

(** spatially_indexed.rs:117-137; without entries the bound is NaN and nothing is taken *)
Definition closest_cell_candidates (D : nat) (tree : list entry) (point : vec) : list nat :=
  match nearest_neighbors tree point with
  | [] => []
  | (aabb, i) :: rest =>
      let d2_max := max_dist2_to D aabb point in
      map snd (take_while (fun e => rleb (dist2_to D (fst e) point) d2_max) ((aabb, i) :: rest))
  end.

(** 308-330; the state is [min_dist2] and [closest_result] *)
Fixpoint closest_loop (sp : search_space) (point : vec) (candidates : list nat) (min_dist2 : option R) (closest_result : option (nat * vec)) : option (option (nat * vec)) :=
  match candidates with
  | [] => Some closest_result
  | candidate :: candidates =>
      match ss_closest sp candidate point with
      | None => None
      | Some (InElement ref_coords) => Some (Some (candidate, ref_coords))
      | Some (ClosestPoint ref_coords) =>
          match ss_map sp candidate ref_coords with
          | None => None
          | Some x =>
              let dist2 := distance_squared (ss_dim sp) x point in
              let is_min := match min_dist2 with Some d2 => rleb dist2 d2 | None => true end in
              if is_min then closest_loop sp point candidates (Some dist2) (Some (candidate, ref_coords))
              else closest_loop sp point candidates min_dist2 closest_result
          end
      end
  end.
(** 297-330 *)
Definition find_closest_element (sp : search_space) (tree : list entry) (point : vec) : option (option (nat * vec)) :=
  closest_loop sp point (closest_cell_candidates (ss_dim sp) tree point) None None.
(** [SpatiallyIndexed::from_space(space).find_closest_element_and_reference_coords(point)] *)
Definition find_closest (sp : search_space) (point : vec) : option (option (nat * vec)) :=
  match from_space sp with Some tree => find_closest_element sp tree point | None => None end.
End search.

(** Model of the geometric functions on polymeshes with real coordinates: clipping by half spaces, volumes and the sphere of
    src/mesh/procedural.rs. *)
From stdpp Require Import base list list_numbers.
From Coq Require Import Reals.
From Verif Require Import Prelude ReorderModel MeshModel ElementModel CgModel GeomModel SolidModel PolyModel ProcModel.
Local Open Scope nat_scope.

(** a half space is a point of its plane and the outward normal, primitives/half_space.rs:17-43 *)
Definition half_space := (vec * vec)%type.
Definition hs_in (h : half_space) (p : vec) : bool := hs_contains 3 h.2 h.1 p.
(** polymesh.rs:713-720: the point of the segment closest to the plane *)
Definition hs_cut (h : half_space) (a b : vec) : vec := dseg_at a b (closest_to_plane_parametric 3 h.2 h.1 a b).
(** polymesh.rs:576-744 [intersect_half_space], one after the other *)
Definition poly_clip (hs : list half_space) (m : polymesh vec) : option (polymesh vec) := clip_all hs_in hs_cut (fun _ => 0%R) hs m.
(** polymesh.rs:564-574 [intersect_convex_polyhedron]; the polyhedron is the list of its faces *)
Definition poly_clip_polyhedron (faces : list (list vec)) (m : polymesh vec) : option (polymesh vec) :=
  hs ← mapM (fun face => plane ← face_plane face; Some ((plane.1, fun i => - plane.2 i)%R : half_space)) faces;
  poly_clip hs m.
(** polymesh.rs:555-562 [compute_volume] *)
Definition poly_volume (m : polymesh vec) : option R :=
  boundary ← poly_boundary_faces m;
  faces ← mapM (fun f => face ← pm_faces m !! f; mapM (fun v => pm_vertices m !! v) face) boundary;
  polyhedron_volume faces.
(** polymesh.rs:541-545 [translate] *)
Definition poly_translate (t : vec) (m : polymesh vec) : polymesh vec :=
  PolyMesh (map (fun v i => (v i + t i)%R) (pm_vertices m)) (pm_faces m) (pm_cells m).

(** src/mesh/procedural.rs:405-435 [create_simple_stupid_sphere]; the normal is normalised once *)
Definition sphere_plane (radius : R) (num_sweeps i_theta j_phi : nat) : half_space :=
  let theta := (PI * INR i_theta / INR num_sweeps)%R in
  let phi := (2 * PI * INR j_phi / INR num_sweeps)%R in
  let x := pt [radius * sin theta * cos phi; radius * sin theta * sin phi; radius * cos theta]%R in
  (x, fun i => (- normalize3 x i)%R).
Definition stupid_sphere (center : vec) (radius : R) (num_sweeps : nat) : option (polymesh vec) :=
  if decide (num_sweeps = 0) then None
  else
    let cube := hex_mesh (2 * radius)%R 1 1 1 1 in
    let cube := Mesh (map (fun v i => (v i + pt [- radius; - radius; - radius] i)%R) (ms_vertices cube)) (ms_cells cube) in
    m ← mesh_to_poly hex8_kind cube;
    m ← poly_clip (for_range num_sweeps (fun i => for_range num_sweeps (fun j => [sphere_plane radius num_sweeps i j]))) m;
    Some (poly_translate center m).

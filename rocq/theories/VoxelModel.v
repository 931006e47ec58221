(** Model of the voxelization of src/mesh/procedural.rs and of the functions of src/mesh.rs it uses, over the exact reals. [None] is a panic.
    Counts of cells are unbounded. *)
From stdpp Require Import base list list_numbers.
From Coq Require Import Reals ZArith.
From Verif Require Import Prelude CgModel ReorderModel ElementModel ProcModel MeshModel GeomModel AabbModel SdfModel.

(** [f64::ceil] *)
Definition ceiling (x : R) : Z := (- Int_part (- x))%Z.

(** procedural.rs:96-139 [voxelize_bounding_box_2d]. The quotient of the extents and the number of cells is not a number if that number is 0, which is for
    extents 0 only; then [NotNan::new] fails. *)
Definition voxelize_box (bounds : aabb) (max_cell_size : R) : option (mesh point) :=
  if Rlt_dec 0 max_cell_size then
    let e := extents bounds in
    enlarged ← aabb_new 2 (fun i => bmin bounds i - e i * (1 / 100))%R (fun i => bmax bounds i + e i * (1 / 100))%R;
    let ee := extents enlarged in
    let candidate_x := ceiling (ee 0%nat / max_cell_size) in
    let candidate_y := ceiling (ee 1%nat / max_cell_size) in
    if decide (candidate_x = 0%Z \/ candidate_y = 0%Z) then None
    else
      let cell_size := Rmin (ee 0%nat / IZR candidate_x) (ee 1%nat / IZR candidate_y) in
      let num_x := ceiling (ee 0%nat / cell_size) in
      let num_y := ceiling (ee 1%nat / cell_size) in
      let final_x := (IZR num_x * cell_size)%R in
      let final_y := (IZR num_y * cell_size)%R in
      let c := center bounds in
      let top_left := pt [c 0%nat - final_x / 2; c 1%nat + final_y / 2]%R in
      Some (quad_mesh cell_size (Z.to_nat num_x) (Z.to_nat num_y) 1 top_left)
  else None.

(** mesh.rs:136-142 [cell_iter] *)
Definition cell_iter (m : mesh point) : option (list (list point)) := mapM (fun cell => mapM (fun v => ms_vertices m !! v) cell) (ms_cells m).
(** the filter of procedural.rs:147-152 and 184-195: numbers of the cells with a vertex where the function is not positive *)
Definition touching (s : sdf) (cells : list (list point)) : list nat :=
  omap (fun ic : nat * list point => if existsb (fun v => rleb (eval s v) 0) ic.2 then Some ic.1 else None) (imap pair cells).
Definition keep_touching (s : sdf) (m : mesh point) : option (mesh point) :=
  cells ← cell_iter m;
  keep_cells m (touching s cells).

(** procedural.rs:142-155 [voxelize_sdf_2d] *)
Definition voxelize_sdf (s : sdf) (max_cell_size : R) : option (mesh point) :=
  bounds ← sdf_bounds s;
  rectangular ← voxelize_box bounds max_cell_size;
  keep_touching s rectangular.

(** the closure of procedural.rs:164-171 and 199-206; a gradient which is not a number is treated as a panic *)
Definition pull_in (s : sdf) (vertex : point) : option point :=
  let phi := eval s vertex in
  if Rlt_dec 0 phi then
    match gradient s vertex with
    | Gradient grad => Some (fun i => vertex i - grad i * phi)%R
    | NoGradient | NotANumber => None
    end
  else Some vertex.
(** mesh.rs:255-262 [transform_vertices] *)
Definition transform_vertices (f : point -> option point) (m : mesh point) : option (mesh point) :=
  vertices ← mapM f (ms_vertices m); Some (Mesh vertices (ms_cells m)).
(** procedural.rs:158-174 *)
Definition approximate_quad_mesh (s : sdf) (max_cell_size : R) : option (mesh point) :=
  m ← voxelize_sdf s max_cell_size; transform_vertices (pull_in s) m.

(** mesh.rs:276-293 [split_into_triangles] *)
Definition split_into_triangles (m : mesh point) : option (mesh point) :=
  triangles ← mapM (fun c =>
      vs ← mapM (fun v => (ms_vertices m !! v : option point)) c;
      let quad : quad := fun i => match (vs !! i : option point) with Some p => (p 0%nat, p 1%nat) | None => (0, 0)%R end in
      let '((a, b, c'), (d, e, f)) := split_connectivities quad in
      t1 ← mapM (fun i => c !! i) [a; b; c']; t2 ← mapM (fun i => c !! i) [d; e; f];
      Some [t1; t2]) (ms_cells m);
  Some (Mesh (ms_vertices m) (concat triangles)).
(** procedural.rs:176-209 *)
Definition approximate_triangle_mesh (s : sdf) (max_cell_size : R) : option (mesh point) :=
  m ← voxelize_sdf s max_cell_size;
  t ← split_into_triangles m;
  kept ← keep_touching s t;
  transform_vertices (pull_in s) kept.

(** procedural.rs:15-44: the unit square and the unit box *)
Definition unit_square_quad_mesh (cells_per_dim : nat) : mesh point := quad_mesh 1 1 1 cells_per_dim (pt [0; 1]%R).
Definition unit_square_tri_mesh (cells_per_dim : nat) : option (mesh point) := split_into_triangles (quad_mesh 1 1 1 cells_per_dim (pt [0; 1]%R)).
Definition unit_box_hex_mesh (cells_per_dim : nat) : mesh point := hex_mesh 1 1 1 1 cells_per_dim.
Definition unit_box_tet_mesh (cells_per_dim : nat) : option (mesh point) := tet_mesh 1 1 1 1 cells_per_dim.

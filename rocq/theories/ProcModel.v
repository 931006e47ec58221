(** Model of the uniform meshes of src/mesh/procedural.rs over the exact reals; index arithmetic is unbounded. *)
From stdpp Require Import base list list_numbers.
From Coq Require Import Reals.
From Verif Require Import Prelude ReorderModel ElementModel.

(** [for a in 0..n { .. }] collecting the pushed items *)
Definition for_range {A} (n : nat) (f : nat -> list A) : list A := concat (map f (seq 0 n)).

(** procedural.rs:46-93 [create_rectangular_uniform_quad_mesh_2d]. *)
Definition quad_mesh (unit_length : R) (units_x units_y cells_per_unit : nat) (top_left : point) : mesh point :=
  if decide (cells_per_unit = 0 \/ units_x = 0 \/ units_y = 0) then Mesh [] []
  else
    let cell_size := (unit_length / INR cells_per_unit)%R in
    let num_cells_x := units_x * cells_per_unit in
    let num_cells_y := units_y * cells_per_unit in
    let num_vertices_x := num_cells_x + 1 in
    let num_vertices_y := num_cells_y + 1 in
    let idx i j := (num_cells_x + 1) * j + i in
    let vertices := for_range num_vertices_y (fun j => for_range num_vertices_x (fun i =>
      [pt [top_left 0%nat + INR i * cell_size; top_left 1%nat + - INR j * cell_size]%R])) in
    let cells := for_range num_cells_y (fun j => for_range num_cells_x (fun i =>
      [[idx i (j + 1); idx (i + 1) (j + 1); idx (i + 1) j; idx i j]])) in
    Mesh vertices cells.

(** procedural.rs:216-277 [create_rectangular_uniform_hex_mesh]. *)
Definition hex_mesh (unit_length : R) (units_x units_y units_z cells_per_unit : nat) : mesh point :=
  if decide (cells_per_unit = 0 \/ units_x = 0 \/ units_y = 0) then Mesh [] []
  else
    let cell_size := (unit_length / INR cells_per_unit)%R in
    let num_cells_x := units_x * cells_per_unit in
    let num_cells_y := units_y * cells_per_unit in
    let num_cells_z := units_z * cells_per_unit in
    let num_vertices_x := num_cells_x + 1 in
    let num_vertices_y := num_cells_y + 1 in
    let num_vertices_z := num_cells_z + 1 in
    let idx i j k := (num_vertices_x * num_vertices_y) * k + num_vertices_x * j + i in
    let vertices := for_range num_vertices_z (fun k => for_range num_vertices_y (fun j => for_range num_vertices_x (fun i =>
      [pt [INR i * cell_size; INR j * cell_size; INR k * cell_size]%R]))) in
    let cells := for_range num_cells_z (fun k => for_range num_cells_y (fun j => for_range num_cells_x (fun i =>
      [[idx i j k; idx (i + 1) j k; idx (i + 1) (j + 1) k; idx i (j + 1) k;
        idx i j (k + 1); idx (i + 1) j (k + 1); idx (i + 1) (j + 1) (k + 1); idx i (j + 1) (k + 1)]]))) in
    Mesh vertices cells.

(** procedural.rs:286-403 [create_rectangular_uniform_tet_mesh]; integer vectors are lists [i; j; k]. [None] is a panic. *)
Definition vec_add (u v : list nat) : list nat := zip_with Nat.add u v.
Definition vec_at (u : list nat) (axis : nat) : nat := default 0 (u !! axis).

(** 323-327 [positive_face_deltas_for_each_axis] *)
Definition face_deltas (axis : nat) : list (list nat) :=
  match axis with
  | 0 => [[1; 0; 1]; [1; 1; 1]; [1; 1; 0]; [1; 0; 0]]
  | 1 => [[0; 1; 0]; [1; 1; 0]; [1; 1; 1]; [0; 1; 1]]
  | _ => [[0; 1; 1]; [1; 1; 1]; [1; 0; 1]; [0; 0; 1]]
  end.

Section Tet.
  Context (cx cy cz : nat).   (* cell counts; vertex counts are one larger *)
  Definition vertex_idx (v : list nat) : nat :=
    ((cx + 1) * (cy + 1)) * vec_at v 2 + (cx + 1) * vec_at v 1 + vec_at v 0.
  Definition centre_idx (offset : nat) (v : list nat) : nat := (cx * cy) * vec_at v 2 + cx * vec_at v 1 + vec_at v 0 + offset.

  (** 329-350 [connect_centers_with_tets] *)
  Definition connect_centers (offset : nat) (cell : list nat) (axis : nat) : list (list nat) :=
    let cell_delta := map (fun idx => if decide (idx = axis) then 1 else 0) (seq 0 3) in
    let shared := map (fun delta => vertex_idx (vec_add cell delta)) (face_deltas axis) in
    let c1 := centre_idx offset cell in
    let c2 := centre_idx offset (vec_add cell cell_delta) in
    (* cycle().take(5).tuple_windows() *)
    map (fun v : nat * nat => [c1; c2; v.2; v.1]) (zip shared (tail shared ++ take 1 shared)).

  (** 352-380 [make_pyramid] *)
  Definition make_pyramid (offset : nat) (cell : list nat) (axis : nat) (positive_dir : bool) : option (list (list nat)) :=
    let positive := map (fun delta => vec_add delta cell) (face_deltas axis) in
    face ← (if positive_dir then Some positive
            else mapM (fun v => if decide (1 ≤ vec_at v axis) then Some (<[axis := vec_at v axis - 1]> v) else None) (reverse positive));
    match map vertex_idx face with
    | [a; b; c; d] =>
        let center := centre_idx offset cell in
        if decide ((vec_at cell 0 + vec_at cell 1 + vec_at cell 2) mod 2 = 0)
        then Some [[a; b; c; center]; [a; c; d; center]]
        else Some [[a; b; d; center]; [b; c; d; center]]
    | _ => None
    end.

  (** 382-399: the tetrahedra made for one cell and one axis *)
  Definition axis_tets (offset : nat) (cell : list nat) (axis : nat) : option (list (list nat)) :=
    let num_cells := [cx; cy; cz] in
    let inner := if decide (vec_at cell axis + 1 < vec_at num_cells axis) then connect_centers offset cell axis else [] in
    low ← (if decide (vec_at cell axis = 0) then make_pyramid offset cell axis false else Some []);
    high ← (if decide (vec_at cell axis + 1 = vec_at num_cells axis) then make_pyramid offset cell axis true else Some []);
    Some (inner ++ low ++ high).
End Tet.

Definition tet_mesh (unit_length : R) (units_x units_y units_z cells_per_unit : nat) : option (mesh point) :=
  if decide (units_x = 0 \/ units_y = 0 \/ units_z = 0 \/ cells_per_unit = 0) then Some (Mesh [] [])
  else
    let cell_size := (unit_length / INR cells_per_unit)%R in
    let cx := units_x * cells_per_unit in let cy := units_y * cells_per_unit in let cz := units_z * cells_per_unit in
    let corners := for_range (cz + 1) (fun k => for_range (cy + 1) (fun j => for_range (cx + 1) (fun i =>
      [pt [cell_size * INR i; cell_size * INR j; cell_size * INR k]%R]))) in
    let offset := length corners in
    let centres := for_range cz (fun k => for_range cy (fun j => for_range cx (fun i =>
      [pt [cell_size * (1 / 2 + INR i); cell_size * (1 / 2 + INR j); cell_size * (1 / 2 + INR k)]%R]))) in
    let cells := for_range cz (fun k => for_range cy (fun j => for_range cx (fun i => [[i; j; k]]))) in
    tets ← mapM (fun cell => mapM (axis_tets cx cy cz offset cell) (seq 0 3)) cells;
    Some (Mesh (corners ++ centres) (concat (concat tets))).

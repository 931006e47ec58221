(** Model of reading Gmsh files (src/io/msh.rs) and of building VTK data sets (src/io/vtk.rs).
    Parsing the bytes of a Gmsh file (crate mshio) and writing the bytes of a VTK file (crate vtkio) are not modelled: the input of the first and the
    output of the second are the values these crates exchange with the code. Indices are [N]; usize has 64 bits. *)
From Coq Require Import NArith ZArith List String Ascii.
Import ListNotations.
Local Open Scope N_scope.

(** A computation ends with a value, an error returned to the caller, or a panic. *)
Inductive outcome (A : Type) := Ok (a : A) | Err | Panic.
Arguments Ok {A} a. Arguments Err {A}. Arguments Panic {A}.
Definition bind {A B} (x : outcome A) (f : A -> outcome B) : outcome B := match x with Ok a => f a | Err => Err | Panic => Panic end.
(** a loop that pushes one result per item and stops at the first failure *)
Fixpoint for_each {A B} (f : A -> outcome B) (l : list A) : outcome (list B) :=
  match l with [] => Ok [] | a :: l => bind (f a) (fun b => bind (for_each f l) (fun bs => Ok (b :: bs))) end.

(** The connectivity types with an implementation of [MshConnectivity] or [VtkCellConnectivity]; src/connectivity.rs gives the lengths of their arrays. *)
Inductive conn := Segment2d2 | Segment2d3 | Tri3d2 | Tri3d3 | Tri6d2 | Quad4d2 | Quad9d2 | Tet4 | Tet10 | Tet20 | Hex8 | Hex20 | Hex27.
Definition conn_len (c : conn) : nat :=
  match c with
  | Segment2d2 | Segment2d3 => 2 | Tri3d2 | Tri3d3 => 3 | Tri6d2 => 6 | Quad4d2 => 4 | Quad9d2 => 9
  | Tet4 => 4 | Tet10 => 10 | Tet20 => 20 | Hex8 => 8 | Hex20 => 20 | Hex27 => 27
  end%nat.

(** * src/io/msh.rs *)

(** mshio's element types: the ones requested here, and the number of any other. *)
Inductive msh_type := MTri3 | MTri6 | MQua4 | MQua9 | MTet4 | MTet10 | MHex8 | MHex27 | MOther (code : N).
Definition msh_type_eqb (a b : msh_type) : bool :=
  match a, b with
  | MTri3, MTri3 | MTri6, MTri6 | MQua4, MQua4 | MQua9, MQua9 | MTet4, MTet4 | MTet10, MTet10 | MHex8, MHex8 | MHex27, MHex27 => true
  | MOther x, MOther y => x =? y
  | _, _ => false
  end.
(** [ElementType::nodes] of mshio; an error for types it does not know *)
Definition msh_type_nodes (t : msh_type) : option nat :=
  match t with
  | MTri3 => Some 3 | MTri6 => Some 6 | MQua4 => Some 4 | MQua9 => Some 9 | MTet4 => Some 4 | MTet10 => Some 10 | MHex8 => Some 8 | MHex27 => Some 27
  | MOther _ => None
  end%nat.
(** the instances at 275-283: the Gmsh type, the [ReferenceDim] of the element (src/element/*.rs) and the number of nodes; [None] for types without instance *)
Definition msh_connectivity (c : conn) : option (msh_type * N * nat) :=
  match c with
  | Tri3d2 => Some (MTri3, 2, 3%nat) | Tri3d3 => Some (MTri3, 2, 3%nat) | Tri6d2 => Some (MTri6, 2, 6%nat)
  | Quad4d2 => Some (MQua4, 2, 4%nat) | Quad9d2 => Some (MQua9, 2, 9%nat)
  | Tet4 => Some (MTet4, 3, 4%nat) | Tet10 => Some (MTet10, 3, 10%nat)
  | Hex8 => Some (MHex8, 3, 8%nat) | Hex27 => Some (MHex27, 3, 27%nat)
  | Segment2d2 | Segment2d3 | Tet20 | Hex20 => None
  end.

Section Msh.
Context {F T : Type}.   (* coordinates in the file and in the mesh *)
Variable convert : F -> option T.   (* the macro [f_to_t], 204-212 *)
Variable zero : T.
Variable overflow_checks : bool.   (* whether the build checks arithmetic for overflow *)

Record msh_node := MshNode { mn_x : F; mn_y : F; mn_z : F }.
(** [node_tags] and [element_tags] are maps from tags to positions, only present if the tags are sparse *)
Record node_block := NodeBlock { nb_dim : Z; nb_tags : option (list (N * N)); nb_nodes : list msh_node }.
Record element_block := ElementBlock { eb_dim : Z; eb_type : msh_type; eb_tags : option (list (N * N)); eb_elements : list (list N) }.
Record msh_nodes := MshNodes { ms_num_nodes : N; ms_min_tag : N; ms_max_tag : N; ms_blocks : list node_block }.
Record msh_file := MshFile { mf_nodes : option msh_nodes; mf_elements : option (list element_block) }.
Record mesh := Mesh { me_vertices : list (list T); me_cells : list (list N) }.

Definition or_err {A} (x : option A) : outcome A := match x with Some a => Ok a | None => Err end.
(** 214-232 [point_from_msh_node]; [d] is the dimension of the points *)
Definition point_from_msh_node (d : nat) (n : msh_node) : outcome (list T) :=
  if Nat.eqb d 0 then Panic else
  bind (or_err (convert (mn_x n))) (fun x =>
  bind (if Nat.ltb 1 d then or_err (convert (mn_y n)) else Ok zero) (fun y =>
  bind (if Nat.ltb 2 d then or_err (convert (mn_z n)) else Ok zero) (fun z =>
  Ok (firstn d ([x; y; z] ++ repeat zero (d - 3)))))).
(** 109-154 [vertices_from_node_block] *)
Definition vertices_from_node_block (d : nat) (b : node_block) : outcome (list (list T)) :=
  match nb_tags b with Some _ => Err | None => for_each (point_from_msh_node d) (nb_nodes b) end.
(** 190-201 [element_block_matches_connectivity] *)
Definition block_matches (t : msh_type) (dim : N) (b : element_block) : outcome bool :=
  if msh_type_eqb (eb_type b) t then if (eb_dim b <? 0)%Z then Panic else Ok (Z.to_N (eb_dim b) =? dim) else Ok false.
(** 259-270 [try_connectivity_from_msh_element]: every tag minus one *)
Definition tag_to_index (tag : N) : outcome N :=
  if tag =? 0 then if overflow_checks then Panic else Ok (2 ^ 64 - 1) else Ok (tag - 1).
Definition connectivity_from_element (n : nat) (e : list N) : outcome (list N) :=
  if Nat.eqb (List.length e) n then for_each (fun i => tag_to_index (nth i e 0)) (seq 0 n) else Panic.
(** 157-187 [connectivity_from_element_block] *)
Definition connectivity_from_block (t : msh_type) (dim : N) (n : nat) (b : element_block) : outcome (list (list N)) :=
  match eb_tags b with
  | Some _ => Err
  | None =>
    bind (block_matches t dim b) (fun m =>
    if m then
      match msh_type_nodes t with
      | None => Err
      | Some requested =>
        for_each (fun e => if Nat.ltb (List.length e) requested then Err else connectivity_from_element n e) (eb_elements b)
      end
    else Ok [])
  end.
(** the loop of [any], 66-70 *)
Fixpoint any_block (t : msh_type) (dim : N) (bs : list element_block) : outcome bool :=
  match bs with [] => Ok false | b :: bs => bind (block_matches t dim b) (fun m => if m then Ok true else any_block t dim bs) end.
(** 44-106 [load_msh_from_bytes], after parsing *)
Definition load_msh (d : nat) (inst : msh_type * N * nat) (f : msh_file) : outcome mesh :=
  let '(t, dim, n) := inst in
  bind (or_err (mf_nodes f)) (fun nodes =>
  bind (or_err (mf_elements f)) (fun elements =>
  bind (any_block t dim elements) (fun found =>
  if negb found then Err else
  bind (for_each (vertices_from_node_block d) (ms_blocks nodes)) (fun vss =>
  let vertices := List.concat vss in
  if negb (N.of_nat (List.length vertices) =? ms_num_nodes nodes) then Err else
  bind (for_each (connectivity_from_block t dim n) elements) (fun css =>
  Ok (Mesh vertices (List.concat css))))))).
End Msh.
Arguments msh_node F : clear implicits. Arguments node_block F : clear implicits. Arguments msh_nodes F : clear implicits.
Arguments msh_file F : clear implicits. Arguments mesh T : clear implicits.

(** * src/io/vtk.rs *)

Inductive cell_type := Line | Triangle | QuadraticTriangle | Quad | QuadraticQuad | Tetra | QuadraticTetra | Hexahedron | QuadraticHexahedron.
(** 42-184, the methods [cell_type] *)
Definition vtk_cell_type (c : conn) : cell_type :=
  match c with
  | Segment2d2 | Segment2d3 => Line | Tri3d2 => Triangle | Tri6d2 => QuadraticTriangle | Quad4d2 => Quad | Quad9d2 => QuadraticQuad
  | Tet4 => Tetra | Hex8 => Hexahedron | Tri3d3 => Triangle | Tet10 => QuadraticTetra | Tet20 => Tetra
  | Hex20 => QuadraticHexahedron | Hex27 => QuadraticHexahedron
  end.
(** the methods [num_nodes]: 27-29 by default, 111-113, 156-158 *)
Definition vtk_num_nodes (c : conn) : nat := match c with Tet20 => 4 | Hex27 => 20 | _ => conn_len c end%nat.
(** [slice.swap(i, j)] *)
Definition swap (i j : nat) (l : list N) : list N :=
  map (fun k => nth (if Nat.eqb k i then j else if Nat.eqb k j then i else k) l 0) (seq 0 (List.length l)).
(** 134-152 and 165-183: the assignments of entries 8 to 19 *)
Definition hex_edge_order : list nat := [8; 11; 13; 9; 16; 18; 19; 17; 10; 12; 14; 15]%nat.
(** the methods [write_vtk_connectivity]: 34-39 by default, 101-108, 120-126, 134-152, 165-183; [l] is the array of the connectivity, [buffer] its destination *)
Definition write_vtk_connectivity (c : conn) (l buffer : list N) : outcome (list N) :=
  match c with
  | Tet10 => if Nat.eqb (List.length buffer) (List.length l) then Ok (swap 8 9 l) else Panic
  | Tet20 => if Nat.eqb (List.length buffer) 4 then Ok (firstn 4 l) else Panic
  | Hex20 | Hex27 => if Nat.eqb (List.length buffer) (vtk_num_nodes c) then Ok (firstn 8 l ++ map (fun k => nth k l 0) hex_edge_order) else Panic
  | _ => if Nat.eqb (List.length buffer) (List.length l) then Ok l else Panic
  end.

(** data arrays: name, the number of components of a scalar array or [None] for vectors, and the data *)
Record data_array (S : Type) := DataArray { da_name : string; da_comps : option N; da_data : list S }.
Arguments DataArray {S} da_name da_comps da_data. Arguments da_name {S}. Arguments da_comps {S}. Arguments da_data {S}.
Definition fits_u32 (n : N) : bool := n <? 2 ^ 32.

Section Vtk.
Context {T : Type}.   (* all data have the type of the coordinates, T; attribute types are free in the code *)
Variable zero : T.

Record builder := Builder { bu_vertices : list (list T); bu_cells : list (list N); bu_points : list (data_array T); bu_cell_data : list (data_array T); bu_title : option string }.
(** 331-337 [from_mesh], 346-352 [with_title] *)
Definition from_mesh (vs : list (list T)) (cs : list (list N)) : builder := Builder vs cs [] [] None.
Definition with_title (b : builder) (t : string) : builder := Builder (bu_vertices b) (bu_cells b) (bu_points b) (bu_cell_data b) (Some t).
(** 365-403 [with_point_vector_attributes] *)
Definition with_point_vector_attributes (b : builder) (name : string) (k : nat) (a : list T) : outcome builder :=
  let n := List.length (bu_vertices b) in
  if negb (Nat.eqb (List.length a) (k * n)) then Panic else
  if negb (Nat.leb k 3) then Panic else
  let data := flat_map (fun i => map (fun j => nth (k * i + j) a zero) (seq 0 k) ++ repeat zero (3 - k)) (seq 0 n) in
  Ok (Builder (bu_vertices b) (bu_cells b) (bu_points b ++ [DataArray name None data]) (bu_cell_data b) (bu_title b)).
(** 410-435 [with_point_scalar_attributes], 442-467 [with_cell_scalar_attributes] *)
Definition with_point_scalar_attributes (b : builder) (name : string) (k : N) (a : list T) : outcome builder :=
  if negb (N.of_nat (List.length a) =? k * N.of_nat (List.length (bu_vertices b))) then Panic else
  if negb (fits_u32 k) then Panic else
  Ok (Builder (bu_vertices b) (bu_cells b) (bu_points b ++ [DataArray name (Some k) a]) (bu_cell_data b) (bu_title b)).
Definition with_cell_scalar_attributes (b : builder) (name : string) (k : N) (a : list T) : outcome builder :=
  if negb (N.of_nat (List.length a) =? k * N.of_nat (List.length (bu_cells b))) then Panic else
  if negb (fits_u32 k) then Panic else
  Ok (Builder (bu_vertices b) (bu_cells b) (bu_points b) (bu_cell_data b ++ [DataArray name (Some k) a]) (bu_title b)).

Record piece := Piece { pc_points : list T; pc_num_cells : N; pc_vertices : list N; pc_types : list cell_type; pc_point_data : list (data_array T); pc_cell_data : list (data_array T) }.
Definition try_u32 (n : N) : outcome N := if fits_u32 n then Ok n else Err.
(** 493-507, one round of the loop over the cells *)
Definition build_cell (c : conn) (l : list N) : outcome (list N * cell_type) :=
  bind (try_u32 (N.of_nat (vtk_num_nodes c))) (fun n =>
  bind (write_vtk_connectivity c l (repeat 0 (vtk_num_nodes c))) (fun buffer =>
  bind (for_each try_u32 buffer) (fun idx => Ok (n :: idx, vtk_cell_type c)))).
(** 470-526 [try_build] for vertices with [d] coordinates *)
Definition try_build (d : nat) (c : conn) (b : builder) : outcome piece :=
  if negb (Nat.leb d 3) then Panic else
  let points := flat_map (fun v => v ++ repeat zero (3 - List.length v)) (bu_vertices b) in
  bind (for_each (build_cell c) (bu_cells b)) (fun cells =>
  Ok (Piece points (N.of_nat (List.length (bu_cells b)) mod 2 ^ 32) (List.concat (map fst cells)) (map snd cells) (bu_points b) (bu_cell_data b))).
End Vtk.
Arguments builder T : clear implicits. Arguments piece T : clear implicits.

(** 529-564 [try_export]: title and version of the file, from the stem and the extension of its name *)
Definition ascii_lower (a : ascii) : ascii := let n := N_of_ascii a in if andb (65 <=? n) (n <=? 90) then ascii_of_N (n + 32) else a.
Fixpoint lower (s : string) : string := match s with EmptyString => EmptyString | String a s => String (ascii_lower a) (lower s) end.
Definition export_title (title stem : option string) : string :=
  match title with Some t => t | None => match stem with Some s => s | None => "untitled"%string end end.
Definition export_version (extension : option string) : N * N :=
  match extension with Some e => if String.eqb (lower e) "vtu" then (1, 0) else (4, 1) | None => (4, 1) end.

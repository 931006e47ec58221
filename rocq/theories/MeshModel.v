(** Model of src/mesh.rs (boundary detection, restriction to cells, surface extraction) and of the face tables in
    src/connectivity.rs. *)
From stdpp Require Import base list list_numbers sorting.
From Verif Require Import Prelude ReorderModel.

(** A connectivity type: number of nodes, [num_faces] and the local node indices in [get_face_connectivity]
    (connectivity.rs:12-19 [Connectivity]). A cell of the type is the list of its node indices. *)
Record conn_kind := ConnKind { ck_size : nat; ck_num_faces : nat; ck_face : nat -> option (list nat) }.

(** connectivity.rs:107-116, 132-141, 385-394, 977-987, 1017-1026, 1042-1051: segments and Tet20 have no faces. *)
Definition faceless_kind (n : nat) : conn_kind := ConnKind n 0 (fun _ => None).

(** connectivity.rs:198-212 Quad4d2. *)
Definition quad4d2_kind : conn_kind :=
  ConnKind 4 4 (fun i => if decide (i < 4) then Some [i; (i + 1) mod 4] else None).

(** connectivity.rs:245-259 Tri3d2. *)
Definition tri3d2_kind : conn_kind :=
  ConnKind 3 3 (fun i => if decide (i < 3) then Some [i; (i + 1) mod 3] else None).

(** connectivity.rs:333-351 Tri6d2, 862-880 Tri6d3. *)
Definition tri6_kind : conn_kind :=
  ConnKind 6 3 (fun i => if decide (i < 3) then Some [i; i + 3; (i + 1) mod 3] else None).

(** connectivity.rs:408-423 Quad9d2, 489-509 Quad9d3. *)
Definition quad9_kind : conn_kind :=
  ConnKind 9 4 (fun i => match i with
    | 0 => Some [0; 4; 1] | 1 => Some [1; 5; 2] | 2 => Some [2; 6; 3] | 3 => Some [3; 7; 0] | _ => None end).

(** connectivity.rs:453-473 Quad8d3. *)
Definition quad8_kind : conn_kind :=
  ConnKind 8 4 (fun i => match i with
    | 0 => Some [0; 4; 1] | 1 => Some [1; 5; 2] | 2 => Some [2; 6; 3] | 3 => Some [3; 7; 0] | _ => None end).

(** connectivity.rs:525-543 Tet4. *)
Definition tet4_kind : conn_kind :=
  ConnKind 4 4 (fun i => match i with
    | 0 => Some [0; 2; 1] | 1 => Some [0; 1; 3] | 2 => Some [1; 2; 3] | 3 => Some [0; 3; 2] | _ => None end).

(** connectivity.rs:574-593 Quad4d3. *)
Definition quad4d3_kind : conn_kind :=
  ConnKind 4 4 (fun i => match i with
    | 0 => Some [0; 1] | 1 => Some [1; 2] | 2 => Some [2; 3] | 3 => Some [3; 0] | _ => None end).

(** connectivity.rs:609-634 Hex8. *)
Definition hex8_kind : conn_kind :=
  ConnKind 8 6 (fun i => match i with
    | 0 => Some [3; 2; 1; 0] | 1 => Some [0; 1; 5; 4] | 2 => Some [1; 2; 6; 5]
    | 3 => Some [2; 3; 7; 6] | 4 => Some [4; 7; 3; 0] | 5 => Some [5; 6; 7; 4] | _ => None end).

(** connectivity.rs:669-696 Hex27. *)
Definition hex27_kind : conn_kind :=
  ConnKind 27 6 (fun i => match i with
    | 0 => Some [0; 3; 2; 1; 9; 13; 11; 8; 20]
    | 1 => Some [0; 1; 5; 4; 8; 12; 16; 10; 21]
    | 2 => Some [1; 2; 6; 5; 11; 14; 18; 12; 23]
    | 3 => Some [2; 3; 7; 6; 13; 15; 19; 14; 24]
    | 4 => Some [0; 4; 7; 3; 10; 17; 15; 9; 22]
    | 5 => Some [4; 5; 6; 7; 16; 18; 19; 17; 25]
    | _ => None end).

(** connectivity.rs:732-762 Hex20. *)
Definition hex20_kind : conn_kind :=
  ConnKind 20 6 (fun i => match i with
    | 0 => Some [0; 3; 2; 1; 9; 13; 11; 8]
    | 1 => Some [0; 1; 5; 4; 8; 12; 16; 10]
    | 2 => Some [1; 2; 6; 5; 11; 14; 18; 12]
    | 3 => Some [2; 3; 7; 6; 13; 15; 19; 14]
    | 4 => Some [0; 4; 7; 3; 10; 17; 15; 9]
    | 5 => Some [4; 5; 6; 7; 16; 18; 19; 17]
    | _ => None end).

(** connectivity.rs:794-809 Tri3d3. *)
Definition tri3d3_kind : conn_kind :=
  ConnKind 3 3 (fun i => match i with 0 => Some [0; 1] | 1 => Some [1; 2] | 2 => Some [2; 0] | _ => None end).

(** connectivity.rs:921-937 Tet10. *)
Definition tet10_kind : conn_kind :=
  ConnKind 10 4 (fun i => match i with
    | 0 => Some [0; 2; 1; 6; 5; 4] | 1 => Some [0; 1; 3; 4; 9; 7]
    | 2 => Some [1; 2; 3; 5; 8; 9] | 3 => Some [0; 3; 2; 7; 8; 6] | _ => None end).

Definition all_kinds : list conn_kind :=
  [faceless_kind 2; faceless_kind 3; faceless_kind 20; quad4d2_kind; tri3d2_kind; tri6_kind; quad9_kind; quad8_kind; tet4_kind; quad4d3_kind;
   hex8_kind; hex27_kind; hex20_kind; tri3d3_kind; tet10_kind].

(** [get_face_connectivity] of a cell; [None] if there is no such face. *)
Definition face_of (k : conn_kind) (cell : list nat) (i : nat) : option (list nat) :=
  t ← ck_face k i; mapM (fun j => cell !! j) t.

(** ** Boundary *)

(** [sort_unstable] on indices (equal elements are indistinguishable). *)
Definition sort_nat (l : list nat) : list nat := merge_sort (≤) l.

(** [Vec::dedup]. *)
Fixpoint dedup (l : list nat) : list nat :=
  match l with
  | [] => []
  | x :: l' => match l' with
               | [] => [x]
               | y :: _ => if decide (x = y) then dedup l' else x :: dedup l'
               end
  end.

(** [Ord] for slices: lexicographic. *)
Fixpoint lex_cmp (a b : list nat) : comparison :=
  match a, b with
  | [], [] => Eq
  | [], _ => Lt
  | _, [] => Gt
  | x :: a, y :: b => match Nat.compare x y with Eq => lex_cmp a b | c => c end
  end.

(** mesh.rs:189-193: [entry(key).and_modify(count += 1).or_insert((i, 1))] on a [BTreeMap], as a sorted association
    list. *)
Fixpoint bt_count (key : list nat) (i : nat) (m : list (list nat * (nat * nat))) : list (list nat * (nat * nat)) :=
  match m with
  | [] => [(key, (i, 1))]
  | (k, (j, n)) :: rest =>
      match lex_cmp key k with
      | Lt => (key, (i, 1)) :: m
      | Eq => (k, (j, n + 1)) :: rest
      | Gt => (k, (j, n)) :: bt_count key i rest
      end
  end.

(** mesh.rs:173-182: faces of one cell with cell and local index; [None] is the panic of [unwrap]. *)
Definition cell_faces (k : conn_kind) (ic : nat * list nat) : option (list (list nat * nat * nat)) :=
  mapM (fun l => f ← face_of k ic.2 l; Some (f, ic.1, l)) (seq 0 (ck_num_faces k)).

(** mesh.rs:167-203 [find_boundary_faces]. [sorted_slices] (a [NestedVec]) is the list of sorted faces. *)
Definition find_boundary_faces (k : conn_kind) (cells : list (list nat)) : option (list (list nat * nat * nat)) :=
  per_cell ← mapM (cell_faces k) (imap pair cells);
  let infos := concat per_cell in
  let sorted_slices := map (fun info => sort_nat info.1.1) infos in
  let counts := foldl (fun m ik => bt_count ik.2 ik.1 m) [] (imap pair sorted_slices) in
  mapM (fun e => infos !! e.2.1) (filter (fun e => e.2.2 = 1) counts).

(** mesh.rs:154-163 [find_boundary_cells]. *)
Definition find_boundary_cells (k : conn_kind) (cells : list (list nat)) : option (list nat) :=
  fs ← find_boundary_faces k cells; Some (dedup (sort_nat (map (fun f => f.1.2) fs))).

(** mesh.rs:208-216 [find_boundary_vertices]. *)
Definition find_boundary_vertices (k : conn_kind) (cells : list (list nat)) : option (list nat) :=
  fs ← find_boundary_faces k cells; Some (dedup (sort_nat (concat (map (fun f => f.1.1) fs)))).

(** ** Restriction to cells *)

(** mesh.rs:309-320: the table of vertices to keep; out-of-range indices panic. *)
Definition keep_table {V} (m : mesh V) (cell_indices : list nat) : option (list bool) :=
  foldl (fun ot ci =>
      table ← ot; cell ← ms_cells m !! ci;
      foldl (fun ot v => table ← ot; if decide (v < length table) then Some (<[v := true]> table) else None) (Some table) cell)
    (Some (replicate (length (ms_vertices m)) false)) cell_indices.

(** mesh.rs:322-332: the hash map from old to new labels, as an association list (keys are distinct). *)
Definition label_map (table : list bool) : list (nat * nat) :=
  (foldl (fun (st : list (nat * nat) * nat) (ib : nat * bool) =>
     if ib.2 then (st.1 ++ [(ib.1, st.2)], st.2 + 1) else st) ([], 0) (imap pair table)).1.

Definition map_get (m : list (nat * nat)) (k : nat) : option nat :=
  e ← list_find (fun e : nat * nat => e.1 = k) m; Some e.2.2.

(** mesh.rs:305-354 [keep_cells]; [None] is a panic. *)
Definition keep_cells {V} (m : mesh V) (cell_indices : list nat) : option (mesh V) :=
  table ← keep_table m cell_indices;
  let labels := label_map table in
  cells ← mapM (fun i => cell ← ms_cells m !! i; mapM (map_get labels) cell) cell_indices;
  vertices ← mapM (fun i => ms_vertices m !! i) (omap (fun ib : nat * bool => if ib.2 then Some ib.1 else None) (imap pair table));
  Some (Mesh vertices cells).

(** mesh.rs:505-516 [extract_surface_mesh]. *)
Definition extract_surface_mesh {V} (k : conn_kind) (m : mesh V) : option (mesh V) :=
  fs ← find_boundary_faces k (ms_cells m);
  let new_mesh := Mesh (ms_vertices m) (map (fun f => f.1.1) fs) in
  keep_cells new_mesh (seq 0 (length (ms_cells new_mesh))).

(** Model of the conversions Tet4 -> Tet20 and Tet10 -> Tet4 of src/mesh_convert.rs. Coordinates are exact reals; [None] is a panic. *)
From stdpp Require Import base list list_numbers.
From Coq Require Import Reals.
From Verif Require Import Prelude ReorderModel MeshModel ElementModel.

(** mesh_convert.rs:661-680: a node of the new mesh as an array of four integers, the last one telling its kind
    ([VERTEX] 0, [EDGE] 1, [FACE] 2). The arrays are lists here. *)
Definition nkey := list nat.

(** mesh_convert.rs:682-697 [normalized_vertex], [normalized_edge], [normalized_face]. *)
Definition normalized_vertex (v : nat) : nkey := [v; 0; 0; 0].
Definition normalized_edge (s e local : nat) : nkey :=
  if decide (e < s) then [e; s; (local + 1) mod 2; 1] else [s; e; local; 1].
Definition normalized_face (a b c : nat) : nkey := sort_nat [a; b; c] ++ [2].

(** mesh_convert.rs:699-722 [unlabeled_vertices_for_tet4_element]. A [Tet4Connectivity] has four indices by its type. *)
Definition unlabeled (cell : list nat) : list nkey :=
  match cell with
  | [v0; v1; v2; v3] =>
      [normalized_vertex v0; normalized_vertex v1; normalized_vertex v2; normalized_vertex v3;
       normalized_edge v0 v1 0; normalized_edge v0 v1 1; normalized_edge v0 v2 0; normalized_edge v0 v2 1;
       normalized_edge v0 v3 0; normalized_edge v0 v3 1; normalized_edge v1 v2 0; normalized_edge v1 v2 1;
       normalized_edge v1 v3 0; normalized_edge v1 v3 1; normalized_edge v2 v3 0; normalized_edge v2 v3 1;
       normalized_face v0 v1 v2; normalized_face v0 v1 v3; normalized_face v0 v2 v3; normalized_face v1 v2 v3]
  | _ => []
  end.

(** [Ord] of arrays: lexicographic. *)
Fixpoint key_le (a b : nkey) : bool :=
  match a, b with
  | [], _ => true
  | _ :: _, [] => false
  | x :: a', y :: b' => if decide (x = y) then key_le a' b' else bool_decide (x < y)
  end.

(** [sort_unstable] of the keys (equal keys are indistinguishable); by insertion here. *)
Fixpoint key_insert (x : nkey) (l : list nkey) : list nkey :=
  match l with [] => [x] | y :: l' => if key_le x y then x :: l else y :: key_insert x l' end.
Definition key_sort (l : list nkey) : list nkey := foldr key_insert [] l.

(** [Vec::dedup]: of each run of equal elements one stays (equal keys are indistinguishable). *)
Fixpoint key_dedup (l : list nkey) : list nkey :=
  match l with
  | x :: (y :: _) as l' => if decide (x = y) then key_dedup l' else x :: key_dedup l'
  | _ => l
  end.

(** mesh_convert.rs:724-731. *)
Definition unlabeled_vertices (cells : list (list nat)) : list nkey := key_dedup (key_sort (concat (map unlabeled cells))).

(** mesh_convert.rs:748-772: the position of a node. *)
Definition key_vertex (vs : list point) (k : nkey) : option point :=
  match k with
  | [a; b; c; kind] =>
      if decide (kind = 0) then vs !! a
      else if decide (kind = 1) then
        s ← (vs !! a : option point); e ← (vs !! b : option point);
        let alpha := (INR (c + 1) / 3)%R in
        Some (fun i => s i + (e i - s i) * alpha)%R
      else if decide (kind = 2) then
        p ← (vs !! a : option point); q ← (vs !! b : option point); r ← (vs !! c : option point);
        Some (fun i => (p i + q i + r i) / 3)%R
      else None
  | _ => None
  end.

Section convert.
  (** [<[T]>::binary_search(..)] of the standard library; [None] stands for [Err], on which [expect] panics. *)
  Variable search : list nkey -> nkey -> option nat.

  (** mesh_convert.rs:658-775 [Tet20Mesh::from(&Tet4Mesh)]. *)
  Definition tet20_from_tet4_mesh (m : mesh point) : option (mesh point) :=
    let ul := unlabeled_vertices (ms_cells m) in
    cells ← mapM (fun cell => mapM (search ul) (unlabeled cell)) (ms_cells m);
    vertices ← mapM (key_vertex (ms_vertices m)) ul;
    Some (Mesh vertices cells).
End convert.

(** mesh_convert.rs:454-470 [Tet4Mesh::from(&Tet10Mesh)], with connectivity.rs:914-919. *)
Definition tet4_from_tet10_mesh (m : mesh point) : option (mesh point) :=
  let tet4_mesh := Mesh (ms_vertices m) (map (take 4) (ms_cells m)) in
  keep_cells tet4_mesh (seq 0 (length (ms_cells tet4_mesh))).

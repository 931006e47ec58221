(** Model of src/mesh/refinement.rs, src/mesh/refinement/detail.rs and of the mesh conversions of src/mesh_convert.rs.
    Coordinates are exact reals (functions from the component index); [None] is a panic. *)
From stdpp Require Import base list list_numbers.
From Coq Require Import Reals.
From Verif Require Import Prelude ReorderModel MeshModel ElementModel.

(** [(a.coords + b.coords) / 2] (detail.rs:47-48, mesh_convert.rs:368-369, 422-423). *)
Definition half_way (a b : point) : point := fun i => ((a i + b i) / 2)%R.

(** A hash map as the list of its entries; [eqb] is the [PartialEq] of the key type. *)
Definition hm_get {K : Type} (eqb : K -> K -> bool) (m : list (K * nat)) (k : K) : option nat :=
  e ← list_find (fun e : K * nat => Is_true (eqb e.1 k)) m; Some e.2.2.

(** refinement.rs:27-57 [RefineConnectivity] together with [VertexRepresentation] (17-23) of its label type.
    Intermediates are lists of labels ([populate_vertex_labels] returns the intermediate itself in the only instance). *)
Record scheme (L : Type) := Scheme {
  sc_refine : list nat -> option (list (list L));
  sc_construct : list nat -> option (list nat);
  sc_eqb : L -> L -> bool;
  sc_vertex : list point -> L -> option point }.
Arguments Scheme {L}.
Arguments sc_refine {L}.
Arguments sc_construct {L}.
Arguments sc_eqb {L}.
Arguments sc_vertex {L}.

Section Refine.
  Context {L : Type} (sc : scheme L) (ord : list (L * nat) -> list (L * nat)).

  (** refinement.rs:88-95: [label_to_idx_map.entry(label).or_insert_with(..)]; the state is the map and [next_vertex_idx]. *)
  Definition label_index (st : list (L * nat) * nat) (l : L) : (list (L * nat) * nat) * nat :=
    match hm_get (sc_eqb sc) st.1 l with
    | Some i => (st, i)
    | None => ((st.1 ++ [(l, st.2)], st.2 + 1), st.2)
    end.

  (** 84-95: all labels of one intermediate. *)
  Definition label_indices (st : list (L * nat) * nat) (ls : list L) : (list (L * nat) * nat) * list nat :=
    foldl (fun s l => let r := label_index s.1 l in (r.1, s.2 ++ [r.2])) (st, []) ls.

  (** 79-101: one source cell. *)
  Definition refine_cell (st : (list (L * nat) * nat) * list (list nat)) (cell : list nat)
      : option ((list (L * nat) * nat) * list (list nat)) :=
    intermediates ← sc_refine sc cell;
    foldl (fun (s : option ((list (L * nat) * nat) * list (list nat))) im =>
      st ← s;
      let r := label_indices st.1 im in
      c ← sc_construct sc r.2;
      Some (r.1, st.2 ++ [c])) (Some st) intermediates.

  (** 62-109 [refine_mesh]; the map is traversed in an arbitrary order [ord]. *)
  Definition refine_mesh (m : mesh point) : option (mesh point) :=
    st ← foldl (fun s cell => st ← s; refine_cell st cell) (Some (([], 0), [])) (ms_cells m);
    vertices ← foldl (fun (vs : option (list point)) (e : L * nat) =>
        vs ← vs; v ← sc_vertex sc (ms_vertices m) e.1;
        if decide (e.2 < length vs) then Some (<[e.2 := v]> vs) else None)
      (Some (replicate st.1.2 (fun _ => 0%R))) (ord st.1.1);
    Some (Mesh vertices st.2).
End Refine.

(** detail.rs:64-68 [VertexOrEdgeMidpointVertex]. *)
Inductive label := LVertex (v : nat) | LEdge (a b : nat).

(** detail.rs:31-61: edge labels are compared up to orientation; the derived [Eq] of the enum. *)
Definition label_eqb (l1 l2 : label) : bool :=
  match l1, l2 with
  | LVertex v, LVertex w => Nat.eqb v w
  | LEdge a b, LEdge c d => Nat.eqb (Nat.min a b) (Nat.min c d) && Nat.eqb (Nat.max a b) (Nat.max c d)
  | _, _ => false
  end.

(** detail.rs:16-28, 38-50, 82-95 [construct_vertex]. *)
Definition label_vertex (vs : list point) (l : label) : option point :=
  match l with
  | LVertex v => vs !! v
  | LEdge a b => p ← vs !! a; q ← vs !! b; Some (half_way p q)
  end.

(** detail.rs:108-142 uniform refinement of triangles. *)
Definition uniform_tri3 : scheme label := Scheme
  (fun cell => match cell with
    | [a; b; c] =>
        let d := LEdge a b in let e := LEdge b c in let f := LEdge c a in
        let a := LVertex a in let b := LVertex b in let c := LVertex c in
        Some [[a; d; f]; [d; b; e]; [f; e; c]; [d; e; f]]
    | _ => None   (* a Tri3d2Connectivity has three indices *)
    end)
  (fun indices => if decide (length indices = 3) then Some indices else None)
  label_eqb label_vertex.

(** refinement.rs:115-124 [refine_uniformly], 127-141 [refine_uniformly_repeat]; [ord k] is the hash order in round k. *)
Definition refine_uniformly (ord : list (label * nat) -> list (label * nat)) : mesh point -> option (mesh point) :=
  refine_mesh uniform_tri3 ord.
Definition refine_uniformly_repeat (ord : nat -> list (label * nat) -> list (label * nat)) (m : mesh point) (times : nat) : option (mesh point) :=
  foldl (fun m k => m ← m; refine_uniformly (ord k) m) (Some m) (seq 0 times).

(** ** mesh_convert.rs *)

(** Data written by [RefineFrom::refine] (mesh_convert.rs:21-40): local connectivity, vertices, child indices, parents. *)
Record refined := Refined { rf_conn : list nat; rf_vertices : list point; rf_child : list nat; rf_parents : list (list nat) }.

(** nalgebra's [lerp] *)
Definition lerp (a b : point) (t : R) : point := fun i => (a i * (1 - t) + b i * t)%R.

(** mesh_convert.rs:56-61, 100-105, 178-183 (vertex nodes) and 63-72, 107-116, 185-194 [add_edge_node]. *)
Definition corner_nodes (vs : list point) (cell : list nat) : option (list (point * list nat)) :=
  mapM (fun v => p ← vs !! v; Some (p, [v])) cell.
Definition edge_node (vs : list point) (cell : list nat) (e : nat * nat) : option (point * list nat) :=
  a ← cell !! e.1; b ← cell !! e.2;
  pa ← vs !! a; pb ← vs !! b;
  Some (lerp pa pb (1 / 2)%R, [a; b]).

(** mesh_convert.rs:133-144 [add_face_node] and 153-160 (centre node). *)
Definition face_node (vs : list point) (cell : list nat) (f : list nat * list R) : option (point * list nat) :=
  corners ← mapM (fun v => vs !! v) cell;
  parents ← mapM (fun i => cell !! i) f.1;
  Some (el_map hex8 corners (pt f.2), parents).

Definition refined_of (nodes : list (point * list nat)) : refined :=
  Refined (seq 0 (length nodes)) (map fst nodes) (map (fun _ => 0) nodes) (map snd nodes).

(** mesh_convert.rs:42-83 Tet4 to Tet10. *)
Definition tet10_edges : list (nat * nat) := [(0, 1); (1, 2); (0, 2); (0, 3); (2, 3); (1, 3)].
Definition refine_tet10 (vs : list point) (cell : list nat) : option refined :=
  cs ← corner_nodes vs cell;
  es ← mapM (edge_node vs cell) tet10_edges;
  Some (refined_of (cs ++ es)).

(** mesh_convert.rs:163-217 Hex8 to Hex20. *)
Definition hex_edges : list (nat * nat) :=
  [(0, 1); (0, 3); (0, 4); (1, 2); (1, 5); (2, 3); (2, 6); (3, 7); (4, 5); (4, 7); (5, 6); (6, 7)].
Definition refine_hex20 (vs : list point) (cell : list nat) : option refined :=
  cs ← corner_nodes vs cell;
  es ← mapM (edge_node vs cell) hex_edges;
  Some (refined_of (cs ++ es)).

(** mesh_convert.rs:85-161 Hex8 to Hex27. *)
Definition hex_face_nodes : list (list nat * list R) :=
  [([0; 1; 2; 3], [0; 0; -1]%R); ([0; 1; 4; 5], [0; -1; 0]%R); ([0; 3; 4; 7], [-1; 0; 0]%R);
   ([1; 2; 5; 6], [1; 0; 0]%R); ([2; 3; 6; 7], [0; 1; 0]%R); ([4; 5; 6; 7], [0; 0; 1]%R);
   ([0; 1; 2; 3; 4; 5; 6; 7], [0; 0; 0]%R)].
Definition refine_hex27 (vs : list point) (cell : list nat) : option refined :=
  cs ← corner_nodes vs cell;
  es ← mapM (edge_node vs cell) hex_edges;
  fs ← mapM (face_node vs cell) hex_face_nodes;
  Some (refined_of (cs ++ es ++ fs)).

(** mesh_convert.rs:236-289: global intermediate data. *)
Definition intermediate_cell (refine : list point -> list nat -> option refined) (vs : list point)
    (st : refined * list (list nat)) (cell : list nat) : option (refined * list (list nat)) :=
  r ← refine vs cell;
  if decide (length (rf_child r) = length (rf_parents r) /\ length (rf_child r) = length (rf_vertices r)) then
    let offset := length (rf_child st.1) in
    Some (Refined [] (rf_vertices st.1 ++ rf_vertices r) (rf_child st.1 ++ rf_child r)
            (rf_parents st.1 ++ map sort_nat (rf_parents r)),
          st.2 ++ [map (fun i => i + offset) (rf_conn r)])
  else None.

(** Key (child index, parents) of the label map. *)
Definition key_eqb (k1 k2 : nat * list nat) : bool := bool_decide (k1 = k2).

(** mesh_convert.rs:301-324: relabel one intermediate vertex index; state: label map, next index, final vertices. *)
Definition final_index (im : refined) (st : (list ((nat * list nat) * nat) * nat) * list point) (i : nat)
    : option (((list ((nat * list nat) * nat) * nat) * list point) * nat) :=
  parents ← rf_parents im !! i;
  child ← rf_child im !! i;
  match hm_get key_eqb st.1.1 (child, parents) with
  | Some j => Some (st, j)
  | None =>
      v ← rf_vertices im !! i;
      Some (((st.1.1 ++ [((child, parents), st.1.2)], st.1.2 + 1), st.2 ++ [v]), st.1.2)
  end.

Definition final_cell (im : refined) (st : (list ((nat * list nat) * nat) * nat) * list point) (conn : list nat)
    : option (((list ((nat * list nat) * nat) * nat) * list point) * list nat) :=
  foldl (fun (s : option (((list ((nat * list nat) * nat) * nat) * list point) * list nat)) i =>
    s ← s; r ← final_index im s.1 i; Some (r.1, s.2 ++ [r.2])) (Some (st, [])) conn.

(** mesh_convert.rs:227-330 [FromTemp::from]. *)
Definition from_temp (refine : list point -> list nat -> option refined) (m : mesh point) : option (mesh point) :=
  im ← foldl (fun s cell => s ← s; intermediate_cell refine (ms_vertices m) s cell) (Some (Refined [] [] [] [], [])) (ms_cells m);
  fin ← foldl (fun (s : option (((list ((nat * list nat) * nat) * nat) * list point) * list (list nat))) conn =>
      s ← s; r ← final_cell im.1 s.1 conn; Some (r.1, s.2 ++ [r.2])) (Some ((([], 0), []), [])) im.2;
  Some (Mesh fin.1.2 fin.2).

(** mesh_convert.rs:348-353, 402-407: [iter().cycle().take(n + 1).tuple_windows()] *)
Definition cycle_edges (cell : list nat) : list (nat * nat) :=
  match cell with [] => [] | a :: rest => zip cell (rest ++ [a]) end.

(** mesh_convert.rs:362-375, 416-429: midpoint node of one edge; the key is (min, max). State: edge map, vertices. *)
Definition pair_eqb (k1 k2 : nat * nat) : bool := bool_decide (k1 = k2).
Definition edge_index (st : list ((nat * nat) * nat) * list point) (ab : nat * nat)
    : option ((list ((nat * nat) * nat) * list point) * nat) :=
  let edge := (Nat.min ab.1 ab.2, Nat.max ab.1 ab.2) in
  match hm_get pair_eqb st.1 edge with
  | Some i => Some (st, i)
  | None =>
      va ← st.2 !! ab.1; vb ← st.2 !! ab.2;
      Some ((st.1 ++ [(edge, length st.2)], st.2 ++ [half_way va vb]), length st.2)
  end.
Definition edge_indices (st : list ((nat * nat) * nat) * list point) (es : list (nat * nat))
    : option ((list ((nat * nat) * nat) * list point) * list nat) :=
  foldl (fun (s : option ((list ((nat * nat) * nat) * list point) * list nat)) e =>
    s ← s; r ← edge_index s.1 e; Some (r.1, s.2 ++ [r.2])) (Some (st, [])) es.

(** mesh_convert.rs:337-383 Tri3 to Tri6. *)
Definition tri6_cell (st : (list ((nat * nat) * nat) * list point) * list (list nat)) (cell : list nat)
    : option ((list ((nat * nat) * nat) * list point) * list (list nat)) :=
  r ← edge_indices st.1 (cycle_edges cell);
  Some (r.1, st.2 ++ [cell ++ r.2]).
Definition tri6_from_tri3_mesh (m : mesh point) : option (mesh point) :=
  st ← foldl (fun s cell => s ← s; tri6_cell s cell) (Some (([], ms_vertices m), [])) (ms_cells m);
  Some (Mesh st.1.2 st.2).

(** mesh_convert.rs:391-442 Quad4 to Quad9. *)
Definition quad9_cell (vertices : list point) (st : (list ((nat * nat) * nat) * list point) * list (list nat)) (cell : list nat)
    : option ((list ((nat * nat) * nat) * list point) * list (list nat)) :=
  r ← edge_indices st.1 (cycle_edges cell);
  corners ← mapM (fun v => vertices !! v) cell;
  let midpoint := el_map quad4 corners (pt [0; 0]%R) in
  Some ((r.1.1, r.1.2 ++ [midpoint]), st.2 ++ [cell ++ r.2 ++ [length r.1.2]]).
Definition quad9_from_quad4_mesh (m : mesh point) : option (mesh point) :=
  st ← foldl (fun s cell => s ← s; quad9_cell (ms_vertices m) s cell) (Some (([], ms_vertices m), [])) (ms_cells m);
  Some (Mesh st.1.2 st.2).

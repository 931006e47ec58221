(** Specification vocabulary for mesh refinement and conversion. *)
From stdpp Require Import base list list_numbers.
From Coq Require Import Reals.
From Verif Require Import Prelude ReorderModel MeshModel ElementModel ConvertModel FacesSpec.

(** Cells with [n] vertices, all indices in range. *)
Definition cells_of_size (n : nat) (m : mesh point) : Prop :=
  Forall (fun cell => length cell = n /\ Forall (fun v => v < length (ms_vertices m)) cell) (ms_cells m).

(** Coordinate [d] of vertex [v]. *)
Definition coord (vs : list point) (d v : nat) : R := match (vs !! v : option point) with Some p => p d | None => 0%R end.

(** Edges of a polygonal cell in order. *)
Definition edge_of (cell : list nat) (i : nat) : option (nat * nat) :=
  a ← cell !! i; b ← cell !! (S i mod length cell); Some (a, b).
Definition same_edge (e e' : nat * nat) : Prop := e = e' \/ e = (e'.2, e'.1).

(** The undirected edge as a label. *)
Definition uedge (a b : nat) : label := if decide (a ≤ b) then LEdge a b else LEdge b a.

(** [m'] is a uniform refinement of the triangle mesh [m]: the list [names] tells which original vertex or undirected edge
    each vertex of [m'] stands for. *)
Record uniformly_refines (m m' : mesh point) (names : list label) : Prop := {
  ur_length : length names = length (ms_vertices m');
  ur_nodup : NoDup names;
  ur_vertex : forall v, LVertex v ∈ names <-> v ∈ concat (ms_cells m);
  ur_edge : forall a b, LEdge a b ∈ names <-> a ≤ b /\ exists cell i e, cell ∈ ms_cells m /\ edge_of cell i = Some e /\ same_edge e (a, b);
  ur_keep : forall i v, names !! i = Some (LVertex v) -> ms_vertices m' !! i = ms_vertices m !! v;
  ur_mid : forall i a b, names !! i = Some (LEdge a b) -> forall d,
    coord (ms_vertices m') d i = ((coord (ms_vertices m) d a + coord (ms_vertices m) d b) / 2)%R;
  ur_count : length (ms_cells m') = 4 * length (ms_cells m);
  ur_cells : forall k a b c, ms_cells m !! k = Some [a; b; c] -> exists ia ib ic d e f,
    names !! ia = Some (LVertex a) /\ names !! ib = Some (LVertex b) /\ names !! ic = Some (LVertex c) /\
    names !! d = Some (uedge a b) /\ names !! e = Some (uedge b c) /\ names !! f = Some (uedge c a) /\
    ms_cells m' !! (4 * k) = Some [ia; d; f] /\ ms_cells m' !! (4 * k + 1) = Some [d; ib; e] /\
    ms_cells m' !! (4 * k + 2) = Some [f; e; ic] /\ ms_cells m' !! (4 * k + 3) = Some [d; e; f] }.

(** Signed area of the triangle with the given vertices (coordinates 0 and 1), and of a whole mesh. *)
Definition tri_area (vs : list point) (cell : list nat) : R :=
  match cell with
  | [a; b; c] =>
      let x v := coord vs 0 v in let y v := coord vs 1 v in
      (((x b - x a) * (y c - y a) - (x c - x a) * (y b - y a)) / 2)%R
  | _ => 0%R
  end.
Definition total_area (m : mesh point) : R := foldr Rplus 0%R (map (tri_area (ms_vertices m)) (ms_cells m)).

(** Vertices of the source cell that node [j] of the new cell represents; [nc] is the number of corners and [nodes] lists the
    corners that the other nodes belong to. *)
Definition node_parents (nc : nat) (nodes : list (nat * list nat)) (cell : list nat) (j : nat) : option (list nat) :=
  if decide (j < nc) then v ← cell !! j; Some [v]
  else e ← list_find (fun e : nat * list nat => e.1 = j) nodes; mapM (fun i => cell !! i) e.2.2.

(** [m'] has, cell by cell, [n] nodes at the means of the vertices they represent, with in-range indices. *)
Definition nodes_at_means (nc : nat) (nodes : list (nat * list nat)) (n : nat) (m m' : mesh point) : Prop :=
  cells_of_size n m' /\ length (ms_cells m') = length (ms_cells m) /\
  forall k cell cell' j i, ms_cells m !! k = Some cell -> ms_cells m' !! k = Some cell' -> cell' !! j = Some i ->
    exists ps, node_parents nc nodes cell j = Some ps /\
      forall d, coord (ms_vertices m') d i = mean (map (coord (ms_vertices m) d) ps).

(** Two nodes with local numbers below [nj] coincide exactly if they represent the same vertices. *)
Definition nodes_shared (nc : nat) (nodes : list (nat * list nat)) (nj : nat) (m m' : mesh point) : Prop :=
  forall k1 k2 c1 c2 c1' c2' j1 j2 i1 i2 ps1 ps2, j1 < nj -> j2 < nj ->
    ms_cells m !! k1 = Some c1 -> ms_cells m !! k2 = Some c2 -> ms_cells m' !! k1 = Some c1' -> ms_cells m' !! k2 = Some c2' ->
    c1' !! j1 = Some i1 -> c2' !! j2 = Some i2 ->
    node_parents nc nodes c1 j1 = Some ps1 -> node_parents nc nodes c2 j2 = Some ps2 ->
    i1 = i2 <-> ps1 ≡ₚ ps2.

(** Node [j] of a cell belongs to that cell only. *)
Definition own_node (j : nat) (m' : mesh point) : Prop :=
  forall k1 k2 c1 c2 i j2, ms_cells m' !! k1 = Some c1 -> ms_cells m' !! k2 = Some c2 -> c1 !! j = Some i -> c2 !! j2 = Some i ->
    k1 = k2 /\ j2 = j.

(** Every vertex is used by a cell. *)
Definition all_used (m : mesh point) : Prop := forall i, i < length (ms_vertices m) -> i ∈ concat (ms_cells m).

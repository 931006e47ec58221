(** Specification vocabulary for permutations and Cuthill-McKee orders. *)
From stdpp Require Import base list list_numbers sorting.
From Verif Require Import Prelude CsrModel CsrSpec ReorderModel.

Definition is_perm (l : list nat) : Prop := l ≡ₚ seq 0 (length l).

(** Number of stored entries of a row. *)
Definition degree (p : pattern) (v : nat) : nat :=
  match pt_offs p !! v, pt_offs p !! S v with Some b, Some e => e - b | _, _ => 0 end.

Definition adjacent_to (p : pattern) (v w : nat) : Prop := exists pos, stored p v w pos.

(** An admissible result of the unstable sort of neighbours by degree. *)
Definition sorts_by_degree (p : pattern) (srt : nat -> list nat -> list nat) : Prop :=
  forall v ws, srt v ws ≡ₚ ws /\ StronglySorted (fun a b => degree p a <= degree p b) (srt v ws).

(** Position [k] of the order was discovered from position [j]: [j] is the first vertex with an edge to it; a vertex
    to which no earlier vertex has an edge counts as discovered from itself. *)
Definition discovered (p : pattern) (order : list nat) (k j : nat) : Prop :=
  exists v, order !! k = Some v /\
    (forall i w, i < j -> order !! i = Some w -> ~ adjacent_to p w v) /\
    ((j < k /\ exists w, order !! j = Some w /\ adjacent_to p w v) \/ j = k).

(** Breadth-first by degree. *)
Definition cm_order (p : pattern) (order : list nat) : Prop :=
  (* every position was discovered somewhere *)
  (forall k, k < length order -> exists j, discovered p order k j) /\
  (* vertices appear in the order of their discoverers *)
  (forall k k' j j', k < k' -> discovered p order k j -> discovered p order k' j' -> j <= j') /\
  (* by degree among those discovered from the same vertex *)
  (forall k k' j v v', k < k' -> j < k -> discovered p order k j -> discovered p order k' j ->
     order !! k = Some v -> order !! k' = Some v' -> degree p v <= degree p v') /\
  (* a new search starts from the first vertex of least degree among those not yet placed *)
  (forall k v, discovered p order k k -> order !! k = Some v ->
     forall k' v', k < k' -> order !! k' = Some v' -> degree p v < degree p v' \/ (degree p v = degree p v' /\ v < v')).

(** Cells ordered by key, missing keys first. *)
Definition okey_le (a b : option nat) : Prop :=
  match a, b with None, _ => True | Some x, Some y => x <= y | Some _, None => False end.
Definition sorts_cells (srt : list (option nat) -> list nat) : Prop :=
  forall keys, srt keys ≡ₚ seq 0 (length keys) /\
    StronglySorted (fun i j => forall a b, keys !! i = Some a -> keys !! j = Some b -> okey_le a b) (srt keys).

(** [m'] is [m] with vertices and cells rearranged: position [i] holds source vertex [vp i] resp. source cell [cp i], and
    each cell refers to the same vertices in the same local order. *)
Definition mesh_reordered {V} (vp cp : list nat) (m m' : mesh V) : Prop :=
  length (ms_vertices m') = length (ms_vertices m) /\ length (ms_cells m') = length (ms_cells m) /\
  (forall i s, vp !! i = Some s -> ms_vertices m' !! i = ms_vertices m !! s) /\
  (forall i s cell, cp !! i = Some s -> ms_cells m !! s = Some cell ->
     exists cell', ms_cells m' !! i = Some cell' /\ length cell' = length cell /\
       Forall2 (fun a' a => a' < length (ms_vertices m) /\ vp !! a' = Some a) cell' cell).

(** Cells as tuples of coordinates. *)
Definition cell_coords {V} (m : mesh V) : list (list (option V)) := map (map (fun a => ms_vertices m !! a)) (ms_cells m).

Definition least (l : list nat) (o : option nat) : Prop :=
  match o with None => l = [] | Some x => x ∈ l /\ forall y, y ∈ l -> x <= y end.

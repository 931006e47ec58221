(** Specification vocabulary for disjoint subsets and colourings. *)
From stdpp Require Import base list list_numbers sorting.
From Coq Require Import ZArith.
From Verif Require Import Prelude NestedVecModel ParadisModel.

(** Two lists share an index. *)
Definition share (s t : list nat) : Prop := exists n, n ∈ s /\ n ∈ t.

(** No index occurs in two different members of the family. *)
Definition pairwise_disjoint (ls : list (list nat)) : Prop :=
  forall i j s t, i <> j -> ls !! i = Some s -> ls !! j = Some t -> ~ share s t.

(** A legitimate iteration order of hash sets: any rearrangement, at each use. *)
Definition hash_order (ord : nat -> list nat -> list nat) : Prop := forall k s, ord k s ≡ₚ s.

(** Maximum of all indices of a family, [None] when there is none. *)
Definition is_max (m : option nat) (ls : list (list nat)) : Prop :=
  match m with
  | None => forall s, s ∈ ls -> s = []
  | Some x => (exists s, s ∈ ls /\ x ∈ s) /\ forall s n, s ∈ ls -> n ∈ s -> n <= x
  end.

(** The split indices of a tree respect [0 <= index < len] for a producer of length [len]. *)
Fixpoint valid_splits (t : split_tree) (len : nat) : Prop :=
  match t with
  | Leaf _ => True
  | Node index l r => index < len /\ valid_splits l index /\ valid_splits r (len - index)
  end.

(** The (label, indices) pairs in positions [from, from+n). *)
Definition items_in (labels : list nat) (ls : list (list nat)) (from n : nat) : list subset_access :=
  take n (drop from (zip_with SubsetAccess labels ls)).

(** Number of earlier subsets that conflict with subset [i]. *)
Definition earlier_conflicts (ls : list (list nat)) (i : nat) : list nat :=
  filter (fun j => Exists (fun n => n ∈ default [] (ls !! j)) (default [] (ls !! i))) (seq 0 i).

(** ** Colourings *)

(** A colour of the family [ls]: non-empty, labels in increasing order, subsets are those of the labels
    and pairwise disjoint, with the right maximum. *)
Definition valid_color (ls : list (list nat)) (c : dsubs) : Prop :=
  exists sub, Forall2 (fun i s => ls !! i = Some s) (ds_labels c) sub /\
    nv_iter (ds_subsets c) = Some sub /\ pairwise_disjoint sub /\
    ds_labels c <> [] /\ StronglySorted lt (ds_labels c) /\ is_max (ds_max c) sub.

(** The nested vector [v] holds the lists [ls] (length, random access and iteration). *)
Definition holds (v : nvec nat) (ls : list (list nat)) : Prop :=
  nv_len v = length ls /\ (forall i, nv_get v i = ls !! i) /\ nv_iter v = Some ls.

(** The two ways in which safe code obtains a [DisjointSubsets] value (with contents [ls]). *)
Inductive safe_value : dsubs -> list (list nat) -> Prop :=
| from_checked ord v ls labels d :
    hash_order ord -> holds v ls ->
    try_from_disjoint_subsets ord v labels = Ok d -> safe_value d ls
| from_coloring ord debug v ls colors d sub :
    hash_order ord -> holds v ls ->
    (Z.of_nat (length ls) <= i32_max)%Z ->
    sequential_greedy_coloring ord debug v = Some (Ok colors) -> d ∈ colors ->
    nv_iter (ds_subsets d) = Some sub -> safe_value d sub.

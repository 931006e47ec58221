(** C03–C08: disjoint subsets, parallel iteration, colouring. *)
From stdpp Require Import base list list_numbers sorting.
From Coq Require Import Lia ZArith.
From Verif Require Import Prelude NestedVecModel NestedVecSpec NestedVecProofs
  ParadisModel ParadisSpec ParadisProofs ColoringProofs ParadisSafety.

Definition id_order (_ : nat) (s : list nat) : list nat := s.
Definition rev_order (_ : nat) (s : list nat) : list nat := rev s.

Lemma id_order_ok : hash_order id_order.
Proof. intros k s. reflexivity. Qed.

Lemma of_lists_holds ls : holds (nv_of_lists ls) ls.
Proof.
  pose proof (rep_canon ls) as Hrep. rewrite <- canon_of_lists in Hrep.
  destruct (rep_shows _ _ Hrep) as (H1 & H2 & H3 & _). split_and!; [done|done|]. by apply rep_iter.
Qed.

(** C03. The checked constructor: accepts exactly the disjoint families, whatever the order in which the
    hash sets are traversed. *)
Theorem C03_try_from_iff_disjoint :
  forall (ord : nat -> list nat -> list nat) (v : nvec nat) (ls : list (list nat)) (labels : list nat),
    hash_order ord -> nv_len v = length ls -> nv_iter v = Some ls ->
    match try_from_disjoint_subsets ord v labels with
    | Ok d => length labels = length ls /\ pairwise_disjoint ls /\
              ds_subsets d = v /\ ds_labels d = labels /\ is_max (ds_max d) ls
    | Err NotDisjoint => length labels = length ls /\ ~ pairwise_disjoint ls
    | Panic => length labels <> length ls
    end.
Proof. exact try_from_spec. Qed.
Print Assumptions C03_try_from_iff_disjoint.

Theorem C03_hash_order_irrelevant :
  forall (ord1 ord2 : nat -> list nat -> list nat) (v : nvec nat) (labels : list nat),
    hash_order ord1 -> hash_order ord2 ->
    try_from_disjoint_subsets ord1 v labels = try_from_disjoint_subsets ord2 v labels.
Proof. exact try_from_order_irrelevant. Qed.
Print Assumptions C03_hash_order_irrelevant.

Example C03_example :
  hash_order id_order /\ hash_order rev_order /\
  try_from_disjoint_subsets rev_order (nv_of_lists [[1; 4; 1]; []; [2; 7]]) [5; 6; 7]
    = Ok (DSubs (Some 7) (nv_of_lists [[1; 4; 1]; []; [2; 7]]) [5; 6; 7]) /\
  try_from_disjoint_subsets rev_order (nv_of_lists [[1; 4]; [2; 7; 4]]) [0; 1] = Err NotDisjoint /\
  try_from_disjoint_subsets rev_order (nv_of_lists [[1; 4]; [2; 7]]) [0] = Panic.
Proof.
  split; [exact id_order_ok|]. split; [|vm_compute; auto].
  intros k s. unfold rev_order. by rewrite <- Permutation_rev.
Qed.

(** C04. However the iterator is split (any valid tree) and consumed (any script of [next] and
    [next_back]): no panic, reported lengths add up and are exact, and once every piece is exhausted the
    items handed out are the subsets with their labels, each exactly once. *)
Theorem C04_each_subset_once :
  forall (d : dsubs) (ls : list (list nat)) (t : split_tree),
    holds (ds_subsets d) ls -> length (ds_labels d) = length ls -> valid_splits t (length ls) ->
    exists items its, run_tree d (Producer 0 (length ls)) t = Ok (items, its) /\
      length items + sum_list (map it_len its) = length ls /\
      (forall it script, it ∈ its -> length script = it_len it ->
         exists more it', run_script d it script = Ok (more, it') /\ length more = it_len it /\ it_len it' = 0) /\
      (sum_list (map it_len its) = 0 -> items ≡ₚ zip_with SubsetAccess (ds_labels d) ls).
Proof. exact par_iter_once. Qed.
Print Assumptions C04_each_subset_once.

Example C04_example :
  valid_splits (Node 2 (Leaf [true; false]) (Node 0 (Leaf []) (Leaf [false; false; true]))) 4 /\
  match run_tree (DSubs (Some 7) (nv_of_lists [[1; 4]; []; [2; 7]; [3]]) [9; 8; 7; 6]) (Producer 0 4)
          (Node 2 (Leaf [true; false]) (Node 0 (Leaf []) (Leaf [false; false; true]))) with
  | Ok (items, its) => map sa_label items = [9; 8; 6; 7] /\ sum_list (map it_len its) = 0
  | _ => False
  end.
Proof. vm_compute. auto 10. Qed.

(** C04, limit: splitting at [index = len] (which rayon's [take]/[skip] adaptors may do) panics. *)
Theorem C04_split_at_len_refuted :
  exists (d : dsubs) (ls : list (list nat)) (labels : list nat) (t : split_tree),
    try_from_disjoint_subsets id_order (nv_of_lists ls) labels = Ok d /\
    (exists index, t = Node index (Leaf []) (Leaf []) /\ index = length ls) /\
    run_tree d (Producer 0 (length ls)) t = Panic.
Proof.
  eexists. exists [[1]; [2]], [0; 1], (Node 2 (Leaf []) (Leaf [])).
  split; [vm_compute; reflexivity|]. split; [by exists 2|]. vm_compute. reflexivity.
Qed.
Print Assumptions C04_split_at_len_refuted.

(** C05. For a value from either safe constructor, accesses handed out by any execution are in bounds and
    accesses of different items never touch the same index. *)
Theorem C05_accesses_in_bounds_and_disjoint :
  forall (d : dsubs) (ls : list (list nat)) (debug : bool) (n : nat) (r : nat * nat)
         (t : split_tree) (items : list subset_access) (its : list iter),
    safe_value d ls -> par_iter_start debug d n = Ok r ->
    run_tree d (Producer r.1 r.2) t = Ok (items, its) ->
    pairwise_disjoint (map sa_indices items) /\
    (forall a local g, a ∈ items -> sa_get a local = Ok g -> g < n).
Proof. exact par_access_safe. Qed.
Print Assumptions C05_accesses_in_bounds_and_disjoint.

(** C05 for the scalars behind a block adapter. *)
Theorem C05_block_accesses_in_bounds_and_disjoint :
  forall (d : dsubs) (ls : list (list nat)) (debug : bool) (coll bs nblocks : nat) (r : nat * nat)
         (t : split_tree) (items : list subset_access) (its : list iter),
    safe_value d ls -> block_adapter_len coll bs = Ok nblocks -> par_iter_start debug d nblocks = Ok r ->
    run_tree d (Producer r.1 r.2) t = Ok (items, its) ->
    (forall a local g k x, a ∈ items -> sa_get a local = Ok g -> block_get bs g k = Some x -> x < coll) /\
    (forall i j a b la lb ga gb ka kb x y, i <> j -> items !! i = Some a -> items !! j = Some b ->
       sa_get a la = Ok ga -> sa_get b lb = Ok gb ->
       block_get bs ga ka = Some x -> block_get bs gb kb = Some y -> x <> y).
Proof. exact par_access_block_safe. Qed.
Print Assumptions C05_block_accesses_in_bounds_and_disjoint.

Example C05_example :
  exists d, safe_value d [[1; 0]; [3]; [2; 2]] /\ par_iter_start true d 4 = Ok (0, 3) /\
    block_adapter_len 8 2 = Ok 4 /\
    match run_tree d (Producer 0 3) (Node 1 (Leaf [true]) (Leaf [true; true])) with
    | Ok (items, its) => map sa_indices items = [[1; 0]; [3]; [2; 2]]
    | _ => False
    end.
Proof.
  exists (DSubs (Some 3) (nv_of_lists [[1; 0]; [3]; [2; 2]]) [0; 1; 2]).
  split; [|vm_compute; auto].
  eapply (from_checked id_order _ _ [0; 1; 2]); [exact id_order_ok|apply of_lists_holds|vm_compute; reflexivity].
Qed.

(** The second constructor is inhabited as well. *)
Example C05_example_coloring :
  exists d colors, sequential_greedy_coloring id_order true (nv_of_lists [[0; 1]; [1; 2]; [2; 3]]) = Some (Ok colors) /\
    d ∈ colors /\ safe_value d [[0; 1]; [2; 3]].
Proof.
  eexists _, _. split; [vm_compute; reflexivity|]. split; [by left|].
  eapply (from_coloring id_order true (nv_of_lists [[0; 1]; [1; 2]; [2; 3]]) [[0; 1]; [1; 2]; [2; 3]]).
  - exact id_order_ok.
  - apply of_lists_holds.
  - unfold i32_max. simpl. lia.
  - vm_compute. reflexivity.
  - by left.
  - vm_compute. reflexivity.
Qed.

(** C06, release builds: panics exactly when an index is out of range. *)
Theorem C06_release_panics_only_out_of_range :
  forall (d : dsubs) (ls : list (list nat)) (n : nat),
    safe_value d ls ->
    match par_iter_start false d n with
    | Ok r => r = (0, length ls) /\ forall s i, s ∈ ls -> i ∈ s -> i < n
    | Err _ => False
    | Panic => exists s i, s ∈ ls /\ i ∈ s /\ n <= i
    end.
Proof.
  intros d ls n Hs. destruct (safe_value_spec d ls Hs) as ((Hl & _) & _ & Hm).
  exact (par_iter_start_release d ls n Hl Hm).
Qed.
Print Assumptions C06_release_panics_only_out_of_range.

Example C06_example : exists d, safe_value d [[1; 0]; [3]] /\
  par_iter_start false d 4 = Ok (0, 2) /\ par_iter_start false d 3 = Panic.
Proof.
  exists (DSubs (Some 3) (nv_of_lists [[1; 0]; [3]]) [0; 1]). split; [|vm_compute; auto].
  eapply (from_checked id_order _ _ [0; 1]); [exact id_order_ok|apply of_lists_holds|vm_compute; reflexivity].
Qed.

(** C06, debug builds: refuted by a family with one empty subset. *)
Theorem C06_debug_refuted :
  exists (d : dsubs) (ls : list (list nat)) (n : nat),
    safe_value d ls /\ (forall s i, s ∈ ls -> i ∈ s -> i < n) /\ par_iter_start true d n = Panic.
Proof.
  exists (DSubs None (nv_of_lists [[]]) [0]), [[]], 5. split_and!.
  - eapply (from_checked id_order _ _ [0]); [exact id_order_ok|apply of_lists_holds|vm_compute; reflexivity].
  - intros s i Hs Hi. apply elem_of_list_singleton in Hs as ->. by apply elem_of_nil in Hi.
  - vm_compute. reflexivity.
Qed.
Print Assumptions C06_debug_refuted.

(** C07. The greedy colouring terminates without panic (in debug and release) and partitions the family. *)
Theorem C07_coloring_partitions :
  forall (ord : nat -> list nat -> list nat) (debug : bool) (v : nvec nat) (ls : list (list nat)),
    hash_order ord -> holds v ls -> (Z.of_nat (length ls) <= i32_max)%Z ->
    exists colors, sequential_greedy_coloring ord debug v = Some (Ok colors) /\
      concat (map ds_labels colors) ≡ₚ seq 0 (length ls) /\
      Forall (valid_color ls) colors /\
      Forall (fun c => try_from_disjoint_subsets ord (ds_subsets c) (ds_labels c) = Ok c) colors.
Proof. exact coloring_valid. Qed.
Print Assumptions C07_coloring_partitions.

(** C08. Greediness, and the bounds on the number of colours. *)
Theorem C08_coloring_greedy_bound :
  forall (ord : nat -> list nat -> list nat) (debug : bool) (v : nvec nat) (ls : list (list nat)) (colors : list dsubs),
    hash_order ord -> holds v ls -> (Z.of_nat (length ls) <= i32_max)%Z ->
    sequential_greedy_coloring ord debug v = Some (Ok colors) ->
    (forall k k' c i, colors !! k = Some c -> i ∈ ds_labels c -> k' < k ->
       exists c' j s t, colors !! k' = Some c' /\ j ∈ ds_labels c' /\ j < i /\
         ls !! i = Some s /\ ls !! j = Some t /\ share s t) /\
    length colors <= length ls /\
    (forall m, (forall i, i < length ls -> length (earlier_conflicts ls i) <= m) -> length colors <= S m).
Proof. exact coloring_greedy. Qed.
Print Assumptions C08_coloring_greedy_bound.

Example C07_C08_example :
  holds (nv_of_lists [[0; 1]; [1; 2]; [7]; [2; 1]; []]) [[0; 1]; [1; 2]; [7]; [2; 1]; []] /\
  match sequential_greedy_coloring id_order true (nv_of_lists [[0; 1]; [1; 2]; [7]; [2; 1]; []]) with
  | Some (Ok colors) => map ds_labels colors = [[0; 2; 4]; [1]; [3]]
  | _ => False
  end.
Proof. split; [apply of_lists_holds|]. vm_compute. reflexivity. Qed.

(** Model of fenris-paradis/src/{lib,adapter,coloring}.rs. *)
From stdpp Require Import base list list_numbers.
From Coq Require Import ZArith.
From Verif Require Import Prelude NestedVecModel.

(** fenris-paradis/src/lib.rs:170-181 [struct DisjointSubsets]. *)
Record dsubs := DSubs {
  ds_max : option nat;
  ds_subsets : nvec nat;
  ds_labels : list nat;
}.

(** lib.rs:183-184 [SubsetsNotDisjointError]. *)
Inductive not_disjoint := NotDisjoint.

(** lib.rs:203-208, the update of [max_index] by one index. *)
Definition max_upd (m : option nat) (i : nat) : option nat :=
  match m with Some c => Some (max c i) | None => Some i end.

(** [HashSet::insert] on a set represented by a duplicate-free list: new set and "was absent". *)
Definition set_insert (s : list nat) (i : nat) : list nat * bool :=
  if decide (i ∈ s) then (s, false) else (i :: s, true).

(** lib.rs:203-210: one pass over a subset, filling the local set and the maximum. *)
Definition scan_subset (m : option nat) (subset : list nat) : option nat * list nat :=
  foldl (fun '(m, loc) i => (max_upd m i, (set_insert loc i).1)) (m, []) subset.

(** lib.rs:212-217: insert the elements of the local set, visited in the order [xs], in the global set;
    [None] is the early [return Err]. *)
Fixpoint insert_all (glob : list nat) (xs : list nat) : option (list nat) :=
  match xs with
  | [] => Some glob
  | i :: xs => let '(glob', fresh) := set_insert glob i in if fresh then insert_all glob' xs else None
  end.

(** lib.rs:201-218: the loop over subsets. [ord k s] is the order in which the hash set of the [k]-th
    subset, holding [s], is iterated: unspecified, hence an argument. *)
Fixpoint check_disjoint (ord : nat -> list nat -> list nat) (k : nat) (m : option nat) (glob : list nat)
    (subsets : list (list nat)) : option (option nat) :=
  match subsets with
  | [] => Some m
  | s :: subsets =>
      let '(m', loc) := scan_subset m s in
      match insert_all glob (ord k loc) with
      | None => None
      | Some glob' => check_disjoint ord (S k) m' glob' subsets
      end
  end.

(** lib.rs:187-227 [try_from_disjoint_subsets]. *)
Definition try_from_disjoint_subsets (ord : nat -> list nat -> list nat)
    (subsets : nvec nat) (labels : list nat) : outcome not_disjoint dsubs :=
  if decide (nv_len subsets = length labels) then
    match nv_iter subsets with
    | None => Panic
    | Some ls =>
        match check_disjoint ord 0 None [] ls with
        | None => Err NotDisjoint
        | Some m => Ok (DSubs m subsets labels)
        end
    end
  else Panic.

(** lib.rs:229-241 [from_disjoint_subsets_unchecked]. *)
Definition from_disjoint_subsets_unchecked (subsets : nvec nat) (labels : list nat) (m : option nat)
  : outcome not_disjoint dsubs :=
  if decide (nv_len subsets = length labels) then Ok (DSubs m subsets labels) else Panic.

(** lib.rs:258-278 [subsets_par_iter]: the assertion and, in debug builds, the sanity check; the value
    is the initial producer range (lib.rs:311-320 [with_producer]). *)
Definition par_iter_start (debug : bool) (d : dsubs) (storage_len : nat) : outcome Empty_set (nat * nat) :=
  if (match ds_max d with None => true | Some m => bool_decide (m < storage_len) end) then
    if debug && negb (eqb (match ds_max d with None => true | _ => false end)
                          (bool_decide (nv_len (ds_subsets d) = 0)))
    then Panic
    else Ok (0, nv_len (ds_subsets d))
  else Panic.

(** lib.rs:19-23 [SubsetAccess]: label and global indices (the access handle is the storage itself). *)
Record subset_access := SubsetAccess { sa_label : nat; sa_indices : list nat }.

(** lib.rs:38-54 [SubsetAccess::get]/[get_mut]: the index handed to the unchecked accessor; [Panic] when
    the checked slice indexing [self.global_indices[local_index]] is out of bounds. *)
Definition sa_get (a : subset_access) (local : nat) : outcome Empty_set nat :=
  match sa_indices a !! local with Some g => Ok g | None => Panic end.

(** lib.rs:323-330 [DisjointSubsetsProducer] and 382-390 [DisjointSubsetsIter]: ranges; the borrowed
    subsets and labels are those of [d]. *)
Record producer := Producer { p_start : nat; p_len : nat }.
Record iter := Iter { it_cur : nat; it_end : nat }.

(** lib.rs:347-355 [into_iter]. *)
Definition p_into_iter (p : producer) : iter := Iter (p_start p) (p_len p + p_start p).

(** lib.rs:357-379 [split_at]. *)
Definition p_split_at (p : producer) (index : nat) : outcome Empty_set (producer * producer) :=
  if decide (index < p_len p) then
    Ok (Producer (p_start p) index, Producer (p_start p + index) (p_len p - index))
  else Panic.

(** The item at position [k], lib.rs:408-412 and 432-436; [None] is the [unwrap] panic. *)
Definition item_at (d : dsubs) (k : nat) : option subset_access :=
  l ← ds_labels d !! k; s ← nv_get (ds_subsets d) k; Some (SubsetAccess l s).

(** lib.rs:406-418 [next]. *)
Definition it_next (d : dsubs) (it : iter) : outcome Empty_set (option subset_access * iter) :=
  if decide (it_cur it < it_end it) then
    match item_at d (it_cur it) with
    | Some a => Ok (Some a, Iter (S (it_cur it)) (it_end it))
    | None => Panic
    end
  else Ok (None, it).

(** lib.rs:429-442 [next_back]. *)
Definition it_next_back (d : dsubs) (it : iter) : outcome Empty_set (option subset_access * iter) :=
  if decide (it_cur it < it_end it) then
    match item_at d (it_end it - 1) with
    | Some a => Ok (Some a, Iter (it_cur it) (it_end it - 1))
    | None => Panic
    end
  else Ok (None, it).

(** lib.rs:420-423 [size_hint]/[len] of the iterator. *)
Definition it_len (it : iter) : nat := it_end it - it_cur it.

(** What a consumer does with one piece: any sequence of [next] (true) and [next_back] (false) calls. *)
Fixpoint run_script (d : dsubs) (it : iter) (script : list bool)
  : outcome Empty_set (list subset_access * iter) :=
  match script with
  | [] => Ok ([], it)
  | fwd :: script =>
      let! r := (if fwd then it_next d it else it_next_back d it) in
      let! r' := run_script d r.2 script in
      Ok ((match r.1 with Some a => [a] | None => [] end) ++ r'.1, r'.2)
  end.

(** A rayon execution: recursive splitting, then consumption of the leaves. *)
Inductive split_tree :=
| Leaf (script : list bool)
| Node (index : nat) (l r : split_tree).

(** All items handed out and all iterators left over. *)
Fixpoint run_tree (d : dsubs) (p : producer) (t : split_tree)
  : outcome Empty_set (list subset_access * list iter) :=
  match t with
  | Leaf script =>
      let! r := run_script d (p_into_iter p) script in Ok (r.1, [r.2])
  | Node index l r =>
      let! pp := p_split_at p index in
      let! rl := run_tree d pp.1 l in
      let! rr := run_tree d pp.2 r in
      Ok (rl.1 ++ rr.1, rl.2 ++ rr.2)
  end.

(** adapter.rs:56-64 [BlockAdapter::with_block_size] followed by 189-191 [len]: number of blocks. *)
Definition block_adapter_len (coll_len block_size : nat) : outcome Empty_set nat :=
  if decide (0 < block_size) then
    if decide (coll_len mod block_size = 0) then Ok (coll_len / block_size) else Panic
  else Panic.

(** adapter.rs:157-173 [BlockAccess::get_unchecked(_mut)] then 84-131 [Block(Mut)::get(_mut)]: the scalar
    index passed to the inner unchecked accessor; [None] when [index_in_block] is too large. *)
Definition block_get (block_size global_index index_in_block : nat) : option nat :=
  if decide (index_in_block < block_size) then Some (block_size * global_index + index_in_block) else None.

(** ** coloring.rs *)

(** coloring.rs:23-28 [is_blocked]. *)
Definition is_blocked (table : list Z) (color : Z) (subset : list nat) : bool :=
  existsb (fun n => match table !! n with Some c => Z.eqb c color | None => false end) subset.

(** Vec::resize(n, x): truncate or extend (std), used at coloring.rs:42. *)
Definition vec_resize {A} (l : list A) (n : nat) (x : A) : list A := take n (l ++ replicate (n - length l) x).

(** coloring.rs:37-44: update of the visitor table for one node. *)
Definition table_mark (table : list Z) (color : Z) (n : nat) : list Z :=
  match table !! n with
  | Some _ => <[n := color]> table
  | None => <[n := color]> (vec_resize table (2 * n + 1) (-1)%Z)
  end.

(** State of the inner loop, coloring.rs:18-20 and 8. *)
Record pass_state := PassState {
  ps_table : list Z;
  ps_subsets : nvec nat;
  ps_labels : list nat;
  ps_max : option nat;
  ps_postponed : list nat;
}.

(** coloring.rs:21-49: body of the inner loop. *)
Definition pass_step (subsets : nvec nat) (color : Z) (st : pass_state) (idx : nat)
  : outcome not_disjoint pass_state :=
  match nv_get subsets idx with
  | None => Panic
  | Some subset =>
      if is_blocked (ps_table st) color subset then
        Ok (PassState (ps_table st) (ps_subsets st) (ps_labels st) (ps_max st) (ps_postponed st ++ [idx]))
      else
        let '(m, tb) := foldl (fun '(m, tb) n =>
             (match m with Some c => Some (max n c) | None => Some n end, table_mark tb color n))
             (ps_max st, ps_table st) subset in
        Ok (PassState tb (nv_push (ps_subsets st) subset) (ps_labels st ++ [idx]) m (ps_postponed st))
  end.

(** i32::MAX, coloring.rs:63. *)
Definition i32_max : Z := 2147483647%Z.

(** coloring.rs:17-67: the outer loop, on fuel; [None] is fuel exhaustion (excluded by theorem).
    [debug] includes the consistency check of coloring.rs:52-54. *)
Fixpoint coloring_loop (ord : nat -> list nat -> list nat) (debug : bool) (fuel : nat) (subsets : nvec nat)
    (table : list Z) (color : Z) (current : list nat) (colors : list dsubs)
  : option (outcome not_disjoint (list dsubs)) :=
  match current with
  | [] => Some (Ok colors)
  | _ =>
      match fuel with
      | 0 => None
      | S fuel =>
          match ofold (pass_step subsets color) (PassState table nv_new [] None []) current with
          | Err e => Some (Err e)
          | Panic => Some Panic
          | Ok st =>
              if debug && match try_from_disjoint_subsets ord (ps_subsets st) (ps_labels st) with
                          | Ok _ => false | _ => true end
              then Some Panic
              else
                match from_disjoint_subsets_unchecked (ps_subsets st) (ps_labels st) (ps_max st) with
                | Ok c =>
                    if Z.ltb color i32_max then
                      coloring_loop ord debug fuel subsets (ps_table st) (color + 1)%Z
                        (ps_postponed st) (colors ++ [c])
                    else Some Panic
                | _ => Some Panic
                end
          end
      end
  end.

(** coloring.rs:6-70 [sequential_greedy_coloring]. *)
Definition sequential_greedy_coloring ord debug (subsets : nvec nat)
  : option (outcome not_disjoint (list dsubs)) :=
  coloring_loop ord debug (nv_len subsets) subsets [] 0%Z (seq 0 (nv_len subsets)) [].

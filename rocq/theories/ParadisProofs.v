(** Proofs about DisjointSubsets, producers and the block adapter. *)
From stdpp Require Import base list list_numbers.
From Coq Require Import Lia ZArith.
From Verif Require Import Prelude NestedVecModel NestedVecSpec NestedVecProofs ParadisModel ParadisSpec.

(** ** try_from_disjoint_subsets *)

Lemma scan_subset_gen s m loc : NoDup loc ->
  exists loc', foldl (fun '(m, loc) i => (max_upd m i, (set_insert loc i).1)) (m, loc) s
               = (foldl max_upd m s, loc') /\ NoDup loc' /\ (forall n, n ∈ loc' <-> n ∈ loc \/ n ∈ s).
Proof.
  revert m loc. induction s as [|i s IH]; intros m loc Hnd; simpl.
  - exists loc. split_and!; try done. intros n. rewrite elem_of_nil. tauto.
  - unfold set_insert at 2. destruct (decide (i ∈ loc)) as [Hin|Hnin]; simpl.
    + destruct (IH (max_upd m i) loc Hnd) as (loc' & -> & Hnd' & Hel). exists loc'. split_and!; try done.
      intros n. rewrite Hel, elem_of_cons. naive_solver.
    + destruct (IH (max_upd m i) (i :: loc)) as (loc' & -> & Hnd' & Hel); [by constructor|].
      exists loc'. split_and!; try done. intros n. rewrite Hel, !elem_of_cons. naive_solver.
Qed.

Lemma scan_subset_spec m s :
  exists loc, scan_subset m s = (foldl max_upd m s, loc) /\ NoDup loc /\ (forall n, n ∈ loc <-> n ∈ s).
Proof.
  destruct (scan_subset_gen s m []) as (loc & H & Hnd & Hel); [constructor|].
  exists loc. split_and!; try done. intros n. rewrite Hel, elem_of_nil. tauto.
Qed.

Lemma insert_all_some glob xs : NoDup xs -> (forall n, n ∈ xs -> n ∉ glob) ->
  exists g', insert_all glob xs = Some g' /\ (forall n, n ∈ g' <-> n ∈ glob \/ n ∈ xs).
Proof.
  revert glob. induction xs as [|i xs IH]; intros glob Hnd Hd; simpl.
  - exists glob. split; [done|]. intros n. rewrite elem_of_nil. tauto.
  - unfold set_insert. rewrite decide_False by (apply Hd; by left).
    inversion_clear Hnd as [|?? Hni Hnd'].
    destruct (IH (i :: glob) Hnd') as (g' & -> & Hel).
    { intros n Hn. rewrite elem_of_cons. intros [->|Hg]; [done|]. by eapply Hd; [right|]. }
    exists g'. split; [done|]. intros n. rewrite Hel, !elem_of_cons. naive_solver.
Qed.

Lemma insert_all_none glob xs n : n ∈ xs -> n ∈ glob -> insert_all glob xs = None.
Proof.
  revert glob. induction xs as [|i xs IH]; intros glob Hn Hg; simpl; [by apply elem_of_nil in Hn|].
  unfold set_insert. destruct (decide (i ∈ glob)) as [|Hni]; [done|].
  apply elem_of_cons in Hn as [->|Hn]; [done|]. apply IH; [done|]. by right.
Qed.

Lemma share_dec s t : {share s t} + {~ share s t}.
Proof.
  destruct (decide (Exists (fun n => n ∈ t) s)) as [H|H].
  - left. apply Exists_exists in H as (n & ? & ?). by exists n.
  - right. intros (n & ? & ?). apply H, Exists_exists. by exists n.
Qed.

Lemma pairwise_disjoint_cons s ls :
  pairwise_disjoint (s :: ls) <->
  (forall t, t ∈ ls -> ~ share s t) /\ pairwise_disjoint ls.
Proof.
  split.
  - intros H. split.
    + intros t Ht. apply elem_of_list_lookup in Ht as [j Hj]. by apply (H 0 (S j)).
    + intros i j s' t' Hij Hi Hj. apply (H (S i) (S j)); auto.
  - intros [H1 H2] i j s' t' Hij Hi Hj. destruct i as [|i], j as [|j]; simpl in *; simplify_eq.
    + apply H1. by eapply elem_of_list_lookup_2.
    + intros (n & ? & ?). eapply H1; [by eapply elem_of_list_lookup_2|]. by exists n.
    + eapply H2; [|done..]. lia.
Qed.

Lemma check_disjoint_spec ord ls : hash_order ord -> forall k m glob,
  (forall m', check_disjoint ord k m glob ls = Some m' ->
     m' = foldl max_upd m (concat ls) /\ pairwise_disjoint ls /\
     (forall s n, s ∈ ls -> n ∈ s -> n ∉ glob)) /\
  (pairwise_disjoint ls -> (forall s n, s ∈ ls -> n ∈ s -> n ∉ glob) ->
     check_disjoint ord k m glob ls = Some (foldl max_upd m (concat ls))).
Proof.
  intros Hord. induction ls as [|s ls IH]; intros k m glob; simpl.
  - split.
    + intros m' [= <-]. split_and!; try done. intros ? ? Hs. by apply elem_of_nil in Hs.
    + done.
  - destruct (scan_subset_spec m s) as (loc & -> & Hnd & Hel).
    assert (NoDup (ord k loc)) as Hnd' by (by rewrite (Hord k loc)).
    assert (forall n, n ∈ ord k loc <-> n ∈ s) as Hel'.
    { intros n. rewrite (Hord k loc). apply Hel. }
    destruct (decide (Exists (fun n => n ∈ glob) (ord k loc))) as [He|Hne].
    + apply Exists_exists in He as (n & Hn & Hg).
      rewrite (insert_all_none glob _ n) by done. split; [done|].
      intros _ Hd. exfalso. apply (Hd s n); [by left|by apply Hel'|done].
    + assert (forall n, n ∈ ord k loc -> n ∉ glob) as Hd.
      { intros n Hn Hg. apply Hne, Exists_exists. eauto. }
      destruct (insert_all_some glob (ord k loc) Hnd' Hd) as (g' & -> & Hg').
      destruct (IH (S k) (foldl max_upd m s) g') as [IH1 IH2]. rewrite foldl_app. split.
      * intros m' Hm'. destruct (IH1 m' Hm') as (-> & Hpd & Hnin). split_and!; [done| |].
        -- apply pairwise_disjoint_cons. split; [|done]. intros t Ht (n & Hs & Ht').
           apply (Hnin t n Ht Ht'). apply Hg'. right. by apply Hel'.
        -- intros t n Ht Hn. apply elem_of_cons in Ht as [->|Ht].
           ++ apply Hd. by apply Hel'.
           ++ intros Hg. apply (Hnin t n Ht Hn). apply Hg'. by left.
      * intros Hpd Hnin. apply pairwise_disjoint_cons in Hpd as [Hp1 Hp2]. apply IH2; [done|].
        intros t n Ht Hn Hg. apply Hg' in Hg as [Hg|Hg].
        -- apply (Hnin t n); [by right|done|done].
        -- apply (Hp1 t Ht). exists n. split; [by apply Hel'|done].
Qed.

Lemma max_upd_fold_spec xs : forall m,
  match foldl max_upd m xs with
  | None => m = None /\ xs = []
  | Some x => (m = Some x \/ x ∈ xs) /\ (forall y, m = Some y -> y <= x) /\ forall n, n ∈ xs -> n <= x
  end.
Proof.
  induction xs as [|i xs IH]; intros m; simpl.
  - destruct m as [x|]; [|done]. split_and!; [by left| |].
    + intros y [= ->]. done.
    + intros n Hn. by apply elem_of_nil in Hn.
  - specialize (IH (max_upd m i)). destruct (foldl max_upd (max_upd m i) xs) as [x|].
    + destruct IH as (H1 & H2 & H3). split_and!.
      * destruct H1 as [H1|H1]; [|right; by right]. destruct m as [c|]; simpl in H1; simplify_eq.
        -- destruct (decide (c <= i)).
           ++ right. rewrite Nat.max_r by done. by left.
           ++ left. by rewrite Nat.max_l by lia.
        -- right. by left.
      * intros y ->. simpl in H2. specialize (H2 _ eq_refl). lia.
      * intros n Hn. apply elem_of_cons in Hn as [->|Hn]; [|auto].
        destruct m; simpl in H2; specialize (H2 _ eq_refl); lia.
    + destruct IH as [H _]. by destruct m.
Qed.

Lemma concat_elem {A} (ls : list (list A)) n : n ∈ concat ls <-> exists s, s ∈ ls /\ n ∈ s.
Proof.
  induction ls as [|s ls IH]; simpl.
  - split; [intros H; by apply elem_of_nil in H|]. intros (s & Hs & _). by apply elem_of_nil in Hs.
  - rewrite elem_of_app, IH. split.
    + intros [H|(t & ? & ?)]; [exists s; split; [by left|done]|exists t; split; [by right|done]].
    + intros (t & Ht & Hn). apply elem_of_cons in Ht as [->|Ht]; [by left|right; eauto].
Qed.

Lemma max_upd_is_max ls : is_max (foldl max_upd None (concat ls)) ls.
Proof.
  pose proof (max_upd_fold_spec (concat ls) None) as H. unfold is_max.
  destruct (foldl max_upd None (concat ls)) as [x|].
  - destruct H as ([?|Hx] & _ & Hn); [done|]. split.
    + by apply concat_elem.
    + intros s n Hs Hns. apply Hn, concat_elem. eauto.
  - destruct H as [_ H]. intros s Hs. destruct s as [|n s]; [done|].
    assert (n ∈ concat ls) as Hn by (apply concat_elem; exists (n :: s); split; [done|by left]).
    rewrite H in Hn. by apply elem_of_nil in Hn.
Qed.

(** C03 *)
Lemma try_from_spec ord (v : nvec nat) (ls : list (list nat)) labels :
  hash_order ord -> nv_len v = length ls -> nv_iter v = Some ls ->
  match try_from_disjoint_subsets ord v labels with
  | Ok d => length labels = length ls /\ pairwise_disjoint ls /\
            ds_subsets d = v /\ ds_labels d = labels /\ is_max (ds_max d) ls
  | Err NotDisjoint => length labels = length ls /\ ~ pairwise_disjoint ls
  | Panic => length labels <> length ls
  end.
Proof.
  intros Hord Hlen Hit. unfold try_from_disjoint_subsets. rewrite Hlen, Hit.
  destruct (decide (length ls = length labels)) as [Hl|Hl]; [|congruence].
  destruct (check_disjoint_spec ord ls Hord 0 None []) as [H1 H2].
  destruct (check_disjoint ord 0 None [] ls) as [m|] eqn:E.
  - destruct (H1 m eq_refl) as (-> & Hpd & _). split_and!; simpl; try done. apply max_upd_is_max.
  - split; [done|]. intros Hpd.
    assert (None = Some (foldl max_upd None (concat ls))) as Hc; [|discriminate Hc].
    apply H2; [done|]. intros s n _ _. apply not_elem_of_nil.
Qed.

(** The result does not depend on the iteration order. *)
Lemma try_from_order_irrelevant ord1 ord2 v labels :
  hash_order ord1 -> hash_order ord2 ->
  try_from_disjoint_subsets ord1 v labels = try_from_disjoint_subsets ord2 v labels.
Proof.
  intros H1 H2. unfold try_from_disjoint_subsets. destruct (decide _); [|done].
  destruct (nv_iter v) as [ls|]; [|done].
  destruct (check_disjoint_spec ord1 ls H1 0 None []) as [A1 B1].
  destruct (check_disjoint_spec ord2 ls H2 0 None []) as [A2 B2].
  assert (forall s n, s ∈ ls -> n ∈ s -> n ∉ []) as Hnil by (intros; apply not_elem_of_nil).
  destruct (check_disjoint ord1 0 None [] ls) as [m1|] eqn:E1.
  - destruct (A1 m1 eq_refl) as (-> & Hpd & _). by rewrite (B2 Hpd Hnil).
  - destruct (check_disjoint ord2 0 None [] ls) as [m2|] eqn:E2; [|done].
    destruct (A2 m2 eq_refl) as (-> & Hpd & _). pose proof (B1 Hpd Hnil) as Hc. discriminate Hc.
Qed.

(** ** Producers and iterators *)

(** A well-formed value: its NestedVec is observably [ls] and there is one label per subset. *)
Definition wf_ds (d : dsubs) (ls : list (list nat)) : Prop :=
  nv_len (ds_subsets d) = length ls /\ (forall i, nv_get (ds_subsets d) i = ls !! i) /\
  length (ds_labels d) = length ls.

Definition all_items (d : dsubs) (ls : list (list nat)) := zip_with SubsetAccess (ds_labels d) ls.

Lemma item_at_spec d ls k : wf_ds d ls -> item_at d k = all_items d ls !! k.
Proof.
  intros (_ & Hget & Hlen). unfold item_at, all_items. rewrite lookup_zip_with.
  destruct (ds_labels d !! k) as [l|]; simpl; [|done]. rewrite Hget. by destruct (ls !! k).
Qed.

Lemma all_items_length d ls : wf_ds d ls -> length (all_items d ls) = length ls.
Proof. intros (_ & _ & Hlen). unfold all_items. rewrite zip_with_length. lia. Qed.

(** Items remaining in an iterator. *)
Definition rest (d : dsubs) ls (it : iter) : list subset_access :=
  items_in (ds_labels d) ls (it_cur it) (it_len it).

Lemma rest_length d ls it : wf_ds d ls -> it_end it <= length ls -> length (rest d ls it) = it_len it.
Proof.
  intros Hwf He. unfold rest, items_in. fold (all_items d ls).
  rewrite take_length, drop_length, all_items_length by done. unfold it_len. lia.
Qed.

Lemma next_spec d ls it : wf_ds d ls -> it_end it <= length ls ->
  exists r it', it_next d it = Ok (r, it') /\ it_end it' <= length ls /\
    (match r with Some a => [a] | None => [] end) ++ rest d ls it' = rest d ls it /\
    (it_len it = 0 <-> r = None) /\ (r = None -> it' = it).
Proof.
  intros Hwf He. unfold it_next. destruct (decide (it_cur it < it_end it)) as [Hlt|Hge].
  - rewrite (item_at_spec d ls) by done.
    destruct (lookup_lt_is_Some_2 (all_items d ls) (it_cur it)) as [a Ha].
    { rewrite all_items_length by done. lia. }
    rewrite Ha. eexists _, _. split; [done|]. simpl. split; [done|]. split.
    + unfold rest, items_in, it_len. fold (all_items d ls). simpl.
      rewrite (drop_S _ a (it_cur it)) by done.
      replace (it_end it - it_cur it) with (S (it_end it - S (it_cur it))) by lia. done.
    + unfold it_len. split; [|done]. split; [lia|done].
  - eexists _, _. split; [done|]. split_and!; try done. unfold it_len. split; [done|lia].
Qed.

Lemma next_back_spec d ls it : wf_ds d ls -> it_end it <= length ls ->
  exists r it', it_next_back d it = Ok (r, it') /\ it_end it' <= length ls /\
    rest d ls it' ++ (match r with Some a => [a] | None => [] end) = rest d ls it /\
    (it_len it = 0 <-> r = None) /\ (r = None -> it' = it).
Proof.
  intros Hwf He. unfold it_next_back. destruct (decide (it_cur it < it_end it)) as [Hlt|Hge].
  - rewrite (item_at_spec d ls) by done.
    destruct (lookup_lt_is_Some_2 (all_items d ls) (it_end it - 1)) as [a Ha].
    { rewrite all_items_length by done. lia. }
    rewrite Ha. eexists _, _. split; [done|]. simpl. split; [lia|]. split.
    + unfold rest, items_in, it_len. fold (all_items d ls). simpl.
      replace (it_end it - it_cur it) with (S (it_end it - 1 - it_cur it)) by lia.
      erewrite take_S_r; [done|]. rewrite lookup_drop.
      replace (it_cur it + (it_end it - 1 - it_cur it)) with (it_end it - 1) by lia. done.
    + unfold it_len. split; [|done]. split; [lia|done].
  - eexists _, _. split; [done|]. split_and!; try done.
    + by rewrite app_nil_r.
    + unfold it_len. split; [done|lia].
Qed.

Lemma run_script_spec d ls script : wf_ds d ls -> forall it, it_end it <= length ls ->
  exists items it', run_script d it script = Ok (items, it') /\ it_end it' <= length ls /\
    items ++ rest d ls it' ≡ₚ rest d ls it.
Proof.
  intros Hwf. induction script as [|fwd script IH]; intros it He; simpl.
  - exists [], it. done.
  - destruct fwd.
    + destruct (next_spec d ls it Hwf He) as (r & it1 & -> & He1 & Hr & _). simpl.
      destruct (IH it1 He1) as (items & it' & -> & He' & Hp). simpl.
      eexists _, _. split; [done|]. split; [done|]. rewrite <- app_assoc, Hp. by rewrite Hr.
    + destruct (next_back_spec d ls it Hwf He) as (r & it1 & -> & He1 & Hr & _). simpl.
      destruct (IH it1 He1) as (items & it' & -> & He' & Hp). simpl.
      eexists _, _. split; [done|]. split; [done|]. rewrite <- app_assoc, Hp, <- Hr.
      by rewrite (Permutation_app_comm _ (rest d ls it1)).
Qed.

Lemma items_in_split labels ls from n index : index <= n ->
  items_in labels ls from n =
  items_in labels ls from index ++ items_in labels ls (from + index) (n - index).
Proof.
  intros H. unfold items_in. set (z := zip_with SubsetAccess labels ls).
  rewrite <- drop_drop. rewrite <- (take_drop index (take n (drop from z))).
  rewrite take_take, Nat.min_l by done. f_equal.
  rewrite skipn_firstn_comm. done.
Qed.

Lemma run_tree_spec d ls t : wf_ds d ls -> forall p, p_start p + p_len p <= length ls ->
  valid_splits t (p_len p) ->
  exists items its, run_tree d p t = Ok (items, its) /\
    Forall (fun it => it_end it <= length ls) its /\
    items ++ concat (map (rest d ls) its) ≡ₚ items_in (ds_labels d) ls (p_start p) (p_len p).
Proof.
  intros Hwf. induction t as [script|index l IHl r IHr]; intros p Hp Hv; simpl in *.
  - destruct (run_script_spec d ls script Hwf (p_into_iter p)) as (items & it' & -> & He & Hperm).
    { simpl. lia. }
    simpl. eexists _, _. split; [done|]. split; [by repeat constructor|]. simpl. rewrite app_nil_r, Hperm.
    unfold rest, p_into_iter, it_len. simpl. by replace (p_len p + p_start p - p_start p) with (p_len p) by lia.
  - destruct Hv as (Hi & Hvl & Hvr). unfold p_split_at. rewrite decide_True by done. simpl.
    destruct (IHl (Producer (p_start p) index)) as (il & itl & -> & Hfl & Hpl); simpl; [lia|done|].
    destruct (IHr (Producer (p_start p + index) (p_len p - index))) as (ir & itr & -> & Hfr & Hpr); simpl; [lia|done|].
    simpl. eexists _, _. split; [done|]. split; [by apply Forall_app|].
    rewrite (items_in_split _ _ _ (p_len p) index) by lia. simpl in *. rewrite <- Hpl, <- Hpr.
    rewrite map_app, concat_app. rewrite <- !app_assoc. f_equiv. rewrite !app_assoc. f_equiv.
    apply Permutation_app_comm.
Qed.

Lemma run_tree_invalid_panics d ls t p : wf_ds d ls -> p_start p + p_len p <= length ls ->
  ~ valid_splits t (p_len p) -> run_tree d p t = Panic.
Proof.
  intros Hwf. revert p. induction t as [script|index l IHl r IHr]; intros p Hp Hnv; simpl in *; [tauto|].
  unfold p_split_at. destruct (decide (index < p_len p)) as [Hi|Hi]; [|done]. simpl.
  destruct (run_tree d (Producer (p_start p) index) l) as [[il itl]|[]|] eqn:El; simpl; try done.
  rewrite (IHr (Producer (p_start p + index) (p_len p - index))); simpl; [done|lia|].
  intros Hvr. apply Hnv. split; [done|]. split; [|done].
  assert (forall t n, {valid_splits t n} + {~ valid_splits t n}) as Hdec.
  { clear. induction t as [|i l IHl r IHr]; intros n; simpl; [by left|].
    destruct (decide (i < n)); [|right; tauto]. destruct (IHl i); [|right; tauto].
    destruct (IHr (n - i)); [by left|right; tauto]. }
  destruct (Hdec l index) as [|Hnl]; [done|].
  rewrite (IHl (Producer (p_start p) index)) in El; simpl in *; [done|lia|done].
Qed.

(** ** Access safety *)

Lemma par_iter_start_release d ls n : nv_len (ds_subsets d) = length ls -> is_max (ds_max d) ls ->
  match par_iter_start false d n with
  | Ok r => r = (0, length ls) /\ forall s i, s ∈ ls -> i ∈ s -> i < n
  | Err _ => False
  | Panic => exists s i, s ∈ ls /\ i ∈ s /\ n <= i
  end.
Proof.
  intros Hlen Hm. unfold par_iter_start. destruct (ds_max d) as [m|]; simpl in *.
  - destruct Hm as [(s & Hs & Hms) Hmax]. case_bool_decide; simpl.
    + rewrite Hlen. split; [done|]. intros s' i Hs' Hi. specialize (Hmax s' i Hs' Hi). lia.
    + exists s, m. split_and!; try done. lia.
  - rewrite Hlen. split; [done|]. intros s i Hs Hi. rewrite (Hm s Hs) in Hi. by apply elem_of_nil in Hi.
Qed.

Lemma par_iter_start_ok_debug debug d n r : par_iter_start debug d n = Ok r -> par_iter_start false d n = Ok r.
Proof.
  unfold par_iter_start. destruct (match ds_max d with None => true | Some m => _ end); [|done].
  destruct (debug && _); [done|]. done.
Qed.

Lemma all_items_lookup d ls i a : all_items d ls !! i = Some a -> ls !! i = Some (sa_indices a) /\ ds_labels d !! i = Some (sa_label a).
Proof.
  unfold all_items. intros H. apply lookup_zip_with_Some in H as (l & s & -> & Hl & Hs). done.
Qed.

Lemma block_get_inj bs g1 g2 k1 k2 x :
  block_get bs g1 k1 = Some x -> block_get bs g2 k2 = Some x -> g1 = g2 /\ k1 = k2.
Proof.
  unfold block_get. destruct (decide (k1 < bs)); [|done]. destruct (decide (k2 < bs)); [|done].
  intros [= <-] [= H]. apply (Nat.div_mod_unique bs); lia.
Qed.

Lemma block_get_bound coll bs n g k x :
  block_adapter_len coll bs = Ok n -> g < n -> block_get bs g k = Some x -> x < coll.
Proof.
  unfold block_adapter_len. destruct (decide (0 < bs)); [|done].
  destruct (decide (coll mod bs = 0)); [|done]. intros [= <-] Hg.
  unfold block_get. destruct (decide (k < bs)); [|done]. intros [= <-].
  assert (coll = bs * (coll / bs)) by (apply Nat.div_exact; lia). nia.
Qed.

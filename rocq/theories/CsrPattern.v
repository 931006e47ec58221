(** Proofs about sparsity patterns, serial and parallel. *)
From stdpp Require Import base list list_numbers sorting relations.
From Coq Require Import Lia ZArith.
From Verif Require Import Prelude NestedVecModel NestedVecSpec NestedVecProofs ParadisModel ParadisSpec
  ParadisProofs ColoringProofs ParadisSafety VectorModel VectorSpec VectorProofs VectorParProofs VectorColors VectorAgree
  CsrModel CsrSpec CsrProofs CsrSerial.

Set Default Proof Using "Type".

(** ** Node sets *)

(** [sets] are duplicate-free sets holding exactly the couplings. *)
Definition sets_hold (n : nat) (R : nat -> nat -> Prop) (sets : list (list nat)) : Prop :=
  length sets = n /\ forall a s, sets !! a = Some s -> NoDup s /\ forall b, b ∈ s <-> R a b.

Lemma set_insert_spec s b : NoDup s -> NoDup (set_insert s b).1 /\ forall x, x ∈ (set_insert s b).1 <-> x ∈ s \/ x = b.
Proof.
  intros Hnd. unfold set_insert. destruct (decide (b ∈ s)) as [Hb|Hb]; simpl.
  - split; [done|]. intros x. split; [by left|]. intros [?| ->]; done.
  - split; [by constructor|]. intros x. rewrite elem_of_cons. tauto.
Qed.

Lemma insert_list_spec ns : forall s, NoDup s ->
  NoDup (foldl (fun s b => (set_insert s b).1) s ns) /\
  forall x, x ∈ foldl (fun s b => (set_insert s b).1) s ns <-> x ∈ s \/ x ∈ ns.
Proof.
  induction ns as [|b ns IH]; intros s Hnd; simpl.
  - split; [done|]. intros x. rewrite elem_of_nil. tauto.
  - destruct (set_insert_spec s b Hnd) as [H1 H2]. destruct (IH _ H1) as [H3 H4]. split; [done|].
    intros x. rewrite H4, H2, elem_of_cons. tauto.
Qed.

Lemma sets_hold_ext n (R R' : nat -> nat -> Prop) sets : (forall a b, a < n -> R a b <-> R' a b) -> sets_hold n R sets -> sets_hold n R' sets.
Proof.
  intros H [Hl Hs]. split; [done|]. intros a s Ha. destruct (Hs a s Ha) as [H1 H2]. split; [done|].
  intros b. rewrite H2. apply H. apply lookup_lt_Some in Ha. lia.
Qed.

Lemma sets_hold_insert n R sets a ns s : sets_hold n R sets -> sets !! a = Some s ->
  sets_hold n (fun x y => R x y \/ (x = a /\ y ∈ ns)) (<[a := foldl (fun s b => (set_insert s b).1) s ns]> sets).
Proof.
  intros [Hl Hs] Ha. split; [by rewrite insert_length|]. intros x t Hx.
  destruct (decide (a = x)) as [<-|Hne].
  - rewrite list_lookup_insert in Hx by (by eapply lookup_lt_Some). simplify_eq.
    destruct (Hs a s Ha) as [H1 H2]. destruct (insert_list_spec ns s H1) as [H3 H4]. split; [done|].
    intros b. rewrite H4, H2. tauto.
  - rewrite list_lookup_insert_ne in Hx by done. destruct (Hs x t Hx) as [H1 H2]. split; [done|].
    intros b. rewrite H2. naive_solver.
Qed.

Lemma insert_pairs_loop {E} n (L : list (nat * nat)) : forall R sets, sets_hold n R sets -> (forall a b, (a, b) ∈ L -> a < n) ->
  exists sets', ofold (fun sets '(a, b) =>
    match sets !! a with Some s => Ok (<[a := (set_insert s b).1]> sets) | None => Panic end) sets L = @Ok E _ sets' /\
    sets_hold n (fun x y => R x y \/ (x, y) ∈ L) sets'.
Proof.
  induction L as [|[a b] L IH]; intros R sets Hs Hin; simpl.
  - exists sets. split; [done|]. eapply sets_hold_ext; [|exact Hs]. intros x y _. rewrite elem_of_nil. tauto.
  - destruct (lookup_lt_is_Some_2 sets a) as [s Ha]; [rewrite (proj1 Hs); apply (Hin a b); by left|]. rewrite Ha.
    destruct (IH _ _ (sets_hold_insert n R sets a [b] s Hs Ha)) as (sets' & Hrun & Hs'); [intros; eapply Hin; by right|].
    exists sets'. split; [exact Hrun|]. eapply sets_hold_ext; [|exact Hs'].
    intros x y _. simpl. rewrite elem_of_list_singleton, elem_of_cons. naive_solver.
Qed.

Lemma insert_pairs_spec {E} n R sets ns : sets_hold n R sets -> (forall a, a ∈ ns -> a < n) ->
  exists sets', @insert_pairs E sets ns = Ok sets' /\ sets_hold n (fun x y => R x y \/ (x ∈ ns /\ y ∈ ns)) sets'.
Proof.
  intros Hs Hin. unfold insert_pairs.
  assert (forall a b, (a, b) ∈ (a ← ns; b ← ns; [(a, b)]) <-> a ∈ ns /\ b ∈ ns) as Hp.
  { intros a b. rewrite elem_of_list_bind. split.
    - intros (a' & H & Ha). apply elem_of_list_bind in H as (b' & H & Hb). apply elem_of_list_singleton in H. by simplify_eq.
    - intros [Ha Hb]. exists a. split; [|done]. apply elem_of_list_bind. exists b. split; [by left|done]. }
  destruct (@insert_pairs_loop E n (a ← ns; b ← ns; [(a, b)]) R sets Hs) as (sets' & Hrun & Hs').
  { intros a b Hab. apply Hp in Hab as [Ha _]. by apply Hin. }
  exists sets'. split; [exact Hrun|]. eapply sets_hold_ext; [|exact Hs']. intros x y _. simpl. by rewrite Hp.
Qed.

Lemma node_sets_spec {E} umax c ls : has_conn c ls -> nodes_in_range (ca_nodes c) ls ->
  exists sets, @node_sets E umax c = Ok sets /\ sets_hold (ca_nodes c) (coupled ls) sets.
Proof.
  intros [Hl Hc] Hr. unfold node_sets. rewrite <- Hl.
  assert (forall m k sets buf, k + m = length ls -> sets_hold (ca_nodes c) (coupled (take k ls)) sets ->
    exists sets' buf', ofold (fun '(sets, buf) i =>
      let buf := ca_populate c i (vec_resize buf (ca_count c i) umax) in
      let! sets := insert_pairs sets buf in Ok (sets, buf)) (sets, buf) (seq k m) = @Ok E _ (sets', buf') /\
    sets_hold (ca_nodes c) (coupled ls) sets') as H.
  { induction m as [|m IH]; intros k sets buf Hk Hs; simpl.
    - exists sets, buf. split; [done|]. by rewrite take_ge in Hs by lia.
    - destruct (lookup_lt_is_Some_2 ls k) as [ns Hns]; [lia|]. destruct (Hc k ns Hns) as [H1 H2].
      rewrite H1, H2 by apply vec_resize_length.
      destruct (insert_pairs_spec (E := E) (ca_nodes c) _ sets ns Hs) as (sets1 & -> & Hs1).
      { intros a Ha. eapply Hr; [by eapply elem_of_list_lookup_2|done]. }
      simpl. apply IH; [lia|]. eapply sets_hold_ext; [|exact Hs1]. intros a b _. simpl.
      rewrite (take_S_r _ _ _ Hns). unfold coupled. setoid_rewrite elem_of_app. setoid_rewrite elem_of_list_singleton. naive_solver. }
  destruct (H (length ls) 0 (replicate (ca_nodes c) []) []) as (sets & buf & Hrun & Hs); [lia| |].
  - split; [by rewrite replicate_length|]. intros a s Ha. apply lookup_replicate in Ha as [-> _]. split; [constructor|].
    intros b. rewrite elem_of_nil. unfold coupled. setoid_rewrite elem_of_nil. naive_solver.
  - exists sets. split; [|exact Hs]. exact (f_equal (fun o => obind o (fun st => Ok st.1)) Hrun).
Qed.

(** ** Flat patterns of a list of rows *)
Definition flat (rows : list (list nat)) (n : nat) : pattern :=
  Pattern (map (fun r => length (concat (take r rows))) (seq 0 (S (length rows)))) (concat rows) n.

Lemma flat_offs rows n r : pt_offs (flat rows n) !! r =
  if decide (r <= length rows) then Some (length (concat (take r rows))) else None.
Proof.
  unfold flat, pt_offs. rewrite list_lookup_fmap. destruct (decide _).
  - rewrite lookup_seq_lt by lia. done.
  - rewrite lookup_seq_ge by lia. done.
Qed.

Lemma flat_offs_length rows n : length (pt_offs (flat rows n)) = S (length rows).
Proof. unfold flat, pt_offs. by rewrite map_length, seq_length. Qed.

Lemma concat_split (rows : list (list nat)) r row : rows !! r = Some row ->
  concat rows = concat (take r rows) ++ row ++ concat (drop (S r) rows).
Proof. intros H. rewrite <- (take_drop_middle rows r row H) at 1. by rewrite concat_app. Qed.

Lemma flat_stored rows n r c pos : stored (flat rows n) r c pos <->
  exists row i, rows !! r = Some row /\ row !! i = Some c /\ pos = length (concat (take r rows)) + i.
Proof.
  unfold stored. setoid_rewrite flat_offs. split.
  - intros (b & e & Hb & He & Hpos & Hc). destruct (decide (r <= length rows)); [|done].
    destruct (decide (S r <= length rows)) as [Hr|]; [|done].
    destruct (lookup_lt_is_Some_2 rows r) as [row Hrow]; [lia|].
    rewrite (take_S_r _ _ _ Hrow), concat_app, app_length in He. simpl in He. rewrite app_nil_r in He. simplify_eq.
    exists row, (pos - length (concat (take r rows))). split_and!; [done| |lia].
    simpl in Hc. rewrite (concat_split _ _ _ Hrow) in Hc.
    rewrite lookup_app_r, lookup_app_l in Hc by lia. done.
  - intros (row & i & Hrow & Hi & ->). assert (r < length rows) by (by eapply lookup_lt_Some).
    assert (i < length row) by (by eapply lookup_lt_Some).
    exists (length (concat (take r rows))), (length (concat (take (S r) rows))).
    rewrite !decide_True by lia. split_and!; [done|done|lia| |].
    + rewrite (take_S_r _ _ _ Hrow), concat_app, app_length. simpl. rewrite app_nil_r. lia.
    + simpl. rewrite (concat_split _ _ _ Hrow).
      rewrite lookup_app_r, lookup_app_l by lia. by replace (_ + i - _) with i by lia.
Qed.

Lemma flat_wf rows n : Forall (fun row => pos_lt row /\ Forall (fun c => c < n) row) rows -> pat_wf (flat rows n).
Proof.
  intros HF. rewrite Forall_lookup in HF. split_and!.
  - by rewrite flat_offs, decide_True by lia.
  - intros r b e Hb He. rewrite flat_offs in Hb, He. repeat case_decide; simplify_eq.
    destruct (lookup_lt_is_Some_2 rows r) as [row Hrow]; [lia|].
    rewrite (take_S_r _ _ _ Hrow), concat_app, app_length. lia.
  - rewrite last_lookup, flat_offs_length. simpl pred.
    rewrite flat_offs, decide_True, take_ge by lia. done.
  - intros r c d i j Hi Hj Hij. apply flat_stored in Hi as (row & i' & H1 & H2 & ->). apply flat_stored in Hj as (row' & j' & H3 & H4 & ->).
    simplify_eq. destruct (HF _ _ H1) as [Hlt _]. eapply (Hlt i' j'); [lia|done|done].
  - intros r c i Hi. apply flat_stored in Hi as (row & i' & H1 & H2 & ->). destruct (HF _ _ H1) as [_ Hb].
    rewrite Forall_lookup in Hb. by eapply Hb.
Qed.

(** ** Offsets and columns as the flat pattern of the rows *)
Definition pattern_rows (ord : nat -> list nat -> list nat) (s : nat) (sets : list (list nat)) : list (list nat) :=
  concat (imap (fun k set => replicate s (row_cols s (sort_nat (ord k set)))) sets).

Lemma offsets_scan (counts : list nat) : 
  foldl (fun '(offs, cur) c => (offs ++ [cur + c], cur + c)) ([0], 0) counts =
  (map (fun r => sum_list (take r counts)) (seq 0 (S (length counts))), sum_list counts).
Proof.
  induction counts as [|c counts IH] using rev_ind; [done|].
  rewrite foldl_snoc, IH, app_length. simpl length.
  replace (S (length counts + 1)) with (S (length counts) + 1) by lia.
  rewrite (seq_app (S (length counts)) 1). f_equal.
  - rewrite map_app. f_equal.
    + apply list_eq. intros i. rewrite !list_lookup_fmap. destruct (decide (i < S (length counts))) as [Hi|Hi].
      * rewrite !lookup_seq_lt by done. simpl. by rewrite take_app_le by lia.
      * by rewrite !lookup_seq_ge by lia.
    + cbn [seq map]. f_equal. rewrite take_ge by (rewrite app_length; simpl; lia). rewrite sum_list_with_app. simpl. lia.
  - rewrite sum_list_with_app. simpl. lia.
Qed.

Lemma foldl_mbind {A B S} (f : S -> B -> S) (g : A -> list B) (l : list A) (s : S) :
  foldl f s (concat (map g l)) = foldl (fun s x => foldl f s (g x)) s l.
Proof. revert s. induction l as [|x l IH]; intros s; simpl; [done|]. by rewrite foldl_app, IH. Qed.

Lemma pattern_offsets_counts s sets : pattern_offsets s sets =
  foldl (fun '(offs, cur) c => (offs ++ [cur + c], cur + c)) ([0], 0) (concat (map (fun set : list nat => replicate s (s * length set)) sets)).
Proof.
  unfold pattern_offsets. rewrite foldl_mbind. generalize ([0], 0) as st. induction sets as [|set sets IH]; intros st; simpl; [done|].
  rewrite IH. f_equal. clear. 
  assert (forall c m k (st : list nat * nat), foldl (fun '(offs, cur) _ => let count := c in (offs ++ [cur + count], cur + count)) st (seq k m) =
     foldl (fun '(offs, cur) c => (offs ++ [cur + c], cur + c)) st (replicate m c)) as H; [|apply H].
  intros c. induction m as [|m IH]; intros k [offs cur]; simpl; [done|]. apply IH.
Qed.

Lemma row_cols_length s buf : length (row_cols s buf) = s * length buf.
Proof. unfold row_cols. induction buf as [|n buf IH]; [simpl; lia|]. rewrite bind_cons, app_length, IH, map_length, seq_length. simpl. lia. Qed.

Lemma sort_nat_perm l : sort_nat l ≡ₚ l.
Proof. apply merge_sort_Permutation. Qed.

Lemma row_counts ord s sets : hash_order ord ->
  map length (pattern_rows ord s sets) = concat (map (fun set : list nat => replicate s (s * length set)) sets).
Proof.
  intros Ho. unfold pattern_rows. revert ord Ho. induction sets as [|set sets IH]; intros ord Ho; simpl; [done|].
  rewrite map_app. f_equal.
  - rewrite fmap_replicate, row_cols_length. do 2 f_equal. by rewrite (Permutation_length (sort_nat_perm _)), (Permutation_length (Ho 0 set)).
  - exact (IH (fun k => ord (S k)) (fun k => Ho (S k))).
Qed.

Lemma sum_length_concat (rows : list (list nat)) : sum_list (map length rows) = length (concat rows).
Proof. induction rows as [|r rows IH]; simpl; [done|]. by rewrite app_length, <- IH. Qed.

Lemma pattern_cols_concat ord s sets : pattern_cols ord s sets = concat (pattern_rows ord s sets).
Proof.
  unfold pattern_cols, pattern_rows. revert ord. induction sets as [|set sets IH]; intros ord; simpl; [done|].
  rewrite concat_app. f_equal. exact (IH (fun k => ord (S k))).
Qed.

Lemma pattern_offsets_flat ord s sets n : hash_order ord ->
  pattern_offsets s sets = (pt_offs (flat (pattern_rows ord s sets) n), length (concat (pattern_rows ord s sets))).
Proof.
  intros Ho. rewrite pattern_offsets_counts, <- (row_counts ord s sets Ho), offsets_scan. f_equal.
  - unfold flat, pt_offs. rewrite fmap_length. apply map_ext. intros r. rewrite <- sum_length_concat. by rewrite <- fmap_take.
  - apply sum_length_concat.
Qed.

Lemma pattern_rows_length ord s sets : length (pattern_rows ord s sets) = s * length sets.
Proof.
  unfold pattern_rows. revert ord. induction sets as [|set sets IH]; intros ord; simpl; [lia|].
  rewrite app_length, replicate_length. specialize (IH (fun k => ord (S k))). simpl in IH. unfold compose. rewrite IH. lia.
Qed.

Lemma pattern_rows_lookup ord s sets r : 0 < s -> pattern_rows ord s sets !! r =
  (fun set => row_cols s (sort_nat (ord (r / s) set))) <$> sets !! (r / s).
Proof.
  intros Hs. assert (r mod s < s) as Hm by (apply Nat.mod_upper_bound; lia).
  destruct (sets !! (r / s)) as [set|] eqn:E; simpl.
  - unfold pattern_rows. rewrite (Nat.div_mod r s) at 1 by lia.
    rewrite (concat_block_lookup s _ (r / s) (replicate s (row_cols s (sort_nat (ord (r / s) set))))).
    + by rewrite lookup_replicate_2.
    + rewrite Forall_lookup. intros i b. rewrite list_lookup_imap. destruct (sets !! i); simpl; [|done]. intros [= <-]. apply replicate_length.
    + by rewrite list_lookup_imap, E.
    + done.
  - apply lookup_ge_None_2. rewrite pattern_rows_length. apply lookup_ge_None in E.
    rewrite (Nat.div_mod r s) by lia. nia.
Qed.

Lemma finish_flat {E} ord s sets n : hash_order ord -> length sets = n ->
  @finish_pattern E (s * n) (pattern_offsets s sets).1 (pattern_cols ord s sets) = Ok (flat (pattern_rows ord s sets) (s * n)).
Proof.
  intros Ho Hl. unfold finish_pattern. rewrite (pattern_offsets_flat ord s sets (s * n) Ho), pattern_cols_concat. cbn [fst].
  rewrite !decide_True; [done| |].
  - rewrite last_lookup, flat_offs_length. simpl pred. by rewrite flat_offs, decide_True, take_ge by lia.
  - rewrite flat_offs_length, pattern_rows_length. lia.
Qed.

Lemma elem_of_row_cols s buf c : 0 < s -> c ∈ row_cols s buf <-> c / s ∈ buf.
Proof.
  intros Hs. unfold row_cols. rewrite elem_of_list_bind. split.
  - intros (n & Hc & Hn). apply elem_of_list_fmap in Hc as (j & -> & Hj). apply elem_of_seq in Hj.
    by rewrite (Nat.mul_comm s), Nat.div_add_l, Nat.div_small, Nat.add_0_r by lia.
  - intros Hn. exists (c / s). split; [|done]. apply elem_of_list_fmap. exists (c mod s). split; [apply Nat.div_mod; lia|].
    apply elem_of_seq. split; [lia|]. apply Nat.mod_upper_bound. lia.
Qed.

Lemma sort_nat_lt l : NoDup l -> StronglySorted lt (sort_nat l).
Proof.
  intros Hnd. assert (StronglySorted le (sort_nat l)) as Hs by (apply (StronglySorted_merge_sort le)).
  assert (NoDup (sort_nat l)) as Hn by (by rewrite sort_nat_perm). clear Hnd.
  induction Hs as [|x l' Hs IH Hle]; [constructor|]. inversion_clear Hn as [|?? Hx Hn'].
  constructor; [by apply IH|]. rewrite Forall_forall in Hle |- *. intros y Hy. specialize (Hle y Hy).
  assert (x <> y) by (by intros ->). lia.
Qed.

Lemma sorted_pos_lt l : StronglySorted lt l -> pos_lt l.
Proof.
  intros Hs i j a b Hij Hi Hj. revert i j Hij Hi Hj. induction Hs as [|x l Hs IH Hlt]; intros i j Hij Hi Hj; [done|].
  destruct j as [|j]; [lia|]. destruct i as [|i]; simpl in *.
  - simplify_eq. rewrite Forall_forall in Hlt. apply Hlt. by eapply elem_of_list_lookup_2.
  - eapply (IH i j); [lia|done|done].
Qed.

Lemma row_cols_sorted s buf : StronglySorted lt buf -> StronglySorted lt (row_cols s buf).
Proof.
  intros Hs. induction Hs as [|n buf Hs IH Hlt]; [constructor|]. unfold row_cols in *. rewrite bind_cons.
  assert (forall m k, k + m <= s -> StronglySorted lt (map (fun j => s * n + j) (seq k m) ++ (n ← buf; map (fun j => s * n + j) (seq 0 s)))) as H; [|by apply H].
  induction m as [|m IHm]; intros k Hk; simpl; [exact IH|]. constructor; [apply IHm; lia|].
  rewrite Forall_forall. intros c Hc. apply elem_of_app in Hc as [Hc|Hc].
  - apply elem_of_list_fmap in Hc as (j & -> & Hj). apply elem_of_seq in Hj. lia.
  - apply elem_of_list_bind in Hc as (n' & Hc & Hn'). apply elem_of_list_fmap in Hc as (j & -> & Hj).
    rewrite Forall_forall in Hlt. specialize (Hlt n' Hn'). nia.
Qed.

Lemma pattern_flat_spec ord s n ls sets : hash_order ord -> nodes_in_range n ls -> sets_hold n (coupled ls) sets ->
  let p := flat (pattern_rows ord s sets) (s * n) in
  pat_wf p /\ pt_nrows p = s * n /\ pt_ncols p = s * n /\
  forall r c, (exists pos, stored p r c pos) <-> 0 < s /\ coupled ls (r / s) (c / s).
Proof.
  intros Ho Hr [Hl Hs] p. unfold p. split_and!.
  - destruct (decide (s = 0)) as [->|Hne].
    { apply flat_wf. assert (length (pattern_rows ord 0 sets) = 0) as H by (rewrite pattern_rows_length; lia).
      by destruct (pattern_rows ord 0 sets). }
    apply flat_wf. rewrite Forall_lookup. intros r row Hrow. rewrite pattern_rows_lookup in Hrow by lia.
    destruct (sets !! (r / s)) as [set|] eqn:E; simpl in Hrow; [|done]. simplify_eq. destruct (Hs _ _ E) as [Hnd Hin]. split.
    + apply sorted_pos_lt, row_cols_sorted, sort_nat_lt. by rewrite (Ho (r / s) set).
    + rewrite Forall_forall. intros c Hc. apply elem_of_row_cols in Hc; [|lia].
      rewrite sort_nat_perm, (Ho (r / s) set), Hin in Hc. destruct Hc as (ns & Hns & _ & Hc).
      specialize (Hr ns _ Hns Hc). rewrite (Nat.div_mod c s) by lia.
      assert (c mod s < s) by (apply Nat.mod_upper_bound; lia). nia.
  - unfold pt_nrows. rewrite flat_offs_length, pattern_rows_length. lia.
  - done.
  - intros r c. split.
    + intros [pos Hpos]. apply flat_stored in Hpos as (row & i & Hrow & Hi & ->).
      assert (0 < s).
      { destruct (decide (s = 0)) as [->|]; [|lia]. apply lookup_lt_Some in Hrow. rewrite pattern_rows_length in Hrow. lia. }
      split; [done|]. rewrite pattern_rows_lookup in Hrow by done.
      destruct (sets !! (r / s)) as [set|] eqn:E; simpl in Hrow; [|done]. simplify_eq. destruct (Hs _ _ E) as [Hnd Hin].
      apply elem_of_list_lookup_2, elem_of_row_cols in Hi; [|done]. by rewrite sort_nat_perm, (Ho (r / s) set), Hin in Hi.
    + intros [Hs0 Hc]. pose proof Hc as (ns & Hns & Ha & _). pose proof (Hr ns _ Hns Ha) as Hlt.
      destruct (lookup_lt_is_Some_2 sets (r / s)) as [set E]; [lia|]. destruct (Hs _ _ E) as [Hnd Hin].
      assert (c ∈ row_cols s (sort_nat (ord (r / s) set))) as Hel.
      { apply elem_of_row_cols; [done|]. by rewrite sort_nat_perm, (Ho (r / s) set), Hin. }
      apply elem_of_list_lookup in Hel as [i Hi]. eexists. apply flat_stored. exists (row_cols s (sort_nat (ord (r / s) set))), i.
      split_and!; [|done|done]. by rewrite pattern_rows_lookup, E.
Qed.

Lemma assemble_pattern_spec {E} ord umax c ls : hash_order ord -> has_conn c ls -> nodes_in_range (ca_nodes c) ls ->
  exists p, @assemble_pattern E ord umax c = Ok p /\ pat_wf p /\
    pt_nrows p = ca_sdim c * ca_nodes c /\ pt_ncols p = ca_sdim c * ca_nodes c /\
    forall r col, (exists pos, stored p r col pos) <-> 0 < ca_sdim c /\ coupled ls (r / ca_sdim c) (col / ca_sdim c).
Proof.
  intros Ho Hc Hr. unfold assemble_pattern. destruct (node_sets_spec (E := E) umax c ls Hc Hr) as (sets & -> & Hs). simpl.
  rewrite (finish_flat (E := E) ord (ca_sdim c) sets (ca_nodes c) Ho (proj1 Hs)). eexists. split; [done|].
  exact (pattern_flat_spec ord _ _ ls sets Ho Hr Hs).
Qed.

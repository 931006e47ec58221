(** Safety of parallel accesses, for values from either safe constructor. *)
From stdpp Require Import base list list_numbers sorting.
From Coq Require Import Lia ZArith.
From Verif Require Import Prelude NestedVecModel NestedVecSpec NestedVecProofs
  ParadisModel ParadisSpec ParadisProofs ColoringProofs.

Lemma pairwise_disjoint_perm l1 l2 : l1 ≡ₚ l2 -> pairwise_disjoint l1 -> pairwise_disjoint l2.
Proof.
  intros Hp. induction Hp as [|x l1 l2 Hp IH|x y l|l1 l2 l3 _ IH1 _ IH2]; intros H; try done.
  - apply pairwise_disjoint_cons in H as [H1 H2]. apply pairwise_disjoint_cons. split; [|auto].
    intros t Ht. apply H1. by rewrite Hp.
  - apply pairwise_disjoint_cons in H as [H1 H2]. apply pairwise_disjoint_cons in H2 as [H2 H3].
    apply pairwise_disjoint_cons. split.
    + intros t Ht. apply elem_of_cons in Ht as [->|Ht]; [|auto].
      intros (n & ? & ?). apply (H1 x); [by left|]. by exists n.
    + apply pairwise_disjoint_cons. split; [|done]. intros t Ht. apply H1. by right.
  - auto.
Qed.

Lemma pairwise_disjoint_app_l l1 l2 : pairwise_disjoint (l1 ++ l2) -> pairwise_disjoint l1.
Proof. intros H i j s t Hij Hi Hj. apply (H i j); [done|..]; by apply lookup_app_l_Some. Qed.

Lemma good_color_valid ls c : good_color ls c -> valid_color ls c.
Proof.
  intros (sub & Hf2 & Hsub & Hpd & Hne & Hss & Hmax). exists sub. split_and!; try done.
  - rewrite Hsub. apply nested_vec_roundtrip.
  - rewrite Hmax. apply max_upd_is_max.
Qed.

Lemma good_color_wf ls c : good_color ls c -> exists sub, nv_iter (ds_subsets c) = Some sub /\ wf_ds c sub /\
  pairwise_disjoint sub /\ is_max (ds_max c) sub.
Proof.
  intros (sub & Hf2 & Hsub & Hpd & Hne & Hss & Hmax). exists sub.
  pose proof (rep_canon sub) as Hrep. rewrite <- canon_of_lists in Hrep.
  unfold wf_ds. rewrite Hsub. split_and!.
  - by apply rep_iter.
  - by destruct Hrep.
  - intros i. by apply rep_get.
  - by eapply Forall2_length.
  - done.
  - rewrite Hmax. apply max_upd_is_max.
Qed.

Lemma safe_value_spec d ls : safe_value d ls ->
  wf_ds d ls /\ pairwise_disjoint ls /\ is_max (ds_max d) ls.
Proof.
  intros [ord v ls' labels d' Hord (Hlen & Hget & Hit) Htry|ord debug v ls' colors d' sub Hord Hh Hb Hcol Hin Hsub].
  - pose proof (try_from_spec ord v ls' labels Hord Hlen Hit) as H. rewrite Htry in H.
    destruct H as (Hl & Hpd & Hs & Hlab & Hmax). split_and!; try done.
    unfold wf_ds. by rewrite Hs, Hlab.
  - destruct (coloring_spec ls' v ord debug Hord Hh Hb) as (colors' & Hc' & _ & Hgood & _).
    assert (colors' = colors) as -> by congruence.
    rewrite Forall_forall in Hgood. destruct (good_color_wf ls' d' (Hgood d' Hin)) as (sub' & Hs' & Hrest).
    assert (sub' = sub) as -> by congruence. done.
Qed.

(** The items actually handed out by any execution are pairwise disjoint and in bounds. *)
Lemma par_access_safe d ls debug n r t items its : safe_value d ls ->
  par_iter_start debug d n = Ok r ->
  run_tree d (Producer r.1 r.2) t = Ok (items, its) ->
  pairwise_disjoint (map sa_indices items) /\
  (forall a local g, a ∈ items -> sa_get a local = Ok g -> g < n).
Proof.
  intros Hs Hstart Hrun. destruct (safe_value_spec d ls Hs) as (Hwf & Hpd & Hmax).
  apply par_iter_start_ok_debug in Hstart.
  pose proof (par_iter_start_release d ls n (proj1 Hwf) Hmax) as Hr. rewrite Hstart in Hr.
  destruct Hr as [-> Hbound]. simpl in Hrun.
  assert (items ++ concat (map (rest d ls) its) ≡ₚ all_items d ls) as Hperm.
  { assert (forall t n, {valid_splits t n} + {~ valid_splits t n}) as Hdec.
    { clear. induction t as [|i l IHl r IHr]; intros n; simpl; [by left|].
      destruct (decide (i < n)); [|right; tauto]. destruct (IHl i); [|right; tauto].
      destruct (IHr (n - i)); [by left|right; tauto]. }
    destruct (Hdec t (length ls)) as [Hv|Hv].
    - destruct (run_tree_spec d ls t Hwf (Producer 0 (length ls))) as (items' & its' & Hrun' & _ & Hp); simpl; [lia|done|].
      rewrite Hrun in Hrun'. simplify_eq. rewrite Hp. unfold items_in. simpl. fold (all_items d ls).
      rewrite drop_0, take_ge; [done|]. by rewrite all_items_length.
    - rewrite (run_tree_invalid_panics d ls) in Hrun; simpl; done. }
  split.
  - apply (pairwise_disjoint_app_l _ (map sa_indices (concat (map (rest d ls) its)))).
    rewrite <- map_app. apply (pairwise_disjoint_perm ls); [|done].
    rewrite Hperm. unfold all_items. destruct Hwf as (_ & _ & Hl). revert Hl. generalize (ds_labels d). clear.
    induction ls as [|s ls IH]; intros labels Hl; destruct labels as [|lb labels]; simpl in *; try done.
    f_equiv. apply IH. lia.
  - intros a local g Ha Hg. unfold sa_get in Hg. destruct (sa_indices a !! local) as [g'|] eqn:E; [|done].
    simplify_eq. assert (a ∈ all_items d ls) as Hain by (rewrite <- Hperm; apply elem_of_app; by left).
    apply elem_of_list_lookup in Hain as [k Hk]. apply all_items_lookup in Hk as [Hk _].
    apply (Hbound (sa_indices a) g); by eapply elem_of_list_lookup_2.
Qed.

Lemma par_access_block_safe d ls debug coll bs nblocks r t items its : safe_value d ls ->
  block_adapter_len coll bs = Ok nblocks ->
  par_iter_start debug d nblocks = Ok r ->
  run_tree d (Producer r.1 r.2) t = Ok (items, its) ->
  (forall a local g k x, a ∈ items -> sa_get a local = Ok g -> block_get bs g k = Some x -> x < coll) /\
  (forall i j a b la lb ga gb ka kb x y, i <> j -> items !! i = Some a -> items !! j = Some b ->
     sa_get a la = Ok ga -> sa_get b lb = Ok gb ->
     block_get bs ga ka = Some x -> block_get bs gb kb = Some y -> x <> y).
Proof.
  intros Hs Hb Hstart Hrun.
  destruct (par_access_safe d ls debug nblocks r t items its Hs Hstart Hrun) as [Hpd Hbound]. split.
  - intros a local g k x Ha Hg Hx. eapply block_get_bound; [done| |done]. by eapply Hbound.
  - intros i j a b la lb ga gb ka kb x y Hij Ha Hb' Hga Hgb Hx Hy <-.
    destruct (block_get_inj bs ga gb ka kb x Hx Hy) as [<- _].
    unfold sa_get in *. destruct (sa_indices a !! la) eqn:Ea; [|done]. destruct (sa_indices b !! lb) eqn:Eb; [|done].
    simplify_eq. apply (Hpd i j (sa_indices a) (sa_indices b) Hij).
    + by rewrite list_lookup_fmap, Ha.
    + by rewrite list_lookup_fmap, Hb'.
    + exists ga. split; by eapply elem_of_list_lookup_2.
Qed.

(** Each subset is visited exactly once when all pieces are exhausted. *)
Lemma par_iter_complete d ls t items its : wf_ds d ls -> valid_splits t (length ls) ->
  run_tree d (Producer 0 (length ls)) t = Ok (items, its) ->
  Forall (fun it => it_len it = 0) its ->
  items ≡ₚ zip_with SubsetAccess (ds_labels d) ls.
Proof.
  intros Hwf Hv Hrun Hex.
  destruct (run_tree_spec d ls t Hwf (Producer 0 (length ls))) as (items' & its' & Hrun' & _ & Hp); simpl; [lia|done|].
  rewrite Hrun in Hrun'. simplify_eq.
  assert (concat (map (rest d ls) its') = []) as Hnil.
  { clear -Hex. induction its' as [|it its IH]; simpl; [done|]. inversion_clear Hex as [|?? H0 Hex'].
    unfold rest at 1, items_in. rewrite H0. simpl. auto. }
  rewrite Hnil, app_nil_r in Hp. rewrite Hp. unfold items_in. simpl. fold (all_items d ls).
  rewrite drop_0, take_ge; [done|]. by rewrite all_items_length.
Qed.


Lemma script_exhausts d ls : wf_ds d ls -> forall n it script, it_end it <= length ls ->
  it_len it = n -> length script = n ->
  exists items it', run_script d it script = Ok (items, it') /\ length items = n /\ it_len it' = 0 /\
    items ≡ₚ rest d ls it.
Proof.
  intros Hwf n it script He Hn Hs.
  destruct (run_script_spec d ls script Hwf it He) as (items & it' & Hrun & He' & Hp).
  exists items, it'. split; [done|].
  assert (it_len it' = it_len it - length script) as Hl.
  { clear Hn Hs Hp. revert it He items Hrun. induction script as [|fwd script IH]; intros it He items Hrun; simpl in Hrun.
    - simplify_eq. simpl. lia.
    - assert (exists r it1, (if fwd then it_next d it else it_next_back d it) = Ok (r, it1) /\ it_end it1 <= length ls /\
                it_len it1 = it_len it - 1) as (r & it1 & Hr & He1 & Hl1).
      { destruct fwd.
        - destruct (next_spec d ls it Hwf He) as (r & it1 & Hr & He1 & Happ & Hz & Hz').
          exists r, it1. split_and!; [done|done|].
          destruct r as [a|].
          + apply (f_equal length) in Happ. simpl in Happ. rewrite !rest_length in Happ by done. lia.
          + rewrite Hz' by done. assert (it_len it = 0) by (by apply Hz). lia.
        - destruct (next_back_spec d ls it Hwf He) as (r & it1 & Hr & He1 & Happ & Hz & Hz').
          exists r, it1. split_and!; [done|done|].
          destruct r as [a|].
          + apply (f_equal length) in Happ. rewrite app_length in Happ. simpl in Happ. rewrite !rest_length in Happ by done. lia.
          + rewrite Hz' by done. assert (it_len it = 0) by (by apply Hz). lia. }
      rewrite Hr in Hrun. simpl in Hrun. destruct (run_script d it1 script) as [[i2 it2]|[]|] eqn:E; simpl in Hrun; try done.
      simplify_eq. rewrite (IH it1 He1 i2 E). simpl. lia. }
  assert (rest d ls it' = []) as Hnil.
  { unfold rest, items_in. replace (it_len it') with 0 by lia. done. }
  rewrite Hnil, app_nil_r in Hp. split_and!; [|lia|done].
  rewrite Hp. rewrite rest_length by done. done.
Qed.

Lemma par_iter_once d ls t : holds (ds_subsets d) ls -> length (ds_labels d) = length ls ->
  valid_splits t (length ls) ->
  exists items its, run_tree d (Producer 0 (length ls)) t = Ok (items, its) /\
    length items + sum_list (map it_len its) = length ls /\
    (forall it script, it ∈ its -> length script = it_len it ->
       exists more it', run_script d it script = Ok (more, it') /\ length more = it_len it /\ it_len it' = 0) /\
    (sum_list (map it_len its) = 0 -> items ≡ₚ zip_with SubsetAccess (ds_labels d) ls).
Proof.
  intros (Hlen & Hget & _) Hl Hv.
  assert (wf_ds d ls) as Hwf by done.
  destruct (run_tree_spec d ls t Hwf (Producer 0 (length ls))) as (items & its & Hrun & He & Hp); simpl; [lia|done|].
  exists items, its. split; [done|]. split_and!.
  - unfold items_in in Hp. simpl in Hp. fold (all_items d ls) in Hp.
    rewrite drop_0, take_ge in Hp by (by rewrite all_items_length).
    apply Permutation_length in Hp. rewrite app_length, all_items_length in Hp by done. rewrite <- Hp. f_equal.
    clear -Hwf He. induction its as [|it its IH]; simpl; [done|]. inversion_clear He.
    rewrite app_length, rest_length by done. by rewrite IH.
  - intros it script Hit Hs. rewrite Forall_forall in He.
    destruct (script_exhausts d ls Hwf (it_len it) it script) as (more & it' & ? & ? & ? & _); [by apply He|done|done|].
    by exists more, it'.
  - intros Hz. eapply par_iter_complete; [done|done|done|].
    clear -Hz. induction its as [|it its IH]; simpl in *; [constructor|]. constructor; [lia|apply IH; lia].
Qed.

Lemma coloring_valid ord debug v ls : hash_order ord -> holds v ls -> (Z.of_nat (length ls) <= i32_max)%Z ->
  exists colors, sequential_greedy_coloring ord debug v = Some (Ok colors) /\
    concat (map ds_labels colors) ≡ₚ seq 0 (length ls) /\
    Forall (valid_color ls) colors /\
    Forall (fun c => try_from_disjoint_subsets ord (ds_subsets c) (ds_labels c) = Ok c) colors.
Proof.
  intros Hord Hh Hb. destruct (coloring_spec ls v ord debug Hord Hh Hb) as (colors & Hc & Hp & Hg & _).
  exists colors. split_and!; try done; rewrite Forall_forall in Hg |- *.
  - intros c Hc'. by apply good_color_valid, Hg.
  - intros c Hc'. eapply good_color_try_from; [done|]. by apply Hg.
Qed.

Lemma coloring_greedy ord debug v ls colors : hash_order ord -> holds v ls -> (Z.of_nat (length ls) <= i32_max)%Z ->
  sequential_greedy_coloring ord debug v = Some (Ok colors) ->
  (forall k k' c i, colors !! k = Some c -> i ∈ ds_labels c -> k' < k ->
     exists c' j s t, colors !! k' = Some c' /\ j ∈ ds_labels c' /\ j < i /\
       ls !! i = Some s /\ ls !! j = Some t /\ share s t) /\
  length colors <= length ls /\
  (forall m, (forall i, i < length ls -> length (earlier_conflicts ls i) <= m) -> length colors <= S m).
Proof.
  intros Hord Hh Hb Hrun. destruct (coloring_spec ls v ord debug Hord Hh Hb) as (colors' & Hc & Hg).
  assert (colors' = colors) as -> by congruence. clear Hrun. split_and!.
  - intros k k' c i Hk Hi Hk'. destruct Hg as (_ & _ & Hg). by eapply Hg.
  - by eapply greedy_colors_count.
  - intros m Hm. destruct (decide (colors = [])) as [->|Hne]; [simpl; lia|].
    destruct (lookup_lt_is_Some_2 colors (length colors - 1)) as [c Hk].
    { destruct colors; [done|simpl; lia]. }
    pose proof Hg as (Hp & Hf & _). rewrite Forall_forall in Hf.
    assert (c ∈ colors) as Hin by (by eapply elem_of_list_lookup_2).
    destruct (Hf c Hin) as (sub & Hf2 & _ & _ & Hnil & _).
    destruct (ds_labels c) as [|i lbl] eqn:El; [done|].
    assert (length colors - 1 <= length (earlier_conflicts ls i)) as Hr.
    { eapply greedy_color_rank; [done|done|rewrite El; by left|]. rewrite Hp. apply NoDup_seq. }
    assert (i < length ls).
    { inversion Hf2 as [|?? ? ? Hi]; simplify_eq. by eapply lookup_lt_Some. }
    specialize (Hm i). lia.
Qed.

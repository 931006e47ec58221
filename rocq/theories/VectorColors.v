(** Parallel vector assembly over colours: determinism and agreement with serial assembly. *)
From stdpp Require Import base list list_numbers sorting relations.
From Coq Require Import Lia ZArith.
From Verif Require Import Prelude NestedVecModel NestedVecSpec NestedVecProofs ParadisModel ParadisSpec
  ParadisProofs ColoringProofs ParadisSafety VectorModel VectorSpec VectorProofs VectorParProofs.

Set Default Proof Using "Type".

Lemma ofold_app {E A S} (f : S -> A -> outcome E S) s l1 l2 :
  ofold f s (l1 ++ l2) = match ofold f s l1 with Ok s' => ofold f s' l2 | Err e => Err e | Panic => Panic end.
Proof. revert s. induction l1 as [|x l1 IH]; intros s; simpl; [done|]. by destruct (f s x). Qed.

Section colors.
Context {T E : Type} (add : T -> T -> T) (zero : T) (umax : nat).
Notation upd := (upd add).

Lemma task_updates_spec s acc (v : list T) : length v = s * length (sa_indices acc) ->
  task_updates s acc (length (sa_indices acc)) v = @Ok E _ (scatter_updates s 0 (sa_indices acc) v).
Proof.
  intros Hv. unfold task_updates. set (f := fun us '(local, i) => _).
  assert (forall local g us m j, sa_indices acc !! local = Some g -> j + m = s ->
    ofold f us (i ← seq j m; [(local, i)]) =
    Ok (us ++ zip (seq (s * g + j) m) (take m (drop (s * local + j) v)))) as Hinner.
  { intros local g us m. revert us. induction m as [|m IH]; intros us j Hg Hj.
    - simpl. by rewrite app_nil_r.
    - assert (local < length (sa_indices acc)) as Hll by (by eapply lookup_lt_Some).
      destruct (lookup_lt_is_Some_2 v (s * local + j)) as [y Hy]; [rewrite Hv; nia|].
      change (i ← seq j (S m); [(local, i)]) with ((local, j) :: (i ← seq (S j) m; [(local, i)])).
      cbn [ofold]. unfold f at 1. unfold sa_get. rewrite Hg. unfold block_get. rewrite decide_True by lia. rewrite Hy.
      rewrite (IH (us ++ [(s * g + j, y)]) (S j)) by (done || lia). f_equal. rewrite <- app_assoc. f_equal.
      rewrite (drop_S v y _ Hy). cbn [take seq zip_with app]. f_equal. f_equal; [f_equal; lia|]. f_equal. f_equal. lia. }
  assert (forall m k us, k + m = length (sa_indices acc) ->
    ofold f us (local ← seq k m; i ← seq 0 s; [(local, i)]) =
    Ok (us ++ scatter_updates s k (drop k (sa_indices acc)) v)) as Houter.
  { induction m as [|m IH]; intros k us Hk.
    - rewrite drop_ge by lia. unfold scatter_updates. simpl. by rewrite app_nil_r.
    - destruct (lookup_lt_is_Some_2 (sa_indices acc) k) as [g Hg]; [lia|].
      change (local ← seq k (S m); i ← seq 0 s; [(local, i)])
        with ((i ← seq 0 s; [(k, i)]) ++ (local ← seq (S k) m; i ← seq 0 s; [(local, i)])).
      rewrite ofold_app. rewrite (Hinner k g us s 0) by (done || lia). rewrite IH by lia. f_equal.
      rewrite <- app_assoc. f_equal. rewrite (drop_S _ g k Hg). unfold scatter_updates. simpl. f_equal.
      unfold block_updates. rewrite !Nat.add_0_r. f_equal. f_equal. rewrite take_length, drop_length, Hv.
      assert (k < length (sa_indices acc)) by (by eapply lookup_lt_Some). nia. }
  rewrite (Houter _ 0 []) by lia. by rewrite drop_0.
Qed.

Lemma scatter_updates_fst s k ns (v : list T) x : x ∈ map fst (scatter_updates s k ns v) ->
  exists g i, g ∈ ns /\ i < s /\ x = s * g + i.
Proof.
  unfold scatter_updates. revert k. induction ns as [|g ns IH]; intros k; simpl.
  - intros H. by apply elem_of_nil in H.
  - rewrite map_app, elem_of_app. intros [H|H].
    + unfold block_updates in H. apply elem_of_list_fmap in H as ([i y] & -> & H). simpl.
      apply elem_of_list_lookup in H as [j Hj]. apply lookup_zip_with_Some in Hj as (i' & y' & Heq & Hi & Hy).
      simplify_eq. apply lookup_seq in Hi as [-> Hlt]. rewrite take_length in Hlt.
      exists g, j. split_and!; [by left|lia|done].
    + destruct (IH _ H) as (g' & i & ? & ? & ?). exists g', i. split_and!; [by right|done|done].
Qed.

(** The outcome of the element callback for label [i] is [vres i]. *)
Definition label_ok (a : @vec_asm T E) (vres : nat -> outcome E (list T)) (i : nat) (ns : list nat) : Prop :=
  ca_count (va_conn a) i = length ns /\ yields_vec a i (length ns) (vres i).

Lemma vector_task_spec (a : @vec_asm T E) ws acc vres :
  label_ok a vres (sa_label acc) (sa_indices acc) ->
  vector_task zero umax a ws acc =
    match vres (sa_label acc) with
    | Ok v => Ok (scatter_updates (ca_sdim (va_conn a)) 0 (sa_indices acc) v)
    | Err e => Err e
    | Panic => Panic
    end.
Proof.
  intros [Hc [Hv Hl]]. unfold vector_task, prepare_element. rewrite Hc, Hv by apply vec_resize_length.
  destruct (vres (sa_label acc)) as [v|e|] eqn:Ev; simpl; [|done|done].
  rewrite task_updates_spec; [done|]. by apply Hl.
Qed.

(** One colour: contributions are independent of the order of the items. *)
Lemma contribs_items_perm s (f : nat -> list T) (items items' : list subset_access) d :
  items ≡ₚ items' -> pairwise_disjoint (map sa_indices items) ->
  contribs s (map sa_indices items) (map (fun i => f (sa_label i)) items) d =
  contribs s (map sa_indices items') (map (fun i => f (sa_label i)) items') d.
Proof.
  unfold contribs. intros Hp. induction Hp as [|x l1 l2 Hp IH|x y l|l1 l2 l3 H1 IH1 H2 IH2]; intros Hd; simpl in *.
  - done.
  - apply pairwise_disjoint_cons in Hd as [_ Hd]. by rewrite IH.
  - apply pairwise_disjoint_cons in Hd as [Hd _]. rewrite !app_assoc. f_equal.
    assert (~ share (sa_indices y) (sa_indices x)) as Hns by (apply Hd; by left).
    assert (forall z, d `div` s ∉ sa_indices z -> elem_contrib s (sa_indices z) (f (sa_label z)) d = []) as Hz.
    { intros z. unfold elem_contrib. generalize 0. induction (sa_indices z) as [|n ns IHn]; intros k Hk; simpl; [done|].
      apply not_elem_of_cons in Hk as [Hk1 Hk2]. rewrite decide_False by done. by apply IHn. }
    destruct (decide (d `div` s ∈ sa_indices y)) as [Hy|Hy].
    + rewrite (Hz x); [by rewrite app_nil_r|]. intros Hx. apply Hns. by exists (d `div` s).
    + by rewrite (Hz y), app_nil_r.
  - rewrite IH1 by done. apply IH2. eapply pairwise_disjoint_perm; [|exact Hd]. by rewrite H1.
Qed.

Lemma upds_sums s (items : list subset_access) (f : nat -> list T) out : 0 < s ->
  sums_to add s (map sa_indices items) (map (fun i => f (sa_label i)) items) out
    (foldl upd out (concat (map (fun i => scatter_updates s 0 (sa_indices i) (f (sa_label i))) items))).
Proof.
  intros Hs. revert out. induction items as [|i items IH]; intros out; simpl; [apply sums_to_refl|].
  rewrite foldl_app. change (sa_indices i :: ?l) with ([sa_indices i] ++ l).
  change (f (sa_label i) :: ?l) with ([f (sa_label i)] ++ l).
  eapply sums_to_trans; [done| |apply IH]. apply sums_to_one. by left.
Qed.

Lemma color_run_spec (a : @vec_asm T E) ws items out out' r vres :
  0 < ca_sdim (va_conn a) ->
  pairwise_disjoint (map sa_indices items) ->
  (forall acc g, acc ∈ items -> g ∈ sa_indices acc -> ca_sdim (va_conn a) * g + ca_sdim (va_conn a) <= length out) ->
  (forall acc, acc ∈ items -> label_ok a vres (sa_label acc) (sa_indices acc)) ->
  color_run add zero umax a ws items out out' r ->
  match r with
  | Ok _ => exists f, (forall acc, acc ∈ items -> vres (sa_label acc) = Ok (f (sa_label acc))) /\
       sums_to add (ca_sdim (va_conn a)) (map sa_indices items) (map (fun i => f (sa_label i)) items) out out'
  | Err e => exists acc, acc ∈ items /\ vres (sa_label acc) = Err e
  | Panic => exists acc, acc ∈ items /\ vres (sa_label acc) = Panic
  end.
Proof.
  intros Hs Hpd Hb Hok Hrun. destruct Hrun as [tasks out' ths Htasks Hrun Hdone|k acc e out' Hk Ht|k acc out' Hk Ht].
  - set (s := ca_sdim (va_conn a)) in *.
    exists (fun l => match vres l with Ok v => v | _ => [] end).
    assert (Forall2 (fun acc us => exists v, vres (sa_label acc) = Ok v /\ us = scatter_updates s 0 (sa_indices acc) v)
              items tasks) as Hf.
    { apply Forall2_same_length_lookup_2.
      - apply Forall2_length in Htasks. rewrite zip_with_length, seq_length in Htasks. lia.
      - intros i acc us Hi Hu. rewrite Forall2_lookup in Htasks. specialize (Htasks i).
        assert (zip (seq 0 (length items)) items !! i = Some (i, acc)) as Hz.
        { rewrite lookup_zip_with, lookup_seq_lt by (by eapply lookup_lt_Some). simpl. by rewrite Hi. }
        rewrite Hz, Hu in Htasks. inversion Htasks as [? ? Ht|]; simplify_eq. simpl in Ht.
        rewrite (vector_task_spec a _ acc vres) in Ht by (apply Hok; by eapply elem_of_list_lookup_2).
        destruct (vres (sa_label acc)) as [v|e|]; simplify_eq. by exists v. }
    split.
    { intros acc Hacc. apply elem_of_list_lookup in Hacc as [i Hi].
      destruct (Forall2_lookup_l _ _ _ _ _ Hf Hi) as (us & _ & v & -> & _). done. }
    assert (tasks = map (fun acc => scatter_updates s 0 (sa_indices acc) (match vres (sa_label acc) with Ok v => v | _ => [] end)) items) as Heq.
    { clear -Hf. induction Hf as [|acc us items tasks (v & Hv & ->) Hf IH]; simpl; [done|]. by rewrite Hv, IH. }
    assert (out' = foldl upd out (concat tasks)) as ->.
    { eapply mem_run_unique; [| |exact Hrun|done].
      - rewrite Heq. intros i j s1 s2 Hij Hi Hj (x & H1 & H2). rewrite !list_lookup_fmap in Hi, Hj.
        destruct (items !! i) as [acc1|] eqn:E1; [|done]. destruct (items !! j) as [acc2|] eqn:E2; [|done].
        simpl in Hi, Hj. simplify_eq.
        apply scatter_updates_fst in H1 as (g1 & k1 & Hg1 & Hk1 & ->).
        apply scatter_updates_fst in H2 as (g2 & k2 & Hg2 & Hk2 & Hx).
        destruct (Nat.div_mod_unique s g1 g2 k1 k2) as [-> _]; [lia|lia|lia|].
        apply (Hpd i j (sa_indices acc1) (sa_indices acc2) Hij).
        + by rewrite list_lookup_fmap, E1.
        + by rewrite list_lookup_fmap, E2.
        + by exists g2.
      - rewrite Heq. intros us [i x] Hus Hu. apply elem_of_list_fmap in Hus as (acc & -> & Hacc). simpl.
        assert (i ∈ map fst (scatter_updates s 0 (sa_indices acc) (match vres (sa_label acc) with Ok v => v | _ => [] end))) as Hi.
        { apply elem_of_list_fmap. by exists (i, x). }
        apply scatter_updates_fst in Hi as (g & k & Hg & Hk & ->). specialize (Hb acc g Hacc Hg). lia. }
    rewrite Heq. apply (upds_sums s items (fun l => match vres l with Ok v => v | _ => [] end) out Hs).
  - exists acc. split; [by eapply elem_of_list_lookup_2|].
    rewrite (vector_task_spec a _ acc vres) in Ht by (apply Hok; by eapply elem_of_list_lookup_2).
    destruct (vres (sa_label acc)); by simplify_eq.
  - exists acc. split; [by eapply elem_of_list_lookup_2|].
    rewrite (vector_task_spec a _ acc vres) in Ht by (apply Hok; by eapply elem_of_list_lookup_2).
    destruct (vres (sa_label acc)); by simplify_eq.
Qed.

Lemma color_run_exists (a : @vec_asm T E) ws items out f :
  pairwise_disjoint (map sa_indices items) ->
  (forall acc g, acc ∈ items -> g ∈ sa_indices acc -> ca_sdim (va_conn a) * g + ca_sdim (va_conn a) <= length out) ->
  (forall acc, acc ∈ items -> label_ok a (fun l => Ok (f l)) (sa_label acc) (sa_indices acc)) ->
  exists out', color_run add zero umax a ws items out out' (Ok tt).
Proof.
  intros Hpd Hb Hok. set (s := ca_sdim (va_conn a)) in *.
  set (tasks := map (fun acc => scatter_updates s 0 (sa_indices acc) (f (sa_label acc))) items).
  destruct (mem_run_exists add out tasks) as (ths & Hrun & Hd).
  - intros i j s1 s2 Hij Hi Hj (x & H1 & H2). unfold tasks in Hi, Hj. rewrite !list_lookup_fmap in Hi, Hj.
    destruct (items !! i) as [acc1|] eqn:E1; [|done]. destruct (items !! j) as [acc2|] eqn:E2; [|done].
    simpl in Hi, Hj. simplify_eq.
    apply scatter_updates_fst in H1 as (g1 & k1 & Hg1 & Hk1 & ->).
    apply scatter_updates_fst in H2 as (g2 & k2 & Hg2 & Hk2 & Hx).
    destruct (Nat.div_mod_unique s g1 g2 k1 k2) as [-> _]; [lia|lia|lia|].
    apply (Hpd i j (sa_indices acc1) (sa_indices acc2) Hij).
    + by rewrite list_lookup_fmap, E1.
    + by rewrite list_lookup_fmap, E2.
    + by exists g2.
  - intros us [i x] Hus Hu. unfold tasks in Hus. apply elem_of_list_fmap in Hus as (acc & -> & Hacc). simpl.
    assert (i ∈ map fst (scatter_updates s 0 (sa_indices acc) (f (sa_label acc)))) as Hi.
    { apply elem_of_list_fmap. by exists (i, x). }
    apply scatter_updates_fst in Hi as (g & k & Hg & Hk & ->). specialize (Hb acc g Hacc Hg). lia.
  - exists (foldl upd out (concat tasks)). eapply color_ok; [|exact Hrun|done].
    apply Forall2_same_length_lookup_2.
    + unfold tasks. rewrite fmap_length, zip_with_length, seq_length. lia.
    + intros i [k acc] us Hi Hu. apply lookup_zip_with_Some in Hi as (k' & acc' & Heq & _ & Hacc). simplify_eq. simpl.
      unfold tasks in Hu. rewrite list_lookup_fmap, Hacc in Hu. simpl in Hu. simplify_eq.
      rewrite (vector_task_spec a _ acc' (fun l => Ok (f l))); [done|]. apply Hok. by eapply elem_of_list_lookup_2.
Qed.

(** Items of a complete run of the parallel iterator on a safe value. *)
Lemma run_items c ls debug n range t items its : safe_value c ls ->
  par_iter_start debug c n = Ok range -> run_tree c (Producer range.1 range.2) t = Ok (items, its) ->
  pairwise_disjoint (map sa_indices items) /\
  (forall acc g, acc ∈ items -> g ∈ sa_indices acc -> g < n) /\
  (forall acc, acc ∈ items -> exists k, ds_labels c !! k = Some (sa_label acc) /\ ls !! k = Some (sa_indices acc)) /\
  (Forall (fun it => it_len it = 0) its -> items ≡ₚ zip_with SubsetAccess (ds_labels c) ls).
Proof.
  intros Hsafe Hstart Hrun. destruct (par_access_safe c ls debug n range t items its Hsafe Hstart Hrun) as [Hpd Hb].
  destruct (safe_value_spec c ls Hsafe) as (Hwf & _ & Hm).
  pose proof (par_iter_start_release c ls n (proj1 Hwf) Hm) as Hr.
  rewrite (par_iter_start_ok_debug _ _ _ _ Hstart) in Hr. destruct Hr as [-> Hin]. simpl in Hrun.
  assert (valid_splits t (length ls)) as Hv.
  { assert (forall t n, {valid_splits t n} + {~ valid_splits t n}) as Hdec.
    { clear. induction t as [|i l IHl r IHr]; intros n; simpl; [by left|].
      destruct (decide (i < n)); [|right; tauto]. destruct (IHl i); [|right; tauto].
      destruct (IHr (n - i)); [by left|right; tauto]. }
    destruct (Hdec t (length ls)) as [Hv|Hv]; [done|].
    rewrite (run_tree_invalid_panics c ls) in Hrun; done. }
  destruct (run_tree_spec c ls t Hwf (Producer 0 (length ls))) as (items' & its' & Hrun' & _ & Hp); simpl; [lia|done|].
  rewrite Hrun in Hrun'. simplify_eq.
  assert (forall acc, acc ∈ items' -> exists k, all_items c ls !! k = Some acc) as Hall.
  { intros acc Hacc. apply elem_of_list_lookup.
    assert (acc ∈ items' ++ concat (map (rest c ls) its')) as H by (apply elem_of_app; by left).
    rewrite Hp in H. unfold items_in in H. simpl in H. rewrite drop_0 in H.
    apply elem_of_take in H as (k & Hk & _). unfold all_items. by eapply elem_of_list_lookup_2. }
  split_and!; [done| | |].
  - intros acc g Hacc Hg. destruct (Hall acc Hacc) as [k Hk]. apply all_items_lookup in Hk as [Hk _].
    eapply Hin; [by eapply elem_of_list_lookup_2|done].
  - intros acc Hacc. destruct (Hall acc Hacc) as [k Hk]. apply all_items_lookup in Hk as [Hk Hl]. eauto.
  - intros Hex. by eapply par_iter_complete.
Qed.

Lemma zip_items labels (ls : list (list nat)) (f : nat -> list T) : length labels = length ls ->
  map sa_indices (zip_with SubsetAccess labels ls) = ls /\
  map (fun i => f (sa_label i)) (zip_with SubsetAccess labels ls) = map f labels.
Proof.
  revert ls. induction labels as [|l labels IH]; intros [|s ls] H; simpl in *; try done.
  destruct (IH ls) as [H1 H2]; [lia|]. by rewrite H1, H2.
Qed.

Lemma block_len_ok n s : 0 < s -> block_adapter_len (s * n) s = Ok n.
Proof.
  intros Hs. unfold block_adapter_len. rewrite decide_True by done.
  rewrite (Nat.mul_comm s n), decide_True by (apply Nat.mod_mul; lia). by rewrite Nat.div_mul by lia.
Qed.

Lemma sums_to_length (s : nat) ls (vs : list (list T)) out out' : sums_to add s ls vs out out' -> length out' = length out.
Proof. by intros [? _]. Qed.

Lemma start_ok debug c ls n : safe_value c ls -> (forall ns g, ns ∈ ls -> g ∈ ns -> g < n) ->
  (debug = true -> exists ns, ns ∈ ls /\ ns <> []) ->
  par_iter_start debug c n = Ok (0, length ls).
Proof.
  intros Hsafe Hr Hd. destruct (safe_value_spec c ls Hsafe) as (Hwf & _ & Hm).
  pose proof (par_iter_start_release c ls n (proj1 Hwf) Hm) as H.
  destruct (par_iter_start false c n) as [r|[]|] eqn:Es.
  2:{ destruct H as (ns & i & Hns & Hi & Hlt). specialize (Hr ns i Hns Hi). lia. }
  destruct H as [-> _]. unfold par_iter_start in *.
  destruct (match ds_max c with Some m => bool_decide (m < n) | None => true end); [|done].
  simpl in Es. destruct debug; simpl in *; [|done].
  destruct (Hd eq_refl) as (ns & Hns & Hne). destruct (ds_max c) as [m|] eqn:Em; simpl.
  - rewrite bool_decide_false; [done|]. destruct Hwf as (-> & _). destruct ls; [by apply elem_of_nil in Hns|done].
  - simpl in Hm. by rewrite (Hm ns Hns) in Hne.
Qed.

Lemma colors_run_spec (a : @vec_asm T E) debug (vres : nat -> outcome E (list T)) n :
  0 < ca_sdim (va_conn a) -> forall colors lss,
  Forall2 safe_value colors lss ->
  Forall (fun ls => debug = true -> exists ns, ns ∈ ls /\ ns <> []) lss ->
  nodes_in_range n (concat lss) ->
  Forall2 (label_ok a vres) (concat (map ds_labels colors)) (concat lss) ->
  forall out out' r, length out = ca_sdim (va_conn a) * n ->
  colors_run add zero umax a debug colors out out' r ->
  match r with
  | Ok _ => exists f, Forall (fun i => vres i = Ok (f i)) (concat (map ds_labels colors)) /\
       sums_to add (ca_sdim (va_conn a)) (concat lss) (map f (concat (map ds_labels colors))) out out'
  | Err e => exists i, i ∈ concat (map ds_labels colors) /\ vres i = Err e
  | Panic => exists i, i ∈ concat (map ds_labels colors) /\ vres i = Panic
  end.
Proof.
  intros Hs colors lss Hsafe. set (s := ca_sdim (va_conn a)) in *.
  induction Hsafe as [|c ls colors lss Hc Hsafe IH]; intros Hne Hr Hlab out out' r Hout Hrun.
  - inversion Hrun; simplify_eq. exists (fun _ => []). split; [constructor|]. apply sums_to_refl.
  - inversion_clear Hne as [|?? Hne1 Hne2].
    destruct (safe_value_spec c ls Hc) as ((_ & _ & Hlen) & _).
    simpl in Hlab. apply Forall2_app_inv in Hlab as [Hlab1 Hlab2]; [|done].
    assert (forall ns g, ns ∈ ls -> g ∈ ns -> g < n) as Hr1.
    { intros ns g Hns Hg. apply (Hr ns g); [|done]. simpl. apply elem_of_app. by left. }
    assert (nodes_in_range n (concat lss)) as Hr2.
    { intros ns g Hns Hg. apply (Hr ns g); [|done]. simpl. apply elem_of_app. by right. }
    specialize (IH Hne2 Hr2 Hlab2).
    pose proof (start_ok debug c ls n Hc Hr1 Hne1) as Hstart.
    inversion Hrun as [|? ? ? Hp|? ? ? out1 ? n' range t items its ws ? Hn Hst Htree Hex Hcol Hrest|
                       ? ? ? ? n' range t items its ws ? Hn Hst Htree Hcol Hstop]; simplify_eq.
    + fold s in Hp. rewrite Hout, block_len_ok in Hp by done. destruct Hp as [|(n' & Heq & Hp)]; [done|]. simplify_eq. congruence.
    + fold s in Hn. rewrite Hout, block_len_ok in Hn by done. simplify_eq.
      destruct (run_items c ls debug n' range t items its Hc Hst Htree) as (Hpd & Hb & Hit & Hperm).
      specialize (Hperm Hex).
      assert (forall acc, acc ∈ items -> label_ok a vres (sa_label acc) (sa_indices acc)) as Hok.
      { intros acc Hacc. destruct (Hit acc Hacc) as (k & Hk1 & Hk2). exact (Forall2_lookup_lr _ _ _ _ _ _ Hlab1 Hk1 Hk2). }
      assert (forall acc g, acc ∈ items -> g ∈ sa_indices acc -> s * g + s <= length out) as Hbo.
      { intros acc g Hacc Hg. specialize (Hb acc g Hacc Hg). rewrite Hout. nia. }
      pose proof (color_run_spec a ws items out out1 (Ok tt) vres Hs Hpd Hbo Hok Hcol) as (f1 & Hf1 & Hsum1). fold s in Hsum1.
      assert (sums_to add s ls (map f1 (ds_labels c)) out out1) as Hsum1'.
      { destruct Hsum1 as [Hl1 Hs1]. split; [done|]. intros d x Hx. rewrite (Hs1 d x Hx). f_equal. f_equal.
        destruct (zip_items (ds_labels c) ls f1 Hlen) as [Hz1 Hz2].
        rewrite <- Hz1 at 1. rewrite <- Hz2. by apply contribs_items_perm. }
      assert (forall i, i ∈ ds_labels c -> vres i = Ok (f1 i)) as Hf1'.
      { intros i Hi. apply elem_of_list_lookup in Hi as [k Hk].
        destruct (lookup_lt_is_Some_2 ls k) as [ns Hns]; [rewrite <- Hlen; by eapply lookup_lt_Some|].
        apply (Hf1 (SubsetAccess i ns)). rewrite Hperm. eapply elem_of_list_lookup_2.
        rewrite lookup_zip_with, Hk. simpl. by rewrite Hns. }
      specialize (IH out1 out' r). rewrite (sums_to_length _ _ _ _ _ Hsum1') in IH. specialize (IH Hout Hrest).
      destruct r as [[]|e|].
      * destruct IH as (f2 & Hf2 & Hsum2).
        set (f := fun i => match vres i with Ok v => v | _ => [] end).
        exists f. split.
        -- simpl. apply Forall_app. split; rewrite Forall_forall.
           ++ intros i Hi. unfold f. by rewrite Hf1'.
           ++ rewrite Forall_forall in Hf2. intros i Hi. unfold f. by rewrite Hf2.
        -- simpl. rewrite map_app.
           assert (map f (ds_labels c) = map f1 (ds_labels c)) as ->.
           { apply map_ext_in. intros i Hi. apply elem_of_list_In in Hi. unfold f. by rewrite Hf1'. }
           assert (map f (concat (map ds_labels colors)) = map f2 (concat (map ds_labels colors))) as ->.
           { rewrite Forall_forall in Hf2. apply map_ext_in. intros i Hi. apply elem_of_list_In in Hi. unfold f. by rewrite Hf2. }
           eapply sums_to_trans; [by rewrite fmap_length|exact Hsum1'|exact Hsum2].
      * destruct IH as (i & Hi & ?). exists i. split; [|done]. simpl. apply elem_of_app. by right.
      * destruct IH as (i & Hi & ?). exists i. split; [|done]. simpl. apply elem_of_app. by right.
    + fold s in Hn. rewrite Hout, block_len_ok in Hn by done. simplify_eq.
      destruct (run_items c ls debug n' range t items its Hc Hst Htree) as (Hpd & Hb & Hit & _).
      assert (forall acc, acc ∈ items -> label_ok a vres (sa_label acc) (sa_indices acc)) as Hok.
      { intros acc Hacc. destruct (Hit acc Hacc) as (k & Hk1 & Hk2). exact (Forall2_lookup_lr _ _ _ _ _ _ Hlab1 Hk1 Hk2). }
      assert (forall acc g, acc ∈ items -> g ∈ sa_indices acc -> s * g + s <= length out) as Hbo.
      { intros acc g Hacc Hg. specialize (Hb acc g Hacc Hg). rewrite Hout. nia. }
      assert (forall acc, acc ∈ items -> sa_label acc ∈ concat (map ds_labels (c :: colors))) as Hin.
      { intros acc Hacc. destruct (Hit acc Hacc) as (k & Hk1 & _). simpl. apply elem_of_app. left. by eapply elem_of_list_lookup_2. }
      pose proof (color_run_spec a ws items out out' r vres Hs Hpd Hbo Hok Hcol) as H.
      destruct r as [[]|e|]; [done| |]; destruct H as (acc & Hacc & Hv); exists (sa_label acc); auto.
Qed.

Lemma colors_run_exists (a : @vec_asm T E) debug (f : nat -> list T) n :
  0 < ca_sdim (va_conn a) -> forall colors lss,
  Forall2 safe_value colors lss ->
  Forall (fun ls => debug = true -> exists ns, ns ∈ ls /\ ns <> []) lss ->
  nodes_in_range n (concat lss) ->
  Forall2 (label_ok a (fun i => Ok (f i))) (concat (map ds_labels colors)) (concat lss) ->
  forall out, length out = ca_sdim (va_conn a) * n ->
  exists out', colors_run add zero umax a debug colors out out' (Ok tt).
Proof.
  intros Hs colors lss Hsafe. set (s := ca_sdim (va_conn a)) in *.
  induction Hsafe as [|c ls colors lss Hc Hsafe IH]; intros Hne Hr Hlab out Hout.
  - exists out. constructor.
  - inversion_clear Hne as [|?? Hne1 Hne2].
    destruct (safe_value_spec c ls Hc) as (Hwf & _). pose proof Hwf as (_ & _ & Hlen).
    simpl in Hlab. apply Forall2_app_inv in Hlab as [Hlab1 Hlab2]; [|done].
    assert (forall ns g, ns ∈ ls -> g ∈ ns -> g < n) as Hr1.
    { intros ns g Hns Hg. apply (Hr ns g); [|done]. simpl. apply elem_of_app. by left. }
    assert (nodes_in_range n (concat lss)) as Hr2.
    { intros ns g Hns Hg. apply (Hr ns g); [|done]. simpl. apply elem_of_app. by right. }
    pose proof (start_ok debug c ls n Hc Hr1 Hne1) as Hstart.
    destruct (script_exhausts c ls Hwf (length ls) (Iter 0 (length ls)) (replicate (length ls) true)) as (items & it' & Hrun & _ & Hl0 & _).
    { simpl. lia. } { unfold it_len. simpl. lia. } { by rewrite replicate_length. }
    set (t := Leaf (replicate (length ls) true)).
    assert (run_tree c (Producer 0 (length ls)) t = Ok (items, [it'])) as Htree.
    { unfold t, run_tree, p_into_iter. simpl. rewrite Nat.add_0_r, Hrun. done. }
    destruct (run_items c ls debug n (0, length ls) t items [it'] Hc Hstart Htree) as (Hpd & Hb & Hit & _).
    destruct (color_run_exists a (fun _ => VecWs [] []) items out f Hpd) as [out1 Hcol].
    { intros acc g Hacc Hg. specialize (Hb acc g Hacc Hg). fold s. rewrite Hout. nia. }
    { intros acc Hacc. destruct (Hit acc Hacc) as (k & Hk1 & Hk2). exact (Forall2_lookup_lr _ _ _ _ _ _ Hlab1 Hk1 Hk2). }
    destruct (IH Hne2 Hr2 Hlab2 out1) as [out2 Hrest].
    { pose proof (color_run_spec a (fun _ => VecWs [] []) items out out1 (Ok tt) (fun i => Ok (f i)) Hs Hpd) as H.
      destruct H as (f' & _ & H & _); [| |exact Hcol|by rewrite H].
      - intros acc g Hacc Hg. specialize (Hb acc g Hacc Hg). fold s. rewrite Hout. nia.
      - intros acc Hacc. destruct (Hit acc Hacc) as (k & Hk1 & Hk2). exact (Forall2_lookup_lr _ _ _ _ _ _ Hlab1 Hk1 Hk2). }
    exists out2. eapply colors_cons; [| exact Hstart | exact Htree | |exact Hcol|exact Hrest].
    + fold s. rewrite Hout. by apply block_len_ok.
    + by constructor.
Qed.

End colors.

(** Parallel CSR assembly: determinism and agreement with serial assembly. *)
From stdpp Require Import base list list_numbers sorting relations.
From Coq Require Import Lia ZArith.
From Verif Require Import Prelude NestedVecModel NestedVecSpec NestedVecProofs ParadisModel ParadisSpec
  ParadisProofs ColoringProofs ParadisSafety VectorModel VectorSpec VectorProofs VectorParProofs VectorColors VectorAgree
  CsrModel CsrSpec CsrProofs CsrSerial CsrPattern.

Set Default Proof Using "Type".

Section upds.
Context {T : Type} (add : T -> T -> T).
Notation upd := (upd add).

Lemma touching_app q (us1 us2 : list (nat * T)) : touching q (us1 ++ us2) = touching q us1 ++ touching q us2.
Proof. unfold touching. by rewrite omap_app. Qed.

Lemma touching_none q (us : list (nat * T)) : q ∉ map fst us -> touching q us = [].
Proof.
  unfold touching. induction us as [|[i v] us IH]; intros Hq; simpl; [done|]. simpl in Hq. apply not_elem_of_cons in Hq as [H1 H2].
  rewrite decide_False by done. by apply IH.
Qed.

Lemma upds_perm (tasks tasks' : list (list (nat * T))) out : tasks ≡ₚ tasks' -> pairwise_disjoint (map (map fst) tasks) ->
  foldl upd out (concat tasks) = foldl upd out (concat tasks').
Proof.
  intros Hp Hd. apply list_eq. intros q. rewrite !upds_lookup. f_equal. 
  assert (touching q (concat tasks) = touching q (concat tasks')) as ->; [|done].
  induction Hp as [|x l1 l2 Hp IH|x y l|l1 l2 l3 H1 IH1 H2 IH2]; simpl in *.
  - done.
  - apply pairwise_disjoint_cons in Hd as [_ Hd]. by rewrite !touching_app, IH.
  - rewrite !touching_app, !app_assoc. f_equal. apply pairwise_disjoint_cons in Hd as [Hd _].
    assert (~ share (map fst y) (map fst x)) as Hns by (apply Hd; by left).
    destruct (decide (q ∈ map fst y)) as [Hy|Hy].
    + rewrite (touching_none q x); [by rewrite app_nil_r|]. intros Hx. apply Hns. by exists q.
    + by rewrite (touching_none q y), app_nil_r.
  - rewrite IH1 by done. apply IH2. eapply pairwise_disjoint_perm; [|exact Hd]. by rewrite H1.
Qed.
End upds.

(** ** Colour loops with an arbitrary closure whose result does not depend on the workspace *)
Section tasks.
Context {T E W : Type} (add : T -> T -> T) (w0 : W) (task : W -> subset_access -> outcome E (list (nat * T)))
  (tres : subset_access -> outcome E (list (nat * T))) (owns : nat -> nat -> Prop) (n s : nat) (debug : bool) (len : nat).
Notation upd := (upd add).

Definition updates_of (acc : subset_access) : list (nat * T) := match tres acc with Ok us => us | _ => [] end.

Definition item_ok (acc : subset_access) : Prop :=
  (forall w, task w acc = tres acc) /\
  (forall us u, tres acc = Ok us -> u ∈ us -> u.1 < len /\ exists g, g ∈ sa_indices acc /\ owns g u.1).

Hypothesis owns_unique : forall g g' pos, owns g pos -> owns g' pos -> g = g'.

Lemma updates_of_owned acc pos : item_ok acc -> pos ∈ map fst (updates_of acc) -> pos < len /\ exists g, g ∈ sa_indices acc /\ owns g pos.
Proof.
  intros [_ H] Hp. unfold updates_of in Hp. destruct (tres acc) as [us|e|] eqn:E1; [|by apply elem_of_nil in Hp..].
  apply elem_of_list_fmap in Hp as (u & -> & Hu). exact (H us u eq_refl Hu).
Qed.

Lemma tasks_disjoint items : (forall acc, acc ∈ items -> item_ok acc) -> pairwise_disjoint (map sa_indices items) ->
  pairwise_disjoint (map (map fst) (map updates_of items)).
Proof using owns_unique.
  intros Hok Hpd i j s1 s2 Hij Hi Hj (x & H1 & H2). rewrite !list_lookup_fmap in Hi, Hj.
  destruct (items !! i) as [acc1|] eqn:E1; [|done]. destruct (items !! j) as [acc2|] eqn:E2; [|done].
  simpl in Hi, Hj. simplify_eq.
  destruct (updates_of_owned acc1 x) as (_ & g1 & Hg1 & Ho1); [apply Hok; by eapply elem_of_list_lookup_2|done|].
  destruct (updates_of_owned acc2 x) as (_ & g2 & Hg2 & Ho2); [apply Hok; by eapply elem_of_list_lookup_2|done|].
  rewrite (owns_unique _ _ _ Ho1 Ho2) in Hg1.
  apply (Hpd i j (sa_indices acc1) (sa_indices acc2) Hij).
  - by rewrite list_lookup_fmap, E1. - by rewrite list_lookup_fmap, E2. - by exists g2.
Qed.

Lemma tasks_in_range items : (forall acc, acc ∈ items -> item_ok acc) ->
  forall us u, us ∈ map updates_of items -> u ∈ us -> u.1 < len.
Proof.
  intros Hok us u Hus Hu. apply elem_of_list_fmap in Hus as (acc & -> & Hacc).
  eapply updates_of_owned; [by apply Hok|]. by apply elem_of_list_fmap_1.
Qed.

Lemma gcolor_run_spec ws items out out' r : length out = len ->
  (forall acc, acc ∈ items -> item_ok acc) -> pairwise_disjoint (map sa_indices items) ->
  gcolor_run add task ws items out out' r ->
  match r with
  | Ok _ => (forall acc, acc ∈ items -> tres acc = Ok (updates_of acc)) /\ out' = foldl upd out (concat (map updates_of items))
  | Err e => exists acc, acc ∈ items /\ tres acc = Err e
  | Panic => exists acc, acc ∈ items /\ tres acc = Panic
  end.
Proof using owns_unique.
  intros Hlen Hok Hpd Hrun. destruct Hrun as [tasks out' ths Htasks Hrun Hdone|k acc e out' Hk Ht|k acc out' Hk Ht].
  - assert (Forall2 (fun acc us => tres acc = Ok us) items tasks) as Hf.
    { apply Forall2_same_length_lookup_2.
      - apply Forall2_length in Htasks. rewrite zip_with_length, seq_length in Htasks. lia.
      - intros i acc us Hi Hu. rewrite Forall2_lookup in Htasks. specialize (Htasks i).
        assert (zip (seq 0 (length items)) items !! i = Some (i, acc)) as Hz.
        { rewrite lookup_zip_with, lookup_seq_lt by (by eapply lookup_lt_Some). simpl. by rewrite Hi. }
        rewrite Hz, Hu in Htasks. inversion Htasks as [? ? Ht|]; simplify_eq. simpl in Ht.
        destruct (Hok acc) as [Hw _]; [by eapply elem_of_list_lookup_2|]. by rewrite Hw in Ht. }
    assert (tasks = map updates_of items) as ->.
    { clear -Hf. induction Hf as [|acc us items tasks Hv Hf IH]; simpl; [done|]. unfold updates_of at 1. by rewrite Hv, IH. }
    split.
    + intros acc Hacc. apply elem_of_list_lookup in Hacc as [i Hi].
      destruct (Forall2_lookup_l _ _ _ _ _ Hf Hi) as (us & Hus & Hv). rewrite list_lookup_fmap, Hi in Hus. simpl in Hus. congruence.
    + eapply mem_run_unique; [by apply tasks_disjoint| |exact Hrun|done]. intros us u Hus Hu. rewrite Hlen. by eapply tasks_in_range.
  - exists acc. split; [by eapply elem_of_list_lookup_2|]. destruct (Hok acc) as [Hw _]; [by eapply elem_of_list_lookup_2|]. by rewrite Hw in Ht.
  - exists acc. split; [by eapply elem_of_list_lookup_2|]. destruct (Hok acc) as [Hw _]; [by eapply elem_of_list_lookup_2|]. by rewrite Hw in Ht.
Qed.

Lemma gcolor_run_exists ws items out : length out = len ->
  (forall acc, acc ∈ items -> item_ok acc) -> pairwise_disjoint (map sa_indices items) ->
  (forall acc, acc ∈ items -> tres acc = Ok (updates_of acc)) ->
  gcolor_run add task ws items out (foldl upd out (concat (map updates_of items))) (Ok tt).
Proof using owns_unique.
  intros Hlen Hok Hpd Hall. destruct (mem_run_exists add out (map updates_of items)) as (ths & Hrun & Hd).
  - by apply tasks_disjoint.
  - intros us u Hus Hu. rewrite Hlen. by eapply tasks_in_range.
  - eapply gcolor_ok; [|exact Hrun|done]. apply Forall2_same_length_lookup_2.
    + rewrite map_length, zip_with_length, seq_length. lia.
    + intros i [k acc] us Hi Hu. apply lookup_zip_with_Some in Hi as (k' & acc' & Heq & _ & Hacc). simplify_eq. simpl.
      rewrite list_lookup_fmap, Hacc in Hu. simpl in Hu. simplify_eq.
      assert (acc' ∈ items) as Hin by (by eapply elem_of_list_lookup_2).
      destruct (Hok acc' Hin) as [Hw _]. rewrite Hw. by apply Hall.
Qed.

(** All items of all colours, in subset order. *)
Definition color_items (colors : list dsubs) (lss : list (list (list nat))) : list subset_access :=
  concat (zip_with (fun c ls => zip_with SubsetAccess (ds_labels c) ls) colors lss).

Lemma gcolors_run_spec colors lss : 0 < s ->
  Forall2 safe_value colors lss ->
  Forall (fun ls => debug = true -> exists ns, ns ∈ ls /\ ns <> []) lss ->
  nodes_in_range n (concat lss) ->
  (forall acc, acc ∈ color_items colors lss -> item_ok acc) ->
  forall out out' r, length out = len ->
  gcolors_run add task (s * n) s debug colors out out' r ->
  match r with
  | Ok _ => (forall acc, acc ∈ color_items colors lss -> tres acc = Ok (updates_of acc)) /\
       out' = foldl upd out (concat (map updates_of (color_items colors lss)))
  | Err e => exists acc, acc ∈ color_items colors lss /\ tres acc = Err e
  | Panic => exists acc, acc ∈ color_items colors lss /\ tres acc = Panic
  end.
Proof using owns_unique.
  intros Hs Hsafe. unfold color_items.
  induction Hsafe as [|c ls colors lss Hc Hsafe IH]; intros Hne Hr Hitem out out' r Hout Hrun.
  - inversion Hrun; simplify_eq. split; [intros acc Hacc; by apply elem_of_nil in Hacc|done].
  - inversion_clear Hne as [|?? Hne1 Hne2].
    destruct (safe_value_spec c ls Hc) as ((_ & _ & Hlen) & _). cbn [zip_with concat] in *.
    assert (forall ns g, ns ∈ ls -> g ∈ ns -> g < n) as Hr1.
    { intros ns g Hns Hg. apply (Hr ns g); [|done]. apply elem_of_app. by left. }
    assert (nodes_in_range n (concat lss)) as Hr2.
    { intros ns g Hns Hg. apply (Hr ns g); [|done]. apply elem_of_app. by right. }
    specialize (IH Hne2 Hr2 ltac:(intros acc Hacc; apply Hitem, elem_of_app; by right)).
    pose proof (start_ok debug c ls n Hc Hr1 Hne1) as Hstart.
    assert (forall items : list subset_access, (forall acc, acc ∈ items -> exists k, ds_labels c !! k = Some (sa_label acc) /\ ls !! k = Some (sa_indices acc)) ->
      forall acc, acc ∈ items -> acc ∈ zip_with SubsetAccess (ds_labels c) ls) as Hzip.
    { intros items Hit acc Hacc. destruct (Hit acc Hacc) as (k & Hk1 & Hk2). eapply elem_of_list_lookup_2.
      rewrite lookup_zip_with, Hk1. simpl. rewrite Hk2. simpl. by destruct acc. }
    inversion Hrun as [|? ? ? Hp|? ? ? out1 ? n' range t items its ws ? Hn Hst Htree Hex Hcol Hrest|
                       ? ? ? ? n' range t items its ws ? Hn Hst Htree Hcol Hstop]; simplify_eq.
    + rewrite block_len_ok in Hp by done. destruct Hp as [|(n' & Heq & Hp)]; [done|]. simplify_eq. congruence.
    + rewrite block_len_ok in Hn by done. simplify_eq.
      destruct (run_items c ls debug n' range t items its Hc Hst Htree) as (Hpd & Hb & Hit & Hperm).
      specialize (Hperm Hex). specialize (Hzip items Hit).
      assert (forall acc, acc ∈ items -> item_ok acc) as Hok.
      { intros acc Hacc. apply Hitem, elem_of_app. left. by apply Hzip. }
      destruct (gcolor_run_spec ws items out out1 (Ok tt) Hout Hok Hpd Hcol) as [Hall1 Heq1].
      assert (out1 = foldl upd out (concat (map updates_of (zip_with SubsetAccess (ds_labels c) ls)))) as ->.
      { rewrite Heq1. apply upds_perm; [by rewrite Hperm|]. by apply tasks_disjoint. }
      specialize (IH _ out' r ltac:(rewrite upds_length; exact Hout) Hrest).
      destruct r as [[]|e|].
      * destruct IH as [Hall2 Heq2]. split.
        -- intros acc Hacc. apply elem_of_app in Hacc as [Hacc|Hacc]; [|by apply Hall2]. apply Hall1. by rewrite Hperm.
        -- rewrite Heq2, map_app, concat_app, foldl_app. done.
      * destruct IH as (acc & Hacc & ?). exists acc. split; [|done]. apply elem_of_app. by right.
      * destruct IH as (acc & Hacc & ?). exists acc. split; [|done]. apply elem_of_app. by right.
    + rewrite block_len_ok in Hn by done. simplify_eq.
      destruct (run_items c ls debug n' range t items its Hc Hst Htree) as (Hpd & Hb & Hit & _).
      specialize (Hzip items Hit).
      assert (forall acc, acc ∈ items -> item_ok acc) as Hok.
      { intros acc Hacc. apply Hitem, elem_of_app. left. by apply Hzip. }
      pose proof (gcolor_run_spec ws items out out' r Hout Hok Hpd Hcol) as H.
      destruct r as [[]|e|]; [done| |]; destruct H as (acc & Hacc & Hv); exists acc; (split; [|done]); apply elem_of_app; left; by apply Hzip.
Qed.

Lemma gcolors_run_exists colors lss : 0 < s ->
  Forall2 safe_value colors lss ->
  Forall (fun ls => debug = true -> exists ns, ns ∈ ls /\ ns <> []) lss ->
  nodes_in_range n (concat lss) ->
  (forall acc, acc ∈ color_items colors lss -> item_ok acc) ->
  (forall acc, acc ∈ color_items colors lss -> tres acc = Ok (updates_of acc)) ->
  forall out, length out = len -> exists out', gcolors_run add task (s * n) s debug colors out out' (Ok tt).
Proof using owns_unique w0.
  intros Hs Hsafe. unfold color_items.
  induction Hsafe as [|c ls colors lss Hc Hsafe IH]; intros Hne Hr Hitem Hall out Hout.
  - exists out. constructor.
  - inversion_clear Hne as [|?? Hne1 Hne2].
    destruct (safe_value_spec c ls Hc) as (Hwf & _). pose proof Hwf as (_ & _ & Hlen). cbn [zip_with concat] in *.
    assert (forall ns g, ns ∈ ls -> g ∈ ns -> g < n) as Hr1.
    { intros ns g Hns Hg. apply (Hr ns g); [|done]. apply elem_of_app. by left. }
    assert (nodes_in_range n (concat lss)) as Hr2.
    { intros ns g Hns Hg. apply (Hr ns g); [|done]. apply elem_of_app. by right. }
    pose proof (start_ok debug c ls n Hc Hr1 Hne1) as Hstart.
    destruct (script_exhausts c ls Hwf (length ls) (Iter 0 (length ls)) (replicate (length ls) true)) as (items & it' & Hrun & _ & Hl0 & _).
    { simpl. lia. } { unfold it_len. simpl. lia. } { by rewrite replicate_length. }
    set (t := Leaf (replicate (length ls) true)).
    assert (run_tree c (Producer 0 (length ls)) t = Ok (items, [it'])) as Htree.
    { unfold t, run_tree, p_into_iter. simpl. rewrite Nat.add_0_r, Hrun. done. }
    destruct (run_items c ls debug n (0, length ls) t items [it'] Hc Hstart Htree) as (Hpd & Hb & Hit & _).
    assert (forall acc, acc ∈ items -> acc ∈ zip_with SubsetAccess (ds_labels c) ls) as Hzip.
    { intros acc Hacc. destruct (Hit acc Hacc) as (k & Hk1 & Hk2). eapply elem_of_list_lookup_2.
      rewrite lookup_zip_with, Hk1. simpl. rewrite Hk2. simpl. by destruct acc. }
    destruct (IH Hne2 Hr2) with (out := foldl upd out (concat (map updates_of items))) as [out2 Hrest].
    { intros acc Hacc. apply Hitem, elem_of_app. by right. }
    { intros acc Hacc. apply Hall, elem_of_app. by right. }
    { rewrite <- Hout. apply upds_length. }
    exists out2. eapply (gcolors_cons add task (s * n) s debug c colors out _ out2 n (0, length ls) t items [it'] (fun _ => w0));
      [by apply block_len_ok|exact Hstart|exact Htree|by constructor| |exact Hrest].
    apply gcolor_run_exists; [done| |done|].
    + intros acc Hacc. apply Hitem, elem_of_app. left. by apply Hzip.
    + intros acc Hacc. apply Hall, elem_of_app. left. by apply Hzip.
Qed.
End tasks.

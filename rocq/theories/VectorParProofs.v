(** Proofs about parallel vector assembly. *)
From stdpp Require Import base list list_numbers sorting relations.
From Coq Require Import Lia ZArith.
From Verif Require Import Prelude NestedVecModel NestedVecSpec NestedVecProofs ParadisModel ParadisSpec
  ParadisProofs ColoringProofs ParadisSafety VectorModel VectorSpec VectorProofs.

Set Default Proof Using "Type".
Section threads.
Context {T : Type} (add : T -> T -> T).
Notation upd := (upd add).
Notation thread := (option T * list (nat * T))%type (only parsing).

Definition mem_inv (final : list T) (st : list T * list thread) : Prop :=
  pairwise_disjoint (map (fun t : thread => map fst t.2) st.2) /\
  (forall k x us, st.2 !! k = Some (Some x, us) -> exists i v us', us = (i, v) :: us' /\ st.1 !! i = Some x) /\
  (forall k t u, st.2 !! k = Some t -> u ∈ t.2 -> u.1 < length st.1) /\
  foldl upd st.1 (concat (map snd st.2)) = final.

Definition measure (ths : list thread) : nat :=
  sum_list_with (fun t : thread => 2 * length t.2 - match t.1 with Some _ => 1 | None => 0 end) ths.

Lemma disjoint_insert (ths : list thread) k (t t' : thread) :
  ths !! k = Some t -> (forall n, n ∈ map fst t'.2 -> n ∈ map fst t.2) ->
  pairwise_disjoint (map (fun t : thread => map fst t.2) ths) ->
  pairwise_disjoint (map (fun t : thread => map fst t.2) (<[k:=t']> ths)).
Proof.
  intros Hk Hsub Hpd i j s1 s2 Hij Hi Hj (n & H1 & H2).
  rewrite list_lookup_fmap in Hi, Hj.
  assert (forall i s, (fun t : thread => map fst t.2) <$> (<[k:=t']> ths) !! i = Some s -> n ∈ s ->
            exists s', map (fun t : thread => map fst t.2) ths !! i = Some s' /\ n ∈ s') as Hgen.
  { intros m s Hm Hn. rewrite list_lookup_fmap. destruct (decide (m = k)) as [->|Hne].
    - rewrite list_lookup_insert in Hm by (by eapply lookup_lt_Some). simpl in Hm. simplify_eq.
      rewrite Hk. exists (map fst t.2). split; [done|by apply Hsub].
    - rewrite list_lookup_insert_ne in Hm by done. eauto. }
  destruct (Hgen i s1 Hi H1) as (s1' & Hi' & H1'). destruct (Hgen j s2 Hj H2) as (s2' & Hj' & H2').
  apply (Hpd i j s1' s2' Hij Hi' Hj'). by exists n.
Qed.

Lemma measure_insert (ths : list thread) k (t t' : thread) : ths !! k = Some t ->
  measure (<[k:=t']> ths) + (2 * length t.2 - match t.1 with Some _ => 1 | None => 0 end)
  = measure ths + (2 * length t'.2 - match t'.1 with Some _ => 1 | None => 0 end).
Proof.
  intros Hk. unfold measure. rewrite insert_take_drop by (by eapply lookup_lt_Some).
  rewrite <- (take_drop_middle ths k t Hk) at 3. rewrite !sum_list_with_app. simpl. lia.
Qed.

Lemma mem_step_inv final st st' : mem_inv final st -> mem_step add st st' ->
  mem_inv final st' /\ S (measure st'.2) = measure st.2 /\ length st'.1 = length st.1.
Proof.
  intros (Hpd & Hreg & Hin & Hfin) Hstep. destruct Hstep as [mem ths k i v us x Hk Hx|mem ths k i v us x Hk]; simpl in *.
  - split.
    + split_and!; simpl.
      * eapply disjoint_insert; [exact Hk| |done]. done.
      * intros k' x' us' Hk'. destruct (decide (k = k')) as [<-|Hne].
        -- rewrite list_lookup_insert in Hk' by (by eapply lookup_lt_Some). simplify_eq. eauto.
        -- rewrite list_lookup_insert_ne in Hk' by done. by eapply Hreg.
      * intros k' t u Hk' Hu. destruct (decide (k = k')) as [<-|Hne].
        -- rewrite list_lookup_insert in Hk' by (by eapply lookup_lt_Some). simplify_eq. by eapply (Hin k).
        -- rewrite list_lookup_insert_ne in Hk' by done. by eapply Hin.
      * rewrite <- Hfin. f_equal. f_equal. rewrite list_fmap_insert. simpl. apply list_insert_id.
        by rewrite list_lookup_fmap, Hk.
    + pose proof (measure_insert ths k (None, (i, v) :: us) (Some x, (i, v) :: us) Hk) as Hm. simpl in Hm.
      split; [lia|done].
  - destruct (Hreg k x _ Hk) as (i' & v' & us' & Heq & Hx). simplify_eq.
    assert (<[i':=add x v']> mem = upd mem (i', v')) as Hupd.
    { unfold VectorModel.upd. simpl. symmetry. apply list_eq. intros j. destruct (decide (i' = j)) as [<-|Hne].
      - rewrite list_lookup_alter, Hx. simpl. rewrite list_lookup_insert; [done|]. by eapply lookup_lt_Some.
      - by rewrite list_lookup_alter_ne, list_lookup_insert_ne by done. }
    split.
    + split_and!; simpl.
      * eapply disjoint_insert; [exact Hk| |done]. intros n Hn. simpl. by right.
      * intros k' x' us Hk'. destruct (decide (k = k')) as [<-|Hne].
        -- rewrite list_lookup_insert in Hk' by (by eapply lookup_lt_Some). simplify_eq.
        -- rewrite list_lookup_insert_ne in Hk' by done.
           destruct (Hreg k' x' us Hk') as (i & v & us'' & -> & Hi). exists i, v, us''. split; [done|].
           rewrite list_lookup_insert_ne; [done|]. intros <-.
           apply (Hpd k k' (map fst ((i', v') :: us')) (map fst ((i', v) :: us''))); [done| | |].
           ++ by rewrite list_lookup_fmap, Hk.
           ++ by rewrite list_lookup_fmap, Hk'.
           ++ exists i'. split; by left.
      * intros k' t u Hk' Hu. rewrite insert_length. destruct (decide (k = k')) as [<-|Hne].
        -- rewrite list_lookup_insert in Hk' by (by eapply lookup_lt_Some). simplify_eq.
           eapply (Hin k); [exact Hk|]. by right.
        -- rewrite list_lookup_insert_ne in Hk' by done. by eapply Hin.
      * rewrite Hupd.
        change (foldl upd (upd mem (i', v')) ?l) with (foldl upd mem ((i', v') :: l)).
        apply upds_ext. intros d.
        pose proof (take_drop_middle ths k _ Hk) as Hsplit.
        assert (i' ∉ map fst (concat (map snd (take k ths)))) as Hnin.
        { intros Hel. apply elem_of_list_fmap in Hel as ([i0 v0] & Heq & Hel). simpl in Heq. subst i0.
          apply concat_elem in Hel as (us0 & Hus & Hel). apply elem_of_list_fmap in Hus as (t0 & -> & Ht0).
          apply elem_of_list_lookup in Ht0 as [m Hm]. apply lookup_take_Some in Hm as [Hm Hlt].
          apply (Hpd m k (map fst t0.2) (map fst ((i', v') :: us'))); [lia| | |].
          - by rewrite list_lookup_fmap, Hm.
          - by rewrite list_lookup_fmap, Hk.
          - exists i'. split; [|by left]. apply elem_of_list_fmap. by exists (i', v0). }
        rewrite <- Hsplit at 2.
        rewrite insert_take_drop by (by eapply lookup_lt_Some).
        rewrite !map_app, !concat_app. simpl map. simpl concat.
        change ((i', v') :: ?l) with ([(i', v')] ++ l). rewrite !touching_app.
        destruct (decide (i' = d)) as [<-|Hne].
        -- rewrite (touching_nil i' _ Hnin). done.
        -- assert (touching d [(i', v')] = []) as -> by (simpl; by rewrite decide_False). done.
    + pose proof (measure_insert ths k (Some x, (i', v') :: us') (None, us') Hk) as Hm. simpl in Hm.
      rewrite insert_length. split; [lia|done].
Qed.

Lemma mem_progress final st : mem_inv final st -> mem_done st.2 \/ exists st', mem_step add st st'.
Proof.
  intros (Hpd & Hreg & Hin & Hfin). destruct st as [mem ths]. simpl in *.
  assert ({k & { t | ths !! k = Some t /\ t <> (None, []) }} + (mem_done ths)) as [(k & t & Hk & Ht)|Hd].
  { clear. unfold mem_done. induction ths as [|[[x|] [|u us]] ths IH].
    - right. constructor.
    - left. exists 0, (Some x, []). done.
    - left. exists 0, (Some x, u :: us). done.
    - destruct IH as [(k & t & ? & ?)|Hd]; [left; by exists (S k), t|right; by constructor].
    - left. exists 0, (None, u :: us). done. }
  - right. destruct t as [[x|] us].
    + destruct (Hreg k x us Hk) as (i & v & us' & -> & Hx). eexists. by eapply step_store.
    + destruct us as [|[i v] us]; [done|].
      destruct (lookup_lt_is_Some_2 mem i) as [x Hx].
      { apply (Hin k _ (i, v) Hk). by left. }
      eexists. by eapply step_load.
  - by left.
Qed.

Lemma mem_done_final final mem ths : mem_inv final (mem, ths) -> mem_done ths -> mem = final.
Proof.
  intros (_ & _ & _ & Hfin) Hd. simpl in Hfin. rewrite <- Hfin.
  assert (concat (map snd ths) = []) as ->; [|done].
  clear -Hd. induction Hd as [|t ths -> Hd IH]; simpl; auto.
Qed.

Definition start (tasks : list (list (nat * T))) : list thread := map (fun us => (None, us)) tasks.

Lemma mem_inv_start mem tasks :
  pairwise_disjoint (map (map fst) tasks) -> (forall us u, us ∈ tasks -> u ∈ us -> u.1 < length mem) ->
  mem_inv (foldl upd mem (concat tasks)) (mem, start tasks).
Proof.
  intros Hpd Hin. split_and!; simpl.
  - unfold start. rewrite map_map. simpl. by rewrite (map_ext _ (map fst)).
  - intros k x us Hk. unfold start in Hk. rewrite list_lookup_fmap in Hk. destruct (tasks !! k); simpl in Hk; simplify_eq.
  - intros k t u Hk Hu. unfold start in Hk. rewrite list_lookup_fmap in Hk.
    destruct (tasks !! k) eqn:E; simpl in Hk; simplify_eq. eapply Hin; [by eapply elem_of_list_lookup_2|done].
  - f_equal. unfold start. rewrite map_map. simpl. by rewrite map_id.
Qed.

Lemma mem_steps_inv final st st' : mem_inv final st -> rtc (mem_step add) st st' -> mem_inv final st'.
Proof. intros Hi Hs. induction Hs as [|x y z Hxy _ IH]; [done|]. apply IH. by eapply mem_step_inv. Qed.

(** All complete schedules give the same memory. *)
Lemma mem_run_unique mem tasks mem' ths :
  pairwise_disjoint (map (map fst) tasks) -> (forall us u, us ∈ tasks -> u ∈ us -> u.1 < length mem) ->
  rtc (mem_step add) (mem, start tasks) (mem', ths) -> mem_done ths -> mem' = foldl upd mem (concat tasks).
Proof.
  intros Hpd Hin Hrun Hd. eapply mem_done_final; [|done]. eapply mem_steps_inv; [|done]. by apply mem_inv_start.
Qed.

(** A complete schedule exists. *)
Lemma mem_run_exists mem tasks :
  pairwise_disjoint (map (map fst) tasks) -> (forall us u, us ∈ tasks -> u ∈ us -> u.1 < length mem) ->
  exists ths, rtc (mem_step add) (mem, start tasks) (foldl upd mem (concat tasks), ths) /\ mem_done ths.
Proof.
  intros Hpd Hin. pose proof (mem_inv_start mem tasks Hpd Hin) as Hinv.
  remember (mem, start tasks) as st eqn:Est. clear Est. revert Hinv.
  generalize (foldl upd mem (concat tasks)) as final. intros final. 
  remember (measure st.2) as m eqn:Em. revert st Em. induction m as [|m IH]; intros st Em Hinv.
  - destruct (mem_progress final st Hinv) as [Hd|[st' Hs]].
    + exists st.2. split; [|done]. rewrite <- (mem_done_final final st.1 st.2); [by destruct st|by destruct st|done].
    + destruct (mem_step_inv final st st' Hinv Hs) as (_ & Hm & _). lia.
  - destruct (mem_progress final st Hinv) as [Hd|[st' Hs]].
    + exists st.2. split; [|done]. rewrite <- (mem_done_final final st.1 st.2); [by destruct st|by destruct st|done].
    + destruct (mem_step_inv final st st' Hinv Hs) as (Hinv' & Hm & _).
      destruct (IH st') as (ths & Hr & Hd); [lia|done|]. exists ths. split; [|done]. by eapply rtc_l.
Qed.

(** No schedule gets stuck and none is longer than two steps per addition. *)
Lemma mem_run_no_deadlock mem tasks st n :
  pairwise_disjoint (map (map fst) tasks) -> (forall us u, us ∈ tasks -> u ∈ us -> u.1 < length mem) ->
  nsteps (mem_step add) n (mem, start tasks) st ->
  n <= 2 * length (concat tasks) /\ (mem_done st.2 \/ exists st', mem_step add st st').
Proof.
  intros Hpd Hin Hn. pose proof (mem_inv_start mem tasks Hpd Hin) as Hinv.
  assert (measure (start tasks) = 2 * length (concat tasks)) as Hm.
  { clear. unfold measure, start. induction tasks as [|us tasks IH]; simpl in *; [done|]. rewrite app_length. lia. }
  assert (mem_inv (foldl upd mem (concat tasks)) st /\ n + measure st.2 = measure (start tasks)) as [Hi Hms].
  { revert Hn Hinv. generalize (foldl upd mem (concat tasks)) as final. intros final.
    change (start tasks) with ((mem, start tasks).2) at 3. generalize (mem, start tasks) as st0. clear.
    intros st0 Hn. induction Hn as [|n x y z Hxy _ IH]; intros Hinv; [done|].
    destruct (mem_step_inv final x y Hinv Hxy) as (Hy & Hm & _). destruct (IH Hy) as [? ?]. split; [done|]. lia. }
  split; [lia|]. by eapply mem_progress.
Qed.
End threads.

(** Proofs about serial CSR assembly: the loop over elements. *)
From stdpp Require Import base list list_numbers sorting relations.
From Coq Require Import Lia ZArith.
From Verif Require Import Prelude NestedVecModel NestedVecSpec NestedVecProofs ParadisModel ParadisSpec
  ParadisProofs ColoringProofs ParadisSafety VectorModel VectorSpec VectorProofs VectorParProofs VectorColors VectorAgree
  CsrModel CsrSpec CsrProofs.

Set Default Proof Using "Type".
Section serial.
Context {T E : Type} (add : T -> T -> T) (zero : T) (srt : list nat -> list nat).
Notation upd := (upd add).

Lemma mat_resize_square (A : list (list T)) n : square n (mat_resize zero A n).
Proof.
  unfold mat_resize. split; [rewrite fmap_length; apply vec_resize_length|].
  rewrite Forall_forall. intros r Hr. apply elem_of_list_fmap in Hr as (r' & -> & _). apply vec_resize_length.
Qed.

Lemma prepare_matrix_spec (a : @mat_asm T E) ws i ns v :
  ca_count (ma_conn a) i = length ns ->
  (forall buf, length buf = length ns -> ca_populate (ma_conn a) i buf = ns) ->
  yields_mat a i (length ns) v ->
  (prepare_matrix zero a ws i).2 = v /\ (forall A, v = Ok A -> cw_nodes (prepare_matrix zero a ws i).1 = ns).
Proof.
  intros Hc Hp [Hv Hl]. unfold prepare_matrix. rewrite Hc, Hv by apply mat_resize_square.
  destruct v as [v|e|]; simpl; split; try done. intros ? _. apply Hp, vec_resize_length.
Qed.

Lemma mat_contribs_app s ls1 ls2 (vs1 vs2 : list (list (list T))) r c : length ls1 = length vs1 ->
  mat_contribs s (ls1 ++ ls2) (vs1 ++ vs2) r c = mat_contribs s ls1 vs1 r c ++ mat_contribs s ls2 vs2 r c.
Proof. intros H. unfold mat_contribs. by rewrite zip_with_app, concat_app. Qed.

Lemma csr_sums_refl s (m : csr T) : csr_sums add s [] [] m m.
Proof. done. Qed.

Lemma csr_sums_trans s ls1 ls2 (vs1 vs2 : list (list (list T))) m1 m2 m3 : length ls1 = length vs1 ->
  csr_sums add s ls1 vs1 m1 m2 -> csr_sums add s ls2 vs2 m2 m3 -> csr_sums add s (ls1 ++ ls2) (vs1 ++ vs2) m1 m3.
Proof.
  intros Hl (P1 & L1 & S1) (P2 & L2 & S2). split_and!; [congruence|congruence|]. intros r c pos x Hpos Hx.
  rewrite mat_contribs_app by done. rewrite foldl_app. eapply S2; [by rewrite P1|]. by eapply S1.
Qed.

Lemma csr_sums_unique s ls (vs : list (list (list T))) m m1 m2 : csr_wf m ->
  csr_sums add s ls vs m m1 -> csr_sums add s ls vs m m2 -> m1 = m2.
Proof.
  intros [Hwf Hl] (P1 & L1 & S1) (P2 & L2 & S2). destruct m1 as [p1 v1], m2 as [p2 v2]. simpl in *. subst p1 p2. f_equal.
  apply list_eq. intros i. destruct (decide (i < length (cs_vals m))) as [Hi|Hi].
  - destruct (lookup_lt_is_Some_2 _ _ Hi) as [x Hx]. rewrite Hl in Hi.
    destruct (stored_cover _ Hwf i Hi) as (r & c & Hst). by rewrite (S1 _ _ _ _ Hst Hx), (S2 _ _ _ _ Hst Hx).
  - rewrite !lookup_ge_None_2 by lia. done.
Qed.

Lemma csr_sums_one s ns (A : list (list T)) p vals us :
  (forall r c pos, stored p r c pos -> touching pos us = mat_contrib s ns A r c) ->
  csr_sums add s [ns] [A] (Csr p vals) (Csr p (foldl upd vals us)).
Proof.
  intros H. split_and!; [done|apply upds_length|]. simpl. intros r c pos x Hpos Hx.
  rewrite upds_lookup, Hx. simpl. rewrite (H r c pos Hpos). unfold mat_contribs. simpl. by rewrite app_nil_r.
Qed.

Lemma has_couplings_one s ls p ns : has_couplings s ls p -> ns ∈ ls -> has_couplings s [ns] p.
Proof.
  intros H Hns r c Hs (ns' & Hns' & H1 & H2). apply elem_of_list_singleton in Hns' as ->. apply H; [done|]. by exists ns.
Qed.

Lemma csr_loop_spec (a : @mat_asm T E) (ls : list (list nat)) (vs : list (outcome E (list (list T)))) p :
  has_conn (ma_conn a) ls -> has_mats a ls vs -> pat_wf p -> sorts_by_key srt ->
  1 <= ca_sdim (ma_conn a) -> Forall NoDup ls -> has_couplings (ca_sdim (ma_conn a)) ls p ->
  forall m k ws vals, k + m = length ls ->
  exists ws' vals' r good,
    csr_loop add zero srt a ws p vals (seq k m) = (ws', vals', r) /\
    csr_sums add (ca_sdim (ma_conn a)) (take (length good) (drop k ls)) good (Csr p vals) (Csr p vals') /\
    match r with
    | Ok _ => drop k vs = map Ok good
    | Err e => exists rest, drop k vs = map Ok good ++ Err e :: rest
    | Panic => exists rest, drop k vs = map Ok good ++ Panic :: rest
    end.
Proof.
  intros [Hcl Hc] [Hvl Hv] Hwf Hsrt Hs Hnd Hcoup. induction m as [|m IH]; intros k ws vals Hk; simpl.
  - exists ws, vals, (Ok tt), []. split_and!; [done| |].
    + rewrite take_0. apply csr_sums_refl.
    + rewrite drop_ge by lia. done.
  - destruct (lookup_lt_is_Some_2 ls k) as [ns Hns]; [lia|].
    destruct (lookup_lt_is_Some_2 vs k) as [v Hvk]; [lia|].
    destruct (Hc k ns Hns) as [Hcount Hpop]. pose proof (Hv k ns v Hns Hvk) as Hy.
    destruct (prepare_matrix_spec a ws k ns v Hcount Hpop Hy) as [Hp1 Hp2].
    destruct (prepare_matrix zero a ws k) as [ws1 r1] eqn:Eprep. simpl in Hp1, Hp2. subst r1.
    rewrite (drop_S vs _ k Hvk). destruct v as [A|e|].
    + rewrite (Hp2 A eq_refl). destruct (Hsrt ns) as [Hsp Hss].
      assert (ns ∈ ls) as Hin by (by eapply elem_of_list_lookup_2).
      rewrite Forall_forall in Hnd.
      destruct (element_updates_spec (E := E) p ns (srt ns) (ca_sdim (ma_conn a)) A) as (us & Hus & _ & Ht); try done.
      { by apply Hnd. } { rewrite Nat.mul_comm. by apply (proj2 Hy). } { by eapply has_couplings_one. }
      rewrite Hus.
      destruct (IH (S k) ws1 (foldl upd vals us)) as (ws' & vals' & r & good & Hrun & Hsum & Hres); [lia|].
      exists ws', vals', r, (A :: good). split; [exact Hrun|]. split.
      * rewrite (drop_S ls _ k Hns). simpl. change (ns :: ?l) with ([ns] ++ l). change (A :: good) with ([A] ++ good).
        eapply csr_sums_trans; [done| |exact Hsum]. by apply csr_sums_one.
      * destruct r; simpl.
        -- by rewrite Hres.
        -- destruct Hres as [rest ->]. eauto.
        -- destruct Hres as [rest ->]. eauto.
    + exists ws1, vals, (Err e), []. split_and!; [done| |eauto]. rewrite take_0. apply csr_sums_refl.
    + exists ws1, vals, Panic, []. split_and!; [done| |eauto]. rewrite take_0. apply csr_sums_refl.
Qed.

Lemma assemble_into_csr_spec (a : @mat_asm T E) ls vs ws m :
  has_conn (ma_conn a) ls -> has_mats a ls vs -> pat_wf (cs_pat m) -> sorts_by_key srt ->
  1 <= ca_sdim (ma_conn a) -> Forall NoDup ls -> has_couplings (ca_sdim (ma_conn a)) ls (cs_pat m) ->
  exists ws' m' r good,
    assemble_into_csr add zero srt ws m a = (ws', m', r) /\
    csr_sums add (ca_sdim (ma_conn a)) (take (length good) ls) good m m' /\
    match r with
    | Ok _ => vs = map Ok good
    | Err e => exists rest, vs = map Ok good ++ Err e :: rest
    | Panic => exists rest, vs = map Ok good ++ Panic :: rest
    end.
Proof.
  intros Hc Hv Hwf Hsrt Hs Hnd Hcoup. unfold assemble_into_csr. rewrite <- (proj1 Hc).
  destruct (csr_loop_spec a ls vs (cs_pat m) Hc Hv Hwf Hsrt Hs Hnd Hcoup (length ls) 0 ws (cs_vals m))
    as (ws' & vals' & r & good & Hrun & Hsum & Hres); [lia|].
  rewrite Hrun. exists ws', (Csr (cs_pat m) vals'), r, good. destruct m. split_and!; [done|exact Hsum|exact Hres].
Qed.
End serial.

(** Proofs about the NestedVec model. *)
From stdpp Require Import base list list_numbers.
From Verif Require Import Prelude NestedVecModel NestedVecSpec.
From Coq Require Import Lia.

Section proofs.
Context {T : Type}.
Implicit Types v w : nvec T.
Implicit Types l : list (list T).

(** Representation invariant, index-wise (holds even with leaked appenders). *)
Definition rep v l : Prop :=
  length (nv_begin v) = length l /\ length (nv_end v) = length l /\
  (forall i s, l !! i = Some s -> exists b,
      nv_begin v !! i = Some b /\ nv_end v !! i = Some (b + length s) /\
      b + length s <= length (nv_data v) /\
      take (length s) (drop b (nv_data v)) = s) /\
  (forall i j e b, i < j -> nv_end v !! i = Some e -> nv_begin v !! j = Some b -> e <= b) /\
  (forall i e, nv_end v !! i = Some e -> e <= length (nv_data v)).

Lemma rep_new : rep nv_new [].
Proof. repeat split; intros; simpl in *; try done; try lia; rewrite ?lookup_nil in *; done. Qed.

Lemma rep_lookup_lt v l i s : rep v l -> l !! i = Some s -> i < length l.
Proof. intros _. apply lookup_lt_Some. Qed.

Lemma rep_get v l i : rep v l -> nv_get v i = l !! i.
Proof.
  intros (Hb & He & Hs & _ & _). unfold nv_get, nv_index_range.
  destruct (l !! i) as [s|] eqn:E.
  - destruct (Hs i s E) as (b & -> & -> & Hle & Ht). simpl.
    unfold slice_get. rewrite decide_True by lia.
    replace (b + length s - b) with (length s) by lia. by rewrite Ht.
  - apply lookup_ge_None in E. rewrite (lookup_ge_None_2 (nv_begin v)) by lia. done.
Qed.

Lemma rep_index_range v l i s : rep v l -> l !! i = Some s ->
  exists b, nv_index_range v i = Some (b, b + length s) /\ slice_get (nv_data v) b (b + length s) = Some s.
Proof.
  intros (Hb & He & Hs & _ & _) E. destruct (Hs i s E) as (b & Eb & Ee & Hle & Ht).
  exists b. unfold nv_index_range. rewrite Eb, Ee. simpl. split; [done|].
  unfold slice_get. rewrite decide_True by lia.
  replace (b + length s - b) with (length s) by lia. by rewrite Ht.
Qed.

Lemma rep_index_range_none v l i : rep v l -> l !! i = None -> nv_index_range v i = None.
Proof.
  intros (Hb & He & _) E. apply lookup_ge_None in E. unfold nv_index_range.
  by rewrite (lookup_ge_None_2 (nv_begin v)) by lia.
Qed.

Lemma rep_last_range v l : rep v l -> nv_last_range v = nv_index_range v (length l - 1).
Proof.
  intros (Hb & He & _). unfold nv_last_range, nv_index_range.
  rewrite !last_lookup, Hb, He. by replace (pred (length l)) with (length l - 1) by lia.
Qed.

Lemma mapM_seq_lookup {A} (f : nat -> option A) (l : list A) k :
  (forall i, i < length l -> f (k + i) = l !! i) ->
  mapM f (seq k (length l)) = Some l.
Proof.
  revert k. induction l as [|x l IH]; intros k H; [done|].
  simpl. pose proof (H 0 ltac:(simpl; lia)) as H0. rewrite Nat.add_0_r in H0. rewrite H0. simpl.
  rewrite IH; [done|]. intros i Hi. replace (S k + i) with (k + S i) by lia.
  rewrite H by (simpl; lia). done.
Qed.

Lemma rep_iter v l : rep v l -> nv_iter v = Some l.
Proof.
  intros H. unfold nv_iter. unfold nv_len. destruct H as [Hb H'] eqn:E. rewrite Hb.
  apply mapM_seq_lookup. intros i _. by apply rep_get.
Qed.

Lemma rep_total v l : rep v l -> nv_total v = Some (length (concat l)).
Proof.
  intros (Hb & He & Hs & _). unfold nv_total.
  assert (mapM (fun be : nat * nat => if decide (be.1 <= be.2) then Some (be.2 - be.1) else None)
            (zip (nv_begin v) (nv_end v)) = Some (length <$> l)) as ->.
  { apply mapM_Some. apply Forall2_same_length_lookup. split.
    - rewrite zip_with_length, fmap_length. lia.
    - intros i [b e] n Hz Hl. apply list_lookup_fmap_Some in Hl as (s & Hi & ->).
      apply lookup_zip_with_Some in Hz as (b' & e' & [= -> ->] & Hb' & He').
      destruct (Hs i s Hi) as (b'' & Eb & Ee & _). rewrite Eb in Hb'. rewrite Ee in He'.
      simplify_eq. simpl. rewrite decide_True by lia. f_equal. lia. }
  simpl. f_equal. clear. induction l as [|s l IH]; [done|].
  simpl. rewrite app_length. f_equal. exact IH.
Qed.

Lemma rep_shows v l : rep v l -> shows v l.
Proof.
  intros H. unfold shows. repeat split.
  - by destruct H.
  - intros i. by apply rep_get.
  - unfold nv_first. rewrite (rep_get v l) by done. by destruct l.
  - unfold nv_last. rewrite (rep_last_range v l) by done. rewrite last_lookup.
    replace (pred (length l)) with (length l - 1) by lia.
    by rewrite <- (rep_get v l) by done.
  - by apply rep_iter.
  - unfold nv_iter_elements. rewrite (rep_iter v l) by done. done.
  - by apply rep_total.
Qed.

(** Appender. *)
Lemma appender_fold (a : appender T) xs :
  foldl ap_push_single a xs =
  Appender (NVec (nv_data (ap_vec a) ++ xs) (nv_begin (ap_vec a)) (nv_end (ap_vec a))) (ap_initial a).
Proof.
  revert a. induction xs as [|x xs IH]; intros a; simpl.
  - rewrite app_nil_r. by destruct a as [[] ?].
  - rewrite IH. simpl. by rewrite <- app_assoc.
Qed.

Lemma append_is_push v xs :
  ap_drop (foldl ap_push_single (nv_begin_array v) xs) = nv_push v xs.
Proof. rewrite appender_fold. done. Qed.

Lemma appender_count v xs :
  ap_count (foldl ap_push_single (nv_begin_array v) xs) = Some (length xs).
Proof.
  rewrite appender_fold. unfold ap_count. simpl. rewrite app_length, decide_True by lia. f_equal; lia.
Qed.

Lemma rep_extend v l xs : rep v l -> rep (NVec (nv_data v ++ xs) (nv_begin v) (nv_end v)) l.
Proof.
  intros (Hb & He & Hs & Hd & Hl). repeat split; simpl; try done.
  - intros i s E. destruct (Hs i s E) as (b & ? & ? & Hle & Ht). exists b. repeat split; try done.
    + rewrite app_length. lia.
    + rewrite drop_app_le by lia. rewrite take_app_le; [done|]. rewrite drop_length. lia.
  - intros i e E. specialize (Hl i e E). rewrite app_length. lia.
Qed.

Lemma rep_push v l a : rep v l -> rep (nv_push v a) (l ++ [a]).
Proof.
  intros (Hb & He & Hs & Hd & Hl). unfold nv_push. repeat split; simpl.
  - rewrite !app_length. simpl. lia.
  - rewrite !app_length. simpl. lia.
  - intros i s E. apply lookup_app_Some in E as [E|[Hge E]].
    + destruct (Hs i s E) as (b & Eb & Ee & Hle & Ht). exists b.
      assert (i < length l) by (by eapply lookup_lt_Some).
      rewrite !lookup_app_l by lia. repeat split; try done.
      * rewrite app_length. lia.
      * rewrite drop_app_le by lia. rewrite take_app_le; [done|]. rewrite drop_length. lia.
    + apply list_lookup_singleton_Some in E as [Hi ->]. assert (i = length l) as -> by lia.
      exists (length (nv_data v)).
      rewrite !lookup_app_r by lia. rewrite Hb, He, Nat.sub_diag. simpl.
      rewrite app_length. repeat split; try lia.
      rewrite drop_app. by rewrite take_ge by lia.
  - intros i j e b Hij E1 E2. apply lookup_app_Some in E1 as [E1|[Hge1 E1]].
    + apply lookup_app_Some in E2 as [E2|[Hge2 E2]].
      * by eapply Hd.
      * apply list_lookup_singleton_Some in E2 as [_ <-]. by eapply Hl.
    + apply list_lookup_singleton_Some in E1 as [? _]. apply lookup_lt_Some in E2.
      rewrite app_length in E2. simpl in E2. lia.
  - intros i e E. apply lookup_app_Some in E as [E|[_ E]].
    + specialize (Hl _ _ E). rewrite app_length. lia.
    + by apply list_lookup_singleton_Some in E as [_ <-].
Qed.

Lemma take_drop_insert_in {A} (d : list A) b n j x :
  j < n -> b + n <= length d ->
  take n (drop b (<[b + j := x]> d)) = <[j := x]> (take n (drop b d)).
Proof.
  intros Hj Hn. apply list_eq. intros k.
  destruct (decide (k < n)) as [Hk|Hk].
  - rewrite lookup_take, lookup_drop by done.
    destruct (decide (k = j)) as [->|Hne].
    + rewrite list_lookup_insert by lia. rewrite list_lookup_insert; [done|].
      rewrite take_length, drop_length. lia.
    + rewrite !list_lookup_insert_ne by lia. by rewrite lookup_take, lookup_drop by done.
  - rewrite lookup_ge_None_2; [rewrite lookup_ge_None_2; [done|]|];
      rewrite ?insert_length, ?take_length, ?drop_length, ?insert_length; lia.
Qed.

Lemma take_drop_insert_out {A} (d : list A) b n p x :
  (p < b \/ b + n <= p) ->
  take n (drop b (<[p := x]> d)) = take n (drop b d).
Proof.
  intros Hp. apply list_eq. intros k.
  destruct (decide (k < n)) as [Hk|Hk].
  - rewrite !lookup_take, !lookup_drop by done. by rewrite list_lookup_insert_ne by lia.
  - rewrite !lookup_take_ge by lia. done.
Qed.

Lemma rep_write v l i s j x : rep v l -> l !! i = Some s -> j < length s ->
  exists b, nv_begin v !! i = Some b /\
    rep (NVec (<[b + j := x]> (nv_data v)) (nv_begin v) (nv_end v)) (<[i := <[j := x]> s]> l).
Proof.
  intros (Hb & He & Hs & Hd & Hl) E Hj.
  destruct (Hs i s E) as (b & Eb & Ee & Hle & Ht). exists b. split; [done|].
  assert (i < length l) by (by eapply lookup_lt_Some).
  repeat split; simpl; rewrite ?insert_length; try done.
  intros i' s' E'. apply list_lookup_insert_Some in E' as [(-> & <- & _)|[Hne E']].
  - exists b. rewrite insert_length. repeat split; try done.
    rewrite take_drop_insert_in by lia. by rewrite Ht.
  - destruct (Hs i' s' E') as (b' & Eb' & Ee' & Hle' & Ht'). exists b'. repeat split; try done.
    rewrite take_drop_insert_out; [done|].
    destruct (decide (i < i')).
    + left. pose proof (Hd i i' _ _ ltac:(lia) Ee Eb'). lia.
    + right. pose proof (Hd i' i _ _ ltac:(lia) Ee' Eb). lia.
Qed.

Lemma rep_write_op v l (row : option nat) (r : option (nat * nat)) j x :
  rep v l ->
  (match row with None => r = None | Some i => r = nv_index_range v i end) ->
  match nv_write_range v r j x, spec_write l row j x with
  | Ok v', Ok l' => rep v' l'
  | Panic, Panic => True
  | _, _ => False
  end.
Proof.
  intros H Hr. destruct row as [i|].
  - subst r. unfold spec_write, nv_write_range. destruct (l !! i) as [s|] eqn:E.
    + destruct (rep_index_range v l i s H E) as (b & Er & Hsl). rewrite Er, Hsl.
      destruct (decide (j < length s)); [|done].
      destruct (rep_write v l i s j x H E) as (b' & Eb & Hrep); [done|].
      assert (b' = b) as ->; [|done].
      unfold nv_index_range in Er. rewrite Eb in Er. simpl in Er.
      destruct (nv_end v !! i); simpl in Er; congruence.
    + by rewrite (rep_index_range_none v l i).
  - subst r. done.
Qed.

Lemma rep_run_op v l o : rep v l ->
  match run_op v o, spec_op l o with
  | Ok v', Ok l' => rep v' l'
  | Panic, Panic => True
  | _, _ => False
  end.
Proof.
  intros H. destruct o as [a|xs|xs| |i j x|j x|j x]; cbn [run_op spec_op].
  - by apply rep_push.
  - rewrite append_is_push. by apply rep_push.
  - rewrite appender_fold. by apply rep_extend.
  - apply rep_new.
  - by apply rep_write_op.
  - by apply rep_write_op.
  - apply rep_write_op; [done|]. rewrite (rep_last_range v l) by done.
    destruct l as [|s l]; [|done]. by eapply rep_index_range_none.
Qed.

Lemma rep_run_ops_from (os : list (op T)) : forall v l, rep v l ->
  match ofold run_op v os, ofold spec_op l os with
  | Ok v', Ok l' => rep v' l'
  | Panic, Panic => True
  | _, _ => False
  end.
Proof.
  induction os as [|o os IH]; intros v l H; simpl; [done|].
  pose proof (rep_run_op v l o H) as Ho.
  destruct (run_op v o), (spec_op l o); try done. by apply IH.
Qed.

(** C01 *)
Lemma nested_vec_refines (os : list (op T)) :
  match run_ops os, spec_ops os with
  | Ok v, Ok l => shows v l
  | Panic, Panic => True
  | _, _ => False
  end.
Proof.
  pose proof (rep_run_ops_from os nv_new [] rep_new) as H. unfold run_ops, spec_ops.
  destruct (ofold run_op nv_new os), (ofold (spec_op (T:=T)) [] os); try done. by apply rep_shows.
Qed.

(** Canonical form (no leaks). *)
Fixpoint offs_begin (k : nat) l : list nat :=
  match l with [] => [] | s :: l => k :: offs_begin (k + length s) l end.
Fixpoint offs_end (k : nat) l : list nat :=
  match l with [] => [] | s :: l => (k + length s) :: offs_end (k + length s) l end.
Definition canon l : nvec T := NVec (concat l) (offs_begin 0 l) (offs_end 0 l).

Lemma offs_begin_snoc k l a : offs_begin k (l ++ [a]) = offs_begin k l ++ [k + length (concat l)].
Proof.
  revert k. induction l as [|s l IH]; intros k; simpl; [by rewrite Nat.add_0_r|].
  rewrite IH, app_length. by rewrite Nat.add_assoc.
Qed.
Lemma offs_end_snoc k l a : offs_end k (l ++ [a]) = offs_end k l ++ [k + length (concat l) + length a].
Proof.
  revert k. induction l as [|s l IH]; intros k; simpl; [by rewrite Nat.add_0_r|].
  rewrite IH, app_length. by rewrite !Nat.add_assoc.
Qed.

Lemma canon_push l a : nv_push (canon l) a = canon (l ++ [a]).
Proof.
  unfold nv_push, canon. simpl. rewrite offs_begin_snoc, offs_end_snoc, concat_app, app_length.
  simpl. by rewrite app_nil_r.
Qed.

Lemma canon_of_lists_from l l0 : foldl nv_push (canon l0) l = canon (l0 ++ l).
Proof.
  revert l0. induction l as [|s l IH]; intros l0; simpl; [by rewrite app_nil_r|].
  rewrite canon_push, IH. by rewrite <- app_assoc.
Qed.

Lemma canon_of_lists l : nv_of_lists l = canon l.
Proof. unfold nv_of_lists. apply (canon_of_lists_from l []). Qed.

Lemma rep_canon l : rep (canon l) l.
Proof.
  rewrite <- canon_of_lists. unfold nv_of_lists. 
  assert (forall l0 v, rep v l0 -> rep (foldl nv_push v l) (l0 ++ l)) as H.
  { induction l as [|s l IH]; intros l0 v Hr; simpl; [by rewrite app_nil_r|].
    replace (l0 ++ s :: l) with ((l0 ++ [s]) ++ l) by (by rewrite <- app_assoc).
    apply IH. by apply rep_push. }
  apply (H [] nv_new). apply rep_new.
Qed.

Lemma offs_insert_same_len k l i s s' : l !! i = Some s -> length s' = length s ->
  offs_begin k (<[i := s']> l) = offs_begin k l /\ offs_end k (<[i := s']> l) = offs_end k l.
Proof.
  revert k i. induction l as [|s0 l IH]; intros k i E Hlen; [done|].
  destruct i as [|i]; simpl in *.
  - injection E as ->. by rewrite Hlen.
  - destruct (IH (k + length s0) i E Hlen) as [-> ->]. done.
Qed.

Lemma offs_begin_lookup k l i b : offs_begin k l !! i = Some b -> b = k + length (concat (take i l)).
Proof.
  revert k i. induction l as [|s l IH]; intros k i E; [done|].
  destruct i as [|i]; simpl in *; [injection E as ->; lia|].
  apply IH in E. rewrite app_length. lia.
Qed.

Lemma concat_insert l i s j x : l !! i = Some s -> j < length s ->
  concat (<[i := <[j := x]> s]> l) = <[length (concat (take i l)) + j := x]> (concat l).
Proof.
  revert i. induction l as [|s0 l IH]; intros i E Hj; [done|].
  destruct i as [|i]; simpl in *.
  - injection E as ->. by rewrite insert_app_l by lia.
  - rewrite IH by done. rewrite app_length.
    replace (length s0 + length (concat (take i l)) + j) with (length s0 + (length (concat (take i l)) + j)) by lia.
    by rewrite insert_app_r.
Qed.

Lemma canon_write l row r j x v' l' :
  (match row with None => r = None | Some i => r = nv_index_range (canon l) i end) ->
  nv_write_range (canon l) r j x = Ok v' -> spec_write l row j x = Ok l' -> v' = canon l'.
Proof.
  intros Hr Hv Hl. destruct row as [i|]; simplify_eq/=; [|done].
  unfold spec_write, nv_write_range in *.
  destruct (l !! i) as [s|] eqn:E.
  - destruct (rep_index_range (canon l) l i s (rep_canon l) E) as (b & Er & Hsl).
    rewrite Er, Hsl in Hv. destruct (decide (j < length s)); simplify_eq.
    unfold nv_index_range in Er. simpl in Er.
    destruct (offs_begin 0 l !! i) as [b'|] eqn:Eb; simpl in Er; [|done].
    destruct (offs_end 0 l !! i); simpl in Er; [|done]. simplify_eq.
    apply offs_begin_lookup in Eb. simpl in Eb. subst b.
    unfold canon. rewrite concat_insert by done.
    destruct (offs_insert_same_len 0 l i s (<[j:=x]> s) E) as [-> ->]; [by rewrite insert_length|].
    done.
  - rewrite (rep_index_range_none (canon l) l i (rep_canon l) E) in Hv. congruence.
Qed.

Lemma canon_run_op l o v' l' : no_leak o ->
  run_op (canon l) o = Ok v' -> spec_op l o = Ok l' -> v' = canon l'.
Proof.
  intros Hn Hv Hl. destruct o as [a|xs|xs| |i j x|j x|j x]; simpl in *; try done.
  - simplify_eq. apply canon_push.
  - rewrite append_is_push in Hv. simplify_eq. apply canon_push.
  - by simplify_eq.
  - by eapply (canon_write l (Some i)).
  - by eapply (canon_write l (Some 0)).
  - eapply (canon_write l); [|done|exact Hl].
    rewrite (rep_last_range _ l (rep_canon l)).
    destruct l as [|s l]; [|done]. done.
Qed.

Lemma canon_run_ops_from (os : list (op T)) : forall l v' l', Forall no_leak os ->
  ofold run_op (canon l) os = Ok v' -> ofold spec_op l os = Ok l' -> v' = canon l'.
Proof.
  induction os as [|o os IH]; intros l v' l' Hn Hv Hl; simpl in *; [by simplify_eq|].
  inversion_clear Hn as [|?? Hno Hnos].
  destruct (run_op (canon l) o) as [v1| |] eqn:E1; try done.
  destruct (spec_op l o) as [l1| |] eqn:E2; try done.
  pose proof (canon_run_op l o v1 l1 Hno E1 E2) as ->. by eapply IH.
Qed.

(** C02 *)
Lemma nested_vec_eq_iff (os1 os2 : list (op T)) v1 v2 l1 l2 :
  Forall no_leak os1 -> Forall no_leak os2 ->
  run_ops os1 = Ok v1 -> run_ops os2 = Ok v2 ->
  nv_iter v1 = Some l1 -> nv_iter v2 = Some l2 ->
  (nv_eq v1 v2 <-> l1 = l2).
Proof.
  intros Hn1 Hn2 H1 H2 Hi1 Hi2.
  assert (forall os v l, Forall no_leak os -> run_ops os = Ok v -> nv_iter v = Some l -> v = canon l) as Hc.
  { intros os v l Hn Hr Hi. pose proof (nested_vec_refines os) as Href. rewrite Hr in Href.
    destruct (spec_ops os) as [l'| |] eqn:Es; try done.
    destruct Href as (_ & _ & _ & _ & Hi' & _). assert (l' = l) as <- by congruence.
    eapply (canon_run_ops_from os []); done. }
  rewrite (Hc os1 v1 l1), (Hc os2 v2 l2) by done. split.
  - intros (Hd & Hb & He).
    assert (canon l1 = canon l2) as Heq by (unfold canon in *; simpl in *; congruence).
    pose proof (rep_iter _ _ (rep_canon l1)) as P1. pose proof (rep_iter _ _ (rep_canon l2)) as P2.
    rewrite Heq in P1. congruence.
  - intros ->. by repeat split.
Qed.

Lemma nested_vec_roundtrip l : nv_to_lists (nv_of_lists l) = Some l.
Proof. rewrite canon_of_lists. apply rep_iter, rep_canon. Qed.

Lemma nested_vec_roundtrip_back (os : list (op T)) v l : Forall no_leak os ->
  run_ops os = Ok v -> nv_to_lists v = Some l -> nv_of_lists l = v.
Proof.
  intros Hn Hr Hi. pose proof (nested_vec_refines os) as Href. rewrite Hr in Href.
  destruct (spec_ops os) as [l'| |] eqn:Es; try done.
  destruct Href as (_ & _ & _ & _ & Hi' & _). unfold nv_to_lists in Hi. assert (l' = l) as <- by congruence.
  rewrite canon_of_lists. symmetry. by eapply (canon_run_ops_from os []).
Qed.

End proofs.

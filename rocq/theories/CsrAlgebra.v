(** Assembled matrices as a whole: dense view, repeated nodes, symmetry, linearity. *)
From stdpp Require Import base list list_numbers sorting relations.
From Coq Require Import Lia ZArith.
From Verif Require Import Prelude NestedVecModel NestedVecSpec NestedVecProofs ParadisModel ParadisSpec
  ParadisProofs ColoringProofs ParadisSafety VectorModel VectorSpec VectorProofs VectorParProofs VectorColors VectorAgree
  CsrModel CsrSpec CsrProofs CsrSerial CsrPattern.

Set Default Proof Using "Type".

Section algebra.
Context {T E : Type} (add : T -> T -> T) (zero : T).

Lemma mat_contrib_uncoupled s ns (A : list (list T)) r c : ~ (r / s ∈ ns /\ c / s ∈ ns) -> mat_contrib s ns A r c = [].
Proof.
  intros Hn. unfold mat_contrib.
  assert (forall Z : list (nat * nat), (forall il n, (il, n) ∈ Z -> n ∈ ns) -> forall Z' : list (nat * nat), (forall il n, (il, n) ∈ Z' -> n ∈ ns) ->
    ('(il, n) ← Z; '(jl, m) ← Z';
       if decide (n = r / s /\ m = c / s) then option_list (mat_at A (s * il + r mod s) (s * jl + c mod s)) else []) = []) as H.
  { induction Z as [|[il n] Z IH]; intros HZ Z' HZ'; [done|]. rewrite bind_cons.
    rewrite IH; [|intros; eapply HZ; by right|done]. rewrite app_nil_r. clear IH.
    induction Z' as [|[jl m] Z' IH]; [done|]. rewrite bind_cons. rewrite IH by (intros; eapply HZ'; by right).
    rewrite decide_False; [done|]. intros [-> ->]. apply Hn. split; [eapply HZ; by left|eapply HZ'; by left]. }
  apply H; intros il n Hz; by apply elem_of_zip_r in Hz.
Qed.

Lemma mat_contribs_uncoupled s ls (As : list (list (list T))) r c : ~ coupled ls (r / s) (c / s) -> mat_contribs s ls As r c = [].
Proof.
  intros Hn. unfold mat_contribs. apply concat_nil_Forall, Forall_forall. intros x Hx.
  apply elem_of_lookup_zip_with in Hx as (i & ns & A & -> & Hns & _). apply mat_contrib_uncoupled.
  intros [H1 H2]. apply Hn. exists ns. split_and!; [by eapply elem_of_list_lookup_2|done|done].
Qed.

Lemma entry_unique (m : csr T) r c x y : pat_wf (cs_pat m) -> entry_is zero m r c x -> entry_is zero m r c y -> x = y.
Proof.
  intros Hwf [(p1 & H1 & H2)|[H1 ->]] [(p2 & H3 & H4)|[H3 ->]].
  - rewrite (stored_inj _ Hwf _ _ _ _ H1 H3) in H2. by simplify_eq.
  - by destruct (H3 p1). - by destruct (H1 p2). - done.
Qed.

(** [assemble_csr] starts from a zero matrix with the pattern of C12. *)
Lemma assemble_csr_unfold (srt : list nat -> list nat) ord umax ws (a : @mat_asm T E) ls :
  hash_order ord -> has_conn (ma_conn a) ls -> nodes_in_range (ca_nodes (ma_conn a)) ls ->
  exists p, pat_wf p /\ pt_nrows p = ca_sdim (ma_conn a) * ca_nodes (ma_conn a) /\
    (forall r c, (exists pos, stored p r c pos) <-> 0 < ca_sdim (ma_conn a) /\ coupled ls (r / ca_sdim (ma_conn a)) (c / ca_sdim (ma_conn a))) /\
    assemble_pattern (E := E) ord umax (ma_conn a) = Ok p /\
    assemble_csr add zero srt ord umax ws a =
      let '(ws, m, r) := assemble_into_csr add zero srt ws (Csr p (replicate (length (pt_cols p)) zero)) a in (ws, let! _ := r in Ok m).
Proof.
  intros Ho Hc Hr. destruct (assemble_pattern_spec (E := E) ord umax (ma_conn a) ls Ho Hc Hr) as (p & Hp & Hwf & Hrows & _ & Hst).
  exists p. split_and!; try done. unfold assemble_csr. by rewrite Hp.
Qed.

Lemma assemble_csr_spec (srt : list nat -> list nat) ord umax ws (a : @mat_asm T E) ls vs :
  hash_order ord -> sorts_by_key srt -> has_conn (ma_conn a) ls -> nodes_in_range (ca_nodes (ma_conn a)) ls -> has_mats a ls vs ->
  1 <= ca_sdim (ma_conn a) -> Forall NoDup ls ->
  match (assemble_csr add zero srt ord umax ws a).2 with
  | Ok m => exists As, vs = map Ok As /\ csr_wf m /\ pt_nrows (cs_pat m) = ca_sdim (ma_conn a) * ca_nodes (ma_conn a) /\
      forall r c, entry_is zero m r c (foldl add zero (mat_contribs (ca_sdim (ma_conn a)) ls As r c))
  | Err e => exists good rest, vs = map Ok good ++ Err e :: rest
  | Panic => exists good rest, vs = map Ok good ++ Panic :: rest
  end.
Proof.
  intros Ho Hsrt Hc Hr Hm Hs Hnd.
  destruct (assemble_csr_unfold srt ord umax ws a ls Ho Hc Hr) as (p & Hwf & Hrows & Hst & _ & ->).
  destruct (assemble_into_csr_spec add zero srt a ls vs ws (Csr p (replicate (length (pt_cols p)) zero)) Hc Hm Hwf Hsrt Hs Hnd)
    as (ws' & m' & r & good & -> & Hsum & Hres).
  { intros r c _ H. by apply Hst. }
  simpl. destruct r as [[]|e|]; simpl; [|by exists good|by exists good].
  exists good. split; [done|]. destruct Hsum as (P & L & S). destruct m' as [p' v']. simpl in *. subst p'.
  rewrite take_ge in S by (rewrite <- (proj1 Hm), Hres, map_length; lia). rewrite replicate_length in L. split_and!; [done|done|].
  intros r c. destruct (decide (r / ca_sdim (ma_conn a) ∈ concat (map (fun ns => if decide (c / ca_sdim (ma_conn a) ∈ ns) then ns else []) ls))) as [Hin|Hin].
  - apply concat_elem in Hin as (l & Hl & Hin). apply elem_of_list_fmap in Hl as (ns & -> & Hns).
    destruct (decide _); [|by apply elem_of_nil in Hin].
    destruct (proj2 (Hst r c)) as [pos Hpos]; [split; [lia|by exists ns]|].
    left. exists pos. split; [done|]. apply S; [done|]. apply lookup_replicate_2. by eapply stored_row.
  - assert (~ coupled ls (r / ca_sdim (ma_conn a)) (c / ca_sdim (ma_conn a))) as Hnc.
    { intros (ns & Hns & H1 & H2). apply Hin, concat_elem. exists ns. split; [|done].
      apply elem_of_list_fmap. exists ns. by rewrite decide_True. }
    right. split; [|by rewrite mat_contribs_uncoupled].
    intros pos Hpos. apply Hnc. apply Hst. by exists pos.
Qed.

(** ** Repeated nodes *)
Lemma element_updates_repeat (srt : list nat -> list nat) p ns dim (A : list (list T)) n :
  pat_wf p -> pt_nrows p = dim * n -> (forall g, g ∈ ns -> g < n) -> 1 <= dim -> sorts_by_key srt -> ~ NoDup ns ->
  element_updates (E := E) p ns (srt ns) dim A = Panic.
Proof.
  intros Hwf Hrows Hr Hd Hsrt Hnd. rewrite element_updates_eq.
  destruct ns as [|g ns']; [by destruct Hnd; constructor|]. destruct dim as [|dim]; [lia|].
  set (ns := g :: ns') in *.
  assert (exists L, row_list (S dim) ns = (0, g, 0) :: L) as [L ->] by (by eexists).
  cbn [ofold]. unfold row_updates at 1.
  destruct (pat_row_exists p Hwf (S dim * g + 0)) as (b & cs & Hrow).
  { rewrite Hrows. specialize (Hr g ltac:(by left)). nia. }
  rewrite Hrow. destruct (A !! _) as [row|]; [|done].
  rewrite add_element_row_repeat; [done| |done|by apply Hsrt]. by eapply row_pos_lt.
Qed.

Lemma csr_loop_repeat (srt : list nat -> list nat) (a : @mat_asm T E) ls As p :
  has_conn (ma_conn a) ls -> nodes_in_range (ca_nodes (ma_conn a)) ls -> has_mats a ls (map Ok As) -> pat_wf p -> sorts_by_key srt ->
  pt_nrows p = ca_sdim (ma_conn a) * ca_nodes (ma_conn a) ->
  1 <= ca_sdim (ma_conn a) -> has_couplings (ca_sdim (ma_conn a)) ls p ->
  forall m k ws vals, k + m = length ls -> ~ Forall NoDup (drop k ls) ->
  (csr_loop add zero srt a ws p vals (seq k m)).2 = Panic.
Proof.
  intros [Hcl Hc] Hr [Hvl Hv] Hwf Hsrt Hrows Hs Hcoup. rewrite map_length in Hvl.
  induction m as [|m IH]; intros k ws vals Hk Hnd; simpl.
  - rewrite drop_ge in Hnd by lia. by destruct Hnd.
  - destruct (lookup_lt_is_Some_2 ls k) as [ns Hns]; [lia|].
    destruct (lookup_lt_is_Some_2 As k) as [A HA]; [lia|].
    destruct (Hc k ns Hns) as [Hcount Hpop].
    assert (yields_mat a k (length ns) (Ok A)) as Hy by (apply Hv; [done|by rewrite list_lookup_fmap, HA]).
    destruct (prepare_matrix_spec zero a ws k ns (Ok A) Hcount Hpop Hy) as [Hp1 Hp2].
    destruct (prepare_matrix zero a ws k) as [ws1 r1] eqn:Eprep. simpl in Hp1, Hp2. subst r1. rewrite (Hp2 A eq_refl).
    assert (ns ∈ ls) as Hin by (by eapply elem_of_list_lookup_2).
    destruct (decide (NoDup ns)) as [Hok|Hrep].
    + destruct (Hsrt ns) as [Hsp Hss].
      destruct (element_updates_spec (E := E) p ns (srt ns) (ca_sdim (ma_conn a)) A) as (us & Hus & _); try done.
      { rewrite Nat.mul_comm. by apply (proj2 Hy). } { by eapply has_couplings_one. }
      rewrite Hus. apply IH; [lia|]. intros HF. apply Hnd. rewrite (drop_S ls _ k Hns). by constructor.
    + rewrite (element_updates_repeat srt p ns _ A (ca_nodes (ma_conn a))); try done. intros g Hg. by apply (Hr ns g).
Qed.

Lemma assemble_csr_repeat (srt : list nat -> list nat) ord umax ws (a : @mat_asm T E) ls As :
  hash_order ord -> sorts_by_key srt -> has_conn (ma_conn a) ls -> nodes_in_range (ca_nodes (ma_conn a)) ls -> has_mats a ls (map Ok As) ->
  1 <= ca_sdim (ma_conn a) ->
  ((assemble_csr add zero srt ord umax ws a).2 = Panic <-> ~ Forall NoDup ls) /\
  ((exists m, (assemble_csr add zero srt ord umax ws a).2 = Ok m) <-> Forall NoDup ls).
Proof.
  intros Ho Hsrt Hc Hr Hm Hs.
  assert (~ Forall NoDup ls -> (assemble_csr add zero srt ord umax ws a).2 = Panic) as H1.
  { intros Hnd. destruct (assemble_csr_unfold srt ord umax ws a ls Ho Hc Hr) as (p & Hwf & Hrows & Hst & _ & ->).
    unfold assemble_into_csr. rewrite <- (proj1 Hc).
    pose proof (csr_loop_repeat srt a ls As p Hc Hr Hm Hwf Hsrt Hrows Hs) as H.
    specialize (H ltac:(intros r c _ H'; by apply Hst) (length ls) 0 ws (replicate (length (pt_cols p)) zero) ltac:(lia) Hnd).
    destruct (csr_loop _ _ _ _ _ _ _ _) as [[ws' v'] r]. simpl in *. by subst r. }
  assert (Forall NoDup ls -> exists m, (assemble_csr add zero srt ord umax ws a).2 = Ok m) as H2.
  { intros Hnd. pose proof (assemble_csr_spec srt ord umax ws a ls _ Ho Hsrt Hc Hr Hm Hs Hnd) as H.
    destruct (assemble_csr add zero srt ord umax ws a).2 as [m|e|]; [by exists m| |]; destruct H as (good & rest & H); exfalso.
    - assert (@Err E (list (list T)) e ∈ map Ok As) as Hin by (rewrite H; apply elem_of_app; right; by left).
      apply elem_of_list_fmap in Hin as (? & ? & _). done.
    - assert (@Panic E (list (list T)) ∈ map Ok As) as Hin by (rewrite H; apply elem_of_app; right; by left).
      apply elem_of_list_fmap in Hin as (? & ? & _). done. }
  destruct (decide (Forall NoDup ls)) as [Hd|Hd].
  - destruct (H2 Hd) as [m Hm']. split; split; intros H; [by rewrite Hm' in H|by destruct (H Hd)|done|by exists m].
  - specialize (H1 Hd). split; split; intros H; [done|done|destruct H as [m H]; by rewrite H1 in H|by destruct (Hd H)].
Qed.

(** ** Symmetry *)
Lemma pick_bind {B} (ns : list nat) x i (f : nat -> list B) : NoDup ns -> ns !! i = Some x ->
  forall k, ('(il, n) ← zip (seq k (length ns)) ns; if decide (n = x) then f il else []) = f (k + i).
Proof.
  intros Hnd. revert i. induction Hnd as [|y ns Hy Hnd IH]; intros i Hi k; [done|].
  cbn [length seq zip_with]. rewrite bind_cons. destruct i as [|i]; simpl in Hi.
  - simplify_eq. rewrite decide_True by done. rewrite Nat.add_0_r.
    assert (forall k, ('(il, n) ← zip (seq k (length ns)) ns; if decide (n = x) then f il else []) = []) as ->; [|by rewrite app_nil_r].
    clear -Hy. induction ns as [|z ns IH]; intros k; [done|]. apply not_elem_of_cons in Hy as [H1 H2].
    cbn [length seq zip_with]. rewrite bind_cons, decide_False by done. by apply IH.
  - rewrite decide_False. 2:{ intros ->. apply Hy. by eapply elem_of_list_lookup_2. }
    rewrite (IH i Hi (S k)). simpl. f_equal. lia.
Qed.

Lemma mat_contrib_distinct s ns (A : list (list T)) r c i j : NoDup ns -> ns !! i = Some (r / s) -> ns !! j = Some (c / s) ->
  mat_contrib s ns A r c = option_list (mat_at A (s * i + r mod s) (s * j + c mod s)).
Proof.
  intros Hnd Hi Hj. unfold mat_contrib.
  transitivity ('(il, n) ← zip (seq 0 (length ns)) ns; if decide (n = r / s) then
     option_list (mat_at A (s * il + r mod s) (s * j + c mod s)) else []).
  - generalize (zip (seq 0 (length ns)) ns) at 2 3 as Z. induction Z as [|[il n] Z IH]; [done|]. rewrite !bind_cons, IH. f_equal.
    destruct (decide (n = r / s)) as [->|Hne].
    + transitivity ('(jl, m) ← zip (seq 0 (length ns)) ns; if decide (m = c / s) then
        option_list (mat_at A (s * il + r mod s) (s * jl + c mod s)) else []).
      * generalize (zip (seq 0 (length ns)) ns) as Z'. induction Z' as [|[jl m] Z' IH']; [done|]. rewrite !bind_cons, IH'. f_equal.
        destruct (decide (m = c / s)); [by rewrite decide_True by done|by rewrite decide_False by (by intros [? ?])].
      * exact (pick_bind ns (c / s) j (fun jl => option_list (mat_at A (s * il + r mod s) (s * jl + c mod s))) Hnd Hj 0).
    + generalize (zip (seq 0 (length ns)) ns) as Z'. induction Z' as [|[jl m] Z' IH']; [done|]. rewrite bind_cons, IH'.
      by rewrite decide_False by (by intros [? ?]).
  - exact (pick_bind ns (r / s) i (fun il => option_list (mat_at A (s * il + r mod s) (s * j + c mod s))) Hnd Hi 0).
Qed.

Lemma mat_contribs_sym s ls (As : list (list (list T))) r c : Forall NoDup ls -> Forall symmetric_mat As ->
  mat_contribs s ls As r c = mat_contribs s ls As c r.
Proof.
  intros Hnd Hsym. unfold mat_contribs. f_equal. revert As Hsym.
  induction Hnd as [|ns ls Hns _ IH]; intros As Hsym; [done|]. destruct Hsym as [|A As HA Hsym]; [done|]. simpl. f_equal; [|by apply IH].
  destruct (decide (r / s ∈ ns)) as [Hr|Hr]; [|rewrite !mat_contrib_uncoupled; [done|by intros [_ ?]|by intros [? _]]].
  destruct (decide (c / s ∈ ns)) as [Hc|Hc]; [|rewrite !mat_contrib_uncoupled; [done|by intros [? _]|by intros [_ ?]]].
  apply elem_of_list_lookup in Hr as [i Hi], Hc as [j Hj].
  rewrite (mat_contrib_distinct s ns A r c i j), (mat_contrib_distinct s ns A c r j i) by done. by rewrite HA.
Qed.

(** ** Linearity *)
Notation mat_add := (mat_add add).

Lemma mat_at_add A B i j n : square n A -> square n B ->
  mat_at (mat_add A B) i j = x ← mat_at A i j; y ← mat_at B i j; Some (add x y).
Proof.
  intros [HA HA'] [HB HB']. unfold mat_at, mat_add. rewrite lookup_zip_with.
  destruct (A !! i) as [ra|] eqn:Ea; simpl; [|done]. destruct (B !! i) as [rb|] eqn:Eb; simpl.
  - rewrite lookup_zip_with. destruct (ra !! j); simpl; [|done]. by destruct (rb !! j).
  - by destruct (ra !! j).
Qed.

Lemma mat_at_shape (A B : list (list T)) i j n : square n A -> square n B -> is_Some (mat_at A i j) -> is_Some (mat_at B i j).
Proof.
  intros [HA HA'] [HB HB'] [x Hx]. unfold mat_at in *. destruct (A !! i) as [ra|] eqn:Ea; simpl in Hx; [|done].
  destruct (lookup_lt_is_Some_2 B i) as [rb Hb]; [rewrite HB, <- HA; by eapply lookup_lt_Some|]. rewrite Hb. simpl.
  apply lookup_lt_is_Some. rewrite Forall_forall in HA', HB'.
  rewrite (HB' rb) by (by eapply elem_of_list_lookup_2). rewrite <- (HA' ra) by (by eapply elem_of_list_lookup_2). by eapply lookup_lt_Some.
Qed.

(** Lists of contributions combined entry by entry. *)
Inductive sum3 : list T -> list T -> list T -> Prop :=
| sum3_nil : sum3 [] [] []
| sum3_cons x y l1 l2 l3 : sum3 l1 l2 l3 -> sum3 (x :: l1) (y :: l2) (add x y :: l3).

Lemma sum3_app a1 a2 a3 b1 b2 b3 : sum3 a1 a2 a3 -> sum3 b1 b2 b3 -> sum3 (a1 ++ b1) (a2 ++ b2) (a3 ++ b3).
Proof. induction 1; intros; simpl; [done|]. by constructor; auto. Qed.

Lemma sum3_fold l1 l2 l3 : (forall x y z, add x (add y z) = add (add x y) z) -> (forall x y, add x y = add y x) ->
  sum3 l1 l2 l3 -> forall x y, foldl add (add x y) l3 = add (foldl add x l1) (foldl add y l2).
Proof.
  intros Ha Hc. induction 1 as [|x' y' l1 l2 l3 _ IH]; intros x y; simpl; [done|]. rewrite <- IH. f_equal.
  rewrite <- !Ha. f_equal. rewrite !Ha. f_equal. apply Hc.
Qed.

Lemma mat_contrib_add s ns A B r c n : square n A -> square n B ->
  sum3 (mat_contrib s ns A r c) (mat_contrib s ns B r c) (mat_contrib s ns (mat_add A B) r c).
Proof.
  intros HA HB. unfold mat_contrib. generalize (zip (seq 0 (length ns)) ns) at 2 4 6 as Z.
  induction Z as [|[il g] Z IH]; [constructor|]. rewrite !bind_cons. apply sum3_app; [|exact IH]. clear IH.
  generalize (zip (seq 0 (length ns)) ns) as Z'. induction Z' as [|[jl h] Z' IH]; [constructor|]. rewrite !bind_cons.
  apply sum3_app; [|exact IH]. destruct (decide _); [|constructor]. rewrite (mat_at_add A B _ _ n HA HB).
  destruct (mat_at A _ _) as [x|] eqn:Ea.
  - destruct (mat_at_shape A B (s * il + r mod s) (s * jl + c mod s) n HA HB) as [y Hy]; [by rewrite Ea|]. rewrite Hy. simpl. repeat constructor.
  - destruct (mat_at B _ _) as [y|] eqn:Eb; [|simpl; constructor].
    destruct (mat_at_shape B A (s * il + r mod s) (s * jl + c mod s) n HB HA) as [x Hx]; [by rewrite Eb|]. by rewrite Ea in Hx.
Qed.

Lemma mat_contribs_add s ls (As Bs : list (list (list T))) r c :
  Forall2 (fun (ns : list nat) A => square (s * length ns) A) ls As -> Forall2 (fun (ns : list nat) B => square (s * length ns) B) ls Bs ->
  sum3 (mat_contribs s ls As r c) (mat_contribs s ls Bs r c) (mat_contribs s ls (zip_with mat_add As Bs) r c).
Proof.
  intros HA. revert Bs. unfold mat_contribs. induction HA as [|ns A ls As HA _ IH]; intros Bs HB; inversion HB; simplify_eq; simpl; [constructor|].
  apply sum3_app; [by eapply mat_contrib_add|by apply IH].
Qed.

Lemma foldl_hom (h : T -> T) l : (forall x y, h (add x y) = add (h x) (h y)) -> forall x, foldl add (h x) (map h l) = h (foldl add x l).
Proof. intros Hh. induction l as [|y l IH]; intros x; simpl; [done|]. by rewrite <- Hh, IH. Qed.

Lemma mat_contribs_map (h : T -> T) s ls (As : list (list (list T))) r c :
  mat_contribs s ls (map (map (map h)) As) r c = map h (mat_contribs s ls As r c).
Proof.
  unfold mat_contribs. rewrite concat_map. f_equal. revert As. induction ls as [|ns ls IH]; intros [|A As]; simpl; [done..|]. f_equal; [|apply IH].
  unfold mat_contrib. generalize (zip (seq 0 (length ns)) ns) at 2 4 as Z.
  induction Z as [|[il g] Z IHZ]; [done|]. rewrite !bind_cons, map_app. f_equal; [|exact IHZ].
  generalize (zip (seq 0 (length ns)) ns) as Z'. induction Z' as [|[jl m] Z' IHZ']; [done|]. rewrite !bind_cons, map_app. f_equal; [|exact IHZ'].
  destruct (decide _); [|done]. unfold mat_at. rewrite list_lookup_fmap. destruct (A !! _) as [row|]; simpl; [|done].
  rewrite list_lookup_fmap. by destruct (row !! _).
Qed.
End algebra.

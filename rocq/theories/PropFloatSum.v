(** C100: the sums that assembly and integration form in doubles, whatever the order of the additions. *)
From stdpp Require Import base list list_numbers sorting relations.
From Coq Require Import Lia ZArith Reals Lra.
From Flocq Require Import Zaux Raux Defs.
From Flocq.IEEE754 Require Import BinarySingleNaN.
From Verif Require Import Prelude NestedVecModel NestedVecSpec NestedVecProofs ParadisModel ParadisSpec ColoringProofs ParadisSafety PropParadis
  VectorModel VectorSpec VectorProofs VectorAgree PropVector CsrModel CsrSpec CsrParAgree FloatModel FloatProofs.

(** ** Specification *)
(** [y] is a double whose distance from the sum of the terms is at most [k] times the unit roundoff, compounded, of the sum of their moduli. *)
Definition sums_up (k : nat) (terms : list f64) (y : f64) : Prop :=
  is_finite y = true /\ (Rabs (B2R y - foldr Rplus 0 (map B2R terms)) <= ((1 + / 2 ^ 53) ^ k - 1) * foldr Rplus 0 (map (fun x => Rabs (B2R x)) terms))%R.
(** The terms are numbers, and their moduli, with the allowance for rounding, do not sum up to more than a double holds. *)
Definition no_overflow (k : nat) (terms : list f64) : Prop :=
  Forall (fun x : f64 => is_finite x = true) terms /\ ((1 + / 2 ^ 53) ^ k * foldr Rplus 0 (map (fun x => Rabs (B2R x)) terms) < 2 ^ 1024)%R.

Lemma foldl_eq (l : list f64) x : foldl f64_add x l = fold_left f64_add l x.
Proof. revert x. induction l as [|y l IH]; intros x; [done|]. simpl. apply IH. Qed.
Lemma sums_up_approx k terms y : approx k y (exact terms) (moduli terms) 0 -> sums_up k terms y.
Proof. intros H. exact (approx_error _ _ _ _ H). Qed.

(** C100: sums from the left, in two orders. *)
Theorem C100_fold : forall x l l', l ≡ₚ l' -> no_overflow (length l) (x :: l) ->
  sums_up (length l) (x :: l) (foldl f64_add x l) /\ sums_up (length l) (x :: l) (foldl f64_add x l') /\
  (Rabs (B2R (foldl f64_add x l) - B2R (foldl f64_add x l')) <= 2 * (((1 + / 2 ^ 53) ^ length l - 1) * foldr Rplus 0 (map (fun x => Rabs (B2R x)) (x :: l))))%R.
Proof.
  intros x l l' Hp [Hf Hb]. assert (G : forall l', l ≡ₚ l' -> sums_up (length l) (x :: l) (foldl f64_add x l')).
  { intros m Hm. apply sums_up_approx. rewrite (exact_perm (x :: l) (x :: m)), (moduli_perm (x :: l) (x :: m)) by (by apply Permutation_cons). rewrite (Permutation_length Hm).
    rewrite foldl_eq. apply fold_approx; [by rewrite <- Hm|]. rewrite <- (moduli_perm (x :: l) (x :: m)), <- (Permutation_length Hm) by (by apply Permutation_cons). exact Hb. }
  pose proof (G l (Permutation_refl l)) as H1. pose proof (G l' Hp) as H2. split; [exact H1|]. split; [exact H2|]. destruct H1 as [_ H1], H2 as [_ H2].
  set (e := foldr Rplus 0%R (map B2R (x :: l))) in *. replace (_ - _)%R with ((B2R (foldl f64_add x l) - e) - (B2R (foldl f64_add x l') - e))%R by ring.
  eapply Rle_trans; [apply Rabs_triang|]. rewrite Rabs_Ropp. lra.
Qed.
Print Assumptions C100_fold.

(** C100: the error of a sum along any tree of additions depends on its depth only. *)
Theorem C100_tree : forall t, no_overflow (depth t) (leaves t) -> sums_up (depth t) (leaves t) (tree_sum t).
Proof. intros t [Hf Hb]. apply sums_up_approx, tree_approx; assumption. Qed.
Print Assumptions C100_tree.

(** C100: the compounded error is about linear. *)
Theorem C100_growth : forall n, (INR n <= 2 ^ 52)%R -> ((1 + / 2 ^ 53) ^ n - 1 <= INR n * / 2 ^ 52)%R.
Proof.
  intros n Hn. assert (E : (/ 2 ^ 53 = / 2 * / 2 ^ 52)%R) by (rewrite <- Rinv_mult; f_equal). pose proof (pow_lt 2 52 ltac:(lra)) as P.
  pose proof (growth n) as G. unfold unit_roundoff in G. eapply Rle_trans; [apply G|].
  - rewrite E. apply (Rmult_le_reg_r (2 ^ 52)); [exact P|]. replace (INR n * (/ 2 * / 2 ^ 52) * 2 ^ 52)%R with (INR n * / 2)%R by (field; lra). lra.
  - rewrite E. right. field.
Qed.
Print Assumptions C100_growth.

Section reduce.
Context {E : Type} (f : nat -> outcome E f64) (all : list f64).
Lemma ofold_add is xs z : map f is = map Ok xs -> ofold (fun acc i => let! x := f i in Ok (f64_add acc x)) z is = Ok (foldl f64_add z xs).
Proof. revert xs z. induction is as [|i is IH]; intros [|x xs] z H; try discriminate; simpl in *; [done|]. injection H as H1 H2. rewrite H1. simpl. by apply IH. Qed.
Lemma reduce_approx from len r : reduce f64_add f64_zero f from len r -> forall vals, map f (seq from len) = map Ok vals ->
  no_overflow (Nat.pred (length all)) all -> vals `sublist_of` all ->
  exists y, r = Ok y /\ approx (Nat.pred (length vals)) y (exact vals) (moduli vals) 0.
Proof.
  assert (NF : forall vals, vals `sublist_of` all -> no_overflow (Nat.pred (length all)) all -> no_overflow (Nat.pred (length vals)) vals).
  { intros vals Hs [Hf Hb]. split.
    { apply Forall_forall. intros z Hz. eapply Forall_forall in Hf; [exact Hf|]. eapply elem_of_submseteq; [exact Hz|]. by apply sublist_submseteq. }
    pose proof (sublist_length _ _ Hs) as Hl. pose proof (sublist_submseteq _ _ Hs) as Hm.
    apply submseteq_Permutation in Hm as [k Hk]. pose proof (moduli_perm _ _ Hk) as Em. rewrite moduli_app in Em. pose proof (moduli_nonneg vals). pose proof (moduli_nonneg k).
    apply (bound_part (Nat.pred (length vals)) (Nat.pred (length all)) (moduli vals) (moduli all)); [lia|exact H|rewrite Em; lra|exact Hb]. }
  assert (NO : forall from len (is : outcome E f64) vals, map f (seq from len) = map Ok vals -> forall i, i ∈ seq from len -> exists x, f i = Ok x).
  { intros fr ln _ vals H i Hi. apply (elem_of_list_fmap_1 f) in Hi. change (f <$> seq fr ln) with (map f (seq fr ln)) in Hi. rewrite H in Hi. apply elem_of_list_fmap in Hi as (x & -> & _). by exists x. }
  intros Hr. induction Hr as [from len|from l1 l2 x y H1 IH1 H2 IH2|from l1 l2 r Hno H1 IH1|from l1 l2 r Hno H1 IH1]; intros vals Hv Hall Hs.
  - rewrite (ofold_add _ vals) by done. eexists. split; [done|]. destruct (NF vals Hs Hall) as [Hf Hb]. rewrite foldl_eq. apply fold_zero_approx; [done|done|done|exact Hb].
  - rewrite seq_app, map_app in Hv. pose proof (f_equal (take l1) Hv) as A. pose proof (f_equal (drop l1) Hv) as B.
    rewrite take_app_alt in A by (by rewrite map_length, seq_length). rewrite drop_app_alt in B by (by rewrite map_length, seq_length).
    change (map (@Ok E f64) vals) with (@Ok E f64 <$> vals) in A, B. rewrite <- fmap_take in A. rewrite <- fmap_drop in B.
    assert (Es : vals = take l1 vals ++ drop l1 vals) by (by rewrite take_drop).
    destruct (IH1 _ A Hall) as (x' & [= <-] & Ax). { etrans; [|exact Hs]. apply sublist_take. }
    destruct (IH2 _ B Hall) as (y' & [= <-] & Ay). { etrans; [|exact Hs]. apply sublist_drop. }
    exists (f64_add x y). split; [done|]. destruct (NF vals Hs Hall) as [Hf Hb]. rewrite Es in Hb |- *. apply join_approx; assumption.
  - exfalso. rewrite seq_app, map_app in Hv. pose proof (f_equal (take l1) Hv) as A. rewrite take_app_alt in A by (by rewrite map_length, seq_length).
    change (map (@Ok E f64) vals) with (@Ok E f64 <$> vals) in A. rewrite <- fmap_take in A.
    destruct (IH1 _ A Hall) as (x' & -> & _). { etrans; [|exact Hs]. apply sublist_take. } by eapply Hno.
  - exfalso. rewrite seq_app, map_app in Hv. pose proof (f_equal (drop l1) Hv) as B. rewrite drop_app_alt in B by (by rewrite map_length, seq_length).
    change (map (@Ok E f64) vals) with (@Ok E f64 <$> vals) in B. rewrite <- fmap_drop in B.
    destruct (IH1 _ B Hall) as (x' & -> & _). { etrans; [|exact Hs]. apply sublist_drop. } by eapply Hno.
Qed.
End reduce.

(** C100: the parallel scalar assembly, for every way the range may be split, and the serial one. *)
Theorem C100_scalar : forall E (f : nat -> outcome E f64) vals r, map f (seq 0 (length vals)) = map Ok vals -> no_overflow (Nat.pred (length vals)) vals ->
  par_assemble_scalar f64_add f64_zero (length vals) f r ->
  exists y y', r = Ok y /\ assemble_scalar f64_add f64_zero (length vals) f = Ok y' /\
    sums_up (Nat.pred (length vals)) vals y /\ sums_up (Nat.pred (length vals)) vals y'.
Proof.
  intros E f vals r Hv Hn Hr. destruct (reduce_approx f vals 0 (length vals) r Hr vals Hv Hn ltac:(reflexivity)) as (y & -> & Ay).
  destruct (reduce_approx f vals 0 (length vals) _ (reduce_leaf f64_add f64_zero f 0 (length vals)) vals Hv Hn ltac:(reflexivity)) as (y' & Ey & Ay').
  exists y, y'. split; [done|]. split; [exact Ey|]. split; by apply sums_up_approx.
Qed.
Print Assumptions C100_scalar.

(** C100: vector assembly. Every run of the parallel assembly and the serial assembly give each entry up to rounding; [terms] are the entry before and all
    contributions to it. *)
Theorem C100_vector :
  forall (E : Type) (umax : nat) (a : @vec_asm f64 E) (ls : list (list nat)) (vs : list (outcome E (list f64)))
         (ord : nat -> list nat -> list nat) (debug : bool) (colors : list dsubs) (ws : vec_ws) (out out' : list f64),
    hash_order ord -> has_conn (va_conn a) ls -> nodes_in_range (ca_nodes (va_conn a)) ls -> has_vecs a ls vs ->
    0 < ca_sdim (va_conn a) -> (Z.of_nat (length ls) <= i32_max)%Z ->
    (debug = true -> forall ns, ns ∈ ls -> ns <> []) ->
    length out = ca_sdim (va_conn a) * ca_nodes (va_conn a) ->
    color_nodes ord debug (va_conn a) = Some (Ok colors) ->
    par_assemble_vector_into f64_add f64_zero umax a debug colors out out' (Ok tt) ->
    exists ws' out'' good, assemble_vector_into f64_add f64_zero umax ws out a = (ws', out'', Ok tt) /\ vs = map Ok good /\
      forall dof x, out !! dof = Some x ->
        let terms := x :: contribs (ca_sdim (va_conn a)) ls good dof in
        no_overflow (length terms - 1) terms ->
        exists y y', out'' !! dof = Some y /\ out' !! dof = Some y' /\ sums_up (length terms - 1) terms y /\ sums_up (length terms - 1) terms y'.
Proof.
  intros E umax a ls vs ord debug colors ws out out' Hord Hconn Hr Hvs Hs Hb Hd Hout Hcol Hrun.
  pose proof (par_vec_permutes f64_add f64_zero umax a ls vs ord debug colors ws out out' (Ok tt) Hord Hconn Hr Hvs Hs Hb Hd Hout Hcol Hrun) as H.
  destruct (assemble_vector_into f64_add f64_zero umax ws out a) as [[ws' out''] r']. destruct H as (-> & _ & _ & good & Eg & H).
  exists ws', out'', good. split; [done|]. split; [done|]. intros dof x Hx terms Hn. destruct (H dof x Hx) as (l & Hl & E1 & E2).
  assert (El : length terms - 1 = length (contribs (ca_sdim (va_conn a)) ls good dof)) by (unfold terms; simpl; lia). rewrite El in *.
  destruct (C100_fold x _ l (symmetry Hl) Hn) as (F1 & F2 & _). eexists _, _. split; [exact E1|]. split; [exact E2|]. split; [exact F1|exact F2].
Qed.
Print Assumptions C100_vector.

(** C100: matrix assembly, likewise for each stored entry. *)
Theorem C100_csr :
  forall (E : Type) (srt : list nat -> list nat) (a : @mat_asm f64 E) (ls : list (list nat)) (vs : list (outcome E (list (list f64))))
         (ord : nat -> list nat -> list nat) (debug : bool) (colors : list dsubs) ws (m m' : csr f64),
    hash_order ord -> sorts_by_key srt -> has_conn (ma_conn a) ls -> nodes_in_range (ca_nodes (ma_conn a)) ls -> has_mats a ls vs ->
    Forall NoDup ls -> 1 <= ca_sdim (ma_conn a) -> (Z.of_nat (length ls) <= i32_max)%Z ->
    (debug = true -> forall ns, ns ∈ ls -> ns <> []) ->
    csr_wf m -> pt_nrows (cs_pat m) = ca_sdim (ma_conn a) * ca_nodes (ma_conn a) ->
    has_couplings (ca_sdim (ma_conn a)) ls (cs_pat m) ->
    color_nodes ord debug (ma_conn a) = Some (Ok colors) ->
    par_assemble_into_csr f64_add f64_zero srt debug a colors m m' (Ok tt) ->
    exists ws' m'' good, assemble_into_csr f64_add f64_zero srt ws m a = (ws', m'', Ok tt) /\ vs = map Ok good /\ cs_pat m' = cs_pat m /\ cs_pat m'' = cs_pat m /\
      forall rr cc pos x, stored (cs_pat m) rr cc pos -> cs_vals m !! pos = Some x ->
        let terms := x :: mat_contribs (ca_sdim (ma_conn a)) ls good rr cc in
        no_overflow (length terms - 1) terms ->
        exists y y', cs_vals m'' !! pos = Some y /\ cs_vals m' !! pos = Some y' /\ sums_up (length terms - 1) terms y /\ sums_up (length terms - 1) terms y'.
Proof.
  intros E srt a ls vs ord debug colors ws m m' Hord Hsrt Hconn Hr Hvs Hnd Hs Hb Hd Hm Hrows Hcp Hcol Hrun.
  pose proof (par_csr_permutes f64_add f64_zero srt a ls vs ord debug colors ws m m' (Ok tt) Hord Hsrt Hconn Hr Hvs Hnd Hs Hb Hd Hm Hrows Hcp Hcol Hrun) as H.
  destruct (assemble_into_csr f64_add f64_zero srt ws m a) as [[ws' m''] r']. destruct H as (-> & P1 & P2 & _ & _ & good & Eg & H).
  exists ws', m'', good. split; [done|]. split; [done|]. split; [done|]. split; [done|]. intros rr cc pos x Hst Hx terms Hn. destruct (H rr cc pos x Hst Hx) as (l & Hl & E1 & E2).
  assert (El : length terms - 1 = length (mat_contribs (ca_sdim (ma_conn a)) ls good rr cc)) by (unfold terms; simpl; lia). rewrite El in *.
  destruct (C100_fold x _ l (symmetry Hl) Hn) as (F1 & F2 & _). eexists _, _. split; [exact E1|]. split; [exact E2|]. split; [exact F1|exact F2].
Qed.
Print Assumptions C100_csr.

(** ** Examples *)
Definition dyadic (m e : Z) : f64 := binary_normalize 53 1024 f64_prec f64_emax mode_NE m e false.
Definition one : f64 := dyadic 1 0.
Definition half_ulp : f64 := dyadic 1 (-53).
Lemma one_value : is_finite one = true /\ B2R one = 1%R.
Proof. split; [reflexivity|]. rewrite <- SF2R_B2SF. change (B2SF one) with (SpecFloat.S754_finite false 4503599627370496 (-52)). unfold SF2R, Defs.F2R. cbn [Defs.Fnum Defs.Fexp SpecFloat.cond_Zopp]. change (Raux.bpow Zaux.radix2 (-52)) with (/ IZR 4503599627370496)%R. lra. Qed.
Lemma half_ulp_value : is_finite half_ulp = true /\ B2R half_ulp = (/ 2 ^ 53)%R.
Proof. split; [reflexivity|]. rewrite <- SF2R_B2SF. change (B2SF half_ulp) with (SpecFloat.S754_finite false 4503599627370496 (-105)). unfold SF2R, Defs.F2R. cbn [Defs.Fnum Defs.Fexp SpecFloat.cond_Zopp]. change (Raux.bpow Zaux.radix2 (-105)) with (/ IZR 40564819207303340847894502572032)%R. lra. Qed.
Lemma range_bound k a : (k <= 10)%nat -> (0 <= a <= 1000)%R -> ((1 + / 2 ^ 53) ^ k * a < 2 ^ 1024)%R.
Proof.
  intros Hk Ha. apply (Rle_lt_trans _ (2 ^ 10 * 1000)%R).
  - pose proof u_pos. change (/ 2 ^ 53)%R with unit_roundoff. apply Rmult_le_compat; [apply pow_le; lra|lra| |lra].
    eapply Rle_trans; [apply (Rle_pow _ k 10); [lra|exact Hk]|]. apply pow_incr. lra.
  - apply (Rlt_le_trans _ (2 ^ 20)%R); [lra|]. apply Rle_pow; [lra|lia].
Qed.

(** C100: the agreement is not exact: two splittings of the same range give different doubles. *)
Theorem C100_order_refuted : exists (f : nat -> outcome Empty_set f64) y y',
  par_assemble_scalar f64_add f64_zero 3 f (Ok y) /\ par_assemble_scalar f64_add f64_zero 3 f (Ok y') /\ assemble_scalar f64_add f64_zero 3 f = Ok y' /\ y <> y'.
Proof.
  set (f := fun i : nat => @Ok Empty_set f64 (if decide (i = 0) then one else half_ulp)).
  exists f, (f64_add one (f64_add half_ulp half_ulp)), (f64_add (f64_add one half_ulp) half_ulp). split; [|split; [|split]].
  - apply (reduce_node f64_add f64_zero f 0 1 2 one (f64_add half_ulp half_ulp)).
    + exact (reduce_leaf f64_add f64_zero f 0 1).
    + exact (reduce_leaf f64_add f64_zero f 1 2).
  - exact (reduce_leaf f64_add f64_zero f 0 3).
  - reflexivity.
  - intros H. apply (f_equal B2SF) in H. vm_compute in H. discriminate H.
Qed.
Print Assumptions C100_order_refuted.

Example C100_example : no_overflow 2 [one; half_ulp; half_ulp] /\ B2R one = 1%R /\ B2R half_ulp = (/ 2 ^ 53)%R /\
  no_overflow (depth (Node (Leaf one) (Node (Leaf half_ulp) (Leaf one)))) [one; half_ulp; one].
Proof.
  destruct one_value as [F1 V1], half_ulp_value as [F2 V2]. pose proof u_pos as U. unfold unit_roundoff in U. split; [|split; [exact V1|split; [exact V2|]]].
  - split; [repeat constructor; assumption|]. cbn [map foldr]. rewrite V1, V2. apply range_bound; [lia|]. rewrite Rabs_R1, Rabs_pos_eq by lra. lra.
  - split; [repeat constructor; assumption|]. cbn [map foldr depth Nat.max]. rewrite V1, V2. apply range_bound; [lia|]. rewrite Rabs_R1, Rabs_pos_eq by lra. lra.
Qed.

(** five additions to one entry of a vector, in three elements of three colours *)
Definition float_vs : list (outcome nat (list f64)) := replicate 3 (Ok [one; half_ulp; one; half_ulp]).
Example C100_vector_example : exists colors, color_nodes id_order true (table_conn 2 3 ex_ls) = Some (Ok colors) /\ has_vecs (table_vec 2 3 ex_ls float_vs) ex_ls float_vs /\ contribs 2 ex_ls (replicate 3 [one; half_ulp; one; half_ulp]) 2 = [one; one; one; one] /\ no_overflow 4 [f64_zero; one; one; one; one].
Proof.
  eexists. split; [vm_compute; reflexivity|]. split; [|split; [reflexivity|]].
  - split; [done|]. intros i ns v Hi Hv. split.
    + intros buf _. cbn [table_vec va_vec]. by rewrite Hv.
    + intros x ->. destruct i as [|[|[|i]]]; cbn in Hi, Hv; by simplify_eq.
  - destruct one_value as [F1 V1]. split; [repeat constructor; assumption|]. cbn [map foldr]. rewrite V1. cbn [B2R f64_zero]. apply range_bound; [lia|]. rewrite Rabs_R0, Rabs_R1. lra.
Qed.

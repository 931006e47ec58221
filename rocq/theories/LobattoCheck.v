(** A check, by fixed-point arithmetic with proved error bounds, that a quadrature rule for an interval integrates powers accurately (for C91). *)
From Coq Require Import Reals QArith Qreals ZArith List Arith Lia Lra Bool Sorting.Sorted.
From Flocq Require Import Core.
From Coquelicot Require Import Coquelicot.
From Verif Require Import ElementModel QuadratureModel QuadPoly RuleProofs TableMoments TableCheck PropPolyquadTables LobattoModel.
Import ListNotations.
Local Open Scope Z_scope.

(** rounded down to units of 2^-64 *)
Definition lower64 (f : Z * Z) : Z := let s := snd f + 64 in if 0 <=? s then fst f * 2 ^ s else Z.shiftr (fst f) (- s).
Fixpoint increasing (l : list Z) : bool := match l with x :: (y :: _) as r => (x <? y) && increasing r | _ => true end.
Definition sums1 (s : nat) (pts : list (Z * Z)) : list Z := fold_right (fun p acc => add1 (row s (fst p) (snd p)) acc) [] pts.
Definition check1 (tol : Z) (s : nat) (sums : list Z) : bool := forallb (fun vk => close tol (fst vk) (momQ (snd vk))) (List.combine sums (seq 0 (S s))).
Definition is_f64 (a b : Z * Z) : bool := (fst a =? fst b) && (snd a =? snd b).
(** all moments up to s with an error of less than 184467 units of 2^-64, that is 10^-14 *)
Definition check_rule (n s : nat) (r : f64_rule) : bool :=
  let ws := map lower64 (fst r) in let xs := map lower64 (snd r) in
  let tol := 184467 - Z.of_nat n * (3 * Z.of_nat s + 1) in
  (length ws =? n)%nat && (length xs =? n)%nat && is_f64 (hd (0, 0) (snd r)) (-1, 0) && is_f64 (last (snd r) (0, 0)) (1, 0) && increasing xs &&
  forallb (fun w => 0 <? fst w) (fst r) && forallb (fun w => w <? 2 * unit64) ws && forallb range xs &&
  let sums := sums1 s (List.combine ws xs) in (length sums =? S s)%nat && check1 tol s sums.

(** ** Soundness *)
Local Open Scope R_scope.
Lemma lower64_ok f : IZR (lower64 f) <= f64_value f * IZR unit64 < IZR (lower64 f) + 1.
Proof.
  destruct f as [m e]. unfold lower64, f64_value. cbn [fst snd]. assert (U : IZR unit64 = bpow radix2 64) by reflexivity. rewrite U, Rmult_assoc, <- bpow_plus.
  destruct (Z.leb_spec 0 (e + 64)) as [L|L].
  - rewrite mult_IZR. change 2%Z with (radix_val radix2). rewrite IZR_Zpower by exact L. lra.
  - rewrite Z.shiftr_div_pow2 by lia. set (k := (- (e + 64))%Z). assert (P : (0 < 2 ^ k)%Z) by (apply Z.pow_pos_nonneg; unfold k; lia).
    pose proof (Z.div_mod m (2 ^ k) ltac:(lia)) as D. pose proof (Z.mod_pos_bound m (2 ^ k) P) as M. replace (e + 64)%Z with (- k)%Z by (unfold k; lia). rewrite bpow_opp.
    assert (B : bpow radix2 k = IZR (2 ^ k)) by (change 2%Z with (radix_val radix2); rewrite IZR_Zpower by (unfold k; lia); reflexivity). rewrite B. apply IZR_lt in P.
    assert (M1 : 0 <= IZR (m mod 2 ^ k)) by (apply IZR_le; lia). assert (M2 : IZR (m mod 2 ^ k) < IZR (2 ^ k)) by (apply IZR_lt; lia).
    apply (f_equal IZR) in D. rewrite plus_IZR, mult_IZR in D. split.
    + apply Rmult_le_reg_r with (IZR (2 ^ k)); [exact P|]. rewrite Rmult_assoc, Rinv_l by lra. lra.
    + apply Rmult_lt_reg_r with (IZR (2 ^ k)); [exact P|]. rewrite Rmult_assoc, Rinv_l by lra. lra.
Qed.
(** products with rounded factors *)
Lemma approx_mul_rounded p r n X x : small X -> 0 <= n -> Rabs r <= 2 -> Rabs (IZR X - x * IZR unit64) <= 1 -> approx p r n -> approx (Z.shiftr (p * X) 64) (r * x) (n + 3).
Proof.
  intros Sx N R2 Hx A. pose proof (approx_mul p r n X Sx N A) as B. unfold approx in *. pose proof unit64_pos as U.
  replace (IZR (Z.shiftr (p * X) 64) - r * x * IZR unit64) with ((IZR (Z.shiftr (p * X) 64) - r * value64 X * IZR unit64) + r * (IZR X - x * IZR unit64)) by (unfold value64; field; lra).
  eapply Rle_trans; [apply Rabs_triang|]. rewrite Rabs_mult. pose proof (Rabs_pos r). pose proof (Rabs_pos (IZR X - x * IZR unit64)).
  assert (Rabs r * Rabs (IZR X - x * IZR unit64) <= 2 * 1) by (apply Rmult_le_compat; assumption). lra.
Qed.
Lemma row_rounded n p X x r e j : small X -> Rabs x <= 1 -> Rabs (IZR X - x * IZR unit64) <= 1 -> 0 <= e -> Rabs r <= 2 -> approx p r e -> (j <= n)%nat ->
  approx (nth j (row n p X) 0%Z) (r * x ^ j) (e + 3 * INR j).
Proof.
  intros Sx X1 Hx. revert p r e j. induction n as [|n IH]; intros p r e j E R2 A L; cbn [row].
  - assert (j = 0%nat) as -> by lia. cbn [nth pow INR]. rewrite Rmult_1_r, Rmult_0_r, Rplus_0_r. exact A.
  - destruct j as [|j]; cbn [nth]; [cbn [pow INR]; rewrite Rmult_1_r, Rmult_0_r, Rplus_0_r; exact A|]. rewrite S_INR. replace (r * x ^ S j) with (r * x * x ^ j) by (cbn [pow]; ring).
    replace (e + 3 * (INR j + 1)) with (e + 3 + 3 * INR j) by ring. apply IH; [lra| |apply approx_mul_rounded; assumption|lia].
    rewrite Rabs_mult. pose proof (Rabs_pos r). pose proof (Rabs_pos x). nra.
Qed.
(** a weight and a point with their rounded values *)
Definition rounds (p : Z * Z) (q : R * R) : Prop :=
  small (snd p) /\ Rabs (snd q) <= 1 /\ Rabs (IZR (snd p) - snd q * IZR unit64) <= 1 /\ Rabs (fst q) <= 2 /\ approx (fst p) (fst q) 1.
Lemma sums1_approx s pts qs k : Forall2 rounds pts qs -> (k <= s)%nat -> approx (nth k (sums1 s pts) 0%Z) (total qs (fun x => x ^ k)) (INR (length pts) * (3 * INR s + 1)).
Proof.
  intros H L. induction H as [|p q pts qs (Sx & X1 & Hx & W2 & Hw) H IH].
  - cbn [sums1 fold_right length]. destruct k; unfold total, approx; cbn; rewrite Rmult_0_l, Rminus_0_r, Rabs_R0; lra.
  - change (sums1 s (p :: pts)) with (add1 (row s (fst p) (snd p)) (sums1 s pts)). rewrite add1_nth. cbn [length]. rewrite S_INR.
    replace ((INR (length pts) + 1) * (3 * INR s + 1)) with (1 + 3 * INR s + INR (length pts) * (3 * INR s + 1)) by ring.
    change (total (q :: qs) (fun x => x ^ k)) with (fst q * snd q ^ k + total qs (fun x => x ^ k)). apply approx_add; [|exact IH].
    pose proof (row_rounded s (fst p) (snd p) (snd q) (fst q) 1 k Sx X1 Hx ltac:(lra) W2 Hw L) as A. unfold approx in *. eapply Rle_trans; [exact A|]. apply le_INR in L. lra.
Qed.
Lemma check1_ok tol s sums k : length sums = S s -> check1 tol s sums = true -> (k <= s)%nat -> close tol (nth k sums 0%Z) (momQ k) = true.
Proof.
  intros N C L. unfold check1 in C. rewrite forallb_forall in C. specialize (C (nth k (List.combine sums (seq 0 (S s))) (0%Z, 0%nat))).
  rewrite combine_nth in C by (rewrite seq_length; exact N). cbn [fst snd] in C. rewrite seq_nth in C by lia. apply C.
  replace (nth k sums 0%Z, (0 + k)%nat) with (nth k (List.combine sums (seq 0 (S s))) (0%Z, 0%nat)); [apply nth_In; rewrite combine_length, seq_length; lia|].
  rewrite combine_nth by (rewrite seq_length; exact N). rewrite seq_nth by lia. reflexivity.
Qed.
Lemma increasing_sorted fs : increasing (map lower64 fs) = true -> StronglySorted Rlt (map f64_value fs).
Proof.
  intros H. apply Sorted_StronglySorted; [intros x y z; apply Rlt_trans|]. induction fs as [|f fs IH]; [constructor|]. destruct fs as [|g fs]; [constructor; constructor|].
  cbn [map increasing] in H. apply andb_prop in H. destruct H as [H1 H2]. constructor; [apply IH; exact H2|]. constructor. apply Z.ltb_lt in H1.
  pose proof (lower64_ok f). pose proof (lower64_ok g). assert (IZR (lower64 f) + 1 <= IZR (lower64 g)) by (rewrite <- plus_IZR; apply IZR_le; lia). pose proof unit64_pos. nra.
Qed.
Lemma sorted_last l d x : StronglySorted Rlt l -> In x l -> x <= last l d.
Proof.
  induction 1 as [|y l S IH F]; [intros []|]. intros [<-|I].
  - destruct l as [|z l]; [cbn; lra|]. left. rewrite List.Forall_forall in F. apply F. change (last (y :: z :: l) d) with (last (z :: l) d). rewrite <- (app_nil_r (z :: l)) at 2.
    destruct (exists_last (l := z :: l) ltac:(discriminate)) as (l' & a & E). rewrite E, last_last, app_nil_r. apply in_or_app. right. left. reflexivity.
  - destruct l as [|z l]; [destruct I|]. change (last (y :: z :: l) d) with (last (z :: l) d). apply IH, I.
Qed.
Lemma sorted_first l d x : StronglySorted Rlt l -> In x l -> hd d l <= x.
Proof. destruct 1 as [|y l S F]; [intros []|]. cbn [hd]. intros [<-|I]; [lra|]. rewrite List.Forall_forall in F. left. apply F, I. Qed.
Lemma is_f64_ok a b : is_f64 a b = true -> a = b.
Proof. destruct a, b. unfold is_f64. cbn [fst snd]. intros H. apply andb_prop in H. destruct H as [A B]. apply Z.eqb_eq in A, B. congruence. Qed.

(** from powers to polynomials *)
Lemma total_horner l (c : list R) k : total l (fun x => x ^ k * horner c x) = fold_right (fun j acc => nth j c 0 * total l (fun x => x ^ (k + j)) + acc) 0 (seq 0 (length c)).
Proof.
  revert k. induction c as [|a c IH]; intros k; cbn [horner length].
  - cbn. unfold total. transitivity (sum (map (fun _ : R * R => 0 * 1) l)); [apply sum_ext'; intros; ring|]. rewrite sum_scale. apply Rmult_0_l.
  - cbn [seq fold_right nth]. rewrite <- seq_shift. rewrite Nat.add_0_r. transitivity (a * total l (fun x => x ^ k) + total l (fun x => x ^ S k * horner c x)).
    + unfold total. rewrite <- sum_scale, <- sum_plus. apply sum_ext'. intros x _. cbn [pow]. ring.
    + f_equal. rewrite IH. generalize (seq 0 (length c)). intros js. induction js as [|j js IHj]; [reflexivity|]. cbn [map fold_right nth]. rewrite IHj. replace (k + S j)%nat with (S k + j)%nat by lia. reflexivity.
Qed.
Lemma integral_horner (c : list R) k : integral (fun x => x ^ k * horner c x) (-1) 1 = fold_right (fun j acc => nth j c 0 * integral (fun x => x ^ (k + j)) (-1) 1 + acc) 0 (seq 0 (length c)).
Proof.
  revert k. induction c as [|a c IH]; intros k; cbn [horner length].
  - cbn [seq fold_right]. rewrite (Pol_RInt_ext _ (fun x => 0 * x ^ k)) by (intros; ring). rewrite (Pol_RInt_scal (S k)) by apply Pol_monomial. apply Rmult_0_l.
  - cbn [seq fold_right nth]. rewrite <- seq_shift. rewrite Nat.add_0_r. transitivity (a * integral (fun x => x ^ k) (-1) 1 + integral (fun x => x ^ S k * horner c x) (-1) 1).
    + rewrite (Pol_RInt_ext _ (fun x => a * x ^ k + x ^ S k * horner c x)) by (intros x; cbn [pow]; ring).
      rewrite (Pol_RInt_plus (S (S k + length c))).
      * rewrite (Pol_RInt_scal (S k)) by apply Pol_monomial. reflexivity.
      * apply Pol_scale. eapply Pol_le; [|apply Pol_monomial]. lia.
      * apply Pol_mul; [apply Pol_monomial|]. exists c. split; [lia|reflexivity].
    + f_equal. rewrite IH. generalize (seq 0 (length c)). intros js. induction js as [|j js IHj]; [reflexivity|]. cbn [map fold_right nth]. rewrite IHj. replace (k + S j)%nat with (S k + j)%nat by lia. reflexivity.
Qed.
Definition magnitude (c : list R) : R := fold_right (fun a acc => Rabs a + acc) 0 c.
Lemma magnitude_seq c : magnitude c = fold_right (fun j acc => Rabs (nth j c 0) + acc) 0 (seq 0 (length c)).
Proof.
  induction c as [|a c IH]; [reflexivity|]. cbn [length seq fold_right nth magnitude]. f_equal. fold (magnitude c). rewrite IH, <- seq_shift. generalize (seq 0 (length c)). intros js.
  induction js as [|j js IHj]; [reflexivity|]. cbn [map fold_right nth]. now rewrite IHj.
Qed.
Lemma horner_error l (c : list R) s eps : (forall k, (k <= s)%nat -> Rabs (total l (fun x => x ^ k) - integral (fun x => x ^ k) (-1) 1) <= eps) -> (length c <= S s)%nat ->
  Rabs (total l (horner c) - integral (horner c) (-1) 1) <= eps * magnitude c.
Proof.
  intros H L. replace (total l (horner c)) with (total l (fun x => x ^ 0 * horner c x)) by (apply sum_ext'; intros; cbn [pow]; ring).
  rewrite (Pol_RInt_ext (horner c) (fun x => x ^ 0 * horner c x)) by (intros; cbn [pow]; ring). rewrite total_horner, integral_horner, magnitude_seq. cbn [Nat.add].
  assert (B : forall j, In j (seq 0 (length c)) -> (j <= s)%nat) by (intros j Hj; apply in_seq in Hj; lia). revert B. generalize (seq 0 (length c)). intros js B.
  induction js as [|j js IH]; cbn [fold_right]; [rewrite Rminus_0_r, Rabs_R0; lra|].
  match goal with |- Rabs (?a * ?b + ?t - (?a * ?q + ?u)) <= _ => replace (a * b + t - (a * q + u)) with (a * (b - q) + (t - u)) by ring end.
  eapply Rle_trans; [apply Rabs_triang|]. rewrite Rabs_mult, Rmult_plus_distr_l. apply Rplus_le_compat; [|apply IH; intros i Hi; apply B; now right].
  rewrite Rmult_comm. apply Rmult_le_compat_r; [apply Rabs_pos|]. apply H, B. now left.
Qed.

Definition real_rule1 (r : f64_rule) : rule R := (map f64_value (fst r), map f64_value (snd r)).
Lemma rounds_combine ws xs : length ws = length xs -> (forall w, In w ws -> (0 < fst w)%Z /\ (lower64 w < 2 * unit64)%Z) -> (forall x, In x xs -> range (lower64 x) = true /\ Rabs (f64_value x) <= 1) ->
  Forall2 rounds (List.combine (map lower64 ws) (map lower64 xs)) (List.combine (map f64_value ws) (map f64_value xs)).
Proof.
  revert xs. induction ws as [|w ws IH]; intros [|x xs] N W X; try discriminate; [constructor|]. cbn [map List.combine]. constructor.
  - destruct (W w (or_introl eq_refl)) as [W0 W2]. destruct (X x (or_introl eq_refl)) as [X0 X1]. unfold rounds. cbn [fst snd]. unfold range in X0. apply andb_prop in X0. destruct X0 as [Xa Xb]. apply Z.leb_le in Xa, Xb.
    pose proof (lower64_ok w) as Lw. pose proof (lower64_ok x) as Lx. split; [split; assumption|]. split; [exact X1|]. split; [apply Rabs_le; lra|]. split; [|unfold approx; apply Rabs_le; lra].
    assert (P : 0 < f64_value w). { unfold f64_value. apply Rmult_lt_0_compat; [apply IZR_lt; exact W0|apply bpow_gt_0]. } rewrite Rabs_pos_eq by lra. pose proof unit64_pos as U.
    apply Rmult_le_reg_r with (IZR unit64); [exact U|]. assert (IZR (lower64 w) + 1 <= 2 * IZR unit64) by (rewrite <- plus_IZR, <- mult_IZR; apply IZR_le; lia). lra.
  - apply IH; [cbn in N; congruence|intros v Hv; apply W; now right|intros v Hv; apply X; now right].
Qed.
Lemma check_rule_ok n s r : check_rule n s r = true -> let (ws, xs) := real_rule1 r in
  length ws = n /\ length xs = n /\ hd 0 xs = -1 /\ last xs 0 = 1 /\ StronglySorted Rlt xs /\ List.Forall (fun w => 0 < w) ws /\
  forall c, (length c <= S s)%nat -> Rabs (rule_integrate (ws, xs) (horner c) - integral (horner c) (-1) 1) <= / 10 ^ 14 * magnitude c.
Proof.
  destruct r as [ws xs]. unfold check_rule, real_rule1. cbn [fst snd]. intros H. repeat rewrite andb_true_iff in H. destruct H as ((((((((H1 & H2) & H3) & H4) & H5) & H6) & H7) & H8) & H9 & H10).
  apply Nat.eqb_eq in H1, H2, H9. rewrite map_length in H1, H2. apply is_f64_ok in H3, H4. rewrite forallb_forall in H6, H7, H8.
  assert (V1 : f64_value (-1, 0)%Z = -1) by (unfold f64_value; cbn; lra). assert (V2 : f64_value (1, 0)%Z = 1) by (unfold f64_value; cbn; lra).
  destruct xs as [|x0 xs0] eqn:Exs; [cbn in H3; discriminate|]. rewrite <- Exs in *.
  assert (Hh : hd 0 (map f64_value xs) = -1) by (subst xs; cbn [map hd] in *; rewrite H3; exact V1).
  assert (Hl : last (map f64_value xs) 0 = 1).
  { destruct (exists_last (l := xs) ltac:(rewrite Exs; discriminate)) as (l' & a & E). rewrite E in H4 |- *. rewrite last_last in H4. rewrite map_app. cbn [map]. rewrite last_last, H4. exact V2. }
  pose proof (increasing_sorted xs H5) as So. rewrite !map_length. split; [exact H1|]. split; [exact H2|]. split; [exact Hh|]. split; [exact Hl|]. split; [exact So|].
  assert (Pw : List.Forall (fun w => 0 < w) (map f64_value ws)).
  { rewrite List.Forall_forall. intros w Hw. apply in_map_iff in Hw. destruct Hw as (f & <- & Hf). specialize (H6 f Hf). apply Z.ltb_lt in H6. unfold f64_value. apply Rmult_lt_0_compat; [apply IZR_lt; exact H6|apply bpow_gt_0]. }
  split; [exact Pw|]. intros c Hc. rewrite integrate_total. cbn [fst snd].
  assert (Ro : Forall2 rounds (List.combine (map lower64 ws) (map lower64 xs)) (List.combine (map f64_value ws) (map f64_value xs))).
  { apply rounds_combine; [congruence| |].
    - intros w Hw. split; [apply Z.ltb_lt, H6, Hw|apply Z.ltb_lt, H7, in_map, Hw].
    - intros x Hx. split; [apply H8, in_map, Hx|]. pose proof (sorted_first _ 0 _ So (in_map f64_value _ _ Hx)) as A. pose proof (sorted_last _ 0 _ So (in_map f64_value _ _ Hx)) as B. rewrite Hh in A. rewrite Hl in B. apply Rabs_le. lra. }
  apply (horner_error _ c s); [|exact Hc]. intros k Hk. pose proof (check1_ok _ s _ k H9 H10 Hk) as Cl. pose proof (check_error _ _ _ _ _ Cl (sums1_approx s _ _ k Ro Hk)) as Er.
  rewrite momQ_ok in Er. eapply Rle_trans; [exact Er|]. rewrite List.combine_length, !map_length, H1, H2, Nat.min_id.
  rewrite minus_IZR, mult_IZR, plus_IZR, mult_IZR, <- !INR_IZR_INZ.
  replace (184467 - INR n * (3 * INR s + 1) + INR n * (3 * INR s + 1)) with 184467 by ring. unfold unit64. lra.
Qed.

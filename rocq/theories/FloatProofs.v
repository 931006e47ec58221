(** Rounding errors of sums and products of doubles. *)
From Coq Require Import ZArith Reals Lra Lia List Permutation.
From Flocq Require Import Core Plus_error Relative.
From Flocq.IEEE754 Require Import BinarySingleNaN.
From Verif Require Import FloatModel.
Import ListNotations.
Local Open Scope R_scope.

(** half the distance from 1 to the next double, half the least positive double, and the bound beyond which doubles overflow *)
Definition unit_roundoff : R := / 2 ^ 53.
Definition half_tiny : R := / 2 ^ 1075.
Definition overflow_bound : R := 2 ^ 1024.

Notation fin x := (is_finite x = true).
Definition value (x : f64) : R := B2R x.

Lemma bpow_nat n : bpow radix2 (Z.of_nat n) = 2 ^ n.
Proof. rewrite bpow_powerRZ, <- pow_powerRZ. reflexivity. Qed.
Lemma u_ro_eq : u_ro radix2 53 = unit_roundoff.
Proof.
  unfold u_ro, unit_roundoff. change (/ 2) with (bpow radix2 (-1)). rewrite <- bpow_plus. change (-1 + (- (53) + 1))%Z with (- Z.of_nat 53)%Z.
  rewrite bpow_opp, bpow_nat. reflexivity.
Qed.
Lemma tiny_eq : / 2 * bpow radix2 (3 - 1024 - 53) = half_tiny.
Proof.
  unfold half_tiny. change (/ 2) with (bpow radix2 (-1)). rewrite <- bpow_plus. change (-1 + (3 - 1024 - 53))%Z with (- Z.of_nat 1075)%Z.
  rewrite bpow_opp, bpow_nat. reflexivity.
Qed.
Lemma overflow_eq : bpow radix2 1024 = overflow_bound.
Proof. change 1024%Z with (Z.of_nat 1024). apply bpow_nat. Qed.

Lemma u_pos : 0 < unit_roundoff < 1.
Proof. rewrite <- u_ro_eq. split; [|apply (u_ro_lt_1 radix2 53); exact f64_prec]. unfold u_ro. apply Rmult_lt_0_compat; [lra|apply bpow_gt_0]. Qed.
Lemma tiny_pos : 0 < half_tiny.
Proof. rewrite <- tiny_eq. apply Rmult_lt_0_compat; [lra|apply bpow_gt_0]. Qed.
Lemma eps_le eps : Rabs eps <= u_ro radix2 53 / (1 + u_ro radix2 53) -> Rabs eps <= unit_roundoff.
Proof. intros H. eapply Rle_trans; [exact H|]. rewrite <- u_ro_eq. apply u_rod1pu_ro_le_u_ro. Qed.

Lemma value_format (x : f64) : generic_format radix2 (FLT_exp (3 - 1024 - 53) 53) (value x).
Proof. unfold value. apply generic_format_B2R. Qed.
Lemma value_bound (x : f64) : Rabs (value x) < overflow_bound.
Proof. rewrite <- overflow_eq. unfold value. apply abs_B2R_lt_emax. Qed.

(** The sum of two doubles, if it does not overflow: relative error at most the unit roundoff, no error if one of them is zero. *)
Lemma add_error (x y : f64) : fin x -> fin y -> (1 + unit_roundoff) * Rabs (value x + value y) < overflow_bound ->
  fin (f64_add x y) /\ exists eps, Rabs eps <= unit_roundoff /\ value (f64_add x y) = (value x + value y) * (1 + eps).
Proof.
  intros Hx Hy Hb. destruct (FLT_plus_error_N_ex radix2 (3 - 1024 - 53) 53 (fun z => negb (Z.even z)) (value x) (value y) (value_format x) (value_format y)) as (eps & He & Er).
  apply eps_le in He. pose proof (Bplus_correct 53 1024 f64_prec f64_emax mode_NE x y Hx Hy) as H. rewrite Rlt_bool_true in H.
  - destruct H as (H1 & H2 & _). split; [exact H2|]. exists eps. split; [exact He|]. unfold value at 1, f64_add. rewrite H1. exact Er.
  - change (SpecFloat.fexp 53 1024) with (FLT_exp (3 - 1024 - 53) 53). change (round_mode mode_NE) with ZnearestE. unfold value in Er, Hb. rewrite Er, overflow_eq.
    eapply Rle_lt_trans; [|exact Hb]. rewrite Rabs_mult, Rmult_comm. apply Rmult_le_compat_r; [apply Rabs_pos|]. eapply Rle_trans; [apply Rabs_triang|]. rewrite Rabs_R1. lra.
Qed.
Lemma add_zero (x y : f64) : fin x -> fin y -> value x = 0 -> fin (f64_add x y) /\ value (f64_add x y) = value y.
Proof.
  intros Hx Hy H0. pose proof (Bplus_correct 53 1024 f64_prec f64_emax mode_NE x y Hx Hy) as H. unfold value in H0. rewrite H0, Rplus_0_l in H.
  rewrite round_generic in H; [|apply valid_rnd_N|apply generic_format_B2R]. rewrite Rlt_bool_true in H by apply abs_B2R_lt_emax.
  destruct H as (H1 & H2 & _). split; [exact H2|exact H1].
Qed.
Lemma add_zero_r (x y : f64) : fin x -> fin y -> value y = 0 -> fin (f64_add x y) /\ value (f64_add x y) = value x.
Proof.
  intros Hx Hy H0. pose proof (Bplus_correct 53 1024 f64_prec f64_emax mode_NE x y Hx Hy) as H. unfold value in H0. rewrite H0, Rplus_0_r in H.
  rewrite round_generic in H; [|apply valid_rnd_N|apply generic_format_B2R]. rewrite Rlt_bool_true in H by apply abs_B2R_lt_emax.
  destruct H as (H1 & H2 & _). split; [exact H2|exact H1].
Qed.
Lemma mul_error (x y : f64) : fin x -> fin y -> (1 + unit_roundoff) * Rabs (value x * value y) + half_tiny < overflow_bound ->
  fin (f64_mul x y) /\ exists eps eta, Rabs eps <= unit_roundoff /\ Rabs eta <= half_tiny /\ value (f64_mul x y) = value x * value y * (1 + eps) + eta.
Proof.
  intros Hx Hy Hb. destruct (relative_error_N_FLT'_ex radix2 (3 - 1024 - 53) 53 f64_prec (fun z => negb (Z.even z)) (value x * value y)) as (eps & eta & He & Hn & _ & Er).
  apply eps_le in He. rewrite tiny_eq in Hn. pose proof (Bmult_correct 53 1024 f64_prec f64_emax mode_NE x y) as H. rewrite Rlt_bool_true in H.
  - destruct H as (H1 & H2 & _). split; [unfold f64_mul; rewrite H2, Hx, Hy; reflexivity|]. exists eps, eta. split; [exact He|]. split; [exact Hn|].
    unfold value at 1, f64_mul. rewrite H1. exact Er.
  - change (SpecFloat.fexp 53 1024) with (FLT_exp (3 - 1024 - 53) 53). change (round_mode mode_NE) with ZnearestE. unfold value in Er, Hb. rewrite Er, overflow_eq.
    eapply Rle_lt_trans; [|exact Hb]. eapply Rle_trans; [apply Rabs_triang|]. apply Rplus_le_compat; [|exact Hn].
    rewrite Rabs_mult, Rmult_comm. apply Rmult_le_compat_r; [apply Rabs_pos|]. eapply Rle_trans; [apply Rabs_triang|]. rewrite Rabs_R1. lra.
Qed.

(** [x] approximates [s], whose terms have moduli that sum to at most [a] and given errors that sum to at most [e], after [n] roundings *)
Definition approx (n : nat) (x : f64) (s a e : R) : Prop :=
  fin x /\ Rabs (value x - s) <= (1 + unit_roundoff) ^ n * (a + e) - a /\ Rabs s <= a /\ 0 <= e.

Lemma pow_u_ge n : 1 <= (1 + unit_roundoff) ^ n.
Proof. apply pow_R1_Rle. pose proof u_pos. lra. Qed.
Lemma pow_u_mono n m : (n <= m)%nat -> (1 + unit_roundoff) ^ n <= (1 + unit_roundoff) ^ m.
Proof. intros H. apply Rle_pow; [pose proof u_pos; lra|exact H]. Qed.
Lemma approx_mono n m x s a e : (n <= m)%nat -> approx n x s a e -> approx m x s a e.
Proof.
  intros H (H1 & H2 & H3 & H4). split; [exact H1|]. split; [|split; assumption]. eapply Rle_trans; [exact H2|]. pose proof (pow_u_mono n m H). pose proof (Rabs_pos s).
  assert (0 <= a + e) by lra. nra.
Qed.
Lemma approx_bound n x s a e : approx n x s a e -> Rabs (value x) <= (1 + unit_roundoff) ^ n * (a + e).
Proof.
  intros (_ & H2 & H3 & _). replace (value x) with (s + (value x - s)) by ring. eapply Rle_trans; [apply Rabs_triang|]. lra.
Qed.
Lemma approx_exact x : fin x -> approx 0 x (value x) (Rabs (value x)) 0.
Proof. intros H. split; [exact H|]. split; [|split; lra]. rewrite Rminus_diag_eq, Rabs_R0 by reflexivity. cbn. lra. Qed.
Lemma approx_given x s e : fin x -> Rabs (value x - s) <= e -> approx 0 x s (Rabs s) e.
Proof. intros H He. split; [exact H|]. split; [cbn; lra|]. split; [lra|]. pose proof (Rabs_pos (value x - s)). lra. Qed.
Lemma approx_add n x s a e y t b f : approx n x s a e -> approx n y t b f -> (1 + unit_roundoff) ^ S n * (a + b + (e + f)) < overflow_bound ->
  approx (S n) (f64_add x y) (s + t) (a + b) (e + f).
Proof.
  intros Hx Hy Hb. pose proof (approx_bound _ _ _ _ _ Hx) as Bx. pose proof (approx_bound _ _ _ _ _ Hy) as By.
  destruct Hx as (X1 & X2 & X3 & X4), Hy as (Y1 & Y2 & Y3 & Y4). pose proof u_pos as Hu. set (u := unit_roundoff) in *. set (p := (1 + u) ^ n) in *. cbn [pow] in *. fold p in Hb.
  assert (Bs : Rabs (value x + value y) <= p * (a + b + (e + f))) by (eapply Rle_trans; [apply Rabs_triang|]; lra).
  destruct (add_error x y X1 Y1) as (F & eps & He & Ev).
  { fold u. eapply Rle_lt_trans; [|exact Hb]. rewrite Rmult_assoc. apply Rmult_le_compat_l; [lra|exact Bs]. }
  split; [exact F|]. split; [|split; [eapply Rle_trans; [apply Rabs_triang|]; lra|lra]]. rewrite Ev. cbn [pow]. fold u p in He |- *.
  replace ((value x + value y) * (1 + eps) - (s + t)) with ((value x - s) + (value y - t) + (value x + value y) * eps) by ring.
  eapply Rle_trans; [apply Rabs_triang|]. eapply Rle_trans; [apply Rplus_le_compat_r, Rabs_triang|]. rewrite Rabs_mult.
  assert (Rabs (value x + value y) * Rabs eps <= p * (a + b + (e + f)) * u) by (apply Rmult_le_compat; [apply Rabs_pos|apply Rabs_pos|exact Bs|exact He]). lra.
Qed.
Lemma approx_zero_l n x y t b f : fin x -> value x = 0 -> approx n y t b f -> approx n (f64_add x y) t b f.
Proof. intros X1 X2 (Y1 & Y2 & Y3). destruct (add_zero x y X1 Y1 X2) as (H1 & H2). split; [exact H1|]. rewrite H2. split; assumption. Qed.
Lemma approx_zero_r n x y t b f : fin y -> value y = 0 -> approx n x t b f -> approx n (f64_add x y) t b f.
Proof. intros X1 X2 (Y1 & Y2 & Y3). destruct (add_zero_r x y Y1 X1 X2) as (H1 & H2). split; [exact H1|]. rewrite H2. split; assumption. Qed.

(** a product, of which the factor [y] has the error [d]; [c] bounds the exact factor *)
Lemma approx_product z x y t c d : (exists eps eta, Rabs eps <= unit_roundoff /\ Rabs eta <= half_tiny /\ value z = value x * value y * (1 + eps) + eta) -> fin z ->
  Rabs (value y - t) <= d -> Rabs t <= c -> approx 1 z (value x * t) (Rabs (value x) * c) (Rabs (value x) * d + half_tiny).
Proof.
  intros (eps & eta & He & Hh & Ev) F Hd Ht. pose proof u_pos as Hu. pose proof tiny_pos as Hn. set (u := unit_roundoff) in *. pose proof (Rabs_pos (value x)) as Px. pose proof (Rabs_pos (value y - t)) as Pd. pose proof (Rabs_pos t) as Pt.
  assert (By : Rabs (value y) <= c + d) by (replace (value y) with (t + (value y - t)) by ring; eapply Rle_trans; [apply Rabs_triang|]; lra).
  assert (Bxy : Rabs (value x * value y) <= Rabs (value x) * (c + d)) by (rewrite Rabs_mult; apply Rmult_le_compat_l; [exact Px|exact By]).
  split; [exact F|]. split; [|split].
  - rewrite Ev. replace (_ - _) with (value x * (value y - t) + value x * value y * eps + eta) by ring. rewrite pow_1. fold u in He |- *.
    eapply Rle_trans; [apply Rabs_triang|]. eapply Rle_trans; [apply Rplus_le_compat_r, Rabs_triang|]. rewrite (Rabs_mult (value x)), (Rabs_mult (value x * value y)).
    assert (Rabs (value x * value y) * Rabs eps <= Rabs (value x) * (c + d) * u) by (apply Rmult_le_compat; [apply Rabs_pos|apply Rabs_pos|exact Bxy|exact He]).
    assert (Rabs (value x) * Rabs (value y - t) <= Rabs (value x) * d) by (apply Rmult_le_compat_l; assumption).
    assert (0 <= u * half_tiny) by nra. nra.
  - rewrite Rabs_mult. apply Rmult_le_compat_l; assumption.
  - assert (0 <= Rabs (value x) * d) by (apply Rmult_le_pos; [exact Px|lra]). lra.
Qed.
Lemma product_small x y t c d : Rabs (value y - t) <= d -> Rabs t <= c -> (1 + unit_roundoff) * (Rabs (value x) * c + (Rabs (value x) * d + half_tiny)) < overflow_bound ->
  (1 + unit_roundoff) * Rabs (value x * value y) + half_tiny < overflow_bound.
Proof.
  intros Hd Ht Hb. eapply Rle_lt_trans; [|exact Hb]. pose proof u_pos as Hu. pose proof tiny_pos as Hn. pose proof (Rabs_pos (value x)) as Px.
  assert (By : Rabs (value y) <= c + d) by (replace (value y) with (t + (value y - t)) by ring; eapply Rle_trans; [apply Rabs_triang|]; lra).
  assert (Bxy : Rabs (value x * value y) <= Rabs (value x) * (c + d)) by (rewrite Rabs_mult; apply Rmult_le_compat_l; [exact Px|exact By]). nra.
Qed.
Lemma approx_mul x y t c d : fin x -> fin y -> Rabs (value y - t) <= d -> Rabs t <= c ->
  (1 + unit_roundoff) * (Rabs (value x) * c + (Rabs (value x) * d + half_tiny)) < overflow_bound ->
  approx 1 (f64_mul x y) (value x * t) (Rabs (value x) * c) (Rabs (value x) * d + half_tiny) /\
  approx 1 (f64_mul y x) (value x * t) (Rabs (value x) * c) (Rabs (value x) * d + half_tiny).
Proof.
  intros X1 Y1 Hd Ht Hb. pose proof (product_small x y t c d Hd Ht Hb) as Hs. split.
  - destruct (mul_error x y X1 Y1 Hs) as (F & H). exact (approx_product _ x y t c d H F Hd Ht).
  - destruct (mul_error y x Y1 X1) as (F & eps & eta & H1 & H2 & H3); [rewrite (Rmult_comm (value y)); exact Hs|].
    apply (approx_product _ x y t c d); [|exact F|exact Hd|exact Ht]. exists eps, eta. split; [exact H1|]. split; [exact H2|]. rewrite H3. ring.
Qed.

Definition rsum (l : list R) : R := fold_right Rplus 0 l.

(** Adding up from the left. *)
Lemma approx_fold {A} (g : A -> f64) (s a e : A -> R) m l : forall n x s0 a0 e0, (m <= n)%nat -> approx n x s0 a0 e0 -> Forall (fun i => approx m (g i) (s i) (a i) (e i)) l ->
  (1 + unit_roundoff) ^ (n + length l) * (a0 + rsum (map a l) + (e0 + rsum (map e l))) < overflow_bound ->
  approx (n + length l) (fold_left (fun acc i => f64_add acc (g i)) l x) (s0 + rsum (map s l)) (a0 + rsum (map a l)) (e0 + rsum (map e l)).
Proof.
  induction l as [|i l IH]; intros n x s0 a0 e0 Hm Hx Hl Hb; cbn [map rsum fold_right fold_left length] in *.
  - rewrite Nat.add_0_r, !Rplus_0_r. exact Hx.
  - fold (rsum (map s l)) (rsum (map a l)) (rsum (map e l)) in *. inversion Hl as [|? ? H1 H2]; subst.
    rewrite <- !Rplus_assoc. replace (n + S (length l))%nat with (S n + length l)%nat by lia.
    assert (Hb' : (1 + unit_roundoff) ^ (S n + length l) * ((a0 + a i) + rsum (map a l) + ((e0 + e i) + rsum (map e l))) < overflow_bound).
    { replace (S n + length l)%nat with (n + S (length l))%nat by lia. eapply Rle_lt_trans; [|exact Hb]. right. ring. }
    assert (Pa : 0 <= rsum (map a l) /\ 0 <= rsum (map e l)).
    { clear -H2. induction l as [|j l IH]; cbn; [lra|]. inversion H2 as [|? ? (_ & _ & G1 & G2) G3]; subst. specialize (IH G3). pose proof (Rabs_pos (s j)). unfold rsum in IH. lra. }
    apply IH; [lia| |exact H2|exact Hb'].
    apply approx_add; [exact Hx|eapply approx_mono; [exact Hm|exact H1]|].
    eapply Rle_lt_trans; [|exact Hb']. pose proof (pow_u_mono (S n) (S n + length l) ltac:(lia)) as Hp. pose proof (pow_u_ge (S n)) as Hg.
    destruct Hx as (_ & _ & X3 & X4), H1 as (_ & _ & Y3 & Y4). pose proof (Rabs_pos s0). pose proof (Rabs_pos (s i)).
    apply Rmult_le_compat; [lra|lra|exact Hp|lra].
Qed.

(** Adding up along any binary tree. *)
Inductive tree := Leaf (x : f64) | Node (l r : tree).
Fixpoint tree_sum (t : tree) : f64 := match t with Leaf x => x | Node l r => f64_add (tree_sum l) (tree_sum r) end.
Fixpoint leaves (t : tree) : list f64 := match t with Leaf x => [x] | Node l r => leaves l ++ leaves r end.
Fixpoint depth (t : tree) : nat := match t with Leaf _ => 0 | Node l r => S (Nat.max (depth l) (depth r)) end.
Definition exact (l : list f64) : R := rsum (map value l).
Definition moduli (l : list f64) : R := rsum (map (fun x => Rabs (value x)) l).
Lemma rsum_app l m : rsum (l ++ m) = rsum l + rsum m.
Proof. unfold rsum. induction l as [|x l IH]; cbn [app fold_right]; [ring|]. rewrite IH. ring. Qed.
Lemma rsum_perm l m : Permutation l m -> rsum l = rsum m.
Proof. unfold rsum. induction 1; cbn [fold_right] in *; lra. Qed.
Lemma moduli_nonneg l : 0 <= moduli l.
Proof. unfold moduli. induction l as [|x l IH]; cbn; [lra|]. pose proof (Rabs_pos (value x)). unfold rsum in IH. lra. Qed.
Lemma tree_approx t : Forall (fun x : f64 => fin x) (leaves t) -> (1 + unit_roundoff) ^ depth t * moduli (leaves t) < overflow_bound ->
  approx (depth t) (tree_sum t) (exact (leaves t)) (moduli (leaves t)) 0.
Proof.
  induction t as [x|l IHl r IHr]; intros Hf Hb; cbn [leaves depth tree_sum] in *.
  - inversion Hf; subst. unfold exact, moduli. cbn. rewrite !Rplus_0_r. apply approx_exact. assumption.
  - apply Forall_app in Hf. destruct Hf as [Hl Hr]. set (k := Nat.max (depth l) (depth r)) in *.
    assert (Em : moduli (leaves l ++ leaves r) = moduli (leaves l) + moduli (leaves r)) by (unfold moduli; rewrite map_app; apply rsum_app).
    assert (Ee : exact (leaves l ++ leaves r) = exact (leaves l) + exact (leaves r)) by (unfold exact; rewrite map_app; apply rsum_app).
    rewrite Em in *. rewrite Ee. pose proof (moduli_nonneg (leaves l)) as Pl. pose proof (moduli_nonneg (leaves r)) as Pr.
    assert (G : forall n b, (n <= S k)%nat -> b <= moduli (leaves l) + moduli (leaves r) -> 0 <= b -> (1 + unit_roundoff) ^ n * b < overflow_bound).
    { intros n b Hn Hle H0. eapply Rle_lt_trans; [|exact Hb]. pose proof (pow_u_ge n). apply Rmult_le_compat; [lra|exact H0|apply pow_u_mono; exact Hn|exact Hle]. }
    specialize (IHl Hl (G (depth l) (moduli (leaves l)) ltac:(unfold k; lia) ltac:(lra) Pl)).
    specialize (IHr Hr (G (depth r) (moduli (leaves r)) ltac:(unfold k; lia) ltac:(lra) Pr)).
    rewrite <- (Rplus_0_r 0). apply approx_add; [eapply approx_mono; [|exact IHl]; unfold k; lia|eapply approx_mono; [|exact IHr]; unfold k; lia|].
    rewrite !Rplus_0_r. exact Hb.
Qed.

(** Adding up from the left, from a first value and from zero. *)
Lemma forall_fin_approx l : Forall (fun x : f64 => fin x) l -> Forall (fun x => approx 0 x (value x) (Rabs (value x)) 0) l.
Proof. intros H. eapply Forall_impl; [|exact H]. intros x Hx. apply approx_exact, Hx. Qed.
Lemma rsum_zero {A} (l : list A) : rsum (map (fun _ => 0) l) = 0.
Proof. unfold rsum. induction l as [|a l IH]; cbn [map fold_right]; [reflexivity|]. rewrite IH. ring. Qed.
Lemma fold_approx x l : Forall (fun y : f64 => fin y) (x :: l) -> (1 + unit_roundoff) ^ length l * moduli (x :: l) < overflow_bound ->
  approx (length l) (fold_left f64_add l x) (exact (x :: l)) (moduli (x :: l)) 0.
Proof.
  intros H Hb. inversion H as [|? ? H1 H2]; subst.
  pose proof (approx_fold (fun y => y) value (fun y => Rabs (value y)) (fun _ => 0) 0 l 0 x (value x) (Rabs (value x)) 0 (le_n 0) (approx_exact x H1) (forall_fin_approx l H2)) as A.
  rewrite rsum_zero, !Rplus_0_r in A. apply A. exact Hb.
Qed.
Lemma fold_zero_approx z l : fin z -> value z = 0 -> Forall (fun y : f64 => fin y) l -> (1 + unit_roundoff) ^ Nat.pred (length l) * moduli l < overflow_bound ->
  approx (Nat.pred (length l)) (fold_left f64_add l z) (exact l) (moduli l) 0.
Proof.
  intros Z1 Z2 H Hb. destruct l as [|x l].
  - cbn. unfold exact, moduli. cbn. split; [exact Z1|]. rewrite Z2, Rminus_0_r, Rabs_R0. cbn. lra.
  - cbn [length Nat.pred fold_left] in *. inversion H as [|? ? H1 H2]; subst. destruct (add_zero z x Z1 H1 Z2) as (F & V).
    assert (Em : forall l, moduli (f64_add z x :: l) = moduli (x :: l)) by (intros; unfold moduli; cbn; rewrite V; reflexivity).
    assert (Ee : forall l, exact (f64_add z x :: l) = exact (x :: l)) by (intros; unfold exact; cbn; rewrite V; reflexivity).
    rewrite <- Em, <- Ee. apply fold_approx; [constructor; assumption|]. rewrite Em. exact Hb.
Qed.
Lemma approx_error n x s a : approx n x s a 0 -> fin x /\ Rabs (value x - s) <= ((1 + unit_roundoff) ^ n - 1) * a.
Proof. intros (H1 & H2 & _). split; [exact H1|]. rewrite Rplus_0_r in H2. lra. Qed.
Lemma moduli_app l m : moduli (l ++ m) = moduli l + moduli m.
Proof. unfold moduli. rewrite map_app. apply rsum_app. Qed.
Lemma exact_app l m : exact (l ++ m) = exact l + exact m.
Proof. unfold exact. rewrite map_app. apply rsum_app. Qed.
Lemma moduli_perm l m : Permutation l m -> moduli l = moduli m.
Proof. intros H. apply rsum_perm, Permutation_map, H. Qed.
Lemma exact_perm l m : Permutation l m -> exact l = exact m.
Proof. intros H. apply rsum_perm, Permutation_map, H. Qed.
Lemma exact_moduli l : Rabs (exact l) <= moduli l.
Proof. unfold exact, moduli, rsum. induction l as [|x l IH]; cbn [map fold_right]; [rewrite Rabs_R0; lra|]. eapply Rle_trans; [apply Rabs_triang|]. lra. Qed.
Lemma fin_zero : fin f64_zero.
Proof. reflexivity. Qed.
Lemma value_zero : value f64_zero = 0.
Proof. reflexivity. Qed.
Lemma bound_part n m a b : (n <= m)%nat -> 0 <= a -> a <= b -> (1 + unit_roundoff) ^ m * b < overflow_bound -> (1 + unit_roundoff) ^ n * a < overflow_bound.
Proof. intros Hn Ha Hab Hb. eapply Rle_lt_trans; [|exact Hb]. pose proof (pow_u_ge n). apply Rmult_le_compat; [lra|exact Ha|apply pow_u_mono; exact Hn|exact Hab]. Qed.

(** Two adjacent parts of a sum. *)
Lemma join_approx l m x y : approx (Nat.pred (length l)) x (exact l) (moduli l) 0 -> approx (Nat.pred (length m)) y (exact m) (moduli m) 0 ->
  (1 + unit_roundoff) ^ Nat.pred (length (l ++ m)) * moduli (l ++ m) < overflow_bound ->
  approx (Nat.pred (length (l ++ m))) (f64_add x y) (exact (l ++ m)) (moduli (l ++ m)) 0.
Proof.
  intros Hx Hy Hb. assert (Z0 : forall n z, approx n z (exact []) (moduli []) 0 -> fin z /\ value z = 0).
  { intros n z Hz. pose proof (approx_bound _ _ _ _ _ Hz) as B. destruct Hz as (F & _). split; [exact F|]. unfold moduli in B. cbn in B. rewrite Rplus_0_r, Rmult_0_r in B.
    pose proof (Rabs_pos (value z)). destruct (Req_dec (value z) 0) as [E|E]; [exact E|]. apply Rabs_pos_lt in E. lra. }
  destruct l as [|a l]; [|destruct m as [|b m]].
  - destruct (Z0 _ _ Hx). apply approx_zero_l; assumption.
  - rewrite app_nil_r in *. destruct (Z0 _ _ Hy). apply approx_zero_r; assumption.
  - set (L := a :: l) in *. set (M := b :: m) in *. rewrite moduli_app, exact_app in *. pose proof (moduli_nonneg L). pose proof (moduli_nonneg M).
    assert (El : Nat.pred (length (L ++ M)) = S (Nat.pred (length L) + Nat.pred (length M))) by (unfold L, M; rewrite app_length; cbn [length]; lia).
    rewrite El in *. rewrite <- (Rplus_0_r 0). apply (approx_mono (S (Nat.max (Nat.pred (length L)) (Nat.pred (length M))))); [lia|].
    apply approx_add; [eapply approx_mono; [|exact Hx]; lia|eapply approx_mono; [|exact Hy]; lia|].
    rewrite !Rplus_0_r. eapply bound_part; [|lra|apply Rle_refl|exact Hb]. lia.
Qed.

(** The growth of the error is linear for sums of any length that occurs. *)
Lemma growth n : INR n * unit_roundoff <= / 2 -> (1 + unit_roundoff) ^ n - 1 <= 2 * INR n * unit_roundoff.
Proof.
  pose proof u_pos as Hu. induction n as [|n IH]; intros Hn; [cbn; lra|]. rewrite S_INR in *. pose proof (pos_INR n). cbn [pow].
  assert (Hn' : INR n * unit_roundoff <= / 2) by nra. specialize (IH Hn'). nra.
Qed.

(** Sums of computed terms, from zero. *)
Lemma approx_sums {A} (g : A -> f64) (s a e : A -> R) m l : Forall (fun i => approx m (g i) (s i) (a i) (e i)) l ->
  (1 + unit_roundoff) ^ (m + Nat.pred (length l)) * (rsum (map a l) + rsum (map e l)) < overflow_bound ->
  approx (m + Nat.pred (length l)) (fold_left (fun acc i => f64_add acc (g i)) l f64_zero) (rsum (map s l)) (rsum (map a l)) (rsum (map e l)).
Proof.
  intros Hl Hb. destruct l as [|i l].
  - cbn. split; [reflexivity|]. rewrite value_zero, Rminus_0_r, Rabs_R0. lra.
  - cbn [length Nat.pred fold_left map rsum fold_right] in *. fold (rsum (map s l)) (rsum (map a l)) (rsum (map e l)) in *. inversion Hl as [|? ? H1 H2]; subst.
    apply approx_fold with (m := m); [lia|apply approx_zero_l; [reflexivity|reflexivity|exact H1]|exact H2|exact Hb].
Qed.
Lemma approx_wider n x s a e a' e' : approx n x s a e -> a <= a' -> e <= e' -> approx n x s a' e'.
Proof.
  intros (H1 & H2 & H3 & H4) Ha He. pose proof (pow_u_ge n) as P. split; [exact H1|]. split; [|split; lra]. eapply Rle_trans; [exact H2|]. nra.
Qed.

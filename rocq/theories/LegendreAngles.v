(** Where the zeros of Legendre polynomials are, against the starting points of the root search (for C103). *)
From Coq Require Import Reals List Arith Lia Lra.
From Coquelicot Require Import Coquelicot.
From Verif Require Import ElementModel QuadratureModel QuadPoly LegendreProofs LegendreZeros LegendreSturm.
Import ListNotations.
Local Open Scope R_scope.
Local Notation L := legendre_value.

Lemma zeros_unique n y z : zeros n y -> zeros n z -> forall i, (i < n)%nat -> y i = z i.
Proof.
  assert (G : forall y z, zeros n y -> zeros n z -> forall i, (i < n)%nat -> (forall j, (j < i)%nat -> y j = z j) -> y i <= z i).
  { clear y z. intros y z Hy Hz i Hi IH. destruct (proj1 Hz i Hi) as (_ & Ze). destruct (zeros_complete n y (z i) Hy Ze) as (k & Hk & E). rewrite E.
    destruct (lt_eq_lt_dec k i) as [[Lt| ->]|Gt]; [|lra|left; apply (increasing_lt y n (proj2 Hy)); lia].
    exfalso. rewrite IH in E by exact Lt. pose proof (increasing_lt z n (proj2 Hz) k i ltac:(lia)). lra. }
  intros Hy Hz i. induction i as [i IH] using lt_wf_ind. intros Hi. apply Rle_antisym; apply G; try assumption; intros j Hj; [|symmetry]; apply IH; lia.
Qed.
Lemma zeros_symmetric n z : zeros n z -> forall i, (i < n)%nat -> z (n - 1 - i)%nat = - z i.
Proof.
  intros Hz. assert (Hy : zeros n (fun i => - z (n - 1 - i)%nat)).
  { split.
    - intros i Hi. destruct (proj1 Hz (n - 1 - i)%nat ltac:(lia)) as (B & Ze). split; [lra|]. rewrite L_opp, Ze. ring.
    - intros i Hi. pose proof (increasing_lt z n (proj2 Hz) (n - 1 - S i)%nat (n - 1 - i)%nat ltac:(lia)). lra. }
  intros i Hi. pose proof (zeros_unique n z _ Hz Hy i Hi) as E. cbn beta in E. lra.
Qed.

(** the angles of the zeros, from the largest zero on *)
Definition angle (n : nat) (z : nat -> R) (i : nat) : R := acos (z (n - 1 - i)%nat).
Definition start (n i : nat) : R := PI * (INR i + 3 / 4) / NN n.

Section angles.
Variables (n : nat) (z : nat -> R).
Hypothesis Hz : zeros n z.
Lemma angle_bounds i : (i < n)%nat -> 0 < angle n z i < PI.
Proof. intros Hi. apply acos_bound_lt, Hz. lia. Qed.
Lemma angle_cos i : (i < n)%nat -> cos (angle n z i) = z (n - 1 - i)%nat.
Proof. intros Hi. apply cos_acos. destruct (proj1 Hz (n - 1 - i)%nat ltac:(lia)) as (B & _). lra. Qed.
Lemma angle_lt i j : (i < j < n)%nat -> angle n z i < angle n z j.
Proof.
  intros H. pose proof (angle_bounds i ltac:(lia)). pose proof (angle_bounds j ltac:(lia)). apply cos_decreasing_0; try lra.
  rewrite !angle_cos by lia. apply (increasing_lt z n (proj2 Hz)). lia.
Qed.
Lemma angle_opp i : (i < n)%nat -> angle n z (n - 1 - i) = PI - angle n z i.
Proof. intros Hi. unfold angle. rewrite (zeros_symmetric n z Hz (n - 1 - i)%nat) by lia. apply acos_opp. Qed.
Lemma angle_gap i : (S i < n)%nat -> NN n * (angle n z (S i) - angle n z i) <= PI /\
  PI <= NN n * (angle n z (S i) - angle n z i) + (cot (angle n z i) - cot (angle n z (S i))) / (4 * NN n).
Proof.
  intros Hi. pose proof (angle_bounds i ltac:(lia)) as Bi. pose proof (angle_bounds (S i) ltac:(lia)) as Bj. pose proof (angle_lt i (S i) ltac:(lia)) as Lt.
  assert (No : forall t, angle n z i < t < angle n z (S i) -> L n (cos t) <> 0).
  { intros t Ht E. destruct (zeros_complete n z _ Hz E) as (k & Hk & Ek).
    assert (A : cos t = cos (angle n z (n - 1 - k))) by (rewrite angle_cos by lia; rewrite Ek; f_equal; lia).
    assert (A' : t = angle n z (n - 1 - k)). { pose proof (angle_bounds (n - 1 - k) ltac:(lia)). rewrite <- (acos_cos t), A, acos_cos by lra. reflexivity. }
    destruct (le_lt_dec (n - 1 - k) i) as [Le|Gt].
    - destruct (Nat.eq_dec (n - 1 - k) i) as [E1|Ne]; [rewrite E1 in A'; lra|]. pose proof (angle_lt (n - 1 - k) i ltac:(lia)). lra.
    - destruct (Nat.eq_dec (n - 1 - k) (S i)) as [E1|Ne]; [rewrite E1 in A'; lra|]. pose proof (angle_lt (S i) (n - 1 - k) ltac:(lia)). lra. }
  split.
  - apply gap_upper; try lra; exact No.
  - apply gap_lower; try lra; try exact No; rewrite angle_cos by lia; apply Hz; lia.
Qed.
Lemma angle_gaps i k : (i + k < n)%nat -> NN n * (angle n z (i + k) - angle n z i) <= INR k * PI /\
  INR k * PI <= NN n * (angle n z (i + k) - angle n z i) + (cot (angle n z i) - cot (angle n z (i + k))) / (4 * NN n).
Proof.
  pose proof (NN_pos n) as Np. induction k as [|k IH]; intros H.
  - rewrite Nat.add_0_r. cbn [INR]. unfold Rdiv. split; [lra|]. replace (cot (angle n z i) - cot (angle n z i)) with 0 by ring. lra.
  - rewrite S_INR. specialize (IH ltac:(lia)). destruct (angle_gap (i + k) ltac:(lia)) as (A & B). replace (i + S k)%nat with (S (i + k)) by lia. unfold Rdiv in *. lra.
Qed.

Lemma angle_start i : (2 * i < n)%nat -> start n i <= angle n z i /\ angle n z i - start n i <= cot (angle n z i) / (4 * (NN n * NN n)) /\ angle n z i <= PI / 2.
Proof.
  intros Hi. pose proof (NN_pos n) as Np. destruct (angle_gaps i (n - 1 - 2 * i) ltac:(lia)) as (A & B). replace (i + (n - 1 - 2 * i))%nat with (n - 1 - i)%nat in * by lia.
  rewrite angle_opp in * by lia. pose proof (angle_bounds i ltac:(lia)) as Ba. assert (Sa : 0 < sin (angle n z i)) by (apply sin_gt_0; lra). rewrite cot_opp in B by lra.
  set (q := angle n z i) in *. assert (Ek : INR (n - 1 - 2 * i) = NN n - (2 * INR i + 3 / 2)).
  { unfold NN. rewrite !minus_INR by lia. rewrite mult_INR. cbn [INR]. lra. }
  rewrite Ek in A, B. repeat split.
  - unfold start. apply (Rmult_le_reg_r (NN n)); [lra|]. unfold Rdiv. rewrite Rmult_assoc, Rinv_l by lra. lra.
  - apply (Rmult_le_reg_l (2 * NN n)); [lra|]. unfold start. replace (2 * NN n * (q - PI * (INR i + 3 / 4) / NN n)) with (2 * NN n * q - PI * (2 * INR i + 3 / 2)) by (field; lra).
    replace (2 * NN n * (cot q / (4 * (NN n * NN n)))) with ((cot q - - cot q) / (4 * NN n)) by (field; lra). lra.
  - destruct (Nat.eq_dec i (n - 1 - i)) as [E|Ne].
    + pose proof (angle_opp i ltac:(lia)) as E'. rewrite <- E in E'. fold q in E'. lra.
    + pose proof (angle_lt i (n - 1 - i) ltac:(lia)) as E'. rewrite angle_opp in E' by lia. fold q in E'. lra.
Qed.
End angles.

(** the chord of the sine lies below it *)
Lemma jordan t : 0 <= t <= PI / 2 -> 2 * t / PI <= sin t.
Proof.
  intros H. pose proof PI_RGT_0 as Pp. apply Rnot_lt_le. intros C.
  destruct (mean sin cos 0 t ltac:(lra)) as (c & Hc & E); [intros; apply is_derive_sin|]. destruct (mean sin cos t (PI / 2) ltac:(lra)) as (d & Hd & F); [intros; apply is_derive_sin|].
  rewrite sin_0 in E. rewrite sin_PI2 in F. assert (Dc : cos d <= cos c) by (destruct (Req_dec c d) as [->|]; [lra|left; apply cos_decreasing_1; lra]).
  assert (Cc : cos c * t < 2 / PI * t) by (unfold Rdiv in *; lra). assert (Tp : 0 < t) by (destruct (proj1 H) as [?|<-]; [assumption|lra]). assert (cos c < 2 / PI) by (apply (Rmult_lt_reg_r t); [exact Tp|exact Cc]).
  assert (cos d * (PI / 2 - t) <= 2 / PI * (PI / 2 - t)) by (apply Rmult_le_compat_r; lra). assert (2 / PI * (PI / 2 - t) = 1 - 2 * t / PI) by (field; lra). lra.
Qed.

Lemma start_sin n i : (2 * i < n)%nat -> 0 < start n i <= PI / 2 /\ 2 * (INR i + 3 / 4) / NN n <= sin (start n i).
Proof.
  intros Hi. pose proof (NN_pos n) as Np. pose proof PI_RGT_0 as Pp. pose proof (pos_INR i) as Ip.
  assert (B : 0 < start n i <= PI / 2).
  { unfold start. split; [apply Rdiv_lt_0_compat; [apply Rmult_lt_0_compat; lra|lra]|]. apply (Rmult_le_reg_r (NN n)); [lra|]. unfold Rdiv at 1. rewrite Rmult_assoc, Rinv_l by lra.
    assert (2 * INR i + 1 <= INR n) by (change 2 with (INR 2); change 1 with (INR 1); rewrite <- mult_INR, <- plus_INR; apply le_INR; lia). assert (PI * (INR i + 3 / 4) <= PI * (NN n / 2)); [|lra]. apply Rmult_le_compat_l; [lra|]. unfold NN. lra. }
  split; [exact B|]. pose proof (jordan (start n i) ltac:(lra)) as J. replace (2 * start n i / PI) with (2 * (INR i + 3 / 4) / NN n) in J; [exact J|]. unfold start. field. lra.
Qed.

(** the starting points against the zeros *)
Lemma start_near n z i : zeros n z -> (2 * i < n)%nat -> let q := z (n - 1 - i)%nat in let x := gauss_guess n i in
  0 <= q /\ q <= x /\ x - q <= q / (4 * (NN n * NN n)) /\ 9 / (4 * (NN n * NN n)) <= 1 - x * x /\ x < 1 /\
  forall t, q < t <= x -> 0 < (-1) ^ i * L n t.
Proof.
  intros Hz Hi q x. pose proof (NN_pos n) as Np. pose proof PI_RGT_0 as Pp. pose proof (pos_INR i) as Ip. destruct (angle_start n z Hz i Hi) as (A & B & C). pose proof (angle_bounds n z Hz i ltac:(lia)) as Ba.
  destruct (start_sin n i Hi) as (S1 & S2). assert (Ex : x = cos (start n i)) by reflexivity. assert (Eq : q = cos (angle n z i)) by (symmetry; apply angle_cos; [exact Hz|lia]).
  assert (X1 : 9 / (4 * (NN n * NN n)) <= 1 - x * x).
  { rewrite Ex. pose proof (sin2_cos2 (start n i)) as P. unfold Rsqr in P. replace (1 - cos (start n i) * cos (start n i)) with (sin (start n i) * sin (start n i)) by lra.
    assert (T : 3 / (2 * NN n) <= sin (start n i)).
    { apply Rle_trans with (2 * (INR i + 3 / 4) / NN n); [|exact S2]. replace (3 / (2 * NN n)) with (3 / 2 / NN n) by (field; lra). unfold Rdiv. apply Rmult_le_compat_r; [left; apply Rinv_0_lt_compat; lra|lra]. }
    assert (0 < 3 / (2 * NN n)) by (apply Rdiv_lt_0_compat; lra). replace (9 / (4 * (NN n * NN n))) with (3 / (2 * NN n) * (3 / (2 * NN n))) by (field; lra). apply Rmult_le_compat; lra. }
  assert (Xp : 0 < 9 / (4 * (NN n * NN n))) by (apply Rdiv_lt_0_compat; [lra|nra]).
  assert (Qx : q <= x) by (rewrite Eq, Ex; destruct A as [A|A]; [left; apply cos_decreasing_1; lra|rewrite A; lra]).
  assert (Sq : 0 < sin (angle n z i)) by (apply sin_gt_0; lra).
  repeat split.
  - rewrite Eq. apply cos_ge_0; lra.
  - exact Qx.
  - rewrite Ex, Eq. destruct (mean cos (fun x => - sin x) (start n i) (angle n z i) A) as (c & Hc & E); [intros; apply is_derive_cos|].
    replace (cos (start n i) - cos (angle n z i)) with (sin c * (angle n z i - start n i)) by lra.
    assert (Sc : sin c <= sin (angle n z i)) by (destruct (Req_dec c (angle n z i)) as [->|]; [lra|left; apply sin_increasing_1; lra]).
    apply Rle_trans with (sin (angle n z i) * (angle n z i - start n i)); [apply Rmult_le_compat_r; lra|].
    apply Rle_trans with (sin (angle n z i) * (cot (angle n z i) / (4 * (NN n * NN n)))); [apply Rmult_le_compat_l; lra|]. right. unfold cot. field. split; lra.
  - exact X1.
  - nra.
  - intros t Ht. destruct (zeros_product n z Hz) as (k & K & E). rewrite E. replace ((-1) ^ i * (k * roots_product z n t)) with (k * ((-1) ^ i * roots_product z n t)) by ring. apply Rmult_lt_0_compat; [exact K|].
    pose proof (roots_product_sign z n t (n - i)%nat ltac:(lia)) as R. replace (n - (n - i))%nat with i in R by lia. apply R.
    + intros j Hj. destruct (Nat.eq_dec j (n - 1 - i)) as [->|Ne]; [exact (proj1 Ht)|]. apply Rlt_trans with q; [|exact (proj1 Ht)]. apply (increasing_lt z n (proj2 Hz)). lia.
    + intros j Hj. assert (I1 : (1 <= i)%nat) by lia. destruct (angle_start n z Hz (i - 1) ltac:(lia)) as (A' & B' & C'). destruct (start_sin n (i - 1) ltac:(lia)) as (T1 & T2).
      pose proof (angle_bounds n z Hz (i - 1) ltac:(lia)) as Ba'. set (r := angle n z (i - 1)) in *.
      assert (Sr : 3 / (2 * NN n) <= sin r).
      { apply Rle_trans with (sin (start n (i - 1))).
        - apply Rle_trans with (2 * (INR (i - 1) + 3 / 4) / NN n); [|exact T2]. replace (3 / (2 * NN n)) with (3 / 2 / NN n) by (field; lra). pose proof (pos_INR (i - 1)). unfold Rdiv. apply Rmult_le_compat_r; [left; apply Rinv_0_lt_compat; lra|lra].
        - destruct (Req_dec (start n (i - 1)) r) as [->|]; [lra|left; apply sin_increasing_1; lra]. }
      assert (P3 : 0 < 3 / (2 * NN n)) by (apply Rdiv_lt_0_compat; lra).
      assert (Cr : cot r <= 2 * NN n / 3).
      { unfold cot. destruct (COS_bound r) as [_ Cb]. apply (Rmult_le_reg_r (sin r)); [lra|]. unfold Rdiv at 1. rewrite Rmult_assoc, Rinv_l by lra.
        apply Rle_trans with (2 * NN n / 3 * (3 / (2 * NN n))); [|apply Rmult_le_compat_l; lra]. replace (2 * NN n / 3 * (3 / (2 * NN n))) with 1 by (field; lra). lra. }
      assert (Rs : r < start n i).
      { assert (Es : start n i = start n (i - 1) + PI / NN n) by (unfold start; rewrite minus_INR by lia; cbn [INR]; field; lra).
        assert (cot r / (4 * (NN n * NN n)) <= 2 * NN n / 3 / (4 * (NN n * NN n))) by (unfold Rdiv at 1 2; apply Rmult_le_compat_r; [left; apply Rinv_0_lt_compat; nra|exact Cr]).
        assert (2 * NN n / 3 / (4 * (NN n * NN n)) = 1 / 6 / NN n) by (field; lra). assert (1 / 6 / NN n < PI / NN n); [|lra].
        unfold Rdiv at 1 3. apply Rmult_lt_compat_r; [apply Rinv_0_lt_compat; lra|]. pose proof PI2_1. lra. }
      apply Rle_lt_trans with x; [exact (proj2 Ht)|]. apply Rlt_le_trans with (z (n - 1 - (i - 1))%nat).
      * rewrite <- (angle_cos n z Hz (i - 1)) by lia. fold r. rewrite Ex. apply cos_decreasing_1; lra.
      * destruct (Nat.eq_dec j (n - 1 - (i - 1))) as [->|Ne]; [lra|]. left. apply (increasing_lt z n (proj2 Hz)). lia.
Qed.

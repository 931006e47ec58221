(** Newton's method for the zeros of Legendre polynomials, to the right of a positive zero (for C103). *)
From Coq Require Import Reals List Arith Lia Lra.
From Coquelicot Require Import Coquelicot.
From Verif Require Import ElementModel QuadratureModel QuadPoly LegendreProofs LegendreZeros LegendreSturm.
Import ListNotations.
Local Open Scope R_scope.
Local Notation L := legendre_value.

Definition second (n : nat) (x : R) : R := (2 * x * D n x - INR n * (INR n + 1) * L n x) / (1 - x * x).
Lemma second_spec n x : -1 < x < 1 -> is_derive (D n) x (second n x).
Proof.
  intros Hx. assert (X : 1 - x * x <> 0) by nra. pose proof (W_spec n x) as H.
  assert (E : is_derive (fun t => W n t / (1 - t * t)) x (second n x)).
  { auto_derive; [split; [eexists; exact H|split; [exact X|exact I]]|]. replace (Derive (fun x0 : R => W n x0) x) with (- (INR n * (INR n + 1)) * L n x) by (symmetry; apply is_derive_unique; exact H). unfold second, W. field. exact X. }
  apply (is_derive_ext_loc (fun t => W n t / (1 - t * t))); [|exact E].
  assert (O : 0 < Rmin (1 - x) (1 + x)) by (apply Rmin_pos; lra). exists (mkposreal _ O). intros y Hy. unfold ball in Hy; cbn in Hy; unfold AbsRing_ball, abs, minus, plus, opp in Hy; cbn in Hy.
  pose proof (Rmin_l (1 - x) (1 + x)). pose proof (Rmin_r (1 - x) (1 + x)). apply Rabs_def2 in Hy. change ((1 - y * y) * D n y / (1 - y * y) = D n y). field. nra.
Qed.

Section newton.
Variables (n : nat) (z x0 sg : R).
Let N2 := NN n * NN n.
Hypotheses (Z0 : 0 < z) (Zx : z < x0) (X1 : x0 < 1) (Zero : L n z = 0) (Sg : sg * sg = 1).
Hypotheses (Near : x0 - z <= z / (4 * N2)) (Edge : 9 / (4 * N2) <= 1 - x0 * x0) (Pos : forall t, z < t <= x0 -> 0 < sg * L n t).

Let A := INR n * (INR n + 1).
Let P (x : R) := sg * L n x.
Let P1 (x : R) := sg * D n x.
Let P2 (x : R) := sg * second n x.
Let Q (x : R) := (1 - x * x) * P1 x.
Let C := / (1 - x0 * x0).

Lemma scaled (f : R -> R) x d : is_derive f x d -> is_derive (fun t => sg * f t) x (sg * d).
Proof. intros H. apply (is_derive_scal f), H. Qed.
Lemma P_spec x : is_derive P x (P1 x).
Proof. apply scaled, D_spec. Qed.
Lemma P1_spec x : -1 < x < 1 -> is_derive P1 x (P2 x).
Proof. intros H. apply scaled, second_spec, H. Qed.
Lemma Q_spec x : is_derive Q x (- A * P x).
Proof.
  apply (is_derive_ext (fun t => sg * W n t)); [intros t; change (sg * ((1 - t * t) * D n t) = (1 - t * t) * (sg * D n t)); ring|]. replace (- A * P x) with (sg * (- (INR n * (INR n + 1)) * L n x)) by (unfold A, P; ring). apply scaled, W_spec.
Qed.
Lemma N2_pos : 1 / 4 <= N2.
Proof. unfold N2. pose proof (NN_pos n). nra. Qed.
Lemma A_bounds : 0 <= A /\ A <= N2.
Proof. unfold A, N2, NN. pose proof (pos_INR n). nra. Qed.
Lemma P_nonneg x : z <= x <= x0 -> 0 <= P x.
Proof. intros [[H|<-] Hx]; [left; apply Pos; lra|unfold P; rewrite Zero; lra]. Qed.
Lemma inside x : z <= x <= x0 -> -1 < x < 1 /\ 0 < 1 - x * x.
Proof. intros H. split; [lra|nra]. Qed.
Lemma Q_decreasing x y : z <= x -> x <= y -> y <= x0 -> Q y <= Q x.
Proof.
  intros Hx Hxy Hy. apply (decreasing Q (fun t => - A * P t) x y Hxy); intros t Ht; [apply Q_spec|]. pose proof (P_nonneg t ltac:(lra)). destruct A_bounds. nra.
Qed.
Lemma Qz_pos : 0 < Q z.
Proof.
  apply Rnot_le_lt. intros H. assert (P x0 <= P z).
  { apply (decreasing P P1 z x0); [lra|intros; apply P_spec|]. intros t Ht. pose proof (Q_decreasing z t ltac:(lra) ltac:(lra) ltac:(lra)) as Qt. destruct (inside t Ht) as (_ & I). unfold Q in Qt at 1. nra. }
  pose proof (Pos x0 ltac:(lra)). unfold P in H0. rewrite Zero in H0. lra.
Qed.
Lemma P_upper x : z <= x <= x0 -> P x * (1 - x * x) <= Q z * (x - z).
Proof.
  intros Hx. destruct (mean P P1 z x ltac:(lra)) as (c & Hc & E); [intros; apply P_spec|]. unfold P in E at 2. rewrite Zero, Rmult_0_r, Rminus_0_r in E. rewrite E.
  pose proof Qz_pos as Qp. destruct (inside x Hx) as (_ & Ix). destruct (inside c ltac:(lra)) as (_ & Ic). pose proof (Q_decreasing z c ltac:(lra) ltac:(lra) ltac:(lra)) as Qc. unfold Q in Qc at 1.
  assert (K : P1 c * (1 - x * x) <= Q z).
  { destruct (Rle_lt_dec 0 (P1 c)) as [Pp|Pn]; [|nra]. apply Rle_trans with ((1 - c * c) * P1 c); [|exact Qc]. rewrite (Rmult_comm (1 - c * c)). apply Rmult_le_compat_l; [exact Pp|nra]. }
  replace (P1 c * (x - z) * (1 - x * x)) with (P1 c * (1 - x * x) * (x - z)) by ring. apply Rmult_le_compat_r; lra.
Qed.
Lemma C_bounds : 1 <= C /\ C <= 4 * N2 / 9.
Proof.
  pose proof N2_pos as Np. destruct (inside x0 ltac:(lra)) as (_ & I). unfold C. split.
  - rewrite <- Rinv_1 at 1. apply Rinv_le_contravar; [exact I|nra].
  - replace (4 * N2 / 9) with (/ (9 / (4 * N2))) by (field; lra). apply Rinv_le_contravar; [apply Rdiv_lt_0_compat; lra|exact Edge].
Qed.
Lemma near x : z <= x <= x0 -> 4 * N2 * (x - z) <= z.
Proof.
  intros H. pose proof N2_pos as Np. apply Rle_trans with (4 * N2 * (z / (4 * N2))); [apply Rmult_le_compat_l; lra|]. right. field. lra.
Qed.
Lemma Q_lower x : z <= x <= x0 -> 35 / 36 * Q z <= Q x.
Proof.
  intros Hx. pose proof Qz_pos as Qp. pose proof N2_pos as Np. destruct A_bounds as (A0 & A1). destruct C_bounds as (C1 & C2). destruct (inside x Hx) as (_ & Ix). destruct (inside x0 ltac:(lra)) as (_ & Ix0).
  destruct (mean Q (fun t => - A * P t) z x ltac:(lra)) as (c & Hc & E); [intros; apply Q_spec|]. pose proof (near x Hx) as Nx. pose proof (P_nonneg c ltac:(lra)) as Pc.
  assert (U : P c <= C * (Q z * (x - z))).
  { pose proof (P_upper c ltac:(lra)) as U. destruct (inside c ltac:(lra)) as (_ & Ic). apply (Rmult_le_reg_r (1 - x0 * x0)); [exact Ix0|]. replace (C * (Q z * (x - z)) * (1 - x0 * x0)) with (Q z * (x - z)) by (unfold C; field; lra).
    apply Rle_trans with (P c * (1 - c * c)); [apply Rmult_le_compat_l; [exact Pc|nra]|]. apply Rle_trans with (Q z * (c - z)); [exact U|]. apply Rmult_le_compat_l; lra. }
  set (d := x - z) in *. assert (Dp : 0 <= d) by (unfold d; lra).
  assert (Ad : A * P c * d <= Q z / 36).
  { apply Rle_trans with (N2 * (4 * N2 / 9 * (Q z * d)) * d).
    - apply Rmult_le_compat_r; [exact Dp|]. apply Rmult_le_compat; try assumption. apply Rle_trans with (C * (Q z * d)); [exact U|]. apply Rmult_le_compat_r; [apply Rmult_le_pos; lra|exact C2].
    - replace (N2 * (4 * N2 / 9 * (Q z * d)) * d) with (4 * N2 * d * (4 * N2 * d) * (Q z / 36)) by field. assert (0 <= 4 * N2 * d) by (apply Rmult_le_pos; lra). assert (4 * N2 * d * (4 * N2 * d) <= 1) by nra. nra. }
  replace (- A * P c * d) with (- (A * P c * d)) in E by ring. lra.
Qed.
Lemma P1_pos x : z <= x <= x0 -> 0 < P1 x.
Proof.
  intros Hx. pose proof Qz_pos as Qp. pose proof (Q_lower x Hx) as Ql. destruct (inside x Hx) as (_ & Ix). apply (Rmult_lt_reg_l (1 - x * x)); [exact Ix|]. fold (Q x). lra.
Qed.
Lemma P2_value x : P2 x = (2 * x * P1 x - A * P x) / (1 - x * x).
Proof. unfold P2, second, P1, A, P, Rdiv. ring. Qed.
Lemma P2_nonneg x : z <= x <= x0 -> 0 <= P2 x.
Proof.
  intros Hx. rewrite P2_value. destruct (inside x Hx) as (_ & Ix). apply Rmult_le_pos; [|left; apply Rinv_0_lt_compat, Ix].
  pose proof (P_upper x Hx) as U. pose proof (Q_lower x Hx) as Ql. pose proof Qz_pos as Qp. pose proof (near x Hx) as Nx. destruct A_bounds as (A0 & A1). unfold Q in Ql at 2.
  apply (Rmult_le_reg_r (1 - x * x)); [exact Ix|]. rewrite Rmult_0_l. set (y := 1 - x * x) in *.
  assert (K1 : A * (P x * y) <= A * (Q z * (x - z))) by (apply Rmult_le_compat_l; assumption).
  assert (K2 : A * (x - z) <= z / 4) by (apply Rle_trans with (N2 * (x - z)); [apply Rmult_le_compat_r; lra|lra]).
  assert (K3 : A * (x - z) * Q z <= z / 4 * Q z) by (apply Rmult_le_compat_r; lra).
  assert (K4 : 2 * x * (35 / 36 * Q z) <= 2 * x * (y * P1 x)) by (apply Rmult_le_compat_l; lra).
  assert (K5 : z * Q z <= x * Q z) by (apply Rmult_le_compat_r; lra).
  assert (K6 : 0 < z * Q z) by (apply Rmult_lt_0_compat; lra). lra.
Qed.
Lemma P2_upper x : z <= x <= x0 -> P2 x <= 2 * C * P1 x.
Proof.
  intros Hx. rewrite P2_value. destruct (inside x Hx) as (_ & Ix). destruct (inside x0 ltac:(lra)) as (_ & I0). pose proof (P1_pos x Hx) as Pp. pose proof (P_nonneg x Hx) as Pn. destruct A_bounds as (A0 & _).
  apply Rle_trans with (2 * P1 x / (1 - x * x)).
  - unfold Rdiv. apply Rmult_le_compat_r; [left; apply Rinv_0_lt_compat, Ix|]. assert (0 <= A * P x) by (apply Rmult_le_pos; assumption). assert (x * P1 x <= 1 * P1 x) by (apply Rmult_le_compat_r; lra). lra.
  - replace (2 * C * P1 x) with (2 * P1 x * C) by ring. unfold Rdiv. apply Rmult_le_compat_l; [lra|]. unfold C. apply Rinv_le_contravar; [exact I0|nra].
Qed.
Lemma P1_increasing x y : z <= x -> x <= y -> y <= x0 -> P1 x <= P1 y.
Proof.
  intros Hx Hxy Hy. apply (increasing P1 P2 x y Hxy); intros t Ht; [apply P1_spec, inside; lra|apply P2_nonneg; lra].
Qed.

(** one step *)
Lemma step x : z <= x <= x0 -> let y := x + - L n x / legendre_derivative n x in z <= y /\ y <= x /\ y - z <= C * ((x - z) * (x - z)).
Proof.
  intros Hx y. destruct (inside x Hx) as (Bx & Ix). pose proof (P1_pos x Hx) as Pp. pose proof (P_nonneg x Hx) as Pn. destruct C_bounds as (C1 & _).
  assert (Ey : y = x - P x / P1 x).
  { unfold y. rewrite derivative_D by lra. unfold P, P1. assert (sg <> 0) by nra. assert (D n x <> 0) by (intros E; unfold P1 in Pp; rewrite E in Pp; lra). field. split; assumption. }
  pose (E := fun s => (s - z) * P1 s - P s).
  assert (DE : forall s, z <= s <= x -> is_derive E s ((s - z) * P2 s)).
  { intros s Hs. destruct (inside s ltac:(lra)) as (Bs & _). unfold E. auto_derive; [repeat split; [eexists; apply P1_spec, Bs|eexists; apply P_spec]|].
    replace (Derive (fun x1 : R => P1 x1) s) with (P2 s) by (symmetry; apply is_derive_unique, P1_spec, Bs). replace (Derive (fun x1 : R => P x1) s) with (P1 s) by (symmetry; apply is_derive_unique, P_spec). ring. }
  assert (E0 : E z = 0) by (unfold E, P; rewrite Zero; ring).
  assert (E1 : 0 <= E x). { rewrite <- E0. apply (increasing E (fun s => (s - z) * P2 s) z x); [lra|exact DE|]. intros s Hs. apply Rmult_le_pos; [lra|apply P2_nonneg; lra]. }
  assert (E2 : E x <= C * ((x - z) * (x - z)) * P1 x).
  { pose (H := fun s => C * ((s - z) * (s - z)) * P1 x - E s).
    assert (HH : H z <= H x).
    { apply (increasing H (fun s => 2 * C * (s - z) * P1 x - (s - z) * P2 s)); [lra| |].
      - intros s Hs. unfold H. apply (is_derive_minus (fun s => C * ((s - z) * (s - z)) * P1 x) E); [|apply DE, Hs]. auto_derive; [exact I|ring].
      - intros s Hs. pose proof (P2_upper s ltac:(lra)) as U. pose proof (P1_increasing s x ltac:(lra) ltac:(lra) ltac:(lra)) as In. assert (2 * C * P1 s <= 2 * C * P1 x) by (apply Rmult_le_compat_l; lra).
        replace (2 * C * (s - z) * P1 x - (s - z) * P2 s) with ((s - z) * (2 * C * P1 x - P2 s)) by ring. apply Rmult_le_pos; lra. }
    unfold H in HH. rewrite E0 in HH. replace ((z - z) * (z - z)) with 0 in HH by ring. lra. }
  assert (Eyz : y - z = E x / P1 x) by (rewrite Ey; unfold E; field; lra).
  assert (Py : 0 <= P x / P1 x) by (apply Rmult_le_pos; [exact Pn|left; apply Rinv_0_lt_compat, Pp]).
  repeat split.
  - assert (0 <= E x / P1 x) by (apply Rmult_le_pos; [exact E1|left; apply Rinv_0_lt_compat, Pp]). lra.
  - lra.
  - rewrite Eyz. apply (Rmult_le_reg_r (P1 x)); [exact Pp|]. unfold Rdiv. rewrite Rmult_assoc, Rinv_l by lra. lra.
Qed.

Lemma C_near x : z <= x <= x0 -> C * (x - z) <= 1 / 9.
Proof.
  intros Hx. destruct C_bounds as (C1 & C2). pose proof (near x Hx) as Nx. pose proof N2_pos. apply Rle_trans with (4 * N2 / 9 * (x - z)); [apply Rmult_le_compat_r; lra|]. lra.
Qed.

(** the whole search *)
Lemma search fuel : forall k x, (5 <= fuel + k)%nat -> (k <= 4)%nat -> z <= x <= x0 -> C * (x - z) <= (/ 9) ^ (2 ^ k) ->
  exists y, gauss_newton fuel n x (L n x) (legendre_derivative n x) = Some y /\ z <= y /\ y <= x /\ y - z <= N2 / 10 ^ 30.
Proof.
  induction fuel as [|fuel IH]; intros k x Hf Hk Hx Hc; [lia|]. cbn [gauss_newton].
  destruct (step x Hx) as (S1 & S2 & S3). cbv zeta. set (dx := - L n x / legendre_derivative n x) in *. destruct C_bounds as (C1 & C2). pose proof (C_near x Hx) as Cn.
  set (e := x - z) in *. assert (Ee : e = x - z) by reflexivity. assert (Ep : 0 <= e) by lra.
  assert (Cee : C * (e * e) <= e / 9). { replace (C * (e * e)) with (C * e * e) by ring. assert (C * e * e <= 1 / 9 * e) by (apply Rmult_le_compat_r; lra). lra. }
  assert (Dx : Rabs dx = - dx) by (apply Rabs_left1; lra).
  destruct (Rle_dec (Rabs dx) (/ 10 ^ 15)) as [Stop|Go].
  - exists (x + dx). repeat split; try assumption. rewrite Dx in Stop. set (u := / 10 ^ 15) in *. assert (Eu : 0 < u) by (apply Rinv_0_lt_compat; lra).
    assert (E1 : e <= 9 / 8 * u) by lra. apply Rle_trans with (C * (e * e)); [exact S3|]. pose proof N2_pos as Np.
    assert (ee : e * e <= 9 / 8 * u * (9 / 8 * u)) by (apply Rmult_le_compat; lra).
    apply Rle_trans with (4 * N2 / 9 * (9 / 8 * u * (9 / 8 * u))); [apply Rmult_le_compat; [lra|nra|exact C2|exact ee]|].
    replace (N2 / 10 ^ 30) with (N2 * (u * u)) by (unfold u; field). assert (0 < u * u) by nra. assert (0 < N2 * (u * u)) by (apply Rmult_lt_0_compat; lra). lra.
  - assert (Hk' : (k < 4)%nat).
    { destruct (Nat.eq_dec k 4) as [->|]; [exfalso|lia]. apply Go. rewrite Dx. assert (- dx <= e) by lra. assert (e <= C * e) by (rewrite <- (Rmult_1_l e) at 1; apply Rmult_le_compat_r; lra).
      assert ((/ 9) ^ (2 ^ 4) <= / 10 ^ 15) by (cbn [Nat.pow Nat.mul Nat.add]; rewrite pow_inv; apply Rinv_le_contravar; lra). lra. }
    destruct (IH (S k) (x + dx) ltac:(lia) ltac:(lia) ltac:(lra)) as (y & Ey & Y1 & Y2 & Y3).
    + change (2 ^ S k)%nat with (2 * 2 ^ k)%nat. replace (2 * 2 ^ k)%nat with (2 ^ k + 2 ^ k)%nat by lia. rewrite pow_add.
      apply Rle_trans with (C * (C * (e * e))); [apply Rmult_le_compat_l; lra|]. replace (C * (C * (e * e))) with (C * e * (C * e)) by ring. assert (0 <= C * e) by (apply Rmult_le_pos; lra). apply Rmult_le_compat; assumption.
    + exists y. repeat split; try assumption. lra.
Qed.

(** the weight at a point beside the zero *)
Let V (x : R) := 2 * (1 - x * x) / (Q x * Q x).
Lemma Q_sharp x : z <= x <= x0 -> (1 - C * (x - z) / 4) * Q z <= Q x.
Proof.
  intros Hx. pose proof Qz_pos as Qp. destruct A_bounds as (A0 & A1). destruct C_bounds as (C1 & C2). destruct (inside x0 ltac:(lra)) as (_ & Ix0). pose proof N2_pos as Np.
  destruct (mean Q (fun t => - A * P t) z x ltac:(lra)) as (c & Hc & E); [intros; apply Q_spec|]. pose proof (near x Hx) as Nx. pose proof (P_nonneg c ltac:(lra)) as Pc.
  assert (U : P c <= C * (Q z * (x - z))).
  { pose proof (P_upper c ltac:(lra)) as U. apply (Rmult_le_reg_r (1 - x0 * x0)); [exact Ix0|]. replace (C * (Q z * (x - z)) * (1 - x0 * x0)) with (Q z * (x - z)) by (unfold C; field; lra).
    apply Rle_trans with (P c * (1 - c * c)); [apply Rmult_le_compat_l; [exact Pc|nra]|]. apply Rle_trans with (Q z * (c - z)); [exact U|]. apply Rmult_le_compat_l; lra. }
  set (d := x - z) in *. assert (Ed : d = x - z) by reflexivity. assert (Dp : 0 <= d) by lra. assert (Ad : A * d <= 1 / 4) by (apply Rle_trans with (N2 * d); [apply Rmult_le_compat_r; lra|lra]).
  assert (A * d * P c <= 1 / 4 * (C * (Q z * d))) by (apply Rmult_le_compat; [apply Rmult_le_pos; lra|exact Pc|exact Ad|exact U]). lra.
Qed.
Lemma weight_close x : z <= x <= x0 -> 0 < V x /\ 0 < V z /\ Rabs (V x - V z) <= 2 * C * (x - z) * V z.
Proof.
  intros Hx. pose proof Qz_pos as Qp. pose proof (Q_sharp x Hx) as Qs. pose proof (Q_decreasing z x ltac:(lra) ltac:(lra) ltac:(lra)) as Qd. destruct C_bounds as (C1 & C2). pose proof (C_near x Hx) as Cn.
  destruct (inside x Hx) as (_ & Ix). destruct (inside z ltac:(lra)) as (_ & Iz). destruct (inside x0 ltac:(lra)) as (_ & I0). set (d := x - z) in *. assert (Ed : d = x - z) by reflexivity. assert (Dp : 0 <= d) by lra.
  assert (Cd : 0 <= C * d) by (apply Rmult_le_pos; lra). set (s := C * d / 4) in *. assert (Es : C * d = 4 * s) by (unfold s; field). assert (Sb : 0 <= s <= 1 / 36) by lra.
  assert (Qx : 0 < Q x) by (apply Rlt_le_trans with ((1 - s) * Q z); [apply Rmult_lt_0_compat; lra|exact Qs]).
  assert (Vz : 0 < V z) by (apply Rdiv_lt_0_compat; [lra|apply Rmult_lt_0_compat; exact Qp]). assert (Vx : 0 < V x) by (apply Rdiv_lt_0_compat; [lra|apply Rmult_lt_0_compat; exact Qx]).
  split; [exact Vx|]. split; [exact Vz|]. replace (2 * C * d) with (8 * s) by lra.
  assert (Up : V x <= (1 + 8 * s) * V z).
  { unfold V. apply (Rmult_le_reg_r (Q x * Q x)); [apply Rmult_lt_0_compat; exact Qx|]. replace (2 * (1 - x * x) / (Q x * Q x) * (Q x * Q x)) with (2 * (1 - x * x)) by (field; lra).
    apply Rle_trans with ((1 + 8 * s) * (2 * (1 - z * z) / (Q z * Q z)) * ((1 - s) * Q z * ((1 - s) * Q z))).
    - replace ((1 + 8 * s) * (2 * (1 - z * z) / (Q z * Q z)) * ((1 - s) * Q z * ((1 - s) * Q z))) with ((1 + 8 * s) * (1 - s) * (1 - s) * (2 * (1 - z * z))) by (field; lra).
      assert (1 <= (1 + 8 * s) * (1 - s) * (1 - s)) by nra. assert (x * x >= z * z) by nra. nra.
    - apply Rmult_le_compat_l; [apply Rmult_le_pos; [lra|left; exact Vz]|]. assert (0 <= (1 - s) * Q z) by (apply Rmult_le_pos; lra). apply Rmult_le_compat; assumption. }
  assert (Lo : (1 - 8 * s) * V z <= V x).
  { apply Rle_trans with (2 * (1 - x * x) / (Q z * Q z)).
    - unfold V. replace ((1 - 8 * s) * (2 * (1 - z * z) / (Q z * Q z))) with ((1 - 8 * s) * (2 * (1 - z * z)) * / (Q z * Q z)) by (unfold Rdiv; ring). unfold Rdiv. apply Rmult_le_compat_r; [left; apply Rinv_0_lt_compat, Rmult_lt_0_compat; exact Qp|].
      assert (K : 1 <= C * (1 - z * z)). { unfold C. apply (Rmult_le_reg_r (1 - x0 * x0)); [exact I0|]. replace (/ (1 - x0 * x0) * (1 - z * z) * (1 - x0 * x0)) with (1 - z * z) by (field; lra). nra. }
      assert (K2 : d * 1 <= d * (C * (1 - z * z))) by (apply Rmult_le_compat_l; assumption). replace (d * (C * (1 - z * z))) with (4 * s * (1 - z * z)) in K2 by (rewrite <- Es; ring). assert (x * x - z * z <= 2 * d) by (rewrite Ed; nra). lra.
    - unfold V, Rdiv. apply Rmult_le_compat_l; [lra|]. apply Rinv_le_contravar; [apply Rmult_lt_0_compat; exact Qx|]. apply Rmult_le_compat; lra. }
  apply Rabs_le. lra.
Qed.
Lemma weight_value x : z <= x <= x0 -> 2 / ((1 - x * x) * legendre_derivative n x * legendre_derivative n x) = V x.
Proof.
  intros Hx. destruct (inside x Hx) as (Bx & Ix). pose proof (P1_pos x Hx) as Pp. rewrite derivative_D by lra. unfold V, Q, P1. assert (D n x <> 0) by (intros E; unfold P1 in Pp; rewrite E in Pp; lra). assert (sg <> 0) by nra.
  transitivity (2 / ((1 - x * x) * D n x * D n x * (sg * sg))); [rewrite Sg, Rmult_1_r; reflexivity|]. field. repeat split; (assumption || lra).
Qed.
End newton.

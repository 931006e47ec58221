(** The distances of neighbouring zeros of Legendre polynomials, by the comparison argument of Sturm (for C103). *)
From Coq Require Import Reals List Arith Lia Lra.
From Coquelicot Require Import Coquelicot.
From Verif Require Import ElementModel QuadratureModel QuadPoly LegendreProofs LegendreZeros.
Import ListNotations.
Local Open Scope R_scope.
Local Notation L := legendre_value.

Definition W (n : nat) (x : R) : R := (1 - x * x) * D n x.
Definition NN (n : nat) : R := INR n + 1 / 2.
Lemma NN_pos n : 1 / 2 <= NN n.
Proof. unfold NN. pose proof (pos_INR n). lra. Qed.
Lemma W_spec n x : is_derive (W n) x (- (INR n * (INR n + 1)) * L n x).
Proof. apply ode. Qed.

(** the logarithmic derivative of sqrt(sin t) P(cos t) *)
Definition slope (n : nat) (t : R) : R := (cos t / 2 - W n (cos t) / L n (cos t)) / sin t.

Lemma L_cos n t : is_derive (fun t => L n (cos t)) t (- sin t * D n (cos t)).
Proof. apply (is_derive_comp (L n) cos t (D n (cos t)) (- sin t)); [apply D_spec|apply is_derive_cos]. Qed.
Lemma W_cos n t : is_derive (fun t => W n (cos t)) t (- sin t * (- (INR n * (INR n + 1)) * L n (cos t))).
Proof. apply (is_derive_comp (W n) cos t (- (INR n * (INR n + 1)) * L n (cos t)) (- sin t)); [apply W_spec|apply is_derive_cos]. Qed.

Lemma slope_spec n t : sin t <> 0 -> L n (cos t) <> 0 -> is_derive (slope n) t (- (NN n * NN n + / (4 * (sin t * sin t))) - slope n t * slope n t).
Proof.
  intros Hs Hl. unfold slope. set (f := fun t => L n (cos t)). set (g := fun t => W n (cos t)). pose proof (L_cos n t) as Hf. pose proof (W_cos n t) as Hg. fold f in Hf. fold g in Hg.
  assert (E : is_derive (fun t => (cos t / 2 - g t / f t) / sin t) t
    (((- sin t / 2 - ((- sin t * (- (INR n * (INR n + 1)) * L n (cos t))) * f t - g t * (- sin t * D n (cos t))) / (f t * f t)) * sin t - (cos t / 2 - g t / f t) * cos t) / (sin t * sin t))).
  { auto_derive.
    - split; [exists (- sin t * (- (INR n * (INR n + 1)) * L n (cos t))); exact Hg|]. split; [exists (- sin t * D n (cos t)); exact Hf|]. split; [exact Hl|]. split; [exact Hs|exact I].
    - replace (Derive (fun x : R => g x) t) with (- sin t * (- (INR n * (INR n + 1)) * L n (cos t))) by (symmetry; apply is_derive_unique; exact Hg).
      replace (Derive (fun x : R => f x) t) with (- sin t * D n (cos t)) by (symmetry; apply is_derive_unique; exact Hf). field. split; [exact Hl|exact Hs]. }
  match type of E with is_derive _ _ ?a => replace (- (NN n * NN n + / (4 * (sin t * sin t))) - (cos t / 2 - W n (cos t) / L n (cos t)) / sin t * ((cos t / 2 - W n (cos t) / L n (cos t)) / sin t)) with a; [exact E|] end.
  unfold f, g, W, NN. pose proof (sin2_cos2 t) as P. unfold Rsqr in P. set (s := sin t) in *. set (c := cos t) in *. set (l := L n c) in *. set (d := D n c) in *. 
  replace (/ (4 * (s * s))) with ((s * s + c * c) / (4 * (s * s))) by (rewrite P; field; exact Hs). replace (1 - c * c) with (s * s) by lra. field. split; [exact Hl|exact Hs].
Qed.

(** mean values *)
Lemma mean (F dF : R -> R) a b : a <= b -> (forall x, a <= x <= b -> is_derive F x (dF x)) -> exists c, a <= c <= b /\ F b - F a = dF c * (b - a).
Proof.
  intros L H. destruct (MVT_gen F a b dF) as (c & Hc & E).
  - intros x Hx. rewrite Rmin_left, Rmax_right in Hx by exact L. apply H. lra.
  - intros x Hx. rewrite Rmin_left, Rmax_right in Hx by exact L. apply derivable_continuous_pt. exists (dF x). apply is_derive_Reals, H. exact Hx.
  - rewrite Rmin_left, Rmax_right in Hc by exact L. exists c. split; assumption.
Qed.
Lemma decreasing (F dF : R -> R) a b : a <= b -> (forall x, a <= x <= b -> is_derive F x (dF x)) -> (forall x, a <= x <= b -> dF x <= 0) -> F b <= F a.
Proof. intros L H N. destruct (mean F dF a b L H) as (c & Hc & E). specialize (N c Hc). nra. Qed.
Lemma increasing (F dF : R -> R) a b : a <= b -> (forall x, a <= x <= b -> is_derive F x (dF x)) -> (forall x, a <= x <= b -> 0 <= dF x) -> F a <= F b.
Proof. intros L H N. destruct (mean F dF a b L H) as (c & Hc & E). specialize (N c Hc). nra. Qed.

Definition phase (n : nat) (t : R) : R := atan (slope n t / NN n).
Lemma phase_spec n t : sin t <> 0 -> L n (cos t) <> 0 -> is_derive (phase n) t (- NN n - NN n / (4 * (sin t * sin t) * (NN n * NN n + slope n t * slope n t))).
Proof.
  intros Hs Hl. pose proof (NN_pos n) as Np. pose proof (slope_spec n t Hs Hl) as Ds. set (q := slope n t) in *.
  assert (E : is_derive (phase n) t (/ (1 + (q / NN n) ^ 2) * ((- (NN n * NN n + / (4 * (sin t * sin t))) - q * q) / NN n))).
  { unfold phase. replace (/ (1 + (q / NN n) ^ 2) * ((- (NN n * NN n + / (4 * (sin t * sin t))) - q * q) / NN n)) with (scal ((- (NN n * NN n + / (4 * (sin t * sin t))) - q * q) / NN n) (/ (1 + (q / NN n) ^ 2))) by (unfold scal; cbn; unfold mult; cbn; ring).
    apply (is_derive_comp atan (fun t => slope n t / NN n) t).
    - apply is_derive_Reals, derivable_pt_lim_atan.
    - unfold Rdiv. apply (is_derive_ext (fun t => scal (/ NN n) (slope n t))); [intros; unfold scal; cbn; unfold mult; cbn; ring|].
      replace ((- (NN n * NN n + / (4 * (sin t * sin t))) - q * q) * / NN n) with (scal (/ NN n) (- (NN n * NN n + / (4 * (sin t * sin t))) - q * q)) by (unfold scal; cbn; unfold mult; cbn; ring). apply (is_derive_scal (slope n)). exact Ds. }
  match type of E with is_derive _ _ ?a => replace (- NN n - NN n / (4 * (sin t * sin t) * (NN n * NN n + q * q))) with a; [exact E|] end.
  assert (0 < NN n * NN n + q * q) by nra. field. repeat split; (exact Hs || lra).
Qed.

Section gap.
Variables (n : nat) (a b : R).
Hypotheses (Ha : 0 < a) (Hab : a < b) (Hb : b < PI) (Hn : forall t, a < t < b -> L n (cos t) <> 0).
Lemma sin_inside t : a <= t <= b -> 0 < sin t.
Proof. intros H. apply sin_gt_0; lra. Qed.
Lemma phase_bounds t : - (PI / 2) < phase n t < PI / 2.
Proof. unfold phase. destruct (atan_bound (slope n t / NN n)). lra. Qed.
Lemma phase_slope t : a < t < b -> let d := - NN n - NN n / (4 * (sin t * sin t) * (NN n * NN n + slope n t * slope n t)) in
  is_derive (phase n) t d /\ d <= - NN n /\ - NN n - / (4 * NN n * (sin t * sin t)) <= d.
Proof.
  intros H d. pose proof (sin_inside t ltac:(lra)) as S. pose proof (NN_pos n) as Np. assert (S2 : 0 < sin t * sin t) by nra. set (q := slope n t) in *. assert (Q : 0 <= q * q) by nra. split; [apply phase_spec; [lra|apply Hn, H]|].
  assert (P : 0 < 4 * (sin t * sin t) * (NN n * NN n + q * q)) by (apply Rmult_lt_0_compat; nra). split.
  - assert (0 < NN n / (4 * (sin t * sin t) * (NN n * NN n + q * q))) by (apply Rdiv_lt_0_compat; lra). unfold d. lra.
  - assert (NN n / (4 * (sin t * sin t) * (NN n * NN n + q * q)) <= / (4 * NN n * (sin t * sin t))); [|unfold d; lra].
    apply (Rmult_le_reg_r (4 * (sin t * sin t) * (NN n * NN n + q * q))); [exact P|]. unfold Rdiv. rewrite Rmult_assoc, Rinv_l by lra.
    replace (/ (4 * NN n * (sin t * sin t)) * (4 * (sin t * sin t) * (NN n * NN n + q * q))) with (NN n + q * q / NN n) by (field; split; lra).
    assert (0 <= q * q / NN n) by (apply Rmult_le_pos; [exact Q|left; apply Rinv_0_lt_compat; lra]). lra.
Qed.
Lemma gap_upper : NN n * (b - a) <= PI.
Proof.
  pose proof (NN_pos n) as Np. apply Rnot_lt_le. intros C. set (e := (NN n * (b - a) - PI) / (4 * NN n)). assert (E : 0 < e) by (apply Rdiv_lt_0_compat; lra).
  assert (Ee : NN n * e = (NN n * (b - a) - PI) / 4) by (unfold e; field; lra).
  assert (Eb : 4 * e <= b - a). { unfold e. pose proof PI_RGT_0. apply (Rmult_le_reg_l (NN n)); [lra|]. replace (NN n * (4 * ((NN n * (b - a) - PI) / (4 * NN n)))) with (NN n * (b - a) - PI) by (field; lra). lra. }
  destruct (mean (phase n) (fun t => - NN n - NN n / (4 * (sin t * sin t) * (NN n * NN n + slope n t * slope n t))) (a + e) (b - e)) as (c & Hc & Ec); [lra|intros x Hx; apply phase_slope; lra|].
  destruct (phase_slope c ltac:(lra)) as (_ & Hd & _). destruct (phase_bounds (a + e)), (phase_bounds (b - e)).
  set (dc := - NN n - _) in *. assert (dc * (b - e - (a + e)) <= - NN n * (b - e - (a + e))) by (apply Rmult_le_compat_r; lra). nra.
Qed.

Lemma near_zero z : -1 < z < 1 -> L n z = 0 -> exists del, 0 < del /\ forall x, x <> z -> Rabs (x - z) < del -> (1 - z * z) / 2 <= W n x / L n x * (x - z).
Proof.
  intros Hz Z. destruct (U_spec n z Z) as (PU & EU). pose proof (U_self n z) as Us. pose proof (D_simple n z Z) as Dn.
  assert (CU : continuity_pt (U n z) z).
  { destruct (Pol_derive n (U n z) (Pol_le _ _ _ (Nat.le_succ_diag_r n) PU)) as (g & _ & Dg). apply derivable_continuous_pt. exists (g z). apply is_derive_Reals, Dg. }
  assert (CW : continuity_pt (W n) z) by (apply derivable_continuous_pt; eexists; apply is_derive_Reals, W_spec).
  assert (C : continuity_pt (fun x => W n x / U n z x) z) by (apply (continuity_pt_div (W n) (U n z)); [exact CW|exact CU|rewrite Us; exact Dn]).
  assert (V : W n z / U n z z = 1 - z * z) by (rewrite Us; unfold W; field; exact Dn).
  destruct (C ((1 - z * z) / 2) ltac:(nra)) as (del & Hd & H). exists del. split; [exact Hd|]. intros x Ne Hx.
  assert (B : Rabs (W n x / U n z x - (1 - z * z)) < (1 - z * z) / 2).
  { rewrite <- V at 1. apply (H x). split; [split; [exact I|intros E; apply Ne; symmetry; exact E]|exact Hx]. }
  apply Rabs_def2 in B. assert (Nu : U n z x <> 0).
  { intros E. rewrite E in B. unfold Rdiv in B. rewrite Rinv_0, Rmult_0_r in B. nra. }
  rewrite EU. replace (W n x / ((x - z) * U n z x) * (x - z)) with (W n x / U n z x) by (field; split; [exact Nu|lra]). lra.
Qed.
Lemma cos_close s t : Rabs (cos t - cos s) <= Rabs (t - s).
Proof.
  assert (G : forall s t, s <= t -> Rabs (cos t - cos s) <= t - s).
  { intros s' t' Hst. destruct (mean cos (fun x => - sin x) s' t' Hst) as (c & _ & E); [intros x _; apply is_derive_cos|]. rewrite E, Rabs_mult, (Rabs_pos_eq (t' - s')) by lra.
    rewrite <- (Rmult_1_l (t' - s')) at 2. apply Rmult_le_compat_r; [lra|]. rewrite Rabs_Ropp. destruct (SIN_bound c). apply Rabs_le. lra. }
  destruct (Rle_lt_dec s t) as [H|H].
  - rewrite (Rabs_pos_eq (t - s)) by lra. apply G, H.
  - rewrite Rabs_minus_sym, (Rabs_minus_sym t). rewrite (Rabs_pos_eq (s - t)) by lra. apply G. lra.
Qed.
Lemma cos_inside t : 0 < t < PI -> -1 < cos t < 1.
Proof.
  intros H. pose proof PI_RGT_0. split.
  - rewrite <- cos_PI. apply cos_decreasing_1; lra.
  - rewrite <- cos_0. apply cos_decreasing_1; lra.
Qed.
Hypotheses (Za : L n (cos a) = 0) (Zb : L n (cos b) = 0).
Lemma slope_high M : 0 < M -> exists e, 0 < e /\ forall t, a < t < b -> t < a + e -> M <= slope n t.
Proof.
  intros HM. set (z := cos a). pose proof (cos_inside a ltac:(lra)) as Hz. fold z in Hz. destruct (near_zero z Hz Za) as (del & Hd & H).
  set (r := (1 - z * z) / 2). assert (Hr : 0 < r) by (unfold r; nra). exists (Rmin del (r / (M + 1))).
  assert (Hq : 0 < r / (M + 1)) by (apply Rdiv_lt_0_compat; lra). split; [apply Rmin_pos; assumption|]. intros t Ht Hte.
  pose proof (Rmin_l del (r / (M + 1))). pose proof (Rmin_r del (r / (M + 1))). pose proof (cos_close a t) as Hc. fold z in Hc. rewrite (Rabs_pos_eq (t - a)) in Hc by lra.
  assert (Hlt : cos t < z) by (apply cos_decreasing_1; lra). specialize (H (cos t) ltac:(lra) ltac:(lra)). fold r in H. rewrite Rabs_left in Hc by lra. set (x := cos t) in *.
  pose proof (sin_inside t ltac:(lra)) as Hs. destruct (SIN_bound t) as [_ Hs1]. destruct (COS_bound t) as [Hx _]. fold x in Hx. unfold slope. fold x.
  assert (K : M + 1 <= - (W n x / L n x)).
  { apply (Rmult_le_reg_r (z - x)); [lra|]. assert ((M + 1) * (z - x) <= r); [|lra]. apply Rle_trans with ((M + 1) * (r / (M + 1))); [apply Rmult_le_compat_l; lra|]. right. field. lra. }
  apply (Rmult_le_reg_r (sin t)); [exact Hs|]. unfold Rdiv at 1. rewrite Rmult_assoc, Rinv_l, Rmult_1_r by lra. nra.
Qed.
Lemma slope_low M : 0 < M -> exists e, 0 < e /\ forall t, a < t < b -> b - e < t -> slope n t <= - M.
Proof.
  intros HM. set (z := cos b). pose proof (cos_inside b ltac:(lra)) as Hz. fold z in Hz. destruct (near_zero z Hz Zb) as (del & Hd & H).
  set (r := (1 - z * z) / 2). assert (Hr : 0 < r) by (unfold r; nra). exists (Rmin del (r / (M + 1))).
  assert (Hq : 0 < r / (M + 1)) by (apply Rdiv_lt_0_compat; lra). split; [apply Rmin_pos; assumption|]. intros t Ht Hte.
  pose proof (Rmin_l del (r / (M + 1))). pose proof (Rmin_r del (r / (M + 1))). pose proof (cos_close b t) as Hc. fold z in Hc. rewrite (Rabs_left (t - b)) in Hc by lra.
  assert (Hlt : z < cos t) by (apply cos_decreasing_1; lra). specialize (H (cos t) ltac:(lra) ltac:(lra)). fold r in H. rewrite Rabs_pos_eq in Hc by lra. set (x := cos t) in *.
  pose proof (sin_inside t ltac:(lra)) as Hs. destruct (SIN_bound t) as [_ Hs1]. destruct (COS_bound t) as [_ Hx]. fold x in Hx. unfold slope. fold x.
  assert (K : M + 1 <= W n x / L n x).
  { apply (Rmult_le_reg_r (x - z)); [lra|]. assert ((M + 1) * (x - z) <= r); [|lra]. apply Rle_trans with ((M + 1) * (r / (M + 1))); [apply Rmult_le_compat_l; lra|]. right. field. lra. }
  apply (Rmult_le_reg_r (sin t)); [exact Hs|]. unfold Rdiv at 1. rewrite Rmult_assoc, Rinv_l, Rmult_1_r by lra. nra.
Qed.
End gap.

Definition cot (t : R) : R := cos t / sin t.
Lemma cot_spec t : sin t <> 0 -> is_derive cot t (- / (sin t * sin t)).
Proof.
  intros H. unfold cot. auto_derive; [exact H|]. pose proof (sin2_cos2 t) as P. unfold Rsqr in P. replace (- / (sin t * sin t)) with (- (sin t * sin t + cos t * cos t) / (sin t * sin t)) by (rewrite P; field; exact H). field. exact H.
Qed.
Lemma cot_decreasing s t : 0 < s -> s <= t -> t < PI -> cot t <= cot s.
Proof.
  intros Hs Hst Ht. assert (S : forall x, s <= x <= t -> 0 < sin x) by (intros; apply sin_gt_0; lra).
  apply (decreasing cot (fun x => - / (sin x * sin x)) s t Hst); intros x Hx; specialize (S x Hx); [apply cot_spec; lra|].
  assert (0 < / (sin x * sin x)) by (apply Rinv_0_lt_compat; nra). lra.
Qed.
Lemma cot_opp t : sin t <> 0 -> cot (PI - t) = - cot t.
Proof. intros H. unfold cot. rewrite sin_PI_x. replace (PI - t) with (- (t - PI)) by ring. rewrite cos_neg. replace (t - PI) with (- (PI - t)) by ring. rewrite cos_neg, Rtrigo_facts.cos_pi_minus. field. exact H. Qed.

Lemma gap_lower n a b : 0 < a -> a < b -> b < PI -> (forall t, a < t < b -> L n (cos t) <> 0) -> L n (cos a) = 0 -> L n (cos b) = 0 ->
  PI <= NN n * (b - a) + (cot a - cot b) / (4 * NN n).
Proof.
  intros Ha Hab Hb Hn Za Zb. pose proof (NN_pos n) as Np. pose proof PI_RGT_0 as Pp. apply Rnot_lt_le. intros C. set (X := NN n * (b - a) + (cot a - cot b) / (4 * NN n)) in *.
  pose proof (cot_decreasing a b Ha (Rlt_le _ _ Hab) Hb) as Hcot.
  assert (Xp : 0 < X). { unfold X. assert (0 <= (cot a - cot b) / (4 * NN n)) by (apply Rmult_le_pos; [lra|left; apply Rinv_0_lt_compat; lra]). nra. }
  set (e := (PI - X) / 4). assert (He : 0 < e < PI / 2) by (unfold e; lra). set (M := NN n * tan (PI / 2 - e)).
  assert (HM : 0 < M) by (apply Rmult_lt_0_compat; [lra|]; apply tan_gt_0; lra).
  assert (EM : atan (M / NN n) = PI / 2 - e). { unfold M. replace (NN n * tan (PI / 2 - e) / NN n) with (tan (PI / 2 - e)) by (field; lra). apply atan_tan. lra. }
  destruct (slope_high n a b Ha Hab Hb Za M HM) as (ea & Ea & HA). destruct (slope_low n a b Ha Hab Hb Zb M HM) as (eb & Eb & HB).
  set (al := a + Rmin (ea / 2) ((b - a) / 3)). set (be := b - Rmin (eb / 2) ((b - a) / 3)).
  assert (A1 : a < al < a + ea /\ al <= a + (b - a) / 3).
  { unfold al. pose proof (Rmin_l (ea / 2) ((b - a) / 3)). pose proof (Rmin_r (ea / 2) ((b - a) / 3)). assert (0 < Rmin (ea / 2) ((b - a) / 3)) by (apply Rmin_pos; lra). lra. }
  assert (B1 : b - eb < be < b /\ b - (b - a) / 3 <= be).
  { unfold be. pose proof (Rmin_l (eb / 2) ((b - a) / 3)). pose proof (Rmin_r (eb / 2) ((b - a) / 3)). assert (0 < Rmin (eb / 2) ((b - a) / 3)) by (apply Rmin_pos; lra). lra. }
  specialize (HA al ltac:(lra) ltac:(lra)). specialize (HB be ltac:(lra) ltac:(lra)).
  assert (mono : forall u v, u <= v -> atan (u / NN n) <= atan (v / NN n)).
  { intros u v [H| ->]; [|lra]. left. apply atan_increasing. unfold Rdiv. apply Rmult_lt_compat_r; [apply Rinv_0_lt_compat; lra|exact H]. }
  assert (FA : PI / 2 - e <= phase n al) by (rewrite <- EM; apply mono, HA).
  assert (FB : phase n be <= - (PI / 2 - e)). { rewrite <- EM, <- atan_opp. replace (- (M / NN n)) with (- M / NN n) by (unfold Rdiv; ring). apply mono, HB. }
  pose (G := fun t => phase n t + NN n * t - cot t / (4 * NN n)).
  assert (IG : G al <= G be).
  { apply (increasing G (fun t => (- NN n - NN n / (4 * (sin t * sin t) * (NN n * NN n + slope n t * slope n t))) + NN n - - / (sin t * sin t) / (4 * NN n))); [lra| |].
    - intros x Hx. destruct (phase_slope n a b Ha Hb Hn x ltac:(lra)) as (Dp & _). pose proof (sin_inside a b Ha Hb x ltac:(lra)) as Sx. unfold G.
      apply (is_derive_minus (fun t => phase n t + NN n * t) (fun t => cot t / (4 * NN n))).
      + apply (is_derive_plus (phase n) (fun t => NN n * t)); [exact Dp|]. auto_derive; [exact I|ring].
      + unfold Rdiv. apply (is_derive_ext (fun t => scal (/ (4 * NN n)) (cot t))); [intros; unfold scal; cbn; unfold mult; cbn; ring|].
        replace (- / (sin x * sin x) * / (4 * NN n)) with (scal (/ (4 * NN n)) (- / (sin x * sin x))) by (unfold scal; cbn; unfold mult; cbn; ring). apply (is_derive_scal cot), cot_spec. lra.
    - intros x Hx. destruct (phase_slope n a b Ha Hb Hn x ltac:(lra)) as (_ & _ & Dp). cbv zeta in Dp. pose proof (sin_inside a b Ha Hb x ltac:(lra)) as Sx.
      replace (- / (sin x * sin x) / (4 * NN n)) with (- / (4 * NN n * (sin x * sin x))) by (field; split; lra). lra. }
  unfold G in IG. pose proof (cot_decreasing a al Ha ltac:(lra) ltac:(lra)) as C1. pose proof (cot_decreasing be b ltac:(lra) ltac:(lra) Hb) as C2.
  assert (K : cot al / (4 * NN n) - cot be / (4 * NN n) <= (cot a - cot b) / (4 * NN n)).
  { unfold Rdiv. rewrite <- Rmult_minus_distr_r. apply Rmult_le_compat_r; [left; apply Rinv_0_lt_compat; lra|lra]. }
  assert (Nl : NN n * (be - al) <= NN n * (b - a)) by (apply Rmult_le_compat_l; lra). assert (Ef : X = PI - 4 * e) by (unfold e; field). unfold X in Ef at 1. lra.
Qed.

(** C75: physics of the materials: Lame parameters, the undeformed state, frame indifference, non-negative energies. *)
From Coq Require Import Reals List Arith Lia Lra Psatz Bool FunctionalExtensionality.
From Verif Require Import MaterialModel PropMaterial.
Import ListNotations.
Open Scope R_scope.
Local Notation vec := (nat -> R).
Local Notation mat := (nat -> nat -> R).

(** * Lame parameters *)
(** C75: the Lame parameters belong to the given Young's modulus and Poisson's ratio: a linear elastic bar stretched by [e] and contracting by the Poisson ratio
    in the other directions carries the stress [young * e] along its axis and none across it. *)
Theorem C75_lame young poisson e : 1 + poisson <> 0 -> 1 - 2 * poisson <> 0 ->
  let (mu, lambda) := lame_from_young_poisson young poisson in
  let F := fun i j : nat => if (i =? j)%nat then (if (i =? 0)%nat then 1 + e else 1 - poisson * e) else 0 in
  (forall i j, (i < 3)%nat -> (j < 3)%nat -> le_stress 3 mu lambda F i j = if ((i =? 0) && (j =? 0))%nat then young * e else 0) /\
  (young <> 0 -> poisson = lambda / (2 * (lambda + mu)) /\ young = mu * (3 * lambda + 2 * mu) / (lambda + mu)).
Proof.
  intros H1 H2. cbn [lame_from_young_poisson]. unfold lame_from_young_poisson. cbv zeta. split.
  - intros i j Hi Hj. unfold le_stress, madd, mscale, infinitesimal_strain, msub, symmetric_part, eye, trace.
    destruct i as [|[|[|?]]], j as [|[|[|?]]]; try lia; cbn; field; auto.
  - intros Hy. assert (S : 2 * (1/2 * young / (1 + poisson)) * poisson / (1 - 2 * poisson) + 1/2 * young / (1 + poisson) = young / (2 * (1 + poisson) * (1 - 2 * poisson))) by (field; auto).
    rewrite S. split; field; repeat split; auto.
Qed.
Print Assumptions C75_lame.

Lemma nh_formula_alt d mu lambda F : d = 2%nat \/ d = 3%nat ->
  nh_formula d mu lambda F = mu / 2 * (mdot d F F - INR d - 2 * ln (determinant d F)) + 1/2 * lambda * (ln (determinant d F)) ^ 2.
Proof. intros Hd. unfold nh_formula. cbv zeta. generalize (ln (determinant d F)). intros l. destruct Hd as [-> | ->]; unfold mdot, trace, msub, eye; cbn; field. Qed.
(** * the undeformed state *)
Lemma green_eye d i j : (i < d)%nat -> (j < d)%nat -> green_strain d eye i j = 0.
Proof.
  intros Hi Hj. unfold green_strain, mscale, msub, mmul, transpose, eye. rewrite (summ_ext d _ (fun k => if (k =? i)%nat then (if (k =? j)%nat then 1 else 0) else 0)).
  2: { intros k _. destruct (k =? i)%nat, (k =? j)%nat; ring. }
  rewrite (summ_delta d i (fun k => if (k =? j)%nat then 1 else 0)) by exact Hi. destruct (i =? j)%nat; field.
Qed.
Lemma strain_eye i j : infinitesimal_strain eye i j = 0.
Proof. unfold infinitesimal_strain, msub, symmetric_part, eye. rewrite (Nat.eqb_sym j i). destruct (i =? j)%nat; field. Qed.
Lemma zero_energy d (E : mat) : (forall i j, (i < d)%nat -> (j < d)%nat -> E i j = 0) -> mdot d E E = 0 /\ trace d E = 0.
Proof.
  intros H. split.
  - unfold mdot. rewrite (summ_ext d _ (fun _ => 0)); [apply summ_zero|]. intros j Hj. rewrite (summ_ext d _ (fun _ => 0)); [apply summ_zero|]. intros i Hi. rewrite H by assumption. ring.
  - unfold trace. rewrite (summ_ext d _ (fun _ => 0)); [apply summ_zero|]. intros i Hi. apply H; assumption.
Qed.
(** C75: without deformation there is neither energy nor stress *)
Theorem C75_undeformed d mu lambda :
  le_energy d mu lambda eye = 0 /\ stvk_energy d mu lambda eye = 0 /\
  (forall i j, (i < d)%nat -> (j < d)%nat -> le_stress d mu lambda eye i j = 0 /\ stvk_stress d mu lambda eye i j = 0) /\
  (d = 2%nat \/ d = 3%nat -> nh_energy d mu lambda eye = Some 0) /\
  (d = 1%nat \/ d = 2%nat \/ d = 3%nat -> exists P, nh_stress d mu lambda eye = Some P /\ forall i j, (i < d)%nat -> (j < d)%nat -> P i j = 0).
Proof.
  destruct (zero_energy d (infinitesimal_strain eye)) as (Z1 & Z2); [intros; apply strain_eye|].
  destruct (zero_energy d (green_strain d eye)) as (Z3 & Z4); [apply green_eye|].
  split; [unfold le_energy; cbv zeta; rewrite Z1, Z2; ring|]. split; [unfold stvk_energy; cbv zeta; rewrite Z3, Z4; ring|]. split; [|split].
  - intros i j Hi Hj. split.
    + unfold le_stress, madd, mscale. cbv zeta. rewrite Z2, strain_eye. destruct (i =? j)%nat; ring.
    + unfold stvk_stress, madd, mscale. cbv zeta. rewrite Z4. unfold mmul. rewrite (summ_ext d _ (fun _ => 0)); [rewrite summ_zero; ring|]. intros k Hk. rewrite green_eye by assumption. ring.
  - intros Hd. assert (D : determinant d eye = 1) by (destruct Hd as [-> | ->]; unfold determinant, eye; cbn; ring). rewrite nh_energy_ok by exact Hd. rewrite D. destruct (Rlt_dec 0 1); [|lra]. f_equal.
    rewrite nh_formula_alt by exact Hd. rewrite D, ln_1. destruct Hd as [-> | ->]; unfold mdot, eye; cbn; field.
  - intros Hd. assert (D : determinant d eye = 1) by (destruct Hd as [-> | [-> | ->]]; unfold determinant, eye; cbn; ring).
    exists (nh_P d mu lambda eye). split; [apply nh_stress_ok; rewrite D; lra|]. intros i j Hi Hj. unfold nh_P. rewrite D, ln_1.
    destruct Hd as [-> | [-> | ->]]; destruct i as [|[|[|?]]]; try lia; destruct j as [|[|[|?]]]; try lia; unfold adjugate, eye; cbn; field.
Qed.
Print Assumptions C75_undeformed.

(** * frame indifference *)
(** [Q] is orthogonal *)
Definition orthogonal (d : nat) (Q : mat) : Prop := forall i j, (i < d)%nat -> (j < d)%nat -> summ d (fun k => Q k i * Q k j) = if (i =? j)%nat then 1 else 0.
Definition rotation (d : nat) (Q : mat) : Prop := orthogonal d Q /\ determinant d Q = 1.
Definition rotated (d : nat) (Q F : mat) : mat := fun i j => summ d (fun k => Q i k * F k j).
Lemma rotated_gram d Q F i j : orthogonal d Q -> summ d (fun k => rotated d Q F k i * rotated d Q F k j) = summ d (fun k => F k i * F k j).
Proof.
  intros Ho. unfold rotated.
  rewrite (summ_ext d _ (fun k => summ d (fun p => summ d (fun q => F p i * F q j * (Q k p * Q k q))))).
  2: { intros k _. rewrite summ_dist. apply summ_ext. intros p _. apply summ_ext. intros q _. ring. }
  rewrite summ_swap. apply summ_ext. intros p Hp. rewrite summ_swap.
  rewrite (summ_ext d _ (fun q => if (q =? p)%nat then F p i * F q j else 0)); [apply (summ_delta d p (fun q => F p i * F q j)), Hp|].
  intros q Hq. rewrite summ_l, Ho by assumption. rewrite (Nat.eqb_sym q p). destruct (p =? q)%nat; ring.
Qed.
Lemma rotated_green d Q F : orthogonal d Q -> green_strain d (rotated d Q F) = green_strain d F.
Proof. intros Ho. apply functional_extensionality. intros i. apply functional_extensionality. intros j. unfold green_strain, mscale, msub, mmul, transpose. rewrite rotated_gram by exact Ho. reflexivity. Qed.
Lemma rotated_mmul d Q A B i j : mmul d (rotated d Q A) B i j = summ d (fun k => Q i k * mmul d A B k j).
Proof.
  unfold mmul, rotated. rewrite (summ_ext d _ (fun k => summ d (fun p => Q i p * (A p k * B k j)))) by (intros; rewrite <- summ_r; apply summ_ext; intros; ring).
  rewrite summ_swap. apply summ_ext. intros p _. rewrite summ_l. reflexivity.
Qed.
(** C75: St. Venant-Kirchhoff energies do not change under rotations of space after the deformation, and the stress rotates along. *)
Theorem C75_objective_stvk d mu lambda Q F : orthogonal d Q ->
  stvk_energy d mu lambda (rotated d Q F) = stvk_energy d mu lambda F /\
  forall i j, stvk_stress d mu lambda (rotated d Q F) i j = rotated d Q (stvk_stress d mu lambda F) i j.
Proof.
  intros Ho. split; [unfold stvk_energy; rewrite rotated_green by exact Ho; reflexivity|]. intros i j. unfold stvk_stress. rewrite rotated_green by exact Ho. unfold madd, mscale. cbv zeta.
  rewrite rotated_mmul. unfold rotated. rewrite (summ_ext d (fun k => Q i k * (_ + _)) (fun k => Q i k * mmul d F (green_strain d F) k j * 2 * mu + Q i k * F k j * lambda * trace d (green_strain d F))) by (intros; ring).
  rewrite summ_plus. rewrite !summ_r. reflexivity.
Qed.
Print Assumptions C75_objective_stvk.

Lemma rotated_det d Q F : physical d -> determinant d (rotated d Q F) = determinant d Q * determinant d F.
Proof. intros [-> | [-> | ->]]; unfold determinant, rotated; cbn; ring. Qed.
Lemma rotated_mdot d Q F : orthogonal d Q -> mdot d (rotated d Q F) (rotated d Q F) = mdot d F F.
Proof. intros Ho. unfold mdot. apply summ_ext. intros j _. apply (rotated_gram d Q F j j Ho). Qed.
(** the cofactors of a rotation are its entries *)
Lemma adjugate_inverse d Q p j : physical d -> (p < d)%nat -> (j < d)%nat -> summ d (fun k => Q p k * adjugate d Q k j) = if (p =? j)%nat then determinant d Q else 0.
Proof. intros [-> | [-> | ->]] Hp Hj; destruct p as [|[|[|?]]]; try lia; destruct j as [|[|[|?]]]; try lia; unfold determinant, adjugate; cbn; ring. Qed.
Lemma rotation_cofactor d Q i j : physical d -> rotation d Q -> (i < d)%nat -> (j < d)%nat -> adjugate d Q j i = Q i j.
Proof.
  intros Hp (Ho & D) Hi Hj.
  assert (E : summ d (fun p => Q p j * summ d (fun k => Q p k * adjugate d Q k i)) = Q i j).
  { rewrite (summ_ext d _ (fun p => if (p =? i)%nat then Q p j else 0)); [apply (summ_delta d i (fun p => Q p j)), Hi|]. intros p Hp'. rewrite adjugate_inverse by assumption. rewrite D. destruct (p =? i)%nat; ring. }
  rewrite <- E. rewrite (summ_ext d _ (fun p => summ d (fun k => adjugate d Q k i * (Q p k * Q p j)))) by (intros; rewrite <- summ_l; apply summ_ext; intros; ring).
  rewrite summ_swap. rewrite (summ_ext d _ (fun k => if (k =? j)%nat then adjugate d Q k i else 0)); [symmetry; apply (summ_delta d j (fun k => adjugate d Q k i)), Hj|].
  intros k Hk. rewrite summ_l, Ho by assumption. destruct (k =? j)%nat; ring.
Qed.
Lemma rotated_adjugate d Q F i j : physical d -> (i < d)%nat -> (j < d)%nat -> adjugate d (rotated d Q F) j i = summ d (fun k => adjugate d F j k * adjugate d Q k i).
Proof. intros [-> | [-> | ->]] Hi Hj; destruct i as [|[|[|?]]]; try lia; destruct j as [|[|[|?]]]; try lia; unfold adjugate, rotated; cbn; ring. Qed.
(** C75: the same for Neo-Hookean materials, whether or not the deformation is admissible *)
Theorem C75_objective_nh d mu lambda Q F : rotation d Q ->
  (d = 2%nat \/ d = 3%nat -> nh_energy d mu lambda (rotated d Q F) = nh_energy d mu lambda F) /\
  (d = 1%nat \/ d = 2%nat \/ d = 3%nat -> match nh_stress d mu lambda F, nh_stress d mu lambda (rotated d Q F) with
    | Some P, Some P' => forall i j, (i < d)%nat -> (j < d)%nat -> P' i j = rotated d Q P i j
    | None, None => True
    | _, _ => False
    end).
Proof.
  intros HQ. pose proof HQ as (Ho & D). split.
  - intros Hd. rewrite !nh_energy_ok by exact Hd. rewrite rotated_det by (unfold physical; tauto). rewrite D, Rmult_1_l. destruct (Rlt_dec 0 (determinant d F)); [|reflexivity].
    rewrite !nh_formula_alt by exact Hd. rewrite rotated_det by (unfold physical; tauto). rewrite D, Rmult_1_l, rotated_mdot by exact Ho. reflexivity.
  - intros Hd. assert (E : determinant d (rotated d Q F) = determinant d F) by (rewrite rotated_det by exact Hd; rewrite D; ring).
    destruct (Rlt_dec 0 (determinant d F)) as [L|L].
    + rewrite !nh_stress_ok by (rewrite ?E; exact L). intros i j Hi Hj. unfold nh_P. rewrite E, rotated_adjugate by assumption.
      rewrite (summ_ext d _ (fun k => Q i k * adjugate d F j k)) by (intros; rewrite (rotation_cofactor d Q i k) by assumption; ring).
      unfold rotated. rewrite (summ_ext d (fun k => Q i k * (_ + _)) (fun k => Q i k * adjugate d F j k * (/ determinant d F * (- mu + lambda * ln (determinant d F))) + Q i k * F k j * mu)) by (intros; unfold Rdiv; ring).
      rewrite summ_plus, !summ_r. unfold Rdiv. ring.
    + unfold nh_stress. rewrite E. destruct (Rle_dec (determinant d F) 0); [exact I|lra].
Qed.
Print Assumptions C75_objective_nh.
(** C75 refuted for linear elasticity: a quarter turn of the plane is charged energy. *)
Theorem C75_objective_linear_refuted : exists Q, rotation 2 Q /\ le_energy 2 1 1 (rotated 2 Q eye) <> le_energy 2 1 1 eye.
Proof.
  exists (fun i j => nth j (nth i [[0; -1]; [1; 0]] []) 0). split.
  - split; [|unfold determinant; cbn; ring]. intros i j Hi Hj. destruct i as [|[|?]]; try lia; destruct j as [|[|?]]; try lia; cbn; ring.
  - unfold le_energy, mdot, trace, infinitesimal_strain, msub, symmetric_part, rotated, eye. cbn. lra.
Qed.
Print Assumptions C75_objective_linear_refuted.

(** * energies are not negative *)
Lemma summ_nonneg n f : (forall k, (k < n)%nat -> 0 <= f k) -> 0 <= summ n f.
Proof. induction n as [|n IH]; intros H; cbn; [lra|]. pose proof (IH ltac:(intros; apply H; lia)). pose proof (H n ltac:(lia)). lra. Qed.
Lemma summ_nonneg_zero n f : (forall k, (k < n)%nat -> 0 <= f k) -> summ n f = 0 -> forall k, (k < n)%nat -> f k = 0.
Proof.
  induction n as [|n IH]; intros H E k Hk; [lia|]. cbn in E. pose proof (summ_nonneg n f ltac:(intros; apply H; lia)). pose proof (H n ltac:(lia)).
  destruct (Nat.eq_dec k n) as [->|]; [lra|]. apply IH; [intros; apply H; lia|lra|lia].
Qed.
Lemma mdot_nonneg d E : 0 <= mdot d E E.
Proof. unfold mdot. apply summ_nonneg. intros j _. apply summ_nonneg. intros i _. nra. Qed.
Lemma mdot_zero d E : mdot d E E = 0 -> forall i j, (i < d)%nat -> (j < d)%nat -> E i j = 0.
Proof.
  intros H i j Hi Hj. unfold mdot in H. pose proof (summ_nonneg_zero d _ (fun j _ => summ_nonneg d (fun i => E i j * E i j) (fun i _ => Rle_0_sqr (E i j))) H j Hj) as K.
  cbv beta in K. pose proof (summ_nonneg_zero d _ (fun i _ => Rle_0_sqr (E i j)) K i Hi) as Z. unfold Rsqr in Z. nra.
Qed.
Lemma quadratic_nonneg d mu lambda E : 0 <= mu -> 0 <= lambda -> 0 <= mu * mdot d E E + 1/2 * lambda * (trace d E) ^ 2.
Proof. intros Hm Hl. pose proof (mdot_nonneg d E). pose proof (Rle_0_sqr (trace d E)). unfold Rsqr in *. nra. Qed.
Lemma quadratic_zero d mu lambda E : 0 < mu -> 0 <= lambda -> mu * mdot d E E + 1/2 * lambda * (trace d E) ^ 2 = 0 -> mdot d E E = 0.
Proof. intros Hm Hl E0. pose proof (mdot_nonneg d E). pose proof (Rle_0_sqr (trace d E)). unfold Rsqr in *. nra. Qed.
Lemma ln_le_minus x : 0 < x -> ln x <= x - 1.
Proof. intros Hx. pose proof (exp_ineq1_le (ln x)). rewrite exp_ln in H by exact Hx. lra. Qed.
Lemma ln_half x : 0 < x -> 2 * ln x = ln (x * x).
Proof. intros Hx. rewrite ln_mult by assumption. ring. Qed.
(** Hadamard: the logarithm of the determinant *)
Lemma ln_det_bound d F : d = 2%nat \/ d = 3%nat -> 0 < determinant d F -> 2 * ln (determinant d F) <= mdot d F F - INR d.
Proof.
  intros Hd P. destruct Hd as [-> | ->].
  - pose proof (ln_le_minus _ P) as L. assert (2 * determinant 2 F <= mdot 2 F F); [|cbn [INR]; lra]. unfold determinant, mdot. cbn.
    pose proof (Rle_0_sqr (F 0%nat 0%nat - F 1%nat 1%nat)). pose proof (Rle_0_sqr (F 1%nat 0%nat + F 0%nat 1%nat)). unfold Rsqr in *. nra.
  - set (a := F 0%nat 0%nat * F 0%nat 0%nat + F 1%nat 0%nat * F 1%nat 0%nat + F 2%nat 0%nat * F 2%nat 0%nat). set (b := F 0%nat 1%nat * F 0%nat 1%nat + F 1%nat 1%nat * F 1%nat 1%nat + F 2%nat 1%nat * F 2%nat 1%nat).
    set (c := F 0%nat 2%nat * F 0%nat 2%nat + F 1%nat 2%nat * F 1%nat 2%nat + F 2%nat 2%nat * F 2%nat 2%nat).
    set (x := F 1%nat 1%nat * F 2%nat 2%nat - F 2%nat 1%nat * F 1%nat 2%nat). set (y := - (F 0%nat 1%nat * F 2%nat 2%nat - F 2%nat 1%nat * F 0%nat 2%nat)). set (z := F 0%nat 1%nat * F 1%nat 2%nat - F 1%nat 1%nat * F 0%nat 2%nat).
    assert (Ha : 0 <= a) by (unfold a; nra). assert (Hb : 0 <= b) by (unfold b; nra). assert (Hc : 0 <= c) by (unfold c; nra).
    assert (L : x * x + y * y + z * z <= b * c).
    { assert (E : b * c - (x * x + y * y + z * z) = (F 0%nat 1%nat * F 0%nat 2%nat + F 1%nat 1%nat * F 1%nat 2%nat + F 2%nat 1%nat * F 2%nat 2%nat) ^ 2) by (unfold b, c, x, y, z; ring).
      pose proof (pow2_ge_0 (F 0%nat 1%nat * F 0%nat 2%nat + F 1%nat 1%nat * F 1%nat 2%nat + F 2%nat 1%nat * F 2%nat 2%nat)). lra. }
    assert (D : determinant 3 F = F 0%nat 0%nat * x + F 1%nat 0%nat * y + F 2%nat 0%nat * z) by (unfold determinant, x, y, z; ring).
    assert (C : determinant 3 F * determinant 3 F <= a * (x * x + y * y + z * z)).
    { rewrite D. assert (E : a * (x * x + y * y + z * z) - (F 0%nat 0%nat * x + F 1%nat 0%nat * y + F 2%nat 0%nat * z) * (F 0%nat 0%nat * x + F 1%nat 0%nat * y + F 2%nat 0%nat * z) =
        (F 0%nat 0%nat * y - F 1%nat 0%nat * x) ^ 2 + (F 0%nat 0%nat * z - F 2%nat 0%nat * x) ^ 2 + (F 1%nat 0%nat * z - F 2%nat 0%nat * y) ^ 2) by (unfold a; ring).
      pose proof (pow2_ge_0 (F 0%nat 0%nat * y - F 1%nat 0%nat * x)). pose proof (pow2_ge_0 (F 0%nat 0%nat * z - F 2%nat 0%nat * x)). pose proof (pow2_ge_0 (F 1%nat 0%nat * z - F 2%nat 0%nat * y)). lra. }
    assert (K : determinant 3 F * determinant 3 F <= a * b * c) by nra.
    assert (Pp : 0 < determinant 3 F * determinant 3 F) by nra.
    assert (Pa : 0 < a) by (destruct (Req_dec a 0) as [E|N]; [rewrite E in K; lra|lra]). assert (Pb : 0 < b) by (destruct (Req_dec b 0) as [E|N]; [rewrite E in K; lra|lra]). assert (Pc : 0 < c) by (destruct (Req_dec c 0) as [E|N]; [rewrite E in K; lra|lra]).
    assert (Pab : 0 < a * b) by nra.
    rewrite ln_half by exact P. assert (ln (determinant 3 F * determinant 3 F) <= ln a + ln b + ln c).
    { rewrite <- ln_mult by assumption. rewrite <- ln_mult by assumption. destruct K as [K | ->]; [left; apply ln_increasing; assumption|right; reflexivity]. }
    pose proof (ln_le_minus a Pa). pose proof (ln_le_minus b Pb). pose proof (ln_le_minus c Pc).
    assert (M : mdot 3 F F = a + b + c) by (unfold mdot, a, b, c; cbn; ring). rewrite M. cbn [INR]. lra.
Qed.
(** C75: with Lame parameters that are not negative no energy is negative; St. Venant-Kirchhoff energies vanish exactly for orthogonal deformation gradients. *)
Theorem C75_energy d mu lambda F : 0 <= mu -> 0 <= lambda ->
  0 <= le_energy d mu lambda F /\ 0 <= stvk_energy d mu lambda F /\ (0 < mu -> (stvk_energy d mu lambda F = 0 <-> orthogonal d F)) /\
  (d = 2%nat \/ d = 3%nat -> forall e, nh_energy d mu lambda F = Some e -> 0 <= e).
Proof.
  intros Hm Hl. split; [apply quadratic_nonneg; assumption|]. split; [apply quadratic_nonneg; assumption|]. split.
  - intros Pm. split.
    + intros E i j Hi Hj. apply quadratic_zero in E; [|assumption..]. pose proof (mdot_zero d _ E i j Hi Hj) as G. unfold green_strain, mscale, msub, mmul, transpose, eye in G. lra.
    + intros Ho. assert (Z : forall i j, (i < d)%nat -> (j < d)%nat -> green_strain d F i j = 0).
      { intros i j Hi Hj. unfold green_strain, mscale, msub, mmul, transpose. rewrite (Ho i j Hi Hj). unfold eye. ring. }
      destruct (zero_energy d _ Z) as (Z1 & Z2). unfold stvk_energy. cbv zeta. rewrite Z1, Z2. ring.
  - intros Hd e. rewrite nh_energy_ok by exact Hd. destruct (Rlt_dec 0 (determinant d F)) as [P|]; [|discriminate]. intros [= <-]. rewrite nh_formula_alt by exact Hd.
    pose proof (ln_det_bound d F Hd P) as B. pose proof (pow2_ge_0 (ln (determinant d F))). nra.
Qed.
Print Assumptions C75_energy.
(** a quarter turn and a shear of space *)
Example C75_example : rotation 3 (fun i j => nth j (nth i [[0; -1; 0]; [1; 0; 0]; [0; 0; 1]] []) 0) /\ exists e, nh_energy 3 1 1 (fun i j => nth j (nth i [[1; 2; 0]; [0; 1; 0]; [0; 0; 1]] []) 0) = Some e /\ e = 2.
Proof.
  split; [split; [|unfold determinant; cbn; ring]; intros i j Hi Hj; destruct i as [|[|[|?]]]; try lia; destruct j as [|[|[|?]]]; try lia; cbn; ring|].
  eexists. split; [rewrite nh_energy_ok by (right; reflexivity); destruct (Rlt_dec _ _) as [L|L]; [reflexivity|exfalso; apply L; unfold determinant; cbn; lra]|].
  rewrite nh_formula_alt by (right; reflexivity). replace (determinant 3 _) with 1 by (unfold determinant; cbn; ring). rewrite ln_1. unfold mdot. cbn. lra.
Qed.

(** C55-C57: stresses are derivatives of energies, contractions are derivatives of stresses, and the logarithm of the determinant. *)
From Coq Require Import Reals List Arith Lia Lra Psatz Bool.
From Coquelicot Require Import Coquelicot.
From Verif Require Import MaterialModel.
Import ListNotations.
Open Scope R_scope.
Local Notation vec := (nat -> R).
Local Notation mat := (nat -> nat -> R).

(** * specification *)
(** the line through [F] in direction [H] *)
Definition along (F H : mat) (t : R) : mat := fun i j => F i j + t * H i j.
(** the direction that changes row [j] by [b] *)
Definition row_change (j : nat) (b : vec) : mat := fun p q => if (p =? j)%nat then b q else 0.
(** [g] is the derivative of the function [f] of a [d] by [d] matrix at [F], in every direction *)
Definition gradient_at (d : nat) (f : mat -> R) (F g : mat) : Prop :=
  forall H, is_derive (fun t => f (along F H t)) 0 (summ d (fun i => summ d (fun j => g i j * H i j))).
(** [C] is the contraction of the derivative of [P] at [F] with [a] and [b]: C_ij = a_k dP_ik/dF_jm b_m *)
Definition contraction_at (d : nat) (P : mat -> mat) (F : mat) (a b : vec) (C : mat) : Prop :=
  forall i j, (i < d)%nat -> (j < d)%nat -> is_derive (fun t => summ d (fun k => a k * P (along F (row_change j b) t) i k)) 0 (C i j).

(** * sums *)
Lemma summ_ext n f g : (forall k, (k < n)%nat -> f k = g k) -> summ n f = summ n g.
Proof. induction n as [|n IH]; intros H; [reflexivity|]. cbn. rewrite IH by (intros; apply H; lia). rewrite H by lia. reflexivity. Qed.
Lemma summ_plus n f g : summ n (fun k => f k + g k) = summ n f + summ n g.
Proof. induction n as [|n IH]; cbn; [ring|]. rewrite IH. ring. Qed.
Lemma summ_minus n f g : summ n (fun k => f k - g k) = summ n f - summ n g.
Proof. induction n as [|n IH]; cbn; [ring|]. rewrite IH. ring. Qed.
Lemma summ_l n c f : summ n (fun k => c * f k) = c * summ n f.
Proof. induction n as [|n IH]; cbn; [ring|]. rewrite IH. ring. Qed.
Lemma summ_r n c f : summ n (fun k => f k * c) = summ n f * c.
Proof. induction n as [|n IH]; cbn; [ring|]. rewrite IH. ring. Qed.
Lemma summ_zero n : summ n (fun _ => 0) = 0.
Proof. induction n as [|n IH]; cbn; [reflexivity|]. rewrite IH. ring. Qed.
Lemma summ_swap n m f : summ n (fun i => summ m (fun j => f i j)) = summ m (fun j => summ n (fun i => f i j)).
Proof. induction n as [|n IH]; cbn; [rewrite summ_zero; reflexivity|]. rewrite IH, <- summ_plus. reflexivity. Qed.
Lemma summ_delta n i f : (i < n)%nat -> summ n (fun k => if (k =? i)%nat then f k else 0) = f i.
Proof.
  intros H. induction n as [|n IH]; [lia|]. cbn. destruct (Nat.eqb_spec n i) as [->|N].
  - rewrite (summ_ext i _ (fun _ => 0)); [rewrite summ_zero; ring|]. intros k Hk. destruct (Nat.eqb_spec k i); [lia|reflexivity].
  - rewrite IH by lia. ring.
Qed.
Lemma is_derive_summ n (f : nat -> R -> R) g x : (forall k, (k < n)%nat -> is_derive (f k) x (g k)) -> is_derive (fun t => summ n (fun k => f k t)) x (summ n g).
Proof.
  induction n as [|n IH]; intros H; cbn; [apply (is_derive_const (V := R_NormedModule) 0)|].
  apply (is_derive_plus (V := R_NormedModule)); [apply IH; intros; apply H; lia|apply H; lia].
Qed.
Lemma is_derive_eq (f : R -> R) (x g h : R) : is_derive f x g -> g = h -> is_derive f x h.
Proof. intros H <-. exact H. Qed.
Lemma is_derive_pext (f g : R -> R) (x h : R) : (forall t, f t = g t) -> is_derive f x h -> is_derive g x h.
Proof. intros E H. apply (is_derive_ext f); assumption. Qed.
Lemma dmult (f g : R -> R) (x f' g' : R) : is_derive f x f' -> is_derive g x g' -> is_derive (fun t => f t * g t) x (f' * g x + f x * g').
Proof. intros Hf Hg. apply (is_derive_eq _ _ _ _ (is_derive_mult f g x f' g' Hf Hg Rmult_comm)). reflexivity. Qed.
Lemma dplus (f g : R -> R) (x f' g' : R) : is_derive f x f' -> is_derive g x g' -> is_derive (fun t => f t + g t) x (f' + g').
Proof. intros Hf Hg. exact (is_derive_plus f g x f' g' Hf Hg). Qed.
Lemma dconst (c x : R) : is_derive (fun _ => c) x 0.
Proof. exact (is_derive_const (V := R_NormedModule) c x). Qed.
Lemma dscal (c : R) (f : R -> R) (x f' : R) : is_derive f x f' -> is_derive (fun t => c * f t) x (c * f').
Proof. intros Hf. eapply is_derive_eq; [apply (dmult (fun _ => c) f x 0 f' (dconst c x) Hf)|]. cbv beta. ring. Qed.
Lemma dalong F H i j : is_derive (fun t => along F H t i j) 0 (H i j).
Proof. unfold along. auto_derive; [exact I|]. ring. Qed.
Lemma along_0 F H : forall i j, along F H 0 i j = F i j.
Proof. intros. unfold along. ring. Qed.

(** * linear elasticity, in every dimension *)
Lemma d_strain F H i j : is_derive (fun t => infinitesimal_strain (along F H t) i j) 0 (symmetric_part H i j).
Proof. unfold infinitesimal_strain, msub, symmetric_part, along. auto_derive; [exact I|]. unfold Rdiv. ring. Qed.
Lemma strain_sym F i j : infinitesimal_strain F i j = infinitesimal_strain F j i.
Proof. unfold infinitesimal_strain, msub, symmetric_part, eye. rewrite (Nat.eqb_sym j i), (Rplus_comm (F j i)). reflexivity. Qed.
Lemma sym_contract d E H : (forall i j, E i j = E j i) -> summ d (fun j => summ d (fun i => E i j * symmetric_part H i j)) = summ d (fun i => summ d (fun j => E i j * H i j)).
Proof.
  intros S. unfold symmetric_part.
  rewrite (summ_ext d _ (fun j => summ d (fun i => E i j * H i j / 2) + summ d (fun i => E i j * H j i / 2))).
  2: { intros j _. rewrite <- summ_plus. apply summ_ext. intros i _. field. }
  rewrite summ_plus. rewrite summ_swap. rewrite (summ_ext d (fun j => summ d (fun i => E i j * H j i / 2)) (fun i => summ d (fun j => E i j * H i j / 2))).
  2: { intros i _. apply summ_ext. intros j _. rewrite S. reflexivity. }
  rewrite <- summ_plus. apply summ_ext. intros i _. rewrite <- summ_plus. apply summ_ext. intros j _. field.
Qed.
Lemma trace_contract d (c : R) H : summ d (fun i => summ d (fun j => (if (i =? j)%nat then c else 0) * H i j)) = c * trace d H.
Proof.
  unfold trace. rewrite <- summ_l. apply summ_ext. intros i Hi. rewrite (summ_ext d _ (fun j => if (j =? i)%nat then c * H j j else 0)).
  - rewrite summ_delta by exact Hi. reflexivity.
  - intros j _. rewrite Nat.eqb_sym. destruct (Nat.eqb_spec j i) as [->|]; ring.
Qed.
Lemma quadratic_energy d mu lambda (E : R -> mat) E' :
  (forall i j, is_derive (fun t => E t i j) 0 (E' i j)) ->
  is_derive (fun t => mu * mdot d (E t) (E t) + 1/2 * lambda * (trace d (E t)) ^ 2) 0
    (2 * mu * summ d (fun j => summ d (fun i => E 0 i j * E' i j)) + lambda * trace d (E 0) * trace d E').
Proof.
  intros D. eapply is_derive_eq.
  - apply dplus.
    + apply dscal. apply is_derive_summ. intros j _. apply is_derive_summ. intros i _. apply dmult; apply D.
    + apply dscal. eapply (is_derive_pext (fun t => trace d (E t) * trace d (E t))); [intros; ring|]. apply dmult; apply is_derive_summ; intros i _; apply D.
  - cbv beta. unfold trace.
    assert (Q : summ d (fun j => summ d (fun i => E' i j * E 0 i j + E 0 i j * E' i j)) = 2 * summ d (fun j => summ d (fun i => E 0 i j * E' i j))).
    { rewrite <- summ_l. apply summ_ext. intros j _. rewrite <- summ_l. apply summ_ext. intros i _. ring. }
    rewrite Q. field.
Qed.

Lemma le_gradient d mu lambda F : gradient_at d (le_energy d mu lambda) F (le_stress d mu lambda F).
Proof.
  intros H. unfold le_energy. cbv zeta. eapply is_derive_eq; [apply quadratic_energy; intros; apply d_strain|]. unfold le_stress, madd, mscale. cbv zeta.
  set (E := infinitesimal_strain F). assert (E0 : forall i j, infinitesimal_strain (along F H 0) i j = E i j) by (intros; unfold E, infinitesimal_strain, msub, symmetric_part; rewrite !along_0; reflexivity).
  rewrite (summ_ext d (fun j => summ d (fun i => infinitesimal_strain (along F H 0) i j * symmetric_part H i j)) (fun j => summ d (fun i => E i j * symmetric_part H i j))) by (intros j _; apply summ_ext; intros i _; rewrite E0; reflexivity).
  rewrite sym_contract by (apply strain_sym). replace (trace d (infinitesimal_strain (along F H 0))) with (trace d E) by (unfold trace; apply summ_ext; intros; symmetry; apply E0).
  replace (trace d (fun i j => symmetric_part H i j)) with (trace d H) by (unfold trace, symmetric_part; apply summ_ext; intros; field).
  rewrite <- (trace_contract d (lambda * trace d E) H). rewrite <- summ_l, <- summ_plus. apply summ_ext. intros i _. rewrite <- summ_l, <- summ_plus. apply summ_ext. intros j _. ring.
Qed.

Lemma le_contract d mu lambda F a b : contraction_at d (le_stress d mu lambda) F a b (le_contraction d mu lambda F a b).
Proof.
  intros i j Hi Hj. set (H := row_change j b).
  assert (TrH : trace d H = b j) by (unfold trace, H, row_change; rewrite (summ_delta d j b Hj); reflexivity).
  eapply is_derive_eq.
  - apply is_derive_summ. intros k _. apply dscal. unfold le_stress, madd, mscale. cbv zeta.
    apply (is_derive_pext (fun t => 2 * mu * infinitesimal_strain (along F H t) i k + (if (i =? k)%nat then lambda else 0) * trace d (infinitesimal_strain (along F H t)))); [intros t; destruct (i =? k)%nat; ring|].
    apply dplus; apply dscal; [apply d_strain|]. apply is_derive_summ. intros p _. apply d_strain.
  - cbv beta. assert (T2 : summ d (fun p => symmetric_part H p p) = b j) by (rewrite <- TrH; unfold trace, symmetric_part; apply summ_ext; intros; field). rewrite T2.
    rewrite (summ_ext d _ (fun k => mu * (a k * H i k) + mu * (a k * H k i) + (if (k =? i)%nat then lambda * b j * a k else 0))).
    2: { intros k _. unfold symmetric_part. rewrite (Nat.eqb_sym i k). destruct (k =? i)%nat; field. }
    rewrite !summ_plus, !summ_l, summ_delta by exact Hi. unfold H, row_change.
    rewrite (summ_ext d (fun k => a k * (if (k =? j)%nat then b i else 0)) (fun k => if (k =? j)%nat then a k * b i else 0)) by (intros k _; destruct (k =? j)%nat; ring). rewrite summ_delta by exact Hj.
    unfold le_contraction, madd, mscale, outer, eye, vdot. destruct (Nat.eqb_spec i j) as [->|N].
    + ring.
    + rewrite (summ_ext d (fun k => a k * 0) (fun _ => 0)) by (intros; ring). rewrite summ_zero. ring.
Qed.

(** * St. Venant-Kirchhoff, in every dimension *)
Definition green' (d : nat) (F H : mat) : mat := symmetric_part (fun i j => summ d (fun k => H k i * F k j)).
Lemma d_green d F H i j : is_derive (fun t => green_strain d (along F H t) i j) 0 (green' d F H i j).
Proof.
  unfold green_strain, mscale, msub, mmul, transpose. apply (is_derive_pext (fun t => 1/2 * (summ d (fun k => along F H t k i * along F H t k j) + - eye i j))); [intros; field|].
  eapply is_derive_eq; [apply dscal, dplus; [apply is_derive_summ; intros k _; apply dmult; apply dalong|apply dconst]|]. cbv beta.
  unfold green', symmetric_part. rewrite <- summ_plus. rewrite (summ_ext d (fun k => H k i * along F H 0 k j + along F H 0 k i * H k j) (fun k => H k i * F k j + H k j * F k i)) by (intros k _; rewrite !along_0; ring). field.
Qed.
Lemma green_sym d F i j : green_strain d F i j = green_strain d F j i.
Proof. unfold green_strain, mscale, msub, mmul, transpose, eye. rewrite (Nat.eqb_sym j i). do 2 f_equal. apply summ_ext. intros; ring. Qed.
Lemma green_0 d F H i j : green_strain d (along F H 0) i j = green_strain d F i j.
Proof. unfold green_strain, mscale, msub, mmul, transpose. do 2 f_equal. apply summ_ext. intros. rewrite !along_0. ring. Qed.

Lemma stvk_gradient d mu lambda F : gradient_at d (stvk_energy d mu lambda) F (stvk_stress d mu lambda F).
Proof.
  intros H. unfold stvk_energy. cbv zeta. eapply is_derive_eq; [apply quadratic_energy; intros; apply d_green|]. unfold stvk_stress, madd, mscale. cbv zeta.
  set (E := green_strain d F).
  rewrite (summ_ext d (fun j => summ d (fun i => green_strain d (along F H 0) i j * green' d F H i j)) (fun j => summ d (fun i => E i j * green' d F H i j))) by (intros j _; apply summ_ext; intros i _; rewrite green_0; reflexivity).
  unfold green' at 1. rewrite sym_contract by (apply green_sym). replace (trace d (green_strain d (along F H 0))) with (trace d E) by (unfold trace; apply summ_ext; intros; symmetry; apply green_0).
  set (T := summ d (fun i => summ d (fun k => H k i * F k i))). replace (trace d (fun i j => green' d F H i j)) with T by (unfold T, trace, green', symmetric_part; apply summ_ext; intros; field).
  transitivity (summ d (fun i => summ d (fun j => 2 * mu * (mmul d F E i j * H i j))) + summ d (fun i => summ d (fun j => lambda * trace d E * (F i j * H i j)))).
  - f_equal.
    + rewrite (summ_ext d (fun i => summ d (fun j => 2 * mu * (mmul d F E i j * H i j))) (fun i => 2 * mu * summ d (fun j => mmul d F E i j * H i j))) by (intros; apply summ_l). rewrite summ_l. f_equal.
      rewrite summ_swap. rewrite (summ_ext d (fun j => summ d (fun i => E i j * summ d (fun k => H k i * F k j))) (fun j => summ d (fun k => summ d (fun i => E i j * (H k i * F k j))))).
      2: { intros j _. rewrite <- summ_swap. apply summ_ext. intros i _. symmetry. apply summ_l. }
      rewrite summ_swap. apply summ_ext. intros k _. rewrite <- summ_swap. apply summ_ext. intros i _. unfold mmul. rewrite <- summ_r. apply summ_ext. intros j _. rewrite (green_sym d F i j : E i j = E j i). ring.
    + unfold T. rewrite summ_swap. rewrite <- summ_l. apply summ_ext. intros i _. rewrite <- summ_l. apply summ_ext. intros j _. ring.
  - rewrite <- summ_plus. apply summ_ext. intros i _. rewrite <- summ_plus. apply summ_ext. intros j _. ring.
Qed.

Lemma summ_dist n m (f : nat -> R) (g : nat -> R) : summ n f * summ m g = summ n (fun i => summ m (fun j => f i * g j)).
Proof. rewrite <- summ_r. apply summ_ext. intros i _. rewrite summ_l. reflexivity. Qed.
Lemma row_sum d j b (f : nat -> R) : (j < d)%nat -> forall p, summ d (fun k => row_change j b k p * f k) = b p * f j.
Proof. intros Hj p. rewrite (summ_ext d _ (fun k => if (k =? j)%nat then b p * f k else 0)) by (intros k _; unfold row_change; destruct (k =? j)%nat; ring). rewrite summ_delta by exact Hj. reflexivity. Qed.
Lemma stvk_contract d mu lambda F a b : contraction_at d (stvk_stress d mu lambda) F a b (stvk_contraction d mu lambda F a b).
Proof.
  intros i j Hi Hj. set (H := row_change j b). set (E := green_strain d F).
  assert (G : forall p q, green' d F H p q = (b p * F j q + b q * F j p) / 2) by (intros p q; unfold green', symmetric_part, H; rewrite (row_sum d j b (fun k => F k q) Hj), (row_sum d j b (fun k => F k p) Hj); reflexivity).
  eapply is_derive_eq.
  - apply is_derive_summ. intros k _. apply dscal. unfold stvk_stress, madd, mscale. cbv zeta. unfold mmul.
    apply (is_derive_pext (fun t => 2 * mu * summ d (fun p => along F H t i p * green_strain d (along F H t) p k) + lambda * (along F H t i k * trace d (green_strain d (along F H t))))); [intros t; ring|].
    apply dplus; apply dscal; [apply is_derive_summ; intros p _; apply dmult; [apply dalong|apply d_green]|]. apply dmult; [apply dalong|]. apply is_derive_summ. intros p _. apply d_green.
  - cbv beta. assert (TrG : summ d (fun p => green' d F H p p) = mulv d F b j) by (unfold mulv; apply summ_ext; intros p _; rewrite G; field). rewrite TrG.
    replace (trace d (green_strain d (along F H 0))) with (trace d E) by (unfold trace; apply summ_ext; intros; symmetry; apply green_0).
    assert (Hik : forall k, H i k = if (i =? j)%nat then b k else 0) by reflexivity. set (e := if (i =? j)%nat then 1 else 0).
    assert (Hik' : forall k, H i k = e * b k) by (intros k; rewrite Hik; unfold e; destruct (i =? j)%nat; ring).
    set (Fa := mulv d F a). set (Fb := mulv d F b). set (ab := vdot d a b).
    rewrite (summ_ext d _ (fun k => 2 * mu * (e * (a k * summ d (fun p => b p * E p k))) + mu * (a k * (Fb i * F j k)) + mu * (a k * (mmul d F (transpose F) i j * b k)) + lambda * (e * (a k * b k) * trace d E) + lambda * (a k * F i k * Fb j))).
    2: { intros k _. rewrite (summ_ext d _ (fun p => e * (b p * E p k) + 1/2 * (F i p * b p * F j k) + 1/2 * (F i p * F j p * b k))).
         2: { intros p _. rewrite Hik', along_0, green_0, G. fold E. field. }
         rewrite !summ_plus, !summ_l, !summ_r. rewrite Hik', along_0. fold (mulv d F b i). fold Fb. change (summ d (fun k0 => F i k0 * F j k0)) with (mmul d F (transpose F) i j). change (fun k0 => F i k0 * b k0) with (fun k0 => F i k0 * b k0). field. }
    rewrite !summ_plus, (summ_l d (2 * mu)), !(summ_l d mu), !(summ_l d lambda).
    assert (S1 : summ d (fun k => e * (a k * summ d (fun p => b p * E p k))) = e * vdot d a (mulv d E b)).
    { rewrite summ_l. f_equal. unfold vdot, mulv. apply summ_ext. intros k _. f_equal. apply summ_ext. intros p _. rewrite (green_sym d F p k : E p k = E k p). ring. }
    assert (S2 : summ d (fun k => a k * (Fb i * F j k)) = Fb i * Fa j) by (unfold Fa, mulv; rewrite <- summ_l; apply summ_ext; intros; ring).
    assert (S3 : summ d (fun k => a k * (mmul d F (transpose F) i j * b k)) = mmul d F (transpose F) i j * ab) by (unfold ab, vdot; rewrite <- summ_l; apply summ_ext; intros; ring).
    assert (S4 : summ d (fun k => e * (a k * b k) * trace d E) = e * ab * trace d E) by (unfold ab, vdot; rewrite summ_r, summ_l; reflexivity).
    assert (S5 : summ d (fun k => a k * F i k * Fb j) = Fa i * Fb j) by (unfold Fa, mulv; rewrite <- summ_r; apply summ_ext; intros; ring).
    rewrite S1, S2, S3, S4, S5. unfold stvk_contraction, madd, mscale, outer, eye. cbv zeta. fold e E Fa Fb ab. ring.
Qed.

(** * the determinant *)
(** C57: in two and three dimensions the logarithm of the determinant of [I + U] is returned exactly when that determinant is positive. *)
Theorem C57_log_det d (u : mat) : d = 2%nat \/ d = 3%nat ->
  log_det_F d u = if Rlt_dec 0 (determinant d (fun i j => (if (i =? j)%nat then 1 else 0) + u i j)) then Some (ln (determinant d (fun i j => (if (i =? j)%nat then 1 else 0) + u i j))) else None.
Proof.
  intros [-> | ->]; cbn [log_det_F]; unfold log_det_F_2d, log_det_F_3d; cbv zeta; match goal with |- context[Rlt_dec (-1) ?g] => set (gamma := g) end; match goal with |- context[Rlt_dec 0 ?x] => replace x with (1 + gamma) by (unfold gamma; cbn; ring) end;
  destruct (Rlt_dec (-1) gamma), (Rlt_dec 0 (1 + gamma)); try reflexivity; exfalso; lra.
Qed.
Print Assumptions C57_log_det.
(** C57 refuted in one dimension: nothing is returned at the undeformed state, and a wrong value where something is. *)
Theorem C57_one_dimension_refuted :
  (exists u : mat, 0 < 1 + u 0%nat 0%nat /\ log_det_F 1 u = None) /\ (exists u : mat, 0 < 1 + u 0%nat 0%nat /\ exists r, log_det_F 1 u = Some r /\ r <> ln (1 + u 0%nat 0%nat)) /\
  forall u : mat, 0 < u 0%nat 0%nat -> exists r, log_det_F 1 u = Some r /\ r < ln (1 + u 0%nat 0%nat).
Proof.
  assert (A : forall u : mat, 0 < u 0%nat 0%nat -> exists r, log_det_F 1 u = Some r /\ r < ln (1 + u 0%nat 0%nat)).
  { intros u H. cbn. destruct (Rlt_dec 0 (u 0%nat 0%nat)); [|lra]. eexists. split; [reflexivity|]. apply ln_increasing; lra. }
  split; [|split; [|exact A]].
  - exists (fun _ _ => 0). split; [lra|]. cbn. destruct (Rlt_dec 0 0); [lra|reflexivity].
  - exists (fun _ _ => 1). split; [lra|]. destruct (A (fun _ _ => 1) ltac:(lra)) as (r & E & L). exists r. split; [exact E|lra].
Qed.
Print Assumptions C57_one_dimension_refuted.
(** a shear with a compression *)
Example C57_example : let u := fun i j : nat => nth j (nth i [[-1/2; 3]; [0; 1]] []) 0 in log_det_F 2 u = Some (ln 1).
Proof. cbv zeta. rewrite (C57_log_det 2) by (left; reflexivity). cbn. destruct (Rlt_dec _ _) as [L|L]; [do 2 f_equal; lra|exfalso; apply L; lra]. Qed.

Definition physical (d : nat) : Prop := d = 1%nat \/ d = 2%nat \/ d = 3%nat.
Lemma d_det d F H : physical d -> is_derive (fun t => determinant d (along F H t)) 0 (summ d (fun i => summ d (fun j => adjugate d F j i * H i j))).
Proof. intros [-> |[-> | ->]]; cbn; unfold along; auto_derive; try exact I; cbn; ring. Qed.
(** the derivative of the adjugate *)
Definition adjugate' (d : nat) (F H : mat) : mat := fun i j =>
  match d with
  | 1%nat => 0
  | 2%nat => (if (i =? j)%nat then 1 else -1) * H (1 - j)%nat (1 - i)%nat
  | _ => H ((j + 1) mod 3)%nat ((i + 1) mod 3)%nat * F ((j + 2) mod 3)%nat ((i + 2) mod 3)%nat + F ((j + 1) mod 3)%nat ((i + 1) mod 3)%nat * H ((j + 2) mod 3)%nat ((i + 2) mod 3)%nat
         - (H ((j + 1) mod 3)%nat ((i + 2) mod 3)%nat * F ((j + 2) mod 3)%nat ((i + 1) mod 3)%nat + F ((j + 1) mod 3)%nat ((i + 2) mod 3)%nat * H ((j + 2) mod 3)%nat ((i + 1) mod 3)%nat)
  end.
Lemma d_adjugate d F H i j : physical d -> is_derive (fun t => adjugate d (along F H t) i j) 0 (adjugate' d F H i j).
Proof.
  intros [-> |[-> | ->]]; unfold adjugate, adjugate'.
  - apply dconst.
  - apply dscal, dalong.
  - eapply is_derive_eq; [apply (is_derive_minus (V := R_NormedModule)); apply dmult; apply dalong|]. cbv beta. rewrite !along_0. reflexivity.
Qed.
Lemma adjugate_contract d F a b i j : physical d -> (i < d)%nat -> (j < d)%nat ->
  determinant d F * summ d (fun k => a k * adjugate' d F (row_change j b) k i) =
  summ d (fun k => adjugate d F k j * b k) * summ d (fun k => adjugate d F k i * a k) - summ d (fun k => adjugate d F k i * b k) * summ d (fun k => adjugate d F k j * a k).
Proof.
  intros [-> |[-> | ->]] Hi Hj.
  - replace i with 0%nat by lia. replace j with 0%nat by lia. cbn. ring.
  - destruct i as [|[|i]]; [| |lia]; (destruct j as [|[|j]]; [| |lia]); cbn; ring.
  - destruct i as [|[|[|i]]]; [| | |lia]; (destruct j as [|[|[|j]]]; [| | |lia]); cbn; ring.
Qed.
Lemma dln (f : R -> R) (x f' : R) : is_derive f x f' -> 0 < f x -> is_derive (fun t => ln (f t)) x (f' / f x).
Proof.
  intros D P. eapply is_derive_eq; [apply (is_derive_comp ln f x (/ f x) f'); [apply is_derive_Reals, derivable_pt_lim_ln, P|exact D]|]. unfold scal. cbn. unfold mult. cbn. reflexivity.
Qed.
Lemma dinv (f : R -> R) (x f' : R) : is_derive f x f' -> f x <> 0 -> is_derive (fun t => / f t) x (- f' / (f x) ^ 2).
Proof. intros D P. apply is_derive_inv; assumption. Qed.
(** near a matrix with positive determinant the determinant is positive *)
Lemma det_locally d F H : physical d -> 0 < determinant d F -> locally 0 (fun t => 0 < determinant d (along F H t)).
Proof.
  intros Hd P. assert (C : continuous (fun t => determinant d (along F H t)) 0) by (apply (ex_derive_continuous (K := R_AbsRing) (V := R_NormedModule)); eexists; apply d_det, Hd).
  apply (C (fun y => 0 < y)). assert (E : determinant d (along F H 0) = determinant d F) by (destruct Hd as [-> |[-> | ->]]; cbn; rewrite !along_0; reflexivity). rewrite E. apply open_gt. exact P.
Qed.

(** * Neo-Hookean *)
Definition value (x : option R) : R := match x with Some r => r | None => 0 end.
Definition entries (x : option mat) : mat := match x with Some A => A | None => fun _ _ => 0 end.
Lemma det_0 d F H : determinant d (along F H 0) = determinant d F.
Proof. destruct d as [|[|[|[|d]]]]; cbn; rewrite ?along_0; reflexivity. Qed.
Lemma adj_0 d F H i j : adjugate d (along F H 0) i j = adjugate d F i j.
Proof. destruct d as [|[|[|[|d]]]]; cbn; rewrite ?along_0; reflexivity. Qed.
Definition nh_formula (d : nat) (mu lambda : R) (F : mat) : R :=
  let U := msub F eye in mu * (trace d U + 1/2 * mdot d U U) + (- mu * ln (determinant d F) + 1/2 * lambda * (ln (determinant d F) * ln (determinant d F))).
Lemma nh_energy_ok d mu lambda F : d = 2%nat \/ d = 3%nat -> nh_energy d mu lambda F = if Rlt_dec 0 (determinant d F) then Some (nh_formula d mu lambda F) else None.
Proof.
  intros Hd. unfold nh_energy, nh_energy_du. cbv zeta. change (transpose (u_grad_from_F F)) with (msub F eye). rewrite C57_log_det by exact Hd.
  assert (E : determinant d (fun i j => (if (i =? j)%nat then 1 else 0) + msub F eye i j) = determinant d F) by (destruct Hd as [-> | ->]; unfold msub, eye; cbn; ring).
  rewrite E. destruct (Rlt_dec 0 (determinant d F)); [|reflexivity]. f_equal. unfold nh_formula. cbv zeta. ring.
Qed.
Definition nh_P (d : nat) (mu lambda : R) (F : mat) : mat := fun i j => adjugate d F j i / determinant d F * (- mu + lambda * ln (determinant d F)) + F i j * mu.
Lemma nh_stress_ok d mu lambda F : 0 < determinant d F -> nh_stress d mu lambda F = Some (nh_P d mu lambda F).
Proof.
  intros P. unfold nh_stress, try_inverse. destruct (Rle_dec (determinant d F) 0); [lra|]. destruct (Req_EM_T (determinant d F) 0); [lra|]. reflexivity.
Qed.
Lemma nh_gradient d mu lambda F H : d = 2%nat \/ d = 3%nat -> 0 < determinant d F ->
  is_derive (fun t => value (nh_energy d mu lambda (along F H t))) 0 (summ d (fun i => summ d (fun j => nh_P d mu lambda F i j * H i j))).
Proof.
  intros Hd P. assert (Ph : physical d) by (unfold physical; tauto). apply (is_derive_ext_loc (fun t => nh_formula d mu lambda (along F H t))).
  { apply (filter_imp (F := locally 0) (fun t => 0 < determinant d (along F H t))); [|apply det_locally; assumption]. intros t Ht. rewrite nh_energy_ok by exact Hd. destruct (Rlt_dec 0 (determinant d (along F H t))); [reflexivity|contradiction]. }
  set (J' := summ d (fun i => summ d (fun j => adjugate d F j i * H i j))).
  assert (DJ : is_derive (fun t => ln (determinant d (along F H t))) 0 (J' / determinant d F)).
  { eapply is_derive_eq; [apply dln; [apply d_det, Ph|rewrite det_0; exact P]|]. cbv beta. rewrite det_0. reflexivity. }
  assert (DU : forall i j, is_derive (fun t => msub (along F H t) eye i j) 0 (H i j)) by (intros i j; unfold msub, along; auto_derive; [exact I|ring]).
  eapply is_derive_eq.
  - unfold nh_formula. cbv zeta. apply dplus; [apply dscal, dplus; [apply is_derive_summ; intros k _; apply DU|apply dscal, is_derive_summ; intros j _; apply is_derive_summ; intros i _; apply dmult; apply DU]|]. apply dplus; [apply dscal, DJ|apply dscal, dmult; apply DJ].
  - cbv beta. rewrite det_0. set (L := ln (determinant d F)).
    rewrite (summ_ext d (fun j => summ d (fun i => H i j * msub (along F H 0) eye i j + msub (along F H 0) eye i j * H i j)) (fun j => summ d (fun i => 2 * (F i j * H i j) + (if (i =? j)%nat then -2 else 0) * H i j))).
    2: { intros j _. apply summ_ext. intros i _. unfold msub, eye. rewrite along_0. destruct (i =? j)%nat; ring. }
    rewrite (summ_ext d (fun j => summ d (fun i => 2 * (F i j * H i j) + (if (i =? j)%nat then -2 else 0) * H i j)) (fun j => 2 * summ d (fun i => F i j * H i j) + summ d (fun i => (if (i =? j)%nat then -2 else 0) * H i j))) by (intros j _; rewrite summ_plus, summ_l; reflexivity).
    rewrite summ_plus, summ_l, (summ_swap d d (fun j i => (if (i =? j)%nat then -2 else 0) * H i j)), (trace_contract d (-2) H), (summ_swap d d (fun j i => F i j * H i j)).
    transitivity (mu * summ d (fun i => summ d (fun j => F i j * H i j)) + (- mu + lambda * L) / determinant d F * J').
    { unfold trace. field. lra. }
    unfold J', nh_P. rewrite <- !summ_l, <- summ_plus. apply summ_ext. intros i _. rewrite <- !summ_l, <- summ_plus. apply summ_ext. intros j _. fold L. field. lra.
Qed.
Lemma nh_contract d mu lambda F a b i j : physical d -> 0 < determinant d F -> (i < d)%nat -> (j < d)%nat ->
  is_derive (fun t => summ d (fun k => a k * entries (nh_stress d mu lambda (along F (row_change j b) t)) i k)) 0 (entries (nh_contraction d mu lambda F a b) i j).
Proof.
  intros Ph P Hi Hj. set (H := row_change j b). apply (is_derive_ext_loc (fun t => summ d (fun k => a k * nh_P d mu lambda (along F H t) i k))).
  { apply (filter_imp (F := locally 0) (fun t => 0 < determinant d (along F H t))); [|apply det_locally; assumption]. intros t Ht. apply summ_ext. intros k _. rewrite nh_stress_ok by exact Ht. reflexivity. }
  set (J := determinant d F). set (J' := summ d (fun i => summ d (fun j => adjugate d F j i * H i j))). set (L := ln J).
  assert (DJ : is_derive (fun t => determinant d (along F H t)) 0 J') by (apply d_det, Ph).
  assert (DL : is_derive (fun t => ln (determinant d (along F H t))) 0 (J' / J)) by (eapply is_derive_eq; [apply dln; [exact DJ|rewrite det_0; exact P]|]; cbv beta; rewrite det_0; reflexivity).
  assert (DI : is_derive (fun t => / determinant d (along F H t)) 0 (- J' / J ^ 2)) by (eapply is_derive_eq; [apply dinv; [exact DJ|rewrite det_0; lra]|]; cbv beta; rewrite det_0; reflexivity).
  eapply is_derive_eq.
  - apply is_derive_summ. intros k _. apply dscal. unfold nh_P, Rdiv. apply dplus; [apply dmult; [apply dmult; [apply d_adjugate, Ph|exact DI]|apply dplus; [apply dconst|apply dscal, DL]]|].
    apply (is_derive_pext (fun t => mu * along F H t i k)); [intros; ring|]. apply dscal, dalong.
  - cbv beta. rewrite det_0. fold J L.
    assert (EJ : J' = summ d (fun k => adjugate d F k j * b k)).
    { unfold J'. rewrite (summ_ext d _ (fun p => if (p =? j)%nat then summ d (fun k => adjugate d F k p * b k) else 0)); [rewrite summ_delta by exact Hj; reflexivity|].
      intros p _. unfold H, row_change. destruct (p =? j)%nat; [reflexivity|]. rewrite (summ_ext d _ (fun _ => 0)) by (intros; ring). apply summ_zero. }
    pose proof (adjugate_contract d F a b i j Ph Hi Hj) as AC. fold J H in AC. rewrite <- EJ in AC.
    set (Aa := fun m => summ d (fun k => adjugate d F k m * a k)). set (Ab := fun m => summ d (fun k => adjugate d F k m * b k)).
    change (summ d (fun k => adjugate d F k i * a k)) with (Aa i) in AC. change (summ d (fun k => adjugate d F k j * a k)) with (Aa j) in AC. change (summ d (fun k => adjugate d F k i * b k)) with (Ab i) in AC.
    set (al := - mu + lambda * L).
    rewrite (summ_ext d _ (fun k => al / J * (a k * adjugate' d F H k i) + (lambda - al) * J' / J ^ 2 * (adjugate d F k i * a k) + mu * (a k * H i k))).
    2: { intros k _. rewrite adj_0. unfold al. field. unfold J. lra. }
    rewrite !summ_plus, !summ_l. fold (Aa i).
    assert (SD : summ d (fun k => a k * adjugate' d F H k i) = (J' * Aa i - Ab i * Aa j) / J) by (apply Rmult_eq_reg_l with J; [|unfold J; lra]; rewrite AC; field; unfold J; lra). rewrite SD.
    assert (SH : summ d (fun k => a k * H i k) = (if (i =? j)%nat then 1 else 0) * vdot d a b).
    { unfold vdot. rewrite <- summ_l. apply summ_ext. intros k _. unfold H, row_change. destruct (i =? j)%nat; ring. }
    rewrite SH. unfold nh_contraction, try_inverse. destruct (Rle_dec (determinant d F) 0); [lra|]. destruct (Req_EM_T (determinant d F) 0); [lra|]. cbn [entries]. fold J L al.
    unfold madd, msub, mscale, outer, transpose, mulv, eye.
    assert (Va : forall m, summ d (fun k => adjugate d F k m / J * a k) = Aa m / J) by (intros m; unfold Aa, Rdiv; rewrite <- summ_r; apply summ_ext; intros; ring).
    assert (Vb : forall m, summ d (fun k => adjugate d F k m / J * b k) = Ab m / J) by (intros m; unfold Ab, Rdiv; rewrite <- summ_r; apply summ_ext; intros; ring).
    rewrite !Va, !Vb. rewrite EJ. change (summ d (fun k => adjugate d F k j * b k)) with (Ab j). field. unfold J. lra.
Qed.

(** * C55: stresses are derivatives of energies *)
(** C55 for linear elasticity and St. Venant-Kirchhoff materials, in every dimension. *)
Theorem C55_polynomial d mu lambda F : gradient_at d (le_energy d mu lambda) F (le_stress d mu lambda F) /\ gradient_at d (stvk_energy d mu lambda) F (stvk_stress d mu lambda F).
Proof. split; [apply le_gradient|apply stvk_gradient]. Qed.
Print Assumptions C55_polynomial.
(** C55 for Neo-Hookean materials in two and three dimensions: where the determinant is positive the energy is finite in a neighbourhood along every line,
    and the stress is its derivative; elsewhere there is neither energy nor stress. *)
Theorem C55_neo_hookean d mu lambda F : d = 2%nat \/ d = 3%nat ->
  (0 < determinant d F -> exists P, nh_stress d mu lambda F = Some P /\
    forall H, locally 0 (fun t => nh_energy d mu lambda (along F H t) <> None) /\
      is_derive (fun t => value (nh_energy d mu lambda (along F H t))) 0 (summ d (fun i => summ d (fun j => P i j * H i j)))) /\
  (determinant d F <= 0 -> nh_energy d mu lambda F = None /\ nh_stress d mu lambda F = None).
Proof.
  intros Hd. split.
  - intros P. exists (nh_P d mu lambda F). split; [apply nh_stress_ok, P|]. intros H. split; [|apply nh_gradient; assumption].
    apply (filter_imp (F := locally 0) (fun t => 0 < determinant d (along F H t))); [|apply det_locally; [unfold physical; tauto|exact P]]. intros t Ht. rewrite nh_energy_ok by exact Hd. destruct (Rlt_dec 0 (determinant d (along F H t))); [discriminate|contradiction].
  - intros P. split; [rewrite nh_energy_ok by exact Hd; destruct (Rlt_dec 0 (determinant d F)); [lra|reflexivity]|]. unfold nh_stress. destruct (Rle_dec (determinant d F) 0); [reflexivity|contradiction].
Qed.
Print Assumptions C55_neo_hookean.
(** C55 refuted for Neo-Hookean materials in one dimension: the undeformed state has a stress but no energy, and where there is an energy the stress is not its derivative. *)
Theorem C55_one_dimension_refuted :
  (forall mu lambda, nh_energy 1 mu lambda eye = None /\ nh_stress 1 mu lambda eye <> None) /\
  exists mu lambda F P, nh_stress 1 mu lambda F = Some P /\ is_derive (fun t => value (nh_energy 1 mu lambda (along F eye t))) 0 1 /\ P 0%nat 0%nat <> 1.
Proof.
  split.
  - intros mu lambda. split.
    + unfold nh_energy, nh_energy_du, u_grad_from_F, transpose, msub, eye. cbn. destruct (Rlt_dec 0 (1 - 1)); [lra|reflexivity].
    + rewrite nh_stress_ok by (cbn; unfold eye; cbn; lra). discriminate.
  - exists 1, 0, (fun _ _ => 2), (nh_P 1 1 0 (fun _ _ => 2)). split; [apply nh_stress_ok; cbn; lra|]. split; [|unfold nh_P; cbn; lra].
    apply (is_derive_ext_loc (fun t => 1 * ((1 + t) + 1/2 * ((1 + t) * (1 + t))) - 1 * ln (1 + t) + 1/2 * 0 * (ln (1 + t) * ln (1 + t)))).
    { exists (mkposreal (1/2) ltac:(lra)). intros t Ht. unfold ball in Ht. cbn in Ht. unfold AbsRing_ball, abs, minus, plus, opp in Ht. cbn in Ht. apply Rabs_def2 in Ht. unfold nh_energy, nh_energy_du, u_grad_from_F, transpose, msub, eye, along. cbn.
      destruct (Rlt_dec 0 (2 + t * 1 - 1)) as [L|L]; [|lra]. cbn. unfold trace, mdot. cbn. replace (2 + t * 1 - 1) with (1 + t) by ring. ring. }
    auto_derive; [lra|]. replace (1 + 0) with 1 by ring. rewrite ln_1. field.
Qed.
Print Assumptions C55_one_dimension_refuted.

(** * C56: contractions are derivatives of stresses *)
Theorem C56_polynomial d mu lambda F a b : contraction_at d (le_stress d mu lambda) F a b (le_contraction d mu lambda F a b) /\ contraction_at d (stvk_stress d mu lambda) F a b (stvk_contraction d mu lambda F a b).
Proof. split; [apply le_contract|apply stvk_contract]. Qed.
Print Assumptions C56_polynomial.
Theorem C56_neo_hookean d mu lambda F a b : d = 1%nat \/ d = 2%nat \/ d = 3%nat ->
  (0 < determinant d F -> exists C, nh_contraction d mu lambda F a b = Some C /\
    forall i j, (i < d)%nat -> (j < d)%nat -> locally 0 (fun t => nh_stress d mu lambda (along F (row_change j b) t) <> None) /\
      is_derive (fun t => summ d (fun k => a k * entries (nh_stress d mu lambda (along F (row_change j b) t)) i k)) 0 (C i j)) /\
  (determinant d F <= 0 -> nh_contraction d mu lambda F a b = None).
Proof.
  intros Hd. split.
  - intros P. assert (E : exists C, nh_contraction d mu lambda F a b = Some C) by (unfold nh_contraction, try_inverse; destruct (Rle_dec (determinant d F) 0); [lra|]; destruct (Req_EM_T (determinant d F) 0); [lra|]; eexists; reflexivity).
    destruct E as (C & E). exists C. split; [exact E|]. intros i j Hi Hj. split.
    + apply (filter_imp (F := locally 0) (fun t => 0 < determinant d (along F (row_change j b) t))); [|apply det_locally; [exact Hd|exact P]]. intros t Ht. rewrite nh_stress_ok by exact Ht. discriminate.
    + pose proof (nh_contract d mu lambda F a b i j Hd P Hi Hj) as X. rewrite E in X. exact X.
  - intros P. unfold nh_contraction. destruct (Rle_dec (determinant d F) 0); [reflexivity|contradiction].
Qed.
Print Assumptions C56_neo_hookean.

(** the contractions are symmetric *)
Lemma vdot_comm d a b : vdot d a b = vdot d b a.
Proof. unfold vdot. apply summ_ext. intros; ring. Qed.
Theorem C56_symmetry d mu lambda F a b i j :
  le_contraction d mu lambda F a b i j = le_contraction d mu lambda F b a j i /\ stvk_contraction d mu lambda F a b i j = stvk_contraction d mu lambda F b a j i /\
  forall C C', nh_contraction d mu lambda F a b = Some C -> nh_contraction d mu lambda F b a = Some C' -> C i j = C' j i.
Proof.
  assert (Sy : eye i j = eye j i) by (unfold eye; rewrite Nat.eqb_sym; reflexivity). split; [|split].
  - unfold le_contraction, madd, mscale, outer. rewrite (vdot_comm d b a), Sy. ring.
  - unfold stvk_contraction, madd, mscale, outer. cbv zeta. rewrite (vdot_comm d b a), Sy.
    assert (Q : vdot d a (mulv d (green_strain d F) b) = vdot d b (mulv d (green_strain d F) a)).
    { unfold vdot, mulv. rewrite (summ_ext d (fun k => a k * _) (fun k => summ d (fun p => a k * green_strain d F k p * b p))) by (intros; rewrite <- summ_l; apply summ_ext; intros; ring). rewrite summ_swap.
      apply summ_ext. intros p _. rewrite <- summ_l. apply summ_ext. intros k _. rewrite (green_sym d F k p). ring. }
    rewrite Q. assert (T : mmul d F (transpose F) i j = mmul d F (transpose F) j i) by (unfold mmul, transpose; apply summ_ext; intros; ring). rewrite T. ring.
  - unfold nh_contraction. destruct (Rle_dec _ _); [discriminate|]. destruct (try_inverse d F) as [G|]; [|discriminate]. intros C C' [= <-] [= <-]. unfold madd, msub, mscale, outer. rewrite (vdot_comm d b a), Sy. ring.
Qed.
Print Assumptions C56_symmetry.

(** the specialised batch contractions are the single ones *)
Theorem C56_batch_functions d mu lambda F :
  (forall a b i j, stvk_contraction_batch d mu lambda F a b i j = stvk_contraction d mu lambda F a b i j) /\
  match nh_contraction_batch d mu lambda F with
  | Some f => 0 < determinant d F /\ forall a b, nh_contraction d mu lambda F a b = Some (f a b)
  | None => determinant d F <= 0 /\ forall a b, nh_contraction d mu lambda F a b = None
  end.
Proof.
  split.
  - intros a b i j. unfold stvk_contraction_batch, stvk_contraction, madd, mscale, outer. cbv zeta. ring.
  - unfold nh_contraction_batch, nh_contraction, try_inverse. destruct (Rle_dec (determinant d F) 0) as [L|L]; [split; [exact L|reflexivity]|]. destruct (Req_EM_T (determinant d F) 0); [lra|]. split; [lra|reflexivity].
Qed.
Print Assumptions C56_batch_functions.

(** ** batches *)
Lemma add_block_at d I J alpha C out r c : (0 < d)%nat ->
  add_block d (d * I) (d * J) alpha C out r c = if ((r / d =? I) && (c / d =? J))%nat then out r c + alpha * C (r mod d)%nat (c mod d)%nat else out r c.
Proof.
  intros Hd. unfold add_block. pose proof (Nat.div_mod r d ltac:(lia)) as Er. pose proof (Nat.mod_upper_bound r d ltac:(lia)) as Br. pose proof (Nat.div_mod c d ltac:(lia)) as Ec. pose proof (Nat.mod_upper_bound c d ltac:(lia)) as Bc.
  assert (X : forall q I, (q mod d < d)%nat -> (q = d * (q / d) + q mod d)%nat -> ((d * I <=? q) && (q <? d * I + d) = (q / d =? I))%nat).
  { clear. intros q I B E. destruct (Nat.eqb_spec (q / d) I) as [<-|N].
    - apply andb_true_iff. split; [apply Nat.leb_le|apply Nat.ltb_lt]; lia.
    - apply andb_false_iff. destruct (Nat.leb_spec (d * I) q); [right|left; reflexivity]. apply Nat.ltb_ge. assert (I < q / d \/ q / d < I)%nat as [L|L] by lia; nia. }
  rewrite (X r I Br Er), <- andb_assoc, (X c J Bc Ec). destruct (Nat.eqb_spec (r / d) I) as [<-|]; [|reflexivity]. destruct (Nat.eqb_spec (c / d) J) as [<-|]; [|reflexivity]. cbn [andb].
  replace (r - d * (r / d))%nat with (r mod d)%nat by lia. replace (c - d * (c / d))%nat with (c mod d)%nat by lia. reflexivity.
Qed.
Lemma block_column d J alpha (a b : list R) (f : vec -> vec -> mat) (r c : nat) : (0 < d)%nat -> forall m out,
  fold_left (fun out I => add_block d (d * I) (d * J) alpha (f (rows d (d * I) a) (rows d (d * J) b)) out) (seq 0 m) out r c =
  if ((r / d <? m) && (c / d =? J))%nat then out r c + alpha * f (rows d (d * (r / d)) a) (rows d (d * (c / d)) b) (r mod d)%nat (c mod d)%nat else out r c.
Proof.
  intros Hd m out. induction m as [|m IH]; [reflexivity|]. rewrite seq_S, fold_left_app. cbn [fold_left]. rewrite Nat.add_0_l. rewrite add_block_at by exact Hd. rewrite IH.
  destruct (Nat.eqb_spec (c / d) J) as [E|N]; [|rewrite !andb_false_r; reflexivity]. rewrite !andb_true_r.
  destruct (Nat.eqb_spec (r / d) m) as [E2|N2].
  - rewrite (proj2 (Nat.ltb_ge (r / d) m)) by lia. rewrite (proj2 (Nat.ltb_lt (r / d) (S m))) by lia. subst J. subst m. cbn [andb]. reflexivity.
  - destruct (Nat.ltb_spec (r / d) m), (Nat.ltb_spec (r / d) (S m)); try lia; reflexivity.
Qed.
(** C56: batches: the blocks on and above the diagonal receive the scaled contraction of their vectors; the blocks below the diagonal are left alone. The call
    succeeds exactly if the dimensions match. *)
Theorem C56_batch d nrows ncols (out : mat) alpha (a b : list R) (f : vec -> vec -> mat) : (0 < d)%nat ->
  (batch_contraction d nrows ncols out alpha a b f <> None <-> exists M N, length a = (d * M)%nat /\ length b = (d * N)%nat /\ nrows = (d * M)%nat /\ ncols = (d * N)%nat) /\
  forall out', batch_contraction d nrows ncols out alpha a b f = Some out' -> forall I J i j, (d * I < nrows)%nat -> (d * J < ncols)%nat -> (i < d)%nat -> (j < d)%nat ->
    out' (d * I + i)%nat (d * J + j)%nat = out (d * I + i)%nat (d * J + j)%nat +
      (if (I <=? J)%nat then alpha * f (fun k => if (k <? d)%nat then nth (d * I + k) a 0 else 0) (fun k => if (k <? d)%nat then nth (d * J + k) b 0 else 0) i j else 0).
Proof.
  intros Hd. unfold batch_contraction. rewrite (proj2 (Nat.eqb_neq d 0)) by lia.
  destruct (Nat.eqb_spec (length a mod d) 0) as [Ea|Na]; cbn [negb].
  2: { split; [|discriminate]. split; [intros []; reflexivity|]. intros (M & N & Ha & _). exfalso. apply Na. rewrite Ha, Nat.mul_comm. apply Nat.mod_mul. lia. }
  destruct (Nat.eqb_spec (length b mod d) 0) as [Eb|Nb]; cbn [negb].
  2: { split; [|discriminate]. split; [intros []; reflexivity|]. intros (M & N & _ & Hb & _). exfalso. apply Nb. rewrite Hb, Nat.mul_comm. apply Nat.mod_mul. lia. }
  assert (La : length a = (d * (length a / d))%nat) by (apply Nat.div_exact; [lia|exact Ea]). assert (Lb : length b = (d * (length b / d))%nat) by (apply Nat.div_exact; [lia|exact Eb]).
  set (M := (length a / d)%nat) in *. set (N := (length b / d)%nat) in *.
  destruct (Nat.eqb_spec nrows (d * M)) as [Er|Nr]; cbn [negb].
  2: { split; [|discriminate]. split; [intros []; reflexivity|]. intros (M' & N' & Ha & _ & Hr & _). lia. }
  destruct (Nat.eqb_spec ncols (d * N)) as [Ec|Nc]; cbn [negb].
  2: { split; [|discriminate]. split; [intros []; reflexivity|]. intros (M' & N' & _ & Hb & _ & Hc). lia. }
  split; [split; [intros _; exists M, N; auto|discriminate]|]. intros out' [= <-] I J i j HI HJ Hi Hj.
  assert (IM : (I < M)%nat) by nia. assert (JN : (J < N)%nat) by nia.
  assert (K : forall n out r c, fold_left (fun out J => fold_left (fun out I => add_block d (d * I) (d * J) alpha (f (rows d (d * I) a) (rows d (d * J) b)) out) (seq 0 (min (J + 1) M)) out) (seq 0 n) out r c =
    if ((c / d <? n) && (r / d <? min (c / d + 1) M))%nat then out r c + alpha * f (rows d (d * (r / d)) a) (rows d (d * (c / d)) b) (r mod d)%nat (c mod d)%nat else out r c).
  { intros n out0 r c. induction n as [|n IH]; [reflexivity|]. rewrite seq_S, fold_left_app. cbn [fold_left]. rewrite Nat.add_0_l. rewrite block_column by exact Hd. rewrite IH.
    destruct (Nat.eqb_spec (c / d) n) as [E|Ne].
    - rewrite E, andb_true_r. rewrite (proj2 (Nat.ltb_ge n n)) by lia. rewrite (proj2 (Nat.ltb_lt n (S n))) by lia. cbn [andb]. reflexivity.
    - rewrite andb_false_r. destruct (Nat.ltb_spec (c / d) n), (Nat.ltb_spec (c / d) (S n)); try lia; reflexivity. }
  rewrite K. assert (DI : ((d * I + i) / d = I)%nat) by (rewrite Nat.mul_comm, Nat.div_add_l by lia; rewrite Nat.div_small by lia; lia). assert (DJ : ((d * J + j) / d = J)%nat) by (rewrite Nat.mul_comm, Nat.div_add_l by lia; rewrite Nat.div_small by lia; lia).
  assert (MI : ((d * I + i) mod d = i)%nat) by (rewrite Nat.mul_comm, Nat.add_comm, Nat.mod_add by lia; apply Nat.mod_small; lia). assert (MJ : ((d * J + j) mod d = j)%nat) by (rewrite Nat.mul_comm, Nat.add_comm, Nat.mod_add by lia; apply Nat.mod_small; lia).
  rewrite DI, DJ, MI, MJ. rewrite (proj2 (Nat.ltb_lt J N)) by exact JN. cbn [andb].
  destruct (Nat.leb_spec I J) as [L|L]; [rewrite (proj2 (Nat.ltb_lt I _)) by lia; reflexivity|rewrite (proj2 (Nat.ltb_ge I _)) by lia; ring].
Qed.
Print Assumptions C56_batch.
(** two vectors in the plane *)
Example C56_example : exists out', batch_contraction 2 4 4 (fun _ _ => 1) 3 [1; 0; 0; 1] [1; 0; 0; 1] (le_contraction 2 1 1 eye) = Some out' /\ out' 0%nat 0%nat = 10 /\ out' 2%nat 0%nat = 1 /\ 0 < determinant 2 (fun i j => nth j (nth i [[1; 2]; [0; 3]] []) 0).
Proof. eexists. split; [reflexivity|]. repeat split; cbn; unfold le_contraction, madd, mscale, outer, eye, vdot, rows; cbn; lra. Qed.

(** * the elliptic operator of a material *)
From Coq Require Import FunctionalExtensionality.
Lemma deformation_along G K t : deformation_gradient (along G K t) = along (deformation_gradient G) (transpose K) t.
Proof. apply functional_extensionality. intros i. apply functional_extensionality. intros j. unfold deformation_gradient, madd, transpose, along. ring. Qed.
(** C55: the operator is the derivative of the energy with respect to the displacement gradient. *)
Theorem C55_operator d (energy : mat -> R) (stress : mat -> mat) (G : mat) : gradient_at d energy (deformation_gradient G) (stress (deformation_gradient G)) ->
  gradient_at d (operator_energy energy) G (elliptic_operator stress G).
Proof.
  intros Hg K. unfold operator_energy. apply (is_derive_pext (fun t => energy (along (deformation_gradient G) (transpose K) t))); [intros t; rewrite deformation_along; reflexivity|].
  eapply is_derive_eq; [apply Hg|]. rewrite summ_swap. reflexivity.
Qed.
Print Assumptions C55_operator.
(** C56: its contraction is a_k dg_ki/dG_mj b_m *)
Theorem C56_operator d (stress : mat -> mat) (contraction : mat -> vec -> vec -> mat) (G : mat) a b : contraction_at d stress (deformation_gradient G) a b (contraction (deformation_gradient G) a b) ->
  forall i j, (i < d)%nat -> (j < d)%nat ->
  is_derive (fun t => summ d (fun k => a k * elliptic_operator stress (along G (fun m q => if (q =? j)%nat then b m else 0) t) k i)) 0 (operator_contract contraction G a b i j).
Proof.
  intros Hc i j Hi Hj. unfold elliptic_operator, elliptic_operator_transpose, operator_contract, transpose at 1.
  apply (is_derive_pext (fun t => summ d (fun k => a k * stress (along (deformation_gradient G) (row_change j b) t) i k))); [|apply Hc; assumption].
  intros t. rewrite deformation_along. reflexivity.
Qed.
Print Assumptions C56_operator.

(** The error of Gauss rules: polynomials of degree 2 n and the function 1 / (2 + x). *)
From Coq Require Import Reals List Arith Lia Lra.
From Coquelicot Require Import Coquelicot.
From Verif Require Import ElementModel QuadratureModel QuadPoly LegendreProofs LegendreZeros PropGauss RuleProofs.
Import ListNotations.
Local Open Scope R_scope.
Local Notation L := legendre_value.

Lemma square_Pol n : Pol (S (n + n)) (fun x => L n x * L n x).
Proof. apply Pol_mul; apply L_Pol. Qed.

Lemma square_positive n : (0 < n)%nat -> 0 < integral (fun x => L n x * L n x) (-1) 1.
Proof.
  intros N. destruct (zeros_exist n) as (z & Z). pose proof Z as [Zi I]. pose proof (increasing_lt z n I) as Inc. destruct (Zi (n - 1)%nat ltac:(lia)) as ((A & B) & _).
  rewrite <- (integral_chasles (S (n + n)) _ _ (z (n - 1)%nat)) by apply square_Pol.
  assert (0 <= integral (fun x => L n x * L n x) (-1) (z (n - 1)%nat)).
  { apply RInt_ge_0; [lra|apply (Pol_ex_RInt (S (n + n))), square_Pol|]. intros x _. apply Rle_0_sqr. }
  assert (0 < integral (fun x => L n x * L n x) (z (n - 1)%nat) 1); [|lra].
  apply RInt_gt_0; [lra| |].
  - intros x Hx. apply Rlt_0_sqr. intros E. destruct (zeros_complete n z x Z E) as (i & Hi & ->). destruct (Nat.eq_dec i (n - 1)) as [->|Ne]; [lra|].
    pose proof (Inc i (n - 1)%nat ltac:(lia)). lra.
  - intros x _. apply (Pol_continuous (S (n + n))), square_Pol.
Qed.

Lemma rule_plus {P} (q : rule P) f g : rule_integrate q (fun x => f x + g x) = rule_integrate q f + rule_integrate q g.
Proof. rewrite !integrate_total. unfold total. rewrite <- sum_plus. apply sum_ext'. intros. ring. Qed.
Lemma rule_scale {P} (q : rule P) c f : rule_integrate q (fun x => c * f x) = c * rule_integrate q f.
Proof. rewrite !integrate_total. unfold total. rewrite <- sum_scale. apply sum_ext'. intros. ring. Qed.
Lemma rule_ext {P} (q : rule P) f g : (forall x, In x (snd q) -> f x = g x) -> rule_integrate q f = rule_integrate q g.
Proof. intros H. rewrite !integrate_total. unfold total. apply sum_ext'. intros [w x] I. cbn [fst snd]. rewrite H; [reflexivity|]. apply in_combine_r in I. exact I. Qed.
Lemma rule_zero {P} (q : rule P) f : (forall x, In x (snd q) -> f x = 0) -> rule_integrate q f = 0.
Proof. intros H. rewrite (rule_ext q f (fun _ => 0 * 0)) by (intros x I; rewrite (H x I); ring). rewrite rule_scale. ring. Qed.

Section Error.
Variables (root : nat -> nat -> option R) (n : nat) (ws xs : list R).
Hypothesis N : (0 < n)%nat.
Hypothesis S : exact_search root n.
Hypothesis E : gauss root n = Some (ws, xs).

Lemma nodes_zero x : In x xs -> L n x = 0.
Proof. intros I. apply (exact_nodes root n ws xs S E), I. Qed.
Lemma nodes_inside x : In x xs -> -1 < x < 1.
Proof. intros I. apply (exact_nodes root n ws xs S E), I. Qed.
Lemma gauss_exact1 : exact1 (2 * n) (ws, xs).
Proof.
  intros l Ll. destruct (C80_exact root n N S) as (ws' & xs' & E' & _ & _ & _ & _ & _ & X). rewrite E in E'. injection E' as <- <-. apply X, Ll.
Qed.

(** a polynomial of degree exactly 2 n is not integrated exactly *)
Lemma gauss_error f c g : Pol (2 * n) g -> (forall x, f x = c * x ^ (2 * n) + g x) -> exists k, 0 < k /\ integral f (-1) 1 = rule_integrate (ws, xs) f + c * k.
Proof.
  intros G F. destruct (L_lead n) as (k & h & K & Hh & El). assert (K2 : 0 < / (k * k)) by (apply Rinv_0_lt_compat, Rmult_lt_0_compat; lra).
  exists (/ (k * k) * integral (fun x => L n x * L n x) (-1) 1). split; [apply Rmult_lt_0_compat; [exact K2|apply square_positive, N]|].
  set (r := fun x => g x - c / (k * k) * (2 * k * (x ^ n * h x) + h x * h x)).
  assert (Pr : Pol (2 * n) r).
  { destruct n as [|m]; [lia|]. apply Pol_sub; [exact G|]. apply Pol_scale. apply Pol_add.
    - apply Pol_scale. apply (Pol_le (Datatypes.S (Datatypes.S m + m))); [lia|]. apply Pol_mul; [apply Pol_monomial|exact Hh].
    - apply (Pol_le (Datatypes.S (m + m))); [lia|]. apply Pol_mul; exact Hh. }
  assert (Ef : forall x, f x = c / (k * k) * (L n x * L n x) + r x).
  { intros x. unfold r. rewrite F, El. replace (x ^ (2 * n)) with (x ^ n * x ^ n) by (rewrite <- pow_add; f_equal; lia). field. lra. }
  rewrite (Pol_RInt_ext f _ _ _ Ef). rewrite (Pol_RInt_plus (Datatypes.S (n + n))); [|apply Pol_scale, square_Pol|apply (Pol_le (2 * n)); [lia|exact Pr]].
  rewrite (Pol_RInt_scal (Datatypes.S (n + n))) by apply square_Pol. rewrite (rule_ext _ f _ (fun x _ => Ef x)), rule_plus, rule_scale.
  rewrite (rule_zero _ (fun x => L n x * L n x)) by (intros x I; rewrite (nodes_zero x I); ring). rewrite (exact1_Pol (2 * n) _ r gauss_exact1 Pr). field. lra.
Qed.

(** the function 1 / (2 + x) *)
Lemma reciprocal_continuous f d x : Pol d f -> -1 <= x <= 1 -> continuous (fun x : R => f x / (2 + x)) x.
Proof.
  intros F Hx. apply (continuous_mult f (fun x => / (2 + x))); [apply (Pol_continuous d), F|]. apply continuous_Rinv_comp; [|lra].
  apply (Pol_continuous 2 (fun x : R => 2 + x)). apply Pol_add; [exact (Pol_const 1 2)|]. apply (Pol_ext 2 (fun x => x ^ 1)); [intros; cbn; ring|]. apply Pol_monomial.
Qed.
Lemma reciprocal_ex f d : Pol d f -> ex_RInt (fun x => f x / (2 + x)) (-1) 1.
Proof. intros F. apply (@ex_RInt_continuous R_CompleteNormedModule). intros x Hx. rewrite Rmin_left, Rmax_right in Hx by lra. apply (reciprocal_continuous f d x F Hx). Qed.

Lemma integral_inside (f g : R -> R) : (forall x, -1 < x < 1 -> f x = g x) -> integral f (-1) 1 = integral g (-1) 1.
Proof. intros H. apply RInt_ext. intros x. rewrite Rmin_left, Rmax_right by lra. apply H. Qed.
Lemma integral_reciprocal f g d e : Pol d f -> Pol e g -> integral (fun x => f x + g x / (2 + x)) (-1) 1 = integral f (-1) 1 + integral (fun x => g x / (2 + x)) (-1) 1.
Proof. intros F G. unfold integral. apply (RInt_plus (V := R_CompleteNormedModule) f (fun x => g x / (2 + x))); [apply (Pol_ex_RInt d), F|apply (reciprocal_ex g e), G]. Qed.
Lemma integral_reciprocal_scale g c e : Pol e g -> integral (fun x => c * (g x / (2 + x))) (-1) 1 = c * integral (fun x => g x / (2 + x)) (-1) 1.
Proof. intros G. unfold integral. apply (RInt_scal (V := R_CompleteNormedModule) (fun x => g x / (2 + x))), (reciprocal_ex g e), G. Qed.

Lemma L_minus_two : L n (-2) <> 0.
Proof. intros Z. destruct (zeros_exist n) as (z & Hz). destruct (zeros_complete n z _ Hz Z) as (i & Hi & E'). destruct Hz as [Hz _]. destruct (Hz i Hi). lra. Qed.

Lemma gauss_reciprocal : exists e, 0 < e /\ forall f, Pol (2 * n + 1) f ->
  integral (fun x => f x / (2 + x)) (-1) 1 = rule_integrate (ws, xs) (fun x => f x / (2 + x)) + f (-2) * e.
Proof.
  pose proof L_minus_two as M. set (m := L n (-2)) in *. set (K := / (m * m)). assert (HK : 0 < K) by (apply Rinv_0_lt_compat; apply (Rlt_0_sqr m M)).
  exists (K * integral (fun x => L n x * L n x / (2 + x)) (-1) 1). split.
  - apply Rmult_lt_0_compat; [exact HK|]. apply Rlt_le_trans with (/ 3 * integral (fun x => L n x * L n x) (-1) 1).
    + apply Rmult_lt_0_compat; [lra|apply square_positive, N].
    + rewrite <- (Pol_RInt_scal (Datatypes.S (n + n))) by apply square_Pol. apply RInt_le; [lra| | |].
      * apply (Pol_ex_RInt (Datatypes.S (n + n))), Pol_scale, square_Pol.
      * apply (reciprocal_ex _ (Datatypes.S (n + n))), square_Pol.
      * intros x Hx. unfold Rdiv. rewrite Rmult_comm. apply Rmult_le_compat_l; [apply Rle_0_sqr|]. apply Rinv_le_contravar; lra.
  - intros f F.
    assert (P0 : Pol (Datatypes.S (2 * n)) (fun x => f x - f (-2) * K * (L n x * L n x))).
    { apply Pol_sub; [apply (Pol_le (2 * n + 1)); [lia|exact F]|]. apply Pol_scale. apply (Pol_le (Datatypes.S (n + n))); [lia|]. apply square_Pol. }
    destruct (Pol_factor _ _ (-2) P0) as (H & HH & EH). cbv beta in EH.
    assert (Ef : forall x, 2 + x <> 0 -> f x / (2 + x) = H x + f (-2) * K * (L n x * L n x / (2 + x))).
    { intros x Nx. specialize (EH x). fold m in EH. unfold K in *. replace (f (-2) - f (-2) * / (m * m) * (m * m)) with 0 in EH by (field; exact M).
      replace (f x) with ((x - -2) * H x + 0 + f (-2) * / (m * m) * (L n x * L n x)) by lra. field. split; assumption. }
    rewrite (integral_inside _ (fun x => H x + f (-2) * K * (L n x * L n x / (2 + x)))) by (intros x Hx; apply Ef; lra).
    rewrite (rule_ext _ _ (fun x => H x + f (-2) * K * (L n x * L n x / (2 + x)))) by (intros x I; apply Ef; pose proof (nodes_inside x I); lra).
    rewrite rule_plus, rule_scale. rewrite (rule_zero _ (fun x => L n x * L n x / (2 + x))) by (intros x I; rewrite (nodes_zero x I); unfold Rdiv; ring).
    rewrite (exact1_Pol (2 * n) _ H gauss_exact1 HH). rewrite Rmult_0_r, Rplus_0_r.
    rewrite (integral_inside _ (fun x => H x + (f (-2) * K * (L n x * L n x)) / (2 + x))) by (intros x Hx; unfold Rdiv; ring).
    rewrite (integral_reciprocal H (fun x => f (-2) * K * (L n x * L n x)) (2 * n) (Datatypes.S (n + n))) by (assumption || apply Pol_scale, square_Pol). f_equal.
    rewrite <- Rmult_assoc, <- (integral_reciprocal_scale _ _ (Datatypes.S (n + n))) by apply square_Pol. apply integral_inside. intros x Hx. unfold Rdiv. ring.
Qed.
End Error.

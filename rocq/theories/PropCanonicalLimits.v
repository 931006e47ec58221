(** C81 (and the end of C80): where the canonical quadratures are not exact. *)
From Coq Require Import Reals List Arith Lia Lra.
From Coquelicot Require Import Coquelicot.
From Verif Require Import MaterialModel ElementModel ElementSpec QuadratureModel CanonicalModel QuadPoly QuadPolyN RuleProofs PropTensor PropGauss GaussSharp PropSubdivide
  ElementDegrees TriangleCells CanonicalProofs PropCanonical.
Import ListNotations.
Local Open Scope R_scope.

Lemma horner_app l c x : horner (l ++ (c :: [])) x = horner l x + c * x ^ length l.
Proof. induction l as [|a l IH]; cbn [app horner length pow]; [ring|]. rewrite IH. ring. Qed.

(** C80. The rule with n points is exact for no polynomial of degree 2 n. *)
Theorem C80_sharp root n ws xs l c : (0 < n)%nat -> exact_search root n -> gauss root n = Some (ws, xs) -> length l = (2 * n)%nat -> c <> 0 ->
  rule_integrate (ws, xs) (horner (l ++ (c :: []))) <> RInt (horner (l ++ (c :: []))) (-1) 1.
Proof.
  intros N S E Ll C Eq. destruct (gauss_error root n ws xs N S E (horner (l ++ (c :: []))) c (horner l)) as (k & K & H).
  - exists l. split; [lia|reflexivity].
  - intros x. rewrite horner_app, Ll. ring.
  - change (integral (horner (l ++ (c :: []))) (-1) 1) with (RInt (horner (l ++ (c :: []))) (-1) 1) in H. rewrite <- Eq in H. assert (c * k = 0) as Z by lra. apply Rmult_integral in Z. lra.
Qed.
Print Assumptions C80_sharp.

Fixpoint moments (k : nat) (l : list R) : R := match l with [] => 0 | c :: l => c * (1 ^ S k / INR (S k) - (-1) ^ S k / INR (S k)) + moments (S k) l end.
Lemma shifted_Pol k l : Pol (k + length l) (fun t => t ^ k * horner l t).
Proof.
  induction k as [|k IH]; [apply (Pol_ext _ (horner l)); [intros; cbn; ring|]; exists l; split; [cbn; lia|reflexivity]|].
  apply (Pol_ext _ (fun t => t * (t ^ k * horner l t))); [intros; cbn; ring|]. apply Pol_mulx, IH.
Qed.
Lemma integral_moments k l : integral (fun t => t ^ k * horner l t) (-1) 1 = moments k l.
Proof.
  revert k. induction l as [|c l IH]; intros k.
  - cbn [moments]. rewrite (Pol_RInt_ext _ (fun t => 0 * t ^ 0)) by (intros; cbn [horner]; ring). rewrite integral_mono. ring.
  - cbn [moments]. rewrite <- IH, <- integral_pow, <- integral_mono. rewrite (Pol_RInt_ext _ (fun t => c * t ^ k + t ^ S k * horner l t)) by (intros; cbn; ring).
    apply (Pol_RInt_plus (S k + length l)); [apply Pol_const_mul_pow; lia|apply shifted_Pol].
Qed.
Lemma integral_horner f l : (forall t, f t = horner l t) -> integral f (-1) 1 = moments 0 l.
Proof. intros E. rewrite <- integral_moments. apply Pol_RInt_ext. intros t. rewrite E. cbn. ring. Qed.

Lemma on_square_product f g d : ex_int f -> Pol d g -> on_square (fun x => f (x 0%nat) * g (x 1%nat)) = integral f (-1) 1 * integral g (-1) 1.
Proof.
  intros F G. transitivity (on_square (fun x => 0 + f (x 0%nat) * g (x 1%nat))); [apply on_square_inside; intros; ring|].
  rewrite (on_square_sum (fun _ => 0) f g d) by (assumption || (exists []; reflexivity)).
  assert (Z : on_square (fun _ => 0) = 0); [|rewrite Z; ring]. unfold on_square. rewrite (Pol_RInt_ext _ (fun x => 0 * x ^ 0)); [rewrite integral_mono; ring|].
  intros x. rewrite (Pol_RInt_ext _ (fun x => 0 * x ^ 0)) by (intros; ring). rewrite integral_mono. ring.
Qed.
Lemma on_cube_product f g h d : ex_int f -> Pol d g -> Pol d h -> on_cube (fun x => f (x 0%nat) * g (x 1%nat) * h (x 2%nat)) = integral f (-1) 1 * integral g (-1) 1 * integral h (-1) 1.
Proof.
  intros F G H. transitivity (on_cube (fun x => 0 + f (x 0%nat) * g (x 1%nat) * h (x 2%nat))); [apply on_cube_inside; intros; ring|].
  rewrite (on_cube_sum (fun _ => 0) f g h d) by (assumption || (exists []; reflexivity)).
  assert (Z : on_cube (fun _ => 0) = 0); [|rewrite Z; ring]. unfold on_cube. rewrite (Pol_RInt_ext _ (fun x => 0 * x ^ 0)); [rewrite integral_mono; ring|].
  intros x. rewrite (Pol_RInt_ext _ (fun x => 0 * x ^ 0)); [rewrite integral_mono; ring|]. intros y. rewrite (Pol_RInt_ext _ (fun x => 0 * x ^ 0)) by (intros; ring). rewrite integral_mono. ring.
Qed.

Lemma hex_tensor root n q : hexahedron_gauss root n = Some q -> exists ws xs, gauss root n = Some (ws, xs) /\ length ws = length xs /\ q = hexahedron_tensor (ws, xs).
Proof.
  unfold hexahedron_gauss. destruct (gauss root n) as [[ws xs]|] eqn:E; [|discriminate]. intros H. injection H as <-. exists ws, xs. split; [reflexivity|]. split; [|reflexivity].
  destruct (proj2 (C80_shape root) n ws xs E) as (A & B & _). congruence.
Qed.
Lemma quad_tensor root n q : quadrilateral_gauss root n = Some q -> exists ws xs, gauss root n = Some (ws, xs) /\ length ws = length xs /\ q = quadrilateral_tensor (ws, xs).
Proof.
  unfold quadrilateral_gauss. destruct (gauss root n) as [[ws xs]|] eqn:E; [|discriminate]. intros H. injection H as <-. exists ws, xs. split; [reflexivity|]. split; [|reflexivity].
  destruct (proj2 (C80_shape root) n ws xs E) as (A & B & _). congruence.
Qed.

(** ** mass matrices *)
(** a frustum: the cross section grows with the first coordinate *)
Definition frustum : list point := map (fun v => pt [nth 0 v 0; (1 + nth 0 v 0 / 2) * nth 1 v 0; (1 + nth 0 v 0 / 2) * nth 2 v 0]) hex8_ref.
Lemma frustum_det x : det_map hex8 frustum x = (1 + x 0%nat / 2) * (1 + x 0%nat / 2).
Proof.
  unfold det_map. cbn [el_dim el_jacobian hex8 determinant]. unfold isoparametric_jacobian, frustum.
  cbn [hex8_ref map combine hex8_grads hex8_phi_grad pt nth]. unfold phi_linear_1d, phi_linear_1d_grad. field.
Qed.

Lemma mass_error root n q (phi det : point -> R) (f g h : R -> R) c r : (0 < n)%nat -> exact_search root n -> hexahedron_gauss root n = Some q ->
  (forall x, inside 3 x -> phi x * phi x * Rabs (det x) = f (x 0%nat) * g (x 1%nat) * h (x 2%nat)) ->
  (forall x, f x = c * x ^ (2 * n) + r x) -> Pol (2 * n) r -> c <> 0 -> Pol (2 * n) g -> Pol (2 * n) h -> 0 < integral g (-1) 1 -> 0 < integral h (-1) 1 ->
  rule_integrate q (fun x => phi x * phi x * Rabs (det x)) <> on_cube (fun x => phi x * phi x * Rabs (det x)).
Proof.
  intros N S E Pf Ef R C G H Gp Hp. destruct (hex_rule root n q N S E) as (In_ & _). destruct (hex_tensor root n q E) as (ws & xs & E1 & Len & ->).
  rewrite (rule_ext _ _ (fun x => f (x 0%nat) * g (x 1%nat) * h (x 2%nat))) by (intros x I; apply Pf, In_, I). rewrite (on_cube_inside _ _ Pf).
  destruct (C54_hexahedron (ws, xs) Len) as (_ & _ & Pr & _). rewrite Pr.
  assert (F : Pol (2 * n + 1) f).
  { apply (Pol_ext _ (fun x => c * x ^ (2 * n) + r x)); [intros; rewrite Ef; reflexivity|]. apply Pol_add; [apply Pol_const_mul_pow; lia|apply (Pol_le (2 * n)); [lia|exact R]]. }
  rewrite (on_cube_product f g h (2 * n)) by (assumption || (apply (ex_int_Pol (2 * n + 1)), F)).
  destruct (gauss_error root n ws xs N S E1 f c r R Ef) as (k & K & Er). rewrite Er.
  rewrite (exact1_Pol (2 * n) _ g (gauss_exact1 root n ws xs N S E1) G), (exact1_Pol (2 * n) _ h (gauss_exact1 root n ws xs N S E1) H). intros Eq.
  assert (c * k * (integral g (-1) 1 * integral h (-1) 1) = 0) as Z by lra. apply Rmult_integral in Z. destruct Z as [Z|Z]; [apply Rmult_integral in Z; lra|]. apply Rmult_integral in Z. lra.
Qed.

Ltac coefficients l := exists l; split; [cbn; lia|intros t; cbn; try field].

(** C81. "The quadrature exactly integrates" is false for hexahedra: on the frustum, an entry of the mass matrix is wrong. *)
Theorem C81_mass_refuted root triangle tetrahedron e q : exact_search root 2 -> exact_search root 3 ->
  In (e, Some q) (canonical_mass root triangle tetrahedron) -> el_corners e = 8%nat ->
  exists vs i, (forall x, (forall k, (k < el_dim e)%nat -> -1 < x k < 1) -> 0 < det_map e vs x) /\
    rule_integrate q (fun x => nth i (el_basis e x) 0 * nth i (el_basis e x) 0 * Rabs (det_map e vs x)) <>
    over_reference e (fun x => nth i (el_basis e x) 0 * nth i (el_basis e x) 0 * Rabs (det_map e vs x)).
Proof.
  intros S2 S3 HIn C8. cbn [canonical_mass In] in HIn. exists frustum.
  assert (Pos : forall x, inside 3 x -> 0 < (1 + x 0%nat / 2) * (1 + x 0%nat / 2)) by (intros x I; specialize (I 0%nat ltac:(lia)); apply Rmult_lt_0_compat; lra).
  repeat match type of HIn with _ \/ _ => destruct HIn as [HIn|HIn] end; [..|destruct HIn]; pose proof (f_equal fst HIn) as He; pose proof (f_equal snd HIn) as Hq; cbn [fst snd] in He, Hq; subst e; clear HIn;
    try discriminate C8.
  - exists 0%nat. split; [intros x I; rewrite frustum_det; exact (Pos x I)|].
    apply (mass_error root 2 q (fun x => nth 0 (el_basis hex8 x) 0) (det_map hex8 frustum) (fun t => (1 - t) * (1 - t) / 4 * ((1 + t / 2) * (1 + t / 2))) (fun t => (1 - t) * (1 - t) / 4) (fun t => (1 - t) * (1 - t) / 4)
      (1 / 16) (horner [1 / 4; - (1 / 4); - (3 / 16); 1 / 8])); try assumption; try lra; try lia.
    + intros x I. rewrite frustum_det, Rabs_pos_eq by (apply Rlt_le, Pos, I). cbn. unfold hex8_phi, phi_linear_1d. field.
    + intros t. cbn. field.
    + exists [1 / 4; - (1 / 4); - (3 / 16); 1 / 8]. split; [cbn; lia|reflexivity].
    + coefficients [1 / 4; - (1 / 2); 1 / 4].
    + coefficients [1 / 4; - (1 / 2); 1 / 4].
    + rewrite (integral_horner _ [1 / 4; - (1 / 2); 1 / 4]) by (intros; cbn; field). cbn. lra.
    + rewrite (integral_horner _ [1 / 4; - (1 / 2); 1 / 4]) by (intros; cbn; field). cbn. lra.
  - exists 8%nat. assert (D : forall x, det_map hex20 frustum x = (1 + x 0%nat / 2) * (1 + x 0%nat / 2)) by apply frustum_det. split; [intros x I; rewrite D; exact (Pos x I)|].
    apply (mass_error root 3 q (fun x => nth 8 (el_basis hex20 x) 0) (det_map hex20 frustum) (fun t => (1 - t * t) * (1 - t * t) / 16 * ((1 + t / 2) * (1 + t / 2))) (fun t => (1 - t) * (1 - t)) (fun t => (1 - t) * (1 - t))
      (1 / 64) (horner [1 / 16; 1 / 16; - (7 / 64); - (1 / 8); 1 / 32; 1 / 16])); try assumption; try lra; try lia.
    + intros x I. rewrite D, Rabs_pos_eq by (apply Rlt_le, Pos, I). cbn. unfold hex20_phi_edge. field.
    + intros t. cbn. field.
    + exists [1 / 16; 1 / 16; - (7 / 64); - (1 / 8); 1 / 32; 1 / 16]. split; [cbn; lia|reflexivity].
    + coefficients [1; -2; 1].
    + coefficients [1; -2; 1].
    + rewrite (integral_horner _ [1; -2; 1]) by (intros; cbn; field). cbn. lra.
    + rewrite (integral_horner _ [1; -2; 1]) by (intros; cbn; field). cbn. lra.
  - exists 0%nat. assert (D : forall x, det_map hex27 frustum x = (1 + x 0%nat / 2) * (1 + x 0%nat / 2)) by apply frustum_det. split; [intros x I; rewrite D; exact (Pos x I)|].
    apply (mass_error root 3 q (fun x => nth 0 (el_basis hex27 x) 0) (det_map hex27 frustum) (fun t => (t * t - t) * (t * t - t) / 4 * ((1 + t / 2) * (1 + t / 2))) (fun t => (t * t - t) * (t * t - t) / 4) (fun t => (t * t - t) * (t * t - t) / 4)
      (1 / 16) (horner [0; 0; 1 / 4; - (1 / 4); - (3 / 16); 1 / 8])); try assumption; try lra; try lia.
    + intros x I. rewrite D, Rabs_pos_eq by (apply Rlt_le, Pos, I). cbn. unfold hex27_phi, phi_quadratic_1d. field.
    + intros t. cbn. field.
    + exists [0; 0; 1 / 4; - (1 / 4); - (3 / 16); 1 / 8]. split; [cbn; lia|reflexivity].
    + coefficients [0; 0; 1 / 4; - (1 / 2); 1 / 4].
    + coefficients [0; 0; 1 / 4; - (1 / 2); 1 / 4].
    + rewrite (integral_horner _ [0; 0; 1 / 4; - (1 / 2); 1 / 4]) by (intros; cbn; field). cbn. lra.
    + rewrite (integral_horner _ [0; 0; 1 / 4; - (1 / 2); 1 / 4]) by (intros; cbn; field). cbn. lra.
Qed.
Print Assumptions C81_mass_refuted.

(** ** stiffness matrices *)
(** a trapezoid, and the hexahedron over it: the second coordinate is stretched with the first *)
Definition trapezoid : list point := map (fun v => pt [nth 0 v 0; (1 + nth 0 v 0 / 2) * nth 1 v 0]) quad4_ref.
Definition prism : list point := map (fun v => pt [nth 0 v 0; (1 + nth 0 v 0 / 2) * nth 1 v 0; nth 2 v 0]) hex8_ref.

(** Jacobian [[1, 0], [y/2, 1 + x/2]] *)
Lemma trapezoid_jacobian x : el_jacobian quad4 trapezoid x 0%nat 0%nat = 1 /\ el_jacobian quad4 trapezoid x 0%nat 1%nat = 0 /\
  el_jacobian quad4 trapezoid x 1%nat 0%nat = x 1%nat / 2 /\ el_jacobian quad4 trapezoid x 1%nat 1%nat = 1 + x 0%nat / 2.
Proof.
  cbn [el_jacobian quad4]. unfold isoparametric_jacobian, trapezoid. cbn [quad4_ref map combine quad4_grads quad4_phi_grad pt nth]. repeat split; field.
Qed.
Lemma trapezoid_det x : det_map quad4 trapezoid x = 1 + x 0%nat / 2.
Proof. unfold det_map. cbn [el_dim quad4 determinant]. fold quad4. destruct (trapezoid_jacobian x) as (-> & -> & -> & ->). ring. Qed.
Lemma prism_jacobian x : (el_jacobian hex8 prism x 0%nat 0%nat = 1 /\ el_jacobian hex8 prism x 0%nat 1%nat = 0 /\ el_jacobian hex8 prism x 0%nat 2%nat = 0) /\
  (el_jacobian hex8 prism x 1%nat 0%nat = x 1%nat / 2 /\ el_jacobian hex8 prism x 1%nat 1%nat = 1 + x 0%nat / 2 /\ el_jacobian hex8 prism x 1%nat 2%nat = 0) /\
  el_jacobian hex8 prism x 2%nat 0%nat = 0 /\ el_jacobian hex8 prism x 2%nat 1%nat = 0 /\ el_jacobian hex8 prism x 2%nat 2%nat = 1.
Proof.
  cbn [el_jacobian hex8]. unfold isoparametric_jacobian, prism. cbn [hex8_ref map combine hex8_grads hex8_phi_grad pt nth]. unfold phi_linear_1d, phi_linear_1d_grad. repeat split; field.
Qed.
Lemma prism_det x : det_map hex8 prism x = 1 + x 0%nat / 2.
Proof. unfold det_map. cbn [el_dim hex8 determinant]. fold hex8. destruct (prism_jacobian x) as ((-> & -> & ->) & (-> & -> & ->) & -> & -> & ->). ring. Qed.

(** the physical gradient for the reference gradient h *)
Definition trapezoid_gradient (h : point -> nat -> R) (x : point) (m : nat) : R :=
  match m with 0%nat => h x 0%nat - x 1%nat * h x 1%nat / (2 + x 0%nat) | 1%nat => 2 * h x 1%nat / (2 + x 0%nat) | _ => h x m end.

Lemma Deg_pol_x d p : Pol (S d) p -> Deg d d 0 0 (fun x => p (x 0%nat)).
Proof. intros P. eapply Deg_weaken; cycle 4; [exact (Deg_pol _ _ _ _ _ d p Deg_x P)|lia..]. Qed.
Lemma Deg_pol_y d p : Pol (S d) p -> Deg d 0 d 0 (fun x => p (x 1%nat)).
Proof. intros P. eapply Deg_weaken; cycle 4; [exact (Deg_pol _ _ _ _ _ d p Deg_y P)|lia..]. Qed.
Lemma Deg_pol_z d p : Pol (S d) p -> Deg d 0 0 d (fun x => p (x 2%nat)).
Proof. intros P. eapply Deg_weaken; cycle 4; [exact (Deg_pol _ _ _ _ _ d p Deg_z P)|lia..]. Qed.
Lemma Poly_some S f : Poly S f -> exists p, forall x, f x = peval p x.
Proof. intros (p & _ & H). exists p. exact H. Qed.

Lemma ex_int_reciprocal f d : Pol d f -> ex_int (fun t => f t / (2 + t)).
Proof. apply reciprocal_ex. Qed.

Section errors.
Variables (root : nat -> nat -> option R) (d : nat) (p p' q q' r r' : R -> R).
Hypothesis S : exact_search root (Datatypes.S d).
Hypothesis Hp : Pol (Datatypes.S d) p.
Hypothesis Hp' : Pol (Datatypes.S d) p'.
Hypothesis Hq : Pol (Datatypes.S d) q.
Hypothesis Hq' : Pol (Datatypes.S d) q'.
Hypothesis Hr : Pol (Datatypes.S d) r.
Hypothesis Hr' : Pol (Datatypes.S d) r'.
Hypothesis P2 : p (-2) <> 0.
Hypothesis Gp : 0 < integral (fun t => (t * t / 2 + 2) * (q' t * q' t)) (-1) 1.
Hypothesis Rp : 0 < integral (fun t => r t * r t) (-1) 1.

Lemma square_error rl (det : point -> R) (G : point -> nat -> R) : quadrilateral_gauss root (Datatypes.S d) = Some rl -> (forall x, det x = 1 + x 0%nat / 2) ->
  Pol (2 * Datatypes.S d) (fun t => (t * t / 2 + 2) * (q' t * q' t)) ->
  (forall x, G x 0%nat = p' (x 0%nat) * q (x 1%nat) - x 1%nat * (p (x 0%nat) * q' (x 1%nat)) / (2 + x 0%nat)) -> (forall x, G x 1%nat = 2 * (p (x 0%nat) * q' (x 1%nat)) / (2 + x 0%nat)) ->
  rule_integrate rl (fun x => vdot 2 (G x) (G x) * Rabs (det x)) <> on_square (fun x => vdot 2 (G x) (G x) * Rabs (det x)).
Proof.
  intros E Hd Hg' G0 G1. destruct (quad_rule root (Datatypes.S d) rl ltac:(lia) S E) as (In_ & X). destruct (quad_tensor root _ rl E) as (ws & xs & E1 & Len & ->).
  set (A := fun x : point => (1 + x 0%nat / 2) * (p' (x 0%nat) * p' (x 0%nat) * (q (x 1%nat) * q (x 1%nat))) - x 1%nat * (p (x 0%nat) * p' (x 0%nat) * (q (x 1%nat) * q' (x 1%nat)))).
  set (f := fun t => p t * p t / (2 + t)). set (g := fun t => (t * t / 2 + 2) * (q' t * q' t)).
  assert (Ef : forall x, inside 2 x -> vdot 2 (G x) (G x) * Rabs (det x) = A x + f (x 0%nat) * g (x 1%nat)).
  { intros x I. specialize (I 0%nat ltac:(lia)). rewrite Hd, Rabs_pos_eq by lra. unfold vdot. cbn [summ]. rewrite G0, G1. unfold A, f, g. field. lra. }
  rewrite (rule_ext _ _ (fun x => A x + f (x 0%nat) * g (x 1%nat))) by (intros x I; apply Ef, In_, I). rewrite (on_square_inside _ _ Ef).
  assert (DA : Poly (each_degree 2 (2 * Datatypes.S d - 1)) A).
  { pose proof (Deg_pol_x d p Hp). pose proof (Deg_pol_x d p' Hp'). pose proof (Deg_pol_y d q Hq). pose proof (Deg_pol_y d q' Hq').
    apply (Deg_each2 (4 * d + 1) (2 * d + 1) (2 * d + 1)); [|lia|lia]. unfold A. eapply Deg_weaken; cycle 4; [deg|lia..]. }
  rewrite rule_plus, (X A DA). rewrite (on_square_sum A f g (2 * Datatypes.S d)); [|apply (Poly_some _ _ DA)|apply (ex_int_reciprocal _ (Datatypes.S (d + d))), Pol_mul; exact Hp|exact Hg'].
  destruct (C54_quadrilateral (ws, xs) Len) as (_ & _ & Pr & _). rewrite Pr. rewrite (exact1_Pol (2 * Datatypes.S d) _ g (gauss_exact1 root (Datatypes.S d) ws xs (Nat.lt_0_succ d) S E1) Hg').
  destruct (gauss_reciprocal root (Datatypes.S d) ws xs ltac:(lia) S E1) as (k & K & Er).
  assert (Hpp : Pol (2 * Datatypes.S d + 1) (fun t => p t * p t)) by (apply (Pol_le (Datatypes.S (d + d))); [lia|apply Pol_mul; exact Hp]).
  specialize (Er _ Hpp). cbv beta in Er. fold f in Er. rewrite Er. intros Eq.
  assert (p (-2) * p (-2) * k * integral g (-1) 1 = 0) as Z by lra. pose proof (Rlt_0_sqr _ P2) as P3. unfold Rsqr in P3.
  assert (0 < p (-2) * p (-2) * k * integral g (-1) 1) by (apply Rmult_lt_0_compat; [apply Rmult_lt_0_compat; assumption|exact Gp]). lra.
Qed.

Lemma cube_error rl (det : point -> R) (G : point -> nat -> R) : hexahedron_gauss root (Datatypes.S d) = Some rl -> (forall x, det x = 1 + x 0%nat / 2) ->
  Pol (2 * Datatypes.S d) (fun t => (t * t / 2 + 2) * (q' t * q' t)) ->
  (forall x, G x 0%nat = p' (x 0%nat) * q (x 1%nat) * r (x 2%nat) - x 1%nat * (p (x 0%nat) * q' (x 1%nat) * r (x 2%nat)) / (2 + x 0%nat)) ->
  (forall x, G x 1%nat = 2 * (p (x 0%nat) * q' (x 1%nat) * r (x 2%nat)) / (2 + x 0%nat)) -> (forall x, G x 2%nat = p (x 0%nat) * q (x 1%nat) * r' (x 2%nat)) ->
  rule_integrate rl (fun x => vdot 3 (G x) (G x) * Rabs (det x)) <> on_cube (fun x => vdot 3 (G x) (G x) * Rabs (det x)).
Proof.
  intros E Hd Hg' G0 G1 G2. destruct (hex_rule root (Datatypes.S d) rl ltac:(lia) S E) as (In_ & X). destruct (hex_tensor root _ rl E) as (ws & xs & E1 & Len & ->).
  set (A := fun x : point => (1 + x 0%nat / 2) * (p' (x 0%nat) * p' (x 0%nat) * (q (x 1%nat) * q (x 1%nat)) * (r (x 2%nat) * r (x 2%nat))) - x 1%nat * (p (x 0%nat) * p' (x 0%nat) * (q (x 1%nat) * q' (x 1%nat)) * (r (x 2%nat) * r (x 2%nat)))
    + (1 + x 0%nat / 2) * (p (x 0%nat) * p (x 0%nat) * (q (x 1%nat) * q (x 1%nat)) * (r' (x 2%nat) * r' (x 2%nat)))).
  set (f := fun t => p t * p t / (2 + t)). set (g := fun t => (t * t / 2 + 2) * (q' t * q' t)). set (h := fun t => r t * r t).
  assert (Ef : forall x, inside 3 x -> vdot 3 (G x) (G x) * Rabs (det x) = A x + f (x 0%nat) * g (x 1%nat) * h (x 2%nat)).
  { intros x I. specialize (I 0%nat ltac:(lia)). rewrite Hd, Rabs_pos_eq by lra. unfold vdot. cbn [summ]. rewrite G0, G1, G2. unfold A, f, g, h. field. lra. }
  rewrite (rule_ext _ _ (fun x => A x + f (x 0%nat) * g (x 1%nat) * h (x 2%nat))) by (intros x I; apply Ef, In_, I). rewrite (on_cube_inside _ _ Ef).
  assert (DA : Poly (each_degree 3 (2 * Datatypes.S d - 1)) A).
  { pose proof (Deg_pol_x d p Hp). pose proof (Deg_pol_x d p' Hp'). pose proof (Deg_pol_y d q Hq). pose proof (Deg_pol_y d q' Hq'). pose proof (Deg_pol_z d r Hr). pose proof (Deg_pol_z d r' Hr').
    apply (Deg_each3 (6 * d + 1) (2 * d + 1) (2 * d + 1) (2 * d + 1)); [|lia..]. unfold A. eapply Deg_weaken; cycle 4; [deg|lia..]. }
  assert (Hh : Pol (2 * Datatypes.S d) h) by (apply (Pol_le (Datatypes.S (d + d))); [lia|apply Pol_mul; exact Hr]).
  rewrite rule_plus, (X A DA). rewrite (on_cube_sum A f g h (2 * Datatypes.S d)); [|apply (Poly_some _ _ DA)|apply (ex_int_reciprocal _ (Datatypes.S (d + d))), Pol_mul; exact Hp|exact Hg'|exact Hh].
  destruct (C54_hexahedron (ws, xs) Len) as (_ & _ & Pr & _). rewrite Pr. rewrite (exact1_Pol (2 * Datatypes.S d) _ g (gauss_exact1 root (Datatypes.S d) ws xs (Nat.lt_0_succ d) S E1) Hg'), (exact1_Pol (2 * Datatypes.S d) _ h (gauss_exact1 root (Datatypes.S d) ws xs (Nat.lt_0_succ d) S E1) Hh).
  destruct (gauss_reciprocal root (Datatypes.S d) ws xs ltac:(lia) S E1) as (k & K & Er).
  assert (Hpp : Pol (2 * Datatypes.S d + 1) (fun t => p t * p t)) by (apply (Pol_le (Datatypes.S (d + d))); [lia|apply Pol_mul; exact Hp]).
  specialize (Er _ Hpp). cbv beta in Er. fold f in Er. rewrite Er. intros Eq. fold g in Gp. fold h in Rp.
  assert (p (-2) * p (-2) * k * (integral g (-1) 1 * integral h (-1) 1) = 0) as Z by lra. pose proof (Rlt_0_sqr _ P2) as P3. unfold Rsqr in P3.
  assert (0 < p (-2) * p (-2) * k * (integral g (-1) 1 * integral h (-1) 1)) by (apply Rmult_lt_0_compat; apply Rmult_lt_0_compat; assumption || (apply Rmult_lt_0_compat; assumption)). lra.
Qed.
End errors.

(** C81. "The quadrature exactly integrates" is false for the stiffness of all quadrilaterals and hexahedra: on the trapezoid and the prism over it, an entry is wrong. *)
Theorem C81_stiffness_refuted root triangle tetrahedron e rl : exact_search root 2 -> exact_search root 3 ->
  In (e, Some rl) (canonical_stiffness root triangle tetrahedron) -> el_corners e = (2 ^ el_dim e)%nat ->
  exists vs i G, (forall x, (forall k, (k < el_dim e)%nat -> -1 < x k < 1) -> 0 < det_map e vs x /\ physical_gradient e vs i x (G x)) /\
    rule_integrate rl (fun x => vdot (el_dim e) (G x) (G x) * Rabs (det_map e vs x)) <> over_reference e (fun x => vdot (el_dim e) (G x) (G x) * Rabs (det_map e vs x)).
Proof.
  intros S2 S3 HIn C8. cbn [canonical_stiffness In] in HIn.
  assert (Quad : forall e i, el_dim e = 2%nat -> (forall x, el_jacobian e trapezoid x = el_jacobian quad4 trapezoid x) -> forall x, inside 2 x ->
    0 < det_map e trapezoid x /\ physical_gradient e trapezoid i x (trapezoid_gradient (fun x k => nth k (nth i (el_grads e x) []) 0) x)).
  { clear. intros e i D J x I. specialize (I 0%nat ltac:(lia)). split; [unfold det_map; rewrite D, J; pose proof (trapezoid_det x) as H; unfold det_map in H; cbn [el_dim quad4] in H; fold quad4 in H; rewrite H; lra|].
    intros k Hk. rewrite D in *. rewrite J. destruct (trapezoid_jacobian x) as (J0 & J1 & J2 & J3). cbn [summ trapezoid_gradient].
    destruct k as [|[|k]]; [rewrite J0, J2|rewrite J1, J3|lia]; field; lra. }
  assert (Hex : forall e i, el_dim e = 3%nat -> (forall x, el_jacobian e prism x = el_jacobian hex8 prism x) -> forall x, inside 3 x ->
    0 < det_map e prism x /\ physical_gradient e prism i x (trapezoid_gradient (fun x k => nth k (nth i (el_grads e x) []) 0) x)).
  { clear. intros e i D J x I. specialize (I 0%nat ltac:(lia)). split; [unfold det_map; rewrite D, J; pose proof (prism_det x) as H; unfold det_map in H; cbn [el_dim hex8] in H; fold hex8 in H; rewrite H; lra|].
    intros k Hk. rewrite D in *. rewrite J. destruct (prism_jacobian x) as ((J0 & J1 & J2) & (J3 & J4 & J5) & J6 & J7 & J8). cbn [summ trapezoid_gradient].
    destruct k as [|[|[|k]]]; [rewrite J0, J3, J6|rewrite J1, J4, J7|rewrite J2, J5, J8|lia]; field; lra. }
  repeat match type of HIn with _ \/ _ => destruct HIn as [HIn|HIn] end; [..|destruct HIn]; pose proof (f_equal fst HIn) as He; pose proof (f_equal snd HIn) as Hq; cbn [fst snd] in He, Hq; subst e; clear HIn;
    try discriminate C8.
  - exists trapezoid, 0%nat, (trapezoid_gradient (fun x k => nth k (nth 0 (el_grads quad4 x) []) 0)). split; [apply (Quad quad4 0%nat); reflexivity|].
    assert (H0 : forall x, nth 0 (nth 0 (el_grads quad4 x) []) 0 = - (1 / 4) * (1 - x 1%nat)) by (intros; cbn; field).
    assert (H1 : forall x, nth 1 (nth 0 (el_grads quad4 x) []) 0 = (1 - x 0%nat) / 4 * -1) by (intros; cbn; field).
    apply (square_error root 1 (fun t => (1 - t) / 4) (fun _ => - (1 / 4)) (fun t => 1 - t) (fun _ => -1) S2); try assumption.
    + coefficients [1 / 4; - (1 / 4)].
    + coefficients [- (1 / 4)].
    + coefficients [1; -1].
    + coefficients [-1].
    + lra.
    + rewrite (integral_horner _ [2; 0; 1 / 2]) by (intros; cbn; field). cbn. lra.
    + apply trapezoid_det.
    + coefficients [2; 0; 1 / 2].
    + intros x. cbn [trapezoid_gradient]. rewrite H0, H1. reflexivity.
    + intros x. cbn [trapezoid_gradient]. rewrite H1. reflexivity.
  - exists trapezoid, 0%nat, (trapezoid_gradient (fun x k => nth k (nth 0 (el_grads quad9 x) []) 0)). split; [apply (Quad quad9 0%nat); reflexivity|].
    assert (H0 : forall x, nth 0 (nth 0 (el_grads quad9 x) []) 0 = (x 0%nat - 1 / 2) * ((x 1%nat * x 1%nat - x 1%nat) / 2)) by (intros; cbn; unfold quad9_phi_1d, quad9_phi_grad_1d; field).
    assert (H1 : forall x, nth 1 (nth 0 (el_grads quad9 x) []) 0 = (x 0%nat * x 0%nat - x 0%nat) / 2 * (x 1%nat - 1 / 2)) by (intros; cbn; unfold quad9_phi_1d, quad9_phi_grad_1d; field).
    apply (square_error root 2 (fun t => (t * t - t) / 2) (fun t => t - 1 / 2) (fun t => (t * t - t) / 2) (fun t => t - 1 / 2) S3); try assumption.
    + coefficients [0; - (1 / 2); 1 / 2].
    + coefficients [- (1 / 2); 1].
    + coefficients [0; - (1 / 2); 1 / 2].
    + coefficients [- (1 / 2); 1].
    + lra.
    + rewrite (integral_horner _ [1 / 2; -2; 17 / 8; - (1 / 2); 1 / 2]) by (intros; cbn; field). cbn. lra.
    + apply trapezoid_det.
    + coefficients [1 / 2; -2; 17 / 8; - (1 / 2); 1 / 2].
    + intros x. cbn [trapezoid_gradient]. rewrite H0, H1. reflexivity.
    + intros x. cbn [trapezoid_gradient]. rewrite H1. reflexivity.
  - exists prism, 0%nat, (trapezoid_gradient (fun x k => nth k (nth 0 (el_grads hex8 x) []) 0)). split; [apply (Hex hex8 0%nat); reflexivity|].
    assert (H0 : forall x, nth 0 (nth 0 (el_grads hex8 x) []) 0 = - (1 / 8) * (1 - x 1%nat) * (1 - x 2%nat)) by (intros; cbn; unfold phi_linear_1d, phi_linear_1d_grad; field).
    assert (H1 : forall x, nth 1 (nth 0 (el_grads hex8 x) []) 0 = (1 - x 0%nat) / 8 * -1 * (1 - x 2%nat)) by (intros; cbn; unfold phi_linear_1d, phi_linear_1d_grad; field).
    assert (H2 : forall x, nth 2 (nth 0 (el_grads hex8 x) []) 0 = (1 - x 0%nat) / 8 * (1 - x 1%nat) * -1) by (intros; cbn; unfold phi_linear_1d, phi_linear_1d_grad; field).
    apply (cube_error root 1 (fun t => (1 - t) / 8) (fun _ => - (1 / 8)) (fun t => 1 - t) (fun _ => -1) (fun t => 1 - t) (fun _ => -1) S2); try assumption.
    + coefficients [1 / 8; - (1 / 8)].
    + coefficients [- (1 / 8)].
    + coefficients [1; -1].
    + coefficients [-1].
    + coefficients [1; -1].
    + coefficients [-1].
    + lra.
    + rewrite (integral_horner _ [2; 0; 1 / 2]) by (intros; cbn; field). cbn. lra.
    + rewrite (integral_horner _ [1; -2; 1]) by (intros; cbn; field). cbn. lra.
    + apply prism_det.
    + coefficients [2; 0; 1 / 2].
    + intros x. cbn [trapezoid_gradient]. rewrite H0, H1. reflexivity.
    + intros x. cbn [trapezoid_gradient]. rewrite H1. reflexivity.
  - exists prism, 8%nat, (trapezoid_gradient (fun x k => nth k (nth 8 (el_grads hex20 x) []) 0)). split; [apply (Hex hex20 8%nat); reflexivity|].
    assert (H0 : forall x, nth 0 (nth 8 (el_grads hex20 x) []) 0 = - (x 0%nat / 2) * (1 - x 1%nat) * (1 - x 2%nat)) by (intros; cbn; field).
    assert (H1 : forall x, nth 1 (nth 8 (el_grads hex20 x) []) 0 = (1 - x 0%nat * x 0%nat) / 4 * -1 * (1 - x 2%nat)) by (intros; cbn; field).
    assert (H2 : forall x, nth 2 (nth 8 (el_grads hex20 x) []) 0 = (1 - x 0%nat * x 0%nat) / 4 * (1 - x 1%nat) * -1) by (intros; cbn; field).
    apply (cube_error root 2 (fun t => (1 - t * t) / 4) (fun t => - (t / 2)) (fun t => 1 - t) (fun _ => -1) (fun t => 1 - t) (fun _ => -1) S3); try assumption.
    + coefficients [1 / 4; 0; - (1 / 4)].
    + coefficients [0; - (1 / 2)].
    + coefficients [1; -1].
    + coefficients [-1].
    + coefficients [1; -1].
    + coefficients [-1].
    + lra.
    + rewrite (integral_horner _ [2; 0; 1 / 2]) by (intros; cbn; field). cbn. lra.
    + rewrite (integral_horner _ [1; -2; 1]) by (intros; cbn; field). cbn. lra.
    + apply prism_det.
    + coefficients [2; 0; 1 / 2].
    + intros x. cbn [trapezoid_gradient]. rewrite H0, H1. reflexivity.
    + intros x. cbn [trapezoid_gradient]. rewrite H1. reflexivity.
  - exists prism, 0%nat, (trapezoid_gradient (fun x k => nth k (nth 0 (el_grads hex27 x) []) 0)). split; [apply (Hex hex27 0%nat); reflexivity|].
    assert (H0 : forall x, nth 0 (nth 0 (el_grads hex27 x) []) 0 = (x 0%nat - 1 / 2) * ((x 1%nat * x 1%nat - x 1%nat) / 2) * ((x 2%nat * x 2%nat - x 2%nat) / 2))
      by (intros; cbn; unfold phi_quadratic_1d, phi_quadratic_1d_grad; field).
    assert (H1 : forall x, nth 1 (nth 0 (el_grads hex27 x) []) 0 = (x 0%nat * x 0%nat - x 0%nat) / 2 * (x 1%nat - 1 / 2) * ((x 2%nat * x 2%nat - x 2%nat) / 2))
      by (intros; cbn; unfold phi_quadratic_1d, phi_quadratic_1d_grad; field).
    assert (H2 : forall x, nth 2 (nth 0 (el_grads hex27 x) []) 0 = (x 0%nat * x 0%nat - x 0%nat) / 2 * ((x 1%nat * x 1%nat - x 1%nat) / 2) * (x 2%nat - 1 / 2))
      by (intros; cbn; unfold phi_quadratic_1d, phi_quadratic_1d_grad; field).
    apply (cube_error root 2 (fun t => (t * t - t) / 2) (fun t => t - 1 / 2) (fun t => (t * t - t) / 2) (fun t => t - 1 / 2) (fun t => (t * t - t) / 2) (fun t => t - 1 / 2) S3); try assumption.
    + coefficients [0; - (1 / 2); 1 / 2].
    + coefficients [- (1 / 2); 1].
    + coefficients [0; - (1 / 2); 1 / 2].
    + coefficients [- (1 / 2); 1].
    + coefficients [0; - (1 / 2); 1 / 2].
    + coefficients [- (1 / 2); 1].
    + lra.
    + rewrite (integral_horner _ [1 / 2; -2; 17 / 8; - (1 / 2); 1 / 2]) by (intros; cbn; field). cbn. lra.
    + rewrite (integral_horner _ [0; 0; 1 / 4; - (1 / 2); 1 / 4]) by (intros; cbn; field). cbn. lra.
    + apply prism_det.
    + coefficients [1 / 2; -2; 17 / 8; - (1 / 2); 1 / 2].
    + intros x. cbn [trapezoid_gradient]. rewrite H0, H1. reflexivity.
    + intros x. cbn [trapezoid_gradient]. rewrite H1. reflexivity.
Qed.
Print Assumptions C81_stiffness_refuted.

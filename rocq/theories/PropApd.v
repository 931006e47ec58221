(** Property C96: the analytic polar decomposition. *)
From Coq Require Import List Reals Lia Lra Psatz.
From Coquelicot Require Import Coquelicot.
From Verif Require Import ApdModel ApdSpec.
Import ListNotations.
Local Open Scope R_scope.

Ltac entries := unfold along, true_hessian, quad_form, dist2, sum3, mul3, transpose, det3, delta, tr_mul, to_rotation, rows3, vec, dot, qmul; cbn.

(** ** Quaternions *)
Definition qnorm2 (q : quat) : R := qw q * qw q + qi q * qi q + qj q * qj q + qk q * qk q.
Lemma qnorm2_mul a b : qnorm2 (qmul a b) = qnorm2 a * qnorm2 b.
Proof. unfold qnorm2, qmul; cbn. ring. Qed.
Lemma dot_nonneg x : 0 <= dot x x.
Proof. unfold dot. nra. Qed.
Lemma cayley_unit o : unit (cayley o).
Proof.
  unfold unit, cayley. cbn. pose proof (dot_nonneg o) as Hn. set (l := dot o o) in *.
  assert (o 0%nat * o 0%nat + o 1%nat * o 1%nat + o 2%nat * o 2%nat = l) as Hl by reflexivity. clearbody l.
  transitivity (((1 - l) * (1 - l) + 4 * (o 0%nat * o 0%nat + o 1%nat * o 1%nat + o 2%nat * o 2%nat)) / ((1 + l) * (1 + l))); [field; lra|].
  rewrite Hl. field. lra.
Qed.
Lemma mul_unit a b : unit a -> unit b -> unit (qmul a b).
Proof. intros Ha Hb. change (qnorm2 (qmul a b) = 1). rewrite qnorm2_mul. change (qnorm2 a = 1) in Ha. change (qnorm2 b = 1) in Hb. rewrite Ha, Hb. ring. Qed.

Lemma index3 (i : nat) : (i < 3)%nat -> i = 0%nat \/ i = 1%nat \/ i = 2%nat.
Proof. lia. Qed.

Lemma rotation_of_unit q : unit q -> rotation (to_rotation q).
Proof.
  intros Hu. change (qnorm2 q = 1) in Hu. split.
  - intros i j Hi Hj. transitivity (qnorm2 q * qnorm2 q * delta i j); [|rewrite Hu; ring]. unfold qnorm2.
    destruct (index3 i Hi) as [->|[->| ->]], (index3 j Hj) as [->|[->| ->]]; entries; ring.
  - transitivity (qnorm2 q * qnorm2 q * qnorm2 q); [|rewrite Hu; ring]. unfold qnorm2. entries. ring.
Qed.

(** ** The squared distance of a rotation from the matrix *)
Definition inner (A B : mat3) : R := sum3 (fun r => sum3 (fun c => A r c * B r c)).

Lemma dist2_unit F q : unit q -> dist2 F (to_rotation q) = inner F F + 3 - 2 * inner F (to_rotation q).
Proof.
  intros Hu. change (qnorm2 q = 1) in Hu. transitivity (inner F F + 3 * (qnorm2 q * qnorm2 q) - 2 * inner F (to_rotation q)); [|rewrite Hu; ring].
  unfold qnorm2, inner. entries. ring.
Qed.
Lemma inner_product F q p : inner F (to_rotation (qmul q p)) = inner (tr_mul (to_rotation q) F) (to_rotation p).
Proof. unfold inner. entries. ring. Qed.

Lemma dist2_step F q p : unit q -> unit p ->
  let B := tr_mul (to_rotation q) F in let v := vec (qi p) (qj p) (qk p) in
  dist2 F (to_rotation (qmul q p)) = dist2 F (to_rotation q) + 4 * quad_form (true_hessian B) v + 4 * (qw p * dot v (apd_gradient B)).
Proof.
  intros Hq Hp B v. rewrite (dist2_unit F (qmul q p)) by (apply mul_unit; assumption). rewrite (dist2_unit F q) by assumption. rewrite inner_product. fold B.
  assert (inner F (to_rotation q) = B 0%nat 0%nat + B 1%nat 1%nat + B 2%nat 2%nat) as ->.
  { unfold B, inner. entries. ring. }
  clearbody B. unfold unit in Hp.
  transitivity (inner F F + 3 - 2 * (inner B (to_rotation p) + (1 - (qw p * qw p + qi p * qi p + qj p * qj p + qk p * qk p)) * (B 0%nat 0%nat + B 1%nat 1%nat + B 2%nat 2%nat)));
    [rewrite Hp; ring|].
  unfold inner, v, apd_gradient. entries. field.
Qed.

(** C96: the distance along the curve, exactly. *)
Lemma along_dist F q o t : unit q -> let B := tr_mul (to_rotation q) F in let n := dot o o in
  dist2 F (along q o t) = dist2 F (to_rotation q)
    + (16 * quad_form (true_hessian B) o * (t * t) + 8 * dot o (apd_gradient B) * (t * (1 - n * (t * t)))) / ((1 + n * (t * t)) * (1 + n * (t * t))).
Proof.
  intros Hq B n. unfold along. rewrite (dist2_step F q (cayley (fun i => t * o i)) Hq (cayley_unit _)). fold B. clearbody B.
  assert (dot (fun i => t * o i) (fun i => t * o i) = n * (t * t)) as Hd by (unfold n, dot; ring).
  pose proof (dot_nonneg o) as Hn. fold n in Hn. assert (0 <= n * (t * t)) as Hp by (apply Rmult_le_pos; nra).
  unfold cayley. rewrite Hd. clearbody n. cbn [qw qi qj qk]. generalize dependent (true_hessian B). intros Ht. unfold quad_form, dot, sum3, vec. cbn [nth].
  field. nra.
Qed.

(** C96: [gradient] is the gradient of the squared distance of the rotation from the matrix (up to the factor 8), along the curves
    that the iteration moves on, and tr(B) I - sym(B) its Hessian. *)
Theorem C96_gradient : forall F q o, unit q ->
  is_derive (fun t => dist2 F (along q o t)) 0 (8 * dot o (apd_gradient (tr_mul (to_rotation q) F))).
Proof.
  intros F q o Hq. pose proof (dot_nonneg o) as Hn.
  eapply is_derive_ext; [intros t; symmetry; apply (along_dist F q o t Hq)|].
  generalize (dist2 F (to_rotation q)) (quad_form (true_hessian (tr_mul (to_rotation q) F)) o) (dot o (apd_gradient (tr_mul (to_rotation q) F))).
  intros K h c. generalize dependent (dot o o). intros n Hn. auto_derive; [nra|]. field.
Qed.
Print Assumptions C96_gradient.

Lemma second_derivative K h c n : 0 <= n ->
  is_derive_n (fun t => K + (16 * h * (t * t) + 8 * c * (t * (1 - n * (t * t)))) / ((1 + n * (t * t)) * (1 + n * (t * t)))) 2 0 (32 * h).
Proof.
  intros Hn.
  set (f' := fun t => (32 * h * t + 8 * c * (1 - 3 * n * (t * t))) / ((1 + n * (t * t)) * (1 + n * (t * t)))
    - (16 * h * (t * t) + 8 * c * (t * (1 - n * (t * t)))) * (4 * n * t) / ((1 + n * (t * t)) * (1 + n * (t * t)) * (1 + n * (t * t)))).
  change (is_derive (Derive_n (fun t => K + (16 * h * (t * t) + 8 * c * (t * (1 - n * (t * t)))) / ((1 + n * (t * t)) * (1 + n * (t * t)))) 1) 0 (32 * h)).
  apply (is_derive_ext f').
  - intros t. symmetry. cbn [Derive_n]. apply is_derive_unique. assert (0 <= n * (t * t)) as Hp by (apply Rmult_le_pos; nra). auto_derive; [nra|].
    unfold f'. field. nra.
  - unfold f'. auto_derive; [nra|]. field.
Qed.

Theorem C96_hessian : forall F q o, unit q ->
  is_derive_n (fun t => dist2 F (along q o t)) 2 0 (32 * quad_form (true_hessian (tr_mul (to_rotation q) F)) o).
Proof.
  intros F q o Hq. eapply is_derive_n_ext; [intros t; symmetry; apply (along_dist F q o t Hq)|].
  apply second_derivative, dot_nonneg.
Qed.
Print Assumptions C96_hessian.

(** C96: the matrix called Hessian in the code has the off-diagonal entries with the wrong sign: it is the Hessian only if these vanish. *)
Theorem C96_hessian_wrong : forall F q, unit q -> let B := tr_mul (to_rotation q) F in
  (forall o, is_derive_n (fun t => dist2 F (along q o t)) 2 0 (32 * quad_form (apd_hessian B) o)) <->
  B 0%nat 1%nat + B 1%nat 0%nat = 0 /\ B 0%nat 2%nat + B 2%nat 0%nat = 0 /\ B 1%nat 2%nat + B 2%nat 1%nat = 0.
Proof.
  intros F q Hq B.
  assert (forall o, quad_form (apd_hessian B) o - quad_form (true_hessian B) o =
    2 * ((B 0%nat 1%nat + B 1%nat 0%nat) * (o 0%nat * o 1%nat) + (B 0%nat 2%nat + B 2%nat 0%nat) * (o 0%nat * o 2%nat) + (B 1%nat 2%nat + B 2%nat 1%nat) * (o 1%nat * o 2%nat))) as Hdiff.
  { intros o. unfold apd_hessian. entries. field. }
  split.
  - intros H. assert (forall o, quad_form (apd_hessian B) o = quad_form (true_hessian B) o) as He.
    { intros o. pose proof (is_derive_n_unique _ _ _ _ (H o)) as H1. pose proof (is_derive_n_unique _ _ _ _ (C96_hessian F q o Hq)) as H2. fold B in H2. lra. }
    pose proof (Hdiff (vec 1 1 0)) as H1. pose proof (Hdiff (vec 1 0 1)) as H2. pose proof (Hdiff (vec 0 1 1)) as H3. rewrite He in H1, H2, H3. unfold vec in H1, H2, H3. cbn [nth] in H1, H2, H3.
    repeat split; lra.
  - intros (H1 & H2 & H3) o. replace (quad_form (apd_hessian B) o) with (quad_form (true_hessian B) o); [apply (C96_hessian F q o Hq)|].
    specialize (Hdiff o). rewrite H1, H2, H3 in Hdiff. lra.
Qed.
Print Assumptions C96_hessian_wrong.

(** ** The iteration *)

(** C96: whatever the matrix, the tolerance and the number of iterations, the result is a unit quaternion, that is a rotation. *)
Theorem C96_rotation : forall mx F tol n q, unit q -> unit (apd mx F tol q n) /\ rotation (to_rotation (apd mx F tol q n)).
Proof.
  intros mx F tol n q Hq. assert (unit (apd mx F tol q n)) as Hu; [|split; [exact Hu|apply rotation_of_unit, Hu]].
  unfold apd. generalize mx. revert q Hq. induction n as [|n IH]; intros q Hq res; cbn; [exact Hq|].
  destruct (Rlt_dec (tol * tol) res); [|exact Hq]. apply IH, mul_unit; [exact Hq|apply cayley_unit].
Qed.
Print Assumptions C96_rotation.

(** C96: every iteration moves the rotation along the curve to its parameter one; the loop stops after the first step not longer than
    the tolerance or when the iterations are used up. *)
Theorem C96_iterates : forall mx F tol n q, exists path, path 0%nat = q /\
  (forall k r c, (r < 3)%nat -> (c < 3)%nat -> to_rotation (path (S k)) r c = along (path k) (apd_omega F (path k)) 1 r c) /\
  exists k, (k <= n)%nat /\ apd mx F tol q n = path k /\ ((0 < k)%nat -> tol * tol < mx) /\
    (forall j, (S j < k)%nat -> let o := apd_omega F (path j) in tol * tol < dot o o) /\
    (k = n \/ (exists j, k = S j /\ let o := apd_omega F (path j) in dot o o <= tol * tol) \/ (k = 0%nat /\ mx <= tol * tol)).
Proof.
  intros mx F tol n q. set (next := fun p => qmul p (cayley (apd_omega F p))). exists (fun k => Nat.iter k next q). split; [reflexivity|]. split.
  - intros k r c Hr Hc. cbn [Nat.iter]. set (p := Nat.iter k next q). unfold next, along. replace (cayley (fun i => 1 * apd_omega F p i)) with (cayley (apd_omega F p)); [reflexivity|].
    unfold cayley, dot. rewrite !Rmult_1_l. reflexivity.
  - unfold apd. revert mx q. induction n as [|n IH]; intros mx q; cbn [apd_loop].
    + exists 0%nat. split; [lia|]. split; [reflexivity|]. split; [lia|]. split; [intros j Hj; lia|left; reflexivity].
    + destruct (Rlt_dec (tol * tol) mx) as [H|H].
      * change (qmul q (cayley (apd_omega F q))) with (next q).
        assert (forall k, Nat.iter (S k) next q = Nat.iter k next (next q)) as Hit by (intros k; induction k as [|k IHk]; [reflexivity|change (Nat.iter (S (S k)) next q) with (next (Nat.iter (S k) next q)); rewrite IHk; reflexivity]).
        destruct (IH (dot (apd_omega F q) (apd_omega F q)) (next q)) as (k & Hk & He & Hpos & Hlong & Hend).
        exists (S k). split; [lia|]. split; [rewrite Hit; exact He|]. split; [intros _; exact H|]. split.
        -- intros [|j] Hj.
           ++ apply Hpos. lia.
           ++ rewrite Hit. apply Hlong. lia.
        -- destruct Hend as [->|[(j & -> & Hs)|[-> Hs]]]; [left; reflexivity|right; left; exists (S j); split; [reflexivity|rewrite Hit; exact Hs]|right; left; exists 0%nat; split; [reflexivity|exact Hs]].
      * exists 0%nat. split; [lia|]. split; [reflexivity|]. split; [lia|]. split; [intros j Hj; lia|right; right; split; [reflexivity|lra]].
Qed.
Print Assumptions C96_iterates.

Lemma newton_system H g : symmetric H -> apd_det H <> 0 -> forall r, (r < 3)%nat ->
  sum3 (fun c => H r c * apd_newton H g c) = - (1 / 4) * g r.
Proof.
  intros Hs Hd r Hr. unfold apd_newton, sum3, vec. cbn [nth]. generalize (eq_refl (apd_det H)). unfold apd_det at 2. cbv zeta.
  generalize dependent (apd_det H). intros d Hd.
  match goal with |- d = ?p -> _ => intros He; assert (forall x, - (1 / 4) * (x * (p * / d)) = - (1 / 4) * x) as Hx by (intros x; rewrite <- He; field; exact Hd) end.
  clear He. rewrite <- Hx. clear Hx. destruct (index3 r Hr) as [->|[->| ->]]; rewrite ?(Hs 1%nat 0%nat), ?(Hs 2%nat 0%nat), ?(Hs 2%nat 1%nat) by lia; field; exact Hd.
Qed.

Lemma hessian_sym B : symmetric (apd_hessian B).
Proof. intros i j Hi Hj. destruct (index3 i Hi) as [->|[->| ->]], (index3 j Hj) as [->|[->| ->]]; reflexivity. Qed.

(** C96: the step solves Newton's system with the code's matrix, or is a negative multiple of the gradient; it never increases the
    distance to first order. *)
Theorem C96_step : forall F q, unit q -> let B := tr_mul (to_rotation q) F in let o := apd_omega F q in
  ((forall r, (r < 3)%nat -> 4 * sum3 (fun c => apd_hessian B r c * o c) = - apd_gradient B r) \/
   (forall i, o i = - apd_gradient B i) \/ (forall i, o i = - (1 / 8) * apd_gradient B i)) /\
  (exists d, is_derive (fun t => dist2 F (along q o t)) 0 d /\ d <= 0).
Proof.
  intros F q Hq B o. split.
  - unfold o, apd_omega. fold B. destruct (Rlt_dec (Rabs (apd_det (apd_hessian B))) (1 / 1000000000)) as [Hd|Hd].
    + destruct (Rlt_dec 0 _); [right; right; intros i; unfold vscale3; ring|right; left; reflexivity].
    + destruct (Rlt_dec 0 _); [right; right; intros i; unfold vscale3; ring|left]. intros r Hr.
      rewrite (newton_system _ _ (hessian_sym B)); [lra| |exact Hr]. intros He. rewrite He, Rabs_R0 in Hd. lra.
  - eexists. split; [apply C96_gradient, Hq|]. fold B. unfold o, apd_omega. fold B.
    destruct (Rlt_dec 0 _) as [H|H]; [|lra]. clear H. unfold vscale3, dot. generalize (apd_gradient B). intros g. nra.
Qed.
Print Assumptions C96_step.

Lemma gradient_zero B : (forall i, (i < 3)%nat -> apd_gradient B i = 0) <-> symmetric B.
Proof.
  unfold apd_gradient, vec. split.
  - intros H. pose proof (H 0%nat ltac:(lia)) as H0. pose proof (H 1%nat ltac:(lia)) as H1. pose proof (H 2%nat ltac:(lia)) as H2. cbn in H0, H1, H2.
    intros i j Hi Hj. destruct (index3 i Hi) as [->|[->| ->]], (index3 j Hj) as [->|[->| ->]]; lra.
  - intros H i Hi. pose proof (H 0%nat 1%nat ltac:(lia) ltac:(lia)). pose proof (H 0%nat 2%nat ltac:(lia) ltac:(lia)). pose proof (H 1%nat 2%nat ltac:(lia) ltac:(lia)).
    destruct (index3 i Hi) as [->|[->| ->]]; cbn; lra.
Qed.

Lemma step_zero F q : unit q -> let B := tr_mul (to_rotation q) F in symmetric B <-> forall i, (i < 3)%nat -> apd_omega F q i = 0.
Proof.
  intros Hq B. rewrite <- gradient_zero. split.
  - intros Hg i Hi. unfold apd_omega. fold B.
    pose proof (Hg 0%nat ltac:(lia)) as H0. pose proof (Hg 1%nat ltac:(lia)) as H1. pose proof (Hg 2%nat ltac:(lia)) as H2. specialize (Hg i Hi).
    destruct (Rlt_dec 0 _); [unfold vscale3; rewrite Hg; ring|]. destruct (Rlt_dec _ _); [rewrite Hg; ring|].
    unfold apd_newton. rewrite H0, H1, H2. unfold vec. destruct (index3 i Hi) as [->|[->| ->]]; cbn; ring.
  - intros Ho i Hi. pose proof (proj1 (C96_step F q Hq)) as Hs. cbv zeta in Hs. fold B in Hs. destruct Hs as [H|[H|H]]; specialize (H i).
    + specialize (H Hi). unfold sum3 in H. rewrite (Ho 0%nat), (Ho 1%nat), (Ho 2%nat) in H by lia. lra.
    + rewrite (Ho i Hi) in H. lra.
    + rewrite (Ho i Hi) in H. lra.
Qed.

Lemma qmul_fix q o : unit q -> (qmul q (cayley o) = q <-> forall i, (i < 3)%nat -> o i = 0).
Proof.
  intros Hq. pose proof (dot_nonneg o) as Hn. split.
  - intros H. assert (qw (cayley o) = 1) as Hw.
    { assert (qw q * qw (qmul q (cayley o)) + qi q * qi (qmul q (cayley o)) + qj q * qj (qmul q (cayley o)) + qk q * qk (qmul q (cayley o)) = 1) as H1 by (rewrite H; exact Hq).
      unfold unit in Hq. transitivity ((qw q * qw q + qi q * qi q + qj q * qj q + qk q * qk q) * qw (cayley o)); [rewrite Hq; ring|].
      rewrite <- H1. unfold qmul. cbn [qw qi qj qk]. ring. }
    unfold cayley in Hw. cbn [qw] in Hw. assert (dot o o = 0) as Hz.
    { apply (f_equal (fun x => x * (1 + dot o o))) in Hw. unfold Rdiv in Hw. rewrite Rmult_assoc, Rinv_l in Hw by lra. lra. }
    unfold dot in Hz. intros i Hi. destruct (index3 i Hi) as [->|[->| ->]]; nra.
  - intros H. unfold qmul, cayley, dot. cbn [qw qi qj qk]. rewrite (H 0%nat), (H 1%nat), (H 2%nat) by lia. destruct q as [w i j k]. cbn. f_equal; field.
Qed.

(** C96: the fixed points of the iteration are the rotations R for which R^T F is symmetric; such an initial guess is returned unchanged. *)
Theorem C96_fixed : forall F q, unit q ->
  (qmul q (cayley (apd_omega F q)) = q <-> symmetric (tr_mul (to_rotation q) F)) /\
  (symmetric (tr_mul (to_rotation q) F) -> forall mx tol n, apd mx F tol q n = q).
Proof.
  intros F q Hq. assert (qmul q (cayley (apd_omega F q)) = q <-> symmetric (tr_mul (to_rotation q) F)) as Hiff.
  { rewrite (qmul_fix q _ Hq). symmetry. apply (step_zero F q Hq). }
  split; [exact Hiff|]. intros Hs mx tol n. unfold apd. generalize mx. induction n as [|n IH]; intros res; cbn; [reflexivity|].
  destruct (Rlt_dec (tol * tol) res); [|reflexivity]. rewrite (proj2 Hiff Hs). apply IH.
Qed.
Print Assumptions C96_fixed.

(** C96: the iteration need not approach the polar rotation: with a positive definite matrix, of which the polar rotation is the
    identity, it moves back and forth between two other rotations for ever. *)
Definition bad_F : mat3 := rows3 [[30292; 23247; 23247]; [23247; 30292; 23247]; [23247; 23247; 32483]].
Definition bad_1 : quat := Quat (79 / 83) (- 18 / 83) (18 / 83) 0.
Definition bad_2 : quat := Quat (161 / 163) (18 / 163) (- 18 / 163) 0.

Lemma bad_step_1 : apd_omega bad_F bad_1 0%nat = 27 / 160 /\ apd_omega bad_F bad_1 1%nat = - 27 / 160 /\ apd_omega bad_F bad_1 2%nat = 0.
Proof.
  unfold apd_omega. set (B := tr_mul (to_rotation bad_1) bad_F). cbv zeta.
  assert (B 0%nat 0%nat = 107873848 / 6889) as B00 by (unfold B, bad_1, bad_F; entries; lra).
  assert (B 0%nat 1%nat = 59340843 / 6889) as B01 by (unfold B, bad_1, bad_F; entries; lra).
  assert (B 0%nat 2%nat = 37638819 / 6889) as B02 by (unfold B, bad_1, bad_F; entries; lra).
  assert (B 1%nat 0%nat = 59340843 / 6889) as B10 by (unfold B, bad_1, bad_F; entries; lra).
  assert (B 1%nat 1%nat = 107873848 / 6889) as B11 by (unfold B, bad_1, bad_F; entries; lra).
  assert (B 1%nat 2%nat = 37638819 / 6889) as B12 by (unfold B, bad_1, bad_F; entries; lra).
  assert (B 2%nat 0%nat = 282285387 / 6889) as B20 by (unfold B, bad_1, bad_F; entries; lra).
  assert (B 2%nat 1%nat = 282285387 / 6889) as B21 by (unfold B, bad_1, bad_F; entries; lra).
  assert (B 2%nat 2%nat = 313906355 / 6889) as B22 by (unfold B, bad_1, bad_F; entries; lra).
  clearbody B.
  assert (apd_det (apd_hessian B) = 19073374356968121870449280 / 326940373369) as Hdet.
  { unfold apd_det, apd_hessian, rows3. cbn [nth]. rewrite B00, B01, B02, B10, B11, B12, B20, B21, B22. lra. }
  assert (apd_newton (apd_hessian B) (apd_gradient B) 0%nat = 27 / 160 /\ apd_newton (apd_hessian B) (apd_gradient B) 1%nat = - 27 / 160 /\
    apd_newton (apd_hessian B) (apd_gradient B) 2%nat = 0) as (N0 & N1 & N2).
  { unfold apd_newton. rewrite Hdet. unfold apd_hessian, apd_gradient, vec, rows3. cbn [nth]. rewrite B00, B01, B02, B10, B11, B12, B20, B21, B22.
    replace (/ (19073374356968121870449280 / 326940373369)) with (326940373369 / 19073374356968121870449280) by (field; lra). repeat split; lra. }
  destruct (Rlt_dec (Rabs _) _) as [H|_]; [exfalso; rewrite Hdet, Rabs_right in H; lra|].
  destruct (Rlt_dec 0 _) as [H|_]; [exfalso|auto].
  unfold dot in H. rewrite N0, N1, N2 in H. unfold apd_gradient, vec in H. cbn [nth] in H. rewrite B01, B02, B10, B12, B20, B21 in H. lra.
Qed.
Lemma bad_step_2 : apd_omega bad_F bad_2 0%nat = - 27 / 160 /\ apd_omega bad_F bad_2 1%nat = 27 / 160 /\ apd_omega bad_F bad_2 2%nat = 0.
Proof.
  unfold apd_omega. set (B := tr_mul (to_rotation bad_2) bad_F). cbv zeta.
  assert (B 0%nat 0%nat = 904874488 / 26569) as B00 by (unfold B, bad_2, bad_F; entries; lra).
  assert (B 0%nat 1%nat = 717695883 / 26569) as B01 by (unfold B, bad_2, bad_F; entries; lra).
  assert (B 0%nat 2%nat = 775792899 / 26569) as B02 by (unfold B, bad_2, bad_F; entries; lra).
  assert (B 1%nat 0%nat = 717695883 / 26569) as B10 by (unfold B, bad_2, bad_F; entries; lra).
  assert (B 1%nat 1%nat = 904874488 / 26569) as B11 by (unfold B, bad_2, bad_F; entries; lra).
  assert (B 1%nat 2%nat = 775792899 / 26569) as B12 by (unfold B, bad_2, bad_F; entries; lra).
  assert (B 2%nat 0%nat = 277209387 / 26569) as B20 by (unfold B, bad_2, bad_F; entries; lra).
  assert (B 2%nat 1%nat = 277209387 / 26569) as B21 by (unfold B, bad_2, bad_F; entries; lra).
  assert (B 2%nat 2%nat = 551463635 / 26569) as B22 by (unfold B, bad_2, bad_F; entries; lra).
  clearbody B.
  assert (apd_det (apd_hessian B) = 2496646897443761791602625920 / 18755369578009) as Hdet.
  { unfold apd_det, apd_hessian, rows3. cbn [nth]. rewrite B00, B01, B02, B10, B11, B12, B20, B21, B22. lra. }
  assert (apd_newton (apd_hessian B) (apd_gradient B) 0%nat = - 27 / 160 /\ apd_newton (apd_hessian B) (apd_gradient B) 1%nat = 27 / 160 /\
    apd_newton (apd_hessian B) (apd_gradient B) 2%nat = 0) as (N0 & N1 & N2).
  { unfold apd_newton. rewrite Hdet. unfold apd_hessian, apd_gradient, vec, rows3. cbn [nth]. rewrite B00, B01, B02, B10, B11, B12, B20, B21, B22.
    replace (/ (2496646897443761791602625920 / 18755369578009)) with (18755369578009 / 2496646897443761791602625920) by (field; lra). repeat split; lra. }
  destruct (Rlt_dec (Rabs _) _) as [H|_]; [exfalso; rewrite Hdet, Rabs_right in H; lra|].
  destruct (Rlt_dec 0 _) as [H|_]; [exfalso|auto].
  unfold dot in H. rewrite N0, N1, N2 in H. unfold apd_gradient, vec in H. cbn [nth] in H. rewrite B01, B02, B10, B12, B20, B21 in H. lra.
Qed.

Lemma bad_move_1 : qmul bad_1 (cayley (apd_omega bad_F bad_1)) = bad_2 /\ dot (apd_omega bad_F bad_1) (apd_omega bad_F bad_1) = 729 / 12800.
Proof.
  destruct bad_step_1 as (H0 & H1 & H2). unfold cayley, dot. rewrite H0, H1, H2. split; [|lra]. unfold qmul, bad_1, bad_2. cbn. f_equal; field.
Qed.
Lemma bad_move_2 : qmul bad_2 (cayley (apd_omega bad_F bad_2)) = bad_1 /\ dot (apd_omega bad_F bad_2) (apd_omega bad_F bad_2) = 729 / 12800.
Proof.
  destruct bad_step_2 as (H0 & H1 & H2). unfold cayley, dot. rewrite H0, H1, H2. split; [|lra]. unfold qmul, bad_1, bad_2. cbn. f_equal; field.
Qed.

Theorem C96_converges_refuted : exists F q0, unit q0 /\ polar F delta /\ 19 / 20 < qw q0 /\
  forall mx tol n, tol * tol < 1 / 20 -> tol * tol < mx ->
    let q := apd mx F tol q0 n in 19 / 100 < dist2 (to_rotation q) delta /\ ~ symmetric (tr_mul (to_rotation q) F).
Proof.
  exists bad_F, bad_1. split; [unfold unit, bad_1; cbn; lra|]. split.
  { split; [split; [intros i j Hi Hj; destruct (index3 i Hi) as [->|[->| ->]], (index3 j Hj) as [->|[->| ->]]; entries; ring|entries; ring]|].
    split.
    - intros i j Hi Hj. destruct (index3 i Hi) as [->|[->| ->]], (index3 j Hj) as [->|[->| ->]]; unfold bad_F; entries; ring.
    - intros x (i & Hi & Hx). replace (quad_form (mul3 (transpose delta) bad_F) x) with
        (7045 * (x 0%nat * x 0%nat + x 1%nat * x 1%nat) + 9236 * (x 2%nat * x 2%nat) + 23247 * ((x 0%nat + x 1%nat + x 2%nat) * (x 0%nat + x 1%nat + x 2%nat)))
        by (unfold bad_F; entries; ring).
      pose proof (Rle_0_sqr (x 0%nat)) as S0. pose proof (Rle_0_sqr (x 1%nat)) as S1. pose proof (Rle_0_sqr (x 2%nat)) as S2.
      pose proof (Rle_0_sqr (x 0%nat + x 1%nat + x 2%nat)) as S3. pose proof (Rsqr_pos_lt _ Hx) as S4. unfold Rsqr in *.
      destruct (index3 i Hi) as [->|[->| ->]]; lra. }
  split; [unfold bad_1; cbn; lra|]. intros mx tol n Ht Hm.
  assert (forall n res, tol * tol < res -> apd_loop bad_F tol n res bad_1 = (if Nat.even n then bad_1 else bad_2) /\
    apd_loop bad_F tol n res bad_2 = (if Nat.even n then bad_2 else bad_1)) as Hloop.
  { clear n. induction n as [|n IH]; intros res Hr; [split; reflexivity|]. cbn [apd_loop]. destruct (Rlt_dec (tol * tol) res); [|lra].
    destruct bad_move_1 as [M1 L1], bad_move_2 as [M2 L2]. rewrite M1, M2, L1, L2. rewrite Nat.even_succ, <- Nat.negb_even.
    destruct (IH (729 / 12800)) as [I1 I2]; [lra|]. rewrite I1, I2. destruct (Nat.even n); split; reflexivity. }
  cbv zeta. unfold apd. rewrite (proj1 (Hloop n mx Hm)). destruct (Nat.even n).
  - split; [unfold bad_1; entries; lra|]. intros Hs. specialize (Hs 0%nat 2%nat ltac:(lia) ltac:(lia)). unfold bad_1, bad_F in Hs. revert Hs. entries. lra.
  - split; [unfold bad_2; entries; lra|]. intros Hs. specialize (Hs 0%nat 2%nat ltac:(lia) ltac:(lia)). unfold bad_2, bad_F in Hs. revert Hs. entries. lra.
Qed.
Print Assumptions C96_converges_refuted.

(** The identity guess for a positive definite matrix is returned; a guess away from it has a step. *)
Example C96_example : unit (Quat 1 0 0 0) /\ symmetric (tr_mul (to_rotation (Quat 1 0 0 0)) bad_F) /\ unit bad_1 /\
  apd 1 bad_F (1 / 10) bad_1 3 = bad_2 /\
  tr_mul (to_rotation bad_1) bad_F 0%nat 1%nat + tr_mul (to_rotation bad_1) bad_F 1%nat 0%nat <> 0.
Proof.
  split; [unfold unit; cbn; lra|]. split.
  { intros i j Hi Hj. destruct (index3 i Hi) as [->|[->| ->]], (index3 j Hj) as [->|[->| ->]]; unfold bad_F; entries; ring. }
  split; [unfold unit, bad_1; cbn; lra|]. destruct bad_move_1 as [M1 L1], bad_move_2 as [M2 L2]. split.
  - unfold apd. cbn [apd_loop]. repeat (destruct (Rlt_dec _ _); [|lra]). rewrite M1, ?L1 in *. repeat (destruct (Rlt_dec _ _); [|lra]).
    rewrite M2, ?L2 in *. repeat (destruct (Rlt_dec _ _); [|lra]). exact M1.
  - unfold bad_1, bad_F. entries. lra.
Qed.

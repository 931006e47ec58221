(** C85: the volume form of curves, surfaces and volumes. *)
From Coq Require Import Reals List Arith Lia Lra Psatz Bool.
From Verif Require Import MaterialModel EllipticModel IntegrateModel.
Import ListNotations.
Open Scope R_scope.
Local Notation vec := (nat -> R).
Local Notation mat := (nat -> nat -> R).

(** * specification *)
(** dimensions of a curve, surface or volume in space *)
Definition embedded (g r : nat) : Prop := (1 <= r <= g)%nat /\ (g <= 3)%nat.
Definition norm (d : nat) (v : vec) : R := sqrt (summ d (fun k => v k * v k)).
Definition cross (a b : vec) : vec := fun k => match k with 0 => a 1%nat * b 2%nat - a 2%nat * b 1%nat | 1 => a 2%nat * b 0%nat - a 0%nat * b 2%nat | 2 => a 0%nat * b 1%nat - a 1%nat * b 0%nat | _ => 0 end.
Definition column (J : mat) (j : nat) : vec := fun k => J k j.
(** the columns of the [g] by [r] matrix are orthonormal *)
Definition isometry (g r : nat) (Q : mat) : Prop := forall i j, (i < r)%nat -> (j < r)%nat -> summ g (fun k => Q k i * Q k j) = if (i =? j)%nat then 1 else 0.

Lemma sqrt_abs x y : y = x * x -> sqrt y = Rabs x.
Proof. intros ->. apply sqrt_Rsqr_abs. Qed.
Ltac dims := match goal with H : embedded ?g ?r |- _ => let A := fresh in let B := fresh in destruct H as (A & B);
  destruct g as [|[|[|[|?]]]]; try lia; try (is_var r; destruct r as [|[|[|[|?]]]]); try lia; clear A B end.

(** the columns of the [g] by [r] matrix are linearly dependent *)
Definition dependent (g r : nat) (J : mat) : Prop := exists c : vec, (exists j, (j < r)%nat /\ c j <> 0) /\ forall k, (k < g)%nat -> summ r (fun j => J k j * c j) = 0.

(** * Gram determinants *)
Definition gram (g r : nat) (J : mat) : R := determinant r (mmul g (transpose J) J).
Lemma gram_sq g J : embedded g g -> gram g g J = determinant g J * determinant g J.
Proof. intros H. dims; unfold gram, determinant, mmul, transpose; cbn [summ]; ring. Qed.
Lemma gram_form g r J : embedded g r -> volume_form g r J = sqrt (gram g r J).
Proof. intros H. unfold volume_form. destruct (Nat.eqb_spec g r) as [<-|_]; [|reflexivity]. symmetry. apply sqrt_abs, gram_sq, H. Qed.
(** sum of the squares of the minors *)
Lemma gram_surface J : gram 3 2 J = summ 3 (fun k => cross (column J 0) (column J 1) k * cross (column J 0) (column J 1) k).
Proof. unfold gram, determinant, mmul, transpose, cross, column. cbn [summ]. ring. Qed.
Lemma gram_curve g J : embedded g 1 -> gram g 1 J = summ g (fun k => J k 0%nat * J k 0%nat).
Proof. intros H. dims; unfold gram, determinant, mmul, transpose; cbn [summ]; ring. Qed.
Lemma gram_nonneg g r J : embedded g r -> 0 <= gram g r J.
Proof.
  intros H. dims.
  - rewrite gram_curve by (split; lia). cbn [summ]. nra.
  - rewrite gram_curve by (split; lia). cbn [summ]. nra.
  - rewrite gram_sq by (split; lia). apply Rle_0_sqr.
  - rewrite gram_curve by (split; lia). cbn [summ]. nra.
  - rewrite gram_surface. cbn [summ]. pose proof (Rle_0_sqr (cross (column J 0) (column J 1) 0)). pose proof (Rle_0_sqr (cross (column J 0) (column J 1) 1)). pose proof (Rle_0_sqr (cross (column J 0) (column J 1) 2)). unfold Rsqr in *. lra.
  - rewrite gram_sq by (split; lia). apply Rle_0_sqr.
Qed.
Lemma gram_change g r J A : embedded g r -> gram g r (mmul r J A) = gram g r J * (determinant r A * determinant r A).
Proof. intros H. dims; unfold gram, determinant, mmul, transpose; cbn [summ]; ring. Qed.
Lemma gram_ext g r (G G' : mat) : embedded g r -> (forall i j, (i < r)%nat -> (j < r)%nat -> G i j = G' i j) -> determinant r G = determinant r G'.
Proof. intros H E. dims; unfold determinant; rewrite ?(E 0%nat 0%nat), ?(E 0%nat 1%nat), ?(E 0%nat 2%nat), ?(E 1%nat 0%nat), ?(E 1%nat 1%nat), ?(E 1%nat 2%nat), ?(E 2%nat 0%nat), ?(E 2%nat 1%nat), ?(E 2%nat 2%nat) by lia; reflexivity. Qed.
Lemma gram_rigid g r Q J : embedded g r -> isometry g g Q -> gram g r (mmul g Q J) = gram g r J.
Proof.
  intros H HQ. unfold gram. apply (gram_ext g r); [exact H|]. intros i j _ _.
  assert (E : mmul g (transpose (mmul g Q J)) (mmul g Q J) i j = summ g (fun a => summ g (fun b => J a i * J b j * summ g (fun k => Q k a * Q k b)))).
  { dims; unfold mmul, transpose; cbn [summ]; ring. }
  rewrite E. dims; cbn [summ];
    pose proof (HQ 0 0)%nat as Q00; try pose proof (HQ 0 1)%nat as Q01; try pose proof (HQ 0 2)%nat as Q02; try pose proof (HQ 1 0)%nat as Q10; try pose proof (HQ 1 1)%nat as Q11; try pose proof (HQ 1 2)%nat as Q12;
    try pose proof (HQ 2 0)%nat as Q20; try pose proof (HQ 2 1)%nat as Q21; try pose proof (HQ 2 2)%nat as Q22;
    cbn [summ Nat.eqb] in *; rewrite ?Q00, ?Q01, ?Q02, ?Q10, ?Q11, ?Q12, ?Q20, ?Q21, ?Q22 by lia; unfold mmul, transpose; cbn [summ]; ring.
Qed.

(** * dependent columns *)
Definition unit_at (j : nat) : vec := fun k => if (k =? j)%nat then 1 else 0.
Lemma two_nonzero a b : a * a + b * b = 0 -> a = 0 /\ b = 0.
Proof. intros H. split; nra. Qed.
Lemma three_nonzero a b c : a * a + b * b + c * c = 0 -> a = 0 /\ b = 0 /\ c = 0.
Proof. intros H. repeat split; nra. Qed.
Lemma dependent_curve g J : embedded g 1 -> gram g 1 J = 0 <-> dependent g 1 J.
Proof.
  intros H. rewrite gram_curve by exact H. split.
  - intros E. exists (unit_at 0). split; [exists 0%nat; split; [lia|]; unfold unit_at; cbn; lra|]. intros k Hk. cbn [summ]. unfold unit_at. cbn. enough (J k 0%nat = 0) by lra.
    dims; cbn [summ] in E; [| |]; destruct k as [|[|[|?]]]; try lia; nra.
  - intros (c & (j & Hj & Hc) & HJ). destruct j; [|lia]. assert (forall k, (k < g)%nat -> J k 0%nat = 0).
    { intros k Hk. specialize (HJ k Hk). cbn [summ] in HJ. destruct (Rmult_integral (J k 0%nat) (c 0%nat)); lra. }
    dims; cbn [summ]; rewrite ?(H0 0%nat), ?(H0 1%nat), ?(H0 2%nat) by lia; ring.
Qed.
Lemma eliminate a b a' b' c d : a * c + b * d = 0 -> a' * c + b' * d = 0 -> (a * b' - a' * b) * c = 0 /\ (a * b' - a' * b) * d = 0.
Proof.
  intros H H'. split.
  - transitivity (b' * (a * c + b * d) - b * (a' * c + b' * d)); [ring|]. rewrite H, H'. ring.
  - transitivity (a * (a' * c + b' * d) - a' * (a * c + b * d)); [ring|]. rewrite H, H'. ring.
Qed.
Lemma dependent_surface J : gram 3 2 J = 0 <-> dependent 3 2 J.
Proof.
  rewrite gram_surface. split.
  - intros E. cbn [summ] in E. rewrite Rplus_0_l in E. apply three_nonzero in E as (E0 & E1 & E2). unfold cross, column in *.
    assert (D : (exists k, (k < 3)%nat /\ J k 0%nat <> 0) \/ forall k, (k < 3)%nat -> J k 0%nat = 0).
    { destruct (Req_dec (J 0 0)%nat 0); [|left; exists 0%nat; split; [lia|assumption]]. destruct (Req_dec (J 1 0)%nat 0); [|left; exists 1%nat; split; [lia|assumption]].
      destruct (Req_dec (J 2 0)%nat 0); [|left; exists 2%nat; split; [lia|assumption]]. right. intros [|[|[|?]]] Hk; try lia; assumption. }
    destruct D as [(m & Hm & Hn)|D].
    + exists (fun j => if (j =? 0)%nat then - J m 1%nat else J m 0%nat). split; [exists 1%nat; split; [lia|exact Hn]|]. intros k Hk. cbn [summ Nat.eqb].
      destruct m as [|[|[|?]]]; try lia; destruct k as [|[|[|?]]]; try lia; lra.
    + exists (unit_at 0). split; [exists 0%nat; split; [lia|unfold unit_at; cbn; lra]|]. intros k Hk. cbn [summ]. unfold unit_at. cbn [Nat.eqb]. rewrite D by exact Hk. ring.
  - intros (c & (j & Hj & Hc) & HJ). pose proof (HJ 0%nat ltac:(lia)) as H0. pose proof (HJ 1%nat ltac:(lia)) as H1. pose proof (HJ 2%nat ltac:(lia)) as H2. cbn [summ] in *. rewrite Rplus_0_l in *.
    assert (Z : forall k, (k < 3)%nat -> cross (column J 0) (column J 1) k = 0).
    { intros k Hk. unfold cross, column. apply (Rmult_eq_reg_r (c j)); [|exact Hc]. rewrite Rmult_0_l. destruct (eliminate _ _ _ _ _ _ H1 H2), (eliminate _ _ _ _ _ _ H2 H0), (eliminate _ _ _ _ _ _ H0 H1).
      destruct j as [|[|?]]; try lia; destruct k as [|[|[|?]]]; try lia; lra. }
    rewrite !Z by lia. ring.
Qed.
Lemma dependent_square2 J : determinant 2 J = 0 <-> dependent 2 2 J.
Proof.
  unfold determinant. split.
  - intros E. destruct (Req_dec (J 0 0)%nat 0) as [A|A].
    + destruct (Req_dec (J 1 0)%nat 0) as [B|B].
      * exists (unit_at 0). split; [exists 0%nat; split; [lia|unfold unit_at; cbn; lra]|]. intros [|[|?]] Hk; try lia; cbn [summ]; unfold unit_at; cbn [Nat.eqb]; lra.
      * exists (fun j => if (j =? 0)%nat then - J 1%nat 1%nat else J 1%nat 0%nat). split; [exists 1%nat; split; [lia|exact B]|]. intros [|[|?]] Hk; try lia; cbn [summ Nat.eqb]; lra.
    + exists (fun j => if (j =? 0)%nat then - J 0%nat 1%nat else J 0%nat 0%nat). split; [exists 1%nat; split; [lia|exact A]|]. intros [|[|?]] Hk; try lia; cbn [summ Nat.eqb]; lra.
  - intros (c & (j & Hj & Hc) & HJ). pose proof (HJ 0%nat ltac:(lia)) as H0. pose proof (HJ 1%nat ltac:(lia)) as H1. cbn [summ] in *. rewrite Rplus_0_l in *.
    apply (Rmult_eq_reg_r (c j)); [|exact Hc]. rewrite Rmult_0_l. destruct (eliminate _ _ _ _ _ _ H0 H1). destruct j as [|[|?]]; try lia; lra.
Qed.
Lemma zero_or {A} n (f : nat -> A) (P : A -> Prop) : (forall a, P a \/ ~ P a) -> (exists k, (k < n)%nat /\ ~ P (f k)) \/ forall k, (k < n)%nat -> P (f k).
Proof.
  intros dec. induction n as [|n [(k & Hk & H)|IH]]; [right; intros; lia|left; exists k; split; [lia|exact H]|]. destruct (dec (f n)) as [H|H].
  - right. intros k Hk. destruct (Nat.eq_dec k n) as [->|]; [exact H|apply IH; lia].
  - left. exists n. split; [lia|exact H].
Qed.
Lemma adjugate3 J i j : (i < 3)%nat -> (j < 3)%nat -> summ 3 (fun k => J i k * adjugate 3 J k j) = if (i =? j)%nat then determinant 3 J else 0.
Proof. intros Hi Hj. destruct i as [|[|[|?]]]; try lia; destruct j as [|[|[|?]]]; try lia; unfold adjugate, determinant; cbn; ring. Qed.
Lemma dependent_square3 J : determinant 3 J = 0 <-> dependent 3 3 J.
Proof.
  split.
  - intros E.
    destruct (zero_or 3 (fun j => j) (fun j => forall i, (i < 3)%nat -> adjugate 3 J i j = 0)) as [(j & Hj & H)|H].
    { intros j. destruct (Req_dec (adjugate 3 J 0 j) 0); [|right; intros H'; apply H, H'; lia]. destruct (Req_dec (adjugate 3 J 1 j) 0); [|right; intros H'; apply H0, H'; lia].
      destruct (Req_dec (adjugate 3 J 2 j) 0); [|right; intros H'; apply H1, H'; lia]. left. intros [|[|[|?]]] Hi; try lia; assumption. }
    + exists (fun i => adjugate 3 J i j). split.
      * destruct (zero_or 3 (fun i => adjugate 3 J i j) (fun x => x = 0)) as [(i & Hi & N)|Z]; [intros a; destruct (Req_dec a 0); tauto|exists i; split; assumption|contradiction].
      * intros k Hk. rewrite adjugate3 by assumption. destruct (k =? j)%nat; [exact E|reflexivity].
    + assert (M : forall a b c d, (a < 3)%nat -> (b < 3)%nat -> (c < 3)%nat -> (d < 3)%nat -> J a c * J b d - J a d * J b c = 0).
      { pose proof (H 0 ltac:(lia) 0 ltac:(lia))%nat as H00. pose proof (H 0 ltac:(lia) 1 ltac:(lia))%nat as H10. pose proof (H 0 ltac:(lia) 2 ltac:(lia))%nat as H20.
        pose proof (H 1 ltac:(lia) 0 ltac:(lia))%nat as H01. pose proof (H 1 ltac:(lia) 1 ltac:(lia))%nat as H11. pose proof (H 1 ltac:(lia) 2 ltac:(lia))%nat as H21.
        pose proof (H 2 ltac:(lia) 0 ltac:(lia))%nat as H02. pose proof (H 2 ltac:(lia) 1 ltac:(lia))%nat as H12. pose proof (H 2 ltac:(lia) 2 ltac:(lia))%nat as H22. clear H.
        unfold adjugate in *. cbn in *. intros a b c d Ha Hb Hc Hd. destruct a as [|[|[|?]]]; try lia; destruct b as [|[|[|?]]]; try lia; destruct c as [|[|[|?]]]; try lia; destruct d as [|[|[|?]]]; try lia; lra. }
      destruct (zero_or 3 (fun i => J i 0%nat) (fun x => x = 0)) as [(i & Hi & N)|Z]; [intros a; destruct (Req_dec a 0); tauto| |].
      * exists (fun j => match j with 0%nat => - J i 1%nat | 1%nat => J i 0%nat | _ => 0 end). split; [exists 1%nat; split; [lia|exact N]|]. intros k Hk. cbn [summ]. pose proof (M i k 0 1 Hi Hk ltac:(lia) ltac:(lia))%nat. lra.
      * exists (unit_at 0). split; [exists 0%nat; split; [lia|unfold unit_at; cbn; lra]|]. intros k Hk. cbn [summ]. unfold unit_at. cbn [Nat.eqb]. rewrite (Z k Hk). ring.
  - intros (c & (j & Hj & Hc) & HJ). pose proof (HJ 0%nat ltac:(lia)) as H0. pose proof (HJ 1%nat ltac:(lia)) as H1. pose proof (HJ 2%nat ltac:(lia)) as H2. cbn [summ] in *. rewrite Rplus_0_l in *.
    apply (Rmult_eq_reg_r (c j)); [|exact Hc]. rewrite Rmult_0_l.
    assert (L : summ 3 (fun i => adjugate 3 J j i * summ 3 (fun k => J i k * c k)) = determinant 3 J * c j).
    { destruct j as [|[|[|?]]]; try lia; unfold adjugate, determinant; cbn; ring. }
    rewrite <- L. cbn [summ]. rewrite !Rplus_0_l. rewrite H0, H1, H2. ring.
Qed.

(** C85: the volume form is the absolute determinant of the Jacobian of a volume, the area of the parallelogram of the two columns of the Jacobian of a surface and the length of the column of the
    Jacobian of a curve. It is the same function in both cases that the code distinguishes; it does not change under rotations and reflections of the space, is multiplied by the absolute
    determinant when the reference coordinates are changed, is 1 for isometric maps, never negative, and 0 exactly if the columns are linearly dependent *)
Theorem C85_volume_form g r J : embedded g r ->
  (g = r -> volume_form g r J = Rabs (determinant g J)) /\
  (r = 1%nat -> volume_form g r J = norm g (column J 0)) /\
  (g = 3%nat -> r = 2%nat -> volume_form g r J = norm 3 (cross (column J 0) (column J 1))) /\
  volume_form g r J = sqrt (determinant r (mmul g (transpose J) J)) /\
  (forall Q, isometry g g Q -> volume_form g r (mmul g Q J) = volume_form g r J) /\
  (forall A, volume_form g r (mmul r J A) = volume_form g r J * Rabs (determinant r A)) /\
  (isometry g r J -> volume_form g r J = 1) /\
  0 <= volume_form g r J /\
  (volume_form g r J = 0 <-> dependent g r J).
Proof.
  intros H. split; [intros <-; unfold volume_form; rewrite Nat.eqb_refl; reflexivity|]. split; [intros ->; rewrite gram_form by exact H; unfold norm; rewrite gram_curve by exact H; reflexivity|].
  split; [intros -> ->; rewrite gram_form by exact H; unfold norm; rewrite gram_surface; reflexivity|]. split; [apply gram_form, H|].
  split; [intros Q HQ; rewrite !gram_form by exact H; rewrite gram_rigid by assumption; reflexivity|].
  split; [intros A; rewrite !gram_form by exact H; rewrite gram_change by exact H; rewrite sqrt_mult; [|apply gram_nonneg, H|apply Rle_0_sqr]; rewrite <- sqrt_Rsqr_abs; reflexivity|].
  split.
  { intros HJ. rewrite gram_form by exact H. unfold gram. rewrite (gram_ext g r _ (fun i j => if (i =? j)%nat then 1 else 0) H); [|intros i j Hi Hj; unfold mmul, transpose; apply HJ; assumption].
    transitivity (sqrt 1); [|apply sqrt_1]. f_equal. dims; unfold determinant; cbn [Nat.eqb]; ring. }
  split; [rewrite gram_form by exact H; apply sqrt_pos|]. rewrite gram_form by exact H.
  assert (E : sqrt (gram g r J) = 0 <-> gram g r J = 0) by (split; [intros E; apply sqrt_eq_0; [apply gram_nonneg, H|exact E]|intros ->; apply sqrt_0]). rewrite E. clear E.
  assert (S : forall x, x * x = 0 <-> x = 0) by (intros x; split; [nra|intros ->; ring]).
  dims.
  - apply dependent_curve. split; lia.
  - apply dependent_curve. split; lia.
  - rewrite gram_sq by (split; lia). rewrite S. apply dependent_square2.
  - apply dependent_curve. split; lia.
  - apply dependent_surface.
  - rewrite gram_sq by (split; lia). rewrite S. apply dependent_square3.
Qed.
Print Assumptions C85_volume_form.

(** a triangle in space with legs 2 and 3 at a right angle *)
Example C85_surface_example : volume_form 3 2 (fun k j => match k, j with 0%nat, 0%nat => 2 | 2%nat, 1%nat => 3 | _, _ => 0 end) = 6.
Proof.
  destruct (C85_volume_form 3 2 (fun k j => match k, j with 0%nat, 0%nat => 2 | 2%nat, 1%nat => 3 | _, _ => 0 end)) as (_ & _ & H & _); [split; lia|]. rewrite H by reflexivity.
  unfold norm, cross, column. cbn [summ]. replace (0 + _ + _ + _) with (6 * 6) by ring. apply sqrt_square. lra.
Qed.

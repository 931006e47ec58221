(** Integrals of polynomials over the triangle and over the two halves of a square cell. *)
From Coq Require Import Reals List Arith Lia Lra.
From Coquelicot Require Import Coquelicot.
From Verif Require Import ElementModel ElementSpec QuadratureModel QuadPoly QuadPolyN RuleProofs.
Import ListNotations.
Local Open Scope R_scope.

Notation planar p := (List.Forall (fun m : R * (nat * nat * nat) => snd (snd m) = 0%nat) p).

Lemma peval_two p x : planar p -> peval p x = peval p (pt [x 0%nat; x 1%nat]).
Proof.
  intros F. assert (F' : forall m, In m p -> snd (snd m) = 0%nat) by (apply List.Forall_forall; exact F). unfold peval.
  apply (fold_ext p (fun m => fst m * monomial (snd m) x) (fun m => fst m * monomial (snd m) (pt [x 0%nat; x 1%nat]))).
  intros m Hm. f_equal. unfold monomial, pt. cbn [nth]. rewrite (F' m Hm). reflexivity.
Qed.

Lemma on_triangle_ext f g : (forall x, f x = g x) -> on_triangle f = on_triangle g.
Proof. intros E. apply Pol_RInt_ext. intros x. apply Pol_RInt_ext. intros y. apply E. Qed.

Lemma upto_const_Pol p b : Pol (S (S (max_exp p))) (fun x => upto p x b).
Proof. apply (Pol_ext _ (fun x => upto p x (0 * x + b))); [intros x; f_equal; ring|]. apply upto_Pol. Qed.
Lemma upto_diag_Pol p c : Pol (S (S (max_exp p))) (fun x => upto p x (c - x)).
Proof. apply (Pol_ext _ (fun x => upto p x (-1 * x + c))); [intros x; f_equal; ring|]. apply upto_Pol. Qed.

Lemma on_triangle_upto p : planar p -> on_triangle (peval p) = integral (fun x => upto p x (0 - x) - upto p x (-1)) (-1) 1.
Proof. intros F. apply Pol_RInt_ext. intros x. rewrite inner_upto by exact F. f_equal. f_equal. ring. Qed.

(** the lower half of a cell *)
Lemma lower_cell p a b h : planar p -> h <> 0 ->
  h / 2 * (h / 2) * on_triangle (fun x => peval p (pt [a + h / 2 * (x 0%nat + 1); b + h / 2 * (x 1%nat + 1)])) =
  integral (fun x => upto p x (a + b + h - x) - upto p x b) a (a + h).
Proof.
  intros F H. set (G := fun x => upto p x (a + b + h - x) - upto p x b).
  assert (PG : Pol (S (S (max_exp p))) G) by (apply Pol_sub; [apply upto_diag_Pol|apply upto_const_Pol]).
  assert (I : forall x, integral (fun y => peval p (pt [a + h / 2 * (pt [x; y] 0%nat + 1); b + h / 2 * (pt [x; y] 1%nat + 1)])) (-1) (- x) = 2 / h * G (h / 2 * x + (a + h / 2))).
  { intros x. unfold pt at 2 3. cbn [nth].
    pose proof (integral_affine _ _ (h / 2) (b + h / 2) (-1) (- x) (section_y p (a + h / 2 * (x + 1)))) as E. rewrite inner_upto in E by exact F.
    rewrite (Pol_RInt_ext _ (fun y => peval p (pt [a + h / 2 * (x + 1); h / 2 * y + (b + h / 2)]))) by (intros y; replace (b + h / 2 * (y + 1)) with (h / 2 * y + (b + h / 2)) by field; reflexivity).
    apply (Rmult_eq_reg_l (h / 2)); [|intros Z; apply H; lra]. cbv beta in E. rewrite E. unfold G.
    replace (h / 2 * x + (a + h / 2)) with (a + h / 2 * (x + 1)) by ring. rewrite <- Rmult_assoc. replace (h / 2 * (2 / h)) with 1 by (field; exact H). rewrite Rmult_1_l.
    f_equal; f_equal; field. }
  unfold on_triangle. rewrite (Pol_RInt_ext _ _ _ _ I). rewrite (Pol_RInt_scal (S (S (max_exp p)))) by (apply Pol_comp, PG).
  pose proof (integral_affine _ _ (h / 2) (a + h / 2) (-1) 1 PG) as E. cbv beta in E.
  replace (h / 2 * (h / 2) * (2 / h * integral (fun x => G (h / 2 * x + (a + h / 2))) (-1) 1)) with (h / 2 * integral (fun x => G (h / 2 * x + (a + h / 2))) (-1) 1) by (field; exact H).
  rewrite E. f_equal; field.
Qed.

(** the integral of a monomial over the triangle, and its symmetry *)
Definition corner_moment (i j : nat) : R := integral (fun x => x ^ i * ((- x) ^ S j / INR (S j) - (-1) ^ S j / INR (S j))) (-1) 1.

Lemma pow_neg x k : (- x) ^ k = (-1) ^ k * x ^ k.
Proof. rewrite <- Rpow_mult_distr. f_equal. ring. Qed.
Lemma sign_square k : (-1) ^ k * (-1) ^ k = 1.
Proof. rewrite <- Rpow_mult_distr. replace (-1 * -1) with 1 by ring. apply pow1. Qed.

Lemma corner_moment_value i j :
  corner_moment i j = (-1) ^ S j / INR (S j) * ((1 - (-1) ^ S (i + S j)) / INR (S (i + S j))) - (-1) ^ S j / INR (S j) * ((1 - (-1) ^ S i) / INR (S i)).
Proof.
  unfold corner_moment. rewrite (Pol_RInt_ext _ (fun x => ((-1) ^ S j / INR (S j)) * x ^ (i + S j) + (- ((-1) ^ S j / INR (S j))) * x ^ i)).
  - rewrite (Pol_RInt_plus (S (i + S j))).
    + rewrite !integral_mono, !integral_pow, !pow1. unfold Rdiv. ring.
    + apply Pol_scale, Pol_monomial.
    + apply Pol_scale. apply (Pol_le (S i)); [lia|]. apply Pol_monomial.
  - intros x. rewrite pow_neg, pow_add. unfold Rdiv. ring.
Qed.

Lemma corner_moment_sym i j : corner_moment i j = corner_moment j i.
Proof.
  rewrite !corner_moment_value. replace (S (j + S i)) with (S (S (i + j))) by lia. replace (S (i + S j)) with (S (S (i + j))) by lia.
  rewrite !S_INR, !plus_INR. cbn [pow]. rewrite pow_add. pose proof (sign_square i) as A. pose proof (sign_square j) as B. pose proof (pos_INR i). pose proof (pos_INR j).
  set (u := (-1) ^ i) in *. set (v := (-1) ^ j) in *. set (x := INR i) in *. set (y := INR j) in *.
  assert (E : forall s t, s * s = 1 -> t * t = 1 -> -1 * t / (y + 1) * ((1 - -1 * (-1 * (s * t))) / (x + y + 1 + 1)) - -1 * t / (y + 1) * ((1 - -1 * s) / (x + 1)) =
    ((x + 1) * s * (t * t + t) + (y + 1) * t * (1 + s)) / ((x + 1) * (y + 1) * (x + y + 2))) by (intros; field; lra).
  rewrite (E u v A B), B.
  assert (E' : forall s t, s * s = 1 -> t * t = 1 -> -1 * s / (x + 1) * ((1 - -1 * (-1 * (s * t))) / (x + y + 1 + 1)) - -1 * s / (x + 1) * ((1 - -1 * t) / (y + 1)) =
    ((y + 1) * t * (s * s + s) + (x + 1) * s * (1 + t)) / ((x + 1) * (y + 1) * (x + y + 2))) by (intros; field; lra).
  rewrite (E' u v A B), A. field. lra.
Qed.

Lemma on_triangle_moments p : planar p -> on_triangle (peval p) = fold_right (fun m acc => fst m * corner_moment (fst (fst (snd m))) (snd (fst (snd m))) + acc) 0 p.
Proof.
  intros F. rewrite on_triangle_upto by exact F.
  set (g := fun (m : R * (nat * nat * nat)) x => fst m * (x ^ fst (fst (snd m)) * ((- x) ^ S (snd (fst (snd m))) / INR (S (snd (fst (snd m)))) - (-1) ^ S (snd (fst (snd m))) / INR (S (snd (fst (snd m))))))).
  assert (Q : forall i j, Pol (S (i + S j)) (fun x => x ^ i * ((- x) ^ S j / INR (S j) - (-1) ^ S j / INR (S j)))).
  { intros i j. apply Pol_mul; [apply Pol_monomial|]. apply Pol_sub; [|apply Pol_const].
    apply (Pol_ext _ (fun x => ((-1) ^ S j / INR (S j)) * x ^ S j)); [intros x; rewrite pow_neg; unfold Rdiv; ring|]. apply Pol_scale, Pol_monomial. }
  assert (PG : forall m, In m p -> Pol (S (S (max_exp p))) (g m)).
  { intros m Hm. unfold g. apply Pol_scale. pose proof (max_exp_in p m Hm). eapply Pol_le; [|apply Q]. lia. }
  rewrite (Pol_RInt_ext _ (fun x => fold_right (fun m acc => g m x + acc) 0 p)).
  - rewrite (integral_fold _ p g _ _ PG). apply fold_ext. intros m Hm. unfold g, corner_moment. apply (Pol_RInt_scal _ _ _ _ _ (Q _ _)).
  - intros x. unfold upto, g. clear. induction p as [|m p IH]; cbn [fold_right]; [ring|]. rewrite <- IH. replace (0 - x) with (- x) by ring. unfold Rdiv. ring.
Qed.

Lemma on_triangle_swap p : planar p -> on_triangle (fun x => peval p (pt [x 1%nat; x 0%nat])) = on_triangle (peval p).
Proof.
  intros F. set (p' := map (fun m : R * (nat * nat * nat) => (fst m, (snd (fst (snd m)), fst (fst (snd m)), snd (snd m)))) p).
  assert (F' : planar p') by (apply List.Forall_map; cbn; exact F).
  assert (E : forall x, peval p (pt [x 1%nat; x 0%nat]) = peval p' x).
  { intros x. rewrite (peval_two p') by exact F'. unfold p'. clear. unfold peval. induction p as [|m p IH]; cbn [fold_right map fst snd]; [reflexivity|]. rewrite <- IH. f_equal. f_equal.
    unfold monomial, pt. cbn [nth fst snd]. ring. }
  transitivity (on_triangle (peval p')); [apply on_triangle_ext; exact E|]. rewrite !on_triangle_moments by assumption. unfold p'. clear. induction p as [|m p IH]; cbn [fold_right map fst snd]; [reflexivity|].
  rewrite IH, corner_moment_sym. reflexivity.
Qed.

(** the upper half of a cell *)
Lemma upper_cell p k a b h : List.Forall (fun m : R * (nat * nat * nat) => total_degree 2 k (snd m)) p -> h <> 0 ->
  h / 2 * (h / 2) * on_triangle (fun x => peval p (pt [a + h - h / 2 * (x 1%nat + 1); b + h + h / 2 * (x 0%nat + x 1%nat)])) =
  integral (fun x => upto p x (b + h) - upto p x (a + b + h - x)) a (a + h).
Proof.
  intros D H. assert (F : planar p) by (eapply List.Forall_impl; [|exact D]; cbn; intros m (_ & Z & _); apply Z; lia).
  assert (A1 : Poly (total_degree 2 1) (fun x => a + h - h / 2 * (x 1%nat + 1))).
  { apply (Poly_ext _ (fun x => (- (h / 2)) * x 1%nat + (a + h / 2))); [intros; field|]. apply Poly_add; [apply Poly_scale, total_y; lia|apply total_const]. }
  assert (B1 : Poly (total_degree 2 1) (fun x => b + h + h / 2 * (x 0%nat + x 1%nat))).
  { apply (Poly_ext _ (fun x => (h / 2) * x 0%nat + ((h / 2) * x 1%nat + (b + h)))); [intros; field|].
    apply Poly_add; [apply Poly_scale, total_x; lia|]. apply Poly_add; [apply Poly_scale, total_y; lia|apply total_const]. }
  destruct (total_substitute k _ _ p A1 B1 D) as (p' & D' & E). cbv beta in E.
  assert (F' : planar p') by (eapply List.Forall_impl; [|exact D']; cbn; intros m (_ & Z & _); apply Z; lia).
  match goal with |- _ * on_triangle ?f = _ => transitivity (h / 2 * (h / 2) * on_triangle (fun x => f (pt [x 1%nat; x 0%nat]))) end.
  { f_equal. transitivity (on_triangle (peval p')); [apply on_triangle_ext; exact E|]. rewrite <- on_triangle_swap by exact F'. apply on_triangle_ext. intros x. symmetry. apply E. }
  cbv beta. clear p' D' E F' A1 B1 D.
  set (G := fun x => upto p x (b + h) - upto p x (a + b + h - x)).
  assert (PG : Pol (S (S (max_exp p))) G) by (apply Pol_sub; [apply upto_const_Pol|apply upto_diag_Pol]).
  assert (I : forall x, integral (fun y => peval p (pt [a + h - h / 2 * (x + 1); b + h + h / 2 * (y + x)])) (-1) (- x) = 2 / h * G (- (h / 2) * x + (a + h / 2))).
  { intros x.
    pose proof (integral_affine _ _ (h / 2) (b + h + h / 2 * x) (-1) (- x) (section_y p (a + h - h / 2 * (x + 1)))) as E. rewrite inner_upto in E by exact F.
    rewrite (Pol_RInt_ext _ (fun y => peval p (pt [a + h - h / 2 * (x + 1); h / 2 * y + (b + h + h / 2 * x)]))) by (intros y; replace (b + h + h / 2 * (y + x)) with (h / 2 * y + (b + h + h / 2 * x)) by field; reflexivity).
    apply (Rmult_eq_reg_l (h / 2)); [|intros Z; apply H; lra]. cbv beta in E. rewrite E. unfold G.
    replace (- (h / 2) * x + (a + h / 2)) with (a + h - h / 2 * (x + 1)) by field. rewrite <- Rmult_assoc. replace (h / 2 * (2 / h)) with 1 by (field; exact H). rewrite Rmult_1_l.
    f_equal; f_equal; field. }
  assert (T : on_triangle (fun x => peval p (pt [a + h - h / 2 * (pt [x 1%nat; x 0%nat] 1%nat + 1); b + h + h / 2 * (pt [x 1%nat; x 0%nat] 0%nat + pt [x 1%nat; x 0%nat] 1%nat)])) =
    integral (fun x => 2 / h * G (- (h / 2) * x + (a + h / 2))) (-1) 1).
  { unfold on_triangle. apply Pol_RInt_ext. intros x. exact (I x). }
  rewrite T. rewrite (Pol_RInt_scal (S (S (max_exp p)))) by (apply Pol_comp, PG).
  pose proof (integral_affine _ _ (- (h / 2)) (a + h / 2) (-1) 1 PG) as E. cbv beta in E.
  replace (h / 2 * (h / 2) * (2 / h * integral (fun x => G (- (h / 2) * x + (a + h / 2))) (-1) 1)) with (- (- (h / 2) * integral (fun x => G (- (h / 2) * x + (a + h / 2))) (-1) 1)) by (field; exact H).
  rewrite E, <- (integral_opp _ _ _ _ PG). f_equal; field.
Qed.

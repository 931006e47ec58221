(** Integrals of monomials over the six reference domains of the tabulated quadrature rules, as rational numbers (for C84). *)
From Coq Require Import Reals QArith Qreals List Arith Lia Lra.
From Coquelicot Require Import Coquelicot.
From Verif Require Import ElementModel ElementSpec QuadPoly QuadPolyN TriangleCells.
Import ListNotations.
Local Open Scope R_scope.

(** the reference prism {x + y <= 0} x [-1,1] and pyramid with base [-1,1]^2 at z = -1 and apex (0, 0, 1) *)
Definition on_prism (f : point -> R) : R := integral (fun x => integral (fun y => integral (fun z => f (pt [x; y; z])) (-1) 1) (-1) (- x)) (-1) 1.
Definition on_pyramid (f : point -> R) : R :=
  integral (fun z => integral (fun x => integral (fun y => f (pt [x; y; z])) (- ((1 - z) / 2)) ((1 - z) / 2)) (- ((1 - z) / 2)) ((1 - z) / 2)) (-1) 1.

Local Notation mom k := (integral (fun t => t ^ k) (-1) 1).

(** ** Triangles *)
(** the integral of y^b (1 + x + y)^n over y from -1 to -x *)
Fixpoint cut (b n : nat) (x : R) : R :=
  match b with
  | O => (1 - x ^ S n) / INR (S n)
  | S b' => ((- x) ^ b - (-1) ^ b * x ^ S n - INR b * cut b' (S n) x) / INR (S n)
  end.
Lemma cut_Pol b n : Pol (S (b + S n)) (cut b n).
Proof.
  revert n. induction b as [|b IH]; intros n; cbn [cut].
  - apply (Pol_ext _ (fun x => / INR (S n) * (1 - x ^ S n))); [intros x; unfold Rdiv; ring|]. apply Pol_scale, Pol_sub; [apply Pol_const|apply Pol_monomial].
  - apply (Pol_ext _ (fun x => / INR (S n) * (((-1) ^ S b * x ^ S b - (-1) ^ S b * x ^ S n) - INR (S b) * cut b (S n) x))); [intros x; rewrite pow_neg; unfold Rdiv; ring|].
    apply Pol_scale, Pol_sub; [apply Pol_sub; apply Pol_scale; eapply Pol_le; [|apply Pol_monomial| |apply Pol_monomial]; lia|]. apply Pol_scale. eapply Pol_le; [|apply IH]. lia.
Qed.
Lemma shifted_Pol b n x : Pol (S (b + n)) (fun y => y ^ b * (1 + x + y) ^ n).
Proof.
  apply Pol_mul; [apply Pol_monomial|]. apply (Pol_ext _ (fun y => (1 * y + (1 + x)) ^ n)); [intros y; f_equal; ring|]. apply (Pol_comp (S n) (fun t => t ^ n)). apply Pol_monomial.
Qed.
Lemma shifted_derive n x y : is_derive (fun y => (1 + x + y) ^ S n / INR (S n)) y ((1 + x + y) ^ n).
Proof.
  assert (N : INR (S n) <> 0) by (apply not_0_INR; lia). replace ((1 + x + y) ^ n) with (/ INR (S n) * (INR (S n) * 1 * (1 + x + y) ^ n)) by (field; exact N).
  apply (is_derive_ext (fun t => / INR (S n) * (1 + x + t) ^ S n)); [intros t; unfold Rdiv; apply Rmult_comm|]. apply is_derive_scal.
  apply (is_derive_pow (fun t : R => 1 + x + t) (S n) y 1). auto_derive; [trivial|ring].
Qed.
Lemma pow_derive k y : is_derive (fun y => y ^ S k) y (INR (S k) * y ^ k).
Proof. replace (INR (S k) * y ^ k) with (INR (S k) * 1 * y ^ k) by ring. exact (is_derive_pow (fun t : R => t) (S k) y 1 (is_derive_id y)). Qed.
Lemma cut_integral b n x : integral (fun y => y ^ b * (1 + x + y) ^ n) (-1) (- x) = cut b n x.
Proof.
  revert n. induction b as [|b IH]; intros n; cbn [cut].
  - assert (N : INR (S n) <> 0) by (apply not_0_INR; lia). rewrite (Pol_RInt_ext _ (fun y => (1 + x + y) ^ n)) by (intros y; cbn; ring).
    rewrite (Pol_RInt_derive (S n) (fun y => (1 + x + y) ^ S n / INR (S n))).
    + replace (1 + x + - x) with 1 by ring. replace (1 + x + -1) with x by ring. rewrite pow1. field. exact N.
    + apply (Pol_ext _ (fun y => y ^ 0 * (1 + x + y) ^ n)); [intros y; cbn; ring|]. apply (shifted_Pol 0 n x).
    + intros y. apply shifted_derive.
  - assert (N : INR (S n) <> 0) by (apply not_0_INR; lia). assert (Hd : forall m, Pol (S (S (b + S n))) (fun y => (1 + x + y) ^ m) \/ (S (b + S n) < m)%nat).
    { intros m. destruct (le_lt_dec m (S (b + S n))) as [L|L]; [left|right; exact L]. apply (Pol_ext _ (fun y => y ^ 0 * (1 + x + y) ^ m)); [intros y; cbn; ring|]. eapply Pol_le; [|apply (shifted_Pol 0 m x)]. lia. }
    assert (P := Pol_parts (S (S (b + S n))) (fun y => (1 + x + y) ^ S n / INR (S n)) (fun y => y ^ S b) (fun y => (1 + x + y) ^ n) (fun y => INR (S b) * y ^ b) (-1) (- x)).
    rewrite (Pol_RInt_ext _ (fun y => (1 + x + y) ^ n * y ^ S b)) by (intros y; ring). rewrite P.
    + replace (1 + x + - x) with 1 by ring. replace (1 + x + -1) with x by ring. rewrite pow1.
      rewrite (Pol_RInt_ext (fun y => (1 + x + y) ^ S n / INR (S n) * (INR (S b) * y ^ b)) (fun y => (INR (S b) / INR (S n)) * (y ^ b * (1 + x + y) ^ S n))) by (intros y; unfold Rdiv; ring).
      rewrite (Pol_RInt_scal _ _ _ _ _ (shifted_Pol b (S n) x)), IH. field. exact N.
    + apply (Pol_ext _ (fun y => / INR (S n) * (1 + x + y) ^ S n)); [intros y; unfold Rdiv; ring|]. apply Pol_scale. destruct (Hd (S n)) as [H|H]; [exact H|lia].
    + eapply Pol_le; [|apply Pol_monomial]. lia.
    + destruct (Hd n) as [H|H]; [exact H|lia].
    + apply Pol_scale. eapply Pol_le; [|apply Pol_monomial]. lia.
    + intros y. apply shifted_derive.
    + intros y. apply pow_derive.
Qed.
(** the integral of x^a y^b (1 + x + y)^n over the triangle *)
Definition cut_moment (a b n : nat) : R := integral (fun x => x ^ a * cut b n x) (-1) 1.
Lemma times_Pol a d f : Pol (S d) f -> Pol (S (a + d)) (fun x => x ^ a * f x).
Proof. intros F. apply Pol_mul; [apply Pol_monomial|exact F]. Qed.
Lemma cut_moment_0 a n : cut_moment a 0 n = (mom a - mom (a + S n)) / INR (S n).
Proof.
  unfold cut_moment. cbn [cut]. rewrite (Pol_RInt_ext _ (fun x => / INR (S n) * x ^ a + (- / INR (S n)) * x ^ (a + S n))) by (intros x; rewrite pow_add; unfold Rdiv; ring).
  rewrite (Pol_RInt_plus (S (a + S n))); [|apply Pol_scale; eapply Pol_le; [|apply Pol_monomial]; lia|apply Pol_scale, Pol_monomial]. rewrite !integral_mono. unfold Rdiv. ring.
Qed.
Lemma cut_moment_S a b n : cut_moment a (S b) n = ((-1) ^ S b * (mom (a + S b) - mom (a + S n)) - INR (S b) * cut_moment a b (S n)) / INR (S n).
Proof.
  unfold cut_moment. cbn [cut].
  rewrite (Pol_RInt_ext _ (fun x => / INR (S n) * (((-1) ^ S b * x ^ (a + S b) + (- (-1) ^ S b) * x ^ (a + S n)) + (- INR (S b)) * (x ^ a * cut b (S n) x))))
    by (intros x; rewrite pow_neg, !pow_add; unfold Rdiv; ring).
  assert (A : Pol (S (a + (S b + S n))) (fun x => (-1) ^ S b * x ^ (a + S b) + (- (-1) ^ S b) * x ^ (a + S n))) by (apply Pol_add; apply Pol_scale; eapply Pol_le; [|apply Pol_monomial| |apply Pol_monomial]; lia).
  assert (B : Pol (S (a + (S b + S n))) (fun x => x ^ a * cut b (S n) x)) by (apply times_Pol; eapply Pol_le; [|apply cut_Pol]; lia).
  rewrite (Pol_RInt_scal (S (a + (S b + S n)))) by (apply Pol_add; [exact A|apply Pol_scale, B]). rewrite (Pol_RInt_plus (S (a + (S b + S n)))) by (try exact A; apply Pol_scale, B).
  rewrite (Pol_RInt_scal _ _ _ _ _ B), (Pol_RInt_plus (S (a + (S b + S n)))) by (apply Pol_scale; eapply Pol_le; [|apply Pol_monomial]; lia). rewrite !integral_mono. unfold Rdiv. ring.
Qed.

(** ** Integrals of polynomials *)
Definition moments (dim : nat) (over : (point -> R) -> R) (m : nat * nat * nat -> R) : Prop :=
  forall p, List.Forall (fun c : R * (nat * nat * nat) => dim = 2%nat -> snd (snd c) = 0%nat) p -> over (peval p) = fold_right (fun c acc => fst c * m (snd c) + acc) 0 p.

Lemma square_moments : moments 2 on_square (fun e => mom (fst (fst e)) * mom (snd (fst e))).
Proof. intros p F. apply on_square_peval. eapply List.Forall_impl; [|exact F]. intros c H. apply H. reflexivity. Qed.
Lemma cube_moments : moments 3 on_cube (fun e => mom (fst (fst e)) * mom (snd (fst e)) * mom (snd e)).
Proof. intros p _. apply on_cube_peval. Qed.
Lemma corner_cut a b : corner_moment a b = cut_moment a b 0.
Proof.
  unfold corner_moment, cut_moment. apply Pol_RInt_ext. intros x. f_equal. rewrite <- cut_integral. rewrite (Pol_RInt_ext _ (fun y => y ^ b)) by (intros y; cbn; ring). symmetry. apply integral_pow.
Qed.
Lemma triangle_moments : moments 2 on_triangle (fun e => cut_moment (fst (fst e)) (snd (fst e)) 0).
Proof.
  intros p F. rewrite on_triangle_moments by (eapply List.Forall_impl; [|exact F]; intros c H; apply H; reflexivity). apply fold_ext. intros m _. rewrite corner_cut. reflexivity.
Qed.
Lemma peval_z p x y z : peval p (pt [x; y; z]) = fold_right (fun m acc => (fst m * (x ^ fst (fst (snd m)) * y ^ snd (fst (snd m)))) * z ^ snd (snd m) + acc) 0 p.
Proof. unfold peval. apply fold_ext. intros m _. unfold monomial, pt. cbn [nth]. ring. Qed.
Lemma integral_z p x y a b : integral (fun z => peval p (pt [x; y; z])) a b =
  fold_right (fun m acc => (fst m * (x ^ fst (fst (snd m)) * y ^ snd (fst (snd m)))) * (b ^ S (snd (snd m)) / INR (S (snd (snd m))) - a ^ S (snd (snd m)) / INR (S (snd (snd m)))) + acc) 0 p.
Proof.
  rewrite (Pol_RInt_ext _ _ _ _ (peval_z p x y)). rewrite (integral_fold (S (max_exp p)) p (fun m z => (fst m * (x ^ fst (fst (snd m)) * y ^ snd (fst (snd m)))) * z ^ snd (snd m))).
  - apply fold_ext. intros m _. rewrite integral_mono, integral_pow. reflexivity.
  - intros m Hm. apply Pol_const_mul_pow. pose proof (max_exp_in p m Hm). lia.
Qed.

(** from the values of the inner integrals over y to the integral over the triangle *)
Lemma triangle_fold p (g : R * (nat * nat * nat) -> R -> R -> R) (h : R * (nat * nat * nat) -> R -> R) d :
  (forall m x, In m p -> Pol d (g m x)) -> (forall m x, In m p -> integral (g m x) (-1) (- x) = h m x) -> (forall m, In m p -> Pol d (h m)) ->
  integral (fun x => integral (fun y => fold_right (fun m acc => g m x y + acc) 0 p) (-1) (- x)) (-1) 1 = fold_right (fun m acc => integral (h m) (-1) 1 + acc) 0 p.
Proof.
  intros G E H. rewrite <- (integral_fold d p h) by exact H. apply Pol_RInt_ext. intros x. rewrite (integral_fold d p (fun m y => g m x y)) by (intros m Hm; apply G, Hm). apply fold_ext. intros m Hm. apply E, Hm.
Qed.
Lemma prism_moments : moments 3 on_prism (fun e => cut_moment (fst (fst e)) (snd (fst e)) 0 * mom (snd e)).
Proof.
  intros p _. unfold on_prism. set (d := S (S (max_exp p))).
  rewrite (Pol_RInt_ext _ (fun x => integral (fun y => fold_right (fun m acc => (fst m * mom (snd (snd m)) * x ^ fst (fst (snd m))) * y ^ snd (fst (snd m)) + acc) 0 p) (-1) (- x))).
  - rewrite (triangle_fold p (fun m x y => (fst m * mom (snd (snd m)) * x ^ fst (fst (snd m))) * y ^ snd (fst (snd m))) (fun m x => (fst m * mom (snd (snd m))) * (x ^ fst (fst (snd m)) * cut (snd (fst (snd m))) 0 x)) d).
    + apply fold_ext. intros m _. rewrite (Pol_RInt_scal _ _ _ _ _ (times_Pol _ _ _ (cut_Pol _ 0))). unfold cut_moment. ring.
    + intros m x Hm. apply Pol_const_mul_pow. pose proof (max_exp_in p m Hm). unfold d. lia.
    + intros m x Hm. rewrite integral_mono, <- cut_integral. rewrite (Pol_RInt_ext (fun y => y ^ snd (fst (snd m)) * (1 + x + y) ^ 0) (fun y => y ^ snd (fst (snd m)))) by (intros y; cbn; ring). ring.
    + intros m Hm. apply Pol_scale. eapply Pol_le; [|apply times_Pol, cut_Pol]. pose proof (max_exp_in p m Hm). unfold d. lia.
  - intros x. apply Pol_RInt_ext. intros y. rewrite integral_z. apply fold_ext. intros m _. rewrite integral_pow. ring.
Qed.
Lemma tetrahedron_moments : moments 3 on_tetrahedron (fun e => (-1) ^ S (snd e) / INR (S (snd e)) * (cut_moment (fst (fst e)) (snd (fst e)) (S (snd e)) - cut_moment (fst (fst e)) (snd (fst e)) 0)).
Proof.
  intros p _. unfold on_tetrahedron. set (d := S (S (S (S (max_exp p))))).
  set (k := fun m : R * (nat * nat * nat) => fst m * ((-1) ^ S (snd (snd m)) / INR (S (snd (snd m))))).
  set (g := fun (m : R * (nat * nat * nat)) (x y : R) => (k m * x ^ fst (fst (snd m))) * (y ^ snd (fst (snd m)) * (1 + x + y) ^ S (snd (snd m)) - y ^ snd (fst (snd m)) * (1 + x + y) ^ 0)).
  set (h := fun (m : R * (nat * nat * nat)) (x : R) => k m * (x ^ fst (fst (snd m)) * cut (snd (fst (snd m))) (S (snd (snd m))) x) + (- k m) * (x ^ fst (fst (snd m)) * cut (snd (fst (snd m))) 0 x)).
  assert (P1 : forall m, In m p -> Pol d (fun x => x ^ fst (fst (snd m)) * cut (snd (fst (snd m))) (S (snd (snd m))) x)).
  { intros m Hm. eapply Pol_le; [|apply times_Pol, cut_Pol]. pose proof (max_exp_in p m Hm). unfold d. lia. }
  assert (P2 : forall m, In m p -> Pol d (fun x => x ^ fst (fst (snd m)) * cut (snd (fst (snd m))) 0 x)).
  { intros m Hm. eapply Pol_le; [|apply times_Pol, cut_Pol]. pose proof (max_exp_in p m Hm). unfold d. lia. }
  rewrite (Pol_RInt_ext _ (fun x => integral (fun y => fold_right (fun m acc => g m x y + acc) 0 p) (-1) (- x))).
  - rewrite (triangle_fold p g h d).
    + apply fold_ext. intros m Hm. unfold h. rewrite (Pol_RInt_plus d) by (apply Pol_scale; [apply P1, Hm|apply P2, Hm] || (apply Pol_scale; first [apply P1, Hm|apply P2, Hm])).
      rewrite (Pol_RInt_scal _ _ _ _ _ (P1 m Hm)), (Pol_RInt_scal _ _ _ _ _ (P2 m Hm)). unfold cut_moment, k. ring.
    + intros m x Hm. apply Pol_scale, Pol_sub; (eapply Pol_le; [|apply shifted_Pol]); pose proof (max_exp_in p m Hm); unfold d; lia.
    + intros m x Hm. unfold g, h. assert (Q1 : Pol d (fun y => y ^ snd (fst (snd m)) * (1 + x + y) ^ S (snd (snd m)))) by (eapply Pol_le; [|apply shifted_Pol]; pose proof (max_exp_in p m Hm); unfold d; lia).
      assert (Q2 : Pol d (fun y => y ^ snd (fst (snd m)) * (1 + x + y) ^ 0)) by (eapply Pol_le; [|apply shifted_Pol]; pose proof (max_exp_in p m Hm); unfold d; lia).
      rewrite (Pol_RInt_scal d) by (apply Pol_sub; assumption). rewrite (Pol_RInt_ext _ (fun y => y ^ snd (fst (snd m)) * (1 + x + y) ^ S (snd (snd m)) + (-1) * (y ^ snd (fst (snd m)) * (1 + x + y) ^ 0))) by (intros y; ring).
      rewrite (Pol_RInt_plus d) by (try assumption; apply Pol_scale, Q2). rewrite (Pol_RInt_scal d) by exact Q2. rewrite !cut_integral. ring.
    + intros m Hm. apply Pol_add; apply Pol_scale; [apply P1, Hm|apply P2, Hm].
  - intros x. apply Pol_RInt_ext. intros y. rewrite integral_z. apply fold_ext. intros m _. unfold g, k. replace (-1 - x - y) with (- (1 + x + y)) by ring. rewrite pow_neg. unfold Rdiv. change ((1 + x + y) ^ 0) with 1. ring.
Qed.

(** ** The pyramid *)
(** the integral of z^c ((1 - z) / 2)^n over [-1,1] *)
Definition taper (c n : nat) : R := integral (fun z => z ^ c * ((1 - z) / 2) ^ n) (-1) 1.
Lemma taper_Pol c n : Pol (S (c + n)) (fun z => z ^ c * ((1 - z) / 2) ^ n).
Proof.
  apply Pol_mul; [apply Pol_monomial|]. apply (Pol_ext _ (fun z => ((- / 2) * z + / 2) ^ n)); [intros z; f_equal; field|]. apply (Pol_comp (S n) (fun t => t ^ n)). apply Pol_monomial.
Qed.
Lemma half_Pol n : Pol (S n) (fun z => ((1 - z) / 2) ^ n).
Proof. apply (Pol_ext _ (fun z => z ^ 0 * ((1 - z) / 2) ^ n)); [intros z; cbn; ring|]. apply (taper_Pol 0). Qed.
Lemma half_derive n z : is_derive (fun z => - (2 / INR (S n)) * ((1 - z) / 2) ^ S n) z (((1 - z) / 2) ^ n).
Proof.
  assert (N : INR (S n) <> 0) by (apply not_0_INR; lia). replace (((1 - z) / 2) ^ n) with (- (2 / INR (S n)) * (INR (S n) * (- / 2) * ((1 - z) / 2) ^ n)) by (field; exact N).
  apply is_derive_scal. apply (is_derive_pow (fun t : R => (1 - t) / 2) (S n) z (- / 2)). auto_derive; [trivial|field].
Qed.
Lemma taper_0 n : taper 0 n = 2 / INR (S n).
Proof.
  assert (N : INR (S n) <> 0) by (apply not_0_INR; lia). unfold taper. rewrite (Pol_RInt_ext _ (fun z => ((1 - z) / 2) ^ n)) by (intros z; cbn; ring).
  rewrite (Pol_RInt_derive (S n) (fun z => - (2 / INR (S n)) * ((1 - z) / 2) ^ S n)); [|apply half_Pol|intros z; apply half_derive].
  replace ((1 - 1) / 2) with 0 by field. replace ((1 - -1) / 2) with 1 by field. rewrite pow1, pow_i by lia. ring.
Qed.
Lemma taper_S c n : taper (S c) n = 2 / INR (S n) * ((-1) ^ S c + INR (S c) * taper c (S n)).
Proof.
  assert (N : INR (S n) <> 0) by (apply not_0_INR; lia). unfold taper. rewrite (Pol_RInt_ext _ (fun z => ((1 - z) / 2) ^ n * z ^ S c)) by (intros z; ring).
  rewrite (Pol_parts (S (S (c + n))) (fun z => - (2 / INR (S n)) * ((1 - z) / 2) ^ S n) (fun z => z ^ S c) (fun z => ((1 - z) / 2) ^ n) (fun z => INR (S c) * z ^ c) (-1) 1).
  - replace ((1 - 1) / 2) with 0 by field. replace ((1 - -1) / 2) with 1 by field. rewrite !pow1, pow_i by lia.
    rewrite (Pol_RInt_ext (fun z => - (2 / INR (S n)) * ((1 - z) / 2) ^ S n * (INR (S c) * z ^ c)) (fun z => (- (2 / INR (S n)) * INR (S c)) * (z ^ c * ((1 - z) / 2) ^ S n))) by (intros z; ring).
    rewrite (Pol_RInt_scal _ _ _ _ _ (taper_Pol c (S n))). ring.
  - apply Pol_scale. eapply Pol_le; [|apply half_Pol]. lia.
  - eapply Pol_le; [|apply Pol_monomial]. lia.
  - eapply Pol_le; [|apply half_Pol]. lia.
  - apply Pol_scale. eapply Pol_le; [|apply Pol_monomial]. lia.
  - intros z. apply half_derive.
  - intros z. apply pow_derive.
Qed.
Lemma integral_sym k h : integral (fun t => t ^ k) (- h) h = mom k * h ^ S k.
Proof. rewrite !integral_pow, pow_neg, pow1. unfold Rdiv. ring. Qed.
Lemma pyramid_moments : moments 3 on_pyramid (fun e => mom (fst (fst e)) * mom (snd (fst e)) * taper (snd e) (S (fst (fst e)) + S (snd (fst e)))).
Proof.
  intros p _. unfold on_pyramid. set (d := S (S (S (S (max_exp p))))).
  rewrite (Pol_RInt_ext _ (fun z => fold_right (fun m acc => (fst m * (mom (fst (fst (snd m))) * mom (snd (fst (snd m))))) * (z ^ snd (snd m) * ((1 - z) / 2) ^ (S (fst (fst (snd m))) + S (snd (fst (snd m))))) + acc) 0 p)).
  - rewrite (integral_fold d p (fun m z => (fst m * (mom (fst (fst (snd m))) * mom (snd (fst (snd m))))) * (z ^ snd (snd m) * ((1 - z) / 2) ^ (S (fst (fst (snd m))) + S (snd (fst (snd m))))))).
    + apply fold_ext. intros m _. rewrite (Pol_RInt_scal _ _ _ _ _ (taper_Pol _ _)). unfold taper. ring.
    + intros m Hm. apply Pol_scale. eapply Pol_le; [|apply taper_Pol]. pose proof (max_exp_in p m Hm). unfold d. lia.
  - intros z. set (h := (1 - z) / 2). rewrite (Pol_RInt_ext _ (fun x => fold_right (fun m acc => (fst m * z ^ snd (snd m) * (mom (snd (fst (snd m))) * h ^ S (snd (fst (snd m))))) * x ^ fst (fst (snd m)) + acc) 0 p)).
    + rewrite (integral_fold d p (fun m x => (fst m * z ^ snd (snd m) * (mom (snd (fst (snd m))) * h ^ S (snd (fst (snd m))))) * x ^ fst (fst (snd m)))).
      * apply fold_ext. intros m _. rewrite integral_mono, integral_sym, pow_add. ring.
      * intros m Hm. apply Pol_const_mul_pow. pose proof (max_exp_in p m Hm). unfold d. lia.
    + intros x. rewrite (Pol_RInt_ext _ (fun y => fold_right (fun m acc => (fst m * z ^ snd (snd m) * x ^ fst (fst (snd m))) * y ^ snd (fst (snd m)) + acc) 0 p)).
      * rewrite (integral_fold d p (fun m y => (fst m * z ^ snd (snd m) * x ^ fst (fst (snd m))) * y ^ snd (fst (snd m)))).
        -- apply fold_ext. intros m _. rewrite integral_mono, integral_sym. ring.
        -- intros m Hm. apply Pol_const_mul_pow. pose proof (max_exp_in p m Hm). unfold d. lia.
      * intros y. unfold peval. apply fold_ext. intros m _. unfold monomial, pt. cbn [nth]. ring.
Qed.

(** ** Rational values *)
Definition momQ (k : nat) : Q := if Nat.even k then 2 # Pos.of_succ_nat k else 0.
Definition signQ (k : nat) : Q := if Nat.even k then 1 else -1.
Fixpoint cutQ (a b n : nat) : Q :=
  match b with
  | O => (momQ a - momQ (a + S n)) * (1 # Pos.of_succ_nat n)
  | S b' => Qred ((signQ b * (momQ (a + b) - momQ (a + S n)) - inject_Z (Z.of_nat b) * cutQ a b' (S n)) * (1 # Pos.of_succ_nat n))
  end%Q.
Fixpoint taperQ (c n : nat) : Q :=
  match c with
  | O => 2 # Pos.of_succ_nat n
  | S c' => Qred ((2 # Pos.of_succ_nat n) * (signQ c + inject_Z (Z.of_nat c) * taperQ c' (S n)))
  end%Q.
Lemma Q2R_succ z k : Q2R (z # Pos.of_succ_nat k) = IZR z / INR (S k).
Proof. unfold Q2R. cbn [Qnum Qden]. rewrite Zpos_P_of_succ_nat, <- Nat2Z.inj_succ, <- INR_IZR_INZ. reflexivity. Qed.
Lemma Q2R_nat k : Q2R (inject_Z (Z.of_nat k)) = INR k.
Proof. unfold Q2R, inject_Z. cbn [Qnum Qden]. rewrite INR_IZR_INZ. field. Qed.
Lemma Q2R_red q : Q2R (Qred q) = Q2R q.
Proof. apply Qeq_eqR, Qred_correct. Qed.
Lemma sign_even k : (-1) ^ k = if Nat.even k then 1 else -1.
Proof.
  induction k as [|k IH]; [reflexivity|]. rewrite Nat.even_succ, <- Nat.negb_even. cbn [pow]. rewrite IH. destruct (Nat.even k); cbn [negb]; ring.
Qed.
Lemma signQ_ok k : Q2R (signQ k) = (-1) ^ k.
Proof. rewrite sign_even. unfold signQ, Q2R. destruct (Nat.even k); cbn; field. Qed.
Lemma momQ_ok k : Q2R (momQ k) = mom k.
Proof.
  rewrite integral_pow, pow1, sign_even. assert (N : INR (S k) <> 0) by (apply not_0_INR; lia). unfold momQ. rewrite Nat.even_succ, <- Nat.negb_even. destruct (Nat.even k); cbn [negb].
  - rewrite Q2R_succ. field. exact N.
  - unfold Q2R. cbn [Qnum Qden]. field. exact N.
Qed.
Lemma cutQ_ok a b n : Q2R (cutQ a b n) = cut_moment a b n.
Proof.
  revert n. induction b as [|b IH]; intros n.
  - cbn [cutQ]. rewrite cut_moment_0, Q2R_mult, Q2R_minus, !momQ_ok, Q2R_succ. unfold Rdiv. ring.
  - cbn [cutQ]. rewrite cut_moment_S, Q2R_red, Q2R_mult, Q2R_minus, !Q2R_mult, Q2R_minus, !momQ_ok, Q2R_succ, Q2R_nat, signQ_ok, IH. unfold Rdiv. ring.
Qed.
Lemma taperQ_ok c n : Q2R (taperQ c n) = taper c n.
Proof.
  revert n. induction c as [|c IH]; intros n.
  - cbn [taperQ]. rewrite taper_0. apply Q2R_succ.
  - cbn [taperQ]. rewrite taper_S, Q2R_red, Q2R_mult, Q2R_plus, Q2R_mult, Q2R_succ, Q2R_nat, signQ_ok, IH. reflexivity.
Qed.

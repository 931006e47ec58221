(** Polynomials of several variables and their integrals over the reference domains. *)
From Coq Require Import Reals List Arith Lia Lra.
From Coquelicot Require Import Coquelicot.
From Verif Require Import ElementModel ElementSpec QuadPoly.
Import ListNotations.
Local Open Scope R_scope.

(** The integrals over the reference square [-1,1]^2, triangle {x + y <= 0}, cube and tetrahedron {x + y + z <= -1}, as iterated integrals. *)
Definition on_square (f : point -> R) : R := integral (fun x => integral (fun y => f (pt [x; y])) (-1) 1) (-1) 1.
Definition on_triangle (f : point -> R) : R := integral (fun x => integral (fun y => f (pt [x; y])) (-1) (- x)) (-1) 1.
Definition on_cube (f : point -> R) : R := integral (fun x => integral (fun y => integral (fun z => f (pt [x; y; z])) (-1) 1) (-1) 1) (-1) 1.
Definition on_tetrahedron (f : point -> R) : R :=
  integral (fun x => integral (fun y => integral (fun z => f (pt [x; y; z])) (-1) (-1 - x - y)) (-1) (- x)) (-1) 1.

(** functions given by a polynomial with these exponents *)
Definition Poly (S : exps -> Prop) (f : point -> R) : Prop := exists p : poly, List.Forall (fun m : R * (nat * nat * nat) => S (snd m)) p /\ forall x, f x = peval p x.

Lemma Poly_ext S f g : (forall x, f x = g x) -> Poly S f -> Poly S g.
Proof. intros E (p & P & H). exists p. split; [exact P|]. intros x. rewrite <- E. apply H. Qed.

Lemma Poly_weaken (S T : exps -> Prop) f : (forall e, S e -> T e) -> Poly S f -> Poly T f.
Proof. intros I (p & P & H). exists p. split; [|exact H]. eapply List.Forall_impl; [|exact P]. cbn. intros a. apply I. Qed.

Lemma peval_app p q x : peval (p ++ q) x = peval p x + peval q x.
Proof. unfold peval. induction p as [|m p IH]; cbn [fold_right app]; [ring|]. rewrite IH. ring. Qed.

Lemma Poly_zero S : Poly S (fun _ => 0).
Proof. exists []. split; [constructor|reflexivity]. Qed.

Lemma Poly_add S f g : Poly S f -> Poly S g -> Poly S (fun x => f x + g x).
Proof.
  intros (p & P & H) (q & Q & K). exists (p ++ q). split; [apply List.Forall_app; split; assumption|]. intros x. rewrite peval_app, H, K. reflexivity.
Qed.

Lemma Poly_scale S c f : Poly S f -> Poly S (fun x => c * f x).
Proof.
  intros (p & P & H). exists (map (fun m : R * (nat * nat * nat) => (c * fst m, snd m)) p). split.
  - apply List.Forall_map. cbn. exact P.
  - intros x. rewrite H. clear. unfold peval. induction p as [|m p IH]; cbn [fold_right map fst snd]; [ring|]. rewrite <- IH, Rmult_assoc. apply Rmult_plus_distr_l.
Qed.

Definition add_exps (a b : nat * nat * nat) : nat * nat * nat := (fst (fst a) + fst (fst b), snd (fst a) + snd (fst b), snd a + snd b)%nat.

Lemma monomial_mul a b x : monomial (add_exps a b) x = monomial a x * monomial b x.
Proof. unfold monomial, add_exps. cbn [fst snd]. rewrite !pow_add. ring. Qed.

Lemma Poly_mul (S T V : exps -> Prop) f g : (forall a b, S a -> T b -> V (add_exps a b)) -> Poly S f -> Poly T g -> Poly V (fun x => f x * g x).
Proof.
  intros C (p & P & H) (q & Q & K). assert (G : forall m : R * (nat * nat * nat), S (snd m) -> Poly V (fun x => (fst m * monomial (snd m) x) * g x)).
  { intros m Sm. exists (map (fun k : R * (nat * nat * nat) => (fst m * fst k, add_exps (snd m) (snd k))) q). split.
    - apply List.Forall_map. cbn. eapply List.Forall_impl; [|exact Q]. cbn. intros a. apply C, Sm.
    - intros x. rewrite K. clear. unfold peval. induction q as [|k q IH]; cbn [fold_right map fst snd]; [ring|]. rewrite <- IH, monomial_mul. unfold exps. ring. }
  apply (Poly_ext _ (fun x => peval p x * g x)); [intros x; rewrite H; reflexivity|]. clear H. induction P as [|m p Sm _ IH].
  - apply (Poly_ext _ (fun _ => 0)); [intros; cbn; ring|apply Poly_zero].
  - apply (Poly_ext _ (fun x => fst m * monomial (snd m) x * g x + peval p x * g x)); [intros x; symmetry; apply Rmult_plus_distr_r|]. apply Poly_add; [apply G, Sm|exact IH].
Qed.

Lemma Poly_monomial (S : exps -> Prop) c e : S e -> Poly S (fun x => c * monomial e x).
Proof. intros H. exists ((c, e) :: []). split; [constructor; [exact H|constructor]|]. intros x. unfold peval. cbn. ring. Qed.

(** functions of the first two coordinates *)
Lemma total_add dim k l a b : total_degree dim k a -> total_degree dim l b -> total_degree dim (k + l) (add_exps a b).
Proof. unfold total_degree, add_exps. cbn [fst snd]. intros (A & B & C) (A' & B' & C'). split; [lia|]. split; intros H; [rewrite (B H), (B' H)|rewrite (C H), (C' H)]; reflexivity. Qed.
Lemma each_add dim k l a b : each_degree dim k a -> each_degree dim l b -> each_degree dim (k + l) (add_exps a b).
Proof. unfold each_degree, add_exps. cbn [fst snd]. intros (A & B & C) (A' & B' & C'). split; [lia|]. split; intros H; [rewrite (B H), (B' H)|rewrite (C H), (C' H)]; reflexivity. Qed.

Lemma total_const dim k c : Poly (total_degree dim k) (fun _ => c).
Proof. apply (Poly_ext _ (fun x => c * monomial (0, 0, 0)%nat x)); [intros; unfold monomial; cbn; ring|]. apply Poly_monomial. unfold total_degree. cbn. repeat split; lia. Qed.
Lemma total_x dim k : (1 <= k)%nat -> Poly (total_degree dim k) (fun x => x 0%nat).
Proof. intros K. apply (Poly_ext _ (fun x => 1 * monomial (1, 0, 0)%nat x)); [intros; unfold monomial; cbn; ring|]. apply Poly_monomial. unfold total_degree. cbn. repeat split; lia. Qed.
Lemma total_y dim k : (1 <= k)%nat -> (2 <= dim)%nat -> Poly (total_degree dim k) (fun x => x 1%nat).
Proof. intros K Dm. apply (Poly_ext _ (fun x => 1 * monomial (0, 1, 0)%nat x)); [intros; unfold monomial; cbn; ring|]. apply Poly_monomial. unfold total_degree. cbn. repeat split; lia. Qed.

Lemma total_pow dim f k : Poly (total_degree dim 1) f -> Poly (total_degree dim k) (fun x => f x ^ k).
Proof. intros F. induction k as [|k IH]; [exact (total_const dim 0 1)|]. exact (Poly_mul _ _ _ f (fun x => f x ^ k) (total_add dim 1 k) F IH). Qed.

(** replacing the two coordinates by affine functions *)
Lemma total_substitute k (A B : point -> R) p : Poly (total_degree 2 1) A -> Poly (total_degree 2 1) B -> List.Forall (fun m : R * (nat * nat * nat) => total_degree 2 k (snd m)) p ->
  Poly (total_degree 2 k) (fun x => peval p (pt [A x; B x])).
Proof.
  intros HA HB P. induction P as [|m p Hm _ IH]; [apply Poly_zero|].
  apply (Poly_ext _ (fun x => fst m * (A x ^ fst (fst (snd m)) * B x ^ snd (fst (snd m))) + peval p (pt [A x; B x]))).
  - intros x. destruct m as [c [[i j] l]]. destruct Hm as (_ & Z & _). cbn [fst snd] in *. rewrite (Z ltac:(lia)). unfold peval. cbn [fold_right fst snd]. f_equal.
    unfold monomial, pt. cbn [nth fst snd pow]. ring.
  - apply Poly_add; [|exact IH]. apply Poly_scale.
    apply (Poly_weaken (total_degree 2 (fst (fst (snd m)) + snd (fst (snd m))))).
    + intros e (E1 & E2 & E3). destruct Hm as (M & _). split; [lia|split; assumption].
    + apply (Poly_mul _ _ _ (fun x => A x ^ fst (fst (snd m))) (fun x => B x ^ snd (fst (snd m))) (total_add 2 _ _)); apply total_pow; assumption.
Qed.

(** one-variable sections are polynomials *)
Lemma Pol_fold d (p : poly) (g : R * (nat * nat * nat) -> R -> R) : (forall m, In m p -> Pol d (g m)) -> Pol d (fun x => fold_right (fun m acc => g m x + acc) 0 p).
Proof.
  induction p as [|m p IH]; intros H; [apply Pol_zero|]. cbn. apply (Pol_add d (g m) (fun x => fold_right (fun m acc => g m x + acc) 0 p)).
  - apply H. left. reflexivity.
  - apply IH. intros k K. apply H. right. exact K.
Qed.

Definition max_exp (p : poly) : nat := fold_right (fun (m : R * (nat * nat * nat)) acc => (fst (fst (snd m)) + snd (fst (snd m)) + snd (snd m) + acc)%nat) 0%nat p.
Lemma max_exp_in p m : In m p -> (fst (fst (snd m)) + snd (fst (snd m)) + snd (snd m) <= max_exp p)%nat.
Proof. induction p as [|k p IH]; [intros []|]. intros [->|H]; cbn; [lia|]. specialize (IH H). unfold max_exp in IH. lia. Qed.

Lemma Pol_const_mul_pow c k d : (k < d)%nat -> Pol d (fun t => c * t ^ k).
Proof. intros H. apply Pol_scale. apply (Pol_le (S k)); [lia|apply Pol_monomial]. Qed.

Lemma section_y p x : Pol (S (max_exp p)) (fun y => peval p (pt [x; y])).
Proof.
  apply (Pol_fold _ p (fun m y => fst m * monomial (snd m) (pt [x; y]))). intros m Hm.
  apply (Pol_ext _ (fun y => (fst m * x ^ fst (fst (snd m)) * 0 ^ snd (snd m)) * y ^ snd (fst (snd m)))); [intros y; unfold monomial, pt; cbn [nth]; ring|].
  apply Pol_const_mul_pow. pose proof (max_exp_in p m Hm). lia.
Qed.
Lemma section_z p x y : Pol (S (max_exp p)) (fun z => peval p (pt [x; y; z])).
Proof.
  apply (Pol_fold _ p (fun m z => fst m * monomial (snd m) (pt [x; y; z]))). intros m Hm.
  apply (Pol_ext _ (fun z => (fst m * x ^ fst (fst (snd m)) * y ^ snd (fst (snd m))) * z ^ snd (snd m))); [intros z; unfold monomial, pt; cbn [nth]; ring|].
  apply Pol_const_mul_pow. pose proof (max_exp_in p m Hm). lia.
Qed.

Lemma integral_fold d (p : poly) (g : R * (nat * nat * nat) -> R -> R) a b : (forall m, In m p -> Pol d (g m)) ->
  integral (fun x => fold_right (fun m acc => g m x + acc) 0 p) a b = fold_right (fun m acc => integral (g m) a b + acc) 0 p.
Proof.
  induction p as [|m p IH]; intros H.
  - change (integral (fun _ => 0) a b = 0). unfold integral. rewrite RInt_const. apply Rmult_0_r.
  - cbn [fold_right]. rewrite (Pol_RInt_plus d (g m)).
    + f_equal. apply IH. intros k K. apply H. right. exact K.
    + apply H. left. reflexivity.
    + apply (Pol_fold d p g). intros k K. apply H. right. exact K.
Qed.

Lemma integral_mono c k a b : integral (fun t => c * t ^ k) a b = c * integral (fun t => t ^ k) a b.
Proof. apply (Pol_RInt_scal (S k)). apply Pol_monomial. Qed.

Lemma fold_ext (p : poly) (f g : R * (nat * nat * nat) -> R) : (forall m, In m p -> f m = g m) -> fold_right (fun m acc => f m + acc) 0 p = fold_right (fun m acc => g m + acc) 0 p.
Proof. induction p as [|m p IH]; intros H; [reflexivity|]. cbn. rewrite (H m (or_introl eq_refl)), IH; [reflexivity|]. intros k K. apply H. right. exact K. Qed.

Local Notation mom k := (integral (fun t => t ^ k) (-1) 1).

(** integrals of polynomials over the square and the cube *)
Lemma on_square_peval p : List.Forall (fun m : R * (nat * nat * nat) => snd (snd m) = 0%nat) p ->
  on_square (peval p) = fold_right (fun m acc => fst m * (mom (fst (fst (snd m))) * mom (snd (fst (snd m)))) + acc) 0 p.
Proof.
  intros F. assert (F' : forall m, In m p -> snd (snd m) = 0%nat) by (apply List.Forall_forall; exact F). unfold on_square.
  rewrite (Pol_RInt_ext _ (fun x => fold_right (fun m acc => (fst m * mom (snd (fst (snd m)))) * x ^ fst (fst (snd m)) + acc) 0 p)).
  - rewrite (integral_fold (S (max_exp p)) p (fun m x => (fst m * mom (snd (fst (snd m)))) * x ^ fst (fst (snd m)))).
    + apply fold_ext. intros m Hm. rewrite integral_mono. ring.
    + intros m Hm. apply Pol_const_mul_pow. pose proof (max_exp_in p m Hm). lia.
  - intros x. unfold peval. rewrite (integral_fold (S (max_exp p)) p (fun m y => fst m * monomial (snd m) (pt [x; y]))).
    + apply fold_ext. intros m Hm. rewrite (Pol_RInt_ext _ (fun y => (fst m * x ^ fst (fst (snd m))) * y ^ snd (fst (snd m)))).
      * rewrite integral_mono. ring.
      * intros y. unfold monomial, pt. cbn [nth]. rewrite (F' m Hm). cbn. ring.
    + intros m Hm. apply (Pol_ext _ (fun y => (fst m * x ^ fst (fst (snd m)) * 0 ^ snd (snd m)) * y ^ snd (fst (snd m)))); [intros y; unfold monomial, pt; cbn [nth]; ring|].
      apply Pol_const_mul_pow. pose proof (max_exp_in p m Hm). lia.
Qed.

Lemma on_cube_peval p :
  on_cube (peval p) = fold_right (fun m acc => fst m * (mom (fst (fst (snd m))) * mom (snd (fst (snd m))) * mom (snd (snd m))) + acc) 0 p.
Proof.
  unfold on_cube.
  rewrite (Pol_RInt_ext _ (fun x => fold_right (fun m acc => (fst m * mom (snd (fst (snd m))) * mom (snd (snd m))) * x ^ fst (fst (snd m)) + acc) 0 p)).
  - rewrite (integral_fold (S (max_exp p)) p (fun m x => (fst m * mom (snd (fst (snd m))) * mom (snd (snd m))) * x ^ fst (fst (snd m)))).
    + apply fold_ext. intros m Hm. rewrite integral_mono. ring.
    + intros m Hm. apply Pol_const_mul_pow. pose proof (max_exp_in p m Hm). lia.
  - intros x.
    rewrite (Pol_RInt_ext _ (fun y => fold_right (fun m acc => (fst m * x ^ fst (fst (snd m)) * mom (snd (snd m))) * y ^ snd (fst (snd m)) + acc) 0 p)).
    + rewrite (integral_fold (S (max_exp p)) p (fun m y => (fst m * x ^ fst (fst (snd m)) * mom (snd (snd m))) * y ^ snd (fst (snd m)))).
      * apply fold_ext. intros m Hm. rewrite integral_mono. ring.
      * intros m Hm. apply Pol_const_mul_pow. pose proof (max_exp_in p m Hm). lia.
    + intros y. unfold peval. rewrite (integral_fold (S (max_exp p)) p (fun m z => fst m * monomial (snd m) (pt [x; y; z]))).
      * apply fold_ext. intros m Hm. rewrite (Pol_RInt_ext _ (fun z => (fst m * x ^ fst (fst (snd m)) * y ^ snd (fst (snd m))) * z ^ snd (snd m))).
        -- rewrite integral_mono. ring.
        -- intros z. unfold monomial, pt. cbn [nth]. ring.
      * intros m Hm. apply (Pol_ext _ (fun z => (fst m * x ^ fst (fst (snd m)) * y ^ snd (fst (snd m))) * z ^ snd (snd m))); [intros z; unfold monomial, pt; cbn [nth]; ring|].
        apply Pol_const_mul_pow. pose proof (max_exp_in p m Hm). lia.
Qed.

(** an antiderivative in the second coordinate *)
Definition upto (p : poly) (x t : R) : R :=
  fold_right (fun m acc => fst m * x ^ fst (fst (snd m)) * (t ^ S (snd (fst (snd m))) / INR (S (snd (fst (snd m))))) + acc) 0 p.

Lemma integral_pow k a b : integral (fun t => t ^ k) a b = b ^ S k / INR (S k) - a ^ S k / INR (S k).
Proof.
  assert (N : INR (S k) <> 0) by (apply not_0_INR; lia).
  apply (Pol_RInt_derive (S k) (fun t => t ^ S k / INR (S k)) (fun t => t ^ k) a b (Pol_monomial k)).
  intros x. replace (x ^ k) with (/ INR (S k) * (INR (S k) * 1 * x ^ k)) by (field; exact N).
  apply (is_derive_ext (fun t => / INR (S k) * t ^ S k)); [intros t; unfold Rdiv; apply Rmult_comm|]. apply is_derive_scal.
  exact (is_derive_pow (fun t : R => t) (S k) x 1 (is_derive_id x)).
Qed.

Lemma inner_upto p x a b : List.Forall (fun m : R * (nat * nat * nat) => snd (snd m) = 0%nat) p ->
  integral (fun y => peval p (pt [x; y])) a b = upto p x b - upto p x a.
Proof.
  intros F. assert (F' : forall m, In m p -> snd (snd m) = 0%nat) by (apply List.Forall_forall; exact F).
  unfold peval. rewrite (integral_fold (S (max_exp p)) p (fun m y => fst m * monomial (snd m) (pt [x; y]))).
  - unfold upto. clear F. revert F'. induction p as [|m p IH]; intros F'; cbn [fold_right]; [ring|].
    rewrite IH by (intros k K; apply F'; right; exact K). rewrite (Pol_RInt_ext _ (fun y => (fst m * x ^ fst (fst (snd m))) * y ^ snd (fst (snd m)))).
    + rewrite integral_mono, integral_pow. ring.
    + intros y. unfold monomial, pt. cbn [nth]. rewrite (F' m (or_introl eq_refl)). cbn [pow]. ring.
  - intros m Hm. apply (Pol_ext _ (fun y => (fst m * x ^ fst (fst (snd m)) * 0 ^ snd (snd m)) * y ^ snd (fst (snd m)))); [intros y; unfold monomial, pt; cbn [nth]; ring|].
    apply Pol_const_mul_pow. pose proof (max_exp_in p m Hm). lia.
Qed.

Lemma upto_Pol p a b : Pol (S (S (max_exp p))) (fun x => upto p x (a * x + b)).
Proof.
  apply (Pol_fold _ p (fun m x => fst m * x ^ fst (fst (snd m)) * ((a * x + b) ^ S (snd (fst (snd m))) / INR (S (snd (fst (snd m))))))). intros m Hm.
  pose proof (max_exp_in p m Hm).
  apply (Pol_ext _ (fun x => (fst m / INR (S (snd (fst (snd m))))) * (x ^ fst (fst (snd m)) * (a * x + b) ^ S (snd (fst (snd m)))))); [intros x; unfold Rdiv; ring|].
  apply Pol_scale. apply (Pol_le (S (fst (fst (snd m)) + S (snd (fst (snd m)))))); [lia|].
  apply Pol_mul; [apply Pol_monomial|]. apply (Pol_comp _ (fun t => t ^ S (snd (fst (snd m))))). apply Pol_monomial.
Qed.

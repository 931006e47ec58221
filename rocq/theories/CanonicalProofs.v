(** Lemmas for C81: integrals over the reference domains of sums, products and functions that agree inside. *)
From Coq Require Import Reals List Arith Lia Lra.
From Coquelicot Require Import Coquelicot.
From Verif Require Import ElementModel ElementSpec QuadratureModel QuadPoly QuadPolyN RuleProofs PropTensor PropGauss GaussSharp PropSubdivide ElementDegrees TriangleCells.
Import ListNotations.
Local Open Scope R_scope.

Lemma integral_between (f g : R -> R) a b : a <= b -> (forall x, a < x < b -> f x = g x) -> integral f a b = integral g a b.
Proof. intros L H. apply RInt_ext. intros x. rewrite Rmin_left, Rmax_right by lra. apply H. Qed.

Definition inside (d : nat) (x : point) : Prop := forall k, (k < d)%nat -> -1 < x k < 1.

Lemma on_square_inside f g : (forall x, inside 2 x -> f x = g x) -> on_square f = on_square g.
Proof.
  intros H. apply integral_between; [lra|]. intros x Hx. apply integral_between; [lra|]. intros y Hy. apply H. intros k Hk. destruct k as [|[|k]]; [exact Hx|exact Hy|lia].
Qed.
Lemma on_cube_inside f g : (forall x, inside 3 x -> f x = g x) -> on_cube f = on_cube g.
Proof.
  intros H. apply integral_between; [lra|]. intros x Hx. apply integral_between; [lra|]. intros y Hy. apply integral_between; [lra|]. intros z Hz. apply H.
  intros k Hk. destruct k as [|[|[|k]]]; [exact Hx|exact Hy|exact Hz|lia].
Qed.
Lemma on_tetrahedron_ext f g : (forall x, f x = g x) -> on_tetrahedron f = on_tetrahedron g.
Proof. intros H. do 3 (apply Pol_RInt_ext; intros ?). apply H. Qed.

(** one-variable polynomials as polynomials of a coordinate *)
Lemma Deg_horner t a b c f l : Deg t a b c f -> Deg (t * (length l - 1)) (a * (length l - 1)) (b * (length l - 1)) (c * (length l - 1)) (fun x => horner l (f x)).
Proof.
  intros F. induction l as [|r l IH]; [cbn [horner]; degree|]. destruct l as [|r' l].
  - apply (Deg_ext _ _ _ _ (fun _ => r)); [intros; cbn; ring|degree].
  - apply (Deg_ext _ _ _ _ (fun x => r + f x * horner (r' :: l) (f x))); [reflexivity|]. eapply Deg_weaken; cycle 4; [eapply Deg_add; [exact (Deg_const r)|eapply Deg_mul; [exact F|exact IH]]|cbn; nia..].
Qed.
Lemma Deg_pol t a b c f d p : Deg t a b c f -> Pol (S d) p -> Deg (t * d) (a * d) (b * d) (c * d) (fun x => p (f x)).
Proof.
  intros F (l & L & E). apply (Deg_ext _ _ _ _ (fun x => horner l (f x))); [intros; apply E|]. eapply Deg_weaken; cycle 4; [apply (Deg_horner _ _ _ _ f l F)|apply Nat.mul_le_mono_l; lia..].
Qed.

Lemma Deg_each2 t a b f k : Deg t a b 0 f -> (a <= k -> b <= k -> Poly (each_degree 2 k) f)%nat.
Proof. intros F A B. revert F. apply Poly_weaken. unfold fits, each_degree. intros e H. lia. Qed.
Lemma Deg_each3 t a b c f k : Deg t a b c f -> (a <= k -> b <= k -> c <= k -> Poly (each_degree 3 k) f)%nat.
Proof. intros F A B C. revert F. apply Poly_weaken. unfold fits, each_degree. intros e H. lia. Qed.
Lemma Deg_total2 t a b f k : Deg t a b 0 f -> (t <= k -> Poly (total_degree 2 k) f)%nat.
Proof. intros F A. revert F. apply Poly_weaken. unfold fits, total_degree. intros e H. lia. Qed.
Lemma Deg_total3 t a b c f k : Deg t a b c f -> (t <= k -> Poly (total_degree 3 k) f)%nat.
Proof. intros F A. revert F. apply Poly_weaken. unfold fits, total_degree. intros e H. lia. Qed.

(** sums of a polynomial and a product of one-variable functions *)
Definition ex_int (f : R -> R) : Prop := ex_RInt f (-1) 1.
Lemma integral_plus f g : ex_int f -> ex_int g -> integral (fun x => f x + g x) (-1) 1 = integral f (-1) 1 + integral g (-1) 1.
Proof. intros F G. exact (RInt_plus (V := R_CompleteNormedModule) f g (-1) 1 F G). Qed.
Lemma integral_scale f c : ex_int f -> integral (fun x => c * f x) (-1) 1 = c * integral f (-1) 1.
Proof. intros F. exact (RInt_scal (V := R_CompleteNormedModule) f (-1) 1 c F). Qed.
Lemma ex_int_scale f c : ex_int f -> ex_int (fun x => c * f x).
Proof. intros F. exact (@ex_RInt_scal R_NormedModule f (-1) 1 c F). Qed.
Lemma ex_int_Pol d f : Pol d f -> ex_int f.
Proof. apply Pol_ex_RInt. Qed.

Lemma inner_square p : Pol (S (max_exp p)) (fun x => integral (fun y => peval p (pt [x; y])) (-1) 1).
Proof.
  apply (Pol_ext _ (fun x => fold_right (fun m acc => (fst m * x ^ fst (fst (snd m)) * 0 ^ snd (snd m) * integral (fun y => y ^ snd (fst (snd m))) (-1) 1) + acc) 0 p)).
  - intros x. symmetry. etransitivity; [apply (integral_fold (S (max_exp p)) p (fun m y => fst m * monomial (snd m) (pt [x; y])))|].
    + intros m Hm. apply (Pol_ext _ (fun y => (fst m * x ^ fst (fst (snd m)) * 0 ^ snd (snd m)) * y ^ snd (fst (snd m)))); [intros y; unfold monomial, pt; cbn [nth]; ring|].
      apply Pol_const_mul_pow. pose proof (max_exp_in p m Hm). lia.
    + apply fold_ext. intros m _. rewrite <- integral_mono. apply Pol_RInt_ext. intros y. unfold monomial, pt. cbn [nth]. ring.
  - apply (Pol_fold _ p (fun m x => fst m * x ^ fst (fst (snd m)) * 0 ^ snd (snd m) * integral (fun y => y ^ snd (fst (snd m))) (-1) 1)). intros m Hm.
    apply (Pol_ext _ (fun x => (fst m * 0 ^ snd (snd m) * integral (fun y => y ^ snd (fst (snd m))) (-1) 1) * x ^ fst (fst (snd m)))); [intros; ring|].
    apply Pol_const_mul_pow. pose proof (max_exp_in p m Hm). lia.
Qed.
Lemma on_square_sum A f g d : (exists p, forall x, A x = peval p x) -> ex_int f -> Pol d g ->
  on_square (fun x => A x + f (x 0%nat) * g (x 1%nat)) = on_square A + integral f (-1) 1 * integral g (-1) 1.
Proof.
  intros (p & E) F G. unfold on_square. rewrite (Pol_RInt_ext _ (fun x => integral (fun y => peval p (pt [x; y])) (-1) 1 + integral g (-1) 1 * f x)).
  - rewrite integral_plus; [|apply (ex_int_Pol (S (max_exp p))), inner_square|apply ex_int_scale, F]. rewrite integral_scale by exact F. rewrite (Rmult_comm (integral g (-1) 1)). f_equal.
    apply Pol_RInt_ext. intros x. apply Pol_RInt_ext. intros y. symmetry. apply E.
  - intros x. rewrite (Pol_RInt_ext _ (fun y => peval p (pt [x; y]) + f x * g y)) by (intros y; rewrite E; reflexivity).
    rewrite integral_plus; [|apply (ex_int_Pol (S (max_exp p))), section_y|apply ex_int_scale, (ex_int_Pol d), G]. rewrite integral_scale by (apply (ex_int_Pol d), G). ring.
Qed.
Lemma integral_y_cube p x : Pol (S (max_exp p)) (fun y => integral (fun z => peval p (pt [x; y; z])) (-1) 1).
Proof.
  apply (Pol_ext _ (fun y => fold_right (fun m acc => (fst m * x ^ fst (fst (snd m)) * y ^ snd (fst (snd m)) * integral (fun z => z ^ snd (snd m)) (-1) 1) + acc) 0 p)).
  - intros y. symmetry. etransitivity; [apply (integral_fold (S (max_exp p)) p (fun m z => fst m * monomial (snd m) (pt [x; y; z])))|].
    + intros m Hm. apply (Pol_ext _ (fun z => (fst m * x ^ fst (fst (snd m)) * y ^ snd (fst (snd m))) * z ^ snd (snd m))); [intros z; unfold monomial, pt; cbn [nth]; ring|].
      apply Pol_const_mul_pow. pose proof (max_exp_in p m Hm). lia.
    + apply fold_ext. intros m _. rewrite <- integral_mono. apply Pol_RInt_ext. intros z. unfold monomial, pt. cbn [nth]. ring.
  - apply (Pol_fold _ p (fun m y => fst m * x ^ fst (fst (snd m)) * y ^ snd (fst (snd m)) * integral (fun z => z ^ snd (snd m)) (-1) 1)). intros m Hm.
    apply (Pol_ext _ (fun y => (fst m * x ^ fst (fst (snd m)) * integral (fun z => z ^ snd (snd m)) (-1) 1) * y ^ snd (fst (snd m)))); [intros; ring|].
    apply Pol_const_mul_pow. pose proof (max_exp_in p m Hm). lia.
Qed.
Lemma integral_x_cube p : Pol (S (max_exp p)) (fun x => integral (fun y => integral (fun z => peval p (pt [x; y; z])) (-1) 1) (-1) 1).
Proof.
  apply (Pol_ext _ (fun x => fold_right (fun m acc => (fst m * x ^ fst (fst (snd m)) * (integral (fun y => y ^ snd (fst (snd m))) (-1) 1 * integral (fun z => z ^ snd (snd m)) (-1) 1)) + acc) 0 p)).
  - intros x. symmetry. rewrite (Pol_RInt_ext _ (fun y => fold_right (fun m acc => (fst m * x ^ fst (fst (snd m)) * integral (fun z => z ^ snd (snd m)) (-1) 1) * y ^ snd (fst (snd m)) + acc) 0 p)).
    + etransitivity; [apply (integral_fold (S (max_exp p)) p (fun m y => fst m * x ^ fst (fst (snd m)) * integral (fun z => z ^ snd (snd m)) (-1) 1 * y ^ snd (fst (snd m))))|].
      * intros m Hm. apply Pol_const_mul_pow. pose proof (max_exp_in p m Hm). lia.
      * apply fold_ext. intros m _. rewrite integral_mono. ring.
    + intros y. etransitivity; [apply (integral_fold (S (max_exp p)) p (fun m z => fst m * monomial (snd m) (pt [x; y; z])))|].
      * intros m Hm. apply (Pol_ext _ (fun z => (fst m * x ^ fst (fst (snd m)) * y ^ snd (fst (snd m))) * z ^ snd (snd m))); [intros z; unfold monomial, pt; cbn [nth]; ring|].
        apply Pol_const_mul_pow. pose proof (max_exp_in p m Hm). lia.
      * apply fold_ext. intros m _. rewrite (Pol_RInt_ext _ (fun z => (fst m * x ^ fst (fst (snd m)) * y ^ snd (fst (snd m))) * z ^ snd (snd m))) by (intros z; unfold monomial, pt; cbn [nth]; ring).
        rewrite integral_mono. ring.
  - apply (Pol_fold _ p (fun m x => fst m * x ^ fst (fst (snd m)) * (integral (fun y => y ^ snd (fst (snd m))) (-1) 1 * integral (fun z => z ^ snd (snd m)) (-1) 1))). intros m Hm.
    apply (Pol_ext _ (fun x => (fst m * (integral (fun y => y ^ snd (fst (snd m))) (-1) 1 * integral (fun z => z ^ snd (snd m)) (-1) 1)) * x ^ fst (fst (snd m)))); [intros; ring|].
    apply Pol_const_mul_pow. pose proof (max_exp_in p m Hm). lia.
Qed.
Lemma on_cube_sum A f g h d : (exists p, forall x, A x = peval p x) -> ex_int f -> Pol d g -> Pol d h ->
  on_cube (fun x => A x + f (x 0%nat) * g (x 1%nat) * h (x 2%nat)) = on_cube A + integral f (-1) 1 * integral g (-1) 1 * integral h (-1) 1.
Proof.
  intros (p & E) F G H. unfold on_cube.
  rewrite (Pol_RInt_ext _ (fun x => integral (fun y => integral (fun z => peval p (pt [x; y; z])) (-1) 1) (-1) 1 + (integral g (-1) 1 * integral h (-1) 1) * f x)).
  - rewrite integral_plus; [|apply (ex_int_Pol (S (max_exp p))), integral_x_cube|apply ex_int_scale, F]. rewrite integral_scale by exact F.
    rewrite (Rmult_comm (integral g (-1) 1 * integral h (-1) 1)), <- Rmult_assoc. f_equal. do 3 (apply Pol_RInt_ext; intros ?). symmetry. apply E.
  - intros x. rewrite (Pol_RInt_ext _ (fun y => integral (fun z => peval p (pt [x; y; z])) (-1) 1 + (f x * integral h (-1) 1) * g y)).
    + rewrite integral_plus; [|apply (ex_int_Pol (S (max_exp p))), integral_y_cube|apply ex_int_scale, (ex_int_Pol d), G]. rewrite integral_scale by (apply (ex_int_Pol d), G). ring.
    + intros y. rewrite (Pol_RInt_ext _ (fun z => peval p (pt [x; y; z]) + (f x * g y) * h z)) by (intros z; rewrite E; reflexivity).
      rewrite integral_plus; [|apply (ex_int_Pol (S (max_exp p))), section_z|apply ex_int_scale, (ex_int_Pol d), H]. rewrite integral_scale by (apply (ex_int_Pol d), H). ring.
Qed.

(** Legendre polynomials from the recurrence of the code: derivatives, orthogonality, zeros, and exactness of Gauss rules. *)
From Coq Require Import Reals List Arith Lia Lra.
From Coquelicot Require Import Coquelicot.
From Verif Require Import ElementModel QuadratureModel QuadPoly.
Import ListNotations.
Local Open Scope R_scope.

Local Notation L := legendre_value.

Lemma evaluate_S n x : legendre_evaluate (S n) x = (((2 * INR (S n) - 1) * x * L n x - (INR (S n) - 1) * snd (legendre_evaluate n x)) / INR (S n), L n x).
Proof. unfold legendre_evaluate at 1. rewrite seq_S, fold_left_app. reflexivity. Qed.

Lemma snd_S n x : snd (legendre_evaluate (S n) x) = L n x.
Proof. rewrite evaluate_S. reflexivity. Qed.

Lemma L_0 x : L 0 x = 1.
Proof. reflexivity. Qed.
Lemma L_1 x : L 1 x = x.
Proof. unfold L. rewrite evaluate_S. unfold L. cbn. field. Qed.
Lemma L_SS n x : L (S (S n)) x = ((2 * INR n + 3) * x * L (S n) x - (INR n + 1) * L n x) / (INR n + 2).
Proof. unfold L at 1. rewrite evaluate_S, snd_S. cbn [fst]. rewrite !S_INR. replace (INR n + 1 + 1) with (INR n + 2) by ring. f_equal. ring. Qed.

Lemma INR_pos n : 0 < INR n + 1.
Proof. pose proof (pos_INR n). lra. Qed.

(** two-step induction *)
Lemma pair_ind (P : nat -> Prop) : P 0%nat -> P 1%nat -> (forall n, P n -> P (S n) -> P (S (S n))) -> forall n, P n.
Proof. intros P0 P1 PS n. enough (P n /\ P (S n)) by tauto. induction n as [|n [IH1 IH2]]; split; auto. Qed.

Lemma L_one n : L n 1 = 1.
Proof.
  induction n as [| |n IH1 IH2] using pair_ind; [apply L_0|apply L_1|]. rewrite L_SS, IH1, IH2. pose proof (pos_INR n). field. lra.
Qed.

Lemma L_opp n x : L n (- x) = (-1) ^ n * L n x.
Proof.
  induction n as [| |n IH1 IH2] using pair_ind; [rewrite !L_0; cbn; ring|rewrite !L_1; cbn; ring|]. rewrite !L_SS, IH1, IH2. cbn [pow]. pose proof (pos_INR n). field. lra.
Qed.

Lemma L_m1 n : L n (-1) = (-1) ^ n.
Proof. transitivity ((-1) ^ n * L n 1); [exact (L_opp n 1)|rewrite L_one; ring]. Qed.

Lemma sign_sq n : (-1) ^ n * (-1) ^ n = 1.
Proof. rewrite <- Rpow_mult_distr. replace (-1 * -1) with 1 by ring. apply pow1. Qed.

Lemma L_Pol n : Pol (S n) (L n).
Proof.
  induction n as [| |n IH1 IH2] using pair_ind.
  - apply (Pol_ext _ (fun _ => 1)); [intros x; symmetry; apply L_0|apply Pol_const].
  - apply (Pol_ext _ (fun x => x * 1)); [intros x; rewrite L_1; ring|apply Pol_mulx, Pol_const].
  - apply (Pol_ext _ (fun x => ((2 * INR n + 3) / (INR n + 2)) * (x * L (S n) x) + (- (INR n + 1) / (INR n + 2)) * L n x)).
    + intros x. rewrite L_SS. pose proof (pos_INR n). field. lra.
    + apply Pol_add; [apply Pol_scale, Pol_mulx, IH2|]. apply Pol_scale. apply (Pol_le (S n)); [lia|exact IH1].
Qed.

Lemma integral_zero a b : integral (fun _ => 0) a b = 0.
Proof. unfold integral. rewrite RInt_const. apply Rmult_0_r. Qed.

Definition D (n : nat) (x : R) : R := Derive (L n) x.

Lemma D_spec n x : is_derive (L n) x (D n x).
Proof. destruct (Pol_derive _ _ (L_Pol n)) as (g & _ & H). apply Derive_correct. exists (g x). apply H. Qed.
Lemma D_unique n x l : is_derive (L n) x l -> D n x = l.
Proof. intros H. apply is_derive_unique, H. Qed.
Lemma D_Pol n : Pol n (D n).
Proof. destruct (Pol_derive _ _ (L_Pol n)) as (g & G & H). apply (Pol_ext _ g); [|exact G]. intros x. symmetry. apply D_unique, H. Qed.

Lemma D_0 x : D 0 x = 0.
Proof. apply D_unique. apply (is_derive_ext (fun _ => 1)); [intros; symmetry; apply L_0|exact (is_derive_const (1 : R) x)]. Qed.
Lemma D_1 x : D 1 x = 1.
Proof. apply D_unique. apply (is_derive_ext (fun t => t)); [intros; symmetry; apply L_1|exact (is_derive_id x)]. Qed.
Lemma D_SS n x : D (S (S n)) x = ((2 * INR n + 3) * (L (S n) x + x * D (S n) x) - (INR n + 1) * D n x) / (INR n + 2).
Proof.
  apply D_unique. pose proof (pos_INR n).
  apply (is_derive_ext (fun x => (2 * INR n + 3) / (INR n + 2) * (x * L (S n) x) + - (INR n + 1) / (INR n + 2) * L n x)).
  { intros t. rewrite L_SS. simpl. field. lra. }
  replace (((2 * INR n + 3) * (L (S n) x + x * D (S n) x) - (INR n + 1) * D n x) / (INR n + 2))
    with ((2 * INR n + 3) / (INR n + 2) * (1 * L (S n) x + x * D (S n) x) + - (INR n + 1) / (INR n + 2) * D n x) by (field; lra).
  apply @is_derive_plus; apply is_derive_scal; [|apply D_spec].
  exact (is_derive_mult (fun t : R => t) (L (S n)) x 1 (D (S n) x) (is_derive_id x) (D_spec (S n) x) Rmult_comm).
Qed.

Lemma identities n x : D (S n) x = x * D n x + (INR n + 1) * L n x /\ x * D (S n) x - D n x = (INR n + 1) * L (S n) x.
Proof.
  induction n as [|n [I1 I2]].
  - rewrite D_1, D_0, L_0, L_1. cbn. lra.
  - pose proof (pos_INR n). assert (A : D (S (S n)) x = x * D (S n) x + (INR (S n) + 1) * L (S n) x).
    { rewrite D_SS, S_INR. replace (D n x) with (x * D (S n) x - (INR n + 1) * L (S n) x) by lra. field. lra. }
    split; [exact A|]. rewrite A, L_SS, S_INR.
    assert (B : (x * x - 1) * D (S n) x = (INR n + 1) * (x * L (S n) x - L n x)).
    { replace ((x * x - 1) * D (S n) x) with (x * (x * D (S n) x - D n x) - (D (S n) x - x * D n x)) by ring. rewrite I2, I1. ring. }
    replace (x * (x * D (S n) x + (INR n + 1 + 1) * L (S n) x) - D (S n) x) with ((x * x - 1) * D (S n) x + (INR n + 2) * x * L (S n) x) by ring.
    rewrite B. field. lra.
Qed.

Lemma D_closed n x : (x * x - 1) * D (S n) x = (INR n + 1) * (x * L (S n) x - L n x).
Proof.
  destruct (identities n x) as [I1 I2].
  replace ((x * x - 1) * D (S n) x) with (x * (x * D (S n) x - D n x) - (D (S n) x - x * D n x)) by ring. rewrite I2, I1. ring.
Qed.

(** the derivative that the code computes *)
Lemma derivative_D n x : x * x <> 1 -> legendre_derivative n x = D n x.
Proof.
  intros X. unfold legendre_derivative. destruct n as [|n].
  - rewrite D_0. cbn [INR]. unfold Rdiv. ring.
  - rewrite snd_S. fold (L (S n) x). rewrite S_INR, <- D_closed. field. lra.
Qed.

(** Legendre's differential equation *)
Lemma ode n x : is_derive (fun x => (1 - x * x) * D n x) x (- (INR n * (INR n + 1)) * L n x).
Proof.
  destruct n as [|n].
  - apply (is_derive_ext (fun _ => 0)); [intros t; rewrite D_0; simpl; ring|]. replace (- (INR 0 * (INR 0 + 1)) * L 0 x) with 0 by (cbn; ring). exact (is_derive_const (0 : R) x).
  - apply (is_derive_ext (fun x => (INR n + 1) * (L n x + -1 * (x * L (S n) x)))).
    { intros t. pose proof (D_closed n t). simpl. lra. }
    replace (- (INR (S n) * (INR (S n) + 1)) * L (S n) x) with ((INR n + 1) * (D n x + -1 * (1 * L (S n) x + x * D (S n) x))).
    2: { destruct (identities n x) as [_ I2]. rewrite S_INR. replace (D n x) with (x * D (S n) x - (INR n + 1) * L (S n) x) by lra. ring. }
    apply is_derive_scal. apply @is_derive_plus; [apply D_spec|]. apply is_derive_scal.
    exact (is_derive_mult (fun t : R => t) (L (S n)) x 1 (D (S n) x) (is_derive_id x) (D_spec (S n) x) Rmult_comm).
Qed.

Lemma weighted_Pol n : Pol (S (S n)) (fun x => (1 - x * x) * D n x).
Proof.
  apply (Pol_ext _ (fun x => D n x - x * (x * D n x))); [intros; ring|]. apply Pol_sub; [apply (Pol_le n); [lia|apply D_Pol]|]. apply Pol_mulx, Pol_mulx, D_Pol.
Qed.

Lemma orthogonal_step m n : INR n * (INR n + 1) * integral (fun x => L n x * L m x) (-1) 1 = integral (fun x => (1 - x * x) * D n x * D m x) (-1) 1.
Proof.
  pose (d := (S (S n) + S (S m))%nat).
  pose proof (Pol_parts d (fun x => (1 - x * x) * D n x) (L m) (fun x => - (INR n * (INR n + 1)) * L n x) (D m) (-1) 1) as H.
  assert (E : integral (fun x => - (INR n * (INR n + 1)) * L n x * L m x) (-1) 1 = - (INR n * (INR n + 1)) * integral (fun x => L n x * L m x) (-1) 1).
  { rewrite <- (Pol_RInt_scal (S (n + m)) (fun x => L n x * L m x)) by (apply Pol_mul; apply L_Pol). apply Pol_RInt_ext. intros; ring. }
  cbv beta in H. rewrite E in H. unfold d in H.
  cut (- (INR n * (INR n + 1)) * integral (fun x => L n x * L m x) (-1) 1 = (1 - 1 * 1) * D n 1 * L m 1 - (1 - -1 * -1) * D n (-1) * L m (-1) - integral (fun x => (1 - x * x) * D n x * D m x) (-1) 1); [lra|apply H].
  - eapply Pol_le; [|apply weighted_Pol]; lia.
  - eapply Pol_le; [|apply L_Pol]; lia.
  - apply Pol_scale. eapply Pol_le; [|apply L_Pol]; lia.
  - eapply Pol_le; [|apply D_Pol]; lia.
  - intros x. apply ode.
  - apply D_spec.
Qed.

Lemma orthogonal m n : (m < n)%nat -> integral (fun x => L n x * L m x) (-1) 1 = 0.
Proof.
  intros Lt. pose proof (orthogonal_step m n) as A. pose proof (orthogonal_step n m) as B.
  assert (E : integral (fun x => (1 - x * x) * D n x * D m x) (-1) 1 = integral (fun x => (1 - x * x) * D m x * D n x) (-1) 1) by (apply Pol_RInt_ext; intros; ring).
  assert (F : integral (fun x => L m x * L n x) (-1) 1 = integral (fun x => L n x * L m x) (-1) 1) by (apply Pol_RInt_ext; intros; ring).
  rewrite F in B. assert (Z : (INR n * (INR n + 1) - INR m * (INR m + 1)) * integral (fun x => L n x * L m x) (-1) 1 = 0) by lra.
  apply Rmult_integral in Z. destruct Z as [Z|Z]; [|exact Z]. exfalso. apply lt_INR in Lt. pose proof (pos_INR m). nra.
Qed.

(** leading coefficients *)
Lemma Pol_last d f : Pol (S d) f -> exists c g, Pol d g /\ forall x, f x = c * x ^ d + g x.
Proof.
  revert f. induction d as [|d IH]; intros f F; destruct (Pol_S _ _ F) as (a & h & H & E).
  - exists a, (fun _ => 0). split; [apply Pol_zero|]. intros x. rewrite E, (Pol_0 _ H). cbn. ring.
  - destruct (IH h H) as (c & g & G & E'). exists c, (fun x => a + x * g x). split; [apply Pol_add; [apply Pol_const|apply Pol_mulx, G]|].
    intros x. rewrite E, E'. cbn. ring.
Qed.

Lemma L_lead n : exists k g, 0 < k /\ Pol n g /\ forall x, L n x = k * x ^ n + g x.
Proof.
  induction n as [| |n IH1 IH2] using pair_ind.
  - exists 1, (fun _ => 0). split; [lra|]. split; [apply Pol_zero|]. intros x. rewrite L_0. cbn. ring.
  - exists 1, (fun _ => 0). split; [lra|]. split; [apply Pol_zero|]. intros x. rewrite L_1. cbn. ring.
  - destruct IH2 as (k & g & K & G & E). pose proof (pos_INR n).
    exists ((2 * INR n + 3) / (INR n + 2) * k), (fun x => (2 * INR n + 3) / (INR n + 2) * (x * g x) + - (INR n + 1) / (INR n + 2) * L n x).
    split; [apply Rmult_lt_0_compat; [apply Rdiv_lt_0_compat; lra|exact K]|]. split.
    + apply Pol_add; [apply Pol_scale, Pol_mulx, G|]. apply Pol_scale. apply (Pol_le (S n)); [lia|apply L_Pol].
    + intros x. rewrite L_SS, E. cbn [pow]. field. lra.
Qed.

(** orthogonality to everything of lower degree *)
Lemma orthogonal_Pol N q n : Pol N q -> (N <= n)%nat -> integral (fun x => L n x * q x) (-1) 1 = 0.
Proof.
  revert q. induction N as [|N IH]; intros q Q Le.
  - rewrite (Pol_RInt_ext _ (fun _ => 0)) by (intros x; rewrite (Pol_0 _ Q); ring). unfold integral; rewrite RInt_const; apply Rmult_0_r.
  - destruct (Pol_last _ _ Q) as (c & g & G & E). destruct (L_lead N) as (k & h & K & H & F).
    assert (P : Pol N (fun x => g x - c / k * h x)) by (apply Pol_sub; [exact G|apply Pol_scale, H]).
    rewrite (Pol_RInt_ext _ (fun x => c / k * (L n x * L N x) + L n x * (g x - c / k * h x))).
    2: { intros x. rewrite E, (F x). field. lra. }
    rewrite (Pol_RInt_plus (S (n + n))).
    + rewrite (Pol_RInt_scal (S (n + N))) by (apply Pol_mul; apply L_Pol). rewrite orthogonal by lia. rewrite (IH _ P) by lia. ring.
    + apply Pol_scale. apply (Pol_le (S (n + N))); [lia|]. apply Pol_mul; apply L_Pol.
    + apply Pol_mul; [apply L_Pol|]. apply (Pol_le N); [lia|exact P].
Qed.

Lemma Pol_pow_mul d f k : Pol d f -> Pol (k + d) (fun x => x ^ k * f x).
Proof.
  intros F. induction k as [|k IH]; cbn [Nat.add pow]; [apply (Pol_ext _ f); [intros; ring|exact F]|].
  apply (Pol_ext _ (fun x => x * (x ^ k * f x))); [intros; ring|]. apply Pol_mulx, IH.
Qed.

(** division with remainder *)
Lemma division n k q : Pol (n + k) q -> exists s r, Pol k s /\ Pol n r /\ forall x, q x = L n x * s x + r x.
Proof.
  revert q. induction k as [|k IH]; intros q Q.
  - exists (fun _ => 0), q. rewrite Nat.add_0_r in Q. split; [apply Pol_zero|]. split; [exact Q|]. intros; ring.
  - rewrite Nat.add_succ_r in Q. destruct (Pol_last _ _ Q) as (c & g & G & E). destruct (L_lead n) as (l & h & K & H & F).
    destruct (IH (fun x => g x - c / l * (x ^ k * h x))) as (s & r & Sk & Rn & E').
    { apply Pol_sub; [exact G|]. apply Pol_scale. rewrite Nat.add_comm. apply Pol_pow_mul, H. }
    exists (fun x => c / l * x ^ k + s x), r. split; [|split; [exact Rn|]].
    + apply Pol_add; [apply Pol_scale, Pol_monomial|]. apply (Pol_le k); [lia|exact Sk].
    + intros x. rewrite E, pow_add. specialize (E' x). rewrite (F x) in *. replace (g x) with (c / l * (x ^ k * h x) + ((l * x ^ n + h x) * s x + r x)) by lra. field. lra.
Qed.

(** zeros are simple and inside *)
Lemma consecutive n x : L n x = 0 -> L (S n) x = 0 -> False.
Proof.
  induction n as [|n IH]; intros A B; [rewrite L_0 in A; lra|]. apply IH; [|exact A]. rewrite L_SS, A in B. pose proof (pos_INR n).
  assert (Z : (INR n + 1) * L n x = 0).
  { replace ((INR n + 1) * L n x) with (- (INR n + 2) * (((2 * INR n + 3) * x * 0 - (INR n + 1) * L n x) / (INR n + 2))) by (field; lra). rewrite B. ring. }
  apply Rmult_integral in Z. destruct Z; [lra|assumption].
Qed.

Lemma L_zero_neq n x : L n x = 0 -> x * x <> 1.
Proof.
  intros Z X. assert (x = 1 \/ x = -1) as [->| ->].
  { assert ((x - 1) * (x + 1) = 0) as W by lra. apply Rmult_integral in W. destruct W; [left|right]; lra. }
  - rewrite L_one in Z. lra.
  - rewrite L_m1 in Z. pose proof (sign_sq n). rewrite Z in H. lra.
Qed.

Lemma D_simple n x : L n x = 0 -> D n x <> 0.
Proof.
  destruct n as [|n]; intros Z; [rewrite L_0 in Z; lra|]. intros Dz. pose proof (D_closed n x) as C. rewrite Z, Dz in C. pose proof (INR_pos n).
  assert (L n x = 0) by nra. exact (consecutive n x H0 Z).
Qed.

(** the quotient by a linear factor at a zero *)
Definition U (n : nat) (a x : R) : R := if Req_EM_T x a then D n a else L n x / (x - a).

Lemma U_spec n a : L n a = 0 -> Pol n (U n a) /\ (forall x, L n x = (x - a) * U n a x).
Proof.
  intros Z. destruct (Pol_factor n (L n) a (L_Pol n)) as (g & G & E).
  assert (E' : forall x, g x = U n a x).
  { intros x. unfold U. destruct (Req_EM_T x a) as [->|Ne].
    - symmetry. apply D_unique. apply (is_derive_ext (fun x => (x - a) * g x)); [intros t; rewrite (E t), Z; simpl; ring|].
      destruct (Pol_derive n g (Pol_le _ _ _ (Nat.le_succ_diag_r n) G)) as (g' & _ & Dg).
      replace (g a) with ((1 - 0) * g a + (a - a) * g' a) by ring.
      refine (is_derive_mult (fun t : R => t - a) g a (1 - 0) (g' a) _ (Dg a) Rmult_comm).
      apply @is_derive_minus; [exact (is_derive_id a)|exact (is_derive_const (a : R) a)].
    - rewrite E, Z. field. lra. }
  split; [exact (Pol_ext _ _ _ E' G)|]. intros x. rewrite <- E'. rewrite E, Z. ring.
Qed.

Lemma U_self n a : U n a a = D n a.
Proof. unfold U. destruct (Req_EM_T a a); [reflexivity|congruence]. Qed.
Lemma U_other n a b : L n b = 0 -> b <> a -> U n a b = 0.
Proof. intros Z Ne. unfold U. destruct (Req_EM_T b a); [contradiction|]. rewrite Z. field. lra. Qed.

Lemma Pol_sum d (xs : list R) (f : R -> R -> R) : (forall a, In a xs -> Pol d (f a)) -> Pol d (fun x => sum (map (fun a => f a x) xs)).
Proof.
  induction xs as [|a xs IH]; intros H; [apply Pol_zero|]. cbn. apply (Pol_add d (f a) (fun x => sum (map (fun a => f a x) xs))).
  - apply H; left; reflexivity.
  - apply IH. intros b B. apply H. right. exact B.
Qed.

Lemma RInt_sum d (xs : list R) (f : R -> R -> R) a b : (forall y, In y xs -> Pol d (f y)) ->
  integral (fun x => sum (map (fun y => f y x) xs)) a b = sum (map (fun y => integral (f y) a b) xs).
Proof.
  induction xs as [|y xs IH]; intros H; cbn.
  - exact (integral_zero a b).
  - change (integral (fun x => f y x + sum (map (fun y => f y x) xs)) a b = integral (f y) a b + sum (map (fun y => integral (f y) a b) xs)).
    rewrite (Pol_RInt_plus d (f y)); [|apply H; left; reflexivity|apply Pol_sum; intros z Z; apply H; right; exact Z].
    f_equal. apply IH. intros z Z. apply H. right. exact Z.
Qed.

Lemma sum_ext (xs : list R) f g : (forall x, In x xs -> f x = g x) -> sum (map f xs) = sum (map g xs).
Proof. intros H. f_equal. apply map_ext_in, H. Qed.

Lemma sum_single (xs : list R) f a : NoDup xs -> In a xs -> (forall x, In x xs -> x <> a -> f x = 0) -> sum (map f xs) = f a.
Proof.
  induction xs as [|y xs IH]; intros N I H; [destruct I|]. inversion N as [|? ? Ny N']; subst. cbn. fold (sum (map f xs)). destruct I as [->|I].
  - assert (Z : sum (map f xs) = 0).
    { rewrite (sum_ext xs f (fun _ => 0)); [|intros x X; apply H; [right; exact X|intros ->; contradiction]]. clear. induction xs; cbn; [reflexivity|fold (sum (map (fun _ : R => 0) xs)); rewrite IHxs; ring]. }
    rewrite Z. ring.
  - rewrite (IH N' I) by (intros x X; apply H; right; exact X). rewrite (H y (or_introl eq_refl)); [ring|]. intros ->. contradiction.
Qed.

Section gauss_nodes.
  Context (n : nat) (xs : list R) (N : NoDup xs) (Len : length xs = n) (Z : forall x, In x xs -> L n x = 0).

  Lemma lagrange r : Pol n r -> forall x, r x = sum (map (fun a => r a / D n a * U n a x) xs).
  Proof.
    intros H x. assert (P : Pol n (fun x => sum (map (fun a => r a / D n a * U n a x) xs))).
    { apply (Pol_sum n xs (fun a x => r a / D n a * U n a x)). intros a A. apply Pol_scale. apply (proj1 (U_spec n a (Z a A))). }
    pose proof (Pol_roots n _ xs (Pol_sub _ _ _ H P) N ltac:(lia)) as Q. cbn beta in Q. specialize (Q) as Q.
    assert (V : forall y, In y xs -> r y - sum (map (fun a => r a / D n a * U n a y) xs) = 0).
    { intros y Y. rewrite (sum_single xs _ y N Y).
      - rewrite U_self. field. apply D_simple, Z, Y.
      - intros a A Ne. rewrite U_other; [ring|apply Z, Y|]. intros E. apply Ne. symmetry. exact E. }
    specialize (Q V x). lra.
  Qed.

  Lemma interpolatory q : Pol (n + n) q -> integral q (-1) 1 = sum (map (fun a => q a / D n a * integral (U n a) (-1) 1) xs).
  Proof.
    intros Q. destruct (division n n q Q) as (s & r & Sn & Rn & E).
    rewrite (Pol_RInt_ext _ (fun x => L n x * s x + r x)) by (intros; apply E).
    rewrite (Pol_RInt_plus (S (n + n)) (fun x => L n x * s x) r).
    - rewrite (orthogonal_Pol n s n Sn) by lia. rewrite Rplus_0_l.
      rewrite (Pol_RInt_ext _ (fun x => sum (map (fun a => r a / D n a * U n a x) xs))) by (intros; apply lagrange, Rn).
      rewrite (RInt_sum n xs (fun a x => r a / D n a * U n a x)).
      + apply sum_ext. intros a A. rewrite (Pol_RInt_scal n) by (apply (proj1 (U_spec n a (Z a A)))). rewrite (E a), (Z a A). f_equal. f_equal. ring.
      + intros a A. apply Pol_scale. apply (proj1 (U_spec n a (Z a A))).
    - apply Pol_mul; [apply L_Pol|]. apply (Pol_le n); [lia|exact Sn].
    - apply (Pol_le n); [lia|exact Rn].
  Qed.

  Lemma U_integral a : In a xs -> integral (U n a) (-1) 1 = 2 / ((1 - a * a) * D n a).
  Proof.
    intros A. destruct (U_spec n a (Z a A)) as [PU FU]. pose proof (L_zero_neq n a (Z a A)) as X. pose proof (D_simple n a (Z a A)) as Dn.
    assert (I1 : integral (fun x => D n x * U n a x) (-1) 1 = D n a * integral (U n a) (-1) 1).
    { destruct n as [|k] eqn:En; [pose proof (Z a A) as Za; rewrite L_0 in Za; lra|]. rewrite <- En in *.
      rewrite interpolatory.
      - rewrite (sum_single xs _ a N A).
        + rewrite U_self. field. exact Dn.
        + intros b B Ne. rewrite U_other; [unfold Rdiv; ring|apply Z, B|exact Ne].
      - apply (Pol_le (S (k + k))); [lia|]. apply Pol_mul; rewrite <- En; [apply D_Pol|exact PU]. }
    destruct (Pol_derive n (U n a) (Pol_le _ _ _ (Nat.le_succ_diag_r n) PU)) as (u' & PU' & Du).
    assert (I2 : integral (fun x => D n x * U n a x) (-1) 1 = L n 1 * U n a 1 - L n (-1) * U n a (-1) - integral (fun x => L n x * u' x) (-1) 1).
    { apply (Pol_parts (S n)); try (apply (Pol_le n); [lia|assumption]); [apply L_Pol|apply (Pol_le n); [lia|apply D_Pol]|apply D_spec|exact Du]. }
    rewrite (orthogonal_Pol n u' n PU') in I2 by lia.
    assert (A1 : 1 - a <> 0) by (intros E; apply X; replace a with 1 by lra; ring).
    assert (A2 : -1 - a <> 0) by (intros E; apply X; replace a with (-1) by lra; ring).
    assert (U1 : L n 1 * U n a 1 = / (1 - a)).
    { assert (U n a 1 = L n 1 / (1 - a)) as -> by (rewrite (FU 1); field; exact A1). rewrite L_one. field. exact A1. }
    assert (U2 : L n (-1) * U n a (-1) = / (-1 - a)).
    { assert (U n a (-1) = L n (-1) / (-1 - a)) as -> by (rewrite (FU (-1)); field; exact A2).
      assert (Q : L n (-1) * L n (-1) = 1) by (rewrite L_m1; apply sign_sq).
      unfold Rdiv. rewrite <- Rmult_assoc, Q. ring. }
    rewrite I2, U1, U2 in I1. apply (Rmult_eq_reg_l (D n a)); [|exact Dn]. rewrite <- I1. field. repeat split; [exact Dn|lra|lra|lra].
  Qed.

  Lemma gauss_exact q : Pol (n + n) q -> integral q (-1) 1 = sum (map (fun a => 2 / ((1 - a * a) * D n a * D n a) * q a) xs).
  Proof.
    intros Q. rewrite (interpolatory q Q). apply sum_ext. intros a A. rewrite U_integral by exact A.
    pose proof (L_zero_neq n a (Z a A)) as X. pose proof (D_simple n a (Z a A)) as Dn. field. split; (exact Dn || lra).
  Qed.
End gauss_nodes.

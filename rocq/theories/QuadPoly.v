(** Polynomials of one variable as coefficient lists, for the quadrature properties. *)
From Coq Require Import Reals List Arith Lia Lra.
From Coquelicot Require Import Coquelicot.
Import ListNotations.
Local Open Scope R_scope.

(** the polynomial with these coefficients, constant term first *)
Fixpoint horner (l : list R) (x : R) : R := match l with [] => 0 | a :: l => a + x * horner l x end.

(** functions given by at most [d] coefficients, that is, polynomials of degree less than [d] *)
Definition Pol (d : nat) (f : R -> R) : Prop := exists l, (length l <= d)%nat /\ forall x, f x = horner l x.

Lemma Pol_ext d f g : (forall x, f x = g x) -> Pol d f -> Pol d g.
Proof. intros E (l & L & H). exists l. split; [exact L|]. intros x. rewrite <- E. apply H. Qed.

Lemma Pol_le d e f : (d <= e)%nat -> Pol d f -> Pol e f.
Proof. intros Le (l & L & H). exists l. split; [lia|exact H]. Qed.

Lemma Pol_0 f : Pol 0 f -> forall x, f x = 0.
Proof. intros (l & L & H) x. rewrite H. destruct l; [reflexivity|cbn in L; lia]. Qed.

Lemma Pol_zero d : Pol d (fun _ => 0).
Proof. exists []. split; [cbn; lia|reflexivity]. Qed.

Lemma Pol_const d c : Pol (S d) (fun _ => c).
Proof. exists (c :: []). split; [cbn; lia|]. intros x. cbn. ring. Qed.

Lemma Pol_mulx d f : Pol d f -> Pol (S d) (fun x => x * f x).
Proof. intros (l & L & H). exists (0 :: l). split; [cbn; lia|]. intros x. cbn. rewrite H. ring. Qed.

Lemma Pol_scale d c f : Pol d f -> Pol d (fun x => c * f x).
Proof.
  intros (l & L & H). exists (map (Rmult c) l). split; [rewrite map_length; exact L|]. intros x. rewrite H. clear L H.
  induction l as [|a l IH]; cbn; [ring|rewrite <- IH; ring].
Qed.

Fixpoint plus_list (u v : list R) : list R :=
  match u, v with [], v => v | u, [] => u | a :: u, b :: v => (a + b) :: plus_list u v end.
Lemma plus_list_length u v : length (plus_list u v) = Nat.max (length u) (length v).
Proof. revert v. induction u as [|a u IH]; intros [|b v]; cbn; try reflexivity. rewrite IH. reflexivity. Qed.
Lemma poly_plus u v x : horner (plus_list u v) x = horner u x + horner v x.
Proof. revert v. induction u as [|a u IH]; intros [|b v]; cbn; try ring. rewrite IH. ring. Qed.

Lemma Pol_add d f g : Pol d f -> Pol d g -> Pol d (fun x => f x + g x).
Proof.
  intros (l & L & H) (k & K & H'). exists (plus_list l k). split; [rewrite plus_list_length; lia|]. intros x. rewrite poly_plus, H, H'. reflexivity.
Qed.

Lemma Pol_sub d f g : Pol d f -> Pol d g -> Pol d (fun x => f x - g x).
Proof. intros F G. apply (Pol_ext _ (fun x => f x + (-1) * g x)); [intros; ring|]. apply Pol_add; [exact F|]. apply Pol_scale, G. Qed.

Lemma Pol_S d f : Pol (S d) f -> exists a g, Pol d g /\ forall x, f x = a + x * g x.
Proof.
  intros (l & L & H). destruct l as [|a l].
  - exists 0, (fun _ => 0). split; [apply Pol_zero|]. intros x. rewrite H. cbn. ring.
  - exists a, (horner l). split; [exists l; split; [cbn in L; lia|reflexivity]|]. intros x. rewrite H. reflexivity.
Qed.

Lemma Pol_mul a b f g : Pol (S a) f -> Pol (S b) g -> Pol (S (a + b)) (fun x => f x * g x).
Proof.
  revert f. induction a as [|a IH]; intros f F G.
  - destruct (Pol_S _ _ F) as (c & h & Hh & E). apply (Pol_ext _ (fun x => c * g x)); [|apply Pol_scale; exact G].
    intros x. rewrite E, (Pol_0 _ Hh). ring.
  - destruct (Pol_S _ _ F) as (c & h & Hh & E). apply (Pol_ext _ (fun x => c * g x + x * (h x * g x))).
    + intros x. rewrite E. ring.
    + apply Pol_add; [apply Pol_scale; apply (Pol_le (S b)); [lia|exact G]|]. apply Pol_mulx. exact (IH h Hh G).
Qed.

Lemma Pol_comp d f a b : Pol d f -> Pol d (fun x => f (a * x + b)).
Proof.
  revert f. induction d as [|d IH]; intros f F.
  - apply (Pol_ext _ (fun _ => 0)); [intros x; symmetry; apply Pol_0, F|apply Pol_zero].
  - destruct (Pol_S _ _ F) as (c & g & G & E). apply (Pol_ext _ (fun x => c + (a * (x * g (a * x + b)) + b * g (a * x + b)))).
    + intros x. rewrite E. ring.
    + apply Pol_add; [apply Pol_const|]. apply Pol_add; [apply Pol_scale, Pol_mulx, IH, G|]. apply Pol_scale. apply (Pol_le d); [lia|apply IH, G].
Qed.

Lemma Pol_monomial k : Pol (S k) (fun x => x ^ k).
Proof. induction k as [|k IH]; [exact (Pol_const 0 1)|]. exact (Pol_mulx _ _ IH). Qed.

(** division by a linear factor *)
Lemma Pol_factor d f a : Pol (S d) f -> exists g, Pol d g /\ forall x, f x = (x - a) * g x + f a.
Proof.
  revert f. induction d as [|d IH]; intros f F.
  - exists (fun _ => 0). split; [apply Pol_zero|]. intros x. destruct (Pol_S _ _ F) as (c & h & Hh & E). rewrite !E, !(Pol_0 _ Hh). ring.
  - destruct (Pol_S _ _ F) as (c & h & Hh & E). destruct (IH h Hh) as (k & K & E'). exists (fun x => h x + a * k x). split.
    + apply Pol_add; [exact Hh|]. apply Pol_scale. apply (Pol_le d); [lia|exact K].
    + intros x. rewrite !E. pose proof (E' x) as E''. assert (a * h x - a * h a = a * (x - a) * k x) by (rewrite E''; ring). lra.
Qed.

Lemma Pol_roots n f xs : Pol n f -> NoDup xs -> (n <= length xs)%nat -> (forall x, In x xs -> f x = 0) -> forall x, f x = 0.
Proof.
  revert f xs. induction n as [|n IH]; intros f xs F D L Z x; [apply Pol_0, F|].
  destruct xs as [|a xs]; [cbn in L; lia|]. inversion D as [|? ? Na D']; subst.
  destruct (Pol_factor n f a F) as (g & G & E). rewrite E, (Z a (or_introl eq_refl)).
  assert (G0 : g x = 0).
  { apply (IH g xs G D'); [cbn in L; lia|]. intros y Y. pose proof (Z y (or_intror Y)) as Zy. rewrite E, (Z a (or_introl eq_refl)), Rplus_0_r in Zy.
    apply Rmult_integral in Zy. destruct Zy as [Zy|Zy]; [|exact Zy]. exfalso. apply Na. replace a with y by lra. exact Y. }
  rewrite G0. ring.
Qed.

Lemma Pol_derive d f : Pol (S d) f -> exists g, Pol d g /\ forall x, is_derive f x (g x).
Proof.
  revert f. induction d as [|d IH]; intros f F; destruct (Pol_S _ _ F) as (c & h & Hh & E).
  - exists (fun _ => 0). split; [apply Pol_zero|]. intros x. apply (is_derive_ext (fun _ => c)); [|exact (is_derive_const (c : R) x)].
    intros t. rewrite E, (Pol_0 _ Hh). simpl. ring.
  - destruct (IH h Hh) as (g & G & D). exists (fun x => h x + x * g x). split; [apply Pol_add; [exact Hh|apply Pol_mulx, G]|].
    intros x. apply (is_derive_ext (fun x => c + x * h x)); [intros t; symmetry; apply E|]. specialize (D x).
    replace (h x + x * g x) with (0 + (1 * h x + x * g x)) by ring.
    apply @is_derive_plus; [exact (is_derive_const (c : R) x)|].
    exact (is_derive_mult (fun t : R => t) h x 1 (g x) (is_derive_id x) D Rmult_comm).
Qed.

Lemma Pol_continuous d f x : Pol d f -> continuous f x.
Proof.
  intros F. destruct (Pol_derive d f (Pol_le _ _ _ (Nat.le_succ_diag_r d) F)) as (g & _ & D).
  apply (ex_derive_continuous (f : R -> R)). exists (g x). apply D.
Qed.

(** the integral of a real function *)
Definition integral (f : R -> R) (a b : R) : R := RInt f a b.

Lemma Pol_ex_RInt d f a b : Pol d f -> ex_RInt f a b.
Proof. intros F. apply (@ex_RInt_continuous R_CompleteNormedModule). intros x _. exact (Pol_continuous d f x F). Qed.

Lemma Pol_RInt_plus d f g a b : Pol d f -> Pol d g -> integral (fun x => f x + g x) a b = integral f a b + integral g a b.
Proof. intros F G. exact (RInt_plus f g a b (Pol_ex_RInt d f a b F) (Pol_ex_RInt d g a b G)). Qed.

Lemma Pol_RInt_scal d f c a b : Pol d f -> integral (fun x => c * f x) a b = c * integral f a b.
Proof. intros F. exact (RInt_scal f a b c (Pol_ex_RInt d f a b F)). Qed.

(** the fundamental theorem for polynomials *)
Lemma Pol_RInt_derive d f g a b : Pol d g -> (forall x, is_derive f x (g x)) -> integral g a b = f b - f a.
Proof.
  intros G D. apply is_RInt_unique. apply (is_RInt_derive f g a b).
  - intros x _. apply D.
  - intros x _. exact (Pol_continuous d g x G).
Qed.

Lemma Pol_RInt_ext (f g : R -> R) a b : (forall x, f x = g x) -> integral f a b = integral g a b.
Proof. intros E. apply RInt_ext. intros x _. apply E. Qed.

(** integration by parts *)
Lemma Pol_parts d f g f' g' a b : Pol d f -> Pol d g -> Pol d f' -> Pol d g' -> (forall x, is_derive f x (f' x)) -> (forall x, is_derive g x (g' x)) ->
  integral (fun x => f' x * g x) a b = f b * g b - f a * g a - integral (fun x => f x * g' x) a b.
Proof.
  intros F G F' G' DF DG.
  assert (P1 : Pol (S (d + d)) (fun x => f' x * g x)) by (apply Pol_mul; eapply Pol_le; [|eassumption| |eassumption]; lia).
  assert (P2 : Pol (S (d + d)) (fun x => f x * g' x)) by (apply Pol_mul; eapply Pol_le; [|eassumption| |eassumption]; lia).
  pose proof (Pol_RInt_derive (S (d + d)) (fun x => f x * g x) (fun x => f' x * g x + f x * g' x) a b (Pol_add _ _ _ P1 P2)) as H.
  rewrite (Pol_RInt_plus (S (d + d))) in H by assumption.
  cut (integral (fun x => f' x * g x) a b + integral (fun x => f x * g' x) a b = f b * g b - f a * g a); [lra|].
  apply H. intros x. exact (is_derive_mult f g x (f' x) (g' x) (DF x) (DG x) Rmult_comm).
Qed.

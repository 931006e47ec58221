(** Polynomials of bounded degree in each variable and bounded sum of absolute coefficients: basis functions and gradients of quadrilaterals and hexahedra. *)
From Coq Require Import Reals List Arith Lia Lra.
From Verif Require Import MaterialModel ElementModel ElementSpec QuadPolyN TableCheck ElementDegrees SizedPoly.
Import ListNotations.
Local Open Scope R_scope.

(** degrees in the three variables at most [a], [b] and [c], sum of the absolute values of the coefficients at most [s] *)
Definition within (a b c : nat) (e : nat * nat * nat) : Prop := (fst (fst e) <= a /\ snd (fst e) <= b /\ snd e <= c)%nat.
Definition Se (a b c : nat) (s : R) (f : point -> R) : Prop :=
  exists p : poly, List.Forall (fun m : R * (nat * nat * nat) => within a b c (snd m)) p /\ size_of p <= s /\ forall x, f x = peval p x.

Lemma Se_ext a b c s f g : (forall x, g x = f x) -> Se a b c s f -> Se a b c s g.
Proof. intros E (p & D & B & H). exists p. split; [exact D|]. split; [exact B|]. intros x. rewrite E. apply H. Qed.
Lemma Se_weaken a b c s a' b' c' s' f : (a <= a')%nat -> (b <= b')%nat -> (c <= c')%nat -> s <= s' -> Se a b c s f -> Se a' b' c' s' f.
Proof.
  intros T T' T'' L (p & D & B & H). exists p. split; [|split; [lra|exact H]]. eapply List.Forall_impl; [|exact D]. intros m. unfold within. lia.
Qed.
Lemma Se_zero a b c s : 0 <= s -> Se a b c s (fun _ => 0).
Proof. intros L. exists []. split; [constructor|]. split; [exact L|reflexivity]. Qed.
Lemma Se_one a b c s e : within a b c e -> 1 <= s -> Se a b c s (monomial e).
Proof.
  intros D L. exists [(1, e)]. split; [constructor; [exact D|constructor]|]. split; [unfold size_of; cbn; rewrite Rabs_R1; lra|]. intros x. unfold peval. cbn [fold_right fst snd]. ring.
Qed.
Lemma Se_add a b c s a' b' c' s' f g : Se a b c s f -> Se a' b' c' s' g -> Se (Nat.max a a') (Nat.max b b') (Nat.max c c') (s + s') (fun x => f x + g x).
Proof.
  intros F G. apply (Se_weaken _ _ _ s (Nat.max a a') (Nat.max b b') (Nat.max c c') s) in F; [|lia|lia|lia|lra]. apply (Se_weaken _ _ _ s' (Nat.max a a') (Nat.max b b') (Nat.max c c') s') in G; [|lia|lia|lia|lra].
  destruct F as (p & D & B & H). destruct G as (q & D' & B' & H'). exists (p ++ q). split; [apply List.Forall_app; split; assumption|]. split; [rewrite size_app; lra|]. intros x. rewrite peval_app, H, H'. reflexivity.
Qed.
Lemma Se_scale a b c s k f : Se a b c s f -> Se a b c (Rabs k * s) (fun x => k * f x).
Proof.
  intros (p & D & B & H). exists (map (fun m : R * (nat * nat * nat) => (k * fst m, snd m)) p). split; [apply List.Forall_map; cbn; exact D|]. split.
  - rewrite size_scale. apply Rmult_le_compat_l; [apply Rabs_pos|exact B].
  - intros x. rewrite H. clear. unfold peval. induction p as [|m p IH]; cbn [fold_right map fst snd]; [ring|]. rewrite <- IH, Rmult_assoc. apply Rmult_plus_distr_l.
Qed.
Lemma within_add a b c a' b' c' e e' : within a b c e -> within a' b' c' e' -> within (a + a') (b + b') (c + c') (add_exps e e').
Proof. unfold within, add_exps. cbn [fst snd]. lia. Qed.
Lemma Se_mul a b c s a' b' c' s' f g : Se a b c s f -> Se a' b' c' s' g -> Se (a + a') (b + b') (c + c') (s * s') (fun x => f x * g x).
Proof.
  intros (p & D & B & H) (q & D' & B' & H').
  assert (A : exists r : poly, List.Forall (fun m : R * (nat * nat * nat) => within (a + a') (b + b') (c + c') (snd m)) r /\ size_of r = size_of p * size_of q /\ forall x, peval p x * peval q x = peval r x).
  { clear H H' B B'. induction D as [|m p Dm _ (r & R1 & R2 & R3)].
    - exists []. split; [constructor|]. split; [unfold size_of; cbn; ring|]. intros x. unfold peval. cbn. ring.
    - exists (map (fun k : R * (nat * nat * nat) => (fst m * fst k, add_exps (snd m) (snd k))) q ++ r). split; [|split].
      + apply List.Forall_app. split; [|exact R1]. apply List.Forall_map. cbn. eapply List.Forall_impl; [|exact D']. cbn. intros e De. apply within_add; assumption.
      + rewrite size_app, R2. assert (E : size_of (map (fun k : R * (nat * nat * nat) => (fst m * fst k, add_exps (snd m) (snd k))) q) = Rabs (fst m) * size_of q).
        { clear. unfold size_of. induction q as [|k q IH]; cbn [map fold_right fst]; [ring|]. rewrite IH, Rabs_mult. ring. }
        rewrite E. change (size_of (m :: p)) with (Rabs (fst m) + size_of p). ring.
      + intros x. rewrite peval_app, <- R3. assert (E : peval (map (fun k : R * (nat * nat * nat) => (fst m * fst k, add_exps (snd m) (snd k))) q) x = fst m * monomial (snd m) x * peval q x).
        { clear. unfold peval. induction q as [|k q IH]; cbn [fold_right map fst snd]; [ring|]. rewrite IH, monomial_mul. unfold exps. ring. }
        rewrite E. unfold peval. cbn [fold_right]. ring. }
  destruct A as (r & R1 & R2 & R3). exists r. split; [exact R1|]. split; [|intros x; rewrite H, H'; apply R3].
  rewrite R2. apply Rmult_le_compat; [apply size_pos|apply size_pos|exact B|exact B'].
Qed.
Lemma Se_const_pos k : 0 <= k -> Se 0 0 0 k (fun _ => k).
Proof.
  intros L. apply (Se_ext _ _ _ _ (fun x => k * monomial (0, 0, 0)%nat x)); [intros; unfold monomial; cbn; ring|]. apply (Se_weaken 0 0 0 (Rabs k * 1)); [lia|lia|lia|rewrite Rabs_pos_eq by exact L; lra|].
  apply Se_scale, Se_one; [|lra]. unfold within. cbn. lia.
Qed.
Lemma Se_opp a b c s f : Se a b c s f -> Se a b c s (fun x => - f x).
Proof. intros F. apply (Se_ext _ _ _ _ (fun x => -1 * f x)); [intros; ring|]. apply (Se_weaken a b c (Rabs (-1) * s)); [lia|lia|lia|rewrite Rabs_left by lra; lra|]. apply Se_scale, F. Qed.
Lemma Se_const_neg k : k <= 0 -> Se 0 0 0 (- k) (fun _ => k).
Proof. intros L. apply (Se_ext _ _ _ _ (fun x => - (- k))); [intros; ring|]. apply (Se_opp 0 0 0 (- k) (fun _ => - k)), Se_const_pos. lra. Qed.
Lemma Se_sub a b c s a' b' c' s' f g : Se a b c s f -> Se a' b' c' s' g -> Se (Nat.max a a') (Nat.max b b') (Nat.max c c') (s + s') (fun x => f x - g x).
Proof. intros F G. exact (Se_add _ _ _ _ _ _ _ _ f (fun x => - g x) F (Se_opp _ _ _ _ _ G)). Qed.
Lemma Se_div a b c s f k : 0 < k -> Se a b c s f -> Se a b c (s / k) (fun x => f x / k).
Proof.
  intros K F. apply (Se_ext _ _ _ _ (fun x => / k * f x)); [intros; unfold Rdiv; ring|]. apply (Se_weaken a b c (Rabs (/ k) * s)); [lia|lia|lia| |apply Se_scale, F].
  rewrite Rabs_pos_eq by (left; apply Rinv_0_lt_compat, K). unfold Rdiv. lra.
Qed.
Lemma Se_x : Se 1 0 0 1 (fun x => x 0%nat).
Proof. apply (Se_ext _ _ _ _ (monomial (1, 0, 0)%nat)); [intros; unfold monomial; cbn; ring|]. apply Se_one; [|lra]. unfold within. cbn. lia. Qed.
Lemma Se_y : Se 0 1 0 1 (fun x => x 1%nat).
Proof. apply (Se_ext _ _ _ _ (monomial (0, 1, 0)%nat)); [intros; unfold monomial; cbn; ring|]. apply Se_one; [|lra]. unfold within. cbn. lia. Qed.
Lemma Se_z : Se 0 0 1 1 (fun x => x 2%nat).
Proof. apply (Se_ext _ _ _ _ (monomial (0, 0, 1)%nat)); [intros; unfold monomial; cbn; ring|]. apply Se_one; [|lra]. unfold within. cbn. lia. Qed.
Lemma Se_summ a b c n (s : nat -> R) (f : nat -> point -> R) : (forall k, (k < n)%nat -> Se a b c (s k) (f k)) -> Se a b c (summ n s) (fun x => summ n (fun k => f k x)).
Proof.
  induction n as [|n IH]; intros F; cbn [summ]; [apply Se_zero; lra|].
  apply (Se_weaken (Nat.max a a) (Nat.max b b) (Nat.max c c) (summ n s + s n)); [lia|lia|lia|lra|]. exact (Se_add _ _ _ _ _ _ _ _ _ _ (IH (fun k Hk => F k (Nat.lt_lt_succ_r _ _ Hk))) (F n (Nat.lt_succ_diag_r n))).
Qed.

Ltac se := lazymatch goal with
  | |- Se _ _ _ _ (fun x => x 0%nat) => apply Se_x
  | |- Se _ _ _ _ (fun x => x 1%nat) => apply Se_y
  | |- Se _ _ _ _ (fun x => x 2%nat) => apply Se_z
  | |- Se _ _ _ _ (fun _ => ?k) => first [apply Se_const_pos; lra|apply Se_const_neg; lra]
  | |- Se _ _ _ _ (fun x => _ + _) => eapply Se_add; se
  | |- Se _ _ _ _ (fun x => _ - _) => eapply Se_sub; se
  | |- Se _ _ _ _ (fun x => - _) => eapply Se_opp; se
  | |- Se _ _ _ _ (fun x => _ * _) => eapply Se_mul; se
  | |- Se _ _ _ _ (fun x => _ / _) => eapply Se_div; [lra|se]
  end.
Ltac each := eapply Se_weaken; cycle 4; [se|cbn; lia|cbn; lia|cbn; lia|lra].

(** factors of the basis functions, for parameters -1, 0 and 1 *)
Section factor.
Variables (alpha : R) (a b c : nat) (f : point -> R).
Hypotheses (A : sign alpha) (F : Se a b c 1 f).
Let square : Se (a + a) (b + b) (c + c) 1 (fun x => f x * f x).
Proof. apply (Se_weaken (a + a) (b + b) (c + c) (1 * 1)); [lia|lia|lia|lra|]. exact (Se_mul _ _ _ _ _ _ _ _ _ _ F F). Qed.
Let single : Se (a + a) (b + b) (c + c) 1 f.
Proof. apply (Se_weaken a b c 1); [lia|lia|lia|lra|exact F]. Qed.
Let constant k : Se (a + a) (b + b) (c + c) (Rabs k) (fun _ => k).
Proof.
  apply (Se_weaken 0 0 0 (Rabs k)); [lia|lia|lia|lra|]. destruct (Rle_dec 0 k); [rewrite Rabs_pos_eq by assumption; apply Se_const_pos; assumption|].
  rewrite Rabs_left by lra. apply Se_const_neg. lra.
Qed.
(** a quadratic polynomial in [f] *)
Lemma quadratic k0 k1 k2 s h : Rabs k0 + Rabs k1 + Rabs k2 <= s -> (forall x, h x = k0 + k1 * f x + k2 * (f x * f x)) -> Se (a + a) (b + b) (c + c) s h.
Proof.
  intros L E. apply (Se_ext _ _ _ _ _ _ E).
  apply (Se_weaken (Nat.max (Nat.max (a + a) (a + a)) (a + a)) (Nat.max (Nat.max (b + b) (b + b)) (b + b)) (Nat.max (Nat.max (c + c) (c + c)) (c + c)) (Rabs k0 + Rabs k1 * 1 + Rabs k2 * 1)); [lia|lia|lia|lra|].
  exact (Se_add _ _ _ _ _ _ _ _ _ _ (Se_add _ _ _ _ _ _ _ _ _ _ (constant k0) (Se_scale _ _ _ _ k1 _ single)) (Se_scale _ _ _ _ k2 _ square)).
Qed.
Lemma quadratic_size : Se (a + a) (b + b) (c + c) 2 (fun x => phi_quadratic_1d alpha (f x)) /\ Se (a + a) (b + b) (c + c) 2 (fun x => phi_quadratic_1d_grad alpha (f x)) /\
  Se (a + a) (b + b) (c + c) 2 (fun x => bubble alpha (f x)) /\ Se (a + a) (b + b) (c + c) 2 (fun x => bubble' alpha (f x)).
Proof.
  assert (H1 : Rabs 1 = 1) by (apply Rabs_pos_eq; lra). assert (H2 : Rabs 2 = 2) by (apply Rabs_pos_eq; lra). assert (Hh : Rabs (1 / 2) = 1 / 2) by (apply Rabs_pos_eq; lra).
  assert (N1 : Rabs (-1) = 1) by (rewrite Rabs_left; lra). assert (N2 : Rabs (-2) = 2) by (rewrite Rabs_left; lra). assert (Nh : Rabs (- (1 / 2)) = 1 / 2) by (rewrite Rabs_left; lra). pose proof Rabs_R0 as H0.
  destruct A as [<-|[<-|[<-|[]]]]; (split; [|split; [|split]]).
  - apply (quadratic 0 (- (1 / 2)) (1 / 2)); [lra|]. intros x. unfold phi_quadratic_1d. field.
  - apply (quadratic (- (1 / 2)) 1 0); [lra|]. intros x. unfold phi_quadratic_1d_grad. field.
  - apply (quadratic 1 (-1) 0); [lra|]. intros x. unfold bubble. ring.
  - apply (quadratic (-1) 0 0); [lra|]. intros x. unfold bubble'. ring.
  - apply (quadratic 1 0 (-1)); [lra|]. intros x. unfold phi_quadratic_1d. field.
  - apply (quadratic 0 (-2) 0); [lra|]. intros x. unfold phi_quadratic_1d_grad. field.
  - apply (quadratic 1 0 (-1)); [lra|]. intros x. unfold bubble. ring.
  - apply (quadratic 0 (-2) 0); [lra|]. intros x. unfold bubble'. ring.
  - apply (quadratic 0 (1 / 2) (1 / 2)); [lra|]. intros x. unfold phi_quadratic_1d. field.
  - apply (quadratic (1 / 2) 1 0); [lra|]. intros x. unfold phi_quadratic_1d_grad. field.
  - apply (quadratic 1 1 0); [lra|]. intros x. unfold bubble. ring.
  - apply (quadratic 1 0 0); [lra|]. intros x. unfold bubble'. ring.
Qed.
End factor.

Lemma product3 a b c f g h : Se (1 + 1) (0 + 0) (0 + 0) a f -> Se (0 + 0) (1 + 1) (0 + 0) b g -> Se (0 + 0) (0 + 0) (1 + 1) c h -> Se 2 2 2 (a * b * c) (fun x => f x * g x * h x).
Proof. intros F G H. exact (Se_mul _ _ _ _ _ _ _ _ _ _ (Se_mul _ _ _ _ _ _ _ _ _ _ F G) H). Qed.

(** basis functions *)
Lemma quad4_basis_size i : Se 1 1 0 1 (fun x => nth i (el_basis quad4 x) 0).
Proof. cbn [el_basis quad4]. do 4 (destruct i as [|i]; [cbn; unfold quad4_phi; each|]). destruct i; cbn; each. Qed.
Lemma quad9_phi_size a b : sign a -> sign b -> Se 2 2 0 4 (fun x => quad9_phi x a b) /\ forall k, Se 2 2 0 4 (fun x => nth k (quad9_phi_grad x a b) 0).
Proof.
  intros A B. destruct (quadratic_size a 1 0 0 _ A Se_x) as (A1 & A2 & _). destruct (quadratic_size b 0 1 0 _ B Se_y) as (B1 & B2 & _).
  assert (V : forall t x, quad9_phi_1d t x = phi_quadratic_1d t x) by (intros; unfold quad9_phi_1d, phi_quadratic_1d; field).
  assert (G : forall t x, quad9_phi_grad_1d t x = phi_quadratic_1d_grad t x) by (intros; unfold quad9_phi_grad_1d, phi_quadratic_1d_grad; field).
  assert (P : forall f g, Se (1 + 1) (0 + 0) (0 + 0) 2 f -> Se (0 + 0) (1 + 1) (0 + 0) 2 g -> Se 2 2 0 4 (fun x => f x * g x)).
  { intros f g F H. apply (Se_weaken 2 2 0 (2 * 2)); [lia|lia|lia|lra|]. exact (Se_mul _ _ _ _ _ _ _ _ _ _ F H). }
  split.
  - eapply Se_ext; [|apply (P _ _ A1 B1)]. intros x. unfold quad9_phi. rewrite !V. reflexivity.
  - intros k. destruct k as [|[|k]]; cbn [quad9_phi_grad nth].
    + eapply Se_ext; [|apply (P _ _ A2 B1)]. intros x. cbn. rewrite V, G. ring.
    + eapply Se_ext; [|apply (P _ _ A1 B2)]. intros x. cbn. rewrite V, G. ring.
    + destruct k; apply Se_zero; lra.
Qed.
Lemma quad9_basis_size i : Se 2 2 0 4 (fun x => nth i (el_basis quad9 x) 0).
Proof. cbn [el_basis quad9]. do 9 (destruct i as [|i]; [cbn [nth quad9_basis]; apply quad9_phi_size; signs|]). destruct i; cbn; apply Se_zero; lra. Qed.
Lemma hex8_basis_size i : Se 1 1 1 1 (fun x => nth i (el_basis hex8 x) 0).
Proof. cbn [el_basis hex8]. do 8 (destruct i as [|i]; [cbn; unfold hex8_phi, phi_linear_1d; each|]). destruct i; cbn; each. Qed.
Lemma hex27_phi_size a b c : sign a -> sign b -> sign c -> Se 2 2 2 8 (fun x => hex27_phi x a b c) /\ forall k, Se 2 2 2 8 (fun x => nth k (hex27_phi_grad x a b c) 0).
Proof.
  intros A B C. destruct (quadratic_size a 1 0 0 _ A Se_x) as (A1 & A2 & _). destruct (quadratic_size b 0 1 0 _ B Se_y) as (B1 & B2 & _). destruct (quadratic_size c 0 0 1 _ C Se_z) as (C1 & C2 & _).
  split; [|intros [|[|[|k]]]; cbn [hex27_phi_grad nth]]; [..|destruct k; apply Se_zero; lra];
    (apply (Se_weaken 2 2 2 (2 * 2 * 2)); [lia|lia|lia|lra|]); [exact (product3 _ _ _ _ _ _ A1 B1 C1)|exact (product3 _ _ _ _ _ _ A2 B1 C1)|exact (product3 _ _ _ _ _ _ A1 B2 C1)|exact (product3 _ _ _ _ _ _ A1 B1 C2)].
Qed.
Lemma hex27_basis_size i : Se 2 2 2 8 (fun x => nth i (el_basis hex27 x) 0).
Proof. cbn [el_basis hex27]. do 27 (destruct i as [|i]; [cbn [nth hex27_basis]; apply hex27_phi_size; signs|]). destruct i; cbn; apply Se_zero; lra. Qed.
Lemma hex20_edge_size a b c : sign a -> sign b -> sign c -> Se 2 2 2 2 (fun x => hex20_phi_edge x a b c) /\ forall k, Se 2 2 2 2 (fun x => nth k (hex20_phi_grad_edge x a b c) 0).
Proof.
  intros A B C. destruct (quadratic_size a 1 0 0 _ A Se_x) as (_ & _ & A1 & A2). destruct (quadratic_size b 0 1 0 _ B Se_y) as (_ & _ & B1 & B2). destruct (quadratic_size c 0 0 1 _ C Se_z) as (_ & _ & C1 & C2).
  assert (Q : forall f, Se 2 2 2 (2 * 2 * 2) f -> Se 2 2 2 2 (fun x => 1 / 4 * f x)).
  { intros f F. apply (Se_weaken 2 2 2 (Rabs (1 / 4) * (2 * 2 * 2))); [lia|lia|lia|rewrite Rabs_pos_eq by lra; lra|]. apply Se_scale, F. }
  split.
  - eapply Se_ext; [intros x; apply hex20_edge_product|]. exact (Q _ (product3 _ _ _ _ _ _ A1 B1 C1)).
  - intros k. eapply Se_ext; [intros x; rewrite hex20_edge_gradient; reflexivity|]. destruct k as [|[|[|k]]]; cbn [nth]; [..|destruct k; apply Se_zero; lra];
      [exact (Q _ (product3 _ _ _ _ _ _ A2 B1 C1))|exact (Q _ (product3 _ _ _ _ _ _ A1 B2 C1))|exact (Q _ (product3 _ _ _ _ _ _ A1 B1 C2))].
Qed.
Lemma hex20_basis_size i : Se 2 2 2 5 (fun x => nth i (el_basis hex20 x) 0).
Proof.
  cbn [el_basis hex20]. do 8 (destruct i as [|i]; [cbn; unfold hex20_phi_corner; each|]).
  do 12 (destruct i as [|i]; [cbn [nth hex20_basis]; apply (Se_weaken 2 2 2 2); [lia|lia|lia|lra|]; apply hex20_edge_size; signs|]). destruct i; cbn; each.
Qed.

(** gradients *)
Ltac eaches k := do 3 (destruct k as [|k]; [cbn [nth]; each|]); destruct k; cbn [nth]; each.
Lemma quad4_grads_size i k : Se 1 1 0 (1 / 2) (fun x => nth k (nth i (el_grads quad4 x) []) 0).
Proof. cbn [el_grads quad4]. do 4 (destruct i as [|i]; [cbn [nth quad4_grads quad4_phi_grad]; eaches k|]). destruct i; cbn; eaches k. Qed.
Lemma quad9_grads_size i k : Se 2 2 0 4 (fun x => nth k (nth i (el_grads quad9 x) []) 0).
Proof. cbn [el_grads quad9]. do 9 (destruct i as [|i]; [cbn [nth quad9_grads]; apply quad9_phi_size; signs|]). destruct i; cbn [nth quad9_grads]; destruct k; apply Se_zero; lra. Qed.
Lemma hex8_grads_size i k : Se 1 1 1 (1 / 2) (fun x => nth k (nth i (el_grads hex8 x) []) 0).
Proof. cbn [el_grads hex8]. do 8 (destruct i as [|i]; [cbn [nth hex8_grads hex8_phi_grad]; unfold phi_linear_1d, phi_linear_1d_grad; eaches k|]). destruct i; cbn; eaches k. Qed.
Lemma hex27_grads_size i k : Se 2 2 2 8 (fun x => nth k (nth i (el_grads hex27 x) []) 0).
Proof. cbn [el_grads hex27]. do 27 (destruct i as [|i]; [cbn [nth hex27_grads]; apply hex27_phi_size; signs|]). destruct i; cbn [nth hex27_grads]; destruct k; apply Se_zero; lra. Qed.
Lemma hex20_grads_size i k : Se 2 2 2 4 (fun x => nth k (nth i (el_grads hex20 x) []) 0).
Proof.
  cbn [el_grads hex20]. do 8 (destruct i as [|i]; [cbn [nth hex20_grads hex20_phi_grad_corner]; cbv zeta; eaches k|]).
  do 12 (destruct i as [|i]; [cbn [nth hex20_grads]; apply (Se_weaken 2 2 2 2); [lia|lia|lia|lra|]; apply hex20_edge_size; signs|]). destruct i; cbn; eaches k.
Qed.

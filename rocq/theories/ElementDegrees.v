(** The degrees of basis functions, gradients and Jacobians as polynomials of the reference coordinates. *)
From Coq Require Import Reals List Arith Lia Lra.
From Verif Require Import ElementModel ElementSpec QuadPolyN.
Import ListNotations.
Local Open Scope R_scope.

(** total degree at most t, degree at most a, b, c in the coordinates *)
Definition fits (t a b c : nat) (e : nat * nat * nat) : Prop :=
  (fst (fst e) + snd (fst e) + snd e <= t /\ fst (fst e) <= a /\ snd (fst e) <= b /\ snd e <= c)%nat.
Definition Deg t a b c (f : point -> R) : Prop := Poly (fits t a b c) f.

Lemma Deg_ext t a b c f g : (forall x, g x = f x) -> Deg t a b c f -> Deg t a b c g.
Proof. intros E. apply Poly_ext. intros x. symmetry. apply E. Qed.
Lemma Deg_weaken t a b c t' a' b' c' f : (t <= t' -> a <= a' -> b <= b' -> c <= c' -> Deg t a b c f -> Deg t' a' b' c' f)%nat.
Proof. intros T A B C. apply Poly_weaken. unfold fits. intros e H. lia. Qed.
Lemma Deg_const k : Deg 0 0 0 0 (fun _ => k).
Proof. apply (Poly_ext _ (fun x => k * monomial (0, 0, 0)%nat x)); [intros; unfold monomial; cbn; ring|]. apply Poly_monomial. unfold fits. cbn. lia. Qed.
Lemma Deg_x : Deg 1 1 0 0 (fun x => x 0%nat).
Proof. apply (Poly_ext _ (fun x => 1 * monomial (1, 0, 0)%nat x)); [intros; unfold monomial; cbn; ring|]. apply Poly_monomial. unfold fits. cbn. lia. Qed.
Lemma Deg_y : Deg 1 0 1 0 (fun x => x 1%nat).
Proof. apply (Poly_ext _ (fun x => 1 * monomial (0, 1, 0)%nat x)); [intros; unfold monomial; cbn; ring|]. apply Poly_monomial. unfold fits. cbn. lia. Qed.
Lemma Deg_z : Deg 1 0 0 1 (fun x => x 2%nat).
Proof. apply (Poly_ext _ (fun x => 1 * monomial (0, 0, 1)%nat x)); [intros; unfold monomial; cbn; ring|]. apply Poly_monomial. unfold fits. cbn. lia. Qed.
Lemma Deg_add t a b c t' a' b' c' f g : Deg t a b c f -> Deg t' a' b' c' g -> Deg (Nat.max t t') (Nat.max a a') (Nat.max b b') (Nat.max c c') (fun x => f x + g x).
Proof. intros F G. apply Poly_add; [eapply Deg_weaken; [| | | |exact F]|eapply Deg_weaken; [| | | |exact G]]; lia. Qed.
Lemma Deg_scale t a b c k f : Deg t a b c f -> Deg t a b c (fun x => k * f x).
Proof. apply Poly_scale. Qed.
Lemma Deg_opp t a b c f : Deg t a b c f -> Deg t a b c (fun x => - f x).
Proof. intros F. apply (Deg_ext _ _ _ _ (fun x => -1 * f x)); [intros; ring|]. apply Deg_scale, F. Qed.
Lemma Deg_sub t a b c t' a' b' c' f g : Deg t a b c f -> Deg t' a' b' c' g -> Deg (Nat.max t t') (Nat.max a a') (Nat.max b b') (Nat.max c c') (fun x => f x - g x).
Proof. intros F G. exact (Deg_add _ _ _ _ _ _ _ _ f (fun x => - g x) F (Deg_opp _ _ _ _ _ G)). Qed.
Lemma Deg_mul t a b c t' a' b' c' f g : Deg t a b c f -> Deg t' a' b' c' g -> Deg (t + t') (a + a') (b + b') (c + c') (fun x => f x * g x).
Proof. intros F G. apply (Poly_mul (fits t a b c) (fits t' a' b' c')); [|exact F|exact G]. unfold fits, add_exps. intros e e'. cbn [fst snd]. lia. Qed.
Lemma Deg_div t a b c f k : Deg t a b c f -> Deg t a b c (fun x => f x / k).
Proof. intros F. apply (Deg_ext _ _ _ _ (fun x => / k * f x)); [intros; unfold Rdiv; ring|]. apply Deg_scale, F. Qed.

Ltac deg := lazymatch goal with
  | |- Deg _ _ _ _ (fun _ => ?k) => exact (Deg_const k)
  | |- Deg _ _ _ _ (fun x => x 0%nat) => exact Deg_x
  | |- Deg _ _ _ _ (fun x => x 1%nat) => exact Deg_y
  | |- Deg _ _ _ _ (fun x => x 2%nat) => exact Deg_z
  | |- Deg _ _ _ _ (fun x => _ + _) => eapply Deg_add; deg
  | |- Deg _ _ _ _ (fun x => _ - _) => eapply Deg_sub; deg
  | |- Deg _ _ _ _ (fun x => - _) => eapply Deg_opp; deg
  | |- Deg _ _ _ _ (fun x => _ * _) => eapply Deg_mul; deg
  | |- Deg _ _ _ _ (fun x => _ / _) => eapply Deg_div; deg
  | |- Deg _ _ _ _ _ => eassumption
  end.
Ltac degree := eapply Deg_weaken; cycle 4; [deg|cbn; lia..].

Lemma nth_cases (A : Type) (P : A -> Prop) (l : list A) d : List.Forall P l -> P d -> forall i, P (nth i l d).
Proof. intros F D i. destruct (nth_in_or_default i l d) as [H| ->]; [|exact D]. rewrite List.Forall_forall in F. apply F, H. Qed.

Lemma tri3_basis_deg i : Deg 1 1 1 0 (fun x => nth i (el_basis tri3 x) 0).
Proof. cbn [el_basis tri3]. do 3 (destruct i as [|i]; [cbn; degree|]). destruct i; cbn; degree. Qed.
Lemma tri6_basis_deg i : Deg 2 2 2 0 (fun x => nth i (el_basis tri6 x) 0).
Proof. cbn [el_basis tri6]. do 6 (destruct i as [|i]; [cbn; degree|]). destruct i; cbn; degree. Qed.
Lemma tet4_basis_deg i : Deg 1 1 1 1 (fun x => nth i (el_basis tet4 x) 0).
Proof. cbn [el_basis tet4]. do 4 (destruct i as [|i]; [cbn; degree|]). destruct i; cbn; degree. Qed.
Lemma tet10_basis_deg i : Deg 2 2 2 2 (fun x => nth i (el_basis tet10 x) 0).
Proof. cbn [el_basis tet10]. do 10 (destruct i as [|i]; [cbn; degree|]). destruct i; cbn; degree. Qed.
Lemma tet20_basis_deg i : Deg 3 3 3 3 (fun x => nth i (el_basis tet20 x) 0).
Proof. cbn [el_basis tet20]. do 20 (destruct i as [|i]; [cbn; unfold tet20_phi_vertex, tet20_phi_edge, tet20_phi_face; cbn; degree|]). destruct i; cbn; degree. Qed.
Lemma quad4_basis_deg i : Deg 2 1 1 0 (fun x => nth i (el_basis quad4 x) 0).
Proof. cbn [el_basis quad4]. do 4 (destruct i as [|i]; [cbn; unfold quad4_phi; degree|]). destruct i; cbn; degree. Qed.
Lemma quad9_basis_deg i : Deg 4 2 2 0 (fun x => nth i (el_basis quad9 x) 0).
Proof. cbn [el_basis quad9]. do 9 (destruct i as [|i]; [cbn; unfold quad9_phi, quad9_phi_1d; cbv zeta; degree|]). destruct i; cbn; degree. Qed.
Lemma hex8_basis_deg i : Deg 3 1 1 1 (fun x => nth i (el_basis hex8 x) 0).
Proof. cbn [el_basis hex8]. do 8 (destruct i as [|i]; [cbn; unfold hex8_phi, phi_linear_1d; degree|]). destruct i; cbn; degree. Qed.
Lemma hex27_basis_deg i : Deg 6 2 2 2 (fun x => nth i (el_basis hex27 x) 0).
Proof. cbn [el_basis hex27]. do 27 (destruct i as [|i]; [cbn; unfold hex27_phi, phi_quadratic_1d; cbv zeta; degree|]). destruct i; cbn; degree. Qed.

(** the factors of the edge functions of the 20-node hexahedron *)
Definition bubble (alpha t : R) : R := (1 - (1 - alpha * alpha) * t * t) * (1 + alpha * t).
Definition bubble' (alpha t : R) : R := -2 * (1 - alpha * alpha) * t * (1 + alpha * t) + (1 - (1 - alpha * alpha) * t * t) * alpha.
Lemma hex20_edge_product x a b c : hex20_phi_edge x a b c = 1 / 4 * (bubble a (x 0%nat) * bubble b (x 1%nat) * bubble c (x 2%nat)).
Proof. unfold hex20_phi_edge, bubble. ring. Qed.
Lemma hex20_edge_gradient x a b c : hex20_phi_grad_edge x a b c =
  [1 / 4 * (bubble' a (x 0%nat) * bubble b (x 1%nat) * bubble c (x 2%nat)); 1 / 4 * (bubble a (x 0%nat) * bubble' b (x 1%nat) * bubble c (x 2%nat));
   1 / 4 * (bubble a (x 0%nat) * bubble b (x 1%nat) * bubble' c (x 2%nat))].
Proof. unfold hex20_phi_grad_edge, bubble, bubble'. cbv zeta. f_equal; [ring|f_equal; [ring|f_equal; ring]]. Qed.
Lemma bubble_deg alpha t a b c f : In alpha [-1; 0; 1] -> Deg t a b c f ->
  Deg (t + t) (a + a) (b + b) (c + c) (fun x => bubble alpha (f x)) /\ Deg (t + t) (a + a) (b + b) (c + c) (fun x => bubble' alpha (f x)).
Proof.
  intros A F. destruct A as [<-|[<-|[<-|[]]]]; split.
  - apply (Deg_ext _ _ _ _ (fun x => 1 - f x)); [intros; unfold bubble; ring|degree].
  - apply (Deg_ext _ _ _ _ (fun x => -1)); [intros; unfold bubble'; ring|degree].
  - apply (Deg_ext _ _ _ _ (fun x => 1 - f x * f x)); [intros; unfold bubble; ring|degree].
  - apply (Deg_ext _ _ _ _ (fun x => -2 * f x)); [intros; unfold bubble'; ring|degree].
  - apply (Deg_ext _ _ _ _ (fun x => 1 + f x)); [intros; unfold bubble; ring|degree].
  - apply (Deg_ext _ _ _ _ (fun x => 1)); [intros; unfold bubble'; ring|degree].
Qed.

Definition sign (a : R) : Prop := In a [-1; 0; 1].
Ltac signs := cbn; auto 6.
Lemma hex20_edge_deg a b c : sign a -> sign b -> sign c -> Deg 6 2 2 2 (fun x => hex20_phi_edge x a b c).
Proof.
  intros A B C. destruct (bubble_deg a _ _ _ _ _ A Deg_x) as (HA & _). destruct (bubble_deg b _ _ _ _ _ B Deg_y) as (HB & _). destruct (bubble_deg c _ _ _ _ _ C Deg_z) as (HC & _).
  eapply Deg_ext; [intros x; apply hex20_edge_product|]. degree.
Qed.
Lemma hex20_edge_grad_deg a b c k : sign a -> sign b -> sign c -> Deg 6 2 2 2 (fun x => nth k (hex20_phi_grad_edge x a b c) 0).
Proof.
  intros A B C. destruct (bubble_deg a _ _ _ _ _ A Deg_x) as (HA & HA'). destruct (bubble_deg b _ _ _ _ _ B Deg_y) as (HB & HB'). destruct (bubble_deg c _ _ _ _ _ C Deg_z) as (HC & HC').
  eapply Deg_ext; [intros x; rewrite hex20_edge_gradient; reflexivity|]. do 3 (destruct k as [|k]; [cbn [nth]; degree|]). destruct k; cbn; degree.
Qed.
Lemma hex20_basis_deg i : Deg 6 2 2 2 (fun x => nth i (el_basis hex20 x) 0).
Proof.
  cbn [el_basis hex20]. do 8 (destruct i as [|i]; [cbn; unfold hex20_phi_corner; degree|]).
  do 12 (destruct i as [|i]; [cbn [nth hex20_basis]; apply hex20_edge_deg; signs|]). destruct i; cbn; degree.
Qed.

(** gradients *)
Ltac components k := do 3 (destruct k as [|k]; [cbn [nth vscale vadd map]; degree|]); destruct k; cbn [nth vscale vadd map]; degree.
Lemma tri3_grads_deg i k : Deg 0 0 0 0 (fun x => nth k (nth i (el_grads tri3 x) []) 0).
Proof. cbn [el_grads tri3]. do 3 (destruct i as [|i]; [cbn; components k|]). destruct i; cbn; components k. Qed.
Lemma tet4_grads_deg i k : Deg 0 0 0 0 (fun x => nth k (nth i (el_grads tet4 x) []) 0).
Proof. cbn [el_grads tet4]. do 4 (destruct i as [|i]; [cbn; components k|]). destruct i; cbn; components k. Qed.
Lemma tri6_grads_deg i k : Deg 1 1 1 0 (fun x => nth k (nth i (el_grads tri6 x) []) 0).
Proof. cbn [el_grads tri6]. do 6 (destruct i as [|i]; [cbn; components k|]). destruct i; cbn; components k. Qed.
Lemma tet10_grads_deg i k : Deg 1 1 1 1 (fun x => nth k (nth i (el_grads tet10 x) []) 0).
Proof. cbn [el_grads tet10]. do 10 (destruct i as [|i]; [cbn; components k|]). destruct i; cbn; components k. Qed.
Lemma tet20_grads_deg i k : Deg 2 2 2 2 (fun x => nth k (nth i (el_grads tet20 x) []) 0).
Proof. cbn [el_grads tet20]. do 20 (destruct i as [|i]; [cbn; components k|]). destruct i; cbn; components k. Qed.
Lemma quad4_grads_deg i k : Deg 1 1 1 0 (fun x => nth k (nth i (el_grads quad4 x) []) 0).
Proof. cbn [el_grads quad4]. do 4 (destruct i as [|i]; [cbn [nth quad4_grads quad4_phi_grad]; components k|]). destruct i; cbn; components k. Qed.
Lemma quad9_grads_deg i k : Deg 3 2 2 0 (fun x => nth k (nth i (el_grads quad9 x) []) 0).
Proof. cbn [el_grads quad9]. do 9 (destruct i as [|i]; [cbn [nth quad9_grads quad9_phi_grad]; unfold quad9_phi_1d, quad9_phi_grad_1d; cbv zeta; components k|]). destruct i; cbn; components k. Qed.
Lemma hex8_grads_deg i k : Deg 2 1 1 1 (fun x => nth k (nth i (el_grads hex8 x) []) 0).
Proof. cbn [el_grads hex8]. do 8 (destruct i as [|i]; [cbn [nth hex8_grads hex8_phi_grad]; unfold phi_linear_1d, phi_linear_1d_grad; components k|]). destruct i; cbn; components k. Qed.
Lemma hex27_grads_deg i k : Deg 6 2 2 2 (fun x => nth k (nth i (el_grads hex27 x) []) 0).
Proof. cbn [el_grads hex27]. do 27 (destruct i as [|i]; [cbn [nth hex27_grads hex27_phi_grad]; unfold phi_quadratic_1d, phi_quadratic_1d_grad; cbv zeta; components k|]). destruct i; cbn; components k. Qed.
Lemma hex20_grads_deg i k : Deg 6 2 2 2 (fun x => nth k (nth i (el_grads hex20 x) []) 0).
Proof.
  cbn [el_grads hex20]. do 8 (destruct i as [|i]; [cbn [nth hex20_grads hex20_phi_grad_corner]; cbv zeta; components k|]).
  do 12 (destruct i as [|i]; [cbn [nth hex20_grads]; apply hex20_edge_grad_deg; signs|]). destruct i; cbn; components k.
Qed.

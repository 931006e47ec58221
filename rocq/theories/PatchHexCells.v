(** The integrals of the gradients of basis functions over hexahedra, for rules that match the cube. Auxiliary to C108. *)
From Coq Require Import Reals List Arith Lia Lra QArith Qreals FunctionalExtensionality.
From Coquelicot Require Import Coquelicot.
From Verif Require Import MaterialModel ElementModel ElementSpec QuadratureModel QuadPoly QuadPolyN RuleProofs TableMoments ElementDegrees PatchCells PatchHex.
Import ListNotations.
Local Open Scope R_scope.

(** * degrees *)
Lemma flux_degree a b g k : Deg 9 (k - 1) k k (fun x => nth 0 (g x) 0) -> Deg 9 k (k - 1) k (fun x => nth 1 (g x) 0) -> Deg 9 k k (k - 1) (fun x => nth 2 (g x) 0) -> (1 <= k)%nat ->
  Deg 13 (S k) (S k) (S k) (fun x => trilinear_flux a b (g x) x).
Proof.
  intros G0 G1 G2 K. unfold trilinear_flux.
  assert (A : forall c, Deg 2 0 1 1 (slope0 c)) by (intros c; unfold slope0; degree). assert (B : forall c, Deg 2 1 0 1 (slope1 c)) by (intros c; unfold slope1; degree). assert (C : forall c, Deg 2 1 1 0 (slope2 c)) by (intros c; unfold slope2; degree).
  assert (D0 : Deg 4 2 1 1 (fun x => slope1 a x * slope2 b x - slope2 a x * slope1 b x)). { eapply Deg_weaken; [..|apply Deg_sub; apply Deg_mul; first [apply B|apply C]]; cbn; lia. }
  assert (D1 : Deg 4 1 2 1 (fun x => slope2 a x * slope0 b x - slope0 a x * slope2 b x)). { eapply Deg_weaken; [..|apply Deg_sub; apply Deg_mul; first [apply A|apply C]]; cbn; lia. }
  assert (D2 : Deg 4 1 1 2 (fun x => slope0 a x * slope1 b x - slope1 a x * slope0 b x)). { eapply Deg_weaken; [..|apply Deg_sub; apply Deg_mul; first [apply A|apply B]]; cbn; lia. }
  eapply Deg_weaken; [..|apply Deg_add; [apply Deg_add|]; apply Deg_mul; [exact D0|exact G0|exact D1|exact G1|exact D2|exact G2]]; lia.
Qed.
Definition tight (e : element) (n k : nat) : Prop :=
  forall I, (I < n)%nat -> Deg 9 (k - 1) k k (fun x => nth 0 (nth I (el_grads e x) []) 0) /\ Deg 9 k (k - 1) k (fun x => nth 1 (nth I (el_grads e x) []) 0) /\ Deg 9 k k (k - 1) (fun x => nth 2 (nth I (el_grads e x) []) 0).
Lemma hex8_tight : tight hex8 8 1.
Proof. intros I H. below I H; cbn [el_grads hex8 nth hex8_grads hex8_phi_grad]; unfold phi_linear_1d, phi_linear_1d_grad; repeat split; degree. Qed.
Lemma hex27_tight : tight hex27 27 2.
Proof. intros I H. below I H; cbn [el_grads hex27 nth hex27_grads hex27_phi_grad]; unfold phi_quadratic_1d, phi_quadratic_1d_grad; cbv zeta; repeat split; degree. Qed.
Lemma bubble'_tight alpha t a b c f : In alpha [-1; 0; 1] -> Deg t a b c f -> Deg t a b c (fun x => bubble' alpha (f x)).
Proof.
  intros A F. destruct A as [<-|[<-|[<-|[]]]].
  - apply (Deg_ext _ _ _ _ (fun x => -1)); [intros; unfold bubble'; ring|degree].
  - apply (Deg_ext _ _ _ _ (fun x => -2 * f x)); [intros; unfold bubble'; ring|degree].
  - apply (Deg_ext _ _ _ _ (fun x => 1)); [intros; unfold bubble'; ring|degree].
Qed.
Lemma edge_tight a b c : sign a -> sign b -> sign c ->
  Deg 9 1 2 2 (fun x => nth 0 (hex20_phi_grad_edge x a b c) 0) /\ Deg 9 2 1 2 (fun x => nth 1 (hex20_phi_grad_edge x a b c) 0) /\ Deg 9 2 2 1 (fun x => nth 2 (hex20_phi_grad_edge x a b c) 0).
Proof.
  intros A B C. destruct (bubble_deg a _ _ _ _ _ A Deg_x) as (HA & _). destruct (bubble_deg b _ _ _ _ _ B Deg_y) as (HB & _). destruct (bubble_deg c _ _ _ _ _ C Deg_z) as (HC & _).
  assert (HA' := bubble'_tight a _ _ _ _ _ A Deg_x). assert (HB' := bubble'_tight b _ _ _ _ _ B Deg_y). assert (HC' := bubble'_tight c _ _ _ _ _ C Deg_z).
  repeat split; (eapply Deg_ext; [intros x; rewrite hex20_edge_gradient; reflexivity|]); cbn [nth]; degree.
Qed.
Lemma hex20_tight : tight hex20 20 2.
Proof.
  intros I H. below I H; cbn [el_grads hex20 nth hex20_grads]; first [apply edge_tight; signs|unfold hex20_phi_grad_corner; cbv zeta; cbn [nth]; repeat split; degree].
Qed.

(** * the forces of faces *)
Lemma hex8_like : hex_like hex8 8.
Proof. split; [reflexivity|]. split; [lia|]. intros vs x L. cbn [el_jacobian hex8]. unfold on_first. rewrite firstn_all2 by lia. reflexivity. Qed.
Lemma hex20_like : hex_like hex20 20. Proof. split; [reflexivity|]. split; [lia|]. reflexivity. Qed.
Lemma hex27_like : hex_like hex27 27. Proof. split; [reflexivity|]. split; [lia|]. reflexivity. Qed.
Definition corners_first (table : list (list nat)) : Prop := forall l, (l < length table)%nat -> (4 <= length (nth l table []))%nat /\ forall m, (m < 4)%nat -> (pick (nth l table []) m < 8)%nat.
Ltac check_corners := intros l H; cbn in H; below l H; (split; [cbn; lia|intros m Hm; below m Hm; cbn; lia]).
Lemma hex8_corners : corners_first hex8_faces. Proof. check_corners. Qed.
Lemma hex20_corners : corners_first hex20_faces. Proof. check_corners. Qed.
Lemma hex27_corners : corners_first hex27_faces. Proof. check_corners. Qed.
Lemma face_load_ext c f g f' g' : (forall m, (m < 4)%nat -> f m = f' m /\ g m = g' m) -> face_load c f g = face_load c f' g'.
Proof. intros H. unfold face_load, part1, part2, part3. rewrite (proj1 (H 0%nat ltac:(lia))), (proj1 (H 1%nat ltac:(lia))), (proj1 (H 2%nat ltac:(lia))), (proj1 (H 3%nat ltac:(lia))), (proj2 (H 0%nat ltac:(lia))), (proj2 (H 1%nat ltac:(lia))), (proj2 (H 2%nat ltac:(lia))), (proj2 (H 3%nat ltac:(lia))). reflexivity. Qed.
Lemma vx_map vs t m : (m < length t)%nat -> vx (map (vx vs) t) m = vx vs (pick t m).
Proof. intros H. unfold vx at 1, pick. rewrite (nth_indep _ _ (vx vs 0)) by (rewrite map_length; exact H). apply map_nth. Qed.
Lemma loads_trilinear cs table vs I k : corners_first table -> local_load (quad_load cs) table vs I k = trilinear_load cs table (coef vs ((k + 1) mod 3)) (coef vs ((k + 2) mod 3)) I.
Proof.
  intros C. unfold local_load, trilinear_load. apply summ_congr. intros l Hl. apply summ_congr. intros j Hj. destruct (_ =? I)%nat; [|reflexivity]. unfold quad_load. destruct (C l Hl) as (L & P). apply face_load_ext. intros m Hm.
  rewrite vx_map by lia. split; apply corner_coef, P, Hm.
Qed.

Lemma hex_cell e n k cs table : hex_like e n -> tight e n k -> (1 <= k <= 2)%nat -> corners_first table -> (forall a b I, (I < n)%nat -> rule_flux e a b I = trilinear_load cs table a b I) ->
  cell_identity e n table (quad_load cs) (each_degree 3 (S k)) on_cube.
Proof.
  intros E T K C Id W q vs I j M L HI Hj. assert (Hd : (j < 3)%nat) by (destruct E as (D & _); rewrite D in Hj; exact Hj). destruct (T I HI) as (G0 & G1 & G2).
  set (a := coef vs ((j + 1) mod 3)). set (b := coef vs ((j + 2) mod 3)).
  assert (F : Deg 13 (S k) (S k) (S k) (fun x => trilinear_flux a b (nth I (el_grads e x) []) x)) by (apply (flux_degree a b (fun x => nth I (el_grads e x) []) k); [assumption..|lia]).
  assert (Ef : flux e vs I j = fun x => trilinear_flux a b (nth I (el_grads e x) []) x) by (apply functional_extensionality; intros x; apply (hex_flux e n); assumption).
  rewrite M by (rewrite Ef; eapply fits_weaken; [exact F|suits]). f_equal. rewrite (loads_trilinear cs table vs I j C), <- Id by exact HI. rewrite Ef. apply cube_simpson. eapply fits_weaken; [exact F|suits].
Qed.
Lemma hex8_cell : cell_identity hex8 8 hex8_faces (quad_load quad4_moments) (each_degree 3 2) on_cube.
Proof. exact (hex_cell hex8 8 1 _ _ hex8_like hex8_tight ltac:(lia) hex8_corners hex8_identity). Qed.
Lemma hex20_cell : cell_identity hex20 20 hex20_faces (quad_load quad8_moments) (each_degree 3 3) on_cube.
Proof. exact (hex_cell hex20 20 2 _ _ hex20_like hex20_tight ltac:(lia) hex20_corners hex20_identity). Qed.
Lemma hex27_cell : cell_identity hex27 27 hex27_faces (quad_load quad9_moments) (each_degree 3 3) on_cube.
Proof. exact (hex_cell hex27 27 2 _ _ hex27_like hex27_tight ltac:(lia) hex27_corners hex27_identity). Qed.

(** * reversed faces *)
Definition quad4_reversals : list (list nat) := [[0; 3; 2; 1]; [1; 0; 3; 2]; [2; 1; 0; 3]; [3; 2; 1; 0]]%nat.
Definition quad8_reversals : list (list nat) := [[0; 3; 2; 1; 7; 6; 5; 4]; [1; 0; 3; 2; 4; 7; 6; 5]; [2; 1; 0; 3; 5; 4; 7; 6]; [3; 2; 1; 0; 6; 5; 4; 7]]%nat.
Definition quad9_reversals : list (list nat) := [[0; 3; 2; 1; 7; 6; 5; 4; 8]; [1; 0; 3; 2; 4; 7; 6; 5; 8]; [2; 1; 0; 3; 5; 4; 7; 6; 8]; [3; 2; 1; 0; 6; 5; 4; 7; 8]]%nat.
Ltac flip := intros ps j k L Hj Hk; unfold quad_load; generalize ((k + 1) mod 3)%nat, ((k + 2) mod 3)%nat; intros a b; points ps L; below j Hj; unfold face_load, part1, part2, part3, vx; cbn [map nth quad4_moments quad8_moments quad9_moments]; lra.
Ltac quad_reversal := intros r Hr; cbn [In quad4_reversals quad8_reversals quad9_reversals] in Hr; repeat (destruct Hr as [Hr|Hr]; [subst r; split; [reflexivity|split; [intros h; cbn; ring|split; [flip|not_reversal]]]|]); destruct Hr.
Lemma quad4_reverses : reverses 4 3 (quad_load quad4_moments) quad4_reversals.
Proof. quad_reversal. Qed.
Lemma quad8_reverses : reverses 8 3 (quad_load quad8_moments) quad8_reversals.
Proof. quad_reversal. Qed.
Lemma quad9_reverses : reverses 9 3 (quad_load quad9_moments) quad9_reversals.
Proof. quad_reversal. Qed.

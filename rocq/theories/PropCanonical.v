(** C81: the canonical quadratures integrate mass matrices of simplices and of convex quadrilaterals and stiffness matrices of affine elements exactly, others not. *)
From Coq Require Import Reals List Arith Lia Lra.
From Coquelicot Require Import Coquelicot.
From Verif Require Import MaterialModel ElementModel ElementSpec QuadratureModel CanonicalModel QuadPoly QuadPolyN RuleProofs PropTensor PropGauss GaussSharp PropSubdivide
  ElementDegrees TriangleCells CanonicalProofs.
Import ListNotations.
Local Open Scope R_scope.

(** the integral over the reference element *)
Definition over_reference (e : element) (f : point -> R) : R :=
  match el_dim e, el_corners e with
  | 2%nat, 3%nat => RInt (fun x => RInt (fun y => f (pt [x; y])) (-1) (- x)) (-1) 1
  | 2%nat, _ => RInt (fun x => RInt (fun y => f (pt [x; y])) (-1) 1) (-1) 1
  | _, 4%nat => RInt (fun x => RInt (fun y => RInt (fun z => f (pt [x; y; z])) (-1) (-1 - x - y)) (-1) (- x)) (-1) 1
  | _, _ => RInt (fun x => RInt (fun y => RInt (fun z => f (pt [x; y; z])) (-1) 1) (-1) 1) (-1) 1
  end.
(** the tabulated rules integrate polynomials up to their strength exactly *)
Definition tabulated (triangle tetrahedron : nat -> option (rule point)) : Prop :=
  (forall k r, triangle k = Some r -> forall p, List.Forall (fun m : R * (nat * nat * nat) => total_degree 2 k (snd m)) p ->
    rule_integrate r (peval p) = RInt (fun x => RInt (fun y => peval p (pt [x; y])) (-1) (- x)) (-1) 1) /\
  (forall k r, tetrahedron k = Some r -> forall p, List.Forall (fun m : R * (nat * nat * nat) => total_degree 3 k (snd m)) p ->
    rule_integrate r (peval p) = RInt (fun x => RInt (fun y => RInt (fun z => peval p (pt [x; y; z])) (-1) (-1 - x - y)) (-1) (- x)) (-1) 1).
(** the determinant of the map from the reference element *)
Definition det_map (e : element) (vs : list point) (x : point) : R := determinant (el_dim e) (el_jacobian e vs x).

(** ** rules *)
Lemma triangle_Poly triangle tetrahedron k r f : tabulated triangle tetrahedron -> triangle k = Some r -> Poly (total_degree 2 k) f -> rule_integrate r f = on_triangle f.
Proof.
  intros (T & _) E (p & P & H). rewrite (rule_ext r f (peval p)) by (intros; apply H). rewrite (T k r E p P). apply (on_triangle_ext (peval p) f). intros x. symmetry. apply H.
Qed.
Lemma tetrahedron_Poly triangle tetrahedron k r f : tabulated triangle tetrahedron -> tetrahedron k = Some r -> Poly (total_degree 3 k) f -> rule_integrate r f = on_tetrahedron f.
Proof.
  intros (_ & T) E (p & P & H). rewrite (rule_ext r f (peval p)) by (intros; apply H). rewrite (T k r E p P). apply (on_tetrahedron_ext (peval p) f). intros x. symmetry. apply H.
Qed.
Lemma quad_rule root n q : (0 < n)%nat -> exact_search root n -> quadrilateral_gauss root n = Some q ->
  (forall x, In x (snd q) -> inside 2 x) /\ forall f, Poly (each_degree 2 (2 * n - 1)) f -> rule_integrate q f = on_square f.
Proof.
  intros N S E. destruct (C54_gauss root n N S) as (q2 & q3 & E2 & _ & _ & _ & B & _ & X & _). rewrite E in E2. injection E2 as <-. split.
  - intros x I k Hk. destruct (B x I). destruct k as [|[|k]]; [assumption|assumption|lia].
  - intros f (p & P & H). rewrite (rule_ext q f (peval p)) by (intros; apply H). rewrite (X p P). apply (on_square_inside (peval p) f). intros x _. symmetry. apply H.
Qed.
Lemma hex_rule root n q : (0 < n)%nat -> exact_search root n -> hexahedron_gauss root n = Some q ->
  (forall x, In x (snd q) -> inside 3 x) /\ forall f, Poly (each_degree 3 (2 * n - 1)) f -> rule_integrate q f = on_cube f.
Proof.
  intros N S E. destruct (C54_gauss root n N S) as (q2 & q3 & _ & E3 & _ & _ & _ & B & _ & X). rewrite E in E3. injection E3 as <-. split.
  - intros x I k Hk. destruct (B x I) as (B0 & B1 & B2). destruct k as [|[|[|k]]]; [assumption|assumption|assumption|lia].
  - intros f (p & P & H). rewrite (rule_ext q f (peval p)) by (intros; apply H). rewrite (X p P). apply (on_cube_inside (peval p) f). intros x _. symmetry. apply H.
Qed.

(** ** determinants *)
Lemma quad4_det_deg vs : Deg 2 1 1 0 (det_map quad4 vs).
Proof.
  unfold det_map. cbn [el_dim el_jacobian quad4 determinant]. unfold isoparametric_jacobian.
  do 4 (destruct vs as [|? vs]; [cbn [combine quad4_grads quad4_phi_grad map nth]; degree|]). cbn [combine quad4_grads quad4_phi_grad map nth]. degree.
Qed.
Lemma quad9_det vs x : det_map quad9 vs x = det_map quad4 (firstn 4 vs) x.
Proof. reflexivity. Qed.

(** integrals against the absolute value of a determinant *)
Lemma constant_abs (f det : point -> R) (over : (point -> R) -> R) (P : (point -> R) -> Prop) q D : (forall x, det x = D) -> (forall f, P f -> rule_integrate q f = over f) ->
  (forall f g, (forall x, f x = g x) -> over f = over g) -> P (fun x => Rabs D * f x) -> rule_integrate q (fun x => f x * Rabs (det x)) = over (fun x => f x * Rabs (det x)).
Proof.
  intros E X O H. rewrite (rule_ext q _ (fun x => Rabs D * f x)) by (intros; rewrite E; ring). rewrite (X _ H). apply O. intros x. rewrite E. ring.
Qed.
Lemma signed_abs (f det : point -> R) (over : (point -> R) -> R) (P : (point -> R) -> Prop) q s d : s = 1 \/ s = -1 -> (forall x, inside d x -> 0 <= s * det x) ->
  (forall x, In x (snd q) -> inside d x) -> (forall f, P f -> rule_integrate q f = over f) -> (forall f g, (forall x, inside d x -> f x = g x) -> over f = over g) ->
  P (fun x => f x * (s * det x)) -> rule_integrate q (fun x => f x * Rabs (det x)) = over (fun x => f x * Rabs (det x)).
Proof.
  intros Hs Sg In_ X O H. assert (A : forall x, inside d x -> Rabs (det x) = s * det x).
  { intros x I. specialize (Sg x I). rewrite <- (Rabs_pos_eq (s * det x)) by exact Sg. destruct Hs as [-> | ->]; rewrite Rabs_mult; [rewrite Rabs_R1|rewrite (Rabs_left (-1)) by lra]; ring. }
  rewrite (rule_ext q _ (fun x => f x * (s * det x))) by (intros x I; rewrite A by (apply In_, I); reflexivity). rewrite (X _ H). apply O. intros x I. rewrite A by exact I. reflexivity.
Qed.

(** C81. The canonical mass quadrature is exact on all triangles and tetrahedra, on quadrilaterals whose map does not change orientation, and on hexahedra whose
    determinant moreover is at most linear in each coordinate. *)
Theorem C81_mass root triangle tetrahedron e q vs i j : exact_search root 2 -> exact_search root 3 -> tabulated triangle tetrahedron ->
  In (e, Some q) (canonical_mass root triangle tetrahedron) ->
  (el_corners e = (2 ^ el_dim e)%nat -> exists s, (s = 1 \/ s = -1) /\ forall x, (forall k, (k < el_dim e)%nat -> -1 < x k < 1) -> 0 <= s * det_map e vs x) ->
  (el_corners e = 8%nat -> exists p, List.Forall (fun m : R * (nat * nat * nat) => each_degree 3 1 (snd m)) p /\ forall x, det_map e vs x = peval p x) ->
  rule_integrate q (fun x => nth i (el_basis e x) 0 * nth j (el_basis e x) 0 * Rabs (det_map e vs x)) =
  over_reference e (fun x => nth i (el_basis e x) 0 * nth j (el_basis e x) 0 * Rabs (det_map e vs x)).
Proof.
  intros S2 S3 T HIn Sg Lin. cbn [canonical_mass In] in HIn.
  assert (HS : forall n, (n = 2 \/ n = 3)%nat -> exact_search root n) by (intros n [-> | ->]; assumption).
  assert (Tri : forall k (b : nat -> point -> R) (det : point -> R), triangle (k + k)%nat = Some q -> (forall i, Deg k k k 0 (fun x => b i x)) -> (forall x y, det x = det y) ->
    rule_integrate q (fun x => b i x * b j x * Rabs (det x)) = on_triangle (fun x => b i x * b j x * Rabs (det x))).
  { intros k b det E B C. apply (constant_abs (fun x => b i x * b j x) det on_triangle (Poly (total_degree 2 (k + k))) q (det (pt []))).
    - intros x. apply C.
    - intros f. apply (triangle_Poly triangle tetrahedron (k + k) q f T E).
    - intros f g H. apply on_triangle_ext, H.
    - eapply Deg_total2; [|apply Nat.le_refl]. exact (Deg_scale _ _ _ _ _ _ (Deg_mul _ _ _ _ _ _ _ _ _ _ (B i) (B j))). }
  assert (Tet : forall k (b : nat -> point -> R) (det : point -> R), tetrahedron (k + k)%nat = Some q -> (forall i, Deg k k k k (fun x => b i x)) -> (forall x y, det x = det y) ->
    rule_integrate q (fun x => b i x * b j x * Rabs (det x)) = on_tetrahedron (fun x => b i x * b j x * Rabs (det x))).
  { intros k b det E B C. apply (constant_abs (fun x => b i x * b j x) det on_tetrahedron (Poly (total_degree 3 (k + k))) q (det (pt []))).
    - intros x. apply C.
    - intros f. apply (tetrahedron_Poly triangle tetrahedron (k + k) q f T E).
    - intros f g H. apply on_tetrahedron_ext, H.
    - eapply Deg_total3; [|apply Nat.le_refl]. exact (Deg_scale _ _ _ _ _ _ (Deg_mul _ _ _ _ _ _ _ _ _ _ (B i) (B j))). }
  assert (Quad : forall n t (b : nat -> point -> R) (det : point -> R), (n = 2 \/ n = 3)%nat -> quadrilateral_gauss root n = Some q -> (forall i, Deg t (n - 1) (n - 1) 0 (fun x => b i x)) -> Deg 2 1 1 0 det ->
    (exists s, (s = 1 \/ s = -1) /\ forall x, inside 2 x -> 0 <= s * det x) ->
    rule_integrate q (fun x => b i x * b j x * Rabs (det x)) = on_square (fun x => b i x * b j x * Rabs (det x))).
  { intros n t b det N E B C (s & Hs & Sn). destruct (quad_rule root n q ltac:(lia) (HS n N) E) as (In_ & X).
    apply (signed_abs (fun x => b i x * b j x) det on_square (Poly (each_degree 2 (2 * n - 1))) q s 2 Hs Sn In_ X).
    - apply on_square_inside.
    - refine (Deg_each2 _ _ _ _ _ (Deg_mul _ _ _ _ _ _ _ _ _ _ (Deg_mul _ _ _ _ _ _ _ _ _ _ (B i) (B j)) (Deg_scale _ _ _ _ s _ C)) _ _); lia. }
  assert (Hex : forall n t (b : nat -> point -> R) (det : point -> R), (n = 2 \/ n = 3)%nat -> hexahedron_gauss root n = Some q -> (forall i, Deg t (n - 1) (n - 1) (n - 1) (fun x => b i x)) -> Poly (each_degree 3 1) det ->
    (exists s, (s = 1 \/ s = -1) /\ forall x, inside 3 x -> 0 <= s * det x) ->
    rule_integrate q (fun x => b i x * b j x * Rabs (det x)) = on_cube (fun x => b i x * b j x * Rabs (det x))).
  { intros n t b det N E B C (s & Hs & Sn). destruct (hex_rule root n q ltac:(lia) (HS n N) E) as (In_ & X).
    apply (signed_abs (fun x => b i x * b j x) det on_cube (Poly (each_degree 3 (2 * n - 1))) q s 3 Hs Sn In_ X).
    - apply on_cube_inside.
    - assert (BB : Poly (each_degree 3 (n - 1 + (n - 1))) (fun x => b i x * b j x)) by (refine (Deg_each3 _ _ _ _ _ _ (Deg_mul _ _ _ _ _ _ _ _ _ _ (B i) (B j)) _ _ _); lia).
      apply (Poly_mul (each_degree 3 (n - 1 + (n - 1))) (each_degree 3 1) _ _ (fun x => s * det x)); [|exact BB|apply Poly_scale, C].
      intros a a' A A'. pose proof (each_add _ _ _ _ _ A A'). replace (2 * n - 1)%nat with (n - 1 + (n - 1) + 1)%nat by lia. assumption. }
  repeat match type of HIn with _ \/ _ => destruct HIn as [HIn|HIn] end; [..|destruct HIn]; pose proof (f_equal fst HIn) as He; pose proof (f_equal snd HIn) as Hq; cbn [fst snd] in He, Hq; subst e; clear HIn.
  - apply (Tri 1%nat (fun i x => nth i (el_basis tri3 x) 0) (det_map tri3 vs) Hq tri3_basis_deg). reflexivity.
  - apply (Tri 2%nat (fun i x => nth i (el_basis tri6 x) 0) (det_map tri6 vs) Hq tri6_basis_deg). reflexivity.
  - apply (Quad 2%nat 2%nat (fun i x => nth i (el_basis quad4 x) 0) (det_map quad4 vs) ltac:(lia) Hq quad4_basis_deg (quad4_det_deg vs)). apply Sg. reflexivity.
  - apply (Quad 3%nat 4%nat (fun i x => nth i (el_basis quad9 x) 0) (det_map quad9 vs) ltac:(lia) Hq quad9_basis_deg (quad4_det_deg (firstn 4 vs))). apply Sg. reflexivity.
  - apply (Tet 1%nat (fun i x => nth i (el_basis tet4 x) 0) (det_map tet4 vs) Hq tet4_basis_deg). reflexivity.
  - apply (Tet 2%nat (fun i x => nth i (el_basis tet10 x) 0) (det_map tet10 vs) Hq tet10_basis_deg). reflexivity.
  - apply (Tet 3%nat (fun i x => nth i (el_basis tet20 x) 0) (det_map tet20 vs) Hq tet20_basis_deg). reflexivity.
  - apply (Hex 2%nat 3%nat (fun i x => nth i (el_basis hex8 x) 0) (det_map hex8 vs) ltac:(lia) Hq hex8_basis_deg); [apply Lin|apply Sg]; reflexivity.
  - apply (Hex 3%nat 6%nat (fun i x => nth i (el_basis hex20 x) 0) (det_map hex20 vs) ltac:(lia) Hq hex20_basis_deg); [apply Lin|apply Sg]; reflexivity.
  - apply (Hex 3%nat 6%nat (fun i x => nth i (el_basis hex27 x) 0) (det_map hex27 vs) ltac:(lia) Hq hex27_basis_deg); [apply Lin|apply Sg]; reflexivity.
Qed.
Print Assumptions C81_mass.

(** ** stiffness *)
(** the gradient of basis function [i] in physical space, from the chain rule: J^T g is the gradient on the reference element *)
Definition physical_gradient (e : element) (vs : list point) (i : nat) (x : point) (g : nat -> R) : Prop :=
  forall k, (k < el_dim e)%nat -> summ (el_dim e) (fun m => el_jacobian e vs x m k * g m) = nth k (nth i (el_grads e x) []) 0.

Lemma Deg_summ t a b c n (f : nat -> point -> R) : (forall k, Deg t a b c (f k)) -> Deg t a b c (fun x => summ n (fun k => f k x)).
Proof.
  intros F. induction n as [|n IH]; cbn [summ]; [exact (Deg_weaken _ _ _ _ _ _ _ _ _ (Nat.le_0_l _) (Nat.le_0_l _) (Nat.le_0_l _) (Nat.le_0_l _) (Deg_const 0))|].
  apply (Deg_weaken (Nat.max t t) (Nat.max a a) (Nat.max b b) (Nat.max c c)); [lia..|]. exact (Deg_add _ _ _ _ _ _ _ _ _ _ IH (F n)).
Qed.
Lemma summ_ext d f g : (forall k, (k < d)%nat -> f k = g k) -> summ d f = summ d g.
Proof. induction d as [|d IH]; intros H; [reflexivity|]. cbn. rewrite IH by (intros k Hk; apply H; lia). rewrite H by lia. reflexivity. Qed.

(** the gradients are a fixed matrix times the reference gradients *)
Lemma solve_gradient d (J : nat -> nat -> R) (g h : nat -> R) : (d = 2 \/ d = 3)%nat -> determinant d J <> 0 -> (forall k, (k < d)%nat -> summ d (fun m => J m k * g m) = h k) ->
  forall m, (m < d)%nat -> g m = summ d (fun k => adjugate d J k m / determinant d J * h k).
Proof.
  intros [-> | ->] D H m Hm.
  - pose proof (H 0%nat ltac:(lia)) as H0. pose proof (H 1%nat ltac:(lia)) as H1. clear H. cbn [summ] in *. rewrite <- H0, <- H1. cbn in D.
    destruct m as [|[|m]]; [cbn; field; exact D|cbn; field; exact D|lia].
  - pose proof (H 0%nat ltac:(lia)) as H0. pose proof (H 1%nat ltac:(lia)) as H1. pose proof (H 2%nat ltac:(lia)) as H2. clear H. cbn [summ] in *. rewrite <- H0, <- H1, <- H2. cbn in D.
    destruct m as [|[|[|m]]]; [cbn; field; exact D|cbn; field; exact D|cbn; field; exact D|lia].
Qed.

Section constant_jacobian.
Variables (e : element) (vs : list point) (G : nat -> point -> nat -> R) (t a b c : nat).
Hypothesis d23 : (el_dim e = 2 \/ el_dim e = 3)%nat.
Hypothesis HJ : forall x y m k, (m < el_dim e)%nat -> (k < el_dim e)%nat -> el_jacobian e vs x m k = el_jacobian e vs y m k.
Hypothesis HD : forall x, det_map e vs x <> 0.
Hypothesis HG : forall i x, physical_gradient e vs i x (G i x).
Hypothesis Hg : forall i k, Deg t a b c (fun x => nth k (nth i (el_grads e x) []) 0).

Lemma det_constant x y : det_map e vs x = det_map e vs y.
Proof. unfold det_map. destruct d23 as [E|E]; rewrite E in *; cbn [determinant]; repeat (f_equal; try (apply HJ; lia)). Qed.
Lemma stiffness_deg i j : Deg (t + t) (a + a) (b + b) (c + c) (fun x => vdot (el_dim e) (G i x) (G j x) * Rabs (det_map e vs x)).
Proof.
  set (J := el_jacobian e vs (pt [])). set (A := fun m k => adjugate (el_dim e) J k m / determinant (el_dim e) J).
  apply (Deg_ext _ _ _ _ (fun x => Rabs (det_map e vs (pt [])) * summ (el_dim e) (fun m =>
    summ (el_dim e) (fun k => A m k * nth k (nth i (el_grads e x) []) 0) * summ (el_dim e) (fun k => A m k * nth k (nth j (el_grads e x) []) 0)))).
  - intros x. rewrite (det_constant x (pt [])), Rmult_comm. f_equal. unfold vdot. apply summ_ext. intros m Hm.
    assert (F : forall i, G i x m = summ (el_dim e) (fun k => A m k * nth k (nth i (el_grads e x) []) 0)); [|rewrite (F i), (F j); reflexivity].
    intros i'. apply (solve_gradient (el_dim e) J (G i' x) (fun k => nth k (nth i' (el_grads e x) []) 0) d23 (HD (pt []))); [|exact Hm].
    intros k Hk. rewrite <- (HG i' x k Hk). apply summ_ext. intros m' Hm'. rewrite (HJ x (pt []) m' k Hm' Hk). reflexivity.
  - apply Deg_scale. apply (Deg_summ _ _ _ _ _ (fun m x => summ (el_dim e) (fun k => A m k * nth k (nth i (el_grads e x) []) 0) * summ (el_dim e) (fun k => A m k * nth k (nth j (el_grads e x) []) 0))).
    intros m. apply (Deg_mul t a b c t a b c (fun x => summ (el_dim e) (fun k => A m k * nth k (nth i (el_grads e x) []) 0)) (fun x => summ (el_dim e) (fun k => A m k * nth k (nth j (el_grads e x) []) 0)));
      [apply (Deg_summ t a b c _ (fun k x => A m k * nth k (nth i (el_grads e x) []) 0))|apply (Deg_summ t a b c _ (fun k x => A m k * nth k (nth j (el_grads e x) []) 0))]; intros k; apply (Deg_scale t a b c (A m k)), Hg.
Qed.
End constant_jacobian.

(** C81. The canonical stiffness quadrature is exact on all nondegenerate triangles and tetrahedra and on quadrilaterals and hexahedra whose map is affine. *)
Theorem C81_stiffness root triangle tetrahedron e q vs i j G : exact_search root 2 -> exact_search root 3 -> tabulated triangle tetrahedron ->
  In (e, Some q) (canonical_stiffness root triangle tetrahedron) ->
  (el_corners e = (2 ^ el_dim e)%nat -> forall x y m k, (m < el_dim e)%nat -> (k < el_dim e)%nat -> el_jacobian e vs x m k = el_jacobian e vs y m k) ->
  (forall x, det_map e vs x <> 0) -> (forall a x, physical_gradient e vs a x (G a x)) ->
  rule_integrate q (fun x => vdot (el_dim e) (G i x) (G j x) * Rabs (det_map e vs x)) = over_reference e (fun x => vdot (el_dim e) (G i x) (G j x) * Rabs (det_map e vs x)).
Proof.
  intros S2 S3 T HIn HJ HD HG. cbn [canonical_stiffness In] in HIn.
  repeat match type of HIn with _ \/ _ => destruct HIn as [HIn|HIn] end; [..|destruct HIn]; pose proof (f_equal fst HIn) as He; pose proof (f_equal snd HIn) as Hq; cbn [fst snd] in He, Hq; subst e; clear HIn.
  - apply (triangle_Poly triangle tetrahedron 1 q _ T Hq). refine (Deg_total2 _ _ _ _ _ (stiffness_deg tri3 vs G _ _ _ _ _ _ HD HG tri3_grads_deg i j) _); [left; reflexivity|reflexivity|lia].
  - apply (triangle_Poly triangle tetrahedron 2 q _ T Hq). refine (Deg_total2 _ _ _ _ _ (stiffness_deg tri6 vs G _ _ _ _ _ _ HD HG tri6_grads_deg i j) _); [left; reflexivity|reflexivity|lia].
  - apply (proj2 (quad_rule root 2 q ltac:(lia) S2 Hq)). refine (Deg_each2 _ _ _ _ _ (stiffness_deg quad4 vs G _ _ _ _ _ _ HD HG quad4_grads_deg i j) _ _); [left; reflexivity|apply HJ; reflexivity|lia..].
  - apply (proj2 (quad_rule root 3 q ltac:(lia) S3 Hq)). refine (Deg_each2 _ _ _ _ _ (stiffness_deg quad9 vs G _ _ _ _ _ _ HD HG quad9_grads_deg i j) _ _); [left; reflexivity|apply HJ; reflexivity|lia..].
  - apply (tetrahedron_Poly triangle tetrahedron 1 q _ T Hq). refine (Deg_total3 _ _ _ _ _ _ (stiffness_deg tet4 vs G _ _ _ _ _ _ HD HG tet4_grads_deg i j) _); [right; reflexivity|reflexivity|lia].
  - apply (tetrahedron_Poly triangle tetrahedron 2 q _ T Hq). refine (Deg_total3 _ _ _ _ _ _ (stiffness_deg tet10 vs G _ _ _ _ _ _ HD HG tet10_grads_deg i j) _); [right; reflexivity|reflexivity|lia].
  - apply (tetrahedron_Poly triangle tetrahedron 4 q _ T Hq). refine (Deg_total3 _ _ _ _ _ _ (stiffness_deg tet20 vs G _ _ _ _ _ _ HD HG tet20_grads_deg i j) _); [right; reflexivity|reflexivity|lia].
  - apply (proj2 (hex_rule root 2 q ltac:(lia) S2 Hq)). refine (Deg_each3 _ _ _ _ _ _ (stiffness_deg hex8 vs G _ _ _ _ _ _ HD HG hex8_grads_deg i j) _ _ _); [right; reflexivity|apply HJ; reflexivity|lia..].
  - apply (proj2 (hex_rule root 3 q ltac:(lia) S3 Hq)). refine (Deg_each3 _ _ _ _ _ _ (stiffness_deg hex20 vs G _ _ _ _ _ _ HD HG hex20_grads_deg i j) _ _ _); [right; reflexivity|apply HJ; reflexivity|lia..].
  - apply (proj2 (hex_rule root 3 q ltac:(lia) S3 Hq)). refine (Deg_each3 _ _ _ _ _ _ (stiffness_deg hex27 vs G _ _ _ _ _ _ HD HG hex27_grads_deg i j) _ _ _); [right; reflexivity|apply HJ; reflexivity|lia..].
Qed.
Print Assumptions C81_stiffness.

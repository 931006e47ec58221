(** C81: the element matrices that fenris assembles with the canonical quadratures. *)
From Coq Require Import Reals List Arith Lia Lra.
From Coquelicot Require Import Coquelicot.
From Verif Require Import MaterialModel EllipticModel PropMaterial PropObjective PropElliptic PropEllipticOps PropMass.
From Verif Require Import ElementModel ElementSpec QuadratureModel CanonicalModel QuadPoly QuadPolyN RuleProofs PropTensor PropGauss GaussSharp PropSubdivide
  ElementDegrees TriangleCells CanonicalProofs PropCanonical.
Import ListNotations.
Local Open Scope R_scope.

(** the element with the vertices [vs], as the assembly sees it (src/element.rs:30-130) *)
Definition volumetric (e : element) (vs : list point) : EllipticModel.element point :=
  EllipticModel.Element point (length (el_ref e)) (el_dim e) (fun x I => nth I (el_basis e x) 0) (fun x I k => nth k (nth I (el_grads e x) []) 0) (el_map e vs) (el_jacobian e vs).

Lemma qsum_rule {Data} (ws : list R) (xs : list point) (c : Data) f : qsum (List.combine ws (List.combine xs (repeat c (length xs)))) (fun w p _ => w * f p) = rule_integrate (ws, xs) f.
Proof.
  rewrite integrate_total. unfold total, zipped. cbn [fst snd]. revert xs. induction ws as [|w ws IH]; intros xs; [reflexivity|]. destruct xs as [|x xs]; [reflexivity|].
  cbn [length repeat List.combine]. unfold qsum in *. cbn [fold_right map fst snd]. rewrite IH. reflexivity.
Qed.

(** C81. The mass matrix with constant density that is assembled with the canonical quadrature is the exact one (in the cases of C81_mass). *)
Theorem C81_mass_matrix root triangle tetrahedron e q vs rho s : exact_search root 2 -> exact_search root 3 -> tabulated triangle tetrahedron ->
  In (e, Some q) (canonical_mass root triangle tetrahedron) -> length (fst q) = length (snd q) ->
  (el_corners e = (2 ^ el_dim e)%nat -> exists s, (s = 1 \/ s = -1) /\ forall x, (forall k, (k < el_dim e)%nat -> -1 < x k < 1) -> 0 <= s * det_map e vs x) ->
  (el_corners e = 8%nat -> exists p, List.Forall (fun m : R * (nat * nat * nat) => each_degree 3 1 (snd m)) p /\ forall x, det_map e vs x = peval p x) ->
  let n := length (el_ref e) in
  exists M, element_mass (volumetric e vs) (fst q) (snd q) (repeat rho (length (snd q))) s n (s * n) (s * n) = Done M /\
    forall I J i j, (I < n)%nat -> (J < n)%nat -> (i < s)%nat -> (j < s)%nat ->
      M (s * I + i)%nat (s * J + j)%nat = if (i =? j)%nat then rho * over_reference e (fun x => nth I (el_basis e x) 0 * nth J (el_basis e x) 0 * Rabs (det_map e vs x)) else 0.
Proof.
  intros S2 S3 T HIn Len Sg Lin n. destruct (proj2 (C77_mass (volumetric e vs) (fst q) (snd q) s (repeat rho (length (snd q))))) as (M & EM & HM); [split; [exact Len|rewrite repeat_length; reflexivity]|].
  exists M. split; [exact EM|]. intros I J i j HI HJ Hi Hj. rewrite (HM I J i j HI HJ Hi Hj). destruct (i =? j)%nat; [|reflexivity].
  rewrite <- (C81_mass root triangle tetrahedron e q vs I J S2 S3 T HIn Sg Lin). rewrite <- rule_scale. destruct q as [ws xs]. rewrite <- (qsum_rule ws xs rho). cbn [fst snd].
  apply qsum_ext. intros w p r Hin. apply in_combine_r, in_combine_r, repeat_spec in Hin. subst r. unfold det_map. cbn [volumetric EllipticModel.el_dim EllipticModel.el_jacobian EllipticModel.el_basis]. ring.
Qed.
Print Assumptions C81_mass_matrix.

(** C81. The stiffness matrix of the Laplace operator that is assembled with the canonical quadrature is the exact one (in the cases of C81_stiffness). *)
Theorem C81_stiffness_matrix root triangle tetrahedron e q vs u G : exact_search root 2 -> exact_search root 3 -> tabulated triangle tetrahedron ->
  In (e, Some q) (canonical_stiffness root triangle tetrahedron) -> length (fst q) = length (snd q) ->
  (el_corners e = (2 ^ el_dim e)%nat -> forall x y m k, (m < el_dim e)%nat -> (k < el_dim e)%nat -> el_jacobian e vs x m k = el_jacobian e vs y m k) ->
  (forall x, det_map e vs x <> 0) -> (forall a x, physical_gradient e vs a x (G a x)) ->
  let n := length (el_ref e) in let d := el_dim e in length u = n ->
  exists K, element_matrix (volumetric e vs) 1 true (fun G (_ : unit) => accumulate_contractions d 1 true (laplace_contract d G)) u (fst q) (snd q) (repeat tt (length (snd q))) n (1 * n) (1 * n) = Done K /\
    forall I J, (I < n)%nat -> (J < n)%nat -> K I J = over_reference e (fun x => vdot d (G I x) (G J x) * Rabs (det_map e vs x)).
Proof.
  intros S2 S3 T HIn Len HJ HD HG n d Hu.
  assert (Hd : (d = 2 \/ d = 3)%nat).
  { unfold d. cbn [canonical_stiffness In] in HIn. repeat match type of HIn with _ \/ _ => destruct HIn as [HIn|HIn] end; [..|destruct HIn]; apply (f_equal fst) in HIn; cbn [fst] in HIn; subst e; (left; reflexivity) || (right; reflexivity). }
  destruct (matrix_value (volumetric e vs) 1 true (fun G (_ : unit) => laplace_contract d G) (fun G (_ : unit) => accumulate_contractions d 1 true (laplace_contract d G)) u (fst q) (snd q) (repeat tt (length (snd q)))) as (K & EK & HK).
  - right. exact Hd.
  - split; [exact Len|rewrite repeat_length; reflexivity].
  - rewrite Nat.mul_1_l. exact Hu.
  - intros w p x _. apply HD.
  - intros. apply default_accumulates. destruct Hd; cbn; fold d; lia.
  - intros _ w p x _ a b i j _ _. unfold laplace_contract. apply vdot_comm.
  - exists K. split; [exact EK|]. intros I J HI HJ'. pose proof (HK I J 0%nat 0%nat HI HJ' ltac:(lia) ltac:(lia)) as X. rewrite !Nat.mul_1_l, !Nat.add_0_r in X. rewrite X.
    unfold d. rewrite <- (C81_stiffness root triangle tetrahedron e q vs I J G S2 S3 T HIn HJ HD HG). destruct q as [ws xs]. rewrite <- (qsum_rule ws xs tt). cbn [fst snd].
    apply qsum_ext. intros w p r _. cbn [volumetric EllipticModel.el_dim EllipticModel.el_jacobian]. unfold det_map, laplace_contract. fold d.
    assert (E : forall I m, (m < d)%nat -> grads (volumetric e vs) p I m = G I p m).
    { intros I' m Hm. unfold grads. cbn [volumetric EllipticModel.el_dim EllipticModel.el_jacobian EllipticModel.el_gradients]. fold d. rewrite (proj2 (Nat.ltb_lt m d) Hm). symmetry.
      apply (solve_gradient d (el_jacobian e vs p) (G I' p) (fun k => nth k (nth I' (el_grads e p) []) 0) Hd (HD p)); [|exact Hm]. intros k Hk. apply HG, Hk. }
    unfold vdot. rewrite (PropCanonical.summ_ext d (fun k => grads (volumetric e vs) p I k * grads (volumetric e vs) p J k) (fun k => G I p k * G J p k)) by (intros k Hk; rewrite !E by exact Hk; reflexivity). ring.
Qed.
Print Assumptions C81_stiffness_matrix.

(** The rule with the midpoints of the edges is exact up to degree two, the midpoint rule up to degree one; with exact Gauss rules they meet the hypotheses. *)
Definition edge_midpoints : rule point := ([2 / 3; 2 / 3; 2 / 3], [pt [0; -1]; pt [0; 0]; pt [-1; 0]]).
Definition example_triangle_rules (k : nat) : option (rule point) := if (k <=? 2)%nat then Some edge_midpoints else None.
Definition unit_triangle : list point := [pt [0; 0]; pt [1; 0]; pt [0; 1]].

Example C81_example : exists root, exact_search root 2 /\ exact_search root 3 /\ tabulated example_triangle_rules (fun _ => None) /\
  In (tri3, Some edge_midpoints) (canonical_mass root example_triangle_rules (fun _ => None)) /\ In (tri3, Some edge_midpoints) (canonical_stiffness root example_triangle_rules (fun _ => None)) /\
  (forall x, det_map tri3 unit_triangle x = 1 / 4) /\
  over_reference tri3 (fun x => nth 0 (el_basis tri3 x) 0 * nth 0 (el_basis tri3 x) 0 * Rabs (det_map tri3 unit_triangle x)) = 1 / 12 /\
  (forall x, physical_gradient tri3 unit_triangle 0 x (fun _ => -1)).
Proof.
  destruct (C80_zeros 2) as (r2 & z2 & Z2). destruct (C80_zeros 3) as (r3 & z3 & Z3).
  set (root := fun n i => if (n =? 2)%nat then r2 n i else r3 n i).
  assert (S2 : exact_search root 2) by (exists z2; exact Z2). assert (S3 : exact_search root 3) by (exists z3; exact Z3).
  assert (T : tabulated example_triangle_rules (fun _ => None)).
  { split; [|discriminate]. intros k r E p D. unfold example_triangle_rules in E. destruct (Nat.leb_spec k 2) as [Le|]; [|discriminate]. injection E as <-.
    assert (D' : forall m, In m p -> total_degree 2 k (snd m)) by (apply List.Forall_forall; exact D).
    rewrite integrate_total, total_peval. change (RInt _ (-1) 1) with (on_triangle (peval p)). rewrite on_triangle_moments by (apply (p_planar p k D)).
    apply fold_ext. intros m Hm. f_equal. specialize (D' m Hm). destruct (snd m) as [[i j] l]. destruct D' as (Td & Z & _). cbn [fst snd] in *. rewrite (Z ltac:(lia)). rewrite corner_moment_value.
    destruct i as [|[|[|i]]]; destruct j as [|[|[|j]]]; try lia; unfold total, zipped, monomial, pt; cbn; field. }
  assert (I : In (tri3, Some edge_midpoints) (canonical_mass root example_triangle_rules (fun _ => None))) by (left; reflexivity).
  assert (Dt : forall x, det_map tri3 unit_triangle x = 1 / 4) by (intros x; unfold det_map, unit_triangle; cbn; unfold isoparametric_jacobian; cbn; field).
  exists root. split; [exact S2|]. split; [exact S3|]. split; [exact T|]. split; [exact I|]. split; [left; reflexivity|]. split; [exact Dt|]. split.
  - rewrite <- (C81_mass root _ _ tri3 edge_midpoints unit_triangle 0 0 S2 S3 T I); [|discriminate|discriminate].
    rewrite (rule_ext _ _ (fun x => / 4 * (nth 0 (el_basis tri3 x) 0 * nth 0 (el_basis tri3 x) 0))) by (intros; rewrite Dt, Rabs_pos_eq by lra; field).
    unfold rule_integrate, edge_midpoints, pt. cbn. field.
  - intros x k Hk. cbn in Hk. destruct k as [|[|k]]; [| |lia]; cbn; unfold isoparametric_jacobian; cbn; field.
Qed.

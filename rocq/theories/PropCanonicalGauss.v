(** C104: the element matrices of quadrilaterals and hexahedra, assembled with the Gauss rules that the search of the code finds, differ from the exact integrals by little. *)
From Coq Require Import Reals Arith Lia Lra List.
From Coquelicot Require Import Coquelicot.
From Verif Require Import MaterialModel EllipticModel PropMaterial PropObjective PropElliptic PropEllipticOps PropMass.
From Verif Require Import ElementModel ElementSpec QuadratureModel CanonicalModel QuadPolyN RuleProofs GaussSharp ElementDegrees TriangleCells CanonicalProofs PropCanonical PropCanonicalMatrices
  TableCheck SizedPoly SizedTensor PropCanonicalTables PropGaussNewton.
Import ListNotations.
Local Open Scope R_scope.

(** ** Specification *)
(** constants for the elements by number of nodes, with the errors of the Gauss rules *)
Definition mass_size (e : element) : R :=
  match length (el_ref e) with 4%nat => 977 | 9%nat => 60025 | 8%nat => 3125 | 20%nat => 300125 | _ => 768320 end.
Definition stiffness_size (e : element) : R :=
  match length (el_ref e) with 4%nat => 245 | 9%nat => 60025 | 8%nat => 782 | 20%nat => 192080 | _ => 768320 end.

(** ** Proofs *)
Section tensor.
Variables (fuel : nat) (triangle tetrahedron : nat -> option (rule point)).
Hypothesis Hfuel : (5 <= fuel)%nat.
Local Notation root := (newton_root fuel).

Definition accurate (e : element) (c : nat) (K : R) (n : nat) (oq : option (rule point)) : Prop :=
  exists q, oq = Some q /\ length (fst q) = length (snd q) /\ (forall x, In x (snd q) -> inside (el_dim e) x) /\
  (forall f g, (forall x, inside (el_dim e) x -> f x = g x) -> over_reference e f = over_reference e g) /\
  forall s f, Se (2 * n - 1) (2 * n - 1) (c * (2 * n - 1)) s f -> Rabs (rule_integrate q f - over_reference e f) <= K / 10 ^ 30 * s.
Lemma coefficients_size p : fold_right Rplus 0 (map (fun m : R * (nat * nat * nat) => Rabs (fst m)) p) = size_of p.
Proof. unfold size_of. induction p as [|m p IH]; cbn [map fold_right]; [reflexivity|]. rewrite IH. reflexivity. Qed.
Lemma accurate_quad e n : (0 < n)%nat -> el_dim e = 2%nat -> el_corners e = 4%nat -> accurate e 0 (25 * (INR n + 1 / 2) ^ 4) n (quadrilateral_gauss root n).
Proof.
  intros Hn D C. destruct (C103_tensor fuel n Hfuel Hn) as (q & _ & E & _ & L1 & L2 & _ & _ & In2 & _ & X & _). exists q. split; [exact E|]. split; [congruence|].
  unfold over_reference. rewrite D, C. split; [|split].
  - intros x Hx k Hk. destruct (In2 x Hx). destruct k as [|[|k]]; [assumption|assumption|lia].
  - exact on_square_inside.
  - intros s f (p & F & Sp & H). rewrite (rule_ext q f (peval p)) by (intros; apply H). change (RInt _ (-1) 1) with (on_square f). rewrite (on_square_inside f (peval p)) by (intros; apply H). unfold on_square.
    eapply Rle_trans; [apply X|].
    + eapply List.Forall_impl; [|exact F]. intros m. unfold within, each_degree. lia.
    + rewrite coefficients_size. apply Rmult_le_compat_l; [|exact Sp]. apply Rmult_le_pos; [|left; apply Rinv_0_lt_compat; lra]. apply Rmult_le_pos; [lra|]. apply pow_le. pose proof (pos_INR n). lra.
Qed.
Lemma accurate_hex e n : (0 < n)%nat -> el_dim e = 3%nat -> el_corners e = 8%nat -> accurate e 1 (80 * (INR n + 1 / 2) ^ 4) n (hexahedron_gauss root n).
Proof.
  intros Hn D C. destruct (C103_tensor fuel n Hfuel Hn) as (_ & q & _ & E & _ & _ & L1 & L2 & _ & In3 & _ & X). exists q. split; [exact E|]. split; [congruence|].
  unfold over_reference. rewrite D, C. split; [|split].
  - intros x Hx k Hk. destruct (In3 x Hx) as (? & ? & ?). destruct k as [|[|[|k]]]; [assumption|assumption|assumption|lia].
  - exact on_cube_inside.
  - intros s f (p & F & Sp & H). rewrite (rule_ext q f (peval p)) by (intros; apply H). change (RInt _ (-1) 1) with (on_cube f). rewrite (on_cube_inside f (peval p)) by (intros; apply H). unfold on_cube.
    eapply Rle_trans; [apply X|].
    + eapply List.Forall_impl; [|exact F]. intros m. unfold within, each_degree. lia.
    + rewrite coefficients_size. apply Rmult_le_compat_l; [|exact Sp]. apply Rmult_le_pos; [|left; apply Rinv_0_lt_compat; lra]. apply Rmult_le_pos; [lra|]. apply pow_le. pose proof (pos_INR n). lra.
Qed.
Definition tensor_elements : list element := [quad4; quad9; hex8; hex20; hex27].
(** third degrees are multiplied by [c], which is zero in the plane *)
Lemma mass_tensor e oq : In (e, oq) (canonical_mass root triangle tetrahedron) -> el_corners e = (2 ^ el_dim e)%nat ->
  In e tensor_elements /\ exists c K n s, (0 < n)%nat /\ (el_dim e = 2 /\ c = 0 \/ el_dim e = 3 /\ c = 1)%nat /\ K * (s * s) <= mass_size e /\ 0 <= K /\ accurate e c K n oq /\
    forall i, Se (n - 1) (n - 1) (c * (n - 1)) s (fun x => nth i (el_basis e x) 0).
Proof.
  intros HIn HC. cbn [canonical_mass In] in HIn. repeat match type of HIn with _ \/ _ => destruct HIn as [HIn|HIn] end; [..|destruct HIn];
    pose proof (f_equal fst HIn) as He; pose proof (f_equal snd HIn) as Hq; cbn [fst snd] in He, Hq; subst e oq; clear HIn; try discriminate HC; (split; [cbn [tensor_elements In]; tauto|]); clear HC.
  - exists 0%nat, (25 * (INR 2 + 1 / 2) ^ 4), 2%nat, 1. split; [lia|]. split; [left; split; reflexivity|]. split; [cbn; lra|]. split; [cbn; lra|]. split; [apply accurate_quad; (reflexivity || lia)|exact quad4_basis_size].
  - exists 0%nat, (25 * (INR 3 + 1 / 2) ^ 4), 3%nat, 4. split; [lia|]. split; [left; split; reflexivity|]. split; [cbn; lra|]. split; [cbn; lra|]. split; [apply accurate_quad; (reflexivity || lia)|exact quad9_basis_size].
  - exists 1%nat, (80 * (INR 2 + 1 / 2) ^ 4), 2%nat, 1. split; [lia|]. split; [right; split; reflexivity|]. split; [cbn; lra|]. split; [cbn; lra|]. split; [apply accurate_hex; (reflexivity || lia)|exact hex8_basis_size].
  - exists 1%nat, (80 * (INR 3 + 1 / 2) ^ 4), 3%nat, 5. split; [lia|]. split; [right; split; reflexivity|]. split; [cbn; lra|]. split; [cbn; lra|]. split; [apply accurate_hex; (reflexivity || lia)|exact hex20_basis_size].
  - exists 1%nat, (80 * (INR 3 + 1 / 2) ^ 4), 3%nat, 8. split; [lia|]. split; [right; split; reflexivity|]. split; [cbn; lra|]. split; [cbn; lra|]. split; [apply accurate_hex; (reflexivity || lia)|exact hex27_basis_size].
Qed.
Lemma stiffness_tensor e oq : In (e, oq) (canonical_stiffness root triangle tetrahedron) -> el_corners e = (2 ^ el_dim e)%nat ->
  In e tensor_elements /\ exists c K n s, (0 < n)%nat /\ (el_dim e = 2 /\ c = 0 \/ el_dim e = 3 /\ c = 1)%nat /\ K * (s * s) <= stiffness_size e /\ 0 <= K /\ accurate e c K n oq /\
    forall i m, Se (n - 1) (n - 1) (c * (n - 1)) s (fun x => nth m (nth i (el_grads e x) []) 0).
Proof.
  intros HIn HC. cbn [canonical_stiffness In] in HIn. repeat match type of HIn with _ \/ _ => destruct HIn as [HIn|HIn] end; [..|destruct HIn];
    pose proof (f_equal fst HIn) as He; pose proof (f_equal snd HIn) as Hq; cbn [fst snd] in He, Hq; subst e oq; clear HIn; try discriminate HC; (split; [cbn [tensor_elements In]; tauto|]); clear HC.
  - exists 0%nat, (25 * (INR 2 + 1 / 2) ^ 4), 2%nat, (1 / 2). split; [lia|]. split; [left; split; reflexivity|]. split; [cbn; lra|]. split; [cbn; lra|]. split; [apply accurate_quad; (reflexivity || lia)|exact quad4_grads_size].
  - exists 0%nat, (25 * (INR 3 + 1 / 2) ^ 4), 3%nat, 4. split; [lia|]. split; [left; split; reflexivity|]. split; [cbn; lra|]. split; [cbn; lra|]. split; [apply accurate_quad; (reflexivity || lia)|exact quad9_grads_size].
  - exists 1%nat, (80 * (INR 2 + 1 / 2) ^ 4), 2%nat, (1 / 2). split; [lia|]. split; [right; split; reflexivity|]. split; [cbn; lra|]. split; [cbn; lra|]. split; [apply accurate_hex; (reflexivity || lia)|exact hex8_grads_size].
  - exists 1%nat, (80 * (INR 3 + 1 / 2) ^ 4), 3%nat, 4. split; [lia|]. split; [right; split; reflexivity|]. split; [cbn; lra|]. split; [cbn; lra|]. split; [apply accurate_hex; (reflexivity || lia)|exact hex20_grads_size].
  - exists 1%nat, (80 * (INR 3 + 1 / 2) ^ 4), 3%nat, 8. split; [lia|]. split; [right; split; reflexivity|]. split; [cbn; lra|]. split; [cbn; lra|]. split; [apply accurate_hex; (reflexivity || lia)|exact hex27_grads_size].
Qed.

(** C104. The canonical mass quadrature of a quadrilateral or hexahedron is found by the search of the code, and every entry of the mass matrix is the exact one up to a small multiple
    of 1e-30, if the determinant does not change sign and is a polynomial of degree one in each variable. *)
Theorem C104_mass e oq vs rho s p sgn : In (e, oq) (canonical_mass root triangle tetrahedron) -> el_corners e = (2 ^ el_dim e)%nat ->
  sgn = 1 \/ sgn = -1 -> (forall x, (forall k, (k < el_dim e)%nat -> -1 < x k < 1) -> 0 <= sgn * det_map e vs x) ->
  List.Forall (fun m : R * (nat * nat * nat) => each_degree (el_dim e) 1 (snd m)) p -> (forall x, det_map e vs x = peval p x) ->
  exists q, oq = Some q /\ let n := length (el_ref e) in
  exists M, element_mass (volumetric e vs) (fst q) (snd q) (repeat rho (length (snd q))) s n (s * n) (s * n) = Done M /\
    forall I J i j, (I < n)%nat -> (J < n)%nat -> (i < s)%nat -> (j < s)%nat ->
      Rabs (M (s * I + i)%nat (s * J + j)%nat - (if (i =? j)%nat then rho * over_reference e (fun x => nth I (el_basis e x) 0 * nth J (el_basis e x) 0 * Rabs (det_map e vs x)) else 0))
      <= (if (i =? j)%nat then Rabs rho * fold_right Rplus 0 (map (fun m => Rabs (fst m)) p) * mass_size e / 10 ^ 30 else 0).
Proof.
  intros HIn HC Hs Sg Dp Hp. destruct (mass_tensor e oq HIn HC) as (He & c & K & n & sz & Hn & Hc & Hsz & HK & (q & Eq & Len & Ins & Ov & X) & B). exists q. split; [exact Eq|]. intros N.
  destruct (proj2 (C77_mass (volumetric e vs) (fst q) (snd q) s (repeat rho (length (snd q))))) as (M & EM & HM); [split; [exact Len|rewrite repeat_length; reflexivity]|].
  exists M. split; [exact EM|]. intros I J i j HI HJ Hi Hj. rewrite (HM I J i j HI HJ Hi Hj). destruct (i =? j)%nat; [|rewrite Rminus_0_r, Rabs_R0; lra].
  set (f := fun x => nth I (el_basis e x) 0 * nth J (el_basis e x) 0 * Rabs (det_map e vs x)). set (g := fun x => nth I (el_basis e x) 0 * nth J (el_basis e x) 0 * (sgn * peval p x)).
  assert (FG : forall x, inside (el_dim e) x -> f x = g x).
  { intros x Hx. specialize (Sg x Hx). unfold f, g. f_equal. rewrite <- Hp, <- (Rabs_pos_eq (sgn * det_map e vs x)) by exact Sg. destruct Hs as [-> | ->]; rewrite Rabs_mult; [rewrite Rabs_R1|rewrite (Rabs_left (-1)) by lra]; ring. }
  rewrite coefficients_size.
  assert (G : Se (2 * n - 1) (2 * n - 1) (c * (2 * n - 1)) (sz * sz * size_of p) g).
  { assert (P : Se 1 1 c (size_of p) (peval p)).
    { exists p. split; [|split; [lra|reflexivity]]. eapply List.Forall_impl; [|exact Dp]. intros m. unfold each_degree, within. destruct Hc as [(E & ->)|(E & ->)]; rewrite E; lia. }
    assert (P' : Se 1 1 c (size_of p) (fun x => sgn * peval p x)).
    { destruct Hs as [-> | ->]; [apply (Se_ext _ _ _ _ (peval p)); [intros; ring|exact P]|apply (Se_ext _ _ _ _ (fun x => - peval p x)); [intros; ring|exact (Se_opp _ _ _ _ _ P)]]. }
    apply (Se_weaken (n - 1 + (n - 1) + 1) (n - 1 + (n - 1) + 1) (c * (n - 1) + c * (n - 1) + c) (sz * sz * size_of p)); [lia|lia|destruct Hc as [(_ & ->)|(_ & ->)]; lia|lra|].
    exact (Se_mul _ _ _ _ _ _ _ _ _ _ (Se_mul _ _ _ _ _ _ _ _ _ _ (B I) (B J)) P'). }
  specialize (X _ g G).
  match goal with |- Rabs (?a - _) <= _ => assert (E : a = rho * rule_integrate q f) end.
  { rewrite <- rule_scale. destruct q as [ws xs]. rewrite <- (qsum_rule ws xs rho). cbn [fst snd]. apply qsum_ext. intros w x r Hin. apply in_combine_r, in_combine_r, repeat_spec in Hin. subst r.
    unfold f, det_map. cbn [volumetric EllipticModel.el_dim EllipticModel.el_jacobian EllipticModel.el_basis]. ring. }
  rewrite E, (rule_ext q f g) by (intros x Hx; apply FG, Ins, Hx). rewrite (Ov f g FG), <- Rmult_minus_distr_l, Rabs_mult. unfold Rdiv in *. rewrite !Rmult_assoc. apply Rmult_le_compat_l; [apply Rabs_pos|]. eapply Rle_trans; [exact X|].
  replace (K * / 10 ^ 30 * (sz * sz * size_of p)) with (size_of p * (K * (sz * sz) * / 10 ^ 30)) by ring. apply Rmult_le_compat_l; [apply size_pos|]. apply Rmult_le_compat_r; [|exact Hsz]. left. apply Rinv_0_lt_compat. lra.
Qed.

(** C104. The same for the stiffness matrix of the Laplace operator, if the Jacobian is constant; [A] is the inverse of the transposed Jacobian. *)
Theorem C104_stiffness e oq vs u G A x0 : In (e, oq) (canonical_stiffness root triangle tetrahedron) -> el_corners e = (2 ^ el_dim e)%nat ->
  let n := length (el_ref e) in let d := el_dim e in length u = n ->
  (forall x y m k, (m < d)%nat -> (k < d)%nat -> el_jacobian e vs x m k = el_jacobian e vs y m k) ->
  det_map e vs x0 <> 0 -> (forall k l, (k < d)%nat -> (l < d)%nat -> summ d (fun m => el_jacobian e vs x0 m k * A m l) = if (k =? l)%nat then 1 else 0) ->
  (forall a x, physical_gradient e vs a x (G a x)) ->
  exists q, oq = Some q /\
  exists K, element_matrix (volumetric e vs) 1 true (fun G (_ : unit) => accumulate_contractions d 1 true (laplace_contract d G)) u (fst q) (snd q) (repeat tt (length (snd q))) n (1 * n) (1 * n) = Done K /\
    forall I J, (I < n)%nat -> (J < n)%nat ->
      Rabs (K I J - over_reference e (fun x => vdot d (G I x) (G J x) * Rabs (det_map e vs x))) <=
      Rabs (det_map e vs x0) * (INR d * summ d (fun m => summ d (fun l => A m l * A m l))) * stiffness_size e / 10 ^ 30.
Proof.
  intros HIn HC n d Hu HJ HD0 HA HG. destruct (stiffness_tensor e oq HIn HC) as (He & c & C & k & sz & Hk & Hc & Hsz & HK0 & (q & Eq & Len & _ & _ & X) & B). exists q. split; [exact Eq|].
  assert (Hd : (d = 2 \/ d = 3)%nat) by (unfold d; lia).
  assert (Dc : forall x, det_map e vs x = det_map e vs x0).
  { intros x. unfold det_map. fold d. destruct Hd as [E|E]; rewrite E in *; cbn [determinant]; repeat (f_equal; try (apply HJ; lia)). }
  assert (HD : forall x, det_map e vs x <> 0) by (intros x; rewrite (Dc x); exact HD0).
  destruct (matrix_value (volumetric e vs) 1 true (fun G (_ : unit) => laplace_contract d G) (fun G (_ : unit) => accumulate_contractions d 1 true (laplace_contract d G)) u (fst q) (snd q) (repeat tt (length (snd q)))) as (K & EK & HK).
  - right. exact Hd.
  - split; [exact Len|rewrite repeat_length; reflexivity].
  - rewrite Nat.mul_1_l. exact Hu.
  - intros w p x _. apply HD.
  - intros. apply default_accumulates. destruct Hd; cbn; fold d; lia.
  - intros _ w p x _ a b i j _ _. unfold laplace_contract. apply vdot_comm.
  - exists K. split; [exact EK|]. intros I J HI HJ'. pose proof (HK I J 0%nat 0%nat HI HJ' ltac:(lia) ltac:(lia)) as XK. rewrite !Nat.mul_1_l, !Nat.add_0_r in XK. rewrite XK. clear XK.
    set (f := fun x => vdot d (G I x) (G J x) * Rabs (det_map e vs x)).
    assert (EG : forall I x m, (m < d)%nat -> G I x m = summ d (fun l => A m l * nth l (nth I (el_grads e x) []) 0)).
    { intros I' x m Hm. apply (inverse_gradient d (el_jacobian e vs x0) A (G I' x) (fun l => nth l (nth I' (el_grads e x) []) 0) Hd HD0 HA); [|exact Hm].
      intros l Hl. rewrite <- (HG I' x l Hl). apply PropCanonical.summ_ext. intros m' Hm'. rewrite (HJ x x0 m' l Hm' Hl). reflexivity. }
    set (S1 := fun m => summ d (fun l => Rabs (A m l)) * sz).
    assert (F : Se (2 * k - 1) (2 * k - 1) (c * (2 * k - 1)) (Rabs (det_map e vs x0) * summ d (fun m => S1 m * S1 m)) f).
    { apply (Se_ext _ _ _ _ (fun x => Rabs (det_map e vs x0) * summ d (fun m => summ d (fun l => A m l * nth l (nth I (el_grads e x) []) 0) * summ d (fun l => A m l * nth l (nth J (el_grads e x) []) 0)))).
      { intros x. unfold f. rewrite (Dc x), Rmult_comm. f_equal. unfold vdot. apply PropCanonical.summ_ext. intros m Hm. rewrite (EG I x m Hm), (EG J x m Hm). reflexivity. }
      apply (Se_weaken (k - 1 + (k - 1)) (k - 1 + (k - 1)) (c * (k - 1) + c * (k - 1)) (Rabs (Rabs (det_map e vs x0)) * summ d (fun m => S1 m * S1 m))); [lia|lia|destruct Hc as [(_ & ->)|(_ & ->)]; lia|rewrite Rabs_Rabsolu; lra|]. apply Se_scale.
      apply (Se_summ _ _ _ d (fun m => S1 m * S1 m) (fun m x => summ d (fun l => A m l * nth l (nth I (el_grads e x) []) 0) * summ d (fun l => A m l * nth l (nth J (el_grads e x) []) 0))).
      intros m Hm. assert (Q : forall I, Se (k - 1) (k - 1) (c * (k - 1)) (S1 m) (fun x => summ d (fun l => A m l * nth l (nth I (el_grads e x) []) 0))).
      { intros I'. apply (Se_weaken (k - 1) (k - 1) (c * (k - 1)) (summ d (fun l => Rabs (A m l) * sz))); [lia|lia|lia|unfold S1; rewrite summ_factor; lra|].
        apply (Se_summ _ _ _ d (fun l => Rabs (A m l) * sz) (fun l x => A m l * nth l (nth I' (el_grads e x) []) 0)). intros l _. apply Se_scale, B. }
      exact (Se_mul _ _ _ _ _ _ _ _ _ _ (Q I) (Q J)). }
    specialize (X _ f F). match goal with |- Rabs (?a - _) <= _ => assert (E : a = rule_integrate q f) end.
    { destruct q as [ws xs]. rewrite <- (qsum_rule ws xs tt). cbn [fst snd].
      apply qsum_ext. intros w p r _. cbn [volumetric EllipticModel.el_dim EllipticModel.el_jacobian]. unfold f, det_map, laplace_contract. fold d.
      assert (E : forall I m, (m < d)%nat -> grads (volumetric e vs) p I m = G I p m).
      { intros I' m Hm. unfold grads. cbn [volumetric EllipticModel.el_dim EllipticModel.el_jacobian EllipticModel.el_gradients]. fold d. rewrite (proj2 (Nat.ltb_lt m d) Hm). symmetry.
        apply (solve_gradient d (el_jacobian e vs p) (G I' p) (fun k => nth k (nth I' (el_grads e p) []) 0) Hd (HD p)); [|exact Hm]. intros l Hl. apply HG, Hl. }
      unfold vdot. rewrite (PropCanonical.summ_ext d (fun k => grads (volumetric e vs) p I k * grads (volumetric e vs) p J k) (fun k => G I p k * G J p k)) by (intros l Hl; rewrite !E by exact Hl; reflexivity). ring. }
    rewrite E. eapply Rle_trans; [exact X|].
    assert (E1 : summ d (fun m => S1 m * S1 m) = summ d (fun m => summ d (fun l => Rabs (A m l)) * summ d (fun l => Rabs (A m l))) * (sz * sz)).
    { rewrite <- summ_factor. apply PropCanonical.summ_ext. intros m _. unfold S1. ring. }
    rewrite E1. set (S2 := summ d (fun m => summ d (fun l => Rabs (A m l)) * summ d (fun l => Rabs (A m l)))).
    replace (C / 10 ^ 30 * (Rabs (det_map e vs x0) * (S2 * (sz * sz)))) with (Rabs (det_map e vs x0) * (S2 * (C * (sz * sz))) / 10 ^ 30) by (unfold Rdiv; ring).
    unfold Rdiv. apply Rmult_le_compat_r; [left; apply Rinv_0_lt_compat; lra|]. rewrite (Rmult_assoc (Rabs _)). apply Rmult_le_compat_l; [apply Rabs_pos|].
    apply Rmult_le_compat; [|nra|apply square_sum, Hd|exact Hsz]. apply summ_nonneg. intros m. apply Rle_0_sqr.
Qed.
End tensor.
Print Assumptions C104_mass.
Print Assumptions C104_stiffness.

(** ** every quadrilateral has such a determinant *)
Definition quad_det (e : element) (vs : list point) : poly :=
  let D x := det_map e vs (pt x) in [(D [0; 0], (0, 0, 0)%nat); (D [1; 0] - D [0; 0], (1, 0, 0)%nat); (D [0; 1] - D [0; 0], (0, 1, 0)%nat)].
Lemma quad4_det_value vs x : det_map quad4 vs x = peval (quad_det quad4 vs) x.
Proof.
  unfold quad_det, peval, monomial, det_map, pt. cbn [el_dim el_jacobian quad4 determinant fold_right fst snd]. unfold isoparametric_jacobian.
  do 4 (destruct vs as [|? vs]; [cbn [combine quad4_grads quad4_phi_grad map nth]; unfold ElementModel.sum; cbn; field|]). cbn [combine quad4_grads quad4_phi_grad map nth]; unfold ElementModel.sum; cbn; field.
Qed.
Lemma quad_det_value e vs x : In e [quad4; quad9] -> det_map e vs x = peval (quad_det e vs) x.
Proof. cbn [In]. intros [<-|[<-|[]]]; [apply quad4_det_value|]. exact (quad4_det_value (firstn 4 vs) x). Qed.
(** an affine function that is not negative on the open square *)
Lemma affine_square a b d : (forall x y, -1 < x < 1 -> -1 < y < 1 -> 0 <= d + (a * x + b * y)) -> Rabs a + Rabs b <= d.
Proof.
  intros H. apply Rnot_lt_le. intros L. assert (D : 0 <= d) by (pose proof (H 0 0 ltac:(lra) ltac:(lra)); lra). set (S := Rabs a + Rabs b) in *. assert (Sp : 0 < S) by lra.
  set (t := (d / S + 1) / 2). assert (Q : 0 <= d / S < 1).
  { split; [apply Rmult_le_pos; [exact D|left; apply Rinv_0_lt_compat, Sp]|]. apply (Rmult_lt_reg_r S); [exact Sp|]. unfold Rdiv. rewrite Rmult_assoc, Rinv_l by lra. lra. }
  assert (T : 0 < t < 1) by (unfold t; lra). assert (E : t * S = (d + S) / 2) by (unfold t; field; lra).
  assert (Sg : forall r, exists s, -1 < s < 1 /\ r * s = - (t * Rabs r)).
  { intros r. destruct (Rle_dec 0 r); [exists (- t); rewrite Rabs_pos_eq by assumption; split; [lra|ring]|exists t; rewrite Rabs_left by lra; split; [lra|ring]]. }
  destruct (Sg a) as (x & Hx & Ex). destruct (Sg b) as (y & Hy & Ey). specialize (H x y Hx Hy). rewrite Ex, Ey in H. assert (t * S = t * Rabs a + t * Rabs b) by (unfold S; ring). lra.
Qed.
(** C104. The mass matrix of every quadrilateral whose map keeps the orientation: errors relative to the area, which is four times the determinant in the middle. *)
Theorem C104_quadrilateral fuel triangle tetrahedron e oq vs rho s sgn : (5 <= fuel)%nat -> In (e, oq) (canonical_mass (newton_root fuel) triangle tetrahedron) -> el_dim e = 2%nat -> el_corners e = 4%nat ->
  sgn = 1 \/ sgn = -1 -> (forall x, -1 < x 0%nat < 1 -> -1 < x 1%nat < 1 -> 0 <= sgn * det_map e vs x) ->
  exists q, oq = Some q /\ let n := length (el_ref e) in
  exists M, element_mass (volumetric e vs) (fst q) (snd q) (repeat rho (length (snd q))) s n (s * n) (s * n) = Done M /\
    forall I J i j, (I < n)%nat -> (J < n)%nat -> (i < s)%nat -> (j < s)%nat ->
      Rabs (M (s * I + i)%nat (s * J + j)%nat - (if (i =? j)%nat then rho * over_reference e (fun x => nth I (el_basis e x) 0 * nth J (el_basis e x) 0 * Rabs (det_map e vs x)) else 0))
      <= (if (i =? j)%nat then Rabs rho * (2 * Rabs (det_map e vs (pt [0; 0]))) * mass_size e / 10 ^ 30 else 0).
Proof.
  intros Hf HIn D C Hs Sg.
  assert (He : In e [quad4; quad9]).
  { cbn [canonical_mass In] in HIn. repeat match type of HIn with _ \/ _ => destruct HIn as [HIn|HIn] end; [..|destruct HIn]; apply (f_equal fst) in HIn; cbn [fst] in HIn; subst e; try discriminate D; try discriminate C; cbn [In]; tauto. }
  destruct (C104_mass fuel triangle tetrahedron Hf e oq vs rho s (quad_det e vs) sgn HIn) as (q & Eq & M & EM & HM).
  - rewrite D, C. reflexivity.
  - exact Hs.
  - intros x Hx. rewrite D in Hx. apply Sg; apply Hx; lia.
  - rewrite D. unfold quad_det. repeat constructor; unfold each_degree; cbn; lia.
  - intros x. apply quad_det_value, He.
  - exists q. split; [exact Eq|]. exists M. split; [exact EM|]. intros I J i j HI HJ Hi Hj. eapply Rle_trans; [exact (HM I J i j HI HJ Hi Hj)|]. destruct (i =? j)%nat; [|lra].
    unfold Rdiv. rewrite !Rmult_assoc. apply Rmult_le_compat_l; [apply Rabs_pos|]. rewrite <- (Rmult_assoc 2). apply Rmult_le_compat_r.
    { apply Rmult_le_pos; [|left; apply Rinv_0_lt_compat; lra]. unfold mass_size. repeat (match goal with |- 0 <= match ?k with _ => _ end => destruct k end; try lra). }
    unfold quad_det. cbn [map fst fold_right]. set (d := det_map e vs (pt [0; 0])). set (a := det_map e vs (pt [1; 0]) - d). set (b := det_map e vs (pt [0; 1]) - d).
    assert (A : Rabs (sgn * a) + Rabs (sgn * b) <= sgn * d).
    { apply affine_square. intros x y Hx Hy. specialize (Sg (pt [x; y]) Hx Hy). rewrite (quad_det_value e vs _ He) in Sg.
      assert (E : peval (quad_det e vs) (pt [x; y]) = d + (a * x + b * y)).
      { unfold quad_det, peval, monomial. cbn [fold_right fst snd pow]. change (pt [x; y] 0%nat) with x. change (pt [x; y] 1%nat) with y. fold d. fold a b. ring. }
      rewrite E in Sg. lra. }
    assert (N : forall r, Rabs (sgn * r) = Rabs r) by (intros r; rewrite Rabs_mult; destruct Hs as [-> | ->]; [rewrite Rabs_R1|rewrite (Rabs_left (-1)) by lra]; ring).
    rewrite !N in A. pose proof (Rle_abs (sgn * d)) as U. rewrite N in U. lra.
Qed.
Print Assumptions C104_quadrilateral.

(** a trapezoid and the function of its corner with the right angle: the mass is 7/9 up to 1e-26; the square of side four with the stiffness *)
Definition trapezoid : list point := [pt [0; 0]; pt [4; 0]; pt [2; 2]; pt [0; 2]].
Definition big_square : list point := [pt [0; 0]; pt [4; 0]; pt [4; 4]; pt [0; 4]].
Example C104_example fuel triangle tetrahedron : (5 <= fuel)%nat ->
  In (quad4, quadrilateral_gauss (newton_root fuel) 2) (canonical_mass (newton_root fuel) triangle tetrahedron) /\
  In (quad4, quadrilateral_gauss (newton_root fuel) 2) (canonical_stiffness (newton_root fuel) triangle tetrahedron) /\
  (forall x, -1 < x 0%nat < 1 -> -1 < x 1%nat < 1 -> 0 <= 1 * det_map quad4 trapezoid x) /\
  (forall x y m k, (m < 2)%nat -> (k < 2)%nat -> el_jacobian quad4 big_square x m k = el_jacobian quad4 big_square y m k) /\
  (forall k l, (k < 2)%nat -> (l < 2)%nat -> summ 2 (fun m => el_jacobian quad4 big_square (pt []) m k * (fun m l => if (m =? l)%nat then 1 / 2 else 0) m l) = if (k =? l)%nat then 1 else 0) /\
  (forall a x, physical_gradient quad4 big_square a x (fun m => 1 / 2 * nth m (nth a (el_grads quad4 x) []) 0)) /\
  exists q M, quadrilateral_gauss (newton_root fuel) 2 = Some q /\
    element_mass (volumetric quad4 trapezoid) (fst q) (snd q) (repeat 1 (length (snd q))) 1 4 (1 * 4) (1 * 4) = Done M /\ Rabs (M 0%nat 0%nat - 7 / 9) <= 1 / 10 ^ 26.
Proof.
  intros Hf. assert (I1 : In (quad4, quadrilateral_gauss (newton_root fuel) 2) (canonical_mass (newton_root fuel) triangle tetrahedron)) by (right; right; left; reflexivity).
  assert (Dt : forall x, det_map quad4 trapezoid x = (3 - x 1%nat) / 2).
  { intros x. unfold det_map, trapezoid. cbn [el_dim el_jacobian quad4 determinant]. unfold isoparametric_jacobian, pt. cbn. field. }
  assert (Sg : forall x, -1 < x 0%nat < 1 -> -1 < x 1%nat < 1 -> 0 <= 1 * det_map quad4 trapezoid x) by (intros x H0 H1; rewrite Dt; lra).
  split; [exact I1|]. split; [right; right; left; reflexivity|]. split; [exact Sg|]. split; [|split; [|split]].
  - intros x y m k Hm Hk. destruct m as [|[|m]]; [| |lia]; (destruct k as [|[|k]]; [| |lia]); unfold big_square, pt; cbn; unfold isoparametric_jacobian; cbn; field.
  - intros k l Hk Hl. destruct k as [|[|k]]; [| |lia]; (destruct l as [|[|l]]; [| |lia]); unfold big_square, pt; cbn; unfold isoparametric_jacobian; cbn; field.
  - intros a x k Hk. cbn in Hk. destruct k as [|[|k]]; [| |lia]; do 4 (destruct a as [|a]; [unfold big_square, pt; cbn; unfold isoparametric_jacobian; cbn; field|]); destruct a; unfold big_square, pt; cbn; unfold isoparametric_jacobian; cbn; field.
  - destruct (C104_quadrilateral fuel triangle tetrahedron quad4 _ trapezoid 1 1 1 Hf I1 eq_refl eq_refl (or_introl eq_refl) Sg) as (q & Eq & M & EM & HM).
    exists q, M. split; [exact Eq|]. split; [exact EM|]. specialize (HM 0%nat 0%nat 0%nat 0%nat ltac:(cbn; lia) ltac:(cbn; lia) ltac:(lia) ltac:(lia)). cbn [Nat.mul Nat.add Nat.eqb] in HM. rewrite Rabs_R1, Dt, Rmult_1_l in HM.
    unfold mass_size in HM. cbn [length el_ref quad4 quad4_ref] in HM. replace (pt [0; 0] 1%nat) with 0 in HM by reflexivity. rewrite (Rabs_pos_eq ((3 - 0) / 2)) in HM by lra.
    match type of HM with Rabs (_ - ?o) <= _ => assert (E : o = 7 / 9) end; [|rewrite E in HM; lra].
    unfold over_reference. cbn [el_dim el_corners quad4].
    transitivity (RInt (fun x => 7 / 24 * (1 - x) ^ 2) (-1) 1).
    + apply RInt_ext. intros x _. transitivity (RInt (fun y => (1 - x) ^ 2 / 32 * ((1 - y) ^ 2 * (3 - y))) (-1) 1).
      * apply RInt_ext. intros y Hy. rewrite Rmin_left, Rmax_right in Hy by lra. rewrite Dt. change (pt [x; y] 1%nat) with y. rewrite Rabs_pos_eq by lra. cbn [el_basis quad4 quad4_basis nth]. unfold quad4_phi. change (pt [x; y] 0%nat) with x. change (pt [x; y] 1%nat) with y. idtac. match goal with |- ?a = ?b => change (@eq R a b) end. field.
      * apply is_RInt_unique. set (F := fun y : R => (1 - x) ^ 2 / 32 * (- (2 / 3) * (1 - y) ^ 3 - (1 - y) ^ 4 / 4)).
        replace (7 / 24 * (1 - x) ^ 2) with (minus (F 1) (F (-1))) by (unfold F, minus, plus, opp; cbn; field).
        apply (is_RInt_derive F); intros y _; [unfold F; auto_derive; [exact I|field]|]. apply (ex_derive_continuous (fun y : R => (1 - x) ^ 2 / 32 * ((1 - y) ^ 2 * (3 - y)))). auto_derive. exact I.
    + apply is_RInt_unique. replace (7 / 9) with (minus (- (7 / 72) * (1 - 1) ^ 3) (- (7 / 72) * (1 - -1) ^ 3)) by (unfold minus, plus, opp; cbn; field).
      apply (is_RInt_derive (fun x => - (7 / 72) * (1 - x) ^ 3)); intros x _; [auto_derive; [exact I|field]|]. apply (ex_derive_continuous (fun x : R => 7 / 24 * (1 - x) ^ 2)). auto_derive. exact I.
Qed.

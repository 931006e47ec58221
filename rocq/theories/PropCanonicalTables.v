(** C102: the element matrices of triangles and tetrahedra, assembled with the tables that are shipped, differ from the exact integrals by little. *)
From Coq Require Import Reals QArith Qreals ZArith NArith Arith Lia Lra Bool String List Permutation.
From Flocq Require Import Core.
From Coquelicot Require Import Coquelicot.
From Verif Require Import MaterialModel EllipticModel PropMaterial PropObjective PropElliptic PropEllipticOps PropMass.
From Verif Require Import ElementModel ElementSpec QuadratureModel CanonicalModel QuadPolyN RuleProofs GaussSharp ElementDegrees TriangleCells CanonicalProofs PropCanonical PropCanonicalMatrices
  TableMoments TableCheck PolyquadModel PolyquadData PropPolyquadText PropPolyquadSelect PropPolyquadDecimal PropPolyquadTables SizedPoly.
Import ListNotations.
Local Open Scope list_scope.
Local Open Scope R_scope.

(** ** Specification *)
(** a directory with the rule files of low strength (all in [files]) and perhaps others of higher strength *)
Definition shipped (d : domain) (dir : list entry) : Prop :=
  exists rest, Permutation dir (files d ++ rest) /\ well_formed (parser d) dir /\ forall e s n, In e rest -> is_rule_file e s n -> (limit d < s)%N.
(** the rule that polyquad.rs:27-95 returns; [None] is an error value, or a panic of the build script *)
Definition table_rule (d : domain) (dir : list entry) (k : nat) : option (rule point) :=
  match select_minimum (parser d) dir (N.of_nat k) with Some (Some t) => Some (real_rule t) | _ => None end.
(** constants for the elements by number of nodes *)
Definition mass_constant (e : element) : R :=
  match length (el_ref e) with 3%nat => 1 | 6%nat => 16 | 4%nat => 4 | 10%nat => 100 | _ => 3969 end.
Definition stiffness_constant (e : element) : R :=
  match length (el_ref e) with 3%nat => 1 / 4 | 6%nat => 16 | 4%nat => 1 / 4 | 10%nat => 36 | _ => 4624 end.

(** ** Proofs *)
Lemma table_rule_some d dir k : d = Tri \/ d = Tet -> shipped d dir -> (N.of_nat k <= limit d)%N -> exists q, table_rule d dir k = Some q /\ length (fst q) = length (snd q) /\
  forall s f, Sz (dimension d) k s f -> Rabs (rule_integrate q f - over d f) <= s / 10 ^ 15.
Proof.
  intros Hd (rest & P & W & B) K. destruct (C84_tables d dir rest (N.of_nat k) P W B K) as (t & E & L & Wp & _ & X). exists (real_rule t). unfold table_rule. rewrite E. split; [reflexivity|].
  split; [unfold real_rule; cbn [fst snd]; rewrite !map_length; exact L|]. intros s f (p & D & Sp & H). rewrite Nat2N.id in X. specialize (X p D). fold (size_of p) in X.
  rewrite (rule_ext (real_rule t) f (peval p)) by (intros; apply H).
  assert (E' : over d f = over d (peval p)) by (destruct Hd as [-> | ->]; cbn [over]; [apply on_triangle_ext, H|apply on_tetrahedron_ext, H]).
  rewrite E'. eapply Rle_trans; [exact X|]. unfold Rdiv. rewrite (Rmult_comm s). apply Rmult_le_compat_l; [|exact Sp]. left. apply Rinv_0_lt_compat. lra.
Qed.

(** a function whose integral the rule must approximate, for a simplex *)
Section simplex.
Variables (root : nat -> nat -> option R) (tri tet : list entry).
Hypotheses (Htri : shipped Tri tri) (Htet : shipped Tet tet).
Definition good (e : element) (k : nat) (oq : option (rule point)) : Prop :=
  exists q, oq = Some q /\ length (fst q) = length (snd q) /\ forall s f, Sz (el_dim e) k s f -> Rabs (rule_integrate q f - over_reference e f) <= s / 10 ^ 15.
Lemma good_tri e k : (el_dim e = 2 -> el_corners e = 3 -> k <= 10 -> good e k (table_rule Tri tri k))%nat.
Proof.
  intros D C L. destruct (table_rule_some Tri tri k (or_introl eq_refl) Htri ltac:(cbn; lia)) as (q & E & Lq & X). exists q. split; [exact E|]. split; [exact Lq|].
  intros s f F. rewrite D in F. unfold over_reference. rewrite D, C. exact (X s f F).
Qed.
Lemma good_tet e k : (el_dim e = 3 -> el_corners e = 4 -> k <= 8 -> good e k (table_rule Tet tet k))%nat.
Proof.
  intros D C L. destruct (table_rule_some Tet tet k (or_intror eq_refl) Htet ltac:(cbn; lia)) as (q & E & Lq & X). exists q. split; [exact E|]. split; [exact Lq|].
  intros s f F. rewrite D in F. unfold over_reference. rewrite D, C. exact (X s f F).
Qed.
Lemma det_simplex e vs x y : In e [tri3; tri6; tet4; tet10; tet20] -> det_map e vs x = det_map e vs y.
Proof. cbn [In]. intros [<-|[<-|[<-|[<-|[<-|[]]]]]]; reflexivity. Qed.

Lemma mass_cases e oq : In (e, oq) (canonical_mass root (table_rule Tri tri) (table_rule Tet tet)) -> el_corners e = S (el_dim e) ->
  In e [tri3; tri6; tet4; tet10; tet20] /\ exists k s, s * s <= mass_constant e /\ good e (k + k) oq /\ forall i, Sz (el_dim e) k s (fun x => nth i (el_basis e x) 0).
Proof.
  intros HIn HC. cbn [canonical_mass In] in HIn. repeat match type of HIn with _ \/ _ => destruct HIn as [HIn|HIn] end; [..|destruct HIn];
    pose proof (f_equal fst HIn) as He; pose proof (f_equal snd HIn) as Hq; cbn [fst snd] in He, Hq; subst e oq; clear HIn; try discriminate HC; (split; [cbn [In]; tauto|]); clear HC.
  - exists 1%nat, 1. split; [cbn; lra|]. split; [apply (good_tri tri3 2); (reflexivity || lia)|exact tri3_basis_size].
  - exists 2%nat, 4. split; [cbn; lra|]. split; [apply (good_tri tri6 4); (reflexivity || lia)|exact tri6_basis_size].
  - exists 1%nat, 2. split; [cbn; lra|]. split; [apply (good_tet tet4 2); (reflexivity || lia)|exact tet4_basis_size].
  - exists 2%nat, 10. split; [cbn; lra|]. split; [apply (good_tet tet10 4); (reflexivity || lia)|exact tet10_basis_size].
  - exists 3%nat, 63. split; [cbn; lra|]. split; [apply (good_tet tet20 6); (reflexivity || lia)|exact tet20_basis_size].
Qed.
Lemma stiffness_cases e oq : In (e, oq) (canonical_stiffness root (table_rule Tri tri) (table_rule Tet tet)) -> el_corners e = S (el_dim e) ->
  In e [tri3; tri6; tet4; tet10; tet20] /\ exists k k' s, (k + k <= k')%nat /\ s * s <= stiffness_constant e /\ good e k' oq /\ forall i m, Sz (el_dim e) k s (fun x => nth m (nth i (el_grads e x) []) 0).
Proof.
  intros HIn HC. cbn [canonical_stiffness In] in HIn. repeat match type of HIn with _ \/ _ => destruct HIn as [HIn|HIn] end; [..|destruct HIn];
    pose proof (f_equal fst HIn) as He; pose proof (f_equal snd HIn) as Hq; cbn [fst snd] in He, Hq; subst e oq; clear HIn; try discriminate HC; (split; [cbn [In]; tauto|]); clear HC.
  - exists 0%nat, 1%nat, (1 / 2). split; [lia|]. split; [cbn; lra|]. split; [apply (good_tri tri3 1); (reflexivity || lia)|exact tri3_grads_size].
  - exists 1%nat, 2%nat, 4. split; [lia|]. split; [cbn; lra|]. split; [apply (good_tri tri6 2); (reflexivity || lia)|exact tri6_grads_size].
  - exists 0%nat, 1%nat, (1 / 2). split; [lia|]. split; [cbn; lra|]. split; [apply (good_tet tet4 1); (reflexivity || lia)|exact tet4_grads_size].
  - exists 1%nat, 2%nat, 6. split; [lia|]. split; [cbn; lra|]. split; [apply (good_tet tet10 2); (reflexivity || lia)|exact tet10_grads_size].
  - exists 2%nat, 4%nat, 68. split; [lia|]. split; [cbn; lra|]. split; [apply (good_tet tet20 4); (reflexivity || lia)|exact tet20_grads_size].
Qed.

(** C102. The canonical mass quadrature of a simplex is found in the tables, and every entry of the mass matrix is the exact one up to rounding of the table. *)
Theorem C102_mass e oq vs rho s x0 : In (e, oq) (canonical_mass root (table_rule Tri tri) (table_rule Tet tet)) -> el_corners e = S (el_dim e) ->
  exists q, oq = Some q /\ let n := length (el_ref e) in
  exists M, element_mass (volumetric e vs) (fst q) (snd q) (repeat rho (length (snd q))) s n (s * n) (s * n) = Done M /\
    forall I J i j, (I < n)%nat -> (J < n)%nat -> (i < s)%nat -> (j < s)%nat ->
      Rabs (M (s * I + i)%nat (s * J + j)%nat - (if (i =? j)%nat then rho * over_reference e (fun x => nth I (el_basis e x) 0 * nth J (el_basis e x) 0 * Rabs (det_map e vs x)) else 0))
      <= (if (i =? j)%nat then Rabs rho * Rabs (det_map e vs x0) * mass_constant e / 10 ^ 15 else 0).
Proof.
  intros HIn HC. destruct (mass_cases e oq HIn HC) as (He & k & sz & Hsz & (q & Eq & Len & X) & B). exists q. split; [exact Eq|]. intros n.
  destruct (proj2 (C77_mass (volumetric e vs) (fst q) (snd q) s (repeat rho (length (snd q))))) as (M & EM & HM); [split; [exact Len|rewrite repeat_length; reflexivity]|].
  exists M. split; [exact EM|]. intros I J i j HI HJ Hi Hj. rewrite (HM I J i j HI HJ Hi Hj). destruct (i =? j)%nat; [|rewrite Rminus_0_r, Rabs_R0; lra].
  set (f := fun x => nth I (el_basis e x) 0 * nth J (el_basis e x) 0 * Rabs (det_map e vs x)).
  assert (F : Sz (el_dim e) (k + k) (Rabs (det_map e vs x0) * (sz * sz)) f).
  { apply (Sz_ext _ _ _ (fun x => Rabs (det_map e vs x0) * (nth I (el_basis e x) 0 * nth J (el_basis e x) 0))); [intros x; unfold f; rewrite (det_simplex e vs x x0 He); ring|].
    apply (Sz_weaken _ (k + k) (Rabs (Rabs (det_map e vs x0)) * (sz * sz))); [lia|rewrite Rabs_Rabsolu; lra|]. apply Sz_scale. exact (Sz_mul _ _ _ _ _ _ _ (B I) (B J)). }
  specialize (X _ f F).
  match goal with |- Rabs (?a - _) <= _ => assert (E : a = rho * rule_integrate q f) end.
  { rewrite <- rule_scale. destruct q as [ws xs]. rewrite <- (qsum_rule ws xs rho). cbn [fst snd]. apply qsum_ext. intros w p r Hin. apply in_combine_r, in_combine_r, repeat_spec in Hin. subst r.
    unfold f, det_map. cbn [volumetric EllipticModel.el_dim EllipticModel.el_jacobian EllipticModel.el_basis]. ring. }
  rewrite E, <- Rmult_minus_distr_l, Rabs_mult. unfold Rdiv in *. rewrite !Rmult_assoc. apply Rmult_le_compat_l; [apply Rabs_pos|]. eapply Rle_trans; [exact X|]. rewrite Rmult_assoc. apply Rmult_le_compat_l; [apply Rabs_pos|].
  apply Rmult_le_compat_r; [|exact Hsz]. left. apply Rinv_0_lt_compat. lra.
Qed.

(** the gradients in physical space are the inverse transposed Jacobian times those of the reference element *)
Lemma inverse_gradient d (J A : nat -> nat -> R) (g h : nat -> R) : (d = 2 \/ d = 3)%nat -> determinant d J <> 0 ->
  (forall k l, (k < d)%nat -> (l < d)%nat -> summ d (fun m => J m k * A m l) = if (k =? l)%nat then 1 else 0) ->
  (forall k, (k < d)%nat -> summ d (fun m => J m k * g m) = h k) -> forall m, (m < d)%nat -> g m = summ d (fun l => A m l * h l).
Proof.
  intros Hd D HA Hg m Hm. set (a := fun m => summ d (fun l => A m l * h l)). change (g m = a m).
  assert (Ha : forall k, (k < d)%nat -> summ d (fun m => J m k * a m) = h k).
  { intros k Hk. transitivity (summ d (fun l => summ d (fun m => J m k * A m l) * h l)).
    - unfold a. destruct Hd as [-> | ->]; cbn [summ]; ring.
    - rewrite (PropCanonical.summ_ext d _ (fun l => (if (k =? l)%nat then 1 else 0) * h l)) by (intros l Hl; rewrite (HA k l Hk Hl); reflexivity).
      destruct Hd as [-> | ->]; (destruct k as [|[|[|k]]]; [..|lia]); cbn [summ Nat.eqb]; try lia; ring. }
  rewrite (solve_gradient d J g h Hd D Hg m Hm), (solve_gradient d J a h Hd D Ha m Hm). reflexivity.
Qed.
Lemma square_sum d (A : nat -> nat -> R) : (d = 2 \/ d = 3)%nat -> summ d (fun m => summ d (fun l => Rabs (A m l)) * summ d (fun l => Rabs (A m l))) <= INR d * summ d (fun m => summ d (fun l => A m l * A m l)).
Proof.
  intros Hd.
  assert (S2 : forall a b, (Rabs a + Rabs b) * (Rabs a + Rabs b) <= 2 * (a * a + b * b)).
  { intros a b. pose proof (Rsqr_abs a) as A1. pose proof (Rsqr_abs b) as A2. pose proof (Rle_0_sqr (Rabs a - Rabs b)) as Q. unfold Rsqr in *. lra. }
  assert (S3 : forall a b c, (Rabs a + Rabs b + Rabs c) * (Rabs a + Rabs b + Rabs c) <= 3 * (a * a + b * b + c * c)).
  { intros a b c. pose proof (Rsqr_abs a) as A1. pose proof (Rsqr_abs b) as A2. pose proof (Rsqr_abs c) as A3.
    pose proof (Rle_0_sqr (Rabs a - Rabs b)) as Q. pose proof (Rle_0_sqr (Rabs a - Rabs c)) as Q'. pose proof (Rle_0_sqr (Rabs b - Rabs c)) as Q''. unfold Rsqr in *. lra. }
  destruct Hd as [-> | ->]; cbn [summ INR]; rewrite !Rplus_0_l.
  - pose proof (S2 (A 0%nat 0%nat) (A 0%nat 1%nat)). pose proof (S2 (A 1%nat 0%nat) (A 1%nat 1%nat)). lra.
  - pose proof (S3 (A 0%nat 0%nat) (A 0%nat 1%nat) (A 0%nat 2%nat)). pose proof (S3 (A 1%nat 0%nat) (A 1%nat 1%nat) (A 1%nat 2%nat)). pose proof (S3 (A 2%nat 0%nat) (A 2%nat 1%nat) (A 2%nat 2%nat)). lra.
Qed.
Lemma summ_factor n c f : summ n (fun k => f k * c) = summ n f * c.
Proof. induction n as [|n IH]; cbn [summ]; [ring|]. rewrite IH. ring. Qed.
Lemma summ_nonneg n f : (forall k, 0 <= f k) -> 0 <= summ n f.
Proof. intros H. induction n as [|n IH]; cbn [summ]; [lra|]. specialize (H n). lra. Qed.
Lemma jacobian_simplex e vs x y m k : In e [tri3; tri6; tet4; tet10; tet20] -> el_jacobian e vs x m k = el_jacobian e vs y m k.
Proof. cbn [In]. intros [<-|[<-|[<-|[<-|[<-|[]]]]]]; reflexivity. Qed.

(** C102. The same for the stiffness matrix of the Laplace operator; [A] is the inverse of the transposed Jacobian. *)
Theorem C102_stiffness e oq vs u G A x0 : In (e, oq) (canonical_stiffness root (table_rule Tri tri) (table_rule Tet tet)) -> el_corners e = S (el_dim e) ->
  let n := length (el_ref e) in let d := el_dim e in length u = n ->
  det_map e vs x0 <> 0 -> (forall k l, (k < d)%nat -> (l < d)%nat -> summ d (fun m => el_jacobian e vs x0 m k * A m l) = if (k =? l)%nat then 1 else 0) ->
  (forall a x, physical_gradient e vs a x (G a x)) ->
  exists q, oq = Some q /\
  exists K, element_matrix (volumetric e vs) 1 true (fun G (_ : unit) => accumulate_contractions d 1 true (laplace_contract d G)) u (fst q) (snd q) (repeat tt (length (snd q))) n (1 * n) (1 * n) = Done K /\
    forall I J, (I < n)%nat -> (J < n)%nat ->
      Rabs (K I J - over_reference e (fun x => vdot d (G I x) (G J x) * Rabs (det_map e vs x))) <=
      Rabs (det_map e vs x0) * (INR d * summ d (fun m => summ d (fun l => A m l * A m l))) * stiffness_constant e / 10 ^ 15.
Proof.
  intros HIn HC n d Hu HD0 HA HG. destruct (stiffness_cases e oq HIn HC) as (He & k & k' & sz & Hk & Hsz & (q & Eq & Len & X) & B). exists q. split; [exact Eq|].
  assert (HD : forall x, det_map e vs x <> 0) by (intros x; rewrite (det_simplex e vs x x0 He); exact HD0).
  assert (Hd : (d = 2 \/ d = 3)%nat).
  { unfold d. cbn [In] in He. destruct He as [<-|[<-|[<-|[<-|[<-|[]]]]]]; (left; reflexivity) || (right; reflexivity). }
  destruct (matrix_value (volumetric e vs) 1 true (fun G (_ : unit) => laplace_contract d G) (fun G (_ : unit) => accumulate_contractions d 1 true (laplace_contract d G)) u (fst q) (snd q) (repeat tt (length (snd q)))) as (K & EK & HK).
  - right. exact Hd.
  - split; [exact Len|rewrite repeat_length; reflexivity].
  - rewrite Nat.mul_1_l. exact Hu.
  - intros w p x _. apply HD.
  - intros. apply default_accumulates. destruct Hd; cbn; fold d; lia.
  - intros _ w p x _ a b i j _ _. unfold laplace_contract. apply vdot_comm.
  - exists K. split; [exact EK|]. intros I J HI HJ'. pose proof (HK I J 0%nat 0%nat HI HJ' ltac:(lia) ltac:(lia)) as XK. rewrite !Nat.mul_1_l, !Nat.add_0_r in XK. rewrite XK. clear XK.
    set (f := fun x => vdot d (G I x) (G J x) * Rabs (det_map e vs x)).
    assert (EG : forall I x m, (m < d)%nat -> G I x m = summ d (fun l => A m l * nth l (nth I (el_grads e x) []) 0)).
    { intros I' x m Hm. apply (inverse_gradient d (el_jacobian e vs x0) A (G I' x) (fun l => nth l (nth I' (el_grads e x) []) 0) Hd HD0 HA); [|exact Hm].
      intros l Hl. rewrite <- (HG I' x l Hl). apply PropCanonical.summ_ext. intros m' _. rewrite (jacobian_simplex e vs x x0 m' l He). reflexivity. }
    set (S1 := fun m => summ d (fun l => Rabs (A m l)) * sz).
    assert (F : Sz (el_dim e) k' (Rabs (det_map e vs x0) * summ d (fun m => S1 m * S1 m)) f).
    { apply (Sz_ext _ _ _ (fun x => Rabs (det_map e vs x0) * summ d (fun m => summ d (fun l => A m l * nth l (nth I (el_grads e x) []) 0) * summ d (fun l => A m l * nth l (nth J (el_grads e x) []) 0)))).
      { intros x. unfold f. rewrite (det_simplex e vs x x0 He), Rmult_comm. f_equal. unfold vdot. apply PropCanonical.summ_ext. intros m Hm. rewrite (EG I x m Hm), (EG J x m Hm). reflexivity. }
      apply (Sz_weaken _ (k + k) (Rabs (Rabs (det_map e vs x0)) * summ d (fun m => S1 m * S1 m))); [exact Hk|rewrite Rabs_Rabsolu; lra|]. apply Sz_scale.
      apply (Sz_summ (el_dim e) (k + k) d (fun m => S1 m * S1 m) (fun m x => summ d (fun l => A m l * nth l (nth I (el_grads e x) []) 0) * summ d (fun l => A m l * nth l (nth J (el_grads e x) []) 0))).
      intros m Hm. assert (Q : forall I, Sz (el_dim e) k (S1 m) (fun x => summ d (fun l => A m l * nth l (nth I (el_grads e x) []) 0))).
      { intros I'. apply (Sz_weaken _ k (summ d (fun l => Rabs (A m l) * sz))); [lia|unfold S1; rewrite summ_factor; lra|].
        apply (Sz_summ (el_dim e) k d (fun l => Rabs (A m l) * sz) (fun l x => A m l * nth l (nth I' (el_grads e x) []) 0)). intros l _. apply Sz_scale, B. }
      exact (Sz_mul _ _ _ _ _ _ _ (Q I) (Q J)). }
    specialize (X _ f F). match goal with |- Rabs (?a - _) <= _ => assert (E : a = rule_integrate q f) end.
    { destruct q as [ws xs]. rewrite <- (qsum_rule ws xs tt). cbn [fst snd].
      apply qsum_ext. intros w p r _. cbn [volumetric EllipticModel.el_dim EllipticModel.el_jacobian]. unfold f, det_map, laplace_contract. fold d.
      assert (E : forall I m, (m < d)%nat -> grads (volumetric e vs) p I m = G I p m).
      { intros I' m Hm. unfold grads. cbn [volumetric EllipticModel.el_dim EllipticModel.el_jacobian EllipticModel.el_gradients]. fold d. rewrite (proj2 (Nat.ltb_lt m d) Hm). symmetry.
        apply (solve_gradient d (el_jacobian e vs p) (G I' p) (fun k => nth k (nth I' (el_grads e p) []) 0) Hd (HD p)); [|exact Hm]. intros l Hl. apply HG, Hl. }
      unfold vdot. rewrite (PropCanonical.summ_ext d (fun k => grads (volumetric e vs) p I k * grads (volumetric e vs) p J k) (fun k => G I p k * G J p k)) by (intros l Hl; rewrite !E by exact Hl; reflexivity). ring. }
    rewrite E. eapply Rle_trans; [exact X|]. unfold Rdiv. apply Rmult_le_compat_r; [left; apply Rinv_0_lt_compat; lra|]. rewrite Rmult_assoc. apply Rmult_le_compat_l; [apply Rabs_pos|].
    assert (E1 : summ d (fun m => S1 m * S1 m) = summ d (fun m => summ d (fun l => Rabs (A m l)) * summ d (fun l => Rabs (A m l))) * (sz * sz)).
    { rewrite <- summ_factor. apply PropCanonical.summ_ext. intros m _. unfold S1. ring. }
    rewrite E1. apply Rmult_le_compat; [|nra|apply square_sum, Hd|exact Hsz].
    apply summ_nonneg. intros m. apply Rle_0_sqr.
Qed.
End simplex.
Print Assumptions C102_mass.
Print Assumptions C102_stiffness.
(** the shipped files of low strength alone, the unit triangle with the function 1 - x - y: the mass is 1/12 up to 2.5e-16, the stiffness is 1 up to 1e-15 *)
Example C102_example root : shipped Tri (files Tri) /\ shipped Tet (files Tet) /\
  In (tri3, table_rule Tri (files Tri) 2) (canonical_mass root (table_rule Tri (files Tri)) (table_rule Tet (files Tet))) /\
  In (tri3, table_rule Tri (files Tri) 1) (canonical_stiffness root (table_rule Tri (files Tri)) (table_rule Tet (files Tet))) /\
  (forall k l, (k < 2)%nat -> (l < 2)%nat -> summ 2 (fun m => el_jacobian tri3 unit_triangle (pt []) m k * (fun m l => if (m =? l)%nat then 2 else 0) m l) = if (k =? l)%nat then 1 else 0) /\
  (forall a x, physical_gradient tri3 unit_triangle a x (fun m => 2 * nth m (nth a (el_grads tri3 x) []) 0)) /\
  exists q M K, table_rule Tri (files Tri) 2 = Some q /\
    element_mass (volumetric tri3 unit_triangle) (fst q) (snd q) (repeat 1 (length (snd q))) 1 3 (1 * 3) (1 * 3) = Done M /\ Rabs (M 0%nat 0%nat - 1 / 12) <= 1 / 4 / 10 ^ 15 /\
    Rabs (K 0%nat 0%nat - 1) <= 1 / 10 ^ 15 /\ exists q', table_rule Tri (files Tri) 1 = Some q' /\
    element_matrix (volumetric tri3 unit_triangle) 1 true (fun G (_ : unit) => accumulate_contractions 2 1 true (laplace_contract 2 G)) [0; 0; 0] (fst q') (snd q') (repeat tt (length (snd q'))) 3 (1 * 3) (1 * 3) = Done K.
Proof.
  assert (Sh : forall d, shipped d (files d)) by (intros d; exists []; destruct (C84_example d) as (P & W & B & _); split; [exact P|split; [exact W|exact B]]).
  assert (I1 : In (tri3, table_rule Tri (files Tri) 2) (canonical_mass root (table_rule Tri (files Tri)) (table_rule Tet (files Tet)))) by (left; reflexivity).
  assert (I2 : In (tri3, table_rule Tri (files Tri) 1) (canonical_stiffness root (table_rule Tri (files Tri)) (table_rule Tet (files Tet)))) by (left; reflexivity).
  assert (Dt : forall x, det_map tri3 unit_triangle x = 1 / 4) by (intros x; unfold det_map, unit_triangle; cbn; unfold isoparametric_jacobian; cbn; field).
  assert (HA : forall k l, (k < 2)%nat -> (l < 2)%nat -> summ 2 (fun m => el_jacobian tri3 unit_triangle (pt []) m k * (fun m l => if (m =? l)%nat then 2 else 0) m l) = if (k =? l)%nat then 1 else 0).
  { intros k l Hk Hl. destruct k as [|[|k]]; [| |lia]; (destruct l as [|[|l]]; [| |lia]); unfold unit_triangle; cbn; unfold isoparametric_jacobian; cbn; field. }
  assert (HG : forall a x, physical_gradient tri3 unit_triangle a x (fun m => 2 * nth m (nth a (el_grads tri3 x) []) 0)).
  { intros a x k Hk. cbn in Hk. destruct k as [|[|k]]; [| |lia]; do 3 (destruct a as [|a]; [cbn; unfold isoparametric_jacobian; cbn; field|]); destruct a; cbn; unfold isoparametric_jacobian; cbn; field. }
  split; [apply Sh|]. split; [apply Sh|]. split; [exact I1|]. split; [exact I2|]. split; [exact HA|]. split; [exact HG|].
  destruct (C102_mass root (files Tri) (files Tet) (Sh Tri) (Sh Tet) tri3 _ unit_triangle 1 1 (pt []) I1 eq_refl) as (q & Eq & M & EM & HM).
  destruct (C102_stiffness root (files Tri) (files Tet) (Sh Tri) (Sh Tet) tri3 _ unit_triangle [0; 0; 0] (fun a x m => 2 * nth m (nth a (el_grads tri3 x) []) 0) (fun m l => if (m =? l)%nat then 2 else 0) (pt []) I2 eq_refl) as (q' & Eq' & K & EK & HK);
    [reflexivity|rewrite Dt; lra|exact HA|exact HG|].
  exists q, M, K. split; [exact Eq|]. split; [exact EM|].
  assert (V : forall c : R, RInt (fun x => RInt (fun _ => c) (-1) (- x)) (-1) 1 = 2 * c).
  { intros c. rewrite (RInt_ext _ (fun x => c * (1 - x))) by (intros x _; rewrite RInt_const; unfold scal; cbn; unfold mult; cbn; ring).
    apply is_RInt_unique. replace (2 * c) with (minus (c * (1 - 1 * 1 / 2)) (c * (-1 - -1 * -1 / 2))) by (unfold minus, plus, opp; cbn; field).
    apply (is_RInt_derive (fun x => c * (x - x * x / 2))); intros x _; [auto_derive; [exact I|field]|]. apply (ex_derive_continuous (fun x : R => c * (1 - x))). auto_derive. exact I. }
  split; [|split].
  - specialize (HM 0%nat 0%nat 0%nat 0%nat ltac:(cbn; lia) ltac:(cbn; lia) ltac:(lia) ltac:(lia)). cbn [Nat.mul Nat.add Nat.eqb] in HM. rewrite Rabs_R1, Dt, (Rabs_pos_eq (1 / 4)) in HM by lra. unfold mass_constant in HM. cbn [length el_ref tri3 tri3_ref] in HM.
    destruct C81_example as (_ & _ & _ & _ & _ & _ & _ & E & _). rewrite E in HM. rewrite Rmult_1_l in HM. lra.
  - specialize (HK 0%nat 0%nat ltac:(cbn; lia) ltac:(cbn; lia)). rewrite Dt, (Rabs_pos_eq (1 / 4)) in HK by lra. unfold stiffness_constant in HK. cbn [length el_ref tri3 tri3_ref el_dim summ INR Nat.eqb] in HK.
    match type of HK with Rabs (_ - ?o) <= _ => assert (E : o = 1) end; [|rewrite E in HK; lra].
    unfold over_reference. cbn [el_dim el_corners tri3]. transitivity (RInt (fun x => RInt (fun _ => 1 / 2) (-1) (- x)) (-1) 1); [|rewrite V; lra].
    apply RInt_ext. intros x _. apply RInt_ext. intros y _. rewrite Dt, Rabs_pos_eq by lra. unfold vdot. cbn. field.
  - exists q'. split; [exact Eq'|exact EK].
Qed.

(** * C87: closest points of triangles and tetrahedra *)
From Coq Require Import Reals List Bool Arith Lra Lia Psatz.
From Verif Require Import CgModel CgSpec CgProofs AabbModel AabbSpec GeomModel MeshModel MaterialModel ElementModel ClosestModel ClosestSpec ClosestProofs.
Import ListNotations.
Local Open Scope R_scope.

Lemma nearest_exact D S p x : veq D x p -> nearest D S p x.
Proof. intros E y _. rewrite (proj2 (dist2_zero D p x)); [apply dist2_nonneg|]. intros i Hi. symmetry. auto. Qed.

(** the edges of a triangle *)
Lemma edge_found D a b c p : exists idx t d2, closest_edge_of D a b c p = Some (idx, t, d2) /\
  let xi := edge_ref_coords idx t in let x := el_map tri3 [a; b; c] xi in
  located 0 D (map pt tri3_ref) [a; b; c] xi x /\ hull_boundary 2 (map pt tri3_ref) xi /\ d2 = dist2 D p x /\ nearest D (hull_boundary D [a; b; c]) p x /\
  (hull_boundary D [a; b; c] p <-> d2 = 0).
Proof.
  destruct (closest_edge_spec D a b c p) as (idx & t & d2 & E & Hi & Ht & Ed & M). exists idx, t, d2. split; [exact E|]. cbn zeta.
  destruct (edge_weights idx t Hi Ht) as [W (j & Hj & Z)].
  assert (Ex : d2 = dist2 D p (el_map tri3 [a; b; c] (edge_ref_coords idx t))).
  { rewrite Ed. apply dist2_ext; [intros i _; reflexivity|]. intros i _. symmetry. now apply edge_map. }
  assert (N : nearest D (hull_boundary D [a; b; c]) p (el_map tri3 [a; b; c] (edge_ref_coords idx t))).
  { intros y (k & s & Hk & Hs & Y)%tri_boundary_edge. rewrite <- Ex, (dist2_ext D p p y _ (fun _ _ => eq_refl) Y). now apply M. }
  split; [|split; [|split; [exact Ex|split; [exact N|]]]].
  - exists (tw (edge_ref_coords idx t)). split; [exact W|]. split; [apply tri_ref_mean|]. intros k _. now apply tri_map_mean.
  - exists (tw (edge_ref_coords idx t)), j. split; [exact W|]. split; [exact Hj|]. split; [exact Z|apply tri_ref_mean].
  - split.
    + intros B. specialize (N p B). rewrite <- Ex in N. rewrite (proj2 (dist2_zero D p p)) in N by (intros i _; reflexivity).
      pose proof (dist2_nonneg D p (el_map tri3 [a; b; c] (edge_ref_coords idx t))). lra.
    + intros Zd. rewrite Zd in Ed. symmetry in Ed. apply dist2_zero in Ed. destruct (edge_is_boundary D a b c idx t Hi Ht) as (w & l & Ww & Hl & Zl & Y).
      exists w, l. split; [exact Ww|]. split; [exact Hl|]. split; [exact Zl|]. intros i Hi'. rewrite (Ed i Hi'). now apply Y.
Qed.

Theorem C87_tri3d2 (epsilon : R) (a b c p : vec) : 0 <= epsilon -> exists r, tri3d2_closest epsilon a b c p = Some r /\
  let xi := closest_coords r in let x := el_map tri3 [a; b; c] xi in
  located (2 * epsilon) 2 (map pt tri3_ref) [a; b; c] xi x /\
  nearest 2 (hull 0 2 [a; b; c]) p x /\
  (r = InElement xi -> veq 2 x p /\ ~ hull_boundary 2 [a; b; c] p) /\
  (r = ClosestPoint xi -> hull_boundary 2 (map pt tri3_ref) xi /\ located 0 2 (map pt tri3_ref) [a; b; c] xi x) /\
  (hull 0 2 [a; b; c] p -> ~ hull_boundary 2 [a; b; c] p -> r = InElement xi).
Proof.
  intros He. unfold tri3d2_closest. destruct (edge_found 2 a b c p) as (idx & t & d2 & -> & L & B & Ed & N & Bp). cbn zeta in *.
  set (vs := [a; b; c]) in *. set (x := el_map tri3 vs (edge_ref_coords idx t)) in *.
  assert (Edge : (forall y, hull 0 2 vs y -> exists z, hull_boundary 2 vs z /\ dist2 2 p z <= dist2 2 p y) ->
    exists r, Some (ClosestPoint (edge_ref_coords idx t)) = Some r /\
    located (2 * epsilon) 2 (map pt tri3_ref) vs (closest_coords r) (el_map tri3 vs (closest_coords r)) /\
    nearest 2 (hull 0 2 vs) p (el_map tri3 vs (closest_coords r)) /\
    (r = InElement (closest_coords r) -> veq 2 (el_map tri3 vs (closest_coords r)) p /\ ~ hull_boundary 2 vs p) /\
    (r = ClosestPoint (closest_coords r) -> hull_boundary 2 (map pt tri3_ref) (closest_coords r) /\ located 0 2 (map pt tri3_ref) vs (closest_coords r) (el_map tri3 vs (closest_coords r))) /\
    (hull 0 2 vs p -> ~ hull_boundary 2 vs p -> r = InElement (closest_coords r))).
  { intros Leave. eexists. split; [reflexivity|]. cbn [closest_coords]. fold x. split; [|split; [|split; [discriminate|split]]].
    - destruct L as (w & [W T] & L). exists w. split; [split; [intros i Hi; specialize (W i Hi); lra|exact T]|exact L].
    - intros y Hy. destruct (Leave y Hy) as (z & Hz & Le). specialize (N z Hz). lra.
    - intros _. split; [exact B|exact L].
    - intros Hp Np. exfalso. destruct (Leave p Hp) as (z & Hz & Le). rewrite (proj2 (dist2_zero 2 p p)) in Le by (intros i _; reflexivity).
      apply Np. apply Bp. rewrite Ed. specialize (N z Hz). pose proof (dist2_nonneg 2 p x). lra. }
  destruct (try_inverse 2 (el_jacobian tri3 vs origin)) as [inv|] eqn:Inv; cbn [option_map filter_opt].
  - set (xi := mulv 2 inv (fun i => p i - el_map tri3 vs origin i)).
    assert (Mx : veq 2 (el_map tri3 vs xi) p).
    { intros k Hk. rewrite tri_affine by reflexivity. pose proof (inverse2 _ _ (fun i => p i - el_map tri3 vs origin i) Inv k Hk) as I. cbn beta in I. fold xi in I. rewrite I. ring. }
    destruct (is_likely_in_tri_ref_interior epsilon xi) eqn:In_.
    + rewrite dist2_squared. rewrite (proj2 (dist2_zero 2 p (el_map tri3 vs xi))) by (intros i Hi; symmetry; auto).
      destruct (Rlt_dec 0 d2) as [Pos|NPos].
      * eexists. split; [reflexivity|]. cbn [closest_coords]. split; [|split; [|split; [|split; [discriminate|reflexivity]]]].
        -- exists (tw xi). split; [now apply tri_likely|]. split; [apply tri_ref_mean|]. intros k _. now apply tri_map_mean.
        -- now apply nearest_exact.
        -- intros _. split; [exact Mx|]. intros Hb. apply Bp in Hb. lra.
      * assert (d2 = 0) by (rewrite Ed in NPos |- *; pose proof (dist2_nonneg 2 p x); lra). apply Edge. intros y Hy. exists p. split; [now apply Bp|].
        rewrite (proj2 (dist2_zero 2 p p)) by (intros i _; reflexivity). apply dist2_nonneg.
    + apply Edge. intros y Hy. apply leave_toward with (q := p) (mu := tw xi).
      * apply tw_total.
      * intros i Hi. rewrite <- (Mx i Hi). now apply tri_map_mean.
      * destruct (tri_unlikely epsilon He xi In_) as (i & Hi & Ni). exists i. split; [exact Hi|exact Ni].
      * rewrite (dot_ext 2 _ (fun _ => 0) _ (fun i => p i - y i)); [apply dot_zero|intros i _; ring|intros i _; reflexivity].
      * exact Hy.
  - apply Edge. intros y Hy. exists y. split; [|lra]. apply singular in Inv. destruct (kernel2 _ Inv) as (u & v & Nz & K). now apply tri_flat with (u := u) (v := v).
Qed.
Print Assumptions C87_tri3d2.

(** every mean with total one is the image of reference coordinates *)
Lemma tri_weights (vs : list vec) w : length vs = 3%nat -> total 3 w = 1 -> forall k, mean w vs k = el_map tri3 vs (pt [2 * w 1%nat - 1; 2 * w 2%nat - 1]) k.
Proof.
  intros L T k. rewrite tri_map_mean by exact L. apply mean_ext. rewrite L. cbn [total] in T.
  intros [|[|[|i]]] Hi; [| | |lia]; unfold tw, tri3_basis, pt; cbn [nth]; lra.
Qed.

Lemma tri_normal (vs : list vec) p xi x : length vs = 3%nat ->
  (forall j, (j < 2)%nat -> dot 3 (fun k => p k - el_map tri3 vs xi k) (fun k => el_jacobian tri3 vs origin k j) = 0) -> (exists w, total 3 w = 1 /\ veq 3 x (mean w vs)) ->
  dot 3 (fun i => p i - el_map tri3 vs xi i) (fun i => el_map tri3 vs xi i - x i) = 0.
Proof.
  intros L O (w & T & X). set (xw := pt [2 * w 1%nat - 1; 2 * w 2%nat - 1]).
  transitivity (dot 3 (fun i => p i - el_map tri3 vs xi i) (fun i => (0 + (xi 0%nat - xw 0%nat) * el_jacobian tri3 vs origin i 0%nat) + (xi 1%nat - xw 1%nat) * el_jacobian tri3 vs origin i 1%nat)).
  - apply dot_ext; [intros i _; reflexivity|]. intros i Hi. rewrite (X i Hi), (tri_weights vs w L T i). fold xw. rewrite (tri_affine vs xi i L), (tri_affine vs xw i L). ring.
  - rewrite (dot_add_r 3 (fun i => 0 + (xi 0%nat - xw 0%nat) * el_jacobian tri3 vs origin i 0%nat) (fun i => el_jacobian tri3 vs origin i 1%nat)).
    rewrite (dot_add_r 3 (fun _ => 0) (fun i => el_jacobian tri3 vs origin i 0%nat)). rewrite (O 0%nat), (O 1%nat) by lia. rewrite dot_comm, dot_zero. ring.
Qed.

Theorem C87_tri3d3 (epsilon : R) (a b c p : vec) : 0 <= epsilon -> exists xi, tri3d3_closest epsilon a b c p = Some (ClosestPoint xi) /\
  let x := el_map tri3 [a; b; c] xi in
  located (2 * epsilon) 3 (map pt tri3_ref) [a; b; c] xi x /\ nearest 3 (hull 0 3 [a; b; c]) p x.
Proof.
  intros He. unfold tri3d3_closest. destruct (edge_found 3 a b c p) as (idx & t & d2 & -> & L & _ & Ed & N & _). cbn zeta in *.
  set (vs := [a; b; c]) in *. set (x := el_map tri3 vs (edge_ref_coords idx t)) in *. set (A := el_jacobian tri3 vs origin).
  assert (Edge : (forall y, hull 0 3 vs y -> exists z, hull_boundary 3 vs z /\ dist2 3 p z <= dist2 3 p y) ->
    exists xi, Some (ClosestPoint (edge_ref_coords idx t)) = Some (ClosestPoint xi) /\
    located (2 * epsilon) 3 (map pt tri3_ref) vs xi (el_map tri3 vs xi) /\ nearest 3 (hull 0 3 vs) p (el_map tri3 vs xi)).
  { intros Leave. eexists. split; [reflexivity|]. fold x. split.
    - destruct L as (w & [W T] & L). exists w. split; [split; [intros i Hi; specialize (W i Hi); lra|exact T]|exact L].
    - intros y Hy. destruct (Leave y Hy) as (z & Hz & Le). specialize (N z Hz). lra. }
  destruct (try_inverse 2 (mmul 3 (transpose A) A)) as [inv|] eqn:Inv; cbn [option_map filter_opt].
  - set (xi := mulv 2 inv (mulv 3 (transpose A) (fun i => p i - el_map tri3 vs origin i))).
    assert (O : forall j, (j < 2)%nat -> dot 3 (fun k => p k - el_map tri3 vs xi k) (fun k => el_jacobian tri3 vs origin k j) = 0).
    { intros j Hj. pose proof (inverse2 _ _ (mulv 3 (transpose A) (fun i => p i - el_map tri3 vs origin i)) Inv j Hj) as I. fold xi in I.
      transitivity (dot 3 (fun k => (p k - el_map tri3 vs origin k) - (A k 0%nat * xi 0%nat + A k 1%nat * xi 1%nat)) (fun k => A k j)).
      { apply dot_ext; [|intros i _; reflexivity]. intros i _. rewrite (tri_affine vs xi i) by reflexivity. unfold A. ring. }
      revert I. unfold mmul, mulv, transpose. cbn [summ dot]. intros I. lra. }
    assert (Oh : forall y, hull 0 3 vs y -> dot 3 (fun i => p i - el_map tri3 vs xi i) (fun i => el_map tri3 vs xi i - y i) = 0).
    { intros y (w & [_ T] & Y). apply tri_normal; [reflexivity|exact O|]. exists w. split; [exact T|exact Y]. }
    destruct (is_likely_in_tri_ref_interior epsilon xi) eqn:In_.
    + rewrite dist2_squared. destruct (Rlt_dec (dist2 3 p (el_map tri3 vs xi)) d2) as [Lt|Nlt].
      * eexists. split; [reflexivity|]. split.
        -- exists (tw xi). split; [now apply tri_likely|]. split; [apply tri_ref_mean|]. intros k _. now apply tri_map_mean.
        -- intros y Hy. apply pythagoras_le. now apply Oh.
      * eexists. split; [reflexivity|]. fold x. split.
        -- destruct L as (w & [W T] & L). exists w. split; [split; [intros i Hi; specialize (W i Hi); lra|exact T]|exact L].
        -- intros y Hy. pose proof (pythagoras_le 3 p _ y (Oh y Hy)). lra.
    + apply Edge. intros y Hy. apply leave_toward with (q := el_map tri3 vs xi) (mu := tw xi).
      * apply tw_total.
      * intros i _. now apply tri_map_mean.
      * destruct (tri_unlikely epsilon He xi In_) as (i & Hi & Ni). exists i. split; [exact Hi|exact Ni].
      * now apply Oh.
      * exact Hy.
  - apply Edge. intros y Hy. exists y. split; [|lra]. apply singular in Inv. destruct (kernel2 _ Inv) as (u & v & Nz & K).
    apply tri_flat with (u := u) (v := v); [reflexivity|exact Nz| |exact Hy]. fold A.
    assert (Z : dot 3 (fun k => A k 0%nat * u + A k 1%nat * v) (fun k => A k 0%nat * u + A k 1%nat * v) = 0).
    { pose proof (K 0%nat ltac:(lia)) as K0. pose proof (K 1%nat ltac:(lia)) as K1. revert K0 K1. unfold mmul, transpose. cbn [summ dot]. intros K0 K1.
apply (f_equal (Rmult u)) in K0. apply (f_equal (Rmult v)) in K1. rewrite Rmult_0_r in K0, K1. nra. }
    intros k Hk. exact (dot_self_zero _ _ Z k Hk).
Qed.
Print Assumptions C87_tri3d3.

(** ** Examples *)
Definition unit_triangle : list vec := [pt [0; 0]; pt [1; 0]; pt [0; 1]].
Example C87_inside_example : exists xi, tri3d2_closest 0 (pt [0; 0]) (pt [1; 0]) (pt [0; 1]) (pt [1 / 4; 1 / 4]) = Some (InElement xi) /\
  veq 2 (el_map tri3 unit_triangle xi) (pt [1 / 4; 1 / 4]).
Proof.
  destruct (C87_tri3d2 0 (pt [0; 0]) (pt [1; 0]) (pt [0; 1]) (pt [1 / 4; 1 / 4]) (Rle_refl 0)) as (r & E & _ & _ & I & _ & C). cbn zeta in I, C.
  assert (Er : r = InElement (closest_coords r)).
  { apply C.
    - exists (fun i => nth i [1 / 2; 1 / 4; 1 / 4] 0). split; [split|].
      + intros [|[|[|i]]] Hi; cbn in *; try lia; lra.
      + cbn. lra.
      + intros [|[|k]] Hk; [| |lia]; unfold mean; cbn; unfold pt; cbn [nth]; lra.
    - intros (w & j & [_ T] & Hj & Z & Y). pose proof (Y 0%nat ltac:(lia)) as Y0. pose proof (Y 1%nat ltac:(lia)) as Y1. unfold mean in Y0, Y1. cbn in Y0, Y1, T. unfold pt in Y0, Y1. cbn [nth] in Y0, Y1.
      destruct j as [|[|[|j]]]; cbn in Hj; [lra|lra|lra|lia]. }
  exists (closest_coords r). split; [rewrite E; f_equal; exact Er|]. exact (proj1 (I Er)).
Qed.
(** beyond a corner the answer is the corner, for any tolerance *)
Example C87_outside_example : forall r, tri3d2_closest 0 (pt [0; 0]) (pt [1; 0]) (pt [0; 1]) (pt [-1; -1]) = Some r ->
  r = ClosestPoint (closest_coords r) /\ veq 2 (el_map tri3 unit_triangle (closest_coords r)) (pt [0; 0]).
Proof.
  intros r E. destruct (C87_tri3d2 0 (pt [0; 0]) (pt [1; 0]) (pt [0; 1]) (pt [-1; -1]) (Rle_refl 0)) as (r' & E' & (w & [W T] & _ & L) & N & I & _). rewrite E in E'. injection E' as <-. cbn zeta in *.
  cbn [length] in W, T. cbn [total] in T. unfold unit_triangle in *.
  assert (M0 : mean w [pt [0; 0]; pt [1; 0]; pt [0; 1]] 0%nat = w 1%nat) by (unfold mean; cbn; unfold pt; cbn [nth]; lra).
  assert (M1 : mean w [pt [0; 0]; pt [1; 0]; pt [0; 1]] 1%nat = w 2%nat) by (unfold mean; cbn; unfold pt; cbn [nth]; lra).
  pose proof (eq_trans (L 0%nat ltac:(lia)) M0) as L0. pose proof (eq_trans (L 1%nat ltac:(lia)) M1) as L1.
  pose proof (W 1%nat ltac:(lia)) as W1. pose proof (W 2%nat ltac:(lia)) as W2. split.
  - destruct r as [xi|xi]; [|reflexivity]. exfalso. destruct (I eq_refl) as [Eq _]. specialize (Eq 0%nat ltac:(lia)). cbn [closest_coords] in *. assert (E1 : w 1%nat = -1) by (etransitivity; [symmetry; exact L0|exact Eq]). lra.
  - assert (H : hull 0 2 [pt [0; 0]; pt [1; 0]; pt [0; 1]] (pt [0; 0])).
    { exists (fun i => nth i [1; 0; 0] 0). split; [split|].
      + intros [|[|[|i]]] Hi; cbn in *; try lia; lra.
      + cbn. lra.
      + intros [|[|k]] Hk; [| |lia]; unfold mean; cbn; unfold pt; cbn [nth]; lra. }
    specialize (N _ H). rewrite <- !dist2_squared in N. unfold distance_squared in N. cbn [dot] in N. rewrite L0, L1 in N. unfold pt in N. cbn [nth] in N.
    intros [|[|k]] Hk; [etransitivity; [exact L0|]|etransitivity; [exact L1|]|lia]; unfold pt; cbn [nth]; nra.
Qed.

(** [InElement] says that the point is inside the element; a positive tolerance also accepts points outside. *)
Theorem C87_in_element_refuted : forall epsilon, 0 < epsilon -> exists a b c p xi, tri3d2_closest epsilon a b c p = Some (InElement xi) /\ ~ hull 0 2 [a; b; c] p.
Proof.
  intros eps He. exists (pt [-1; -1]), (pt [1; -1]), (pt [-1; 1]), (pt [-1 - 2 * eps; -1]). 
  set (a := pt [-1; -1] : vec). set (b := pt [1; -1] : vec). set (c := pt [-1; 1] : vec). set (p := pt [-1 - 2 * eps; -1] : vec).
  assert (Out : ~ hull 0 2 [a; b; c] p).
  { intros (w & [W T] & Y). pose proof (Y 0%nat ltac:(lia)) as Y0. unfold mean in Y0. cbn in Y0, T. unfold a, b, c, p, pt in Y0. cbn [nth] in Y0. pose proof (W 1%nat ltac:(cbn; lia)). lra. }
  unfold tri3d2_closest. destruct (edge_found 2 a b c p) as (idx & t & d2 & -> & _ & _ & Ed & _ & Bp). cbn zeta in *.
  assert (Pos : 0 < d2).
  { assert (P : 0 <= d2) by (rewrite Ed; apply dist2_nonneg). destruct (Rle_lt_or_eq_dec _ _ P) as [|Z]; [assumption|exfalso].
    symmetry in Z. apply Bp in Z. destruct Z as (w & j & W & _ & _ & Y). apply Out. exists w. auto. }
  destruct (try_inverse 2 (el_jacobian tri3 [a; b; c] origin)) as [inv|] eqn:Inv.
  - cbn [option_map]. set (xi := mulv 2 inv (fun i => p i - el_map tri3 [a; b; c] origin i)).
    assert (Mx : veq 2 (el_map tri3 [a; b; c] xi) p).
    { intros k Hk. rewrite tri_affine by reflexivity. pose proof (inverse2 _ _ (fun i => p i - el_map tri3 [a; b; c] origin i) Inv k Hk) as I. cbn beta in I. fold xi in I. rewrite I. ring. }
    exists xi. split; [|exact Out].
    assert (X : veq 2 xi p).
    { intros k Hk. rewrite <- (Mx k Hk). destruct k as [|[|k]]; [| |lia]; cbn [el_map tri3]; unfold isoparametric_map, tri3_basis; cbn [ElementModel.combine]; unfold a, b, c, pt; cbn [nth]; field. }
    cbn [filter_opt]. assert (Lk : is_likely_in_tri_ref_interior eps xi = true).
    { unfold is_likely_in_tri_ref_interior. rewrite (X 0%nat ltac:(lia)), (X 1%nat ltac:(lia)). unfold p, pt. cbn [nth].
      repeat (apply andb_true_intro; split); match goal with |- rleb ?x ?y = true => destruct (rleb_spec x y) as [|Nr]; [reflexivity|exfalso; apply Nr; lra] end. }
    rewrite Lk, dist2_squared, (proj2 (dist2_zero 2 p (el_map tri3 [a; b; c] xi))) by (intros i Hi; symmetry; auto).
    destruct (Rlt_dec 0 d2); [reflexivity|contradiction].
  - exfalso. apply singular in Inv. revert Inv. unfold determinant. cbn [el_jacobian tri3]. unfold isoparametric_jacobian, tri3_grads. cbn [map nth ElementModel.combine]. unfold a, b, c, pt. cbn [nth]. lra.
Qed.
Print Assumptions C87_in_element_refuted.

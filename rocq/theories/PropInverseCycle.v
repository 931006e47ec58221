(** C90: where the inversion of the map of a quadrilateral fails. *)
From Coq Require Import Reals List Arith Lia Lra.
From Verif Require Import CgModel CgSpec AabbSpec ClosestSpec MaterialModel ElementModel OptModel InverseModel InverseSpec InverseProofs PropInverse PropInverseQuad.
Import ListNotations.
Local Open Scope R_scope.

Lemma comp_norm (x : vec) i : (i < 2)%nat -> Rabs (x i) <= norm 2 x.
Proof.
  intros Hi. unfold norm. rewrite <- (sqrt_Rsqr_abs (x i)). apply sqrt_le_1_alt. unfold Rsqr. unfold dot. cbn. destruct i as [|[|i]]; [nra|nra|lia].
Qed.
Lemma diameter_box (p0 p1 p2 p3 : vec) w : 0 <= w -> (forall p, In p [p0; p1; p2; p3] -> forall k, (k < 2)%nat -> - w <= p k <= w) -> diameter quad4 2 [p0; p1; p2; p3] <= 4 * w.
Proof.
  intros Hw H. unfold diameter, vertices_diameter. cbn [el_corners quad4 Nat.eqb firstn map tuple_combinations app fold_left].
  assert (S : forall x y : vec, In x [p0; p1; p2; p3] -> In y [p0; p1; p2; p3] -> distance 2 x y <= 4 * w).
  { intros x y Hx Hy. unfold distance, norm. rewrite <- (sqrt_square (4 * w)) by lra. apply sqrt_le_1_alt. unfold dot. cbn.
    pose proof (H x Hx 0%nat ltac:(lia)). pose proof (H x Hx 1%nat ltac:(lia)). pose proof (H y Hy 0%nat ltac:(lia)). pose proof (H y Hy 1%nat ltac:(lia)).
    assert (A : forall z, - (2 * w) <= z <= 2 * w -> z * z <= 2 * w * (2 * w)) by (intros; nra).
    pose proof (A (y 0%nat - x 0%nat) ltac:(lra)). pose proof (A (y 1%nat - x 1%nat) ltac:(lra)). nra. }
  repeat apply Rmax_lub; try lra; apply S; cbn; tauto.
Qed.

(** * a quadrilateral with one almost straight corner *)
Section flat.
Let b : R := 1 / 10000000.
Let a : R := 1 - b - b * b.
Let p0 : vec := pt [-1 + a; -1 + b].
Let p1 : vec := pt [1 - a; -1 - b].
Let p2 : vec := pt [1 + a; 1 + b].
Let p3 : vec := pt [-1 - a; 1 - b].
Let s := 1 + a * -1 + b * 1.
Let next := next_param a b 1 (-1).
Lemma flat_value : b = 1 / 10000000 /\ 999999 / 1000000 <= a <= 1 /\ s = 2 * b + b * b /\ a * b = b - b * b - b * b * b.
Proof. unfold s, a, b. repeat split; lra. Qed.

Lemma flat_halves j : let y := a * b * Nat.iter j next (next (-1)) in 0 <= y /\ (1 / 2) ^ j * (1 / 4) <= y + s / 2.
Proof.
  destruct flat_value as (Eb & Ha & Es & Ec). cbv zeta. induction j as [|j [IH0 IH]].
  - change (Nat.iter 0 next (next (-1))) with (next (-1)). unfold next, next_param. change (1 + a * -1 + b * 1) with s.
    assert (P : s + 2 * (a * b) * -1 = b * b * (3 + 2 * b)) by (rewrite Es, Ec; ring). rewrite P.
    replace (a * b * (a * b * (-1 * -1) / (b * b * (3 + 2 * b)))) with (a * a / (3 + 2 * b)) by (field; lra).
    assert (1 / 4 <= a * a / (3 + 2 * b)). { apply (Rmult_le_reg_r (3 + 2 * b)); [lra|]. unfold Rdiv at 2. rewrite Rmult_assoc, Rinv_l by lra. nra. }
    assert (0 < s) by nra. cbn [pow]. lra.
  - rewrite iter_S. set (t := Nat.iter j next (next (-1))) in *. clearbody t. unfold next, next_param. change (1 + a * -1 + b * 1) with s. assert (Sp : 0 < s) by nra.
    assert (Ey : a * b * (a * b * (t * t) / (s + 2 * (a * b) * t)) = a * b * t * (a * b * t) / (s + 2 * (a * b * t))).
    { replace (2 * (a * b) * t) with (2 * (a * b * t)) by ring. unfold Rdiv. ring. }
    rewrite Ey. clear Ey. set (y := a * b * t) in *. clearbody y. split.
    + apply Rmult_le_pos; [nra|]. left. apply Rinv_0_lt_compat. lra.
    + replace (y * y / (s + 2 * y) + s / 2) with ((y + s / 2) / 2 + s * s / 4 / (s + 2 * y)) by (field; lra).
      assert (0 <= s * s / 4 / (s + 2 * y)) by (apply Rmult_le_pos; [nra|left; apply Rinv_0_lt_compat; lra]). cbn [pow]. lra.
Qed.

Lemma flat_residual i : (i <= 19)%nat -> 1 / 10 ^ 8 <= Rabs (Nat.iter i next (-1) * (s + a * b * Nat.iter i next (-1))).
Proof.
  destruct flat_value as (Eb & Ha & Es & Ec). intros Hi. destruct i as [|j].
  - change (Nat.iter 0 next (-1)) with (-1). replace (-1 * (s + a * b * -1)) with (- (s - a * b)) by ring. rewrite Rabs_Ropp. eapply Rle_trans; [|apply Rle_abs]. rewrite Es, Ec, Eb. lra.
  - rewrite iter_S, <- iter_in. destruct (flat_halves j) as [Y0 Y]. set (t := Nat.iter j next (next (-1))) in *. set (y := a * b * t) in *.
    assert (H : 8 / 10000000 <= y).
    { assert (W : (1 / 2) ^ 18 <= (1 / 2) ^ j).
      { replace 18%nat with (j + (18 - j))%nat by lia. rewrite pow_add. pose proof (pow_incr (1 / 2) 1 (18 - j) ltac:(lra)) as V. rewrite pow1 in V. pose proof (pow_lt (1 / 2) j ltac:(lra)). nra. }
      replace ((1 / 2) ^ 18) with (1 / 262144) in W by field. assert (s / 2 <= 11 / 100000000) by (rewrite Es, Eb; lra). lra. }
    replace (t * (s + y)) with (y * (s + y) / (a * b)) by (unfold y; field; split; lra). eapply Rle_trans; [|apply Rle_abs].
    assert (Cp : 0 < a * b <= 1 / 10000000) by (rewrite Ec, Eb; lra). apply (Rmult_le_reg_r (a * b)); [lra|]. unfold Rdiv at 2. rewrite Rmult_assoc, Rinv_l, Rmult_1_r by lra.
    clearbody y. assert (S2 : 0 < s <= 3 / 10000000) by (rewrite Es, Eb; lra). assert (8 / 10000000 * (8 / 10000000) <= y * (s + y)) by (apply Rmult_le_compat; lra). cbn [pow]. lra.
Qed.

Lemma flat_coeffs : (forall k, (k < 2)%nat -> k0 p0 p1 p2 p3 k = 0) /\ (k1 p0 p1 p2 p3 0%nat = 1 /\ k1 p0 p1 p2 p3 1%nat = 0) /\ (k2 p0 p1 p2 p3 0%nat = 0 /\ k2 p0 p1 p2 p3 1%nat = 1) /\
  (k3 p0 p1 p2 p3 0%nat = a /\ k3 p0 p1 p2 p3 1%nat = b).
Proof. unfold k0, k1, k2, k3, p0, p1, p2, p3, pt. cbn [nth]. repeat split; try field. intros [|[|k]] Hk; [cbn [nth]; field|cbn [nth]; field|lia]. Qed.
Lemma flat_fails : strictly_convex p0 p1 p2 p3 /\ map_physical_coordinates quad4 2 [p0; p1; p2; p3] p1 = Some (inr (MaximumIterationsReached 20)).
Proof.
  destruct flat_value as (Eb & Ha & Es & Ec). destruct flat_coeffs as (K0 & (K10 & K11) & (K20 & K21) & K30 & K31). split.
  { left. unfold turn, p0, p1, p2, p3, pt. cbn [nth]. unfold a, b. lra. }
  assert (Na : area0 p0 p1 p2 p3 <> 0) by (unfold area0; rewrite K10, K11, K20, K21; lra).
  assert (Ez : forall k, (k < 2)%nat -> k3 p0 p1 p2 p3 k = a * k1 p0 p1 p2 p3 k + b * k2 p0 p1 p2 p3 k).
  { intros [|[|k]] Hk; [rewrite K30, K10, K20; ring|rewrite K31, K11, K21; ring|lia]. }
  assert (Hdec : decomposed p0 p1 p2 p3 0 a b). { split; [exact Na|]. split; [exact Ez|]. unfold a, b. lra. }
  assert (Ex : forall k, (k < 2)%nat -> p1 k = k0 p0 p1 p2 p3 k + k1 p0 p1 p2 p3 k * 1 + k2 p0 p1 p2 p3 k * -1 + k3 p0 p1 p2 p3 k * (1 * -1)).
  { intros k Hk. unfold k0, k1, k2, k3. field. }
  assert (Dm : diameter quad4 2 [p0; p1; p2; p3] <= 4 * 2).
  { apply diameter_box; [lra|]. intros p Hp k Hk. unfold p0, p1, p2, p3 in Hp. cbn in Hp. destruct k as [|[|k]]; [| |lia]; (destruct Hp as [<-|[<-|[<-|[<-|[]]]]]; unfold pt; cbn [nth]; lra). }
  assert (Tol : newton_tolerance quad4 2 [p0; p1; p2; p3] <= 8 / 1000000000000).
  { unfold newton_tolerance. replace (/ 10 ^ 12) with (1 / 1000000000000) by field. lra. }
  assert (L0 : newton_tolerance quad4 2 [p0; p1; p2; p3] < norm 2 (map_residual quad4 [p0; p1; p2; p3] p1 zero_vec)).
  { eapply Rle_lt_trans; [exact Tol|]. eapply Rlt_le_trans; [|apply (comp_norm _ 1%nat); lia]. unfold map_residual. rewrite quad_map, K0 by lia. unfold zero_vec. rewrite !Rmult_0_r.
    eapply Rlt_le_trans; [|apply Rle_abs]. unfold p1, pt. cbn [nth]. lra. }
  destruct (map_from_first p0 p1 p2 p3 a b 1 (-1) p1 20 Hdec Ex ltac:(lia) L0) as (xi & Hp & E).
  assert (Kn : 1 / 2 <= norm 2 (k3 p0 p1 p2 p3)). { eapply Rle_trans; [|apply (comp_norm _ 0%nat); lia]. rewrite K30. rewrite Rabs_right; lra. }
  destruct (loop_fails p0 p1 p2 p3 a b Na Ez 1 (-1) p1 Ex (newton_tolerance quad4 2 [p0; p1; p2; p3]) 20 19 (1 * -1) xi 1 20 Hp) as (res & R & S).
  - change (1 + a * -1 + b * 1) with s. nra.
  - change (1 + a * -1 + b * 1) with s. rewrite Es. replace (2 * (a * b) * (1 * -1)) with (- 2 * (a * b)) by ring. rewrite Ec. rewrite Eb. lra.
  - lia.
  - lia.
  - intros i Hi. change (1 + a * -1 + b * 1) with s. replace (1 * -1) with (-1) by ring. pose proof (flat_residual i Hi) as Rb. fold next. set (q := Rabs (_ * (s + _))) in *. cbn [pow] in Rb.
    assert (1 / 100000000 * (1 / 2) <= q * norm 2 (k3 p0 p1 p2 p3)) by (apply Rmult_le_compat; lra). lra.
  - unfold map_physical_coordinates. rewrite E, R. cbn [option_map]. now rewrite S.
Qed.
End flat.

(** C90: twenty iterations do not suffice for each convex quadrilateral, not even for its vertices. *)
Theorem C90_quad_refuted : exists p0 p1 p2 p3 : vec, strictly_convex p0 p1 p2 p3 /\
  map_physical_coordinates quad4 2 [p0; p1; p2; p3] p1 = Some (inr (MaximumIterationsReached 20)).
Proof. eexists _, _, _, _. exact flat_fails. Qed.
Print Assumptions C90_quad_refuted.

(** * points outside the element *)
Section cycle.
Let p0 : vec := pt [-3 / 4; -3 / 4].
Let p1 : vec := pt [3 / 4; -5 / 4].
Let p2 : vec := pt [5 / 4; 5 / 4].
Let p3 : vec := pt [-5 / 4; 3 / 4].
Let x : vec := pt [-4; -4].
Let vs : list vec := [p0; p1; p2; p3].
Lemma cycle_coeffs : (forall k, (k < 2)%nat -> k0 p0 p1 p2 p3 k = 0) /\ (k1 p0 p1 p2 p3 0%nat = 1 /\ k1 p0 p1 p2 p3 1%nat = 0) /\ (k2 p0 p1 p2 p3 0%nat = 0 /\ k2 p0 p1 p2 p3 1%nat = 1) /\
  (k3 p0 p1 p2 p3 0%nat = 1 / 4 /\ k3 p0 p1 p2 p3 1%nat = 1 / 4).
Proof. unfold k0, k1, k2, k3, p0, p1, p2, p3, pt. cbn [nth]. repeat split; try field. intros [|[|k]] Hk; [cbn [nth]; field|cbn [nth]; field|lia]. Qed.
Lemma cycle_map xi : el_map quad4 vs xi 0%nat = xi 0%nat + 1 / 4 * (xi 0%nat * xi 1%nat) /\ el_map quad4 vs xi 1%nat = xi 1%nat + 1 / 4 * (xi 0%nat * xi 1%nat).
Proof.
  destruct cycle_coeffs as (K0 & (K10 & K11) & (K20 & K21) & K30 & K31). unfold vs. rewrite !quad_map, !K0, K10, K11, K20, K21, K30, K31 by lia. split; ring.
Qed.
Lemma cycle_jac xi : el_jacobian quad4 vs xi 0%nat 0%nat = 1 + 1 / 4 * xi 1%nat /\ el_jacobian quad4 vs xi 0%nat 1%nat = 1 / 4 * xi 0%nat /\
  el_jacobian quad4 vs xi 1%nat 0%nat = 1 / 4 * xi 1%nat /\ el_jacobian quad4 vs xi 1%nat 1%nat = 1 + 1 / 4 * xi 0%nat.
Proof.
  destruct cycle_coeffs as (K0 & (K10 & K11) & (K20 & K21) & K30 & K31). unfold vs. destruct (quad_jac p0 p1 p2 p3 xi 0) as [-> ->]. destruct (quad_jac p0 p1 p2 p3 xi 1) as [-> ->].
  rewrite K10, K11, K20, K21, K30, K31. repeat split; ring.
Qed.
Lemma cycle_tolerance : newton_tolerance quad4 2 vs <= 1.
Proof.
  assert (Dm : diameter quad4 2 vs <= 4 * 2).
  { apply diameter_box; [lra|]. intros p Hp k Hk. unfold p0, p1, p2, p3 in Hp. cbn in Hp. destruct k as [|[|k]]; [| |lia]; (destruct Hp as [<-|[<-|[<-|[<-|[]]]]]; unfold pt; cbn [nth]; lra). }
  unfold newton_tolerance. replace (/ 10 ^ 12) with (1 / 1000000000000) by field. lra.
Qed.
Lemma cycle_step z xi fuel : z = 0 \/ z = -4 -> xi 0%nat = z -> xi 1%nat = z -> exists xi', (xi' 0%nat = -4 - z /\ xi' 1%nat = -4 - z) /\
  project_loop (S fuel) quad4 2 vs (newton_tolerance quad4 2 vs) x xi = project_loop fuel quad4 2 vs (newton_tolerance quad4 2 vs) x xi'.
Proof.
  intros Hz X0 X1. rewrite project_step. cbv zeta. change (el_dim quad4) with 2%nat. destruct (cycle_jac xi) as (J00 & J01 & J10 & J11). destruct (cycle_map xi) as [M0 M1]. rewrite X0, X1 in *.
  set (J := el_jacobian quad4 vs xi) in *. set (f := el_map quad4 vs xi) in *. clearbody J f. set (g := mulv 2 (transpose J) (fun i => f i - x i)).
  assert (G : g 0%nat = 4 + 2 * z /\ g 1%nat = 4 + 2 * z).
  { unfold g, mulv, summ, transpose. rewrite J00, J01, J10, J11, M0, M1. unfold x, pt. cbn [nth]. destruct Hz as [-> | ->]; split; field. }
  destruct G as [G0 G1]. destruct (Rlt_dec (newton_tolerance quad4 2 vs) (norm 2 g)) as [_|N].
  2:{ exfalso. apply N. eapply Rle_lt_trans; [apply cycle_tolerance|]. eapply Rlt_le_trans; [|apply (comp_norm g 0%nat); lia]. rewrite G0. destruct Hz as [-> | ->]; [rewrite Rabs_right|rewrite Rabs_left]; lra. }
  set (A := mmul 2 (transpose J) J).
  assert (EA : A 0%nat 0%nat = 1 /\ A 0%nat 1%nat = 0 /\ A 1%nat 0%nat = 0 /\ A 1%nat 1%nat = 1).
  { unfold A, mmul, summ, transpose. rewrite J00, J01, J10, J11. destruct Hz as [-> | ->]; repeat split; field. }
  destruct EA as (A00 & A01 & A10 & A11). destruct (lu_solve 2 A (fun i => - g i)) as [d|] eqn:L.
  2:{ exfalso. apply lu_none in L. unfold determinant in L. rewrite A00, A01, A10, A11 in L. lra. }
  exists (fun i => xi i + d i). split; [|reflexivity].
  assert (U : veq 2 d (fun i => - g i)).
  { apply (lu_unique 2 _ _ _ _ ltac:(lia) L). intros [|[|k]] Hk; [| |lia]; unfold mulv, summ; rewrite ?A00, ?A01, ?A10, ?A11; ring. }
  cbv beta. rewrite (U 0%nat), (U 1%nat), G0, G1, X0, X1 by lia. split; ring.
Qed.
Lemma cycle_loop fuel : forall z xi, z = 0 \/ z = -4 -> xi 0%nat = z -> xi 1%nat = z -> project_loop fuel quad4 2 vs (newton_tolerance quad4 2 vs) x xi = None.
Proof.
  induction fuel as [|fuel IH]; intros z xi Hz X0 X1; [reflexivity|]. destruct (cycle_step z xi fuel Hz X0 X1) as (xi' & [Y0 Y1] & ->).
  apply (IH (-4 - z)); [lra|exact Y0|exact Y1].
Qed.
Lemma cycle_forever : shape_regular (1 / 2) p0 p1 p2 p3 /\ forall fuel, project_physical_coordinates fuel quad4 2 vs x = Some None.
Proof.
  split.
  - unfold shape_regular, turn, p0, p1, p2, p3, pt. cbn [nth]. cbv zeta. repeat split; left; lra.
  - intros fuel. unfold project_physical_coordinates. cbn [el_dim quad4 Nat.leb]. f_equal. apply (cycle_loop fuel 0); [now left|reflexivity|reflexivity].
Qed.
End cycle.

(** C90: the projection, whose loop has no limit, does not terminate for some points outside well-shaped quadrilaterals. *)
Theorem C90_project_terminates_refuted : exists (p0 p1 p2 p3 x : vec), shape_regular (1 / 2) p0 p1 p2 p3 /\
  forall fuel, project_physical_coordinates fuel quad4 2 [p0; p1; p2; p3] x = Some None.
Proof. eexists _, _, _, _, _. exact cycle_forever. Qed.
Print Assumptions C90_project_terminates_refuted.

(** * points of the element *)
Section inside.
Context (p0 p1 p2 p3 : vec) (a b : R) (Na : area0 p0 p1 p2 p3 <> 0) (E3 : forall k, (k < 2)%nat -> k3 p0 p1 p2 p3 k = a * k1 p0 p1 p2 p3 k + b * k2 p0 p1 p2 p3 k).
Context (u v : R) (x : vec) (Ex : forall k, (k < 2)%nat -> x k = k0 p0 p1 p2 p3 k + k1 p0 p1 p2 p3 k * u + k2 p0 p1 p2 p3 k * v + k3 p0 p1 p2 p3 k * (u * v)).
Let vs : list vec := [p0; p1; p2; p3].
Let F := map_residual quad4 vs x.
Let s := 1 + a * v + b * u.
Let c := a * b.
Definition gradient (xi : vec) : vec := mulv 2 (transpose (el_jacobian quad4 vs xi)) (F xi).
(** a step of the projection is a Newton step *)
Lemma project_newton xi d tol : jacobian_solver quad4 2 vs xi (F xi) = Some d -> tol < norm 2 (gradient xi) ->
  exists xi', (forall i, (i < 2)%nat -> xi' i = axpy 1 (fun i => d i * -1) xi i) /\ forall fuel, project_loop (S fuel) quad4 2 vs tol x xi = project_loop fuel quad4 2 vs tol x xi'.
Proof.
  intros Ed Lt.
  enough (G : exists e, lu_solve 2 (mmul 2 (transpose (el_jacobian quad4 vs xi)) (el_jacobian quad4 vs xi)) (fun i => - gradient xi i) = Some e /\ veq 2 e (fun i => - d i)).
  { destruct G as (e & L & U). exists (fun i => xi i + e i). split; [intros i Hi; rewrite (U i Hi); unfold axpy; ring|]. intros fuel.
    rewrite project_step. cbv zeta. change (el_dim quad4) with 2%nat. change (mulv 2 (transpose (el_jacobian quad4 vs xi)) (fun i => el_map quad4 vs xi i - x i)) with (gradient xi).
    destruct (Rlt_dec tol (norm 2 (gradient xi))) as [_|N]; [|contradiction]. now rewrite L. }
  unfold jacobian_solver in Ed. pose proof (lu_ok 2 _ _ _ ltac:(lia) Ed) as Ok.
  assert (Dt : determinant 2 (el_jacobian quad4 vs xi) <> 0) by (intros Z; apply (proj2 (lu_none 2 _ (F xi))) in Z; congruence).
  unfold gradient. set (J := el_jacobian quad4 vs xi) in *. set (r := F xi) in *. clearbody J r. set (g := mulv 2 (transpose J) r). set (A := mmul 2 (transpose J) J).
  destruct (lu_solve 2 A (fun i => - g i)) as [e|] eqn:L.
  2:{ exfalso. apply lu_none in L. apply Dt. assert (Q : determinant 2 A = determinant 2 J * determinant 2 J) by (unfold determinant, A, mmul, summ, transpose; ring). rewrite L in Q. symmetry in Q. apply Rmult_integral in Q. tauto. }
  exists e. split; [reflexivity|]. apply (lu_unique 2 _ _ _ _ ltac:(lia) L). pose proof (Ok 0%nat ltac:(lia)) as O0. pose proof (Ok 1%nat ltac:(lia)) as O1. unfold mulv, summ in O0, O1.
  intros i Hi. unfold g, mulv, A, mmul, summ, transpose. rewrite <- O0, <- O1. ring.
Qed.
Lemma project_line j : forall t xi tol, at_param a b u v t xi -> 0 < s -> 0 < s + 2 * c * t ->
  (forall zeta, at_param a b u v (Nat.iter j (next_param a b u v) t) zeta -> norm 2 (gradient zeta) <= tol) ->
  exists zeta, forall fuel, (j < fuel)%nat -> project_loop fuel quad4 2 vs tol x xi = Some (inl zeta).
Proof.
  induction j as [|j IH]; intros t xi tol Ht Hs Hd Hr.
  - exists xi. intros [|fuel] Hf; [lia|]. rewrite project_step. cbv zeta. change (el_dim quad4) with 2%nat. change (mulv 2 (transpose (el_jacobian quad4 vs xi)) (fun i => el_map quad4 vs xi i - x i)) with (gradient xi).
    destruct (Rlt_dec tol (norm 2 (gradient xi))) as [L|_]; [|reflexivity]. specialize (Hr xi Ht). lra.
  - destruct (Rlt_dec tol (norm 2 (gradient xi))) as [L|L].
    + destruct (line_step p0 p1 p2 p3 a b Na E3 u v x Ex t xi Ht) as (d & Ed & H0 & H1); [fold s c; lra|].
      destruct (project_newton xi d tol Ed L) as (xi' & Hx & Hl).
      destruct (IH (next_param a b u v t) xi' tol) as (zeta & Hz).
      * split; rewrite Hx by lia; assumption.
      * exact Hs.
      * now apply next_positive.
      * intros z Hz. apply Hr. rewrite iter_S, <- iter_in. exact Hz.
      * exists zeta. intros [|fuel] Hf; [lia|]. rewrite Hl. apply Hz. lia.
    + exists xi. intros [|fuel] Hf; [lia|]. rewrite project_step. cbv zeta. change (el_dim quad4) with 2%nat. change (mulv 2 (transpose (el_jacobian quad4 vs xi)) (fun i => el_map quad4 vs xi i - x i)) with (gradient xi).
      destruct (Rlt_dec tol (norm 2 (gradient xi))); [contradiction|reflexivity].
Qed.
Lemma project_first tol : (forall zeta, at_param a b u v (u * v) zeta -> exists n out, forall fuel, (n < fuel)%nat -> project_loop fuel quad4 2 vs tol x zeta = Some (inl out)) ->
  exists n out, forall fuel, (n < fuel)%nat -> project_loop fuel quad4 2 vs tol x zero_vec = Some (inl out).
Proof.
  intros H. destruct (Rlt_dec tol (norm 2 (gradient zero_vec))) as [L|L].
  - destruct (first_step p0 p1 p2 p3 a b Na E3 u v x Ex) as (d & Ed & H0 & H1). destruct (project_newton zero_vec d tol Ed L) as (xi' & Hx & Hl).
    destruct (H xi') as (n & out & Ho); [split; rewrite Hx by lia; assumption|]. exists (S n), out. intros [|fuel] Hf; [lia|]. rewrite Hl. apply Ho. lia.
  - exists 0%nat, zero_vec. intros [|fuel] Hf; [lia|]. rewrite project_step. cbv zeta. change (el_dim quad4) with 2%nat.
    change (mulv 2 (transpose (el_jacobian quad4 vs zero_vec)) (fun i => el_map quad4 vs zero_vec i - x i)) with (gradient zero_vec).
    destruct (Rlt_dec tol (norm 2 (gradient zero_vec))); [contradiction|reflexivity].
Qed.
Lemma gradient_bound xi M : 0 <= M -> (forall k j, (k < 2)%nat -> (j < 2)%nat -> Rabs (el_jacobian quad4 vs xi k j) <= M) -> norm 2 (gradient xi) <= 4 * M * norm 2 (F xi).
Proof.
  intros HM HJ. unfold gradient. set (J := el_jacobian quad4 vs xi) in *. set (r := F xi). clearbody J r. set (w := norm 2 r). assert (W : 0 <= w) by apply sqrt_pos.
  assert (B : forall j, (j < 2)%nat -> Rabs (mulv 2 (transpose J) r j) <= 2 * M * w).
  { intros j Hj. unfold mulv, summ, transpose. rewrite Rplus_0_l. eapply Rle_trans; [apply Rabs_triang|]. rewrite !Rabs_mult.
    pose proof (Rmult_le_compat _ _ _ _ (Rabs_pos _) (Rabs_pos _) (HJ 0%nat j ltac:(lia) Hj) (comp_norm r 0%nat ltac:(lia))) as P0.
    pose proof (Rmult_le_compat _ _ _ _ (Rabs_pos _) (Rabs_pos _) (HJ 1%nat j ltac:(lia) Hj) (comp_norm r 1%nat ltac:(lia))) as P1. fold w in P0, P1. lra. }
  set (g := mulv 2 (transpose J) r) in *. clearbody g w. unfold norm. rewrite <- (sqrt_square (4 * M * w)) by nra. apply sqrt_le_1_alt. unfold dot. cbn.
  assert (Q : forall j, (j < 2)%nat -> g j * g j <= 2 * M * w * (2 * M * w)).
  { intros j Hj. specialize (B j Hj). rewrite <- (Rabs_right (g j * g j)) by (apply Rle_ge; nra). rewrite Rabs_mult. apply Rmult_le_compat; try apply Rabs_pos; exact B. }
  pose proof (Q 0%nat ltac:(lia)). pose proof (Q 1%nat ltac:(lia)). pose proof (Rle_0_sqr (M * w)) as Z. unfold Rsqr in Z. lra.
Qed.
End inside.

(** C90: for the points of a strictly convex quadrilateral the projection terminates. *)
Theorem C90_project_quad : forall p0 p1 p2 p3 x xi : vec, strictly_convex p0 p1 p2 p3 -> in_reference quad4 xi -> veq 2 x (el_map quad4 [p0; p1; p2; p3] xi) ->
  exists N zeta, forall fuel, (N <= fuel)%nat -> project_physical_coordinates fuel quad4 2 [p0; p1; p2; p3] x = Some (Some (inl zeta)).
Proof.
  intros p0 p1 p2 p3 x xi Hc Hxi Ex. destruct (convex_regular p0 p1 p2 p3 Hc) as (m & Hm & Hr). destruct (regular_decomposed p0 p1 p2 p3 m Hr) as (a & b & Hdec).
  pose proof (in_coeffs p0 p1 p2 p3 x xi Ex) as Ex'. set (tol := newton_tolerance quad4 2 [p0; p1; p2; p3]).
  assert (Tpos : 0 < tol). { unfold tol, newton_tolerance. apply Rmult_lt_0_compat; [apply Rinv_0_lt_compat, pow_lt; lra|]. apply convex_diameter. destruct Hc as [H|H]; lra. }
  pose proof Hdec as (Na & E3 & H0 & H1 & H2 & H3). pose proof Hxi as [Hu Hv]. destruct (start_bound a b m (xi 0%nat) (xi 1%nat) Hm H0 H1 H2 H3 Hu Hv) as (Hs & Hd & Hab & Huv).
  set (u := xi 0%nat) in *. set (v := xi 1%nat) in *. set (t2 := next_param a b u v (u * v)).
  set (M := Rabs (k1 p0 p1 p2 p3 0%nat) + Rabs (k1 p0 p1 p2 p3 1%nat) + Rabs (k2 p0 p1 p2 p3 0%nat) + Rabs (k2 p0 p1 p2 p3 1%nat)
    + (Rabs (k3 p0 p1 p2 p3 0%nat) + Rabs (k3 p0 p1 p2 p3 1%nat)) * (1 + Rabs t2 * (Rabs a + Rabs b))).
  pose proof (Rabs_pos (k1 p0 p1 p2 p3 0%nat)). pose proof (Rabs_pos (k1 p0 p1 p2 p3 1%nat)). pose proof (Rabs_pos (k2 p0 p1 p2 p3 0%nat)). pose proof (Rabs_pos (k2 p0 p1 p2 p3 1%nat)).
  pose proof (Rabs_pos (k3 p0 p1 p2 p3 0%nat)). pose proof (Rabs_pos (k3 p0 p1 p2 p3 1%nat)). pose proof (Rabs_pos t2). pose proof (Rabs_pos a). pose proof (Rabs_pos b).
  assert (W0 : 0 <= Rabs t2 * (Rabs a + Rabs b)) by (apply Rmult_le_pos; lra).
  assert (M0 : 0 <= M). { unfold M. assert (0 <= (Rabs (k3 p0 p1 p2 p3 0%nat) + Rabs (k3 p0 p1 p2 p3 1%nat)) * (1 + Rabs t2 * (Rabs a + Rabs b))) by (apply Rmult_le_pos; lra). lra. }
  destruct (line_converges p0 p1 p2 p3 m a b u v (tol / (4 * M + 1)) Hm Hdec Hu Hv) as (j & Tj & Rj); [apply Rdiv_lt_0_compat; lra|]. fold t2 in Tj, Rj.
  destruct (project_first p0 p1 p2 p3 a b Na E3 u v x Ex' tol) as (n & out & Ho).
  - intros z Hz. exists (S j). destruct (project_line p0 p1 p2 p3 a b Na E3 u v x Ex' (S j) (u * v) z tol Hz ltac:(lra) ltac:(lra)) as (zeta & Hzeta); [|exists zeta; exact Hzeta].
    intros y Hy. rewrite iter_S, <- iter_in in Hy. fold t2 in Hy. set (t := Nat.iter j (next_param a b u v) t2) in *.
    eapply Rle_trans; [apply (gradient_bound p0 p1 p2 p3 x y M M0)|].
    + intros k i Hk Hi. destruct Hy as [Y0 Y1]. destruct (quad_jac p0 p1 p2 p3 y k) as [J0 J1].
      assert (C : forall q z w, Rabs z <= 1 -> Rabs w <= Rabs a + Rabs b -> Rabs (q * (z + t * w)) <= Rabs q * (1 + Rabs t2 * (Rabs a + Rabs b))).
      { intros q z' w Hz' Hw. rewrite Rabs_mult. apply Rmult_le_compat_l; [apply Rabs_pos|]. eapply Rle_trans; [apply Rabs_triang|]. rewrite Rabs_mult.
        assert (Rabs t * Rabs w <= Rabs t2 * (Rabs a + Rabs b)) by (apply Rmult_le_compat; [apply Rabs_pos|apply Rabs_pos|exact Tj|exact Hw]). lra. }
      assert (Uv : Rabs u <= 1 /\ Rabs v <= 1) by (split; apply Rabs_le; assumption).
      assert (K3 : Rabs (k3 p0 p1 p2 p3 k) * (1 + Rabs t2 * (Rabs a + Rabs b)) <= (Rabs (k3 p0 p1 p2 p3 0%nat) + Rabs (k3 p0 p1 p2 p3 1%nat)) * (1 + Rabs t2 * (Rabs a + Rabs b))).
      { apply Rmult_le_compat_r; [lra|]. destruct k as [|[|k]]; [lra|lra|lia]. }
      destruct i as [|[|i]]; [rewrite J0, Y1|rewrite J1, Y0|lia]; (eapply Rle_trans; [apply Rabs_triang|]).
      * pose proof (C (k3 p0 p1 p2 p3 k) v b ltac:(tauto) ltac:(lra)). unfold M. destruct k as [|[|k]]; [lra|lra|lia].
      * pose proof (C (k3 p0 p1 p2 p3 k) u a ltac:(tauto) ltac:(lra)). unfold M. destruct k as [|[|k]]; [lra|lra|lia].
    + rewrite (line_norm p0 p1 p2 p3 a b E3 u v x Ex' t y Hy). set (q := Rabs (t * _) * _) in *. assert (Q0 : 0 <= q) by (apply Rmult_le_pos; [apply Rabs_pos|apply sqrt_pos]).
      assert (q * (4 * M + 1) <= tol). { apply (Rmult_le_reg_r (/ (4 * M + 1))); [apply Rinv_0_lt_compat; lra|]. rewrite Rmult_assoc, Rinv_r by lra. unfold Rdiv in Rj. lra. }
      nra.
  - exists (S n), out. intros fuel Hf. unfold project_physical_coordinates. cbn [el_dim quad4 Nat.leb]. f_equal. apply Ho. lia.
Qed.
Print Assumptions C90_project_quad.

(** C74: the generalised winding number of triangles. The solid angle is computed with [atan] instead of [atan2]: it is wrong by a full turn whenever
    the triangle covers more than a quarter of the sphere, and the winding number of a tetrahedron is never one. *)
From Coq Require Import Reals List Lra Lia Psatz.
From Verif Require Import CgModel GeomModel CgProofs SolidModel SolidSpec PropVolume PropSolidPrim.
Import ListNotations.
Open Scope R_scope.
Local Notation pt := (nat -> R).

Lemma solid_angle_bound (t : pt * pt * pt) p : Rabs (solid_angle t p) < PI.
Proof. destruct t as [[v0 v1] v2]. unfold solid_angle. match goal with |- Rabs (2 * atan ?x) < _ => pose proof (atan_bound x) end. apply Rabs_def1; lra. Qed.
Lemma fold_plus l : forall a, fold_left Rplus l a = a + rsum l.
Proof. induction l as [|x l IH]; intros a; cbn; [lra|]. rewrite IH. unfold rsum. lra. Qed.
Lemma winding_sum ts p : winding_number ts p = rsum (map (fun t => solid_angle t p) ts) / (4 * PI).
Proof. unfold winding_number. destruct ts as [|t ts]; [reflexivity|]. cbn [map]. rewrite fold_plus. reflexivity. Qed.

(** C74: the winding number of [n] triangles stays below [n / 4] in absolute value. *)
Theorem C74_bound (ts : list (pt * pt * pt)) p : ts <> [] -> Rabs (winding_number ts p) < INR (length ts) / 4.
Proof.
  intros Ne. rewrite winding_sum. pose proof PI_RGT_0 as P.
  assert (S : Rabs (rsum (map (fun t => solid_angle t p) ts)) < INR (length ts) * PI).
  { induction ts as [|t ts IH]; [contradiction|]. change (rsum _) with (solid_angle t p + rsum (map (fun t => solid_angle t p) ts)). pose proof (solid_angle_bound t p) as B. pose proof (Rabs_triang (solid_angle t p) (rsum (map (fun t => solid_angle t p) ts))) as T.
    change (length (t :: ts)) with (S (length ts)). rewrite S_INR. destruct ts as [|t' ts]; [cbn in *; rewrite Rabs_R0 in T; lra|]. specialize (IH ltac:(discriminate)). lra. }
  unfold Rdiv at 1. rewrite Rabs_mult, (Rabs_pos_eq (/ (4 * PI))) by (left; apply Rinv_0_lt_compat; lra).
  apply Rmult_lt_reg_r with (4 * PI); [lra|]. rewrite Rmult_assoc, Rinv_l by lra. lra.
Qed.
Print Assumptions C74_bound.

(** the faces of a tetrahedron as triangles, in the order and orientation of tetrahedron.rs *)
Definition tetrahedron_triangles (v : nat -> pt) : list (pt * pt * pt) :=
  [(v 0%nat, v 1%nat, v 2%nat); (v 0%nat, v 3%nat, v 1%nat); (v 1%nat, v 3%nat, v 2%nat); (v 0%nat, v 2%nat, v 3%nat)].
Lemma tetrahedron_triangles_faces v : map (fun t => [fst (fst t); snd (fst t); snd t]) (tetrahedron_triangles v) = tetrahedron_faces v.
Proof. reflexivity. Qed.
Lemma atan_5_12 : atan (2 + sqrt 3) = 5 * PI / 12.
Proof.
  pose proof PI_RGT_0 as P. pose proof (sqrt_sqrt 3 ltac:(lra)) as S3. assert (H3 : 1 < sqrt 3) by (rewrite <- sqrt_1; apply sqrt_lt_1; lra).
  assert (Cp : forall x, - (PI / 2) < x < PI / 2 -> cos x <> 0) by (intros x Hx; pose proof (cos_gt_0 x ltac:(lra) ltac:(lra)); lra).
  assert (T : tan (5 * PI / 12) = 2 + sqrt 3).
  { replace (5 * PI / 12) with (PI / 4 + PI / 6) by field. rewrite tan_plus, tan_PI4, tan_PI6; [|apply Cp; lra|apply Cp; lra|apply Cp; lra|].
    - apply Rmult_eq_reg_r with (sqrt 3 - 1); [|lra]. transitivity (sqrt 3 + 1); [field; lra|]. nra.
    - rewrite tan_PI4, tan_PI6. assert (1 / sqrt 3 < 1) by (apply Rmult_lt_reg_r with (sqrt 3); [lra|]; field_simplify; lra). lra. }
  rewrite <- T. apply atan_tan. lra.
Qed.
(** C74 refuted: no tetrahedron winds once around any point; the one below has outward faces and the origin inside, and the result is -1/2. *)
Theorem C74_winding_refuted :
  (forall v p, winding_number (tetrahedron_triangles v) p <> 1 /\ winding_number (tetrahedron_triangles v) p <> -1) /\
  exists v p, det (minus (v 1%nat) (v 0%nat)) (minus (v 2%nat) (v 0%nat)) (minus (v 3%nat) (v 0%nat)) < 0 /\ oriented (tetrahedron_faces v) /\
    (exists q r s t, 0 < q /\ 0 < r /\ 0 < s /\ 0 < t /\ q + r + s + t = 1 /\ agree p (fun k => q * v 0%nat k + r * v 1%nat k + s * v 2%nat k + t * v 3%nat k)) /\
    winding_number (tetrahedron_triangles v) p = - (1 / 2).
Proof.
  split.
  { intros v p. assert (B := C74_bound (tetrahedron_triangles v) p ltac:(discriminate)). replace (INR (length (tetrahedron_triangles v))) with 4 in B by (cbn; lra).
    split; intros E; rewrite E in B; [rewrite Rabs_R1 in B|rewrite Rabs_left in B by lra]; lra. }
  exists (fun i k : nat => nth k (nth i [[1; 0; 0]; [0; 1; 0]; [0; 0; 1]; [-1; -1; -1]] []) 0), (fun _ => 0). split; [unfold det, minus; cbn; lra|]. split; [apply tetrahedron_oriented|]. split.
  { exists (1/4), (1/4), (1/4), (1/4). repeat split; try lra. intros [|[|[|k]]] Hk; cbn; try lra; lia. }
  set (v := fun i k : nat => nth k (nth i [[1; 0; 0]; [0; 1; 0]; [0; 0; 1]; [-1; -1; -1]] []) 0).
  pose proof (sqrt_sqrt 3 ltac:(lra)) as S3. assert (H3 : 1 < sqrt 3) by (rewrite <- sqrt_1; apply sqrt_lt_1; lra). assert (H4 : sqrt 3 < 2) by nra.
  assert (N1 : forall i, (i < 3)%nat -> norm 3 (sub3 (v i) (fun _ => 0)) = 1).
  { intros i Hi. unfold norm. rewrite dot_ip. replace (ip _ _) with 1; [apply sqrt_1|]. destruct i as [|[|[|i]]]; [| | |lia]; unfold ip, sub3, v; cbn; ring. }
  assert (N3 : norm 3 (sub3 (v 3%nat) (fun _ => 0)) = sqrt 3) by (unfold norm; rewrite dot_ip; f_equal; unfold ip, sub3, v; cbn; ring).
  assert (Big : / (sqrt 3 - 2) = - (2 + sqrt 3)) by (apply Rmult_eq_reg_r with (sqrt 3 - 2); [|lra]; rewrite Rinv_l by lra; nra).
  assert (A0 : solid_angle (v 0%nat, v 1%nat, v 2%nat) (fun _ => 0) = PI / 2).
  { unfold solid_angle. rewrite !N1 by lia. unfold det3. rewrite !dot_ip. replace (_ / _) with 1 by (unfold ip, cross, cross_comp, sub3, v; cbn; field). rewrite atan_1. lra. }
  assert (Y : 2 * atan (- (2 + sqrt 3)) = - (5 * PI / 6)) by (rewrite atan_opp, atan_5_12; lra).
  assert (A1 : solid_angle (v 0%nat, v 3%nat, v 1%nat) (fun _ => 0) = - (5 * PI / 6)).
  { unfold solid_angle. rewrite N3, !N1 by lia. unfold det3. rewrite !dot_ip. replace (_ / _) with (/ (sqrt 3 - 2)) by (unfold ip, cross, cross_comp, sub3, v; cbn; field; lra). rewrite Big. exact Y. }
  assert (A2 : solid_angle (v 1%nat, v 3%nat, v 2%nat) (fun _ => 0) = - (5 * PI / 6)).
  { unfold solid_angle. rewrite N3, !N1 by lia. unfold det3. rewrite !dot_ip. replace (_ / _) with (/ (sqrt 3 - 2)) by (unfold ip, cross, cross_comp, sub3, v; cbn; field; lra). rewrite Big. exact Y. }
  assert (A3 : solid_angle (v 0%nat, v 2%nat, v 3%nat) (fun _ => 0) = - (5 * PI / 6)).
  { unfold solid_angle. rewrite N3, !N1 by lia. unfold det3. rewrite !dot_ip. replace (_ / _) with (/ (sqrt 3 - 2)) by (unfold ip, cross, cross_comp, sub3, v; cbn; field; lra). rewrite Big. exact Y. }
  rewrite winding_sum. unfold tetrahedron_triangles, rsum. cbn [map fold_right]. rewrite A0, A1, A2, A3. pose proof PI_RGT_0. field. lra.
Qed.
Print Assumptions C74_winding_refuted.

(** C74: what does hold: turning a triangle over changes the sign of its angle, and cycling its vertices does not change it. *)
Theorem C74_orientation a b c p : solid_angle (a, c, b) p = - solid_angle (a, b, c) p /\ solid_angle (b, c, a) p = solid_angle (a, b, c) p.
Proof.
  unfold solid_angle, det3. rewrite !dot_ip. set (x := sub3 a p). set (y := sub3 b p). set (z := sub3 c p). set (nx := norm 3 x). set (ny := norm 3 y). set (nz := norm 3 z). split.
  - rewrite Ropp_mult_distr_r, <- atan_opp. do 2 f_equal. unfold Rdiv. rewrite Ropp_mult_distr_l. f_equal; [|f_equal]; unfold ip, cross, cross_comp; cbn; ring.
  - do 2 f_equal. unfold Rdiv. f_equal; [|f_equal]; unfold ip, cross, cross_comp; cbn; ring.
Qed.
Print Assumptions C74_orientation.

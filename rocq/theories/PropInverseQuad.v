(** C90: inversion of the bilinear maps of quadrilaterals. *)
From Coq Require Import Reals List Lia Lra Psatz Arith.
From Verif Require Import CgModel CgSpec CgProofs AabbSpec MaterialModel ElementModel OptModel OptSpec PropNewton ClosestSpec ClosestModel ClosestProofs InverseSpec InverseModel InverseProofs PropInverse.
Import ListNotations.
Local Open Scope R_scope.

Lemma norm_scale n s x : norm n (fun i => s * x i) = Rabs s * norm n x.
Proof.
  unfold norm. rewrite !dot_total. rewrite (total_ext n _ (fun k => (s * s) * (x k * x k))) by (intros; ring). rewrite total_scale.
  rewrite sqrt_mult_alt by apply Rle_0_sqr. f_equal. apply sqrt_Rsqr_abs.
Qed.

Lemma iter_S {A} (f : A -> A) n t : Nat.iter (S n) f t = f (Nat.iter n f t).
Proof. reflexivity. Qed.
Lemma iter_add {A} (f : A -> A) n m t : Nat.iter (n + m) f t = Nat.iter n f (Nat.iter m f t).
Proof. induction n as [|n IH]; [reflexivity|]. cbn [Nat.add]. now rewrite !iter_S, IH. Qed.
Lemma iter_in {A} (f : A -> A) j x : Nat.iter j f (f x) = f (Nat.iter j f x).
Proof. induction j as [|j IH]; [reflexivity|]. change (f (Nat.iter j f (f x)) = f (f (Nat.iter j f x))). now rewrite IH. Qed.

(** The map in monomials. *)
Section quad.
Context (p0 p1 p2 p3 : vec).
Definition k0 (k : nat) : R := (p0 k + p1 k + p2 k + p3 k) / 4.
Definition k1 (k : nat) : R := (- p0 k + p1 k + p2 k - p3 k) / 4.
Definition k2 (k : nat) : R := (- p0 k - p1 k + p2 k + p3 k) / 4.
Definition k3 (k : nat) : R := (p0 k - p1 k + p2 k - p3 k) / 4.
Let vs : list vec := [p0; p1; p2; p3].

Lemma quad_map xi k : el_map quad4 vs xi k = k0 k + k1 k * xi 0%nat + k2 k * xi 1%nat + k3 k * (xi 0%nat * xi 1%nat).
Proof. unfold vs, k0, k1, k2, k3. cbn. unfold quad4_phi. field. Qed.
Lemma quad_jac xi k : el_jacobian quad4 vs xi k 0%nat = k1 k + k3 k * xi 1%nat /\ el_jacobian quad4 vs xi k 1%nat = k2 k + k3 k * xi 0%nat.
Proof. unfold vs, k0, k1, k2, k3. cbn. split; field. Qed.

Definition area0 : R := k1 0%nat * k2 1%nat - k1 1%nat * k2 0%nat.
Lemma corner_turns : exists al be, al = k3 0%nat * k2 1%nat - k3 1%nat * k2 0%nat /\ be = k1 0%nat * k3 1%nat - k1 1%nat * k3 0%nat /\
  turn p3 p0 p1 = 4 * (area0 - al - be) /\ turn p0 p1 p2 = 4 * (area0 - al + be) /\ turn p1 p2 p3 = 4 * (area0 + al + be) /\ turn p2 p3 p0 = 4 * (area0 + al - be).
Proof. eexists _, _. split; [reflexivity|]. split; [reflexivity|]. unfold turn, area0, k1, k2, k3. repeat split; field. Qed.

(** The fourth coefficient in terms of the second and third; m bounds the relative Jacobian at the corners from below. *)
Definition decomposed (m a b : R) : Prop := area0 <> 0 /\ (forall k, (k < 2)%nat -> k3 k = a * k1 k + b * k2 k) /\ m <= 1 - a - b /\ m <= 1 - a + b /\ m <= 1 + a + b /\ m <= 1 + a - b.
Lemma decompose m : area0 <> 0 -> (forall a b, area0 * a = k3 0%nat * k2 1%nat - k3 1%nat * k2 0%nat -> area0 * b = k1 0%nat * k3 1%nat - k1 1%nat * k3 0%nat ->
  m <= 1 - a - b /\ m <= 1 - a + b /\ m <= 1 + a + b /\ m <= 1 + a - b) -> exists a b, decomposed m a b.
Proof.
  intros N H. exists ((k3 0%nat * k2 1%nat - k3 1%nat * k2 0%nat) / area0), ((k1 0%nat * k3 1%nat - k1 1%nat * k3 0%nat) / area0). split; [exact N|]. split.
  - unfold area0 in *. intros [|[|k]] Hk; [field; exact N|field; exact N|lia].
  - apply H; field; exact N.
Qed.
Lemma regular_decomposed m : shape_regular m p0 p1 p2 p3 -> exists a b, decomposed m a b.
Proof.
  destruct corner_turns as (al & be & Ea & Eb & T0 & T1 & T2 & T3). unfold shape_regular. rewrite T0, T1, T2, T3. cbv zeta.
  replace ((4 * (area0 - al - be) + 4 * (area0 - al + be) + 4 * (area0 + al + be) + 4 * (area0 + al - be)) / 4) with (4 * area0) by field. intros (H0 & H1 & H2 & H3).
  apply decompose; [destruct H0 as [[]|[]]; lra|]. intros a b A B. rewrite <- Ea in A. rewrite <- Eb in B. rewrite <- A, <- B in H0, H1, H2, H3.
  destruct H0 as [[P H0]|[P H0]].
  - destruct H1 as [[_ H1]|[C _]]; [|lra]. destruct H2 as [[_ H2]|[C _]]; [|lra]. destruct H3 as [[_ H3]|[C _]]; [|lra].
    repeat split; apply (Rmult_le_reg_l (4 * area0)); lra.
  - destruct H1 as [[C _]|[_ H1]]; [lra|]. destruct H2 as [[C _]|[_ H2]]; [lra|]. destruct H3 as [[C _]|[_ H3]]; [lra|].
    repeat split; apply (Rmult_le_reg_l (- (4 * area0))); lra.
Qed.
Lemma convex_regular : strictly_convex p0 p1 p2 p3 -> exists m, 0 < m /\ shape_regular m p0 p1 p2 p3.
Proof.
  unfold strictly_convex, shape_regular. cbv zeta. set (t0 := turn p3 p0 p1). set (t1 := turn p0 p1 p2). set (t2 := turn p1 p2 p3). set (t3 := turn p2 p3 p0). intros H.
  set (av := (t0 + t1 + t2 + t3) / 4). destruct H as [(H0 & H1 & H2 & H3)|(H0 & H1 & H2 & H3)].
  - assert (P : 0 < av) by (unfold av; lra). exists (Rmin (Rmin t0 t1) (Rmin t2 t3) / av). split.
    + apply Rdiv_lt_0_compat; [|exact P]. repeat apply Rmin_glb_lt; assumption.
    + replace (Rmin (Rmin t0 t1) (Rmin t2 t3) / av * av) with (Rmin (Rmin t0 t1) (Rmin t2 t3)) by (field; lra).
      pose proof (Rmin_l (Rmin t0 t1) (Rmin t2 t3)). pose proof (Rmin_r (Rmin t0 t1) (Rmin t2 t3)). pose proof (Rmin_l t0 t1). pose proof (Rmin_r t0 t1). pose proof (Rmin_l t2 t3). pose proof (Rmin_r t2 t3).
      repeat split; left; (split; [exact P|lra]).
  - assert (P : av < 0) by (unfold av; lra). exists (Rmax (Rmax t0 t1) (Rmax t2 t3) / av). split.
    + replace (Rmax (Rmax t0 t1) (Rmax t2 t3) / av) with (- Rmax (Rmax t0 t1) (Rmax t2 t3) / - av) by (field; lra). apply Rdiv_lt_0_compat; [|lra].
      assert (Rmax (Rmax t0 t1) (Rmax t2 t3) < 0) by (repeat apply Rmax_lub_lt; assumption). lra.
    + replace (Rmax (Rmax t0 t1) (Rmax t2 t3) / av * av) with (Rmax (Rmax t0 t1) (Rmax t2 t3)) by (field; lra).
      pose proof (Rmax_l (Rmax t0 t1) (Rmax t2 t3)). pose proof (Rmax_r (Rmax t0 t1) (Rmax t2 t3)). pose proof (Rmax_l t0 t1). pose proof (Rmax_r t0 t1). pose proof (Rmax_l t2 t3). pose proof (Rmax_r t2 t3).
      repeat split; right; (split; [exact P|lra]).
Qed.

Lemma area0_ref : area0 <> 0 -> determinant 2 (el_jacobian quad4 vs zero_vec) <> 0.
Proof.
  intros N. unfold determinant. destruct (quad_jac zero_vec 0) as [-> ->]. destruct (quad_jac zero_vec 1) as [-> ->]. unfold zero_vec. unfold area0 in N.
  intros Z. apply N. rewrite <- Z. ring.
Qed.

(** * the Newton iteration *)
Section iteration.
Context (a b : R) (Na : area0 <> 0) (E3 : forall k, (k < 2)%nat -> k3 k = a * k1 k + b * k2 k).
(** the point to be found is the image of (u, v) *)
Context (u v : R) (x : vec) (Ex : forall k, (k < 2)%nat -> x k = k0 k + k1 k * u + k2 k * v + k3 k * (u * v)).
Let F := map_residual quad4 vs x.
Let js := jacobian_solver quad4 2 vs.
Let s := 1 + a * v + b * u.
Let c := a * b.
(** iterates lie on a line through (u, v) *)
Definition at_param (t : R) (xi : vec) : Prop := xi 0%nat = u + t * a /\ xi 1%nat = v + t * b.
Definition next_param (t : R) : R := c * (t * t) / (s + 2 * c * t).

Lemma line_residual t xi : at_param t xi -> veq 2 (F xi) (fun k => t * (s + c * t) * k3 k).
Proof.
  intros [H0 H1] k Hk. unfold F, map_residual. rewrite (quad_map xi k), (Ex k Hk), H0, H1. unfold s, c.
  assert (E := E3 k Hk). assert (G : k1 k * (u + t * a) + k2 k * (v + t * b) = k1 k * u + k2 k * v + t * k3 k) by (rewrite E; ring).
  replace (k0 k + k1 k * (u + t * a) + k2 k * (v + t * b)) with (k0 k + (k1 k * (u + t * a) + k2 k * (v + t * b))) by ring. rewrite G. ring.
Qed.
Lemma line_norm t xi : at_param t xi -> norm 2 (F xi) = Rabs (t * (s + c * t)) * norm 2 k3.
Proof. intros H. rewrite (norm_ext 2 _ _ (line_residual t xi H)). apply norm_scale. Qed.

Lemma line_step t xi : at_param t xi -> s + 2 * c * t <> 0 -> exists d, js xi (F xi) = Some d /\ at_param (next_param t) (axpy 1 (fun i => d i * -1) xi).
Proof.
  intros Ht Nd. destruct Ht as [H0 H1]. unfold js, jacobian_solver.
  destruct (lu_solve 2 (el_jacobian quad4 vs xi) (F xi)) as [d|] eqn:S.
  2:{ exfalso. apply lu_none in S. unfold determinant in S. destruct (quad_jac xi 0) as [J00 J01]. destruct (quad_jac xi 1) as [J10 J11]. rewrite J00, J01, J10, J11, H0, H1 in S.
      assert (Z : area0 * (s + 2 * c * t) = 0). { rewrite <- S. unfold area0, s, c. rewrite (E3 0%nat), (E3 1%nat) by lia. ring. }
      apply Rmult_integral in Z. tauto. }
  exists d. split; [reflexivity|]. set (q := t * (s + c * t) / (s + 2 * c * t)).
  assert (U : veq 2 d (fun i => q * (if (i =? 0)%nat then a else b))).
  { apply (lu_unique 2 _ _ _ _ ltac:(lia) S). intros k Hk. rewrite (line_residual t xi (conj H0 H1) k Hk). unfold mulv, summ. cbn [Nat.eqb].
    destruct (quad_jac xi k) as [-> ->]. rewrite H0, H1.
    replace (0 + (k1 k + k3 k * (v + t * b)) * (q * a) + (k2 k + k3 k * (u + t * a)) * (q * b)) with (q * ((a * k1 k + b * k2 k) + k3 k * (a * v + b * u + 2 * (a * b) * t))) by ring.
    rewrite <- (E3 k Hk). unfold q. unfold s, c in *. field. exact Nd. }
  split; unfold axpy; [rewrite (U 0%nat) by lia|rewrite (U 1%nat) by lia]; cbn [Nat.eqb]; rewrite ?H0, ?H1; unfold next_param, q; field; exact Nd.
Qed.

Lemma first_step : exists d, js zero_vec (F zero_vec) = Some d /\ at_param (u * v) (axpy 1 (fun i => d i * -1) zero_vec).
Proof.
  unfold js, jacobian_solver. destruct (lu_solve 2 (el_jacobian quad4 vs zero_vec) (F zero_vec)) as [d|] eqn:S.
  2:{ exfalso. apply lu_none in S. exact (area0_ref Na S). }
  exists d. split; [reflexivity|].
  assert (U : veq 2 d (fun i => - (if (i =? 0)%nat then u + u * v * a else v + u * v * b))).
  { apply (lu_unique 2 _ _ _ _ ltac:(lia) S). intros k Hk. unfold F, map_residual. rewrite (quad_map zero_vec k), (Ex k Hk). unfold mulv, summ. cbn [Nat.eqb].
    destruct (quad_jac zero_vec k) as [-> ->]. unfold zero_vec. rewrite (E3 k Hk). ring. }
  split; unfold axpy; [rewrite (U 0%nat) by lia|rewrite (U 1%nat) by lia]; cbn [Nat.eqb]; unfold zero_vec; ring.
Qed.

Lemma next_positive t : 0 < s -> 0 < s + 2 * c * t -> 0 < s + 2 * c * next_param t.
Proof.
  intros Hs Hd. unfold next_param. assert (0 <= (c * t) * (c * t) / (s + 2 * c * t)) by (apply Rmult_le_pos; [nra|left; now apply Rinv_0_lt_compat]).
  replace (2 * c * (c * (t * t) / (s + 2 * c * t))) with (2 * ((c * t) * (c * t) / (s + 2 * c * t))) by (field; lra). lra.
Qed.

Context (tol : R) (m : nat).
Lemma loop_ok j : forall t xi k fuel, at_param t xi -> 0 < s -> 0 < s + 2 * c * t -> (k + j <= m)%nat -> (j < fuel)%nat ->
  Rabs (Nat.iter j next_param t * (s + c * Nat.iter j next_param t)) * norm 2 k3 <= tol ->
  exists res i, newton_loop 2 fuel F js no_line_search tol (Some m) (NewtonState xi (F xi) k) = Some res /\ nr_status res = inl i.
Proof.
  induction j as [|j IH]; intros t xi k fuel Ht Hs Hd Hk Hf Hr; (destruct fuel as [|fuel]; [lia|]).
  - cbn [Nat.iter nat_rect] in Hr. rewrite newton_stops; [eexists _, _; split; reflexivity|]. rewrite (line_norm t xi Ht). exact Hr.
  - destruct (Rle_lt_dec (norm 2 (F xi)) tol) as [Le|Lt].
    { rewrite newton_stops by exact Le. eexists _, _; split; reflexivity. }
    destruct (line_step t xi Ht ltac:(lra)) as (d & Ed & Ht'). rewrite (newton_moves 2 fuel F js tol m xi k d Lt ltac:(lia) Ed).
    apply (IH (next_param t)); [exact Ht'|exact Hs|now apply next_positive|lia|lia|]. rewrite iter_in. exact Hr.
Qed.
Lemma loop_fails j : forall t xi k fuel, at_param t xi -> 0 < s -> 0 < s + 2 * c * t -> (k + j = m)%nat -> (j < fuel)%nat ->
  (forall i, (i <= j)%nat -> tol < Rabs (Nat.iter i next_param t * (s + c * Nat.iter i next_param t)) * norm 2 k3) ->
  exists res, newton_loop 2 fuel F js no_line_search tol (Some m) (NewtonState xi (F xi) k) = Some res /\ nr_status res = inr (MaximumIterationsReached m).
Proof.
  induction j as [|j IH]; intros t xi k fuel Ht Hs Hd Hk Hf Hr; (destruct fuel as [|fuel]; [lia|]);
    assert (Lt : tol < norm 2 (F xi)) by (rewrite (line_norm t xi Ht); apply (Hr 0%nat); lia).
  - replace k with m by lia. rewrite newton_limit by exact Lt. eexists. split; reflexivity.
  - destruct (line_step t xi Ht ltac:(lra)) as (d & Ed & Ht'). rewrite (newton_moves 2 fuel F js tol m xi k d Lt ltac:(lia) Ed).
    apply (IH (next_param t)); [exact Ht'|exact Hs|now apply next_positive|lia|lia|]. intros i Hi. rewrite iter_in. apply (Hr (S i)). lia.
Qed.
End iteration.
End quad.

(** * the recursion of the parameter *)
Lemma corner_bound a b m : 0 < m -> m <= 1 - a - b -> m <= 1 - a + b -> m <= 1 + a + b -> m <= 1 + a - b -> m <= 1 + a + b + 2 * (a * b).
Proof.
  intros Hm H0 H1 H2 H3. destruct (Rle_dec 0 (a * b)) as [P|N]; [lra|].
  assert (K : forall x y, x + y = a + b -> x * y = a * b -> 0 <= x -> m <= 1 - x + y -> m <= 1 + x + y + 2 * (x * y)).
  { intros x y E1 E2 Hx Hy. destruct (Rle_dec (- y) (1 / 2)) as [S|L].
    - assert (0 <= x * (1 + 2 * y)) by (apply Rmult_le_pos; lra). lra.
    - assert (x * (1 + 2 * y) >= (1 - m + y) * (1 + 2 * y)) by nra. assert (0 <= (1 + y) * (1 + y - m)) by (apply Rmult_le_pos; lra). nra. }
  destruct (Rle_dec 0 a) as [A|A]; [apply (K a b); lra|].
  assert (B : 0 <= b) by nra. replace (1 + a + b + 2 * (a * b)) with (1 + b + a + 2 * (b * a)) by ring. apply (K b a); lra.
Qed.
Lemma start_bound a b m u v : 0 < m -> m <= 1 - a - b -> m <= 1 - a + b -> m <= 1 + a + b -> m <= 1 + a - b -> -1 <= u <= 1 -> -1 <= v <= 1 ->
  m <= 1 + a * v + b * u <= 2 /\ m <= 1 + a * v + b * u + 2 * (a * b) * (u * v) /\ Rabs (a * b) <= 1 / 4 /\ Rabs (u * v) <= 1.
Proof.
  intros Hm H0 H1 H2 H3 Hu Hv.
  assert (Bil : forall f0 f1 f2 f3 lo, lo <= f0 -> lo <= f1 -> lo <= f2 -> lo <= f3 ->
    lo <= (1 + u) * (1 + v) / 4 * f0 + (1 - u) * (1 - v) / 4 * f1 + (1 + u) * (1 - v) / 4 * f2 + (1 - u) * (1 + v) / 4 * f3).
  { intros f0 f1 f2 f3 lo L0 L1 L2 L3.
    assert (W0 : 0 <= (1 + u) * (1 + v)) by (apply Rmult_le_pos; lra). assert (W1 : 0 <= (1 - u) * (1 - v)) by (apply Rmult_le_pos; lra).
    assert (W2 : 0 <= (1 + u) * (1 - v)) by (apply Rmult_le_pos; lra). assert (W3 : 0 <= (1 - u) * (1 + v)) by (apply Rmult_le_pos; lra).
    assert (0 <= (1 + u) * (1 + v) * (f0 - lo)) by (apply Rmult_le_pos; lra). assert (0 <= (1 - u) * (1 - v) * (f1 - lo)) by (apply Rmult_le_pos; lra).
    assert (0 <= (1 + u) * (1 - v) * (f2 - lo)) by (apply Rmult_le_pos; lra). assert (0 <= (1 - u) * (1 + v) * (f3 - lo)) by (apply Rmult_le_pos; lra). nra. }
  split; [|split; [|split]].
  - split.
    + replace (1 + a * v + b * u) with ((1 + u) * (1 + v) / 4 * (1 + a + b) + (1 - u) * (1 - v) / 4 * (1 - a - b) + (1 + u) * (1 - v) / 4 * (1 - a + b) + (1 - u) * (1 + v) / 4 * (1 + a - b)) by field.
      apply Bil; lra.
    + assert (m - 1 <= 1 - (1 + a * v + b * u)); [|lra].
      replace (1 - (1 + a * v + b * u)) with ((1 + u) * (1 + v) / 4 * (- a - b) + (1 - u) * (1 - v) / 4 * (a + b) + (1 + u) * (1 - v) / 4 * (a - b) + (1 - u) * (1 + v) / 4 * (- a + b)) by field.
      apply Bil; lra.
  - replace (1 + a * v + b * u + 2 * (a * b) * (u * v)) with ((1 + u) * (1 + v) / 4 * (1 + a + b + 2 * (a * b)) + (1 - u) * (1 - v) / 4 * (1 + - a + - b + 2 * (- a * - b))
      + (1 + u) * (1 - v) / 4 * (1 + - a + b + 2 * (- a * b)) + (1 - u) * (1 + v) / 4 * (1 + a + - b + 2 * (a * - b))) by field.
    apply Bil; apply corner_bound; lra.
  - rewrite Rabs_mult. assert (S : Rabs a + Rabs b <= 1) by (unfold Rabs; destruct (Rcase_abs a), (Rcase_abs b); lra).
    pose proof (Rabs_pos a). pose proof (Rabs_pos b). pose proof (Rle_0_sqr (Rabs a - Rabs b)). unfold Rsqr in *. nra.
  - rewrite Rabs_mult. assert (Rabs u <= 1) by (apply Rabs_le; lra). assert (Rabs v <= 1) by (apply Rabs_le; lra). pose proof (Rabs_pos u). pose proof (Rabs_pos v). nra.
Qed.

Section recursion.
Context (a b u v : R).
Local Notation c := (a * b).
Local Notation s := (1 + a * v + b * u).
Local Notation next := (next_param a b u v).
Lemma next_abs t : 0 < s -> 0 <= c * t -> Rabs (next t) = Rabs c * (Rabs t * Rabs t) / (s + 2 * (Rabs c * Rabs t)) /\ 0 <= c * next t.
Proof.
  intros Hs Hc. unfold next_param. rewrite <- (Rabs_mult c t), (Rabs_right (c * t)) by lra. split.
  - unfold Rdiv. rewrite !Rabs_mult, Rabs_inv. rewrite (Rabs_right (s + 2 * c * t)) by lra. f_equal. f_equal. ring.
  - replace (c * (c * (t * t) / (s + 2 * c * t))) with ((c * t) * (c * t) / (s + 2 * c * t)) by (field; lra). apply Rmult_le_pos; [nra|]. left. apply Rinv_0_lt_compat. lra.
Qed.
Lemma next_half t : 0 < s -> 0 <= c * t -> Rabs (next t) <= Rabs t / 2.
Proof.
  intros Hs Hc. rewrite (proj1 (next_abs t Hs Hc)). pose proof (Rabs_pos c) as C. pose proof (Rabs_pos t) as T. assert (0 <= Rabs c * Rabs t) by nra.
  apply (Rmult_le_reg_r (s + 2 * (Rabs c * Rabs t))); [lra|]. replace (Rabs c * (Rabs t * Rabs t) / (s + 2 * (Rabs c * Rabs t)) * (s + 2 * (Rabs c * Rabs t))) with (Rabs c * (Rabs t * Rabs t)) by (field; lra).
  nra.
Qed.
Lemma next_bound m t tau : 0 < m <= s -> Rabs c <= 1 / 4 -> 0 <= c * t -> Rabs t <= tau -> Rabs (next t) <= tau * tau / 4 / (m + tau / 2).
Proof.
  intros Hs Hq Hc Ht. rewrite (proj1 (next_abs t ltac:(lra) Hc)). pose proof (Rabs_pos c) as C. pose proof (Rabs_pos t) as T. set (g := Rabs c) in *. set (w := Rabs t) in *.
  assert (0 <= g * w) by nra.
  apply (Rmult_le_reg_r (s + 2 * (g * w))); [lra|]. apply (Rmult_le_reg_r (m + tau / 2)); [lra|].
  replace (g * (w * w) / (s + 2 * (g * w)) * (s + 2 * (g * w)) * (m + tau / 2)) with (g * (w * w) * m + (g * w) * (w * tau / 2)) by (field; lra).
  replace (tau * tau / 4 / (m + tau / 2) * (s + 2 * (g * w)) * (m + tau / 2)) with (tau * tau / 4 * s + (g * w) * (tau * tau / 2)) by (field; lra).
  assert (w * w <= tau * tau) by nra. assert (w * tau <= tau * tau) by nra. apply Rplus_le_compat; [|apply Rmult_le_compat_l; lra].
  apply Rle_trans with (1 / 4 * (tau * tau) * s); [|lra]. apply Rmult_le_compat; [nra|lra|apply Rmult_le_compat; nra|lra].
Qed.
Lemma iter_half j t : 0 < s -> 0 <= c * t -> Rabs (Nat.iter j next t) <= Rabs t * (1 / 2) ^ j /\ 0 <= c * Nat.iter j next t.
Proof.
  intros Hs Hc. induction j as [|j [IH1 IH2]]; [cbn; split; [lra|exact Hc]|].
  change (Nat.iter (S j) next t) with (next (Nat.iter j next t)). split; [|now apply next_abs]. pose proof (next_half _ Hs IH2). cbn [pow]. lra.
Qed.
End recursion.

Lemma residual_bound a b u v t w : Rabs (a * b) <= 1 / 4 -> 0 < 1 + a * v + b * u <= 2 -> Rabs t <= w -> w <= 1 -> Rabs (t * (1 + a * v + b * u + a * b * t)) <= 3 * w.
Proof.
  intros Hc Hs Ht Hw. rewrite Rabs_mult. pose proof (Rabs_pos t) as P. assert (B : Rabs (1 + a * v + b * u + a * b * t) <= 3).
  { eapply Rle_trans; [apply Rabs_triang|]. rewrite (Rabs_right (1 + a * v + b * u)) by lra. rewrite (Rabs_mult (a * b) t). pose proof (Rabs_pos (a * b)). assert (Rabs (a * b) * Rabs t <= 1 * 1) by (apply Rmult_le_compat; lra). lra. }
  pose proof (Rabs_pos (1 + a * v + b * u + a * b * t)). nra.
Qed.

Lemma k3_bound (p0 p1 p2 p3 : vec) : norm 2 (k3 p0 p1 p2 p3) <= diameter quad4 2 [p0; p1; p2; p3] / 2.
Proof.
  change (diameter quad4 2 [p0; p1; p2; p3]) with (vertices_diameter 2 [p0; p1; p2; p3]). set (M := vertices_diameter 2 [p0; p1; p2; p3]).
  destruct (vertices_diameter_max 2 [p0; p1; p2; p3]) as [Up _]. fold M in Up.
  assert (M0 : 0 <= M) by apply (proj1 (fold_max_ge _ 0)).
  assert (Sq : forall p q : vec, dist 2 p q <= M -> dist2 2 p q <= M * M).
  { intros p q H. unfold dist in H. rewrite <- (sqrt_sqrt (dist2 2 p q)) by apply dist2_nonneg. pose proof (sqrt_pos (dist2 2 p q)). nra. }
  pose proof (Sq _ _ (Up 0%nat 1%nat ltac:(cbn; lia) ltac:(cbn; lia))) as A. pose proof (Sq _ _ (Up 2%nat 3%nat ltac:(cbn; lia) ltac:(cbn; lia))) as B.
  clearbody M. clear Up Sq. unfold dist2, inner in A, B. cbn in A, B. unfold norm. rewrite <- (sqrt_square (M / 2)) by lra. apply sqrt_le_1_alt. unfold k3. cbn.
  replace (p0 0%nat - p1 0%nat + p2 0%nat - p3 0%nat) with ((p0 0%nat - p1 0%nat) + (p2 0%nat - p3 0%nat)) by ring.
  replace (p0 1%nat - p1 1%nat + p2 1%nat - p3 1%nat) with ((p0 1%nat - p1 1%nat) + (p2 1%nat - p3 1%nat)) by ring.
  set (x := p0 0%nat - p1 0%nat) in *. set (y := p0 1%nat - p1 1%nat) in *. set (z := p2 0%nat - p3 0%nat) in *. set (w := p2 1%nat - p3 1%nat) in *.
  clearbody x y z w. pose proof (Rle_0_sqr (x - z)) as P. pose proof (Rle_0_sqr (y - w)) as Q. unfold Rsqr in P, Q. nra.
Qed.

Lemma in_coeffs (p0 p1 p2 p3 x xi : vec) : veq 2 x (el_map quad4 [p0; p1; p2; p3] xi) ->
  forall k, (k < 2)%nat -> x k = k0 p0 p1 p2 p3 k + k1 p0 p1 p2 p3 k * xi 0%nat + k2 p0 p1 p2 p3 k * xi 1%nat + k3 p0 p1 p2 p3 k * (xi 0%nat * xi 1%nat).
Proof. intros E k Hk. rewrite (E k Hk). apply quad_map. Qed.
Lemma convex_diameter (p0 p1 p2 p3 : vec) : turn p0 p1 p2 <> 0 -> 0 < diameter quad4 2 [p0; p1; p2; p3].
Proof.
  intros N. change (diameter quad4 2 [p0; p1; p2; p3]) with (vertices_diameter 2 [p0; p1; p2; p3]).
  destruct (vertices_diameter_max 2 [p0; p1; p2; p3]) as [Up _]. eapply Rlt_le_trans; [|apply (Up 0%nat 1%nat); cbn; lia]. apply sqrt_lt_R0.
  destruct (dist2_nonneg 2 p0 p1) as [P|Z]; [exact P|]. exfalso. apply N. symmetry in Z. apply dist2_zero in Z. unfold turn. rewrite (Z 0%nat), (Z 1%nat) by lia. ring.
Qed.

(** the loop from the first step on *)
Lemma map_from_first (p0 p1 p2 p3 : vec) a b u v x limit : decomposed p0 p1 p2 p3 0 a b ->
  (forall k, (k < 2)%nat -> x k = k0 p0 p1 p2 p3 k + k1 p0 p1 p2 p3 k * u + k2 p0 p1 p2 p3 k * v + k3 p0 p1 p2 p3 k * (u * v)) -> (1 <= limit)%nat ->
  let F := map_residual quad4 [p0; p1; p2; p3] x in let tol := newton_tolerance quad4 2 [p0; p1; p2; p3] in
  tol < norm 2 (F zero_vec) -> exists xi, at_param a b u v (u * v) xi /\
    map_with_limit limit quad4 2 [p0; p1; p2; p3] x = newton_loop 2 limit F (jacobian_solver quad4 2 [p0; p1; p2; p3]) no_line_search tol (Some limit) (NewtonState xi (F xi) 1).
Proof.
  intros (Na & E3 & _) Ex Hl F tol Lt. destruct (first_step p0 p1 p2 p3 a b Na E3 u v x Ex) as (d & Ed & Hp). exists (axpy 1 (fun i => d i * -1) zero_vec). split; [exact Hp|].
  unfold map_with_limit, newton, newton_line_search. fold F tol. destruct limit as [|l]; [lia|]. rewrite (newton_moves 2 (S l) F _ tol (S l) zero_vec 0 d Lt ltac:(lia) Ed). reflexivity.
Qed.
Lemma decomposed_weaken p0 p1 p2 p3 m a b : 0 <= m -> decomposed p0 p1 p2 p3 m a b -> decomposed p0 p1 p2 p3 0 a b.
Proof. intros Hm (N & E & H). split; [exact N|]. split; [exact E|]. lra. Qed.

Lemma map_reaches (p0 p1 p2 p3 : vec) m a b xi x limit j : 0 < m -> decomposed p0 p1 p2 p3 m a b -> in_reference quad4 xi -> veq 2 x (el_map quad4 [p0; p1; p2; p3] xi) -> (S j <= limit)%nat ->
  (let t := Nat.iter j (next_param a b (xi 0%nat) (xi 1%nat)) (xi 0%nat * xi 1%nat) in
   Rabs (t * (1 + a * xi 1%nat + b * xi 0%nat + a * b * t)) * norm 2 (k3 p0 p1 p2 p3) <= newton_tolerance quad4 2 [p0; p1; p2; p3]) ->
  exists res i, map_with_limit limit quad4 2 [p0; p1; p2; p3] x = Some res /\ nr_status res = inl i.
Proof.
  intros Hm Hdec [Hu Hv] Ex Hj Hr. pose proof (in_coeffs p0 p1 p2 p3 x xi Ex) as Ex'. set (F := map_residual quad4 [p0; p1; p2; p3] x). set (tol := newton_tolerance quad4 2 [p0; p1; p2; p3]).
  destruct (Rle_lt_dec (norm 2 (F zero_vec)) tol) as [Le|Lt].
  { unfold map_with_limit, newton, newton_line_search. fold F tol. rewrite newton_stops by exact Le. eexists _, _. split; reflexivity. }
  destruct (map_from_first p0 p1 p2 p3 a b (xi 0%nat) (xi 1%nat) x limit (decomposed_weaken _ _ _ _ m a b ltac:(lra) Hdec) Ex' ltac:(lia) Lt) as (xi1 & Hp & ->).
  destruct Hdec as (Na & E3 & H0 & H1 & H2 & H3). destruct (start_bound a b m (xi 0%nat) (xi 1%nat) Hm H0 H1 H2 H3 Hu Hv) as (Hs & Hd & _).
  apply (loop_ok p0 p1 p2 p3 a b Na E3 (xi 0%nat) (xi 1%nat) x Ex' tol limit j (xi 0%nat * xi 1%nat)); [exact Hp|lra|lra|lia|lia|exact Hr].
Qed.

(** the residual becomes as small as wanted *)
Lemma line_converges (p0 p1 p2 p3 : vec) m a b u v eps : 0 < m -> decomposed p0 p1 p2 p3 m a b -> -1 <= u <= 1 -> -1 <= v <= 1 -> 0 < eps -> let t2 := next_param a b u v (u * v) in
  exists N, let t := Nat.iter N (next_param a b u v) t2 in Rabs t <= Rabs t2 /\ Rabs (t * (1 + a * v + b * u + a * b * t)) * norm 2 (k3 p0 p1 p2 p3) <= eps.
Proof.
  intros Hm Hdec Hu Hv Heps t2. pose proof Hdec as (_ & _ & H0 & H1 & H2 & H3). destruct (start_bound a b m u v Hm H0 H1 H2 H3 Hu Hv) as (Hs & Hd & Hab & Huv).
  assert (C2 : 0 <= a * b * t2).
  { unfold t2, next_param. replace (a * b * (a * b * (u * v * (u * v)) / (1 + a * v + b * u + 2 * (a * b) * (u * v)))) with ((a * b * (u * v)) * (a * b * (u * v)) / (1 + a * v + b * u + 2 * (a * b) * (u * v))) by (field; lra).
    apply Rmult_le_pos; [nra|]. left. apply Rinv_0_lt_compat. lra. }
  set (K := norm 2 (k3 p0 p1 p2 p3)). assert (K0 : 0 <= K) by apply sqrt_pos. set (B := (2 + 1 / 4 * Rabs t2) * K * Rabs t2 + 1).
  assert (B1 : 1 <= B). { unfold B. pose proof (Rabs_pos t2). assert (0 <= (2 + 1 / 4 * Rabs t2) * K * Rabs t2) by (apply Rmult_le_pos; [apply Rmult_le_pos|]; lra). lra. }
  destruct (pow_lt_1_zero (1 / 2) ltac:(rewrite Rabs_right; lra) (eps / B) ltac:(apply Rdiv_lt_0_compat; lra)) as (N & HN).
  exists N. cbv zeta. fold K.
  destruct (iter_half a b u v N t2 ltac:(lra) C2) as [T _]. set (t := Nat.iter N (next_param a b u v) t2) in *.
  specialize (HN N (le_n N)). rewrite Rabs_right in HN by (apply Rle_ge, pow_le; lra). set (h := (1 / 2) ^ N) in *.
  assert (Hh : 0 <= h <= 1). { split; [apply pow_le; lra|]. pose proof (pow_incr (1 / 2) 1 N ltac:(lra)) as W. rewrite pow1 in W. exact W. }
  pose proof (Rabs_pos t2) as P2. pose proof (Rabs_pos t) as P. assert (Tt : Rabs t <= Rabs t2) by nra.
  rewrite Rabs_mult. assert (Q : Rabs (1 + a * v + b * u + a * b * t) <= 2 + 1 / 4 * Rabs t2).
  { eapply Rle_trans; [apply Rabs_triang|]. rewrite (Rabs_right (1 + a * v + b * u)) by lra. rewrite (Rabs_mult (a * b) t). pose proof (Rabs_pos (a * b)). assert (Rabs (a * b) * Rabs t <= 1 / 4 * Rabs t2) by (apply Rmult_le_compat; lra). lra. }
  pose proof (Rabs_pos (1 + a * v + b * u + a * b * t)). split; [exact Tt|].
  apply Rle_trans with (Rabs t2 * h * (2 + 1 / 4 * Rabs t2) * K).
  { apply Rmult_le_compat_r; [exact K0|]. apply Rmult_le_compat; lra. }
  assert (HB : h * B <= eps). { apply (Rmult_le_reg_r (/ B)); [apply Rinv_0_lt_compat; lra|]. rewrite Rmult_assoc, Rinv_r by lra. unfold Rdiv in HN. lra. }
  replace (Rabs t2 * h * (2 + 1 / 4 * Rabs t2) * K) with (h * (B - 1)) by (unfold B; ring). nra.
Qed.

(** C90: in a strictly convex quadrilateral the iteration finds every point of the element, given enough iterations. *)
Theorem C90_quad_converges : forall p0 p1 p2 p3 x xi : vec, strictly_convex p0 p1 p2 p3 -> in_reference quad4 xi -> veq 2 x (el_map quad4 [p0; p1; p2; p3] xi) ->
  exists N, forall limit, (N <= limit)%nat -> exists res k, map_with_limit limit quad4 2 [p0; p1; p2; p3] x = Some res /\ nr_status res = inl k /\
    dist 2 (el_map quad4 [p0; p1; p2; p3] (nr_x res)) x <= / 10 ^ 12 * diameter quad4 2 [p0; p1; p2; p3].
Proof.
  intros p0 p1 p2 p3 x xi Hc Hxi Ex. destruct (convex_regular p0 p1 p2 p3 Hc) as (m & Hm & Hr). destruct (regular_decomposed p0 p1 p2 p3 m Hr) as (a & b & Hdec).
  set (tol := newton_tolerance quad4 2 [p0; p1; p2; p3]).
  assert (Tpos : 0 < tol). { unfold tol, newton_tolerance. apply Rmult_lt_0_compat; [apply Rinv_0_lt_compat, pow_lt; lra|]. apply convex_diameter. destruct Hc as [H|H]; lra. }
  enough (G : exists N, forall limit, (N <= limit)%nat -> exists res k, map_with_limit limit quad4 2 [p0; p1; p2; p3] x = Some res /\ nr_status res = inl k).
  { destruct G as [N G]. exists N. intros limit Hl. destruct (G limit Hl) as (res & k & E & S). exists res, k. split; [exact E|]. split; [exact S|].
    destruct (C38_newton 2 _ _ _ _ _ _ _ _ (map_respects quad4 [p0; p1; p2; p3] x ltac:(cbn; tauto)) E S) as [H _]. exact H. }
  pose proof Hdec as (_ & _ & H0 & H1 & H2 & H3). pose proof Hxi as [Hu Hv]. destruct (start_bound a b m (xi 0%nat) (xi 1%nat) Hm H0 H1 H2 H3 Hu Hv) as (Hs & Hd & Hab & Huv).
  destruct (line_converges p0 p1 p2 p3 m a b (xi 0%nat) (xi 1%nat) tol Hm Hdec Hu Hv Tpos) as (N & _ & HN).
  exists (S (S N)). intros limit Hl. apply (map_reaches p0 p1 p2 p3 m a b xi x limit (S N) Hm Hdec Hxi Ex Hl). cbv zeta. rewrite iter_S, <- iter_in. exact HN.
Qed.
Print Assumptions C90_quad_converges.

(** C90: twenty iterations suffice if no corner is flatter than a hundredth of the mean. *)
Theorem C90_quad_twenty : forall p0 p1 p2 p3 x xi : vec, shape_regular (1 / 100) p0 p1 p2 p3 -> in_reference quad4 xi -> veq 2 x (el_map quad4 [p0; p1; p2; p3] xi) ->
  exists zeta, map_physical_coordinates quad4 2 [p0; p1; p2; p3] x = Some (inl zeta) /\
    dist 2 (el_map quad4 [p0; p1; p2; p3] zeta) x <= / 10 ^ 12 * diameter quad4 2 [p0; p1; p2; p3].
Proof.
  intros p0 p1 p2 p3 x xi Hr Hxi Ex. destruct (regular_decomposed p0 p1 p2 p3 _ Hr) as (a & b & Hdec). assert (Hm : 0 < 1 / 100) by lra.
  enough (G : exists res i, map_with_limit 20 quad4 2 [p0; p1; p2; p3] x = Some res /\ nr_status res = inl i).
  { destruct G as (res & i & E & S). exists (nr_x res). unfold map_physical_coordinates. rewrite E. cbn [option_map]. rewrite S. split; [reflexivity|].
    destruct (C38_newton 2 _ _ _ _ _ _ _ _ (map_respects quad4 [p0; p1; p2; p3] x ltac:(cbn; tauto)) E S) as [H _]. exact H. }
  pose proof Hdec as (_ & _ & H0 & H1 & H2 & H3). pose proof Hxi as [Hu Hv]. destruct (start_bound a b (1 / 100) (xi 0%nat) (xi 1%nat) Hm H0 H1 H2 H3 Hu Hv) as (Hs & Hd & Hab & Huv).
  apply (map_reaches p0 p1 p2 p3 (1 / 100) a b xi x 20 19 Hm Hdec Hxi Ex ltac:(lia)). cbv zeta. set (u := xi 0%nat) in *. set (v := xi 1%nat) in *.
  rewrite (iter_S _ 18), <- (iter_in (next_param a b u v) 18). set (t2 := next_param a b u v (u * v)).
  assert (C2 : 0 <= a * b * t2).
  { unfold t2, next_param. replace (a * b * (a * b * (u * v * (u * v)) / (1 + a * v + b * u + 2 * (a * b) * (u * v)))) with ((a * b * (u * v)) * (a * b * (u * v)) / (1 + a * v + b * u + 2 * (a * b) * (u * v))) by (field; lra).
    apply Rmult_le_pos; [nra|]. left. apply Rinv_0_lt_compat. lra. }
  assert (T2 : Rabs t2 <= 25).
  { unfold t2, next_param, Rdiv. rewrite !Rabs_mult, Rabs_inv. rewrite (Rabs_right (1 + a * v + b * u + 2 * (a * b) * (u * v))) by lra. rewrite <- !Rabs_mult.
    apply (Rmult_le_reg_r (1 + a * v + b * u + 2 * (a * b) * (u * v))); [lra|]. rewrite Rmult_assoc, Rinv_l, Rmult_1_r by lra.
    rewrite (Rabs_mult (a * b)), (Rabs_mult (u * v)). pose proof (Rabs_pos (a * b)). pose proof (Rabs_pos (u * v)).
    assert (Rabs (u * v) * Rabs (u * v) <= 1 * 1) by (apply Rmult_le_compat; lra). assert (Rabs (a * b) * (Rabs (u * v) * Rabs (u * v)) <= 1 / 4 * 1) by (apply Rmult_le_compat; [lra|nra|lra|lra]). lra. }
  assert (St : forall t tau tau', 0 <= a * b * t -> Rabs t <= tau -> tau * tau / 4 <= tau' * (1 / 100 + tau / 2) -> Rabs (next_param a b u v t) <= tau' /\ 0 <= a * b * next_param a b u v t).
  { intros t tau tau' Ct Ht Hb. split; [|apply next_abs; lra]. pose proof (Rabs_pos t). eapply Rle_trans; [apply (next_bound a b u v (1 / 100) t tau); lra|].
    apply (Rmult_le_reg_r (1 / 100 + tau / 2)); [lra|]. unfold Rdiv at 1. rewrite Rmult_assoc, Rinv_l by lra. lra. }
  assert (T17 : Rabs (Nat.iter 15 (next_param a b u v) t2) <= 1 / 100000000000000 /\ 0 <= a * b * Nat.iter 15 (next_param a b u v) t2).
  { destruct (iter_half a b u v 10 t2 ltac:(lra) C2) as [T C]. replace ((1 / 2) ^ 10) with (1 / 1024) in T by field.
    rewrite (iter_add _ 5 10). set (t := Nat.iter 10 (next_param a b u v) t2) in *.
    rewrite (iter_S _ 4), (iter_S _ 3), (iter_S _ 2), (iter_S _ 1), (iter_S _ 0). change (Nat.iter 0 (next_param a b u v) t) with t. clearbody t.
    assert (T' : Rabs t <= 25 / 1000) by lra. destruct (St t _ (7 / 1000) C T' ltac:(lra)) as [T11 C11]. destruct (St _ _ (1 / 1000) C11 T11 ltac:(lra)) as [T12 C12].
    destruct (St _ _ (25 / 1000000) C12 T12 ltac:(lra)) as [T13 C13]. destruct (St _ _ (16 / 1000000000) C13 T13 ltac:(lra)) as [T14 C14].
    exact (St _ _ (1 / 100000000000000) C14 T14 ltac:(lra)). }
  destruct T17 as [T17 C17]. set (t15 := Nat.iter 15 (next_param a b u v) t2) in *.
  assert (T20 : Rabs (Nat.iter 18 (next_param a b u v) t2) <= 1 / 100000000000000).
  { rewrite (iter_add _ 3 15). fold t15. destruct (iter_half a b u v 3 t15 ltac:(lra) C17) as [T _]. pose proof (Rabs_pos t15). replace ((1 / 2) ^ 3) with (1 / 8) in T by field. lra. }
  pose proof (residual_bound a b u v _ _ Hab ltac:(lra) T20 ltac:(lra)) as Rb. pose proof (k3_bound p0 p1 p2 p3) as K.
  match type of Rb with ?z <= _ => set (q := z) in * end. assert (K0 : 0 <= norm 2 (k3 p0 p1 p2 p3)) by apply sqrt_pos. assert (Q0 : 0 <= q) by apply Rabs_pos. unfold newton_tolerance. set (dm := diameter quad4 2 [p0; p1; p2; p3]) in *.
  replace (/ 10 ^ 12) with (1 / 1000000000000) by field.
  assert (q * norm 2 (k3 p0 p1 p2 p3) <= 3 * (1 / 100000000000000) * (dm / 2)). { apply Rmult_le_compat; lra. } lra.
Qed.
Print Assumptions C90_quad_twenty.

(** a point in a quadrilateral that is no parallelogram *)
Example C90_quad_example : let vs : list vec := map pt [[0; 0]; [4; 0]; [3; 3]; [0; 2]] in let x : vec := pt [45 / 16; 11 / 16] in
  exists zeta, map_physical_coordinates quad4 2 vs x = Some (inl zeta) /\ dist 2 (el_map quad4 vs zeta) x <= / 10 ^ 12 * diameter quad4 2 vs.
Proof.
  cbv zeta. cbn [map]. apply (C90_quad_twenty _ _ _ _ _ (pt [1 / 2; -1 / 2])).
  - unfold shape_regular, turn, pt. cbn. repeat split; left; lra.
  - cbn. lra.
  - intros [|[|k]] Hk; [| |lia]; rewrite quad_map; unfold k0, k1, k2, k3, pt; cbn; field.
Qed.

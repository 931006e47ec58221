(** C86: L2 and H1 seminorm errors. *)
From stdpp Require Import base list list_numbers sets.
From Coq Require Import Reals Lia Lra FunctionalExtensionality.
From Coquelicot Require Import Coquelicot.
From Verif Require Import Prelude NestedVecModel ParadisModel VectorModel VectorSpec VectorProofs ParadisSpec ColoringProofs CsrModel CsrSpec PropVector PropCsr TableModel.
From Verif Require Import MaterialModel EllipticModel PropMaterial PropObjective PropElliptic PropEllipticOps PropMass GlobalModel PropGlobal PropGlobalForms IntegrateModel PropVolumeForm PropIntegrate.
Local Open Scope R_scope.
Local Notation vec := (nat -> R).
Local Notation mat := (nat -> nat -> R).

(** * specification *)
(** the integral over the mesh, by quadrature, of a function of element and point *)
Definition mesh_sum {Pt} (sp : fe_space Pt) (elems : nat) (w : nat -> list R) (p : nat -> list Pt) (f : nat -> Pt -> R) : R :=
  summ elems (fun e => point_sum (w e) (p e) (fun wt pt => wt * Rabs (determinant (el_dim (fs_element sp e)) (el_jacobian (fs_element sp e) pt)) * f e pt)).
(** squared norms of vectors with [s] components and of [d] by [s] matrices *)
Definition sq (s : nat) (v : vec) : R := summ s (fun i => v i * v i).
Definition sqm (d s : nat) (A : mat) : R := summ d (fun i => summ s (fun j => A i j * A i j)).
Definition nonneg_weights (elems : nat) (w : nat -> list R) : Prop := forall e wt, (e < elems)%nat -> In wt (w e) -> 0 <= wt.
Definition positive_weights (elems : nat) (w : nat -> list R) : Prop := forall e wt, (e < elems)%nat -> In wt (w e) -> 0 < wt.

(** * sums *)
Section sums.
Context {Pt : Type} (sp : fe_space Pt) (elems : nat) (w : nat -> list R) (p : nat -> list Pt).
Notation msum := (mesh_sum sp elems w p).
Lemma msum_ext f g : (forall e wt pt, (e < elems)%nat -> In (wt, pt) (combine (w e) (p e)) -> f e pt = g e pt) -> msum f = msum g.
Proof. intros H. unfold mesh_sum. apply summ_ext. intros e He. apply point_sum_ext. intros wt pt Hin. rewrite (H e wt pt He Hin). reflexivity. Qed.
Lemma msum_plus f g : msum (fun e pt => f e pt + g e pt) = msum f + msum g.
Proof. unfold mesh_sum. rewrite <- summ_plus. apply summ_ext. intros e He. rewrite <- point_sum_plus. apply point_sum_ext. intros. ring. Qed.
Lemma msum_l c f : msum (fun e pt => c * f e pt) = c * msum f.
Proof. unfold mesh_sum. rewrite <- summ_l. apply summ_ext. intros e He. rewrite <- point_sum_l. apply point_sum_ext. intros. ring. Qed.
Lemma msum_nonneg f : nonneg_weights elems w -> (forall e pt, 0 <= f e pt) -> 0 <= msum f.
Proof.
  intros Hw Hf. apply summ_nonneg. intros e He. apply point_sum_nonneg. intros wt pt Hin. apply Rmult_le_pos; [|apply Hf]. apply Rmult_le_pos; [|apply Rabs_pos]. apply (Hw e); [exact He|]. apply in_combine_l in Hin. exact Hin.
Qed.
Lemma summ_zero_inv n f : (forall k, (k < n)%nat -> 0 <= f k) -> summ n f = 0 -> forall k, (k < n)%nat -> f k = 0.
Proof.
  induction n as [|n IH]; intros H E k Hk; [lia|]. cbn [summ] in E. pose proof (H n ltac:(lia)). assert (0 <= summ n f) by (apply summ_nonneg; intros; apply H; lia).
  destruct (Nat.eq_dec k n) as [->|]; [lra|]. apply IH; [intros; apply H; lia|lra|lia].
Qed.
Lemma msum_zero f : positive_weights elems w -> (forall e pt, 0 <= f e pt) -> (forall e, (e < elems)%nat -> regular_points (fs_element sp e) (w e) (p e)) -> msum f = 0 ->
  forall e wt pt, (e < elems)%nat -> In (wt, pt) (combine (w e) (p e)) -> f e pt = 0.
Proof.
  intros Hw Hf Hr E e wt pt He Hin.
  assert (T : forall e wt pt, (e < elems)%nat -> In (wt, pt) (combine (w e) (p e)) -> 0 <= wt * Rabs (determinant (el_dim (fs_element sp e)) (el_jacobian (fs_element sp e) pt)) * f e pt).
  { intros e' wt' pt' He' Hin'. apply Rmult_le_pos; [|apply Hf]. apply Rmult_le_pos; [|apply Rabs_pos]. left. apply (Hw e'); [exact He'|]. apply in_combine_l in Hin'. exact Hin'. }
  assert (E1 := summ_zero_inv elems _ (fun e He => point_sum_nonneg _ _ _ (fun wt pt => T e wt pt He)) E e He). cbv beta in E1.
  assert (E2 := point_sum_zero _ _ _ (fun wt pt => T e wt pt He) E1 wt pt Hin). cbv beta in E2.
  assert (0 < wt) by (apply (Hw e); [exact He|]; apply in_combine_l in Hin; exact Hin). pose proof (Rabs_pos_lt _ (Hr e He wt pt Hin)).
  destruct (Rmult_integral _ _ E2) as [E3|]; [|assumption]. destruct (Rmult_integral _ _ E3); lra.
Qed.
Lemma sqrt_triangle A B C : (forall t, 0 <= A + 2 * t * B + t * t * C) -> sqrt (A + 2 * B + C) <= sqrt A + sqrt C.
Proof.
  intros H. pose proof (H 0) as HA. pose proof (H 1) as H1. pose proof (H (-1)) as H2. assert (0 <= A) by lra.
  assert (HC : 0 <= C).
  { destruct (Rle_or_lt 0 C) as [|N]; [assumption|]. exfalso. set (t := (A + 1 + Rabs B * 2) / - C + 1). assert (T1 : 1 <= t). { unfold t. assert (0 <= (A + 1 + Rabs B * 2) / - C); [|lra]. apply Rmult_le_pos; [pose proof (Rabs_pos B); lra|]. left. apply Rinv_0_lt_compat. lra. }
    assert (T2 : t * C = - (A + 1 + Rabs B * 2) + C) by (unfold t; field; lra). specialize (H t). pose proof (Rle_abs B). nra. }
  assert (D : B * B <= A * C).
  { destruct (Req_dec C 0) as [->|N].
    - assert (B = 0); [|nra]. destruct (Req_dec B 0) as [|NB]; [assumption|]. exfalso. specialize (H (- (A + 1) / (2 * B))). replace (2 * (- (A + 1) / (2 * B)) * B) with (- (A + 1)) in H by (field; exact NB). lra.
    - specialize (H (- B / C)). replace (A + 2 * (- B / C) * B + - B / C * (- B / C) * C) with ((A * C - B * B) / C) in H by (field; exact N). assert (0 < C) by lra.
      assert (0 <= (A * C - B * B) / C * C) by (apply Rmult_le_pos; lra). replace ((A * C - B * B) / C * C) with (A * C - B * B) in * by (field; exact N). lra. }
  assert (E : B <= sqrt A * sqrt C). { rewrite <- sqrt_mult by assumption. apply Rle_trans with (sqrt (B * B)); [|apply sqrt_le_1; nra]. change (B * B) with (Rsqr B). rewrite sqrt_Rsqr_abs. apply Rle_abs. }
  pose proof (sqrt_pos A). pose proof (sqrt_pos C). pose proof (sqrt_sqrt A ltac:(assumption)). pose proof (sqrt_sqrt C HC).
  replace (sqrt A + sqrt C) with (sqrt ((sqrt A + sqrt C) * (sqrt A + sqrt C))) by (apply sqrt_square; lra). apply sqrt_le_1; nra.
Qed.
Lemma msum_triangle (aa ab bb : nat -> Pt -> R) : nonneg_weights elems w -> (forall e pt t, 0 <= aa e pt + 2 * t * ab e pt + t * t * bb e pt) ->
  sqrt (msum (fun e pt => aa e pt + 2 * ab e pt + bb e pt)) <= sqrt (msum aa) + sqrt (msum bb).
Proof.
  intros Hw H. rewrite !msum_plus, msum_l. apply sqrt_triangle. intros t. rewrite <- !msum_l, <- !msum_plus. apply msum_nonneg; [exact Hw|]. intros e pt. apply H.
Qed.
End sums.
Lemma sq_pos s v : 0 <= sq s v.
Proof. apply summ_nonneg. intros. apply Rle_0_sqr. Qed.
Lemma sqm_pos d s A : 0 <= sqm d s A.
Proof. apply summ_nonneg. intros. apply sq_pos. Qed.
Lemma sq_zero s v : sq s v = 0 -> forall i, (i < s)%nat -> v i = 0.
Proof. intros H i Hi. assert (E := summ_zero_inv s _ (fun k _ => Rle_0_sqr (v k)) H i Hi). unfold Rsqr in E. nra. Qed.
Lemma sqm_zero d s A : sqm d s A = 0 -> forall i j, (i < d)%nat -> (j < s)%nat -> A i j = 0.
Proof. intros H i j Hi Hj. apply (sq_zero s (A i)); [|exact Hj]. exact (summ_zero_inv d _ (fun k _ => sq_pos s (A k)) H i Hi). Qed.
(** |a + t b|^2 *)
Lemma sq_along s a b t : sq s (fun i => a i + t * b i) = sq s a + 2 * t * summ s (fun i => a i * b i) + t * t * sq s b.
Proof. unfold sq. rewrite <- !summ_l, <- !summ_plus. apply summ_ext. intros. ring. Qed.
Lemma sqm_along d s a b t : sqm d s (fun i j => a i j + t * b i j) = sqm d s a + 2 * t * summ d (fun i => summ s (fun j => a i j * b i j)) + t * t * sqm d s b.
Proof. unfold sqm. rewrite <- !summ_l, <- !summ_plus. apply summ_ext. intros i Hi. apply (sq_along s (a i) (b i) t). Qed.
(** linear combination of nodal values *)
Definition combination (c c' : R) (u v : list R) : list R := map (fun ab => c * fst ab + c' * snd ab) (combine u v).
Lemma combination_length c c' u v : length u = length v -> length (combination c c' u v) = length u.
Proof. intros H. unfold combination. rewrite map_length, combine_length. lia. Qed.
Lemma combination_nth c c' u v k : length u = length v -> nth k (combination c c' u v) 0 = c * nth k u 0 + c' * nth k v 0.
Proof.
  revert v k. induction u as [|a u IH]; intros [|b v] [|k] H; try discriminate H; cbn; try ring. rewrite <- IH by (cbn in H; lia). reflexivity.
Qed.
Lemma local_combination c c' s u v ns : length u = length v -> local_values s (combination c c' u v) ns = combination c c' (local_values s u ns) (local_values s v ns).
Proof.
  intros H. apply nth_eq; [rewrite combination_length, !length_local by (rewrite !length_local; reflexivity); reflexivity|]. rewrite length_local. intros a Ha. rewrite combination_nth by (rewrite !length_local; reflexivity).
  rewrite !local_at by exact Ha. apply combination_nth, H.
Qed.
Lemma interpolated_combination {Pt} (el : element Pt) s c c' u v pt i : length u = length v -> interpolated el s (combination c c' u v) pt i = c * interpolated el s u pt i + c' * interpolated el s v pt i.
Proof. intros H. unfold interpolated. rewrite <- !summ_l, <- summ_plus. apply summ_ext. intros I _. rewrite combination_nth by exact H. ring. Qed.
Lemma ugrad_combination {Pt} (el : element Pt) s c c' u v pt i j : length u = length v -> ugrad el s (combination c c' u v) pt i j = c * ugrad el s u pt i j + c' * ugrad el s v pt i j.
Proof. intros H. unfold ugrad. destruct (_ && _)%bool; [|ring]. rewrite <- !summ_l, <- summ_plus. apply summ_ext. intros I _. rewrite combination_nth by exact H. ring. Qed.

Section errors.
Context {Pt : Type} (origin : Pt) (umax : nat) (sp : fe_space Pt) (table : wp_table Pt).
Context (d s : nat) (ls : list (list nat)) (w : nat -> list R) (p : nat -> list Pt).
(** a mesh of volume elements of dimension [d] with quadrature rules [w], [p] *)
Definition error_mesh : Prop := has_conn (fs_conn sp s) ls /\ nodes_in_range (fs_nodes sp) ls /\ reads_points table (length ls) w p /\ small d /\
  forall e ns, ls !! e = Some ns -> el_nodes (fs_element sp e) = length ns /\ el_dim (fs_element sp e) = d.
Hypothesis Hmesh : error_mesh.
Let nodes e := nth e ls [].
Let el e := fs_element sp e.
Let msum := mesh_sum sp (length ls) w p.
(** value and gradient of the function with the nodal values [u] *)
Let value (u : list R) e pt : vec := fun i => interpolated (el e) s (local_values s u (nodes e)) pt i.
Definition mesh_gradient (u : list R) (G : nat -> Pt -> mat) : Prop :=
  forall e wt pt, (e < length ls)%nat -> In (wt, pt) (combine (w e) (p e)) -> interpolation_gradient (fs_element sp e) s (local_values s u (nth e ls [])) pt (G e pt).
Let regular : Prop := forall e, (e < length ls)%nat -> regular_points (el e) (w e) (p e).

Lemma mesh_dim e : (e < length ls)%nat -> el_dim (el e) = d.
Proof. intros He. destruct Hmesh as (_ & _ & _ & _ & H). apply (H e (nodes e)), some_nth, He. Qed.
Lemma mesh_nodes e ns : ls !! e = Some ns -> el_nodes (fs_element sp e) = length ns.
Proof. destruct Hmesh as (_ & _ & _ & _ & H). apply H. Qed.
Lemma l2_value u u_h ws : length u_h = (fs_nodes sp * s)%nat ->
  estimate_l2_error_squared origin umax sp table d s u u_h ws = Ok (msum (fun e pt => sq s (fun i => value u_h e pt i - u (el_map (el e) pt) i))).
Proof.
  intros Hu. destruct Hmesh as (Hc & Hr & Hq & Hd & _). unfold estimate_l2_error_squared. destruct (C85_mesh_integral origin umax sp table s ls w p Hc Hr mesh_nodes Hq d (l2_integrand s u) u_h ws) as (M & _). rewrite M by exact Hu. f_equal.
  unfold msum, mesh_sum. apply summ_ext. intros e He. apply point_sum_ext. intros wt pt _. fold (el e) (nodes e). unfold volume_form. rewrite (mesh_dim e He), Nat.eqb_refl. f_equal. cbn [value_u l2_integrand]. unfold sq. apply summ_ext. intros i Hi.
  unfold field_value, value. rewrite (proj2 (Nat.ltb_lt i s) Hi). reflexivity.
Qed.
Lemma h1_value u u_h ws : length u_h = (fs_nodes sp * s)%nat -> regular ->
  estimate_h1_error_squared origin umax sp table d s u u_h ws = Ok (msum (fun e pt => sqm d s (fun i j => ugrad (el e) s (local_values s u_h (nodes e)) pt i j - u (el_map (el e) pt) i j))).
Proof.
  intros Hu Hreg. destruct Hmesh as (Hc & Hr & Hq & Hd & _). unfold estimate_h1_error_squared.
  destruct (C85_mesh_volume_integral origin umax sp table s ls w p Hc Hr mesh_nodes Hq (h1_integrand d s u) u_h ws) as (V & _); [intros e He; fold (el e); rewrite mesh_dim by exact He; exact Hd|exact Hu|]. destruct V as (G & HG & ->); [exact Hreg|]. f_equal.
  unfold msum, mesh_sum. apply summ_ext. intros e He. apply point_sum_ext. intros wt pt Hin. fold (el e) (nodes e). f_equal. destruct (HG e He wt pt Hin) as (_ & U). cbn [value_u_grad h1_integrand]. unfold sqm. fold (nodes e) (el e) in U.
  rewrite <- (U (ugrad (el e) s (local_values s u_h (nodes e)) pt)); [reflexivity|]. apply ugrad_spec; [rewrite mesh_dim by exact He; exact Hd|exact (Hreg e He wt pt Hin)].
Qed.
Lemma h1_gradient u_h G : regular -> mesh_gradient u_h G -> forall e wt pt, (e < length ls)%nat -> In (wt, pt) (combine (w e) (p e)) -> G e pt = ugrad (el e) s (local_values s u_h (nodes e)) pt.
Proof.
  intros Hreg HG e wt pt He Hin. destruct Hmesh as (_ & _ & _ & Hd & _). apply ugrad_unique; [rewrite mesh_dim by exact He; exact Hd|exact (Hreg e He wt pt Hin)|exact (HG e wt pt He Hin)].
Qed.
Lemma sqrt_ok x (o : outcome unit R) : o = Ok x -> (let! e := o in Ok (sqrt e)) = Ok (sqrt x).
Proof. intros ->. reflexivity. Qed.

(** C86: the squared L2 error is the integral over the mesh, by quadrature, of the squared distance between the finite element function and [u]. If no weight is negative then the L2 error is its square root; with positive
    weights and without singular Jacobians it is 0 exactly if the two functions agree at all quadrature points *)
Theorem C86_l2 u u_h ws : length u_h = (fs_nodes sp * s)%nat ->
  exists E, estimate_l2_error_squared origin umax sp table d s u u_h ws = Ok E /\ E = msum (fun e pt => sq s (fun i => value u_h e pt i - u (el_map (el e) pt) i)) /\
  (nonneg_weights (length ls) w -> exists y, estimate_l2_error origin umax sp table d s u u_h ws = Ok y /\ 0 <= y /\ y * y = E) /\
  (positive_weights (length ls) w -> regular ->
     (estimate_l2_error origin umax sp table d s u u_h ws = Ok 0 <-> forall e wt pt i, (e < length ls)%nat -> In (wt, pt) (combine (w e) (p e)) -> (i < s)%nat -> value u_h e pt i = u (el_map (el e) pt) i)).
Proof.
  intros Hu. assert (EL := l2_value u u_h ws Hu). eexists. split; [exact EL|]. split; [reflexivity|].
  assert (HS := sqrt_ok _ _ EL). fold (estimate_l2_error origin umax sp table d s u u_h ws) in HS. rewrite HS. split.
  - intros Hw. eexists. split; [reflexivity|]. split; [apply sqrt_pos|]. apply sqrt_sqrt. apply msum_nonneg; [exact Hw|]. intros. apply sq_pos.
  - intros Hw Hreg. assert (Hw' : nonneg_weights (length ls) w) by (intros e wt He Hin; left; apply (Hw e); assumption). assert (P := msum_nonneg sp (length ls) w p (fun e pt => sq s (fun i => value u_h e pt i - u (el_map (el e) pt) i)) Hw' (fun _ _ => sq_pos _ _)). split.
    + intros E e wt pt i He Hin Hi. assert (E0 : sqrt (msum (fun e pt => sq s (fun i => value u_h e pt i - u (el_map (el e) pt) i))) = 0) by congruence. apply sqrt_eq_0 in E0; [|exact P].
      assert (Z := msum_zero sp (length ls) w p _ Hw (fun _ _ => sq_pos _ _) Hreg E0 e wt pt He Hin). cbv beta in Z. pose proof (sq_zero _ _ Z i Hi) as Z'. cbv beta in Z'. lra.
    + intros H. f_equal. replace (msum _) with 0; [apply sqrt_0|]. symmetry. unfold msum. rewrite (msum_ext sp (length ls) w p _ (fun _ _ => 0 * 0)); [rewrite msum_l; ring|]. intros e wt pt He Hin. unfold sq. rewrite (summ_ext s _ (fun _ => 0)); [rewrite summ_zero; ring|].
      intros i Hi. rewrite (H e wt pt i He Hin Hi). ring.
Qed.
(** C86: the L2 error is a seminorm of nodal values and function: it is homogeneous and satisfies the triangle inequality. In particular the errors of two finite element functions differ by at most the norm of their difference *)
Theorem C86_l2_seminorm u v u_h v_h c ws : length u_h = (fs_nodes sp * s)%nat -> length v_h = (fs_nodes sp * s)%nat -> nonneg_weights (length ls) w ->
  exists y z y_z y_c, estimate_l2_error origin umax sp table d s u u_h ws = Ok y /\ estimate_l2_error origin umax sp table d s v v_h ws = Ok z /\
    estimate_l2_error origin umax sp table d s (fun x i => u x i - v x i) (combination 1 (-1) u_h v_h) ws = Ok y_z /\
    estimate_l2_error origin umax sp table d s (fun x i => c * u x i) (combination c 0 u_h u_h) ws = Ok y_c /\ Rabs (y - z) <= y_z /\ y_c = Rabs c * y.
Proof.
  intros Hu Hv Hw. assert (Hd' : length (combination 1 (-1) u_h v_h) = (fs_nodes sp * s)%nat) by (rewrite combination_length; lia). assert (Hc' : length (combination c 0 u_h u_h) = (fs_nodes sp * s)%nat) by (rewrite combination_length; lia).
  assert (tri : forall a b : nat -> Pt -> vec, sqrt (msum (fun e pt => sq s (a e pt))) <= sqrt (msum (fun e pt => sq s (b e pt))) + sqrt (msum (fun e pt => sq s (fun i => a e pt i - b e pt i)))).
  { intros a b. eapply Rle_trans; [|apply (msum_triangle sp (length ls) w p (fun e pt => sq s (b e pt)) (fun e pt => summ s (fun i => b e pt i * (a e pt i - b e pt i))) (fun e pt => sq s (fun i => a e pt i - b e pt i)) Hw)].
    - apply Req_le. f_equal. unfold msum. apply msum_ext. intros e wt pt _ _. rewrite <- (Rmult_1_l (sq s (fun i => a e pt i - b e pt i))). replace (2 * summ s _) with (2 * 1 * summ s (fun i => b e pt i * (a e pt i - b e pt i))) by ring.
      replace (1 * sq s _) with (1 * 1 * sq s (fun i => a e pt i - b e pt i)) by ring. rewrite <- sq_along. unfold sq. apply summ_ext. intros. ring.
    - intros e pt t. rewrite <- sq_along. apply sq_pos. }
  do 4 eexists. split; [apply sqrt_ok, (l2_value _ _ _ Hu)|]. split; [apply sqrt_ok, (l2_value _ _ _ Hv)|]. split; [apply sqrt_ok, (l2_value _ _ _ Hd')|]. split; [apply sqrt_ok, (l2_value _ _ _ Hc')|].
  set (a := fun e pt i => value u_h e pt i - u (el_map (el e) pt) i). set (b := fun e pt i => value v_h e pt i - v (el_map (el e) pt) i). split.
  - replace (msum (fun e pt => sq s (fun i => value (combination 1 (-1) u_h v_h) e pt i - (u (el_map (el e) pt) i - v (el_map (el e) pt) i)))) with (msum (fun e pt => sq s (fun i => a e pt i - b e pt i))).
    2: { unfold msum. apply msum_ext. intros e wt pt _ _. unfold sq. apply summ_ext. intros i _. unfold value, a, b. rewrite local_combination, interpolated_combination by (rewrite ?length_local; lia). unfold value. ring. }
    apply Rabs_le. pose proof (tri a b) as T1. pose proof (tri b a) as T2.
    replace (msum (fun e pt => sq s (fun i => b e pt i - a e pt i))) with (msum (fun e pt => sq s (fun i => a e pt i - b e pt i))) in T2 by (unfold msum; apply msum_ext; intros; unfold sq; apply summ_ext; intros; ring).
    unfold a, b in *. cbv beta in *. lra.
  - rewrite <- sqrt_Rsqr_abs. rewrite <- sqrt_mult; [|apply Rle_0_sqr|apply msum_nonneg; [exact Hw|intros; apply sq_pos]]. f_equal. unfold msum. rewrite <- msum_l. apply msum_ext. intros e wt pt _ _. unfold sq, Rsqr. rewrite <- summ_l. apply summ_ext. intros i _.
    unfold value. rewrite local_combination, interpolated_combination by (rewrite ?length_local; lia). ring.
Qed.

(** C86: the squared H1 seminorm error is the integral over the mesh, by quadrature, of the squared distance between the gradient of the finite element function and [u_grad]. A singular Jacobian at a quadrature point is an
    error. If no weight is negative then the error is the square root; with positive weights it is 0 exactly if the gradients agree at all quadrature points *)
Theorem C86_h1 u_grad u_h ws : length u_h = (fs_nodes sp * s)%nat ->
  (~ regular -> estimate_h1_error origin umax sp table d s u_grad u_h ws = Err tt) /\
  (regular -> exists G, mesh_gradient u_h G /\ exists E, estimate_h1_error_squared origin umax sp table d s u_grad u_h ws = Ok E /\ E = msum (fun e pt => sqm d s (fun i j => G e pt i j - u_grad (el_map (el e) pt) i j)) /\
     (nonneg_weights (length ls) w -> exists y, estimate_h1_error origin umax sp table d s u_grad u_h ws = Ok y /\ 0 <= y /\ y * y = E) /\
     (positive_weights (length ls) w -> (estimate_h1_error origin umax sp table d s u_grad u_h ws = Ok 0 <->
        forall e wt pt i j, (e < length ls)%nat -> In (wt, pt) (combine (w e) (p e)) -> (i < d)%nat -> (j < s)%nat -> G e pt i j = u_grad (el_map (el e) pt) i j))).
Proof.
  intros Hu. split.
  - intros Hreg. destruct Hmesh as (Hc & Hr & Hq & Hd & _).
    destruct (C85_mesh_volume_integral origin umax sp table s ls w p Hc Hr mesh_nodes Hq (h1_integrand d s u_grad) u_h ws) as (_ & (_ & V) & _); [intros e He; fold (el e); rewrite mesh_dim by exact He; exact Hd|exact Hu|].
    unfold estimate_h1_error, estimate_h1_error_squared. rewrite V; [reflexivity|].
    assert (D : forall n, (forall e, (e < n)%nat -> regular_points (el e) (w e) (p e)) \/ exists e, (e < n)%nat /\ ~ regular_points (el e) (w e) (p e)).
    { intros n. induction n as [|n [IH|(e & He & H)]]; [left; intros; lia| |right; exists e; split; [lia|exact H]]. destruct (regular_dec (el n) (w n) (p n)) as [H|H].
      - left. intros e He. destruct (Nat.eq_dec e n) as [->|]; [exact H|apply IH; lia].
      - right. exists n. split; [lia|exact H]. }
    destruct (D (length ls)) as [H|H]; [destruct (Hreg H)|exact H].
  - intros Hreg. exists (fun e => ugrad (el e) s (local_values s u_h (nodes e))). split.
    { intros e wt pt He Hin. destruct Hmesh as (_ & _ & _ & Hd & _). apply ugrad_spec; [fold (el e); rewrite mesh_dim by exact He; exact Hd|exact (Hreg e He wt pt Hin)]. }
    assert (EL := h1_value u_grad u_h ws Hu Hreg). eexists. split; [exact EL|]. split; [reflexivity|].
    assert (HS := sqrt_ok _ _ EL). fold (estimate_h1_error origin umax sp table d s u_grad u_h ws) in HS. rewrite HS. split.
    + intros Hw. eexists. split; [reflexivity|]. split; [apply sqrt_pos|]. apply sqrt_sqrt. apply msum_nonneg; [exact Hw|]. intros. apply sqm_pos.
    + intros Hw. assert (Hw' : nonneg_weights (length ls) w) by (intros e wt He Hin; left; apply (Hw e); assumption).
      assert (P := msum_nonneg sp (length ls) w p (fun e pt => sqm d s (fun i j => ugrad (el e) s (local_values s u_h (nodes e)) pt i j - u_grad (el_map (el e) pt) i j)) Hw' (fun _ _ => sqm_pos _ _ _)). split.
      * intros E e wt pt i j He Hin Hi Hj. assert (E0 : sqrt (msum (fun e pt => sqm d s (fun i j => ugrad (el e) s (local_values s u_h (nodes e)) pt i j - u_grad (el_map (el e) pt) i j))) = 0) by congruence. apply sqrt_eq_0 in E0; [|exact P].
        assert (Z := msum_zero sp (length ls) w p _ Hw (fun _ _ => sqm_pos _ _ _) Hreg E0 e wt pt He Hin). cbv beta in Z. pose proof (sqm_zero _ _ _ Z i j Hi Hj) as Z'. cbv beta in Z'. lra.
      * intros H. f_equal. replace (msum _) with 0; [apply sqrt_0|]. symmetry. unfold msum. rewrite (msum_ext sp (length ls) w p _ (fun _ _ => 0 * 0)); [rewrite msum_l; ring|]. intros e wt pt He Hin. unfold sqm. rewrite Rmult_0_l.
        apply summ_zero'. intros i Hi. apply summ_zero'. intros j Hj. rewrite (H e wt pt i j He Hin Hi Hj). ring.
Qed.
(** C86: the H1 seminorm error is a seminorm of nodal values and gradient *)
Theorem C86_h1_seminorm u v u_h v_h c ws : length u_h = (fs_nodes sp * s)%nat -> length v_h = (fs_nodes sp * s)%nat -> regular -> nonneg_weights (length ls) w ->
  exists y z y_z y_c, estimate_h1_error origin umax sp table d s u u_h ws = Ok y /\ estimate_h1_error origin umax sp table d s v v_h ws = Ok z /\
    estimate_h1_error origin umax sp table d s (fun x i j => u x i j - v x i j) (combination 1 (-1) u_h v_h) ws = Ok y_z /\
    estimate_h1_error origin umax sp table d s (fun x i j => c * u x i j) (combination c 0 u_h u_h) ws = Ok y_c /\ Rabs (y - z) <= y_z /\ y_c = Rabs c * y.
Proof.
  intros Hu Hv Hreg Hw. assert (Hd' : length (combination 1 (-1) u_h v_h) = (fs_nodes sp * s)%nat) by (rewrite combination_length; lia). assert (Hc' : length (combination c 0 u_h u_h) = (fs_nodes sp * s)%nat) by (rewrite combination_length; lia).
  assert (tri : forall a b : nat -> Pt -> mat, sqrt (msum (fun e pt => sqm d s (a e pt))) <= sqrt (msum (fun e pt => sqm d s (b e pt))) + sqrt (msum (fun e pt => sqm d s (fun i j => a e pt i j - b e pt i j)))).
  { intros a b. eapply Rle_trans; [|apply (msum_triangle sp (length ls) w p (fun e pt => sqm d s (b e pt)) (fun e pt => summ d (fun i => summ s (fun j => b e pt i j * (a e pt i j - b e pt i j)))) (fun e pt => sqm d s (fun i j => a e pt i j - b e pt i j)) Hw)].
    - apply Req_le. f_equal. unfold msum. apply msum_ext. intros e wt pt _ _. replace (2 * summ d _) with (2 * 1 * summ d (fun i => summ s (fun j => b e pt i j * (a e pt i j - b e pt i j)))) by ring.
      rewrite <- (Rmult_1_l (sqm d s (fun i j => a e pt i j - b e pt i j))).
      replace (1 * sqm d s (fun i j => a e pt i j - b e pt i j)) with (1 * 1 * sqm d s (fun i j => a e pt i j - b e pt i j)) by ring. rewrite <- sqm_along. unfold sqm. apply summ_ext. intros. apply summ_ext. intros. ring.
    - intros e pt t. rewrite <- sqm_along. apply sqm_pos. }
  do 4 eexists. split; [apply sqrt_ok, (h1_value _ _ _ Hu Hreg)|]. split; [apply sqrt_ok, (h1_value _ _ _ Hv Hreg)|]. split; [apply sqrt_ok, (h1_value _ _ _ Hd' Hreg)|]. split; [apply sqrt_ok, (h1_value _ _ _ Hc' Hreg)|].
  set (a := fun e pt i j => ugrad (el e) s (local_values s u_h (nodes e)) pt i j - u (el_map (el e) pt) i j). set (b := fun e pt i j => ugrad (el e) s (local_values s v_h (nodes e)) pt i j - v (el_map (el e) pt) i j). split.
  - replace (msum (fun e pt => sqm d s (fun i j => ugrad (el e) s (local_values s (combination 1 (-1) u_h v_h) (nodes e)) pt i j - (u (el_map (el e) pt) i j - v (el_map (el e) pt) i j)))) with (msum (fun e pt => sqm d s (fun i j => a e pt i j - b e pt i j))).
    2: { unfold msum. apply msum_ext. intros e wt pt _ _. unfold sqm. apply summ_ext. intros i _. apply summ_ext. intros j _. unfold a, b. rewrite local_combination, ugrad_combination by (rewrite ?length_local; lia). ring. }
    apply Rabs_le. pose proof (tri a b) as T1. pose proof (tri b a) as T2.
    replace (msum (fun e pt => sqm d s (fun i j => b e pt i j - a e pt i j))) with (msum (fun e pt => sqm d s (fun i j => a e pt i j - b e pt i j))) in T2 by (unfold msum; apply msum_ext; intros; unfold sqm; apply summ_ext; intros; apply summ_ext; intros; ring).
    unfold a, b in *. cbv beta in *. lra.
  - rewrite <- sqrt_Rsqr_abs. rewrite <- sqrt_mult; [|apply Rle_0_sqr|apply msum_nonneg; [exact Hw|intros; apply sqm_pos]]. f_equal. unfold msum. rewrite <- msum_l. apply msum_ext. intros e wt pt _ _. unfold sqm, Rsqr. rewrite <- summ_l. apply summ_ext. intros i _. rewrite <- summ_l. apply summ_ext. intros j _.
    rewrite local_combination, ugrad_combination by (rewrite ?length_local; lia). ring.
Qed.

(** C86: the error estimates of a mesh add up the estimates of its elements *)
Theorem C86_elements u u_grad u_h ws : length u_h = (fs_nodes sp * s)%nat ->
  exists E, (forall e, (e < length ls)%nat -> element_l2_error_squared (el e) s u (local_values s u_h (nodes e)) (w e) (p e) = Ok (E e) /\ element_l2_error (el e) s u (local_values s u_h (nodes e)) (w e) (p e) = Ok (sqrt (E e))) /\
    estimate_l2_error_squared origin umax sp table d s u u_h ws = Ok (summ (length ls) E) /\
  (regular -> exists H, (forall e, (e < length ls)%nat -> element_h1_error_squared (el e) s u_grad (local_values s u_h (nodes e)) (w e) (p e) = Ok (H e) /\ element_h1_error (el e) s u_grad (local_values s u_h (nodes e)) (w e) (p e) = Ok (sqrt (H e))) /\
    estimate_h1_error_squared origin umax sp table d s u_grad u_h ws = Ok (summ (length ls) H)) /\
  (forall e, (e < length ls)%nat -> ~ regular_points (el e) (w e) (p e) -> element_h1_error (el e) s u_grad (local_values s u_h (nodes e)) (w e) (p e) = Panic).
Proof.
  intros Hu. destruct Hmesh as (Hc & Hr & Hq & Hd & Hel).
  assert (Hl : forall e, (e < length ls)%nat -> length (local_values s u_h (nodes e)) = (s * el_nodes (el e))%nat) by (intros e He; rewrite length_local; unfold el; rewrite (mesh_nodes e (nodes e)) by (apply some_nth, He); reflexivity).
  assert (Hl' : forall e, (e < length ls)%nat -> (length (local_values s u_h (nodes e)) =? el_nodes (el e) * s)%nat = true) by (intros e He; apply Nat.eqb_eq; rewrite Hl by exact He; lia).
  exists (fun e => point_sum (w e) (p e) (fun wt pt => wt * Rabs (determinant (el_dim (el e)) (el_jacobian (el e) pt)) * sq s (fun i => value u_h e pt i - u (el_map (el e) pt) i))). split; [|split; [exact (l2_value u u_h ws Hu)|split]].
  - intros e He. assert (E : element_l2_error_squared (el e) s u (local_values s u_h (nodes e)) (w e) (p e) = Ok (point_sum (w e) (p e) (fun wt pt => wt * Rabs (determinant (el_dim (el e)) (el_jacobian (el e) pt)) * sq s (fun i => value u_h e pt i - u (el_map (el e) pt) i)))).
    { unfold element_l2_error_squared. rewrite Hl' by exact He. destruct (C85_element (el e) (el_dim (el e)) s (l2_integrand s u) (w e) (p e) (local_values s u_h (nodes e))) as (C & _). destruct C as (r & -> & C); [left; apply Hl, He|]. f_equal. rewrite C.
      apply point_sum_ext. intros wt pt _. unfold volume_form. rewrite Nat.eqb_refl. f_equal. cbn [value_u l2_integrand]. unfold sq. apply summ_ext. intros i Hi. unfold field_value, value. rewrite (proj2 (Nat.ltb_lt i s) Hi). reflexivity. }
    split; [exact E|]. unfold element_l2_error. rewrite E. reflexivity.
  - intros Hreg. exists (fun e => point_sum (w e) (p e) (fun wt pt => wt * Rabs (determinant (el_dim (el e)) (el_jacobian (el e) pt)) * sqm d s (fun i j => ugrad (el e) s (local_values s u_h (nodes e)) pt i j - u_grad (el_map (el e) pt) i j))).
    split; [|exact (h1_value u_grad u_h ws Hu Hreg)]. intros e He.
    assert (E : element_h1_error_squared (el e) s u_grad (local_values s u_h (nodes e)) (w e) (p e) = Ok (point_sum (w e) (p e) (fun wt pt => wt * Rabs (determinant (el_dim (el e)) (el_jacobian (el e) pt)) * sqm d s (fun i j => ugrad (el e) s (local_values s u_h (nodes e)) pt i j - u_grad (el_map (el e) pt) i j)))).
    { unfold element_h1_error_squared. rewrite Hl' by exact He. destruct (volume_done (el e) s (h1_integrand (el_dim (el e)) s u_grad) (w e) (p e) (local_values s u_h (nodes e))) as (r & -> & C); [rewrite mesh_dim by exact He; exact Hd|apply Hl, He|apply Hreg, He|].
      f_equal. rewrite C. apply point_sum_ext. intros wt pt _. f_equal. cbn [value_u_grad h1_integrand]. rewrite mesh_dim by exact He. reflexivity. }
    split; [exact E|]. unfold element_h1_error. rewrite E. reflexivity.
  - intros e He Hreg. unfold element_h1_error, element_h1_error_squared. rewrite Hl' by exact He. rewrite volume_singular; [reflexivity|rewrite mesh_dim by exact He; exact Hd|apply Hl, He|exact Hreg].
Qed.
End errors.
Print Assumptions C86_l2.
Print Assumptions C86_l2_seminorm.
Print Assumptions C86_h1.
Print Assumptions C86_h1_seminorm.
Print Assumptions C86_elements.

(** C86: the L2 error with respect to a function of the finite element space is the norm of the difference of the nodal values given by the assembled mass matrix with density 1 *)
Theorem C86_mass {Pt} (origin : Pt) umax sp table (qtable : q_table Pt R) d s ls w p srt ord cws ws iws : error_mesh sp table d s ls w p -> List.Forall NoDup ls -> (0 < s)%nat -> hash_order ord -> sorts_by_key srt ->
  reads_quadrature qtable (length ls) w p (fun e => map (fun _ => 1) (p e)) -> nonneg_weights (length ls) w ->
  exists m A, (assemble_csr Rplus 0 srt ord umax cws (mass_mat_asm origin umax sp qtable s ws)).2 = Ok m /\ entries_of (s * fs_nodes sp) m A /\
  forall u u_h v_h, length u_h = (s * fs_nodes sp)%nat -> length v_h = (s * fs_nodes sp)%nat ->
    (forall e wt pt i, (e < length ls)%nat -> In (wt, pt) (combine (w e) (p e)) -> (i < s)%nat -> u (el_map (fs_element sp e) pt) i = interpolated (fs_element sp e) s (local_values s v_h (nth e ls [])) pt i) ->
    exists y, estimate_l2_error origin umax sp table d s u u_h iws = Ok y /\ 0 <= y /\ y * y = form (s * fs_nodes sp) A (combination 1 (-1) u_h v_h) (combination 1 (-1) u_h v_h).
Proof.
  intros Hmesh Hnd Hs Hord Hsrt Hq Hw. assert (Hmesh' := Hmesh). destruct Hmesh as (Hc & Hr & Hp & Hd & Hel).
  destruct (C79_mass origin umax sp s ls w p srt ord (conj Hc (conj Hr (conj Hnd (fun e ns H => proj1 (Hel e ns H))))) Hs Hord Hsrt qtable (fun e => map (fun _ => 1) (p e)) Hq cws ws) as (m & Em & _ & _ & A & HA & _ & _ & HF & _).
  exists m, A. split; [exact Em|]. split; [exact HA|]. intros u u_h v_h Hu Hv Huv. destruct (C86_l2 origin umax sp table d s ls w p Hmesh' u u_h iws) as (E & _ & EE & Y & _); [lia|]. destruct (Y Hw) as (y & Ey & Py & Yy).
  exists y. split; [exact Ey|]. split; [exact Py|]. rewrite Yy, EE. rewrite HF by (rewrite combination_length; lia). unfold mesh_sum, mesh_integral. apply summ_ext. intros e He.
  transitivity (point_sum (w e) (p e) (fun wt pt => wt * Rabs (determinant (el_dim (fs_element sp e)) (el_jacobian (fs_element sp e) pt)) * (1 * summ s (fun i => interpolated (fs_element sp e) s (local_values s (combination 1 (-1) u_h v_h) (nth e ls [])) pt i * interpolated (fs_element sp e) s (local_values s (combination 1 (-1) u_h v_h) (nth e ls [])) pt i)))).
  - apply point_sum_ext. intros wt pt Hin. f_equal. rewrite Rmult_1_l. unfold sq. apply summ_ext. intros i Hi. rewrite (Huv e wt pt i He Hin Hi). rewrite local_combination, interpolated_combination by (rewrite ?length_local; lia). ring.
  - rewrite <- (data_sum (w e) (p e) (map (fun _ => 1) (p e))) by apply map_length. apply qsum_ext. intros wt pt y' Hin. f_equal. f_equal. apply in_combine_r, in_combine_r in Hin. apply in_map_iff in Hin as (? & <- & _). reflexivity.
Qed.
Print Assumptions C86_mass.
(** C86: for scalar functions the H1 seminorm error with respect to a function of the finite element space is the norm of the difference of the nodal values given by the assembled Laplace matrix *)
Theorem C86_laplace {Pt} (origin : Pt) umax sp table (qtable : q_table Pt unit) d ls w p srt ord cws ws iws u0 : error_mesh sp table d 1 ls w p ->
  regular_mesh sp qtable ls w p (fun e => map (fun _ => tt) (p e)) d srt ord 1 -> nonneg_weights (length ls) w -> length u0 = fs_nodes sp ->
  exists m A, (assemble_csr Rplus 0 srt ord umax cws (elliptic_mat_asm origin tt umax sp qtable 1 true (fun G _ => accumulate_contractions d 1 true (laplace_contract d G)) u0 ws)).2 = Ok m /\ entries_of (fs_nodes sp) m A /\
  forall u_grad u_h v_h V, length u_h = fs_nodes sp -> length v_h = fs_nodes sp -> mesh_gradient sp 1 ls w p v_h V ->
    (forall e wt pt i, (e < length ls)%nat -> In (wt, pt) (combine (w e) (p e)) -> (i < d)%nat -> u_grad (el_map (fs_element sp e) pt) i 0%nat = V e pt i 0%nat) ->
    exists y, estimate_h1_error origin umax sp table d 1 u_grad u_h iws = Ok y /\ 0 <= y /\ y * y = form (fs_nodes sp) A (combination 1 (-1) u_h v_h) (combination 1 (-1) u_h v_h).
Proof.
  intros Hmesh Hreg Hw Hu0. destruct (C79_laplace origin umax sp qtable ls w p _ d srt ord u0 cws ws Hreg Hu0) as (m & Em & _ & _ & A & HA & HF & _). exists m, A. split; [exact Em|]. split; [exact HA|].
  intros u_grad u_h v_h V Hu Hv HV Huv. assert (Hreg' : forall e, (e < length ls)%nat -> regular_points (fs_element sp e) (w e) (p e)).
  { intros e He wt pt Hin. destruct Hreg as (_ & _ & _ & _ & _ & _ & _ & Hel). destruct (Hel e (nth e ls [])) as (_ & Ed & Hreg); [apply some_nth, He|]. apply (Hreg wt pt tt).
    clear - Hin. revert Hin. generalize (p e). induction (w e) as [|a l IH]; intros [|b q] Hin; try destruct Hin; cbn; [left; congruence|right; apply IH; assumption]. }
  destruct (C86_h1 origin umax sp table d 1 ls w p Hmesh u_grad u_h iws) as (_ & C); [lia|]. destruct (C Hreg') as (G & HG & E & _ & EE & Y & _). destruct (Y Hw) as (y & Ey & Py & Yy).
  exists y. split; [exact Ey|]. split; [exact Py|]. rewrite Yy, EE. assert (Hlc : length (combination 1 (-1) u_h v_h) = fs_nodes sp) by (rewrite combination_length; lia).
  assert (Hd : small d) by apply Hmesh.
  assert (HD : forall e ns, ls !! e = Some ns -> el_dim (fs_element sp e) = d) by (intros e ns He; apply Hmesh with (ns := ns), He).
  rewrite (HF _ _ (fun e => ugrad (fs_element sp e) 1 (local_values 1 (combination 1 (-1) u_h v_h) (nth e ls []))) (fun e => ugrad (fs_element sp e) 1 (local_values 1 (combination 1 (-1) u_h v_h) (nth e ls []))) Hlc Hlc).
  2: { intros e ns wt pt y' He Hin. assert (En : nth e ls [] = ns) by (apply nth_some, He). rewrite En. assert (He' := lookup_lt_Some _ _ _ He).
    assert (Hin' : In (wt, pt) (combine (w e) (p e))). { clear - Hin. revert Hin. generalize (p e). induction (w e) as [|a l IH]; intros [|b q] Hin; try destruct Hin; cbn; [left; congruence|right; apply IH; assumption]. }
    assert (U : interpolation_gradient (fs_element sp e) 1 (local_values 1 (combination 1 (-1) u_h v_h) ns) pt (ugrad (fs_element sp e) 1 (local_values 1 (combination 1 (-1) u_h v_h) ns) pt)); [|split; exact U].
    apply ugrad_spec; [rewrite (HD e ns He); exact Hd|exact (Hreg' e He' wt pt Hin')]. }
  unfold mesh_sum, mesh_integral. apply summ_ext. intros e He. rewrite (data_sum (w e) (p e)) by apply map_length. apply point_sum_ext. intros wt pt Hin. f_equal. unfold sqm. apply summ_ext. intros i Hi. cbn [summ]. rewrite Rplus_0_l.
  rewrite (Huv e wt pt i He Hin Hi). rewrite (h1_gradient sp table d 1 ls w p Hmesh u_h G Hreg' HG e wt pt He Hin), (h1_gradient sp table d 1 ls w p Hmesh v_h V Hreg' HV e wt pt He Hin). rewrite local_combination, ugrad_combination by (rewrite ?length_local; lia). ring.
Qed.
Print Assumptions C86_laplace.

(** the two segments of [ex_space] with one quadrature point each; nodal values 0, 1 and 4 have the values 1/2 and 5/2 there *)
Definition ex_points : wp_table R := WpTable (fun _ => Ok 1%nat) (fun _ _ _ => Ok (0 :: [], 2 :: [])).
Example C86_example : error_mesh ex_space ex_points 1 1 ex_conn (fun _ => 2 :: []) (fun _ => 0 :: []) /\ positive_weights (length ex_conn) (fun _ => 2 :: []) /\
  (forall e, (e < length ex_conn)%nat -> regular_points (fs_element ex_space e) (2 :: []) (0 :: [])) /\
  estimate_l2_error_squared 0 77 ex_space ex_points 1 1 (fun _ _ => 0) [0; 1; 4] (fun _ => IntWs [5; 5; 5] (7 :: []) [9; 9; 9] (8 :: [])%nat) = Ok (13/2).
Proof.
  assert (M : error_mesh ex_space ex_points 1 1 ex_conn (fun _ => 2 :: []) (fun _ => 0 :: [])).
  { split; [apply ex_has_conn|]. split; [apply ex_range|]. split; [intros e He; split; [reflexivity|]; split; [reflexivity|]; intros; reflexivity|]. split; [left; reflexivity|].
    intros [|[|e]] ns H; [injection H as <-; split; reflexivity|injection H as <-; split; reflexivity|discriminate]. }
  split; [exact M|]. split; [intros e wt He [<-|[]]; lra|]. split; [intros e He wt pt [[= <- <-]|[]]; cbn; lra|].
  destruct (C86_l2 0 77%nat ex_space ex_points 1 1 ex_conn (fun _ => 2 :: []) (fun _ => 0 :: []) M (fun _ _ => 0) [0; 1; 4] (fun _ => IntWs [5; 5; 5] (7 :: []) [9; 9; 9] (8 :: [])%nat) eq_refl) as (E & -> & -> & _). f_equal.
  unfold mesh_sum, point_sum, sq, interpolated. cbn [ex_conn length summ nth combine fold_right fst snd].
  change (local_values 1 [0; 1; 4] [0; 1]%nat) with [0; 1]. change (local_values 1 [0; 1; 4] [2; 1]%nat) with [4; 1]. cbn. rewrite Rabs_right by lra. lra.
Qed.
(** a segment that is mapped to a point is refused when gradients are integrated *)
Example C86_singular_example : let el := Element R 2 1 (fun p I => if (I =? 0)%nat then (1 - p) / 2 else (1 + p) / 2) (fun _ I _ => if (I =? 0)%nat then -1/2 else 1/2) (fun _ _ => 3) (fun _ _ _ => 0) in
  small (el_dim el) /\ ~ regular_points el (2 :: []) (0 :: []) /\ integrate_over_volume_element el 1 (h1_integrand 1 1 (fun _ _ _ => 0)) (2 :: []) (0 :: []) [1; 2] = Singular.
Proof.
  cbv zeta. split; [left; reflexivity|].
  assert (N : ~ regular_points (Element R 2 1 (fun p I => if (I =? 0)%nat then (1 - p) / 2 else (1 + p) / 2) (fun _ I _ => if (I =? 0)%nat then -1/2 else 1/2) (fun _ _ => 3) (fun _ _ _ => 0)) (2 :: []) (0 :: [])) by (intros H; apply (H 2 0); [left; reflexivity|reflexivity]).
  split; [exact N|]. apply C85_volume_element; [left; reflexivity|reflexivity|exact N].
Qed.

(** C90: diameters of elements, inversion of geometry maps of simplices, projection to them. *)
From Coq Require Import Reals List Lia Lra Arith.
From Verif Require Import CgModel CgSpec CgProofs AabbSpec MaterialModel ElementModel OptModel OptSpec PropNewton ClosestSpec ClosestModel ClosestProofs InverseSpec InverseModel InverseProofs.
Import ListNotations.
Local Open Scope R_scope.

Lemma combine_mean (w : list R) (vs : list vec) k : length w = length vs -> ElementModel.combine w vs k = mean (fun i => nth i w 0) vs k.
Proof.
  unfold mean. revert vs. enough (G : forall (vs : list vec), length w = length vs -> ElementModel.combine w vs k = total (length vs) (fun i => nth i w 0 * nth i vs (fun _ => 0) k)) by exact G.
  induction w as [|x w IH]; intros [|v vs] L; try discriminate L; [reflexivity|]. cbn [ElementModel.combine length]. rewrite (IH vs) by (cbn in L; lia).
  clear IH L. assert (S : forall n (f : nat -> R), total (S n) f = f 0%nat + total n (fun i => f (S i))).
  { induction n as [|n IHn]; intros f; cbn [total] in *; [ring|]. rewrite (IHn f). ring. }
  rewrite (S (length vs)). cbn [nth]. ring.
Qed.

(** Every element is the image of its reference domain and lies in the hull of its corners. *)
Lemma element_hull el (vs : list vec) xi D : In el all_elements -> length vs = length (el_ref el) -> in_reference el xi -> hull 0 D (firstn (el_corners el) vs) (el_map el vs xi).
Proof.
  intros Hel L Hxi. cbn in Hel.
  assert (H : forall b : vec -> list R, length (b xi) = el_corners el -> (forall i, (i < el_corners el)%nat -> 0 <= nth i (b xi) 0) -> total (el_corners el) (fun i => nth i (b xi) 0) = 1 ->
    (el_corners el <= length vs)%nat ->
    (forall k, el_map el vs xi k = ElementModel.combine (b xi) (firstn (el_corners el) vs) k) -> hull 0 D (firstn (el_corners el) vs) (el_map el vs xi)).
  { intros b Lb Hb Hb1 Lc E. assert (Lf : length (firstn (el_corners el) vs) = el_corners el) by (rewrite firstn_length; lia).
    exists (fun i => nth i (b xi) 0). rewrite Lf. split; [split; [intros i Hi; specialize (Hb i Hi); lra|exact Hb1]|].
    intros k _. rewrite E. apply combine_mean. congruence. }
  repeat (destruct Hel as [<-|Hel]); [..|contradiction]; unfold in_reference in Hxi; cbn in Hxi; cbn in L.
  - apply (H segment2_basis); [reflexivity| |cbn; lra|cbn; lia|].
    + intros [|[|i]] Hi; cbn in *; [lra|lra|lia].
    + intros k. destruct vs as [|a [|b [|]]]; try discriminate L. reflexivity.
  - apply (H tri3_basis); [reflexivity| |cbn; lra|cbn; lia|].
    + intros [|[|[|i]]] Hi; cbn in *; [lra|lra|lra|lia].
    + intros k. destruct vs as [|a [|b [|c [|]]]]; try discriminate L. reflexivity.
  - apply (H tri3_basis); [reflexivity| |cbn; lra|cbn; lia|reflexivity].
    intros [|[|[|i]]] Hi; cbn in *; [lra|lra|lra|lia].
  - assert (Q : forall al be, (al = 1 \/ al = -1) -> (be = 1 \/ be = -1) -> 0 <= quad4_phi xi al be).
    { intros al be [-> | ->] [-> | ->]; unfold quad4_phi; apply Rmult_le_pos; try lra; apply Rmult_le_pos; lra. }
    apply (H quad4_basis); [reflexivity| |cbn; unfold quad4_phi; field|cbn; lia|].
    + intros [|[|[|[|i]]]] Hi; cbn in *; [apply Q; lra..|lia].
    + intros k. destruct vs as [|a [|b [|c [|d [|]]]]]; try discriminate L. reflexivity.
  - assert (Q : forall al be, (al = 1 \/ al = -1) -> (be = 1 \/ be = -1) -> 0 <= quad4_phi xi al be).
    { intros al be [-> | ->] [-> | ->]; unfold quad4_phi; apply Rmult_le_pos; try lra; apply Rmult_le_pos; lra. }
    apply (H quad4_basis); [reflexivity| |cbn; unfold quad4_phi; field|cbn; lia|reflexivity].
    intros [|[|[|[|i]]]] Hi; cbn in *; [apply Q; lra..|lia].
  - apply (H tet4_basis); [reflexivity| |cbn; lra|cbn; lia|].
    + intros [|[|[|[|i]]]] Hi; cbn in *; [lra..|lia].
    + intros k. destruct vs as [|a [|b [|c [|d [|]]]]]; try discriminate L. reflexivity.
  - apply (H tet4_basis); [reflexivity| |cbn; lra|cbn; lia|reflexivity].
    intros [|[|[|[|i]]]] Hi; cbn in *; [lra..|lia].
  - apply (H tet4_basis); [reflexivity| |cbn; lra|cbn; lia|reflexivity].
    intros [|[|[|[|i]]]] Hi; cbn in *; [lra..|lia].
  - assert (Q : forall al be ga, (al = 1 \/ al = -1) -> (be = 1 \/ be = -1) -> (ga = 1 \/ ga = -1) -> 0 <= hex8_phi xi al be ga).
    { intros al be ga [-> | ->] [-> | ->] [-> | ->]; unfold hex8_phi, phi_linear_1d; apply Rmult_le_pos; try lra; apply Rmult_le_pos; lra. }
    apply (H hex8_basis); [reflexivity| |cbn; unfold hex8_phi, phi_linear_1d; field|cbn; lia|].
    + intros [|[|[|[|[|[|[|[|i]]]]]]]] Hi; cbn in *; [apply Q; lra..|lia].
    + intros k. rewrite firstn_all2 by (cbn; lia). reflexivity.
  - assert (Q : forall al be ga, (al = 1 \/ al = -1) -> (be = 1 \/ be = -1) -> (ga = 1 \/ ga = -1) -> 0 <= hex8_phi xi al be ga).
    { intros al be ga [-> | ->] [-> | ->] [-> | ->]; unfold hex8_phi, phi_linear_1d; apply Rmult_le_pos; try lra; apply Rmult_le_pos; lra. }
    apply (H hex8_basis); [reflexivity| |cbn; unfold hex8_phi, phi_linear_1d; field|cbn; lia|reflexivity].
    intros [|[|[|[|[|[|[|[|i]]]]]]]] Hi; cbn in *; [apply Q; lra..|lia].
  - assert (Q : forall al be ga, (al = 1 \/ al = -1) -> (be = 1 \/ be = -1) -> (ga = 1 \/ ga = -1) -> 0 <= hex8_phi xi al be ga).
    { intros al be ga [-> | ->] [-> | ->] [-> | ->]; unfold hex8_phi, phi_linear_1d; apply Rmult_le_pos; try lra; apply Rmult_le_pos; lra. }
    apply (H hex8_basis); [reflexivity| |cbn; unfold hex8_phi, phi_linear_1d; field|cbn; lia|reflexivity].
    intros [|[|[|[|[|[|[|[|i]]]]]]]] Hi; cbn in *; [apply Q; lra..|lia].
Qed.

(** Corner [i] is the image of corner [i] of the reference domain. *)
Lemma corner_image el (vs : list vec) i : In el all_elements -> length vs = length (el_ref el) -> (i < el_corners el)%nat ->
  in_reference el (pt (nth i (el_ref el) [])) /\ forall k, el_map el vs (pt (nth i (el_ref el) [])) k = nth i vs zero_vec k.
Proof.
  intros Hel L Hi. cbn in Hel. unfold in_reference.
  repeat (destruct Hel as [<-|Hel]); [..|contradiction]; cbn in L; cbn [el_corners segment2 tri3 tri6 quad4 quad9 tet4 tet10 tet20 hex8 hex20 hex27] in Hi;
    repeat (destruct vs as [|? vs]; [discriminate L|]); clear L;
    do 8 (destruct i as [|i]; [split; [cbn; lra|intros k; cbn; unfold quad4_phi, hex8_phi, phi_linear_1d; cbn; field]|]; try lia).
Qed.

(** C90: the diameter is the largest distance between two points of the element. *)
Theorem C90_diameter : forall el D (vs : list vec), In el all_elements -> length vs = length (el_ref el) ->
  (forall xi eta, in_reference el xi -> in_reference el eta -> dist D (el_map el vs xi) (el_map el vs eta) <= diameter el D vs) /\
  exists xi eta, in_reference el xi /\ in_reference el eta /\ dist D (el_map el vs xi) (el_map el vs eta) = diameter el D vs.
Proof.
  intros el D vs Hel L. set (cs := firstn (el_corners el) vs).
  assert (E : diameter el D vs = vertices_diameter D cs).
  { unfold diameter, cs. destruct (el_corners el =? 2)%nat eqn:E2; [|reflexivity]. cbn in Hel. repeat (destruct Hel as [<-|Hel]); [..|contradiction]; try discriminate E2.
    cbn in L. destruct vs as [|a [|b [|]]]; try discriminate L. cbn. unfold vertices_diameter. cbn. unfold distance. rewrite Rmax_right; [reflexivity|apply sqrt_pos]. }
  assert (C : (2 <= el_corners el <= length vs)%nat).
  { rewrite L. cbn in Hel. repeat (destruct Hel as [<-|Hel]); [..|contradiction]; cbn; lia. }
  assert (Lc : length cs = el_corners el) by (unfold cs; rewrite firstn_length; lia).
  destruct (vertices_diameter_max D cs) as [Up At]. rewrite E. split.
  - intros xi eta Hx He. rewrite <- (sqrt_square (vertices_diameter D cs)).
    2:{ eapply Rle_trans; [|apply (Up 0%nat 0%nat); lia]. apply dist_nonneg. }
    apply sqrt_le_1_alt. apply (hull_dist2 D cs); [|now apply element_hull..]. intros i j Hi Hj. specialize (Up i j Hi Hj). unfold dist in Up.
    rewrite <- (sqrt_sqrt (dist2 D (nth i cs zero_vec) (nth j cs zero_vec))) by apply dist2_nonneg. pose proof (sqrt_pos (dist2 D (nth i cs zero_vec) (nth j cs zero_vec))).
    apply Rmult_le_compat; assumption.
  - destruct (At ltac:(lia)) as (i & j & Hi & Hj & ->). rewrite Lc in Hi, Hj.
    destruct (corner_image el vs i Hel L Hi) as [Ri Ei]. destruct (corner_image el vs j Hel L Hj) as [Rj Ej].
    exists (pt (nth i (el_ref el) [])), (pt (nth j (el_ref el) [])). split; [exact Ri|]. split; [exact Rj|].
    assert (F : forall i, (i < el_corners el)%nat -> nth i cs zero_vec = nth i vs zero_vec).
    { intros n Hn. unfold cs. rewrite <- (firstn_skipn (el_corners el) vs) at 2. rewrite app_nth1; [reflexivity|]. fold cs. lia. }
    rewrite !F by assumption. apply dist_ext; intros k _; [apply Ei|apply Ej].
Qed.
Print Assumptions C90_diameter.

(** * map_physical_coordinates *)
Lemma map_respects el (vs : list vec) x : In el all_elements -> respects (el_dim el) (map_residual el vs x).
Proof.
  intros Hel y z H i _. unfold map_residual. f_equal. cbn in Hel.
  repeat (destruct Hel as [<-|Hel]); [..|contradiction]; cbn [el_dim segment2 tri3 tri6 quad4 quad9 tet4 tet10 tet20 hex8 hex20 hex27] in H;
    cbn [el_map segment2 tri3 tri6 quad4 quad9 tet4 tet10 tet20 hex8 hex20 hex27]; unfold on_first, isoparametric_map; (apply (f_equal (fun b => ElementModel.combine b _ i)));
    unfold segment2_basis, tri3_basis, quad4_basis, tet4_basis, hex8_basis, quad4_phi, hex8_phi; now rewrite !H by lia.
Qed.
Lemma map_dist el D (vs : list vec) x xi : length2 D (map_residual el vs x xi) = dist D (el_map el vs xi) x.
Proof. reflexivity. Qed.

Lemma newton_stops n fuel F js tol lim x k : norm n (F x) <= tol ->
  newton_loop n (S fuel) F js no_line_search tol lim (NewtonState x (F x) k) = Some (NewtonResult x (F x) (inl k)).
Proof. intros H. cbn [newton_loop]. unfold newton_pass. cbn [ns_f ns_x ns_iter]. destruct (Rlt_dec tol (norm n (F x))); [lra|reflexivity]. Qed.
Lemma newton_limit n fuel F js tol m x : tol < norm n (F x) ->
  newton_loop n (S fuel) F js no_line_search tol (Some m) (NewtonState x (F x) m) = Some (NewtonResult x (F x) (inr (MaximumIterationsReached m))).
Proof. intros H. cbn [newton_loop]. unfold newton_pass. cbn [ns_f ns_x ns_iter]. destruct (Rlt_dec tol (norm n (F x))); [|lra]. destruct (Nat.eq_dec m m); [reflexivity|congruence]. Qed.
Lemma newton_singular n fuel F js tol m x k : tol < norm n (F x) -> (k < m)%nat -> js x (F x) = None ->
  newton_loop n (S fuel) F js no_line_search tol (Some m) (NewtonState x (F x) k) = Some (NewtonResult x (F x) (inr JacobianError)).
Proof. intros H Hk E. cbn [newton_loop]. unfold newton_pass. cbn [ns_f ns_x ns_iter]. destruct (Rlt_dec tol (norm n (F x))); [|lra]. destruct (Nat.eq_dec k m); [lia|]. now rewrite E. Qed.
Lemma newton_moves n fuel F js tol m x k d : tol < norm n (F x) -> (k < m)%nat -> js x (F x) = Some d -> let x' := axpy 1 (fun i => d i * -1) x in
  newton_loop n (S fuel) F js no_line_search tol (Some m) (NewtonState x (F x) k) = newton_loop n fuel F js no_line_search tol (Some m) (NewtonState x' (F x') (S k)).
Proof. intros H Hk E. cbn [newton_loop]. unfold newton_pass. cbn [ns_f ns_x ns_iter]. destruct (Rlt_dec tol (norm n (F x))); [|lra]. destruct (Nat.eq_dec k m); [lia|]. now rewrite E. Qed.

(** C90: the call returns; coordinates that are returned map to the point up to 1e-12 of the diameter; an error means that a Jacobian was singular, or that the
    twentieth iterate does not map to the point up to the tolerance. *)
Theorem C90_map : forall el (vs : list vec) x, In el all_elements -> let D := el_dim el in
  exists r, map_physical_coordinates el D vs x = Some r /\
    match r with
    | inl xi => dist D (el_map el vs xi) x <= / 10 ^ 12 * diameter el D vs
    | inr JacobianError => exists xi, determinant D (el_jacobian el vs xi) = 0
    | inr (MaximumIterationsReached m) => m = 20%nat /\ exists xi, steps (newton_step D (map_residual el vs x) (jacobian_solver el D vs) (/ 10 ^ 12 * diameter el D vs)) 20 zero_vec xi /\
        / 10 ^ 12 * diameter el D vs < dist D (el_map el vs xi) x
    | inr LineSearchError => False
    end.
Proof.
  intros el vs x Hel D. pose proof (map_respects el vs x Hel) as HF.
  destruct (C38_terminates D (map_residual el vs x) (jacobian_solver el D vs) no_line_search (newton_tolerance el D vs) 20 21 zero_vec HF (no_line_search_keeps D) ltac:(lia)) as (res & E).
  unfold map_physical_coordinates, map_with_limit, newton. rewrite E. cbn [option_map].
  destruct (nr_status res) as [k|e] eqn:S; eexists; (split; [reflexivity|]).
  - destruct (C38_newton D _ _ _ _ _ _ _ _ HF E S) as [H _]. exact H.
  - destruct (C38_errors D _ _ _ _ _ _ _ _ _ HF (no_line_search_keeps D) E S) as [_ H]. destruct e as [m| |].
    + destruct H as (Hm & Ht & Hs). injection Hm as <-. split; [reflexivity|]. exists (nr_x res). split; [|exact Ht].
      revert Hs. apply steps_impl. intros a b (Ht' & f & d & p & f' & al & Hf & Hj & Hp & Hs). split; [exact Ht'|]. exists f, d. repeat split; auto.
      injection Hs as _ <- _. intros i Hi. unfold axpy. rewrite Hp. ring.
    + destruct H as (k & f & _ & _ & Hj). exists (nr_x res). unfold jacobian_solver in Hj. now apply lu_none in Hj.
    + destruct H as (k & y & f & d & p & f' & _ & _ & _ & _ & Hs). discriminate Hs.
Qed.
Print Assumptions C90_map.

(** * simplices *)
Definition simplices : list element := [segment2; tri3; tri6; tet4; tet10; tet20].
Lemma simplices_elements el : In el simplices -> In el all_elements.
Proof. cbn. tauto. Qed.
Definition side (vs : list vec) (k j : nat) : R := (nth (S j) vs zero_vec k - nth 0 vs zero_vec k) / 2.
Lemma summ_total n f : summ n f = total n f.
Proof. induction n as [|n IH]; cbn; [reflexivity|]. now rewrite IH. Qed.
Lemma simplex_parts el (vs : list vec) : In el simplices -> length vs = length (el_ref el) -> (1 <= el_dim el <= 3)%nat /\ el_corners el = S (el_dim el) /\ (S (el_dim el) <= length vs)%nat /\
  (forall xi k j, (j < el_dim el)%nat -> el_jacobian el vs xi k j = side vs k j) /\
  forall xi k, el_map el vs xi k = el_map el vs zero_vec k + total (el_dim el) (fun j => side vs k j * xi j).
Proof.
  intros Hel L. assert (C : (length (el_ref el) >= S (el_dim el))%nat) by (cbn in Hel; repeat (destruct Hel as [<-|Hel]); [..|contradiction]; cbn; lia).
  split; [|split; [|split; [lia|]]]; [cbn in Hel; repeat (destruct Hel as [<-|Hel]); [..|contradiction]; cbn; lia..|]. clear C.
  cbn in Hel. repeat (destruct Hel as [<-|Hel]); [..|contradiction]; cbn in L; repeat (destruct vs as [|? vs]; [discriminate L|]); (destruct vs; [clear L|discriminate L]);
    (split; [intros xi k j Hj; cbn in Hj; do 3 (destruct j as [|j]; [unfold side; cbn; field|]; try lia)|intros xi k; unfold side, zero_vec; cbn; field]).
Qed.
Lemma mulv_total n M x k : mulv n M x k = total n (fun j => M k j * x j).
Proof. unfold mulv. apply summ_total. Qed.
(** sides that have a combination that vanishes belong to points that are not independent *)
Lemma sides_independent D (vs : list vec) r u : affinely_independent D (firstn (S r) vs) -> (S r <= length vs)%nat -> (forall k, (k < D)%nat -> total r (fun j => side vs k j * u j) = 0) -> veq r u (fun _ => 0).
Proof.
  intros Hi L H. assert (Lf : length (firstn (S r) vs) = S r) by (rewrite firstn_length; lia).
  set (d := fun i => match i with O => - total r u | S j => u j end).
  assert (S1 : forall n (f : nat -> R), total (S n) f = f 0%nat + total n (fun i => f (S i))).
  { induction n as [|n IHn]; intros f; cbn [total] in *; [ring|]. rewrite (IHn f). ring. }
  assert (N : forall i, (i < S r)%nat -> nth i (firstn (S r) vs) (fun _ => 0) = nth i vs zero_vec).
  { intros n Hn. rewrite <- (firstn_skipn (S r) vs) at 2. rewrite app_nth1; [reflexivity|]. lia. }
  assert (Z : forall i, (i < S r)%nat -> d i = 0).
  { intros i Hi'. apply (Hi d); [| |rewrite Lf; exact Hi'].
    - rewrite Lf, S1. change (- total r u + total r u = 0). ring.
    - intros k Hk. unfold mean. rewrite Lf. rewrite (total_ext _ _ (fun i => d i * nth i vs zero_vec k)) by (intros n Hn; f_equal; apply (f_equal (fun v : vec => v k)); now apply N).
      rewrite S1. change (- total r u * nth 0 vs zero_vec k + total r (fun j => u j * nth (S j) vs zero_vec k) = 0). specialize (H k Hk).
      rewrite (total_ext r _ (fun j => (1 / 2) * (u j * nth (S j) vs zero_vec k) + (- nth 0 vs zero_vec k / 2) * u j)) in H by (intros; unfold side; field).
      rewrite total_add, !total_scale in H. change (total r (fun i => u i)) with (total r u) in H. lra. }
  intros j Hj. specialize (Z (S j) ltac:(lia)). exact Z.
Qed.

(** C90: for simplices that are not degenerate every point is mapped back, by at most one Newton step: the result maps exactly to the point, or it is the centre of the reference
    coordinates and maps to the point up to the tolerance. *)
Theorem C90_map_simplex : forall el (vs : list vec) x, In el simplices -> length vs = length (el_ref el) -> let D := el_dim el in
  affinely_independent D (firstn (el_corners el) vs) ->
  exists xi, map_physical_coordinates el D vs x = Some (inl xi) /\
    (veq D (el_map el vs xi) x \/ veq D xi (fun _ => 0) /\ dist D (el_map el vs xi) x <= / 10 ^ 12 * diameter el D vs).
Proof.
  intros el vs x Hel L D Hi. destruct (simplex_parts el vs Hel L) as (Hd & Hc & Hl & HJ & HM). rewrite Hc in Hi. fold D in Hd, Hc, Hl, HJ, HM, Hi.
  set (tol := newton_tolerance el D vs). set (F := map_residual el vs x).
  destruct (Rle_lt_dec (norm D (F zero_vec)) tol) as [Small|Large].
  { exists zero_vec. unfold map_physical_coordinates, map_with_limit, newton, newton_line_search. fold D tol F. rewrite newton_stops by exact Small. cbn. split; [reflexivity|]. right.
    split; [intros i _; reflexivity|]. rewrite <- map_dist, <- norm_length2. exact Small. }
  destruct (jacobian_solver el D vs zero_vec (F zero_vec)) as [d|] eqn:J.
  2:{ exfalso. unfold jacobian_solver in J. apply lu_none in J. destruct (kernel D _ Hd J) as (u & Nu & Ku). apply Nu. apply (sides_independent D vs D u Hi Hl). intros k Hk.
      rewrite <- (Ku k Hk), mulv_total. apply total_ext. intros j Hj. now rewrite HJ. }
  set (xi := axpy 1 (fun i => d i * -1) zero_vec). assert (Z : veq D (el_map el vs xi) x).
  { intros k Hk. rewrite HM. unfold jacobian_solver in J. pose proof (lu_ok D _ _ _ Hd J k Hk) as E. rewrite mulv_total in E.
    rewrite (total_ext D _ (fun j => (-1) * (el_jacobian el vs zero_vec k j * d j))).
    - rewrite total_scale, E. unfold F, map_residual. ring.
    - intros j Hj. rewrite HJ by exact Hj. unfold xi, axpy, zero_vec. ring. }
  exists xi. split; [|now left]. unfold map_physical_coordinates, map_with_limit, newton, newton_line_search. fold D tol F.
  rewrite (newton_moves D 20 F _ tol 20 zero_vec 0 d Large ltac:(lia) J). fold xi. rewrite newton_stops; [reflexivity|].
  rewrite zero_norm; [unfold tol, newton_tolerance|intros k Hk; unfold F, map_residual; rewrite (Z k Hk); ring].
  apply Rmult_le_pos; [left; apply Rinv_0_lt_compat, pow_lt; lra|].
  unfold diameter. destruct (_ =? _)%nat; [unfold segment_diameter; destruct vs as [|? [|? [|]]]; try lra; apply sqrt_pos|]. apply (proj1 (fold_max_ge _ 0)).
Qed.
Print Assumptions C90_map_simplex.

(** C90: if the Jacobian at the centre is singular, points other than the image of the centre are not found. *)
Theorem C90_map_singular : forall el (vs : list vec) x, let D := el_dim el in determinant D (el_jacobian el vs zero_vec) = 0 ->
  / 10 ^ 12 * diameter el D vs < dist D (el_map el vs zero_vec) x -> map_physical_coordinates el D vs x = Some (inr JacobianError).
Proof.
  intros el vs x D Z H. unfold map_physical_coordinates, map_with_limit, newton, newton_line_search.
  rewrite newton_singular; [reflexivity| |lia|]; [rewrite norm_length2; exact H|]. unfold jacobian_solver. now apply lu_none.
Qed.
Print Assumptions C90_map_singular.

(** * project_physical_coordinates *)
Lemma project_step fuel el D vs tol x xi :
  project_loop (S fuel) el D vs tol x xi =
  let g := mulv D (transpose (el_jacobian el vs xi)) (fun i => el_map el vs xi i - x i) in
  if Rlt_dec tol (norm (el_dim el) g) then
    match lu_solve (el_dim el) (mmul D (transpose (el_jacobian el vs xi)) (el_jacobian el vs xi)) (fun i => - g i) with
    | Some sol => project_loop fuel el D vs tol x (fun i => xi i + sol i) | None => Some (inr tt) end
  else Some (inl xi).
Proof. reflexivity. Qed.

(** C90: what project_physical_coordinates returns if it returns: the offset is orthogonal to the tangents up to the tolerance; the error means that the tangents are dependent. *)
Theorem C90_project : forall fuel el D (vs : list vec) x r, (1 <= el_dim el <= 3)%nat -> project_physical_coordinates fuel el D vs x = Some (Some r) ->
  match r with
  | inl xi => length2 (el_dim el) (fun j => inner D (fun k => el_jacobian el vs xi k j) (fun k => el_map el vs xi k - x k)) <= / 10 ^ 12 * diameter el D vs
  | inr _ => exists xi u, ~ veq (el_dim el) u (fun _ => 0) /\ veq D (mulv (el_dim el) (el_jacobian el vs xi) u) (fun _ => 0)
  end.
Proof.
  intros fuel el D vs x r Hd. unfold project_physical_coordinates. destruct (_ <=? _)%nat; [|discriminate]. intros E. injection E as E. revert E. generalize zero_vec.
  induction fuel as [|fuel IH]; intros xi E; [discriminate E|]. rewrite project_step in E. cbv zeta in E. destruct (Rlt_dec _ _) as [Lt|Ge].
  - destruct (lu_solve _ _ _) as [sol|] eqn:S; [exact (IH _ E)|]. injection E as <-. exists xi. apply lu_none in S. destruct (kernel _ _ Hd S) as (u & Nu & Ku).
    exists u. split; [exact Nu|]. apply dot_self_zero. rewrite dot_total. transitivity (total (el_dim el) (fun j => u j * mulv (el_dim el) (mmul D (transpose (el_jacobian el vs xi)) (el_jacobian el vs xi)) u j)).
    2:{ rewrite (total_ext _ _ (fun _ => 0 * 0)) by (intros j Hj; rewrite (Ku j Hj); ring). rewrite total_scale. ring. }
    set (A := el_jacobian el vs xi). set (r := el_dim el).
    rewrite (total_ext D _ (fun k => total r (fun j => u j * (A k j * mulv r A u k)))).
    2:{ intros k _. rewrite (mulv_total r A u k) at 1. rewrite Rmult_comm, <- total_scale. apply total_ext. intros j _. ring. }
    rewrite (total_swap D r (fun k j => u j * (A k j * mulv r A u k))). apply total_ext. intros j _. rewrite total_scale. f_equal. rewrite mulv_total.
    rewrite (total_ext D _ (fun k => total r (fun i => A k j * A k i * u i))).
    2:{ intros k _. rewrite mulv_total, <- total_scale. apply total_ext. intros i _. ring. }
    rewrite (total_swap D r). apply total_ext. intros i _. unfold mmul, transpose.
    transitivity (u i * total D (fun k => A k j * A k i)); [rewrite <- total_scale; apply total_ext; intros k _; ring|]. rewrite Rmult_comm. f_equal.
  - injection E as <-. apply Rnot_lt_le in Ge. rewrite norm_length2 in Ge. eapply Rle_trans; [|exact Ge]. right. rewrite <- !norm_length2.
    unfold norm. f_equal. apply dot_ext; intros j _; rewrite mulv_total, <- dot_inner, dot_total; reflexivity.
Qed.
Print Assumptions C90_project.

Lemma dot_cs n x y : - (norm n x * norm n y) <= dot n x y.
Proof.
  unfold norm. rewrite <- sqrt_mult_alt by apply dot_nonneg.
  assert (H : dot n x y * dot n x y <= dot n x x * dot n y y).
  { destruct (Req_dec (dot n y y) 0) as [Z|N].
    - assert (E : dot n x y = 0). { rewrite (dot_ext n x x y (fun _ => 0) (fun i _ => eq_refl) (dot_self_zero n y Z)), dot_comm. apply dot_zero. } rewrite E, Z. lra.
    - pose proof (dot_nonneg n y) as P. pose proof (dot_nonneg n (fun i => x i + - (dot n x y / dot n y y) * y i)) as Q. rewrite dot_add_l, !dot_add_r, (dot_comm n y x) in Q.
      apply (Rmult_le_compat_r (dot n y y)) in Q; [|exact P]. rewrite Rmult_0_l in Q.
      replace (_ * dot n y y) with (dot n x x * dot n y y - dot n x y * dot n x y) in Q by (field; exact N). lra. }
  set (m := dot n x x * dot n y y) in *. assert (0 <= m) by (apply Rmult_le_pos; apply dot_nonneg).
  pose proof (sqrt_pos m). pose proof (sqrt_sqrt m ltac:(assumption)). destruct (Rle_dec 0 (dot n x y)); [lra|]. nra.
Qed.
Lemma shift_norm D p q s : veq D (fun i => q i - p i) s -> forall x, dist2 D x q = dist2 D x p + 2 * dot D (fun i => p i - x i) s + dot D s s.
Proof.
  intros H x. rewrite (dist2_sym D x q), (dist2_sym D x p), !dist2_dot.
  rewrite (dot_ext D _ (fun i => (p i - x i) + 1 * s i) _ (fun i => (p i - x i) + 1 * s i)) by (intros i Hi; rewrite <- (H i Hi); ring).
  rewrite dot_add_l, !dot_add_r, (dot_comm D s). ring.
Qed.
(** the offset against a tangent direction *)
Lemma tangent D r (A : nat -> nat -> R) v h : dot D v (mulv r A h) = dot r (mulv D (transpose A) v) h.
Proof.
  rewrite !dot_total. rewrite (total_ext D _ (fun k => total r (fun j => A k j * v k * h j))).
  2:{ intros k _. rewrite mulv_total, <- total_scale. apply total_ext. intros j _. ring. }
  rewrite total_swap. apply total_ext. intros j _. rewrite mulv_total, Rmult_comm, <- total_scale. apply total_ext. intros k _. unfold transpose. ring.
Qed.

Lemma tolerance_nonneg el D (vs : list vec) : 0 <= newton_tolerance el D vs.
Proof.
  unfold newton_tolerance. apply Rmult_le_pos; [left; apply Rinv_0_lt_compat, pow_lt; lra|].
  unfold diameter. destruct (_ =? _)%nat; [unfold segment_diameter; destruct vs as [|? [|? [|]]]; try lra; apply sqrt_pos|]. apply (proj1 (fold_max_ge _ 0)).
Qed.

(** C90: for simplices that are not degenerate, in any space, the loop ends after at most one step, and the result maps to the point of the plane (line, space) of the simplex
    that is nearest to the given point: exactly, or it is the centre of the reference coordinates and no point of the plane is nearer by more than the tolerance allows. *)
Theorem C90_project_simplex : forall el D (vs : list vec) x, In el simplices -> length vs = length (el_ref el) -> (el_dim el <= D)%nat ->
  affinely_independent D (firstn (el_corners el) vs) ->
  exists xi, (forall fuel, (2 <= fuel)%nat -> project_physical_coordinates fuel el D vs x = Some (Some (inl xi))) /\
    ((forall eta, dist D x (el_map el vs xi) <= dist D x (el_map el vs eta)) \/
     veq (el_dim el) xi (fun _ => 0) /\
     forall eta, dist2 D x (el_map el vs xi) <= dist2 D x (el_map el vs eta) + 2 * (/ 10 ^ 12 * diameter el D vs) * length2 (el_dim el) eta).
Proof.
  intros el D vs x Hel L HD Hi. destruct (simplex_parts el vs Hel L) as (Hd & Hc & Hl & HJ & HM). rewrite Hc in Hi.
  set (r := el_dim el) in *. set (tol := newton_tolerance el D vs).
  assert (Shift : forall xi eta, veq D (fun k => el_map el vs eta k - el_map el vs xi k) (mulv r (el_jacobian el vs xi) (fun j => eta j - xi j))).
  { intros xi eta k Hk. rewrite (HM eta), (HM xi), mulv_total. rewrite (total_ext r (fun j => el_jacobian el vs xi k j * (eta j - xi j)) (fun j => side vs k j * eta j + -1 * (side vs k j * xi j))).
    - rewrite total_add, total_scale. ring.
    - intros j Hj. rewrite HJ by exact Hj. ring. }
  set (g := fun xi => mulv D (transpose (el_jacobian el vs xi)) (fun i => el_map el vs xi i - x i)).
  assert (Near : forall xi eta, dist2 D x (el_map el vs xi) <= dist2 D x (el_map el vs eta) + 2 * (norm r (g xi) * norm r (fun j => eta j - xi j))).
  { intros xi eta. rewrite (shift_norm D _ _ _ (Shift xi eta) x), tangent. pose proof (dot_cs r (g xi) (fun j => eta j - xi j)) as C.
    pose proof (dot_nonneg D (mulv r (el_jacobian el vs xi) (fun j => eta j - xi j))). change (mulv D (transpose (el_jacobian el vs xi)) (fun i => el_map el vs xi i - x i)) with (g xi). lra. }
  assert (Start : forall fuel, project_physical_coordinates fuel el D vs x = Some (project_loop fuel el D vs tol x zero_vec)).
  { intros fuel. unfold project_physical_coordinates. fold r. now rewrite (proj2 (Nat.leb_le r D) HD). }
  destruct (Rlt_dec tol (norm r (g zero_vec))) as [Large|Small].
  2:{ exists zero_vec. split.
      - intros [|fuel] F; [lia|]. rewrite Start, project_step. cbv zeta. fold r (g zero_vec). destruct (Rlt_dec _ _); [contradiction|reflexivity].
      - right. split; [intros i _; reflexivity|]. intros eta. eapply Rle_trans; [apply (Near zero_vec eta)|]. apply Rplus_le_compat_l. rewrite Rmult_assoc. apply Rmult_le_compat_l; [lra|].
        rewrite <- norm_length2. rewrite (norm_ext r (fun j => eta j - zero_vec j) eta) by (intros j _; unfold zero_vec; ring).
        apply Rmult_le_compat_r; [apply sqrt_pos|]. apply Rnot_lt_le in Small. exact Small. }
  set (A := el_jacobian el vs zero_vec).
  destruct (lu_solve r (mmul D (transpose A) A) (fun i => - g zero_vec i)) as [sol|] eqn:S.
  2:{ exfalso. apply lu_none in S. destruct (kernel r _ Hd S) as (u & Nu & Ku). apply Nu. apply (sides_independent D vs r u Hi Hl).
      assert (Z : veq D (mulv r A u) (fun _ => 0)).
      { apply dot_self_zero. rewrite tangent, dot_total. rewrite (total_ext r _ (fun _ => 0 * 0)); [rewrite total_scale; ring|]. intros j Hj. rewrite <- (Ku j Hj) at 1.
        transitivity (mulv D (transpose A) (mulv r A u) j * u j); [reflexivity|].
        replace (mulv D (transpose A) (mulv r A u) j) with (mulv r (mmul D (transpose A) A) u j); [rewrite (Ku j Hj); ring|].
        rewrite !mulv_total. rewrite (total_ext D _ (fun k => total r (fun i => A k j * A k i * u i))).
        2:{ intros k _. rewrite mulv_total, <- total_scale. apply total_ext. intros i _. unfold transpose. ring. }
        rewrite (total_swap D r). apply total_ext. intros i _. unfold mmul, transpose.
        transitivity (u i * total D (fun k => A k j * A k i)); [|rewrite <- total_scale; apply total_ext; intros k _; ring]. rewrite Rmult_comm. f_equal. }
      intros k Hk. specialize (Z k Hk). rewrite mulv_total in Z. rewrite <- Z. apply total_ext. intros j Hj. unfold A. now rewrite HJ. }
  set (xi := fun i => zero_vec i + sol i).
  assert (Gz : veq r (g xi) (fun _ => 0)).
  { intros j Hj. pose proof (lu_ok r _ _ _ Hd S j Hj) as E. unfold g. rewrite mulv_total.
    rewrite (total_ext D _ (fun k => A k j * (el_map el vs zero_vec k - x k) + A k j * mulv r A sol k)).
    2:{ intros k Hk. unfold transpose. rewrite HJ by exact Hj. unfold A at 1 2. rewrite HJ by exact Hj. rewrite (HM xi k).
        replace (total r (fun j0 => side vs k j0 * xi j0)) with (mulv r A sol k); [ring|]. rewrite mulv_total. apply total_ext. intros i Hi'. unfold A, xi, zero_vec. rewrite HJ by exact Hi'. ring. }
    rewrite total_add.
    replace (total D (fun k => A k j * (el_map el vs zero_vec k - x k))) with (g zero_vec j) by (unfold g; rewrite mulv_total; reflexivity).
    replace (total D (fun k => A k j * mulv r A sol k)) with (mulv r (mmul D (transpose A) A) sol j); [rewrite E; ring|].
    rewrite mulv_total. rewrite (total_ext D _ (fun k => total r (fun i => A k j * A k i * sol i))).
    2:{ intros k _. rewrite mulv_total, <- total_scale. apply total_ext. intros i _. ring. }
    rewrite (total_swap D r). apply total_ext. intros i _. unfold mmul, transpose.
    transitivity (sol i * total D (fun k => A k j * A k i)); [|rewrite <- total_scale; apply total_ext; intros k _; ring]. rewrite Rmult_comm. f_equal. }
  exists xi. split.
  - intros [|[|fuel]] F; [lia..|]. rewrite Start, project_step. cbv zeta. fold r (g zero_vec) A. destruct (Rlt_dec _ _) as [_|N]; [|contradiction]. rewrite S, project_step. cbv zeta. fold r xi (g xi).
    rewrite (zero_norm r _ Gz). destruct (Rlt_dec tol 0) as [N|_]; [|reflexivity]. pose proof (tolerance_nonneg el D vs). fold tol in H. lra.
  - left. intros eta. apply sqrt_le_1_alt. pose proof (Near xi eta) as H. rewrite (zero_norm r _ Gz) in H. lra.
Qed.
Print Assumptions C90_project_simplex.

Lemma example_independent : affinely_independent 3 (map pt [[0; 0; 1]; [2; 0; 1]; [0; 2; 1]]).
Proof.
  intros d T Z i Hi. unfold mean in Z. cbn in T, Z, Hi. pose proof (Z 0%nat ltac:(lia)) as Z0. pose proof (Z 1%nat ltac:(lia)) as Z1. cbn in Z0, Z1.
  destruct i as [|[|[|i]]]; [lra|lra|lra|lia].
Qed.
(** a triangle parallel to a coordinate plane: the projection drops the third coordinate *)
Example C90_example : exists xi, project_physical_coordinates 2 tri3 3 (map pt [[0; 0; 1]; [2; 0; 1]; [0; 2; 1]]) (pt [1 / 2; 3 / 4; 5]) = Some (Some (inl xi)) /\
  veq 3 (el_map tri3 (map pt [[0; 0; 1]; [2; 0; 1]; [0; 2; 1]]) xi) (pt [1 / 2; 3 / 4; 1]).
Proof.
  destruct (C90_project_simplex tri3 3 (map pt [[0; 0; 1]; [2; 0; 1]; [0; 2; 1]]) (pt [1 / 2; 3 / 4; 5]) ltac:(cbn; tauto) eq_refl ltac:(cbn; lia) example_independent) as (xi & R & B).
  exists xi. split; [apply R; lia|]. assert (M : dist2 3 (pt [1 / 2; 3 / 4; 5]) (el_map tri3 (map pt [[0; 0; 1]; [2; 0; 1]; [0; 2; 1]]) (pt [- 1 / 2; - 1 / 4])) = 16).
  { unfold dist2, inner. cbn. field. }
  destruct B as [B|[Z B]]; specialize (B (pt [- 1 / 2; - 1 / 4])).
  - assert (H : dist2 3 (pt [1 / 2; 3 / 4; 5]) (el_map tri3 (map pt [[0; 0; 1]; [2; 0; 1]; [0; 2; 1]]) xi) <= 16).
    { rewrite <- M. apply Rnot_lt_le. intros C. apply (Rlt_not_le _ _ (sqrt_lt_1_alt _ _ (conj (dist2_nonneg 3 _ _) C))). exact B. }
    set (u := el_map tri3 (map pt [[0; 0; 1]; [2; 0; 1]; [0; 2; 1]]) xi 0%nat - 1 / 2). set (v := el_map tri3 (map pt [[0; 0; 1]; [2; 0; 1]; [0; 2; 1]]) xi 1%nat - 3 / 4).
    assert (E : dist2 3 (pt [1 / 2; 3 / 4; 5]) (el_map tri3 (map pt [[0; 0; 1]; [2; 0; 1]; [0; 2; 1]]) xi) = u * u + v * v + 16) by (unfold dist2, inner, u, v; cbn; field).
    rewrite E in H. assert (U : u = 0) by nra. assert (V : v = 0) by nra.
    intros [|[|[|k]]] Hk; [change (el_map tri3 (map pt [[0; 0; 1]; [2; 0; 1]; [0; 2; 1]]) xi 0%nat = 1 / 2); unfold u in U; lra
      |change (el_map tri3 (map pt [[0; 0; 1]; [2; 0; 1]; [0; 2; 1]]) xi 1%nat = 3 / 4); unfold v in V; lra|cbn; lra|lia].
  - exfalso. rewrite M in B. assert (Dm : diameter tri3 3 (map pt [[0; 0; 1]; [2; 0; 1]; [0; 2; 1]]) <= 4).
    { unfold diameter, vertices_diameter. cbn [el_corners tri3 Nat.eqb firstn map tuple_combinations app fold_left].
      assert (S : forall x y : vec, dot 3 (fun i => y i - x i) (fun i => y i - x i) <= 16 -> distance 3 x y <= 4).
      { intros x y H. unfold distance, norm. rewrite <- (sqrt_square 4) by lra. apply sqrt_le_1_alt. lra. }
      repeat apply Rmax_lub; try lra; apply S; cbn; lra. }
    assert (Ln : length2 (el_dim tri3) (pt [- 1 / 2; - 1 / 4]) <= 1).
    { unfold length2. rewrite <- sqrt_1. apply sqrt_le_1_alt. unfold inner. cbn. lra. }
    assert (H : dist2 3 (pt [1 / 2; 3 / 4; 5]) (el_map tri3 (map pt [[0; 0; 1]; [2; 0; 1]; [0; 2; 1]]) xi) = 16 + 5 / 16).
    { unfold dist2, inner. cbn. cbn in Z. rewrite (Z 0%nat), (Z 1%nat) by lia. field. }
    rewrite H in B. assert (0 <= length2 (el_dim tri3) (pt [- 1 / 2; - 1 / 4])) by apply sqrt_pos.
    assert (0 <= diameter tri3 3 (map pt [[0; 0; 1]; [2; 0; 1]; [0; 2; 1]])) by (unfold diameter; cbn [el_corners tri3 Nat.eqb]; apply (proj1 (fold_max_ge _ 0))).
    set (dm := diameter _ _ _) in *. set (ln := length2 _ _) in *. assert (dm * ln <= 4) by nra. assert (/ 10 ^ 12 <= 1 / 1000) by (cbn; lra). assert (0 <= / 10 ^ 12) by (cbn; lra). nra.
Qed.

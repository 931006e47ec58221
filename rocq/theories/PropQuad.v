(** C46, C47, C48 and C63: quadrilaterals, polygon-segment tests, empty polygons, signed distance of a triangle. *)
From Coq Require Import Reals List Lra Lia Psatz Bool Arith.
From Verif Require Import CgModel CgSpec GeomModel GeomSpec PropSeg PropPolygon.
Import ListNotations.
Open Scope R_scope.

(** * C46 *)
Definition corners4 (q : quad) : list (R * R) := [q 0%nat; q 1%nat; q 2%nat; q 3%nat].

(** no quadrilateral is ever found to be concave *)
Lemma never_concave q : concave_corner q = None.
Proof.
  unfold concave_corner. assert (E : forall l, find (concave_at q) l = None).
  { induction l as [|i l IH]; [reflexivity|]. cbn [find]. assert (concave_at q i = false) as ->; [|exact IH].
    unfold concave_at. destruct (Rlt_dec _ _) as [L|]; [|reflexivity]. unfold perp, vsub in L; cbn in L. nra. }
  rewrite E. reflexivity.
Qed.

Lemma shoelace4 q : shoelace (corners4 q) = (left_of (q 0%nat) (q 1%nat) (q 2%nat) + left_of (q 0%nat) (q 2%nat) (q 3%nat)) / 2.
Proof. unfold shoelace, sum_to, corner, corners4, left_of; cbn. field. Qed.
Lemma quad_area_left q : quad_area q = (Rabs (left_of (q 0%nat) (q 1%nat) (q 2%nat)) + Rabs (left_of (q 0%nat) (q 2%nat) (q 3%nat))) / 2.
Proof.
  unfold quad_area, quad_triangles, split_connectivities. rewrite never_concave. unfold tri_area, tri_signed_area.
  assert (T : forall a b c, Rabs (1 / 2 * perp (vsub b a) (vsub c a)) = Rabs (left_of a b c) / 2).
  { intros a b c. rewrite Rabs_mult, (Rabs_right (1/2)) by lra. unfold perp, vsub, left_of; cbn. lra. }
  rewrite !T. lra.
Qed.

(** right exactly when the triangles 0 1 2 and 2 3 0 have no opposite orientations *)
Theorem C46_exact q : quad_area q = Rabs (shoelace (corners4 q)) <-> 0 <= left_of (q 0%nat) (q 1%nat) (q 2%nat) * left_of (q 2%nat) (q 3%nat) (q 0%nat).
Proof.
  assert (E : left_of (q 2%nat) (q 3%nat) (q 0%nat) = left_of (q 0%nat) (q 2%nat) (q 3%nat)) by (unfold left_of; ring). rewrite E, quad_area_left, shoelace4.
  set (a := left_of (q 0%nat) (q 1%nat) (q 2%nat)). set (b := left_of (q 0%nat) (q 2%nat) (q 3%nat)). clearbody a b. clear E.
  unfold Rabs. destruct (Rcase_abs a), (Rcase_abs b), (Rcase_abs ((a + b) / 2)); split; intros; try lra; try nra.
Qed.
Print Assumptions C46_exact.
(** in particular for convex quadrilaterals, which are always split along the diagonal from 0 to 2 *)
Theorem C46_convex q : convex_polygon (corners4 q) -> quad_area q = Rabs (shoelace (corners4 q)) /\ split_connectivities q = ((0, 1, 2), (0, 2, 3))%nat.
Proof.
  intros C. split; [|unfold split_connectivities; rewrite never_concave; reflexivity].
  apply C46_exact. apply Rmult_le_pos; [exact (C 0 2 ltac:(cbn; lia) ltac:(cbn; lia))%nat|exact (C 2 0 ltac:(cbn; lia) ltac:(cbn; lia))%nat].
Qed.
Print Assumptions C46_convex.

(** opposite sides do not meet *)
Definition simple4 (q : quad) : Prop :=
  (forall x, between (q 0%nat) (q 1%nat) x -> ~ between (q 2%nat) (q 3%nat) x) /\ (forall x, between (q 1%nat) (q 2%nat) x -> ~ between (q 3%nat) (q 0%nat) x).
Definition arrow : quad := fun i => match i with O => (0, 0) | S O => (2, 1) | S (S O) => (4, 0) | _ => (2, 4) end.
Lemma arrow_simple : simple4 arrow.
Proof.
  split; intros x (t & Ht & ->) (s & Hs & E); unfold mix, arrow in E; cbn in E; injection E; intros E2 E1; lra.
Qed.

(** a simple quadrilateral with a concave corner 1: the area is wrong and the corner is not found *)
Theorem C46_refuted : exists q : quad, simple4 q /\ 0 < shoelace (corners4 q) /\ quad_area q <> Rabs (shoelace (corners4 q)) /\
  left_of (q 0%nat) (q 1%nat) (q 2%nat) < 0 /\ concave_corner q = None.
Proof.
  exists arrow. split; [exact arrow_simple|]. rewrite quad_area_left, shoelace4, never_concave.
  assert (A : left_of (arrow 0%nat) (arrow 1%nat) (arrow 2%nat) = -4) by (unfold left_of, arrow; cbn; lra).
  assert (B : left_of (arrow 0%nat) (arrow 2%nat) (arrow 3%nat) = 16) by (unfold left_of, arrow; cbn; lra).
  rewrite A, B. split; [lra|]. split; [|split; [lra|reflexivity]].
  rewrite (Rabs_left (-4)), (Rabs_right 16), (Rabs_right ((-4 + 16) / 2)) by lra. lra.
Qed.
Print Assumptions C46_refuted.

Example C46_example : quad_area (fun i => match i with O => (0, 0) | S O => (3, 0) | S (S O) => (3, 2) | _ => (0, 2) end) = 6.
Proof. rewrite quad_area_left. unfold left_of; cbn. rewrite !Rabs_right by lra. lra. Qed.

(** * C47 *)
Definition unit_square : list (R * R) := [(0, 0); (1, 0); (1, 1); (0, 1)].
Lemma norm_axis x y : x * x + y * y = 1 -> vnorm (x, y) = 1.
Proof. intros H. unfold vnorm, vdot; cbn. rewrite H. apply sqrt_1. Qed.

(** projections on the sides *)
Lemma closest_value a b p t : vdot (vsub b a) (vsub b a) <> 0 -> clamp (vdot (vsub p a) (vsub b a) / vdot (vsub b a) (vsub b a)) 0 1 = t -> closest_parametric (Seg a b) p = t.
Proof.
  intros N E. unfold closest_parametric, project_parametric, seg_line, tangent. cbn [ln_dir ln_point sg_start sg_end].
  destruct (Req_EM_T _ 0); [contradiction|exact E].
Qed.
Ltac side_param := apply closest_value; [unfold vdot, vsub; cbn; lra|unfold vdot, vsub, clamp; cbn; repeat destruct (Rlt_dec _ _); lra].

Section Crossing.
  (** the segment from (-1, 1/2) to (2, 1/2) *)
  Let s := Seg (-1, 1/2) (2, 1/2).
  Let skip := fun e => match intersect_segment_parametric e s with Some _ => true | None => false end.
  Lemma skip0 : skip (Seg (0, 0) (1, 0)) = false.
  Proof. unfold skip, intersect_segment_parametric, intersect_lines, s, seg_line, tangent, vsub; cbn. destruct (Req_EM_T _ _); [reflexivity|exfalso; lra]. Qed.
  Lemma skip2 : skip (Seg (1, 1) (0, 1)) = false.
  Proof. unfold skip, intersect_segment_parametric, intersect_lines, s, seg_line, tangent, vsub; cbn. destruct (Req_EM_T _ _); [reflexivity|exfalso; lra]. Qed.
  Lemma skip_side a b : (a = (1, 0) /\ b = (1, 1)) \/ (a = (0, 1) /\ b = (0, 0)) -> skip (Seg a b) = true.
  Proof.
    intros H. unfold skip. pose proof (C42_segments a b (-1, 1/2) (2, 1/2)) as C. fold s in C. destruct (intersect_segment_parametric (Seg a b) s); [reflexivity|exfalso].
    apply (C ltac:(destruct H as [[-> ->]|[-> ->]]; cbn; lra) (fst a, 1/2)).
    - exists (1/2). split; [lra|]. destruct H as [[-> ->]|[-> ->]]; unfold mix; cbn; f_equal; lra.
    - exists ((fst a + 1) / 3). split; [destruct H as [[-> ->]|[-> ->]]; cbn; lra|]. destruct H as [[-> ->]|[-> ->]]; unfold mix; cbn; f_equal; lra.
  Qed.
  Lemma nearest p : p = (-1, 1/2) \/ p = (2, 1/2) -> fst (nearest_edge unit_square p skip) = 0%nat.
  Proof.
    intros H. unfold nearest_edge. change (length unit_square) with 4%nat. cbn [seq fold_left].
    change (get_edge unit_square 0) with (Some (Seg (0, 0) (1, 0))). change (get_edge unit_square 1) with (Some (Seg (1, 0) (1, 1))).
    change (get_edge unit_square 2) with (Some (Seg (1, 1) (0, 1))). change (get_edge unit_square 3) with (Some (Seg (0, 1) (0, 0))).
    cbv beta iota zeta delta [snd fst]. rewrite skip0, skip2, (skip_side (1, 0) (1, 1)), (skip_side (0, 1) (0, 0)) by auto. cbv beta iota zeta.
    destruct (Rlt_dec _ _) as [L|]; [exfalso|reflexivity].
    destruct H as [-> | ->]; unfold closest_point in L.
    - assert (closest_parametric (Seg (0, 0) (1, 0)) (-1, 1/2) = 0) as E by side_param. assert (closest_parametric (Seg (1, 1) (0, 1)) (-1, 1/2) = 1) as E' by side_param.
      rewrite E, E' in L. unfold seg_at, tangent, vdot, vadd, vscale, vsub in L; cbn in L. lra.
    - assert (closest_parametric (Seg (0, 0) (1, 0)) (2, 1/2) = 1) as E by side_param. assert (closest_parametric (Seg (1, 1) (0, 1)) (2, 1/2) = 0) as E' by side_param.
      rewrite E, E' in L. unfold seg_at, tangent, vdot, vadd, vscale, vsub in L; cbn in L. lra.
  Qed.
  Lemma outside_start : endpoint_inside unit_square s (-1, 1/2) = Some false.
  Proof.
    unfold endpoint_inside. fold skip. rewrite nearest by auto. change (get_edge unit_square 0) with (Some (Seg (0, 0) (1, 0))). cbv beta iota zeta.
    assert (closest_parametric (Seg (0, 0) (1, 0)) (-1, 1/2) = 0) as -> by side_param. unfold pseudonormal.
    change (get_edge unit_square 0) with (Some (Seg (0, 0) (1, 0))). cbv beta iota zeta. destruct (Req_EM_T 0 0) as [_|N]; [|lra].
    change (get_edge unit_square ((0 + length unit_square - 1) mod length unit_square)) with (Some (Seg (0, 1) (0, 0))).
    cbn [option_map]. unfold normal_dir, tangent, vsub. cbn [sg_start sg_end fst snd].
    assert (N1 : normalize (0 - 1, - (0 - 0)) = (-1, 0)) by (unfold normalize; rewrite norm_axis by lra; cbn; f_equal; lra).
    assert (N2 : normalize (0 - 0, - (1 - 0)) = (0, -1)) by (unfold normalize; rewrite norm_axis by lra; cbn; f_equal; lra).
    rewrite N1, N2. unfold vadd. cbn [fst snd]. unfold normalize.
    assert (P : 0 < vnorm ((-1 + 0) / 2, (0 + -1) / 2)) by (apply normalize_dir; intros E; injection E; intros; lra).
    set (N := vnorm ((-1 + 0) / 2, (0 + -1) / 2)) in *. assert (I : 0 < / N) by (apply Rinv_0_lt_compat, P).
    unfold seg_at, tangent, vdot, vadd, vscale, vsub; cbn [fst snd sg_start sg_end].
    destruct (Rle_dec _ _) as [L|]; [exfalso|reflexivity]. cbn in L. unfold Rdiv in L. clearbody N. generalize dependent (/ N). intros k K L. lra.
  Qed.
  Lemma outside_end : endpoint_inside unit_square s (2, 1/2) = Some false.
  Proof.
    unfold endpoint_inside. fold skip. rewrite nearest by auto. change (get_edge unit_square 0) with (Some (Seg (0, 0) (1, 0))). cbv beta iota zeta.
    assert (closest_parametric (Seg (0, 0) (1, 0)) (2, 1/2) = 1) as -> by side_param. unfold pseudonormal.
    change (get_edge unit_square 0) with (Some (Seg (0, 0) (1, 0))). cbv beta iota zeta. destruct (Req_EM_T 1 0) as [N|_]; [lra|]. destruct (Req_EM_T 1 1) as [_|N]; [|lra].
    change (get_edge unit_square ((0 + 1) mod length unit_square)) with (Some (Seg (1, 0) (1, 1))).
    cbn [option_map]. unfold normal_dir, tangent, vsub. cbn [sg_start sg_end fst snd].
    assert (N1 : normalize (1 - 0, - (1 - 1)) = (1, 0)) by (unfold normalize; rewrite norm_axis by lra; cbn; f_equal; lra).
    assert (N2 : normalize (0 - 0, - (1 - 0)) = (0, -1)) by (unfold normalize; rewrite norm_axis by lra; cbn; f_equal; lra).
    rewrite N1, N2. unfold vadd. cbn [fst snd]. unfold normalize.
    assert (P : 0 < vnorm ((1 + 0) / 2, (0 + -1) / 2)) by (apply normalize_dir; intros E; injection E; intros; lra).
    set (N := vnorm ((1 + 0) / 2, (0 + -1) / 2)) in *. assert (I : 0 < / N) by (apply Rinv_0_lt_compat, P).
    unfold seg_at, tangent, vdot, vadd, vscale, vsub; cbn [fst snd sg_start sg_end].
    destruct (Rle_dec _ _) as [L|]; [exfalso|reflexivity]. cbn in L. unfold Rdiv in L. clearbody N. generalize dependent (/ N). intros k K L. lra.
  Qed.
End Crossing.

(** a segment right through a convex counterclockwise polygon is reported as not intersecting it *)
Theorem C47_refuted : exists (vs : list (R * R)) (a b x : R * R),
  convex_polygon vs /\ 0 < shoelace vs /\ between a b x /\ hull vs x /\ intersects_segment vs (Seg a b) = Some false.
Proof.
  exists unit_square, (-1, 1/2), (2, 1/2), (1/2, 1/2). split.
  { intros i j Hi Hj. cbn in Hi, Hj. destruct i as [|[|[|[|i]]]]; try lia; destruct j as [|[|[|[|j]]]]; try lia; unfold left_of, corner, unit_square; cbn; lra. }
  split; [unfold shoelace, sum_to, corner, unit_square; cbn; lra|].
  split; [exists (1/2); split; [lra|unfold mix; cbn; f_equal; lra]|]. split.
  - assert (E : (1/2, 1/2) = mix (0, 0) (1, 1) (1/2)) by (unfold mix; cbn; f_equal; lra). rewrite E.
    apply hull_mix; [apply hull_point; cbn; auto|apply hull_point; cbn; auto|lra].
  - unfold intersects_segment. cbn [unit_square sg_start sg_end]. rewrite outside_start. exact outside_end.
Qed.
Print Assumptions C47_refuted.

(** * C48 *)
Theorem C48_contains_refuted : forall p, polygon_contains [] p = Some true /\ ~ hull [] p.
Proof. intros p. split; [reflexivity|]. intros H. induction H as [v []|]; assumption. Qed.
Print Assumptions C48_contains_refuted.
Theorem C48_clip_refuted : forall vs, (3 <= length vs)%nat -> clip_polygon vs [] = Some vs /\ (exists x, hull vs x) /\ (forall x, ~ hull [] x).
Proof.
  intros vs L. destruct vs as [|a [|b [|c vs]]]; cbn in L; try lia. split; [reflexivity|]. split.
  - exists a. apply hull_point. left. reflexivity.
  - intros x H. induction H as [v []|]; assumption.
Qed.
Print Assumptions C48_clip_refuted.
(** the other way round the answer is right *)
Theorem C48_empty_first : forall other, (length other <> 1)%nat -> clip_polygon [] other = Some [] \/ length other = 2%nat.
Proof.
  intros other L. destruct other as [|a [|b [|c other]]]; [left; reflexivity|cbn in L; lia|right; reflexivity|left].
  assert (G : forall hs, fold_left (fun acc h => match acc with Some vs => clip vs h | None => None end) hs (Some []) = Some []).
  { induction hs as [|h hs IH]; [reflexivity|exact IH]. }
  apply G.
Qed.
Print Assumptions C48_empty_first.
(** a polygon that is a single point contains that point only; with three or more vertices the points left of all sides *)
Theorem C48_contains vs p : (length vs <> 2)%nat -> (length vs <> 0)%nat -> exists b, polygon_contains vs p = Some b /\
  (b = true <-> match vs with [v] => p = v | _ => left_of_all vs p end).
Proof.
  intros L2 L0. destruct vs as [|a [|b vs]]; [cbn in L0; lia| |].
  - cbn. eexists. split; [reflexivity|]. destruct (vec2_eq_dec a p); split; intros; congruence.
  - destruct vs as [|c vs]; [cbn in L2; lia|]. eexists. split; [reflexivity|]. rewrite forallb_forall, <- half_planes_all.
    split; intros H h Hh; apply contains_iff, H, Hh.
Qed.
Print Assumptions C48_contains.

(** * C63: signed distance of a triangle in the plane *)
Definition boundary3 (t : nat -> R * R) (x : R * R) : Prop := exists i, (i < 3)%nat /\ between (t i) (t ((i + 1) mod 3)%nat) x.

Definition sd_inv (t : nat -> R * R) (p : R * R) (k : nat) (acc : bool * nat * option R * vec2) : Prop :=
  let '(inside, feature, best, point) := acc in
  (inside = true <-> forall i, (i < k)%nat -> 0 <= left_of (t i) (t ((i + 1) mod 3)%nat) p) /\
  match best with
  | None => k = 0%nat
  | Some b => (feature < k)%nat /\ between (t feature) (t ((feature + 1) mod 3)%nat) point /\ b = dist2 p point /\
              forall i x, (i < k)%nat -> between (t i) (t ((i + 1) mod 3)%nat) x -> b <= dist2 p x
  end.
Lemma dist2_dot p q : vdot (vsub p q) (vsub p q) = dist2 p q.
Proof. unfold vdot, vsub, dist2; cbn. ring. Qed.
Lemma closest_dist2 a b p x : between a b x -> dist2 p (closest_point (Seg a b) p) <= dist2 p x.
Proof.
  intros H. destruct (C42_closest_point_2d a b p) as [_ M]. specialize (M x H). unfold dist in M.
  assert (P : forall u v, 0 <= dist2 u v) by (intros; unfold dist2; apply Rplus_le_le_0_compat; apply pow2_ge_0). apply sqrt_le_0; auto.
Qed.
(** the offset from any point of the side's line gives the side of the line *)
Lemma side_sign a b p t : vdot (vsub p (seg_at (Seg a b) t)) (normal_dir (Seg a b)) = - left_of a b p.
Proof. rewrite mix_at. unfold vdot, vsub, normal_dir, tangent, mix, left_of; cbn. ring. Qed.

Lemma sd_step_inv t p k acc : sd_inv t p k acc -> sd_inv t p (S k) (sd_step t p acc k).
Proof.
  destruct acc as [[[inside feature] best] point]. intros [Hi Hb]. unfold sd_step. set (s := Seg (t k) (t ((k + 1) mod 3)%nat)).
  set (q := closest_point s p). set (ins := if Rlt_dec 0 _ then false else inside).
  assert (I : ins = true <-> forall i, (i < S k)%nat -> 0 <= left_of (t i) (t ((i + 1) mod 3)%nat) p).
  { unfold ins, q, closest_point, s. rewrite side_sign. clear ins. destruct (Rlt_dec 0 (- left_of (t k) (t ((k + 1) mod 3)%nat) p)) as [L|L].
    - split; [intros X; discriminate X|]. intros H. specialize (H k ltac:(lia)). lra.
    - rewrite Hi. split; intros H i Hlt; [|apply H; lia]. destruct (Nat.eq_dec i k) as [->|]; [lra|apply H; lia]. }
  rewrite dist2_dot. destruct (C42_closest_point_2d (t k) (t ((k + 1) mod 3)%nat) p) as [B _]. fold s q in B.
  assert (M : forall x, between (t k) (t ((k + 1) mod 3)%nat) x -> dist2 p q <= dist2 p x) by (intros x; apply closest_dist2).
  destruct best as [b|].
  - destruct Hb as (F & Bp & E & Min). destruct (Rlt_dec (dist2 p q) b) as [L|L].
    + split; [exact I|]. split; [lia|]. split; [exact B|]. split; [reflexivity|]. intros i x Hlt Hx. destruct (Nat.eq_dec i k) as [->|]; [apply M, Hx|].
      specialize (Min i x ltac:(lia) Hx). lra.
    + split; [exact I|]. split; [lia|]. split; [exact Bp|]. split; [exact E|]. intros i x Hlt Hx. destruct (Nat.eq_dec i k) as [->|]; [specialize (M x Hx); lra|].
      apply (Min i x); [lia|exact Hx].
  - subst k. split; [exact I|]. split; [lia|]. split; [exact B|]. split; [reflexivity|]. intros i x Hlt Hx. assert (i = 0%nat) as -> by lia. apply M, Hx.
Qed.

Theorem C63_signed_distance (t : nat -> R * R) (p : R * R) :
  let r := triangle_sd t p in
  (sd_feature r < 3)%nat /\ between (t (sd_feature r)) (t ((sd_feature r + 1) mod 3)%nat) (sd_point r) /\
  Rabs (sd_distance r) = dist p (sd_point r) /\ (forall x, boundary3 t x -> Rabs (sd_distance r) <= dist p x) /\
  ((forall i, (i < 3)%nat -> 0 <= left_of (t i) (t ((i + 1) mod 3)%nat) p) -> sd_distance r <= 0) /\
  (~ (forall i, (i < 3)%nat -> 0 <= left_of (t i) (t ((i + 1) mod 3)%nat) p) -> 0 <= sd_distance r).
Proof.
  cbn zeta.
  assert (V : sd_inv t p 3 (fold_left (sd_step t p) (seq 0 3) (true, 0%nat, None, (0, 0)))).
  { cbn [seq fold_left]. do 3 apply sd_step_inv. split; [split; [intros _ i Hi; lia|reflexivity]|reflexivity]. }
  change (triangle_sd t p) with (let '(inside, feature, best, point) := fold_left (sd_step t p) (seq 0 3) (true, 0%nat, None, (0, 0)) in
    SdResult feature point ((if inside : bool then -1 else 1) * sqrt (match best with Some b => b | None => 0 end))).
  destruct (fold_left (sd_step t p) (seq 0 3) (true, 0%nat, None, (0, 0))) as [[[inside feature] best] point].
  destruct V as [Hi Hb]. destruct best as [b|]; [|discriminate]. destruct Hb as (F & B & E & Min). cbn [sd_feature sd_point sd_distance].
  pose proof (sqrt_pos b) as Sp.
  assert (A : Rabs ((if inside then -1 else 1) * sqrt b) = sqrt b) by (destruct inside; [rewrite Rabs_left1; lra|rewrite Rabs_right; lra]).
  split; [exact F|]. split; [exact B|]. rewrite A. split; [unfold dist; rewrite E; reflexivity|]. split.
  - intros x (i & Hlt & Hx). unfold dist. apply sqrt_le_1_alt. apply (Min i x Hlt Hx).
  - split; intros H.
    + apply Hi in H. rewrite H. lra.
    + destruct inside; [exfalso; apply H; apply Hi; reflexivity|lra].
Qed.
Print Assumptions C63_signed_distance.

(** every way from a point inside to a point outside meets the boundary *)
Lemma leave_triangle (t : nat -> R * R) (y p : R * R) : 0 < left_of (t 0%nat) (t 1%nat) (t 2%nat) ->
  (forall i, (i < 3)%nat -> 0 <= left_of (t i) (t ((i + 1) mod 3)%nat) y) -> ~ (forall i, (i < 3)%nat -> 0 <= left_of (t i) (t ((i + 1) mod 3)%nat) p) ->
  exists s, 0 <= s <= 1 /\ boundary3 t (mix y p s).
Proof.
  intros Ar Iy Op.
  set (f := fun i x => left_of (t i) (t ((i + 1) mod 3)%nat) x).
  assert (Fm : forall i s, f i (mix y p s) = (1 - s) * f i y + s * f i p) by (intros; unfold f, left_of, mix; cbn [fst snd]; ring).
  assert (Fs : forall x, f 0%nat x + f 1%nat x + f 2%nat x = left_of (t 0%nat) (t 1%nat) (t 2%nat)) by (intros x; unfold f, left_of; cbn; ring).
  (* a point of the line of a side with the other two values nonnegative lies on the side *)
  assert (On : forall i x, (i < 3)%nat -> f i x = 0 -> (forall j, (j < 3)%nat -> 0 <= f j x) -> boundary3 t x).
  { intros i x Hi Z Nn. exists i. split; [exact Hi|]. set (D := left_of (t 0%nat) (t 1%nat) (t 2%nat)) in *.
    pose proof (Fs x) as Sx. pose proof (Nn 0%nat ltac:(lia)) as N0. pose proof (Nn 1%nat ltac:(lia)) as N1. pose proof (Nn 2%nat ltac:(lia)) as N2.
    assert (Bary : forall k, (k < 2)%nat -> True) by auto.
    assert (Ex : fst x * D = f 1%nat x * fst (t 0%nat) + f 2%nat x * fst (t 1%nat) + f 0%nat x * fst (t 2%nat)) by (unfold D, f, left_of; cbn; ring).
    assert (Ey : snd x * D = f 1%nat x * snd (t 0%nat) + f 2%nat x * snd (t 1%nat) + f 0%nat x * snd (t 2%nat)) by (unfold D, f, left_of; cbn; ring).
    assert (Q : forall u v, 0 <= u -> 0 <= v -> u + v = D -> 0 <= v / D <= 1 /\ 1 - v / D = u / D).
    { intros u v Hu Hv Huv. split; [|rewrite <- Huv; field; lra]. unfold Rdiv. assert (0 < / D) by (apply Rinv_0_lt_compat; lra). split; [apply Rmult_le_pos; lra|].
      apply Rmult_le_reg_r with D; [lra|]. rewrite Rmult_assoc, Rinv_l by lra. lra. }
    destruct i as [|[|[|i]]]; try lia; cbn [Nat.modulo Nat.divmod fst snd Nat.add Nat.sub].
    - destruct (Q (f 1%nat x) (f 2%nat x)) as [Q1 Q2]; [lra|lra|lra|]. exists (f 2%nat x / D). split; [exact Q1|]. unfold mix. rewrite Q2. destruct x as [x1 x2]; cbn [fst snd] in *. rewrite Z in Ex, Ey.
      f_equal; apply Rmult_eq_reg_r with D; try lra; [rewrite Ex|rewrite Ey]; field; lra.
    - destruct (Q (f 2%nat x) (f 0%nat x)) as [Q1 Q2]; [lra|lra|lra|]. exists (f 0%nat x / D). split; [exact Q1|]. unfold mix. rewrite Q2. destruct x as [x1 x2]; cbn [fst snd] in *. rewrite Z in Ex, Ey.
      f_equal; apply Rmult_eq_reg_r with D; try lra; [rewrite Ex|rewrite Ey]; field; lra.
    - destruct (Q (f 0%nat x) (f 1%nat x)) as [Q1 Q2]; [lra|lra|lra|]. exists (f 1%nat x / D). split; [exact Q1|]. unfold mix. rewrite Q2. destruct x as [x1 x2]; cbn [fst snd] in *. rewrite Z in Ex, Ey.
      f_equal; apply Rmult_eq_reg_r with D; try lra; [rewrite Ex|rewrite Ey]; field; lra. }
  (* the first parameter at which a value vanishes *)
  assert (First : forall l : list nat, (forall i, In i l -> (i < 3)%nat) -> (exists i, In i l /\ f i p < 0) ->
    exists i s, In i l /\ 0 <= s <= 1 /\ f i (mix y p s) = 0 /\ forall j, In j l -> 0 <= f j (mix y p s)).
  { induction l as [|i l IH]; intros Hl (k & Hk & Fk); [destruct Hk|].
    assert (Yi : 0 <= f i y) by (apply Iy, Hl; left; reflexivity).
    destruct (Exists_dec (fun j => f j p < 0) l (fun j => Rlt_dec (f j p) 0)) as [E|E].
    - apply Exists_exists in E. destruct (IH (fun j Hj => Hl j (or_intror Hj)) E) as (j & s & Hj & Hs & Zj & Nj).
      destruct (Rle_lt_dec 0 (f i (mix y p s))) as [G|G].
      + exists j, s. split; [right; exact Hj|]. split; [exact Hs|]. split; [exact Zj|]. intros m [<-|Hm]; [exact G|apply Nj, Hm].
      + rewrite Fm in G. assert (Fi : f i p < 0) by (destruct (Rle_lt_dec 0 (f i p)) as [A|A]; [exfalso; nra|exact A]).
        set (r := f i y / (f i y - f i p)). assert (Er : r * (f i y - f i p) = f i y) by (unfold r; field; lra).
        assert (Hr : 0 <= r) by (unfold r, Rdiv; apply Rmult_le_pos; [lra|]; left; apply Rinv_0_lt_compat; lra).
        assert (r < s) by (apply Rmult_lt_reg_r with (f i y - f i p); lra).
        exists i, r. split; [left; reflexivity|]. split; [lra|]. split; [rewrite Fm; lra|]. intros m [<-|Hm]; [rewrite Fm; lra|].
        specialize (Nj m Hm). rewrite Fm in Nj |- *. assert (Ym : 0 <= f m y) by (apply Iy, Hl; right; exact Hm).
        destruct (Rle_lt_dec (f m p) (f m y)) as [A|A]; [assert (0 <= (s - r) * (f m y - f m p)) by (apply Rmult_le_pos; lra); lra|].
        assert (0 <= r * (f m p - f m y)) by (apply Rmult_le_pos; lra). lra.
    - assert (Fi : f i p < 0) by (destruct Hk as [<-|Hk]; [exact Fk|exfalso; apply E, Exists_exists; exists k; auto]).
      set (r := f i y / (f i y - f i p)). assert (Er : r * (f i y - f i p) = f i y) by (unfold r; field; lra).
      assert (Hr : 0 <= r) by (unfold r, Rdiv; apply Rmult_le_pos; [lra|]; left; apply Rinv_0_lt_compat; lra).
      assert (r <= 1) by (apply Rmult_le_reg_r with (f i y - f i p); lra).
      exists i, r. split; [left; reflexivity|]. split; [lra|]. split; [rewrite Fm; lra|]. intros m [<-|Hm]; [rewrite Fm; lra|].
      assert (Ym : 0 <= f m y) by (apply Iy, Hl; right; exact Hm).
      assert (Pm : 0 <= f m p) by (destruct (Rle_lt_dec 0 (f m p)) as [A|A]; [exact A|exfalso; apply E, Exists_exists; exists m; auto]).
      rewrite Fm. assert (0 <= (1 - r) * f m y) by (apply Rmult_le_pos; lra). assert (0 <= r * f m p) by (apply Rmult_le_pos; lra). lra. }
  destruct (First [0; 1; 2]%nat) as (i & s & Hi & Hs & Zi & Ni).
  - intros i [<-|[<-|[<-|[]]]]; lia.
  - destruct (Exists_dec (fun j => f j p < 0) [0; 1; 2]%nat (fun j => Rlt_dec (f j p) 0)) as [E|E]; [apply Exists_exists in E; exact E|]. exfalso. apply Op.
    intros i Hi. destruct (Rle_lt_dec 0 (f i p)) as [A|A]; [exact A|]. exfalso. apply E, Exists_exists. exists i. split; [|exact A]. cbn. lia.
  - exists s. split; [exact Hs|]. apply (On i); [cbn in Hi; lia|exact Zi|]. intros j Hj. apply Ni. cbn. lia.
Qed.

Theorem C63_distance (t : nat -> R * R) (p : R * R) : 0 < left_of (t 0%nat) (t 1%nat) (t 2%nat) ->
  let inside y := forall i, (i < 3)%nat -> 0 <= left_of (t i) (t ((i + 1) mod 3)%nat) y in
  (exists y, inside y /\ triangle_distance t p = dist p y) /\ forall y, inside y -> triangle_distance t p <= dist p y.
Proof.
  intros Ar. cbn zeta. destruct (C63_signed_distance t p) as (F & B & A & Min & In1 & Out1). set (r := triangle_sd t p) in *.
  assert (Dp : forall u v, 0 <= dist u v) by (intros; apply sqrt_pos).
  assert (Dec : (forall i, (i < 3)%nat -> 0 <= left_of (t i) (t ((i + 1) mod 3)%nat) p) \/ ~ (forall i, (i < 3)%nat -> 0 <= left_of (t i) (t ((i + 1) mod 3)%nat) p)).
  { destruct (Rle_dec 0 (left_of (t 0%nat) (t 1%nat) p)) as [A0|A0]; [|right; intros H; apply A0, (H 0%nat); lia].
    destruct (Rle_dec 0 (left_of (t 1%nat) (t 2%nat) p)) as [A1|A1]; [|right; intros H; apply A1, (H 1%nat); lia].
    destruct (Rle_dec 0 (left_of (t 2%nat) (t 0%nat) p)) as [A2|A2]; [|right; intros H; apply A2, (H 2%nat); lia].
    left. intros [|[|[|i]]] Hi; try lia; assumption. }
  unfold triangle_distance. fold r. destruct Dec as [I|O].
  - specialize (In1 I). rewrite Rmax_left by lra. split; [|intros; apply Dp].
    exists p. split; [exact I|]. unfold dist, dist2. replace ((fst p - fst p) ^ 2 + (snd p - snd p) ^ 2) with 0 by ring. symmetry. apply sqrt_0.
  - specialize (Out1 O). rewrite Rmax_right by lra. rewrite (Rabs_right (sd_distance r)) in A, Min by lra. split.
    + exists (sd_point r). split; [|exact A]. destruct B as (s & Hs & ->). 
      assert (Fs : forall i, (i < 3)%nat -> forall j, (j < 3)%nat -> 0 <= left_of (t i) (t ((i + 1) mod 3)%nat) (t j)).
      { intros i Hi j Hj. destruct i as [|[|[|i]]]; try lia; destruct j as [|[|[|j]]]; try lia; cbn in *; unfold left_of in *; lra. }
      intros i Hi. unfold left_of, mix. cbn [fst snd].
      pose proof (Fs i Hi (sd_feature r) F) as H1. pose proof (Fs i Hi ((sd_feature r + 1) mod 3)%nat ltac:(apply Nat.mod_upper_bound; lia)) as H2. unfold left_of in H1, H2. nra.
    + intros y Hy. destruct (leave_triangle t y p Ar Hy O) as (s & Hs & Hb). apply Rle_trans with (dist p (mix y p s)); [apply Min, Hb|].
      unfold dist. apply sqrt_le_1_alt. unfold dist2, mix; cbn [fst snd].
      replace ((fst p - ((1 - s) * fst y + s * fst p)) ^ 2 + (snd p - ((1 - s) * snd y + s * snd p)) ^ 2) with ((1 - s) ^ 2 * ((fst p - fst y) ^ 2 + (snd p - snd y) ^ 2)) by ring.
      assert (0 <= (fst p - fst y) ^ 2 + (snd p - snd y) ^ 2) by (apply Rplus_le_le_0_compat; apply pow2_ge_0). assert ((1 - s) ^ 2 <= 1) by nra. nra.
Qed.
Print Assumptions C63_distance.

Example C63_example : let t := fun i : nat => match i with O => (0, 0) | S O => (2, 0) | _ => (0, 2) end in
  0 < left_of (t 0%nat) (t 1%nat) (t 2%nat) /\ sd_distance (triangle_sd t (1, -3)) = 3.
Proof.
  cbn zeta. set (t := fun i : nat => match i with O => (0, 0) | S O => (2, 0) | _ => (0, 2) end).
  split; [unfold left_of, t; cbn; lra|]. destruct (C63_signed_distance t (1, -3)) as (_ & B & A & Min & _ & Out).
  assert (O : 0 <= sd_distance (triangle_sd t (1, -3))).
  { apply Out. intros H. specialize (H 0%nat ltac:(lia)). unfold left_of, t in H; cbn in H. lra. }
  rewrite (Rabs_right _ (Rle_ge _ _ O)) in A, Min. apply Rle_antisym.
  - apply Rle_trans with (dist (1, -3) (1, 0)).
    + apply Min. exists 0%nat. split; [lia|]. exists (1/2). split; [lra|]. unfold mix, t; cbn. f_equal; lra.
    + unfold dist, dist2; cbn [fst snd]. replace ((1 - 1) ^ 2 + (-3 - 0) ^ 2) with (3 * 3) by ring. rewrite sqrt_square; lra.
  - rewrite A. unfold dist. rewrite <- (sqrt_square 3) by lra. apply sqrt_le_1_alt.
    assert (Y : 0 <= snd (sd_point (triangle_sd t (1, -3)))).
    { set (f := sd_feature (triangle_sd t (1, -3))) in *. destruct B as (s & Hs & ->). unfold mix; cbn [snd]. assert (forall i, 0 <= snd (t i)) as N by (intros [|[|i]]; unfold t; cbn; lra).
      pose proof (N f). pose proof (N ((f + 1) mod 3)%nat). nra. }
    set (w := sd_point (triangle_sd t (1, -3))) in *. unfold dist2; cbn [fst snd]. pose proof (pow2_ge_0 (1 - fst w)).
    assert (0 <= snd w * snd w) by (apply Rmult_le_pos; exact Y). replace ((-3 - snd w) ^ 2) with (9 + 6 * snd w + snd w * snd w) by ring. lra.
Qed.

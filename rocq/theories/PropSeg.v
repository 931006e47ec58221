(** C42 and C43: segments, half planes, disks and planes. *)
From Coq Require Import Reals List Lra Lia Psatz Bool Arith.
From Verif Require Import CgModel CgSpec CgProofs GeomModel GeomSpec.
Import ListNotations.
Open Scope R_scope.

Lemma clamp_range v lo hi : lo <= hi -> lo <= clamp v lo hi <= hi.
Proof. unfold clamp. intros. destruct (Rlt_dec lo v); [destruct (Rlt_dec v hi)|]; lra. Qed.
Lemma clamp_same v lo hi : lo <= v <= hi -> clamp v lo hi = v.
Proof. unfold clamp. intros. destruct (Rlt_dec lo v); [destruct (Rlt_dec v hi)|]; lra. Qed.

(** a parabola with its clamped vertex is smallest there *)
Lemma parabola A B s : 0 < A -> 0 <= s <= 1 -> let t := clamp (B / A) 0 1 in A * t * t - 2 * B * t <= A * s * s - 2 * B * s.
Proof.
  intros HA Hs. cbn zeta. set (v := B / A). assert (HB : B = A * v) by (unfold v; field; lra). rewrite HB.
  assert (A * clamp v 0 1 * clamp v 0 1 - 2 * (A * v) * clamp v 0 1 = A * (Rsqr (clamp v 0 1 - v)) - A * v * v) as -> by (unfold Rsqr; ring).
  assert (A * s * s - 2 * (A * v) * s = A * (Rsqr (s - v)) - A * v * v) as -> by (unfold Rsqr; ring).
  assert (Rsqr (clamp v 0 1 - v) <= Rsqr (s - v)).
  { unfold clamp. destruct (Rlt_dec 0 v); [destruct (Rlt_dec v 1)|].
    - rewrite Rminus_diag_eq by reflexivity. rewrite Rsqr_0. apply Rle_0_sqr.
    - apply Rsqr_le_abs_1. rewrite (Rabs_left1 (1 - v)), (Rabs_left1 (s - v)) by lra. lra.
    - apply Rsqr_le_abs_1. rewrite (Rabs_right (0 - v)), (Rabs_right (s - v)) by lra. lra. }
  nra.
Qed.

Lemma dot_sub_expand D (a b p : vec) t :
  dot D (fun i => p i - dseg_at a b t i) (fun i => p i - dseg_at a b t i)
  = dot D (fun i => p i - a i) (fun i => p i - a i) - 2 * t * dot D (fun i => p i - a i) (fun i => b i - a i)
    + t * t * dot D (fun i => b i - a i) (fun i => b i - a i).
Proof.
  assert (E : veq D (fun i => p i - dseg_at a b t i) (fun i => (p i - a i) + (- t) * (b i - a i))) by (intros i _; unfold dseg_at; ring).
  rewrite (dot_ext D _ _ _ _ E E). rewrite dot_add_l, !dot_add_r.
  rewrite (dot_comm D (fun i => b i - a i) (fun i => p i - a i)). ring.
Qed.

Theorem C42_closest_point D (a b p : vec) :
  (exists t, 0 <= t <= 1 /\ veq D (dclosest D a b p) (mixd a b t)) /\
  (forall s, 0 <= s <= 1 -> distd D p (dclosest D a b p) <= distd D p (mixd a b s)).
Proof.
  split.
  - exists (dclosest_parametric D a b p). split; [apply clamp_range; lra|]. intros i _. unfold dclosest, dseg_at, mixd. ring.
  - intros s Hs. unfold distd. rewrite <- !norm_length2. unfold norm. apply sqrt_le_1_alt.
    assert (E : veq D (fun i => p i - mixd a b s i) (fun i => p i - dseg_at a b s i)) by (intros i _; unfold mixd, dseg_at; ring).
    rewrite (dot_ext D _ _ _ _ E E). unfold dclosest. rewrite !dot_sub_expand. unfold dclosest_parametric, dproject.
    set (dd := dot D (fun i => b i - a i) (fun i => b i - a i)). set (pd := dot D (fun i => p i - a i) (fun i => b i - a i)).
    destruct (Req_EM_T dd 0) as [Z|NZ].
    + assert (pd = 0) as ->.
      { unfold pd. assert (V := dot_self_zero _ _ Z). rewrite dot_comm, (dot_ext D _ _ _ _ V (fun _ _ => eq_refl)). apply dot_zero. }
      rewrite Z. lra.
    + assert (0 < dd) by (pose proof (dot_nonneg D (fun i => b i - a i)); fold dd in H; lra).
      pose proof (parabola dd pd s H Hs) as P. cbn zeta in P. nra.
Qed.
Print Assumptions C42_closest_point.

(** ** the plane *)
Lemma mix_at a b t : seg_at (Seg a b) t = mix a b t.
Proof. unfold seg_at, mix, vadd, vscale, tangent, vsub; cbn. f_equal; ring. Qed.

Theorem C42_closest_point_2d (a b p : R * R) :
  between a b (closest_point (Seg a b) p) /\ (forall x, between a b x -> dist p (closest_point (Seg a b) p) <= dist p x).
Proof.
  split.
  - exists (closest_parametric (Seg a b) p). split; [apply clamp_range; lra|]. apply mix_at.
  - intros x (s & Hs & ->). unfold dist. apply sqrt_le_1_alt. unfold closest_point. rewrite mix_at.
    unfold closest_parametric, project_parametric, seg_line, tangent. cbn [ln_dir ln_point sg_start sg_end].
    set (d := vsub b a). set (A := vdot d d). set (B := vdot (vsub p a) d).
    assert (E : forall t, dist2 p (mix a b t) = vdot (vsub p a) (vsub p a) - 2 * B * t + A * t * t).
    { intros t. unfold dist2, mix, A, B, d, vdot, vsub; cbn. ring. }
    rewrite !E. destruct (Req_EM_T A 0) as [Z|NZ].
    + assert (B = 0) as ->.
      { unfold A, vdot in Z. destruct (Rplus_sqr_eq_0 _ _ Z) as [H H0]. unfold B, vdot. rewrite H, H0. ring. }
      rewrite Z. lra.
    + assert (0 < A) by (unfold A, vdot in *; pose proof (Rle_0_sqr (fst d)); pose proof (Rle_0_sqr (snd d)); unfold Rsqr in *; lra). pose proof (parabola A B s H Hs) as P. cbn zeta in P. lra.
Qed.
Print Assumptions C42_closest_point_2d.

Lemma contains_iff h p : hp_contains h p = true <-> on_side (hp_point h) (hp_normal h) p.
Proof. unfold hp_contains, signed_dist, on_side, vdot, vsub; cbn. destruct (Rle_dec _ _); split; intros; auto; try discriminate; contradiction. Qed.
Lemma contains_false h p : hp_contains h p = false <-> ~ on_side (hp_point h) (hp_normal h) p.
Proof. rewrite <- contains_iff. destruct (hp_contains h p); split; intros; try congruence; try tauto. Qed.

(** signed distance is affine along a segment *)
Lemma dist_mix h a b t : signed_dist h (mix a b t) = (1 - t) * signed_dist h a + t * signed_dist h b.
Proof. unfold signed_dist, mix, vdot, vsub; cbn. ring. Qed.

(** where the border line cuts a segment whose ends are at different distances *)
Lemma cut_parameter h a b : hp_normal h <> (0, 0) -> signed_dist h a <> signed_dist h b ->
  intersect_line_parametric (Seg a b) (surface h) = Some (signed_dist h a / (signed_dist h a - signed_dist h b)).
Proof.
  intros Hn Hd. unfold intersect_line_parametric, intersect_lines, seg_line, tangent, surface. cbn [ln_dir ln_point sg_start sg_end].
  set (det := _ - _).
  assert (Edet : det = signed_dist h b - signed_dist h a).
  { unfold det, signed_dist, vdot, vsub; cbn. ring. }
  destruct (Req_EM_T det 0) as [Z|NZ]; [rewrite Edet in Z; exfalso; apply Hd; lra|].
  cbn [option_map fst]. f_equal. rewrite Edet. unfold signed_dist, vdot, vsub in *; cbn in *.
  field. rewrite Edet in NZ. split; lra.
Qed.

Theorem C42_half_plane (a b x0 n : R * R) : n <> (0, 0) ->
  match seg_half_plane_parametric (Seg a b) (HalfPlane x0 n) with
  | Some (t1, t2) => 0 <= t1 <= t2 /\ t2 <= 1 /\ forall t, 0 <= t <= 1 -> on_side x0 n (mix a b t) <-> t1 <= t <= t2
  | None => forall t, 0 <= t <= 1 -> ~ on_side x0 n (mix a b t)
  end.
Proof.
  intros Hn. unfold seg_half_plane_parametric. cbn [sg_start sg_end]. set (h := HalfPlane x0 n).
  assert (S : forall p, on_side x0 n p <-> signed_dist h p <= 0) by (intros p; unfold on_side, signed_dist, vdot, vsub; cbn; tauto).
  assert (Ca : forall p, hp_contains h p = true <-> signed_dist h p <= 0) by (intros p; rewrite contains_iff; apply S).
  destruct (hp_contains h a) eqn:A, (hp_contains h b) eqn:B.
  - apply Ca in A, B. split; [lra|]. split; [lra|]. intros t Ht. rewrite S, dist_mix. split; [lra|]. intros _. nra.
  - apply Ca in A. assert (0 < signed_dist h b) by (destruct (Rle_dec (signed_dist h b) 0) as [L|L]; [apply Ca in L; congruence|lra]).
    rewrite cut_parameter by (cbn; try assumption; lra).
    set (u := signed_dist h a) in *. set (w := signed_dist h b) in *.
    assert (R0 : 0 <= u / (u - w) <= 1).
    { replace (u / (u - w)) with ((- u) * / (w - u)) by (field; lra). assert (0 < / (w - u)) by (apply Rinv_0_lt_compat; lra).
      split; [nra|]. apply Rmult_le_reg_r with (w - u); [lra|]. rewrite Rmult_assoc, Rinv_l by lra. lra. }
    rewrite clamp_same by exact R0. split; [lra|]. split; [lra|]. intros t Ht. rewrite S, dist_mix. fold u w.
    set (v := u / (u - w)) in *. assert (u = v * (u - w)) by (unfold v; field; lra). split; intros; nra.
  - apply Ca in B. assert (0 < signed_dist h a) by (destruct (Rle_dec (signed_dist h a) 0) as [L|L]; [apply Ca in L; congruence|lra]).
    rewrite cut_parameter by (cbn; try assumption; lra).
    set (u := signed_dist h a) in *. set (w := signed_dist h b) in *.
    assert (R0 : 0 <= u / (u - w) <= 1).
    { unfold Rdiv. assert (0 < / (u - w)) by (apply Rinv_0_lt_compat; lra).
      split; [nra|]. apply Rmult_le_reg_r with (u - w); [lra|]. rewrite Rmult_assoc, Rinv_l by lra. lra. }
    rewrite clamp_same by exact R0. split; [lra|]. split; [lra|]. intros t Ht. rewrite S, dist_mix. fold u w.
    set (v := u / (u - w)) in *. assert (u = v * (u - w)) by (unfold v; field; lra). split; intros; nra.
  - assert (0 < signed_dist h a) by (destruct (Rle_dec (signed_dist h a) 0) as [L|L]; [apply Ca in L; congruence|lra]).
    assert (0 < signed_dist h b) by (destruct (Rle_dec (signed_dist h b) 0) as [L|L]; [apply Ca in L; congruence|lra]).
    intros t Ht. rewrite S, dist_mix. nra.
Qed.
Print Assumptions C42_half_plane.

(** the sub-segment between two parameters *)
Lemma mix_mix a b t1 t2 t : mix (mix a b t1) (mix a b t2) t = mix a b ((1 - t) * t1 + t * t2).
Proof. unfold mix; cbn. f_equal; ring. Qed.
Lemma between_sub a b t1 t2 x : 0 <= t1 <= t2 -> t2 <= 1 -> between (mix a b t1) (mix a b t2) x <-> exists t, t1 <= t <= t2 /\ x = mix a b t.
Proof.
  intros H1 H2. split.
  - intros (t & Ht & ->). rewrite mix_mix. eexists. split; [|reflexivity]. nra.
  - intros (t & Ht & ->). destruct (Req_dec t1 t2) as [->|N].
    + exists 0. split; [lra|]. rewrite mix_mix. f_equal. lra.
    + exists ((t - t1) / (t2 - t1)). split.
      * unfold Rdiv. assert (0 < / (t2 - t1)) by (apply Rinv_0_lt_compat; lra). split; [nra|].
        apply Rmult_le_reg_r with (t2 - t1); [lra|]. rewrite Rmult_assoc, Rinv_l by lra. lra.
      * rewrite mix_mix. f_equal. field. lra.
Qed.

Lemma seg_half_plane_set s h : hp_normal h <> (0, 0) ->
  match seg_half_plane s h with
  | Some s' => forall x, between (sg_start s') (sg_end s') x <-> between (sg_start s) (sg_end s) x /\ on_side (hp_point h) (hp_normal h) x
  | None => forall x, between (sg_start s) (sg_end s) x -> ~ on_side (hp_point h) (hp_normal h) x
  end.
Proof.
  intros Hn. destruct s as [a b], h as [x0 n]. cbn [hp_normal hp_point sg_start sg_end] in *. unfold seg_half_plane.
  pose proof (C42_half_plane a b x0 n Hn) as H. destruct (seg_half_plane_parametric _ _) as [[t1 t2]|]; cbn [option_map].
  - destruct H as (H1 & H2 & H3). intros x. unfold sub_segment. cbn [sg_start sg_end fst snd]. rewrite !mix_at, (between_sub _ _ _ _ _ H1 H2). split.
    + intros (t & Ht & ->). split; [exists t; split; [lra|reflexivity]|apply H3; lra].
    + intros ((t & Ht & ->) & I). exists t. split; [apply H3; assumption|reflexivity].
  - intros x (t & Ht & ->). apply H, Ht.
Qed.

Lemma normalize_dir v : v <> (0, 0) -> 0 < vnorm v.
Proof. intros N. apply sqrt_lt_R0. unfold vdot. destruct v as [x y]; cbn in *. destruct (Req_dec x 0) as [->|]; [destruct (Req_dec y 0) as [->|]; [congruence|nra]|nra]. Qed.

Lemma normalize_nonzero v : v <> (0, 0) -> normalize v <> (0, 0).
Proof.
  intros N E. pose proof (normalize_dir v N) as P. apply N. unfold normalize in E. destruct v as [x y]. set (n := vnorm (x, y)) in *. cbn [fst snd] in E.
  injection E. intros E2 E1. f_equal; apply Rmult_eq_reg_r with (/ n); try (apply Rinv_neq_0_compat; lra); [transitivity 0; [exact E1|ring]|transitivity 0; [exact E2|ring]].
Qed.

Lemma side_normalized a v x : 0 < vnorm v -> on_side a (normalize v) x <-> on_side a v x.
Proof.
  intros P. unfold on_side, normalize. cbn [fst snd]. assert (I : 0 < / vnorm v) by (apply Rinv_0_lt_compat, P).
  set (l := fst v * (fst x - fst a) + snd v * (snd x - snd a)).
  replace (fst v / vnorm v * (fst x - fst a) + snd v / vnorm v * (snd x - snd a)) with (l * / vnorm v) by (unfold l, Rdiv; ring).
  generalize dependent (/ vnorm v). intros w I. split; intros H.
  - destruct (Rle_lt_dec l 0) as [|L]; [assumption|]. assert (0 < l * w) by (apply Rmult_lt_0_compat; lra). lra.
  - assert (0 <= (- l) * w) by (apply Rmult_le_pos; lra). lra.
Qed.

Lemma edge_half_plane_spec e h : edge_half_plane e = Some h ->
  hp_normal h <> (0, 0) /\ forall x, on_side (hp_point h) (hp_normal h) x <-> 0 <= left_of (fst e) (snd e) x.
Proof.
  destruct e as [a b]. unfold edge_half_plane. cbn [fst snd]. destruct (vec2_eq_dec a b) as [|N]; [discriminate|]. intros [= <-]. cbn [hp_normal hp_point].
  set (v := (snd (vsub b a), - fst (vsub b a))).
  assert (Nv : v <> (0, 0)).
  { unfold v, vsub. cbn. intros [= E1 E2]. apply N. destruct a, b; cbn in *. f_equal; lra. }
  pose proof (normalize_dir v Nv) as P. split.
  - apply normalize_nonzero, Nv.
  - intros x. transitivity (on_side a v x); [exact (side_normalized a v x P)|].
    unfold on_side, left_of, v, vsub; cbn [fst snd]. split; intros; lra.
Qed.
Lemma edge_half_plane_none e x : edge_half_plane e = None -> left_of (fst e) (snd e) x = 0.
Proof. unfold edge_half_plane. destruct (vec2_eq_dec _ _) as [->|]; [|discriminate]. intros _. unfold left_of. ring. Qed.

(** the edges of the code are the cyclic pairs *)
Lemma windows_nth {A} (l : list A) (d : A) : windows l = map (fun i => (nth i l d, nth (i + 1) l d)) (seq 0 (length l - 1)).
Proof.
  induction l as [|a [|b l] IH]; [reflexivity|reflexivity|].
  change (windows (a :: b :: l)) with ((a, b) :: windows (b :: l)). rewrite IH. cbn [length].
  replace (S (S (length l)) - 1)%nat with (S (length l)) by lia. replace (S (length l) - 1)%nat with (length l) by lia.
  change (seq 0 (S (length l))) with (0%nat :: seq 1 (length l)). rewrite <- seq_shift, map_cons, map_map. reflexivity.
Qed.
Lemma nth_close {A} (v : A) l d i : (i <= S (length l))%nat -> nth i ((v :: l) ++ [v]) d = nth (i mod S (length l)) (v :: l) d.
Proof.
  intros Hi. destruct (Nat.eq_dec i (S (length l))) as [->|N].
  - rewrite Nat.mod_same by lia. rewrite app_nth2 by (cbn; lia). cbn [length]. rewrite Nat.sub_diag. reflexivity.
  - rewrite Nat.mod_small by lia. apply app_nth1. cbn. lia.
Qed.
Lemma edges_corner vs : edges vs = map (fun i => (corner vs i, corner vs (i + 1))) (seq 0 (length vs)).
Proof.
  destruct vs as [|v l]; [reflexivity|]. unfold edges. rewrite (windows_nth _ (0, 0)). rewrite app_length. cbn [length].
  replace (S (length l) + 1 - 1)%nat with (S (length l)) by lia. apply map_ext_in. intros i Hi. apply in_seq in Hi.
  unfold corner. cbn [length]. rewrite !nth_close by lia. reflexivity.
Qed.
Lemma left_of_all_edges vs x : left_of_all vs x <-> forall e, In e (edges vs) -> 0 <= left_of (fst e) (snd e) x.
Proof.
  rewrite edges_corner. split.
  - intros H e He. apply in_map_iff in He. destruct He as (i & <- & Hi). apply in_seq in Hi. apply H. lia.
  - intros H i Hi. apply (H (corner vs i, corner vs (i + 1))). apply in_map_iff. exists i. split; [reflexivity|]. apply in_seq. lia.
Qed.
Lemma half_planes_all vs x : (forall h, In h (half_planes vs) -> on_side (hp_point h) (hp_normal h) x) <-> left_of_all vs x.
Proof.
  rewrite left_of_all_edges. unfold half_planes. split.
  - intros H e He. destruct (edge_half_plane e) as [h|] eqn:E.
    + apply (edge_half_plane_spec _ _ E), H. apply in_flat_map. exists e. rewrite E. cbn. auto.
    + apply Req_le. symmetry. exact (edge_half_plane_none _ x E).
  - intros H h Hh. apply in_flat_map in Hh. destruct Hh as (e & He & Hin). destruct (edge_half_plane e) as [h'|] eqn:E; cbn in Hin; [|tauto].
    destruct Hin as [<-|[]]. apply (edge_half_plane_spec _ _ E), H, He.
Qed.
Lemma half_planes_normal vs h : In h (half_planes vs) -> hp_normal h <> (0, 0).
Proof.
  intros Hh. apply in_flat_map in Hh. destruct Hh as (e & He & Hin). destruct (edge_half_plane e) as [h'|] eqn:E; cbn in Hin; [|tauto].
  destruct Hin as [<-|[]]. apply (edge_half_plane_spec _ _ E).
Qed.

Lemma fold_none {A B} (f : A -> B -> option A) l : fold_left (fun acc h => match acc with Some s => f s h | None => None end) l None = None.
Proof. induction l; [reflexivity|exact IHl]. Qed.

Theorem C42_polygon (a b : R * R) (vs : list (R * R)) :
  match seg_polygon (Seg a b) vs with
  | Some s => forall x, between (sg_start s) (sg_end s) x <-> between a b x /\ left_of_all vs x
  | None => forall x, between a b x -> ~ left_of_all vs x
  end.
Proof.
  assert (G : forall hs s, (forall h, In h hs -> hp_normal h <> (0, 0)) ->
    match fold_left (fun acc h => match acc with Some s => seg_half_plane s h | None => None end) hs (Some s) with
    | Some s' => forall x, between (sg_start s') (sg_end s') x <-> between (sg_start s) (sg_end s) x /\ (forall h, In h hs -> on_side (hp_point h) (hp_normal h) x)
    | None => forall x, between (sg_start s) (sg_end s) x -> ~ (forall h, In h hs -> on_side (hp_point h) (hp_normal h) x)
    end).
  { induction hs as [|h hs IH]; intros s Hn; cbn [fold_left].
    - intros x. split; [intros H; split; [exact H|intros ? []]|intros [H _]; exact H].
    - pose proof (seg_half_plane_set s h (Hn h (or_introl eq_refl))) as H. destruct (seg_half_plane s h) as [s1|].
      + specialize (IH s1 (fun h' Hin => Hn h' (or_intror Hin))). destruct (fold_left _ hs (Some s1)) as [s'|].
        * intros x. rewrite IH, H. split.
          -- intros [[H1 H2] H3]. split; [exact H1|]. intros h' [<-|Hin]; [exact H2|apply H3, Hin].
          -- intros [H1 H2]. split; [split; [exact H1|apply H2; left; reflexivity]|]. intros h' Hin. apply H2. right. exact Hin.
        * intros x Hx Ha. apply (IH x).
          -- apply H. split; [exact Hx|apply Ha; left; reflexivity].
          -- intros h' Hin. apply Ha. right. exact Hin.
      + rewrite fold_none. intros x Hx Ha. apply (H x Hx), Ha. left. reflexivity. }
  specialize (G (half_planes vs) (Seg a b) (half_planes_normal vs)). unfold seg_polygon. cbn [sg_start sg_end] in G.
  destruct (fold_left _ _ _) as [s|]; intros x; [|intros Hx]; rewrite <- half_planes_all; apply G; assumption.
Qed.
Print Assumptions C42_polygon.

(** ** two segments *)
Lemma lines_solve l1 l2 : match intersect_lines l1 l2 with
  | Some (t1, t2) => line_at l1 t1 = line_at l2 t2 /\ forall s1 s2, line_at l1 s1 = line_at l2 s2 -> s1 = t1 /\ s2 = t2
  | None => perp (ln_dir l1) (ln_dir l2) = 0
  end.
Proof.
  destruct l1 as [[ax ay] [dx dy]], l2 as [[bx by_] [ex ey]]. unfold intersect_lines. cbn. destruct (Req_EM_T _ _) as [Z|NZ].
  - unfold perp; cbn. lra.
  - unfold line_at, vadd, vscale; cbn. split.
    + f_equal; field; exact NZ.
    + intros s1 s2 [= E1 E2]. assert (Hx : bx = ax + s1 * dx - s2 * ex) by lra. assert (Hy : by_ = ay + s1 * dy - s2 * ey) by lra. subst bx by_.
      split; field; exact NZ.
Qed.
Lemma line_at_mix a b t : line_at (seg_line (Seg a b)) t = mix a b t.
Proof. unfold line_at, seg_line, tangent, mix, vadd, vscale, vsub; cbn. f_equal; ring. Qed.

(** the returned parameter is a common point; for segments that are not parallel nothing is missed *)
Theorem C42_segments (a b c d : R * R) :
  match intersect_segment_parametric (Seg a b) (Seg c d) with
  | Some t => 0 <= t <= 1 /\ between c d (mix a b t) /\ forall x, between a b x -> between c d x -> x = mix a b t
  | None => (fst b - fst a) * (snd d - snd c) - (snd b - snd a) * (fst d - fst c) <> 0 -> forall x, between a b x -> ~ between c d x
  end.
Proof.
  unfold intersect_segment_parametric. pose proof (lines_solve (seg_line (Seg a b)) (seg_line (Seg c d))) as H.
  destruct (intersect_lines _ _) as [[t1 t2]|].
  - rewrite !line_at_mix in H. destruct H as [E U].
    assert (U' : forall x, between a b x -> between c d x -> x = mix a b t1 /\ 0 <= t1 <= 1 /\ 0 <= t2 <= 1).
    { intros x (s1 & H1 & ->) (s2 & H2 & E2). rewrite <- !line_at_mix in E2. destruct (U _ _ E2) as [-> ->]. auto. }
    destruct (Rlt_dec t2 0); [intros _ x H1 H2; destruct (U' x H1 H2); lra|].
    destruct (Rlt_dec 1 t2); [intros _ x H1 H2; destruct (U' x H1 H2); lra|].
    destruct (Rlt_dec t1 0); [intros _ x H1 H2; destruct (U' x H1 H2); lra|].
    destruct (Rlt_dec 1 t1); [intros _ x H1 H2; destruct (U' x H1 H2); lra|].
    split; [lra|]. split; [exists t2; split; [lra|exact E]|]. intros x H1 H2. apply (U' x H1 H2).
  - intros N. exfalso. apply N. unfold perp, seg_line, tangent, vsub in H; cbn in H. lra.
Qed.
Print Assumptions C42_segments.

(** overlapping parallel segments are reported as disjoint *)
Theorem C42_segments_refuted : exists a b c d x : R * R, between a b x /\ between c d x /\ intersect_segment_parametric (Seg a b) (Seg c d) = None.
Proof.
  exists (0, 0), (2, 0), (1, 0), (3, 0), (1, 0). split; [exists (1/2); split; [lra|unfold mix; cbn; f_equal; lra]|].
  split; [exists 0; split; [lra|unfold mix; cbn; f_equal; lra]|].
  unfold intersect_segment_parametric, intersect_lines, seg_line, tangent, vsub; cbn. destruct (Req_EM_T _ _); [reflexivity|lra].
Qed.
Print Assumptions C42_segments_refuted.

(** ** planes *)
Lemma dot_seg D n a b x0 t : dot D n (fun i => mixd a b t i - x0 i) = t * dot D n (fun i => b i - a i) - dot D n (fun i => x0 i - a i).
Proof.
  assert (E : veq D (fun i => mixd a b t i - x0 i) (fun i => ((fun _ => 0) i + t * (b i - a i)) + (-1) * (x0 i - a i))) by (intros i _; unfold mixd; ring).
  rewrite (dot_ext D _ _ _ _ (fun _ _ => eq_refl) E), !dot_add_r. rewrite (dot_comm D n (fun _ => 0)), dot_zero. ring.
Qed.

Theorem C42_plane_closest D (n x0 a b : vec) :
  let t := closest_to_plane_parametric D n x0 a b in
  0 <= t <= 1 /\ forall s, 0 <= s <= 1 ->
    Rabs (inner D n (fun i => mixd a b t i - x0 i)) <= Rabs (inner D n (fun i => mixd a b s i - x0 i)).
Proof.
  cbn zeta. set (t := closest_to_plane_parametric D n x0 a b).
  set (d := dot D n (fun i => b i - a i)). set (y := dot D n (fun i => x0 i - a i)).
  assert (E : forall s, inner D n (fun i => mixd a b s i - x0 i) = s * d - y) by (intros s; rewrite <- dot_inner; apply dot_seg).
  assert (G : 0 <= t <= 1 /\ forall s, 0 <= s <= 1 -> Rabs (t * d - y) <= Rabs (s * d - y)).
  { unfold t, closest_to_plane_parametric. fold d y. unfold signum.
    destruct (Rlt_dec d 0) as [D0|D0], (Rlt_dec y 0) as [Y0|Y0]; destruct (Req_EM_T _ _) as [e|e]; try lra; try (exfalso; lra).
    - destruct (Rle_dec (Rabs d) (Rabs y)) as [L|L]; unfold Rabs in L; destruct (Rcase_abs d), (Rcase_abs y); try lra.
      + split; [lra|]. intros s Hs. unfold Rabs. destruct (Rcase_abs _), (Rcase_abs _); nra.
      + split.
        * replace (y / d) with ((- y) * / (- d)) by (field; lra). assert (0 < / - d) by (apply Rinv_0_lt_compat; lra). split; [nra|].
          apply Rmult_le_reg_r with (- d); [lra|]. rewrite Rmult_assoc, Rinv_l by lra. lra.
        * intros s Hs. replace (y / d * d - y) with 0 by (field; lra). rewrite Rabs_R0. apply Rabs_pos.
    - split; [lra|]. intros s Hs. unfold Rabs. destruct (Rcase_abs _), (Rcase_abs _); nra.
    - split; [lra|]. intros s Hs. unfold Rabs. destruct (Rcase_abs _), (Rcase_abs _); nra.
    - destruct (Rle_dec (Rabs d) (Rabs y)) as [L|L]; unfold Rabs in L; destruct (Rcase_abs d), (Rcase_abs y); try lra.
      + split; [lra|]. intros s Hs. unfold Rabs. destruct (Rcase_abs _), (Rcase_abs _); nra.
      + split.
        * unfold Rdiv. assert (0 < / d) by (apply Rinv_0_lt_compat; lra). split; [nra|].
          apply Rmult_le_reg_r with d; [lra|]. rewrite Rmult_assoc, Rinv_l by lra. lra.
        * intros s Hs. replace (y / d * d - y) with 0 by (field; lra). rewrite Rabs_R0. apply Rabs_pos. }
  destruct G as [G1 G2]. split; [exact G1|]. intros s Hs. rewrite !E. apply G2, Hs.
Qed.
Print Assumptions C42_plane_closest.

Theorem C42_plane_intersect D (n x0 a b : vec) :
  match seg_plane_parametric D n x0 a b with
  | Some t => 0 <= t <= 1 /\ forall s, 0 <= s <= 1 -> inner D n (fun i => mixd a b s i - x0 i) = 0 <-> s = t
  | None => inner D n (fun i => b i - a i) <> 0 -> forall s, 0 <= s <= 1 -> inner D n (fun i => mixd a b s i - x0 i) <> 0
  end.
Proof.
  set (d := dot D n (fun i => b i - a i)). set (y := dot D n (fun i => x0 i - a i)).
  assert (E : forall s, inner D n (fun i => mixd a b s i - x0 i) = s * d - y) by (intros s; rewrite <- dot_inner; apply dot_seg).
  unfold seg_plane_parametric, line_plane_parametric. rewrite (dot_comm D (fun i => b i - a i) n). fold d.
  assert (Ey : dot D (fun i => a i - x0 i) n = - y).
  { rewrite dot_comm. assert (V : veq D (fun i => a i - x0 i) (fun i => (fun _ => 0) i + (-1) * (x0 i - a i))) by (intros i _; ring).
    rewrite (dot_ext D _ _ _ _ (fun _ _ => eq_refl) V), dot_add_r, (dot_comm D n (fun _ => 0)), dot_zero. unfold y. ring. }
  rewrite Ey. rewrite <- dot_inner. fold d. destruct (Req_EM_T d 0) as [Z|NZ]; [intros N; contradiction|].
  assert (Q : - - y / d * d = y) by (field; lra). set (t := - - y / d) in *.
  assert (U : forall s, s * d - y = 0 <-> s = t).
  { intros s. split; [intros H; apply Rmult_eq_reg_r with d; lra|intros ->; lra]. }
  destruct (Rle_dec 0 t); [destruct (Rle_dec t 1)|].
  - split; [lra|]. intros s _. rewrite E. apply U.
  - intros _ s Hs. rewrite E, U. lra.
  - intros _ s Hs. rewrite E, U. lra.
Qed.
Print Assumptions C42_plane_intersect.

Example C42_example :
  closest_point (Seg (0, 0) (2, 0)) (1, 5) = (1, 0) /\ closest_point (Seg (0, 0) (2, 0)) (7, 5) = (2, 0) /\
  seg_half_plane_parametric (Seg (0, 0) (4, 0)) (HalfPlane (1, 0) (1, 0)) = Some (0, 1/4).
Proof.
  split; [|split].
  - unfold closest_point, closest_parametric, project_parametric, seg_at, seg_line, tangent, vadd, vscale, vdot, vsub; cbn.
    destruct (Req_EM_T _ _); [lra|]. unfold clamp. repeat destruct (Rlt_dec _ _); f_equal; lra.
  - unfold closest_point, closest_parametric, project_parametric, seg_at, seg_line, tangent, vadd, vscale, vdot, vsub; cbn.
    destruct (Req_EM_T _ _); [lra|]. unfold clamp. repeat destruct (Rlt_dec _ _); f_equal; lra.
  - unfold seg_half_plane_parametric. cbn [sg_start sg_end].
    assert (hp_contains (HalfPlane (1, 0) (1, 0)) (0, 0) = true) as -> by (apply contains_iff; unfold on_side; cbn; lra).
    assert (hp_contains (HalfPlane (1, 0) (1, 0)) (4, 0) = false) as -> by (apply contains_false; unfold on_side; cbn; lra).
    rewrite cut_parameter; [|cbn; intros [= ?]; lra|unfold signed_dist, vdot, vsub; cbn; lra].
    unfold signed_dist, vdot, vsub; cbn. rewrite clamp_same by lra. f_equal. f_equal. lra.
Qed.

(** * C43: disks *)
Lemma disk_quadratic a b c r t : dist2 (mix a b t) c - r ^ 2
  = vdot (vsub b a) (vsub b a) * t * t + 2 * vdot (vsub b a) (vsub a c) * t + (vdot (vsub a c) (vsub a c) - r * r).
Proof. unfold dist2, mix, vdot, vsub; cbn. ring. Qed.

(** a line with a direction: the parameters inside the disk are exactly the returned interval *)
Theorem C43_line (p d c : R * R) (r : R) : d <> (0, 0) ->
  match line_disk (Line p d) c r with
  | Some (t1, t2) => t1 <= t2 /\ forall t, in_disk c r (fst p + t * fst d, snd p + t * snd d) <-> t1 <= t <= t2
  | None => forall t, ~ in_disk c r (fst p + t * fst d, snd p + t * snd d)
  end.
Proof.
  intros Hd. unfold line_disk. cbn [ln_dir ln_point]. set (al := vdot d d). set (be := 2 * vdot d (vsub p c)). set (ga := vdot (vsub p c) (vsub p c) - r * r).
  assert (Al : 0 < al).
  { unfold al, vdot. destruct d as [x y]; cbn in *. destruct (Req_dec x 0) as [->|]; [destruct (Req_dec y 0) as [->|]; [congruence|nra]|nra]. }
  assert (Q : forall t, in_disk c r (fst p + t * fst d, snd p + t * snd d) <-> al * t * t + be * t + ga <= 0).
  { intros t. unfold in_disk. assert (dist2 (fst p + t * fst d, snd p + t * snd d) c - r ^ 2 = al * t * t + be * t + ga)
      by (unfold dist2, al, be, ga, vdot, vsub; cbn; ring). split; intros; lra. }
  set (disc := be * be - 4 * al * ga). destruct (Rle_dec 0 disc) as [Hp|Hn].
  - pose proof (sqrt_pos disc) as Sp. pose proof (sqrt_sqrt disc Hp) as Ss. set (q := sqrt disc) in *.
    set (t1 := (- be - q) / (2 * al)). set (t2 := (- be + q) / (2 * al)).
    assert (E1 : 2 * al * t1 = - be - q) by (unfold t1; field; lra). assert (E2 : 2 * al * t2 = - be + q) by (unfold t2; field; lra).
    assert (L : t1 <= t2) by nra. split; [exact L|]. intros t. rewrite Q.
    assert (F : al * t * t + be * t + ga = al * ((t - t1) * (t - t2))).
    { assert (4 * al * (al * t * t + be * t + ga) = 4 * al * (al * ((t - t1) * (t - t2)))).
      { replace (4 * al * (al * ((t - t1) * (t - t2)))) with ((2 * al * t - 2 * al * t1) * (2 * al * t - 2 * al * t2)) by ring.
        rewrite E1, E2. replace ((2 * al * t - (- be - q)) * (2 * al * t - (- be + q))) with ((2 * al * t + be) * (2 * al * t + be) - q * q) by ring.
        rewrite Ss. unfold disc. ring. }
      apply Rmult_eq_reg_l with (4 * al); lra. }
    rewrite F. split; intros H.
    + assert ((t - t1) * (t - t2) <= 0) by nra. split; destruct (Rle_dec t1 t), (Rle_dec t t2); try lra; nra.
    + assert ((t - t1) * (t - t2) <= 0) by nra. nra.
  - intros t. rewrite Q. intros H.
    assert (0 <= (2 * al * t + be) * (2 * al * t + be)) by apply Rle_0_sqr. unfold disc in Hn.
    assert (4 * al * (al * t * t + be * t + ga) = (2 * al * t + be) * (2 * al * t + be) - (be * be - 4 * al * ga)) by ring. nra.
Qed.
Print Assumptions C43_line.

(** a segment: [None] is right; if the segment does meet the disk the answer is exactly the common part; otherwise it is an end point of
    the segment, twice *)
Theorem C43_segment (a b c : R * R) (r : R) : a <> b ->
  match seg_disk (Seg a b) c r with
  | Some s => ((exists x, between a b x /\ in_disk c r x) -> forall x, between (sg_start s) (sg_end s) x <-> between a b x /\ in_disk c r x) /\
              (~ (exists x, between a b x /\ in_disk c r x) -> sg_start s = sg_end s /\ (sg_start s = a \/ sg_start s = b))
  | None => forall x, between a b x -> ~ in_disk c r x
  end.
Proof.
  intros Hab. unfold seg_disk, seg_disk_parametric. cbn [seg_line]. unfold seg_line, tangent. cbn [sg_start sg_end].
  assert (Hd : vsub b a <> (0, 0)) by (unfold vsub; intros [= E1 E2]; apply Hab; destruct a, b; cbn in *; f_equal; lra).
  pose proof (C43_line a (vsub b a) c r Hd) as H. destruct (line_disk _ _ _) as [[t1 t2]|]; cbn [option_map fst snd].
  - destruct H as [L H].
    assert (Q : forall t, in_disk c r (mix a b t) <-> t1 <= t <= t2).
    { intros t. rewrite <- (H t). assert (mix a b t = (fst a + t * fst (vsub b a), snd a + t * snd (vsub b a))) as -> by (unfold mix, vsub; cbn; f_equal; ring). tauto. }
    unfold sub_segment. cbn [fst snd sg_start sg_end]. rewrite !mix_at. split.
    2:{ intros N. assert (t2 < 0 \/ 1 < t1) as D.
        { destruct (Rle_lt_dec 0 t2) as [A|A]; [|left; exact A]. destruct (Rle_lt_dec t1 1) as [B|B]; [|right; exact B]. exfalso. apply N.
          set (t := Rmax 0 t1). assert (Ht : 0 <= t <= 1 /\ t1 <= t <= t2) by (unfold t, Rmax; destruct (Rle_dec 0 t1); lra).
          exists (mix a b t). split; [exists t; split; [lra|reflexivity]|apply Q; lra]. }
        unfold clamp. destruct D as [D|D]; repeat destruct (Rlt_dec _ _); try lra; (split; [reflexivity|]).
        - left. unfold mix; destruct a; cbn; f_equal; ring.
        - right. unfold mix; destruct b; cbn; f_equal; ring. }
    intros (x & (s & Hs & ->) & I). apply Q in I. intros x.
    assert (C : 0 <= clamp t1 0 1 <= clamp t2 0 1 /\ clamp t2 0 1 <= 1 /\ forall t, clamp t1 0 1 <= t <= clamp t2 0 1 <-> 0 <= t <= 1 /\ t1 <= t <= t2).
    { unfold clamp. destruct (Rlt_dec 0 t1), (Rlt_dec 0 t2); repeat destruct (Rlt_dec _ _); (split; [lra|split; [lra|intros; lra]]). }
    destruct C as (C1 & C2 & C3). rewrite between_sub by assumption. split.
    + intros (t & Ht & ->). apply C3 in Ht. destruct Ht as [H1 H2]. split; [exists t; split; [exact H1|reflexivity]|apply Q, H2].
    + intros ((t & Ht & ->) & I2). apply Q in I2. exists t. split; [apply C3; split; assumption|reflexivity].
  - intros x (t & Ht & ->) I. apply (H t).
    assert (mix a b t = (fst a + t * fst (vsub b a), snd a + t * snd (vsub b a))) as <- by (unfold mix, vsub; cbn; f_equal; ring). exact I.
Qed.
Print Assumptions C43_segment.

(** a segment that ends before the disk: the code returns its end point as the intersection *)
Theorem C43_refuted : exists (a b c : R * R) (r : R) (s : seg), 0 < r /\ a <> b /\ seg_disk (Seg a b) c r = Some s /\
  (forall x, between a b x -> ~ in_disk c r x) /\ ~ in_disk c r (sg_start s) /\ ~ in_disk c r (sg_end s).
Proof.
  exists (0, 0), (1, 0), (5, 0), 1, (Seg (1, 0) (1, 0)).
  split; [lra|]. split; [intros [= ?]; lra|]. split.
  - unfold seg_disk, seg_disk_parametric, line_disk, seg_line, tangent, vdot, vsub; cbn.
    set (disc := _ - _ * _ * _). assert (disc = 2 * 2) as -> by (unfold disc; ring).
    destruct (Rle_dec 0 (2 * 2)) as [_|N]; [|lra]. rewrite sqrt_square by lra. cbn. unfold sub_segment, seg_at, vadd, vscale, tangent, vsub; cbn.
    unfold clamp. repeat destruct (Rlt_dec _ _); try lra. f_equal. f_equal; f_equal; ring.
  - split.
    + intros x (t & Ht & ->). unfold in_disk, dist2, mix; cbn. nra.
    + unfold in_disk, dist2; cbn. lra.
Qed.
Print Assumptions C43_refuted.

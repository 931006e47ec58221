(** C44 and C45: polygon areas, triangulations and half-plane clipping. *)
From Coq Require Import Reals List Lra Lia Psatz Bool Arith.
From Verif Require Import CgModel CgSpec GeomModel GeomSpec PropSeg.
Import ListNotations.
Open Scope R_scope.

(** * sums along open and closed paths *)
Definition rsum (l : list R) : R := fold_right Rplus 0 l.
Definition path_sum (f : R * R -> R * R -> R) (l : list (R * R)) : R := rsum (map (fun e => f (fst e) (snd e)) (windows l)).
Definition closed_sum (f : R * R -> R * R -> R) (l : list (R * R)) : R := rsum (map (fun e => f (fst e) (snd e)) (edges l)).

Lemma rsum_app a b : rsum (a ++ b) = rsum a + rsum b.
Proof. induction a; cbn; [unfold rsum; lra|]. unfold rsum in *. cbn. rewrite IHa. ring. Qed.
Lemma rsum_scale {A} (g : A -> R) c k : rsum (map (fun i => c * g i) k) = c * rsum (map g k).
Proof. induction k as [|i k IH]; unfold rsum in *; cbn [map fold_right]; [ring|]. rewrite IH. ring. Qed.
Lemma path_cons f a b l : path_sum f (a :: b :: l) = f a b + path_sum f (b :: l).
Proof. reflexivity. Qed.
Lemma path_app f l x m : path_sum f (l ++ x :: m) = path_sum f (l ++ [x]) + path_sum f (x :: m).
Proof.
  induction l as [|a l IH]; [cbn [app]; unfold path_sum at 2; cbn; lra|]. destruct l as [|b l].
  - cbn [app]. rewrite !path_cons. unfold path_sum at 2. cbn. lra.
  - change ((a :: b :: l) ++ x :: m) with (a :: b :: (l ++ x :: m)). change ((a :: b :: l) ++ [x]) with (a :: b :: (l ++ [x])).
    rewrite !path_cons. change (b :: l ++ x :: m) with ((b :: l) ++ x :: m). rewrite IH. cbn [app]. lra.
Qed.
Lemma path_ext f g l : (forall a b, f a b = g a b) -> path_sum f l = path_sum g l.
Proof. intros H. unfold path_sum. f_equal. apply map_ext. intros e. apply H. Qed.
Lemma closed_path f v l : closed_sum f (v :: l) = path_sum f ((v :: l) ++ [v]).
Proof. reflexivity. Qed.

(** telescoping along a closed path *)
Lemma path_telescope f g l a z : path_sum (fun x y => f x y + (g y - g x)) ((a :: l) ++ [z]) = path_sum f ((a :: l) ++ [z]) + (g z - g a).
Proof.
  revert a. induction l as [|b l IH]; intros a; cbn [app].
  - rewrite !path_cons. unfold path_sum; cbn. lra.
  - rewrite !path_cons. change (b :: l ++ [z]) with ((b :: l) ++ [z]). rewrite IH. lra.
Qed.
Lemma closed_telescope f g l : closed_sum (fun x y => f x y + (g y - g x)) l = closed_sum f l.
Proof. destruct l as [|a l]; [reflexivity|]. rewrite !closed_path, path_telescope. lra. Qed.
Lemma closed_ext f g l : (forall a b, f a b = g a b) -> closed_sum f l = closed_sum g l.
Proof. intros H. unfold closed_sum. f_equal. apply map_ext. intros e. apply H. Qed.
Lemma closed_ext_tel f f' g l : (forall a b, f' a b = f a b + (g b - g a)) -> closed_sum f' l = closed_sum f l.
Proof. intros H. rewrite (closed_ext f' (fun x y => f x y + (g y - g x)) l H). apply closed_telescope. Qed.

Lemma closed_rotate f l m : closed_sum f (l ++ m) = closed_sum f (m ++ l).
Proof.
  destruct l as [|a l]; [rewrite app_nil_r; reflexivity|]. destruct m as [|b m]; [rewrite app_nil_r; reflexivity|].
  change ((a :: l) ++ b :: m) with (a :: (l ++ b :: m)). change ((b :: m) ++ a :: l) with (b :: (m ++ a :: l)). rewrite !closed_path.
  replace ((a :: l ++ b :: m) ++ [a]) with ((a :: l) ++ b :: (m ++ [a])) by (cbn; rewrite <- app_assoc; reflexivity).
  replace ((b :: m ++ a :: l) ++ [b]) with ((b :: m) ++ a :: (l ++ [b])) by (cbn; rewrite <- app_assoc; reflexivity).
  rewrite (path_app f (a :: l) b), (path_app f (b :: m) a). cbn [app]. lra.
Qed.
Lemma path_rev f l : path_sum f (rev l) = path_sum (fun a b => f b a) l.
Proof.
  induction l as [|a [|b l] IH]; [reflexivity|reflexivity|].
  cbn [rev] in *. rewrite <- app_assoc. cbn [app]. rewrite path_app, IH, !path_cons. unfold path_sum at 2; cbn. lra.
Qed.
Lemma closed_rev f l : closed_sum f (rev l) = closed_sum (fun a b => f b a) l.
Proof.
  destruct l as [|a l]; [reflexivity|]. cbn [rev]. rewrite closed_rotate. cbn [app]. rewrite !closed_path. transitivity (path_sum f (rev ((a :: l) ++ [a]))); [|apply path_rev]. f_equal.
  rewrite rev_app_distr. reflexivity.
Qed.
Lemma closed_map f (g : R * R -> R * R) l : closed_sum f (map g l) = closed_sum (fun a b => f (g a) (g b)) l.
Proof.
  assert (W : forall l, windows (map g l) = map (fun e => (g (fst e), g (snd e))) (windows l)).
  { intros k. induction k as [|a [|b k] IH]; [reflexivity|reflexivity|].
    change (windows (map g (a :: b :: k))) with ((g a, g b) :: windows (map g (b :: k))). rewrite IH. reflexivity. }
  destruct l as [|a l]; [reflexivity|].
  assert (E : edges (map g (a :: l)) = map (fun e => (g (fst e), g (snd e))) (edges (a :: l))).
  { unfold edges at 2. rewrite <- W, map_app. reflexivity. }
  unfold closed_sum. rewrite E, map_map. reflexivity.
Qed.

Definition cross (a b : R * R) : R := fst a * snd b - snd a * fst b.
Lemma shoelace_closed vs : shoelace vs = closed_sum cross vs / 2.
Proof. unfold shoelace, sum_to, closed_sum, rsum. rewrite edges_corner, map_map. reflexivity. Qed.

Lemma nth_error_corner vs i : (0 < length vs)%nat -> nth_error vs (i mod length vs) = Some (corner vs i).
Proof. intros H. unfold corner. apply nth_error_nth'. apply Nat.mod_upper_bound. lia. Qed.
Lemma poly_edge_corner vs i : (0 < length vs)%nat -> poly_edge vs i = Some (corner vs i, corner vs (i + 1)).
Proof. intros H. unfold poly_edge. rewrite !nth_error_corner by exact H. reflexivity. Qed.
Lemma fold_rsum {A} (f : A -> R) (l : list A) z : fold_left (fun acc i => acc + f i) l z = z + rsum (map f l).
Proof. revert z. induction l as [|a l IH]; intros z; cbn [fold_left map]; [unfold rsum; cbn; lra|]. rewrite IH. unfold rsum; cbn. lra. Qed.

Theorem C45_shoelace vs : poly_signed_area vs = shoelace vs.
Proof.
  unfold poly_signed_area.
  assert (E : fold_left (fun area i => match poly_edge vs i with Some (a, b) => area + (snd b - snd a) * (fst b + fst a) | None => area end) (seq 0 (length vs)) 0
    = fold_left (fun area i => area + (fun i => (snd (corner vs (i + 1)) - snd (corner vs i)) * (fst (corner vs (i + 1)) + fst (corner vs i))) i) (seq 0 (length vs)) 0).
  { destruct vs as [|v l]; [reflexivity|]. set (vs := v :: l). assert (H : (0 < length vs)%nat) by (cbn; lia).
    generalize (seq 0 (length vs)). intros k. generalize 0. induction k as [|i k IH]; intros z; [reflexivity|]. cbn [fold_left].
    rewrite (poly_edge_corner vs i H). apply IH. }
  rewrite E, fold_rsum, shoelace_closed.
  rewrite <- (closed_ext_tel cross (fun a b => (snd b - snd a) * (fst b + fst a)) (fun p => fst p * snd p) vs) by (intros a b; unfold cross; ring).
  unfold closed_sum. rewrite edges_corner, map_map. match goal with |- (0 + rsum ?A) * _ = rsum ?B / 2 => change B with A; lra end.
Qed.
Print Assumptions C45_shoelace.

(** ** how the area changes *)
Theorem C45_rotate l m : poly_signed_area (m ++ l) = poly_signed_area (l ++ m).
Proof. rewrite !C45_shoelace, !shoelace_closed, closed_rotate. reflexivity. Qed.
Print Assumptions C45_rotate.
Theorem C45_reverse vs : poly_signed_area (rev vs) = - poly_signed_area vs /\ poly_area (rev vs) = poly_area vs.
Proof.
  assert (E : poly_signed_area (rev vs) = - poly_signed_area vs).
  { rewrite !C45_shoelace, !shoelace_closed, closed_rev. unfold closed_sum.
    assert (N : forall l : list ((R * R) * (R * R)), rsum (map (fun e => cross (snd e) (fst e)) l) = - rsum (map (fun e => cross (fst e) (snd e)) l)).
    { induction l as [|e l IH]; unfold rsum in *; cbn; [lra|]. rewrite IH. unfold cross. ring. }
    rewrite N. lra. }
  split; [exact E|]. unfold poly_area. rewrite E. apply Rabs_Ropp.
Qed.
Print Assumptions C45_reverse.
(** an affine map multiplies the area by its determinant; in particular translations and rotations keep it *)
Theorem C45_affine m11 m12 m21 m22 tx ty vs :
  poly_signed_area (map (fun p => (m11 * fst p + m12 * snd p + tx, m21 * fst p + m22 * snd p + ty)) vs) = (m11 * m22 - m12 * m21) * poly_signed_area vs.
Proof.
  rewrite !C45_shoelace, !shoelace_closed, closed_map.
  rewrite (closed_ext_tel (fun a b => (m11 * m22 - m12 * m21) * cross a b) _ (fun p => tx * (m21 * fst p + m22 * snd p) - ty * (m11 * fst p + m12 * snd p)))
    by (intros a b; unfold cross; cbn; ring).
  unfold closed_sum. generalize (edges vs). intros es. enough (rsum (map (fun e => (m11 * m22 - m12 * m21) * cross (fst e) (snd e)) es)
    = (m11 * m22 - m12 * m21) * rsum (map (fun e => cross (fst e) (snd e)) es)) by lra.
  induction es as [|e es IH]; unfold rsum in *; cbn; [ring|]. rewrite IH. ring.
Qed.
Print Assumptions C45_affine.

(** ** triangulations *)
Definition total_area (ts : list (vec2 * vec2 * vec2)) : R := rsum (map tri_signed_area ts).

Theorem C45_fan vs p : total_area (triangulate_at_point vs p) = poly_signed_area vs /\ length (triangulate_at_point vs p) = length vs.
Proof.
  assert (E : triangulate_at_point vs p = map (fun i => (p, corner vs i, corner vs (i + 1))) (seq 0 (length vs))).
  { unfold triangulate_at_point. destruct vs as [|v l]; [reflexivity|]. set (vs := v :: l). assert (0 < length vs)%nat by (cbn; lia).
    generalize (seq 0 (length vs)). intros k. induction k as [|i k IH]; [reflexivity|]. cbn [flat_map map]. rewrite (poly_edge_corner vs i H), IH. reflexivity. }
  split; [|rewrite E, map_length, seq_length; reflexivity].
  unfold total_area. rewrite E, map_map, C45_shoelace, shoelace_closed.
  rewrite <- (closed_ext_tel cross (fun a b => perp (vsub a p) (vsub b p)) (fun x => - cross p x)) by (intros a b; unfold cross, perp, vsub; cbn; ring).
  unfold closed_sum. rewrite edges_corner, map_map.
  transitivity (1/2 * rsum (map (fun i => perp (vsub (corner vs i) p) (vsub (corner vs (i + 1)) p)) (seq 0 (length vs)))); [exact (rsum_scale _ _ _)|].
  match goal with |- _ * rsum ?A = rsum ?B / 2 => change B with A; lra end.
Qed.
Print Assumptions C45_fan.

Lemma triangulate_corner vs : triangulate vs = map (fun i => (corner vs 0, corner vs i, corner vs (i + 1))) (seq 1 (length vs - 2)).
Proof.
  destruct vs as [|v l]; [reflexivity|]. unfold triangulate. set (vs := v :: l). assert (0 < length vs)%nat by (cbn; lia).
  assert (E : corner vs 0 = v) by (unfold corner; rewrite Nat.mod_0_l by (cbn; lia); reflexivity). rewrite E.
  replace (length vs - 1 - 1)%nat with (length vs - 2)%nat by lia.
  generalize (seq 1 (length vs - 2)). intros k. induction k as [|i k IH]; [reflexivity|]. cbn [flat_map map]. rewrite (poly_edge_corner vs i H), IH. reflexivity.
Qed.
Theorem C45_triangulate vs : total_area (triangulate vs) = poly_signed_area vs /\ length (triangulate vs) = (length vs - 2)%nat.
Proof.
  split; [|rewrite triangulate_corner, map_length, seq_length; reflexivity].
  destruct vs as [|v0 [|v1 l]]; [unfold total_area, poly_signed_area; cbn; lra|unfold total_area, poly_signed_area; cbn; lra|]. set (vs := v0 :: v1 :: l).
  destruct (C45_fan vs (corner vs 0)) as [<- _]. rewrite triangulate_corner. unfold total_area.
  assert (E : triangulate_at_point vs (corner vs 0) = map (fun i => (corner vs 0, corner vs i, corner vs (i + 1))) (seq 0 (length vs))).
  { unfold triangulate_at_point. assert (0 < length vs)%nat by (cbn; lia). generalize (corner vs 0). intros q.
    generalize (seq 0 (length vs)). intros k. induction k as [|i k IH]; [reflexivity|]. cbn [flat_map map]. rewrite (poly_edge_corner vs i H), IH. reflexivity. }
  rewrite E. change (length vs) with (S (S (length l))). replace (S (S (length l)) - 2)%nat with (length l) by lia.
  rewrite !map_map. set (g := fun i => tri_signed_area (corner vs 0, corner vs i, corner vs (i + 1))).
  change (seq 0 (S (S (length l)))) with (0%nat :: seq 1 (S (length l))). rewrite seq_S, map_cons, map_app.
  change (rsum (g 0%nat :: map g (seq 1 (length l)) ++ map g [(1 + length l)%nat])) with (g 0%nat + rsum (map g (seq 1 (length l)) ++ map g [(1 + length l)%nat])).
  rewrite rsum_app.
  assert (g 0%nat = 0) as -> by (unfold g, tri_signed_area, perp, vsub; cbn; ring).
  assert (g (1 + length l)%nat = 0) as G.
  { unfold g. assert (corner vs (1 + length l + 1) = corner vs 0) as ->.
    { unfold corner. change (length vs) with (S (S (length l))). replace (1 + length l + 1)%nat with (S (S (length l))) by lia. rewrite Nat.mod_same, Nat.mod_0_l by lia. reflexivity. }
    unfold tri_signed_area, perp, vsub; cbn [fst snd]. ring. }
  cbn [map]. rewrite G. unfold rsum at 3; cbn. lra.
Qed.
Print Assumptions C45_triangulate.

(** both triangulations by a fan from the first vertex agree *)
Theorem C45_convex_triangulate vs : convex_triangulate vs = triangulate vs.
Proof.
  rewrite triangulate_corner. destruct vs as [|v l]; [reflexivity|]. unfold convex_triangulate. set (vs := v :: l).
  assert (E : corner vs 0 = v) by (unfold corner; rewrite Nat.mod_0_l by (cbn; lia); reflexivity). rewrite E.
  rewrite edges_corner, firstn_map, skipn_map, map_map. cbn [fst snd].
  assert (skipn 1 (firstn (length vs - 1) (seq 0 (length vs))) = seq 1 (length vs - 2)) as ->; [|reflexivity].
  assert (F : forall k n a, (k <= n)%nat -> firstn k (seq a n) = seq a k).
  { induction k as [|k IH]; intros n a Hk; [reflexivity|]. destruct n as [|n]; [lia|]. cbn. f_equal. apply IH. lia. }
  rewrite F by lia. destruct l as [|w l]; [reflexivity|]. cbn [length]. subst vs. cbn [length]. replace (S (S (length l)) - 1)%nat with (S (length l)) by lia.
  replace (S (S (length l)) - 2)%nat with (length l) by lia. reflexivity.
Qed.
Print Assumptions C45_convex_triangulate.

Example C45_example : poly_signed_area [(0, 0); (3, 0); (3, 2); (0, 2)] = 6 /\ poly_signed_area [(0, 2); (3, 2); (3, 0); (0, 0)] = -6 /\
  counterclockwise [(0, 0); (3, 0); (3, 2); (0, 2)] = true.
Proof.
  assert (A : poly_signed_area [(0, 0); (3, 0); (3, 2); (0, 2)] = 6) by (unfold poly_signed_area; cbn; lra).
  split; [exact A|]. split; [unfold poly_signed_area; cbn; lra|]. unfold counterclockwise. rewrite A. destruct (Rlt_dec 0 6); [reflexivity|lra].
Qed.

(** * C44: clipping *)
Section Clip.
  Variable h : half_plane.
  Hypothesis normal : hp_normal h <> (0, 0).
  Let x0 := hp_point h.
  Let d := signed_dist h.
  (** area elements about a point of the border *)
  Let w (a b : R * R) : R := (fst a - fst x0) * (snd b - snd x0) - (snd a - snd x0) * (fst b - fst x0).

  Lemma w_border a b : d a = 0 -> d b = 0 -> w a b = 0.
  Proof.
    unfold d, signed_dist, vdot, vsub, w. fold x0. destruct (hp_normal h) as [nx ny]. cbn [fst snd]. intros Ha Hb.
    set (ax := fst a - fst x0) in *. set (ay := snd a - snd x0) in *. set (bx := fst b - fst x0) in *. set (by_ := snd b - snd x0) in *.
    assert (nx * (ax * by_ - ay * bx) = 0) by (replace (nx * (ax * by_ - ay * bx)) with ((nx * ax + ny * ay) * by_ - (nx * bx + ny * by_) * ay) by ring; rewrite Ha, Hb; ring).
    assert (ny * (ax * by_ - ay * bx) = 0) by (replace (ny * (ax * by_ - ay * bx)) with ((nx * bx + ny * by_) * ax - (nx * ax + ny * ay) * bx) by ring; rewrite Ha, Hb; ring).
    destruct (Rmult_integral _ _ H) as [Z1|Z]; [|exact Z]. destruct (Rmult_integral _ _ H0) as [Z2|Z]; [|exact Z]. subst. congruence.
  Qed.

  (** the point where the border cuts the line through [a] and [b] *)
  Definition cut (a b : R * R) : R * R := mix a b (d a / (d a - d b)).
  Lemma cut_border a b : d a <> d b -> d (cut a b) = 0.
  Proof. intros N. unfold cut, d. rewrite dist_mix. fold d. field. lra. Qed.

  Lemma contains_d p : hp_contains h p = true <-> d p <= 0.
  Proof. unfold hp_contains. fold d. destruct (Rle_dec (d p) 0); split; intros; try discriminate; auto; contradiction. Qed.
  Lemma contains_not_d p : hp_contains h p = false <-> 0 < d p.
  Proof. unfold hp_contains. fold d. destruct (Rle_dec (d p) 0); split; intros; try discriminate; auto; lra. Qed.

  Lemma cut_code a b : d a <> d b -> line_intersect (surface h) (Line a (normalize (vsub b a))) = Some (cut a b).
  Proof.
    intros N. assert (Nab : vsub b a <> (0, 0)).
    { intros E. apply N. unfold d, signed_dist, vdot, vsub in *. injection E. intros E2 E1. replace (fst a) with (fst b) by lra. replace (snd a) with (snd b) by lra. reflexivity. }
    pose proof (normalize_dir _ Nab) as P. set (q := vnorm (vsub b a)) in *.
    assert (Dd : vdot (hp_normal h) (normalize (vsub b a)) = (d b - d a) / q).
    { unfold normalize. fold q. unfold d, signed_dist, vdot, vsub; cbn. field. lra. }
    unfold line_intersect. pose proof (lines_solve (surface h) (Line a (normalize (vsub b a)))) as H.
    destruct (intersect_lines _ _) as [[t1 t2]|]; cbn [option_map fst].
    - destruct H as [E _]. f_equal.
      assert (B : d (line_at (surface h) t1) = 0) by (unfold d, signed_dist, line_at, surface, vdot, vsub, vadd, vscale; cbn; ring).
      rewrite E in *. assert (M : line_at (Line a (normalize (vsub b a))) t2 = mix a b (t2 / q)).
      { unfold line_at, normalize. fold q. unfold vadd, vscale, mix, vsub; cbn. f_equal; field; lra. }
      rewrite M in *. unfold cut. f_equal. unfold d in B. rewrite dist_mix in B. fold d in B.
      apply Rmult_eq_reg_r with (d a - d b); [|lra]. replace (d a / (d a - d b) * (d a - d b)) with (d a) by (field; lra). lra.
    - exfalso. assert (vdot (hp_normal h) (normalize (vsub b a)) = 0).
      { unfold perp, surface in H; cbn [ln_dir fst snd] in H. unfold vdot. lra. }
      rewrite Dd in H0. apply N. assert (d b - d a = 0) by (apply Rmult_eq_reg_r with (/ q); [unfold Rdiv in H0; rewrite H0; ring|apply Rinv_neq_0_compat; lra]). lra.
  Qed.

  (** what one edge contributes, without panics *)
  Definition emit (e : (R * R) * (R * R)) : list (R * R) :=
    let '(a, b) := e in
    if hp_contains h a then if hp_contains h b then [a] else [a; cut a b] else if hp_contains h b then [cut a b] else [].
  Lemma clip_edge_emit e : clip_edge h e = Some (emit e).
  Proof.
    destruct e as [a b]. unfold clip_edge, emit. destruct (hp_contains h a) eqn:A, (hp_contains h b) eqn:B; cbn; try reflexivity.
    - apply contains_d in A. apply contains_not_d in B. rewrite cut_code by lra. reflexivity.
    - apply contains_not_d in A. apply contains_d in B. rewrite cut_code by lra. reflexivity.
  Qed.
  Lemma clip_emit es : concat_options (map (clip_edge h) es) = Some (flat_map emit es).
  Proof. induction es as [|e es IH]; [reflexivity|]. cbn. rewrite clip_edge_emit, IH. reflexivity. Qed.

  (** the area element of the part of an edge inside *)
  Definition inner_part (a b : R * R) : R :=
    if hp_contains h a then if hp_contains h b then w a b else w a (cut a b) else if hp_contains h b then w (cut a b) b else 0.

  (** emission along an open path, with the last vertex if it is inside *)
  Definition keep (z : R * R) : list (R * R) := if hp_contains h z then [z] else [].
  Fixpoint last_of (l : list (R * R)) (z : R * R) : R * R := match l with [] => z | b :: l => last_of l b end.
  Lemma last_of_snoc l a z : last_of (l ++ [z]) a = z.
  Proof. revert a. induction l; intros; cbn; auto. Qed.
  Definition emission (a : R * R) (l : list (R * R)) : list (R * R) := flat_map emit (windows (a :: l)) ++ keep (last_of l a).
  Definition starts (P : R * R -> Prop) (l : list (R * R)) : Prop := match l with [] => True | x :: _ => P x end.
  Definition ends (P : R * R -> Prop) (l : list (R * R)) : Prop := forall m x, l = m ++ [x] -> P x.

  Lemma emission_cons a b l : emission a (b :: l) = emit (a, b) ++ emission b l.
  Proof. unfold emission. change (windows (a :: b :: l)) with ((a, b) :: windows (b :: l)). cbn [flat_map last_of]. rewrite <- app_assoc. reflexivity. Qed.

  Lemma emission_first l : forall a,
    (hp_contains h a = true -> exists m, emission a l = a :: m) /\ (hp_contains h a = false -> starts (fun x => d x = 0) (emission a l)).
  Proof.
    induction l as [|b l IH]; intros a.
    - unfold emission, keep; cbn. destruct (hp_contains h a); split; intros; try discriminate; [eexists; reflexivity|exact I].
    - rewrite emission_cons. cbn [emit]. destruct (IH b) as [I1 I2]. split; intros A; rewrite A; destruct (hp_contains h b) eqn:B; cbn [app].
      + eexists; reflexivity.
      + eexists; reflexivity.
      + cbn. apply contains_not_d in A. apply contains_d in B. apply cut_border. lra.
      + apply I2. reflexivity.
  Qed.
  Lemma ends_app P l m : m <> [] -> ends P m -> ends P (l ++ m).
  Proof.
    intros N E k x H. destruct (exists_last N) as (m' & y & ->). rewrite app_assoc in H. apply app_inj_tail in H. destruct H as [_ <-]. apply (E m' y). reflexivity.
  Qed.
  Lemma emission_last l : forall a, hp_contains h (last_of l a) = false -> ends (fun x => d x = 0) (emission a l).
  Proof.
    induction l as [|b l IH]; intros a Z.
    - unfold emission, keep. cbn in *. rewrite Z. intros [|? m] x H; discriminate.
    - rewrite emission_cons. cbn [last_of] in Z. specialize (IH b Z). destruct (emission b l) as [|y m] eqn:E; [|apply ends_app; [discriminate|exact IH]].
      rewrite app_nil_r. destruct (hp_contains h b) eqn:B.
      + destruct (emission_first l b) as [I1 _]. destruct (I1 B) as [k Hk]. rewrite Hk in E. discriminate.
      + cbn. rewrite B. destruct (hp_contains h a) eqn:A.
        * intros k x H. change [a; cut a b] with ([a] ++ [cut a b]) in H. apply app_inj_tail in H. destruct H as [_ <-].
          apply contains_d in A. apply contains_not_d in B. apply cut_border. lra.
        * intros [|? k] x H; discriminate.
  Qed.

  Lemma emission_sum l : forall a, path_sum w (emission a l) = path_sum inner_part (a :: l).
  Proof.
    induction l as [|b l IH]; intros a.
    - unfold emission, keep; cbn. destruct (hp_contains h a); reflexivity.
    - rewrite emission_cons, path_cons, <- IH. destruct (emission_first l b) as [I1 I2]. cbn [emit]. unfold inner_part at 1.
      destruct (hp_contains h a) eqn:A, (hp_contains h b) eqn:B.
      + destruct (I1 eq_refl) as [m ->]. cbn [app]. rewrite path_cons. reflexivity.
      + specialize (I2 eq_refl). destruct (emission b l) as [|y m]; cbn [app].
        * rewrite path_cons. unfold path_sum; cbn. reflexivity.
        * rewrite !path_cons. apply contains_d in A. apply contains_not_d in B. cbn in I2.
          rewrite (w_border (cut a b) y); [lra| |exact I2]. apply cut_border. lra.
      + destruct (I1 eq_refl) as [m ->]. cbn [app]. rewrite path_cons. reflexivity.
      + cbn [app]. lra.
  Qed.

  Lemma clip_closed v l : closed_sum w (flat_map emit (edges (v :: l))) = closed_sum inner_part (v :: l).
  Proof.
    rewrite (closed_path inner_part). change ((v :: l) ++ [v]) with (v :: (l ++ [v])). rewrite <- emission_sum.
    unfold edges. change ((v :: l) ++ [v]) with (v :: (l ++ [v])). unfold emission. rewrite last_of_snoc. set (ws := flat_map emit (windows (v :: l ++ [v]))).
    destruct (hp_contains h v) eqn:V; unfold keep; rewrite V.
    - destruct (emission_first (l ++ [v]) v) as [I1 _]. destruct (I1 V) as [m Hm]. unfold emission in Hm. rewrite last_of_snoc in Hm. fold ws in Hm.
      unfold keep in Hm. rewrite V in Hm. destruct ws as [|y ws']; cbn [app] in *.
      + injection Hm. intros _. reflexivity.
      + injection Hm. intros _ ->. reflexivity.
    - rewrite app_nil_r. destruct (emission_first (l ++ [v]) v) as [_ I2]. specialize (I2 V).
      pose proof (emission_last (l ++ [v]) v) as L. rewrite last_of_snoc in L. specialize (L V).
      unfold emission in I2, L. rewrite last_of_snoc in I2, L. fold ws in I2, L. unfold keep in I2, L. rewrite V, app_nil_r in I2, L.
      destruct ws as [|y ws']; [reflexivity|]. rewrite closed_path. destruct (exists_last (l := y :: ws')) as (m & z & E); [discriminate|].
      rewrite E in L |- *. rewrite <- app_assoc. cbn [app]. rewrite path_app, path_cons. rewrite (w_border z y); [unfold path_sum at 2; cbn; lra| |exact I2].
      apply (L m z). reflexivity.
  Qed.
End Clip.

(** the parts of an edge in the two complementary half planes make up the edge *)
Lemma dist_complement h p : signed_dist (complement h) p = - signed_dist h p.
Proof. unfold signed_dist, complement, vdot, vsub; cbn. ring. Qed.
Lemma cut_complement h a b : signed_dist h a <> signed_dist h b -> cut (complement h) a b = cut h a b.
Proof. intros N. unfold cut. rewrite !dist_complement. f_equal. field. lra. Qed.

Lemma parts_add h a b : hp_normal h <> (0, 0) ->
  inner_part h a b + inner_part (complement h) a b
  = (fst a - fst (hp_point h)) * (snd b - snd (hp_point h)) - (snd a - snd (hp_point h)) * (fst b - fst (hp_point h)).
Proof.
  intros Hn. pose proof (w_border h Hn) as W. unfold inner_part. change (hp_point (complement h)) with (hp_point h).
  set (x0 := hp_point h) in *.
  assert (C : forall p, hp_contains (complement h) p = true <-> 0 <= signed_dist h p) by (intros p; rewrite contains_d, dist_complement; lra).
  assert (C' : forall p, hp_contains (complement h) p = false <-> signed_dist h p < 0) by (intros p; rewrite contains_not_d, dist_complement; lra).
  destruct (hp_contains h a) eqn:A; [apply contains_d in A|apply contains_not_d in A];
  (destruct (hp_contains h b) eqn:B; [apply contains_d in B|apply contains_not_d in B]);
  (destruct (hp_contains (complement h) a) eqn:A'; [apply C in A'|apply C' in A']);
  (destruct (hp_contains (complement h) b) eqn:B'; [apply C in B'|apply C' in B']); try (exfalso; lra).
  - rewrite (W a b) by lra. lra.
  - rewrite cut_complement by lra. unfold cut. set (t := signed_dist h a / (signed_dist h a - signed_dist h b)). assert (t = 0) as -> by (unfold t; field_simplify_eq; lra).
    unfold mix; cbn [fst snd]. ring.
  - rewrite cut_complement by lra. unfold cut. set (t := signed_dist h a / (signed_dist h a - signed_dist h b)). assert (t = 1) as -> by (unfold t; field_simplify_eq; lra).
    unfold mix; cbn [fst snd]. ring.
  - lra.
  - unfold cut. set (t := signed_dist h a / (signed_dist h a - signed_dist h b)). assert (t = 0) as -> by (unfold t; field_simplify_eq; lra).
    unfold mix; cbn [fst snd]. ring.
  - rewrite cut_complement by lra. unfold cut, mix; cbn [fst snd]. ring.
  - unfold cut. set (t := signed_dist h a / (signed_dist h a - signed_dist h b)). assert (t = 1) as -> by (unfold t; field_simplify_eq; lra).
    unfold mix; cbn [fst snd]. ring.
  - rewrite cut_complement by lra. unfold cut, mix; cbn [fst snd]. ring.
  - lra.
Qed.

Lemma shoelace_base p vs : shoelace vs = closed_sum (fun a b => (fst a - fst p) * (snd b - snd p) - (snd a - snd p) * (fst b - fst p)) vs / 2.
Proof.
  rewrite shoelace_closed. f_equal. symmetry. apply (closed_ext_tel _ _ (fun x => - cross p x)). intros a b. unfold cross. ring.
Qed.
Lemma shoelace_single v : shoelace [v] = 0.
Proof. unfold shoelace, sum_to, corner; cbn. lra. Qed.

Lemma clip_list vs h : hp_normal h <> (0, 0) -> exists ws, clip vs h = Some ws /\
  (length vs <> 1%nat -> ws = flat_map (emit h) (edges vs)) /\ (forall v, vs = [v] -> ws = if hp_contains h v then [v] else []).
Proof.
  intros Hn. unfold clip. destruct vs as [|v [|v' l]].
  - exists []. repeat split; intros; [discriminate].
  - exists (if hp_contains h v then [v] else []). split; [reflexivity|]. split; [intros N; cbn in N; lia|intros u [= ->]; reflexivity].
  - rewrite (clip_emit h). eexists. split; [reflexivity|]. split; [reflexivity|intros u H; discriminate].
Qed.

Theorem C44_area vs x0 n : n <> (0, 0) -> exists ws ws',
  clip vs (HalfPlane x0 n) = Some ws /\ clip vs (HalfPlane x0 (- fst n, - snd n)) = Some ws' /\ shoelace ws + shoelace ws' = shoelace vs.
Proof.
  intros Hn. set (h := HalfPlane x0 n). change (HalfPlane x0 (- fst n, - snd n)) with (complement h).
  assert (Hn' : hp_normal (complement h) <> (0, 0)).
  { cbn. intros E. injection E. intros E2 E1. apply Hn. destruct n; cbn in *. f_equal; lra. }
  destruct (clip_list vs h Hn) as (ws & C & G & S1). destruct (clip_list vs (complement h) Hn') as (ws' & C' & G' & S1').
  exists ws, ws'. split; [exact C|]. split; [exact C'|].
  destruct vs as [|v [|v' l]].
  - rewrite (G ltac:(cbn; lia)), (G' ltac:(cbn; lia)). cbn. unfold shoelace, sum_to; cbn. lra.
  - rewrite (S1 v eq_refl), (S1' v eq_refl). rewrite shoelace_single. destruct (hp_contains h v), (hp_contains (complement h) v);
      rewrite ?shoelace_single; unfold shoelace, sum_to; cbn; lra.
  - rewrite (G ltac:(cbn; lia)), (G' ltac:(cbn; lia)). rewrite !(shoelace_base x0).
    pose proof (clip_closed h Hn v (v' :: l)) as E. pose proof (clip_closed (complement h) Hn' v (v' :: l)) as E'. cbn [hp_point h complement] in E, E'.
    rewrite E, E'. unfold closed_sum. generalize (edges (v :: v' :: l)). intros es.
    assert (A : rsum (map (fun e => inner_part h (fst e) (snd e)) es) + rsum (map (fun e => inner_part (complement h) (fst e) (snd e)) es)
      = rsum (map (fun e => (fst (fst e) - fst x0) * (snd (snd e) - snd x0) - (snd (fst e) - snd x0) * (fst (snd e) - fst x0)) es)); [|lra].
    induction es as [|e es IH]; unfold rsum in *; cbn [map fold_right]; [lra|]. rewrite <- IH.
    pose proof (parts_add h (fst e) (snd e) Hn) as Pe. cbn [hp_point h] in Pe. rewrite <- Pe. ring.
Qed.
Print Assumptions C44_area.

(** the new vertices are inside and on edges; no inside vertex is lost; vertices that are new are on the border *)
Theorem C44_vertices vs x0 n : n <> (0, 0) -> exists ws, clip vs (HalfPlane x0 n) = Some ws /\
  (forall x, In x ws -> on_side x0 n x /\ (exists i, (i < length vs)%nat /\ between (corner vs i) (corner vs (i + 1)) x) /\ (In x vs \/ on_border x0 n x)) /\
  (forall v, In v vs -> on_side x0 n v -> In v ws).
Proof.
  intros Hn. set (h := HalfPlane x0 n). destruct (clip_list vs h Hn) as (ws & C & G & S1). exists ws. split; [exact C|].
  assert (Cd : forall p, hp_contains h p = true <-> on_side x0 n p) by (intros p; apply contains_iff).
  assert (Sd : forall p, on_side x0 n p <-> signed_dist h p <= 0) by (intros p; rewrite <- Cd; apply contains_d).
  destruct (Nat.eq_dec (length vs) 1) as [L|L].
  - destruct vs as [|v [|v' l]]; try discriminate. rewrite (S1 v eq_refl). split.
    + intros x Hx. destruct (hp_contains h v) eqn:V; [|destruct Hx]. destruct Hx as [<-|[]]. split; [apply Cd, V|]. split; [|left; left; reflexivity].
      exists 0%nat. split; [cbn; lia|]. exists 0. split; [lra|]. unfold corner, mix; cbn. destruct v; cbn. f_equal; ring.
    + intros u [<-|[]] Hu. apply Cd in Hu. rewrite Hu. left. reflexivity.
  - rewrite (G L). split.
    + intros x Hx. apply in_flat_map in Hx. destruct Hx as ([a b] & He & Hx). rewrite edges_corner in He. apply in_map_iff in He.
      destruct He as (i & E & Hi). apply in_seq in Hi. injection E. intros Eb Ea.
      assert (Iv : In a vs). { rewrite <- Ea. unfold corner. apply nth_In, Nat.mod_upper_bound. lia. }
      assert (Ba : between a b a) by (exists 0; split; [lra|unfold mix; destruct a; cbn; f_equal; ring]).
      assert (Bc : signed_dist h a <= 0 < signed_dist h b \/ signed_dist h b <= 0 < signed_dist h a -> between a b (cut h a b)).
      { intros Hc. exists (signed_dist h a / (signed_dist h a - signed_dist h b)). split; [|reflexivity].
        set (u := signed_dist h a) in *. set (z := signed_dist h b) in *. destruct Hc.
        - replace (u / (u - z)) with ((- u) * / (z - u)) by (field; lra). assert (0 < / (z - u)) by (apply Rinv_0_lt_compat; lra).
          split; [apply Rmult_le_pos; lra|]. apply Rmult_le_reg_r with (z - u); [lra|]. rewrite Rmult_assoc, Rinv_l by lra. lra.
        - unfold Rdiv. assert (0 < / (u - z)) by (apply Rinv_0_lt_compat; lra).
          split; [apply Rmult_le_pos; lra|]. apply Rmult_le_reg_r with (u - z); [lra|]. rewrite Rmult_assoc, Rinv_l by lra. lra. }
      assert (Cc : signed_dist h a <> signed_dist h b -> on_side x0 n (cut h a b) /\ on_border x0 n (cut h a b)).
      { intros N. pose proof (cut_border h a b N) as Z. split; [apply Sd; lra|]. exact Z. }
      assert (K : on_side x0 n x /\ between a b x /\ (In x vs \/ on_border x0 n x)).
      { cbn [emit] in Hx. destruct (hp_contains h a) eqn:A, (hp_contains h b) eqn:B.
        - destruct Hx as [<-|[]]. split; [apply Cd, A|]. split; [exact Ba|left; exact Iv].
        - destruct Hx as [<-|[<-|[]]]; [split; [apply Cd, A|]; split; [exact Ba|left; exact Iv]|].
          apply contains_d in A. apply contains_not_d in B. destruct Cc as [C1 C2]; [lra|]. split; [exact C1|]. split; [apply Bc; lra|right; exact C2].
        - destruct Hx as [<-|[]]. apply contains_not_d in A. apply contains_d in B. destruct Cc as [C1 C2]; [lra|]. split; [exact C1|]. split; [apply Bc; lra|right; exact C2].
        - destruct Hx. }
      destruct K as (K1 & K2 & K3). split; [exact K1|]. split; [|exact K3]. exists i. split; [lia|]. rewrite Ea, Eb. exact K2.
    + intros v Hv Hs. apply in_flat_map. destruct (In_nth vs v (0, 0) Hv) as (i & Hi & Ei).
      exists (corner vs i, corner vs (i + 1)). split; [rewrite edges_corner; apply in_map_iff; exists i; split; [reflexivity|apply in_seq; lia]|].
      assert (corner vs i = v) as -> by (unfold corner; rewrite Nat.mod_small by exact Hi; exact Ei).
      cbn [emit]. apply Cd in Hs. rewrite Hs. destruct (hp_contains h (corner vs (i + 1))); left; reflexivity.
Qed.
Print Assumptions C44_vertices.

Example C44_example : exists ws, clip [(0, 0); (2, 0); (2, 2); (0, 2)] (HalfPlane (1, 0) (1, 0)) = Some ws /\ ws = [(0, 0); (1, 0); (1, 2); (0, 2)].
Proof.
  set (h := HalfPlane (1, 0) (1, 0)). assert (Hn : hp_normal h <> (0, 0)) by (cbn; intros [= E]; lra).
  destruct (clip_list [(0, 0); (2, 0); (2, 2); (0, 2)] h Hn) as (ws & C & G & _). exists ws. split; [exact C|]. rewrite G by (cbn; lia).
  assert (T : forall y, hp_contains h (0, y) = true) by (intros y; apply contains_iff; unfold on_side; cbn; lra).
  assert (F : forall y, hp_contains h (2, y) = false) by (intros y; apply contains_false; unfold on_side; cbn; lra).
  unfold edges. cbn [app windows flat_map emit]. rewrite !T, !F. cbn [app]. unfold cut, signed_dist, mix, vdot, vsub; cbn.
  repeat f_equal; lra.
Qed.

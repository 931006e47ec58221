(** C73 for tetrahedra and parallelepipeds: containment, signed distance and distance. *)
From Coq Require Import Reals List Bool Arith Lia Lra Psatz.
From Verif Require Import CgModel GeomModel GeomSpec CgProofs PropSeg PropPolygon PropPoly3 PropDist SolidModel SolidSpec PropVolume PropSolidClip PropSolidDist.
Import ListNotations.
Open Scope R_scope.
Local Notation pt := (nat -> R).

Definition crs (a b : pt) : pt := fun k => match k with
  | 0%nat => a 1%nat * b 2%nat - a 2%nat * b 1%nat | 1%nat => a 2%nat * b 0%nat - a 0%nat * b 2%nat | _ => a 0%nat * b 1%nat - a 1%nat * b 0%nat end.
Definition unit_of (w : pt) : pt := fun k => w k / sqrt (ip w w).
Lemma ip_nonneg w : 0 <= ip w w.
Proof. unfold ip. nra. Qed.
Lemma unit_of_ip w x : ip (unit_of w) x = ip w x / sqrt (ip w w).
Proof. unfold ip at 1 2, unit_of, Rdiv. unfold ip. ring. Qed.
Lemma unit_of_det w x y : det (unit_of w) x y = det w x y / sqrt (ip w w).
Proof. unfold det, unit_of, Rdiv. ring. Qed.
Lemma unit_of_unit w : 0 < ip w w -> ip (unit_of w) (unit_of w) = 1.
Proof.
  intros H. rewrite unit_of_ip. assert (E : ip w (unit_of w) = ip w w / sqrt (ip w w)) by (unfold ip at 1 2, unit_of, Rdiv; unfold ip; ring). rewrite E. pose proof (sqrt_lt_R0 _ H). pose proof (sqrt_sqrt _ (Rlt_le _ _ H)) as S. rewrite <- S at 1. field. lra.
Qed.
Lemma det_crs a b x : det a b x = ip (crs a b) x.
Proof. unfold det, ip, crs. ring. Qed.
Lemma det_normal w x y : det w x y = ip w (crs x y).
Proof. unfold det, ip, crs. ring. Qed.
Lemma div_pos x y : 0 < y -> (0 <= x / y <-> 0 <= x).
Proof. intros H. split; intros L; [replace x with (x / y * y) by (field; lra); nra|apply Rmult_le_pos; [exact L|left; apply Rinv_0_lt_compat, H]]. Qed.
Lemma div_zero x y : 0 < y -> (x / y = 0 <-> x = 0).
Proof. intros H. split; intros L; [replace x with (x / y * y) by (field; lra); rewrite L; ring|rewrite L; unfold Rdiv; ring]. Qed.

(** ** triangles *)
Section Triangle.
  Variables a b c : pt.
  Let w := crs (minus b a) (minus c a).
  Hypothesis W : 0 < ip w w.
  Let n := unit_of w.
  Local Lemma root_pos : 0 < sqrt (ip w w).
  Proof. apply sqrt_lt_R0, W. Qed.
  Lemma tri_plane x : ip n (minus x (vertex [a; b; c] 0)) = 0 <-> det (minus b a) (minus c a) (minus x a) = 0.
  Proof. change (vertex [a; b; c] 0) with a. unfold n. rewrite unit_of_ip, div_zero by exact root_pos. rewrite det_crs. reflexivity. Qed.
  Lemma tri_side i x : 0 <= left3 n [a; b; c] i x <-> 0 <= det w (minus (vertex [a; b; c] (i + 1)) (vertex [a; b; c] i)) (minus x (vertex [a; b; c] i)).
  Proof. unfold left3, n. rewrite unit_of_det, div_pos by exact root_pos. reflexivity. Qed.
  Lemma triangle_convex : convex_face n [a; b; c].
  Proof.
    split; [cbn; lia|]. split; [apply unit_of_unit, W|]. split.
    - intros i. apply tri_plane. unfold vertex. cbn [length]. pose proof (Nat.mod_upper_bound i 3 ltac:(lia)) as B. destruct (i mod 3)%nat as [|[|[|k]]]; [| | |lia]; cbn; unfold det, minus; ring.
    - intros i j Hi Hj N1 N2. unfold left3, n. rewrite unit_of_det. apply Rdiv_lt_0_compat; [|exact root_pos].
      replace (det w _ _) with (ip w w); [exact W|]. cbn in Hi, Hj.
      destruct i as [|[|[|i]]]; [| | |lia]; destruct j as [|[|[|j]]]; try lia; try (exfalso; cbn in N1, N2; lia); unfold vertex; cbn; unfold w, ip, crs, det, minus; ring.
  Qed.
  Lemma triangle_points x : in_face n [a; b; c] x <-> in_triangle a b c x.
  Proof.
    split.
    - intros [P S]. apply tri_plane in P. pose proof (proj1 (tri_side 0 x) (S 0%nat ltac:(cbn; lia))) as S0. pose proof (proj1 (tri_side 1 x) (S 1%nat ltac:(cbn; lia))) as S1. pose proof (proj1 (tri_side 2 x) (S 2%nat ltac:(cbn; lia))) as S2.
      unfold vertex in *. cbn in S0, S1, S2.
      exists (det w (minus c b) (minus x b) / ip w w), (det w (minus a c) (minus x c) / ip w w), (det w (minus b a) (minus x a) / ip w w).
      split; [apply div_pos; assumption|]. split; [apply div_pos; assumption|]. split; [apply div_pos; assumption|].
      assert (Sum : det w (minus c b) (minus x b) + det w (minus a c) (minus x c) + det w (minus b a) (minus x a) = ip w w) by (unfold w, ip, crs, det, minus; ring).
      split; [rewrite <- Sum; field; rewrite Sum; lra|]. intros k Hk.
      assert (Id : forall k, (k < 3)%nat -> ip w w * x k = det w (minus c b) (minus x b) * a k + det w (minus a c) (minus x c) * b k + det w (minus b a) (minus x a) * c k + det (minus b a) (minus c a) (minus x a) * w k).
      { intros [|[|[|k']]] Hk'; [| | |lia]; unfold w, ip, crs, det, minus; ring. }
      specialize (Id k Hk). rewrite P in Id. apply Rmult_eq_reg_l with (ip w w); [|lra]. rewrite Id. field. lra.
    - intros (r & s & t & Hr & Hs & Ht & Sum & E). pose proof (E 0%nat ltac:(lia)) as E0. pose proof (E 1%nat ltac:(lia)) as E1. pose proof (E 2%nat ltac:(lia)) as E2. cbv beta in *.
      assert (R1 : r = 1 - s - t) by lra. split.
      + apply tri_plane. unfold det, minus. rewrite E0, E1, E2, R1. ring.
      + intros i Hi. apply tri_side. cbn in Hi. pose proof (ip_nonneg w).
        destruct i as [|[|[|i]]]; [| | |lia]; unfold vertex; cbn.
        * replace (det _ _ _) with (t * ip w w) by (unfold w, ip, crs, det, minus; rewrite E0, E1, E2, R1; ring). nra.
        * replace (det _ _ _) with (r * ip w w) by (unfold w, ip, crs, det, minus; rewrite E0, E1, E2, R1; ring). nra.
        * replace (det _ _ _) with (s * ip w w) by (unfold w, ip, crs, det, minus; rewrite E0, E1, E2, R1; ring). nra.
  Qed.
End Triangle.

(** ** tetrahedra *)
Definition tri_normal (a b c : pt) : pt := unit_of (crs (minus b a) (minus c a)).
Definition vol6 (a b c d : pt) : R := det (minus b a) (minus c a) (minus d a).
Lemma tri_area a b c d : vol6 a b c d <> 0 -> 0 < ip (crs (minus b a) (minus c a)) (crs (minus b a) (minus c a)).
Proof.
  intros H. destruct (ip_nonneg (crs (minus b a) (minus c a))) as [L|L]; [exact L|]. exfalso. apply H. unfold vol6. rewrite det_crs. set (w := crs _ _) in *. clearbody w. unfold ip.
  assert (w 0%nat = 0 /\ w 1%nat = 0 /\ w 2%nat = 0) as (-> & -> & ->) by (unfold ip in L; repeat split; nra). ring.
Qed.
Lemma tri_height a b c x : 0 < ip (crs (minus b a) (minus c a)) (crs (minus b a) (minus c a)) -> 0 <= ip (tri_normal a b c) (minus x a) <-> 0 <= vol6 a b c x.
Proof. intros W. unfold tri_normal. rewrite unit_of_ip, div_pos by (apply sqrt_lt_R0, W). unfold vol6. rewrite det_crs. reflexivity. Qed.
Lemma tri_height0 a b c x : 0 < ip (crs (minus b a) (minus c a)) (crs (minus b a) (minus c a)) -> ip (tri_normal a b c) (minus x a) = 0 <-> vol6 a b c x = 0.
Proof. intros W. unfold tri_normal. rewrite unit_of_ip, div_zero by (apply sqrt_lt_R0, W). unfold vol6. rewrite det_crs. reflexivity. Qed.
Lemma vol6_agree a b c x y : agree x y -> vol6 a b c x = vol6 a b c y.
Proof. intros E. unfold vol6, det, minus. rewrite (E 0%nat), (E 1%nat), (E 2%nat) by lia. reflexivity. Qed.

Section Tetrahedron.
  Variable v : nat -> pt.
  Hypothesis D : 0 < vol6 (v 0%nat) (v 1%nat) (v 2%nat) (v 3%nat).
  Definition tetrahedron_with_normals : list (pt * list pt) :=
    [(tri_normal (v 0%nat) (v 1%nat) (v 2%nat), [v 0%nat; v 1%nat; v 2%nat]); (tri_normal (v 0%nat) (v 3%nat) (v 1%nat), [v 0%nat; v 3%nat; v 1%nat]);
     (tri_normal (v 1%nat) (v 3%nat) (v 2%nat), [v 1%nat; v 3%nat; v 2%nat]); (tri_normal (v 0%nat) (v 2%nat) (v 3%nat), [v 0%nat; v 2%nat; v 3%nat])].
  Lemma tetrahedron_map : map snd tetrahedron_with_normals = tetrahedron_faces v.
  Proof. reflexivity. Qed.
  Let a := v 0%nat. Let b := v 1%nat. Let c := v 2%nat. Let d := v 3%nat.
  Lemma vols : vol6 a d b c = vol6 a b c d /\ vol6 b d c a = vol6 a b c d /\ vol6 a c d b = vol6 a b c d.
  Proof. unfold vol6, det, minus. repeat split; ring. Qed.
  Lemma tetrahedron_volumes x : in_tetrahedron v x <-> 0 <= vol6 a b c x /\ 0 <= vol6 a d b x /\ 0 <= vol6 b d c x /\ 0 <= vol6 a c d x.
  Proof.
    fold a b c d in D. split.
    - intros (q & r & s & t & Hq & Hr & Hs & Ht & Sum & E). fold a b c d in E. rewrite !(vol6_agree _ _ _ _ _ E). assert (Q : q = 1 - r - s - t) by lra.
      replace (vol6 a b c _) with (t * vol6 a b c d) by (rewrite Q; unfold vol6, det, minus; ring). replace (vol6 a d b _) with (s * vol6 a b c d) by (rewrite Q; unfold vol6, det, minus; ring).
      replace (vol6 b d c _) with (q * vol6 a b c d) by (rewrite Q; unfold vol6, det, minus; ring). replace (vol6 a c d _) with (r * vol6 a b c d) by (rewrite Q; unfold vol6, det, minus; ring). repeat split; nra.
    - intros (H1 & H2 & H3 & H4). exists (vol6 b d c x / vol6 a b c d), (vol6 a c d x / vol6 a b c d), (vol6 a d b x / vol6 a b c d), (vol6 a b c x / vol6 a b c d).
      do 4 (split; [apply div_pos; assumption|]). fold a b c d. split.
      + assert (S : vol6 b d c x + vol6 a c d x + vol6 a d b x + vol6 a b c x = vol6 a b c d) by (unfold vol6, det, minus; ring). rewrite <- S. field. rewrite S. lra.
      + intros k Hk. apply Rmult_eq_reg_l with (vol6 a b c d); [|lra].
        transitivity (vol6 b d c x * a k + vol6 a c d x * b k + vol6 a d b x * c k + vol6 a b c x * d k); [|field; lra].
        destruct k as [|[|[|k]]]; [| | |lia]; unfold vol6, det, minus; ring.
  Qed.
  Local Lemma areas : 0 < ip (crs (minus b a) (minus c a)) (crs (minus b a) (minus c a)) /\ 0 < ip (crs (minus d a) (minus b a)) (crs (minus d a) (minus b a)) /\
    0 < ip (crs (minus d b) (minus c b)) (crs (minus d b) (minus c b)) /\ 0 < ip (crs (minus c a) (minus d a)) (crs (minus c a) (minus d a)).
  Proof.
    destruct vols as (V1 & V2 & V3). fold a b c d in D.
    split; [apply (tri_area a b c d); lra|]. split; [apply (tri_area a d b c); lra|]. split; [apply (tri_area b d c a); lra|apply (tri_area a c d b); lra].
  Qed.
  Lemma tetrahedron_body x : in_body tetrahedron_with_normals x <-> in_tetrahedron v x.
  Proof.
    rewrite tetrahedron_volumes. destruct areas as (A1 & A2 & A3 & A4). rewrite <- (tri_height a b c x A1), <- (tri_height a d b x A2), <- (tri_height b d c x A3), <- (tri_height a c d x A4). split.
    - intros B. split; [exact (B _ _ (or_introl eq_refl))|]. split; [exact (B _ _ (or_intror (or_introl eq_refl)))|]. split; [exact (B _ _ (or_intror (or_intror (or_introl eq_refl))))|exact (B _ _ (or_intror (or_intror (or_intror (or_introl eq_refl)))))].
    - intros (H1 & H2 & H3 & H4) n vs I. destruct I as [[= <- <-]|[[= <- <-]|[[= <- <-]|[[= <- <-]|[]]]]]; assumption.
  Qed.
  (** the points of the tetrahedron in the plane of a face are the points of the face *)
  Lemma face_of_volumes p0 p1 p2 p3 x : 0 < vol6 p0 p1 p2 p3 ->
    in_triangle p0 p1 p2 x <-> (0 <= vol6 p0 p1 p2 x /\ 0 <= vol6 p0 p3 p1 x /\ 0 <= vol6 p1 p3 p2 x /\ 0 <= vol6 p0 p2 p3 x) /\ vol6 p0 p1 p2 x = 0.
  Proof.
    intros P. split.
    - intros (r & s & t & Hr & Hs & Ht & Sum & E). rewrite !(vol6_agree _ _ _ _ _ E). assert (R1 : r = 1 - s - t) by lra.
      replace (vol6 p0 p1 p2 _) with 0 by (rewrite R1; unfold vol6, det, minus; ring). replace (vol6 p0 p3 p1 _) with (t * vol6 p0 p1 p2 p3) by (rewrite R1; unfold vol6, det, minus; ring).
      replace (vol6 p1 p3 p2 _) with (r * vol6 p0 p1 p2 p3) by (rewrite R1; unfold vol6, det, minus; ring). replace (vol6 p0 p2 p3 _) with (s * vol6 p0 p1 p2 p3) by (rewrite R1; unfold vol6, det, minus; ring).
      repeat split; nra.
    - intros ((_ & H2 & H3 & H4) & Z). exists (vol6 p1 p3 p2 x / vol6 p0 p1 p2 p3), (vol6 p0 p2 p3 x / vol6 p0 p1 p2 p3), (vol6 p0 p3 p1 x / vol6 p0 p1 p2 p3).
      do 3 (split; [apply div_pos; assumption|]). split.
      + assert (S : vol6 p1 p3 p2 x + vol6 p0 p2 p3 x + vol6 p0 p3 p1 x + vol6 p0 p1 p2 x = vol6 p0 p1 p2 p3) by (unfold vol6, det, minus; ring). rewrite Z in S. rewrite <- S. field. lra.
      + intros k Hk. apply Rmult_eq_reg_l with (vol6 p0 p1 p2 p3); [|lra].
        transitivity (vol6 p1 p3 p2 x * p0 k + vol6 p0 p2 p3 x * p1 k + vol6 p0 p3 p1 x * p2 k); [|field; lra].
        assert (Id : vol6 p0 p1 p2 p3 * x k = vol6 p1 p3 p2 x * p0 k + vol6 p0 p2 p3 x * p1 k + vol6 p0 p3 p1 x * p2 k + vol6 p0 p1 p2 x * p3 k); [|rewrite Z in Id; lra].
        destruct k as [|[|[|k]]]; [| | |lia]; unfold vol6, det, minus; ring.
  Qed.
  Lemma tetrahedron_convex : convex_body tetrahedron_with_normals.
  Proof.
    destruct areas as (A1 & A2 & A3 & A4). destruct vols as (V1 & V2 & V3). fold a b c d in D. intros n vs I. unfold tetrahedron_with_normals in I. fold a b c d in I.
    destruct I as [[= <- <-]|[[= <- <-]|[[= <- <-]|[[= <- <-]|[]]]]]; (split; [apply triangle_convex; assumption|]); intros x; unfold tri_normal at 1; rewrite triangle_points by assumption; rewrite tetrahedron_body, tetrahedron_volumes, vertex_0, tri_height0 by assumption.
    - rewrite (face_of_volumes a b c d x) by lra. reflexivity.
    - rewrite (face_of_volumes a d b c x) by lra. replace (vol6 d c b x) with (vol6 b d c x) by (unfold vol6, det, minus; ring). tauto.
    - rewrite (face_of_volumes b d c a x) by lra. replace (vol6 b a d x) with (vol6 a d b x) by (unfold vol6, det, minus; ring). replace (vol6 d a c x) with (vol6 a c d x) by (unfold vol6, det, minus; ring). replace (vol6 b c a x) with (vol6 a b c x) by (unfold vol6, det, minus; ring). tauto.
    - rewrite (face_of_volumes a c d b x) by lra. replace (vol6 c b d x) with (vol6 b d c x) by (unfold vol6, det, minus; ring). tauto.
  Qed.
End Tetrahedron.

(** C73 for tetrahedra, whatever their position: containment and signed distance. *)
Theorem C73_tetrahedron (v : nat -> pt) (p : pt) : 0 < det (minus (v 1%nat) (v 0%nat)) (minus (v 2%nat) (v 0%nat)) (minus (v 3%nat) (v 0%nat)) ->
  (exists b, polyhedron_contains (tetrahedron_faces v) p = Some b /\ (b = true <-> in_tetrahedron v p)) /\
  exists i q sd a b c, polyhedron_sd (tetrahedron_faces v) p = Some (i, q, sd) /\ nth_error (tetrahedron_faces v) i = Some [a; b; c] /\ in_triangle a b c q /\ Rabs sd = dst p q /\
    (in_tetrahedron v p -> sd <= 0 /\ forall x, ~ in_tetrahedron v x -> - sd <= dst p x) /\
    (~ in_tetrahedron v p -> 0 < sd /\ in_tetrahedron v q /\ forall x, in_tetrahedron v x -> sd <= dst p x).
Proof.
  intros D. pose proof (tetrahedron_convex v D) as CB. rewrite <- tetrahedron_map. split.
  - destruct (C73_contains _ p (fun n vs I => proj1 (CB n vs I))) as (b & E & H). exists b. split; [exact E|]. rewrite H. apply tetrahedron_body, D.
  - destruct (C73_signed_distance _ p CB) as (i & q & sd & n & vs & E & Ei & Iq & Ed & Hin & Hout); [cbn; lia|].
    assert (T : exists a b c, vs = [a; b; c] /\ in_triangle a b c q).
    { pose proof (areas v D) as (A1 & A2 & A3 & A4). pose proof (nth_error_In _ _ Ei) as I.
      destruct I as [[= <- <-]|[[= <- <-]|[[= <- <-]|[[= <- <-]|[]]]]]; eexists _, _, _; (split; [reflexivity|]); apply triangle_points; assumption. }
    destruct T as (a & b & c & -> & T). exists i, q, sd, a, b, c. split; [exact E|]. split; [rewrite nth_error_map, Ei; reflexivity|]. split; [exact T|]. split; [exact Ed|]. split.
    + intros B. apply tetrahedron_body in B; [|exact D]. destruct (Hin B) as [S H]. split; [exact S|]. intros x Nx. apply H.
      destruct (Exists_dec (fun nv : pt * list pt => ip (fst nv) (minus x (vertex (snd nv) 0)) <= 0) (tetrahedron_with_normals v) (fun nv => Rle_dec _ _)) as [X|X].
      * apply Exists_exists in X as ([n' vs'] & I & L). exists n', vs'. auto.
      * exfalso. apply Nx, tetrahedron_body; [exact D|]. intros n' vs' I. destruct (Rle_lt_dec (ip n' (minus x (vertex vs' 0))) 0) as [L|L]; [|lra]. exfalso. apply X, Exists_exists. exists (n', vs'). auto.
    + intros B. destruct Hout as [S H]; [intros X; apply B, tetrahedron_body; assumption|]. split; [exact S|]. split.
      * apply tetrahedron_body; [exact D|]. apply (proj2 (CB n _ (nth_error_In _ _ Ei)) q), Iq.
      * intros x Hx. apply H, tetrahedron_body; assumption.
Qed.
Print Assumptions C73_tetrahedron.

Lemma orientation_ok a b c p : 0 < ip (crs (minus b a) (minus c a)) (crs (minus b a) (minus c a)) ->
  (if Rlt_dec 0 (point_orientation a b c p) then true else false) = true <-> 0 < vol6 a b c p.
Proof.
  intros W. assert (E : forall y, dot 3 (tri_normal_dir a b c) y = ip (crs (minus b a) (minus c a)) y) by (intros y; rewrite dot_ip; unfold tri_normal_dir, cross, ip, crs, minus, sub3, cross_comp; cbn; ring).
  unfold point_orientation. rewrite dot_ip. assert (Np : 0 < norm 3 (tri_normal_dir a b c)).
  { unfold norm. apply sqrt_lt_R0. rewrite dot_ip. unfold tri_normal_dir. replace (ip _ _) with (ip (crs (minus b a) (minus c a)) (crs (minus b a) (minus c a))) by (unfold cross, ip, crs, minus, sub3, cross_comp; cbn; ring). exact W. }
  rewrite normalize_ip by exact Np. rewrite <- dot_ip, E. unfold vol6. rewrite det_crs. replace (ip _ (sub3 p a)) with (ip (crs (minus b a) (minus c a)) (minus p a)) by reflexivity.
  set (h := ip _ (minus p a)). destruct (Rlt_dec 0 (h / norm 3 (tri_normal_dir a b c))) as [L|L]; split; intros X; try discriminate; try reflexivity.
  - replace h with (h / norm 3 (tri_normal_dir a b c) * norm 3 (tri_normal_dir a b c)) by (field; lra). apply Rmult_lt_0_compat; assumption.
  - exfalso. apply L. apply Rdiv_lt_0_compat; assumption.
Qed.
Lemma in_triangle_rev a b c x : in_triangle a b c x <-> in_triangle c b a x.
Proof. split; intros (r & s & t & Hr & Hs & Ht & Sum & E); exists t, s, r; repeat split; try assumption; try lra; intros k Hk; rewrite (E k Hk); ring. Qed.

Lemma outside_face (faces : list (pt * list pt)) p : ~ in_body faces p -> exists n vs, In (n, vs) faces /\ ip n (minus p (vertex vs 0)) < 0.
Proof.
  intros B. destruct (Exists_dec (fun nv : pt * list pt => ip (fst nv) (minus p (vertex (snd nv) 0)) < 0) faces (fun nv => Rlt_dec _ _)) as [X|X].
  - apply Exists_exists in X as ([n' vs'] & I & L). exists n', vs'. auto.
  - exfalso. apply B. intros n' vs' I. destruct (Rle_lt_dec 0 (ip n' (minus p (vertex vs' 0)))) as [L|L]; [exact L|]. exfalso. apply X, Exists_exists. exists (n', vs'). auto.
Qed.
(** from outside, every point of the body is behind a face *)
Lemma behind_face (faces : list (pt * list pt)) p x : convex_body faces -> ~ in_body faces p -> in_body faces x -> exists n vs y, In (n, vs) faces /\ in_face n vs y /\ dst p y <= dst p x.
Proof.
  intros CB B Bx. destruct (leave_body faces x p CB Bx) as (n' & vs' & s & I & Hs & Hf); [destruct (outside_face faces p B) as (n' & vs' & I & L); exists n', vs'; split; [exact I|lra]|].
  exists n', vs', (mixd x p s). split; [exact I|]. split; [exact Hf|]. apply dst_le.
  assert (Q : d2 p (mixd x p s) = (1 - s) * (1 - s) * d2 p x) by (unfold d2, ip, minus, mixd; ring). rewrite Q. pose proof (d2_nonneg p x). assert ((1 - s) * (1 - s) <= 1) by nra. nra.
Qed.
Lemma triangle_closest p0 p1 p2 p3 p : vol6 p0 p1 p2 p3 <> 0 ->
  exists q d, face_closest (@cons vec p0 (@cons vec p1 (@cons vec p2 (@nil vec)))) p = Some (q, d) /\ in_triangle p0 p1 p2 q /\ d = dst p q /\ forall x, in_triangle p0 p1 p2 x -> d <= dst p x.
Proof.
  intros V. pose proof (tri_area _ _ _ _ V) as W. destruct (C73_face _ _ (triangle_convex p0 p1 p2 W) p) as (q & d & E & I & Ed & M). exists q, d. split; [exact E|].
  split; [apply triangle_points; assumption|]. split; [exact Ed|]. intros x Hx. apply M, triangle_points; assumption.
Qed.

(** C73: [Tetrahedron::distance] is the distance to the tetrahedron: zero at its points, attained by one of them, and no point of it is closer. *)
Theorem C73_tetrahedron_distance (v : nat -> pt) (p : pt) : 0 < det (minus (v 1%nat) (v 0%nat)) (minus (v 2%nat) (v 0%nat)) (minus (v 3%nat) (v 0%nat)) ->
  exists d, tetrahedron_distance v p = Some d /\ (exists q, in_tetrahedron v q /\ d = dst p q) /\ forall x, in_tetrahedron v x -> d <= dst p x.
Proof.
  intros D. change (0 < vol6 (v 0%nat) (v 1%nat) (v 2%nat) (v 3%nat)) in D. pose proof (tetrahedron_convex v D) as CB. pose proof (areas v D) as (A1 & A2 & A3 & A4). pose proof (tetrahedron_volumes v D p) as TV.
  assert (V1 : vol6 (v 2%nat) (v 1%nat) (v 0%nat) (v 3%nat) <> 0) by (replace (vol6 _ _ _ _) with (- vol6 (v 0%nat) (v 1%nat) (v 2%nat) (v 3%nat)) by (unfold vol6, det, minus; ring); lra).
  assert (V2 : vol6 (v 1%nat) (v 2%nat) (v 3%nat) (v 0%nat) <> 0) by (replace (vol6 _ _ _ _) with (- vol6 (v 0%nat) (v 1%nat) (v 2%nat) (v 3%nat)) by (unfold vol6, det, minus; ring); lra).
  assert (V3 : vol6 (v 0%nat) (v 1%nat) (v 3%nat) (v 2%nat) <> 0) by (replace (vol6 _ _ _ _) with (- vol6 (v 0%nat) (v 1%nat) (v 2%nat) (v 3%nat)) by (unfold vol6, det, minus; ring); lra).
  assert (V4 : vol6 (v 2%nat) (v 0%nat) (v 3%nat) (v 1%nat) <> 0) by (replace (vol6 _ _ _ _) with (- vol6 (v 0%nat) (v 1%nat) (v 2%nat) (v 3%nat)) by (unfold vol6, det, minus; ring); lra).
  destruct (triangle_closest _ _ _ _ p V1) as (q1 & d1 & C1 & I1 & E1 & M1). destruct (triangle_closest _ _ _ _ p V2) as (q2 & d2 & C2 & I2 & E2 & M2).
  destruct (triangle_closest _ _ _ _ p V3) as (q3 & d3 & C3 & I3 & E3 & M3). destruct (triangle_closest _ _ _ _ p V4) as (q4 & d4 & C4 & I4 & E4 & M4).
  pose proof (orientation_ok _ _ _ p (tri_area _ _ _ _ V1)) as O1. pose proof (orientation_ok _ _ _ p (tri_area _ _ _ _ V2)) as O2. pose proof (orientation_ok _ _ _ p (tri_area _ _ _ _ V3)) as O3. pose proof (orientation_ok _ _ _ p (tri_area _ _ _ _ V4)) as O4.
  unfold tetrahedron_distance. cbn [fold_left]. rewrite C1, C2, C3, C4. clear C1 C2 C3 C4.
  set (o1 := if Rlt_dec 0 (point_orientation (v 2%nat) (v 1%nat) (v 0%nat) p) then true else false) in *. set (o2 := if Rlt_dec 0 (point_orientation (v 1%nat) (v 2%nat) (v 3%nat) p) then true else false) in *.
  set (o3 := if Rlt_dec 0 (point_orientation (v 0%nat) (v 1%nat) (v 3%nat) p) then true else false) in *. set (o4 := if Rlt_dec 0 (point_orientation (v 2%nat) (v 0%nat) (v 3%nat) p) then true else false) in *. clearbody o1 o2 o3 o4.
  replace (vol6 (v 2%nat) (v 1%nat) (v 0%nat) p) with (- vol6 (v 0%nat) (v 1%nat) (v 2%nat) p) in O1 by (unfold vol6, det, minus; ring).
  replace (vol6 (v 1%nat) (v 2%nat) (v 3%nat) p) with (- vol6 (v 1%nat) (v 3%nat) (v 2%nat) p) in O2 by (unfold vol6, det, minus; ring).
  replace (vol6 (v 0%nat) (v 1%nat) (v 3%nat) p) with (- vol6 (v 0%nat) (v 3%nat) (v 1%nat) p) in O3 by (unfold vol6, det, minus; ring).
  replace (vol6 (v 2%nat) (v 0%nat) (v 3%nat) p) with (- vol6 (v 0%nat) (v 2%nat) (v 3%nat) p) in O4 by (unfold vol6, det, minus; ring).
  assert (In1 : forall x, in_triangle (v 2%nat) (v 1%nat) (v 0%nat) x -> in_tetrahedron v x) by (intros x (r & s & t & Hr & Hs & Ht & Sum & E); exists t, s, r, 0; repeat split; try lra; intros k Hk; rewrite (E k Hk); ring).
  assert (In2 : forall x, in_triangle (v 1%nat) (v 2%nat) (v 3%nat) x -> in_tetrahedron v x) by (intros x (r & s & t & Hr & Hs & Ht & Sum & E); exists 0, r, s, t; repeat split; try lra; intros k Hk; rewrite (E k Hk); ring).
  assert (In3 : forall x, in_triangle (v 0%nat) (v 1%nat) (v 3%nat) x -> in_tetrahedron v x) by (intros x (r & s & t & Hr & Hs & Ht & Sum & E); exists r, s, 0, t; repeat split; try lra; intros k Hk; rewrite (E k Hk); ring).
  assert (In4 : forall x, in_triangle (v 2%nat) (v 0%nat) (v 3%nat) x -> in_tetrahedron v x) by (intros x (r & s & t & Hr & Hs & Ht & Sum & E); exists s, 0, r, t; repeat split; try lra; intros k Hk; rewrite (E k Hk); ring).
  eexists. split; [reflexivity|]. cbn [andb]. destruct (negb o1 && negb o2 && negb o3 && negb o4) eqn:In.
  - assert (T : in_tetrahedron v p).
    { apply TV. rewrite !andb_true_iff, !negb_true_iff in In. destruct In as (((-> & ->) & ->) & ->).
      assert (Neg : forall z, (false = true <-> 0 < - z) -> 0 <= z) by (intros z [_ H]; destruct (Rle_lt_dec 0 z) as [L|L]; [exact L|discriminate H; lra]). repeat split; apply Neg; assumption. }
    split; [exists p; split; [exact T|]; symmetry; unfold dst; replace (SolidSpec.d2 p p) with 0 by (unfold SolidSpec.d2, ip, minus; ring); apply sqrt_0|intros x _; apply sqrt_pos].
  - assert (T : ~ in_tetrahedron v p).
    { intros T. apply TV in T as (H1 & H2 & H3 & H4). assert (Pos : forall o z, (o = true <-> 0 < - z) -> 0 <= z -> o = false) by (intros [] z H L; [exfalso; assert (0 < - z) by (apply H; reflexivity); lra|reflexivity]).
      rewrite (Pos _ _ O1 H1), (Pos _ _ O2 H3), (Pos _ _ O3 H2), (Pos _ _ O4 H4) in In. discriminate. }
    split.
    + apply (Rmin_case (Rmin (Rmin d1 d2) d3) d4 (fun d => exists q, in_tetrahedron v q /\ d = dst p q)); [|exists q4; auto]. apply (Rmin_case (Rmin d1 d2) d3 (fun d => exists q, in_tetrahedron v q /\ d = dst p q)); [|exists q3; auto].
      apply (Rmin_case d1 d2 (fun d => exists q, in_tetrahedron v q /\ d = dst p q)); [exists q1|exists q2]; auto.
    + intros x Hx. destruct (behind_face _ p x CB) as (n & vs & y & I & Iy & L); [intros B; apply T, tetrahedron_body; assumption|apply tetrahedron_body; assumption|].
      apply Rle_trans with (dst p y); [|exact L]. pose proof (Rmin_l (Rmin (Rmin d1 d2) d3) d4). pose proof (Rmin_r (Rmin (Rmin d1 d2) d3) d4). pose proof (Rmin_l (Rmin d1 d2) d3). pose proof (Rmin_r (Rmin d1 d2) d3). pose proof (Rmin_l d1 d2). pose proof (Rmin_r d1 d2).
      destruct I as [[= <- <-]|[[= <- <-]|[[= <- <-]|[[= <- <-]|[]]]]]; apply triangle_points in Iy; try assumption; destruct Iy as (r & s & t & Hr & Hs & Ht & Sum & E).
      * assert (d1 <= dst p y); [|lra]. apply M1. exists t, s, r. repeat split; try lra. intros k Hk. rewrite (E k Hk). ring.
      * assert (d3 <= dst p y); [|lra]. apply M3. exists r, t, s. repeat split; try lra. intros k Hk. rewrite (E k Hk). ring.
      * assert (d2 <= dst p y); [|lra]. apply M2. exists r, t, s. repeat split; try lra. intros k Hk. rewrite (E k Hk). ring.
      * assert (d4 <= dst p y); [|lra]. apply M4. exists s, r, t. repeat split; try lra. intros k Hk. rewrite (E k Hk). ring.
Qed.
Print Assumptions C73_tetrahedron_distance.

(** ** parallelepipeds *)
Section Parallelogram.
  Variables p0 p1 p2 p3 : pt.
  Hypothesis H : forall k, (k < 3)%nat -> p2 k = p1 k + p3 k - p0 k.
  Let w := crs (minus p1 p0) (minus p3 p0).
  Hypothesis W : 0 < ip w w.
  Let n := unit_of w.
  Local Lemma proot_pos : 0 < sqrt (ip w w).
  Proof. apply sqrt_lt_R0, W. Qed.
  Lemma quad_plane x : ip n (minus x (vertex [p0; p1; p2; p3] 0)) = 0 <-> det (minus p1 p0) (minus p3 p0) (minus x p0) = 0.
  Proof. change (vertex [p0; p1; p2; p3] 0) with p0. unfold n. rewrite unit_of_ip, div_zero by exact proot_pos. rewrite det_crs. reflexivity. Qed.
  Lemma quad_side i x : 0 <= left3 n [p0; p1; p2; p3] i x <-> 0 <= det w (minus (vertex [p0; p1; p2; p3] (i + 1)) (vertex [p0; p1; p2; p3] i)) (minus x (vertex [p0; p1; p2; p3] i)).
  Proof. unfold left3, n. rewrite unit_of_det, div_pos by exact proot_pos. reflexivity. Qed.
  Lemma parallelogram_convex : convex_face n [p0; p1; p2; p3].
  Proof.
    pose proof (H 0%nat ltac:(lia)) as H0. pose proof (H 1%nat ltac:(lia)) as H1. pose proof (H 2%nat ltac:(lia)) as H2.
    split; [cbn; lia|]. split; [apply unit_of_unit, W|]. split.
    - intros i. apply quad_plane. unfold vertex. cbn [length]. pose proof (Nat.mod_upper_bound i 4 ltac:(lia)) as B. destruct (i mod 4)%nat as [|[|[|[|k]]]]; [| | | |lia]; cbn; unfold det, minus; rewrite ?H0, ?H1, ?H2; ring.
    - intros i j Hi Hj N1 N2. unfold left3, n. rewrite unit_of_det. apply Rdiv_lt_0_compat; [|exact proot_pos].
      replace (det w _ _) with (ip w w); [exact W|]. cbn in Hi, Hj.
      destruct i as [|[|[|[|i]]]]; [| | | |lia]; destruct j as [|[|[|[|j]]]]; try lia; try (exfalso; cbn in N1, N2; lia); unfold vertex; cbn; unfold w, ip, crs, det, minus; rewrite ?H0, ?H1, ?H2; ring.
  Qed.
  Lemma parallelogram_points x : in_face n [p0; p1; p2; p3] x <-> exists s t, 0 <= s <= 1 /\ 0 <= t <= 1 /\ agree x (fun k => p0 k + s * (p1 k - p0 k) + t * (p3 k - p0 k)).
  Proof.
    pose proof (H 0%nat ltac:(lia)) as H0. pose proof (H 1%nat ltac:(lia)) as H1. pose proof (H 2%nat ltac:(lia)) as H2. split.
    - intros [P S]. apply quad_plane in P. pose proof (proj1 (quad_side 0 x) (S 0%nat ltac:(cbn; lia))) as S0. pose proof (proj1 (quad_side 1 x) (S 1%nat ltac:(cbn; lia))) as S1.
      pose proof (proj1 (quad_side 2 x) (S 2%nat ltac:(cbn; lia))) as S2. pose proof (proj1 (quad_side 3 x) (S 3%nat ltac:(cbn; lia))) as S3. unfold vertex in *. cbn in S0, S1, S2, S3.
      exists (det w (minus p0 p3) (minus x p3) / ip w w), (det w (minus p1 p0) (minus x p0) / ip w w).
      assert (C1 : det w (minus p2 p1) (minus x p1) = ip w w - det w (minus p0 p3) (minus x p3)) by (unfold w, ip, crs, det, minus; rewrite ?H0, ?H1, ?H2; ring).
      assert (C2 : det w (minus p3 p2) (minus x p2) = ip w w - det w (minus p1 p0) (minus x p0)) by (unfold w, ip, crs, det, minus; rewrite ?H0, ?H1, ?H2; ring).
      rewrite C1 in S1. rewrite C2 in S2.
      assert (Le : forall z, z <= ip w w -> z / ip w w <= 1) by (intros z Hz; apply Rmult_le_reg_r with (ip w w); [exact W|]; unfold Rdiv; rewrite Rmult_assoc, Rinv_l, Rmult_1_r by lra; lra).
      split; [split; [apply div_pos; assumption|apply Le; lra]|]. split; [split; [apply div_pos; assumption|apply Le; lra]|]. intros k Hk.
      assert (Id : ip w w * (x k - p0 k) = det w (minus p0 p3) (minus x p3) * (p1 k - p0 k) + det w (minus p1 p0) (minus x p0) * (p3 k - p0 k) + det (minus p1 p0) (minus p3 p0) (minus x p0) * w k).
      { destruct k as [|[|[|k']]]; [| | |lia]; unfold w, ip, crs, det, minus; ring. }
      rewrite P in Id. apply Rmult_eq_reg_l with (ip w w); [|lra]. replace (ip w w * x k) with (ip w w * (x k - p0 k) + ip w w * p0 k) by ring. rewrite Id. field. lra.
    - intros (s & t & Hs & Ht & E). pose proof (E 0%nat ltac:(lia)) as E0. pose proof (E 1%nat ltac:(lia)) as E1. pose proof (E 2%nat ltac:(lia)) as E2. cbv beta in *. split.
      + apply quad_plane. unfold det, minus. rewrite E0, E1, E2. ring.
      + intros i Hi. apply quad_side. cbn in Hi. pose proof (ip_nonneg w).
        destruct i as [|[|[|[|i]]]]; [| | | |lia]; unfold vertex; cbn.
        * replace (det _ _ _) with (t * ip w w) by (unfold w, ip, crs, det, minus; rewrite E0, E1, E2; ring). nra.
        * replace (det _ _ _) with ((1 - s) * ip w w) by (unfold w, ip, crs, det, minus; rewrite E0, E1, E2, H0, H1, H2; ring). nra.
        * replace (det _ _ _) with ((1 - t) * ip w w) by (unfold w, ip, crs, det, minus; rewrite E0, E1, E2, H0, H1, H2; ring). nra.
        * replace (det _ _ _) with (s * ip w w) by (unfold w, ip, crs, det, minus; rewrite E0, E1, E2; ring). nra.
  Qed.
  Lemma quad_height x : 0 <= ip n (minus x p0) <-> 0 <= det (minus p1 p0) (minus p3 p0) (minus x p0).
  Proof. unfold n. rewrite unit_of_ip, div_pos by exact proot_pos. rewrite det_crs. reflexivity. Qed.
End Parallelogram.

Section Parallelepiped.
  Variables (o a b c : pt) (v : nat -> pt).
  Hypothesis Hv : forall i s, In (i, s) [(0, (0, 0, 0)); (1, (1, 0, 0)); (2, (1, 1, 0)); (3, (0, 1, 0)); (4, (0, 0, 1)); (5, (1, 0, 1)); (6, (1, 1, 1)); (7, (0, 1, 1))]%nat ->
    forall k, v i k = o k + INR (fst (fst s)) * a k + INR (snd (fst s)) * b k + INR (snd s) * c k.
  Hypothesis D : 0 < det a b c.
  Lemma cube_corners k : v 0%nat k = o k /\ v 1%nat k = o k + a k /\ v 2%nat k = o k + a k + b k /\ v 3%nat k = o k + b k /\
    v 4%nat k = o k + c k /\ v 5%nat k = o k + a k + c k /\ v 6%nat k = o k + a k + b k + c k /\ v 7%nat k = o k + b k + c k.
  Proof.
    rewrite (Hv 0%nat (0, 0, 0)%nat), (Hv 1%nat (1, 0, 0)%nat), (Hv 2%nat (1, 1, 0)%nat), (Hv 3%nat (0, 1, 0)%nat), (Hv 4%nat (0, 0, 1)%nat), (Hv 5%nat (1, 0, 1)%nat), (Hv 6%nat (1, 1, 1)%nat), (Hv 7%nat (0, 1, 1)%nat) by (cbn; tauto).
    cbn [fst snd INR]. repeat split; ring.
  Qed.
  Definition quad_with_normal (i j k l : nat) : pt * list pt := (unit_of (crs (minus (v j) (v i)) (minus (v l) (v i))), [v i; v j; v k; v l]).
  Definition cube_with_normals : list (pt * list pt) :=
    [quad_with_normal 0 1 2 3; quad_with_normal 4 5 1 0; quad_with_normal 5 6 2 1; quad_with_normal 6 7 3 2; quad_with_normal 0 3 7 4; quad_with_normal 4 7 6 5].
  Lemma cube_map : map snd cube_with_normals = hexahedron_faces v.
  Proof. reflexivity. Qed.
  Ltac corner m := let H0 := fresh in pose proof (cube_corners m) as H0; destruct H0 as (? & ? & ? & ? & ? & ? & ? & ?); repeat match goal with E : v _ _ = _ |- _ => rewrite ?E; clear E end.
  Ltac corners := 
    let H0 := fresh in let H1 := fresh in let H2 := fresh in pose proof (cube_corners 0) as H0; pose proof (cube_corners 1) as H1; pose proof (cube_corners 2) as H2;
    destruct H0 as (? & ? & ? & ? & ? & ? & ? & ?); destruct H1 as (? & ? & ? & ? & ? & ? & ? & ?); destruct H2 as (? & ? & ? & ? & ? & ? & ? & ?);
    repeat match goal with E : v _ _ = _ |- _ => rewrite ?E; clear E end.
  (** a face: its normal points inwards, along [inw], and it is a parallelogram *)
  Lemma cube_face i j k l (inw : pt) : (forall m, v k m = v j m + v l m - v i m) -> det (minus (v j) (v i)) (minus (v l) (v i)) inw = det a b c ->
    0 < ip (crs (minus (v j) (v i)) (minus (v l) (v i))) (crs (minus (v j) (v i)) (minus (v l) (v i))).
  Proof.
    intros _ E. destruct (ip_nonneg (crs (minus (v j) (v i)) (minus (v l) (v i)))) as [L|L]; [exact L|]. exfalso. rewrite det_crs in E. set (w := crs _ _) in *. clearbody w. unfold ip in E.
    assert (w 0%nat = 0 /\ w 1%nat = 0 /\ w 2%nat = 0) as (Z0 & Z1 & Z2) by (unfold ip in L; repeat split; nra). rewrite Z0, Z1, Z2 in E. lra.
  Qed.
  (** the coordinates of a point *)
  Definition cr x := det (minus x o) b c / det a b c.
  Definition cs x := det a (minus x o) c / det a b c.
  Definition ct x := det a b (minus x o) / det a b c.
  Lemma coordinates x : agree x (fun k => o k + cr x * a k + cs x * b k + ct x * c k).
  Proof.
    intros k Hk. apply Rmult_eq_reg_l with (det a b c); [|lra]. unfold cr, cs, ct. transitivity (det a b c * o k + det (minus x o) b c * a k + det a (minus x o) c * b k + det a b (minus x o) * c k); [|field; lra].
    destruct k as [|[|[|k]]]; [| | |lia]; unfold det, minus; ring.
  Qed.
  Lemma coordinates_unique x r s t : agree x (fun k => o k + r * a k + s * b k + t * c k) -> cr x = r /\ cs x = s /\ ct x = t.
  Proof.
    intros E. pose proof (E 0%nat ltac:(lia)) as E0. pose proof (E 1%nat ltac:(lia)) as E1. pose proof (E 2%nat ltac:(lia)) as E2. cbv beta in *.
    unfold cr, cs, ct. repeat split; apply Rmult_eq_reg_r with (det a b c); try lra; unfold Rdiv; rewrite Rmult_assoc, Rinv_l, Rmult_1_r by lra; unfold det, minus; rewrite E0, E1, E2; ring.
  Qed.
  Lemma in_cube x : in_parallelepiped o a b c x <-> 0 <= cr x <= 1 /\ 0 <= cs x <= 1 /\ 0 <= ct x <= 1.
  Proof.
    split.
    - intros (r & s & t & Hr & Hs & Ht & E). destruct (coordinates_unique x r s t E) as (-> & -> & ->). auto.
    - intros (Hr & Hs & Ht). exists (cr x), (cs x), (ct x). split; [exact Hr|]. split; [exact Hs|]. split; [exact Ht|apply coordinates].
  Qed.
  Lemma cube_faces_ok : Forall (fun q : nat * nat * nat * nat * pt * (pt -> R) => let '(i, j, k, l, inw, h) := q in
      (forall m, v k m = v j m + v l m - v i m) /\ det (minus (v j) (v i)) (minus (v l) (v i)) inw = det a b c /\
      forall x, det (minus (v j) (v i)) (minus (v l) (v i)) (minus x (v i)) = h x * det a b c)
    [(0%nat, 1%nat, 2%nat, 3%nat, c, ct); (4%nat, 5%nat, 1%nat, 0%nat, b, cs); (5%nat, 6%nat, 2%nat, 1%nat, (fun m => - a m), fun x => 1 - cr x); (6%nat, 7%nat, 3%nat, 2%nat, (fun m => - b m), fun x => 1 - cs x);
     (0%nat, 3%nat, 7%nat, 4%nat, a, cr); (4%nat, 7%nat, 6%nat, 5%nat, (fun m => - c m), fun x => 1 - ct x)].
  Proof.
    assert (Cr : forall x, cr x * det a b c = det (minus x o) b c) by (intros; unfold cr; field; lra). assert (Cs : forall x, cs x * det a b c = det a (minus x o) c) by (intros; unfold cs; field; lra).
    assert (Ct : forall x, ct x * det a b c = det a b (minus x o)) by (intros; unfold ct; field; lra).
    repeat (apply Forall_cons; [split; [intros m; corner m; ring|split; [|intros x; rewrite ?Rmult_minus_distr_r, ?Rmult_1_l, ?Cr, ?Cs, ?Ct]; unfold det, minus; corners; ring]|]). apply Forall_nil.
  Qed.
  Lemma cube_body x : in_body cube_with_normals x <-> in_parallelepiped o a b c x.
  Proof.
    rewrite in_cube. pose proof cube_faces_ok as F. repeat match goal with F : Forall _ (_ :: _) |- _ => apply Forall_cons_iff in F as ((? & ? & ?) & F) end. clear F.
    assert (X : forall i j k l (inw : pt) h, (forall m, v k m = v j m + v l m - v i m) -> det (minus (v j) (v i)) (minus (v l) (v i)) inw = det a b c ->
      (forall x, det (minus (v j) (v i)) (minus (v l) (v i)) (minus x (v i)) = h x * det a b c) -> (0 <= ip (fst (quad_with_normal i j k l)) (minus x (v i)) <-> 0 <= h x)).
    { intros i j k l inw h E1 E2 E3. pose proof (quad_height (v i) (v j) (v l) (cube_face i j k l inw E1 E2) x) as Q. rewrite E3 in Q. cbn [quad_with_normal fst]. rewrite Q. split; intros; nra. }
    assert (X1 := X 0%nat 1%nat 2%nat 3%nat c ct ltac:(assumption) ltac:(assumption) ltac:(assumption)). assert (X2 := X 4%nat 5%nat 1%nat 0%nat b cs ltac:(assumption) ltac:(assumption) ltac:(assumption)).
    assert (X3 := X 5%nat 6%nat 2%nat 1%nat _ (fun x => 1 - cr x) ltac:(assumption) ltac:(eassumption) ltac:(assumption)). assert (X4 := X 6%nat 7%nat 3%nat 2%nat _ (fun x => 1 - cs x) ltac:(assumption) ltac:(eassumption) ltac:(assumption)).
    assert (X5 := X 0%nat 3%nat 7%nat 4%nat a cr ltac:(assumption) ltac:(assumption) ltac:(assumption)). assert (X6 := X 4%nat 7%nat 6%nat 5%nat _ (fun x => 1 - ct x) ltac:(assumption) ltac:(eassumption) ltac:(assumption)).
    cbv beta in *. split.
    - intros B. assert (Y1 := B _ _ (or_introl eq_refl)). assert (Y2 := B _ _ (or_intror (or_introl eq_refl))). assert (Y3 := B _ _ (or_intror (or_intror (or_introl eq_refl)))). assert (Y4 := B _ _ (or_intror (or_intror (or_intror (or_introl eq_refl))))).
      assert (Y5 := B _ _ (or_intror (or_intror (or_intror (or_intror (or_introl eq_refl)))))). assert (Y6 := B _ _ (or_intror (or_intror (or_intror (or_intror (or_intror (or_introl eq_refl))))))).
      apply X1 in Y1. apply X2 in Y2. apply X3 in Y3. apply X4 in Y4. apply X5 in Y5. apply X6 in Y6. lra.
    - intros (Hr & Hs & Ht) n vs I. destruct I as [[= <- <-]|[[= <- <-]|[[= <- <-]|[[= <- <-]|[[= <- <-]|[[= <- <-]|[]]]]]]]; rewrite vertex_0; [apply X1|apply X2|apply X3|apply X4|apply X5|apply X6]; lra.
  Qed.
  (** the points of the body in the plane of a face are the points of the face *)
  Lemma cube_face_points i j k l (inw : pt) h (f : R -> R -> R * R * R) :
    (forall m, v k m = v j m + v l m - v i m) -> det (minus (v j) (v i)) (minus (v l) (v i)) inw = det a b c ->
    (forall x, det (minus (v j) (v i)) (minus (v l) (v i)) (minus x (v i)) = h x * det a b c) ->
    (forall s t m, v i m + s * (v j m - v i m) + t * (v l m - v i m) = o m + fst (fst (f s t)) * a m + snd (fst (f s t)) * b m + snd (f s t) * c m) ->
    (forall s t x, 0 <= s <= 1 -> 0 <= t <= 1 -> (cr x, cs x, ct x) = f s t -> (0 <= cr x <= 1 /\ 0 <= cs x <= 1 /\ 0 <= ct x <= 1) /\ h x = 0) ->
    (forall x, 0 <= cr x <= 1 -> 0 <= cs x <= 1 -> 0 <= ct x <= 1 -> h x = 0 -> exists s t, 0 <= s <= 1 /\ 0 <= t <= 1 /\ f s t = (cr x, cs x, ct x)) ->
    convex_face (fst (quad_with_normal i j k l)) (snd (quad_with_normal i j k l)) /\
    forall x, in_face (fst (quad_with_normal i j k l)) (snd (quad_with_normal i j k l)) x <-> in_body cube_with_normals x /\ ip (fst (quad_with_normal i j k l)) (minus x (vertex (snd (quad_with_normal i j k l)) 0)) = 0.
  Proof.
    intros E1 E2 E3 E4 F1 F2. pose proof (cube_face i j k l inw E1 E2) as W. cbn [quad_with_normal fst snd]. split; [apply parallelogram_convex; [intros m _; apply E1|exact W]|]. intros x.
    rewrite cube_body, in_cube. rewrite (quad_plane (v i) (v j) (v k) (v l) W x), E3, (parallelogram_points (v i) (v j) (v k) (v l) (fun m _ => E1 m) W x). split.
    - intros (s & t & Hs & Ht & E). assert (Ex : agree x (fun m => o m + fst (fst (f s t)) * a m + snd (fst (f s t)) * b m + snd (f s t) * c m)) by (intros m Hm; rewrite (E m Hm); apply E4).
      destruct (coordinates_unique x _ _ _ Ex) as (Cr & Cs & Ct). destruct (F1 s t x Hs Ht) as [In Z]; [rewrite Cr, Cs, Ct; destruct (f s t) as [[? ?] ?]; reflexivity|]. split; [exact In|rewrite Z; ring].
    - intros ((Hr & Hs & Ht) & Z). assert (Hz : h x = 0) by (apply Rmult_integral in Z; destruct Z as [Z|Z]; [exact Z|lra]). destruct (F2 x Hr Hs Ht Hz) as (s & t & Bs & Bt & Ef). exists s, t. split; [exact Bs|]. split; [exact Bt|].
      intros m Hm. rewrite E4, Ef. cbn [fst snd]. apply (coordinates x m Hm).
  Qed.
  Ltac face_at := intros s t m; corner m; cbn [fst snd]; ring.
  Ltac face_of := intros s t x Bs Bt [= -> -> ->]; lra.
  Ltac face_to w1 w2 := intros x Br Bs Bt Z; exists (w1 x), (w2 x); (split; [lra|]); (split; [lra|]); repeat f_equal; lra.
  Lemma cube_convex : convex_body cube_with_normals.
  Proof.
    pose proof cube_faces_ok as F. repeat match goal with F : Forall _ (_ :: _) |- _ => apply Forall_cons_iff in F as ((? & ? & ?) & F) end. clear F.
    intros n vs I. destruct I as [[= <- <-]|[[= <- <-]|[[= <- <-]|[[= <- <-]|[[= <- <-]|[[= <- <-]|[]]]]]]].
    - refine (cube_face_points 0 1 2 3 c ct (fun s t => (s, t, 0)) _ _ _ _ _ _); [assumption|eassumption|assumption|face_at|face_of|face_to cr cs].
    - refine (cube_face_points 4 5 1 0 b cs (fun s t => (s, 0, 1 - t)) _ _ _ _ _ _); [assumption|eassumption|assumption|face_at|face_of|face_to cr (fun x => 1 - ct x)].
    - refine (cube_face_points 5 6 2 1 _ (fun x => 1 - cr x) (fun s t => (1, s, 1 - t)) _ _ _ _ _ _); [assumption|eassumption|assumption|face_at|face_of|face_to cs (fun x => 1 - ct x)].
    - refine (cube_face_points 6 7 3 2 _ (fun x => 1 - cs x) (fun s t => (1 - s, 1, 1 - t)) _ _ _ _ _ _); [assumption|eassumption|assumption|face_at|face_of|face_to (fun x => 1 - cr x) (fun x => 1 - ct x)].
    - refine (cube_face_points 0 3 7 4 a cr (fun s t => (0, s, t)) _ _ _ _ _ _); [assumption|eassumption|assumption|face_at|face_of|face_to cs ct].
    - refine (cube_face_points 4 7 6 5 _ (fun x => 1 - ct x) (fun s t => (t, s, 1)) _ _ _ _ _ _); [assumption|eassumption|assumption|face_at|face_of|face_to cs cr].
  Qed.
End Parallelepiped.

(** C73 for parallelepipeds: containment, signed distance and distance. *)
Theorem C73_parallelepiped (o a b c : pt) (v : nat -> pt) (p : pt) :
  (forall i s, In (i, s) [(0, (0, 0, 0)); (1, (1, 0, 0)); (2, (1, 1, 0)); (3, (0, 1, 0)); (4, (0, 0, 1)); (5, (1, 0, 1)); (6, (1, 1, 1)); (7, (0, 1, 1))]%nat ->
    forall k, v i k = o k + INR (fst (fst s)) * a k + INR (snd (fst s)) * b k + INR (snd s) * c k) -> 0 < det a b c ->
  (exists i, polyhedron_contains (hexahedron_faces v) p = Some i /\ (i = true <-> in_parallelepiped o a b c p)) /\
  (exists i q sd, polyhedron_sd (hexahedron_faces v) p = Some (i, q, sd) /\ in_parallelepiped o a b c q /\ Rabs sd = dst p q /\
    (in_parallelepiped o a b c p -> sd <= 0 /\ forall x, ~ in_parallelepiped o a b c x -> - sd <= dst p x) /\
    (~ in_parallelepiped o a b c p -> 0 < sd /\ forall x, in_parallelepiped o a b c x -> sd <= dst p x)) /\
  exists d, hexahedron_distance v p = Some d /\ (exists q, in_parallelepiped o a b c q /\ d = dst p q) /\ forall x, in_parallelepiped o a b c x -> d <= dst p x.
Proof.
  intros Hv D. pose proof (cube_convex o a b c v Hv D) as CB. pose proof (cube_body o a b c v Hv D) as Body. unfold hexahedron_distance. rewrite <- cube_map. split.
  - destruct (C73_contains _ p (fun n vs I => proj1 (CB n vs I))) as (i & E & H). exists i. split; [exact E|]. rewrite H. apply Body.
  - destruct (C73_signed_distance _ p CB) as (i & q & sd & n & vs & E & Ei & Iq & Ed & Hin & Hout); [cbn; lia|].
    assert (Bq : in_parallelepiped o a b c q) by (apply Body; apply (proj2 (CB n _ (nth_error_In _ _ Ei)) q), Iq). split.
    + exists i, q, sd. split; [exact E|]. split; [exact Bq|]. split; [exact Ed|]. split.
      * intros B. apply Body in B. destruct (Hin B) as [S H]. split; [exact S|]. intros x Nx. apply H.
        assert (Nx' : ~ in_body (cube_with_normals v) x) by (intros X; apply Nx, Body, X). destruct (outside_face _ x Nx') as (n' & vs' & I & L). exists n', vs'. split; [exact I|lra].
      * intros B. destruct Hout as [S H]; [intros X; apply B, Body, X|]. split; [exact S|]. intros x Hx. apply H, Body, Hx.
    + rewrite E. eexists. split; [reflexivity|]. destruct (C73_contains _ p (fun n vs I => proj1 (CB n vs I))) as (ins & _ & Hins).
      destruct ins.
      * assert (B : in_body (cube_with_normals v) p) by (apply Hins; reflexivity). destruct (Hin B) as [S _]. rewrite Rmax_right by lra. split; [exists p; split; [apply Body, B|]; symmetry; unfold dst; replace (d2 p p) with 0 by (unfold d2, ip, minus; ring); apply sqrt_0|intros x _; apply sqrt_pos].
      * assert (B : ~ in_body (cube_with_normals v) p) by (intros X; apply Hins in X; discriminate). destruct (Hout B) as [S H]. rewrite Rmax_left by lra. split; [exists q; split; [exact Bq|]; rewrite <- Ed; symmetry; apply Rabs_pos_eq; lra|].
        intros x Hx. apply H, Body, Hx.
Qed.
Print Assumptions C73_parallelepiped.

(** the reference tetrahedron: (1,1,1) is outside and (1/4, 1/4, 1/8) inside; the square of the example of C73_face *)
Example C73_example : let e := fun i k : nat => if Nat.eqb (S k) i then 1 else 0 in
  0 < det (minus (e 1%nat) (e 0%nat)) (minus (e 2%nat) (e 0%nat)) (minus (e 3%nat) (e 0%nat)) /\ in_tetrahedron e (fun k => nth k [1/4; 1/4; 1/8] 0) /\ ~ in_tetrahedron e (fun _ => 1) /\
  convex_body (tetrahedron_with_normals e) /\ (4 <= length (tetrahedron_with_normals e))%nat.
Proof.
  cbv zeta. set (e := fun i k : nat => if Nat.eqb (S k) i then 1 else 0). assert (D : 0 < det (minus (e 1%nat) (e 0%nat)) (minus (e 2%nat) (e 0%nat)) (minus (e 3%nat) (e 0%nat))) by (unfold e, det, minus; cbn; lra).
  split; [exact D|]. split; [|split; [|split; [apply tetrahedron_convex, D|cbn; lia]]].
  - exists (3/8), (1/4), (1/4), (1/8). repeat split; try lra. intros k Hk. destruct k as [|[|[|k]]]; [| | |lia]; unfold e; cbn; lra.
  - intros (q & r & s & t & Hq & Hr & Hs & Ht & Sum & E). pose proof (E 0%nat ltac:(lia)) as E0. pose proof (E 1%nat ltac:(lia)) as E1. unfold e in *. cbn in E0, E1. lra.
Qed.
Example C73_cube_example : let v := fun i k : nat => if existsb (Nat.eqb i) (nth k [[1; 2; 5; 6]; [2; 3; 6; 7]; [4; 5; 6; 7]]%nat []) then nth k [2; 3; 4] 0 else 0 in
  let o : pt := fun _ => 0 in let a : pt := fun k => nth k [2; 0; 0] 0 in let b : pt := fun k => nth k [0; 3; 0] 0 in let c : pt := fun k => nth k [0; 0; 4] 0 in
  (forall i s, In (i, s) [(0, (0, 0, 0)); (1, (1, 0, 0)); (2, (1, 1, 0)); (3, (0, 1, 0)); (4, (0, 0, 1)); (5, (1, 0, 1)); (6, (1, 1, 1)); (7, (0, 1, 1))]%nat ->
    forall k, v i k = o k + INR (fst (fst s)) * a k + INR (snd (fst s)) * b k + INR (snd s) * c k) /\ 0 < det a b c.
Proof.
  cbv zeta. split; [|unfold det; cbn; lra]. intros i s H k. cbn in H. repeat (destruct H as [[= <- <-]|H]; [destruct k as [|[|[|k]]]; cbn; try (destruct k); cbn; lra|]). destruct H.
Qed.

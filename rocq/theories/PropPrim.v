(** C99: half spaces, planes and triangles. *)
From Coq Require Import Reals List Bool Arith Lra Lia.
From Verif Require Import CgModel GeomModel SolidModel PrimModel CgSpec CgProofs PropNewton PropInverse PropInverseQuad.
Import ListNotations.
Open Scope R_scope.

(** ** Half spaces *)
Definition unit_vector (D : nat) (n : vec) : Prop := dot D n n = 1.
Definition boundary (D : nat) (h : half_space) (q : vec) : Prop := dot D (hs_normal h) (sub3 q (hs_point h)) = 0.
Definition distance (D : nat) (p q : vec) : R := norm D (sub3 p q).

Lemma dot_sub D n p q : dot D n (sub3 p q) = dot D n p - dot D n q.
Proof. induction D as [|D IH]; cbn; [ring|]. rewrite IH. unfold sub3. ring. Qed.
Lemma dot_neg D n p : dot D (fun i => - n i) p = - dot D n p.
Proof. induction D as [|D IH]; cbn; [ring|]. rewrite IH. ring. Qed.

(** C99: the modulus of the signed distance is the distance to the boundary, attained at the foot of the perpendicular. *)
Theorem C99_signed_distance : forall D h p, unit_vector D (hs_normal h) ->
  let s := signed_distance_to_point D h p in
  (forall q, boundary D h q -> Rabs s <= distance D p q) /\
  (exists q, boundary D h q /\ distance D p q = Rabs s) /\
  (contains_point D h p = true <-> s <= 0) /\
  (forall q, s < 0 -> distance D p q < - s -> contains_point D h q = true).
Proof.
  intros D h p Hu s. unfold unit_vector in Hu.
  assert (Hcs : forall q, Rabs (dot D (hs_normal h) (sub3 p q)) <= distance D p q).
  { intros q. assert (Hn : norm D (hs_normal h) = 1) by (unfold norm; rewrite Hu; apply sqrt_1). pose proof (dot_cs D (hs_normal h) (sub3 p q)) as H1.
    pose proof (dot_cs D (fun i => -1 * hs_normal h i) (sub3 p q)) as H2. rewrite norm_scale, Hn, (Rabs_left (-1)) in H2 by lra. rewrite Hn in H1.
    assert (E : dot D (fun i => -1 * hs_normal h i) (sub3 p q) = - dot D (hs_normal h) (sub3 p q)).
    { rewrite <- dot_neg. apply dot_ext; intros i Hi; ring. }
    rewrite E in H2. unfold distance. apply Rabs_le. lra. }
  split; [|split; [|split]].
  - intros q Hq. unfold boundary in Hq. unfold s, signed_distance_to_point. rewrite dot_sub in *. replace (_ - _) with (dot D (hs_normal h) (sub3 p q)) by (rewrite dot_sub; lra). apply Hcs.
  - exists (fun i => p i - s * hs_normal h i). split.
    + unfold boundary. rewrite dot_sub. replace (dot D (hs_normal h) (fun i => p i - s * hs_normal h i)) with (dot D (hs_normal h) p - s).
      * unfold s, signed_distance_to_point. rewrite dot_sub. ring.
      * rewrite (dot_ext D (hs_normal h) (hs_normal h) (fun i => p i - s * hs_normal h i) (fun i => p i + (- s) * hs_normal h i)); [rewrite (dot_add_r D p (hs_normal h) (- s)); rewrite Hu; ring|intros i Hi; reflexivity|intros i Hi; cbn; ring].
    + unfold distance. rewrite (norm_ext D _ (fun i => s * hs_normal h i)); [rewrite norm_scale; unfold norm; rewrite Hu, sqrt_1; ring|intros i Hi; unfold sub3; ring].
  - unfold contains_point. fold s. destruct (Rle_dec s 0); split; intros; try reflexivity; try assumption; try discriminate; contradiction.
  - intros q Hs Hd. specialize (Hcs q). unfold contains_point, signed_distance_to_point. destruct (Rle_dec _ _) as [|Hc]; [reflexivity|exfalso; apply Hc].
    rewrite dot_sub. unfold s, signed_distance_to_point in *. rewrite dot_sub in *. pose proof (Rle_abs (dot D (hs_normal h) p - dot D (hs_normal h) q)).
    pose proof (Rle_abs (- (dot D (hs_normal h) p - dot D (hs_normal h) q))). rewrite Rabs_Ropp in *. lra.
Qed.
Print Assumptions C99_signed_distance.

(** C99: the two complementary half spaces cover space and share exactly the boundary; *)
Theorem C99_complement : forall D h p,
  signed_distance_to_point D (hs_complement h) p = - signed_distance_to_point D h p /\
  (contains_point D h p = true \/ contains_point D (hs_complement h) p = true) /\
  (contains_point D h p = true /\ contains_point D (hs_complement h) p = true <-> boundary D h p) /\
  from_plane (flipped (hs_plane h)) = hs_complement h /\ from_plane (hs_plane h) = h.
Proof.
  intros D h p. assert (E : signed_distance_to_point D (hs_complement h) p = - signed_distance_to_point D h p) by apply dot_neg.
  split; [exact E|]. unfold contains_point. rewrite E. unfold boundary. fold (signed_distance_to_point D h p).
  split; [|split; [|split; [reflexivity|destruct h; reflexivity]]]; destruct (Rle_dec (signed_distance_to_point D h p) 0), (Rle_dec (- signed_distance_to_point D h p) 0); try (left; reflexivity); try (right; reflexivity); try lra;
    split; try (intros [H1 H2]; try discriminate; lra); intros; try (split; reflexivity); lra.
Qed.
Print Assumptions C99_complement.
(** so the complement is not the set-theoretic complement. *)
Theorem C99_complement_refuted : exists h p, unit_vector 3 (hs_normal h) /\ contains_point 3 h p = true /\ contains_point 3 (hs_complement h) p = true.
Proof.
  exists (HalfSpace (fun _ => 0) (fun i => nth i [0; 0; 1] 0)), (fun _ => 0). split; [unfold unit_vector; cbn; ring|].
  apply C99_complement. unfold boundary, sub3. cbn. ring.
Qed.
Print Assumptions C99_complement_refuted.

(** C99: the surface of a half plane is its boundary, with the half plane to its right. *)
Theorem C99_surface : forall h, vdot (hp_normal h) (hp_normal h) = 1 -> forall p,
  (GeomModel.signed_dist h p = 0 <-> exists t, p = line_at (GeomModel.surface h) t) /\
  (GeomModel.signed_dist h p <= 0 <-> perp (ln_dir (GeomModel.surface h)) (vsub p (ln_point (GeomModel.surface h))) <= 0).
Proof.
  intros [[a b] [x y]] Hu [px py]. unfold signed_dist, line_at, surface, vdot, vsub, vadd, vscale, perp in *. cbn in *. split.
  - split.
    + intros H. exists ((px - a) * y - (py - b) * x). assert (H1 : y * (py - b) = - x * (px - a)) by lra. assert (H2 : x * (px - a) = - y * (py - b)) by lra. f_equal.
      * replace (a + _) with (a + ((px - a) * (y * y) - x * (y * (py - b)))) by ring. rewrite H1. replace (y * y) with (1 - x * x) by lra. ring.
      * replace (b + _) with (b + ((py - b) * (x * x) - y * (x * (px - a)))) by ring. rewrite H2. replace (x * x) with (1 - y * y) by lra. ring.
    + intros (t & E). injection E as -> ->. ring.
  - split; intros H; lra.
Qed.
Print Assumptions C99_surface.

(** ** Triangles *)
Ltac tri := intros; unfold signed_area2, area2, tri_normal_dir, cross, cross_comp, sub3, swap_vertices, orient2d_inexact, centroid; cbn.

(** C99: edges, sides and centroid. *)
Theorem C99_edges : forall t D,
  (forall i, (i < 3)%nat -> exists a b, tri_edge t i = Some (a, b) /\ a = t i /\ b = t ((i + 1) mod 3)%nat /\ nth i (sides t) (fun _ => 0) = sub3 b a) /\
  (forall i, tri_edge t i = None <-> (3 <= i)%nat) /\
  (forall c, fold_right (fun s acc => s c + acc) 0 (sides t) = 0) /\
  (forall n x0, dot D n (sub3 (centroid t) x0) = (dot D n (sub3 (t 0%nat) x0) + dot D n (sub3 (t 1%nat) x0) + dot D n (sub3 (t 2%nat) x0)) / 3) /\
  (forall h, contains_point D h (t 0%nat) = true -> contains_point D h (t 1%nat) = true -> contains_point D h (t 2%nat) = true -> contains_point D h (centroid t) = true).
Proof.
  intros t D. split; [|split; [|split; [|split]]].
  - intros [|[|[|i]]] Hi; try lia; (eexists _, _; split; [reflexivity|repeat split]).
  - intros i. unfold tri_edge. destruct (Nat.ltb_spec i 3); split; intros; try discriminate; try reflexivity; lia.
  - intros c. unfold sides, sub3. cbn. ring.
  - intros n x0. induction D as [|D IH]; cbn [dot]; [field|]. rewrite IH. unfold centroid, sub3. cbn. field.
  - intros h. assert (E : forall n x0, dot D n (sub3 (centroid t) x0) = (dot D n (sub3 (t 0%nat) x0) + dot D n (sub3 (t 1%nat) x0) + dot D n (sub3 (t 2%nat) x0)) / 3).
    { intros n x0. clear. induction D as [|D IH]; cbn [dot]; [field|]. rewrite IH. unfold centroid, sub3. cbn. field. }
    unfold contains_point, signed_distance_to_point. rewrite E. repeat (destruct (Rle_dec _ _)); intros; try discriminate; try reflexivity. lra.
Qed.
Print Assumptions C99_edges.

(** C99: in the plane the signed area is half the orientation determinant, is kept by rotating the vertices and negated by swapping two
    of them; the orientation is counterclockwise exactly if the third vertex is not to the right of the first side. *)
Theorem C99_plane : forall t i j, (i < 3)%nat -> (j < 3)%nat -> i <> j ->
  orient2d_inexact (t 0%nat) (t 1%nat) (t 2%nat) = 2 * signed_area2 t /\
  signed_area2 (swap_vertices t i j) = - signed_area2 t /\ area2 (swap_vertices t i j) = area2 t /\
  signed_area2 (fun k => t ((k + 1) mod 3)%nat) = signed_area2 t /\
  (orientation2 t = Counterclockwise <-> 0 <= orient2d_inexact (t 0%nat) (t 1%nat) (t 2%nat)) /\
  (orientation2 (swap_vertices t i j) = orientation2 t <-> signed_area2 t = 0).
Proof.
  intros t i j Hi Hj Hij. assert (E1 : orient2d_inexact (t 0%nat) (t 1%nat) (t 2%nat) = 2 * signed_area2 t) by (tri; field).
  assert (E2 : signed_area2 (swap_vertices t i j) = - signed_area2 t).
  { destruct i as [|[|[|i]]]; try lia; destruct j as [|[|[|j]]]; try lia; tri; field. }
  split; [exact E1|]. split; [exact E2|]. split; [unfold area2; rewrite E2; apply Rabs_Ropp|]. split; [tri; field|]. split.
  - unfold orientation2. destruct (Rle_dec 0 (signed_area2 t)); split; intros; try discriminate; try reflexivity; lra.
  - unfold orientation2. rewrite E2. destruct (Rle_dec 0 (signed_area2 t)), (Rle_dec 0 (- signed_area2 t)); split; intros; try discriminate; try reflexivity; lra.
Qed.
Print Assumptions C99_plane.

Lemma dot3 a b : dot 3 a b = a 0%nat * b 0%nat + a 1%nat * b 1%nat + a 2%nat * b 2%nat.
Proof. cbn. ring. Qed.
Lemma norm3_pos a : dot 3 a a <> 0 -> 0 < norm 3 a.
Proof. intros H. unfold norm. apply sqrt_lt_R0. pose proof (dot_nonneg 3 a). lra. Qed.

(** C99: in space the normal direction is orthogonal to the sides, its length is twice the area, which satisfies Lagrange's identity and
    does not depend on the order of the vertices; the normal is a unit vector unless the triangle is degenerate. *)
Theorem C99_space : forall t,
  (forall s, In s (sides t) -> dot 3 (tri_normal_dir t) s = 0) /\
  (let ab := sub3 (t 1%nat) (t 0%nat) in let ac := sub3 (t 2%nat) (t 0%nat) in
     0 <= area3 t /\ 4 * (area3 t * area3 t) = dot 3 ab ab * dot 3 ac ac - dot 3 ab ac * dot 3 ab ac) /\
  (forall i j, (i < 3)%nat -> (j < 3)%nat -> area3 (swap_vertices t i j) = area3 t) /\
  (area3 t <> 0 -> dot 3 (tri_normal t) (tri_normal t) = 1 /\ forall c, tri_normal_dir t c = 2 * area3 t * tri_normal t c).
Proof.
  intros t. assert (Ha : area3 t = 1/2 * norm 3 (tri_normal_dir t)).
  { unfold area3, signed_area3. apply Rabs_right. pose proof (sqrt_pos (dot 3 (tri_normal_dir t) (tri_normal_dir t))) as H. unfold norm. lra. }
  assert (Hsq : norm 3 (tri_normal_dir t) * norm 3 (tri_normal_dir t) = dot 3 (tri_normal_dir t) (tri_normal_dir t)) by (unfold norm; apply sqrt_sqrt, dot_nonneg).
  split; [|split; [|split]].
  - intros s Hs. unfold sides in Hs. cbn in Hs. destruct Hs as [<-|[<-|[<-|[]]]]; rewrite dot3; tri; ring.
  - intros ab ac. split; [unfold area3; apply Rabs_pos|]. rewrite Ha. replace (4 * _) with (norm 3 (tri_normal_dir t) * norm 3 (tri_normal_dir t)) by field.
    rewrite Hsq. unfold ab, ac. rewrite !dot3. tri. ring.
  - intros i j Hi Hj. unfold area3, signed_area3, norm. do 3 f_equal. rewrite !dot3. destruct i as [|[|[|i]]]; try lia; destruct j as [|[|[|j]]]; try lia; tri; ring.
  - intros Hne. assert (Hp : norm 3 (tri_normal_dir t) <> 0) by lra. split.
    + unfold tri_normal, normalize3. rewrite dot3. rewrite dot3 in Hsq. field_simplify; [|exact Hp].
      apply (Rmult_eq_reg_r (norm 3 (tri_normal_dir t) ^ 2)); [|apply pow_nonzero; exact Hp]. field_simplify; [|exact Hp]. lra.
    + intros c. unfold tri_normal, normalize3. rewrite Ha. field. exact Hp.
Qed.
Print Assumptions C99_space.

(** C99: the orientation of a point has the sign of its offset from the plane along the normal, measured from any point of the plane;
    for a degenerate triangle it is zero. Swapping two vertices reverses it. *)
Definition in_plane (t : triangle) (q : vec) : Prop := exists s u, forall c, q c = t 0%nat c + s * (t 1%nat c - t 0%nat c) + u * (t 2%nat c - t 0%nat c).
Definition reversed (o : orientation_test) : orientation_test := match o with Positive => Negative | Zero => Zero | Negative => Positive end.
Lemma offset_in_plane t q x : in_plane t q -> dot 3 (tri_normal_dir t) (sub3 x q) = dot 3 (tri_normal_dir t) (sub3 x (t 0%nat)).
Proof. intros (s & u & H). rewrite !dot3. unfold sub3 at 1 2 3. rewrite !H. tri. ring. Qed.
Lemma normalised_sign n x : let d := dot 3 (normalize3 n) x in (0 < d <-> 0 < dot 3 n x) /\ (d < 0 <-> dot 3 n x < 0).
Proof.
  intros d. destruct (Req_dec (dot 3 n n) 0) as [H|H].
  - assert (Z : forall i, (i < 3)%nat -> n i = 0) by (intros i Hi; apply (dot_self_zero 3 n H i Hi)).
    assert (d = 0) as -> by (unfold d, normalize3; rewrite dot3, !Z by lia; unfold Rdiv; ring).
    assert (dot 3 n x = 0) as -> by (rewrite dot3, !Z by lia; ring). lra.
  - pose proof (norm3_pos n H) as Hp. assert (E : d = / norm 3 n * dot 3 n x) by (unfold d, normalize3; rewrite !dot3; field; lra).
    pose proof (Rinv_0_lt_compat _ Hp). rewrite E. split; split; intros; nra.
Qed.
Theorem C99_orientation : forall t x,
  (forall q, in_plane t q -> let o := dot 3 (tri_normal_dir t) (sub3 x q) in
     (point_orientation t x = Positive <-> 0 < o) /\ (point_orientation t x = Zero <-> o = 0) /\ (point_orientation t x = Negative <-> o < 0)) /\
  (area3 t <> 0 -> (point_orientation t x = Zero <-> exists q, in_plane t q /\ forall c, (c < 3)%nat -> q c = x c)) /\
  (forall i j, (i < 3)%nat -> (j < 3)%nat -> i <> j -> point_orientation (swap_vertices t i j) x = reversed (point_orientation t x)).
Proof.
  assert (S : forall t x, let o := dot 3 (tri_normal_dir t) (sub3 x (t 0%nat)) in
     (point_orientation t x = Positive <-> 0 < o) /\ (point_orientation t x = Zero <-> o = 0) /\ (point_orientation t x = Negative <-> o < 0)).
  { intros t x o. destruct (normalised_sign (tri_normal_dir t) (sub3 x (t 0%nat))) as (H1 & H2). fold o in H1, H2. unfold point_orientation.
    destruct (Rlt_dec 0 _) as [A|A]; [|destruct (Rlt_dec _ 0) as [B|B]]; repeat split; intros; try discriminate; try reflexivity; lra. }
  intros t x. split; [|split].
  - intros q Hq o. unfold o. rewrite (offset_in_plane t q x Hq). apply S.
  - intros Hne. destruct (S t x) as (_ & -> & _). split.
    + intros Ho. set (n := tri_normal_dir t) in *. set (ab := sub3 (t 1%nat) (t 0%nat)). set (ac := sub3 (t 2%nat) (t 0%nat)). set (d := sub3 x (t 0%nat)) in *.
      assert (Hn : dot 3 n n <> 0).
      { intros H. apply Hne. unfold area3, signed_area3, norm. fold n. rewrite H, sqrt_0, Rmult_0_r. apply Rabs_R0. }
      exists (fun c => t 0%nat c + dot 3 n (cross d ac) / dot 3 n n * (t 1%nat c - t 0%nat c) + dot 3 n (cross ab d) / dot 3 n n * (t 2%nat c - t 0%nat c)).
      split; [exists (dot 3 n (cross d ac) / dot 3 n n), (dot 3 n (cross ab d) / dot 3 n n); intros c; reflexivity|].
      intros c Hc. apply Rminus_diag_uniq.
      assert (K : (dot 3 n (cross d ac) * ab c + dot 3 n (cross ab d) * ac c - dot 3 n n * d c) = - dot 3 n d * n c).
      { destruct c as [|[|[|c]]]; try lia; rewrite !dot3; unfold n, tri_normal_dir; fold ab ac; unfold cross, cross_comp; cbn; ring. }
      rewrite Ho in K. set (A := dot 3 n (cross d ac)) in *. set (B := dot 3 n (cross ab d)) in *. set (N := dot 3 n n) in *.
      replace (t 0%nat c + A / N * (t 1%nat c - t 0%nat c) + B / N * (t 2%nat c - t 0%nat c) - x c) with ((A * ab c + B * ac c - N * d c) / N).
      * rewrite K. unfold Rdiv. ring.
      * unfold ab, ac, d, sub3. field. exact Hn.
    + intros (q & Hq & E). rewrite <- (offset_in_plane t q x Hq). rewrite dot3. unfold sub3. rewrite !E by lia. ring.
  - intros i j Hi Hj Hij. assert (E : dot 3 (tri_normal_dir (swap_vertices t i j)) (sub3 x (swap_vertices t i j 0%nat)) = - dot 3 (tri_normal_dir t) (sub3 x (t 0%nat))).
    { rewrite !dot3. destruct i as [|[|[|i]]]; try lia; destruct j as [|[|[|j]]]; try lia; tri; ring. }
    destruct (S (swap_vertices t i j) x) as (A1 & A2 & A3). destruct (S t x) as (B1 & B2 & B3). cbv zeta in *. rewrite E in A1, A2, A3.
    destruct (point_orientation t x); cbn [reversed]; [apply A3|apply A2|apply A1]; [apply Ropp_lt_gt_0_contravar, B1; reflexivity|rewrite (proj1 B2 eq_refl); ring|].
    pose proof (proj1 B3 eq_refl). lra.
Qed.
Print Assumptions C99_orientation.

(** C99: the orientation of a triangle in space is always clockwise, *)
Theorem C99_orientation3 : forall t, orientation3 t = Clockwise.
Proof.
  intros t. unfold orientation3, signed_area3. pose proof (sqrt_pos (dot 3 (tri_normal_dir t) (tri_normal_dir t))) as H.
  destruct (Rle_dec _ _) as [|Hc]; [reflexivity|]. exfalso. apply Hc. unfold norm. lra.
Qed.
Print Assumptions C99_orientation3.
(** so swapping two vertices does not reverse it. *)
Theorem C99_orientation3_refuted : exists t, area3 t <> 0 /\ orientation3 (swap_vertices t 0 1) = orientation3 t.
Proof.
  exists (fun i c => nth c (nth i [[0; 0; 0]; [1; 0; 0]; [0; 1; 0]] []) 0). split; [|rewrite !C99_orientation3; reflexivity].
  unfold area3, signed_area3, norm. set (t := fun i c : nat => _). replace (dot 3 (tri_normal_dir t) (tri_normal_dir t)) with 1 by (rewrite dot3; unfold t; tri; ring).
  rewrite sqrt_1, Rabs_right; lra.
Qed.
Print Assumptions C99_orientation3_refuted.

Example C99_example : let t := fun i c => nth c (nth i [[0; 0; 0]; [1; 0; 0]; [0; 1; 0]] []) 0 in
  unit_vector 3 (fun i => nth i [3/5; 0; 4/5] 0) /\ signed_area2 t = 1/2 /\ orientation2 t = Counterclockwise /\ orientation2 (swap_vertices t 0 1) = Clockwise /\
  area3 t = 1/2 /\ point_orientation t (fun c => nth c [5; 7; 2] 0) = Positive /\ in_plane t (fun c => nth c [5; 7; 0] 0).
Proof.
  intros t. split; [unfold unit_vector; cbn; field|]. assert (A : signed_area2 t = 1/2) by (unfold t; tri; field). split; [exact A|].
  split; [unfold orientation2; rewrite A; destruct (Rle_dec _ _); [reflexivity|lra]|].
  split; [unfold orientation2; rewrite (proj1 (proj2 (C99_plane t 0 1 ltac:(lia) ltac:(lia) ltac:(lia)))), A; destruct (Rle_dec _ _); [lra|reflexivity]|].
  assert (Hp : in_plane t (t 0%nat)) by (exists 0, 0; intros c; ring).
  split; [|split].
  - unfold area3, signed_area3, norm. replace (dot 3 (tri_normal_dir t) (tri_normal_dir t)) with 1 by (rewrite dot3; unfold t; tri; ring). rewrite sqrt_1, Rabs_right; lra.
  - apply (proj1 (C99_orientation t _) _ Hp). rewrite dot3. unfold t. tri. lra.
  - exists 5, 7. intros c. unfold t. destruct c as [|[|[|[|c]]]]; cbn; ring.
Qed.

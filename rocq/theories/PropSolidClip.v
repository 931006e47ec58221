(** C69 with real coordinates: clipping polymeshes by half spaces, and the sphere built by clipping. *)
From stdpp Require Import base list list_numbers.
From Coq Require Import Reals Lra Lia.
From Verif Require Import Prelude ReorderModel MeshModel ElementModel CgModel CgSpec CgProofs GeomModel GeomSpec PropSeg PropPoly3 SolidModel SolidSpec PropVolume PolyModel PolySpec PolyProofs PolyClipProofs PropPolyClip ProcModel PropPolyConv SolidMeshModel.
Local Open Scope nat_scope.

Lemma hs_cut_param h a b : hs_in h a <> hs_in h b -> exists t, (0 <= t <= 1)%R /\ hs_cut h a b = dseg_at a b t /\
  (t * (height 3 h.2 h.1 b - height 3 h.2 h.1 a) = - height 3 h.2 h.1 a)%R.
Proof.
  intros N. destruct (C42_plane_closest 3 h.2 h.1 a b) as [Ht Hmin]. eexists. split; [exact Ht|]. split; [reflexivity|].
  destruct (cut3_param 3 h.2 h.1 a b N) as (t & Ht' & _ & E). specialize (Hmin t Ht').
  set (s := closest_to_plane_parametric 3 h.2 h.1 a b) in *.
  assert (G : forall t, inner 3 h.2 (fun i => mixd a b t i - h.1 i)%R = (height 3 h.2 h.1 a + t * (height 3 h.2 h.1 b - height 3 h.2 h.1 a))%R).
  { intros u. rewrite <- dot_inner. change (dot 3 h.2 (fun i => mixd a b u i - h.1 i)%R) with (height 3 h.2 h.1 (mixd a b u)).
    transitivity (height 3 h.2 h.1 (dseg_at a b u)); [|rewrite height_seg; ring]. apply dot_ext; [done|]. intros i _. unfold mixd, dseg_at. ring. }
  rewrite !G in Hmin. replace (height 3 h.2 h.1 a + t * (height 3 h.2 h.1 b - height 3 h.2 h.1 a))%R with 0%R in Hmin by lra. rewrite Rabs_R0 in Hmin.
  pose proof (Rabs_pos (height 3 h.2 h.1 a + s * (height 3 h.2 h.1 b - height 3 h.2 h.1 a))%R) as P. assert (Z : Rabs (height 3 h.2 h.1 a + s * (height 3 h.2 h.1 b - height 3 h.2 h.1 a))%R = 0%R) by lra.
  destruct (Req_dec (height 3 h.2 h.1 a + s * (height 3 h.2 h.1 b - height 3 h.2 h.1 a)) 0)%R as [Q|Q]; [lra|]. apply Rabs_no_R0 in Q. lra.
Qed.

(** C69: intersecting with half spaces never panics. The vertices of the result lie in all the half spaces, and in every convex set that
    contains the vertices of the mesh. Cells with closed surfaces keep closed surfaces. *)
Theorem C69_half_spaces (hs : list half_space) (m : polymesh vec) : pm_ok m ->
  exists m', poly_clip hs m = Some m' /\ pm_ok m' /\ (closed_mesh m -> closed_mesh m') /\
    (forall h x, h ∈ hs -> x ∈ pm_vertices m' -> (inner 3 h.2 (fun i => x i - h.1 i) <= 0)%R) /\
    (forall P : vec -> Prop, (forall a b t, P a -> P b -> (0 <= t <= 1)%R -> P (fun i => a i + (b i - a i) * t)%R) ->
      Forall P (pm_vertices m) -> Forall P (pm_vertices m')).
Proof.
  intros Hok. destruct (C69_clip_all hs_in hs_cut (fun _ => 0%R) hs m Hok) as (m' & E & Hok' & Hcl & HP & HC). exists m'.
  split; [exact E|]. split; [exact Hok'|]. split; [exact Hcl|]. split.
  - intros h x Hh Hx. assert (F : Forall (fun x => hs_in h x = true) (pm_vertices m')).
    { apply HC; [exact Hh|..].
      - intros g a b _ Ha Hb N. destruct (hs_cut_param g a b N) as (t & Ht & -> & _). apply hs_iff in Ha, Hb. apply hs_iff. rewrite height_seg. nra.
      - intros a b N. destruct (hs_cut_param h a b N) as (t & Ht & -> & Et). apply hs_iff. rewrite height_seg. lra. }
    rewrite Forall_forall in F. apply F, hs_iff in Hx. unfold height in Hx. rewrite dot_inner in Hx. exact Hx.
  - intros P Pc. apply HP. intros h a b _ Ha Hb N. destruct (hs_cut_param h a b N) as (t & Ht & -> & _). apply (Pc a b t Ha Hb Ht).
Qed.
Print Assumptions C69_half_spaces.

(** ** the volume of a clipped cube *)
Definition cube_faces : list (list nat) := [[0; 3; 2; 1]; [0; 1; 5; 4]; [1; 2; 6; 5]; [2; 3; 7; 6]; [3; 0; 4; 7]; [4; 5; 6; 7]].
Definition unit_cube : polymesh vec :=
  PolyMesh [pt [0; 0; 0]; pt [1; 0; 0]; pt [1; 1; 0]; pt [0; 1; 0]; pt [0; 0; 1]; pt [1; 0; 1]; pt [1; 1; 1]; pt [0; 1; 1]]%R cube_faces [[0; 1; 2; 3; 4; 5]].
Lemma clip_below {V} (contains : V -> bool) (cut : V -> V -> V) (origin : V) v0 v1 v2 v3 v4 v5 v6 v7 :
  map contains [v0; v1; v2; v3; v4; v5; v6; v7] = [true; true; true; true; false; false; false; false] ->
  clip_mesh contains cut origin (PolyMesh [v0; v1; v2; v3; v4; v5; v6; v7] cube_faces [[0; 1; 2; 3; 4; 5]]) =
    Some (PolyMesh [v0; v3; v2; v1; cut v1 v5; cut v0 v4; cut v2 v6; cut v3 v7]
      [[0; 1; 2; 3]; [0; 3; 4; 5]; [3; 2; 6; 4]; [2; 1; 7; 6]; [1; 0; 5; 7]; [5; 7; 6; 4]] [[0; 1; 2; 3; 4; 5]]).
Proof. intros E. unfold clip_mesh. cbn [pm_vertices]. rewrite E. vm_compute. reflexivity. Qed.
Lemma clip_above {V} (contains : V -> bool) (cut : V -> V -> V) (origin : V) v0 v1 v2 v3 v4 v5 v6 v7 :
  map contains [v0; v1; v2; v3; v4; v5; v6; v7] = [false; false; false; false; true; true; true; true] ->
  clip_mesh contains cut origin (PolyMesh [v0; v1; v2; v3; v4; v5; v6; v7] cube_faces [[0; 1; 2; 3; 4; 5]]) =
    Some (PolyMesh [cut v1 v5; v5; v4; cut v0 v4; cut v2 v6; v6; cut v3 v7; v7]
      [[0; 1; 2; 3]; [4; 5; 1; 0]; [6; 7; 5; 4]; [3; 2; 7; 6]; [2; 1; 5; 7]; [6; 3; 0; 4]] [[0; 1; 2; 3; 4; 5]]).
Proof. intros E. unfold clip_mesh. cbn [pm_vertices]. rewrite E. vm_compute. reflexivity. Qed.
Lemma poly_volume_six (vs : list vec) (f0 f1 f2 f3 f4 f5 : list nat) l0 l1 l2 l3 l4 l5 :
  mapM (mapM (fun v => vs !! v)) [f0; f1; f2; f3; f4; f5] = Some [l0; l1; l2; l3; l4; l5] ->
  poly_volume (PolyMesh vs [f0; f1; f2; f3; f4; f5] [[0; 1; 2; 3; 4; 5]]) = polyhedron_volume [l0; l1; l2; l3; l4; l5].
Proof.
  intros E. unfold poly_volume. change (poly_boundary_faces (PolyMesh vs [f0; f1; f2; f3; f4; f5] [[0; 1; 2; 3; 4; 5]])) with (Some [0; 1; 2; 3; 4; 5]). cbn [mbind option_bind pm_faces pm_vertices].
  assert (E' : mapM (fun f => face ← [f0; f1; f2; f3; f4; f5] !! f; mapM (fun v => vs !! v) face) [0; 1; 2; 3; 4; 5] = Some [l0; l1; l2; l3; l4; l5]) by exact E.
  rewrite E'. reflexivity.
Qed.

(** the plane z = 1/2 with the two normals *)
Definition mid_plane (s : R) : half_space := (pt [0; 0; 1/2]%R, pt [0; 0; s]%R).
Lemma mid_height s x y z : height 3 (mid_plane s).2 (mid_plane s).1 (pt [x; y; z]) = (s * (z - 1/2))%R.
Proof. rewrite height3. unfold mid_plane, pt. cbn. ring. Qed.
Lemma mid_in s x y z : hs_in (mid_plane s) (pt [x; y; z]) = (if Rle_dec (s * (z - 1/2)) 0 then true else false)%R.
Proof.
  destruct (Rle_dec _ _) as [L|L]; unfold hs_in.
  - apply hs_iff. rewrite mid_height. exact L.
  - apply hs_false. rewrite mid_height. lra.
Qed.
Lemma mid_cut s x y x' y' : (s = 1 \/ s = -1)%R -> forall k, hs_cut (mid_plane s) (pt [x; y; 0%R]) (pt [x'; y'; 1%R]) k = ((pt [x; y; 0%R] k + pt [x'; y'; 1%R] k) / 2)%R.
Proof.
  intros Hs k. destruct (hs_cut_param (mid_plane s) (pt [x; y; 0%R]) (pt [x'; y'; 1%R])) as (t & _ & -> & E).
  - rewrite !mid_in. destruct Hs as [->| ->]; destruct (Rle_dec _ _), (Rle_dec _ _); try done; lra.
  - rewrite !mid_height in E. unfold dseg_at. assert (t = 1/2)%R as -> by (destruct Hs as [->| ->]; lra). field.
Qed.

Lemma loop_sides {A} (l : list A) : loop l = sides l.
Proof.
  destruct l as [|a r]; [done|]. unfold loop, sides. cbn [app]. set (z := a) at 2 4. clearbody z. revert a. induction r as [|b r IH]; intros a; [done|]. cbn [app zip zip_with]. change (pairs (a :: b :: r ++ [z])) with ((a, b) :: pairs (b :: r ++ [z])). rewrite IH. done.
Qed.
(** a consistently oriented surface is closed *)
Lemma oriented_closed {A} `{EqDecision A} (faces : list (list A)) : oriented faces -> closed faces.
Proof. unfold oriented. rewrite (map_ext _ sides) by apply loop_sides. apply reversible_closed. Qed.

Ltac decs := repeat match goal with |- context [Rle_dec ?a ?b] => first [destruct (Rle_dec a b); [|lra] | destruct (Rle_dec a b); [lra|]] end.
Ltac volume_of := rewrite volume_sum; match goal with |- Some (Rabs ?x / 3)%R = Some ?v => replace x with (3 * v)%R; [f_equal; rewrite Rabs_right by lra; lra|] end;
  unfold rsum, ip, face_area, rsum, loop; cbn [map fold_right app pairs fst snd]; unfold cross, cross_comp; cbn [Nat.add Nat.modulo Nat.divmod fst snd Nat.sub].
(** C69: the volume of a clipped mesh is wrong. The unit cube has volume 1. Clipped at half its height it should have volume 1/2 on both sides
    but has 1/6 and 5/6: the cap is oriented against the other faces. *)
Theorem C69_volume_refuted : exists m h m1 m2, pm_ok m /\ closed_mesh m /\ oriented (pm_faces m) /\ poly_volume m = Some 1%R /\
  inner 3 h.2 h.2 = 1%R /\ poly_clip [h] m = Some m1 /\ poly_clip [(h.1, fun i => - h.2 i)%R] m = Some m2 /\ poly_volume m1 = Some (1/6)%R /\ poly_volume m2 = Some (5/6)%R.
Proof.
  assert (O : oriented cube_faces) by (unfold oriented, cube_faces; cbn; perm_pairs).
  assert (N : (fun i => - pt [0; 0; 1] i)%R = pt [0; 0; -1]%R).
  { apply FunctionalExtensionality.functional_extensionality. intros i. unfold pt. destruct i as [|[|[|i]]]; cbn; try ring. destruct i; ring. }
  assert (H1 : poly_clip [mid_plane 1] unit_cube = clip_mesh (hs_in (mid_plane 1)) (hs_cut (mid_plane 1)) (fun _ => 0%R) unit_cube) by reflexivity.
  assert (H2 : poly_clip [((mid_plane 1).1, fun i => - (mid_plane 1).2 i)%R] unit_cube = clip_mesh (hs_in (mid_plane (-1))) (hs_cut (mid_plane (-1))) (fun _ => 0%R) unit_cube).
  { cbn [fst snd mid_plane]. rewrite N. reflexivity. }
  unfold unit_cube in H1, H2. rewrite clip_below in H1 by (cbn [map]; rewrite !mid_in; decs; reflexivity).
  rewrite clip_above in H2 by (cbn [map]; rewrite !mid_in; decs; reflexivity).
  exists unit_cube, (mid_plane 1). eexists. eexists.
  split; [split; apply Forall_forall; intros l Hl; apply Forall_forall; intros x Hx; cbn in *; repeat (apply elem_of_cons in Hl as [->|Hl]; [repeat (apply elem_of_cons in Hx as [->|Hx]; [lia|]); by apply elem_of_nil in Hx|]); by apply elem_of_nil in Hl|].
  split; [unfold closed_mesh; constructor; [|constructor]; apply oriented_closed; exact O|].
  split; [exact O|]. split; [|split; [unfold inner, pt; cbn; ring|split; [exact H1|split; [exact H2|split]]]].
  - unfold unit_cube, cube_faces. erewrite poly_volume_six by reflexivity. volume_of. unfold pt. cbn. field.
  - erewrite poly_volume_six by reflexivity. volume_of.
    rewrite !mid_cut by lra. unfold pt. cbn. field.
  - erewrite poly_volume_six by reflexivity. volume_of.
    rewrite !mid_cut by lra. unfold pt. cbn. field.
Qed.
Print Assumptions C69_volume_refuted.

Example C69_half_spaces_example : pm_ok unit_cube /\ closed_mesh unit_cube /\ exists m1, poly_clip [mid_plane 1] unit_cube = Some m1 /\ pm_cells m1 = [[0; 1; 2; 3; 4; 5]] /\ length (pm_vertices m1) = 8.
Proof.
  split; [split; apply Forall_forall; intros l Hl; apply Forall_forall; intros x Hx; cbn in *; repeat (apply elem_of_cons in Hl as [->|Hl]; [repeat (apply elem_of_cons in Hx as [->|Hx]; [lia|]); by apply elem_of_nil in Hx|]); by apply elem_of_nil in Hl|].
  split; [unfold closed_mesh; constructor; [|constructor]; apply oriented_closed; unfold oriented, cell_faces; cbn; perm_pairs|].
  eexists. split; [change (poly_clip [mid_plane 1] unit_cube) with (clip_mesh (hs_in (mid_plane 1)) (hs_cut (mid_plane 1)) (fun _ => 0%R) unit_cube); apply clip_below; cbn [map]; rewrite !mid_in; decs; reflexivity|]. done.
Qed.

(** ** the sphere *)
(** C69: the "sphere" of positive radius is flat: all its vertices lie in the plane above the centre at distance [radius]. The normals point
    inwards, so what is kept are the points outside. *)
Theorem C69_sphere_refuted (center : vec) (radius : R) (num_sweeps : nat) : (0 < radius)%R -> 0 < num_sweeps ->
  exists m, stupid_sphere center radius num_sweeps = Some m /\ pm_ok m /\ forall x, x ∈ pm_vertices m -> x 2%nat = (center 2%nat + radius)%R.
Proof.
  intros Hr Hn. unfold stupid_sphere. rewrite decide_False by lia.
  set (cube := hex_mesh (2 * radius)%R 1 1 1 1). set (cube' := Mesh (map (fun (v : vec) i => (v i + pt [- radius; - radius; - radius] i)%R) (ms_vertices cube)) (ms_cells cube)).
  assert (Ec : ms_cells cube' = [[0; 1; 3; 2; 4; 5; 7; 6]]) by reflexivity.
  assert (Ev : exists a b c d e f g h : vec, ms_vertices cube' = [a; b; c; d; e; f; g; h] /\ Forall (fun v : vec => (v 2%nat <= radius)%R) [a; b; c; d; e; f; g; h]).
  { unfold cube', cube, hex_mesh, for_range. cbn. do 8 eexists. split; [reflexivity|]. repeat (constructor; [unfold pt; cbn; lra|]). constructor. }
  destruct Ev as (a & b & c & d & e & f & g & h & Ev & Hz).
  destruct (C71_mesh_to_poly hex8_kind cube' hex8_ok) as (p & Ep & Hok & Hv & _).
  { rewrite Ec. constructor; [reflexivity|constructor]. }
  { rewrite Ec, Ev. cbn. constructor; [|constructor]. repeat (constructor; [lia|]). constructor. }
  match goal with |- context [mbind ?f (mesh_to_poly hex8_kind ?c)] => replace (mesh_to_poly hex8_kind c) with (Some p) by (symmetry; exact Ep) end.
  cbn [mbind option_bind]. set (hs := for_range num_sweeps _). destruct (C69_half_spaces hs p Hok) as (m & -> & Hok' & _ & Hin & Hconv). cbn [mbind option_bind].
  eexists. split; [reflexivity|]. split.
  { destruct Hok' as [O1 O2]. split; cbn; [|exact O2]. rewrite map_length. exact O1. }
  cbn [pm_vertices poly_translate]. intros x Hx. apply elem_of_list_fmap in Hx as (y & -> & Hy). enough (y 2%nat = radius) by lra. apply Rle_antisym.
  - assert (F : Forall (fun v : vec => (v 2%nat <= radius)%R) (pm_vertices m)); [|rewrite Forall_forall in F; by apply F]. apply Hconv; [|exact (eq_ind_r (fun l => Forall (fun v : vec => (v 2%nat <= radius)%R) l) Hz (eq_trans Hv Ev))]. cbn. intros u v t Hu Hv' Ht. nra.
  - assert (H0 : sphere_plane radius num_sweeps 0 0 ∈ hs).
    { unfold hs, for_range. apply elem_of_concat. exists (concat (map (fun j => [sphere_plane radius num_sweeps 0 j]) (seq 0 num_sweeps))). split.
      - apply elem_of_list_fmap. exists 0. split; [done|]. apply elem_of_seq. lia.
      - apply elem_of_concat. exists [sphere_plane radius num_sweeps 0 0]. split; [|by left]. apply elem_of_list_fmap. exists 0. split; [done|]. apply elem_of_seq. lia. }
    specialize (Hin _ y H0 Hy). unfold sphere_plane, inner in Hin. cbn [fst snd] in Hin.
    replace (PI * INR 0 / INR num_sweeps)%R with 0%R in Hin by (cbn; unfold Rdiv; ring). rewrite sin_0, cos_0 in Hin.
    assert (Nm : norm 3 (pt [radius * 0 * cos (2 * PI * INR 0 / INR num_sweeps); radius * 0 * sin (2 * PI * INR 0 / INR num_sweeps); radius * 1]%R) = radius).
    { unfold norm. cbn [dot]. unfold pt. cbn [lookup list_lookup default]. etransitivity; [|apply sqrt_square; lra]. f_equal. cbn. ring. }
    unfold normalize3 in Hin. rewrite Nm in Hin. unfold pt in Hin. cbn in Hin. 
    assert (H1 : (radius * 1 / radius = 1)%R) by (field; lra). rewrite H1 in Hin. replace (radius * 0 * cos (2 * PI * 0 / INR num_sweeps) / radius)%R with 0%R in Hin by (field; lra). replace (radius * 0 * sin (2 * PI * 0 / INR num_sweeps) / radius)%R with 0%R in Hin by (field; lra). lra.
Qed.
Print Assumptions C69_sphere_refuted.
(** the code builds such a sphere of radius 1 with three sweeps *)
Example C69_sphere_example : exists m, stupid_sphere (pt [0; 0; 0]%R) 1 3 = Some m.
Proof. destruct (C69_sphere_refuted (pt [0; 0; 0]%R) 1 3) as (m & E & _); [lra|lia|by exists m]. Qed.

(** C70: triangulation of polymeshes and conversion to tetrahedral meshes (polymesh.rs:325-443, mesh_convert.rs:490-502, 565-656). *)
From stdpp Require Import base list list_numbers sorting.
From Verif Require Import Prelude ReorderModel MeshModel MeshProofs PolyModel PolySpec PolyProofs PropPolyMesh PropPolyOps PolyTriProofs.

(** Triangulating a mesh with indices in bounds fails exactly if a face has fewer than three vertices and never panics. *)
Theorem C70_triangulate {V} (m : polymesh V) : pm_ok m ->
  (~ Forall (fun f => 3 <= length f) (pm_faces m) -> triangulate_mesh m = Err tt) /\
  (Forall (fun f => 3 <= length f) (pm_faces m) ->
   exists p tss, triangulate_mesh m = Ok p /\ pm_ok p /\ pm_vertices p = pm_vertices m /\
   (forall i j a b, pm_faces p !! i = Some a -> pm_faces p !! j = Some b -> a ≡ₚ b -> i = j) /\ Forall (fun t => length t = 3) (pm_faces p) /\
   Forall2 (is_cone (pm_faces m)) (pm_cells m) tss /\ Forall2 (is_tet_cell (pm_faces p)) (pm_cells p) (concat tss)).
Proof.
  intros Hok. unfold triangulate_mesh. split; [intros N; by rewrite decide_False|]. intros H3. rewrite decide_True by done.
  destruct (mapM_ok fan (pm_faces m)) as (fans & Ef & Ff).
  { intros face Hface. rewrite Forall_forall in H3. destruct (fan_spec face) as (ts & E & _); [specialize (H3 face Hface); lia|by exists ts]. }
  rewrite Ef. cbn [mbind option_bind]. rewrite (face_map_spec fans [] 0). cbn [fst app].
  assert (Hfans : Forall2 (fun face ts => is_fan face ts) (pm_faces m) fans).
  { apply Forall2_same_length_lookup. split; [by apply (Forall2_length _ _ _ Ff)|]. intros i face ts Hi Hts. destruct (Forall2_lookup_l _ _ _ _ _ Ff Hi) as (ts' & Hts' & E). rewrite Hts in Hts'. injection Hts' as <-.
    rewrite Forall_lookup in H3. destruct (fan_spec face) as (ts' & E' & Hfan & _); [specialize (H3 i face Hi); cbn in H3; lia|]. congruence. }
  destruct Hok as [O1 O2].
  destruct (cone_cells (pm_faces m) (length (pm_vertices m)) fans Hfans O1 (pm_cells m) (concat fans) [] []) as (tris & cells & tss & E & (P & F & C) & Hcone).
  { split; [done|]. split; [|constructor]. apply Forall_forall. intros t Ht. apply elem_of_concat in Ht as (ts & Hts & Ht). apply elem_of_list_lookup in Hts as [i Hi]. destruct (Forall2_lookup_r _ _ _ _ _ Hfans Hi) as (face & Hface & Hfan).
    pose proof (is_fan_3 _ _ Hfan) as G3. rewrite Forall_forall in G3. destruct (G3 t Ht) as (a & b & c & -> & Ha & Hb & Hc). split; [done|]. rewrite Forall_lookup in O1. specialize (O1 i face Hface). rewrite Forall_forall in O1.
    repeat constructor; by apply O1. }
  { done. }
  { eapply Forall_impl; [exact H3|]. intros face L ->. cbn in L. lia. }
  change (fun (i : nat) (f : list (list nat)) => seq (0 + length (concat (take i fans))) (length f)) with (fun (i : nat) (f : list (list nat)) => seq (length (concat (take i fans))) (length f)).
  rewrite E. cbn [mbind option_bind]. cbn [app] in C.
  assert (Hp : pm_ok (PolyMesh (pm_vertices m) tris cells)).
  { split; cbn.
    - eapply Forall_impl; [exact F|]. intros t [_ Ht]. done.
    - apply Forall_lookup. intros i cell Hi. destruct (Forall2_lookup_l _ _ _ _ _ C Hi) as (tv & _ & a & b & c & f0 & f1 & f2 & f3 & _ & _ & -> & L0 & L1 & L2 & L3).
      repeat constructor; by eapply lookup_lt_Some. }
  rewrite from_poly_data_ok by done. cbn [mbind option_bind]. destruct (C50_dedup _ Hp) as (p & -> & Hok & Ev & F2 & Hu & Hs & _). cbn [pm_vertices pm_faces pm_cells] in *.
  exists p, tss. split_and!; try done.
  - apply Forall_forall. intros t Ht. rewrite Forall_forall in F. apply F. eapply elem_of_submseteq; [exact Ht|by apply sublist_submseteq].
  - apply Forall2_same_length_lookup. split; [by rewrite <- (Forall2_length _ _ _ F2), (Forall2_length _ _ _ C)|]. intros i cell tv Hcell Htv.
    destruct (Forall2_lookup_r _ _ _ _ _ F2 Hcell) as (cell0 & Hcell0 & G). destruct (Forall2_lookup_l _ _ _ _ _ C Hcell0) as (tv' & Htv' & a & b & c & f0 & f1 & f2 & f3 & Et & Hn & -> & L0 & L1 & L2 & L3).
    rewrite Htv in Htv'. injection Htv' as <-.
    apply Forall2_cons_inv_l in G as (h0 & cell1 & (x0 & g0 & A0 & B0 & C0) & G & ->). apply Forall2_cons_inv_l in G as (h1 & cell2 & (x1 & g1 & A1 & B1 & C1) & G & ->).
    apply Forall2_cons_inv_l in G as (h2 & cell3 & (x2 & g2 & A2 & B2 & C2) & G & ->). apply Forall2_cons_inv_l in G as (h3 & cell4 & (x3 & g3 & A3 & B3 & C3) & G & ->). apply Forall2_nil_inv_l in G as ->.
    exists a, b, c, h0, h1, h2, h3, g0, g1, g2, g3. rewrite L0 in A0. rewrite L1 in A1. rewrite L2 in A2. rewrite L3 in A3. injection A0 as <-. injection A1 as <-. injection A2 as <-. injection A3 as <-. split_and!; done.
Qed.
Print Assumptions C70_triangulate.

Lemma perm3 (l : list nat) a b c : l ≡ₚ [a; b; c] -> exists x y z, l = [x; y; z].
Proof. intros H. apply Permutation_length in H. destruct l as [|x [|y [|z [|]]]]; try done. by exists x, y, z. Qed.
Lemma ofold_snoc {A B} (g : A -> outcome unit B) l acc k : Forall2 (fun x y => g x = Ok y) l k -> ofold (fun acc x => let! t := g x in Ok (acc ++ [t])) acc l = Ok (acc ++ k).
Proof.
  intros F. revert acc. induction F as [|x y l k E F IH]; intros acc; cbn; [by rewrite app_nil_r|]. rewrite E. cbn. rewrite IH. by rewrite <- app_assoc.
Qed.
(** A mesh of such cells always converts to a tetrahedral mesh with the same vertices; every tetrahedron consists of the triangle, in some
    order, and the apex; if the test for the apex is antisymmetric the apex is never below the base. *)
Theorem C70_to_tet {V} (below : V -> V -> V -> V -> bool) (p : polymesh V) tets : pm_ok p -> Forall2 (is_tet_cell (pm_faces p)) (pm_cells p) tets ->
  exists cells, poly_to_tet below p = Ok (Mesh (pm_vertices p) cells) /\
  Forall2 (fun cell tv => exists x y z, cell = [x; y; z; tv.2] /\ [x; y; z] ≡ₚ tv.1 /\
    ((forall a b c d, below a b c d = true -> below b a c d = false) -> exists vx vy vz vd, pm_vertices p !! x = Some vx /\ pm_vertices p !! y = Some vy /\ pm_vertices p !! z = Some vz /\
       pm_vertices p !! tv.2 = Some vd /\ below vx vy vz vd = false)) cells tets.
Proof.
  intros [O1 O2] F. unfold poly_to_tet.
  assert (G : forall cell tv, is_tet_cell (pm_faces p) cell tv -> exists t, cell_to_tet below p cell = Ok t /\ exists x y z, t = [x; y; z; tv.2] /\ [x; y; z] ≡ₚ tv.1 /\
    ((forall a b c d, below a b c d = true -> below b a c d = false) -> exists vx vy vz vd, pm_vertices p !! x = Some vx /\ pm_vertices p !! y = Some vy /\ pm_vertices p !! z = Some vz /\
       pm_vertices p !! tv.2 = Some vd /\ below vx vy vz vd = false)).
  { intros cell [t v] (a & b & c & f0 & f1 & f2 & f3 & g0 & g1 & g2 & g3 & -> & Hn & -> & L0 & L1 & L2 & L3 & P0 & P1 & P2 & P3). cbn [fst snd] in *.
    unfold cell_to_tet. cbn [mapM mbind option_bind]. rewrite L0, L1, L2, L3. cbn [mbind option_bind mret option_ret]. destruct (perm3 _ _ _ _ P0) as (x & y & z & ->).
    assert (Hbase : forall i, i ∈ [x; y; z] <-> i ∈ [a; b; c]) by (intros i; by rewrite P0).
    assert (Hv : v ∉ [x; y; z]) by by rewrite Hbase.
    destruct (filter (fun i => i ∉ [x; y; z]) g1) as [|w r] eqn:Ef.
    - exfalso. assert (v ∈ filter (fun i => i ∉ [x; y; z]) g1) as Hin; [|rewrite Ef in Hin; by apply elem_of_nil in Hin]. apply elem_of_list_filter. split; [done|]. rewrite P1. right. right. by left.
    - assert (w ∈ filter (fun i => i ∉ [x; y; z]) g1) as Hin by (rewrite Ef; by left). apply elem_of_list_filter in Hin as [Hw Hin]. rewrite P1 in Hin.
      assert (w = v) as ->. { apply elem_of_cons in Hin as [->|Hin]; [destruct Hw; apply Hbase; by left|]. apply elem_of_cons in Hin as [->|Hin]; [destruct Hw; apply Hbase; right; by left|]. by apply elem_of_list_singleton in Hin. }
      rewrite decide_True.
      2:{ assert (K : forall (g : list nat) s t, g ≡ₚ [s; t; v] -> s ∈ [a; b; c] -> t ∈ [a; b; c] -> Forall (fun i => i ∈ [x; y; z] \/ v = i) g).
          { intros g s t' Hg Hs Ht. rewrite Hg. constructor; [left; by apply Hbase|]. constructor; [left; by apply Hbase|]. constructor; [by right|constructor]. }
          repeat constructor.
          - apply (K g1 a b); [done|by left|right; by left].
          - apply (K g2 b c); [done|right; by left|right; right; by left].
          - apply (K g3 c a); [done|right; right; by left|by left]. }
      assert (Hb : forall f g i, pm_faces p !! f = Some g -> i ∈ g -> is_Some (pm_vertices p !! i)).
      { intros f g i Hg Hi. rewrite Forall_lookup in O1. specialize (O1 f g Hg). rewrite Forall_forall in O1. by apply lookup_lt_is_Some_2, O1. }
      destruct (Hb f0 _ x L0) as [vx Ex]; [by left|]. destruct (Hb f0 _ y L0) as [vy Ey]; [right; by left|]. destruct (Hb f0 _ z L0) as [vz Ez]; [right; right; by left|].
      destruct (Hb f1 _ v L1) as [vd Ed]; [rewrite P1; right; right; by left|].
      cbn [mapM mbind option_bind]. rewrite Ex, Ey, Ez, Ed. cbn [mbind option_bind mret option_ret].
      destruct (below vx vy vz vd) eqn:Eb.
      + exists [y; x; z; v]. split; [done|]. exists y, x, z. split; [done|]. split; [rewrite <- P0; constructor|]. intros Hanti. exists vy, vx, vz, vd. split_and!; try done. by apply Hanti.
      + exists [x; y; z; v]. split; [done|]. exists x, y, z. split; [done|]. split; [done|]. intros _. by exists vx, vy, vz, vd. }
  assert (exists cells, Forall2 (fun x y => cell_to_tet below p x = Ok y) (pm_cells p) cells /\ Forall2 (fun cell tv => exists x y z, cell = [x; y; z; tv.2] /\ [x; y; z] ≡ₚ tv.1 /\
    ((forall a b c d, below a b c d = true -> below b a c d = false) -> exists vx vy vz vd, pm_vertices p !! x = Some vx /\ pm_vertices p !! y = Some vy /\ pm_vertices p !! z = Some vz /\
       pm_vertices p !! tv.2 = Some vd /\ below vx vy vz vd = false)) cells tets) as (cells & F1 & F2).
  { clear -F G. induction F as [|cell tv cells tets H F IH]; [by exists []|]. destruct IH as (k & F1 & F2). destruct (G cell tv H) as (t & Et & Ht). exists (t :: k). split; by constructor. }
  exists cells. split; [|done]. rewrite (ofold_snoc (cell_to_tet below p) _ [] _ F1). done.
Qed.
Print Assumptions C70_to_tet.

(** Together: the conversion of a triangulated mesh never fails. *)
Theorem C70_triangulate_to_tet {V} (below : V -> V -> V -> V -> bool) (m : polymesh V) : pm_ok m -> Forall (fun f => 3 <= length f) (pm_faces m) ->
  exists p cells tss, triangulate_mesh m = Ok p /\ poly_to_tet below p = Ok (Mesh (pm_vertices m) cells) /\ Forall2 (is_cone (pm_faces m)) (pm_cells m) tss /\
  Forall2 (fun cell tv => exists x y z, cell = [x; y; z; tv.2] /\ [x; y; z] ≡ₚ tv.1) cells (concat tss).
Proof.
  intros Hok H3. destruct (proj2 (C70_triangulate m Hok) H3) as (p & tss & E & Hp & Ev & _ & _ & F1 & F2). destruct (C70_to_tet below p (concat tss) Hp F2) as (cells & Ec & F3). rewrite Ev in Ec.
  exists p, cells, tss. split_and!; try done. eapply Forall2_impl; [exact F3|]. intros cell tv (x & y & z & ? & ? & _). by exists x, y, z.
Qed.
Print Assumptions C70_triangulate_to_tet.

(** "The conversion of any polymesh returns a result or an error": false, a cell of four faces whose first face is not a triangle panics. This
    happens for a tetrahedron whose edges were split. *)
Theorem C70_to_tet_refuted : exists m : polymesh nat, pm_ok m /\ poly_to_tet (fun _ _ _ _ => false) m = Panic /\
  exists t, pm_ok t /\ split_edges (fun a b => (a + b) / 2) t = Some m /\ triangulate_mesh t = Ok t.
Proof.
  exists (PolyMesh [0; 10; 20; 30; 5; 15; 10; 20; 15; 25] [[0;4;1;5;2;6]; [0;4;1;7;3;8]; [1;5;2;9;3;7]; [0;6;2;9;3;8]] [[2;0;3;1]]). split; [split; repeat constructor|]. split; [by vm_compute|].
  exists (PolyMesh [0; 10; 20; 30] [[0;1;2]; [0;1;3]; [1;2;3]; [0;2;3]] [[2;0;3;1]]). split; [split; repeat constructor|]. split; by vm_compute.
Qed.
Print Assumptions C70_to_tet_refuted.

(** A cube of one cell: the three faces that do not contain vertex 0 give two tetrahedra each. *)
Example C70_example : let m := PolyMesh (seq 0 8) [[0;1;2;3]; [4;5;6;7]; [0;1;5;4]; [1;2;6;5]; [2;3;7;6]; [3;0;4;7]] [[0;1;2;3;4;5]] in
  pm_ok m /\ Forall (fun f => 3 <= length f) (pm_faces m) /\
  (exists p, triangulate_mesh m = Ok p /\ length (pm_faces p) = 18 /\
   poly_to_tet (fun _ _ _ _ => false) p = Ok (Mesh (seq 0 8) [[4;5;6;0]; [4;6;7;0]; [1;2;6;0]; [1;6;5;0]; [2;3;7;0]; [2;7;6;0]])).
Proof. cbn zeta. split; [split; repeat constructor|]. split; [repeat constructor|]. eexists. split; [by vm_compute|]. split; by vm_compute. Qed.

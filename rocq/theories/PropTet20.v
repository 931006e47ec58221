(** Property C61: conversion of tetrahedral meshes to and from higher order. *)
From stdpp Require Import base list list_numbers sets sorting.
From Coq Require Import Reals Lia Lra.
From Verif Require Import Prelude ReorderModel ReorderSpec MeshModel MeshSpec MeshProofs PropMesh ElementModel ConvertModel FacesSpec ConvertSpec PropConvert
  Tet20Model Tet20Spec Tet20Proofs.

Lemma mapM_exists {A B} (f : A -> option B) (l : list A) : (forall x, x ∈ l -> f x <> None) -> exists l', mapM f l = Some l'.
Proof.
  intros H. apply mapM_is_Some_2. apply Forall_forall. intros x Hx. destruct (f x) eqn:E; [by eexists|]. by apply H in Hx.
Qed.

Section conversion.
  Context (search : list nkey -> nkey -> option nat) (Hsearch : search_contract search).
  Context (m : mesh point) (Hm : cells_of_size 4 m).
  Notation ul := (unlabeled_vertices (ms_cells m)).

  Lemma cell_ok k cell : ms_cells m !! k = Some cell -> length cell = 4 /\ Forall (fun v => v < length (ms_vertices m)) cell.
  Proof. intros H. unfold cells_of_size in Hm. rewrite Forall_forall in Hm. apply Hm. by eapply elem_of_list_lookup_2. Qed.

  Lemma key_in k cell j key : ms_cells m !! k = Some cell -> unlabeled cell !! j = Some key -> key ∈ ul.
  Proof. intros H1 H2. apply unlabeled_elem. exists cell. split; by eapply elem_of_list_lookup_2. Qed.

  Lemma search_some key i : search ul key = Some i -> ul !! i = Some key.
  Proof. apply (proj1 (Hsearch ul key (unlabeled_sorted _))). Qed.

  Lemma key_good key : key ∈ ul -> good key /\ Forall (fun v => v < length (ms_vertices m)) (key_set key).
  Proof.
    intros H. apply unlabeled_elem in H as (cell & Hc & Hk). apply elem_of_list_lookup_1 in Hc as [k Hc]. apply elem_of_list_lookup_1 in Hk as [j Hk].
    destruct (cell_ok _ _ Hc) as [Hl Hr]. destruct (unlabeled_parents cell j key Hl Hk) as (ps & Hps & Hp & Hg & _). split; [done|].
    rewrite Hp. by eapply parents_range.
  Qed.

  Lemma converts : exists cells vertices, tet20_from_tet4_mesh search m = Some (Mesh vertices cells) /\
    Forall2 (fun cell cell' => Forall2 (fun key i => ul !! i = Some key) (unlabeled cell) cell') (ms_cells m) cells /\
    Forall2 (fun key p => key_vertex (ms_vertices m) key = Some p) ul vertices.
  Proof.
    destruct (mapM_exists (fun cell => mapM (search ul) (unlabeled cell)) (ms_cells m)) as [cells Hc].
    { intros cell Hc He. destruct (mapM_exists (search ul) (unlabeled cell)) as [l Hl]; [|congruence].
      intros key Hk. apply (proj2 (Hsearch ul key (unlabeled_sorted _))). apply unlabeled_elem. by exists cell. }
    destruct (mapM_exists (key_vertex (ms_vertices m)) ul) as [vs Hv].
    { intros key Hk. destruct (key_good key Hk) as [Hg Hr]. destruct (key_vertex_ok _ _ Hg Hr) as (p & -> & _). done. }
    exists cells, vs. split; [unfold tet20_from_tet4_mesh; cbv zeta; rewrite Hc; cbn; by rewrite Hv|].
    split; [|by apply mapM_Forall2]. apply mapM_Forall2 in Hc. eapply Forall2_impl; [exact Hc|].
    intros cell cell' H. apply mapM_Forall2 in H. eapply Forall2_impl; [exact H|]. intros key i. apply search_some.
  Qed.
End conversion.

(** C61: the conversion succeeds; node [j] of every new cell is at the mean of the corners it stands for, and all vertices are used. *)
Theorem C61_tet20 : forall search m, search_contract search -> cells_of_size 4 m ->
  exists m', tet20_from_tet4_mesh search m = Some m' /\
    cells_of_size 20 m' /\ length (ms_cells m') = length (ms_cells m) /\ all_used m' /\
    forall k cell cell' j i, ms_cells m !! k = Some cell -> ms_cells m' !! k = Some cell' -> cell' !! j = Some i ->
      exists ps, tet20_parents cell j = Some ps /\ forall d, coord (ms_vertices m') d i = mean (map (coord (ms_vertices m) d) ps).
Proof.
  intros search m Hs Hm. destruct (converts search Hs m Hm) as (cells & vs & Hf & Hc & Hv). exists (Mesh vs cells). split; [exact Hf|]. cbn.
  split; [|split; [symmetry; by eapply Forall2_length|split]].
  - unfold cells_of_size. cbn. apply Forall_forall. intros cell' H. apply elem_of_list_lookup_1 in H as [k H].
    destruct (Forall2_lookup_r _ _ _ _ _ Hc H) as (cell & Hcell & HF). destruct (cell_ok _ Hm _ _ Hcell) as [Hl _].
    split; [rewrite <- (Forall2_length _ _ _ HF); by apply unlabeled_length|].
    apply Forall_forall. intros i Hi. apply elem_of_list_lookup_1 in Hi as [j Hi].
    destruct (Forall2_lookup_r _ _ _ _ _ HF Hi) as (key & _ & Hkey). rewrite <- (Forall2_length _ _ _ Hv). by eapply lookup_lt_Some.
  - intros i Hi. cbn in *. rewrite <- (Forall2_length _ _ _ Hv) in Hi. destruct (lookup_lt_is_Some_2 _ _ Hi) as [key Hkey].
    assert (key ∈ unlabeled_vertices (ms_cells m)) as Hin by (by eapply elem_of_list_lookup_2).
    apply unlabeled_elem in Hin as (cell & Hcell & Hk). apply elem_of_list_lookup_1 in Hcell as [k Hcell]. apply elem_of_list_lookup_1 in Hk as [j Hk].
    destruct (Forall2_lookup_l _ _ _ _ _ Hc Hcell) as (cell' & Hcell' & HF). destruct (Forall2_lookup_l _ _ _ _ _ HF Hk) as (i' & Hi' & Hkey').
    assert (i = i') as ->. { eapply NoDup_lookup; [apply lex_nodup, unlabeled_sorted|exact Hkey|exact Hkey']. }
    apply elem_of_list_In, in_concat. exists cell'. rewrite <- !elem_of_list_In. split; by eapply elem_of_list_lookup_2.
  - intros k cell cell' j i Hcell Hcell' Hi. destruct (Forall2_lookup_l _ _ _ _ _ Hc Hcell) as (c' & Hc'' & HF).
    assert (c' = cell') as -> by congruence. destruct (Forall2_lookup_r _ _ _ _ _ HF Hi) as (key & Hkey & Hul).
    destruct (cell_ok _ Hm _ _ Hcell) as [Hl Hr]. destruct (unlabeled_parents cell j key Hl Hkey) as (ps & Hps & Hp & Hg & _).
    exists ps. split; [done|]. intros d. destruct (Forall2_lookup_l _ _ _ _ _ Hv Hul) as (p & Hp' & Hkv).
    destruct (key_vertex_ok (ms_vertices m) key Hg) as (p' & Hkv' & Hmean); [rewrite Hp; by eapply parents_range|].
    rewrite (coord_lookup _ _ _ _ Hp'). assert (p = p') as -> by congruence. rewrite Hmean. apply mean_perm. by rewrite Hp.
Qed.
Print Assumptions C61_tet20.

(** C61: nodes are shared exactly when they stand for the same corners: the mesh is conforming if the given one is. Nodes that
    coincide always stand for the same corners; the converse needs cells with four distinct vertices. *)
Theorem C61_shared : forall search m m', search_contract search -> cells_of_size 4 m -> tet20_from_tet4_mesh search m = Some m' ->
  forall k1 k2 c1 c2 c1' c2' j1 j2 i1 i2 ps1 ps2,
    ms_cells m !! k1 = Some c1 -> ms_cells m !! k2 = Some c2 -> ms_cells m' !! k1 = Some c1' -> ms_cells m' !! k2 = Some c2' ->
    c1' !! j1 = Some i1 -> c2' !! j2 = Some i2 -> tet20_parents c1 j1 = Some ps1 -> tet20_parents c2 j2 = Some ps2 ->
    (i1 = i2 -> ps1 ≡ₚ ps2) /\ (NoDup c1 -> NoDup c2 -> ps1 ≡ₚ ps2 -> i1 = i2).
Proof.
  intros search m m' Hs Hm Hf k1 k2 c1 c2 c1' c2' j1 j2 i1 i2 ps1 ps2 H1 H2 H1' H2' Hi1 Hi2 Hp1 Hp2.
  destruct (converts search Hs m Hm) as (cells & vs & Hf' & Hc & Hv). assert (m' = Mesh vs cells) as -> by congruence. cbn in *.
  destruct (Forall2_lookup_l _ _ _ _ _ Hc H1) as (x1 & Hx1 & HF1). assert (x1 = c1') as -> by congruence.
  destruct (Forall2_lookup_l _ _ _ _ _ Hc H2) as (x2 & Hx2 & HF2). assert (x2 = c2') as -> by congruence.
  destruct (Forall2_lookup_r _ _ _ _ _ HF1 Hi1) as (key1 & Hk1 & Hu1). destruct (Forall2_lookup_r _ _ _ _ _ HF2 Hi2) as (key2 & Hk2 & Hu2).
  destruct (cell_ok _ Hm _ _ H1) as [Hl1 _]. destruct (cell_ok _ Hm _ _ H2) as [Hl2 _].
  destruct (unlabeled_parents _ _ _ Hl1 Hk1) as (q1 & Hq1 & Hkq1 & _ & Hst1). destruct (unlabeled_parents _ _ _ Hl2 Hk2) as (q2 & Hq2 & Hkq2 & _ & Hst2).
  assert (q1 = ps1) as -> by congruence. assert (q2 = ps2) as -> by congruence. split.
  - intros ->. assert (key1 = key2) as -> by congruence. by rewrite <- Hkq1, <- Hkq2.
  - intros Hn1 Hn2 Hp. assert (key1 = key2) as ->. { apply key_set_inj; [auto..|]. by rewrite Hkq1, Hkq2, Hp. }
    eapply NoDup_lookup; [apply lex_nodup, unlabeled_sorted|exact Hu1|exact Hu2].
Qed.
Print Assumptions C61_shared.

(** C61: the new cells are the images of the reference Tet20 under the map of the given cell, node by node. *)
Theorem C61_map : forall search m m', search_contract search -> cells_of_size 4 m -> tet20_from_tet4_mesh search m = Some m' ->
  forall k cell cell' ps j i x, ms_cells m !! k = Some cell -> ms_cells m' !! k = Some cell' ->
    mapM (fun v => (ms_vertices m !! v : option point)) cell = Some ps -> cell' !! j = Some i -> el_ref tet20 !! j = Some x ->
    forall d, coord (ms_vertices m') d i = el_map tet4 ps (pt x) d.
Proof.
  intros search m m' Hs Hm Hf k cell cell' ps j i x Hcell Hcell' Hps Hi Hx d.
  destruct (C61_tet20 search m Hs Hm) as (m1 & Hf1 & _ & _ & _ & H). assert (m1 = m') as -> by congruence.
  destruct (H k cell cell' j i Hcell Hcell' Hi) as (pa & Hpa & Hc). rewrite Hc. clear Hc H.
  destruct (cell_ok _ Hm _ _ Hcell) as [Hl _]. apply mapM_Forall2 in Hps.
  destruct cell as [|v0 [|v1 [|v2 [|v3 [|? ?]]]]]; cbn in Hl; try lia.
  destruct ps as [|p0 [|p1 [|p2 [|p3 [|? ?]]]]]; try (exfalso; apply Forall2_length in Hps; cbn in Hps; lia).
  inversion_clear Hps as [|???? E0 Hps1]. inversion_clear Hps1 as [|???? E1 Hps2]. inversion_clear Hps2 as [|???? E2 Hps3]. inversion_clear Hps3 as [|???? E3 _].
  pose proof (coord_lookup _ _ d _ E0) as C0. pose proof (coord_lookup _ _ d _ E1) as C1. pose proof (coord_lookup _ _ d _ E2) as C2. pose proof (coord_lookup _ _ d _ E3) as C3.
  assert (j < 20) as Hj by (apply lookup_lt_Some in Hx; exact Hx).
  do 20 (destruct j as [|j]; [injection Hx as <-; injection Hpa as <-; cbn [map]; rewrite ?C0, ?C1, ?C2, ?C3; unfold mean; cbn; unfold pt; cbn; field|]).
  lia.
Qed.
Print Assumptions C61_map.

(** C61: a cell with an index out of range panics. *)
Theorem C61_panic : forall search m cell v, Forall (fun c => length c = 4) (ms_cells m) ->
  cell ∈ ms_cells m -> v ∈ cell -> length (ms_vertices m) ≤ v -> tet20_from_tet4_mesh search m = None.
Proof.
  intros search m cell v Hl Hc Hv Hr. unfold tet20_from_tet4_mesh. cbv zeta.
  assert (mapM (key_vertex (ms_vertices m)) (unlabeled_vertices (ms_cells m)) = None) as ->; [|by destruct (mapM _ (ms_cells m))].
  destruct (mapM _ _) as [vs|] eqn:E; [|done]. exfalso. apply mapM_Forall2 in E.
  assert (normalized_vertex v ∈ unlabeled_vertices (ms_cells m)) as Hin.
  { apply unlabeled_elem. exists cell. split; [done|]. rewrite Forall_forall in Hl. specialize (Hl _ Hc).
    destruct cell as [|a [|b [|c [|d [|? ?]]]]]; cbn in Hl; try lia. cbn [unlabeled]. rewrite !elem_of_cons, elem_of_nil in Hv.
    destruct Hv as [->|[->|[->|[->|[]]]]];
      [apply (elem_of_list_lookup_2 _ 0)|apply (elem_of_list_lookup_2 _ 1)|apply (elem_of_list_lookup_2 _ 2)|apply (elem_of_list_lookup_2 _ 3)]; reflexivity. }
  apply elem_of_list_lookup_1 in Hin as [j Hj]. destruct (Forall2_lookup_l _ _ _ _ _ E Hj) as (p & _ & Hp).
  cbn in Hp. apply lookup_lt_Some in Hp. lia.
Qed.
Print Assumptions C61_panic.

(** C61: in a cell with a repeated vertex, nodes of the same corners stay apart. *)
Theorem C61_shared_refuted : exists m, cells_of_size 4 m /\ forall search m', search_contract search -> tet20_from_tet4_mesh search m = Some m' ->
  exists cell cell' j1 j2 i1 i2 ps, ms_cells m !! 0 = Some cell /\ ms_cells m' !! 0 = Some cell' /\ cell' !! j1 = Some i1 /\ cell' !! j2 = Some i2 /\
    tet20_parents cell j1 = Some ps /\ tet20_parents cell j2 = Some ps /\ i1 <> i2.
Proof.
  set (m := Mesh [pt [0; 0; 0]; pt [1; 0; 0]; pt [0; 1; 0]]%R [[0; 0; 1; 2]]). exists m.
  assert (cells_of_size 4 m) as Hm by (repeat constructor; cbn; lia). split; [done|]. intros search m' Hs Hf.
  destruct (converts search Hs m Hm) as (cells & vs & Hf' & Hc & Hv). assert (m' = Mesh vs cells) as -> by congruence. cbn [ms_cells].
  destruct (Forall2_lookup_l _ _ _ 0 [0; 0; 1; 2] Hc eq_refl) as (cell' & Hcell' & HF).
  destruct (Forall2_lookup_l _ _ _ 0 _ HF eq_refl) as (i1 & Hi1 & Hu1). destruct (Forall2_lookup_l _ _ _ 4 _ HF eq_refl) as (i2 & Hi2 & Hu2).
  exists [0; 0; 1; 2], cell', 0, 4, i1, i2, [0; 0; 0]. repeat split; try done. intros ->. rewrite Hu1 in Hu2. discriminate.
Qed.
Print Assumptions C61_shared_refuted.

(** ** Back to Tet4 *)

(** C61: Tet10 to Tet4 keeps the corners of every cell and exactly the vertices in use. *)
Theorem C61_tet4 : forall m, cells_of_size 10 m -> exists m', tet4_from_tet10_mesh m = Some m' /\
  cells_of_size 4 m' /\ length (ms_cells m') = length (ms_cells m) /\ all_used m' /\
  (forall k, cell_coords m' !! k = take 4 <$> cell_coords m !! k) /\
  (forall k1 k2 c1 c2 c1' c2' j1 j2 i1 i2 v1 v2, j1 < 4 -> j2 < 4 ->
     ms_cells m !! k1 = Some c1 -> ms_cells m !! k2 = Some c2 -> ms_cells m' !! k1 = Some c1' -> ms_cells m' !! k2 = Some c2' ->
     c1' !! j1 = Some i1 -> c2' !! j2 = Some i2 -> c1 !! j1 = Some v1 -> c2 !! j2 = Some v2 -> i1 = i2 <-> v1 = v2).
Proof.
  intros m Hm. unfold tet4_from_tet10_mesh. cbv zeta. set (t := Mesh (ms_vertices m) (map (take 4) (ms_cells m))). set (n := length (ms_cells t)).
  assert (n = length (ms_cells m)) as Hn by (unfold n; cbn; by rewrite map_length).
  assert (forall c, ms_cells t !! c = take 4 <$> ms_cells m !! c) as Ht by (intros c; apply list_lookup_fmap).
  assert (forall k cell, ms_cells m !! k = Some cell -> length cell = 10 /\ Forall (fun v => v < length (ms_vertices m)) cell) as Hok.
  { intros k cell H. unfold cells_of_size in Hm. rewrite Forall_forall in Hm. apply Hm. by eapply elem_of_list_lookup_2. }
  destruct (C27_keep_cells point t (seq 0 n)) as [Hk _]. destruct Hk as (kept & m' & Hkeep & Hused & Hrest).
  { intros i c Hc. apply lookup_seq in Hc as [-> Hi]. cbn. rewrite Hn in Hi. destruct (lookup_lt_is_Some_2 _ _ Hi) as [cell Hcell].
    exists (take 4 cell). split; [change (ms_cells t !! i = Some (take 4 cell)); rewrite Ht, Hcell; done|].
    destruct (Hok _ _ Hcell) as [_ Hr]. by apply Forall_take. }
  destruct (C27_keep_cells_coordinates point t m' (seq 0 n) Hkeep) as (Hrange & Hlen & Hcoord & Hall).
  exists m'. split; [exact Hkeep|]. rewrite seq_length in Hlen. destruct Hrest as [Hv Hcells].
  assert (forall k cell', ms_cells m' !! k = Some cell' -> exists cell, ms_cells m !! k = Some cell /\ Forall2 (fun a' a => kept !! a' = Some a) cell' (take 4 cell)) as Hrel.
  { intros k cell' Hc'. destruct (Forall2_lookup_r _ _ _ _ _ Hcells Hc') as (c & Hseq & cell & Hcell & HF).
    apply lookup_seq in Hseq as [-> _]. cbn in Hcell. change (ms_cells t !! k = Some cell) in Hcell. rewrite Ht in Hcell. destruct (ms_cells m !! k) as [c0|]; [|done].
    cbn in Hcell. exists c0. split; [done|]. by injection Hcell as <-. }
  split; [|split; [congruence|split; [|split]]].
  - unfold cells_of_size. apply Forall_forall. intros cell' Hc'. apply elem_of_list_lookup_1 in Hc' as [k Hc']. split.
    + destruct (Hrel _ _ Hc') as (cell & Hcell & HF). rewrite (Forall2_length _ _ _ HF), take_length. destruct (Hok _ _ Hcell) as [-> _]. done.
    + rewrite Forall_forall in Hrange. apply Hrange. by eapply elem_of_list_lookup_2.
  - intros i Hi. destruct (Hall i Hi) as (cell' & Hc' & Hi'). apply elem_of_list_In, in_concat. exists cell'. by rewrite <- !elem_of_list_In.
  - intros k. destruct (decide (k < n)) as [Hk|Hk].
    + rewrite (Hcoord k k); [|apply lookup_seq; split; [done|lia]]. unfold cell_coords. cbn [ms_vertices ms_cells t].
      change (map (map (fun a => ms_vertices m !! a)) (map (take 4) (ms_cells m)) !! k = take 4 <$> map (map (fun a => ms_vertices m !! a)) (ms_cells m) !! k).
      rewrite map_map. rewrite !list_lookup_fmap. destruct (ms_cells m !! k); cbn; [|done]. f_equal. apply fmap_take.
    + unfold cell_coords. rewrite !list_lookup_fmap. rewrite !(proj2 (lookup_ge_None _ _)) by lia. done.
  - intros k1 k2 c1 c2 c1' c2' j1 j2 i1 i2 v1 v2 Hj1 Hj2 H1 H2 H1' H2' Hi1 Hi2 Hv1 Hv2.
    destruct (Hrel _ _ H1') as (x1 & Hx1 & HF1). assert (x1 = c1) as -> by congruence.
    destruct (Hrel _ _ H2') as (x2 & Hx2 & HF2). assert (x2 = c2) as -> by congruence.
    destruct (Forall2_lookup_l _ _ _ _ _ HF1 Hi1) as (y1 & Hy1 & Hk1). destruct (Forall2_lookup_l _ _ _ _ _ HF2 Hi2) as (y2 & Hy2 & Hk2).
    rewrite lookup_take in Hy1, Hy2 by lia. assert (y1 = v1) as -> by congruence. assert (y2 = v2) as -> by congruence.
    split; [intros ->; congruence|intros ->]. destruct Hused as [Hsorted _].
    eapply NoDup_lookup; [|exact Hk1|exact Hk2]. clear -Hsorted. induction Hsorted as [|x l Hl IH Hx]; constructor; [|done].
    intros H. rewrite Forall_forall in Hx. apply Hx in H. lia.
Qed.
Print Assumptions C61_tet4.

(** C61: going from Tet4 to Tet10 and back gives the same cells in space with the same identifications of vertices, and drops unused vertices. *)
Theorem C61_roundtrip : forall m, cells_of_size 4 m -> exists m1 m2, from_temp refine_tet10 m = Some m1 /\ tet4_from_tet10_mesh m1 = Some m2 /\
  cells_of_size 4 m2 /\ length (ms_cells m2) = length (ms_cells m) /\ all_used m2 /\
  (forall k c c2 j v w d, ms_cells m !! k = Some c -> ms_cells m2 !! k = Some c2 -> c !! j = Some v -> c2 !! j = Some w ->
     coord (ms_vertices m2) d w = coord (ms_vertices m) d v) /\
  (forall k k' c c' c2 c2' j j' v v' w w', ms_cells m !! k = Some c -> ms_cells m !! k' = Some c' -> ms_cells m2 !! k = Some c2 -> ms_cells m2 !! k' = Some c2' ->
     c !! j = Some v -> c' !! j' = Some v' -> c2 !! j = Some w -> c2' !! j' = Some w' -> w = w' <-> v = v').
Proof.
  intros m Hm. destruct (C29_tet10 m Hm) as (m1 & Hf1 & (Hs1 & Hl1 & Hpos) & Hshared & _).
  destruct (C61_tet4 m1 Hs1) as (m2 & Hf2 & Hs2 & Hl2 & Hu2 & Hc2 & Hsh2). exists m1, m2. split; [done|]. split; [done|]. split; [done|].
  split; [congruence|]. split; [done|].
  assert (forall k c j v, ms_cells m !! k = Some c -> c !! j = Some v ->
    exists c1 i, ms_cells m1 !! k = Some c1 /\ length c1 = 10 /\ c1 !! j = Some i /\ j < 4 /\ node_parents 4 tet10_nodes c j = Some [v]) as Hmid.
  { intros k c j v Hc Hv. assert (is_Some (ms_cells m1 !! k)) as [c1 Hc1].
    { apply lookup_lt_is_Some_2. rewrite Hl1. by eapply lookup_lt_Some. }
    assert (length c = 4) as Hlc. { apply (cell_ok _ Hm _ _ Hc). }
    assert (j < 4) as Hj by (rewrite <- Hlc; by eapply lookup_lt_Some).
    assert (length c1 = 10) as Hlc1.
    { unfold cells_of_size in Hs1. rewrite Forall_forall in Hs1. apply (Hs1 c1). by eapply elem_of_list_lookup_2. }
    destruct (lookup_lt_is_Some_2 c1 j) as [i Hi]; [lia|]. exists c1, i. repeat split; try done.
    unfold node_parents. rewrite decide_True by lia. rewrite Hv. done. }
  split.
  - intros k c c2 j v w d Hc Hk2 Hv Hw. destruct (Hmid _ _ _ _ Hc Hv) as (c1 & i & Hc1 & Hlc1 & Hi & Hj & Hpar).
    destruct (Hpos k c c1 j i Hc Hc1 Hi) as (ps & Hps & Hd). assert (ps = [v]) as -> by congruence.
    transitivity (coord (ms_vertices m1) d i).
    + specialize (Hc2 k). unfold cell_coords in Hc2. rewrite !list_lookup_fmap, Hk2, Hc1 in Hc2. cbn in Hc2.
      assert (map (fun a => (ms_vertices m2 !! a : option point)) c2 = take 4 (map (fun a => (ms_vertices m1 !! a : option point)) c1)) as He by congruence.
      apply (f_equal (fun l => l !! j)) in He. rewrite lookup_take in He by done. rewrite !list_lookup_fmap, Hw, Hi in He. cbn in He.
      unfold coord. assert ((ms_vertices m2 !! w : option point) = ms_vertices m1 !! i) as -> by congruence. done.
    + rewrite Hd. unfold mean. cbn. field.
  - intros k k' c c' c2 c2' j j' v v' w w' Hc Hc' Hk2 Hk2' Hv Hv' Hw Hw'.
    destruct (Hmid _ _ _ _ Hc Hv) as (c1 & i & Hc1 & Hlc1 & Hi & Hj & Hpar). destruct (Hmid _ _ _ _ Hc' Hv') as (c1' & i' & Hc1' & Hlc1' & Hi' & Hj' & Hpar').
    rewrite (Hsh2 k k' c1 c1' c2 c2' j j' w w' i i' Hj Hj' Hc1 Hc1' Hk2 Hk2' Hw Hw' Hi Hi').
    rewrite (Hshared k k' c c' c1 c1' j j' i i' [v] [v'] ltac:(lia) ltac:(lia) Hc Hc' Hc1 Hc1' Hi Hi' Hpar Hpar').
    split; [intros H; by apply Permutation_singleton_inj in H|by intros ->].
Qed.
Print Assumptions C61_roundtrip.

(** ** Example: two tetrahedra sharing a face, with an unused vertex *)
Fixpoint linear_search (l : list (list nat)) (x : list nat) : option nat :=
  match l with [] => None | y :: l' => if decide (y = x) then Some 0 else S <$> linear_search l' x end.
Lemma linear_cons y l x : linear_search (y :: l) x = if decide (y = x) then Some 0 else S <$> linear_search l x.
Proof. reflexivity. Qed.
Lemma linear_contract : search_contract linear_search.
Proof.
  intros l x _. split.
  - induction l as [|y l IH]; intros i; [done|]. rewrite linear_cons. destruct (decide (y = x)) as [->|].
    { intros H. assert (i = 0) as -> by congruence. done. }
    destruct (linear_search l x) as [i'|]; [|done]. intros H. assert (i = S i') as -> by (cbn in H; congruence). cbn. by apply IH.
  - induction l as [|y l IH]; [by intros ?%elem_of_nil|]. rewrite linear_cons. intros H. destruct (decide (y = x)) as [->|Hn]; [done|].
    apply elem_of_cons in H as [->|H]; [done|]. specialize (IH H). by destruct (linear_search l x).
Qed.
Definition ex_tet4 : mesh point :=
  Mesh [pt [0; 0; 0]; pt [1; 0; 0]; pt [0; 1; 0]; pt [0; 0; 1]; pt [1; 1; 1]; pt [5; 5; 5]]%R [[0; 1; 2; 3]; [4; 3; 2; 1]].
Example C61_example : search_contract linear_search /\ cells_of_size 4 ex_tet4 /\ Forall (fun c => NoDup c) (ms_cells ex_tet4) /\
  (exists m', tet20_from_tet4_mesh linear_search ex_tet4 = Some m' /\ length (ms_vertices m') = 30 /\
     (* the shared face is (1, 2, 3) and (3, 2, 1): its own node and those of the edge from 2 to 3 *)
     (fun c => (c !!! 19, c !!! 14, c !!! 15, c !!! 10, c !!! 11)) <$> ms_cells m' = [(13, 21, 22, 11, 12); (13, 12, 11, 22, 21)]) /\
  (exists m1 m2, from_temp refine_tet10 ex_tet4 = Some m1 /\ tet4_from_tet10_mesh m1 = Some m2 /\ length (ms_vertices m2) = 5) /\
  (forall search, tet20_from_tet4_mesh search (Mesh (take 4 (ms_vertices ex_tet4)) (ms_cells ex_tet4)) = None).
Proof.
  assert (cells_of_size 4 ex_tet4) as Hm by (repeat constructor; cbn; lia).
  split; [exact linear_contract|]. split; [exact Hm|]. split; [apply (bool_decide_eq_true_1 _); vm_compute; reflexivity|]. split; [|split].
  - eexists. split; [vm_compute; reflexivity|]. split; reflexivity.
  - eexists _, _. split; [vm_compute; reflexivity|]. split; [vm_compute; reflexivity|]. reflexivity.
  - intros search. apply (C61_panic search _ [4; 3; 2; 1] 4); [repeat constructor|right; left|left|cbn; lia].
Qed.

(** Properties C28 (uniform refinement) and C29 (conversion to quadratic meshes). *)
From stdpp Require Import base list list_numbers sets.
From Coq Require Import Reals Lia Lra.
From Verif Require Import Prelude ReorderModel MeshModel MeshProofs ParadisProofs ElementModel ConvertModel FacesSpec ConvertSpec ConvertProofs.

(** ** Uniform refinement *)
Definition canon (l : label) : label := match l with LVertex v => LVertex v | LEdge a b => uedge a b end.

Lemma uedge_minmax a b : uedge a b = LEdge (Nat.min a b) (Nat.max a b).
Proof. unfold uedge. case_decide; f_equal; lia. Qed.

Lemma canon_spec l1 l2 : Is_true (label_eqb l1 l2) <-> canon l1 = canon l2.
Proof.
  destruct l1 as [v|a b], l2 as [w|c d]; cbn; rewrite ?uedge_minmax; try (split; done).
  - rewrite Is_true_true, Nat.eqb_eq. split; congruence.
  - rewrite Is_true_true, andb_true_iff, !Nat.eqb_eq. split; [intros [-> ->]; done|intros [= -> ->]; done].
Qed.

Definition kids4 (cell : list nat) : list (list label) := default [] (sc_refine uniform_tri3 cell).

Lemma kids_lookup cells k cell j : Forall (fun c => length c = 3) cells -> cells !! k = Some cell -> j < 4 ->
  kids uniform_tri3 cells !! (4 * k + j) = kids4 cell !! j.
Proof.
  intros HF Hk Hj. revert k Hk. induction cells as [|c cells IH]; intros k Hk; [done|].
  apply Forall_cons in HF as [Hc HF]. unfold kids. cbn [map concat].
  assert (length (kids4 c) = 4) as Hl by by destruct c as [|x [|y [|z [|]]]].
  change (default [] (sc_refine uniform_tri3 c)) with (kids4 c).
  destruct k as [|k]; cbn in Hk.
  - injection Hk as ->. replace (4 * 0 + j) with j by lia. by rewrite lookup_app_l by lia.
  - rewrite lookup_app_r by lia. rewrite Hl. replace (4 * S k + j - 4) with (4 * k + j) by lia. by apply IH.
Qed.

Lemma kids_length cells : Forall (fun c => length c = 3) cells -> length (kids uniform_tri3 cells) = 4 * length cells.
Proof.
  induction 1 as [|c cells Hc HF IH]; [done|]. unfold kids in *. cbn [map concat]. rewrite app_length, IH.
  destruct c as [|x [|y [|z [|]]]]; try done. change (4 + 4 * length cells = 4 * S (length cells)). lia.
Qed.

Lemma kids_elem cells im : im ∈ kids uniform_tri3 cells <-> exists cell, cell ∈ cells /\ im ∈ kids4 cell.
Proof.
  unfold kids. rewrite concat_elem. split.
  - intros (s & Hs & Him). apply elem_of_list_In, in_map_iff in Hs as (c & <- & Hc). apply elem_of_list_In in Hc. eauto.
  - intros (c & Hc & Him). eexists; split; [|exact Him]. apply elem_of_list_In, in_map_iff. exists c. split; [done|]. by apply elem_of_list_In.
Qed.

Lemma kids4_labels a b c l : l ∈ concat (kids4 [a; b; c]) <-> l ∈ [LVertex a; LVertex b; LVertex c; LEdge a b; LEdge b c; LEdge c a].
Proof. cbn. set_solver. Qed.

Lemma refine_spec ord m : (forall l, ord l ≡ₚ l) -> cells_of_size 3 m ->
  exists m' names, refine_uniformly ord m = Some m' /\ uniformly_refines m m' names /\ cells_of_size 3 m'.
Proof.
  intros Hord Hm. destruct m as [vs cells]. unfold cells_of_size in Hm. cbn in Hm.
  assert (H3 : Forall (fun c => length c = 3) cells). { apply (Forall_impl _ _ _ Hm). by intros c [? _]. }
  assert (Hlab : forall l, l ∈ concat (kids uniform_tri3 cells) <-> exists a b c, [a; b; c] ∈ cells /\
    l ∈ [LVertex a; LVertex b; LVertex c; LEdge a b; LEdge b c; LEdge c a]).
  { intros l. rewrite concat_elem. split.
    - intros (im & Him & Hl). apply kids_elem in Him as (cell & Hc & Him). rewrite Forall_forall in H3. pose proof (H3 cell Hc).
      destruct cell as [|a [|b [|c [|]]]]; try done. exists a, b, c. split; [done|]. apply kids4_labels, concat_elem. eauto.
    - intros (a & b & c & Hc & Hl). apply kids4_labels, concat_elem in Hl as (im & Him & Hl). exists im. split; [|done]. apply kids_elem. eauto. }
  destruct (refine_mesh_spec uniform_tri3 canon canon_spec ord (Mesh vs cells)) as (m' & ls & E & Hnd & Hlen & Hc & Hx & Hv).
  - done.
  - apply (Forall_impl _ _ _ H3). intros c Hc. destruct c as [|x [|y [|z [|]]]]; try done. eexists; split; [reflexivity|].
    repeat constructor; intros idxs Hi; cbn in Hi |- *; by rewrite decide_True.
  - cbn [ms_cells ms_vertices]. intros l Hl. apply Hlab in Hl as (a & b & c & Hc & Hl). rewrite Forall_forall in Hm.
    destruct (Hm _ Hc) as [_ Hr]. in_range. cbn [sc_vertex uniform_tri3].
    repeat (apply elem_of_cons in Hl as [-> |Hl]; [cbn; repeat (match goal with H : vs !! _ = Some _ |- _ => rewrite H end; cbn); by eexists|]).
    by apply elem_of_nil in Hl.
  - cbn [ms_cells ms_vertices] in *. exists m', (canon <$> ls). split; [done|].
    assert (Hin : forall l, l ∈ concat (kids uniform_tri3 cells) -> canon l ∈ canon <$> ls).
    { intros l Hl. apply concat_elem in Hl as (im & Him & Hl). apply elem_of_list_lookup in Him as [x Hxx].
      destruct (Forall2_lookup_r _ _ _ x im Hc Hxx) as (cell' & _ & HF). apply elem_of_list_lookup in Hl as [y Hy].
      destruct (Forall2_lookup_r _ _ _ y l HF Hy) as (i & _ & Hi). exact (elem_of_list_lookup_2 _ _ _ Hi). }
    assert (Hno : forall l, l ∈ canon <$> ls <-> exists l', l = canon l' /\ l' ∈ concat (kids uniform_tri3 cells)).
    { intros l. split.
      - intros Hl. apply elem_of_list_fmap in Hl as (l' & -> & Hl'). exists l'. split; [done|]. by apply Hx.
      - intros (l' & -> & Hl'). by apply Hin. }
    assert (Hcell : forall k im, kids uniform_tri3 cells !! k = Some im -> exists cell', ms_cells m' !! k = Some cell' /\
      Forall2 (fun i l => (canon <$> ls) !! i = Some (canon l)) cell' im).
    { intros k im Him. destruct (Forall2_lookup_r _ _ _ k im Hc Him) as (cell' & Hk & HF). eauto. }
    split; [split|].
    + rewrite fmap_length. by rewrite Hlen.
    + done.
    + intros v. rewrite Hno. cbn [ms_cells]. rewrite concat_elem. split.
      * intros (l' & Hl & Hl'). destruct l' as [w|a b]; [|cbn in Hl; rewrite uedge_minmax in Hl; done]. injection Hl as <-.
        apply Hlab in Hl' as (a & b & c & Hcc & Hl'). exists [a; b; c]. split; [done|]. set_solver.
      * intros (cell & Hcc & Hvv). rewrite Forall_forall in H3. pose proof (H3 cell Hcc). destruct cell as [|a [|b [|c [|]]]]; try done.
        exists (LVertex v). split; [done|]. apply Hlab. exists a, b, c. split; [done|]. set_solver.
    + intros a b. rewrite Hno. cbn [ms_cells]. split.
      * intros (l' & Hl & Hl'). destruct l' as [w|x y]; [done|]. cbn in Hl. rewrite uedge_minmax in Hl. injection Hl as -> ->. split; [lia|].
        apply Hlab in Hl' as (p & q & r & Hcc & Hl'). exists [p; q; r].
        assert (exists i, edge_of [p; q; r] i = Some (x, y)) as [i Hi].
        { repeat (apply elem_of_cons in Hl' as [Hl'|Hl']; [try done; injection Hl' as -> ->; first [by exists 0|by exists 1|by exists 2]|]). by apply elem_of_nil in Hl'. }
        exists i, (x, y). split_and!; [done|done|]. unfold same_edge. cbn.
        destruct (decide (x ≤ y)); [left|right]; f_equal; lia.
      * intros (Hab & cell & i & e & Hcc & He & Hs). rewrite Forall_forall in H3. pose proof (H3 cell Hcc). destruct cell as [|p [|q [|r [|]]]]; try done.
        exists (LEdge e.1 e.2). split.
        -- cbn. rewrite uedge_minmax. destruct Hs as [->|Hs]; [|subst e]; cbn; f_equal; lia.
        -- apply Hlab. exists p, q, r. split; [done|]. unfold edge_of in He. destruct i as [|[|[|i]]]; cbn in He; [injection He as <-..|done]; set_solver.
    + intros i v Hi. rewrite list_lookup_fmap in Hi. destruct (ls !! i) as [l|] eqn:El; [|done]. cbn in Hi. injection Hi as Hi.
      rewrite (Hv i l El). destruct l as [w|x y]; cbn in Hi; [|rewrite uedge_minmax in Hi; done]. by injection Hi as ->.
    + intros i a b Hi d. rewrite list_lookup_fmap in Hi. destruct (ls !! i) as [l|] eqn:El; [|done]. cbn in Hi. injection Hi as Hi.
      destruct l as [w|x y]; cbn in Hi; [done|]. rewrite uedge_minmax in Hi. injection Hi as <- <-.
      assert (LEdge x y ∈ ls) as Hl%Hx by exact (elem_of_list_lookup_2 _ _ _ El).
      pose proof (Hv i _ El) as Hvi. cbn in Hvi.
      assert (exists px py, vs !! x = Some px /\ vs !! y = Some py) as (px & py & Hpx & Hpy).
      { apply Hlab in Hl as (p & q & r & Hcc & Hl). rewrite Forall_forall in Hm. destruct (Hm _ Hcc) as [_ Hr]. in_range.
        repeat (apply elem_of_cons in Hl as [Hl|Hl]; [try done; injection Hl as -> ->; by eexists _, _|]). by apply elem_of_nil in Hl. }
      rewrite Hpx, Hpy in Hvi. cbn in Hvi. rewrite (coord_lookup _ _ _ d Hvi). cbn [ms_vertices]. unfold half_way. destruct (decide (x ≤ y)).
      * rewrite Nat.min_l, Nat.max_r by lia. by rewrite (coord_lookup _ _ _ d Hpx), (coord_lookup _ _ _ d Hpy).
      * rewrite Nat.min_r, Nat.max_l by lia. rewrite (coord_lookup _ _ _ d Hpx), (coord_lookup _ _ _ d Hpy). lra.
    + cbn. apply Forall2_length in Hc. by rewrite Hc, kids_length.
    + cbn. intros k a b c Hk.
      pose proof (kids_lookup cells k [a; b; c] 0 H3 Hk ltac:(lia)) as K0. pose proof (kids_lookup cells k [a; b; c] 1 H3 Hk ltac:(lia)) as K1.
      pose proof (kids_lookup cells k [a; b; c] 2 H3 Hk ltac:(lia)) as K2. pose proof (kids_lookup cells k [a; b; c] 3 H3 Hk ltac:(lia)) as K3.
      rewrite Nat.add_0_r in K0. cbn -[Nat.mul] in K0, K1, K2, K3.
      destruct (Hcell _ _ K0) as (c0 & C0 & F0). destruct (Hcell _ _ K1) as (c1 & C1 & F1).
      destruct (Hcell _ _ K2) as (c2 & C2 & F2). destruct (Hcell _ _ K3) as (c3 & C3 & F3).
      repeat match goal with F : Forall2 _ _ (_ :: _) |- _ => apply Forall2_cons_inv_r in F as (? & ? & ? & F & ->) end.
      repeat match goal with F : Forall2 _ _ [] |- _ => apply Forall2_nil_inv_r in F as -> end.
      repeat match goal with H1 : (canon <$> ls) !! ?i = Some ?x, H2 : (canon <$> ls) !! ?j = Some ?x |- _ =>
        assert_fails (constr_eq i j); pose proof (NoDup_lookup _ _ _ _ Hnd H1 H2); subst j end.
      eexists _, _, _, _, _, _. split_and!; [..|exact C0|exact C1|exact C2|exact C3]; done.
    + apply Forall_lookup. intros k cell' Hk. destruct (Forall2_lookup_l _ _ _ k cell' Hc Hk) as (im & Him & HF). split.
      * apply Forall2_length in HF. rewrite HF. assert (im ∈ kids uniform_tri3 cells) as Hi by exact (elem_of_list_lookup_2 _ _ _ Him).
        apply kids_elem in Hi as (cell & Hcc & Hi). rewrite Forall_forall in H3. pose proof (H3 cell Hcc). destruct cell as [|a [|b [|c [|]]]]; try done.
        cbn in Hi. by repeat (apply elem_of_cons in Hi as [->|Hi]; [done|]); apply elem_of_nil in Hi.
      * apply Forall_lookup. intros j i Hj. destruct (Forall2_lookup_l _ _ _ j i HF Hj) as (l & _ & Hl). apply lookup_lt_Some in Hl.
        rewrite fmap_length in Hl. lia.
Qed.

(** C28: refinement succeeds on every triangle mesh with in-range indices, for every hash order. Its vertices are exactly
    one per used vertex (same position) and one per undirected edge (at the midpoint); cell k is replaced by cells 4k..4k+3. *)
Theorem C28_refine : forall ord m, (forall l, ord l ≡ₚ l) -> cells_of_size 3 m ->
  exists m' names, refine_uniformly ord m = Some m' /\ uniformly_refines m m' names /\ cells_of_size 3 m'.
Proof. apply refine_spec. Qed.
Print Assumptions C28_refine.

Lemma ur_area m m' names : uniformly_refines m m' names -> forall k a b c j child,
  ms_cells m !! k = Some [a; b; c] -> j < 4 -> ms_cells m' !! (4 * k + j) = Some child ->
  tri_area (ms_vertices m') child = (tri_area (ms_vertices m) [a; b; c] / 4)%R.
Proof.
  intros U k a b c j child Hk Hj Hch. destruct (ur_cells _ _ _ U k a b c Hk) as (ia & ib & ic & d & e & f & Na & Nb & Nc & Nd & Ne & Nf & C0 & C1 & C2 & C3).
  assert (Hv : forall i v x, names !! i = Some (LVertex v) -> coord (ms_vertices m') x i = coord (ms_vertices m) x v).
  { intros i v x Hi. unfold coord. by rewrite (ur_keep _ _ _ U i v Hi). }
  assert (He : forall i v w x, names !! i = Some (uedge v w) -> coord (ms_vertices m') x i = ((coord (ms_vertices m) x v + coord (ms_vertices m) x w) / 2)%R).
  { intros i v w x Hi. unfold uedge in Hi. case_decide; rewrite (ur_mid _ _ _ U i _ _ Hi x); lra. }
  destruct j as [|[|[|[|j]]]]; [rewrite Nat.add_0_r in Hch| | | |lia];
    rewrite Hch in *; match goal with H : Some _ = Some _ |- _ => injection H as -> end; unfold tri_area;
    repeat first [rewrite (Hv _ _ _ Na)|rewrite (Hv _ _ _ Nb)|rewrite (Hv _ _ _ Nc)|rewrite (He _ _ _ _ Nd)|rewrite (He _ _ _ _ Ne)|rewrite (He _ _ _ _ Nf)]; field.
Qed.

(** C28: each child has a quarter of the signed area of its parent. *)
Theorem C28_area : forall ord m m', (forall l, ord l ≡ₚ l) -> cells_of_size 3 m -> refine_uniformly ord m = Some m' ->
  forall k j cell child, ms_cells m !! k = Some cell -> j < 4 -> ms_cells m' !! (4 * k + j) = Some child ->
    tri_area (ms_vertices m') child = (tri_area (ms_vertices m) cell / 4)%R.
Proof.
  intros ord m m' Ho Hm E k j cell child Hk Hj Hch. destruct (refine_spec ord m Ho Hm) as (m1 & names & E1 & U & _).
  assert (m1 = m') as -> by congruence. unfold cells_of_size in Hm. rewrite Forall_lookup in Hm. destruct (Hm k cell Hk) as [Hl _].
  destruct cell as [|a [|b [|c [|]]]]; try done. by apply (ur_area m m' names U k a b c j).
Qed.
Print Assumptions C28_area.

(** C28: node i of the fourth child of a cell is the midpoint of edge i of the cell; two such nodes are the same vertex
    exactly if the edges are the same up to direction, in particular for neighbouring cells. *)
Theorem C28_conforming : forall ord m m', (forall l, ord l ≡ₚ l) -> cells_of_size 3 m -> refine_uniformly ord m = Some m' ->
  forall k k' i i' cell cell' e e' mid mid' v v',
    ms_cells m !! k = Some cell -> ms_cells m !! k' = Some cell' -> edge_of cell i = Some e -> edge_of cell' i' = Some e' ->
    ms_cells m' !! (4 * k + 3) = Some mid -> ms_cells m' !! (4 * k' + 3) = Some mid' -> mid !! i = Some v -> mid' !! i' = Some v' ->
    (v = v' <-> same_edge e e') /\ forall d, coord (ms_vertices m') d v = ((coord (ms_vertices m) d e.1 + coord (ms_vertices m) d e.2) / 2)%R.
Proof.
  intros ord m m' Ho Hm E k k' i i' cell cell' e e' mid mid' v v' Hk Hk' He He' Hmid Hmid' Hv Hv'.
  destruct (refine_spec ord m Ho Hm) as (m1 & names & E1 & U & _). assert (m1 = m') as -> by congruence.
  unfold cells_of_size in Hm. rewrite Forall_lookup in Hm.
  assert (Hname : forall k i cell e mid v, ms_cells m !! k = Some cell -> edge_of cell i = Some e -> ms_cells m' !! (4 * k + 3) = Some mid -> mid !! i = Some v ->
    names !! v = Some (uedge e.1 e.2)).
  { clear - U Hm. intros k i cell e mid v Hk He Hmid Hv. destruct (Hm k cell Hk) as [Hl _]. destruct cell as [|a [|b [|c [|]]]]; try done.
    destruct (ur_cells _ _ _ U k a b c Hk) as (ia & ib & ic & x & y & z & Na & Nb & Nc & Nd & Ne & Nf & C0 & C1 & C2 & C3).
    rewrite Hmid in C3. injection C3 as ->. unfold edge_of in He.
    destruct i as [|[|[|i]]]; cbn in He, Hv; [injection He as <-; injection Hv as <-; done..|done]. }
  pose proof (Hname _ _ _ _ _ _ Hk He Hmid Hv) as N1. pose proof (Hname _ _ _ _ _ _ Hk' He' Hmid' Hv') as N2. split.
  - assert (Hs : uedge e.1 e.2 = uedge e'.1 e'.2 <-> same_edge e e').
    { rewrite !uedge_minmax. unfold same_edge. destruct e as [a b], e' as [c d]. cbn. split.
      - intros [= H1 H2]. assert ((a = c /\ b = d) \/ (a = d /\ b = c)) as [[-> ->]|[-> ->]] by lia; tauto.
      - intros [[= -> ->]|[= -> ->]]; f_equal; lia. }
    rewrite <- Hs. split; [intros ->; congruence|]. intros Heq. rewrite Heq in N1. exact (NoDup_lookup _ _ _ _ (ur_nodup _ _ _ U) N1 N2).
  - intros d. unfold uedge in N1. case_decide; rewrite (ur_mid _ _ _ U v _ _ N1 d); lra.
Qed.
Print Assumptions C28_conforming.

Lemma quarter_total vs vs' cells : forall cells', length cells' = 4 * length cells ->
  (forall k j cell child, cells !! k = Some cell -> j < 4 -> cells' !! (4 * k + j) = Some child -> tri_area vs' child = (tri_area vs cell / 4)%R) ->
  foldr Rplus 0%R (map (tri_area vs') cells') = foldr Rplus 0%R (map (tri_area vs) cells).
Proof.
  induction cells as [|c cells IH]; intros cells' Hl H; cbn [length] in Hl.
  - by destruct cells'.
  - destruct cells' as [|c0 [|c1 [|c2 [|c3 cells']]]]; try (cbn in Hl; lia). cbn [map foldr].
    rewrite (H 0 0 c c0), (H 0 1 c c1), (H 0 2 c c2), (H 0 3 c c3) by (done || lia).
    rewrite (IH cells'); [field| |].
    + cbn in Hl. lia.
    + intros k j cell child Hk Hj Hch. apply (H (S k) j cell child Hk Hj). by replace (4 * S k + j) with (S (S (S (S (4 * k + j))))) by lia.
Qed.

(** C28: repeated refinement, with any hash orders. *)
Theorem C28_repeat : forall ord m times, (forall k l, ord k l ≡ₚ l) -> cells_of_size 3 m ->
  exists m', refine_uniformly_repeat ord m times = Some m' /\ cells_of_size 3 m' /\
    length (ms_cells m') = 4 ^ times * length (ms_cells m) /\ total_area m' = total_area m.
Proof.
  intros ord m times Ho Hm. unfold refine_uniformly_repeat. induction times as [|n IH].
  - exists m. cbn. split_and!; [done|done|lia|done].
  - destruct IH as (m1 & E1 & S1 & L1 & A1). rewrite seq_S, foldl_app, E1. cbn [foldl mbind option_bind].
    destruct (refine_spec (ord (0 + n)) m1 (Ho _) S1) as (m2 & names & E2 & U & S2). exists m2. split_and!; [done|done| |].
    + rewrite (ur_count _ _ _ U), L1. cbn [Nat.pow]. lia.
    + rewrite <- A1. unfold total_area. apply quarter_total; [by apply (ur_count _ _ _ U)|].
      intros k j cell child Hk Hj Hch. by apply (C28_area (ord (0 + n)) m1 m2 (Ho _) S1 E2 k j).
Qed.
Print Assumptions C28_repeat.

(** Two triangles sharing the edge {1, 2}; vertex 4 is not used. *)
Definition ex_tri_mesh : mesh point :=
  Mesh [pt [0; 0]; pt [1; 0]; pt [0; 1]; pt [1; 1]; pt [5; 5]]%R [[0; 1; 2]; [3; 2; 1]].
Example C28_example : cells_of_size 3 ex_tri_mesh /\
  (ms_cells <$> refine_uniformly reverse ex_tri_mesh) =
    Some [[0; 1; 2]; [1; 3; 4]; [2; 4; 5]; [1; 4; 2]; [6; 7; 8]; [7; 5; 4]; [8; 4; 3]; [7; 4; 8]] /\
  (length ∘ ms_vertices <$> refine_uniformly reverse ex_tri_mesh) = Some 9.
Proof. split; [|split; vm_compute; reflexivity]. repeat constructor; cbn; lia. Qed.

(** ** Conversion to quadratic elements *)

(** C29: Tri3 to Tri6 keeps the vertices and corner indices and adds one node per undirected edge, at its midpoint. *)
Theorem C29_tri6 : forall m, cells_of_size 3 m -> exists m', tri6_from_tri3_mesh m = Some m' /\
  nodes_at_means 3 tri6_nodes 6 m m' /\ nodes_shared 3 tri6_nodes 6 m m' /\
  ms_vertices m `prefix_of` ms_vertices m' /\ (forall k c, ms_cells m !! k = Some c -> take 3 <$> ms_cells m' !! k = Some c).
Proof. apply tri6_mesh. Qed.
Print Assumptions C29_tri6.

(** C29: Quad4 to Quad9 likewise; the ninth node is the cell's own, at the mean of its corners. *)
Theorem C29_quad9 : forall m, cells_of_size 4 m -> exists m', quad9_from_quad4_mesh m = Some m' /\
  nodes_at_means 4 quad9_nodes 9 m m' /\ nodes_shared 4 quad9_nodes 8 m m' /\ own_node 8 m' /\
  ms_vertices m `prefix_of` ms_vertices m' /\ (forall k c, ms_cells m !! k = Some c -> take 4 <$> ms_cells m' !! k = Some c).
Proof. apply quad9_mesh. Qed.
Print Assumptions C29_quad9.

(** C29: the generic conversion for Tet10, Hex20 and Hex27; unused vertices disappear. *)
Theorem C29_tet10 : forall m, cells_of_size 4 m -> exists m', from_temp refine_tet10 m = Some m' /\
  nodes_at_means 4 tet10_nodes 10 m m' /\ nodes_shared 4 tet10_nodes 10 m m' /\ all_used m'.
Proof. apply from_temp_mesh, refines_tet10. Qed.
Print Assumptions C29_tet10.
Theorem C29_hex20 : forall m, cells_of_size 8 m -> exists m', from_temp refine_hex20 m = Some m' /\
  nodes_at_means 8 hex20_nodes 20 m m' /\ nodes_shared 8 hex20_nodes 20 m m' /\ all_used m'.
Proof. apply from_temp_mesh, refines_hex20. Qed.
Print Assumptions C29_hex20.
Theorem C29_hex27 : forall m, cells_of_size 8 m -> exists m', from_temp refine_hex27 m = Some m' /\
  nodes_at_means 8 hex27_nodes 27 m m' /\ nodes_shared 8 hex27_nodes 27 m m' /\ all_used m'.
Proof. apply from_temp_mesh, refines_hex27. Qed.
Print Assumptions C29_hex27.

(** Two tetrahedra sharing the face {1, 2, 3} and two hexahedra sharing a face. *)
Definition ex_tets : mesh point := Mesh [pt [0]; pt [1]; pt [2]; pt [3]; pt [4]]%R [[0; 1; 2; 3]; [4; 2; 1; 3]].
Definition ex_hexes : mesh point :=
  Mesh (map (fun i => pt [INR i]) (seq 0 12)) [[0; 1; 2; 3; 4; 5; 6; 7]; [4; 5; 6; 7; 8; 9; 10; 11]].
Example C29_example : cells_of_size 4 ex_tets /\ cells_of_size 8 ex_hexes /\
  (ms_cells <$> from_temp refine_tet10 ex_tets) = Some [[0; 1; 2; 3; 4; 5; 6; 7; 8; 9]; [10; 2; 1; 3; 11; 5; 12; 13; 9; 8]] /\
  (ms_cells <$> tri6_from_tri3_mesh ex_tri_mesh) = Some [[0; 1; 2; 5; 6; 7]; [3; 2; 1; 8; 6; 9]] /\
  (map (drop 20) ∘ ms_cells <$> from_temp refine_hex27 ex_hexes) =
    Some [[20; 21; 22; 23; 24; 25; 26]; [25; 39; 40; 41; 42; 43; 44]].
Proof. split_and!; try (vm_compute; reflexivity); repeat constructor; cbn; lia. Qed.

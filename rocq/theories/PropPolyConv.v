(** C71: conversion of meshes to polymeshes and of hexahedral meshes to tetrahedral meshes (mesh_convert.rs:490-563). *)
From stdpp Require Import base list list_numbers sorting.
From Verif Require Import Prelude ReorderModel MeshModel MeshSpec MeshProofs PolyModel PolySpec PolyProofs PropPolyMesh PropPolyOps PolyTriProofs PropPolyTri.

Section conv.
  Context {V : Type} (k : conn_kind) (m : mesh V).
  Context (Hk : kind_ok k) (Hs : cells_of_kind k (ms_cells m)) (Hb : Forall (Forall (fun v => v < length (ms_vertices m))) (ms_cells m)).

  Lemma face_of_ok cell l : cell ∈ ms_cells m -> l < ck_num_faces k -> exists t face, ck_face k l = Some t /\ mapM (fun i => cell !! i) t = Some face /\ Forall (fun v => v < length (ms_vertices m)) face.
  Proof.
    intros Hc Hl. destruct (Hk l Hl) as (t & Et & Ft). destruct (mapM_ok (fun i => cell !! i) t) as (face & Ef & Ff).
    { intros j Hj. rewrite Forall_forall in Ft. unfold cells_of_kind in Hs. rewrite Forall_forall in Hs. apply lookup_lt_is_Some_2. rewrite (Hs cell Hc). by apply Ft. }
    exists t, face. split; [done|]. split; [done|]. apply Forall_forall. intros v Hv. apply (mapM_elem _ _ _ _ Ef) in Hv as (j & _ & Hj). rewrite Forall_forall in Hb. specialize (Hb cell Hc). rewrite Forall_lookup in Hb. by eapply Hb.
  Qed.
  Definition faces_of (cell : list nat) : list (list nat) := omap (face_of k cell) (seq 0 (ck_num_faces k)).
  Lemma faces_of_spec cell : cell ∈ ms_cells m -> map (fun l => face_of k cell l) (seq 0 (ck_num_faces k)) = map Some (faces_of cell).
  Proof.
    intros Hc. unfold faces_of. assert (H : forall l, l ∈ seq 0 (ck_num_faces k) -> exists f, face_of k cell l = Some f).
    { intros l Hl. apply elem_of_seq in Hl. destruct (face_of_ok cell l Hc) as (t & face & Et & Ef & _); [lia|]. exists face. unfold face_of. by rewrite Et. }
    induction (seq 0 (ck_num_faces k)) as [|l ls IH]; [done|]. cbn. destruct (H l) as [f Ef]; [by left|]. rewrite Ef. cbn. f_equal. apply IH. intros x Hx. apply H. by right.
  Qed.
  Lemma faces_of_length cell : cell ∈ ms_cells m -> length (faces_of cell) = ck_num_faces k.
  Proof. intros Hc. pose proof (f_equal length (faces_of_spec cell Hc)) as E. by rewrite !map_length, seq_length in E. Qed.
  Lemma faces_of_lookup cell l face : cell ∈ ms_cells m -> faces_of cell !! l = Some face <-> l < ck_num_faces k /\ face_of k cell l = Some face.
  Proof.
    intros Hc. pose proof (f_equal (fun x => x !! l) (faces_of_spec cell Hc)) as E. cbn in E. rewrite !list_lookup_fmap in E. split.
    - intros H. rewrite H in E. cbn in E. apply fmap_Some in E as (l' & Hl' & E). apply lookup_seq in Hl' as [-> Hl']. split; [lia|]. by rewrite E.
    - intros [Hl H]. rewrite lookup_seq_lt in E by done. cbn in E. rewrite H in E. symmetry in E. apply fmap_Some in E as (f & Hf & [= <-]). done.
  Qed.
  Lemma to_poly_steps cell ls : forall faces seen out fs, map (fun l => face_of k cell l) ls = map Some fs ->
    foldl (to_poly_step cell) (Some (faces, seen, out)) (map (ck_face k) ls) = Some (foldl dedup_step (faces, seen, out) fs).
  Proof.
    induction ls as [|l ls IH]; intros faces seen out fs E; destruct fs as [|f fs]; try done. cbn in E. injection E as Ef E. cbn [map foldl].
    assert (to_poly_step cell (Some (faces, seen, out)) (ck_face k l) = Some (dedup_step (faces, seen, out) f)) as ->.
    { unfold to_poly_step, dedup_step. cbn [mbind option_bind]. unfold face_of in Ef. destruct (ck_face k l) as [t|]; [|done]. cbn [mbind option_bind] in *. rewrite Ef. cbn [mbind option_bind]. by destruct (assoc (sort_nat f) seen). }
    destruct (dedup_step (faces, seen, out) f) as [[faces' seen'] out']. by apply IH.
  Qed.
  Lemma to_poly_fold todo : forall pre faces seen cells, (forall cell, cell ∈ todo -> cell ∈ ms_cells m) -> dedup_inv pre faces seen ->
    exists faces' seen' cells', foldl (fun (acc : option (list (list nat) * list (list nat * nat) * list (list nat))) cell =>
      '(faces, seen, cells) ← acc;
      '(faces, seen, out) ← foldl (to_poly_step cell) (Some (faces, seen, [])) (map (ck_face k) (seq 0 (ck_num_faces k)));
      Some (faces, seen, cells ++ [out])) (Some (faces, seen, cells)) todo = Some (faces', seen', cells ++ cells') /\
    dedup_inv (pre ++ concat (map faces_of todo)) faces' seen' /\ faces `prefix_of` faces' /\
    Forall2 (fun cell out => Forall2 (fun face j => exists face', faces' !! j = Some face' /\ face' ≡ₚ face) (faces_of cell) out) todo cells'.
  Proof.
    induction todo as [|cell todo IH]; intros pre faces seen cells Hc H.
    - exists faces, seen, []. cbn. rewrite !app_nil_r. done.
    - cbn [foldl mbind option_bind]. rewrite (to_poly_steps cell _ faces seen [] (faces_of cell)) by (apply faces_of_spec, Hc; by left). cbn [mbind option_bind].
      destruct (dedup_fold (faces_of cell) pre faces seen [] H) as (faces1 & seen1 & out & -> & H1 & P1 & F1). cbn [app].
      destruct (IH (pre ++ faces_of cell) faces1 seen1 (cells ++ [out])) as (faces2 & seen2 & cells2 & E2 & H2 & P2 & F2); [intros; apply Hc; by right|done|].
      exists faces2, seen2, (out :: cells2). rewrite E2. rewrite <- !app_assoc in *. cbn [app] in *. split; [done|]. cbn [map concat]. split; [done|]. split; [by etrans|]. constructor; [|done].
      eapply Forall2_impl; [exact F1|]. intros face j (face' & Hj & Hp). exists face'. split; [by eapply prefix_lookup|done].
  Qed.
  Lemma is_face_iff f c l : is_face k (ms_cells m) f c l <-> l < ck_num_faces k /\ exists cell, ms_cells m !! c = Some cell /\ face_of k cell l = Some f.
  Proof.
    unfold is_face, face_of. split.
    - intros (Hl & cell & t & Hc & Et & F). split; [done|]. exists cell. split; [done|]. rewrite Et. cbn. by apply mapM_Forall2.
    - intros (Hl & cell & Hc & E). split; [done|]. destruct (ck_face k l) as [t|] eqn:Et; [|done]. cbn in E. apply mapM_Forall2 in E. by exists cell, t.
  Qed.
  Lemma all_faces_lookup i f : concat (map faces_of (ms_cells m)) !! i = Some f <-> ck_num_faces k <> 0 /\ is_face k (ms_cells m) f (i / ck_num_faces k) (i mod ck_num_faces k).
  Proof.
    destruct (decide (ck_num_faces k = 0)) as [Z|NZ].
    - split; [|by intros []]. intros H. exfalso. apply elem_of_list_lookup_2, elem_of_concat in H as (fs & Hfs & Hf). apply elem_of_list_fmap in Hfs as (cell & -> & Hc). pose proof (faces_of_length cell Hc) as L. rewrite Z in L.
      destruct (faces_of cell); [by apply elem_of_nil in Hf|done].
    - rewrite is_face_iff. assert (Hlen : forall fs, fs ∈ map faces_of (ms_cells m) -> length fs = ck_num_faces k) by (intros fs Hfs; apply elem_of_list_fmap in Hfs as (cell & -> & Hc); by apply faces_of_length).
      assert (G : forall (ls : list (list (list nat))) n i, n <> 0 -> (forall l, l ∈ ls -> length l = n) -> concat ls !! i = (l ← ls !! (i / n); l !! (i mod n))).
      { clear. induction ls as [|l ls IH]; intros n i Hn H; [done|]. cbn [concat]. assert (length l = n) as L by (apply H; by left). destruct (decide (i < n)) as [Hi|Hi].
        - rewrite Nat.div_small, Nat.mod_small by done. cbn. rewrite lookup_app_l by lia. done.
        - rewrite lookup_app_r by lia. rewrite (IH n) by (done || (intros; apply H; by right)). rewrite L. remember (i - n) as i0 eqn:E0. assert (i = i0 + 1 * n) as -> by lia. rewrite Nat.div_add, Nat.mod_add by done. rewrite Nat.add_1_r. done. }
      rewrite (G _ _ _ NZ Hlen). rewrite list_lookup_fmap. destruct (ms_cells m !! (i / ck_num_faces k)) as [cell|] eqn:Ec; cbn.
      + assert (cell ∈ ms_cells m) by by eapply elem_of_list_lookup_2. rewrite faces_of_lookup by done. split; [intros [? ?]; split; [done|]; split; [done|]; by exists cell|]. intros (_ & ? & cell' & [= <-] & ?). done.
      + split; [done|]. by intros (_ & _ & ? & ? & _).
  Qed.
End conv.

(** The conversion never panics for meshes with indices in bounds. Cell by cell and face by face the polymesh refers to a face with the same
    vertices; no two faces have the same vertices; the faces are exactly the faces of the cells, each with the orientation it has in the first
    cell it occurs in. *)
Theorem C71_mesh_to_poly {V} (k : conn_kind) (m : mesh V) : kind_ok k -> cells_of_kind k (ms_cells m) -> Forall (Forall (fun v => v < length (ms_vertices m))) (ms_cells m) ->
  exists p, mesh_to_poly k m = Some p /\ pm_ok p /\ pm_vertices p = ms_vertices m /\ length (pm_cells p) = length (ms_cells m) /\
  (forall c fs, pm_cells p !! c = Some fs -> length fs = ck_num_faces k /\
     forall l f, fs !! l = Some f -> exists face face', is_face k (ms_cells m) face c l /\ pm_faces p !! f = Some face' /\ face' ≡ₚ face) /\
  (forall i j a b, pm_faces p !! i = Some a -> pm_faces p !! j = Some b -> a ≡ₚ b -> i = j) /\
  (forall face, face ∈ pm_faces p <-> exists c l, is_face k (ms_cells m) face c l /\
     forall face' c' l', is_face k (ms_cells m) face' c' l' -> face' ≡ₚ face -> c < c' \/ (c = c' /\ l <= l')).
Proof.
  intros Hk Hs Hb. unfold mesh_to_poly.
  destruct (to_poly_fold k m Hk Hs Hb (ms_cells m) [] [] [] [] (fun _ H => H) dedup_inv_nil) as (faces & seen & cells & -> & (Ha & Hu & Hsub & Hc & Hf) & _ & F2). cbn [mbind option_bind app] in *.
  assert (Hok : pm_ok (PolyMesh (ms_vertices m) faces cells)).
  { split; cbn.
    - apply Forall_forall. intros face Hface. assert (face ∈ concat (map (faces_of k) (ms_cells m))) as Hin by (eapply elem_of_submseteq; [exact Hface|by apply sublist_submseteq]).
      apply elem_of_concat in Hin as (fs & Hfs & Hin). apply elem_of_list_fmap in Hfs as (cell & -> & Hcell). apply elem_of_list_lookup in Hin as [l Hl]. apply (faces_of_lookup k m Hk Hs Hb) in Hl as [Hl E]; [|done].
      destruct (face_of_ok k m Hk Hs Hb cell l Hcell Hl) as (t & face' & Et & Ef & G). unfold face_of in E. rewrite Et in E. cbn in E. rewrite Ef in E. by injection E as <-.
    - apply Forall_lookup. intros c out Hout. destruct (Forall2_lookup_r _ _ _ _ _ F2 Hout) as (cell & _ & G). apply Forall_lookup. intros l f Hl. destruct (Forall2_lookup_r _ _ _ _ _ G Hl) as (face & _ & face' & Hface' & _). by eapply lookup_lt_Some. }
  exists (PolyMesh (ms_vertices m) faces cells). split; [by apply from_poly_data_ok|]. split; [done|]. cbn [pm_vertices pm_faces pm_cells]. split; [done|]. split; [by rewrite (Forall2_length _ _ _ F2)|].
  split; [|split; [done|]].
  - intros c fs Hfs. destruct (Forall2_lookup_r _ _ _ _ _ F2 Hfs) as (cell & Hcell & G). assert (cell ∈ ms_cells m) as Hin by by eapply elem_of_list_lookup_2. split.
    + rewrite <- (Forall2_length _ _ _ G). by apply (faces_of_length k m Hk Hs Hb).
    + intros l f Hl. destruct (Forall2_lookup_r _ _ _ _ _ G Hl) as (face & Hface & face' & Hface' & Hp). apply (faces_of_lookup k m Hk Hs Hb) in Hface as [L E]; [|done]. exists face, face'. split; [|done]. apply is_face_iff. split; [done|]. by exists cell.
  - intros face. split.
    + intros H. apply elem_of_list_lookup in H as [j Hj]. destruct (Hf j face Hj) as (i & Hi & Hmin). apply (all_faces_lookup k m Hk Hs Hb) in Hi as [NZ Hi]. eexists _, _. split; [exact Hi|].
      intros face' c' l' H' Hp. assert (Hl' : l' < ck_num_faces k) by by destruct H'. set (n := ck_num_faces k) in *.
      assert (concat (map (faces_of k) (ms_cells m)) !! (c' * n + l') = Some face') as Hi'.
      { apply (all_faces_lookup k m Hk Hs Hb). split; [done|]. fold n. rewrite (Nat.add_comm (c' * n)), Nat.div_add, Nat.mod_add by done. rewrite Nat.div_small, Nat.mod_small by done. done. }
      destruct (decide (c' * n + l' < i)) as [L|L]; [by destruct (Hmin _ _ L Hi')|]. pose proof (Nat.div_mod i n NZ). pose proof (Nat.mod_upper_bound i n NZ). destruct (decide (i / n < c')); [by left|]. right. assert (i / n = c') as -> by nia. split; [done|]. nia.
    + intros (c & l & H & Hmin). assert (Hl : l < ck_num_faces k) by by destruct H. set (n := ck_num_faces k) in *. assert (NZ : n <> 0) by lia.
      assert (concat (map (faces_of k) (ms_cells m)) !! (c * n + l) = Some face) as Hi.
      { apply (all_faces_lookup k m Hk Hs Hb). split; [done|]. fold n. rewrite (Nat.add_comm (c * n)), Nat.div_add, Nat.mod_add by done. rewrite Nat.div_small, Nat.mod_small by done. done. }
      destruct (Hc face) as (face' & Hin' & Hp); [by eapply elem_of_list_lookup_2|]. apply elem_of_list_lookup in Hin' as Hj. destruct Hj as [j Hj]. destruct (Hf j face' Hj) as (i & Hi' & Hmin').
      destruct (decide (c * n + l < i)) as [L|L]; [destruct (Hmin' _ _ L Hi); by symmetry|]. assert (i = c * n + l) as ->; [|congruence].
      apply (all_faces_lookup k m Hk Hs Hb) in Hi' as [_ Hi']. fold n in Hi'. specialize (Hmin _ _ _ Hi' Hp). pose proof (Nat.div_mod i n NZ). pose proof (Nat.mod_upper_bound i n NZ). nia.
Qed.
Print Assumptions C71_mesh_to_poly.

Lemma concat_blocks {A} (ls : list (list A)) n i : n <> 0 -> (forall l, l ∈ ls -> length l = n) -> concat ls !! i = (l ← ls !! (i / n); l !! (i mod n)).
Proof.
  revert i. induction ls as [|l ls IH]; intros i Hn H; [done|]. cbn [concat]. assert (length l = n) as L by (apply H; by left). destruct (decide (i < n)) as [Hi|Hi].
  - rewrite Nat.div_small, Nat.mod_small by done. cbn. rewrite lookup_app_l by lia. done.
  - rewrite lookup_app_r by lia. rewrite IH by (done || (intros; apply H; by right)). rewrite L. remember (i - n) as i0 eqn:E0. assert (i = i0 + 1 * n) as -> by lia. rewrite Nat.div_add, Nat.mod_add by done. rewrite Nat.add_1_r. done.
Qed.
Lemma occ_zero f l : occ f l = 0 <-> f ∉ l.
Proof. rewrite <- (occ_pos f l). lia. Qed.
Lemma occ_le_1 f l : occ f l <= 1 <-> forall i j, l !! i = Some f -> l !! j = Some f -> i = j.
Proof.
  induction l as [|x l IH]; [split; [by intros _|cbn; unfold occ; cbn; lia]|]. rewrite occ_cons. destruct (decide (x = f)) as [->|N].
  - split.
    + intros H. assert (occ f l = 0) as Z by lia. apply occ_zero in Z. intros [|i] [|j] Hi Hj; cbn in *; [done| | |]; destruct Z; by eapply elem_of_list_lookup_2.
    + intros H. assert (occ f l = 0); [|lia]. apply occ_zero. intros Hin. apply elem_of_list_lookup in Hin as [i Hi]. specialize (H 0 (S i) eq_refl Hi). done.
  - cbn [Nat.add]. rewrite IH. split.
    + intros H [|i] [|j] Hi Hj; cbn in *; [done|congruence|congruence|]. f_equal. by apply H.
    + intros H i j Hi Hj. specialize (H (S i) (S j) Hi Hj). lia.
Qed.

(** The boundary faces of the polymesh are the boundary faces of the mesh. *)
Theorem C71_boundary {V} (k : conn_kind) (m : mesh V) : kind_ok k -> cells_of_kind k (ms_cells m) -> Forall (Forall (fun v => v < length (ms_vertices m))) (ms_cells m) ->
  exists p fs, mesh_to_poly k m = Some p /\ poly_boundary_faces p = Some fs /\
  forall face, (exists f, f ∈ fs /\ pm_faces p !! f = Some face) <-> exists c l, is_boundary_face k (ms_cells m) face c l.
Proof.
  intros Hk Hs Hb. destruct (C71_mesh_to_poly k m Hk Hs Hb) as (p & E & Hok & _ & Hlen & Hcell & Hu & Hface). destruct (C50_boundary p Hok) as (fs & Efs & _ & Hfs & _). exists p, fs. split; [done|]. split; [done|].
  (* the faces of a cell of the polymesh *)
  assert (Hpos : forall face c l, is_face k (ms_cells m) face c l -> exists row f face', pm_cells p !! c = Some row /\ row !! l = Some f /\ pm_faces p !! f = Some face' /\ face' ≡ₚ face).
  { intros face c l H. destruct H as (Hl & cell & t & Hc & Et & F). destruct (lookup_lt_is_Some_2 (pm_cells p) c) as [row Hrow]; [rewrite Hlen; by eapply lookup_lt_Some|].
    destruct (Hcell c row Hrow) as [L G]. destruct (lookup_lt_is_Some_2 row l) as [f Hf]; [lia|]. destruct (G l f Hf) as (face1 & face' & (_ & cell1 & t1 & Hc1 & Et1 & F1) & Hface' & Hp). exists row, f, face'. split_and!; try done.
    rewrite Hc in Hc1. injection Hc1 as <-. rewrite Et in Et1. injection Et1 as <-. assert (face1 = face) as <-; [|done]. apply mapM_Forall2 in F, F1. congruence. }
  assert (Hlens : forall l, l ∈ pm_cells p -> length l = ck_num_faces k) by (intros l Hl; apply elem_of_list_lookup in Hl as [c Hc]; by apply Hcell in Hc as [? _]).
  intros face. split.
  - intros (f & Hf & Ef). apply Hfs in Hf as [_ Hocc]. rewrite occ_le_1 in Hocc. destruct (proj1 (Hface face)) as (c & l & H & _); [by eapply elem_of_list_lookup_2|]. exists c, l. split; [done|].
    intros f' c' l' H' Hp. set (n := ck_num_faces k) in *. assert (Hl : l < n) by by destruct H. assert (Hl' : l' < n) by by destruct H'. assert (NZ : n <> 0) by lia.
    destruct (Hpos _ _ _ H) as (row & g & g' & Hrow & Hg & Hg' & Hp1). assert (g = f) as -> by exact (Hu _ _ _ _ Hg' Ef Hp1).
    destruct (Hpos _ _ _ H') as (row' & h & h' & Hrow' & Hh & Hh' & Hp2). assert (h = f) as -> by exact (Hu _ _ _ _ Hh' Ef (Permutation_trans Hp2 Hp)).
    assert (P : forall c l row, l < n -> pm_cells p !! c = Some row -> row !! l = Some f -> concat (pm_cells p) !! (l + c * n) = Some f).
    { intros c0 l0 row0 L0 Hc0 Hl0. rewrite (concat_blocks _ n) by done. rewrite Nat.div_add, Nat.mod_add by done. rewrite Nat.div_small, Nat.mod_small by done. cbn [Nat.add]. rewrite Hc0. done. }
    pose proof (Hocc _ _ (P c l row Hl Hrow Hg) (P c' l' row' Hl' Hrow' Hh)) as Eq. assert (c = c') as -> by nia. split; [done|]. lia.
  - intros (c & l & H & Huniq). set (n := ck_num_faces k) in *. assert (Hl : l < n) by by destruct H. assert (NZ : n <> 0) by lia.
    assert (face ∈ pm_faces p) as Hin. { apply Hface. exists c, l. split; [done|]. intros face' c' l' H' Hp. destruct (Huniq _ _ _ H' Hp) as [-> ->]. right. done. }
    apply elem_of_list_lookup in Hin as [f Hf]. exists f. split; [|done]. apply Hfs. split; [by eapply lookup_lt_Some|]. apply occ_le_1.
    assert (P : forall i, concat (pm_cells p) !! i = Some f -> i / n = c /\ i mod n = l).
    { intros i Hi. rewrite (concat_blocks _ n) in Hi by done. destruct (pm_cells p !! (i / n)) as [row|] eqn:Erow; [|done]. cbn in Hi. destruct (Hcell _ _ Erow) as [_ G]. destruct (G _ _ Hi) as (face1 & face' & H1 & Hface' & Hp).
      rewrite Hf in Hface'. injection Hface' as <-. apply (Huniq face1); [done|]. by rewrite Hp. }
    intros i j Hi Hj. destruct (P i Hi) as [Ai Bi]. destruct (P j Hj) as [Aj Bj]. pose proof (Nat.div_mod i n NZ) as Di. pose proof (Nat.div_mod j n NZ) as Dj. rewrite Ai, Bi in Di. rewrite Aj, Bj in Dj. lia.
Qed.
Print Assumptions C71_boundary.

(** * hexahedra *)
Lemma hex8_ok : kind_ok hex8_kind.
Proof. intros i Hi. cbn in Hi. destruct i as [|[|[|[|[|[|]]]]]]; try lia; eexists; (split; [done|repeat constructor]). Qed.
Lemma cone_length face fs : is_fan face fs -> length fs = length face - 2.
Proof.
  intros (l1 & a & l2 & -> & _ & _ & ->). assert (length (l1 ++ a :: l2) = S (length (l2 ++ l1))) as -> by (rewrite !app_length; cbn; lia).
  rewrite zip_with_length. destruct (l2 ++ l1); cbn [length tail]; lia.
Qed.

(** Hexahedral meshes with indices in bounds always convert to tetrahedral meshes with the same vertices. If the eight vertices of every
    hexahedron are distinct, every hexahedron becomes six tetrahedra of its vertices, whose apex is its smallest vertex, in the order of the cells. *)
Theorem C71_hex_to_tet {V} (below : V -> V -> V -> V -> bool) (m : mesh V) :
  cells_of_kind hex8_kind (ms_cells m) -> Forall (Forall (fun v => v < length (ms_vertices m))) (ms_cells m) ->
  exists t, hex_to_tet below m = Some t /\ ms_vertices t = ms_vertices m /\
  (Forall NoDup (ms_cells m) -> exists groups, concat groups = ms_cells t /\
   Forall2 (fun hex group => length group = 6 /\ Forall (fun tet => exists x y z v, tet = [x; y; z; v] /\ x ∈ hex /\ y ∈ hex /\ z ∈ hex /\ v ∈ hex /\ v ∉ [x; y; z] /\ forall u, u ∈ hex -> v <= u) group) (ms_cells m) groups).
Proof.
  intros Hs Hb. unfold hex_to_tet. destruct (C71_mesh_to_poly hex8_kind m hex8_ok Hs Hb) as (p & -> & Hok & Ev & Hlen & Hcell & Hu & Hface). cbn [mbind option_bind].
  assert (H4 : forall face c l, is_face hex8_kind (ms_cells m) face c l -> length face = 4).
  { intros face c l (Hl & cell & t & _ & Et & F). rewrite <- (Forall2_length _ _ _ F). cbn in Hl. destruct l as [|[|[|[|[|[|]]]]]]; try lia; cbn in Et; by injection Et as <-. }
  assert (H3 : Forall (fun f => length f = 4) (pm_faces p)). { apply Forall_forall. intros face Hin. apply Hface in Hin as (c & l & H & _). by eapply H4. }
  destruct (C70_triangulate_to_tet below p Hok) as (q & cells & tss & E1 & E2 & F1 & F2).
  { eapply Forall_impl; [exact H3|]. cbn. lia. }
  rewrite E1, E2. eexists. split; [done|]. cbn. split; [done|]. intros HN.
  (* the tetrahedra of each cell *)
  assert (G : forall c hex row ts, ms_cells m !! c = Some hex -> pm_cells p !! c = Some row -> is_cone (pm_faces p) row ts -> length ts = 6 /\
     Forall (fun tv : list nat * nat => exists a b c, tv.1 = [a; b; c] /\ a ∈ hex /\ b ∈ hex /\ c ∈ hex /\ tv.2 ∈ hex /\ tv.2 ∉ tv.1 /\ forall u, u ∈ hex -> tv.2 <= u) ts).
  { intros c hex row ts Hhex Hrow Hcone. destruct (Hcell c row Hrow) as [Lrow Grow].
    assert (Hsub : forall f face x, f ∈ row -> pm_faces p !! f = Some face -> x ∈ face -> x ∈ hex).
    { intros f face x Hf Hff Hx. apply elem_of_list_lookup in Hf as [l Hl]. destruct (Grow l f Hl) as (face0 & face' & (_ & cell & t & Hc & _ & F) & Hf' & Hp). rewrite Hff in Hf'. injection Hf' as <-. rewrite Hp in Hx.
      apply elem_of_list_lookup in Hx as [i Hi]. destruct (Forall2_lookup_r _ _ _ _ _ F Hi) as (j & _ & Hj). rewrite Hhex in Hc. injection Hc as <-. by eapply elem_of_list_lookup_2. }
    unfold cells_of_kind in Hs. rewrite Forall_lookup in Hs, HN. pose proof (Hs c hex Hhex) as Lhex. pose proof (HN c hex Hhex) as Nhex. cbn in Lrow, Lhex.
    assert (Hall : forall x, x ∈ hex -> exists f face, f ∈ row /\ pm_faces p !! f = Some face /\ x ∈ face).
    { intros x Hx. apply elem_of_list_lookup in Hx as [j Hj]. apply lookup_lt_Some in Hj as Lj. rewrite Lhex in Lj.
      assert (exists l t, hex8_kind.(ck_face) l = Some t /\ l < 6 /\ j ∈ t) as (l & t & Et & Hl & Hjt).
      { destruct (decide (j < 4)); [exists 0, [3; 2; 1; 0]|exists 5, [5; 6; 7; 4]]; (split; [done|]); (split; [lia|]); destruct j as [|[|[|[|[|[|[|[|]]]]]]]]; try lia; apply (bool_decide_unpack _); by vm_compute. }
      destruct (lookup_lt_is_Some_2 row l) as [f Hf]; [lia|]. destruct (Grow l f Hf) as (face0 & face' & (_ & cell & t' & Hc & Et' & F) & Hf' & Hp). rewrite Et in Et'. injection Et' as <-. rewrite Hhex in Hc. injection Hc as <-.
      exists f, face'. split; [by eapply elem_of_list_lookup_2|]. split; [done|]. rewrite Hp. apply elem_of_list_lookup in Hjt as [i Hi]. destruct (Forall2_lookup_l _ _ _ _ _ F Hi) as (y & Hy & Hy'). rewrite Hj in Hy'. injection Hy' as <-. by eapply elem_of_list_lookup_2. }
    destruct Hcone as [[-> _]|(v & tss' & (f0 & face0 & Hf0 & Ef0 & Hv0) & Hmin & F & ->)]; [cbn in Lrow; lia|].
    assert (Hv : v ∈ hex) by by eapply Hsub.
    split.
    - (* three faces do not contain v *)
      apply elem_of_list_lookup in Hv as [j Hj]. apply lookup_lt_Some in Hj as Lj. rewrite Lhex in Lj.
      assert (K : forall l t f ts, ck_face hex8_kind l = Some t -> row !! l = Some f -> tss' !! l = Some ts -> length ts = if decide (j ∈ t) then 0 else 2).
      { intros l t f ts Et Hf Hts. destruct (Grow l f Hf) as (face1 & face' & Hif & Hf' & Hp). pose proof (H4 _ _ _ Hif) as L4. destruct Hif as (_ & cell & t' & Hc & Et' & Ft). rewrite Et in Et'. injection Et' as <-. rewrite Hhex in Hc. injection Hc as <-.
        destruct (Forall2_lookup_l _ _ _ _ _ F Hf) as (ts' & Hts' & face2 & Hf2 & D). rewrite Hts in Hts'. injection Hts' as <-. rewrite Hf' in Hf2. injection Hf2 as <-.
        assert (Hiff : v ∈ face' <-> j ∈ t).
        { rewrite Hp. split.
          - intros Hin. apply elem_of_list_lookup in Hin as [i Hi]. destruct (Forall2_lookup_r _ _ _ _ _ Ft Hi) as (j' & Hj' & Hv'). assert (j' = j) as -> by (eapply NoDup_lookup; done). by eapply elem_of_list_lookup_2.
          - intros Hin. apply elem_of_list_lookup in Hin as [i Hi]. destruct (Forall2_lookup_l _ _ _ _ _ Ft Hi) as (v' & Hv' & Hj'). rewrite Hj in Hj'. injection Hj' as <-. by eapply elem_of_list_lookup_2. }
        destruct D as [[Hin ->]|(Hnin & fs & Hfan & ->)].
        - rewrite decide_True by by apply Hiff. done.
        - rewrite decide_False by (intros Hin; by apply Hnin, Hiff). rewrite map_length, (cone_length _ _ Hfan), (Permutation_length Hp), L4. done. }
      pose proof (Forall2_length _ _ _ F) as Ltss. destruct row as [|r0 [|r1 [|r2 [|r3 [|r4 [|r5 [|]]]]]]]; try (cbn in Lrow; lia). destruct tss' as [|s0 [|s1 [|s2 [|s3 [|s4 [|s5 [|]]]]]]]; try (cbn in Ltss; lia).
      cbn [concat]. rewrite !app_length. cbn [length]. rewrite (K 0 _ r0 s0 eq_refl eq_refl eq_refl), (K 1 _ r1 s1 eq_refl eq_refl eq_refl), (K 2 _ r2 s2 eq_refl eq_refl eq_refl), (K 3 _ r3 s3 eq_refl eq_refl eq_refl), (K 4 _ r4 s4 eq_refl eq_refl eq_refl), (K 5 _ r5 s5 eq_refl eq_refl eq_refl).
      destruct j as [|[|[|[|[|[|[|[|]]]]]]]]; try lia; by vm_compute.
    - apply Forall_forall. intros tv Htv. apply elem_of_concat in Htv as (ts & Hts & Htv). apply elem_of_list_lookup in Hts as [l Hl]. destruct (Forall2_lookup_r _ _ _ _ _ F Hl) as (f & Hf & face & Ef & [[_ ->]|(Hn & fs & Hfan & ->)]); [by apply elem_of_nil in Htv|].
      apply elem_of_list_fmap in Htv as (t & -> & Ht). pose proof (is_fan_3 _ _ Hfan) as F3. rewrite Forall_forall in F3. destruct (F3 t Ht) as (a & b & d & -> & Ha & Hb' & Hd). apply elem_of_list_lookup_2 in Hf. exists a, b, d. cbn [fst snd].
      split; [done|]. split; [by eapply Hsub|]. split; [by eapply Hsub|]. split; [by eapply Hsub|]. split; [done|]. split.
      + rewrite !elem_of_cons, elem_of_nil. intros [Hv1|[Hv1|[Hv1|[]]]]; apply Hn; by rewrite Hv1.
      + intros u Hu'. destruct (Hall u Hu') as (f' & face' & Hf' & Ef' & Hin). by eapply Hmin. }
  assert (exists groups, concat groups = cells /\ Forall2 (fun ts group => length ts = length group /\ Forall2 (fun cell (tv : list nat * nat) => exists x y z, cell = [x; y; z; tv.2] /\ [x; y; z] ≡ₚ tv.1) group ts) tss groups) as (groups & Eg & Fg).
  { clear -F2. revert cells F2. induction tss as [|ts tss IH]; intros cells F2; [apply Forall2_nil_inv_r in F2 as ->; by exists []|]. cbn [concat] in F2. apply Forall2_app_inv_r in F2 as (g1 & g2 & A & B & ->). destruct (IH g2 B) as (gs & <- & Fgs).
    exists (g1 :: gs). split; [done|]. constructor; [|done]. split; [by rewrite (Forall2_length _ _ _ A)|done]. }
  exists groups. split; [done|]. apply Forall2_same_length_lookup. split; [by rewrite <- (Forall2_length _ _ _ Fg), <- (Forall2_length _ _ _ F1), Hlen|].
  intros c hex group Hhex Hgroup. destruct (Forall2_lookup_r _ _ _ _ _ Fg Hgroup) as (ts & Hts & Lg & Ft). destruct (Forall2_lookup_r _ _ _ _ _ F1 Hts) as (row & Hrow & Hcone). destruct (G c hex row ts Hhex Hrow Hcone) as [L6 Fh]. split; [lia|].
  apply Forall_lookup. intros i tet Htet. destruct (Forall2_lookup_l _ _ _ _ _ Ft Htet) as (tv & Htv & x & y & z & -> & Hp). rewrite Forall_lookup in Fh. destruct (Fh i tv Htv) as (a & b & d & E & Ha & Hb' & Hd & Hv & Hn & Hmin).
  exists x, y, z, tv.2. split; [done|]. assert (Hin : forall u, u ∈ [x; y; z] -> u ∈ hex). { intros u. rewrite Hp, E, !elem_of_cons, elem_of_nil. intros [->|[->|[->|[]]]]; done. }
  split; [apply Hin; by left|]. split; [apply Hin; right; by left|]. split; [apply Hin; right; right; by left|]. split; [done|]. split; [by rewrite Hp|done].
Qed.
Print Assumptions C71_hex_to_tet.

(** Two hexahedra with a common face. *)
Example C71_example : let m := Mesh (seq 0 12) [[0;1;4;3;6;7;10;9]; [1;2;5;4;7;8;11;10]] in
  cells_of_kind hex8_kind (ms_cells m) /\ Forall (Forall (fun v => v < length (ms_vertices m))) (ms_cells m) /\ Forall NoDup (ms_cells m) /\
  (exists p, mesh_to_poly hex8_kind m = Some p /\ length (pm_faces p) = 11 /\ pm_cells p = [[0;1;2;3;4;5]; [6;7;8;9;2;10]]) /\
  (exists t, hex_to_tet (fun _ _ _ _ => false) m = Some t /\ length (ms_cells t) = 12).
Proof.
  cbn zeta. split; [repeat constructor|]. split; [repeat constructor|]. split; [apply (bool_decide_unpack _); by vm_compute|]. split; [|eexists; split; by vm_compute].
  eexists. split; [by vm_compute|]. split; by vm_compute.
Qed.

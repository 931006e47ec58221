(** C50: removing duplicate faces, face-cell connectivity and boundary faces of polymeshes (polymesh.rs:157-239). *)
From stdpp Require Import base list list_numbers sorting.
From Verif Require Import Prelude ReorderModel MeshModel MeshProofs PolyModel PolySpec PolyProofs.

(** [dedup_faces] never panics on a mesh whose indices are in bounds; it keeps the vertices; every face index of every cell refers to a
    face with the same vertices as before; no two remaining faces have the same vertices; the remaining faces are the first ones of their
    kind in the old order; the new mesh is in bounds. *)
Theorem C50_dedup {V} (m : polymesh V) : pm_ok m ->
  exists m', dedup_faces m = Some m' /\ pm_ok m' /\ pm_vertices m' = pm_vertices m /\
  Forall2 (Forall2 (fun f f' => exists face face', pm_faces m !! f = Some face /\ pm_faces m' !! f' = Some face' /\ face' ≡ₚ face)) (pm_cells m) (pm_cells m') /\
  (forall i j a b, pm_faces m' !! i = Some a -> pm_faces m' !! j = Some b -> a ≡ₚ b -> i = j) /\
  pm_faces m' `sublist_of` pm_faces m /\
  (forall face, face ∈ pm_faces m' <-> exists i, pm_faces m !! i = Some face /\ forall k b, k < i -> pm_faces m !! k = Some b -> ~ b ≡ₚ face).
Proof.
  intros Hok. destruct (dedup_faces_spec m Hok) as (m' & seen & E & Hv & (Ha & Hu & Hs & Hc & Hf) & F2). exists m'. split; [done|]. destruct Hok as [Ov Oc].
  split; [split|split_and!; try done].
  - rewrite Hv. apply Forall_forall. intros face Hface. rewrite Forall_forall in Ov. apply Ov. eapply elem_of_submseteq; [exact Hface|by apply sublist_submseteq].
  - apply Forall_lookup. intros c cell Hcell. destruct (Forall2_lookup_r _ _ _ _ _ F2 Hcell) as (cell0 & _ & F). apply Forall_lookup. intros i f Hi.
    destruct (Forall2_lookup_r _ _ _ _ _ F Hi) as (f0 & _ & face & face' & _ & Hl & _). by apply lookup_lt_Some in Hl.
  - intros face. split.
    + intros H. apply elem_of_list_lookup in H as [j Hj]. by apply (Hf j).
    + intros (i & Hi & Hmin). destruct (Hc face) as (face' & Hface' & Hp); [by eapply elem_of_list_lookup_2|].
      apply elem_of_list_lookup in Hface' as Hj. destruct Hj as [j Hj]. destruct (Hf j face' Hj) as (i' & Hi' & Hmin'). destruct (decide (i = i')) as [<-|N]; [congruence|].
      assert (i < i' \/ i' < i) as [L|L] by lia.
      * destruct (Hmin' i face L Hi). by symmetry.
      * by destruct (Hmin i' face' L Hi').
Qed.
Print Assumptions C50_dedup.

(** Row [f] of the connectivity lists, in increasing order, every cell as often as it refers to face [f]. *)
Theorem C50_connectivity {V} (m : polymesh V) : pm_ok m ->
  exists rows, face_cell_connectivity m = Some rows /\ length rows = length (pm_faces m) /\
  forall f row, rows !! f = Some row ->
    row = concat (imap (fun c cell => replicate (occ f cell) c) (pm_cells m)) /\
    forall c, c ∈ row <-> exists cell, pm_cells m !! c = Some cell /\ f ∈ cell.
Proof.
  intros Hok. eexists. split; [by apply face_cell_spec|]. split; [by rewrite map_length, seq_length|]. intros f row Hrow. rewrite list_lookup_fmap in Hrow.
  apply fmap_Some in Hrow as (f' & Hf' & ->). apply lookup_seq in Hf' as [-> _]. cbn [Nat.add]. split; [done|]. intros c. rewrite elem_of_concat. split.
  - intros (row & Hrow & Hc). apply elem_of_lookup_imap in Hrow as (i & cell & -> & Hi). apply elem_of_replicate in Hc as [-> Hn]. exists cell. split; [done|]. apply occ_pos. lia.
  - intros (cell & Hc & Hf). exists (replicate (occ f cell) c). split; [apply elem_of_lookup_imap; by exists c, cell|]. apply elem_of_replicate; split; [done|apply occ_pos in Hf; lia].
Qed.
Print Assumptions C50_connectivity.

Lemma sum_occ f cells : sum_list (map (occ f) cells) = length (filter (fun g => g = f) (concat cells)).
Proof. induction cells as [|c cells IH]; [done|]. cbn [map sum_list concat]. rewrite filter_app, app_length, <- IH. done. Qed.
Lemma occ_nodup f l : NoDup l -> occ f l <= 1.
Proof.
  intros H. unfold occ. destruct (filter (fun x => x = f) l) as [|x [|y r]] eqn:E; cbn; [lia|lia|]. exfalso.
  assert (NoDup (filter (fun x => x = f) l)) as N by by apply NoDup_filter. assert (Hx : forall z, z ∈ filter (fun x => x = f) l -> z = f) by (intros z Hz; by apply elem_of_list_filter in Hz as [-> _]).
  rewrite E in *. assert (x = f) by (apply Hx; by left). assert (y = f) by (apply Hx; right; by left). subst. apply NoDup_cons in N as [N _]. apply N. by left.
Qed.
Lemma sum_le_1 f cells : Forall NoDup cells -> sum_list (map (occ f) cells) <= 1 <-> forall c d cell cell', cells !! c = Some cell -> cells !! d = Some cell' -> f ∈ cell -> f ∈ cell' -> c = d.
Proof.
  intros HN. induction cells as [|a cells IH]; [split; [by intros|cbn; lia]|]. apply Forall_cons in HN as [Ha HN]. specialize (IH HN). unfold sum_list; cbn [map sum_list_with]; unfold id at 1; fold (sum_list (map (occ f) cells)). pose proof (occ_nodup f a Ha) as Hle. 
  assert (Hz : sum_list (map (occ f) cells) = 0 <-> forall c cell, cells !! c = Some cell -> f ∉ cell).
  { clear. induction cells as [|b cells IH]; [split; [by intros|done]|]. unfold sum_list; cbn [map sum_list_with]; unfold id at 1; fold (sum_list (map (occ f) cells)). split.
    - intros H [|c] cell Hc; cbn in Hc; [injection Hc as <-; intros Hin; apply occ_pos in Hin; lia|]. apply IH in Hc; [done|lia].
    - intros H. assert (occ f b = 0). { destruct (decide (occ f b = 0)); [done|]. exfalso. apply (H 0 b); [done|]. apply occ_pos. lia. }
      assert (sum_list (map (occ f) cells) = 0); [|lia]. apply IH. intros c cell Hc. by apply (H (S c)). }
  split.
  - intros H. destruct (decide (f ∈ a)) as [Hin|Hin].
    + pose proof (proj2 (occ_pos f a) Hin). assert (sum_list (map (occ f) cells) = 0) as E by lia. rewrite Hz in E. intros [|c] [|d] cell cell' Hc Hd H1 H2; cbn in *; [done|by destruct (E d cell' Hd)|by destruct (E c cell Hc)|by destruct (E c cell Hc)].
    + assert (sum_list (map (occ f) cells) <= 1) as E by lia. rewrite IH in E. intros [|c] [|d] cell cell' Hc Hd H1 H2; cbn in *; [done|injection Hc as <-; done|injection Hd as <-; done|]. f_equal. by eapply E.
  - intros H. destruct (decide (f ∈ a)) as [Hin|Hin].
    + assert (sum_list (map (occ f) cells) = 0); [|lia]. apply Hz. intros c cell Hc Hf. by specialize (H 0 (S c) a cell eq_refl Hc Hin Hf).
    + assert (occ f a = 0). { destruct (decide (occ f a = 0)); [done|]. destruct Hin. apply occ_pos. lia. }
      assert (sum_list (map (occ f) cells) <= 1); [|lia]. apply IH. intros c d cell cell' Hc Hd H1 H2. specialize (H (S c) (S d) cell cell' Hc Hd H1 H2). lia.
Qed.
(** The boundary faces are, in increasing order, the faces referred to at most once; when no cell refers to a face twice these are the
    faces that no two different cells share. *)
Theorem C50_boundary {V} (m : polymesh V) : pm_ok m ->
  exists fs, poly_boundary_faces m = Some fs /\ StronglySorted lt fs /\
  (forall f, f ∈ fs <-> f < length (pm_faces m) /\ occ f (concat (pm_cells m)) <= 1) /\
  (Forall NoDup (pm_cells m) -> forall f, f ∈ fs <-> f < length (pm_faces m) /\
     forall c d cell cell', pm_cells m !! c = Some cell -> pm_cells m !! d = Some cell' -> f ∈ cell -> f ∈ cell' -> c = d).
Proof.
  intros Hok. eexists. split; [by apply boundary_spec|]. split.
  - generalize (length (pm_faces m)) as n. intros n. enough (Hs : forall k, StronglySorted lt (filter (fun f => sum_list (map (occ f) (pm_cells m)) <= 1) (seq k n))) by apply Hs. induction n as [|n IH]; intros k; cbn [seq]; [constructor|]. rewrite filter_cons. destruct (decide _); [|apply IH].
    constructor; [apply IH|]. apply Forall_forall. intros f Hf. apply elem_of_list_filter in Hf as [_ Hf]. apply elem_of_seq in Hf. lia.
  - split.
    + intros f. rewrite elem_of_list_filter, elem_of_seq, sum_occ. unfold occ. lia.
    + intros HN f. rewrite elem_of_list_filter, elem_of_seq, sum_le_1 by done. split; intros [? ?]; split; try done; lia.
Qed.
Print Assumptions C50_boundary.

(** Two triangular prisms glued along a quadrilateral that each has as its own face. *)
Example C50_example : let m := PolyMesh (seq 0 8) [[0;1;2]; [4;5;6]; [0;4;5;1]; [1;5;6;2]; [2;6;4;0]; [0;2;3]; [4;6;7]; [0;4;6;2]; [2;6;7;3]; [3;7;4;0]] [[0;1;2;3;4]; [5;6;7;8;9]] in
  pm_ok m /\ dedup_faces m = Some (PolyMesh (seq 0 8) [[0;1;2]; [4;5;6]; [0;4;5;1]; [1;5;6;2]; [2;6;4;0]; [0;2;3]; [4;6;7]; [2;6;7;3]; [3;7;4;0]] [[0;1;2;3;4]; [5;6;4;7;8]]) /\
  (m' ← dedup_faces m; face_cell_connectivity m') = Some [[0];[0];[0];[0];[0;1];[1];[1];[1];[1]] /\ (m' ← dedup_faces m; poly_boundary_faces m') = Some [0;1;2;3;5;6;7;8].
Proof. cbn zeta. split; [split; repeat constructor|]. by vm_compute. Qed.

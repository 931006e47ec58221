(** C26, C27, C58: boundary faces, restriction to cells, surface extraction. *)
From stdpp Require Import base list list_numbers sorting.
From Coq Require Import Lia.
From Verif Require Import Prelude ReorderModel ReorderSpec ReorderProofs MeshModel MeshSpec MeshProofs.

(** C26. The boundary faces are exactly the faces whose vertices (as a multiset) occur in no other face; each is listed
    once, ordered by sorted vertex list. *)
Theorem C26_boundary_faces :
  forall (k : conn_kind) (cells : list (list nat)), kind_ok k -> cells_of_kind k cells ->
  exists fs, find_boundary_faces k cells = Some fs /\
    (forall f c l, (f, c, l) ∈ fs <-> is_boundary_face k cells f c l) /\ NoDup fs /\
    forall i j fi fj ci cj li lj si sj, i < j -> fs !! i = Some (fi, ci, li) -> fs !! j = Some (fj, cj, lj) ->
      sorted_version fi si -> sorted_version fj sj -> lex_lt si sj.
Proof.
  intros k cells Hk Hc. destruct (boundary_faces_spec k cells Hk Hc) as (fs & H1 & H2 & H3). exists fs. split_and!; [done|done| |].
  - apply NoDup_alt. intros i j x Hi Hj. destruct (Nat.lt_trichotomy i j) as [H|[H|H]]; [|done|].
    + exfalso. eapply lex_irrefl. exact (sorted_lookup _ _ _ _ _ _ H3 H Hi Hj).
    + exfalso. eapply lex_irrefl. exact (sorted_lookup _ _ _ _ _ _ H3 H Hj Hi).
  - intros i j fi fj ci cj li lj si sj Hij Hi Hj [Pi Si] [Pj Sj]. pose proof (sorted_lookup _ _ _ _ _ _ H3 Hij Hi Hj) as H. simpl in H.
    assert (forall f s, s ≡ₚ f -> StronglySorted (≤) s -> s = sort_nat f) as Hu.
    { clear. intros f s Hp Hs. apply (StronglySorted_unique (≤)); [done|apply sort_nat_sorted|]. by rewrite Hp, sort_nat_perm. }
    by rewrite (Hu _ _ Pi Si), (Hu _ _ Pj Sj).
Qed.
Print Assumptions C26_boundary_faces.

(** C26. The cells owning a boundary face, increasing. *)
Theorem C26_boundary_cells :
  forall (k : conn_kind) (cells : list (list nat)), kind_ok k -> cells_of_kind k cells ->
  exists cs, find_boundary_cells k cells = Some cs /\ StronglySorted (<) cs /\
    forall c, c ∈ cs <-> exists f l, is_boundary_face k cells f c l.
Proof.
  intros k cells Hk Hc. destruct (boundary_faces_spec k cells Hk Hc) as (fs & H1 & H2 & _). unfold find_boundary_cells. rewrite H1. simpl.
  eexists. split; [done|]. split; [apply dedup_sorted, sort_nat_sorted|]. intros c. rewrite dedup_elem, sort_nat_perm, elem_of_list_fmap. split.
  - intros ([[f c'] l] & -> & Hin). exists f, l. by apply H2.
  - intros (f & l & Hb). exists (f, c, l). split; [done|]. by apply H2.
Qed.
Print Assumptions C26_boundary_cells.

(** C26. The vertices lying on a boundary face, increasing. *)
Theorem C26_boundary_vertices :
  forall (k : conn_kind) (cells : list (list nat)), kind_ok k -> cells_of_kind k cells ->
  exists vs, find_boundary_vertices k cells = Some vs /\ StronglySorted (<) vs /\
    forall v, v ∈ vs <-> exists f c l, is_boundary_face k cells f c l /\ v ∈ f.
Proof.
  intros k cells Hk Hc. destruct (boundary_faces_spec k cells Hk Hc) as (fs & H1 & H2 & _). unfold find_boundary_vertices. rewrite H1. simpl.
  eexists. split; [done|]. split; [apply dedup_sorted, sort_nat_sorted|]. intros v. rewrite dedup_elem, sort_nat_perm, ParadisProofs.concat_elem. split.
  - intros (s & Hs & Hv). apply elem_of_list_fmap in Hs as ([[f c] l] & -> & Hin). exists f, c, l. split; [by apply H2|done].
  - intros (f & c & l & Hb & Hv). exists f. split; [|done]. apply elem_of_list_fmap. exists (f, c, l). split; [done|]. by apply H2.
Qed.
Print Assumptions C26_boundary_vertices.

Lemma kinds_ok : Forall kind_ok all_kinds.
Proof.
  repeat (constructor; [intros i Hi; cbn in Hi; repeat (destruct i as [|i]; [eexists; split; [by vm_compute|repeat constructor; lia]|]); cbn in Hi; lia|]).
  constructor.
Qed.

(** Two triangles sharing an edge. *)
Definition ex_tris : list (list nat) := [[0; 1; 2]; [2; 1; 3]].
Example C26_example :
  kind_ok tri3d2_kind /\ cells_of_kind tri3d2_kind ex_tris /\
  find_boundary_faces tri3d2_kind ex_tris = Some [([0; 1], 0, 0); ([2; 0], 0, 2); ([1; 3], 1, 1); ([3; 2], 1, 2)] /\
  find_boundary_cells tri3d2_kind ex_tris = Some [0; 1] /\ find_boundary_vertices tri3d2_kind ex_tris = Some [0; 1; 2; 3].
Proof.
  split_and!; [|repeat constructor|by vm_compute..]. pose proof kinds_ok as H. rewrite Forall_forall in H. apply H. unfold all_kinds.
  repeat (first [apply elem_of_list_here|apply elem_of_list_further]).
Qed.

(** C27. With all indices in range, [keep_cells] returns the restriction of the mesh to the chosen cells; otherwise it panics. *)
Theorem C27_keep_cells :
  forall (V : Type) (m : mesh V) (chosen : list nat),
    ((forall i c, chosen !! i = Some c -> exists cell, ms_cells m !! c = Some cell /\ Forall (fun v => v < length (ms_vertices m)) cell) ->
     exists kept m', keep_cells m chosen = Some m' /\ used_vertices (ms_cells m) chosen kept /\ restricts m chosen kept m') /\
    (~ (forall i c, chosen !! i = Some c -> exists cell, ms_cells m !! c = Some cell /\ Forall (fun v => v < length (ms_vertices m)) cell) ->
     keep_cells m chosen = None).
Proof. intros V m chosen. exact (keep_cells_spec m chosen). Qed.
Print Assumptions C27_keep_cells.

Lemma restricts_coords {V} (m : mesh V) chosen kept m' : restricts m chosen kept m' ->
  Forall (Forall (fun a => a < length (ms_vertices m'))) (ms_cells m') /\ length (ms_cells m') = length chosen /\
  forall i c, chosen !! i = Some c -> cell_coords m' !! i = cell_coords m !! c.
Proof.
  intros [Hv Hc]. assert (length (ms_vertices m') = length kept) as Hl by (symmetry; by eapply Forall2_length). split_and!.
  - apply Forall_forall. intros cell' Hin. apply elem_of_list_lookup in Hin as [i Hi]. destruct (Forall2_lookup_r _ _ _ _ _ Hc Hi) as (c & _ & cell & _ & HF).
    rewrite Hl. clear -HF. induction HF as [|a' a l l' Ha _ IH]; constructor; [by eapply lookup_lt_Some|done].
  - symmetry. by eapply Forall2_length.
  - intros i c Hi. destruct (Forall2_lookup_l _ _ _ _ _ Hc Hi) as (cell' & Hi' & cell & Hcell & HF). unfold cell_coords.
    rewrite !list_lookup_fmap, Hi', Hcell. simpl. f_equal. clear -HF Hv. induction HF as [|a' a l l' Ha _ IH]; [done|]. simpl. f_equal; [|done].
    destruct (Forall2_lookup_l _ _ _ _ _ Hv Ha) as (x & Hx & Hx'). congruence.
Qed.

(** C27. The kept cells have the same coordinates in the same local order, and in-range indices. *)
Theorem C27_keep_cells_coordinates :
  forall (V : Type) (m m' : mesh V) (chosen : list nat), keep_cells m chosen = Some m' ->
    Forall (Forall (fun a => a < length (ms_vertices m'))) (ms_cells m') /\ length (ms_cells m') = length chosen /\
    (forall i c, chosen !! i = Some c -> cell_coords m' !! i = cell_coords m !! c) /\
    (forall a, a < length (ms_vertices m') -> exists cell', cell' ∈ ms_cells m' /\ a ∈ cell').
Proof.
  intros V m m' chosen Hk. destruct (keep_cells_spec m chosen) as [H1 H2].
  assert (~ ~ keep_ok m chosen) as Hnn by (intros H; rewrite (H2 H) in Hk; done).
  assert (Decision (keep_ok m chosen)) as [Hok|Hok]; [|clear Hnn|done].
  { destruct (decide (Forall (fun c => Forall (fun v => v < length (ms_vertices m)) (default [length (ms_vertices m)] (ms_cells m !! c))) chosen)) as [H|H].
    - left. intros i c Hi. rewrite Forall_forall in H. specialize (H c (elem_of_list_lookup_2 _ _ _ Hi)). cbn beta in H.
      destruct (ms_cells m !! c) as [cell|]; simpl in H; [by exists cell|]. apply Forall_cons in H as [? _]. lia.
    - right. intros Hok. apply H, Forall_forall. intros c Hc. apply elem_of_list_lookup in Hc as [i Hi]. destruct (Hok _ _ Hi) as (cell & -> & HF). done. }
  destruct (H1 Hok) as (kept & m'' & Hk' & Hu & Hr). assert (m'' = m') as -> by congruence.
  destruct (restricts_coords _ _ _ _ Hr) as (A & B & C). split_and!; [done|done|done|].
  intros a Ha. destruct Hr as [Hv Hc]. rewrite <- (Forall2_length _ _ _ Hv) in Ha. destruct (lookup_lt_is_Some_2 kept a Ha) as [v Hav].
  assert (v ∈ kept) as Hin by exact (elem_of_list_lookup_2 _ _ _ Hav). apply Hu in Hin as (i & c & cell & Hi & Hcell & Hvc).
  destruct (Forall2_lookup_l _ _ _ _ _ Hc Hi) as (cell' & Hi' & cell2 & Hcell2 & HF). assert (cell2 = cell) as -> by congruence.
  exists cell'. split; [exact (elem_of_list_lookup_2 _ _ _ Hi')|]. apply elem_of_list_lookup in Hvc as [x Hx].
  destruct (Forall2_lookup_r _ _ _ _ _ HF Hx) as (a' & Ha' & Hk2). simpl in Hk2.
  assert (a' = a) as ->; [|exact (elem_of_list_lookup_2 _ _ _ Ha')].
  destruct Hu as [Hs _]. destruct (Nat.lt_trichotomy a' a) as [H|[H|H]]; [|done|].
  - pose proof (sorted_lookup _ _ _ _ _ _ Hs H Hk2 Hav). simpl in *. lia.
  - pose proof (sorted_lookup _ _ _ _ _ _ Hs H Hav Hk2). simpl in *. lia.
Qed.
Print Assumptions C27_keep_cells_coordinates.

Definition ex_keep_mesh : mesh nat := Mesh [100; 101; 102; 103; 104] [[0; 1; 2]; [2; 1; 3]; [3; 4; 1]].
Example C27_example :
  (forall i c, [2; 1; 2] !! i = Some c -> exists cell, ms_cells ex_keep_mesh !! c = Some cell /\ Forall (fun v => v < length (ms_vertices ex_keep_mesh)) cell) /\
  keep_cells ex_keep_mesh [2; 1; 2] = Some (Mesh [101; 102; 103; 104] [[2; 3; 0]; [1; 0; 2]; [2; 3; 0]]) /\ keep_cells ex_keep_mesh [7] = None.
Proof.
  split_and!; [|by vm_compute..]. intros [|[|[|i]]] c H; simplify_eq/=; eexists; (split; [done|repeat constructor; lia]).
Qed.

(** C58. Surface extraction. *)
Theorem C58_extract_surface_mesh :
  forall (V : Type) (k : conn_kind) (m : mesh V), kind_ok k -> cells_of_kind k (ms_cells m) ->
    Forall (Forall (fun a => a < length (ms_vertices m))) (ms_cells m) ->
    exists fs vs m', extract_surface_mesh k m = Some m' /\ find_boundary_faces k (ms_cells m) = Some fs /\
      find_boundary_vertices k (ms_cells m) = Some vs /\
      Forall2 (fun v x => ms_vertices m !! v = Some x) vs (ms_vertices m') /\
      Forall2 (fun fcl cell' => Forall2 (fun a' a => vs !! a' = Some a) cell' fcl.1.1) fs (ms_cells m').
Proof.
  intros V k m Hk Hc Hr. destruct (boundary_faces_spec k (ms_cells m) Hk Hc) as (fs & H1 & H2 & H3).
  destruct (C26_boundary_vertices k (ms_cells m) Hk Hc) as (vs & Hvs & Hvsort & Hvin).
  unfold extract_surface_mesh. rewrite H1. cbn [mbind option_bind ms_cells]. set (m1 := Mesh (ms_vertices m) (map (fun f => f.1.1) fs)).
  assert (forall i c, seq 0 (length (map (fun f : list nat * nat * nat => f.1.1) fs)) !! i = Some c -> exists f, fs !! c = Some f /\ c = i /\ ms_cells m1 !! c = Some f.1.1 /\ Forall (fun v => v < length (ms_vertices m)) f.1.1) as Hseq.
  { intros i c Hi. apply lookup_seq in Hi as [-> Hi]. rewrite map_length in Hi. simpl. destruct (lookup_lt_is_Some_2 fs i Hi) as [[[f c] l] Hf]. exists (f, c, l).
    simpl. rewrite list_lookup_fmap, Hf. split_and!; [done|done|done|]. assert ((f, c, l) ∈ fs) as Hin by exact (elem_of_list_lookup_2 _ _ _ Hf).
    apply H2 in Hin as [(_ & cell & t & Hcell & _ & HF) _]. apply Forall_forall. intros v Hv. apply elem_of_list_lookup in Hv as [x Hx].
    destruct (Forall2_lookup_r _ _ _ _ _ HF Hx) as (j & _ & Hj). rewrite Forall_forall in Hr. specialize (Hr cell (elem_of_list_lookup_2 _ _ _ Hcell)). cbn beta in Hr.
    rewrite Forall_forall in Hr. apply Hr. exact (elem_of_list_lookup_2 _ _ _ Hj). }
  destruct (keep_cells_spec m1 (seq 0 (length (map (fun f : list nat * nat * nat => f.1.1) fs)))) as [K _]. destruct K as (kept & m' & Hkc & [Hks Hku] & [Hrv Hrc]).
  { intros i c Hi. destruct (Hseq i c Hi) as (f & Hf & _ & Hcell & HF). by exists f.1.1. }
  exists fs, vs, m'. assert (kept = vs) as ->.
  { assert (forall l1 l2 : list nat, StronglySorted (<) l1 -> StronglySorted (<) l2 -> (forall x, x ∈ l1 <-> x ∈ l2) -> l1 = l2) as Huniq.
    { clear. intros l1 l2 S1 S2 H. assert (forall l : list nat, StronglySorted (<) l -> NoDup l) as Hnd.
      { clear. induction 1 as [|x l Hs IH Hf]; constructor; [|done]. intros Hx. rewrite Forall_forall in Hf. specialize (Hf x Hx). lia. }
      assert (forall l : list nat, StronglySorted (<) l -> StronglySorted (≤) l) as Hle.
      { clear. induction 1 as [|x l Hs IH Hf]; constructor; [done|]. eapply Forall_impl; [exact Hf|]. intros; simpl in *; lia. }
      apply (StronglySorted_unique (≤)); [by apply Hle..|]. apply NoDup_Permutation; [by apply Hnd..|done]. }
    apply Huniq; [done|done|]. intros v. rewrite Hku, Hvin. split.
    - intros (i & c & cell & Hi & Hcell & Hv). destruct (Hseq i c Hi) as ([[f c'] l] & Hf & _ & Hcell' & _). exists f, c', l.
      split; [apply H2; exact (elem_of_list_lookup_2 _ _ _ Hf)|]. simpl in *. congruence.
    - intros (f & c & l & Hb & Hv). apply H2 in Hb. apply elem_of_list_lookup in Hb as [i Hi]. exists i, i, f. split_and!; [|simpl; by rewrite list_lookup_fmap, Hi|done].
      apply lookup_seq. rewrite map_length. split; [done|]. by eapply lookup_lt_Some. }
  split_and!; [exact Hkc|done|done|done|].
  apply Forall2_same_length_lookup. assert (length fs = length (ms_cells m')) as Hlen.
  { rewrite <- (Forall2_length _ _ _ Hrc). by rewrite seq_length, map_length. }
  split; [done|]. intros i f cell' Hf Hcell'. destruct (Forall2_lookup_r _ _ _ _ _ Hrc Hcell') as (c & Hc' & cell & Hcell & HF).
  destruct (Hseq i c Hc') as (f' & Hf' & -> & Hcell2 & _). assert (f' = f) as -> by congruence. simpl in *. by simplify_eq.
Qed.
Print Assumptions C58_extract_surface_mesh.

Example C58_example :
  cells_of_kind tet4_kind [[0; 1; 2; 4]; [4; 1; 2; 3]] /\
  extract_surface_mesh tet4_kind (Mesh [10; 11; 12; 13; 14; 15] [[0; 1; 2; 4]; [4; 1; 2; 3]]) =
    Some (Mesh [10; 11; 12; 13; 14] [[0; 2; 1]; [0; 1; 4]; [0; 4; 2]; [1; 2; 3]; [4; 1; 3]; [4; 3; 2]]).
Proof. split; [repeat constructor|]. by vm_compute. Qed.

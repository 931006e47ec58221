(** Applying mesh permutations; reorder_mesh_par. *)
From stdpp Require Import base list list_numbers sorting.
From Coq Require Import Lia.
From Verif Require Import Prelude NestedVecModel ParadisModel ParadisSpec VectorModel VectorSpec VectorProofs CsrModel CsrSpec CsrProofs
  CsrPattern CsrParPattern ReorderModel ReorderSpec ReorderProofs.

Lemma list_min_spec l : least l (list_min l).
Proof.
  unfold list_min. assert (forall l b, least (b :: l) (foldl (fun best x => match best with Some b => Some (min b x) | None => Some x end) (Some b) l)) as H.
  { clear. induction l as [|x l IH]; intros b; simpl.
    - split; [by left|]. intros y Hy. apply elem_of_list_singleton in Hy as ->. done.
    - specialize (IH (b `min` x)). destruct (foldl _ _ l) as [k|]; simpl in *; [|done]. destruct IH as [Hin Hle]. split.
      + apply elem_of_cons in Hin as [->|Hin]; [|by right; right]. destruct (Nat.min_spec b x) as [[_ ->]|[_ ->]]; [by left|by right; left].
      + intros y Hy. pose proof (Hle (b `min` x) ltac:(by left)). apply elem_of_cons in Hy as [->|Hy]; [lia|]. apply elem_of_cons in Hy as [->|Hy]; [lia|].
        apply Hle. by right. }
  destruct l as [|x l]; [done|]. simpl. apply H.
Qed.

Lemma least_unique l a b : least l a -> least l b -> a = b.
Proof.
  destruct a as [a|], b as [b|]; simpl; intros Ha Hb.
  - destruct Ha as [Ha1 Ha2], Hb as [Hb1 Hb2]. specialize (Ha2 _ Hb1). specialize (Hb2 _ Ha1). f_equal. lia.
  - subst. destruct Ha as [Ha _]. by apply elem_of_nil in Ha.
  - subst. destruct Hb as [Hb _]. by apply elem_of_nil in Hb.
  - done.
Qed.

Section mesh.
Context {V : Type} (m : mesh V) (umax : nat).
Context (Hm : Forall (Forall (fun a => a < length (ms_vertices m))) (ms_cells m)).

Lemma renumber_spec {E} vp inv (cells : list (list nat)) : is_perm vp -> length vp = length (ms_vertices m) -> length inv = length vp ->
  (forall i j, vp !! i = Some j <-> inv !! j = Some i) -> Forall (Forall (fun a => a < length (ms_vertices m))) cells ->
  exists cells', omapM (E := E) (omapM (source_index inv)) cells = Ok cells' /\
    Forall2 (fun cell cell' => omapM (E := E) (source_index inv) cell = Ok cell' /\ Forall2 (fun a' a => a' < length (ms_vertices m) /\ vp !! a' = Some a) cell' cell) cells cells'.
Proof using Type.
  intros Hp Hl Hli Hinv Hc.
  destruct (Forall2_exists (fun cell cell' => omapM (E := E) (source_index inv) cell = Ok cell' /\
    Forall2 (fun a' a => a' < length (ms_vertices m) /\ vp !! a' = Some a) cell' cell) cells) as [cells' HF].
  { intros cell Hcell. rewrite Forall_forall in Hc. specialize (Hc cell Hcell). cbn beta in Hc. rewrite Forall_forall in Hc.
    destruct (Forall2_exists (fun a a' => inv !! a = Some a') cell) as [cell' HF'].
    { intros a Ha. apply lookup_lt_is_Some_2. specialize (Hc a Ha). cbn beta in Hc. lia. }
    exists cell'. split.
    - apply omapM_ok. eapply Forall2_impl; [exact HF'|]. intros a a' H. unfold source_index. by rewrite H.
    - apply Forall2_flip. eapply Forall2_impl; [exact HF'|]. intros a a' H. apply Hinv in H. split; [|done]. apply lookup_lt_Some in H. lia. }
  exists cells'. split; [|done]. apply omapM_ok. eapply Forall2_impl; [exact HF|]. by intros ? ? [? _].
Qed.

Lemma mesh_apply_spec {E} vp cp : is_perm vp -> length vp = length (ms_vertices m) -> is_perm cp -> length cp = length (ms_cells m) ->
  exists m', mesh_perm_apply (E := E) umax (MeshPerm vp cp) m = Ok m' /\ mesh_reordered vp cp m m' /\
    ms_vertices m' ≡ₚ ms_vertices m /\ cell_coords m' ≡ₚ cell_coords m.
Proof using Hm.
  intros Hvp Hlv Hcp Hlc. unfold mesh_perm_apply. cbn [mp_vertex mp_cells].
  destruct (apply_spec (E := E) vp (ms_vertices m) Hvp (eq_sym Hlv)) as (nv & Hnv & Hnvl & Hnvs). pose proof (apply_perm vp _ _ Hvp Hnv) as Hnvp.
  destruct (apply_spec (E := E) cp (ms_cells m) Hcp (eq_sym Hlc)) as (nc & Hnc & Hncl & Hncs). pose proof (apply_perm cp _ _ Hcp Hnc) as Hncp.
  destruct (inverse_spec (E := E) umax vp Hvp) as (inv & Hinv & _ & Hlinv & Hiff).
  rewrite Hnv. simpl. rewrite Hinv. simpl. rewrite Hnc. simpl.
  destruct (renumber_spec (E := E) vp inv nc Hvp Hlv Hlinv Hiff) as (cells' & Hcells' & HF).
  { by rewrite Hncp. }
  rewrite Hcells'. simpl. eexists. split; [done|]. split_and!; cbn [ms_vertices ms_cells].
  - split_and!; cbn [ms_vertices ms_cells].
    + done.
    + rewrite <- Hncl. symmetry. by eapply Forall2_length.
    + done.
    + intros i s cell Hi Hs. rewrite <- (Hncs _ _ Hi) in Hs. destruct (Forall2_lookup_l _ _ _ _ _ HF Hs) as (cell' & Hc' & _ & HF').
      exists cell'. split; [done|]. split; [by eapply Forall2_length|done].
  - done.
  - unfold cell_coords. cbn [ms_vertices ms_cells]. rewrite <- Hncp.
    assert (map (map (fun a => nv !! a)) cells' = map (map (fun a => ms_vertices m !! a)) nc) as ->; [|done].
    clear Hcells' Hncs Hncl Hncp Hnc. induction HF as [|cell cell' nc cells' [_ Hc] _ IH]; [done|]. simpl. f_equal; [|done].
    clear IH. induction Hc as [|a' a c' c [_ Ha] _ IH]; [done|]. simpl. f_equal; [|done]. by apply Hnvs.
Qed.

Lemma mesh_has_conn : has_conn (mesh_conn m) (ms_cells m).
Proof using Type.
  split; [done|]. intros i ns Hi. simpl. rewrite Hi. split; [done|]. done.
Qed.

Lemma mesh_in_range : nodes_in_range (ca_nodes (mesh_conn m)) (ms_cells m).
Proof using Hm.
  intros ns k Hns Hk. simpl. rewrite Forall_forall in Hm. specialize (Hm ns Hns). cbn beta in Hm. rewrite Forall_forall in Hm. by apply Hm.
Qed.

Lemma reorder_from_spec srt cell_srt p : pat_wf p -> pt_nrows p = length (ms_vertices m) -> pt_ncols p = length (ms_vertices m) ->
  sorts_by_degree p srt -> sorts_cells cell_srt ->
  exists q cp, reorder_from_pattern umax srt cell_srt m p = Some (Ok (MeshPerm (reverse q) cp)) /\
    cm_order p q /\ is_perm (reverse q) /\ length (reverse q) = length (ms_vertices m) /\ is_perm cp /\ length cp = length (ms_cells m) /\
    forall (E : Type) m', mesh_perm_apply (E := E) umax (MeshPerm (reverse q) cp) m = Ok m' ->
      forall i j ci cj ki kj, i < j -> ms_cells m' !! i = Some ci -> ms_cells m' !! j = Some cj ->
        least ci ki -> least cj kj -> okey_le ki kj.
Proof using Hm.
  intros Hwf Hr Hc Hsrt Hcs. destruct (cuthill_mckee_spec p Hwf ltac:(lia) srt Hsrt) as (q & Hq & Hqp & Hql & Hord).
  assert (is_perm (reverse q)) as Hrp. { unfold is_perm in *. by rewrite reverse_length, reverse_Permutation. }
  assert (length (reverse q) = length (ms_vertices m)) as Hrl by (rewrite reverse_length; lia).
  unfold reorder_from_pattern, reverse_cuthill_mckee. rewrite Hq. unfold perm_reverse.
  destruct (inverse_spec (E := Empty_set) umax (reverse q) Hrp) as (inv & Hinv & _ & Hlinv & Hiff). rewrite Hinv. simpl.
  destruct (renumber_spec (E := Empty_set) (reverse q) inv (ms_cells m) Hrp Hrl Hlinv Hiff Hm) as (cells' & Hcells' & HF).
  assert (omapM (E := Empty_set) (fun cell => let! new := omapM (source_index inv) cell in Ok (list_min new)) (ms_cells m) = Ok (map list_min cells')) as ->.
  { apply omapM_ok. clear Hcells'. induction HF as [|cell cell' l l' [H _] _ IH]; [constructor|]. constructor; [by rewrite H|]. apply IH. by apply Forall_cons in Hm as [_ ?]. }
  simpl. destruct (Hcs (map list_min cells')) as [Hp Hs]. set (cp := cell_srt _) in *.
  assert (length cp = length (ms_cells m)) as Hcl. { rewrite Hp, seq_length, map_length. symmetry. by eapply Forall2_length. }
  assert (is_perm cp) as Hcp. { unfold is_perm. rewrite Hp at 1. rewrite map_length, Hcl. erewrite <- Forall2_length by exact HF. done. }
  rewrite (proj2 (from_vec_ok cp cp) (conj eq_refl Hcp)). exists q, cp. split_and!; try done.
  intros E m' Hm' i j ci cj ki kj Hij Hi Hj Hki Hkj.
  destruct (mesh_apply_spec (E := E) (reverse q) cp Hrp Hrl Hcp Hcl) as (m'' & Hm'' & (Hl1 & Hl2 & _ & Hre) & _). assert (m'' = m') as -> by congruence.
  assert (forall i ci ki, ms_cells m' !! i = Some ci -> least ci ki -> exists s, cp !! i = Some s /\ map list_min cells' !! s = Some ki) as Hkey.
  { clear i j ci cj ki kj Hij Hi Hj Hki Hkj. intros i ci ki Hi Hki.
    destruct (lookup_lt_is_Some_2 cp i) as [s Hs']; [apply lookup_lt_Some in Hi; lia|].
    destruct (lookup_lt_is_Some_2 (ms_cells m) s) as [cell Hcell]; [apply (is_perm_elem cp s Hcp) in Hs' as ? || (rewrite <- Hcl; apply (is_perm_elem cp s Hcp); exact (elem_of_list_lookup_2 _ _ _ Hs'))|].
    exists s. split; [done|]. destruct (Forall2_lookup_l _ _ _ _ _ HF Hcell) as (cell' & Hc' & _ & HF').
    destruct (Hre _ _ _ Hs' Hcell) as (cell'' & Hc'' & _ & HF''). assert (cell'' = ci) as -> by congruence.
    assert (ci = cell') as ->.
    { clear Hc'' Hc' Hcell Hki Hi. apply is_perm_iff in Hrp as [Hnd _]. revert cell' HF'. induction HF'' as [|a' a c' c [_ Ha] _ IH]; intros cell' HF'.
      - by inversion HF'.
      - inversion HF' as [|b' a2 d' c2 [_ Hb] Hd]; subst. f_equal; [|by apply IH]. exact (NoDup_lookup _ _ _ _ Hnd Ha Hb). }
    rewrite list_lookup_fmap, Hc'. simpl. f_equal. eapply least_unique; [apply list_min_spec|done]. }
  destruct (Hkey _ _ _ Hi Hki) as (s & Hs1 & Hs2). destruct (Hkey _ _ _ Hj Hkj) as (t & Ht1 & Ht2).
  exact (sorted_lookup _ _ _ _ _ _ Hs Hij Hs1 Ht1 _ _ Hs2 Ht2).
Qed.
End mesh.

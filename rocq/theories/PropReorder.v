(** C22-C25: permutations, Cuthill-McKee and mesh reordering. *)
From stdpp Require Import base list list_numbers sorting relations.
From Coq Require Import Lia.
From Verif Require Import Prelude NestedVecModel ParadisModel ParadisSpec PropParadis VectorModel VectorSpec VectorProofs PropVector
  CsrModel CsrSpec CsrProofs CsrPattern CsrParPattern ReorderModel ReorderSpec ReorderProofs ReorderMeshProofs.

(** ** Examples of the oracles *)
Definition deg_le (p : pattern) (a b : nat) : Prop := degree p a <= degree p b.
#[global] Instance deg_le_dec p a b : Decision (deg_le p a b). Proof. unfold deg_le. apply _. Defined.
#[global] Instance deg_le_total p : Total (deg_le p). Proof. intros x y. unfold deg_le. lia. Qed.
#[global] Instance deg_le_trans p : Transitive (deg_le p). Proof. intros x y z. unfold deg_le. lia. Qed.
Definition degree_sort (p : pattern) (_ : nat) (ws : list nat) : list nat := merge_sort (deg_le p) ws.
Lemma degree_sort_ok p : sorts_by_degree p (degree_sort p).
Proof. intros v ws. split; [apply merge_sort_Permutation|apply (StronglySorted_merge_sort (deg_le p))]. Qed.

Definition pair_le (x y : option nat * nat) : Prop := okey_le x.1 y.1.
#[global] Instance pair_le_dec x y : Decision (pair_le x y). Proof. unfold pair_le, okey_le. destruct (x.1), (y.1); apply _. Defined.
#[global] Instance pair_le_total : Total pair_le. Proof. intros x y. unfold pair_le, okey_le. destruct (x.1), (y.1); auto; lia. Qed.
#[global] Instance pair_le_trans : Transitive pair_le.
Proof. intros x y z. unfold pair_le, okey_le. destruct (x.1), (y.1), (z.1); try done. lia. Qed.
Definition cell_sort (keys : list (option nat)) : list nat := map snd (merge_sort pair_le (zip keys (seq 0 (length keys)))).
Lemma cell_sort_ok : sorts_cells cell_sort.
Proof.
  intros keys. unfold cell_sort. set (l := merge_sort pair_le _).
  assert (l ≡ₚ zip keys (seq 0 (length keys))) as Hp by apply merge_sort_Permutation.
  assert (StronglySorted pair_le l) as Hs by apply (StronglySorted_merge_sort pair_le). split.
  - rewrite Hp. rewrite <- (snd_zip keys (seq 0 (length keys))) at 2 by (by rewrite seq_length). done.
  - assert (forall x, x ∈ l -> keys !! x.2 = Some x.1) as Hk.
    { intros [k i] Hx. rewrite Hp in Hx. apply elem_of_list_lookup in Hx as [j Hj].
      apply lookup_zip_with_Some in Hj as (a & b & Heq & Ha & Hb). simplify_eq. by apply lookup_seq in Hb as [-> _]. }
    clearbody l. clear Hp. induction Hs as [|x l Hs IH Hle]; simpl; [constructor|]. constructor.
    + apply IH. intros y Hy. apply Hk. by right.
    + rewrite Forall_forall in Hle. apply Forall_forall. intros j Hj a b Ha Hb. apply elem_of_list_fmap in Hj as (y & -> & Hy).
      rewrite (Hk x ltac:(by left)) in Ha. rewrite (Hk y ltac:(by right)) in Hb. simplify_eq. by apply Hle.
Qed.

(** C22. Construction accepts exactly the permutations. *)
Theorem C22_from_vec_ok : forall l p, perm_from_vec l = Ok p <-> p = l /\ is_perm l.
Proof. exact from_vec_ok. Qed.
Print Assumptions C22_from_vec_ok.

(** C22. Lists with in-range entries are rejected exactly when an entry repeats. *)
Theorem C22_from_vec_err : forall l, Forall (fun x => x < length l) l -> (perm_from_vec l = Err InvalidPermutation <-> ~ NoDup l).
Proof. exact from_vec_err. Qed.
Print Assumptions C22_from_vec_err.

(** C22. The constructor is not total: it panics on some list instead of returning an error. *)
Theorem C22_from_vec_total_refuted : exists l, perm_from_vec l = Panic /\ ~ is_perm l.
Proof.
  exists [0; 5]. split; [by vm_compute|]. intros H. apply is_perm_iff in H as [_ H].
  rewrite !Forall_cons in H. simpl in H. lia.
Qed.
Print Assumptions C22_from_vec_total_refuted.

(** C22. [inverse] is the two-sided inverse and never panics on a permutation. *)
Theorem C22_inverse : forall (E : Type) (umax : nat) (p : permutation), is_perm p ->
  exists q, perm_inverse (E := E) umax p = Ok q /\ is_perm q /\ length q = length p /\
    (forall i, i < length p -> exists j, p !! i = Some j /\ q !! j = Some i) /\
    (forall j, j < length p -> exists i, q !! j = Some i /\ p !! i = Some j).
Proof.
  intros E umax p Hp. destruct (inverse_spec (E := E) umax p Hp) as (q & Hq & Hqp & Hl & Hiff). exists q. split_and!; [done|done|done| |].
  - intros i Hi. destruct (lookup_lt_is_Some_2 p i Hi) as [j Hj]. exists j. split; [done|]. by apply Hiff.
  - intros j Hj. destruct (lookup_lt_is_Some_2 q j) as [i Hi]; [lia|]. exists i. split; [done|]. by apply Hiff.
Qed.
Print Assumptions C22_inverse.

(** C22. Position [i] of the result is [source[p(i)]]; wrong lengths panic. *)
Theorem C22_apply : forall (E T : Type) (p : permutation) (src : list T), is_perm p ->
  (length src <> length p -> apply_to_slice (E := E) p src = Panic) /\
  (length src = length p ->
    exists dst, apply_to_slice (E := E) p src = Ok dst /\ length dst = length src /\ dst ≡ₚ src /\
      forall i, i < length p -> exists s x, p !! i = Some s /\ src !! s = Some x /\ dst !! i = Some x).
Proof.
  intros E T p src Hp. split.
  - intros H. unfold apply_to_slice. by rewrite decide_False.
  - intros Hl. destruct (apply_spec (E := E) p src Hp Hl) as (dst & Hd & Hdl & Hds). exists dst. split_and!; [done|done|by eapply apply_perm|].
    intros i Hi. destruct (lookup_lt_is_Some_2 p i Hi) as [s Hs]. destruct (lookup_lt_is_Some_2 dst i) as [x Hx]; [lia|].
    exists s, x. split_and!; [done| |done]. by rewrite <- (Hds i s Hs).
Qed.
Print Assumptions C22_apply.

(** C22. Applying a permutation and then its inverse gives the source back. *)
Theorem C22_apply_inverse : forall (E T : Type) (umax : nat) (p : permutation) (src : list T),
  is_perm p -> length src = length p ->
  (let! dst := apply_to_slice (E := E) p src in let! q := perm_inverse umax p in apply_to_slice q dst) = Ok src /\
  (let! q := perm_inverse (E := E) umax p in let! dst := apply_to_slice q src in apply_to_slice p dst) = Ok src.
Proof.
  intros E T umax p src Hp Hl. destruct (inverse_spec (E := E) umax p Hp) as (q & Hq & Hqp & Hlq & Hiff).
  assert (forall p q : permutation, is_perm p -> is_perm q -> length q = length p -> length src = length p -> (forall i j, p !! i = Some j <-> q !! j = Some i) ->
    (let! dst := apply_to_slice (E := E) p src in apply_to_slice q dst) = Ok src) as H.
  { clear. intros p q Hp Hq Hlq Hl Hiff. destruct (apply_spec (E := E) p src Hp Hl) as (dst & -> & Hdl & Hds). simpl.
    destruct (apply_spec (E := E) q dst Hq ltac:(lia)) as (dst' & -> & Hdl' & Hds'). f_equal. apply list_eq. intros i.
    destruct (decide (i < length p)) as [Hi|Hi].
    - destruct (lookup_lt_is_Some_2 q i) as [j Hj]; [lia|]. rewrite (Hds' _ _ Hj). apply Hds. by apply Hiff.
    - rewrite !lookup_ge_None_2 by lia. done. }
  split.
  - pose proof (H p q Hp Hqp Hlq Hl Hiff) as H1. destruct (apply_to_slice p src); simpl in *; [|done|done]. by rewrite Hq.
  - rewrite Hq. simpl. apply H; [done|done|lia|lia|]. intros i j. by rewrite Hiff.
Qed.
Print Assumptions C22_apply_inverse.

(** C22. [reverse] is the permutation read backwards. *)
Theorem C22_reverse : forall p : permutation, is_perm p -> is_perm (perm_reverse p) /\
  forall i, i < length p -> perm_reverse p !! i = p !! (length p - S i).
Proof.
  intros p Hp. split.
  - unfold is_perm, perm_reverse in *. by rewrite reverse_length, reverse_Permutation.
  - intros i Hi. unfold perm_reverse. by rewrite reverse_lookup.
Qed.
Print Assumptions C22_reverse.

Example C22_example :
  is_perm [2; 0; 3; 1] /\ perm_from_vec [2; 0; 3; 1] = Ok [2; 0; 3; 1] /\ perm_from_vec [2; 0; 2; 1] = Err InvalidPermutation /\
  perm_inverse (E := nat) 99 [2; 0; 3; 1] = Ok [1; 3; 0; 2] /\ apply_to_slice (E := nat) [2; 0; 3; 1] [10; 11; 12; 13] = Ok [12; 10; 13; 11] /\
  perm_reverse [2; 0; 3; 1] = [1; 3; 0; 2].
Proof. split; [apply (from_vec_ok _ [2; 0; 3; 1]); by vm_compute|]. by vm_compute. Qed.

(** C23. Both algorithms terminate with a permutation of all rows. [None] would be exhaustion of the fuel. *)
Theorem C23_cuthill_mckee_permutation :
  forall (p : pattern) (srt : nat -> list nat -> list nat), pat_wf p -> pt_nrows p = pt_ncols p -> sorts_by_degree p srt ->
  exists q, cuthill_mckee srt p = Some (Ok q) /\ is_perm q /\ length q = pt_nrows p.
Proof. intros p srt Hwf Hsq Hs. destruct (cuthill_mckee_spec p Hwf Hsq srt Hs) as (q & H1 & H2 & H3 & _). by exists q. Qed.
Print Assumptions C23_cuthill_mckee_permutation.

Theorem C23_reverse_cuthill_mckee_permutation :
  forall (p : pattern) (srt : nat -> list nat -> list nat), pat_wf p -> pt_nrows p = pt_ncols p -> sorts_by_degree p srt ->
  exists q r, cuthill_mckee srt p = Some (Ok q) /\ reverse_cuthill_mckee srt p = Some (Ok r) /\ is_perm r /\ length r = pt_nrows p /\
    forall i, i < length r -> r !! i = q !! (length r - S i).
Proof.
  intros p srt Hwf Hsq Hs. destruct (rcm_spec p Hwf Hsq srt Hs) as (q & H1 & H2 & H3 & H4). exists q, (reverse q). split_and!; try done.
  intros i Hi. rewrite reverse_length in *. by rewrite reverse_lookup.
Qed.
Print Assumptions C23_reverse_cuthill_mckee_permutation.

(** C24. The order is breadth-first by degree. *)
Theorem C24_cuthill_mckee_order :
  forall (p : pattern) (srt : nat -> list nat -> list nat), pat_wf p -> pt_nrows p = pt_ncols p -> sorts_by_degree p srt ->
  forall q, cuthill_mckee srt p = Some (Ok q) -> cm_order p q.
Proof. intros p srt Hwf Hsq Hs q Hq. destruct (cuthill_mckee_spec p Hwf Hsq srt Hs) as (q' & H1 & _ & _ & H). by simplify_eq. Qed.
Print Assumptions C24_cuthill_mckee_order.

Definition ex_graph : list (list nat) := [[0; 3]; [3; 1]; [1; 4]; [6; 5]; [3; 5]; [7; 8; 9]].
Lemma ex_graph_range : nodes_in_range 10 ex_graph.
Proof.
  intros ns k Hns Hk. unfold ex_graph in Hns. repeat (apply elem_of_cons in Hns as [->|Hns]; [|]);
  repeat (apply elem_of_cons in Hk as [->|Hk]; [lia|]); try (by apply elem_of_nil in Hk); by apply elem_of_nil in Hns.
Qed.
Example C23_C24_example : exists p, assemble_pattern (E := Empty_set) id_order 0 (table_conn 1 10 ex_graph) = Ok p /\ pat_wf p /\ pt_nrows p = pt_ncols p /\
  sorts_by_degree p (degree_sort p) /\ cuthill_mckee (degree_sort p) p = Some (Ok [2; 0; 3; 1; 5; 4; 6; 7; 9; 8]) /\
  reverse_cuthill_mckee (degree_sort p) p = Some (Ok [8; 9; 7; 6; 4; 5; 1; 3; 0; 2]).
Proof.
  destruct (assemble_pattern_spec (E := Empty_set) id_order 0 (table_conn 1 10 ex_graph) ex_graph id_order_ok (table_has_conn _ _ _) ex_graph_range) as (p & Hp & Hwf & Hr & Hc & _).
  exists p. split_and!; [done|done|by rewrite Hr, Hc|apply degree_sort_ok| |]; vm_compute in Hp; injection Hp as <-; by vm_compute.
Qed.

(** C25. Applying a mesh permutation. *)
Theorem C25_apply_preserves_mesh :
  forall (E V : Type) (umax : nat) (m : mesh V) (vp cp : permutation),
    Forall (Forall (fun a => a < length (ms_vertices m))) (ms_cells m) ->
    is_perm vp -> length vp = length (ms_vertices m) -> is_perm cp -> length cp = length (ms_cells m) ->
    exists m', mesh_perm_apply (E := E) umax (MeshPerm vp cp) m = Ok m' /\ mesh_reordered vp cp m m' /\
      ms_vertices m' ≡ₚ ms_vertices m /\ cell_coords m' ≡ₚ cell_coords m /\
      forall i s, cp !! i = Some s -> cell_coords m' !! i = cell_coords m !! s.
Proof.
  intros E V umax m vp cp Hm Hvp Hlv Hcp Hlc. destruct (mesh_apply_spec m umax Hm (E := E) vp cp Hvp Hlv Hcp Hlc) as (m' & H1 & H2 & H3 & H4).
  exists m'. split_and!; try done. intros i s Hi. destruct H2 as (Hl1 & Hl2 & Hv & Hc).
  destruct (lookup_lt_is_Some_2 (ms_cells m) s) as [cell Hcell].
  { rewrite <- Hlc. apply (is_perm_elem cp s Hcp). exact (elem_of_list_lookup_2 _ _ _ Hi). }
  destruct (Hc _ _ _ Hi Hcell) as (cell' & Hcell' & _ & HF). unfold cell_coords. rewrite !list_lookup_fmap, Hcell, Hcell'. simpl. f_equal.
  clear -HF Hv. induction HF as [|a' a c' c [_ Ha] _ IH]; [done|]. simpl. f_equal; [|done]. by apply Hv.
Qed.
Print Assumptions C25_apply_preserves_mesh.

(** C25. [reorder_mesh_par]: whatever the schedule, the hash order and the sorting of ties, the result is a pair of
    permutations of matching sizes; the vertex permutation is a reversed Cuthill-McKee order of the coupling graph; in the
    reordered mesh the cells are sorted by smallest vertex index. *)
Theorem C25_reorder_mesh_par :
  forall (V : Type) (ord : nat -> list nat -> list nat) (size umax : nat) (srt : pattern -> nat -> list nat -> list nat)
         (cell_srt : list (option nat) -> list nat) (m : mesh V),
    hash_order ord -> 0 < size -> (forall p, sorts_by_degree p (srt p)) -> sorts_cells cell_srt ->
    Forall (Forall (fun a => a < length (ms_vertices m))) (ms_cells m) ->
    (exists r p, par_assemble_pattern (E := Empty_set) ord size umax (mesh_conn m) (Ok p) /\ reorder_mesh_par ord size umax (srt p) cell_srt m r) /\
    forall p r, par_assemble_pattern (E := Empty_set) ord size umax (mesh_conn m) (Ok p) -> reorder_mesh_par ord size umax (srt p) cell_srt m r ->
      exists q cp, r = Some (Ok (MeshPerm (reverse q) cp)) /\
        (forall a b, adjacent_to p a b <-> coupled (ms_cells m) a b) /\ cm_order p q /\
        is_perm (reverse q) /\ length (reverse q) = length (ms_vertices m) /\ is_perm cp /\ length cp = length (ms_cells m) /\
        exists m', mesh_perm_apply (E := Empty_set) umax (MeshPerm (reverse q) cp) m = Ok m' /\ mesh_reordered (reverse q) cp m m' /\
          forall i j ci cj ki kj, i < j -> ms_cells m' !! i = Some ci -> ms_cells m' !! j = Some cj ->
            least ci ki -> least cj kj -> okey_le ki kj.
Proof.
  intros V ord size umax srt cell_srt m Ho Hsz Hsrt Hcs Hm.
  pose proof (mesh_has_conn m) as Hconn. pose proof (mesh_in_range m Hm) as Hin.
  destruct (assemble_pattern_spec (E := Empty_set) ord umax _ _ Ho Hconn Hin) as (p0 & Hp0 & Hwf & Hr & Hc & Hst). split.
  - destruct (par_pattern_exists (E := Empty_set) ord size umax _ _ Ho Hsz Hconn Hin) as [r Hrun].
    pose proof (par_pattern_agrees ord size umax _ _ Ho Hsz Hconn Hin ord umax r Ho Hrun) as Heq. rewrite Hp0 in Heq. subst r.
    eexists _, p0. split; [done|]. by constructor.
  - intros p r Hrun [r' Hrun']. rewrite (par_pattern_agrees ord size umax _ _ Ho Hsz Hconn Hin ord umax r' Ho Hrun'), Hp0.
    pose proof (par_pattern_agrees ord size umax _ _ Ho Hsz Hconn Hin ord umax _ Ho Hrun) as Heq. rewrite Hp0 in Heq. injection Heq as ->.
    simpl in Hr, Hc. rewrite Nat.add_0_r in Hr, Hc.
    destruct (reorder_from_spec m umax Hm (srt p0) cell_srt p0 Hwf Hr Hc (Hsrt p0) Hcs) as (q & cp & H1 & H2 & H3 & H4 & H5 & H6 & H7).
    exists q, cp. destruct (mesh_apply_spec m umax Hm (E := Empty_set) _ _ H3 H4 H5 H6) as (m' & Hm' & Hre & _). split_and!; try done.
    + intros a b. unfold adjacent_to. rewrite Hst. change (ca_sdim (mesh_conn m)) with 1. rewrite !Nat.div_1_r. split; [by intros [_ ?]|]. intros; split; [lia|done].
    + exists m'. split_and!; [done|done|]. by apply (H7 Empty_set).
Qed.
Print Assumptions C25_reorder_mesh_par.

Definition ex_mesh : mesh nat := Mesh [100; 101; 102; 103; 104] [[0; 3]; [3; 1]; [1; 4]; [4; 2; 1]].
Example C25_example :
  Forall (Forall (fun a => a < length (ms_vertices ex_mesh))) (ms_cells ex_mesh) /\
  (forall p, sorts_by_degree p (degree_sort p)) /\ sorts_cells cell_sort /\
  exists p mp m', assemble_pattern (E := Empty_set) id_order 0 (mesh_conn ex_mesh) = Ok p /\
    reorder_from_pattern 0 (degree_sort p) cell_sort ex_mesh p = Some (Ok mp) /\ mp_vertex mp = [4; 2; 1; 3; 0] /\ mp_cells mp = [2; 3; 1; 0] /\
    mesh_perm_apply (E := Empty_set) 0 mp ex_mesh = Ok m' /\ ms_vertices m' = [104; 102; 101; 103; 100] /\
    ms_cells m' = [[2; 0]; [0; 1; 2]; [3; 2]; [4; 3]].
Proof.
  split_and!; [repeat constructor; lia|apply degree_sort_ok|apply cell_sort_ok|]. do 3 eexists. split_and!; [by vm_compute..].
Qed.

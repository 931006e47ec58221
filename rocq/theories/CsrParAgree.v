(** Parallel CSR assembly: the element closure, determinism, agreement with serial assembly. *)
From stdpp Require Import base list list_numbers sorting relations.
From Coq Require Import Lia ZArith.
From Verif Require Import Prelude NestedVecModel NestedVecSpec NestedVecProofs ParadisModel ParadisSpec
  ParadisProofs ColoringProofs ParadisSafety VectorModel VectorSpec VectorProofs VectorParProofs VectorColors VectorAgree
  CsrModel CsrSpec CsrProofs CsrSerial CsrPattern CsrPar.

Set Default Proof Using "Type".

Section csr.
Context {T E : Type} (add : T -> T -> T) (zero : T) (srt : list nat -> list nat).
Notation upd := (upd add).

(** What the closure needs to know about the element with label [i] and nodes [ns]. *)
Definition mlabel_ok (a : @mat_asm T E) (p : pattern) (mres : nat -> outcome E (list (list T))) (i : nat) (ns : list nat) : Prop :=
  ca_count (ma_conn a) i = length ns /\
  (forall buf, length buf = length ns -> ca_populate (ma_conn a) i buf = ns) /\
  yields_mat a i (length ns) (mres i) /\ NoDup ns /\ has_couplings (ca_sdim (ma_conn a)) [ns] p.

Definition csr_res (a : @mat_asm T E) (p : pattern) (mres : nat -> outcome E (list (list T))) (acc : subset_access)
  : outcome E (list (nat * T)) :=
  let! A := mres (sa_label acc) in element_updates p (sa_indices acc) (srt (sa_indices acc)) (ca_sdim (ma_conn a)) A.

Lemma ofold_map {A B S} (f : S -> B -> outcome E S) (g : A -> B) l : forall st, ofold f st (map g l) = ofold (fun st x => f st (g x)) st l.
Proof. induction l as [|x l IH]; intros st; simpl; [done|]. by destruct (f st (g x)). Qed.

Lemma row_list_proj dim conn : (local ← seq 0 (length conn); k ← seq 0 dim; [(local, k)]) = map (fun x : nat * nat * nat => (x.1.1, x.2)) (row_list dim conn).
Proof.
  unfold row_list.
  assert (forall j, (local ← seq j (length conn); k ← seq 0 dim; [(local, k)]) =
    map (fun x : nat * nat * nat => (x.1.1, x.2)) ('(il, g) ← zip (seq j (length conn)) conn; i ← seq 0 dim; [(il, g, i)])) as H; [|apply H].
  induction conn as [|g conn IH]; intros j; [done|].
  cbn [length seq zip_with]. rewrite !bind_cons, map_app. f_equal; [|apply IH].
  clear IH. generalize 0 as k. induction dim as [|m IHm]; intros k; [done|]. cbn [seq]. rewrite !bind_cons. exact (f_equal (cons (j, k)) (IHm (S k))).
Qed.

Lemma csr_task_res debug (a : @mat_asm T E) p mres ws acc : mlabel_ok a p mres (sa_label acc) (sa_indices acc) ->
  csr_task zero srt debug a p ws acc = csr_res a p mres acc.
Proof.
  intros (Hc & Hp & Hy & _). unfold csr_task, csr_res.
  destruct (prepare_matrix_spec zero a ws (sa_label acc) (sa_indices acc) _ Hc Hp Hy) as [H1 H2].
  destruct (prepare_matrix zero a ws (sa_label acc)) as [ws' r]. simpl in H1, H2. subst r.
  destruct (mres (sa_label acc)) as [A|e|]; [|done|done]. simpl. rewrite (H2 A eq_refl).
  rewrite bool_decide_true by done. rewrite andb_false_r, Hc, row_list_proj, ofold_map, element_updates_eq.
  apply ofold_ext. intros us [[il g] i] Hx. apply elem_of_row_list in Hx as [Hil Hi]. simpl.
  unfold sa_get. rewrite Hil. unfold block_get. rewrite decide_True by done.
  destruct (pat_row p (ca_sdim (ma_conn a) * g + i)) as [[b cols]|]; [|done].
  destruct (A !! _) as [row|]; [|done]. by destruct (add_element_row _ _ _ _ _).
Qed.

(** Positions of rows of node [g]. *)
Definition row_owner (s : nat) (p : pattern) (g pos : nat) : Prop := exists r c, stored p r c pos /\ r / s = g.

Lemma row_owner_unique s p g g' pos : pat_wf p -> row_owner s p g pos -> row_owner s p g' pos -> g = g'.
Proof. intros Hwf (r & c & H1 & <-) (r' & c' & H2 & <-). by destruct (stored_unique p Hwf _ _ _ _ _ H1 H2) as [-> _]. Qed.

Section fixed.
Context (a : @mat_asm T E) (p : pattern) (debug : bool) (mres : nat -> outcome E (list (list T))).
Hypotheses (Hwf : pat_wf p) (Hsrt : sorts_by_key srt) (Hs : 1 <= ca_sdim (ma_conn a)).
Notation s := (ca_sdim (ma_conn a)).

Lemma csr_updates i ns A : mlabel_ok a p mres i ns -> mres i = Ok A ->
  exists us, element_updates (E := E) p ns (srt ns) s A = Ok us /\
    (forall u : nat * T, u ∈ us -> exists r c, stored p r c u.1 /\ r / s ∈ ns) /\
    (forall r c pos, stored p r c pos -> touching pos us = mat_contrib s ns A r c).
Proof using Hs Hsrt Hwf.
  intros (Hc & Hp & Hy & Hnd & Hcp) HA. destruct (Hsrt ns) as [S1 S2].
  apply element_updates_spec; try done. destruct Hy as [_ Hy]. rewrite Nat.mul_comm. by apply Hy.
Qed.

Lemma csr_item_ok acc : mlabel_ok a p mres (sa_label acc) (sa_indices acc) ->
  item_ok (csr_task zero srt debug a p) (csr_res a p mres) (row_owner s p) (length (pt_cols p)) acc.
Proof using Hs Hsrt Hwf.
  intros Hl. split; [intros w; by apply csr_task_res|]. intros us u Hus Hu. unfold csr_res in Hus.
  destruct (mres (sa_label acc)) as [A|e|] eqn:EA; try done. simpl in Hus.
  destruct (csr_updates _ _ A Hl EA) as (us' & Hus' & H1 & _). rewrite Hus in Hus'. simplify_eq.
  destruct (H1 u Hu) as (r & c & Hst & Hr). split; [by apply (stored_row p Hwf r c)|]. exists (r / s). split; [done|]. by exists r, c.
Qed.

Lemma csr_items_sums items vals : (forall acc, acc ∈ items -> mlabel_ok a p mres (sa_label acc) (sa_indices acc)) ->
  forall f, (forall acc, acc ∈ items -> mres (sa_label acc) = Ok (f (sa_label acc))) ->
  csr_sums add s (map sa_indices items) (map (fun acc => f (sa_label acc)) items) (Csr p vals)
    (Csr p (foldl upd vals (concat (map (updates_of (csr_res a p mres)) items)))).
Proof using Hs Hsrt Hwf.
  intros Hl f Hf. revert vals. induction items as [|acc items IH]; intros vals; [done|].
  cbn [map concat]. rewrite foldl_app. change (sa_indices acc :: ?l) with ([sa_indices acc] ++ l).
  change (f (sa_label acc) :: ?l) with ([f (sa_label acc)] ++ l).
  eapply csr_sums_trans; [done| |apply IH; [intros x Hx; apply Hl; by right|intros x Hx; apply Hf; by right]].
  apply csr_sums_one. intros r c pos Hpos.
  destruct (csr_updates _ _ _ (Hl acc ltac:(by left)) (Hf acc ltac:(by left))) as (us & Hus & _ & Ht).
  unfold updates_of, csr_res. rewrite (Hf acc ltac:(by left)). cbn [obind]. rewrite Hus. by apply Ht.
Qed.

Lemma color_items_indices colors lss : Forall2 safe_value colors lss ->
  map sa_indices (color_items colors lss) = concat lss /\ map sa_label (color_items colors lss) = concat (map ds_labels colors).
Proof.
  unfold color_items. induction 1 as [|c ls colors lss Hc _ [IH1 IH2]]; [done|].
  destruct (safe_value_spec c ls Hc) as ((_ & _ & Hlen) & _). cbn [zip_with concat map]. rewrite !map_app, IH1, IH2.
  clear -Hlen. assert (forall labels ls, length labels = length ls -> map sa_indices (zip_with SubsetAccess labels ls) = ls /\
    map sa_label (zip_with SubsetAccess labels ls) = labels) as H.
  { induction labels as [|l labels IH]; intros [|x ls'] H; simpl in *; try done. destruct (IH ls') as [-> ->]; [lia|]. done. }
  destruct (H _ _ Hlen) as [-> ->]. done.
Qed.

Lemma color_items_ok colors lss : Forall2 safe_value colors lss ->
  Forall2 (mlabel_ok a p mres) (concat (map ds_labels colors)) (concat lss) ->
  forall acc, acc ∈ color_items colors lss -> mlabel_ok a p mres (sa_label acc) (sa_indices acc).
Proof.
  intros Hsafe HF. destruct (color_items_indices _ _ Hsafe) as [H1 H2]. rewrite <- H1, <- H2 in HF.
  intros acc Hacc. apply elem_of_list_lookup in Hacc as [k Hk].
  apply (Forall2_lookup_lr _ _ _ k _ _ HF); by rewrite list_lookup_fmap, Hk.
Qed.

Lemma csr_colors_spec n colors lss vals vals' r :
  Forall2 safe_value colors lss ->
  (debug = true -> Forall (fun ls => exists ns, ns ∈ ls /\ ns <> []) lss) ->
  nodes_in_range n (concat lss) ->
  Forall2 (mlabel_ok a p mres) (concat (map ds_labels colors)) (concat lss) ->
  length vals = length (pt_cols p) ->
  gcolors_run add (csr_task zero srt debug a p) (s * n) s debug colors vals vals' r ->
  match r with
  | Ok _ => exists f, Forall (fun i => mres i = Ok (f i)) (concat (map ds_labels colors)) /\
      csr_sums add s (concat lss) (map f (concat (map ds_labels colors))) (Csr p vals) (Csr p vals')
  | Err e => exists i, i ∈ concat (map ds_labels colors) /\ mres i = Err e
  | Panic => exists i, i ∈ concat (map ds_labels colors) /\ mres i = Panic
  end.
Proof using Hs Hsrt Hwf.
  intros Hsafe Hd Hr HF Hvals Hrun. pose proof (color_items_ok _ _ Hsafe HF) as Hok.
  assert (Forall (fun ls => debug = true -> exists ns, ns ∈ ls /\ ns <> []) lss) as Hd'.
  { rewrite Forall_forall. intros ls Hls Hdb. specialize (Hd Hdb). rewrite Forall_forall in Hd. by apply Hd. }
  destruct (color_items_indices _ _ Hsafe) as [H1 H2].
  assert (forall acc, acc ∈ color_items colors lss -> sa_label acc ∈ concat (map ds_labels colors)) as Hin.
  { intros acc Hacc. rewrite <- H2. by apply elem_of_list_fmap_1. }
  pose proof (gcolors_run_spec add (csr_task zero srt debug a p) (csr_res a p mres) (row_owner s p) n s debug (length (pt_cols p))
    (fun g g' pos => row_owner_unique s p g g' pos Hwf) colors lss ltac:(lia) Hsafe Hd' Hr
    (fun acc Hacc => csr_item_ok acc (Hok acc Hacc)) vals vals' r Hvals Hrun) as H.
  assert (forall acc o, acc ∈ color_items colors lss -> csr_res a p mres acc = o ->
    match o with Ok _ => exists A, mres (sa_label acc) = Ok A | Err e => mres (sa_label acc) = Err e | Panic => mres (sa_label acc) = Panic end) as Hres.
  { intros acc o Hacc <-. unfold csr_res. destruct (mres (sa_label acc)) as [A|e|] eqn:EA; simpl; [|done|done].
    destruct (csr_updates _ _ A (Hok acc Hacc) EA) as (us & -> & _). by exists A. }
  destruct r as [[]|e|].
  - destruct H as [Hall ->]. exists (fun i => match mres i with Ok A => A | _ => [] end).
    assert (forall acc, acc ∈ color_items colors lss -> mres (sa_label acc) = Ok (match mres (sa_label acc) with Ok A => A | _ => [] end)) as Hf.
    { intros acc Hacc. destruct (Hres acc _ Hacc (Hall acc Hacc)) as [A ->]. done. }
    split.
    + rewrite <- H2. rewrite Forall_forall. intros i Hi. apply elem_of_list_fmap in Hi as (acc & -> & Hacc). by apply Hf.
    + rewrite <- H1, <- H2, map_map. by apply (csr_items_sums (color_items colors lss) vals Hok (fun i => match mres i with Ok A => A | _ => [] end)).
  - destruct H as (acc & Hacc & H). exists (sa_label acc). split; [by apply Hin|]. exact (Hres acc _ Hacc H).
  - destruct H as (acc & Hacc & H). exists (sa_label acc). split; [by apply Hin|]. exact (Hres acc _ Hacc H).
Qed.

Lemma csr_colors_exists n colors lss vals f :
  Forall2 safe_value colors lss ->
  (debug = true -> Forall (fun ls => exists ns, ns ∈ ls /\ ns <> []) lss) ->
  nodes_in_range n (concat lss) ->
  Forall2 (mlabel_ok a p mres) (concat (map ds_labels colors)) (concat lss) ->
  (forall i, i ∈ concat (map ds_labels colors) -> mres i = Ok (f i)) ->
  length vals = length (pt_cols p) ->
  exists vals', gcolors_run add (csr_task zero srt debug a p) (s * n) s debug colors vals vals' (Ok tt).
Proof using Hs Hsrt Hwf.
  intros Hsafe Hd Hr HF Hf Hvals. pose proof (color_items_ok _ _ Hsafe HF) as Hok.
  assert (Forall (fun ls => debug = true -> exists ns, ns ∈ ls /\ ns <> []) lss) as Hd'.
  { rewrite Forall_forall. intros ls Hls Hdb. specialize (Hd Hdb). rewrite Forall_forall in Hd. by apply Hd. }
  destruct (color_items_indices _ _ Hsafe) as [H1 H2].
  apply (gcolors_run_exists add (CsrWs [] []) (csr_task zero srt debug a p) (csr_res a p mres) (row_owner s p) n s debug (length (pt_cols p))
    (fun g g' pos => row_owner_unique s p g g' pos Hwf) colors lss ltac:(lia) Hsafe Hd' Hr
    (fun acc Hacc => csr_item_ok acc (Hok acc Hacc))); [|done].
  intros acc Hacc. unfold updates_of, csr_res.
  assert (sa_label acc ∈ concat (map ds_labels colors)) as Hin by (rewrite <- H2; by apply elem_of_list_fmap_1).
  rewrite (Hf _ Hin). cbn [obind]. destruct (csr_updates _ _ _ (Hok acc Hacc) (Hf _ Hin)) as (us & -> & _). done.
Qed.
End fixed.

(** Statement for C16, determinism. *)
Lemma par_csr_deterministic (a : @mat_asm T E) debug (mats : nat -> list (list T)) colors lss n (m : csr T) :
  Forall2 safe_value colors lss -> 1 <= ca_sdim (ma_conn a) ->
  csr_wf m -> sorts_by_key srt -> pt_nrows (cs_pat m) = ca_sdim (ma_conn a) * n ->
  nodes_in_range n (concat lss) -> Forall NoDup (concat lss) ->
  has_couplings (ca_sdim (ma_conn a)) (concat lss) (cs_pat m) ->
  (debug = true -> Forall (fun ls => exists ns, ns ∈ ls /\ ns <> []) lss) ->
  Forall2 (fun i ns => ca_count (ma_conn a) i = length ns /\
      (forall buf, length buf = length ns -> ca_populate (ma_conn a) i buf = ns) /\ yields_mat a i (length ns) (Ok (mats i)))
    (concat (map ds_labels colors)) (concat lss) ->
  exists m', par_assemble_into_csr add zero srt debug a colors m m' (Ok tt) /\
    csr_sums add (ca_sdim (ma_conn a)) (concat lss) (map mats (concat (map ds_labels colors))) m m' /\
    forall m'' r, par_assemble_into_csr add zero srt debug a colors m m'' r -> r = Ok tt /\ m'' = m'.
Proof.
  intros Hsafe Hs [Hwf Hv] Hsrt Hrows Hr Hnd Hcp Hd HF. destruct m as [p vals]. simpl in *.
  assert (Forall2 (mlabel_ok a p (fun i => Ok (mats i))) (concat (map ds_labels colors)) (concat lss)) as HL.
  { apply Forall2_same_length_lookup_2; [by eapply Forall2_length|]. intros k i ns Hi Hns.
    destruct (Forall2_lookup_lr _ _ _ _ _ _ HF Hi Hns) as (H1 & H2 & H3). rewrite Forall_forall in Hnd.
    assert (ns ∈ concat lss) by (by eapply elem_of_list_lookup_2). split_and!; [done|done|done|by apply Hnd|]. by eapply has_couplings_one. }
  destruct (csr_colors_exists a p debug (fun i => Ok (mats i)) Hwf Hsrt Hs n colors lss vals mats Hsafe Hd Hr HL ltac:(done) Hv) as [vals' Hrun].
  assert (forall vals'' r, gcolors_run add (csr_task zero srt debug a p) (ca_sdim (ma_conn a) * n) (ca_sdim (ma_conn a)) debug colors vals vals'' r ->
    r = Ok tt /\ csr_sums add (ca_sdim (ma_conn a)) (concat lss) (map mats (concat (map ds_labels colors))) (Csr p vals) (Csr p vals'')) as Hall.
  { intros vals'' r Hrun'. pose proof (csr_colors_spec a p debug (fun i => Ok (mats i)) Hwf Hsrt Hs n colors lss vals vals'' r Hsafe Hd Hr HL Hv Hrun') as H.
    destruct r as [[]|e|]; [|by destruct H as (? & _ & ?)|by destruct H as (? & _ & ?)].
    split; [done|]. destruct H as (f & Hf & H).
    assert (map mats (concat (map ds_labels colors)) = map f (concat (map ds_labels colors))) as ->; [|done].
    apply map_ext_in. intros i Hi. apply elem_of_list_In in Hi. rewrite Forall_forall in Hf. specialize (Hf i Hi). by simplify_eq. }
  exists (Csr p vals'). split; [constructor; simpl; by rewrite Hrows|]. split; [by eapply Hall|].
  intros m'' r Hpar. inversion Hpar as [vals'' r' Hrun' Hm Hr']. subst m'' r'. simpl in *. rewrite Hrows in Hrun'.
  destruct (Hall _ _ Hrun') as [-> Hsum']. split; [done|].
  eapply (csr_sums_unique add); [|exact Hsum'|by eapply Hall]. by split.
Qed.

Lemma mat_contribs_perm s ls subs labels (f : nat -> list (list T)) good r c :
  Forall2 (fun i t => ls !! i = Some t) labels subs ->
  labels ≡ₚ seq 0 (length ls) -> length good = length ls ->
  (forall i v, good !! i = Some v -> f i = v) ->
  mat_contribs s subs (map f labels) r c ≡ₚ mat_contribs s ls good r c.
Proof.
  intros Hf Hp Hl Hg. unfold mat_contribs. set (g := fun (ns : list nat) (v : list (list T)) => mat_contrib s ns v r c).
  assert (zip_with g subs (map f labels) = map (fun i => g (default [] (ls !! i)) (f i)) labels) as ->.
  { clear -Hf. induction Hf as [|i t labels subs Hi Hf IH]; simpl; [done|]. by rewrite Hi, IH. }
  assert (zip_with g ls good = map (fun i => g (default [] (ls !! i)) (f i)) (seq 0 (length ls))) as ->.
  { apply list_eq. intros i. rewrite lookup_zip_with, list_lookup_fmap.
    destruct (decide (i < length ls)) as [Hi|Hi].
    - rewrite lookup_seq_lt by done. simpl. destruct (lookup_lt_is_Some_2 ls i Hi) as [t Ht].
      destruct (lookup_lt_is_Some_2 good i) as [v Hv]; [lia|]. rewrite Ht, Hv. simpl. by rewrite (Hg i v Hv).
    - rewrite (lookup_ge_None_2 ls) by lia. simpl. by rewrite (lookup_seq_ge 0 (length ls)) by lia. }
  apply concat_perm. by rewrite Hp.
Qed.

(** Statement for C16, agreement with serial assembly. *)
Lemma par_csr_permutes (a : @mat_asm T E) ls vs ord debug colors ws m m' r :
  hash_order ord -> sorts_by_key srt -> has_conn (ma_conn a) ls -> nodes_in_range (ca_nodes (ma_conn a)) ls -> has_mats a ls vs ->
  Forall NoDup ls -> 1 <= ca_sdim (ma_conn a) -> (Z.of_nat (length ls) <= i32_max)%Z ->
  (debug = true -> forall ns, ns ∈ ls -> ns <> []) ->
  csr_wf m -> pt_nrows (cs_pat m) = ca_sdim (ma_conn a) * ca_nodes (ma_conn a) ->
  has_couplings (ca_sdim (ma_conn a)) ls (cs_pat m) ->
  color_nodes ord debug (ma_conn a) = Some (Ok colors) ->
  par_assemble_into_csr add zero srt debug a colors m m' r ->
  let '(_, m'', r') := assemble_into_csr add zero srt ws m a in
  match r with
  | Ok _ => r' = Ok tt /\ cs_pat m' = cs_pat m /\ cs_pat m'' = cs_pat m /\ length (cs_vals m') = length (cs_vals m) /\ length (cs_vals m'') = length (cs_vals m) /\
      exists good, vs = map Ok good /\ forall rr cc pos x, stored (cs_pat m) rr cc pos -> cs_vals m !! pos = Some x ->
        exists l, l ≡ₚ mat_contribs (ca_sdim (ma_conn a)) ls good rr cc /\
          cs_vals m'' !! pos = Some (foldl add x (mat_contribs (ca_sdim (ma_conn a)) ls good rr cc)) /\ cs_vals m' !! pos = Some (foldl add x l)
  | Err e => (exists i, vs !! i = Some (Err e)) /\ r' <> Ok tt
  | Panic => (exists i, vs !! i = Some Panic) /\ r' <> Ok tt
  end.
Proof.
  intros Hord Hsrt Hconn Hr Hvs Hnd Hs Hb Hd [Hwf Hv] Hrows Hcp Hcol Hpar. destruct m as [p vals]. simpl in *.
  pose proof (collect_nodes_holds _ ls Hconn) as Hh.
  destruct (coloring_safe ord debug _ ls colors Hord Hh Hb Hcol) as (lss & Hsafe & Hf & Hp & Hne).
  set (mres := fun i => match vs !! i with Some v => v | None => Panic end).
  assert (Forall2 (mlabel_ok a p mres) (concat (map ds_labels colors)) (concat lss)) as Hlab.
  { eapply Forall2_impl; [exact Hf|]. intros i t Hi. destruct Hconn as [Hcl Hc'].
    destruct (Hc' i t Hi) as [Hcount Hpop].
    destruct (lookup_lt_is_Some_2 vs i) as [v Hvi].
    { rewrite (proj1 Hvs). eapply lookup_lt_Some; exact Hi. }
    rewrite Forall_forall in Hnd. assert (t ∈ ls) by exact (elem_of_list_lookup_2 _ _ _ Hi).
    split_and!; [done|done| |by apply Hnd|by eapply has_couplings_one].
    unfold mres. rewrite Hvi. by eapply (proj2 Hvs). }
  assert (forall i, i ∈ concat (map ds_labels colors) <-> i < length ls) as Hin.
  { intros i. rewrite Hp, elem_of_seq. lia. }
  assert (forall i, i < length ls -> vs !! i = Some (mres i)) as Hmres.
  { intros i Hi. unfold mres. destruct (lookup_lt_is_Some_2 vs i) as [v Hvi]; [by rewrite (proj1 Hvs)|]. by rewrite Hvi. }
  assert (Hsub : forall t, t ∈ concat lss -> t ∈ ls).
  { intros t Ht. apply elem_of_list_lookup in Ht as [k Hk].
    destruct (Forall2_lookup_r _ _ _ _ _ Hf Hk) as (i & _ & Hi). by eapply elem_of_list_lookup_2. }
  inversion Hpar as [vals' r0 Hrun Hm Hr0]. subst r0 m'. simpl in Hrun. rewrite Hrows in Hrun.
  assert (debug = true -> Forall (fun ls0 => exists ns, ns ∈ ls0 /\ ns <> []) lss) as Hdb.
  { intros Hdb. rewrite Forall_forall in Hne |- *. intros sub Hin'. destruct sub as [|t sub]; [by specialize (Hne _ Hin')|].
    exists t. split; [by left|]. apply Hd; [done|]. apply Hsub, concat_elem. exists (t :: sub). split; [done|by left]. }
  assert (nodes_in_range (ca_nodes (ma_conn a)) (concat lss)) as Hr'.
  { intros ns k Hns Hk. by apply (Hr ns k); [apply Hsub|]. }
  pose proof (csr_colors_spec a p debug mres Hwf Hsrt Hs (ca_nodes (ma_conn a)) colors lss vals vals' r Hsafe Hdb Hr' Hlab Hv Hrun) as Hspec.
  destruct (assemble_into_csr_spec add zero srt a ls vs ws (Csr p vals) Hconn Hvs Hwf Hsrt Hs Hnd Hcp) as (ws' & m'' & r' & good & Hser & Hsum & Hres).
  rewrite Hser. destruct r as [[]|e|].
  - destruct Hspec as (f & Hf1 & Hsum1). rewrite Forall_forall in Hf1.
    assert (forall i, i < length ls -> vs !! i = Some (Ok (f i))) as Hok.
    { intros i Hi. rewrite Hmres by done. f_equal. apply Hf1. by apply Hin. }
    destruct r' as [[]|e|].
    + split; [done|].
      assert (length good = length ls) as Hgl.
      { rewrite <- (proj1 Hvs), Hres. by rewrite map_length. }
      rewrite take_ge in Hsum by lia.
      destruct m'' as [p'' v'']. destruct Hsum as (P1 & L1 & S1), Hsum1 as (P2 & L2 & S2). simpl in *. subst p''.
      do 4 (split; [done|]). exists good. split; [done|]. intros rr cc d x Hst Ex.
      eexists. split; [|split; [exact (S1 rr cc d x Hst Ex)|exact (S2 rr cc d x Hst Ex)]].
      apply mat_contribs_perm; [done|done|done|]. intros i v Hvi.
      assert (i < length ls) as Hi by (rewrite <- Hgl; by eapply lookup_lt_Some).
      specialize (Hok i Hi). rewrite Hres, list_lookup_fmap, Hvi in Hok. simpl in Hok. by simplify_eq.
    + destruct Hres as [rest Hres]. exfalso.
      assert (vs !! (length good) = Some (Err e)) as H.
      { rewrite Hres, lookup_app_r by (by rewrite map_length). by rewrite map_length, Nat.sub_diag. }
      rewrite Hok in H; [done|]. rewrite <- (proj1 Hvs). by eapply lookup_lt_Some.
    + destruct Hres as [rest Hres]. exfalso.
      assert (vs !! (length good) = Some Panic) as H.
      { rewrite Hres, lookup_app_r by (by rewrite map_length). by rewrite map_length, Nat.sub_diag. }
      rewrite Hok in H; [done|]. rewrite <- (proj1 Hvs). by eapply lookup_lt_Some.
  - destruct Hspec as (i & Hi & Hvi). apply Hin in Hi. split; [exists i; rewrite Hmres by done; by rewrite Hvi|].
    intros ->. specialize (Hmres i Hi). rewrite Hres, list_lookup_fmap, Hvi in Hmres. destruct (good !! i); done.
  - destruct Hspec as (i & Hi & Hvi). apply Hin in Hi. split; [exists i; rewrite Hmres by done; by rewrite Hvi|].
    intros ->. specialize (Hmres i Hi). rewrite Hres, list_lookup_fmap, Hvi in Hmres. destruct (good !! i); done.
Qed.

Lemma par_csr_agrees (a : @mat_asm T E) ls vs ord debug colors ws m m' r :
  (forall x y z, add x (add y z) = add (add x y) z) -> (forall x y, add x y = add y x) ->
  hash_order ord -> sorts_by_key srt -> has_conn (ma_conn a) ls -> nodes_in_range (ca_nodes (ma_conn a)) ls -> has_mats a ls vs ->
  Forall NoDup ls -> 1 <= ca_sdim (ma_conn a) -> (Z.of_nat (length ls) <= i32_max)%Z ->
  (debug = true -> forall ns, ns ∈ ls -> ns <> []) ->
  csr_wf m -> pt_nrows (cs_pat m) = ca_sdim (ma_conn a) * ca_nodes (ma_conn a) ->
  has_couplings (ca_sdim (ma_conn a)) ls (cs_pat m) ->
  color_nodes ord debug (ma_conn a) = Some (Ok colors) ->
  par_assemble_into_csr add zero srt debug a colors m m' r ->
  let '(_, m'', r') := assemble_into_csr add zero srt ws m a in
  match r with
  | Ok _ => r' = Ok tt /\ m' = m''
  | Err e => (exists i, vs !! i = Some (Err e)) /\ r' <> Ok tt
  | Panic => (exists i, vs !! i = Some Panic) /\ r' <> Ok tt
  end.
Proof.
  intros Ha Hc Hord Hsrt Hconn Hr Hvs Hnd Hs Hb Hd Hm Hrows Hcp Hcol Hpar.
  pose proof (par_csr_permutes a ls vs ord debug colors ws m m' r Hord Hsrt Hconn Hr Hvs Hnd Hs Hb Hd Hm Hrows Hcp Hcol Hpar) as H.
  destruct (assemble_into_csr add zero srt ws m a) as [[ws' m''] r']. destruct r as [[]|e|]; [|exact H|exact H].
  destruct H as (-> & P1 & P2 & L1 & L2 & good & _ & H). split; [done|]. destruct Hm as [Hwf Hv].
  destruct m as [p vals], m' as [p1 v1], m'' as [p2 v2]. simpl in *. subst p1 p2. f_equal. apply list_eq. intros d.
  destruct (vals !! d) as [x|] eqn:Ex.
  - assert (d < length (pt_cols p)) as Hdl by (rewrite <- Hv; by eapply lookup_lt_Some).
    destruct (stored_cover p Hwf d Hdl) as (rr & cc & Hst). destruct (H rr cc d x Hst Ex) as (l & Hl & -> & ->). f_equal. by apply foldl_add_perm.
  - apply lookup_ge_None in Ex. rewrite !lookup_ge_None_2; [done|lia|lia].
Qed.
End csr.

(** C101, second part: relabelling of nodes and systems of several bodies. *)
From stdpp Require Import base list list_numbers sorting.
From Coq Require Import Lia ZArith.
From Verif Require Import Prelude NestedVecModel NestedVecSpec NestedVecProofs ParadisModel ParadisSpec
  ParadisProofs ColoringProofs PropParadis VectorModel VectorSpec VectorProofs VectorAgree PropVector
  CsrModel CsrSpec CsrProofs CsrSerial CsrPattern CsrAlgebra PropCsr TableModel TableSpec PropTable
  AdapterModel AdapterSpec AdapterProofs AdapterAggregate PropAdapter.

Lemma range_map f n n' ls : nodes_in_range n ls -> (forall i, i < n -> f i < n') -> nodes_in_range n' (map (map f) ls).
Proof.
  intros Hr Hf ns k Hns Hk. apply elem_of_list_fmap in Hns as (ns' & -> & Hns). apply elem_of_list_fmap in Hk as (k' & -> & Hk). by apply Hf, (Hr ns').
Qed.

(** C101. Injective relabelling of the nodes moves the entries of the assembled vector: same operations in the same order, so
    the entries are equal also for addition that is not associative. Entries of other nodes are zero. *)
Theorem C101_relabel_vector :
  forall (T E : Type) (add : T -> T -> T) (zero : T) (umax : nat) (f : nat -> nat) (n' : nat)
         (a : @vec_asm T E) (ls : list (list nat)) (vs : list (outcome E (list T))) (ws ws' : vec_ws),
    has_conn (va_conn a) ls -> nodes_in_range (ca_nodes (va_conn a)) ls -> has_vecs a ls vs ->
    injective_below (ca_nodes (va_conn a)) f -> (forall i, i < ca_nodes (va_conn a) -> f i < n') ->
    match (assemble_vector add zero umax ws a).2 with
    | Ok out => exists out', (assemble_vector add zero umax ws' (map_nodes_vec f n' a)).2 = Ok out' /\
        length out' = ca_sdim (va_conn a) * n' /\
        (forall i c, i < ca_nodes (va_conn a) -> c < ca_sdim (va_conn a) ->
           out' !! (ca_sdim (va_conn a) * f i + c) = out !! (ca_sdim (va_conn a) * i + c)) /\
        (forall j c, j < n' -> c < ca_sdim (va_conn a) -> (forall i, i < ca_nodes (va_conn a) -> f i <> j) ->
           out' !! (ca_sdim (va_conn a) * j + c) = Some zero)
    | Err e => (assemble_vector add zero umax ws' (map_nodes_vec f n' a)).2 = Err e
    | Panic => (assemble_vector add zero umax ws' (map_nodes_vec f n' a)).2 = Panic
    end.
Proof.
  intros T E add zero umax f n' a ls vs ws ws' Hc Hr Hv Hinj Hf.
  pose proof (assemble_vector_collect add zero umax a ls vs ws Hc Hr Hv) as A1.
  pose proof (assemble_vector_collect add zero umax (map_nodes_vec f n' a) (map (map f) ls) vs ws' (has_conn_map f n' _ _ Hc)
    (range_map f _ n' ls Hr Hf) (has_vecs_map f n' a ls vs Hv)) as A2.
  cbn [va_conn map_nodes_vec map_nodes_conn ca_sdim ca_nodes] in A2.
  destruct (collect vs) as [good|e|]; [|by rewrite A1|by rewrite A1].
  destruct A1 as (out & -> & [L1 S1]). destruct A2 as (out' & -> & [L2 S2]). set (s := ca_sdim (va_conn a)) in *. set (n := ca_nodes (va_conn a)) in *.
  rewrite replicate_length in L1, L2. exists out'. split; [done|]. split; [done|]. split.
  - intros i c Hi Hcs. pose proof (Hf i Hi) as Hfi.
    rewrite (S1 (s * i + c) zero) by (apply lookup_replicate_2; nia). rewrite (S2 (s * f i + c) zero) by (apply lookup_replicate_2; nia).
    by rewrite (contribs_inj f s ls good n).
  - intros j c Hj Hcs Hno. rewrite (S2 (s * j + c) zero) by (apply lookup_replicate_2; nia). rewrite contribs_none; [done|].
    intros ns Hns Hin. rewrite (proj1 (div_dof s j c Hcs)) in Hin. apply elem_of_list_fmap in Hns as (ns' & -> & Hns).
    apply elem_of_list_fmap in Hin as (k & -> & Hk). by apply (Hno k); [apply (Hr ns')|].
Qed.
Print Assumptions C101_relabel_vector.

(** C101. Arbitrary relabelling: the entries of all nodes with the same new label are added together (for a commutative
    addition). *)
Theorem C101_merge_vector :
  forall (T E : Type) (add : T -> T -> T) (zero : T) (umax : nat) (f : nat -> nat) (n' : nat)
         (a : @vec_asm T E) (ls : list (list nat)) (vs : list (outcome E (list T))) (ws ws' : vec_ws) (out : list T),
    (forall x y z, add x (add y z) = add (add x y) z) -> (forall x y, add x y = add y x) -> (forall x, add zero x = x) ->
    has_conn (va_conn a) ls -> nodes_in_range (ca_nodes (va_conn a)) ls -> has_vecs a ls vs ->
    (forall i, i < ca_nodes (va_conn a) -> f i < n') ->
    (assemble_vector add zero umax ws a).2 = Ok out ->
    exists out', (assemble_vector add zero umax ws' (map_nodes_vec f n' a)).2 = Ok out' /\
      length out' = ca_sdim (va_conn a) * n' /\
      forall j c, j < n' -> c < ca_sdim (va_conn a) ->
        out' !! (ca_sdim (va_conn a) * j + c) =
          Some (foldl add zero (map (fun i => default zero (out !! (ca_sdim (va_conn a) * i + c))) (fibre f (ca_nodes (va_conn a)) j))).
Proof.
  intros T E add zero umax f n' a ls vs ws ws' out Ha Hco H0 Hc Hr Hv Hf Hout.
  pose proof (assemble_vector_collect add zero umax a ls vs ws Hc Hr Hv) as A1.
  pose proof (assemble_vector_collect add zero umax (map_nodes_vec f n' a) (map (map f) ls) vs ws' (has_conn_map f n' _ _ Hc)
    (range_map f _ n' ls Hr Hf) (has_vecs_map f n' a ls vs Hv)) as A2.
  cbn [va_conn map_nodes_vec map_nodes_conn ca_sdim ca_nodes] in A2.
  destruct (collect vs) as [good|e|]; [|by rewrite A1 in Hout|by rewrite A1 in Hout].
  destruct A1 as (out1 & E1 & [L1 S1]). rewrite Hout in E1. injection E1 as <-. destruct A2 as (out' & -> & [L2 S2]).
  set (s := ca_sdim (va_conn a)) in *. set (n := ca_nodes (va_conn a)) in *.
  rewrite replicate_length in L1, L2. exists out'. split; [done|]. split; [done|].
  intros j c Hj Hcs. rewrite (S2 (s * j + c) zero) by (apply lookup_replicate_2; nia). f_equal.
  rewrite (foldl_add_perm add zero _ _ Ha Hco (contribs_fibre f s ls good n j c Hcs Hr)). rewrite (foldl_bind add zero Ha Hco H0). f_equal.
  apply map_ext_in. intros i Hi. apply elem_of_list_In, elem_fibre in Hi as [Hi _]. rewrite (S1 (s * i + c) zero) by (apply lookup_replicate_2; nia). done.
Qed.
Print Assumptions C101_merge_vector.

Lemma assemble_csr_collect {T E} (add : T -> T -> T) (zero : T) srt ord umax ws (a : @mat_asm T E) ls vs :
  hash_order ord -> sorts_by_key srt -> has_conn (ma_conn a) ls -> nodes_in_range (ca_nodes (ma_conn a)) ls -> has_mats a ls vs ->
  1 <= ca_sdim (ma_conn a) -> Forall NoDup ls ->
  match collect vs with
  | Ok As => exists m, (assemble_csr add zero srt ord umax ws a).2 = Ok m /\ csr_wf m /\ length As = length ls /\
      pt_nrows (cs_pat m) = ca_sdim (ma_conn a) * ca_nodes (ma_conn a) /\
      forall r c, entry_is zero m r c (foldl add zero (mat_contribs (ca_sdim (ma_conn a)) ls As r c))
  | Err e => (assemble_csr add zero srt ord umax ws a).2 = Err e
  | Panic => (assemble_csr add zero srt ord umax ws a).2 = Panic
  end.
Proof.
  intros Ho Hsrt Hc Hr Hm Hs Hnd. pose proof (assemble_csr_spec add zero srt ord umax ws a ls vs Ho Hsrt Hc Hr Hm Hs Hnd) as H.
  destruct (assemble_csr add zero srt ord umax ws a).2 as [m|e|].
  - destruct H as (As & Hvs & Hw & Hrows & He). rewrite Hvs, collect_map_ok. exists m. split; [done|]. split; [done|]. split; [|done].
    destruct Hm as [Hm _]. by rewrite Hvs, map_length in Hm.
  - destruct H as (good & rest & ->). by rewrite collect_first.
  - destruct H as (good & rest & ->). by rewrite collect_first.
Qed.

Lemma nodup_map (f : nat -> nat) n ls : nodes_in_range n ls -> (forall ns a b, ns ∈ ls -> a ∈ ns -> b ∈ ns -> f a = f b -> a = b) -> Forall NoDup ls -> Forall NoDup (map (map f) ls).
Proof.
  intros Hr Hf Hnd. apply Forall_fmap. rewrite Forall_forall in *. intros ns Hns. cbn. specialize (Hnd ns Hns).
  assert (Hi : forall a b, a ∈ ns -> b ∈ ns -> f a = f b -> a = b) by (intros; by apply (Hf ns)). clear Hf Hns Hr. induction Hnd as [|x ns Hx Hnd IH]; [constructor|].
  cbn. constructor.
  - intros Hin. apply elem_of_list_fmap in Hin as (y & Hy & Hin). apply Hx. rewrite (Hi x y); [done|by left|by right|done].
  - apply IH. intros a b Ha Hb. apply Hi; by right.
Qed.

(** C101. Injective relabelling for matrices: entries move, all others are zero. *)
Theorem C101_relabel_matrix :
  forall (T E : Type) (add : T -> T -> T) (zero : T) (srt : list nat -> list nat) (ord : nat -> list nat -> list nat) (umax : nat) (f : nat -> nat) (n' : nat)
         (a : @mat_asm T E) (ls : list (list nat)) (vs : list (outcome E (list (list T)))) (ws ws' : csr_ws),
    hash_order ord -> sorts_by_key srt ->
    has_conn (ma_conn a) ls -> nodes_in_range (ca_nodes (ma_conn a)) ls -> has_mats a ls vs -> 1 <= ca_sdim (ma_conn a) -> Forall NoDup ls ->
    injective_below (ca_nodes (ma_conn a)) f -> (forall i, i < ca_nodes (ma_conn a) -> f i < n') ->
    match (assemble_csr add zero srt ord umax ws a).2 with
    | Ok m => exists m', (assemble_csr add zero srt ord umax ws' (map_nodes_mat f n' a)).2 = Ok m' /\
        csr_wf m' /\ pt_nrows (cs_pat m') = ca_sdim (ma_conn a) * n' /\
        (forall i c j d x, i < ca_nodes (ma_conn a) -> j < ca_nodes (ma_conn a) -> c < ca_sdim (ma_conn a) -> d < ca_sdim (ma_conn a) ->
           entry_is zero m (ca_sdim (ma_conn a) * i + c) (ca_sdim (ma_conn a) * j + d) x ->
           entry_is zero m' (ca_sdim (ma_conn a) * f i + c) (ca_sdim (ma_conn a) * f j + d) x) /\
        (forall p c q d, c < ca_sdim (ma_conn a) -> d < ca_sdim (ma_conn a) ->
           (forall i j, i < ca_nodes (ma_conn a) -> j < ca_nodes (ma_conn a) -> f i <> p \/ f j <> q) ->
           entry_is zero m' (ca_sdim (ma_conn a) * p + c) (ca_sdim (ma_conn a) * q + d) zero)
    | Err e => (assemble_csr add zero srt ord umax ws' (map_nodes_mat f n' a)).2 = Err e
    | Panic => (assemble_csr add zero srt ord umax ws' (map_nodes_mat f n' a)).2 = Panic
    end.
Proof.
  intros T E add zero srt ord umax f n' a ls vs ws ws' Ho Hsrt Hc Hr Hv Hs Hnd Hinj Hf.
  pose proof (assemble_csr_collect add zero srt ord umax ws a ls vs Ho Hsrt Hc Hr Hv Hs Hnd) as A1.
  pose proof (assemble_csr_collect add zero srt ord umax ws' (map_nodes_mat f n' a) (map (map f) ls) vs Ho Hsrt (has_conn_map f n' _ _ Hc)
    (range_map f _ n' ls Hr Hf) (has_mats_map f n' a ls vs Hv) Hs
    (nodup_map f _ ls Hr ltac:(intros ns x y Hns Hx Hy; apply Hinj; by apply (Hr ns)) Hnd)) as A2.
  cbn [ma_conn map_nodes_mat map_nodes_conn ca_sdim ca_nodes] in A2.
  destruct (collect vs) as [As|e|]; [|by rewrite A1|by rewrite A1].
  destruct A1 as (m & -> & Hw & _ & _ & H1). destruct A2 as (m' & -> & Hw' & _ & Hrows & H2). set (s := ca_sdim (ma_conn a)) in *. set (n := ca_nodes (ma_conn a)) in *.
  exists m'. split; [done|]. split; [done|]. split; [done|]. split.
  - intros i c j d x Hi Hj Hcs Hds He. rewrite (entry_unique zero m _ _ _ _ (proj1 Hw) He (H1 _ _)).
    rewrite <- (mat_contribs_inj f s ls As n i c j d Hcs Hds Hi Hj Hr Hinj). apply H2.
  - intros p c q d Hcs Hds Hno. pose proof (H2 (s * p + c) (s * q + d)) as He. rewrite mat_contribs_none in He; [done|].
    intros ns Hns Hp Hq. rewrite (proj1 (div_dof s p c Hcs)) in Hp. rewrite (proj1 (div_dof s q d Hds)) in Hq.
    apply elem_of_list_fmap in Hns as (ns' & -> & Hns). apply elem_of_list_fmap in Hp as (k & -> & Hk). apply elem_of_list_fmap in Hq as (k' & -> & Hk').
    destruct (Hno k k'); [by apply (Hr ns')|by apply (Hr ns')|done|done].
Qed.
Print Assumptions C101_relabel_matrix.

(** C101. Arbitrary relabelling for matrices (as long as no element meets a new node twice): entries with the same new labels
    are added together, P^T A P for the aggregation matrix P. *)
Theorem C101_merge_matrix :
  forall (T E : Type) (add : T -> T -> T) (zero : T) (srt : list nat -> list nat) (ord : nat -> list nat -> list nat) (umax : nat) (f : nat -> nat) (n' : nat)
         (a : @mat_asm T E) (ls : list (list nat)) (vs : list (outcome E (list (list T)))) (ws ws' : csr_ws) (m : csr T) (entries : nat -> nat -> T),
    (forall x y z, add x (add y z) = add (add x y) z) -> (forall x y, add x y = add y x) -> (forall x, add zero x = x) ->
    hash_order ord -> sorts_by_key srt ->
    has_conn (ma_conn a) ls -> nodes_in_range (ca_nodes (ma_conn a)) ls -> has_mats a ls vs -> 1 <= ca_sdim (ma_conn a) -> Forall NoDup ls ->
    (forall ns x y, ns ∈ ls -> x ∈ ns -> y ∈ ns -> f x = f y -> x = y) -> (forall i, i < ca_nodes (ma_conn a) -> f i < n') ->
    (assemble_csr add zero srt ord umax ws a).2 = Ok m -> (forall r c, entry_is zero m r c (entries r c)) ->
    exists m', (assemble_csr add zero srt ord umax ws' (map_nodes_mat f n' a)).2 = Ok m' /\ csr_wf m' /\
      pt_nrows (cs_pat m') = ca_sdim (ma_conn a) * n' /\
      forall p c q d, c < ca_sdim (ma_conn a) -> d < ca_sdim (ma_conn a) ->
        entry_is zero m' (ca_sdim (ma_conn a) * p + c) (ca_sdim (ma_conn a) * q + d)
          (foldl add zero (map (fun ij => entries (ca_sdim (ma_conn a) * ij.1 + c) (ca_sdim (ma_conn a) * ij.2 + d)) (fibre2 f (ca_nodes (ma_conn a)) p q))).
Proof.
  intros T E add zero srt ord umax f n' a ls vs ws ws' m entries Ha Hco H0 Ho Hsrt Hc Hr Hv Hs Hnd Hinj Hf Hm Hent.
  pose proof (assemble_csr_collect add zero srt ord umax ws a ls vs Ho Hsrt Hc Hr Hv Hs Hnd) as A1.
  pose proof (assemble_csr_collect add zero srt ord umax ws' (map_nodes_mat f n' a) (map (map f) ls) vs Ho Hsrt (has_conn_map f n' _ _ Hc)
    (range_map f _ n' ls Hr Hf) (has_mats_map f n' a ls vs Hv) Hs (nodup_map f _ ls Hr Hinj Hnd)) as A2.
  cbn [ma_conn map_nodes_mat map_nodes_conn ca_sdim ca_nodes] in A2.
  destruct (collect vs) as [As|e|]; [|by rewrite A1 in Hm|by rewrite A1 in Hm].
  destruct A1 as (m1 & E1 & Hw & _ & _ & H1). rewrite Hm in E1. injection E1 as <-.
  destruct A2 as (m' & -> & Hw' & _ & Hrows & H2). set (s := ca_sdim (ma_conn a)) in *. set (n := ca_nodes (ma_conn a)) in *.
  exists m'. split; [done|]. split; [done|]. split; [done|]. intros p c q d Hcs Hds. pose proof (H2 (s * p + c) (s * q + d)) as He.
  rewrite (foldl_add_perm add zero _ _ Ha Hco (mat_contribs_fibre f s ls As n p c q d Hcs Hds Hr)), (foldl_bind add zero Ha Hco H0) in He.
  rewrite (map_ext_in _ (fun ij => entries (s * ij.1 + c) (s * ij.2 + d))) in He; [done|].
  intros ij _. exact (entry_unique zero m _ _ _ _ (proj1 Hw) (H1 _ _) (Hent _ _)).
Qed.
Print Assumptions C101_merge_matrix.

(** ** Several bodies *)
Section Bodies.
  Context {T E : Type}.
  Lemma place_vec_facts s total (bodies : list (@vec_asm T E)) : Forall (vec_body s) bodies ->
    exists lss vss, Forall3 (fun a b vs => b.1 = ca_nodes (va_conn a) /\ has_conn (va_conn a) b.2 /\ nodes_in_range (ca_nodes (va_conn a)) b.2 /\ has_vecs a b.2 vs) bodies lss vss /\
      forall off, Forall3 (fun a ls vs => has_conn (va_conn a) ls /\ has_vecs a ls vs) (place_vec total off bodies) (place_lists off lss) vss /\
        Forall (fun a => ca_sdim (va_conn a) = s /\ 0 < ca_elems (va_conn a)) (place_vec total off bodies) /\
        Forall (fun a => asm_sdim a = s /\ asm_num_nodes a = total) (map vec_component (place_vec total off bodies)).
  Proof.
    induction 1 as [|a bodies (Hs & He & ls & vs & Hc & Hr & Hv) _ (lss & vss & H3 & IH)].
    - exists [], []. split; [constructor|]. intros off. repeat constructor.
    - exists ((ca_nodes (va_conn a), ls) :: lss), (vs :: vss). split; [constructor; done|]. intros off. destruct (IH (off + ca_nodes (va_conn a))) as (I1 & I2 & I3).
      cbn [place_vec place_lists map]. split; [|split].
      + constructor; [|done]. split; [by apply has_conn_map|by apply has_vecs_map].
      + constructor; [done|done].
      + constructor; [done|done].
  Qed.
  Lemma place_mat_facts s total (bodies : list (@mat_asm T E)) : Forall (mat_body s) bodies ->
    exists lss vss, Forall3 (fun a b vs => b.1 = ca_nodes (ma_conn a) /\ has_conn (ma_conn a) b.2 /\ nodes_in_range (ca_nodes (ma_conn a)) b.2 /\ Forall NoDup b.2 /\ has_mats a b.2 vs) bodies lss vss /\
      forall off, Forall3 (fun a ls vs => has_conn (ma_conn a) ls /\ has_mats a ls vs) (place_mat total off bodies) (place_lists off lss) vss /\
        Forall (fun a => ca_sdim (ma_conn a) = s /\ 0 < ca_elems (ma_conn a)) (place_mat total off bodies) /\
        Forall (fun a => asm_sdim a = s /\ asm_num_nodes a = total) (map mat_component (place_mat total off bodies)).
  Proof.
    induction 1 as [|a bodies (Hs & He & ls & vs & Hc & Hr & Hnd & Hv) _ (lss & vss & H3 & IH)].
    - exists [], []. split; [constructor|]. intros off. repeat constructor.
    - exists ((ca_nodes (ma_conn a), ls) :: lss), (vs :: vss). split; [constructor; done|]. intros off. destruct (IH (off + ca_nodes (ma_conn a))) as (I1 & I2 & I3).
      cbn [place_mat place_lists map]. split; [|split].
      + constructor; [|done]. split; [by apply has_conn_map|by apply has_mats_map].
      + constructor; [done|done].
      + constructor; [done|done].
  Qed.

  Lemma collect_concat {A} (vss : list (list (outcome E A))) : collect (concat vss) = let! gs := collect (map collect vss) in Ok (concat gs).
  Proof.
    induction vss as [|vs vss IH]; [done|]. cbn [concat map collect]. rewrite collect_app, IH. destruct (collect vs); cbn; [|done..]. by destruct (collect (map collect vss)).
  Qed.
End Bodies.

Lemma body_range {A : Type} (nn : A -> nat) bodies lss :
  Forall2 (fun a b => b.1 = nn a /\ nodes_in_range (nn a) b.2) bodies lss -> Forall (fun b => nodes_in_range b.1 b.2) lss /\ sum_list_with fst lss = sum_list_with nn bodies.
Proof.
  induction 1 as [|a b bodies lss [H1 H2] _ [I1 I2]]; [split; [constructor|done]|]. split; [constructor; [by rewrite H1|done]|]. cbn. by rewrite H1, I2.
Qed.

(** C101. Several bodies in one system: the assembled vector is the concatenation of the vectors of the bodies; when a body
    fails, the system fails like the first failing body. *)
Theorem C101_bodies_vector :
  forall (T E : Type) (add : T -> T -> T) (zero : T) (umax s : nat) (bs : list nat -> nat -> nat + nat) (bodies : list (@vec_asm T E)) (ws ws' : vec_ws),
    bsearch_contract bs -> bodies <> [] -> 0 < s -> Forall (vec_body s) bodies ->
    exists g, from_assemblers (map vec_component (place_vec (sum_list_with (fun a => ca_nodes (va_conn a)) bodies) 0 bodies)) = Ok g /\
      (assemble_vector add zero umax ws (agg_vec bs g)).2 =
        let! outs := collect (map (fun a => (assemble_vector add zero umax ws' a).2) bodies) in Ok (concat outs).
Proof.
  intros T E add zero umax s bs bodies ws ws' Hbs Hne Hs HB. set (N := sum_list_with (fun a => ca_nodes (va_conn a)) bodies).
  destruct (place_vec_facts s N bodies HB) as (lss & vss & H3 & HP). destruct (HP 0) as (P1 & P2 & P3).
  destruct (C32_construction _ (map vec_component (place_vec N 0 bodies))) as [HC1 [_ HC2]].
  destruct HC2 as [g Hg]. { split; [destruct bodies; done|]. by exists s, N. }
  exists g. split; [done|]. destruct (agg_vec_contract bs _ g _ _ s Hbs Hg P2 P1) as [Hc Hv].
  assert (Hsd : agg_sdim g = s /\ agg_num_nodes g = N).
  { destruct (HC1 g Hg) as [_ HF]. destruct bodies as [|b bodies]; [done|]. cbn [place_vec map] in HF, P3. apply Forall_inv in HF as [F1 F2]. apply Forall_inv in P3 as [Q1 Q2]. split; congruence. }
  destruct Hsd as [Hsd HN].
  assert (H2 : Forall2 (fun a b => b.1 = ca_nodes (va_conn a) /\ nodes_in_range (ca_nodes (va_conn a)) b.2) bodies lss).
  { clear -H3. induction H3 as [|a b vs bodies lss vss (? & ? & ? & ?) _ IH]; constructor; done. }
  destruct (body_range _ _ _ H2) as [HR HSum]. fold N in HSum.
  pose proof (assemble_vector_collect add zero umax (agg_vec bs g) _ (concat vss) ws Hc) as HA.
  cbn [va_conn agg_vec agg_conn ca_nodes ca_sdim] in HA. rewrite Hsd, HN in HA.
  assert (HRange : nodes_in_range N (concat (place_lists 0 lss))).
  { intros ns k Hns Hk. pose proof (place_range 0 lss HR ns k Hns Hk). lia. }
  specialize (HA HRange Hv). rewrite collect_concat in HA.
  assert (HBS : match collect (map collect vss) with
    | Ok gs => exists outs, collect (map (fun a => (assemble_vector add zero umax ws' a).2) bodies) = Ok outs /\
        Forall3 (fun b vs out => length vs = length b.2 /\ sums_to add s b.2 vs (replicate (s * b.1) zero) out) lss gs outs
    | Err e => collect (map (fun a => (assemble_vector add zero umax ws' a).2) bodies) = Err e
    | Panic => collect (map (fun a => (assemble_vector add zero umax ws' a).2) bodies) = Panic end).
  { clear -H3 HB. induction H3 as [|a b vs bodies lss vss (Hb & Hca & Hra & Hva) _ IH]; [exists []; split; [done|constructor]|].
    apply Forall_cons in HB as [(Hsa & _) HB]. specialize (IH HB). pose proof (assemble_vector_collect add zero umax a b.2 vs ws' Hca Hra Hva) as Ha. cbn [map collect].
    destruct (collect vs) as [good|e|] eqn:Ev; cbn [obind]; [|by rewrite Ha..]. destruct Ha as (out & -> & Hsum). cbn [obind]. destruct (collect (map collect vss)) as [gs|e|]; cbn [obind]; [|by rewrite IH..].
    destruct IH as (outs & -> & IH). exists (out :: outs). split; [done|]. constructor; [|done]. rewrite Hb. rewrite Hsa in Hsum. split; [|done].
    apply collect_ok_inv in Ev. destruct Hva as [Hl _]. by rewrite Ev, map_length in Hl. }
  destruct (collect (map collect vss)) as [gs|e|]; cbn [obind] in HA; [|by rewrite HA, HBS..].
  destruct HBS as (outs & -> & HF3). destruct HA as (out & -> & [HL HS]). cbn [obind]. f_equal.
  destruct (place_contribs add zero s 0 lss gs Hs HR outs HF3) as [PL PD]. rewrite replicate_length in HL.
  apply list_eq. intros d. destruct (decide (d < s * N)) as [Hd|Hd].
  - rewrite (HS d zero) by (by apply lookup_replicate_2). rewrite PD by lia. do 3 f_equal. lia.
  - rewrite !lookup_ge_None_2 by lia. done.
Qed.
Print Assumptions C101_bodies_vector.

(** C101. ... and the assembled matrix is block diagonal, with the matrices of the bodies as blocks. *)
Theorem C101_bodies_matrix :
  forall (T E : Type) (add : T -> T -> T) (zero : T) (srt : list nat -> list nat) (ord : nat -> list nat -> list nat) (umax s : nat)
         (bs : list nat -> nat -> nat + nat) (bodies : list (@mat_asm T E)) (ws ws' : csr_ws),
    hash_order ord -> sorts_by_key srt -> bsearch_contract bs -> bodies <> [] -> 0 < s -> Forall (mat_body s) bodies ->
    exists g, from_assemblers (map mat_component (place_mat (sum_list_with (fun a => ca_nodes (ma_conn a)) bodies) 0 bodies)) = Ok g /\
      match collect (map (fun a => (assemble_csr add zero srt ord umax ws' a).2) bodies) with
      | Ok ms => exists m, (assemble_csr add zero srt ord umax ws (agg_mat bs g)).2 = Ok m /\ csr_wf m /\
          pt_nrows (cs_pat m) = s * sum_list_with (fun a => ca_nodes (ma_conn a)) bodies /\
          forall k l a b mk i c j d x, bodies !! k = Some a -> bodies !! l = Some b -> ms !! k = Some mk ->
            i < ca_nodes (ma_conn a) -> j < ca_nodes (ma_conn b) -> c < s -> d < s ->
            (if decide (k = l) then entry_is zero mk (s * i + c) (s * j + d) x else x = zero) ->
            entry_is zero m (s * (sum_list_with (fun a => ca_nodes (ma_conn a)) (take k bodies) + i) + c)
                            (s * (sum_list_with (fun a => ca_nodes (ma_conn a)) (take l bodies) + j) + d) x
      | Err e => (assemble_csr add zero srt ord umax ws (agg_mat bs g)).2 = Err e
      | Panic => (assemble_csr add zero srt ord umax ws (agg_mat bs g)).2 = Panic
      end.
Proof.
  intros T E add zero srt ord umax s bs bodies ws ws' Ho Hsrt Hbs Hne Hs HB. set (N := sum_list_with (fun a => ca_nodes (ma_conn a)) bodies).
  destruct (place_mat_facts s N bodies HB) as (lss & vss & H3 & HP). destruct (HP 0) as (P1 & P2 & P3).
  destruct (C32_construction _ (map mat_component (place_mat N 0 bodies))) as [HC1 [_ HC2]].
  destruct HC2 as [g Hg]. { split; [destruct bodies; done|]. by exists s, N. }
  exists g. split; [done|]. destruct (agg_mat_contract bs _ g _ _ s Hbs Hg P2 P1) as [Hc Hv].
  assert (Hsd : agg_sdim g = s /\ agg_num_nodes g = N).
  { destruct (HC1 g Hg) as [_ HF]. destruct bodies as [|b bodies]; [done|]. cbn [place_mat map] in HF, P3. apply Forall_inv in HF as [F1 F2]. apply Forall_inv in P3 as [Q1 Q2]. split; congruence. }
  destruct Hsd as [Hsd HN].
  assert (H2 : Forall2 (fun a b => b.1 = ca_nodes (ma_conn a) /\ nodes_in_range (ca_nodes (ma_conn a)) b.2) bodies lss).
  { clear -H3. induction H3 as [|a b vs bodies lss vss (? & ? & ? & ? & ?) _ IH]; constructor; done. }
  destruct (body_range _ _ _ H2) as [HR HSum]. fold N in HSum.
  assert (HNd : Forall NoDup (concat (place_lists 0 lss))).
  { clear -H3. generalize 0. induction H3 as [|a [n ls] vs bodies lss vss (H1 & H2 & H4 & H5 & H6) _ IH]; intros off; [constructor|]. cbn [place_lists concat]. apply Forall_app. split; [|apply IH].
    cbn [fst snd] in *. apply (nodup_map _ _ ls H4); [intros; lia|done]. }
  pose proof (assemble_csr_collect add zero srt ord umax ws (agg_mat bs g) _ (concat vss) Ho Hsrt Hc) as HA.
  cbn [ma_conn agg_mat agg_conn ca_nodes ca_sdim] in HA. rewrite Hsd, HN in HA.
  assert (HRange : nodes_in_range N (concat (place_lists 0 lss))).
  { intros ns k Hns Hk. pose proof (place_range 0 lss HR ns k Hns Hk). lia. }
  specialize (HA HRange Hv Hs HNd). rewrite collect_concat in HA.
  assert (HBS : match collect (map collect vss) with
    | Ok Ass => exists ms, collect (map (fun a => (assemble_csr add zero srt ord umax ws' a).2) bodies) = Ok ms /\
        Forall3 (fun b As m => length As = length b.2 /\ csr_wf m /\ forall r c, entry_is zero m r c (foldl add zero (mat_contribs s b.2 As r c))) lss Ass ms
    | Err e => collect (map (fun a => (assemble_csr add zero srt ord umax ws' a).2) bodies) = Err e
    | Panic => collect (map (fun a => (assemble_csr add zero srt ord umax ws' a).2) bodies) = Panic end).
  { clear -H3 HB Ho Hsrt Hs. induction H3 as [|a b vs bodies lss vss (Hb & Hca & Hra & Hnd & Hva) _ IH]; [exists []; split; [done|constructor]|].
    apply Forall_cons in HB as [(Hsa & _) HB]. specialize (IH HB).
    pose proof (assemble_csr_collect add zero srt ord umax ws' a b.2 vs Ho Hsrt Hca Hra Hva ltac:(lia) Hnd) as Ha. cbn [map collect].
    destruct (collect vs) as [good|e|] eqn:Ev; cbn [obind]; [|by rewrite Ha..]. destruct Ha as (m & -> & Hw & Hlen & _ & Hent). cbn [obind]. destruct (collect (map collect vss)) as [gs|e|]; cbn [obind]; [|by rewrite IH..].
    destruct IH as (ms & -> & IH). exists (m :: ms). split; [done|]. constructor; [|done]. rewrite Hsa in Hent. done. }
  destruct (collect (map collect vss)) as [Ass|e|]; cbn [obind] in HA; [|by rewrite HBS..].
  destruct HBS as (ms & -> & HF3). destruct HA as (m & -> & Hw & _ & Hrows & Hent). exists m. split; [done|]. split; [done|]. split; [done|].
  intros k l a b mk i c j d x Hk Hl Hmk Hi Hj Hcs Hds Hx.
  destruct (Forall2_lookup_l _ _ _ _ _ H2 Hk) as ([n ls] & Hlk & Hn & _). destruct (Forall2_lookup_l _ _ _ _ _ H2 Hl) as ([n' ls'] & Hll & Hn' & _). cbn in Hn, Hn'. subst n n'.
  assert (HAs : exists As, Ass !! k = Some As /\ (length As = length ls /\ csr_wf mk /\ forall r c, entry_is zero mk r c (foldl add zero (mat_contribs s ls As r c)))).
  { clear -HF3 Hlk Hmk. revert k Hlk Hmk. induction HF3 as [|b0 As m0 lss Ass ms H0 _ IH]; intros k Hlk Hmk; [by rewrite lookup_nil in Hmk|].
    destruct k as [|k]; cbn in *; [|by apply IH]. injection Hlk as ->. injection Hmk as ->. exists As. done. }
  destruct HAs as (As & HAk & _ & Hwk & Hek).
  assert (HL2 : Forall2 (fun b (As : list (list (list T))) => length As = length b.2) lss Ass).
  { clear -HF3. induction HF3 as [|b0 As m0 lss Ass ms (H0 & _) _ IH]; constructor; done. }
  pose proof (place_mat_contribs s lss Hs HR Ass 0 k l _ ls As _ ls' i c j d HL2 Hlk HAk Hll Hi Hj Hcs Hds) as HMC. cbn [Nat.add] in HMC.
  assert (TK : forall q, sum_list_with fst (take q lss) = sum_list_with (fun a => ca_nodes (ma_conn a)) (take q bodies)).
  { intros q. assert (H2q := Forall2_take _ _ _ q H2). by destruct (body_range _ _ _ H2q). }
  rewrite !TK in HMC. pose proof (Hent (s * (sum_list_with (fun a => ca_nodes (ma_conn a)) (take k bodies) + i) + c) (s * (sum_list_with (fun a => ca_nodes (ma_conn a)) (take l bodies) + j) + d)) as He.
  rewrite HMC in He. destruct (decide (k = l)).
  - by rewrite (entry_unique zero mk _ _ _ _ (proj1 Hwk) Hx (Hek _ _)).
  - by subst x.
Qed.
Print Assumptions C101_bodies_matrix.

(** ** Labels out of range *)
Lemma vector_loop_in_range {T E} (add : T -> T -> T) (zero : T) umax (a : @vec_asm T E) ls vals :
  has_conn (va_conn a) ls -> has_vecs a ls (map Ok vals) -> 0 < ca_sdim (va_conn a) ->
  forall m k ws out, k + m = length ls -> length out = ca_sdim (va_conn a) * ca_nodes (va_conn a) ->
  (vector_loop add zero umax a ws out (seq k m)).2 = Panic \/
  ((vector_loop add zero umax a ws out (seq k m)).2 = Ok tt /\ nodes_in_range (ca_nodes (va_conn a)) (drop k ls)).
Proof.
  intros [Hcl Hc] [Hvl Hv] Hs. induction m as [|m IH]; intros k ws out Hk Hout; cbn [seq vector_loop].
  - right. split; [done|]. rewrite drop_ge by lia. intros ns x Hns. by apply elem_of_nil in Hns.
  - destruct (lookup_lt_is_Some_2 ls k) as [ns Hns]; [lia|]. rewrite map_length in Hvl.
    destruct (lookup_lt_is_Some_2 vals k) as [v Hvk]; [lia|].
    destruct (Hc k ns Hns) as [Hcount Hpop]. pose proof (Hv k ns (Ok v) Hns ltac:(by rewrite list_lookup_fmap, Hvk)) as Hy.
    destruct (prepare_spec zero umax a ws k ns _ Hcount Hpop Hy) as [Hp1 Hp2].
    destruct (prepare_element zero umax a ws k) as [ws1 r1] eqn:Eprep. cbn in Hp1, Hp2. subst r1. rewrite Hp2, add_local_to_global_spec.
    destruct (decide _) as [[_ HF]|_]; [|by left].
    destruct (IH (S k) ws1 (foldl (upd add) out (scatter_updates (ca_sdim (va_conn a)) 0 ns v)) ltac:(lia) ltac:(by rewrite upds_length)) as [H|[H1 H2]]; [by left|right].
    split; [done|]. rewrite (drop_S ls _ k Hns). intros ns' x Hin Hx. apply elem_of_cons in Hin as [->|Hin]; [|by apply (H2 ns')].
    rewrite Forall_forall in HF. specialize (HF x Hx). rewrite Hout in HF. nia.
Qed.

(** C101. A relabelling that sends a node of some element outside the declared range makes the assembly panic. *)
Theorem C101_out_of_range :
  forall (T E : Type) (add : T -> T -> T) (zero : T) (umax : nat) (f : nat -> nat) (n' : nat)
         (a : @vec_asm T E) (ls : list (list nat)) (vals : list (list T)) (ws : vec_ws) (ns : list nat) (k : nat),
    has_conn (va_conn a) ls -> has_vecs a ls (map Ok vals) -> 0 < ca_sdim (va_conn a) ->
    ns ∈ ls -> k ∈ ns -> n' <= f k ->
    (assemble_vector add zero umax ws (map_nodes_vec f n' a)).2 = Panic.
Proof.
  intros T E add zero umax f n' a ls vals ws ns k Hc Hv Hs Hns Hk Hf. unfold assemble_vector, assemble_vector_into. cbn [va_conn map_nodes_vec map_nodes_conn ca_sdim ca_nodes ca_elems].
  rewrite decide_True by apply replicate_length. rewrite <- (proj1 Hc).
  pose proof (vector_loop_in_range add zero umax (map_nodes_vec f n' a) (map (map f) ls) vals (has_conn_map f n' _ _ Hc) (has_vecs_map f n' a ls _ Hv) Hs (length ls) 0 ws
    (replicate (ca_sdim (va_conn a) * n') zero) ltac:(by rewrite map_length) ltac:(by rewrite replicate_length)) as H.
  destruct (vector_loop _ _ _ _ _ _ _) as [[ws' out] r]. cbn in *. destruct H as [->|[_ H]]; [done|]. exfalso. rewrite drop_0 in H.
  assert (f k < n'); [|lia]. apply (H (map f ns)); by apply elem_of_list_fmap; eexists.
Qed.
Print Assumptions C101_out_of_range.

(** ** Examples *)
Definition ex_body2 : @vec_asm Z nat := table_vec 2 2 [[1; 0]] [Ok [7; 8; 9; 10]%Z].
Definition ex_bodies : list (@vec_asm Z nat) := [table_vec 2 3 ex_ls ex_vs; ex_body2].
Definition ex_mbody2 : @mat_asm Z nat := table_mat 1 2 [[1; 0]] [Ok [[7; 8]; [9; 10]]%Z].
Definition ex_mbodies : list (@mat_asm Z nat) := [table_mat 1 3 ex_mls ex_mvs; ex_mbody2].

Example C101_example_bodies :
  bsearch_contract probe_bsearch /\
  Forall (vec_body 2) ex_bodies /\ Forall (mat_body 1) ex_mbodies /\
  (exists g, from_assemblers (map vec_component (place_vec 5 0 ex_bodies)) = Ok g /\
    (assemble_vector Z.add 0%Z 9 (VecWs [] []) (agg_vec probe_bsearch g)).2 = Ok [1; 2; 30; 34; 5; 6; 9; 10; 7; 8]%Z) /\
  (exists g, from_assemblers (map mat_component (place_mat 5 0 ex_mbodies)) = Ok g /\
    (assemble_csr Z.add 0%Z key_sort rev_order 9 (CsrWs [] []) (agg_mat probe_bsearch g)).2 =
      Ok (Csr (Pattern [0; 2; 4; 7; 9; 11] [0; 2; 1; 2; 0; 1; 2; 3; 4; 3; 4] 5) [3; 2; 10; 20; 2; 20; 31; 10; 9; 8; 7]%Z)).
Proof.
  split; [apply probe_bsearch_contract|]. split; [|split].
  - constructor; [|constructor; [|constructor]]; (split; [reflexivity|]; split; [cbn; lia|]).
    + exists ex_ls, ex_vs. split; [apply table_has_conn|]. split; [exact ex_in_range|exact ex_has_vecs].
    + exists [[1; 0]], [Ok [7; 8; 9; 10]%Z]. split; [apply table_has_conn|]. split.
      * intros ns k Hns Hk. apply elem_of_list_singleton in Hns as ->. repeat (apply elem_of_cons in Hk as [->|Hk]; [cbn; lia|]). by apply elem_of_nil in Hk.
      * split; [done|]. intros i ns v Hi Hv. destruct i; cbn in *; simplify_eq. split; [done|]. intros x [= <-]. done.
  - constructor; [|constructor; [|constructor]]; (split; [reflexivity|]; split; [cbn; lia|]).
    + exists ex_mls, ex_mvs. split; [apply table_has_conn|]. split; [exact ex_mls_range|]. split; [exact ex_mls_nodup|exact ex_has_mats].
    + exists [[1; 0]], [Ok [[7; 8]; [9; 10]]%Z]. split; [apply table_has_conn|]. split; [|split].
      * intros ns k Hns Hk. apply elem_of_list_singleton in Hns as ->. repeat (apply elem_of_cons in Hk as [->|Hk]; [cbn; lia|]). by apply elem_of_nil in Hk.
      * constructor; [|constructor]. apply (bool_decide_unpack _). vm_compute. done.
      * split; [done|]. intros i ns v Hi Hv. destruct i; cbn in *; simplify_eq. split; [done|]. intros x [= <-]. split; [done|repeat constructor].
  - split; eexists; (split; [reflexivity|]); vm_compute; reflexivity.
Qed.

(** Nodes 0 and 2 merged into one, and a transformation that fails on some element. *)
Definition merge02 (i : nat) : nat := if decide (i = 2) then 0 else i.
Definition no_nine (v : list Z) : outcome nat (list Z) := if decide (9%Z ∈ v) then Err 4 else Ok (map (Z.mul 3) v).

Example C101_example_merge :
  (assemble_vector Z.add 0%Z 9 (VecWs [] []) (table_vec 2 3 ex_ls ex_vs)).2 = Ok [1; 2; 30; 34; 5; 6]%Z /\
  (assemble_vector Z.add 0%Z 9 (VecWs [] []) (map_nodes_vec merge02 2 (table_vec 2 3 ex_ls ex_vs))).2 = Ok [6; 8; 30; 34]%Z /\
  fibre merge02 3 0 = [0; 2] /\
  (assemble_vector Z.add 0%Z 9 (VecWs [] []) (map_nodes_vec S 3 (table_vec 2 3 ex_ls ex_vs))).2 = Panic /\
  (forall v w, no_nine v = Ok w -> length w = length v) /\
  (assemble_vector_into Z.add 0%Z 9 (VecWs [] []) [0; 0; 0; 0; 0; 0]%Z (transform_vec no_nine (table_vec 2 3 ex_ls ex_vs))).1.2 = [3; 6; 30; 36; 15; 18]%Z /\
  (assemble_vector_into Z.add 0%Z 9 (VecWs [] []) [0; 0; 0; 0; 0; 0]%Z (transform_vec no_nine (table_vec 2 3 ex_ls ex_vs))).2 = Err 4.
Proof.
  split; [vm_compute; reflexivity|]. split; [vm_compute; reflexivity|]. split; [reflexivity|]. split; [vm_compute; reflexivity|].
  split; [|split; vm_compute; reflexivity]. intros v w. unfold no_nine. case_decide; intros [= <-]. by rewrite map_length.
Qed.

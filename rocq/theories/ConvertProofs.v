From stdpp Require Import base list list_numbers sorting sets.
From Coq Require Import Reals Lia Lra.
From Verif Require Import Prelude ReorderModel MeshModel MeshSpec MeshProofs ParadisProofs ElementModel ConvertModel FacesSpec ConvertSpec.

Lemma fold_inv {A S} (f : S -> A -> option S) (P : S -> list A -> Prop) (s0 : S) (l : list A) :
  P s0 [] -> (forall s pre x, x ∈ l -> P s pre -> exists s', f s x = Some s' /\ P s' (pre ++ [x])) ->
  exists s', foldl (fun s x => s ← s; f s x) (Some s0) l = Some s' /\ P s' l.
Proof.
  induction l as [|x l IH] using rev_ind; intros H0 Hs; [by exists s0|].
  destruct IH as (s' & E & HP). { done. } { intros s pre y Hy. apply Hs. set_solver. }
  rewrite foldl_app, E. cbn. destruct (Hs s' l x) as (s'' & E' & HP'); [set_solver|done|]. eauto.
Qed.

Section Intern.
  Context {L K : Type} (eqb : L -> L -> bool) (canon : L -> K).
  Hypothesis Heqb : forall a b, Is_true (eqb a b) <-> canon a = canon b.

  Lemma hm_get_none (ls : list L) (l : L) : hm_get eqb (imap (fun i l => (l, i)) ls) l = None <-> canon l ∉ canon <$> ls.
  Proof using Heqb.
    unfold hm_get. destruct (list_find _ _) as [[j [l' i]]|] eqn:E; cbn.
    - split; [done|]. intros H. destruct H. apply list_find_Some in E as (E & HI & _). cbn in HI. apply Heqb in HI.
      rewrite list_lookup_imap in E. destruct (ls !! j) eqn:Ej; [|done]. simplify_eq/=. rewrite <- HI.
      apply elem_of_list_fmap_1. exact (elem_of_list_lookup_2 _ _ _ Ej).
    - split; [|done]. intros _ Hin. apply list_find_None in E. apply elem_of_list_fmap in Hin as (l' & Hc & Hl').
      apply elem_of_list_lookup in Hl' as [i Hi]. rewrite Forall_lookup in E.
      apply (E i (l', i)). { rewrite list_lookup_imap, Hi. done. } apply Heqb. by symmetry.
  Qed.

  Lemma hm_get_some (ls : list L) (l : L) i : hm_get eqb (imap (fun i l => (l, i)) ls) l = Some i -> (canon <$> ls) !! i = Some (canon l).
  Proof using Heqb.
    unfold hm_get. destruct (list_find _ _) as [[j [l' i']]|] eqn:E; cbn; [|done]. intros [= ->].
    apply list_find_Some in E as (E & HI & _). cbn in HI. apply Heqb in HI.
    rewrite list_lookup_imap in E. destruct (ls !! j) eqn:Ej; [|done]. simplify_eq/=. rewrite list_lookup_fmap, Ej. cbn. by rewrite HI.
  Qed.

  Lemma imap_snoc (ls : list L) l : imap (fun i l => (l, i)) (ls ++ [l]) = imap (fun i l => (l, i)) ls ++ [(l, length ls)].
  Proof. rewrite imap_app. cbn. by rewrite Nat.add_0_r. Qed.

  Lemma canon_snoc (ls : list L) l : NoDup (canon <$> ls) -> canon l ∉ canon <$> ls -> NoDup (canon <$> (ls ++ [l])).
  Proof. intros H1 H2. rewrite fmap_app. apply NoDup_app. cbn. split; [done|]. split; [|apply NoDup_singleton]. set_solver. Qed.

  (** [names ls idxs labels]: every index points to (the canonical form of) its label *)
  Definition names (ls : list L) (idxs : list nat) (labels : list L) : Prop :=
    Forall2 (fun i l => (canon <$> ls) !! i = Some (canon l)) idxs labels.

  Lemma names_mono ls ls' idxs labels : ls `prefix_of` ls' -> names ls idxs labels -> names ls' idxs labels.
  Proof. intros [k ->] HF. apply (list.Forall2_impl _ _ _ _ HF). intros i l H. rewrite fmap_app. by apply lookup_app_l_Some. Qed.
End Intern.

Section RefineMesh.
  Context {L K : Type} (sc : scheme L) (canon : L -> K).
  Hypothesis Heqb : forall a b, Is_true (sc_eqb sc a b) <-> canon a = canon b.

  Definition st_ok (st : list (L * nat) * nat) (ls : list L) : Prop :=
    st = (imap (fun i l => (l, i)) ls, length ls) /\ NoDup (canon <$> ls).

  Lemma label_index_spec st ls l : st_ok st ls -> exists ls', st_ok (label_index sc st l).1 ls' /\ ls `prefix_of` ls' /\
    (canon <$> ls') !! (label_index sc st l).2 = Some (canon l) /\ forall x, x ∈ ls' -> x ∈ ls \/ x = l.
  Proof using Heqb.
    intros [-> Hnd]. unfold label_index. cbn [fst snd].
    destruct (hm_get _ _ _) as [i|] eqn:E.
    - exists ls. cbn. split_and!; [done|reflexivity| |by left]. by apply (hm_get_some _ canon Heqb) in E.
    - exists (ls ++ [l]). cbn [fst snd]. apply (hm_get_none _ canon Heqb) in E. split_and!.
      + split; [|by apply (canon_snoc (sc_eqb sc))]. rewrite imap_snoc, app_length. done.
      + by eexists.
      + rewrite fmap_app, lookup_app_r by by rewrite fmap_length. rewrite fmap_length, Nat.sub_diag. done.
      + set_solver.
  Qed.

  Lemma label_indices_spec st ls labels : st_ok st ls -> exists ls', st_ok (label_indices sc st labels).1 ls' /\ ls `prefix_of` ls' /\
    names canon ls' (label_indices sc st labels).2 labels /\ forall x, x ∈ ls' -> x ∈ ls \/ x ∈ labels.
  Proof using Heqb.
    intros Hst. unfold label_indices. induction labels as [|l labels IH] using rev_ind.
    - exists ls. cbn. split_and!; [done|reflexivity|constructor|by left].
    - destruct IH as (ls1 & H1 & P1 & N1 & E1). rewrite foldl_app. cbn [foldl].
      destruct (label_index_spec _ _ l H1) as (ls2 & H2 & P2 & N2 & E2). exists ls2. cbn [fst snd]. split_and!.
      + done.
      + by etrans.
      + apply Forall2_app; [|by repeat constructor]. by apply (names_mono canon ls1).
      + set_solver.
  Qed.

  (** all intermediates of a list of cells *)
  Definition kids (cells : list (list nat)) : list (list L) := concat (map (fun c => default [] (sc_refine sc c)) cells).

  Definition refine_inv (st : (list (L * nat) * nat) * list (list nat)) (done : list (list L)) : Prop :=
    exists ls, st_ok st.1 ls /\ Forall2 (names canon ls) st.2 done /\ forall x, x ∈ ls -> x ∈ concat done.

  Definition good (cell : list nat) : Prop := exists ims, sc_refine sc cell = Some ims /\
    Forall (fun im => forall idxs : list nat, length idxs = length im -> sc_construct sc idxs = Some idxs) ims.

  Lemma refine_cell_spec st done cell : good cell -> refine_inv st done ->
    exists st', refine_cell sc st cell = Some st' /\ refine_inv st' (done ++ kids [cell]).
  Proof using Heqb.
    intros (ims & Hims & Hgood) Hinv. unfold refine_cell. rewrite Hims. cbn [mbind option_bind].
    unfold kids. cbn. rewrite Hims, app_nil_r. cbn [default].
    apply (fold_inv (fun st0 im => let r := label_indices sc st0.1 im in c ← sc_construct sc r.2; Some (r.1, st0.2 ++ [c]))
      (fun st0 pre => refine_inv st0 (done ++ pre))); [by rewrite app_nil_r|].
    intros s pre im Him (ls & Hls & Hc & Hx).
    destruct (label_indices_spec _ _ im Hls) as (ls' & H1 & P1 & N1 & E1). cbn zeta.
    rewrite Forall_forall in Hgood. rewrite (Hgood im Him) by by apply Forall2_length in N1. cbn.
    eexists; split; [done|]. exists ls'. cbn. split_and!.
    - done.
    - rewrite app_assoc. apply Forall2_app; [|by constructor].
      apply (list.Forall2_impl _ _ _ _ Hc). intros i l. by apply names_mono.
    - intros x Hx'. rewrite app_assoc, concat_app. apply elem_of_app. apply E1 in Hx' as [Hx'|Hx'].
      + left. by apply Hx.
      + right. cbn. by rewrite app_nil_r.
  Qed.

  Lemma refine_cells_spec cells : Forall good cells -> exists st,
    foldl (fun s cell => st ← s; refine_cell sc st cell) (Some (([], 0), [])) cells = Some st /\ refine_inv st (kids cells).
  Proof using Heqb.
    intros Hg.
    apply (fold_inv (refine_cell sc) (fun st pre => refine_inv st (kids pre))).
    - exists []. cbn. split_and!; [split; [done|constructor]|constructor|set_solver].
    - intros s pre x Hx Hinv. rewrite Forall_forall in Hg.
      destruct (refine_cell_spec s (kids pre) x (Hg x Hx) Hinv) as (st' & E & HI). exists st'. split; [done|].
      unfold kids in *. rewrite map_app, concat_app. done.
  Qed.

  Lemma write_spec (vs0 : list point) (es : list (L * nat)) n :
    NoDup (snd <$> es) -> Forall (fun e => e.2 < n /\ is_Some (sc_vertex sc vs0 e.1)) es -> exists vs,
      foldl (fun (vs : option (list point)) (e : L * nat) =>
        vs ← vs; v ← sc_vertex sc vs0 e.1;
        if decide (e.2 < length vs) then Some (<[e.2 := v]> vs) else None) (Some (replicate n (fun _ => 0%R))) es = Some vs /\
      length vs = n /\ forall e, e ∈ es -> vs !! e.2 = sc_vertex sc vs0 e.1.
  Proof.
    intros Hnd Hall.
    induction es as [|e es IH] using rev_ind.
    - exists (replicate n (fun _ => 0%R)). split_and!; [done|by rewrite replicate_length|set_solver].
    - rewrite fmap_app in Hnd. apply NoDup_app in Hnd as (Hnd & Hni & _). apply Forall_app in Hall as [Hall He].
      destruct IH as (vs & E & Hl & Hv); [done|done|]. rewrite foldl_app, E. cbn.
      rewrite Forall_singleton in He. destruct He as [Hlt [v Hsv]]. rewrite Hsv. cbn. rewrite decide_True by lia.
      eexists; split; [done|]. split; [by rewrite insert_length|]. intros e' He'. apply elem_of_app in He' as [He'|He'].
      + rewrite list_lookup_insert_ne; [by apply Hv|]. intros Heq. apply (Hni e'.2). { by apply elem_of_list_fmap_1. } cbn. set_solver.
      + apply elem_of_list_singleton in He' as ->. rewrite list_lookup_insert by lia. done.
  Qed.

  Lemma refine_mesh_spec (ord : list (L * nat) -> list (L * nat)) (m : mesh point) :
    (forall l, ord l ≡ₚ l) -> Forall good (ms_cells m) ->
    (forall l, l ∈ concat (kids (ms_cells m)) -> is_Some (sc_vertex sc (ms_vertices m) l)) ->
    exists m' ls, refine_mesh sc ord m = Some m' /\ NoDup (canon <$> ls) /\ length (ms_vertices m') = length ls /\
      Forall2 (names canon ls) (ms_cells m') (kids (ms_cells m)) /\
      (forall x, x ∈ ls -> x ∈ concat (kids (ms_cells m))) /\
      (forall i l, ls !! i = Some l -> ms_vertices m' !! i = sc_vertex sc (ms_vertices m) l).
  Proof using Heqb.
    intros Hord Hg Hv. destruct (refine_cells_spec _ Hg) as (st & E & ls & [Hst Hnd] & Hc & Hx).
    unfold refine_mesh. rewrite E. cbn [mbind option_bind]. rewrite Hst. cbn [fst snd].
    destruct (write_spec (ms_vertices m) (ord (imap (fun i l => (l, i)) ls)) (length ls)) as (vs & Ew & Hl & Hw).
    - rewrite (Hord _). assert (snd <$> imap (fun i l => (l, i)) ls = seq 0 (length ls)) as ->.
      { apply list_eq. intros i. rewrite list_lookup_fmap, list_lookup_imap. destruct (decide (i < length ls)).
        - destruct (lookup_lt_is_Some_2 ls i) as [x0 ->]; [done|]. cbn. by rewrite lookup_seq_lt.
        - rewrite (lookup_ge_None_2 ls) by lia. cbn. by rewrite lookup_seq_ge by lia. }
      apply NoDup_seq.
    - rewrite (Hord _). apply Forall_lookup. intros i [l j]. rewrite list_lookup_imap. destruct (ls !! i) eqn:Ei; [|done].
      cbn. intros [= -> ->]. split; [by apply lookup_lt_Some in Ei|]. apply Hv, Hx. exact (elem_of_list_lookup_2 _ _ _ Ei).
    - rewrite Ew. cbn. eexists _, ls. split; [done|]. cbn. split_and!; [done|done|done|done|].
      intros i l Hi. apply (Hw (l, i)). rewrite (Hord _). apply elem_of_list_lookup. exists i. rewrite list_lookup_imap, Hi. done.
  Qed.
End RefineMesh.

Section FromTemp.
  Context (refine : list point -> list nat -> option refined) (vs : list point) (nodes : list nat -> list (point * list nat)).

  Definition node_key (node : point * list nat) : nat * list nat := (0, sort_nat node.2).
  Definition key_names (ls : list (nat * list nat)) (out : list nat) (ns : list (point * list nat)) : Prop :=
    Forall2 (fun j node => ls !! j = Some (node_key node)) out ns.

  Lemma key_names_mono ls ls' out ns : ls `prefix_of` ls' -> key_names ls out ns -> key_names ls' out ns.
  Proof. intros [k ->] HF. apply (list.Forall2_impl _ _ _ _ HF). intros i l H. by apply lookup_app_l_Some. Qed.

  Definition im_ok (A : list (point * list nat)) (im : refined) : Prop :=
    im = Refined [] (map fst A) (map (fun _ => 0) A) (map (fun nd => sort_nat nd.2) A).

  Lemma phase1 cells : (forall c, c ∈ cells -> refine vs c = Some (refined_of (nodes c))) -> exists im conns,
    foldl (fun s cell => s ← s; intermediate_cell refine vs s cell) (Some (Refined [] [] [] [], [])) cells = Some (im, conns) /\
    im_ok (concat (map nodes cells)) im /\
    Forall2 (fun conn cell => Forall2 (fun i nd => concat (map nodes cells) !! i = Some nd) conn (nodes cell)) conns cells.
  Proof.
    intros Hr.
    destruct (fold_inv (intermediate_cell refine vs) (fun st pre => im_ok (concat (map nodes pre)) st.1 /\
      Forall2 (fun conn cell => Forall2 (fun i nd => concat (map nodes pre) !! i = Some nd) conn (nodes cell)) st.2 pre)
      (Refined [] [] [] [], []) cells) as ([im conns] & E & H1 & H2).
    - cbn. split; [done|constructor].
    - intros [im conns] pre c Hc [Him HF]. unfold intermediate_cell. rewrite (Hr c Hc). cbn -[seq].
      rewrite decide_True by (rewrite !map_length; done). eexists; split; [done|]. cbn -[seq]. unfold im_ok in *. cbn in Him. subst im.
      rewrite map_app, concat_app. cbn -[seq]. rewrite app_nil_r. split.
      + unfold im_ok. rewrite !map_app, map_map. done.
      + apply Forall2_app.
        * apply (list.Forall2_impl _ _ _ _ HF). intros conn cell HF'. apply (list.Forall2_impl _ _ _ _ HF').
          intros i nd Hi. by apply lookup_app_l_Some.
        * constructor; [|constructor]. apply Forall2_same_length_lookup_2.
          { by rewrite map_length, seq_length. }
          intros i x nd Hx Hnd. rewrite list_lookup_fmap in Hx. pose proof (lookup_lt_Some _ _ _ Hnd).
          rewrite lookup_seq_lt in Hx by done. cbn in Hx. injection Hx as <-. rewrite map_length, lookup_app_r by lia.
          by replace (i + _ - _) with i by lia.
    - exists im, conns. done.
  Qed.

  Definition fin_ok (A : list (point * list nat)) (st : (list ((nat * list nat) * nat) * nat) * list point) (ls : list (nat * list nat)) : Prop :=
    st.1 = (imap (fun i l => (l, i)) ls, length ls) /\ NoDup ls /\
    Forall2 (fun v key => exists nd, nd ∈ A /\ nd.1 = v /\ key = node_key nd) st.2 ls.

  Lemma key_eqb_spec k1 k2 : Is_true (key_eqb k1 k2) <-> Datatypes.id k1 = Datatypes.id k2.
  Proof. unfold key_eqb. apply bool_decide_spec. Qed.

  Lemma final_index_spec A im st ls i nd : im_ok A im -> fin_ok A st ls -> A !! i = Some nd -> exists st' j ls',
    final_index im st i = Some (st', j) /\ fin_ok A st' ls' /\ ls `prefix_of` ls' /\ ls' !! j = Some (node_key nd) /\
    (forall x, x ∈ ls' -> x ∈ ls \/ x = node_key nd).
  Proof.
    intros -> (H1 & H2 & H3) Hi. unfold final_index. cbn [rf_parents rf_child rf_vertices]. rewrite !list_lookup_fmap, Hi. cbn.
    rewrite H1. cbn [fst snd]. destruct (hm_get _ _ _) as [j|] eqn:E.
    - apply (hm_get_some _ Datatypes.id key_eqb_spec) in E. rewrite list_fmap_id in E.
      exists st, j, ls. split_and!; [done|by split|reflexivity|done|by left].
    - apply (hm_get_none _ Datatypes.id key_eqb_spec) in E. rewrite list_fmap_id in E.
      eexists _, _, (ls ++ [node_key nd]). split_and!; [done| |by eexists| |].
      + split; [|split].
        * cbn. rewrite imap_snoc, app_length. done.
        * apply NoDup_app. split; [done|]. split; [|apply NoDup_singleton]. intros x Hx Hx'%elem_of_list_singleton. subst x. by apply E.
        * cbn. apply Forall2_app; [done|]. constructor; [|constructor]. exists nd. split_and!; [|done|done].
          exact (elem_of_list_lookup_2 _ _ _ Hi).
      + rewrite lookup_app_r by done. by rewrite Nat.sub_diag.
      + set_solver.
  Qed.

  Lemma final_cell_spec A im st ls conn ns : im_ok A im -> fin_ok A st ls -> Forall2 (fun i nd => A !! i = Some nd) conn ns ->
    exists st' out ls', final_cell im st conn = Some (st', out) /\ fin_ok A st' ls' /\ ls `prefix_of` ls' /\ key_names ls' out ns /\
    (forall x, x ∈ ls' -> x ∈ ls \/ x ∈ map node_key ns).
  Proof.
    intros Him Hst. revert ns. induction conn as [|i conn IH] using rev_ind; intros ns HF.
    - apply Forall2_nil_inv_l in HF as ->. exists st, [], ls. split_and!; [done|done|reflexivity|constructor|by left].
    - apply Forall2_app_inv_l in HF as (ns1 & ns2 & HF1 & HF2 & ->). inversion HF2 as [|? nd ? ? Hi HF3]; subst.
      apply Forall2_nil_inv_l in HF3 as ->. destruct (IH ns1 HF1) as (st1 & out1 & ls1 & E1 & F1 & P1 & N1 & X1).
      destruct (final_index_spec A im st1 ls1 i nd Him F1 Hi) as (st2 & j & ls2 & E2 & F2 & P2 & N2 & X2).
      exists st2, (out1 ++ [j]), ls2. unfold final_cell in *. rewrite foldl_app, E1. cbn. rewrite E2. cbn.
      split_and!; [done|done|by etrans| |].
      + apply Forall2_app; [by apply (key_names_mono ls1)|by repeat constructor].
      + intros x Hx. rewrite map_app, elem_of_app. apply X2 in Hx as [Hx| ->]; [apply X1 in Hx; tauto|]. right; right. cbn. set_solver.
  Qed.

  Lemma from_temp_spec cells : (forall c, c ∈ cells -> refine vs c = Some (refined_of (nodes c))) -> exists m' ls,
    from_temp refine (Mesh vs cells) = Some m' /\ NoDup ls /\
    Forall2 (fun v key => exists nd, nd ∈ concat (map nodes cells) /\ nd.1 = v /\ key = node_key nd) (ms_vertices m') ls /\
    Forall2 (fun cell' cell => key_names ls cell' (nodes cell)) (ms_cells m') cells.
  Proof.
    intros Hr. destruct (phase1 cells Hr) as (im & conns & E1 & Him & Hc). unfold from_temp. cbn [ms_vertices ms_cells]. rewrite E1.
    cbn [mbind option_bind fst snd]. set (A := concat (map nodes cells)) in *.
    assert (exists ss ls, foldl (fun (s : option (((list ((nat * list nat) * nat) * nat) * list point) * list (list nat))) conn =>
      s ← s; r ← final_cell im s.1 conn; Some (r.1, s.2 ++ [r.2])) (Some ((([], 0), []), [])) conns = Some ss /\
      fin_ok A ss.1 ls /\ Forall2 (fun cell' cell => key_names ls cell' (nodes cell)) ss.2 cells) as (ss & ls & E & HF & Hk).
    { clear E1 Hr. clearbody A. revert cells Hc. induction conns as [|conn conns IH] using rev_ind; intros cells Hc.
      - apply Forall2_nil_inv_l in Hc as ->. eexists _, []. split; [done|]. split; [|constructor]. split_and!; constructor.
      - apply Forall2_app_inv_l in Hc as (cs1 & cs2 & HF1 & HF2 & ->). inversion HF2 as [|? cell ? ? Hi HF3]; subst.
        apply Forall2_nil_inv_l in HF3 as ->. destruct (IH cs1 HF1) as (ss & ls & E & HF & Hk).
        destruct (final_cell_spec A im ss.1 ls conn (nodes cell) Him HF Hi) as (st' & out & ls' & E' & F' & P' & N' & X').
        exists (st', ss.2 ++ [out]), ls'. rewrite foldl_app, E. cbn. rewrite E'. cbn. split_and!; [done|done|].
        apply Forall2_app; [|by repeat constructor]. apply (list.Forall2_impl _ _ _ _ Hk). intros x y. by apply key_names_mono. }
    rewrite E. cbn. exists (Mesh ss.1.2 ss.2), ls. destruct HF as (? & ? & ?). done.
  Qed.
End FromTemp.

Lemma node_key_iff (nd nd' : point * list nat) : node_key nd = node_key nd' <-> nd.2 ≡ₚ nd'.2.
Proof. unfold node_key. rewrite <- sort_nat_eq. split; congruence. Qed.

Lemma mean_perm (l l' : list R) : l ≡ₚ l' -> mean l = mean l'.
Proof.
  intros HP. unfold mean. rewrite (Permutation_length HP). f_equal.
  induction HP; cbn; [done|by rewrite IHHP|lra|congruence].
Qed.

Lemma coord_lookup (vs : list point) v (p : point) d : vs !! v = Some p -> coord vs d v = p d.
Proof. unfold coord. by intros ->. Qed.

Section FromTempMesh.
  Context (refine : list point -> list nat -> option refined) (nc n : nat) (table : list (nat * list nat)).

  (** what a correct [RefineFrom] implementation does on one cell *)
  Definition refines_cell (vs : list point) (cell : list nat) (ns : list (point * list nat)) : Prop :=
    refine vs cell = Some (refined_of ns) /\ length ns = n /\
    forall j nd, ns !! j = Some nd -> node_parents nc table cell j = Some nd.2 /\ forall d, nd.1 d = mean (map (coord vs d) nd.2).

  Hypothesis Hrefine : forall vs cell, length cell = nc -> Forall (fun v => v < length vs) cell -> exists ns, refines_cell vs cell ns.

  Lemma zip_split {A B} (ns : list (A * B)) : zip (map fst ns) (map snd ns) = ns.
  Proof. induction ns as [|[]]; cbn; [done|by f_equal]. Qed.

  Lemma from_temp_mesh m : cells_of_size nc m -> exists m', from_temp refine m = Some m' /\
    nodes_at_means nc table n m m' /\ nodes_shared nc table n m m' /\ all_used m'.
  Proof using Hrefine.
    intros Hm. destruct m as [vs cells]. unfold cells_of_size in Hm. cbn in Hm.
    set (nodes c := match refine vs c with Some r => zip (rf_vertices r) (rf_parents r) | None => [] end).
    assert (Hn : forall c, c ∈ cells -> refines_cell vs c (nodes c)).
    { intros c Hc. rewrite Forall_forall in Hm. destruct (Hm c Hc) as [H1 H2]. destruct (Hrefine vs c H1 H2) as (ns & Hns).
      destruct Hns as (E & Hl & Hj). unfold nodes. rewrite E. cbn. rewrite zip_split. done. }
    destruct (from_temp_spec refine vs nodes cells) as (m' & ls & E & Hnd & Hv & Hc); [intros; by apply Hn|].
    exists m'. split; [done|].
    assert (Hpos : forall i key, ls !! i = Some key -> exists nd, key = node_key nd /\ ms_vertices m' !! i = Some nd.1 /\
      nd ∈ concat (map nodes cells) /\ forall d, coord (ms_vertices m') d i = mean (map (coord vs d) nd.2)).
    { intros i key Hi. destruct (Forall2_lookup_r _ _ _ i key Hv Hi) as (v & Hv' & nd & Hin & <- & ->).
      exists nd. split_and!; [done|done|done|]. intros d. rewrite (coord_lookup _ _ _ d Hv').
      apply elem_of_list_In, in_concat in Hin as (l & Hl & Hin). apply in_map_iff in Hl as (c & <- & Hc').
      apply elem_of_list_In, elem_of_list_lookup in Hin as [j Hj]. apply elem_of_list_In in Hc'. destruct (Hn c Hc') as (_ & _ & Q). by apply (Q j nd Hj). }
    assert (Hcell : forall k cell', ms_cells m' !! k = Some cell' -> exists cell, cells !! k = Some cell /\ cell ∈ cells /\ key_names ls cell' (nodes cell)).
    { intros k cell' Hk. destruct (Forall2_lookup_l _ _ _ k cell' Hc Hk) as (cell & Hk' & HF). exists cell. split_and!; [done| |done].
      exact (elem_of_list_lookup_2 _ _ _ Hk'). }
    assert (Hlen : length (ms_vertices m') = length ls) by by apply Forall2_length in Hv.
    split; [split; [|split]|split].
    - apply Forall_lookup. intros k cell' Hk. destruct (Hcell k cell' Hk) as (cell & Hk' & Hin & HF). split.
      + apply Forall2_length in HF. rewrite HF. by apply Hn.
      + apply Forall_lookup. intros j i Hj. destruct (Forall2_lookup_l _ _ _ j i HF Hj) as (nd & _ & Hls).
        rewrite Hlen. by apply lookup_lt_Some in Hls.
    - cbn. by apply Forall2_length in Hc.
    - cbn. intros k cell cell' j i Hk Hk' Hj. destruct (Hcell k cell' Hk') as (cell0 & Hk0 & Hin & HF). assert (cell0 = cell) as -> by congruence.
      destruct (Forall2_lookup_l _ _ _ j i HF Hj) as (nd & Hnd' & Hls). destruct (Hn cell Hin) as (_ & _ & Hj').
      destruct (Hj' j nd Hnd') as [Hp _]. exists nd.2. split; [done|]. intros d.
      destruct (Hpos i _ Hls) as (nd' & Hkey & _ & _ & Hd). rewrite Hd. apply mean_perm. apply Permutation_map. symmetry. by apply node_key_iff.
    - intros k1 k2 c1 c2 c1' c2' j1 j2 i1 i2 ps1 ps2 _ _ H1 H2 H1' H2' Hj1 Hj2 Hp1 Hp2. cbn in H1, H2.
      destruct (Hcell k1 c1' H1') as (x1 & Hx1 & Hi1 & HF1). destruct (Hcell k2 c2' H2') as (x2 & Hx2 & Hi2 & HF2).
      assert (x1 = c1) as -> by congruence. assert (x2 = c2) as -> by congruence.
      destruct (Forall2_lookup_l _ _ _ j1 i1 HF1 Hj1) as (nd1 & Hnd1 & Hls1).
      destruct (Forall2_lookup_l _ _ _ j2 i2 HF2 Hj2) as (nd2 & Hnd2 & Hls2).
      destruct (Hn c1 Hi1) as (_ & _ & Q1). destruct (Q1 _ _ Hnd1) as [Q1' _]. rewrite Hp1 in Q1'. injection Q1' as ->.
      destruct (Hn c2 Hi2) as (_ & _ & Q2). destruct (Q2 _ _ Hnd2) as [Q2' _]. rewrite Hp2 in Q2'. injection Q2' as ->.
      rewrite <- node_key_iff. split; [intros ->; congruence|]. intros Heq. rewrite Heq in Hls1.
      exact (NoDup_lookup _ _ _ _ Hnd Hls1 Hls2).
    - intros i Hi. rewrite Hlen in Hi. destruct (lookup_lt_is_Some_2 ls i Hi) as [key Hkey].
      destruct (Hpos i key Hkey) as (nd & -> & _ & Hin & _).
      apply elem_of_list_In, in_concat in Hin as (l & Hl & Hin). apply in_map_iff in Hl as (c & <- & Hc').
      apply elem_of_list_In in Hc'. apply elem_of_list_lookup in Hc' as [k Hk].
      destruct (Forall2_lookup_r _ _ _ k c Hc Hk) as (cell' & Hcell' & HF).
      apply elem_of_list_In, elem_of_list_lookup in Hin as [j Hj]. destruct (Forall2_lookup_r _ _ _ j nd HF Hj) as (i' & Hi' & Hls).
      assert (i = i') as -> by exact (NoDup_lookup _ _ _ _ Hnd Hkey Hls).
      apply elem_of_list_In, in_concat. exists cell'. split; apply elem_of_list_In; [exact (elem_of_list_lookup_2 _ _ _ Hcell')|exact (elem_of_list_lookup_2 _ _ _ Hi')].
  Qed.
End FromTempMesh.

(** The implementations *)
Ltac all_nodes := let j := fresh "j" in let nd := fresh "nd" in intros j nd;
  repeat (destruct j as [|j]; [intros [= <-]; split; [reflexivity|]; intros d; cbn -[mean]; 
    repeat (match goal with H : ?vs !! ?v = Some ?p |- _ => rewrite (coord_lookup vs v p d H); clear H end); unfold mean, lerp, hex8_phi, phi_linear_1d, pt; cbn; field|]); done.

Lemma refines_tet10 vs cell : length cell = 4 -> Forall (fun v => v < length vs) cell -> exists ns, refines_cell refine_tet10 4 10 tet10_nodes vs cell ns.
Proof.
  intros Hl Hr. destruct cell as [|a [|b [|c [|e [|]]]]]; try done.
  repeat match goal with H : Forall _ (_ :: _) |- _ => apply Forall_cons in H as [?%lookup_lt_is_Some_2 ?]; destruct_and? end.
  repeat match goal with H : is_Some _ |- _ => destruct H as [? H] end.
  eexists. split; [|split].
  - unfold refine_tet10, corner_nodes, edge_node, tet10_edges. cbn. repeat (match goal with H : _ !! _ = Some _ |- _ => rewrite H; clear H end; cbn). reflexivity.
  - reflexivity.
  - all_nodes.
Qed.

Ltac in_range := repeat match goal with H : Forall _ (_ :: _) |- _ => apply Forall_cons in H as [?%lookup_lt_is_Some_2 ?]; destruct_and? end;
  repeat match goal with H : is_Some _ |- _ => destruct H as [? H] end.

Lemma refines_hex20 vs cell : length cell = 8 -> Forall (fun v => v < length vs) cell -> exists ns, refines_cell refine_hex20 8 20 hex20_nodes vs cell ns.
Proof.
  intros Hl Hr. destruct cell as [|? [|? [|? [|? [|? [|? [|? [|? [|]]]]]]]]]; try done. in_range.
  eexists. split; [|split].
  - unfold refine_hex20, corner_nodes, edge_node, hex_edges. cbn. repeat (match goal with H : _ !! _ = Some _ |- _ => rewrite H; clear H end; cbn). reflexivity.
  - reflexivity.
  - all_nodes.
Qed.

Lemma refines_hex27 vs cell : length cell = 8 -> Forall (fun v => v < length vs) cell -> exists ns, refines_cell refine_hex27 8 27 hex27_nodes vs cell ns.
Proof.
  intros Hl Hr. destruct cell as [|? [|? [|? [|? [|? [|? [|? [|? [|]]]]]]]]]; try done. in_range.
  eexists. split; [|split].
  - unfold refine_hex27, corner_nodes, edge_node, face_node, hex_edges, hex_face_nodes.
    cbn -[el_map]. repeat (match goal with H : _ !! _ = Some _ |- _ => rewrite H; clear H end; cbn -[el_map]). reflexivity.
  - reflexivity.
  - all_nodes.
Qed.

(** ** Tri6 and Quad9 *)
Lemma coord_app (vs vs' : list point) d v : v < length vs -> coord (vs ++ vs') d v = coord vs d v.
Proof. intros H. unfold coord. by rewrite lookup_app_l. Qed.
Lemma coord_prefix vs vs' d v : v < length vs -> vs `prefix_of` vs' -> coord vs' d v = coord vs d v.
Proof. intros H [k ->]. by apply coord_app. Qed.

Lemma pair_eqb_spec k1 k2 : Is_true (pair_eqb k1 k2) <-> k1 = k2.
Proof. apply bool_decide_spec. Qed.
Lemma pair_get_some m k i : hm_get pair_eqb m k = Some i -> (k, i) ∈ m.
Proof.
  unfold hm_get. destruct (list_find _ _) as [[j [k' i']]|] eqn:E; cbn; [|done]. intros [= ->].
  apply list_find_Some in E as (E & HI & _). cbn in HI. apply pair_eqb_spec in HI as ->. exact (elem_of_list_lookup_2 _ _ _ E).
Qed.
Lemma pair_get_none m k : hm_get pair_eqb m k = None -> k ∉ m.*1.
Proof.
  unfold hm_get. destruct (list_find _ _) as [[j [k' i']]|] eqn:E; cbn; [done|]. intros _ Hin.
  apply list_find_None in E. apply elem_of_list_fmap in Hin as (e & -> & He). rewrite Forall_forall in E. apply (E e He). by apply pair_eqb_spec.
Qed.

Definition ekey (e : nat * nat) : nat * nat := (Nat.min e.1 e.2, Nat.max e.1 e.2).
Lemma ekey_perm a b c d : ekey (a, b) = ekey (c, d) <-> [a; b] ≡ₚ [c; d].
Proof.
  unfold ekey; cbn. split.
  - intros [= H1 H2]. assert ((a = c /\ b = d) \/ (a = d /\ b = c)) as [[-> ->]|[-> ->]] by lia; [done|apply perm_swap].
  - intros H. apply Permutation_length_2_inv in H as [[= -> ->]|[= -> ->]]; [done|]. f_equal; lia.
Qed.

Section Edges.
  Context (orig : list point).

  (** [cs] are the indices of other appended vertices *)
  Definition edge_ok (st : list ((nat * nat) * nat) * list point) (cs : list nat) : Prop :=
    orig `prefix_of` st.2 /\ NoDup st.1.*1 /\ NoDup (st.1.*2 ++ cs) /\
    Forall (fun i => length orig ≤ i < length st.2) (st.1.*2 ++ cs) /\
    forall k i, (k, i) ∈ st.1 -> forall d, coord st.2 d i = ((coord orig d k.1 + coord orig d k.2) / 2)%R.

  Definition in_orig (e : nat * nat) : Prop := e.1 < length orig /\ e.2 < length orig.

  Lemma edge_index_spec st cs e : edge_ok st cs -> in_orig e -> exists st' i, edge_index st e = Some (st', i) /\
    edge_ok st' cs /\ st.1 `prefix_of` st'.1 /\ st.2 `prefix_of` st'.2 /\ (ekey e, i) ∈ st'.1.
  Proof.
    intros (H1 & H2 & H3 & H4 & H5) [He1 He2]. unfold edge_index. destruct e as [a b]. cbn [fst snd] in *.
    destruct (hm_get _ _ _) as [i|] eqn:E.
    - apply pair_get_some in E. exists st, i. split_and!; [done|by split_and!|reflexivity|reflexivity|done].
    - apply pair_get_none in E. destruct st as [mp vs]. cbn [fst snd] in *. destruct H1 as [k ->].
      assert (Ha : is_Some ((orig ++ k) !! a)). { apply lookup_lt_is_Some. rewrite app_length. lia. }
      assert (Hb : is_Some ((orig ++ k) !! b)). { apply lookup_lt_is_Some. rewrite app_length. lia. }
      destruct Ha as [va Ha]. destruct Hb as [vb Hb]. rewrite Ha, Hb. cbn. eexists _, _. split; [done|].
      rewrite Forall_forall in H4. split_and!.
      + split_and!; cbn.
        * rewrite <- app_assoc. by eexists.
        * rewrite fmap_app. apply NoDup_app. split; [done|]. split; [|apply NoDup_singleton]. cbn. intros x Hx Hx'%elem_of_list_singleton. by subst.
        * rewrite fmap_app. cbn. rewrite <- app_assoc. cbn. rewrite <- (Permutation_middle (mp.*2) cs (length (orig ++ k))).
          apply NoDup_cons. split; [|done]. intros Hin. apply H4 in Hin. lia.
        * rewrite fmap_app. apply Forall_forall. intros i. cbn. rewrite !app_length, !elem_of_app, elem_of_list_singleton. cbn.
          intros [[Hi| ->]|Hi]; [|rewrite ?app_length; lia|].
          -- assert (i ∈ mp.*2 ++ cs) as Hi' by (apply elem_of_app; by left). apply H4 in Hi'. rewrite app_length in Hi'. lia.
          -- assert (i ∈ mp.*2 ++ cs) as Hi' by (apply elem_of_app; by right). apply H4 in Hi'. rewrite app_length in Hi'. lia.
        * intros k' i Hin d. apply elem_of_app in Hin as [Hin|Hin].
          -- rewrite coord_app; [by apply H5|]. assert (i ∈ mp.*2 ++ cs) as Hi'.
             { apply elem_of_app; left. apply elem_of_list_fmap. by exists (k', i). } apply H4 in Hi'. lia.
          -- apply elem_of_list_singleton in Hin as [= -> ->]. unfold coord at 1. rewrite lookup_app_r by done. rewrite Nat.sub_diag. cbn.
             assert (Hva : coord orig d a = va d). { rewrite <- (coord_app orig k d a He1). by apply coord_lookup. }
             assert (Hvb : coord orig d b = vb d). { rewrite <- (coord_app orig k d b He2). by apply coord_lookup. }
             destruct (decide (a ≤ b)).
             ++ rewrite Nat.min_l, Nat.max_r by lia. by rewrite Hva, Hvb.
             ++ rewrite Nat.min_r, Nat.max_l by lia. rewrite Hva, Hvb. unfold half_way. lra.
      + by eexists.
      + by eexists.
      + cbn. apply elem_of_app; right. by apply elem_of_list_singleton.
  Qed.

  Lemma edge_indices_spec st cs es : edge_ok st cs -> Forall in_orig es -> exists st' out, edge_indices st es = Some (st', out) /\
    edge_ok st' cs /\ st.1 `prefix_of` st'.1 /\ st.2 `prefix_of` st'.2 /\ Forall2 (fun i e => (ekey e, i) ∈ st'.1) out es.
  Proof.
    intros Hst Hes. unfold edge_indices. induction es as [|e es IH] using rev_ind.
    - exists st, []. split_and!; [done|done|reflexivity|reflexivity|constructor].
    - apply Forall_app in Hes as [Hes He]. rewrite Forall_singleton in He. destruct (IH Hes) as (st1 & out1 & E1 & O1 & P1 & Q1 & F1).
      destruct (edge_index_spec st1 cs e O1 He) as (st2 & i & E2 & O2 & P2 & Q2 & F2).
      exists st2, (out1 ++ [i]). rewrite foldl_app, E1. cbn. rewrite E2. cbn. split_and!; [done|done|by etrans|by etrans|].
      apply Forall2_app; [|by repeat constructor]. apply (list.Forall2_impl _ _ _ _ F1). intros x y Hxy.
      destruct P2 as [k ->]. apply elem_of_app. by left.
  Qed.

  (** identity of corner and edge nodes *)
  Definition node_class (mp : list ((nat * nat) * nat)) (i : nat) (ps : list nat) : Prop :=
    (ps = [i] /\ i < length orig) \/ (exists a b, ps = [a; b] /\ (ekey (a, b), i) ∈ mp).

  Lemma node_class_shared st cs i1 i2 ps1 ps2 : edge_ok st cs -> node_class st.1 i1 ps1 -> node_class st.1 i2 ps2 -> i1 = i2 <-> ps1 ≡ₚ ps2.
  Proof.
    intros (H1 & H2 & H3 & H4 & H5) N1 N2. rewrite Forall_forall in H4.
    assert (Hge : forall k i, (k, i) ∈ st.1 -> length orig ≤ i).
    { intros k i Hin. apply (H4 i). apply elem_of_app; left. apply elem_of_list_fmap. by exists (k, i). }
    apply NoDup_app in H3 as (H3 & _).
    destruct N1 as [[-> L1]|(a & b & -> & M1)]; destruct N2 as [[-> L2]|(c & e & -> & M2)].
    - split; [by intros ->|]. intros HP. apply Permutation_singleton_inj in HP. done.
    - split; [intros ->; apply Hge in M2; lia|]. intros HP. apply Permutation_length in HP. done.
    - split; [intros ->; apply Hge in M1; lia|]. intros HP. apply Permutation_length in HP. done.
    - rewrite <- ekey_perm. split.
      + intros ->. apply elem_of_list_lookup in M1 as [x Hx]. apply elem_of_list_lookup in M2 as [y Hy].
        assert (x = y) as ->. { apply (NoDup_lookup _ _ _ i2 H3); by rewrite list_lookup_fmap, ?Hx, ?Hy. } congruence.
      + intros Heq. rewrite Heq in M1. apply elem_of_list_lookup in M1 as [x Hx]. apply elem_of_list_lookup in M2 as [y Hy].
        assert (x = y) as ->. { apply (NoDup_lookup _ _ _ (ekey (c, e)) H2); by rewrite list_lookup_fmap, ?Hx, ?Hy. } congruence.
  Qed.

  Lemma node_class_mean st cs i ps d : edge_ok st cs -> node_class st.1 i ps -> coord st.2 d i = mean (map (coord orig d) ps).
  Proof.
    intros (H1 & H2 & H3 & H4 & H5) [[-> L]|(a & b & -> & M)].
    - rewrite (coord_prefix orig st.2) by done. unfold mean; cbn. field.
    - rewrite (H5 _ _ M d). unfold mean, ekey; cbn. destruct (decide (a ≤ b)).
      + rewrite Nat.min_l, Nat.max_r by lia. field.
      + rewrite Nat.min_r, Nat.max_l by lia. field.
  Qed.
End Edges.

Lemma quad4_centre (p0 p1 p2 p3 : point) d : el_map quad4 [p0; p1; p2; p3] (pt [0; 0]%R) d = mean [p0 d; p1 d; p2 d; p3 d].
Proof. cbn. unfold quad4_phi, pt, mean. cbn. field. Qed.

Lemma tri6_mesh m : cells_of_size 3 m -> exists m', tri6_from_tri3_mesh m = Some m' /\ nodes_at_means 3 tri6_nodes 6 m m' /\
  nodes_shared 3 tri6_nodes 6 m m' /\ ms_vertices m `prefix_of` ms_vertices m' /\ (forall k c, ms_cells m !! k = Some c -> take 3 <$> ms_cells m' !! k = Some c).
Proof.
  destruct m as [vs cells]. unfold cells_of_size. cbn. intros Hm.
  destruct (fold_inv tri6_cell (fun st pre => edge_ok vs st.1 [] /\ length st.2 = length pre /\
    forall k cell, pre !! k = Some cell -> exists out, st.2 !! k = Some (cell ++ out) /\ Forall2 (fun i e => (ekey e, i) ∈ st.1.1) out (cycle_edges cell))
    (([], vs), []) cells) as (st & E & Hok & Hl & Hc).
  - cbn. split_and!; [|done|by intros]. split_and!; cbn; [reflexivity|constructor|constructor|constructor|]. intros k i Hin. by apply elem_of_nil in Hin.
  - intros [st out0] pre cell Hcell (Hok & Hl & Hc). rewrite Forall_forall in Hm. destruct (Hm cell Hcell) as [Hlen Hr]. cbn [fst snd] in *.
    unfold tri6_cell. cbn [fst snd].
    destruct (edge_indices_spec vs st [] (cycle_edges cell) Hok) as (st' & out & E & O & P & Q & F).
    { destruct cell as [|a [|b [|c [|]]]]; try done. rewrite !Forall_cons in Hr. unfold in_orig. cbn. repeat constructor; cbn; tauto. }
    rewrite E. cbn. eexists; split; [done|]. cbn. split_and!; [done|by rewrite !app_length, Hl|]. intros k c Hk.
    apply lookup_app_Some in Hk as [Hk|[Hk1 Hk2]].
    + destruct (Hc k c Hk) as (o & Ho & HF). exists o. split; [by apply lookup_app_l_Some|]. apply (list.Forall2_impl _ _ _ _ HF).
      intros x y Hxy. destruct P as [z ->]. apply elem_of_app. by left.
    + apply list_lookup_singleton_Some in Hk2 as [Hk2 ->]. assert (k = length pre) as -> by lia. exists out. split; [|done].
      rewrite lookup_app_r by lia. by rewrite Hl, Nat.sub_diag.
  - unfold tri6_from_tri3_mesh. cbn [ms_vertices ms_cells]. rewrite E. cbn. eexists; split; [done|]. cbn.
    assert (Hnode : forall k cell cell' j i, cells !! k = Some cell -> st.2 !! k = Some cell' -> cell' !! j = Some i ->
      exists ps, node_parents 3 tri6_nodes cell j = Some ps /\ node_class vs st.1.1 i ps).
    { intros k cell cell' j i Hk Hk' Hj. destruct (Hc k cell Hk) as (out & Hout & HF). rewrite Hk' in Hout. injection Hout as ->.
      rewrite Forall_lookup in Hm. destruct (Hm k cell Hk) as [Hlen Hr].
      destruct cell as [|a [|b [|c [|]]]]; try done. cbn in HF. inversion HF as [|d ? ? ? Hd HF1]; subst.
      inversion HF1 as [|e ? ? ? He HF2]; subst. inversion HF2 as [|f ? ? ? Hf HF3]; subst. inversion HF3; subst.
      rewrite !Forall_cons in Hr.
      do 3 (destruct j as [|j]; [injection Hj as <-; eexists; split; [reflexivity|left; split; [done|tauto]]|]).
      do 3 (destruct j as [|j]; [injection Hj as <-; eexists; split; [reflexivity|right; by eexists _, _]|]). done. }
    assert (Hcells : forall k cell', st.2 !! k = Some cell' -> exists cell, cells !! k = Some cell).
    { intros k cell' Hk. apply lookup_lt_is_Some. apply lookup_lt_Some in Hk. lia. }
    split; [split; [|split]|split; [|split]].
    + apply Forall_lookup. cbn. intros k cell' Hk. destruct (Hcells k cell' Hk) as [cell Hk0]. split.
      * destruct (Hc k cell Hk0) as (out & Hout & HF). rewrite Hk in Hout. injection Hout as ->.
        rewrite Forall_lookup in Hm. destruct (Hm k cell Hk0) as [Hlen Hr]. apply Forall2_length in HF.
        rewrite app_length, HF, Hlen. destruct cell as [|a [|b [|c [|]]]]; done.
      * apply Forall_lookup. intros j i Hj. destruct (Hnode k cell cell' j i Hk0 Hk Hj) as (ps & _ & [[_ Hi]|(a & b & _ & Hi)]).
        -- destruct Hok as ([z Hz] & _). rewrite Hz, app_length. lia.
        -- destruct Hok as (_ & _ & _ & H4 & _). rewrite Forall_forall in H4. apply (H4 i). apply elem_of_app; left. apply elem_of_list_fmap. by exists (ekey (a, b), i).
    + done.
    + cbn. intros k cell cell' j i Hk Hk' Hj. destruct (Hnode k cell cell' j i Hk Hk' Hj) as (ps & Hps & Hcl). exists ps. split; [done|].
      intros d. by apply (node_class_mean vs st.1 []).
    + intros k1 k2 c1 c2 c1' c2' j1 j2 i1 i2 ps1 ps2 _ _ H1 H2 H1' H2' Hj1 Hj2 Hp1 Hp2. cbn in *.
      destruct (Hnode k1 c1 c1' j1 i1 H1 H1' Hj1) as (q1 & Q1 & N1). destruct (Hnode k2 c2 c2' j2 i2 H2 H2' Hj2) as (q2 & Q2 & N2).
      rewrite Hp1 in Q1. rewrite Hp2 in Q2. injection Q1 as <-. injection Q2 as <-. by apply (node_class_shared vs st.1 []).
    + apply Hok.
    + intros k c Hk. destruct (Hc k c Hk) as (out & Hout & HF). rewrite Hout. cbn. rewrite Forall_lookup in Hm. destruct (Hm k c Hk) as [Hlen _].
      by rewrite take_app_alt.
Qed.

Lemma quad9_mesh m : cells_of_size 4 m -> exists m', quad9_from_quad4_mesh m = Some m' /\ nodes_at_means 4 quad9_nodes 9 m m' /\
  nodes_shared 4 quad9_nodes 8 m m' /\ own_node 8 m' /\ ms_vertices m `prefix_of` ms_vertices m' /\
  (forall k c, ms_cells m !! k = Some c -> take 4 <$> ms_cells m' !! k = Some c).
Proof.
  destruct m as [vs cells]. unfold cells_of_size. cbn. intros Hm.
  destruct (fold_inv (quad9_cell vs) (fun st pre => length st.2 = length pre /\ exists cs, edge_ok vs st.1 cs /\ length cs = length pre /\
    forall k cell, pre !! k = Some cell -> exists out c, st.2 !! k = Some (cell ++ out ++ [c]) /\
      Forall2 (fun i e => (ekey e, i) ∈ st.1.1) out (cycle_edges cell) /\ cs !! k = Some c /\ forall d, coord st.1.2 d c = mean (map (coord vs d) cell))
    (([], vs), []) cells) as (st & E & Hl & cs & Hok & Hlc & Hc).
  - cbn. split; [done|]. exists []. split_and!; [|done|by intros]. split_and!; cbn; [reflexivity|constructor|constructor|constructor|]. intros k i Hin. by apply elem_of_nil in Hin.
  - intros [st out0] pre cell Hcell (Hl & cs & Hok & Hlc & Hc). rewrite Forall_forall in Hm. destruct (Hm cell Hcell) as [Hlen Hr]. cbn [fst snd] in *.
    unfold quad9_cell. cbn [fst snd].
    destruct (edge_indices_spec vs st cs (cycle_edges cell) Hok) as (st' & out & E & O & P & Q & F).
    { destruct cell as [|a [|b [|c [|d [|]]]]]; try done. rewrite !Forall_cons in Hr. unfold in_orig. cbn. repeat constructor; cbn; tauto. }
    rewrite E. cbn [mbind option_bind fst snd].
    assert (exists corners, mapM (fun v => vs !! v) cell = Some corners /\ forall d, el_map quad4 corners (pt [0; 0]%R) d = mean (map (coord vs d) cell)) as (corners & Ec & Hmid).
    { destruct cell as [|a [|b [|c [|e [|]]]]]; try done. in_range. cbn [mapM]. repeat (match goal with H : _ !! _ = Some _ |- _ => rewrite H end; cbn [mbind option_bind]).
      eexists; split; [reflexivity|]. intros d. rewrite quad4_centre. cbn [map].
      repeat (match goal with H : ?vs !! ?v = Some ?p |- _ => rewrite (coord_lookup vs v p d H); clear H end). done. }
    rewrite Ec. cbn [mbind option_bind]. eexists; split; [done|]. cbn [fst snd]. split; [by rewrite !app_length, Hl|].
    destruct O as (O1 & O2 & O3 & O4 & O5). rewrite Forall_forall in O4.
    exists (cs ++ [length st'.2]). split_and!; [split_and!; cbn [fst snd]| |].
    + etrans; [done|]. by eexists.
    + done.
    + rewrite app_assoc. apply NoDup_app. split; [done|]. split; [|apply NoDup_singleton]. intros x Hx ->%elem_of_list_singleton. apply O4 in Hx. lia.
    + rewrite app_assoc. apply Forall_app. rewrite app_length. cbn. split.
      * apply Forall_forall. intros x Hx. apply O4 in Hx. lia.
      * constructor; [|constructor]. destruct O1 as [z ->]. rewrite app_length. lia.
    + intros k i Hin d. rewrite coord_app; [by apply O5|]. apply O4. apply elem_of_app; left. apply elem_of_list_fmap. by exists (k, i).
    + rewrite !app_length. cbn. lia.
    + intros k c Hk. apply lookup_app_Some in Hk as [Hk|[Hk1 Hk2]].
      * destruct (Hc k c Hk) as (o & ce & Ho & HF & Hcs & Hd). exists o, ce. split_and!; [by apply lookup_app_l_Some| |by apply lookup_app_l_Some|].
        -- apply (list.Forall2_impl _ _ _ _ HF). intros x y Hxy. destruct P as [z ->]. apply elem_of_app. by left.
        -- intros d. rewrite <- (Hd d). destruct Hok as (_ & _ & _ & H4 & _). rewrite Forall_forall in H4.
           assert (ce < length st.2) as Hce. { apply H4. apply elem_of_app; right. exact (elem_of_list_lookup_2 _ _ _ Hcs). }
           destruct Q as [z Hz]. rewrite coord_app by (rewrite Hz, app_length; lia). rewrite Hz. by apply coord_app.
      * apply list_lookup_singleton_Some in Hk2 as [Hk2 ->]. assert (k = length pre) as -> by lia. exists out, (length st'.2). split_and!.
        -- rewrite lookup_app_r by lia. by rewrite Hl, Nat.sub_diag.
        -- done.
        -- rewrite lookup_app_r by lia. by rewrite Hlc, Nat.sub_diag.
        -- intros d. rewrite <- Hmid. unfold coord. rewrite lookup_app_r by done. by rewrite Nat.sub_diag.
  - unfold quad9_from_quad4_mesh. cbn [ms_vertices ms_cells]. rewrite E. cbn. eexists; split; [done|]. cbn.
    assert (Hnode : forall k cell cell' j i, cells !! k = Some cell -> st.2 !! k = Some cell' -> cell' !! j = Some i ->
      exists ps, node_parents 4 quad9_nodes cell j = Some ps /\
        ((j < 8 /\ node_class vs st.1.1 i ps) \/ (j = 8 /\ cs !! k = Some i /\ ps = cell /\ forall d, coord st.1.2 d i = mean (map (coord vs d) cell)))).
    { intros k cell cell' j i Hk Hk' Hj. destruct (Hc k cell Hk) as (out & ce & Hout & HF & Hcs & Hd). rewrite Hk' in Hout. injection Hout as ->.
      rewrite Forall_lookup in Hm. destruct (Hm k cell Hk) as [Hlen Hr].
      destruct cell as [|a [|b [|c [|e [|]]]]]; try done. cbn in HF. inversion HF as [|o1 ? ? ? Ho1 HF1]; subst.
      inversion HF1 as [|o2 ? ? ? Ho2 HF2]; subst. inversion HF2 as [|o3 ? ? ? Ho3 HF3]; subst. inversion HF3 as [|o4 ? ? ? Ho4 HF4]; subst. inversion HF4; subst.
      rewrite !Forall_cons in Hr.
      do 4 (destruct j as [|j]; [injection Hj as <-; eexists; split; [reflexivity|left; split; [lia|left; split; [done|tauto]]]|]).
      do 4 (destruct j as [|j]; [injection Hj as <-; eexists; split; [reflexivity|left; split; [lia|right; by eexists _, _]]|]).
      destruct j as [|j]; [injection Hj as <-; eexists; split; [reflexivity|right; by split_and!]|]. done. }
    assert (Hcells : forall k cell', st.2 !! k = Some cell' -> exists cell, cells !! k = Some cell).
    { intros k cell' Hk. apply lookup_lt_is_Some. apply lookup_lt_Some in Hk. lia. }
    pose proof Hok as (H1 & H2 & H3 & H4 & H5). rewrite Forall_forall in H4.
    split; [split; [|split]|split; [|split; [|split]]].
    + apply Forall_lookup. cbn. intros k cell' Hk. destruct (Hcells k cell' Hk) as [cell Hk0]. split.
      * destruct (Hc k cell Hk0) as (out & ce & Hout & HF & _). rewrite Hk in Hout. injection Hout as ->.
        rewrite Forall_lookup in Hm. destruct (Hm k cell Hk0) as [Hlen Hr]. apply Forall2_length in HF.
        rewrite !app_length, HF, Hlen. destruct cell as [|a [|b [|c [|e [|]]]]]; done.
      * apply Forall_lookup. intros j i Hj. destruct (Hnode k cell cell' j i Hk0 Hk Hj) as (ps & _ & [[_ [[_ Hi]|(a & b & _ & Hi)]]|(_ & Hi & _)]).
        -- destruct H1 as [z Hz]. rewrite Hz, app_length. lia.
        -- apply (H4 i). apply elem_of_app; left. apply elem_of_list_fmap. by exists (ekey (a, b), i).
        -- apply (H4 i). apply elem_of_app; right. exact (elem_of_list_lookup_2 _ _ _ Hi).
    + done.
    + cbn. intros k cell cell' j i Hk Hk' Hj. destruct (Hnode k cell cell' j i Hk Hk' Hj) as (ps & Hps & [[_ Hcl]|(_ & _ & -> & Hd)]); exists ps + exists cell; (split; [done|]).
      * intros d. by apply (node_class_mean vs st.1 cs).
      * done.
    + intros k1 k2 c1 c2 c1' c2' j1 j2 i1 i2 ps1 ps2 L1 L2 Q1 Q2 Q1' Q2' Hj1 Hj2 Hp1 Hp2. cbn in *.
      destruct (Hnode k1 c1 c1' j1 i1 Q1 Q1' Hj1) as (q1 & R1 & [[_ N1]|[? _]]); [|lia].
      destruct (Hnode k2 c2 c2' j2 i2 Q2 Q2' Hj2) as (q2 & R2 & [[_ N2]|[? _]]); [|lia].
      rewrite Hp1 in R1. rewrite Hp2 in R2. injection R1 as <-. injection R2 as <-. by apply (node_class_shared vs st.1 cs).
    + intros k1 k2 c1' c2' i j2 Q1' Q2' Hj1 Hj2. cbn in *. destruct (Hcells _ _ Q1') as [c1 Q1]. destruct (Hcells _ _ Q2') as [c2 Q2].
      destruct (Hnode k1 c1 c1' 8 i Q1 Q1' Hj1) as (q1 & R1 & [[? _]|(_ & Hi1 & _)]); [lia|].
      apply NoDup_app in H3 as (_ & H3 & H3c).
      destruct (Hnode k2 c2 c2' j2 i Q2 Q2' Hj2) as (q2 & R2 & [[_ N2]|(-> & Hi2 & _)]).
      * exfalso. destruct N2 as [[_ N2]|(a & b & _ & N2)].
        -- assert (length vs ≤ i); [|lia]. apply (H4 i). apply elem_of_app; right. exact (elem_of_list_lookup_2 _ _ _ Hi1).
        -- apply (H3 i); [|exact (elem_of_list_lookup_2 _ _ _ Hi1)]. apply elem_of_list_fmap. by exists (ekey (a, b), i).
      * split; [|done]. exact (NoDup_lookup _ _ _ _ H3c Hi1 Hi2).
    + done.
    + intros k c Hk. destruct (Hc k c Hk) as (out & ce & Hout & HF & _). rewrite Hout. cbn. rewrite Forall_lookup in Hm. destruct (Hm k c Hk) as [Hlen _].
      by rewrite take_app_alt.
Qed.

(** The stages of the intersection of a polymesh with a half space. *)
From stdpp Require Import base list list_numbers sorting.
From Verif Require Import Prelude ReorderModel MeshModel MeshProofs PolyModel PolySpec PolyProofs PropPolyOps PolyClipProofs.

Section stages.
  Context (inside : list bool).
  Definition ins (v : nat) : bool := default false (inside !! v).

  Lemma sides_elem {A} (face : list A) s : s ∈ sides face -> s.1 ∈ face /\ s.2 ∈ face.
  Proof.
    destruct s as [a b]. intros H. destruct face as [|x r]; [by apply elem_of_nil in H|]. unfold sides in H. cbn. split; [by eapply elem_of_zip_l|].
    apply elem_of_zip_r in H. apply elem_of_app in H as [H|H]; [by right|]. apply elem_of_list_singleton in H as ->. by left.
  Qed.

  Lemma clip_face_ok face : Forall (fun v => v < length inside) face ->
    clip_face inside face = Some (clip_loop ins face, existsb (cut_side ins) (sides face)).
  Proof.
    intros H. unfold clip_face. rewrite cyclic_sides, clip_loop_emit.
    assert (Hs : forall s, s ∈ sides face -> inside !! s.1 = Some (ins s.1) /\ inside !! s.2 = Some (ins s.2)).
    { intros s Hs. apply sides_elem in Hs as [A B]. rewrite Forall_forall in H. apply H in A, B. unfold ins. destruct (lookup_lt_is_Some_2 _ _ A) as [a ->], (lookup_lt_is_Some_2 _ _ B) as [b ->]. done. }
    enough (G : forall out c, foldl (fun acc (e : nat * nat) => '(out, is_cut) ← acc; a ← inside !! e.1; b ← inside !! e.2;
        Some (out ++ (if a : bool then [uedge e.1 e.1] else []) ++ (if eqb a b then [] else [uedge e.1 e.2]), is_cut || negb (eqb a b))) (Some (out, c)) (sides face) =
      Some (out ++ concat (map (emit ins) (sides face)), c || existsb (cut_side ins) (sides face))) by apply G.
    clear H. induction (sides face) as [|s ss IH]; intros out c; cbn [foldl map concat existsb].
    - by rewrite app_nil_r, orb_false_r.
    - destruct (Hs s) as [A B]; [by left|]. cbn [mbind option_bind]. rewrite A, B. cbn [mbind option_bind]. rewrite IH by (intros; apply Hs; by right). f_equal. f_equal.
      + rewrite !uedge_upair. assert (Es : upair s.1 s.1 = (s.1, s.1)) by (unfold upair; by rewrite decide_True). rewrite Es. unfold emit. rewrite <- !app_assoc. done.
      + unfold cut_side. by rewrite orb_assoc.
  Qed.

  Lemma cut_edges_chords out : cut_edges out = chords out.
  Proof.
    unfold cut_edges, chords. rewrite cyclic_sides. apply list_filter_iff. intros e. unfold is_cut_vertex. rewrite andb_true_iff, !negb_true_iff, !Nat.eqb_neq. done.
  Qed.
  Lemma emit_elem s e : e ∈ emit ins s -> (ins s.1 = true /\ e = (s.1, s.1)) \/ (ins s.1 <> ins s.2 /\ e = upair s.1 s.2).
  Proof.
    unfold emit. rewrite elem_of_app. intros [H|H].
    - destruct (ins s.1); [|by apply elem_of_nil in H]. apply elem_of_list_singleton in H as ->. by left.
    - destruct (eqb _ _) eqn:E; [by apply elem_of_nil in H|]. apply eqb_false_iff in E. apply elem_of_list_singleton in H as ->. by right.
  Qed.
  Lemma clip_loop_elem face e : e ∈ clip_loop ins face -> exists s, s ∈ sides face /\ ((ins s.1 = true /\ e = (s.1, s.1)) \/ (ins s.1 <> ins s.2 /\ e = upair s.1 s.2)).
  Proof.
    rewrite clip_loop_emit, elem_of_concat. intros (l & Hl & He). apply elem_of_list_fmap in Hl as (s & -> & Hs). exists s. split; [done|]. by apply emit_elem.
  Qed.
  Lemma chords_elem out e : e ∈ chords out -> (e.1 ∈ out /\ e.1.1 <> e.1.2) /\ (e.2 ∈ out /\ e.2.1 <> e.2.2).
  Proof. unfold chords. rewrite elem_of_list_filter. intros [[A B] H]. apply sides_elem in H as [C D]. done. Qed.
  Lemma no_cut_no_chords face : existsb (cut_side ins) (sides face) = false -> chords (clip_loop ins face) = [].
  Proof.
    intros H. destruct (chords (clip_loop ins face)) as [|e r] eqn:E; [done|]. exfalso. assert (He : e ∈ chords (clip_loop ins face)) by (rewrite E; by left).
    apply chords_elem in He as [[He Hne] _]. apply clip_loop_elem in He as (s & Hs & [[_ Hx]|[Hx _]]); [rewrite Hx in Hne; done|].
    assert (existsb (cut_side ins) (sides face) = true); [|congruence]. apply existsb_exists. exists s. split; [by apply elem_of_list_In|]. unfold cut_side. apply negb_true_iff, eqb_false_iff. done.
  Qed.

  Context (faces : list (list nat)).
  Definition loop (f : nat) : list (nat * nat) := clip_loop ins (default [] (faces !! f)).
  Definition clipped : list (list (nat * nat) * bool) := map (fun face => (clip_loop ins face, existsb (cut_side ins) (sides face))) faces.
  Definition cell_chords (cell : list nat) := concat (map (fun f => chords (loop f)) cell).
  Definition cell_caps (cell : list nat) := caps (length (cell_chords cell)) (cell_chords cell).
  Definition kept (cell : list nat) : list nat := filter (fun f => loop f <> []) cell.

  Lemma inner_fold cell : Forall (fun f => f < length faces) cell -> forall k es,
    foldl (fun acc f => '(kept, edges) ← acc; '(out, is_cut) ← clipped !! f;
      match classify out is_cut with Inside => Some (kept ++ [f], edges) | Outside => Some (kept, edges) | Cut => Some (kept ++ [f], edges ++ cut_edges out) end) (Some (k, es)) cell =
    Some (k ++ kept cell, es ++ cell_chords cell).
  Proof.
    unfold kept, cell_chords. induction 1 as [|f cell Hf _ IH]; intros k es; cbn [foldl map concat].
    - by rewrite !app_nil_r.
    - destruct (lookup_lt_is_Some_2 _ _ Hf) as [face Hface]. cbn [mbind option_bind]. unfold clipped at 2. rewrite list_lookup_fmap, Hface. cbn [fmap option_fmap option_map mbind option_bind].
      rewrite filter_cons. assert (El : loop f = clip_loop ins face) by (unfold loop; by rewrite Hface). rewrite El. unfold classify.
      destruct (clip_loop ins face) as [|e out] eqn:Eo.
      + rewrite decide_False by (intros X; by apply X). rewrite IH. done.
      + rewrite decide_True by done. destruct (existsb _ _) eqn:Ec.
        * rewrite IH. rewrite <- app_assoc. rewrite cut_edges_chords, <- app_assoc. done.
        * rewrite IH. rewrite <- app_assoc. rewrite <- Eo, no_cut_no_chords by done. done.
  Qed.

  (** a cell of the clipped mesh, as a list of loops *)
  Definition cell_loops (cell : list nat) := map loop (kept cell) ++ cell_caps cell.
  Definition loops0 := map (clip_loop ins) faces.

  Lemma mapM_lookup_app {A} (l k : list A) is xs : mapM (fun i => l !! i) is = Some xs -> mapM (fun i => (l ++ k) !! i) is = Some xs.
  Proof. rewrite !mapM_Forall2. intros H. eapply Forall2_impl; [exact H|]. intros x y Hx. by apply lookup_app_l_Some. Qed.
  Lemma mapM_lookup_seq {A} (l k : list A) : mapM (fun i => (l ++ k) !! i) (seq (length l) (length k)) = Some k.
  Proof.
    apply mapM_Forall2. apply Forall2_same_length_lookup. rewrite seq_length. split; [done|]. intros i x y Hi Hy. apply lookup_seq in Hi as [-> ?]. rewrite lookup_app_r by lia. by replace (length l + i - length l) with i by lia.
  Qed.

  Lemma outer_fold cells : Forall (Forall (fun f => f < length faces)) cells -> exists cells',
    foldl (clip_cell clipped) (Some (loops0, [])) cells = Some (loops0 ++ concat (map cell_caps cells), cells') /\
    Forall2 (fun cell c => mapM (fun f => (loops0 ++ concat (map cell_caps cells)) !! f) c = Some (cell_loops cell)) cells cells'.
  Proof.
    induction cells as [|cell cells IH] using rev_ind; intros H.
    - exists []. cbn. rewrite app_nil_r. split; [done|constructor].
    - apply Forall_app in H as [H1 H2]. inversion H2 as [|? ? H2' _ E1]; subst. clear H2. rename H2' into H2. destruct (IH H1) as (cells' & E & HF). rewrite foldl_app, E. cbn [foldl]. unfold clip_cell at 1. cbn [mbind option_bind].
      rewrite (inner_fold cell H2 [] []). cbn [mbind option_bind app]. change (caps (length (cell_chords cell)) (cell_chords cell)) with (cell_caps cell).
      rewrite map_app, concat_app. cbn [map concat]. rewrite app_nil_r, app_assoc. eexists. split; [reflexivity|]. apply Forall2_app.
      + eapply Forall2_impl; [exact HF|]. intros c c' Hc. by apply mapM_lookup_app.
      + constructor; [|constructor]. rewrite mapM_app. unfold cell_loops. rewrite mapM_lookup_seq.
        assert (Hk : mapM (fun f => ((loops0 ++ concat (map cell_caps cells)) ++ cell_caps cell) !! f) (kept cell) = Some (map loop (kept cell))); [|by rewrite Hk].
        apply mapM_Forall2. apply Forall2_fmap_r. apply Forall_Forall2_diag. unfold kept. apply Forall_forall. intros f Hf. apply elem_of_list_filter in Hf as [_ Hf]. rewrite Forall_forall in H2. specialize (H2 f Hf).
        rewrite <- app_assoc. rewrite lookup_app_l by (unfold loops0; by rewrite map_length). unfold loops0. rewrite list_lookup_fmap. unfold loop, compose. destruct (lookup_lt_is_Some_2 _ _ H2) as [face ->]. done.
  Qed.
End stages.

(** * labels *)
Lemma labels_ok (l : list (nat * nat)) : exists reps, NoDup reps /\ (forall e, e ∈ reps <-> e ∈ l) /\ length (vertex_labels l) = length reps /\
  (forall e i, assoc e (vertex_labels l) = Some i <-> reps !! i = Some e) /\ (forall el, el ∈ vertex_labels l -> reps !! el.2 = Some el.1) /\
  (forall i e, reps !! i = Some e -> (e, i) ∈ vertex_labels l).
Proof.
  unfold vertex_labels. induction l as [|e l IH] using rev_ind.
  - exists []. cbn. split_and!; try done; try constructor. intros el H. by apply elem_of_nil in H.
  - destruct IH as (reps & Hn & He & Hl & Ha & Hb & Hc). rewrite foldl_app. cbn [foldl]. set (seen := foldl _ [] l) in *. destruct (assoc e seen) as [i|] eqn:E.
    + exists reps. split_and!; try done. intros x. rewrite elem_of_app, He, elem_of_list_singleton. split; [by left|]. intros [?| ->]; [done|]. apply He. apply Ha in E. by eapply elem_of_list_lookup_2.
    + assert (Hni : e ∉ reps). { intros Hin. apply elem_of_list_lookup in Hin as [i Hi]. apply Ha in Hi. congruence. }
      exists (reps ++ [e]). split_and!.
      * apply NoDup_app. split_and!; [done| |apply NoDup_singleton]. intros x Hx Hx'. apply elem_of_list_singleton in Hx' as ->. done.
      * intros x. rewrite !elem_of_app, He. done.
      * cbn [length]. rewrite app_length, Hl. cbn. lia.
      * intros x i. cbn [assoc]. destruct (decide (x = e)) as [->|N].
        -- rewrite lookup_snoc_Some. rewrite Hl. split; [intros [= <-]; by right|]. intros [[_ H]|[-> _]]; [|done]. exfalso. apply Hni. by eapply elem_of_list_lookup_2.
        -- rewrite Ha, lookup_snoc_Some. split; [intros H; left; split; [by eapply lookup_lt_Some|done]|]. intros [[_ H]|[_ H]]; congruence.
      * intros el Hel. apply elem_of_cons in Hel as [->|Hel]; cbn [fst snd].
        -- apply lookup_snoc_Some. right. by rewrite Hl.
        -- apply lookup_app_l_Some. by apply Hb.
      * intros i x Hi. apply lookup_snoc_Some in Hi as [[_ Hi]|[-> ->]]; [right; by apply Hc|]. rewrite <- Hl. by left.
Qed.

Section points.
  Context {V : Type} (cut : V -> V -> V) (origin : V) (verts : list V).
  Definition is_point (e : nat * nat) (x : V) : Prop := exists a b, verts !! e.1 = Some a /\ verts !! e.2 = Some b /\ x = if decide (e.1 = e.2) then a else cut a b.
  Lemma points_ok (l : list (nat * nat)) reps : (forall e, e ∈ reps -> e.1 < length verts /\ e.2 < length verts) -> length (vertex_labels l) = length reps ->
    (forall el, el ∈ vertex_labels l -> reps !! el.2 = Some el.1) -> (forall i e, reps !! i = Some e -> (e, i) ∈ vertex_labels l) ->
    exists vs, foldl (fun acc (el : (nat * nat) * nat) => vs ← acc; a ← verts !! el.1.1; b ← verts !! el.1.2;
      Some (<[el.2 := if decide (el.1.1 = el.1.2) then a else cut a b]> vs)) (Some (replicate (length (vertex_labels l)) origin)) (vertex_labels l) = Some vs /\ Forall2 is_point reps vs.
  Proof.
    intros Hb Hl Hel Hc.
    enough (G : forall ls vs0, length vs0 = length reps -> (forall el, el ∈ ls -> reps !! el.2 = Some el.1) ->
      exists vs, foldl (fun acc (el : (nat * nat) * nat) => vs ← acc; a ← verts !! el.1.1; b ← verts !! el.1.2;
        Some (<[el.2 := if decide (el.1.1 = el.1.2) then a else cut a b]> vs)) (Some vs0) ls = Some vs /\ length vs = length reps /\
        (forall i e x, reps !! i = Some e -> vs0 !! i = Some x -> is_point e x -> exists x', vs !! i = Some x' /\ is_point e x') /\
        (forall el, el ∈ ls -> exists x, vs !! el.2 = Some x /\ is_point el.1 x)).
    { destruct (G (vertex_labels l) (replicate (length (vertex_labels l)) origin)) as (vs & E & Hlen & _ & HP); [by rewrite replicate_length|done|]. exists vs. split; [done|].
      apply Forall2_same_length_lookup. split; [done|]. intros i e x Hi Hx. apply Hc in Hi. destruct (HP _ Hi) as (x' & Hx' & Hp). cbn in *. congruence. }
    induction ls as [|el ls IH]; intros vs0 Hlen HL.
    - exists vs0. cbn. split; [done|]. split; [done|]. split; [by eauto|]. intros el H. by apply elem_of_nil in H.
    - assert (Hr : reps !! el.2 = Some el.1) by (apply HL; by left). destruct (Hb el.1) as [B1 B2]; [by eapply elem_of_list_lookup_2|].
      destruct (lookup_lt_is_Some_2 _ _ B1) as [a Ha], (lookup_lt_is_Some_2 _ _ B2) as [b Hb']. cbn [foldl mbind option_bind]. rewrite Ha, Hb'. cbn [mbind option_bind].
      set (x := if decide (el.1.1 = el.1.2) then a else cut a b). destruct (IH (<[el.2 := x]> vs0)) as (vs & E & Hlen' & HK & HP); [by rewrite insert_length|intros; apply HL; by right|].
      assert (Hpx : is_point el.1 x) by (exists a, b; done). assert (Hi : el.2 < length vs0) by (rewrite Hlen; by eapply lookup_lt_Some).
      exists vs. split; [done|]. split; [done|]. split.
      + intros i e y Hi' Hy Hpy. destruct (decide (i = el.2)) as [->|N].
        * apply (HK el.2 e x); [done|by apply list_lookup_insert|]. congruence.
        * apply (HK i e y); [done|by rewrite list_lookup_insert_ne|done].
      + intros el' Hel'. apply elem_of_cons in Hel' as [->|Hel']; [|by apply HP]. apply (HK el.2 el.1 x); [done|by apply list_lookup_insert|done].
  Qed.
End points.

(** * relabelled faces *)
Lemma relabel_faces_ok (faces : list (list (nat * nat))) labels (reps : list (nat * nat)) : (forall e i, assoc e labels = Some i <-> reps !! i = Some e) -> (forall e, e ∈ concat faces -> e ∈ reps) ->
  exists out map, relabel_faces faces labels = Some (out, map) /\ mapM (mapM (fun i => reps !! i)) out = Some (filter (fun l => l <> []) faces) /\
    (forall f l, faces !! f = Some l -> l <> [] -> exists k face, assoc f map = Some k /\ out !! k = Some face /\ mapM (fun i => reps !! i) face = Some l).
Proof.
  intros Ha. unfold relabel_faces. induction faces as [|l faces IH] using rev_ind; intros Hc.
  - exists [], []. cbn. done.
  - destruct IH as (out & mp & E & HM & HF); [intros e He; apply Hc; rewrite concat_app; apply elem_of_app; by left|].
    rewrite imap_app. cbn [imap]. rewrite foldl_app, E. cbn [foldl mbind option_bind fst snd]. rewrite Nat.add_0_r. rewrite filter_app, filter_cons. destruct l as [|e0 l].
    + rewrite decide_False by (intros X; by apply X). rewrite filter_nil, app_nil_r. exists out, mp. split; [done|]. split; [done|]. intros f l Hf Hne. apply lookup_snoc_Some in Hf as [[_ Hf]|[_ <-]]; [|done]. by apply (HF f l).
    + rewrite decide_True by done. rewrite filter_nil. assert (Hin : forall e, e ∈ e0 :: l -> e ∈ reps). { intros e He. apply Hc. rewrite concat_app. apply elem_of_app. right. cbn [concat]. by rewrite app_nil_r. }
      destruct (mapM_ok (fun e => assoc e labels) (e0 :: l)) as (face & Em & HF2). { intros e He. apply Hin in He. apply elem_of_list_lookup in He as [i Hi]. exists i. by apply Ha. }
      rewrite Em. cbn [mbind option_bind]. assert (Er : mapM (fun i => reps !! i) face = Some (e0 :: l)). { apply mapM_Forall2. apply Forall2_flip. eapply Forall2_impl; [exact HF2|]. intros e i Hi. by apply Ha. }
      eexists _, _. split; [reflexivity|]. split.
      * rewrite mapM_app, HM. cbn [mbind option_bind mapM]. rewrite Er. done.
      * intros f l' Hf Hne. cbn [assoc]. apply lookup_snoc_Some in Hf as [[Hlt Hf]|[-> <-]].
        -- rewrite decide_False by lia. destruct (HF f l' Hf Hne) as (k & face' & ? & Hk & ?). exists k, face'. split; [done|]. split; [by apply lookup_app_l_Some|done].
        -- rewrite decide_True by done. exists (length out), face. split; [done|]. split; [|done]. apply lookup_snoc_Some. by right.
Qed.

(** C69: the intersection of a polymesh with a half space. *)
From stdpp Require Import base list list_numbers sorting.
From Verif Require Import Prelude ReorderModel MeshModel MeshProofs PolyModel PolySpec PolyProofs PropPolyOps PolyClipProofs PolyClipMesh.

Lemma joins_concat {A B} `{EqDecision A} (x y : A) (f : B -> list (A * A)) ls : joins x y (concat (map f ls)) = sum_list (map (fun l => joins x y (f l)) ls).
Proof. induction ls as [|l ls IH]; [done|]. cbn [map concat]. rewrite joins_app, IH. done. Qed.
Lemma sum_list_cons a l : sum_list (a :: l) = a + sum_list l.
Proof. done. Qed.
Lemma joins_comm {A} `{EqDecision A} (x y : A) ps : joins x y ps = joins y x ps.
Proof. unfold joins. f_equal. apply list_filter_iff. intros p. tauto. Qed.

Ltac inj := let Hq := fresh in intros [Hq|Hq]; injection Hq; clear Hq; intros; subst; try congruence; try tauto.
Ltac injc Hu := inj; repeat match goal with Hx : upair _ _ = _ |- _ => rewrite Hx in Hu; clear Hx end; cbn in Hu; try (apply Hu; congruence).
Section closed.
  Context (inside : nat -> bool).
  Lemma upair_eq a b x y : x < y -> upair a b = (x, y) <-> (a = x /\ b = y) \/ (a = y /\ b = x).
  Proof. intros H. unfold upair. destruct (decide _); split; [intros [= -> ->]; by left|intros [[-> ->]|[-> ->]]; [done|lia]|intros [= -> ->]; by right|intros [[-> ->]|[-> ->]]; [lia|done]]. Qed.
  Lemma upair_le a b : (upair a b).1 <= (upair a b).2.
  Proof. unfold upair. destruct (decide _); cbn; lia. Qed.

  (** the sides that are cut in [(a, b)] *)
  Lemma cuts_joins a b ss : a < b -> inside a <> inside b -> cuts inside (a, b) ss = joins a b ss.
  Proof.
    intros Hlt Hin. unfold cuts, joins. f_equal. apply list_filter_iff. intros [u v]. cbn [fst snd]. rewrite upair_eq by done. unfold cut_side. cbn [fst snd]. rewrite negb_true_iff, eqb_false_iff. split.
    - intros [_ [[-> ->]|[-> ->]]]; tauto.
    - intros [[= -> ->]|[= -> ->]]; split; auto.
  Qed.
  Lemma cuts_zero x ss : (x.2 <= x.1 \/ inside x.1 = inside x.2) -> cuts inside x ss = 0.
  Proof.
    intros Hx. unfold cuts. assert (E : filter (fun s => cut_side inside s = true /\ upair s.1 s.2 = x) ss = []); [|by rewrite E]. induction ss as [|[u v] ss IH]; [done|]. rewrite filter_cons, decide_False; [done|]. cbn [fst snd].
    unfold cut_side. cbn [fst snd]. rewrite negb_true_iff, eqb_false_iff. intros [Hc E]. unfold upair in E. destruct (decide (u <= v)); subst x; cbn in Hx; destruct Hx as [Hx|Hx]; try congruence; try lia.
    assert (u = v) by lia. congruence.
  Qed.
  Lemma cuts_even (faces : list (list nat)) x : closed faces -> Nat.Even (cuts inside x (concat (map sides faces))).
  Proof.
    intros H. destruct (decide (x.1 < x.2)) as [Hlt|Hlt].
    - destruct (bool_decide (inside x.1 = inside x.2)) eqn:E; [apply bool_decide_eq_true in E|apply bool_decide_eq_false in E].
      + rewrite cuts_zero by tauto. by exists 0.
      + destruct x as [a b]. cbn in *. rewrite cuts_joins by done. apply H. lia.
    - rewrite cuts_zero by lia. by exists 0.
  Qed.

  (** the sides along old sides *)
  Lemma along_even_vv (faces : list (list nat)) v w : closed faces -> v <> w -> Nat.Even (joins (v, v) (w, w) (concat (map (along inside) (concat (map sides faces))))).
  Proof.
    intros H Hne. destruct (inside v && inside w) eqn:E.
    - apply andb_true_iff in E as [Ev Ew]. enough (G : forall ss, joins (v, v) (w, w) (concat (map (along inside) ss)) = joins v w ss) by (rewrite G; by apply H).
      induction ss as [|[a b] ss IH]; [done|]. cbn [map concat]. rewrite joins_app, IH, joins_cons. f_equal. unfold along. cbn [fst snd].
      destruct (decide _) as [[[= -> ->]|[= -> ->]]|N].
      + rewrite Ev, Ew. rewrite joins_cons, decide_True by tauto. done.
      + rewrite Ev, Ew. rewrite joins_cons, decide_True by tauto. done.
      + destruct (inside a) eqn:Ea, (inside b) eqn:Eb; [| | |done]; rewrite joins_cons, decide_False; try done.
        * inj.
        * assert (Hu := upair_cut inside a b). injc Hu.
        * assert (Hu := upair_cut inside a b). injc Hu.
    - enough (G : forall ss, joins (v, v) (w, w) (concat (map (along inside) ss)) = 0) by (rewrite G; by exists 0).
      induction ss as [|[a b] ss IH]; [done|]. cbn [map concat]. rewrite joins_app, IH. unfold along. cbn [fst snd].
      assert (Hu := upair_cut inside a b).
      destruct (inside a) eqn:Ea, (inside b) eqn:Eb; [| | |done]; rewrite joins_cons, decide_False; try done.
      + inj; rewrite Ea, Eb in E; done.
      + injc Hu.
      + injc Hu.
  Qed.
  Lemma along_even_vc (faces : list (list nat)) v a b : closed faces -> a <> b -> Nat.Even (joins (v, v) (a, b) (concat (map (along inside) (concat (map sides faces))))).
  Proof.
    intros H Hne.
    (* the side counts where [v] is the inside end of [a, b] *)
    destruct (bool_decide (a < b /\ inside v = true /\ ((v = a /\ inside b = false) \/ (v = b /\ inside a = false)))) eqn:E; [apply bool_decide_eq_true in E as (Hlt & Ev & Hv)|apply bool_decide_eq_false in E].
    - enough (G : forall ss, joins (v, v) (a, b) (concat (map (along inside) ss)) = joins a b ss) by (rewrite G; by apply H).
      induction ss as [|[p q] ss IH]; [done|]. cbn [map concat]. rewrite joins_app, IH, joins_cons. f_equal. unfold along. cbn [fst snd].
      assert (Hab : upair a b = (a, b)) by (by apply upair_eq; [done|left]). assert (Hba : upair b a = (a, b)) by (by apply upair_eq; [done|right]).
      destruct (decide _) as [[[= -> ->]|[= -> ->]]|N].
      + destruct Hv as [[-> Hb]|[-> Ha]]; [rewrite Ev, Hb|rewrite Ha, Ev]; rewrite joins_cons, decide_True by (rewrite Hab; tauto); done.
      + destruct Hv as [[-> Hb]|[-> Ha]]; [rewrite Hb, Ev|rewrite Ev, Ha]; rewrite joins_cons, decide_True by (rewrite Hba; tauto); done.
      + destruct (inside p) eqn:Ep, (inside q) eqn:Eq; [| | |done]; rewrite joins_cons, decide_False; try done.
        * inj.
        * inj. match goal with Hx : upair _ _ = _ |- _ => apply upair_eq in Hx as [[-> ->]|[-> ->]]; [..|done]; apply N; tauto end.
        * inj. match goal with Hx : upair _ _ = _ |- _ => apply upair_eq in Hx as [[-> ->]|[-> ->]]; [..|done]; apply N; tauto end.
    - enough (G : forall ss, joins (v, v) (a, b) (concat (map (along inside) ss)) = 0) by (rewrite G; by exists 0).
      induction ss as [|[p q] ss IH]; [done|]. cbn [map concat]. rewrite joins_app, IH. unfold along. cbn [fst snd]. pose proof (upair_le p q) as Hle.
      destruct (inside p) eqn:Ep, (inside q) eqn:Eq; [| | |done]; rewrite joins_cons, decide_False; try done.
      + inj.
      + inj. match goal with Hx : upair _ _ = _ |- _ => rewrite Hx in Hle; cbn in Hle; apply E; assert (a < b) by lia; apply upair_eq in Hx as [[-> ->]|[-> ->]]; [..|done]; split_and!; tauto end.
      + inj. match goal with Hx : upair _ _ = _ |- _ => rewrite Hx in Hle; cbn in Hle; apply E; assert (a < b) by lia; apply upair_eq in Hx as [[-> ->]|[-> ->]]; [..|done]; split_and!; tauto end.
  Qed.
  Lemma along_cc ss a b c d : a <> b -> c <> d -> joins (a, b) (c, d) (concat (map (along inside) ss)) = 0.
  Proof.
    intros H1 H2. induction ss as [|[p q] ss IH]; [done|]. cbn [map concat]. rewrite joins_app, IH. unfold along. cbn [fst snd].
    destruct (inside p) eqn:Ep, (inside q) eqn:Eq; [| | |done]; rewrite joins_cons, decide_False; try done.
    - inj.
    - inj.
    - inj.
  Qed.
  Lemma along_even (faces : list (list nat)) x y : closed faces -> x <> y -> Nat.Even (joins x y (concat (map (along inside) (concat (map sides faces))))).
  Proof.
    intros H Hne. destruct x as [a b], y as [c d]. destruct (decide (a = b)) as [<-|Hab], (decide (c = d)) as [<-|Hcd].
    - apply along_even_vv; [done|]. congruence.
    - by apply along_even_vc.
    - rewrite joins_comm. by apply along_even_vc.
    - rewrite along_cc by done. by exists 0.
  Qed.

  Lemma loops_sides (faces : list (list nat)) : concat (map sides (map (clip_loop inside) faces)) ≡ₚ concat (map (along inside) (concat (map sides faces))) ++ concat (map chords (map (clip_loop inside) faces)).
  Proof.
    induction faces as [|face faces IH]; [done|]. cbn [map concat]. rewrite IH, map_app, concat_app. destruct (clip_loop_spec inside face) as [-> _]. rewrite <- !app_assoc. apply Permutation_app_head. rewrite !app_assoc. apply Permutation_app_tail. apply Permutation_app_comm.
  Qed.
  Lemma chords_deg (faces : list (list nat)) x : deg x (concat (map chords (map (clip_loop inside) faces))) = cuts inside x (concat (map sides faces)).
  Proof. induction faces as [|face faces IH]; [done|]. cbn [map concat]. rewrite deg_app, cuts_app, IH. f_equal. apply clip_loop_spec. Qed.

  (** a closed cell: the sides of the caps are the chords and the clipped cell is closed *)
  Lemma clip_closed (faces : list (list nat)) : closed faces ->
    let es := concat (map chords (map (clip_loop inside) faces)) in
    (forall x y, joins x y (concat (map sides (caps (length es) es))) = joins x y es) /\ closed (map (clip_loop inside) faces ++ caps (length es) es).
  Proof.
    intros H es. assert (HJ : forall x y, joins x y (concat (map sides (caps (length es) es))) = joins x y es).
    { apply caps_closed; [done|]. intros x. unfold es. rewrite chords_deg. by apply cuts_even. }
    split; [done|]. intros x y Hxy. rewrite map_app, concat_app, joins_app, HJ. rewrite (joins_perm x y _ _ (loops_sides faces)), joins_app. fold es.
    destruct (along_even faces x y H Hxy) as [k Hk]. exists (k + joins x y es). lia.
  Qed.
End closed.

Lemma sides_filter {A} (ls : list (list A)) : concat (map sides (filter (fun l => l <> []) ls)) = concat (map sides ls).
Proof. induction ls as [|l ls IH]; [done|]. rewrite filter_cons. destruct (decide _) as [H|H]; cbn [map concat]; rewrite IH; [done|]. destruct l; [done|]. by destruct H. Qed.
Lemma chords_filter ls : concat (map chords (filter (fun l => l <> []) ls)) = concat (map chords ls).
Proof. induction ls as [|l ls IH]; [done|]. rewrite filter_cons. destruct (decide _) as [H|H]; cbn [map concat]; rewrite IH; [done|]. destruct l; [done|]. by destruct H. Qed.
Lemma map_kept inside faces cell : map (loop inside faces) (kept inside faces cell) = filter (fun l => l <> []) (map (loop inside faces) cell).
Proof. unfold kept. induction cell as [|f cell IH]; [done|]. cbn [map]. rewrite !filter_cons. destruct (decide _) as [H|H]; cbn [map]; by rewrite IH. Qed.

(** the faces of a cell, as loops of vertices *)
Definition cell_faces {V} (m : polymesh V) (cell : list nat) : list (list nat) := map (fun f => default [] (pm_faces m !! f)) cell.
(** the vertices a half space contains *)
Definition contained {V} (contains : V -> bool) (m : polymesh V) (v : nat) : bool := match pm_vertices m !! v with Some x => contains x | None => false end.
(** the nonempty clipped faces of a cell *)
Definition clipped_faces {V} (contains : V -> bool) (m : polymesh V) (fs : list (list nat)) : list (list (nat * nat)) :=
  filter (fun l => l <> []) (map (clip_loop (contained contains m)) fs).
(** the vertex of the clipped mesh that is denoted by a pair of old vertices *)
Definition clip_vertex {V} (contains : V -> bool) (cut : V -> V -> V) (m : polymesh V) (e : nat * nat) (x : V) : Prop :=
  exists a b, pm_vertices m !! e.1 = Some a /\ pm_vertices m !! e.2 = Some b /\
    ((e.1 = e.2 /\ contains a = true /\ x = a) \/ (e.1 < e.2 /\ contains a <> contains b /\ x = cut a b)).

Lemma ins_contained {V} (contains : V -> bool) m v : ins (map contains (pm_vertices m)) v = contained contains m v.
Proof. unfold ins, contained. rewrite list_lookup_fmap. by destruct (pm_vertices m !! v). Qed.
Lemma clip_loop_ext p q face : (forall v, p v = q v) -> clip_loop p face = clip_loop q face.
Proof. intros H. unfold clip_loop. f_equal. apply map_ext. intros s. by rewrite !H. Qed.

(** C69: clipping a mesh never panics. The vertices of the result are the old vertices in the half space and the cut points of sides with
    one end in the half space; its faces are the clipped old faces and caps, its cells the old cells with the clipped faces and the caps.
    The caps of a closed cell close it: their sides are the chords of its clipped faces and the clipped cell is closed. *)
Theorem C69_clip {V} (contains : V -> bool) (cut : V -> V -> V) (origin : V) (m : polymesh V) : pm_ok m ->
  exists m' (reps : list (nat * nat)) (capss : list (list (list (nat * nat)))),
    clip_mesh contains cut origin m = Some m' /\ pm_ok m' /\ NoDup reps /\ Forall2 (clip_vertex contains cut m) reps (pm_vertices m') /\
    mapM (mapM (fun v => reps !! v)) (pm_faces m') = Some (clipped_faces contains m (pm_faces m) ++ concat capss) /\
    mapM (mapM (fun f => face ← pm_faces m' !! f; mapM (fun v => reps !! v) face)) (pm_cells m') =
      Some (filter (fun c => c <> []) (zip_with (fun cell cs => clipped_faces contains m (cell_faces m cell) ++ cs) (pm_cells m) capss)) /\
    Forall2 (fun cell cs =>
        Forall (fun cap => cap <> [] /\ forall e, e ∈ cap -> exists ch, ch ∈ concat (map chords (clipped_faces contains m (cell_faces m cell))) /\ (e = ch.1 \/ e = ch.2)) cs /\
        (closed (cell_faces m cell) ->
          (forall x y, joins x y (concat (map sides cs)) = joins x y (concat (map chords (clipped_faces contains m (cell_faces m cell))))) /\
          closed (clipped_faces contains m (cell_faces m cell) ++ cs))) (pm_cells m) capss.
Proof.
  intros [Hf Hc]. unfold clip_mesh. set (inside := map contains (pm_vertices m)). assert (Hlen : length inside = length (pm_vertices m)) by apply map_length.
  assert (Hext : forall face, clip_loop (ins inside) face = clip_loop (contained contains m) face). { intros face. apply clip_loop_ext. intros v. apply ins_contained. }
  assert (E1 : mapM (clip_face inside) (pm_faces m) = Some (clipped inside (pm_faces m))).
  { apply mapM_Forall2. unfold clipped. apply Forall2_fmap_r. apply Forall_Forall2_diag. eapply Forall_impl; [exact Hf|]. intros face Hface. apply clip_face_ok. by rewrite Hlen. }
  rewrite E1. cbn [mbind option_bind]. assert (E2 : map fst (clipped inside (pm_faces m)) = loops0 inside (pm_faces m)). { unfold clipped, loops0. rewrite map_map. done. }
  rewrite E2. destruct (outer_fold inside (pm_faces m) (pm_cells m) Hc) as (cells' & E3 & HC). rewrite E3. cbn [mbind option_bind].
  set (capss := map (cell_caps inside (pm_faces m)) (pm_cells m)) in *. set (faces := loops0 inside (pm_faces m) ++ concat capss) in *.
  assert (Eloops : forall cell, map (loop inside (pm_faces m)) cell = map (clip_loop (contained contains m)) (cell_faces m cell)).
  { intros cell. unfold cell_faces. rewrite map_map. apply map_ext. intros f. unfold loop. apply Hext. }
  assert (Echords : forall cell, cell_chords inside (pm_faces m) cell = concat (map chords (map (clip_loop (contained contains m)) (cell_faces m cell)))).
  { intros cell. unfold cell_chords. rewrite <- Eloops, map_map. done. }
  assert (Hcap : forall cell, Forall (fun cap => cap <> [] /\ forall e, e ∈ cap -> exists ch, ch ∈ cell_chords inside (pm_faces m) cell /\ (e = ch.1 \/ e = ch.2)) (cell_caps inside (pm_faces m) cell)).
  { intros cell. apply caps_elems. done. }
  (* all representatives *)
  assert (Hloop : forall face e, face ∈ pm_faces m -> e ∈ clip_loop (ins inside) face -> exists x, clip_vertex contains cut m e x).
  { intros face e Hface He. rewrite Hext in He. destruct (clip_loop_elem (map contains (pm_vertices m)) face e) as (s & Hs & H). { fold inside. by rewrite Hext. }
    apply sides_elem in Hs as [A B]. rewrite Forall_forall in Hf. specialize (Hf face Hface). rewrite Forall_forall in Hf. apply Hf in A, B.
    destruct (lookup_lt_is_Some_2 _ _ A) as [a Ha], (lookup_lt_is_Some_2 _ _ B) as [b Hb]. rewrite !ins_contained in H. unfold contained in H. rewrite Ha, Hb in H. destruct H as [[H ->]|[H ->]].
    - exists a, a, a. cbn. split; [done|]. split; [done|]. by left.
    - unfold upair. assert (s.1 <> s.2). { intros E. rewrite E in Ha. congruence. } destruct (decide _).
      + exists (cut a b), a, b. cbn. split; [done|]. split; [done|]. right. split; [lia|done].
      + exists (cut b a), b, a. cbn. split; [done|]. split; [done|]. right. split; [lia|]. split; [congruence|done]. }
  assert (Hchord : forall cell ch, cell ∈ pm_cells m -> ch ∈ cell_chords inside (pm_faces m) cell -> (exists x, clip_vertex contains cut m ch.1 x) /\ (exists x, clip_vertex contains cut m ch.2 x)).
  { intros cell ch Hcell Hch. unfold cell_chords in Hch. apply elem_of_concat in Hch as (l & Hl & Hch). apply elem_of_list_fmap in Hl as (f & -> & Hf'). apply chords_elem in Hch as [[A _] [B _]].
    rewrite Forall_forall in Hc. specialize (Hc cell Hcell). rewrite Forall_forall in Hc. specialize (Hc f Hf'). destruct (lookup_lt_is_Some_2 _ _ Hc) as [face Hface]. unfold loop in A, B. rewrite Hface in A, B. cbn in A, B.
    split; (eapply Hloop; [by eapply elem_of_list_lookup_2|done]). }
  assert (Hreps : forall e, e ∈ concat faces -> exists x, clip_vertex contains cut m e x).
  { intros e He. apply elem_of_concat in He as (l & Hl & He). unfold faces in Hl. apply elem_of_app in Hl as [Hl|Hl].
    - unfold loops0 in Hl. apply elem_of_list_fmap in Hl as (face & -> & Hface). by apply (Hloop face).
    - apply elem_of_concat in Hl as (cs & Hcs & Hl). unfold capss in Hcs. apply elem_of_list_fmap in Hcs as (cell & -> & Hcell). specialize (Hcap cell). rewrite Forall_forall in Hcap. destruct (Hcap l Hl) as [_ H]. destruct (H e He) as (ch & Hch & [-> | ->]); eapply Hchord; done. }
  destruct (labels_ok (concat faces)) as (reps & Hnd & Hin & Hll & Has & Hlb & Hlc).
  assert (Hbound : forall e, e ∈ reps -> e.1 < length (pm_vertices m) /\ e.2 < length (pm_vertices m)).
  { intros e He. apply Hin in He. destruct (Hreps e He) as (x & a & b & Ha & Hb & _). split; by eapply lookup_lt_Some. }
  destruct (points_ok cut origin (pm_vertices m) (concat faces) reps Hbound Hll Hlb Hlc) as (vs & E4 & HP). rewrite E4. cbn [mbind option_bind].
  destruct (relabel_faces_ok faces (vertex_labels (concat faces)) reps Has) as (out & mp & E5 & HM & HF); [intros e He; by apply Hin|]. rewrite E5. cbn [mbind option_bind].
  (* the cells *)
  assert (Hfil : filter (fun l => l <> []) faces = clipped_faces contains m (pm_faces m) ++ concat capss).
  { unfold faces. rewrite filter_app. f_equal.
    - unfold loops0, clipped_faces. f_equal. apply map_ext. intros face. apply Hext.
    - clear -Hcap. unfold capss. induction (pm_cells m) as [|cell cells IH]; [done|]. cbn [map concat]. rewrite filter_app, IH. f_equal. specialize (Hcap cell). induction Hcap as [|cap cs [Hne _] _ IHc]; [done|]. rewrite filter_cons, decide_True by done. by rewrite IHc. }
  assert (Hcl : forall cell, cell_loops inside (pm_faces m) cell = clipped_faces contains m (cell_faces m cell) ++ cell_caps inside (pm_faces m) cell).
  { intros cell. unfold cell_loops. rewrite map_kept, Eloops. done. }
  assert (Hne : forall cell l, l ∈ cell_loops inside (pm_faces m) cell -> l <> []).
  { intros cell l. rewrite Hcl. intros H. apply elem_of_app in H as [H|H]; [unfold clipped_faces in H; by apply elem_of_list_filter in H as [? _]|]. specialize (Hcap cell). rewrite Forall_forall in Hcap. by apply Hcap. }
  assert (E6 : exists fc, mapM (mapM (fun f => assoc f mp)) (filter (fun c => c <> []) cells') = Some fc /\
    mapM (mapM (fun f => face ← out !! f; mapM (fun v => reps !! v) face)) fc = Some (filter (fun c => c <> []) (map (cell_loops inside (pm_faces m)) (pm_cells m)))).
  { clear -HC HF Hne. clearbody faces. clearbody capss. revert HC. generalize (pm_cells m). intros cells0 HC. induction HC as [|cell c cells cells' Hc _ IH]; [by exists []|]. destruct IH as (fc & IH1 & IH2). cbn [map]. rewrite !filter_cons.
    assert (Hiff : c <> [] <-> cell_loops inside (pm_faces m) cell <> []). { apply mapM_Forall2, Forall2_length in Hc. destruct c, (cell_loops inside (pm_faces m) cell); cbn in Hc; try lia; by split. }
    destruct (decide (c <> [])) as [D|D].
    - rewrite decide_True by (by apply Hiff). assert (G : exists c', mapM (fun f => assoc f mp) c = Some c' /\ mapM (fun f => face ← out !! f; mapM (fun v => reps !! v) face) c' = Some (cell_loops inside (pm_faces m) cell)).
      { specialize (Hne cell). clear -Hc HF Hne. apply mapM_Forall2 in Hc. induction Hc as [|f l c ls Hfl _ IH]; [by exists []|]. destruct IH as (c' & I1 & I2); [intros l' Hl'; apply Hne; by right|]. destruct (HF f l Hfl) as (k & face & A & B & C); [apply Hne; by left|].
        exists (k :: c'). cbn [mapM]. rewrite A, I1. cbn [mbind option_bind]. split; [done|]. rewrite B. cbn [mbind option_bind]. rewrite C, I2. done. }
      destruct G as (c' & G1 & G2). exists (c' :: fc). cbn [mapM]. rewrite G1, IH1, G2, IH2. done.
    - rewrite decide_False by (by rewrite <- Hiff). by exists fc. }
  destruct E6 as (fc & E6 & E7). rewrite E6. cbn [mbind option_bind]. assert (Hvl : length vs = length reps) by (symmetry; by eapply Forall2_length).
  assert (Hok : pm_ok (PolyMesh vs out fc)).
  { split; cbn.
    - apply mapM_bounds in HM. by rewrite Hvl.
    - apply mapM_Forall2 in E7. apply Forall_forall. intros c Hcc. apply elem_of_list_lookup in Hcc as [i Hi]. destruct (Forall2_lookup_l _ _ _ _ _ E7 Hi) as (ls & _ & Hls). apply mapM_Forall2 in Hls. apply Forall_forall. intros f Hff. apply elem_of_list_lookup in Hff as [j Hj].
      destruct (Forall2_lookup_l _ _ _ _ _ Hls Hj) as (l & _ & Hl). destruct (out !! f) eqn:Ef; [by eapply lookup_lt_Some|done]. }
  rewrite from_poly_data_ok by done. exists (PolyMesh vs out fc), reps, capss. split; [done|]. split; [done|]. split; [done|]. split; [|split; [|split]]; cbn [pm_vertices pm_faces pm_cells].
  - apply Forall2_same_length_lookup. split; [done|]. intros i e x Hi Hx. destruct (Forall2_lookup_lr _ _ _ _ _ _ HP Hi Hx) as (a & b & Ha & Hb & ->). assert (He : e ∈ concat faces) by (apply Hin; by eapply elem_of_list_lookup_2).
    destruct (Hreps e He) as (x & a' & b' & Ha' & Hb' & Hx'). exists a, b. split; [done|]. split; [done|]. assert (a' = a) by congruence. assert (b' = b) by congruence. subst a' b'. destruct Hx' as [(Eq & Hca & _)|(Hlt & Hca & _)].
    + rewrite decide_True by done. by left.
    + rewrite decide_False by lia. by right.
  - rewrite HM. by rewrite Hfil.
  - rewrite E7. f_equal. f_equal. unfold capss. clear -Hcl. induction (pm_cells m) as [|cell cells IH]; [done|]. cbn [map zip_with]. by rewrite IH, Hcl.
  - unfold capss. apply Forall2_fmap_r. apply Forall_Forall2_diag. apply Forall_forall. intros cell _. unfold compose. unfold clipped_faces. rewrite chords_filter. rewrite <- Echords. split; [apply Hcap|]. intros Hclosed.
    destruct (clip_closed (contained contains m) (cell_faces m cell) Hclosed) as [A B]. rewrite <- Echords in A, B. split; [exact A|]. intros x y Hxy. specialize (B x y Hxy). rewrite map_app, concat_app in B |- *. by rewrite sides_filter.
Qed.
Print Assumptions C69_clip.

(** * the clipped mesh is closed again *)
(** every cell is closed *)
Definition closed_mesh {V} (m : polymesh V) : Prop := Forall (fun cell => closed (cell_faces m cell)) (pm_cells m).

Lemma sides_map {A B} (g : A -> B) l : sides (map g l) = map (fun s => (g s.1, g s.2)) (sides l).
Proof.
  destruct l as [|x l]; [done|]. cbn [map]. rewrite !sides_lp. change (g x :: map g l ++ [g x]) with (map g (x :: l) ++ map g [x]). rewrite <- map_app. change ((x :: l) ++ [x]) with (x :: l ++ [x]). generalize (x :: l ++ [x]). clear.
  induction l as [|a [|b l] IH]; [done..|]. cbn [map] in *. rewrite !lp_cons. cbn [map]. by rewrite IH.
Qed.
Lemma joins_map {A B} `{EqDecision A, EqDecision B} (g : A -> B) (P : A -> Prop) x y ps : (forall a b, P a -> P b -> g a = g b -> a = b) -> P x -> P y -> (forall p, p ∈ ps -> P p.1 /\ P p.2) ->
  joins (g x) (g y) (map (fun s => (g s.1, g s.2)) ps) = joins x y ps.
Proof.
  intros Hi Hx Hy Hp. induction ps as [|[a b] ps IH]; [done|]. cbn [map]. rewrite !joins_cons, IH by (intros; apply Hp; by right). f_equal. destruct (Hp (a, b)) as [Ha Hb]; [by left|]. cbn [fst snd] in *.
  destruct (decide ((a, b) = _ \/ _)) as [[[= -> ->]|[= -> ->]]|N]; [by rewrite decide_True by tauto..|]. rewrite decide_False; [done|]. intros [[= E1 E2]|[= E1 E2]]; apply N; apply Hi in E1, E2; try done; subst; tauto.
Qed.
Lemma closed_indices (reps : list (nat * nat)) idx loops : NoDup reps -> mapM (mapM (fun v => reps !! v)) idx = Some loops -> closed loops -> closed idx.
Proof.
  intros Hn Hm Hc x y Hxy. assert (Hb := mapM_bounds _ _ _ Hm). set (g := fun i => default (0, 0) (reps !! i)).
  assert (El : loops = map (map g) idx).
  { apply mapM_Forall2 in Hm. clear -Hm. induction Hm as [|l k ls ks Hl _ IH]; [done|]. cbn [map]. f_equal; [|done]. apply mapM_Forall2 in Hl. clear -Hl. induction Hl as [|i e l k Hi _ IH]; [done|]. cbn [map]. f_equal; [|done]. unfold g. by rewrite Hi. }
  assert (Hs : forall p, p ∈ concat (map sides idx) -> p.1 < length reps /\ p.2 < length reps).
  { intros p Hp. apply elem_of_concat in Hp as (ss & Hss & Hp). apply elem_of_list_fmap in Hss as (l & -> & Hl). apply sides_elem in Hp as [A B]. rewrite Forall_forall in Hb. specialize (Hb l Hl). rewrite Forall_forall in Hb. split; by apply Hb. }
  assert (Es : concat (map sides loops) = map (fun s => (g s.1, g s.2)) (concat (map sides idx))).
  { rewrite El. clear. induction idx as [|l idx IH]; [done|]. cbn [map concat]. rewrite map_app, IH, sides_map. done. }
  destruct (decide (x < length reps /\ y < length reps)) as [[Hx Hy]|N].
  - assert (Hinj : forall a b, a < length reps -> b < length reps -> g a = g b -> a = b).
    { intros a b Ha Hb' E. unfold g in E. destruct (lookup_lt_is_Some_2 _ _ Ha) as [ea Ea], (lookup_lt_is_Some_2 _ _ Hb') as [eb Eb]. rewrite Ea, Eb in E. cbn in E. subst eb. by eapply NoDup_lookup. }
    rewrite <- (joins_map g (fun i => i < length reps) x y) by done. rewrite <- Es. apply Hc. intros E. apply Hxy. by apply Hinj.
  - exists 0. cbn. unfold joins. assert (E : filter (fun p => p = (x, y) \/ p = (y, x)) (concat (map sides idx)) = []); [|by rewrite E]. clear -Hs N. induction (concat (map sides idx)) as [|p ps IH]; [done|]. rewrite filter_cons, decide_False; [apply IH; intros; apply Hs; by right|].
    destruct (Hs p) as [A B]; [by left|]. intros [-> | ->]; cbn in *; apply N; done.
Qed.

(** C69: the result of clipping a mesh of closed cells has closed cells only. *)
Theorem C69_closed {V} (contains : V -> bool) (cut : V -> V -> V) (origin : V) (m m' : polymesh V) :
  pm_ok m -> closed_mesh m -> clip_mesh contains cut origin m = Some m' -> closed_mesh m'.
Proof.
  intros Hok Hcl Hm. destruct (C69_clip contains cut origin m Hok) as (m'' & reps & capss & Hm'' & Hok' & Hn & _ & Hf & Hc & HF). assert (m'' = m') by congruence. subst m''. unfold closed_mesh.
  apply mapM_Forall2 in Hc. apply Forall_forall. intros c Hin. apply elem_of_list_lookup in Hin as [i Hi]. destruct (Forall2_lookup_l _ _ _ _ _ Hc Hi) as (loops & Hl & Hcl').
  apply elem_of_list_lookup_2 in Hl. apply elem_of_list_filter in Hl as [_ Hl]. apply (closed_indices reps _ loops Hn).
  - unfold cell_faces. rewrite mapM_map. rewrite <- Hcl'. apply mapM_ext'. intros f Hff. destruct Hok' as [_ Hb]. rewrite Forall_forall in Hb. specialize (Hb c (elem_of_list_lookup_2 _ _ _ Hi)). rewrite Forall_forall in Hb. specialize (Hb f Hff).
    destruct (lookup_lt_is_Some_2 _ _ Hb) as [face ->]. done.
  - apply elem_of_lookup_zip_with in Hl as (j & cell & cs & -> & Hcell & Hcs). destruct (Forall2_lookup_lr _ _ _ _ _ _ HF Hcell Hcs) as [_ H]. apply H. unfold closed_mesh in Hcl. rewrite Forall_forall in Hcl. apply Hcl. by eapply elem_of_list_lookup_2.
Qed.
Print Assumptions C69_closed.

(** C69: the intersection with any number of half spaces never panics. Any property of points that all vertices have and that passes to
    cut points holds at the vertices of the result, and closed cells stay closed. *)
Theorem C69_clip_all {V H} (contains : H -> V -> bool) (cut : H -> V -> V -> V) (origin : V) (hs : list H) (m : polymesh V) : pm_ok m ->
  exists m', clip_all contains cut origin hs m = Some m' /\ pm_ok m' /\ (closed_mesh m -> closed_mesh m') /\
    (forall P : V -> Prop, (forall h a b, h ∈ hs -> P a -> P b -> contains h a <> contains h b -> P (cut h a b)) -> Forall P (pm_vertices m) -> Forall P (pm_vertices m')) /\
    (forall h, h ∈ hs -> (forall g a b, g ∈ hs -> contains h a = true -> contains h b = true -> contains g a <> contains g b -> contains h (cut g a b) = true) ->
      (forall a b, contains h a <> contains h b -> contains h (cut h a b) = true) -> Forall (fun x => contains h x = true) (pm_vertices m')).
Proof.
  intros Hok. unfold clip_all. induction hs as [|h hs IH] using rev_ind.
  - exists m. cbn. split; [done|]. split; [done|]. split; [done|]. split; [done|]. intros h Hh. by apply elem_of_nil in Hh.
  - destruct IH as (m1 & E & Hok1 & Hcl & HP & HC). rewrite foldl_app, E. cbn [foldl mbind option_bind]. destruct (C69_clip (contains h) (cut h) origin m1 Hok1) as (m' & reps & capss & Hm' & Hok' & _ & Hv & _).
    exists m'. split; [done|]. split; [done|]. split; [|split].
    + intros Hc. apply (C69_closed (contains h) (cut h) origin m1); [done|by apply Hcl|done].
    + intros P HPc HPm. assert (H1 : Forall P (pm_vertices m1)). { apply HP; [|done]. intros g a b Hg. apply HPc. apply elem_of_app. by left. }
      rewrite Forall_forall in H1. apply Forall_forall. intros x Hx. apply elem_of_list_lookup in Hx as [i Hi]. destruct (Forall2_lookup_r _ _ _ _ _ Hv Hi) as (e & _ & a & b & Ha & Hb & [(_ & _ & ->)|(_ & Hne & ->)]).
      * apply H1. by eapply elem_of_list_lookup_2.
      * apply HPc; [apply elem_of_app; right; by left|apply H1; by eapply elem_of_list_lookup_2..|done].
    + intros g Hg Hconv Hself. apply Forall_forall. intros x Hx. apply elem_of_list_lookup in Hx as [i Hi]. destruct (Forall2_lookup_r _ _ _ _ _ Hv Hi) as (e & _ & a & b & Ha & Hb & Hx).

      apply elem_of_app in Hg as [Hg|Hg].
      * assert (H1 : Forall (fun x => contains g x = true) (pm_vertices m1)). { apply HC; [done| |done]. intros g' a' b' Hg1. apply Hconv. apply elem_of_app. by left. }
        rewrite Forall_forall in H1. destruct Hx as [(_ & _ & ->)|(_ & Hne & ->)]; [apply H1; by eapply elem_of_list_lookup_2|]. apply Hconv; [apply elem_of_app; right; by left|apply H1; by eapply elem_of_list_lookup_2..|done].
      * apply elem_of_list_singleton in Hg as ->. destruct Hx as [(_ & Hca & ->)|(_ & Hne & ->)]; [done|by apply Hself].
Qed.
Print Assumptions C69_clip_all.

(** sides that occur as often in one direction as in the other form a closed surface *)
Lemma reversible_closed {A} `{EqDecision A} (faces : list (list A)) :
  concat (map sides faces) ≡ₚ map (fun e => (e.2, e.1)) (concat (map sides faces)) -> closed faces.
Proof.
  unfold closed. set (s := concat (map sides faces)). intros P x y N.
  assert (E : joins x y s = length (filter (fun p => p = (x, y)) s) + length (filter (fun p => p = (y, x)) s)).
  { clearbody s. clear P. induction s as [|[a b] s IH]; [done|]. rewrite joins_cons, IH, !filter_cons. destruct (decide ((a, b) = (x, y) \/ _)) as [D|D].
    - destruct D as [[= -> ->]|[= -> ->]].
      + rewrite decide_True by done. rewrite (decide_False (P := (x, y) = (y, x))) by congruence. cbn. lia.
      + rewrite (decide_False (P := (y, x) = (x, y))) by congruence. rewrite decide_True by done. cbn. lia.
    - rewrite !decide_False by tauto. cbn. lia. }
  assert (E2 : length (filter (fun p => p = (x, y)) s) = length (filter (fun p => p = (y, x)) s)).
  { rewrite P at 1. clear. induction s as [|[a b] s IH]; [done|]. cbn [map fst snd]. rewrite !filter_cons. destruct (decide ((b, a) = (x, y))) as [D|D].
    - injection D as -> ->. rewrite decide_True by done. cbn. lia.
    - rewrite decide_False by congruence. exact IH. }
  exists (length (filter (fun p => p = (y, x)) s)). lia.
Qed.

(** it is enough to look at the sides *)
Lemma closed_check {A} `{EqDecision A} (faces : list (list A)) :
  forallb (fun s : A * A => Nat.even (joins s.1 s.2 (concat (map sides faces)))) (concat (map sides faces)) = true -> closed faces.
Proof.
  intros H x y _. rewrite forallb_forall in H. set (s := concat (map sides faces)) in *. destruct (filter (fun p => p = (x, y) \/ p = (y, x)) s) as [|e r] eqn:E.
  - unfold joins. rewrite E. by exists 0.
  - assert (He : e ∈ filter (fun p => p = (x, y) \/ p = (y, x)) s) by (rewrite E; left). apply elem_of_list_filter in He as [[->| ->] He]; apply elem_of_list_In, H in He; cbn [fst snd] in He; apply Nat.even_spec in He; [done|by rewrite joins_comm].
Qed.

(** Two cubes, one above the other, with the heights of the vertices as points; the upper one is cut in the middle. *)
Definition ex_tower : polymesh nat :=
  PolyMesh [0; 0; 0; 0; 2; 2; 2; 2; 4; 4; 4; 4]
    [[0; 3; 2; 1]; [0; 1; 5; 4]; [1; 2; 6; 5]; [2; 3; 7; 6]; [3; 0; 4; 7]; [4; 5; 6; 7]; [4; 5; 9; 8]; [5; 6; 10; 9]; [6; 7; 11; 10]; [7; 4; 8; 11]; [8; 9; 10; 11]]
    [[0; 1; 2; 3; 4; 5]; [5; 6; 7; 8; 9; 10]].
Definition ex_below : polymesh nat :=
  PolyMesh [0; 0; 0; 0; 2; 2; 2; 2; 3; 3; 3; 3]
    [[0; 1; 2; 3]; [0; 3; 4; 5]; [3; 2; 6; 4]; [2; 1; 7; 6]; [1; 0; 5; 7]; [5; 4; 6; 7]; [5; 4; 8; 9]; [4; 6; 10; 8]; [6; 7; 11; 10]; [7; 5; 9; 11]; [9; 11; 10; 8]]
    [[0; 1; 2; 3; 4; 5]; [5; 6; 7; 8; 9; 10]].
Example C69_example : pm_ok ex_tower /\ closed_mesh ex_tower /\ clip_mesh (fun z => z <=? 3) (fun _ _ => 3) 0 ex_tower = Some ex_below /\ closed_mesh ex_below /\
  clip_all (fun h z => z <=? h) (fun h _ _ => h) 0 [3; 1] ex_tower = clip_mesh (fun z => z <=? 1) (fun _ _ => 1) 0 ex_below.
Proof.
  split; [split; apply Forall_forall; intros l Hl; apply Forall_forall; intros x Hx; cbn in *; repeat (apply elem_of_cons in Hl as [->|Hl]; [repeat (apply elem_of_cons in Hx as [->|Hx]; [lia|]); by apply elem_of_nil in Hx|]); by apply elem_of_nil in Hl|].
  split; [repeat (constructor; [apply closed_check; vm_compute; reflexivity|]); constructor|].
  split; [vm_compute; reflexivity|].
  split; [repeat (constructor; [apply closed_check; vm_compute; reflexivity|]); constructor|]. vm_compute. reflexivity.
Qed.

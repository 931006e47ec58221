(** C66, C67, C68: joining polymeshes, keeping some cells, splitting edges (polymesh.rs:245-323, 445-502). *)
From stdpp Require Import base list list_numbers sorting.
From Verif Require Import Prelude ReorderModel MeshModel MeshProofs PolyModel PolySpec PolyProofs.

Lemma mapM_app {A B} (f : A -> option B) l k : mapM f (l ++ k) = (a ← mapM f l; b ← mapM f k; Some (a ++ b)).
Proof. induction l as [|x l IH]; cbn; [by destruct (mapM f k)|]. destruct (f x); cbn; [|done]. rewrite IH. destruct (mapM f l); cbn; [|done]. by destruct (mapM f k). Qed.
Lemma mapM_ext' {A B} (f g : A -> option B) l : (forall x, x ∈ l -> f x = g x) -> mapM f l = mapM g l.
Proof. intros H. induction l as [|x l IH]; cbn; [done|]. rewrite (H x) by by left. destruct (g x); cbn; [|done]. rewrite IH; [done|]. intros y Hy. apply H. by right. Qed.
Lemma mapM_map {A B C} (f : B -> option C) (g : A -> B) l : mapM f (map g l) = mapM (fun x => f (g x)) l.
Proof. induction l as [|x l IH]; cbn; [done|]. destruct (f (g x)); cbn; [|done]. by rewrite IH. Qed.

Lemma polygon_ok {V} (m : polymesh V) f : pm_ok m -> f < length (pm_faces m) -> is_Some (polygon_of m f).
Proof.
  intros [Hf _] L. unfold polygon_of. destruct (lookup_lt_is_Some_2 _ _ L) as [face E]. rewrite E. cbn [mbind option_bind]. apply mapM_is_Some_2.
  rewrite Forall_lookup in Hf. specialize (Hf f face E). eapply Forall_impl; [exact Hf|]. intros v Hv. by apply lookup_lt_is_Some_2.
Qed.
Lemma polygons_ok {V} (m : polymesh V) : pm_ok m -> is_Some (polygons m).
Proof.
  intros Hok. apply mapM_is_Some_2. eapply Forall_impl; [exact (proj2 Hok)|]. intros cell Hcell. apply mapM_is_Some_2. eapply Forall_impl; [exact Hcell|]. intros f Hf. by apply polygon_ok.
Qed.
Lemma from_poly_data_ok {V} (vs : list V) fs cs : pm_ok (PolyMesh vs fs cs) -> from_poly_data vs fs cs = Some (PolyMesh vs fs cs).
Proof. intros [H1 H2]. unfold from_poly_data. rewrite decide_True by exact H1. by rewrite decide_True by exact H2. Qed.

Definition joined {V} (a b : polymesh V) : polymesh V :=
  PolyMesh (pm_vertices a ++ pm_vertices b) (pm_faces a ++ map (map (fun v => v + length (pm_vertices a))) (pm_faces b))
    (pm_cells a ++ map (map (fun f => f + length (pm_faces a))) (pm_cells b)).
Lemma joined_ok {V} (a b : polymesh V) : pm_ok a -> pm_ok b -> pm_ok (joined a b).
Proof.
  intros [A1 A2] [B1 B2]. split; cbn; rewrite app_length, ?map_length.
  - apply Forall_app. split.
    + eapply Forall_impl; [exact A1|]. intros face H. eapply Forall_impl; [exact H|]. cbn. lia.
    + apply Forall_fmap. eapply Forall_impl; [exact B1|]. intros face H. apply Forall_fmap. eapply Forall_impl; [exact H|]. cbn. lia.
  - apply Forall_app. split.
    + eapply Forall_impl; [exact A2|]. intros cell H. eapply Forall_impl; [exact H|]. cbn. lia.
    + apply Forall_fmap. eapply Forall_impl; [exact B2|]. intros cell H. apply Forall_fmap. eapply Forall_impl; [exact H|]. cbn. lia.
Qed.
Lemma joined_l {V} (a b : polymesh V) f : pm_ok a -> f < length (pm_faces a) -> polygon_of (joined a b) f = polygon_of a f.
Proof.
  intros [A1 _] L. unfold polygon_of, joined; cbn [pm_faces pm_vertices]. rewrite lookup_app_l by done. destruct (pm_faces a !! f) as [face|] eqn:E; cbn [mbind option_bind]; [|done].
  apply mapM_ext'. intros v Hv. rewrite Forall_lookup in A1. specialize (A1 f face E). rewrite Forall_forall in A1. by rewrite lookup_app_l by by apply A1.
Qed.
Lemma joined_r {V} (a b : polymesh V) f : polygon_of (joined a b) (f + length (pm_faces a)) = polygon_of b f.
Proof.
  unfold polygon_of, joined; cbn [pm_faces pm_vertices]. rewrite lookup_app_r by lia. replace (f + length (pm_faces a) - length (pm_faces a)) with f by lia. rewrite list_lookup_fmap.
  destruct (pm_faces b !! f) as [face|]; cbn [mbind option_bind fmap option_fmap option_map]; [|done]. rewrite mapM_map. apply mapM_ext'. intros v _. rewrite lookup_app_r by lia. f_equal. lia.
Qed.
Lemma joined_polygons {V} (a b : polymesh V) pa pb : pm_ok a -> polygons a = Some pa -> polygons b = Some pb -> polygons (joined a b) = Some (pa ++ pb).
Proof.
  intros Ha Ea Eb. unfold polygons. cbn [pm_cells joined]. rewrite mapM_app.
  rewrite (mapM_ext' _ (mapM (polygon_of a)) (pm_cells a)).
  - fold (polygons a). rewrite Ea. cbn [mbind option_bind]. rewrite mapM_map. rewrite (mapM_ext' _ (mapM (polygon_of b)) (pm_cells b)).
    + fold (polygons b). by rewrite Eb.
    + intros cell _. rewrite mapM_map. apply mapM_ext'. intros f _. apply joined_r.
  - intros cell Hc. apply mapM_ext'. intros f Hf. apply joined_l; [done|]. destruct Ha as [_ A2]. rewrite Forall_forall in A2. specialize (A2 cell Hc). rewrite Forall_forall in A2. by apply A2.
Qed.

(** Joining meshes never panics, keeps all vertices and faces, and the polygons of the cells are those of the given meshes one after another. *)
Theorem C66_concatenate {V} (ms : list (polymesh V)) : Forall pm_ok ms ->
  exists m ps, concatenate ms = Some m /\ pm_ok m /\ mapM polygons ms = Some ps /\ polygons m = Some (concat ps) /\
  pm_vertices m = concat (map pm_vertices ms) /\ length (pm_faces m) = sum_list (map (fun a => length (pm_faces a)) ms).
Proof.
  intros H. unfold concatenate.
  set (step := fun (st : list V * list (list nat) * list (list nat) * nat * nat) (m : polymesh V) => let '(vertices, faces, cells, vo, fo) := st in
        (vertices ++ pm_vertices m, faces ++ map (map (fun v => v + vo)) (pm_faces m), cells ++ map (map (fun f => f + fo)) (pm_cells m), vo + length (pm_vertices m), fo + length (pm_faces m))).
  assert (G : forall ms m0 p0, Forall pm_ok ms -> pm_ok m0 -> polygons m0 = Some p0 ->
    exists m ps, foldl step (pm_vertices m0, pm_faces m0, pm_cells m0, length (pm_vertices m0), length (pm_faces m0)) ms = (pm_vertices m, pm_faces m, pm_cells m, length (pm_vertices m), length (pm_faces m)) /\
      pm_ok m /\ mapM polygons ms = Some ps /\ polygons m = Some (p0 ++ concat ps) /\ pm_vertices m = pm_vertices m0 ++ concat (map pm_vertices ms) /\
      length (pm_faces m) = length (pm_faces m0) + sum_list (map (fun a => length (pm_faces a)) ms)).
  { clear. induction ms as [|a ms IH]; intros m0 p0 H Hok Ep.
    - exists m0, []. cbn. rewrite !app_nil_r, Nat.add_0_r. done.
    - apply Forall_cons in H as [Ha H]. destruct (polygons_ok a Ha) as [pa Ea]. pose proof (joined_ok m0 a Hok Ha) as Hj. pose proof (joined_polygons m0 a p0 pa Hok Ep Ea) as Ej.
      destruct (IH (joined m0 a) (p0 ++ pa) H Hj Ej) as (m & ps & E & Hm & Eps & Em & Ev & Ef). exists m, (pa :: ps). split_and!; try done.
      + rewrite <- E. cbn [foldl]. f_equal. unfold step, joined. cbn. by rewrite !app_length, !map_length.
      + cbn. rewrite Ea. cbn. by rewrite Eps.
      + rewrite Em. cbn. by rewrite app_assoc.
      + rewrite Ev. cbn. by rewrite app_assoc.
      + rewrite Ef. unfold sum_list. cbn. rewrite app_length, map_length. unfold id. lia. }
  destruct (G ms (PolyMesh [] [] []) [] H) as (m & ps & E & Hm & Eps & Em & Ev & Ef); [split; constructor|done|]. cbn in E, Em, Ev, Ef.
  exists m, ps. rewrite E. destruct m as [vs fs cs]. split; [by apply from_poly_data_ok|]. done.
Qed.
Print Assumptions C66_concatenate.

Example C66_example : concatenate [PolyMesh [10;11;12] [[0;1];[1;2];[2;0]] [[0;1;2]]; PolyMesh [20;21] [[0;1]] [[0]]; PolyMesh [30;31] [[1;0]] [[0]; []]]
   = Some (PolyMesh [10;11;12;20;21;30;31] [[0;1];[1;2];[2;0];[3;4];[6;5]] [[0;1;2];[3];[4];[]])
   /\ polygons (PolyMesh [10;11;12;20;21;30;31] [[0;1];[1;2];[2;0];[3;4];[6;5]] [[0;1;2];[3];[4];[]]) = Some [[[10;11];[11;12];[12;10]]; [[20;21]]; [[31;30]]; []].
Proof. by vm_compute. Qed.

(** * keeping some cells *)
Lemma btree_set_elem l x : x ∈ btree_set l <-> x ∈ l.
Proof. unfold btree_set. rewrite dedup_elem. apply elem_of_Permutation_proper, sort_nat_perm. Qed.
Lemma btree_set_sorted l : StronglySorted lt (btree_set l).
Proof. unfold btree_set. apply dedup_sorted, StronglySorted_merge_sort; apply _. Qed.
Lemma lt_sorted_nodup l : StronglySorted lt l -> NoDup l.
Proof. induction 1 as [|x l S IH F]; constructor; [|done]. intros Hin. rewrite Forall_forall in F. specialize (F x Hin). lia. Qed.

Lemma relabel_ok kept l : NoDup kept -> (forall v, v ∈ l -> v ∈ kept) -> exists l', mapM (map_get (imap (fun i v => (v, i)) kept)) l = Some l' /\ mapM (fun i => kept !! i) l' = Some l.
Proof.
  intros N H. induction l as [|v l IH]; [by exists []|]. destruct IH as (l' & E1 & E2); [intros; apply H; by right|]. assert (v ∈ kept) as Hv by (apply H; by left). apply elem_of_list_lookup in Hv as [i Hi].
  exists (i :: l'). cbn. apply map_get_spec in Hi as Hg; [|done]. rewrite Hg. cbn. rewrite E1. cbn. rewrite Hi. cbn. by rewrite E2.
Qed.
Lemma relabel_all kept ls : NoDup kept -> (forall v, v ∈ concat ls -> v ∈ kept) -> exists ls', mapM (mapM (map_get (imap (fun i v => (v, i)) kept))) ls = Some ls' /\ mapM (mapM (fun i => kept !! i)) ls' = Some ls.
Proof.
  intros N H. induction ls as [|l ls IH]; [by exists []|]. destruct IH as (ls' & E1 & E2); [intros; apply H; cbn; apply elem_of_app; by right|].
  destruct (relabel_ok kept l N) as (l' & E3 & E4); [intros; apply H; cbn; apply elem_of_app; by left|]. exists (l' :: ls'). cbn. rewrite E3. cbn. rewrite E1. cbn. rewrite E4. cbn. by rewrite E2.
Qed.
Lemma mapM_bound {A} (t : list A) l k : mapM (fun i => t !! i) l = Some k -> Forall (fun i => i < length t) l.
Proof. intros H. apply mapM_Forall2 in H. apply Forall_forall. intros i Hi. apply elem_of_list_lookup in Hi as [n Hn]. destruct (Forall2_lookup_l _ _ _ _ _ H Hn) as (x & _ & E). by eapply lookup_lt_Some. Qed.
Lemma mapM_bounds {A} (t : list A) ls ks : mapM (mapM (fun i => t !! i)) ls = Some ks -> Forall (Forall (fun i => i < length t)) ls.
Proof. intros H. apply mapM_Forall2 in H. apply Forall_forall. intros l Hl. apply elem_of_list_lookup in Hl as [n Hn]. destruct (Forall2_lookup_l _ _ _ _ _ H Hn) as (x & _ & E). by eapply mapM_bound. Qed.
Lemma mapM_elem {A B} (f : A -> option B) l k y : mapM f l = Some k -> y ∈ k <-> exists x, x ∈ l /\ f x = Some y.
Proof.
  intros H. apply mapM_Forall2 in H. split.
  - intros Hy. apply elem_of_list_lookup in Hy as [n Hn]. destruct (Forall2_lookup_r _ _ _ _ _ H Hn) as (x & Hx & E). exists x. split; [by eapply elem_of_list_lookup_2|done].
  - intros (x & Hx & E). apply elem_of_list_lookup in Hx as [n Hn]. destruct (Forall2_lookup_l _ _ _ _ _ H Hn) as (y' & Hy & E'). rewrite E in E'. injection E' as <-. by eapply elem_of_list_lookup_2.
Qed.

(** [keep_cells] never panics when the cell indices are in bounds. The new vertices and faces are exactly those used by the kept cells, in
    their old order and without repetition ([vk] and [fk] list the old indices); translating the new indices back gives the old faces and the
    kept cells in the given order. *)
Theorem C67_keep_cells {V} (m : polymesh V) idx : pm_ok m -> Forall (fun c => c < length (pm_cells m)) idx ->
  exists m' vk fk kept faces, poly_keep_cells m idx = Some m' /\ pm_ok m' /\ StronglySorted lt vk /\ StronglySorted lt fk /\
  mapM (fun c => pm_cells m !! c) idx = Some kept /\ (forall f, f ∈ fk <-> exists cell, cell ∈ kept /\ f ∈ cell) /\
  (forall v, v ∈ vk <-> exists f face, f ∈ fk /\ pm_faces m !! f = Some face /\ v ∈ face) /\
  mapM (fun v => pm_vertices m !! v) vk = Some (pm_vertices m') /\
  mapM (fun f => pm_faces m !! f) fk = Some faces /\ mapM (mapM (fun v => vk !! v)) (pm_faces m') = Some faces /\
  mapM (mapM (fun f => fk !! f)) (pm_cells m') = Some kept.
Proof.
  intros [O1 O2] Hidx. unfold poly_keep_cells.
  destruct (mapM_ok (fun c => pm_cells m !! c) idx) as (kept & Ek & _). { intros c Hc. apply lookup_lt_is_Some_2. rewrite Forall_forall in Hidx. by apply Hidx. }
  rewrite Ek. cbn [mbind option_bind]. set (fk := btree_set (concat kept)).
  assert (Hfk : forall f, f ∈ fk <-> exists cell, cell ∈ kept /\ f ∈ cell). { intros f. unfold fk. by rewrite btree_set_elem, elem_of_concat. }
  destruct (mapM_ok (fun f => pm_faces m !! f) fk) as (faces & Ef & _).
  { intros f Hf. apply Hfk in Hf as (cell & Hcell & Hf). apply lookup_lt_is_Some_2. apply (mapM_elem _ _ _ _ Ek) in Hcell as (c & _ & Hc). rewrite Forall_lookup in O2. specialize (O2 c cell Hc). rewrite Forall_forall in O2. by apply O2. }
  rewrite Ef. cbn [mbind option_bind]. set (vk := btree_set (concat faces)).
  assert (Hvk : forall v, v ∈ vk <-> exists f face, f ∈ fk /\ pm_faces m !! f = Some face /\ v ∈ face).
  { intros v. unfold vk. rewrite btree_set_elem, elem_of_concat. split.
    - intros (face & Hface & Hv). apply (mapM_elem _ _ _ _ Ef) in Hface as (f & Hf & E). by exists f, face.
    - intros (f & face & Hf & E & Hv). exists face. split; [|done]. apply (mapM_elem _ _ _ _ Ef). by exists f. }
  destruct (mapM_ok (fun v => pm_vertices m !! v) vk) as (vs & Ev & Fv).
  { intros v Hv. apply Hvk in Hv as (f & face & _ & E & Hv). apply lookup_lt_is_Some_2. rewrite Forall_lookup in O1. specialize (O1 f face E). rewrite Forall_forall in O1. by apply O1. }
  rewrite Ev. cbn [mbind option_bind].
  assert (Nf : NoDup fk) by apply lt_sorted_nodup, btree_set_sorted. assert (Nv : NoDup vk) by apply lt_sorted_nodup, btree_set_sorted.
  destruct (relabel_all vk faces Nv) as (nf & Enf & Bnf); [intros v Hv; by apply btree_set_elem|]. rewrite Enf. cbn [mbind option_bind].
  destruct (relabel_all fk kept Nf) as (nc & Enc & Bnc); [intros v Hv; by apply btree_set_elem|]. rewrite Enc. cbn [mbind option_bind].
  assert (Hok : pm_ok (PolyMesh vs nf nc)).
  { split; cbn.
    - rewrite <- (Forall2_length _ _ _ Fv). by apply mapM_bounds in Bnf.
    - apply mapM_bounds in Bnc. rewrite <- (mapM_length _ _ _ Enf), <- (mapM_length _ _ _ Ef). done. }
  exists (PolyMesh vs nf nc), vk, fk, kept, faces. split; [by apply from_poly_data_ok|]. split_and!; try done; apply btree_set_sorted.
Qed.
Print Assumptions C67_keep_cells.

(** The polygons of the kept cells do not change. *)
Theorem C67_polygons {V} (m : polymesh V) idx : pm_ok m -> Forall (fun c => c < length (pm_cells m)) idx ->
  exists m' ps qs, poly_keep_cells m idx = Some m' /\ polygons m = Some ps /\ polygons m' = Some qs /\ mapM (fun c => ps !! c) idx = Some qs.
Proof.
  intros Hok Hidx. destruct (C67_keep_cells m idx Hok Hidx) as (m' & vk & fk & kept & faces & E & Hok' & _ & _ & Ek & _ & _ & Ev & Ef & Bf & Bc).
  destruct (polygons_ok m Hok) as [ps Eps]. destruct (polygons_ok m' Hok') as [qs Eqs]. exists m', ps, qs. split_and!; try done.
  assert (P : forall f f', fk !! f' = Some f -> polygon_of m' f' = polygon_of m f).
  { intros f f' Hf. unfold polygon_of. apply mapM_Forall2 in Ef, Bf. destruct (Forall2_lookup_l _ _ _ _ _ Ef Hf) as (face & Hface & ->). destruct (Forall2_lookup_r _ _ _ _ _ Bf Hface) as (face' & -> & Hb).
    cbn [mbind option_bind]. clear -Hb Ev. revert face Hb. induction face' as [|v face' IH]; intros face Hb; cbn in Hb; [injection Hb as <-; done|].
    destruct (vk !! v) as [w|] eqn:Ew; cbn in Hb; [|done]. destruct (mapM (fun v => vk !! v) face') as [r|] eqn:Er; cbn in Hb; [|done]. injection Hb as <-. cbn. rewrite (IH r eq_refl).
    apply mapM_Forall2 in Ev. destruct (Forall2_lookup_l _ _ _ _ _ Ev Ew) as (x & Hx & Hw). by rewrite Hx, Hw. }
  assert (Q : forall c cell', pm_cells m' !! c = Some cell' -> exists cell, kept !! c = Some cell /\ mapM (polygon_of m') cell' = mapM (polygon_of m) cell).
  { intros c cell' Hc. apply mapM_Forall2 in Bc. destruct (Forall2_lookup_l _ _ _ _ _ Bc Hc) as (cell & Hcell & Hb). exists cell. split; [done|].
    clear -Hb P. revert cell Hb. induction cell' as [|f cell' IH]; intros cell Hb; cbn in Hb; [injection Hb as <-; done|].
    destruct (fk !! f) as [g|] eqn:Eg; cbn in Hb; [|done]. destruct (mapM (fun v => fk !! v) cell') as [r|] eqn:Er; cbn in Hb; [|done]. injection Hb as <-. cbn. rewrite (IH r eq_refl). by rewrite (P g f Eg). }
  apply mapM_Forall2. apply Forall2_same_length_lookup. unfold polygons in Eqs, Eps. split.
  { rewrite <- (mapM_length _ _ _ Eqs), (mapM_length _ _ _ Bc). by apply (mapM_length _ _ _ Ek). }
  intros i c q Hc Hq. apply mapM_Forall2 in Eqs, Ek, Eps. destruct (Forall2_lookup_r _ _ _ _ _ Eqs Hq) as (cell' & Hcell' & Eq). destruct (Q i cell' Hcell') as (cell & Hcell & Es).
  destruct (Forall2_lookup_l _ _ _ _ _ Ek Hc) as (cell2 & Hcell2 & Hm). rewrite Hcell in Hcell2. injection Hcell2 as <-. destruct (Forall2_lookup_l _ _ _ _ _ Eps Hm) as (p & Hp & Ep). rewrite Hp. congruence.
Qed.
Print Assumptions C67_polygons.

Example C67_example : let m := PolyMesh [10;11;12;13;14] [[0;1;2];[4;1;3];[3;2;0];[1;2;3]] [[0;2;3];[1;3];[2;0]] in
  pm_ok m /\ Forall (fun c => c < length (pm_cells m)) [1] /\ poly_keep_cells m [1] = Some (PolyMesh [11;12;13;14] [[3;0;2];[0;1;2]] [[0;1]]) /\
  poly_keep_cells m [2;1;2] = Some (PolyMesh [10;11;12;13;14] [[0;1;2];[4;1;3];[3;2;0];[1;2;3]] [[2;0];[1;3];[2;0]]).
Proof. cbn zeta. split; [split; repeat constructor|]. split; [repeat constructor|]. by vm_compute. Qed.

(** C68: splitting the edges of a polymesh (polymesh.rs:279-323). *)
From stdpp Require Import base list list_numbers sorting.
From Verif Require Import Prelude ReorderModel MeshModel MeshProofs PolyModel PolySpec PolyProofs PropPolyOps.

Lemma cyclic_pairs_lookup {A} (l : list A) i a b : cyclic_pairs l !! i = Some (a, b) <-> l !! i = Some a /\ l !! (S i mod length l) = Some b.
Proof.
  unfold cyclic_pairs. destruct l as [|x r]; [split; [done|by intros []]|]. rewrite lookup_zip_with_Some. split.
  - intros (a' & b' & [= <- <-] & Ha & Hb). split; [done|]. apply lookup_lt_Some in Ha as L. cbn [length] in *. destruct (decide (i = length r)) as [->|N].
    + rewrite Nat.mod_same by lia. rewrite list_lookup_middle in Hb by done. by injection Hb as <-.
    + rewrite Nat.mod_small by lia. cbn [lookup list_lookup]. rewrite lookup_app_l in Hb by lia. done.
  - intros [Ha Hb]. exists a, b. split; [done|]. split; [done|]. apply lookup_lt_Some in Ha as L. cbn [length] in *. destruct (decide (i = length r)) as [->|N].
    + rewrite Nat.mod_same in Hb by lia. cbn in Hb. injection Hb as <-. by apply list_lookup_middle.
    + rewrite Nat.mod_small in Hb by lia. cbn [lookup list_lookup] in Hb. rewrite lookup_app_l by lia. done.
Qed.
Lemma cyclic_pairs_length {A} (l : list A) : length (cyclic_pairs l) = length l.
Proof. destruct l as [|x r]; [done|]. unfold cyclic_pairs. rewrite zip_with_length, app_length. cbn [length]. lia. Qed.
Lemma cyclic_pairs_elem {A} (l : list A) a b : (a, b) ∈ cyclic_pairs l <-> is_side l a b.
Proof. rewrite elem_of_list_lookup. unfold is_side. split; intros [i H]; exists i; by apply cyclic_pairs_lookup. Qed.

Section split.
  Context {V : Type} (mid : V -> V -> V) (vs : list V).
  Definition midpoint (a b : nat) (x : V) : Prop := exists va vb, vs !! a = Some va /\ vs !! b = Some vb /\ (x = mid va vb \/ x = mid vb va).
  (** the new vertices and the map after the edges [es] *)
  Definition split_inv (es : list (nat * nat)) (added : list V) (seen : list (nat * nat * nat)) : Prop :=
    (forall e k, assoc e seen = Some k -> exists i x, k = length vs + i /\ added !! i = Some x /\ midpoint e.1 e.2 x /\ exists a b, (a, b) ∈ es /\ e = uedge a b) /\
    (forall e e' k, assoc e seen = Some k -> assoc e' seen = Some k -> e = e') /\
    (forall i, i < length added -> exists e, assoc e seen = Some (length vs + i)) /\
    (forall a b, (a, b) ∈ es -> is_Some (assoc (uedge a b) seen)).

  Lemma split_step_inv es added seen face e : split_inv es added seen -> e.1 < length vs -> e.2 < length vs ->
    exists added' seen' k, split_step mid vs (Some (added, seen, face)) e = Some (added', seen', face ++ [e.1; k]) /\ assoc (uedge e.1 e.2) seen' = Some k /\
    split_inv (es ++ [e]) added' seen' /\ added `prefix_of` added' /\ (forall e' k, assoc e' seen = Some k -> assoc e' seen' = Some k).
  Proof.
    intros (I1 & I2 & I3 & I4) L1 L2. unfold split_step. cbn [mbind option_bind]. change (e.1 `min` e.2, e.1 `max` e.2) with (uedge e.1 e.2). destruct (assoc (uedge e.1 e.2) seen) as [k|] eqn:E.
    - exists added, seen, k. split_and!; try done. split_and!; try done.
      + intros e' k' H. destruct (I1 e' k' H) as (i & x & ? & ? & ? & a & b & ? & ?). exists i, x. split_and!; try done. exists a, b. split; [|done]. apply elem_of_app. by left.
      + intros a b Hab. apply elem_of_app in Hab as [Hab|Hab]; [by apply I4|]. apply elem_of_list_singleton in Hab as <-. by exists k.
    - destruct (lookup_lt_is_Some_2 _ _ L1) as [va Ha]. destruct (lookup_lt_is_Some_2 _ _ L2) as [vb Hb]. rewrite Ha, Hb. cbn [mbind option_bind].
      exists (added ++ [mid va vb]), ((uedge e.1 e.2, length vs + length added) :: seen), (length vs + length added). split; [done|]. split; [cbn; by rewrite decide_True|].
      assert (Hnew : forall e' k, assoc e' seen = Some k -> k < length vs + length added). { intros e' k H. destruct (I1 e' k H) as (i & x & -> & Hx & _). apply lookup_lt_Some in Hx. lia. }
      split; [|split; [by apply prefix_app_r|intros e' k H; cbn; rewrite decide_False; [done|congruence]]]. split_and!.
      + intros e' k H. cbn in H. destruct (decide (e' = uedge e.1 e.2)) as [->|N].
        * injection H as <-. exists (length added), (mid va vb). split; [done|]. split; [by apply list_lookup_middle|]. split.
          -- unfold uedge. cbn. destruct (decide (e.1 <= e.2)).
             ++ exists va, vb. rewrite Nat.min_l, Nat.max_r by done. split_and!; try done. by left.
             ++ exists vb, va. rewrite Nat.min_r, Nat.max_l by lia. split_and!; try done. by right.
          -- exists e.1, e.2. split; [|done]. apply elem_of_app. right. apply elem_of_list_singleton. by destruct e.
        * destruct (I1 e' k H) as (i & x & ? & ? & ? & a & b & ? & ?). exists i, x. split; [done|]. split; [by apply lookup_app_l_Some|]. split; [done|]. exists a, b. split; [|done]. apply elem_of_app. by left.
      + intros e1 e2 k H1 H2. cbn in H1, H2. destruct (decide (e1 = uedge e.1 e.2)) as [->|N1], (decide (e2 = uedge e.1 e.2)) as [->|N2]; [done| | |by eapply I2].
        * injection H1 as <-. apply Hnew in H2. lia.
        * injection H2 as <-. apply Hnew in H1. lia.
      + intros i Hi. rewrite app_length in Hi. cbn in Hi. destruct (decide (i = length added)) as [->|N].
        * exists (uedge e.1 e.2). cbn. by rewrite decide_True.
        * destruct (I3 i) as [e' He']; [lia|]. exists e'. cbn. rewrite decide_False; [done|congruence].
      + intros a b Hab. cbn. apply elem_of_app in Hab as [Hab|Hab].
        * destruct (decide _); [by eexists|]. by apply I4.
        * apply elem_of_list_singleton in Hab as <-. cbn. by rewrite decide_True.
  Qed.
  Definition labelled (seen : list (nat * nat * nat)) (e : nat * nat) : list nat := [e.1; default 0 (assoc (uedge e.1 e.2) seen)].
  Lemma split_steps todo : forall es added seen face, split_inv es added seen -> Forall (fun e : nat * nat => e.1 < length vs /\ e.2 < length vs) todo ->
    exists added' seen', foldl (split_step mid vs) (Some (added, seen, face)) todo = Some (added', seen', face ++ concat (map (labelled seen') todo)) /\
    split_inv (es ++ todo) added' seen' /\ added `prefix_of` added' /\ (forall e' k, assoc e' seen = Some k -> assoc e' seen' = Some k).
  Proof.
    induction todo as [|e todo IH]; intros es added seen face Hinv H.
    - exists added, seen. cbn. rewrite !app_nil_r. done.
    - apply Forall_cons in H as [[L1 L2] H]. destruct (split_step_inv es added seen face e Hinv L1 L2) as (added1 & seen1 & k & E & Ek & Hinv1 & P1 & M1). cbn [foldl]. rewrite E.
      destruct (IH _ _ _ (face ++ [e.1; k]) Hinv1 H) as (added2 & seen2 & E2 & Hinv2 & P2 & M2). exists added2, seen2. rewrite E2. split_and!; try done.
      + do 2 f_equal. cbn [map concat]. unfold labelled at 2. rewrite (M2 _ _ Ek). cbn [default]. by rewrite <- app_assoc.
      + by rewrite <- app_assoc in Hinv2.
      + by etrans.
      + intros e' k' H'. by apply M2, M1.
  Qed.
  Lemma split_faces todo : forall es added seen faces, split_inv es added seen -> Forall (Forall (fun v => v < length vs)) todo ->
    exists added' seen', foldl (fun (acc : option (list V * list (nat * nat * nat) * list (list nat))) face =>
      '(added, seen, faces) ← acc;
      '(added, seen, face') ← foldl (split_step mid vs) (Some (added, seen, [])) (cyclic_pairs face);
      Some (added, seen, faces ++ [face'])) (Some (added, seen, faces)) todo = Some (added', seen', faces ++ map (fun face => concat (map (labelled seen') (cyclic_pairs face))) todo) /\
    split_inv (es ++ concat (map cyclic_pairs todo)) added' seen' /\ added `prefix_of` added' /\ (forall e' k, assoc e' seen = Some k -> assoc e' seen' = Some k).
  Proof.
    induction todo as [|face todo IH]; intros es added seen faces Hinv H.
    - exists added, seen. cbn. rewrite !app_nil_r. done.
    - apply Forall_cons in H as [Hf H]. destruct (split_steps (cyclic_pairs face) es added seen [] Hinv) as (added1 & seen1 & E & Hinv1 & P1 & M1).
      { apply Forall_forall. intros [a b] Hab. apply cyclic_pairs_elem in Hab as (i & Ha & Hb). rewrite Forall_lookup in Hf. cbn. split; by eapply Hf. }
      cbn [foldl mbind option_bind]. rewrite E. cbn [mbind option_bind app].
      destruct (IH _ _ _ (faces ++ [concat (map (labelled seen1) (cyclic_pairs face))]) Hinv1 H) as (added2 & seen2 & E2 & Hinv2 & P2 & M2). exists added2, seen2. rewrite E2. split_and!; try done.
      + do 2 f_equal. cbn [map]. rewrite <- app_assoc. cbn [app]. do 2 f_equal. f_equal. apply map_ext_in. intros [a b] Hab. unfold labelled. cbn. do 2 f_equal.
        apply elem_of_list_In in Hab. destruct Hinv1 as (_ & _ & _ & I4). destruct (I4 a b) as [k Hk]; [apply elem_of_app; by right|]. rewrite Hk, (M2 _ _ Hk). done.
      + cbn [map concat]. by rewrite <- app_assoc in Hinv2.
      + by etrans.
      + intros e' k' H'. by apply M2, M1.
  Qed.
End split.

Lemma uedge_eq a b c d : uedge a b = uedge c d <-> (a = c /\ b = d) \/ (a = d /\ b = c).
Proof. unfold uedge. split; [intros [= H1 H2]; lia|]. intros [[-> ->]|[-> ->]]; [done|]. f_equal; lia. Qed.
Lemma concat_pairs_lookup {A B} (g : A -> B) (h : A -> B) l i : concat (map (fun x => [g x; h x]) l) !! (2 * i) = g <$> l !! i /\ concat (map (fun x => [g x; h x]) l) !! (2 * i + 1) = h <$> l !! i.
Proof.
  revert i. induction l as [|x l IH]; intros i; [by rewrite !lookup_nil|]. cbn [map concat app]. destruct i as [|i]; [done|]. replace (2 * S i) with (S (S (2 * i))) by lia. cbn. apply IH.
Qed.
Lemma concat_pairs_length {A B} (g : A -> B) (h : A -> B) l : length (concat (map (fun x => [g x; h x]) l)) = 2 * length l.
Proof. induction l as [|x l IH]; [done|]. cbn. rewrite IH. lia. Qed.

(** Splitting never panics. It keeps the cells and the vertices, adds new vertices after them, and puts a new vertex [label a b] after every
    vertex [a] of a face, where [b] is the next vertex. The new vertex is the midpoint of [a] and [b]; two edges get the same new vertex
    exactly if they join the same two vertices, in all faces; there are no other new vertices. *)
Theorem C68_split_edges {V} (mid : V -> V -> V) (m : polymesh V) : pm_ok m ->
  exists m' added (label : nat -> nat -> nat), split_edges mid m = Some m' /\ pm_ok m' /\ pm_cells m' = pm_cells m /\ pm_vertices m' = pm_vertices m ++ added /\
  Forall2 (fun face face' => length face' = 2 * length face /\
    forall i a b, face !! i = Some a -> face !! (S i mod length face) = Some b -> face' !! (2 * i) = Some a /\ face' !! (2 * i + 1) = Some (label a b)) (pm_faces m) (pm_faces m') /\
  let side a b := exists face, face ∈ pm_faces m /\ is_side face a b in
  (forall a b, side a b -> length (pm_vertices m) <= label a b /\
     exists va vb, pm_vertices m !! a = Some va /\ pm_vertices m !! b = Some vb /\ (pm_vertices m' !! label a b = Some (mid va vb) \/ pm_vertices m' !! label a b = Some (mid vb va))) /\
  (forall a b c d, side a b -> side c d -> label a b = label c d <-> (a = c /\ b = d) \/ (a = d /\ b = c)) /\
  (forall k, length (pm_vertices m) <= k < length (pm_vertices m') -> exists a b, side a b /\ label a b = k).
Proof.
  intros [O1 O2]. unfold split_edges.
  destruct (split_faces mid (pm_vertices m) (pm_faces m) [] [] [] []) as (added & seen & E & (I1 & I2 & I3 & I4) & _ & _); [|done|].
  { split_and!; try done; [intros i Hi; cbn in Hi; lia|]. intros a b H. by apply elem_of_nil in H. }
  rewrite E. cbn [mbind option_bind app]. cbn [app] in I1, I4.
  set (label := fun a b => default 0 (assoc (uedge a b) seen)).
  assert (Hside : forall a b, (a, b) ∈ concat (map cyclic_pairs (pm_faces m)) <-> exists face, face ∈ pm_faces m /\ is_side face a b).
  { intros a b. rewrite elem_of_concat. split.
    - intros (es & Hes & Hab). apply elem_of_list_fmap in Hes as (face & -> & Hface). exists face. split; [done|]. by apply cyclic_pairs_elem.
    - intros (face & Hface & Hab). exists (cyclic_pairs face). split; [apply elem_of_list_fmap; by exists face|]. by apply cyclic_pairs_elem. }
  assert (Hlab : forall a b, (exists face, face ∈ pm_faces m /\ is_side face a b) -> assoc (uedge a b) seen = Some (label a b)).
  { intros a b H. apply Hside in H. destruct (I4 a b H) as [k Hk]. unfold label. by rewrite Hk. }
  assert (Hpt : forall a b, (exists face, face ∈ pm_faces m /\ is_side face a b) -> length (pm_vertices m) <= label a b < length (pm_vertices m ++ added) /\
     exists va vb, pm_vertices m !! a = Some va /\ pm_vertices m !! b = Some vb /\ ((pm_vertices m ++ added) !! label a b = Some (mid va vb) \/ (pm_vertices m ++ added) !! label a b = Some (mid vb va))).
  { intros a b H. destruct (I1 _ _ (Hlab a b H)) as (i & x & Hi & Hx & (va & vb & Ha & Hb & Hm) & _). apply lookup_lt_Some in Hx as L. rewrite app_length. split; [lia|].
    assert ((pm_vertices m ++ added) !! label a b = Some x) as Hl. { rewrite Hi, lookup_app_r by lia. rewrite <- Hx. f_equal. lia. }
    unfold uedge in Ha, Hb. cbn in Ha, Hb. destruct (decide (a <= b)).
    - rewrite Nat.min_l in Ha by done. rewrite Nat.max_r in Hb by done. exists va, vb. rewrite Hl. split_and!; try done. destruct Hm as [->| ->]; [by left|by right].
    - rewrite Nat.min_r in Ha by lia. rewrite Nat.max_l in Hb by lia. exists vb, va. rewrite Hl. split_and!; try done. destruct Hm as [->| ->]; [by right|by left]. }
  eexists _, added, label. split; [done|]. cbn [pm_vertices pm_faces pm_cells]. split; [|split_and!; try done].
  - split; cbn [pm_vertices pm_faces pm_cells]; [|by rewrite map_length].
    apply Forall_fmap. apply Forall_forall. intros face Hface. cbn. apply Forall_forall. intros k Hk. apply elem_of_concat in Hk as (p & Hp & Hk). apply elem_of_list_fmap in Hp as ([a b] & -> & Hab).
    apply cyclic_pairs_elem in Hab. unfold labelled in Hk. cbn in Hk. apply elem_of_cons in Hk as [->|Hk].
    + destruct Hab as (i & Ha & _). rewrite Forall_forall in O1. specialize (O1 face Hface). rewrite Forall_lookup in O1. specialize (O1 i a Ha). rewrite app_length. lia.
    + apply elem_of_list_singleton in Hk as ->. destruct (Hpt a b) as [[_ L] _]; [by exists face|done].
  - apply Forall2_fmap_r. apply Forall_Forall2_diag. apply Forall_forall. intros face Hface. unfold labelled. split; [by rewrite concat_pairs_length, cyclic_pairs_length|].
    intros i a b Ha Hb. assert (cyclic_pairs face !! i = Some (a, b)) as Hp by by apply cyclic_pairs_lookup.
    destruct (concat_pairs_lookup (fun e : nat * nat => e.1) (fun e => default 0 (assoc (uedge e.1 e.2) seen)) (cyclic_pairs face) i) as [-> ->]. rewrite Hp. done.
  - intros a b H. destruct (Hpt a b H) as [[L _] Hm]. done.
  - intros a b c d H1 H2. rewrite <- uedge_eq. split; [|intros Hu; unfold label; by rewrite Hu]. intros Hl. apply (I2 _ _ (label a b)); [by apply Hlab|]. rewrite Hl. by apply Hlab.
  - intros k Hk. rewrite app_length in Hk. destruct (I3 (k - length (pm_vertices m))) as [e He]; [lia|]. replace (length (pm_vertices m) + (k - length (pm_vertices m))) with k in He by lia.
    destruct (I1 _ _ He) as (_ & _ & _ & _ & _ & a & b & Hab & ->). exists a, b. split; [by apply Hside|]. unfold label. by rewrite He.
Qed.
Print Assumptions C68_split_edges.

(** Splitting [n] times doubles the number of vertices of every face [n] times and keeps the cells. *)
Theorem C68_split_edges_n {V} (mid : V -> V -> V) n (m : polymesh V) : pm_ok m ->
  exists m' added, split_edges_n mid n m = Some m' /\ pm_ok m' /\ pm_cells m' = pm_cells m /\ pm_vertices m' = pm_vertices m ++ added /\
  Forall2 (fun face face' => length face' = 2 ^ n * length face /\ forall i, i < length face -> face' !! (2 ^ n * i) = face !! i) (pm_faces m) (pm_faces m').
Proof.
  revert m. induction n as [|n IH]; intros m Hok.
  - exists m, []. rewrite app_nil_r. split_and!; try done. apply Forall_Forall2_diag. apply Forall_true. intros face. split; [cbn; lia|]. intros i _. f_equal. cbn. lia.
  - destruct (C68_split_edges mid m Hok) as (m1 & a1 & label & E & Hok1 & Ec & Ev & F & _). destruct (IH m1 Hok1) as (m2 & a2 & E2 & Hok2 & Ec2 & Ev2 & F2). exists m2, (a1 ++ a2).
    cbn [split_edges_n]. rewrite E. cbn [mbind option_bind]. split_and!; try done; [congruence|by rewrite Ev2, Ev, app_assoc|].
    apply Forall2_same_length_lookup. split; [by rewrite (Forall2_length _ _ _ F), (Forall2_length _ _ _ F2)|]. intros f face face2 Hf Hf2.
    destruct (Forall2_lookup_l _ _ _ _ _ F Hf) as (face1 & Hf1 & L1 & P1). destruct (Forall2_lookup_l _ _ _ _ _ F2 Hf1) as (face2' & Hf2' & L2 & P2). rewrite Hf2 in Hf2'. injection Hf2' as <-.
    split; [rewrite L2, L1, Nat.pow_succ_r'; lia|]. intros i Hi. rewrite Nat.pow_succ_r'. replace (2 * 2 ^ n * i) with (2 ^ n * (2 * i)) by lia. rewrite P2 by lia.
    destruct (lookup_lt_is_Some_2 _ _ Hi) as [a Ha]. destruct (lookup_lt_is_Some_2 face (S i mod length face)) as [b Hb]; [apply Nat.mod_upper_bound; lia|]. rewrite Ha. by apply (P1 i a b).
Qed.
Print Assumptions C68_split_edges_n.

(** Two triangles with a common edge, the points are numbers. *)
Example C68_example : let m := PolyMesh [0; 10; 20; 40] [[0;1;2]; [2;1;3]] [[0;1]] in
  pm_ok m /\ split_edges (fun a b => (a + b) / 2) m = Some (PolyMesh [0; 10; 20; 40; 5; 15; 10; 25; 30] [[0;4;1;5;2;6]; [2;5;1;7;3;8]] [[0;1]]).
Proof. cbn zeta. split; [split; repeat constructor|by vm_compute]. Qed.

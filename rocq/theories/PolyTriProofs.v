(** Lemmas on the triangulation of polymeshes. *)
From stdpp Require Import base list list_numbers sorting.
From Verif Require Import Prelude ReorderModel MeshModel MeshProofs PolyModel PolySpec PolyProofs PropPolyOps.

Lemma min_pos_spec l : l <> [] -> exists l1 a l2, min_pos l = Some (length l1, a) /\ l = l1 ++ a :: l2 /\ (forall x, x ∈ l1 -> a < x) /\ (forall x, x ∈ l2 -> a <= x).
Proof.
  induction l as [|x l IH]; [done|]. intros _. cbn [min_pos]. destruct l as [|y l].
  - exists [], x, []. split_and!; try done; intros z Hz; by apply elem_of_nil in Hz.
  - destruct IH as (l1 & a & l2 & E & El & H1 & H2); [done|]. rewrite E. destruct (decide (a < x)) as [L|L].
    + exists (x :: l1), a, l2. split; [done|]. split; [by rewrite El|]. split; [|done]. intros z Hz. apply elem_of_cons in Hz as [->|Hz]; [done|by apply H1].
    + exists [], x, (y :: l). split_and!; try done; [intros z Hz; by apply elem_of_nil in Hz|]. intros z Hz. rewrite El in Hz. apply elem_of_app in Hz as [Hz|Hz]; [specialize (H1 z Hz); lia|].
      apply elem_of_cons in Hz as [->|Hz]; [lia|]. specialize (H2 z Hz). lia.
Qed.
Lemma rot_lookup {A} (l1 : list A) a l2 i : i < length (l2 ++ l1) -> (l1 ++ a :: l2) !! ((i + 1 + length l1) mod length (l1 ++ a :: l2)) = (l2 ++ l1) !! i.
Proof.
  rewrite !app_length. cbn [length]. intros L. destruct (decide (i < length l2)) as [H|H].
  - rewrite Nat.mod_small by lia. rewrite lookup_app_r by lia. replace (i + 1 + length l1 - length l1) with (S i) by lia. cbn. by rewrite lookup_app_l.
  - replace (i + 1 + length l1) with (i - length l2 + 1 * (length l1 + S (length l2))) by lia. rewrite Nat.mod_add by lia. rewrite Nat.mod_small by lia. rewrite lookup_app_l by lia. rewrite lookup_app_r by lia. done.
Qed.
Lemma mapM_lookup_eq {A B} (f : A -> option B) l k : length l = length k -> (forall i x, l !! i = Some x -> f x = k !! i) -> mapM f l = Some k.
Proof.
  intros L H. apply mapM_Forall2, Forall2_same_length_lookup. split; [done|]. intros i x y Hx Hy. by rewrite (H i x Hx).
Qed.
Lemma fan_spec face : 1 <= length face -> exists ts, fan face = Some ts /\ is_fan face ts /\ length ts = length face - 2.
Proof.
  intros L. destruct (min_pos_spec face) as (l1 & a & l2 & E & El & H1 & H2); [by destruct face; cbn in *; [lia|]|]. unfold fan. rewrite E. cbn [mbind option_bind].
  assert (Ln : length face = S (length (l2 ++ l1))) by (rewrite El, !app_length; cbn; lia).
  exists (zip_with (fun b c => [a; b; c]) (l2 ++ l1) (tail (l2 ++ l1))). assert (Lz : length (zip_with (fun b c => [a; b; c]) (l2 ++ l1) (tail (l2 ++ l1))) = length face - 2).
  { rewrite zip_with_length, Ln. destruct (l2 ++ l1); cbn [tail length]; lia. }
  split; [|split; [by exists l1, a, l2|done]]. apply mapM_lookup_eq; [by rewrite seq_length|]. intros i x Hx. apply lookup_seq in Hx as [-> Hi]. cbn [Nat.add].
  subst face. rewrite (rot_lookup l1 a l2 i) by lia. replace (i + 2 + length l1) with (S i + 1 + length l1) by lia. rewrite (rot_lookup l1 a l2 (S i)) by lia.
  rewrite lookup_zip_with. assert (tail (l2 ++ l1) !! i = (l2 ++ l1) !! S i) as -> by (destruct (l2 ++ l1); done). done.
Qed.
Lemma is_fan_3 face ts : is_fan face ts -> Forall (fun t => exists a b c, t = [a; b; c] /\ a ∈ face /\ b ∈ face /\ c ∈ face) ts.
Proof.
  intros (l1 & a & l2 & -> & _ & _ & ->). apply Forall_lookup. intros i t Ht. apply lookup_zip_with_Some in Ht as (b & c & -> & Hb & Hc). exists a, b, c. split; [done|].
  assert (Hin : forall x, x ∈ l2 ++ l1 -> x ∈ l1 ++ a :: l2) by (intros x Hx; apply elem_of_app in Hx as [Hx|Hx]; apply elem_of_app; [right; by right|by left]).
  split; [apply elem_of_app; right; by left|]. split; apply Hin; [by eapply elem_of_list_lookup_2|]. apply elem_of_list_lookup_2 in Hc. destruct (l2 ++ l1); [done|]. by right.
Qed.

(** the map from faces to the triangles of their fans *)
Lemma face_map_spec fans : forall acc n, foldl (fun (acc : list (list nat) * nat) (f : list (list nat)) => (acc.1 ++ [seq acc.2 (length f)], acc.2 + length f)) (acc, n) fans
  = (acc ++ imap (fun i f => seq (n + length (concat (take i fans))) (length f)) fans, n + length (concat fans)).
Proof.
  induction fans as [|f fans IH]; intros acc n; cbn [foldl fst snd].
  - cbn. by rewrite app_nil_r, Nat.add_0_r.
  - rewrite IH. f_equal; [|cbn; rewrite app_length; lia]. rewrite <- app_assoc. f_equal. cbn [imap app take concat]. rewrite Nat.add_0_r. f_equal. apply imap_ext. intros i x _. cbn. rewrite app_length. f_equal. lia.
Qed.
Lemma concat_take_lookup {A} (ls : list (list A)) i l j : ls !! i = Some l -> j < length l -> concat ls !! (length (concat (take i ls)) + j) = l !! j.
Proof.
  revert i. induction ls as [|x ls IH]; intros i Hi Hj; [done|]. destruct i as [|i]; cbn in Hi.
  - injection Hi as ->. cbn. by rewrite lookup_app_l.
  - cbn [take concat]. rewrite app_length, <- Nat.add_assoc. rewrite lookup_app_r by lia. replace (length x + (length (concat (take i ls)) + j) - length x) with (length (concat (take i ls)) + j) by lia. by apply IH.
Qed.

Section cone.
  Context (faces : list (list nat)) (nv : nat) (fans : list (list (list nat))).
  Context (Hfans : Forall2 (fun face ts => is_fan face ts) faces fans) (Hnv : Forall (Forall (fun v => v < nv)) faces).
  Let face_map := imap (fun i f => seq (length (concat (take i fans))) (length f)) fans.
  (** triangles and cells so far, and the tetrahedra they belong to *)
  Definition raw_cell (tris : list (list nat)) (cell : list nat) (tv : list nat * nat) : Prop :=
    exists a b c f0 f1 f2 f3, tv.1 = [a; b; c] /\ tv.2 ∉ tv.1 /\ cell = [f0; f1; f2; f3] /\ tris !! f0 = Some [a; b; c] /\ tris !! f1 = Some [a; b; tv.2] /\ tris !! f2 = Some [b; c; tv.2] /\ tris !! f3 = Some [c; a; tv.2].
  Definition cone_inv (tris cells : list (list nat)) (tets : list (list nat * nat)) : Prop :=
    concat fans `prefix_of` tris /\ Forall (fun t => length t = 3 /\ Forall (fun v => v < nv) t) tris /\ Forall2 (raw_cell tris) cells tets.
  Lemma raw_cell_mono tris tris' cell tv : tris `prefix_of` tris' -> raw_cell tris cell tv -> raw_cell tris' cell tv.
  Proof.
    intros P (a & b & c & f0 & f1 & f2 & f3 & ? & ? & ? & ? & ? & ? & ?). exists a, b, c, f0, f1, f2, f3. split_and!; try done; by eapply prefix_lookup.
  Qed.
  Lemma cone_step_inv tris cells tets v t a b c : cone_inv tris cells tets -> v < nv -> tris !! t = Some [a; b; c] -> v ∉ [a; b; c] ->
    exists tris' cells', cone_step v (Some (tris, cells)) t = Some (tris', cells') /\ cone_inv tris' cells' (tets ++ [([a; b; c], v)]) /\ tris `prefix_of` tris'.
  Proof.
    intros (P & F & C) Hv Ht Hn. unfold cone_step. cbn [mbind option_bind]. rewrite Ht. cbn [mbind option_bind]. eexists _, _. split; [done|]. split; [|by apply prefix_app_r].
    assert (Hb : Forall (fun v => v < nv) [a; b; c]). { rewrite Forall_lookup in F. by apply (F t). } apply Forall_cons in Hb as [Ha Hb]. apply Forall_cons in Hb as [Hb Hc]. apply Forall_cons in Hc as [Hc _].
    split_and!.
    - etrans; [exact P|]. by apply prefix_app_r.
    - apply Forall_app. split; [done|]. repeat constructor; done.
    - apply Forall2_app.
      + eapply Forall2_impl; [exact C|]. intros cell tv. apply raw_cell_mono. by apply prefix_app_r.
      + constructor; [|constructor]. exists a, b, c, t, (length tris), (length tris + 1), (length tris + 2). cbn [fst snd]. split_and!; try done.
        * by apply lookup_app_l_Some.
        * by apply list_lookup_middle.
        * rewrite lookup_app_r by lia. by replace (length tris + 1 - length tris) with 1 by lia.
        * rewrite lookup_app_r by lia. by replace (length tris + 2 - length tris) with 2 by lia.
  Qed.
  Lemma cone_steps v ts : forall tris cells tets rows, cone_inv tris cells tets -> v < nv -> Forall2 (fun t row => tris !! t = Some row /\ (exists a b c, row = [a; b; c]) /\ v ∉ row) ts rows ->
    exists tris' cells', foldl (cone_step v) (Some (tris, cells)) ts = Some (tris', cells') /\ cone_inv tris' cells' (tets ++ map (fun t => (t, v)) rows) /\ tris `prefix_of` tris'.
  Proof.
    induction ts as [|t ts IH]; intros tris cells tets rows Hinv Hv H.
    - apply Forall2_nil_inv_l in H as ->. exists tris, cells. cbn. by rewrite app_nil_r.
    - apply Forall2_cons_inv_l in H as (row & rows' & (Ht & (a & b & c & ->) & Hn) & H & ->). destruct (cone_step_inv tris cells tets v t a b c Hinv Hv Ht Hn) as (tris1 & cells1 & E & Hinv1 & P1).
      cbn [foldl]. rewrite E. destruct (IH tris1 cells1 (tets ++ [([a; b; c], v)]) rows' Hinv1 Hv) as (tris2 & cells2 & E2 & Hinv2 & P2).
      { eapply Forall2_impl; [exact H|]. intros t' row' (Ht' & ? & ?). split; [by eapply prefix_lookup|done]. }
      exists tris2, cells2. rewrite E2. split; [done|]. split; [|by etrans]. cbn [map]. by rewrite <- app_assoc in Hinv2.
  Qed.
  Lemma cone_face v f : forall tris cells tets, cone_inv tris cells tets -> v < nv -> f < length faces ->
    exists tris' cells' ts face, faces !! f = Some face /\
      (face ← faces !! f; if decide (v ∈ (face : list nat)) then Some (tris, cells) else ts ← face_map !! f; foldl (cone_step v) (Some (tris, cells)) ts) = Some (tris', cells') /\
      cone_inv tris' cells' (tets ++ ts) /\ ((v ∈ face /\ ts = []) \/ (v ∉ face /\ exists fs, is_fan face fs /\ ts = map (fun t => (t, v)) fs)).
  Proof.
    intros tris cells tets Hinv Hv Hf. destruct (lookup_lt_is_Some_2 _ _ Hf) as [face Eface]. rewrite Eface. cbn [mbind option_bind]. destruct (decide (v ∈ face)) as [Hin|Hin].
    - exists tris, cells, [], face. rewrite app_nil_r. split; [done|]. split; [done|]. split; [done|]. by left.
    - destruct (Forall2_lookup_l _ _ _ _ _ Hfans Eface) as (fs & Efs & Hfs). unfold face_map. rewrite list_lookup_imap, Efs. cbn [fmap option_fmap option_map mbind option_bind].
      destruct (cone_steps v (seq (length (concat (take f fans))) (length fs)) tris cells tets fs Hinv Hv) as (tris' & cells' & E & Hinv' & _).
      { apply Forall2_same_length_lookup. split; [by rewrite seq_length|]. intros i t row Ht Hrow. apply lookup_seq in Ht as [-> Hi]. destruct Hinv as (P & _ & _). split.
        - eapply prefix_lookup; [|exact P]. by rewrite (concat_take_lookup fans f fs i).
        - pose proof (is_fan_3 _ _ Hfs) as F3. rewrite Forall_lookup in F3. destruct (F3 i row Hrow) as (a & b & c & -> & Ha & Hb & Hc). split; [by exists a, b, c|].
          rewrite !elem_of_cons, elem_of_nil. intros [Hv1|[Hv1|[Hv1|[]]]]; apply Hin; rewrite Hv1; [exact Ha|exact Hb|exact Hc]. }
      exists tris', cells', (map (fun t => (t, v)) fs), face. split_and!; try done. right. split; [done|]. by exists fs.
  Qed.
  Lemma cone_cell_inv cell tris cells tets : cone_inv tris cells tets -> Forall (fun f => f < length faces) cell -> Forall (fun face => face <> []) faces ->
    exists tris' cells' ts, cone_cell faces face_map (Some (tris, cells)) cell = Some (tris', cells') /\ cone_inv tris' cells' (tets ++ ts) /\ is_cone faces cell ts.
  Proof.
    intros Hinv Hcell Hne. unfold cone_cell. destruct cell as [|f0 cell'].
    - exists tris, cells, []. rewrite app_nil_r. split; [done|]. split; [done|]. by left.
    - set (cell := f0 :: cell') in *. destruct (mapM_ok (fun f => faces !! f) cell) as (vs & Evs & Fvs).
      { intros f Hf. rewrite Forall_forall in Hcell. by apply lookup_lt_is_Some_2, Hcell. }
      rewrite Evs. cbn [mbind option_bind].
      assert (Hcv : concat vs <> []).
      { apply Forall2_cons_inv_l in Fvs as (face0 & vs' & E0 & _ & ->). rewrite Forall_lookup in Hne. specialize (Hne _ _ E0). by destruct face0. }
      destruct (min_pos_spec (concat vs) Hcv) as (l1 & v & l2 & E & El & H1 & H2). rewrite E. cbn [mbind option_bind].
      assert (Hmin : forall f face x, f ∈ cell -> faces !! f = Some face -> x ∈ face -> v <= x).
      { intros f face x Hf Hface Hx. assert (x ∈ concat vs) as Hc. { apply elem_of_concat. exists face. split; [|done]. apply (mapM_elem _ _ _ _ Evs). by exists f. }
        rewrite El in Hc. apply elem_of_app in Hc as [Hc|Hc]; [specialize (H1 x Hc); lia|]. apply elem_of_cons in Hc as [->|Hc]; [lia|]. by apply H2. }
      assert (Hex : exists f face, f ∈ cell /\ faces !! f = Some face /\ v ∈ face).
      { assert (v ∈ concat vs) as Hc by (rewrite El; apply elem_of_app; right; by left). apply elem_of_concat in Hc as (face & Hface & Hc). apply (mapM_elem _ _ _ _ Evs) in Hface as (f & Hf & Ef). by exists f, face. }
      assert (Hv : v < nv). { destruct Hex as (f & face & _ & Hface & Hv). rewrite Forall_lookup in Hnv. specialize (Hnv f face Hface). rewrite Forall_forall in Hnv. by apply Hnv. }
      assert (G : forall todo tris cells tets, cone_inv tris cells tets -> Forall (fun f => f < length faces) todo -> exists tris' cells' tss,
        foldl (fun st f => face ← faces !! f; if decide (v ∈ (face : list nat)) then st else ts ← face_map !! f; foldl (cone_step v) st ts) (Some (tris, cells)) todo = Some (tris', cells') /\
        cone_inv tris' cells' (tets ++ concat tss) /\ Forall2 (fun f ts => exists face, faces !! f = Some face /\ ((v ∈ face /\ ts = []) \/ (v ∉ face /\ exists fs, is_fan face fs /\ ts = map (fun t => (t, v)) fs))) todo tss).
      { clear -Hfans Hv. induction todo as [|f todo IH]; intros tris cells tets Hinv Hb.
        - exists tris, cells, []. cbn. rewrite app_nil_r. done.
        - apply Forall_cons in Hb as [Hf Hb]. destruct (cone_face v f tris cells tets Hinv Hv Hf) as (tris1 & cells1 & ts & face & Eface & E1 & Hinv1 & Hts). cbn [foldl]. rewrite E1.
          destruct (IH tris1 cells1 (tets ++ ts) Hinv1 Hb) as (tris2 & cells2 & tss & E2 & Hinv2 & F2). exists tris2, cells2, (ts :: tss). split; [done|]. split; [cbn; by rewrite app_assoc|]. constructor; [|done]. by exists face. }
      destruct (G cell tris cells tets Hinv Hcell) as (tris' & cells' & tss & E' & Hinv' & F'). exists tris', cells', (concat tss). split; [done|]. split; [done|]. right. exists v, tss. split_and!; done.
  Qed.
  Lemma cone_cells todo : forall tris cells tets, cone_inv tris cells tets -> Forall (Forall (fun f => f < length faces)) todo -> Forall (fun face => face <> []) faces ->
    exists tris' cells' tss, foldl (cone_cell faces face_map) (Some (tris, cells)) todo = Some (tris', cells') /\ cone_inv tris' cells' (tets ++ concat tss) /\ Forall2 (is_cone faces) todo tss.
  Proof.
    induction todo as [|cell todo IH]; intros tris cells tets Hinv Hb Hne.
    - exists tris, cells, []. cbn. rewrite app_nil_r. done.
    - apply Forall_cons in Hb as [Hf Hb]. destruct (cone_cell_inv cell tris cells tets Hinv Hf Hne) as (tris1 & cells1 & ts & E1 & Hinv1 & Hts). cbn [foldl]. rewrite E1.
      destruct (IH tris1 cells1 (tets ++ ts) Hinv1 Hb Hne) as (tris2 & cells2 & tss & E2 & Hinv2 & F2). exists tris2, cells2, (ts :: tss). split; [done|]. split; [cbn; by rewrite app_assoc|]. by constructor.
  Qed.
End cone.

(** Lemmas on polymeshes. *)
From stdpp Require Import base list list_numbers sorting.
From Verif Require Import Prelude ReorderModel MeshModel MeshProofs PolyModel PolySpec.

Lemma sort_nat_perm l : sort_nat l ≡ₚ l.
Proof. apply merge_sort_Permutation. Qed.
Lemma sort_nat_eq a b : sort_nat a = sort_nat b <-> a ≡ₚ b.
Proof.
  split.
  - intros H. rewrite <- (sort_nat_perm a), H. apply sort_nat_perm.
  - intros H. apply (StronglySorted_unique (≤)); try apply StronglySorted_merge_sort; try apply _. by rewrite !sort_nat_perm.
Qed.

Lemma lookup_snoc_Some {A} (l : list A) x i y : (l ++ [x]) !! i = Some y <-> (i < length l /\ l !! i = Some y) \/ (i = length l /\ x = y).
Proof.
  rewrite lookup_app_Some. split.
  - intros [H|[H1 H2]]; [left; split; [by eapply lookup_lt_Some|done]|]. apply list_lookup_singleton_Some in H2 as [? ->]. right. split; [lia|done].
  - intros [[_ H]|[-> ->]]; [by left|]. right. split; [done|]. by rewrite Nat.sub_diag.
Qed.

Lemma elem_of_concat {A} (x : A) ls : x ∈ concat ls <-> exists l, l ∈ ls /\ x ∈ l.
Proof. rewrite elem_of_list_In, in_concat. setoid_rewrite <- elem_of_list_In. done. Qed.

Section foldopt.
  Context {A B : Type}.
  Lemma foldl_none (f : option A -> B -> option A) l : (forall b, f None b = None) -> foldl f None l = None.
  Proof. intros H. induction l; simpl; [done|]. by rewrite H. Qed.
End foldopt.

Lemma mapM_ok {A B} (f : A -> option B) l : (forall x, x ∈ l -> is_Some (f x)) -> exists k, mapM f l = Some k /\ Forall2 (fun x y => f x = Some y) l k.
Proof.
  intros H. assert (is_Some (mapM f l)) as [k Hk]. { apply mapM_is_Some_2. apply Forall_forall. intros x Hx. by apply H. }
  exists k. split; [done|]. by apply mapM_Some_1.
Qed.
Lemma mapM_Forall2 {A B} (f : A -> option B) l k : mapM f l = Some k <-> Forall2 (fun x y => f x = Some y) l k.
Proof. split; [apply mapM_Some_1|apply mapM_Some_2]. Qed.

(** * removing duplicate faces *)
Definition dedup_inv (pre : list (list nat)) (faces : list (list nat)) (seen : list (list nat * nat)) : Prop :=
  (forall key j, assoc key seen = Some j <-> exists face, faces !! j = Some face /\ sort_nat face = key) /\
  (forall i j a b, faces !! i = Some a -> faces !! j = Some b -> a ≡ₚ b -> i = j) /\
  faces `sublist_of` pre /\ (forall face, face ∈ pre -> exists face', face' ∈ faces /\ face' ≡ₚ face) /\
  (forall j face, faces !! j = Some face -> exists i, pre !! i = Some face /\ forall k b, k < i -> pre !! k = Some b -> ~ b ≡ₚ face).
Lemma dedup_inv_nil : dedup_inv [] [] [].
Proof. split_and!; try done. - intros key j. split; [done|]. by intros (? & ? & _). - intros face H. by apply elem_of_nil in H. Qed.

Lemma dedup_step_inv pre faces seen out face : dedup_inv pre faces seen -> exists faces' seen' j face',
  dedup_step (faces, seen, out) face = (faces', seen', out ++ [j]) /\ dedup_inv (pre ++ [face]) faces' seen' /\ faces `prefix_of` faces' /\
  faces' !! j = Some face' /\ face' ≡ₚ face.
Proof.
  intros (Ha & Hu & Hs & Hc & Hf). unfold dedup_step. destruct (assoc (sort_nat face) seen) as [j|] eqn:E.
  - apply Ha in E as E'. destruct E' as (face' & Hj & Hk). apply sort_nat_eq in Hk. exists faces, seen, j, face'. split; [done|]. split; [|done]. split_and!; try done.
    + etrans; [exact Hs|]. by apply sublist_inserts_r.
    + intros g Hg. apply elem_of_app in Hg as [Hg|Hg]; [by apply Hc|]. apply elem_of_list_singleton in Hg as ->. exists face'. split; [by eapply elem_of_list_lookup_2|done].
    + intros k g Hg. destruct (Hf k g Hg) as (i & Hi & Hmin). exists i. split; [by apply lookup_app_l_Some|]. intros k' b Hk' Hb. apply (Hmin k'); [done|].
      rewrite lookup_app_l in Hb; [done|]. apply lookup_lt_Some in Hi. lia.
  - assert (Hnew : forall g, g ∈ faces -> ~ g ≡ₚ face).
    { intros g Hg Hp. apply elem_of_list_lookup in Hg as [j Hj]. assert (assoc (sort_nat face) seen = Some j) as E'; [|congruence]. apply Ha. exists g. split; [done|]. by apply sort_nat_eq. }
    exists (faces ++ [face]), ((sort_nat face, length faces) :: seen), (length faces), face. split; [done|]. split; [|split; [by apply prefix_app_r|split; [by apply list_lookup_middle|done]]]. split_and!.
    + intros key j. simpl. destruct (decide (key = sort_nat face)) as [->|N].
      * split; [intros [= <-]; exists face; by rewrite list_lookup_middle|]. intros (g & Hg & Hk). apply sort_nat_eq in Hk. destruct (decide (j = length faces)) as [->|Nj]; [done|].
        apply lookup_snoc_Some in Hg as [[_ Hg]|[? _]]; [|congruence]. apply elem_of_list_lookup_2 in Hg. by destruct (Hnew g Hg).
      * rewrite Ha. split; intros (g & Hg & Hk).
        -- exists g. split; [by apply lookup_app_l_Some|done].
        -- apply lookup_snoc_Some in Hg as [[_ Hg]|[_ <-]]; [by exists g|congruence].
    + intros i j a b Hi Hj Hp. apply lookup_snoc_Some in Hi as [[_ Hi]|[-> <-]], Hj as [[_ Hj]|[-> <-]]; [by eapply Hu| | |done].
      * apply elem_of_list_lookup_2 in Hi. by destruct (Hnew a Hi).
      * apply elem_of_list_lookup_2 in Hj. symmetry in Hp. by destruct (Hnew b Hj).
    + by apply sublist_app.
    + intros g Hg. apply elem_of_app in Hg as [Hg|Hg].
      * destruct (Hc g Hg) as (g' & ? & ?). exists g'. split; [|done]. apply elem_of_app. by left.
      * apply elem_of_list_singleton in Hg as ->. exists face. split; [|done]. apply elem_of_app. right. by apply elem_of_list_singleton.
    + intros j g Hg. apply lookup_snoc_Some in Hg as [[_ Hg]|[-> <-]].
      * destruct (Hf j g Hg) as (i & Hi & Hmin). exists i. split; [by apply lookup_app_l_Some|]. intros k' b Hk' Hb. apply (Hmin k'); [done|].
        rewrite lookup_app_l in Hb; [done|]. apply lookup_lt_Some in Hi. lia.
      * exists (length pre). split; [by apply list_lookup_middle|]. intros k b Hk Hb Hp. rewrite lookup_app_l in Hb by done. apply elem_of_list_lookup_2 in Hb.
        destruct (Hc b Hb) as (g' & Hg' & Hp'). apply (Hnew g' Hg'). by rewrite Hp'.
Qed.

Lemma dedup_fold todo : forall pre faces seen out, dedup_inv pre faces seen -> exists faces' seen' out',
  foldl dedup_step (faces, seen, out) todo = (faces', seen', out ++ out') /\ dedup_inv (pre ++ todo) faces' seen' /\ faces `prefix_of` faces' /\
  Forall2 (fun face j => exists face', faces' !! j = Some face' /\ face' ≡ₚ face) todo out'.
Proof.
  induction todo as [|face todo IH]; intros pre faces seen out H.
  - exists faces, seen, []. rewrite !app_nil_r. split_and!; try done.
  - cbn [foldl]. destruct (dedup_step_inv pre faces seen out face H) as (faces1 & seen1 & j & face' & -> & H1 & P1 & L1 & E1).
    destruct (IH _ _ _ (out ++ [j]) H1) as (faces2 & seen2 & out2 & -> & H2 & P2 & F2). exists faces2, seen2, (j :: out2). rewrite <- !app_assoc in *. cbn [app] in *.
    split_and!; try done; [by etrans|]. constructor; [|done]. exists face'. split; [by eapply prefix_lookup|done].
Qed.

Lemma dedup_faces_spec {V} (m : polymesh V) : pm_ok m -> exists m' seen, dedup_faces m = Some m' /\ pm_vertices m' = pm_vertices m /\ dedup_inv (pm_faces m) (pm_faces m') seen /\
  Forall2 (Forall2 (fun f f' => exists face face', pm_faces m !! f = Some face /\ pm_faces m' !! f' = Some face' /\ face' ≡ₚ face)) (pm_cells m) (pm_cells m').
Proof.
  intros [Hf Hc]. unfold dedup_faces. destruct (dedup_fold (pm_faces m) [] [] [] [] dedup_inv_nil) as (faces & seen & out & -> & Hinv & _ & F2). cbn [app] in *.
  assert (Hout : forall f, f < length (pm_faces m) -> is_Some (out !! f)). { intros f Hf'. apply lookup_lt_is_Some. by rewrite <- (Forall2_length _ _ _ F2). }
  destruct (mapM_ok (mapM (fun f => out !! f)) (pm_cells m)) as (cells & -> & Fc).
  { intros cell Hcell. apply mapM_is_Some_2. rewrite Forall_forall in Hc. specialize (Hc cell Hcell). rewrite Forall_forall in Hc. apply Forall_forall. intros f Hff. by apply Hout, Hc. }
  cbn [mbind option_bind]. eexists _, seen. split; [done|]. cbn. split; [done|]. split; [done|].
  eapply Forall2_impl; [exact Fc|]. intros cell cell' Hcell. apply mapM_Forall2 in Hcell. eapply Forall2_impl; [exact Hcell|]. intros f f' E.
  destruct (Forall2_lookup_r _ _ _ _ _ F2 E) as (face & Hface & face' & Hl & Hp). by exists face, face'.
Qed.

(** * cells of a face *)
Arguments occ : simpl never.
Definition push_cell (c : nat) (acc : option (list (list nat))) (f : nat) : option (list (list nat)) := rows ← acc; row ← rows !! f; Some (<[f := row ++ [c]]> rows).
Lemma occ_cons f g l : occ f (g :: l) = (if decide (g = f) then 1 else 0) + occ f l.
Proof. unfold occ. rewrite filter_cons. by destruct (decide (g = f)). Qed.
Lemma occ_pos f l : 0 < occ f l <-> f ∈ l.
Proof.
  unfold occ. split.
  - intros H. destruct (filter (fun x => x = f) l) as [|x r] eqn:E; [cbn in H; lia|]. assert (x ∈ filter (fun x => x = f) l) as Hx by (rewrite E; by left). apply elem_of_list_filter in Hx as [-> ?]. done.
  - intros H. assert (f ∈ filter (fun x => x = f) l) as Hx by by apply elem_of_list_filter. destruct (filter _ l); [by apply elem_of_nil in Hx|cbn; lia].
Qed.
Lemma push_cell_fold c cell : forall rows, Forall (fun f => f < length rows) cell -> foldl (push_cell c) (Some rows) cell = Some (imap (fun f row => row ++ replicate (occ f cell) c) rows).
Proof.
  induction cell as [|g cell IH]; intros rows H; cbn [foldl].
  - f_equal. apply list_eq. intros i. rewrite list_lookup_imap. destruct (rows !! i); cbn; [by rewrite app_nil_r|done].
  - apply Forall_cons in H as [Hg H]. destruct (lookup_lt_is_Some_2 _ _ Hg) as [row Hrow]. unfold push_cell at 2. cbn [mbind option_bind]. rewrite Hrow. cbn [mbind option_bind]. rewrite IH by by rewrite insert_length.
    f_equal. apply list_eq. intros i. rewrite !list_lookup_imap. destruct (decide (i = g)) as [->|N].
    + rewrite list_lookup_insert by done. rewrite Hrow. cbn. rewrite occ_cons, decide_True by done. cbn. by rewrite <- app_assoc.
    + rewrite list_lookup_insert_ne by done. destruct (rows !! i); cbn; [|done]. rewrite occ_cons, decide_False by done. done.
Qed.
Lemma face_cell_fold cells : forall k rows, Forall (Forall (fun f => f < length rows)) cells ->
  foldl (fun acc (ic : nat * list nat) => rows ← acc; foldl (push_cell ic.1) (Some rows) ic.2) (Some rows) (imap (fun i c => (k + i, c)) cells)
  = Some (imap (fun f row => row ++ concat (imap (fun i cell => replicate (occ f cell) (k + i)) cells)) rows).
Proof.
  induction cells as [|cell cells IH]; intros k rows H; cbn [imap foldl].
  - f_equal. apply list_eq. intros i. rewrite list_lookup_imap. destruct (rows !! i); cbn; [by rewrite app_nil_r|done].
  - apply Forall_cons in H as [Hc H]. cbn [mbind option_bind fst snd]. rewrite push_cell_fold by done.
    rewrite (imap_ext (_ ∘ S) (fun i c => (S k + i, c))) by (intros; cbn; f_equal; lia). rewrite IH by by rewrite imap_length.
    f_equal. apply list_eq. intros i. rewrite !list_lookup_imap. destruct (rows !! i); cbn; [|done]. rewrite <- app_assoc, Nat.add_0_r. do 3 f_equal. f_equal. apply imap_ext. intros. cbn. f_equal. lia.
Qed.
Lemma face_cell_spec {V} (m : polymesh V) : pm_ok m -> face_cell_connectivity m = Some (map (fun f => concat (imap (fun i cell => replicate (occ f cell) i) (pm_cells m))) (seq 0 (length (pm_faces m)))).
Proof.
  intros [_ Hc]. unfold face_cell_connectivity. transitivity (Some (imap (fun f row => row ++ concat (imap (fun i cell => replicate (occ f cell) (0 + i)) (pm_cells m))) (replicate (length (pm_faces m)) []))).
  - apply (face_cell_fold (pm_cells m) 0). by rewrite replicate_length.
  - f_equal. apply list_eq. intros i. rewrite list_lookup_imap, list_lookup_fmap. destruct (decide (i < length (pm_faces m))) as [L|L].
    + rewrite lookup_replicate_2, lookup_seq_lt by done. cbn. done.
    + rewrite (lookup_ge_None_2 (replicate _ _)) by (rewrite replicate_length; lia). rewrite lookup_seq_ge by lia. done.
Qed.

(** * boundary faces *)
Lemma count_fold cell : forall counts, Forall (fun f => f < length counts) cell ->
  foldl (fun acc f => counts ← acc; c ← counts !! f; Some (<[f := c + 1]> counts)) (Some counts) cell = Some (imap (fun f c => c + occ f cell) counts).
Proof.
  induction cell as [|g cell IH]; intros counts H; cbn [foldl].
  - f_equal. apply list_eq. intros i. rewrite list_lookup_imap. destruct (counts !! i); cbn; [by rewrite Nat.add_0_r|done].
  - apply Forall_cons in H as [Hg H]. destruct (lookup_lt_is_Some_2 _ _ Hg) as [c Hrow]. cbn [mbind option_bind]. rewrite Hrow. cbn [mbind option_bind]. rewrite IH by by rewrite insert_length.
    f_equal. apply list_eq. intros i. rewrite !list_lookup_imap. destruct (decide (i = g)) as [->|N].
    + rewrite list_lookup_insert by done. rewrite Hrow. cbn. rewrite occ_cons, decide_True by done. f_equal. lia.
    + rewrite list_lookup_insert_ne by done. destruct (counts !! i); cbn; [|done]. rewrite occ_cons, decide_False by done. done.
Qed.
Lemma counts_fold cells : forall counts, Forall (Forall (fun f => f < length counts)) cells ->
  foldl (fun acc (cell : list nat) => foldl (fun acc f => counts ← acc; c ← counts !! f; Some (<[f := c + 1]> counts)) acc cell) (Some counts) cells
  = Some (imap (fun f c => c + sum_list (map (occ f) cells)) counts).
Proof.
  induction cells as [|cell cells IH]; intros counts H; cbn [foldl].
  - f_equal. apply list_eq. intros i. rewrite list_lookup_imap. destruct (counts !! i); cbn; [by rewrite Nat.add_0_r|done].
  - apply Forall_cons in H as [Hc H]. rewrite count_fold by done. rewrite IH by by rewrite imap_length. f_equal. apply list_eq. intros i. rewrite !list_lookup_imap. destruct (counts !! i); cbn; [|done]. f_equal. lia.
Qed.
Lemma boundary_spec {V} (m : polymesh V) : pm_ok m ->
  poly_boundary_faces m = Some (filter (fun f => sum_list (map (occ f) (pm_cells m)) <= 1) (seq 0 (length (pm_faces m)))).
Proof.
  intros [_ Hc]. unfold poly_boundary_faces. rewrite counts_fold by by rewrite replicate_length. cbn [mbind option_bind]. f_equal.
  generalize (length (pm_faces m)) as n. intros n.
  assert (H : forall (g : nat -> nat) n k, omap (fun ic : nat * nat => if decide (ic.2 <= 1) then Some ic.1 else None) (imap (fun i c => (k + i, c)) (imap (fun f c => c + g (k + f)) (replicate n 0))) = filter (fun f => g f <= 1) (seq k n)).
  { clear. intros g. induction n as [|n IH]; intros k; [done|]. cbn [replicate seq]. rewrite filter_cons. cbn [imap omap list_omap]. rewrite Nat.add_0_r. cbn [snd fst Nat.add]. 
    rewrite <- (IH (S k)). assert (E : imap (fun i c => (k + S i, c)) (imap (fun f c => c + g (k + S f)) (replicate n 0)) = imap (fun i c => (S k + i, c)) (imap (fun f c => c + g (S k + f)) (replicate n 0))).
    { rewrite (imap_ext (fun f c => c + g (k + S f)) (fun f c => c + g (S k + f))) by (intros; f_equal; f_equal; lia). apply imap_ext. intros. f_equal. lia. }
    destruct (decide (g k <= 1)); [f_equal|]; exact (f_equal (omap _) E). }
  apply (H (fun f => sum_list (map (occ f) (pm_cells m))) n 0).
Qed.

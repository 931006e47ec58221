(** Boundary faces, keep_cells. *)
From stdpp Require Import base list list_numbers sorting.
From Coq Require Import Lia.
From Verif Require Import Prelude ParadisProofs ReorderModel ReorderProofs MeshModel MeshSpec.

(** ** Orders *)
Lemma lex_cmp_eq a b : lex_cmp a b = Eq <-> a = b.
Proof.
  revert b. induction a as [|x a IH]; intros [|y b]; simpl; try done. destruct (Nat.compare_spec x y) as [->|H|H].
  - rewrite IH. split; [by intros ->|by intros [= ->]].
  - split; [done|]. intros [= -> ->]. lia.
  - split; [done|]. intros [= -> ->]. lia.
Qed.

Lemma lex_cmp_lt a b : lex_cmp a b = Lt <-> lex_lt a b.
Proof.
  revert b. induction a as [|x a IH]; intros [|y b]; simpl.
  - split; [done|intros H; inversion H].
  - split; [constructor|done].
  - split; [done|intros H; inversion H].
  - destruct (Nat.compare_spec x y) as [->|H|H].
    + rewrite IH. split; [by constructor|]. intros H; inversion H; subst; [lia|done].
    + split; [by constructor|done].
    + split; [done|]. intros H'; inversion H'; subst; lia.
Qed.

Lemma lex_cmp_gt a b : lex_cmp a b = Gt <-> lex_lt b a.
Proof.
  revert b. induction a as [|x a IH]; intros [|y b]; simpl.
  - split; [done|intros H; inversion H].
  - split; [done|intros H; inversion H].
  - split; [constructor|done].
  - destruct (Nat.compare_spec x y) as [->|H|H].
    + rewrite IH. split; [by constructor|]. intros H; inversion H; subst; [lia|done].
    + split; [done|]. intros H'; inversion H'; subst; lia.
    + split; [by constructor|done].
Qed.

Lemma lex_irrefl a : ~ lex_lt a a.
Proof. induction a as [|x a IH]; intros H; inversion H; subst; [lia|done]. Qed.

Lemma lex_trans a b c : lex_lt a b -> lex_lt b c -> lex_lt a c.
Proof.
  intros H. revert c. induction H as [x b|x y a b Hxy|x a b H IH]; intros c Hc; inversion Hc; subst; try (constructor; lia); try by constructor. apply lex_tail. by apply IH.
Qed.

Lemma sort_nat_sorted l : StronglySorted (≤) (sort_nat l).
Proof. apply (StronglySorted_merge_sort (≤)). Qed.

Lemma sort_nat_perm l : sort_nat l ≡ₚ l.
Proof. apply merge_sort_Permutation. Qed.

Lemma sort_nat_eq f f' : sort_nat f = sort_nat f' <-> f ≡ₚ f'.
Proof.
  split.
  - intros H. by rewrite <- (sort_nat_perm f), H, sort_nat_perm.
  - intros H. apply (StronglySorted_unique (≤)); [apply sort_nat_sorted..|]. by rewrite !sort_nat_perm.
Qed.

Lemma dedup_elem l x : x ∈ dedup l <-> x ∈ l.
Proof.
  induction l as [|a l IH]; [done|]. simpl. destruct l as [|b l]; [done|]. destruct (decide (a = b)) as [->|Hne].
  - rewrite IH, !elem_of_cons. intuition.
  - rewrite elem_of_cons, IH, (elem_of_cons (b :: l)). done.
Qed.

Lemma dedup_sorted l : StronglySorted (≤) l -> StronglySorted (<) (dedup l).
Proof.
  induction 1 as [|a l Hs IH Hf]; [constructor|]. simpl. destruct l as [|b l]; [repeat constructor|]. destruct (decide (a = b)) as [->|Hne]; [done|].
  constructor; [done|]. apply Forall_forall. intros x Hx. apply (proj1 (dedup_elem _ _)) in Hx. rewrite Forall_forall in Hf. pose proof (Hf b ltac:(by left)). 
  apply elem_of_cons in Hx as [->|Hx]; [lia|]. inversion Hs as [|? ? _ Hf']; subst. rewrite Forall_forall in Hf'. specialize (Hf' x Hx). lia.
Qed.

(** ** The counting map *)
Definition bt_sorted (m : list (list nat * (nat * nat))) : Prop := StronglySorted (fun a b => lex_lt a.1 b.1) m.

Lemma bt_count_elem key i m : bt_sorted m ->
  bt_sorted (bt_count key i m) /\
  forall k j n, (k, (j, n)) ∈ bt_count key i m <->
    (k <> key /\ (k, (j, n)) ∈ m) \/ (k = key /\ exists n', n = n' + 1 /\ (k, (j, n')) ∈ m) \/
    (k = key /\ j = i /\ n = 1 /\ forall j' n', (key, (j', n')) ∉ m).
Proof.
  induction 1 as [|[k0 [j0 n0]] m Hs IH Hf]; simpl.
  - split; [repeat constructor|]. intros k j n. rewrite elem_of_list_singleton. split.
    + intros [= -> -> ->]. right. right. split_and!; try done. intros j' n'. apply not_elem_of_nil.
    + intros [[_ H]|[(_ & n' & _ & H)|(-> & -> & -> & _)]]; [by apply elem_of_nil in H..|done].
  - rewrite Forall_forall in Hf.
    assert (forall k j n, (k, (j, n)) ∈ m -> lex_lt k0 k) as Hf' by (intros k j n H; apply (Hf _ H)).
    destruct (lex_cmp key k0) eqn:Hc.
    + apply lex_cmp_eq in Hc as ->. split.
      * constructor; [done|]. apply Forall_forall. intros [k v] H. by apply (Hf _ H).
      * intros k j n. rewrite !elem_of_cons. split.
        -- intros [[= -> -> ->]|H].
           ++ right. left. split; [done|]. exists n0. split; [done|]. by left.
           ++ left. pose proof (Hf' _ _ _ H). split; [intros ->; by eapply lex_irrefl|by right].
        -- intros [[Hne [H|H]]|[(-> & n' & -> & H)|(-> & -> & -> & H)]]; [| |apply elem_of_cons in H as [H|H]|].
           ++ by simplify_eq.
           ++ by right.
           ++ left. by simplify_eq.
           ++ exfalso. eapply lex_irrefl. by eapply Hf'.
           ++ exfalso. apply (H j0 n0). by left.
    + apply lex_cmp_lt in Hc. split.
      * constructor; [by constructor; [|apply Forall_forall]|]. apply Forall_forall. intros [k [j n]] H. simpl. apply elem_of_cons in H as [[= -> -> ->]|H]; [done|].
        eapply lex_trans; [exact Hc|]. by eapply Hf'.
      * intros k j n. rewrite (elem_of_cons ((k0, (j0, n0)) :: m)).
        assert (forall j n, (key, (j, n)) ∉ (k0, (j0, n0)) :: m) as Hno.
        { intros j' n' H. apply elem_of_cons in H as [[= -> -> ->]|H]; [by eapply lex_irrefl|]. eapply lex_irrefl. eapply lex_trans; [exact Hc|]. by eapply Hf'. }
        split.
        -- intros [[= -> -> ->]|H]; [by right; right|]. left. split; [|done]. intros ->. by eapply Hno.
        -- intros [[_ H]|[(-> & n' & _ & H)|(-> & -> & -> & _)]]; [by right|exfalso; by eapply Hno|by left].
    + apply lex_cmp_gt in Hc. destruct IH as [IHs IH]. split.
      * constructor; [done|]. apply Forall_forall. intros [k [j n]] H. simpl. apply IH in H as [[_ H]|[(-> & _)|(-> & _)]]; [by eapply Hf'|done|done].
      * intros k j n. rewrite !elem_of_cons, IH. split.
        -- intros [[= -> -> ->]|[[Hne H]|[(-> & n' & -> & H)|(-> & -> & -> & H)]]].
           ++ left. split; [intros ->; by eapply lex_irrefl|by left].
           ++ left. split; [done|by right].
           ++ right. left. split; [done|]. exists n'. split; [done|by right].
           ++ right. right. split_and!; try done. intros j' n' H'. apply elem_of_cons in H' as [[= -> -> ->]|H']; [by eapply lex_irrefl|by eapply H].
        -- intros [[Hne [H|H]]|[(-> & n' & -> & H)|(-> & -> & -> & H)]]; [| |apply elem_of_cons in H as [H|H]|].
           ++ left. by simplify_eq.
           ++ right. left. done.
           ++ exfalso. injection H as -> -> ->. by eapply lex_irrefl.
           ++ right. right. left. split; [done|]. by exists n'.
           ++ right. right. right. split_and!; try done. intros j' n' H'. apply (H j' n'). by right.
Qed.

Definition bt_counts (keys : list (list nat)) := foldl (fun m ik => bt_count ik.2 ik.1 m) [] (imap pair keys).

Lemma bt_counts_snoc keys k : bt_counts (keys ++ [k]) = bt_count k (length keys) (bt_counts keys).
Proof. unfold bt_counts. rewrite imap_app, foldl_app. simpl. by rewrite Nat.add_0_r. Qed.

(** Entry (k, (j, n)): n occurrences of k, the first at position j. *)
Lemma bt_counts_spec keys : bt_sorted (bt_counts keys) /\
  forall k j n, (k, (j, n)) ∈ bt_counts keys <-> n = length (filter (.= k) keys) /\ keys !! j = Some k /\ forall i, i < j -> keys !! i <> Some k.
Proof.
  induction keys as [|key keys [IHs IH]] using rev_ind.
  { split; [constructor|]. intros k j n. split; [intros H; by apply elem_of_nil in H|by intros (_ & H & _)]. }
  rewrite bt_counts_snoc. destruct (bt_count_elem key (length keys) _ IHs) as [Hs He]. split; [done|].
  intros k j n. rewrite He, filter_app, app_length. clear He Hs.
  assert (forall k, (exists j n, (k, (j, n)) ∈ bt_counts keys) <-> k ∈ keys) as Hin.
  { clear -IH. intros k. split.
    - intros (j & n & H). apply IH in H as (_ & H & _). exact (elem_of_list_lookup_2 _ _ _ H).
    - intros H. apply elem_of_list_lookup in H as [i0 Hi0]. 
      assert (forall i, keys !! i = Some k -> exists j, keys !! j = Some k /\ forall i, i < j -> keys !! i <> Some k) as Hmin.
      { clear. induction i as [i IHi] using lt_wf_ind. intros Hi. destruct (decide (Exists (fun x => x = k) (take i keys))) as [He|He].
        - apply Exists_exists in He as (x & Hx & ->). apply elem_of_take in Hx as (i' & Hi' & Hlt). by apply (IHi i').
        - exists i. split; [done|]. intros i' Hlt Hi'. apply He, Exists_exists. exists k. split; [|done]. apply elem_of_take. by exists i'. }
      destruct (Hmin _ Hi0) as (j & Hj & Hf). exists j, (length (filter (.= k) keys)). by apply IH. }
  destruct (decide (k = key)) as [->|Hne].
  - rewrite filter_cons_True by done. rewrite filter_nil. cbn [length]. split.
    + intros [[? _]|[(_ & n' & -> & H)|(_ & -> & -> & H)]]; [done| |].
      * apply IH in H as (-> & Hj & Hf). split_and!; [done|by apply lookup_app_l_Some|]. intros i Hi. rewrite lookup_app_l; [by apply Hf|]. apply lookup_lt_Some in Hj. lia.
      * assert (key ∉ keys) as Hk by (intros Hk; apply Hin in Hk as (j' & n' & Hk); by eapply H). split_and!.
        -- assert (filter (.= key) keys = []) as ->; [|done]. apply elem_of_nil_inv. intros x Hx. apply elem_of_list_filter in Hx as [-> Hx]. done.
        -- by rewrite lookup_app_r, Nat.sub_diag by lia.
        -- intros i Hi. rewrite lookup_app_l by done. intros H'. apply Hk. exact (elem_of_list_lookup_2 _ _ _ H').
    + intros (-> & Hj & Hf). destruct (decide (key ∈ keys)) as [Hk|Hk].
      * right. left. split; [done|]. eexists. split; [done|]. apply IH. split; [done|]. apply elem_of_list_lookup in Hk as [i Hi].
        destruct (decide (j < length keys)) as [Hlt|Hge].
        -- rewrite lookup_app_l in Hj by done. split; [done|]. intros i' Hi'. rewrite <- (lookup_app_l keys [key]) by lia. by apply Hf.
        -- exfalso. apply (Hf i); [apply lookup_lt_Some in Hi; lia|]. by apply lookup_app_l_Some.
      * right. right. split; [done|]. destruct (decide (j < length keys)) as [Hlt|Hge].
        -- rewrite lookup_app_l in Hj by done. exfalso. apply Hk. exact (elem_of_list_lookup_2 _ _ _ Hj).
        -- split_and!.
           ++ apply lookup_lt_Some in Hj. rewrite app_length in Hj. simpl in Hj. lia.
           ++ assert (filter (.= key) keys = []) as ->; [|done]. apply elem_of_nil_inv. intros x Hx. apply elem_of_list_filter in Hx as [-> Hx]. done.
           ++ intros j' n' H. apply Hk, Hin. eauto.
  - rewrite filter_cons_False by done. rewrite filter_nil. cbn [length]. rewrite Nat.add_0_r. split.
    + intros [[_ H]|[(? & _)|(? & _)]]; [|done|done]. apply IH in H as (-> & Hj & Hf). split_and!; [done|by apply lookup_app_l_Some|].
      intros i Hi. rewrite lookup_app_l; [by apply Hf|]. apply lookup_lt_Some in Hj. lia.
    + intros (-> & Hj & Hf). left. split; [done|]. apply IH. destruct (decide (j < length keys)) as [Hlt|Hge].
      * rewrite lookup_app_l in Hj by done. split_and!; [done|done|]. intros i' Hi'. rewrite <- (lookup_app_l keys [key]) by lia. by apply Hf.
      * rewrite lookup_app_r in Hj by lia. apply list_lookup_singleton_Some in Hj as [_ ?]. done.
Qed.

Lemma filter_one (keys : list (list nat)) k j : keys !! j = Some k -> length (filter (.= k) keys) = 1 <-> forall i, keys !! i = Some k -> i = j.
Proof.
  intros Hj. rewrite <- (take_drop_middle _ _ _ Hj) at 1. rewrite filter_app, filter_cons_True by done. rewrite app_length. cbn [length].
  assert (forall l : list (list nat), length (filter (.= k) l) = 0 <-> k ∉ l) as H0.
  { clear. intros l. split.
    - intros H Hin. apply nil_length_inv in H. assert (k ∈ filter (.= k) l) as Hk by (by apply elem_of_list_filter). rewrite H in Hk. by apply elem_of_nil in Hk.
    - intros H. assert (filter (.= k) l = []) as ->; [|done]. apply elem_of_nil_inv. intros x Hx. apply elem_of_list_filter in Hx as [-> Hx]. done. }
  split.
  - intros Hl i Hi. assert (k ∉ take j keys) as H1 by (apply H0; lia). assert (k ∉ drop (S j) keys) as H2 by (apply H0; lia).
    destruct (Nat.lt_trichotomy i j) as [H|[H|H]]; [|done|].
    + exfalso. apply H1. apply elem_of_take. by exists i.
    + exfalso. apply H2. apply elem_of_list_lookup. exists (i - S j). rewrite lookup_drop. by replace (S j + (i - S j)) with i by lia.
  - intros Hi. assert (k ∉ take j keys) as H1. { intros H. apply elem_of_take in H as (i & H & Hlt). specialize (Hi i H). lia. }
    assert (k ∉ drop (S j) keys) as H2. { intros H. apply elem_of_list_lookup in H as [i H]. rewrite lookup_drop in H. specialize (Hi _ H). lia. }
    apply H0 in H1, H2. lia.
Qed.

(** ** Boundary faces *)
Lemma mapM_Forall2 {A B} (f : A -> option B) l k : mapM f l = Some k <-> Forall2 (fun x y => f x = Some y) l k.
Proof. apply mapM_Some. Qed.

Section boundary.
Context (k : conn_kind) (cells : list (list nat)) (Hk : kind_ok k) (Hc : cells_of_kind k cells).

Lemma face_of_spec cell i f : face_of k cell i = Some f <-> exists t, ck_face k i = Some t /\ Forall2 (fun j v => cell !! j = Some v) t f.
Proof using Type.
  unfold face_of. destruct (ck_face k i) as [t|]; simpl.
  - rewrite mapM_Forall2. split; [intros H; by exists t|by intros (t' & [= <-] & H)].
  - split; [done|by intros (t & ? & _)].
Qed.

Lemma infos_exist : exists per_cell, mapM (cell_faces k) (imap pair cells) = Some per_cell /\
  (forall f c l, (f, c, l) ∈ concat per_cell <-> is_face k cells f c l) /\
  (forall i j f f' c l, concat per_cell !! i = Some (f, c, l) -> concat per_cell !! j = Some (f', c, l) -> i = j).
Proof using Hk Hc.
  assert (forall cell c, cells !! c = Some cell -> exists fs, cell_faces k (c, cell) = Some fs /\ map (fun e => e.2) fs = seq 0 (ck_num_faces k) /\
    forall f c' l, (f, c', l) ∈ fs <-> c' = c /\ is_face k cells f c l) as Hcell.
  { intros cell c Hcc. unfold cell_faces. cbn [fst snd].
    destruct (Forall2_exists (fun l e => (f ← face_of k cell l; Some (f, c, l)) = Some e) (seq 0 (ck_num_faces k))) as [fs HF].
    { intros l Hl. apply elem_of_seq in Hl. destruct (Hk l ltac:(lia)) as (t & Ht & Hf).
      destruct (Forall2_exists (fun j v => cell !! j = Some v) t) as [f Hf'].
      - intros j Hj. apply lookup_lt_is_Some_2. rewrite Forall_forall in Hf. unfold cells_of_kind in Hc. rewrite Forall_forall in Hc.
        rewrite (Hc cell ltac:(exact (elem_of_list_lookup_2 _ _ _ Hcc))). by apply Hf.
      - exists (f, c, l). rewrite (proj2 (face_of_spec cell l f)) by (by exists t). done. }
    exists fs. split; [by apply mapM_Forall2|]. split.
    - clear -HF. induction HF as [|l e ls fs He _ IH]; [done|]. simpl. destruct (face_of k cell l); [|done]. simpl in He. simplify_eq. simpl. by f_equal.
    - intros f c' l. rewrite elem_of_list_lookup. split.
      + intros [i Hi]. destruct (Forall2_lookup_r _ _ _ _ _ HF Hi) as (l' & Hl' & He). apply lookup_seq in Hl' as [-> Hlt].
        destruct (face_of k cell (0 + i)) as [f'|] eqn:Hf; [|done]. simpl in He. simplify_eq. split; [done|]. split; [done|].
        apply face_of_spec in Hf as (t & Ht & HF'). by exists cell, t.
      + intros [-> (Hl & cell' & t & Hcell' & Ht & HF')]. assert (cell' = cell) as -> by congruence.
        destruct (Forall2_lookup_l _ _ _ l l HF) as (e & He & Hfe); [by apply lookup_seq|]. exists l. rewrite He.
        rewrite (proj2 (face_of_spec cell l f)) in Hfe by (by exists t). done. }
  destruct (Forall2_exists (fun ic fs => cell_faces k ic = Some fs) (imap pair cells)) as [pc HF].
  { intros [c cell] H. apply elem_of_list_lookup in H as [i Hi]. apply list_lookup_imap_Some in Hi as (x & Hx & [= -> ->]).
    destruct (Hcell _ _ Hx) as (fs & Hfs & _). by exists fs. }
  exists pc. split; [by apply mapM_Forall2|].
  assert (forall i fs, pc !! i = Some fs -> exists cell, cells !! i = Some cell /\ cell_faces k (i, cell) = Some fs) as Hpc.
  { intros i fs Hi. destruct (Forall2_lookup_r _ _ _ _ _ HF Hi) as ([c cell] & Hcc & Hfs). apply list_lookup_imap_Some in Hcc as (x & Hx & [= -> ->]). by exists x. }
  split.
  - intros f c l. rewrite concat_elem. split.
    + intros (fs & Hfs & Hin). apply elem_of_list_lookup in Hfs as [i Hi]. destruct (Hpc _ _ Hi) as (cell & Hcc & Hf).
      destruct (Hcell _ _ Hcc) as (fs' & Hfs' & _ & Hiff). simplify_eq. by apply Hiff in Hin as [-> ?].
    + intros Hface. destruct Hface as (Hl & cell & t & Hcc & Ht & HF'). destruct (Hcell _ _ Hcc) as (fs & Hfs & _ & Hiff).
      exists fs. split; [|apply Hiff; split; [done|]; split; [done|]; by exists cell, t].
      destruct (Forall2_lookup_l _ _ _ c (c, cell) HF) as (fs' & Hfs' & He); [by rewrite list_lookup_imap, Hcc|]. simplify_eq. exact (elem_of_list_lookup_2 _ _ _ Hfs').
  - (* the pairs (c, l) are distinct *)
    assert (NoDup (map (fun e => (e.1.2, e.2)) (concat pc))) as Hnd.
    { assert (map (fun e => (e.1.2, e.2)) (concat pc) = concat (imap (fun c _ => map (pair c) (seq 0 (ck_num_faces k))) cells)) as ->.
      { clear Hpc. assert (forall cs pc n, (forall i cell, cs !! i = Some cell -> cells !! (n + i) = Some cell) ->
          Forall2 (fun ic fs => cell_faces k ic = Some fs) (imap (fun i c => (n + i, c)) cs) pc ->
          map (fun e => (e.1.2, e.2)) (concat pc) = concat (imap (fun c _ => map (pair (n + c)) (seq 0 (ck_num_faces k))) cs)) as H; [|exact (H cells pc 0 ltac:(done) HF)].
        clear pc HF. induction cs as [|cell cs IH]; intros pc n Hcs HF.
        - apply Forall2_nil_inv_l in HF as ->. done.
        - cbn [imap] in HF. apply Forall2_cons_inv_l in HF as (fs & pc' & Hfs & HF & ->). cbn [concat imap]. rewrite map_app. f_equal.
          + destruct (Hcell cell (n + 0) (Hcs 0 cell eq_refl)) as (fs' & Hfs' & Hl & Hiff). simplify_eq. rewrite <- Hl, map_map. apply map_ext_in.
            intros [[f c] l] Hin. apply elem_of_list_In, Hiff in Hin as [-> _]. done.
          + erewrite (IH pc' (S n)).
            * unfold compose. f_equal. apply imap_ext. intros i x _. by rewrite Nat.add_succ_r.
            * intros i x Hi. specialize (Hcs (S i) x Hi). by rewrite Nat.add_succ_r in Hcs.
            * unfold compose in HF. erewrite imap_ext; [exact HF|]. intros i x _. simpl. by rewrite Nat.add_succ_r. }
      clear. assert (forall n, NoDup (concat (imap (fun c (_ : list nat) => map (pair (n + c)) (seq 0 (ck_num_faces k))) cells)) /\
        forall c l, (c, l) ∈ concat (imap (fun c (_ : list nat) => map (pair (n + c)) (seq 0 (ck_num_faces k))) cells) -> n <= c) as H; [|apply (H 0)].
      induction cells as [|x cs IH]; intros n; [split; [constructor|intros c l H; by apply elem_of_nil in H]|]. cbn [imap concat].
      assert (imap ((fun c (_ : list nat) => map (pair (n + c)) (seq 0 (ck_num_faces k))) ∘ S) cs = imap (fun c _ => map (pair (S n + c)) (seq 0 (ck_num_faces k))) cs) as ->.
      { apply imap_ext. intros i y _. unfold compose. by rewrite Nat.add_succ_r. }
      destruct (IH (S n)) as [IH1 IH2]. split.
      - apply NoDup_app. split_and!; [|intros [c l] H1 H2|done].
        + apply (NoDup_fmap_2 (pair (n + 0))). apply NoDup_seq.
        + apply IH2 in H2. apply elem_of_list_fmap in H1 as (l' & [= -> ->] & _). lia.
      - intros c l H. apply elem_of_app in H as [H|H]; [|apply IH2 in H; lia]. apply elem_of_list_fmap in H as (l' & [= -> ->] & _). lia. }
    intros i j f f' c l Hi Hj. eapply (NoDup_lookup _ _ _ (c, l) Hnd); rewrite list_lookup_fmap; [by rewrite Hi|by rewrite Hj].
Qed.

Lemma boundary_faces_spec : exists fs, find_boundary_faces k cells = Some fs /\
  (forall f c l, (f, c, l) ∈ fs <-> is_boundary_face k cells f c l) /\
  StronglySorted (fun a b => lex_lt (sort_nat a.1.1) (sort_nat b.1.1)) fs.
Proof using Hk Hc.
  destruct infos_exist as (pc & Hpc & Hin & Hinj). unfold find_boundary_faces. rewrite Hpc. cbn [mbind option_bind].
  set (infos := concat pc) in *. set (keys := map (fun info => sort_nat info.1.1) infos). change (foldl _ [] (imap pair keys)) with (bt_counts keys).
  destruct (bt_counts_spec keys) as [Hs He]. set (es := filter (fun e : list nat * (nat * nat) => e.2.2 = 1) (bt_counts keys)).
  assert (forall e, e ∈ es -> exists f c l, infos !! e.2.1 = Some (f, c, l) /\ sort_nat f = e.1) as Hes.
  { intros [key [j n]] H. apply elem_of_list_filter in H as [_ H]. apply He in H as (_ & H & _). simpl. unfold keys in H. rewrite list_lookup_fmap in H.
    destruct (infos !! j) as [[[f c] l]|]; [|done]. simpl in H. injection H as <-. by exists f, c, l. }
  destruct (Forall2_exists (fun e y => infos !! e.2.1 = Some y) es) as [fs HF].
  { intros e H. destruct (Hes e H) as (f & c & l & H' & _). by exists (f, c, l). }
  exists fs. split; [by apply mapM_Forall2|]. split.
  - intros f c l. split.
    + intros H. apply elem_of_list_lookup in H as [x Hx]. destruct (Forall2_lookup_r _ _ _ _ _ HF Hx) as ([key [j n]] & Hkey & Hj). simpl in Hj.
      assert ((key, (j, n)) ∈ es) as Hees by exact (elem_of_list_lookup_2 _ _ _ Hkey). apply elem_of_list_filter in Hees as [Hn Hees]. simpl in Hn. subst n.
      apply He in Hees as (Hlen & Hjk & _). pose proof (proj1 (filter_one keys key j Hjk) (eq_sym Hlen)) as Huniq.
      assert (sort_nat f = key) as Hfk. { unfold keys in Hjk. rewrite list_lookup_fmap, Hj in Hjk. simpl in Hjk. congruence. }
      split; [apply Hin; exact (elem_of_list_lookup_2 _ _ _ Hj)|]. intros f' c' l' Hface Hperm. apply Hin in Hface. apply elem_of_list_lookup in Hface as [i Hi].
      assert (i = j) as ->; [|simplify_eq; done]. apply Huniq. unfold keys. rewrite list_lookup_fmap, Hi. simpl. f_equal. rewrite <- Hfk. by apply sort_nat_eq.
    + intros [Hface Huniq]. apply Hin in Hface. apply elem_of_list_lookup in Hface as [j Hj].
      assert (keys !! j = Some (sort_nat f)) as Hjk by (unfold keys; rewrite list_lookup_fmap, Hj; done).
      assert (forall i, keys !! i = Some (sort_nat f) -> i = j) as Hone.
      { intros i Hi. unfold keys in Hi. rewrite list_lookup_fmap in Hi. destruct (infos !! i) as [[[f' c'] l']|] eqn:Hi'; [|done]. simpl in Hi. injection Hi as Hi.
        apply sort_nat_eq in Hi. destruct (Huniq f' c' l') as [-> ->]; [|done|].
        - apply Hin. exact (elem_of_list_lookup_2 _ _ _ Hi').
        - by eapply Hinj. }
      assert ((sort_nat f, (j, 1)) ∈ es) as Hees.
      { apply elem_of_list_filter. split; [done|]. apply He. split_and!; [symmetry; by apply (filter_one keys _ j)|done|]. intros i Hi Hi'. specialize (Hone _ Hi'). lia. }
      apply elem_of_list_lookup in Hees as [x Hx]. destruct (Forall2_lookup_l _ _ _ _ _ HF Hx) as (y & Hy & Hjy). simpl in Hjy. simplify_eq.
      exact (elem_of_list_lookup_2 _ _ _ Hy).
  - assert (StronglySorted (fun a b => lex_lt a.1 b.1) es) as Hss.
    { eapply sublist_sorted; [|exact Hs]. unfold es. clear. induction (bt_counts keys) as [|e l IH]; [done|]. rewrite filter_cons. destruct (decide _); by constructor. }
    clear -HF Hss Hes. induction HF as [|e y es fs Hy HF IH]; [constructor|]. inversion Hss as [|? ? Hss' Hlt]; subst. constructor.
    + apply IH; [|done]. intros e' He'. apply Hes. by right.
    + apply Forall_forall. intros z Hz. apply elem_of_list_lookup in Hz as [i Hi]. destruct (Forall2_lookup_r _ _ _ _ _ HF Hi) as (e' & He' & Hz).
      assert (e' ∈ es) as Hin' by exact (elem_of_list_lookup_2 _ _ _ He').
      destruct (Hes e ltac:(by left)) as (f & c & l & H1 & H2). destruct (Hes e' ltac:(by right)) as (f' & c' & l' & H1' & H2'). simplify_eq. simpl.
      rewrite H2, H2'. rewrite Forall_forall in Hlt. by apply Hlt.
Qed.
End boundary.

(** ** keep_cells *)
Definition kept_of (table : list bool) : list nat := omap (fun ib : nat * bool => if ib.2 then Some ib.1 else None) (imap pair table).

Lemma kept_snoc table b : kept_of (table ++ [b]) = kept_of table ++ (if b then [length table] else []).
Proof. unfold kept_of. rewrite imap_app, omap_app. simpl. rewrite Nat.add_0_r. by destruct b. Qed.

Lemma kept_spec table : StronglySorted (<) (kept_of table) /\ forall v, v ∈ kept_of table <-> table !! v = Some true.
Proof.
  induction table as [|b table [IHs IH]] using rev_ind.
  { split; [constructor|]. intros v. split; [intros H; by apply elem_of_nil in H|done]. }
  rewrite kept_snoc. assert (forall v, v ∈ kept_of table -> v < length table) as Hlt by (intros v Hv; apply IH in Hv; by eapply lookup_lt_Some).
  split.
  - destruct b; [|by rewrite app_nil_r]. clear IH. induction IHs as [|x l Hs IHl Hf]; [repeat constructor|]. simpl. constructor.
    + apply IHl. intros v Hv. apply Hlt. by right.
    + apply Forall_app. split; [done|]. constructor; [|done]. apply Hlt. by left.
  - intros v. rewrite elem_of_app, IH. destruct (decide (v < length table)) as [H|H].
    + rewrite lookup_app_l by done. split; [|by left]. intros [?|Hv]; [done|]. destruct b; [|by apply elem_of_nil in Hv]. apply elem_of_list_singleton in Hv. lia.
    + rewrite (lookup_ge_None_2 table v) by lia. rewrite lookup_app_r by lia. destruct b.
      * rewrite elem_of_list_singleton. split; [intros [?| ->]; [done|]; by rewrite Nat.sub_diag|]. intros Hv. right. apply list_lookup_singleton_Some in Hv as [? _]. lia.
      * split; [intros [?|Hv]; [done|by apply elem_of_nil in Hv]|]. intros Hv. apply list_lookup_singleton_Some in Hv as [_ ?]. done.
Qed.

Lemma label_map_eq table : label_map table = imap (fun i v => (v, i)) (kept_of table).
Proof.
  unfold label_map. set (f := fun (st : list (nat * nat) * nat) (ib : nat * bool) => if ib.2 then (st.1 ++ [(ib.1, st.2)], st.2 + 1) else st).
  assert (foldl f ([], 0) (imap pair table) = (imap (fun i v => (v, i)) (kept_of table), length (kept_of table))) as ->; [|done].
  induction table as [|b table IH] using rev_ind; [done|]. rewrite imap_app, foldl_app, IH, kept_snoc. simpl. rewrite Nat.add_0_r. unfold f. simpl. destruct b.
  - rewrite imap_app, app_length. simpl. by rewrite Nat.add_0_r.
  - by rewrite !app_nil_r.
Qed.

Lemma map_get_spec kept v i : NoDup kept -> map_get (imap (fun i v => (v, i)) kept) v = Some i <-> kept !! i = Some v.
Proof.
  intros Hnd. unfold map_get. destruct (list_find _ _) as [[j [a b]]|] eqn:Hf; simpl.
  - apply list_find_Some in Hf as (Hj & Ha & _). simpl in Ha. subst a. apply list_lookup_imap_Some in Hj as (x & Hx & [= <- ->]). split.
    + by intros [= ->].
    + intros Hi. f_equal. by eapply NoDup_lookup.
  - split; [done|]. intros Hi. exfalso. apply list_find_None in Hf. rewrite Forall_forall in Hf. apply (Hf (v, i)); [|done].
    apply elem_of_list_lookup. exists i. by rewrite list_lookup_imap, Hi.
Qed.

Section keep.
Context {V : Type} (m : mesh V) (chosen : list nat).

Definition keep_ok (chosen : list nat) : Prop := forall i c, chosen !! i = Some c -> exists cell, ms_cells m !! c = Some cell /\ Forall (fun v => v < length (ms_vertices m)) cell.

Lemma mark_fold cell : forall table : list bool,
  (Forall (fun v => v < length table) cell -> exists table', foldl (fun ot v => table ← ot; if decide (v < length table) then Some (<[v := true]> table) else None) (Some table) cell = Some table' /\
    length table' = length table /\ forall v, table' !! v = Some true <-> table !! v = Some true \/ v ∈ cell) /\
  (~ Forall (fun v => v < length table) cell -> foldl (fun ot v => table ← ot; if decide (v < length table) then Some (<[v := true]> table) else None) (Some table) cell = None).
Proof using Type.
  assert (forall l : list nat, foldl (fun (ot : option (list bool)) v => table ← ot; if decide (v < length table) then Some (<[v := true]> table) else None) None l = None) as Hnone.
  { induction l; simpl; done. }
  induction cell as [|v cell IH]; intros table; cbn [foldl].
  - split; [|intros H; exfalso; by apply H]. intros _. exists table. split_and!; try done. intros v. split; [by left|by intros [?|?%elem_of_nil]].
  - cbn [mbind option_bind]. destruct (decide (v < length table)) as [Hv|Hv].
    + destruct (IH (<[v := true]> table)) as [IH1 IH2]. rewrite insert_length in IH1, IH2. split.
      * intros HF. apply Forall_cons in HF as [_ HF]. destruct (IH1 HF) as (table' & -> & Hl & Hiff). exists table'. split_and!; [done|done|].
        intros u. rewrite Hiff, elem_of_cons. destruct (decide (u = v)) as [->|Hne].
        -- rewrite list_lookup_insert by done. split; [intros _; right; by left|intros _; by left].
        -- rewrite list_lookup_insert_ne by done. split; [intros [?|?]; [by left|right; by right]|intros [?|[?|?]]; [by left|done|by right]].
      * intros H. apply IH2. intros HF. apply H. by constructor.
    + split; [intros HF; by apply Forall_cons in HF as [? _]|]. intros _. apply Hnone.
Qed.

Lemma keep_table_spec :
  (keep_ok chosen -> exists table, keep_table m chosen = Some table /\ length table = length (ms_vertices m) /\
    forall v, table !! v = Some true <-> exists i c cell, chosen !! i = Some c /\ ms_cells m !! c = Some cell /\ v ∈ cell) /\
  (~ keep_ok chosen -> keep_table m chosen = None).
Proof using Type.
  unfold keep_table. induction chosen as [|c cs IH] using rev_ind.
  - split; [|intros H; exfalso; apply H; by intros i c].
    intros _. eexists. split; [done|]. split; [apply replicate_length|]. intros v. split; [intros H; apply lookup_replicate in H as [? _]; done|by intros (i & c & cell & ? & _)].
  - rewrite foldl_app. cbn [foldl]. destruct IH as [IH1 IH2].
    assert (keep_ok (cs ++ [c]) <-> keep_ok cs /\ exists cell, ms_cells m !! c = Some cell /\ Forall (fun v => v < length (ms_vertices m)) cell) as Hok.
    { unfold keep_ok. split.
      - intros H. split; [intros i d Hd; apply (H i); by apply lookup_app_l_Some|]. apply (H (length cs)). by rewrite lookup_app_r, Nat.sub_diag.
      - intros [H1 H2] i d Hd. apply lookup_app_Some in Hd as [Hd|[_ Hd]]; [by apply (H1 i)|]. apply list_lookup_singleton_Some in Hd as [_ <-]. done. }
    assert (keep_ok cs \/ ~ keep_ok cs) as [Hcs|Hcs].
    { assert (Decision (Forall (fun c => exists cell, ms_cells m !! c = Some cell /\ Forall (fun v => v < length (ms_vertices m)) cell) cs)) as [Hd|Hd].
      - apply Forall_dec. intros d. destruct (ms_cells m !! d) as [cell|] eqn:Hd; [|right; by intros (cell & ? & _)].
        destruct (decide (Forall (fun v => v < length (ms_vertices m)) cell)); [left; by exists cell|right; intros (cell' & [= <-] & ?); done].
      - left. intros i d Hd'. rewrite Forall_forall in Hd. apply Hd. exact (elem_of_list_lookup_2 _ _ _ Hd').
      - right. intros H. apply Hd, Forall_forall. intros d Hd'. apply elem_of_list_lookup in Hd' as [i Hi]. by apply (H i). }
    + destruct (IH1 Hcs) as (table & -> & Hl & Hiff). cbn [mbind option_bind]. destruct (ms_cells m !! c) as [cell|] eqn:Hcell; cbn [mbind option_bind].
      * destruct (mark_fold cell table) as [M1 M2]. rewrite Hl in M1, M2. split.
        -- intros H. apply Hok in H as [_ (cell' & [= <-] & HF)]. destruct (M1 HF) as (table' & -> & Hl' & Hiff'). exists table'. split_and!; [done|lia|].
           intros v. rewrite Hiff', Hiff. split.
           ++ intros [(i & d & cell' & Hd & Hdc & Hin)|Hin].
              ** exists i, d, cell'. split_and!; [by apply lookup_app_l_Some|done|done].
              ** exists (length cs), c, cell. split_and!; [by rewrite lookup_app_r, Nat.sub_diag|done|done].
           ++ intros (i & d & cell' & Hd & Hdc & Hin). apply lookup_app_Some in Hd as [Hd|[_ Hd]]; [left; by exists i, d, cell'|].
              apply list_lookup_singleton_Some in Hd as [_ <-]. right. congruence.
        -- intros H. apply M2. intros HF. apply H, Hok. split; [done|]. by exists cell.
      * split; [|done]. intros H. apply Hok in H as [_ (cell' & ? & _)]. done.
    + rewrite (IH2 Hcs). cbn [mbind option_bind]. split; [|done]. intros H. by apply Hok in H as [? _].
Qed.

Lemma keep_cells_spec :
  (keep_ok chosen -> exists kept m', keep_cells m chosen = Some m' /\ used_vertices (ms_cells m) chosen kept /\ restricts m chosen kept m') /\
  (~ keep_ok chosen -> keep_cells m chosen = None).
Proof using Type.
  destruct keep_table_spec as [H1 H2]. split; [|intros H; unfold keep_cells; by rewrite H2].
  intros Hok. destruct (H1 Hok) as (table & Ht & Hl & Hiff). unfold keep_cells. rewrite Ht. cbn [mbind option_bind]. rewrite label_map_eq.
  change (omap _ (imap pair table)) with (kept_of table). destruct (kept_spec table) as [Hs Hk]. set (kept := kept_of table) in *.
  assert (NoDup kept) as Hnd.
  { apply NoDup_alt. intros i j x Hi Hj. destruct (Nat.lt_trichotomy i j) as [H|[H|H]]; [|done|].
    - pose proof (sorted_lookup _ _ _ _ _ _ Hs H Hi Hj). simpl in *. lia.
    - pose proof (sorted_lookup _ _ _ _ _ _ Hs H Hj Hi). simpl in *. lia. }
  destruct (Forall2_exists (fun i cell' => (cell ← ms_cells m !! i; mapM (map_get (imap (fun i v => (v, i)) kept)) cell) = Some cell' /\
    exists cell, ms_cells m !! i = Some cell /\ Forall2 (fun a' a => kept !! a' = Some a) cell' cell) chosen) as [cells' HF].
  { intros c Hc. apply elem_of_list_lookup in Hc as [i Hi]. destruct (Hok i c Hi) as (cell & Hcell & HFc). rewrite Hcell. cbn [mbind option_bind].
    destruct (Forall2_exists (fun a a' => kept !! a' = Some a) cell) as [cell' HF'].
    - intros a Ha. apply elem_of_list_lookup. apply Hk, Hiff. by exists i, c, cell.
    - exists cell'. split.
      + apply mapM_Forall2. eapply Forall2_impl; [exact HF'|]. intros a a' H. by apply map_get_spec.
      + exists cell. split; [done|]. by apply Forall2_flip. }
  rewrite (proj2 (mapM_Forall2 _ chosen cells')); [|eapply Forall2_impl; [exact HF|by intros ? ? [? _]]]. cbn [mbind option_bind].
  destruct (Forall2_exists (fun v x => ms_vertices m !! v = Some x) kept) as [vs HV].
  { intros v Hv. apply lookup_lt_is_Some_2. rewrite <- Hl. apply Hk in Hv. by eapply lookup_lt_Some. }
  rewrite (proj2 (mapM_Forall2 _ kept vs) HV). cbn [mbind option_bind]. exists kept, (Mesh vs cells'). split; [done|]. split.
  - split; [done|]. intros v. by rewrite Hk, Hiff.
  - split; [done|]. eapply Forall2_impl; [exact HF|]. by intros ? ? [_ ?].
Qed.
End keep.

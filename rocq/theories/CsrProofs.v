(** Proofs about serial CSR assembly. *)
From stdpp Require Import base list list_numbers sorting relations.
From Coq Require Import Lia ZArith.
From Verif Require Import Prelude NestedVecModel NestedVecSpec NestedVecProofs ParadisModel ParadisSpec
  ParadisProofs ColoringProofs ParadisSafety VectorModel VectorSpec VectorProofs VectorParProofs VectorColors VectorAgree
  CsrModel CsrSpec.

Set Default Proof Using "Type".

(** ** Basic facts on patterns *)
Definition pos_lt (cols : list nat) : Prop := forall i j a b, i < j -> cols !! i = Some a -> cols !! j = Some b -> a < b.

Lemma slice_get_inv {A} (l : list A) b e s : slice_get l b e = Some s -> b <= e <= length l /\ s = take (e - b) (drop b l).
Proof. unfold slice_get. destruct (decide _); [|done]. intros [= <-]. done. Qed.

Lemma pat_row_spec p r b cs : pat_row p r = Some (b, cs) ->
  forall i c, stored p r c (b + i) <-> cs !! i = Some c.
Proof.
  unfold pat_row. intros H i c.
  destruct (pt_offs p !! r) as [b'|] eqn:Eb; [|done]. simpl in H.
  destruct (pt_offs p !! S r) as [e|] eqn:Ee; [|done]. simpl in H.
  destruct (slice_get (pt_cols p) b' e) as [cs'|] eqn:Es; [|done]. simpl in H. simplify_eq.
  apply slice_get_inv in Es as [Hb ->]. split.
  - intros (b0 & e0 & H1 & H2 & H3 & H4). simplify_eq. rewrite lookup_take, lookup_drop by lia. done.
  - intros Hc. assert (i < e - b) as Hi.
    { apply lookup_lt_Some in Hc. rewrite take_length in Hc. lia. }
    rewrite lookup_take, lookup_drop in Hc by lia. exists b, e. split_and!; [done|done|lia|lia|done].
Qed.

Lemma pat_row_stored p r b cs c pos : pat_row p r = Some (b, cs) -> stored p r c pos -> b <= pos /\ cs !! (pos - b) = Some c.
Proof.
  intros Hrow Hs. pose proof Hs as (b0 & e & H1 & H2 & H3 & H4).
  assert (b0 = b) as ->.
  { unfold pat_row in Hrow. rewrite H1, H2 in Hrow. simpl in Hrow. destruct (slice_get _ _ _); simpl in Hrow; by simplify_eq. }
  split; [lia|]. apply (pat_row_spec p r b cs Hrow). by replace (b + (pos - b)) with pos by lia.
Qed.

Lemma offs_mono (offs : list nat) : (forall r b e, offs !! r = Some b -> offs !! S r = Some e -> b <= e) ->
  forall i j a b, i <= j -> offs !! i = Some a -> offs !! j = Some b -> a <= b.
Proof.
  intros H i j a b Hij. revert b. induction Hij as [|j Hij IH]; intros b Ha Hb; [by simplify_eq|].
  destruct (lookup_lt_is_Some_2 offs j) as [x Hx]; [apply lookup_lt_Some in Hb; lia|].
  specialize (IH x Ha Hx). specialize (H j x b Hx Hb). lia.
Qed.

Section wf.
Context (p : pattern) (Hwf : pat_wf p).

Lemma offs_last i a : pt_offs p !! i = Some a -> a <= length (pt_cols p).
Proof using Hwf.
  intros Hi. destruct Hwf as (_ & Hm & Hl & _). rewrite last_lookup in Hl.
  eapply offs_mono; [exact Hm| |exact Hi|exact Hl]. apply lookup_lt_Some in Hi. lia.
Qed.

Lemma pat_row_exists r : r < pt_nrows p -> exists b cs, pat_row p r = Some (b, cs).
Proof using Hwf.
  intros Hr. unfold pt_nrows in Hr. unfold pat_row.
  destruct (lookup_lt_is_Some_2 (pt_offs p) r) as [b Hb]; [lia|].
  destruct (lookup_lt_is_Some_2 (pt_offs p) (S r)) as [e He]; [lia|].
  rewrite Hb, He. simpl. rewrite slice_get_some; [simpl; eauto| |].
  - by eapply Hwf. - by eapply offs_last.
Qed.

Lemma stored_row r c pos : stored p r c pos -> r < pt_nrows p /\ pos < length (pt_cols p).
Proof using Hwf.
  intros (b & e & H1 & H2 & H3 & H4). unfold pt_nrows. apply lookup_lt_Some in H2, H4. lia.
Qed.

Lemma stored_unique r c r' c' pos : stored p r c pos -> stored p r' c' pos -> r = r' /\ c = c'.
Proof using Hwf.
  intros (b & e & H1 & H2 & H3 & H4) (b' & e' & H1' & H2' & H3' & H4'). split; [|by simplify_eq].
  destruct Hwf as (_ & Hm & _). destruct (decide (r < r')) as [Hlt|Hge].
  { assert (e <= b'); [|lia]. eapply (offs_mono _ Hm (S r) r'); [lia|done|done]. }
  destruct (decide (r' < r)) as [Hlt|Hge']; [|lia].
  assert (e' <= b); [|lia]. eapply (offs_mono _ Hm (S r') r); [lia|done|done].
Qed.

Lemma stored_inj r c i j : stored p r c i -> stored p r c j -> i = j.
Proof using Hwf.
  intros Hi Hj. destruct Hwf as (_ & _ & _ & Hs & _).
  destruct (decide (i < j)) as [Hlt|]; [specialize (Hs _ _ _ _ _ Hi Hj Hlt); lia|].
  destruct (decide (j < i)) as [Hlt|]; [specialize (Hs _ _ _ _ _ Hj Hi Hlt); lia|]. lia.
Qed.

Lemma stored_cover pos : pos < length (pt_cols p) -> exists r c, stored p r c pos.
Proof using Hwf.
  intros Hpos. destruct Hwf as (H0 & Hm & Hl & _). rewrite last_lookup in Hl.
  assert (forall k, k < length (pt_offs p) -> forall e, pt_offs p !! k = Some e -> pos < e ->
            exists r b e', S r <= k /\ pt_offs p !! r = Some b /\ pt_offs p !! S r = Some e' /\ b <= pos < e') as H.
  { induction k as [|k IH]; intros Hk e He Hlt; [simplify_eq; lia|].
    destruct (lookup_lt_is_Some_2 (pt_offs p) k) as [b Hb]; [lia|].
    destruct (decide (b <= pos)) as [Hle|Hgt].
    - exists k, b, e. split_and!; auto; lia.
    - destruct (IH ltac:(lia) b Hb ltac:(lia)) as (r & b' & e' & ? & ? & ? & ?). exists r, b', e'. split_and!; auto; lia. }
  destruct (H (pred (length (pt_offs p)))) with (e := length (pt_cols p)) as (r & b & e & _ & H1 & H2 & H3).
  - apply lookup_lt_Some in H0. lia. - done. - done.
  - destruct (lookup_lt_is_Some_2 (pt_cols p) pos) as [c Hc]; [done|]. exists r, c, b, e. done.
Qed.

Lemma row_pos_lt r b cs : pat_row p r = Some (b, cs) -> pos_lt cs.
Proof using Hwf.
  intros Hrow i j x y Hij Hi Hj. apply (pat_row_spec p r b cs Hrow) in Hi, Hj.
  destruct Hwf as (_ & _ & _ & Hs & _). eapply Hs; [exact Hi|exact Hj|lia].
Qed.
End wf.

(** ** The forward search *)
Section find.
Context {T : Type}.

Fixpoint find_run (pos : nat) (rest : list nat) (us : list (nat * T)) (w : list (nat * T))
  : option (nat * list nat * list (nat * T)) :=
  match w with
  | [] => Some (pos, rest, us)
  | (c, v) :: w => match find_col pos rest c with
                   | Some (q, rest') => find_run (S q) rest' (us ++ [(q, v)]) w
                   | None => None
                   end
  end.

Lemma find_run_app w1 w2 : forall pos rest us,
  find_run pos rest us (w1 ++ w2) = ('(pos, rest, us) ← find_run pos rest us w1; find_run pos rest us w2).
Proof.
  induction w1 as [|[c v] w1 IH]; intros pos rest us; simpl; [done|].
  destruct (find_col pos rest c) as [[q rest']|]; [apply IH|done].
Qed.

Lemma find_col_spec (cols : list nat) c : forall n pos, n = length cols - pos ->
  match find_col pos (drop pos cols) c with
  | Some (q, rest') => pos <= q /\ cols !! q = Some c /\ rest' = drop (S q) cols
  | None => forall q, pos <= q -> cols !! q <> Some c
  end.
Proof.
  induction n as [|n IH]; intros pos Hn.
  - rewrite drop_ge by lia. simpl. intros q Hq. rewrite lookup_ge_None_2 by lia. done.
  - destruct (lookup_lt_is_Some_2 cols pos) as [x Hx]; [lia|]. rewrite (drop_S cols x pos Hx). simpl.
    destruct (decide (x = c)) as [->|Hne]; [done|].
    specialize (IH (S pos) ltac:(lia)). destruct (find_col (S pos) (drop (S pos) cols) c) as [[q rest']|].
    + destruct IH as (? & ? & ?). split_and!; [lia|done|done].
    + intros q Hq. destruct (decide (q = pos)) as [->|]; [congruence|]. apply IH. lia.
Qed.

Lemma find_run_ok (cols : list nat) : pos_lt cols -> forall (w : list (nat * T)) pos us,
  StronglySorted lt (map fst w) -> Forall (fun x => exists q, pos <= q /\ cols !! q = Some x.1) w ->
  exists pos' rest' us', find_run pos (drop pos cols) us w = Some (pos', rest', us ++ us') /\
    Forall2 (fun x u => cols !! u.1 = Some x.1 /\ u.2 = x.2) w us'.
Proof.
  intros Hc. induction w as [|[c v] w IH]; intros pos us Hs Hin; simpl.
  - exists pos, (drop pos cols), []. rewrite app_nil_r. split; [done|constructor].
  - simpl in Hs. inversion_clear Hs as [|?? Hs' Hlt]. inversion_clear Hin as [|?? Hc' Hin'].
    pose proof (find_col_spec cols c _ pos eq_refl) as Hf.
    destruct (find_col pos (drop pos cols) c) as [[q rest']|].
    2:{ destruct Hc' as (q & Hq & Hcq). by apply Hf in Hcq. }
    destruct Hf as (Hq & Hcq & ->).
    destruct (IH (S q) (us ++ [(q, v)]) Hs') as (pos' & rest' & us' & Hrun & Hall).
    { rewrite Forall_forall in Hin'. rewrite Forall_forall in Hlt. rewrite Forall_forall. intros x Hx. destruct (Hin' x Hx) as (q' & Hq' & Hx').
      exists q'. split; [|done]. destruct (decide (S q <= q')) as [|Hge]; [done|]. exfalso.
      assert (c < x.1) as Hcx. { apply Hlt. apply elem_of_list_fmap. by exists x. }
      destruct (decide (q' = q)) as [->|]; [simplify_eq; lia|].
      specialize (Hc q' q x.1 c ltac:(lia) Hx' Hcq). lia. }
    exists pos', rest', ((q, v) :: us'). rewrite Hrun, <- app_assoc. split; [done|]. by constructor.
Qed.

Lemma find_run_sorted (cols : list nat) : pos_lt cols -> forall (w : list (nat * T)) pos us st,
  find_run pos (drop pos cols) us w = Some st ->
  StronglySorted lt (map fst w) /\ Forall (fun x => exists q, pos <= q /\ cols !! q = Some x.1) w.
Proof.
  intros Hc. induction w as [|[c v] w IH]; intros pos us st Hrun; simpl in *; [split; constructor|].
  pose proof (find_col_spec cols c _ pos eq_refl) as Hf.
  destruct (find_col pos (drop pos cols) c) as [[q rest']|]; [|done]. destruct Hf as (Hq & Hcq & ->).
  destruct (IH _ _ _ Hrun) as [H1 H2]. rewrite Forall_forall in H2. split.
  - constructor; [done|]. rewrite Forall_forall. intros d Hd. apply elem_of_list_fmap in Hd as (x & -> & Hx).
    destruct (H2 x Hx) as (q' & Hq' & Hx'). eapply (Hc q q'); [lia|done|done].
  - constructor; [eauto|]. rewrite Forall_forall. intros x Hx. destruct (H2 x Hx) as (q' & Hq' & Hx').
    exists q'. split; [lia|done].
Qed.

Lemma found_touching (cols : list nat) (w us : list (nat * T)) q c : pos_lt cols ->
  Forall2 (fun x u => cols !! u.1 = Some x.1 /\ u.2 = x.2) w us -> cols !! q = Some c ->
  touching q us = touching c w.
Proof.
  intros Hc Hf Hq. induction Hf as [|[a x] [i y] w us [H1 H2] Hf IH]; unfold touching in *; simpl in *; [done|]. subst y.
  destruct (decide (i = q)) as [Hi|Hne]; destruct (decide (a = c)) as [Ha|Hne'].
  - f_equal. exact IH.
  - subst i. congruence.
  - subst a. exfalso. destruct (decide (i < q)) as [Hl|]; [specialize (Hc i q c c Hl H1 Hq); lia|].
    specialize (Hc q i c c ltac:(lia) Hq H1). lia.
  - exact IH.
Qed.
End find.

(** ** One row of an element *)
Section row.
Context {T E : Type}.

Definition wanted (dim : nat) (conn : list nat) (row : list T) (perm : list nat) : list (nat * T) :=
  concat (map (fun nl => block_updates (dim * default 0 (conn !! nl)) (take dim (drop (dim * nl) row))) perm).

Notation step dim conn row := (fun '(pos, rest, us) '(nl, i) =>
            match conn !! nl with
            | None => Panic
            | Some g =>
                match find_col pos rest (dim * g + i), row !! (dim * nl + i) with
                | Some (p, rest), Some v => Ok (S p, rest, us ++ [(p, v)])
                | _, _ => Panic
                end
            end : outcome E (nat * list nat * list (nat * T))).

Lemma row_inner dim (conn : list nat) (row : list T) nl g : conn !! nl = Some g -> dim * nl + dim <= length row ->
  forall m k pos rest us, k + m = dim ->
  ofold (step dim conn row) (pos, rest, us) (map (fun i => (nl, i)) (seq k m)) =
  match find_run pos rest us (block_updates (dim * g + k) (take m (drop (dim * nl + k) row))) with
  | Some st => Ok st | None => Panic end.
Proof.
  intros Hg Hlen. induction m as [|m IH]; intros k pos rest us Hk; [by simpl|].
  destruct (lookup_lt_is_Some_2 row (dim * nl + k)) as [v Hv]; [lia|].
  rewrite (drop_S row v _ Hv). unfold block_updates. cbn [seq map ofold take length zip_with find_run].
  rewrite Hg, Hv. cbn [zip zip_with find_run].
  destruct (find_col pos rest (dim * g + k)) as [[q rest']|]; [|done].
  rewrite IH by lia. unfold block_updates. by rewrite !Nat.add_succ_r.
Qed.

Lemma row_outer dim (conn : list nat) (row : list T) : length row = length conn * dim ->
  forall perm pos rest us, Forall (fun nl => nl < length conn) perm ->
  ofold (step dim conn row) (pos, rest, us) (nl ← perm; i ← seq 0 dim; [(nl, i)]) =
  match find_run pos rest us (wanted dim conn row perm) with Some st => Ok st | None => Panic end.
Proof.
  intros Hl. induction perm as [|nl perm IH]; intros pos rest us Hp; [by simpl|].
  inversion_clear Hp as [|?? Hnl Hp']. destruct (lookup_lt_is_Some_2 conn nl Hnl) as [g Hg].
  assert (forall nl' : nat, (i ← seq 0 dim; [(nl', i)]) = map (fun i => (nl', i)) (seq 0 dim)) as Hmap.
  { intros nl'. generalize 0 as k. generalize dim as m. induction m as [|m IHm]; intros k; simpl; [done|]. f_equal; apply IHm. }
  rewrite bind_cons, Hmap, ofold_app, (row_inner dim conn row nl g Hg) by nia.
  rewrite !Nat.add_0_r. unfold wanted. cbn [map concat]. rewrite Hg. cbn [default from_option].
  rewrite find_run_app. destruct (find_run _ _ _ _) as [[[pos' rest'] us']|]; cbn; [|done].
  by apply IH.
Qed.

Lemma wanted_seq dim conn (row : list T) :
  wanted dim conn row (seq 0 (length conn)) = scatter_updates dim 0 conn row.
Proof.
  unfold wanted, scatter_updates. f_equal.
  apply list_eq. intros i. rewrite !list_lookup_fmap, lookup_zip_with.
  destruct (decide (i < length conn)) as [Hi|Hi].
  - rewrite lookup_seq_lt by done. destruct (lookup_lt_is_Some_2 conn i Hi) as [g Hg]. simpl. by rewrite Hg.
  - by rewrite lookup_seq_ge by lia.
Qed.

Lemma touching_perm d (us us' : list (nat * T)) : us ≡ₚ us' -> touching d us ≡ₚ touching d us'.
Proof.
  unfold touching. induction 1 as [|x l1 l2 _ IH|x y l|l1 l2 l3 _ IH1 _ IH2]; simpl; [done| | |by rewrite IH1].
  - destruct (decide _); by rewrite IH.
  - destruct (decide _), (decide _); try done. apply perm_swap.
Qed.

Lemma perm_short {A} (l1 l2 : list A) : l1 ≡ₚ l2 -> length l2 <= 1 -> l1 = l2.
Proof.
  intros Hp Hl. destruct l2 as [|x [|]]; simpl in Hl; [|by apply Permutation_singleton_r|lia].
  symmetry in Hp. by apply Permutation_nil_l in Hp.
Qed.

Lemma elem_contrib_short dim conn (row : list T) c : NoDup conn -> length (elem_contrib dim conn row c) <= 1.
Proof.
  intros Hnd. unfold elem_contrib. generalize 0 at 1 as k.
  assert (forall l k, c `div` dim ∉ l ->
    omap (fun '(il, n) => if decide (n = c `div` dim) then row !! (dim * il + c `mod` dim) else None) (zip (seq k (length l)) l) = []) as H0.
  { induction l as [|x l IH]; intros k Hx; simpl; [done|]. apply not_elem_of_cons in Hx as [? ?].
    rewrite decide_False by done. by apply IH. }
  induction Hnd as [|x l Hx Hnd IH]; intros k; simpl; [lia|].
  destruct (decide (x = c `div` dim)) as [->|Hne]; [|apply IH].
  destruct (row !! _); [simpl|]; [rewrite H0 by done; simpl; lia|apply IH].
Qed.

Lemma wanted_sorted dim conn (row : list T) perm : NoDup conn -> 
  perm ≡ₚ seq 0 (length conn) ->
  StronglySorted (fun i j => forall a b, conn !! i = Some a -> conn !! j = Some b -> a <= b) perm ->
  StronglySorted lt (map fst (wanted dim conn row perm)).
Proof.
  intros Hnd Hp Hs.
  assert (NoDup perm) as Hndp by (rewrite Hp; apply NoDup_seq).
  assert (Forall (fun nl => nl < length conn) perm) as Hin.
  { rewrite Forall_forall. intros i Hi. rewrite Hp in Hi. apply elem_of_seq in Hi. lia. }
  clear Hp. unfold wanted. induction Hs as [|nl perm Hs IH Hle]; simpl; [constructor|].
  inversion_clear Hndp as [|?? Hnl Hndp']. inversion_clear Hin as [|?? Hnlt Hin'].
  destruct (lookup_lt_is_Some_2 conn nl Hnlt) as [g Hg]. rewrite Hg. simpl. rewrite map_app.
  assert (map fst (block_updates (dim * g) (take dim (drop (dim * nl) row))) = seq (dim * g) (length (take dim (drop (dim * nl) row)))) as Hb.
  { unfold block_updates. apply fst_zip. rewrite seq_length. lia. }
  rewrite Hb. assert (length (take dim (drop (dim * nl) row)) <= dim) as Hlen by (rewrite take_length; lia).
  revert Hlen. generalize (length (take dim (drop (dim * nl) row))) as m. intros m Hm.
  assert (forall c, c ∈ map fst (concat (map (fun nl => block_updates (dim * default 0 (conn !! nl)) (take dim (drop (dim * nl) row))) perm)) ->
            dim * g + dim <= c) as Hge.
  { intros c Hc. apply elem_of_list_fmap in Hc as ([c' v] & -> & Hc). apply elem_of_list_In, in_concat in Hc as (l & Hl & Hc).
    apply in_map_iff in Hl as (nl' & <- & Hnl'). apply elem_of_list_In in Hnl', Hc.
    rewrite Forall_forall in Hin', Hle. destruct (lookup_lt_is_Some_2 conn nl' (Hin' _ Hnl')) as [g' Hg']. rewrite Hg' in Hc. simpl in Hc.
    unfold block_updates in Hc. apply elem_of_zip_l in Hc. apply elem_of_seq in Hc. simpl.
    assert (g < g'); [|nia]. pose proof (Hle nl' Hnl' g g' Hg Hg').
    assert (g <> g'); [|lia]. intros ->. assert (nl = nl') as ->; [|done]. eapply NoDup_lookup; [exact Hnd|done|done]. }
  specialize (IH Hndp' Hin'). 
  assert (forall k, k + m <= dim * g + dim -> StronglySorted lt (seq k m ++ map fst (concat (map (fun nl => block_updates (dim * default 0 (conn !! nl)) (take dim (drop (dim * nl) row))) perm)))) as H.
  { clear -IH Hge. induction m as [|m IHm]; intros k Hk; simpl; [exact IH|].
    constructor; [apply IHm; lia|]. rewrite Forall_forall. intros c Hc. apply elem_of_app in Hc as [Hc|Hc].
    - apply elem_of_seq in Hc. lia. - apply Hge in Hc. lia. }
  apply H. lia.
Qed.

Lemma wanted_perm dim conn (row : list T) perm perm' : perm ≡ₚ perm' -> wanted dim conn row perm ≡ₚ wanted dim conn row perm'.
Proof. intros Hp. unfold wanted. apply concat_perm. by rewrite Hp. Qed.

Lemma add_element_row_spec cols conn perm dim (row : list T) :
  pos_lt cols -> NoDup conn -> 1 <= dim -> length row = length conn * dim ->
  perm ≡ₚ seq 0 (length conn) ->
  StronglySorted (fun i j => forall a b, conn !! i = Some a -> conn !! j = Some b -> a <= b) perm ->
  (forall g i, g ∈ conn -> i < dim -> dim * g + i ∈ cols) ->
  exists us, add_element_row (E := E) cols conn perm dim row = Ok us /\
    (forall u, u ∈ us -> u.1 < length cols) /\
    forall q c, cols !! q = Some c -> touching q us = elem_contrib dim conn row c.
Proof.
  intros Hc Hnd Hd Hl Hp Hs Hin. unfold add_element_row.
  assert (length perm = length conn) as Hpl by (rewrite Hp; apply seq_length).
  rewrite !decide_True by lia.
  assert (Forall (fun nl => nl < length conn) perm) as Hin'.
  { rewrite Forall_forall. intros i Hi. rewrite Hp in Hi. apply elem_of_seq in Hi. lia. }
  rewrite row_outer by done.
  destruct (find_run_ok cols Hc (wanted dim conn row perm) 0 []) as (pos' & rest' & us & Hrun & Hall).
  - by apply wanted_sorted.
  - rewrite Forall_forall. intros x Hx. assert (x.1 ∈ cols) as H; [|apply elem_of_list_lookup in H as [q Hq]; exists q; split; [lia|done]].
    unfold wanted in Hx. apply elem_of_list_In, in_concat in Hx as (l & Hl' & Hx).
    apply in_map_iff in Hl' as (nl & <- & Hnl). apply elem_of_list_In in Hnl, Hx.
    rewrite Forall_forall in Hin'. destruct (lookup_lt_is_Some_2 conn nl (Hin' _ Hnl)) as [g Hg]. rewrite Hg in Hx. simpl in Hx.
    unfold block_updates in Hx. destruct x as [c v]. apply elem_of_zip_l in Hx. apply elem_of_seq in Hx.
    rewrite take_length in Hx. simpl.
    replace c with (dim * g + (c - dim * g)) by lia. apply Hin; [by eapply elem_of_list_lookup_2|lia].
  - change (drop 0 cols) with cols in Hrun. exists us. rewrite Hrun. split; [done|]. split.
    + intros u Hu. apply elem_of_list_lookup in Hu as [i Hi].
      destruct (Forall2_lookup_r _ _ _ _ _ Hall Hi) as (x & _ & H & _). by eapply lookup_lt_Some.
    + intros q c Hq. rewrite (found_touching cols _ us q c Hc Hall Hq).
      apply perm_short; [|by apply elem_contrib_short].
      rewrite (touching_perm c _ _ (wanted_perm dim conn row _ _ Hp)), wanted_seq. by rewrite touching_scatter_contrib.
Qed.

(** A repeated node makes the search fail. *)
Lemma add_element_row_repeat cols conn perm dim (row : list T) :
  pos_lt cols -> ~ NoDup conn -> perm ≡ₚ seq 0 (length conn) ->
  add_element_row (E := E) cols conn perm dim row = Panic.
Proof.
  intros Hc Hnd Hp. unfold add_element_row.
  destruct (decide (length conn = length perm)) as [Hpl|]; [|done].
  destruct (decide (length conn * dim = length row)) as [Hl|]; [|done].
  destruct (decide (1 <= dim)) as [Hd|]; [|done].
  assert (Forall (fun nl => nl < length conn) perm) as Hin'.
  { rewrite Forall_forall. intros i Hi. rewrite Hp in Hi. apply elem_of_seq in Hi. lia. }
  rewrite row_outer by done.
  destruct (find_run 0 cols [] (wanted dim conn row perm)) as [st|] eqn:Hrun; [|done]. exfalso.
  change cols with (drop 0 cols) in Hrun at 1. apply find_run_sorted in Hrun as [Hs _]; [|done].
  apply Hnd. apply NoDup_alt. intros i j g Hi Hj.
  assert (NoDup (map fst (wanted dim conn row (seq 0 (length conn))))) as Hnd'.
  { assert (map fst (wanted dim conn row (seq 0 (length conn))) ≡ₚ map fst (wanted dim conn row perm)) as ->.
    { apply fmap_Permutation, wanted_perm. by rewrite Hp. }
    clear -Hs. induction Hs as [|x l Hs IH Hlt]; constructor; [|done]. intros Hx. rewrite Forall_forall in Hlt.
    apply Hlt in Hx. lia. }
  rewrite wanted_seq in Hnd'. 
  assert (forall i, conn !! i = Some g -> scatter_updates dim 0 conn row !! (dim * i) = (fun v => (dim * g, v)) <$> row !! (dim * i)) as Hlk.
  { intros i' Hi'. unfold scatter_updates.
    assert (i' < length conn) as Hlt by (by eapply lookup_lt_Some).
    rewrite <- (Nat.add_0_r (dim * i')) at 1.
    rewrite (concat_block_lookup dim _ i' (block_updates (dim * g) (take dim (drop (dim * i') row))) 0).
    - unfold block_updates. rewrite lookup_zip_with. rewrite lookup_seq_lt; [|rewrite take_length, drop_length; nia].
      rewrite lookup_take, lookup_drop by lia. rewrite !Nat.add_0_r. destruct (row !! (dim * i')); simpl; by rewrite ?Nat.add_0_r.
    - rewrite Forall_forall. intros l Hlx. apply elem_of_list_fmap in Hlx as ([il ig] & -> & Hil).
      unfold block_updates. rewrite zip_with_length, seq_length, take_length, drop_length.
      apply elem_of_zip_l in Hil. apply elem_of_seq in Hil. nia.
    - rewrite list_lookup_fmap, lookup_zip_with, lookup_seq_lt, Hi' by done. done.
    - lia. }
  destruct (lookup_lt_is_Some_2 row (dim * i)) as [v Hv]; [apply lookup_lt_Some in Hi; nia|].
  destruct (lookup_lt_is_Some_2 row (dim * j)) as [v' Hv']; [apply lookup_lt_Some in Hj; nia|].
  pose proof (Hlk i Hi) as H1. pose proof (Hlk j Hj) as H2. rewrite Hv in H1. rewrite Hv' in H2. simpl in H1, H2.
  assert (dim * i = dim * j); [|nia].
  eapply NoDup_lookup; [exact Hnd'| |]; rewrite list_lookup_fmap; [by rewrite H1|by rewrite H2].
Qed.
End row.

(** ** One element *)
Section element.
Context {T E : Type}.

Lemma ofold_concat {A B} (f : A -> outcome E (list B)) (L : list A) (ys : list (list B)) :
  Forall2 (fun x y => f x = Ok y) L ys ->
  forall acc, ofold (fun us x => let! y := f x in Ok (us ++ y)) acc L = Ok (acc ++ concat ys).
Proof.
  induction 1 as [|x y L ys Hx _ IH]; intros acc; simpl; [by rewrite app_nil_r|].
  rewrite Hx. simpl. by rewrite IH, <- app_assoc.
Qed.

Lemma ofold_ext {A B} (f g : B -> A -> outcome E B) (L : list A) : (forall s x, x ∈ L -> f s x = g s x) ->
  forall s, ofold f s L = ofold g s L.
Proof.
  induction L as [|x L IH]; intros H s; simpl; [done|]. rewrite H by (by left).
  destruct (g s x); try done. apply IH. intros s' y Hy. apply H. by right.
Qed.

Definition row_updates (p : pattern) (conn perm : list nat) (dim : nat) (A : list (list T)) (x : nat * nat * nat)
  : outcome E (list (nat * T)) :=
  let '(il, g, i) := x in
  match pat_row p (dim * g + i), A !! (dim * il + i) with
  | Some (b, cols), Some a_row =>
      let! row_us := add_element_row cols conn perm dim a_row in Ok (map (fun u => (b + u.1, u.2)) row_us)
  | _, _ => Panic
  end.

Definition row_list (dim : nat) (conn : list nat) : list (nat * nat * nat) :=
  '(il, g) ← zip (seq 0 (length conn)) conn; i ← seq 0 dim; [(il, g, i)].

Lemma element_updates_eq p conn perm dim (A : list (list T)) :
  element_updates (E := E) p conn perm dim A =
  ofold (fun us x => let! y := row_updates p conn perm dim A x in Ok (us ++ y)) [] (row_list dim conn).
Proof.
  unfold element_updates, row_list. apply ofold_ext. intros us [[il g] i] _. simpl.
  destruct (pat_row p (dim * g + i)) as [[b cols]|]; [|done].
  destruct (A !! (dim * il + i)) as [row|]; [|done].
  by destruct (add_element_row cols conn perm dim row).
Qed.

Lemma elem_of_row_list dim conn il g i :
  (il, g, i) ∈ row_list dim conn <-> conn !! il = Some g /\ i < dim.
Proof.
  unfold row_list. rewrite elem_of_list_bind. split.
  - intros ([il' g'] & H & Hz). apply elem_of_list_bind in H as (i' & H & Hi). apply elem_of_list_singleton in H. simplify_eq.
    apply elem_of_seq in Hi. apply elem_of_list_lookup in Hz as [k Hk]. apply lookup_zip_with_Some in Hk as (x & y & Heq & H1 & H2).
    simplify_eq. apply lookup_seq in H1 as [-> _]. split; [done|lia].
  - intros [Hg Hi]. exists (il, g). split.
    + apply elem_of_list_bind. exists i. split; [by left|]. apply elem_of_seq. lia.
    + apply elem_of_list_lookup. exists il. rewrite lookup_zip_with, lookup_seq_lt by (by eapply lookup_lt_Some). simpl. by rewrite Hg.
Qed.

Lemma touching_shift b q (us : list (nat * T)) :
  touching q (map (fun u => (b + u.1, u.2)) us) = if decide (b <= q) then touching (q - b) us else [].
Proof.
  unfold touching. induction us as [|[i v] us IH]; simpl; [by destruct (decide _)|].
  destruct (decide (b <= q)) as [Hb|Hb].
  - destruct (decide (b + i = q)) as [H1|H1]; destruct (decide (i = q - b)) as [H2|H2]; try lia.
    + f_equal. exact IH. + exact IH.
  - rewrite decide_False by lia. exact IH.
Qed.

Lemma row_updates_spec p conn perm dim A x :
  pat_wf p -> NoDup conn -> 1 <= dim -> square (length conn * dim) A ->
  perm ≡ₚ seq 0 (length conn) ->
  StronglySorted (fun i j => forall a b, conn !! i = Some a -> conn !! j = Some b -> a <= b) perm ->
  has_couplings dim [conn] p -> x ∈ row_list dim conn ->
  exists us, row_updates p conn perm dim A x = Ok us /\
    (forall u, u ∈ us -> exists c, stored p (dim * x.1.2 + x.2) c u.1) /\
    forall r c pos, stored p r c pos ->
      touching pos us = if decide (dim * x.1.2 + x.2 = r) then elem_contrib dim conn (default [] (A !! (dim * x.1.1 + x.2))) c else [].
Proof.
  intros Hwf Hnd Hd [HA1 HA2] Hp Hs Hcoup Hx. destruct x as [[il g] i]. apply elem_of_row_list in Hx as [Hg Hi]. simpl.
  assert (Hcol : forall g', g' ∈ conn -> forall j, j < dim -> exists pos, stored p (dim * g + i) (dim * g' + j) pos).
  { intros g' Hg' j Hj. apply Hcoup; [lia|]. exists conn. split; [by left|].
    rewrite !(Nat.mul_comm dim), !Nat.div_add_l, !Nat.div_small, !Nat.add_0_r by lia.
    split; [by eapply elem_of_list_lookup_2|done]. }
  destruct (Hcol g ltac:(by eapply elem_of_list_lookup_2) i Hi) as [pos0 Hpos0].
  destruct (stored_row p Hwf _ _ _ Hpos0) as [Hrow _].
  destruct (pat_row_exists p Hwf _ Hrow) as (b & cols & Hr). rewrite Hr.
  assert (il < length conn) as Hil by (by eapply lookup_lt_Some).
  destruct (lookup_lt_is_Some_2 A (dim * il + i)) as [row Hrw]; [rewrite HA1; nia|]. rewrite Hrw.
  rewrite Forall_forall in HA2. pose proof (HA2 row ltac:(by eapply elem_of_list_lookup_2)) as Hrl.
  destruct (add_element_row_spec (E := E) cols conn perm dim row) as (us & Hus & Hb & Ht); try done.
  - by eapply row_pos_lt.
  - intros g' j Hg' Hj. destruct (Hcol g' Hg' j Hj) as [pos Hpos].
    destruct (pat_row_stored p _ b cols _ _ Hr Hpos) as [_ H]. by eapply elem_of_list_lookup_2.
  - rewrite Hus. simpl. eexists. split; [done|]. split.
    + intros u Hu. apply elem_of_list_fmap in Hu as (u' & -> & Hu'). simpl.
      destruct (lookup_lt_is_Some_2 cols u'.1 (Hb u' Hu')) as [c Hc]. exists c. by apply (pat_row_spec p _ b cols Hr).
    + intros r c pos Hpos. rewrite touching_shift.
      destruct (decide (dim * g + i = r)) as [<-|Hne].
      * destruct (pat_row_stored p _ b cols _ _ Hr Hpos) as [Hle Hc]. rewrite decide_True by done. by apply Ht.
      * destruct (decide (b <= pos)) as [Hle|]; [|done].
        rewrite touching_nil; [done|]. intros Hin. apply elem_of_list_fmap in Hin as (u & Hu1 & Hu2).
        destruct (lookup_lt_is_Some_2 cols u.1 (Hb u Hu2)) as [c' Hc'].
        apply (pat_row_spec p _ b cols Hr) in Hc'. replace (b + u.1) with pos in Hc' by lia.
        destruct (stored_unique p Hwf _ _ _ _ _ Hpos Hc') as [? _]. done.
Qed.

(** The rows of an element together give [mat_contrib]. *)
Lemma rows_contrib dim conn (A : list (list T)) r c : 1 <= dim ->
  concat (map (fun x : nat * nat * nat =>
     if decide (dim * x.1.2 + x.2 = r) then elem_contrib dim conn (default [] (A !! (dim * x.1.1 + x.2))) c else []) (row_list dim conn))
  = mat_contrib dim conn A r c.
Proof.
  intros Hd. unfold row_list, mat_contrib.
  assert (forall Z : list (nat * nat), concat (map (fun x : nat * nat * nat =>
     if decide (dim * x.1.2 + x.2 = r) then elem_contrib dim conn (default [] (A !! (dim * x.1.1 + x.2))) c else [])
       ('(il, g) ← Z; i ← seq 0 dim; [(il, g, i)])) =
     ('(il, n) ← Z; '(jl, m) ← zip (seq 0 (length conn)) conn;
       if decide (n = r / dim /\ m = c / dim) then option_list (mat_at A (dim * il + r mod dim) (dim * jl + c mod dim)) else [])) as H;
    [|apply H].
  induction Z as [|[il g] Z IH]; [done|]. rewrite !bind_cons, map_app, concat_app, IH. f_equal. clear IH Z.
  transitivity (if decide (g = r / dim) then elem_contrib dim conn (default [] (A !! (dim * il + r mod dim))) c else []).
  - assert (r = dim * (r / dim) + r mod dim) as Hr by (apply Nat.div_mod; lia).
    assert (r mod dim < dim) as Hm by (apply Nat.mod_upper_bound; lia).
    destruct (decide (g = r / dim)) as [->|Hne].
    + assert (forall m k, concat (map (fun x : nat * nat * nat =>
         if decide (dim * x.1.2 + x.2 = r) then elem_contrib dim conn (default [] (A !! (dim * x.1.1 + x.2))) c else [])
         (i ← seq k m; [(il, r / dim, i)])) =
         if decide (k <= r mod dim < k + m) then elem_contrib dim conn (default [] (A !! (dim * il + r mod dim))) c else []) as H.
      { induction m as [|m IH]; intros k; simpl.
        - destruct (decide _); [lia|done].
        - rewrite IH. destruct (decide (dim * (r / dim) + k = r)) as [He|He].
          + assert (k = r mod dim) as -> by lia. destruct (decide (S (r mod dim) <= _ < _)); [lia|].
            destruct (decide (r mod dim <= r mod dim < r mod dim + S m)); [|lia]. by rewrite app_nil_r.
          + simpl. repeat case_decide; try done; exfalso; lia. }
      rewrite H. by rewrite decide_True by lia.
    + assert (forall l, (forall i, i ∈ l -> i < dim) -> concat (map (fun x : nat * nat * nat =>
         if decide (dim * x.1.2 + x.2 = r) then elem_contrib dim conn (default [] (A !! (dim * x.1.1 + x.2))) c else [])
         (i ← l; [(il, g, i)])) = []) as H.
      { induction l as [|i l IH]; intros Hl; [done|]. rewrite bind_cons, map_app, concat_app, IH by (intros; apply Hl; by right).
        simpl. rewrite decide_False; [done|]. specialize (Hl i ltac:(by left)).
        intros He. apply Hne. rewrite <- He. rewrite (Nat.mul_comm dim), Nat.div_add_l, Nat.div_small by lia. lia. }
      apply H. intros i Hi. apply elem_of_seq in Hi. lia.
  - unfold elem_contrib. generalize (zip (seq 0 (length conn)) conn) as Z. intros Z.
    destruct (decide (g = r / dim)) as [Hg|Hg].
    + induction Z as [|[jl m] Z IH]; simpl; [done|]. 
      destruct (decide (m = c / dim)) as [Hm|Hm].
      * rewrite decide_True by done. unfold mat_at at 1. destruct (A !! (dim * il + r mod dim)) as [row|]; simpl in *; [|exact IH].
        destruct (row !! (dim * jl + c mod dim)); simpl; [f_equal|]; exact IH.
      * rewrite decide_False by (by intros [? ?]). exact IH.
    + induction Z as [|[jl m] Z IH]; simpl; [done|]. rewrite decide_False by (by intros [? ?]). exact IH.
Qed.

Lemma element_updates_spec p conn perm dim (A : list (list T)) :
  pat_wf p -> NoDup conn -> 1 <= dim -> square (length conn * dim) A ->
  perm ≡ₚ seq 0 (length conn) ->
  StronglySorted (fun i j => forall a b, conn !! i = Some a -> conn !! j = Some b -> a <= b) perm ->
  has_couplings dim [conn] p ->
  exists us, element_updates (E := E) p conn perm dim A = Ok us /\
    (forall u : nat * T, u ∈ us -> exists r c, stored p r c u.1 /\ r / dim ∈ conn) /\
    forall r c pos, stored p r c pos -> touching pos us = mat_contrib dim conn A r c.
Proof.
  intros Hwf Hnd Hd HA Hp Hs Hcoup. rewrite element_updates_eq.
  pose proof (fun x Hx => row_updates_spec p conn perm dim A x Hwf Hnd Hd HA Hp Hs Hcoup Hx) as Hrow.
  assert (exists ys, Forall2 (fun x y => row_updates p conn perm dim A x = Ok y /\
    (forall u, u ∈ y -> exists c, stored p (dim * x.1.2 + x.2) c u.1) /\
    forall r c pos, stored p r c pos ->
      touching pos y = if decide (dim * x.1.2 + x.2 = r) then elem_contrib dim conn (default [] (A !! (dim * x.1.1 + x.2))) c else [])
    (row_list dim conn) ys) as [ys Hys].
  { revert Hrow. generalize (row_list dim conn) as L. induction L as [|x L IH]; intros H; [by exists []|].
    destruct (H x ltac:(by left)) as (y & Hy). destruct IH as [ys Hys]; [intros; apply H; by right|].
    exists (y :: ys). by constructor. }
  exists (concat ys). split_and!.
  - rewrite (ofold_concat (row_updates p conn perm dim A) (row_list dim conn) ys); [done|].
    eapply Forall2_impl; [exact Hys|]. naive_solver.
  - intros u Hu. apply elem_of_list_In, in_concat in Hu as (y & Hy & Hu). apply elem_of_list_In in Hy, Hu.
    apply elem_of_list_lookup in Hy as [k Hk]. destruct (Forall2_lookup_r _ _ _ _ _ Hys Hk) as ([[il g] i] & Hx & _ & Hst & _).
    destruct (Hst u Hu) as [c Hc]. exists (dim * g + i), c. split; [done|].
    apply elem_of_list_lookup_2, elem_of_row_list in Hx as [Hg Hi].
    rewrite (Nat.mul_comm dim), Nat.div_add_l, Nat.div_small, Nat.add_0_r by lia. by eapply elem_of_list_lookup_2.
  - intros r c pos Hpos. rewrite touching_concat, <- (rows_contrib dim conn A r c Hd). f_equal.
    clear -Hys Hpos. induction Hys as [|x y L ys (_ & _ & Ht) Hys IH]; simpl; [done|]. by rewrite (Ht _ _ _ Hpos), IH.
Qed.
End element.

(** Proofs about homogeneous Dirichlet conditions. *)
From stdpp Require Import base list list_numbers.
From Coq Require Import Lia Reals.
From Verif Require Import Prelude NestedVecModel VectorModel CsrModel CsrSpec CsrProofs DirichletModel DirichletSpec.

Lemma dofs_spec nodes d r : r ∈ dofs_of nodes d <-> constrained nodes d r.
Proof.
  unfold dofs_of, constrained. rewrite elem_of_list_bind. split.
  - intros (node & Hr & Hn). apply elem_of_list_fmap in Hr as (i & -> & Hi). apply elem_of_seq in Hi. exists node, i. split_and!; [done|lia|done].
  - intros (node & i & Hn & Hi & ->). exists node. split; [|done]. apply elem_of_list_fmap. exists i. split; [done|]. apply elem_of_seq. lia.
Qed.

Section csr.
Context {T : Type} (zero : T).
Implicit Types (vals : list T) (mem visit : list bool).

Lemma row_fold (scale : T) b row : forall cols k vals visit,
  Forall (fun c => c < length visit) cols -> b + k + length cols <= length vals ->
  exists vals' visit',
    ofold (E := Empty_set) (fun '(vals, visit) '(k, c) =>
            if decide (c = row) then Ok (<[b + k := scale]> vals, visit)
            else if decide (c < length visit) then Ok (<[b + k := zero]> vals, <[c := true]> visit)
            else Panic) (vals, visit) (zip (seq k (length cols)) cols) = Ok (vals', visit') /\
    length vals' = length vals /\ length visit' = length visit /\
    (forall i c, cols !! i = Some c -> vals' !! (b + k + i) = Some (if decide (c = row) then scale else zero)) /\
    (forall pos, (pos < b + k \/ b + k + length cols <= pos) -> vals' !! pos = vals !! pos) /\
    (forall c, visit' !! c = Some true <-> visit !! c = Some true \/ (c ∈ cols /\ c <> row)).
Proof.
  induction cols as [|c cols IH]; intros k vals visit Hc Hl; cbn [length seq zip_with ofold].
  { exists vals, visit. split_and!; try done. intros c. split; [by left|intros [?|[H _]]; [done|by apply elem_of_nil in H]]. }
  apply Forall_cons in Hc as [Hc Hcs]. simpl in Hl. destruct (decide (c = row)) as [->|Hne].
  - destruct (IH (S k) (<[b + k := scale]> vals) visit Hcs) as (vals' & visit' & -> & H1 & H2 & H3 & H4 & H5); [rewrite insert_length; lia|].
    exists vals', visit'. split; [done|]. split; [by rewrite H1, insert_length|]. split; [done|]. split_and!.
    + intros [|i] c Hi; simpl in Hi.
      * simplify_eq. rewrite Nat.add_0_r, H4 by lia. rewrite list_lookup_insert by lia. by rewrite decide_True.
      * rewrite <- H3 with (i := i) by done. f_equal. lia.
    + intros pos Hpos. rewrite H4 by lia. apply list_lookup_insert_ne. lia.
    + intros c. rewrite H5, elem_of_cons. intuition congruence.
  - rewrite decide_True by done.
    destruct (IH (S k) (<[b + k := zero]> vals) (<[c := true]> visit)) as (vals' & visit' & -> & H1 & H2 & H3 & H4 & H5).
    { eapply Forall_impl; [exact Hcs|]. intros x. by rewrite insert_length. } { rewrite insert_length; lia. }
    exists vals', visit'. split; [done|]. split; [by rewrite H1, insert_length|]. split; [by rewrite H2, insert_length|]. split_and!.
    + intros [|i] c' Hi; simpl in Hi.
      * simplify_eq. rewrite Nat.add_0_r, H4 by lia. rewrite list_lookup_insert by lia. by rewrite decide_False.
      * rewrite <- H3 with (i := i) by done. f_equal. lia.
    + intros pos Hpos. rewrite H4 by lia. apply list_lookup_insert_ne. lia.
    + intros c'. rewrite H5, elem_of_cons. destruct (decide (c' = c)) as [->|].
      * rewrite list_lookup_insert by done. intuition.
      * rewrite list_lookup_insert_ne by done. intuition congruence.
Qed.

Lemma visit_fold b mem : forall cols k vals,
  Forall (fun c => c < length mem) cols -> b + k + length cols <= length vals ->
  exists vals',
    ofold (E := Empty_set) (fun vals '(k, c) =>
            match mem !! c with
            | Some true => Ok (<[b + k := zero]> vals)
            | Some false => Ok vals
            | None => Panic
            end) vals (zip (seq k (length cols)) cols) = Ok vals' /\
    length vals' = length vals /\
    (forall i c, cols !! i = Some c -> vals' !! (b + k + i) = if decide (mem !! c = Some true) then Some zero else vals !! (b + k + i)) /\
    (forall pos, (pos < b + k \/ b + k + length cols <= pos) -> vals' !! pos = vals !! pos).
Proof.
  induction cols as [|c cols IH]; intros k vals Hc Hl; cbn [length seq zip_with ofold].
  { exists vals. split_and!; done. }
  apply Forall_cons in Hc as [Hc Hcs]. simpl in Hl. destruct (lookup_lt_is_Some_2 mem c Hc) as [[|] Hm]; rewrite Hm.
  - destruct (IH (S k) (<[b + k := zero]> vals) Hcs) as (vals' & -> & H1 & H3 & H4); [rewrite insert_length; lia|].
    exists vals'. split; [done|]. split; [by rewrite H1, insert_length|]. split_and!.
    + intros [|i] c' Hi; simpl in Hi.
      * simplify_eq. rewrite Nat.add_0_r, H4 by lia. rewrite list_lookup_insert by lia. by rewrite decide_True.
      * replace (b + k + S i) with (b + S k + i) by lia. rewrite H3 with (c := c') by done. case_decide; [done|]. apply list_lookup_insert_ne. lia.
    + intros pos Hpos. rewrite H4 by lia. apply list_lookup_insert_ne. lia.
  - destruct (IH (S k) vals Hcs) as (vals' & -> & H1 & H3 & H4); [lia|].
    exists vals'. split; [done|]. split; [done|]. split_and!.
    + intros [|i] c' Hi; simpl in Hi.
      * simplify_eq. rewrite Nat.add_0_r, H4 by lia. rewrite decide_False; [done|]. by rewrite Hm.
      * replace (b + k + S i) with (b + S k + i) by lia. by rewrite H3 with (c := c').
    + intros pos Hpos. by rewrite H4 by lia.
Qed.

Section pat.
Context (p : pattern) (Hwf : pat_wf p).

Lemma row_bound r b cols : pat_row p r = Some (b, cols) -> b + length cols <= length (pt_cols p).
Proof using Hwf.
  intros H. unfold pat_row in H. destruct (pt_offs p !! r) as [b'|]; simpl in H; [|done].
  destruct (pt_offs p !! S r) as [e|] eqn:He; simpl in H; [|done].
  destruct (slice_get _ b' e) as [cs|] eqn:Hs; simpl in H; [|done]. injection H as -> ->.
  apply slice_get_inv in Hs as [[H1 H2] ->]. rewrite take_length, drop_length. lia.
Qed.

Lemma row_cols_bound r b cols : pat_row p r = Some (b, cols) -> Forall (fun c => c < pt_ncols p) cols.
Proof using Hwf.
  intros H. apply Forall_forall. intros c Hc. apply elem_of_list_lookup in Hc as [i Hi].
  apply (pat_row_spec p r b cols H) in Hi. destruct Hwf as (_ & _ & _ & _ & Hb). by eapply Hb.
Qed.

Lemma row_elem r b cols c : pat_row p r = Some (b, cols) -> c ∈ cols <-> exists pos, stored p r c pos.
Proof using Hwf.
  intros H. rewrite elem_of_list_lookup. split.
  - intros [i Hi]. exists (b + i). by apply (pat_row_spec p r b cols H).
  - intros [pos Hs]. exists (pos - b). by apply (pat_row_stored p r b cols c pos H).
Qed.

(** Effect of one row of a pass on the value at a stored entry. *)
Lemma row_effect r b cols r' c pos (vals vals' : list T) (g : nat -> option T -> option T) :
  pat_row p r = Some (b, cols) ->
  (forall i c, cols !! i = Some c -> vals' !! (b + 0 + i) = g c (vals !! (b + 0 + i))) ->
  (forall pos, (pos < b + 0 \/ b + 0 + length cols <= pos) -> vals' !! pos = vals !! pos) ->
  stored p r' c pos -> vals' !! pos = if decide (r' = r) then g c (vals !! pos) else vals !! pos.
Proof using Hwf.
  intros Hr H1 H2 Hs. case_decide as Heq.
  - subst r'. destruct (pat_row_stored p r b cols c pos Hr Hs) as [Hb Hc]. rewrite <- (H1 _ _ Hc) || specialize (H1 _ _ Hc).
    replace (b + 0 + (pos - b)) with pos in H1 by lia. exact H1.
  - apply H2. destruct (decide (pos < b + 0)) as [|Hge]; [by left|]. right. destruct (decide (b + 0 + length cols <= pos)) as [|Hlt]; [done|]. exfalso.
    destruct (lookup_lt_is_Some_2 cols (pos - b)) as [c' Hc']; [lia|]. apply (pat_row_spec p r b cols Hr) in Hc'.
    replace (b + (pos - b)) with pos in Hc' by lia. destruct (stored_unique p Hwf _ _ _ _ _ Hs Hc') as [-> _]. done.
Qed.

Context (Hsq : pt_ncols p = pt_nrows p) (scale : T).

Definition first_inv (vals0 : list T) (n : nat) (rows : list nat) (st : list T * list bool * list bool) : Prop :=
  let '(vals, mem, visit) := st in
  length vals = length vals0 /\ length mem = n /\ length visit = n /\
  (forall r, mem !! r = Some true <-> r ∈ rows) /\
  (forall c, visit !! c = Some true <-> exists r, r ∈ rows /\ r <> c /\ exists pos, stored p r c pos) /\
  (forall r c pos, stored p r c pos ->
     vals !! pos = if decide (r ∈ rows) then Some (if decide (c = r) then scale else zero) else vals0 !! pos).

Lemma first_step vals0 n rows st r : length vals0 = length (pt_cols p) -> pt_nrows p <= n -> r < pt_nrows p ->
  first_inv vals0 n rows st -> exists st', dirichlet_row zero p scale st r = Ok st' /\ first_inv vals0 n (rows ++ [r]) st'.
Proof using Hwf Hsq.
  destruct st as [[vals mem] visit]. intros Hl Hn Hr (H1 & H2 & H3 & H4 & H5 & H6). unfold dirichlet_row.
  rewrite decide_True by lia. destruct (pat_row_exists p Hwf r Hr) as (b & cols & Hrow). rewrite Hrow.
  pose proof (row_bound r b cols Hrow) as Hb. pose proof (row_cols_bound r b cols Hrow) as Hcb.
  destruct (row_fold scale b r cols 0 vals visit) as (vals' & visit' & -> & E1 & E2 & E3 & E4 & E5).
  { eapply Forall_impl; [exact Hcb|]. intros c Hc. simpl in Hc. lia. } { lia. }
  simpl. eexists. split; [reflexivity|]. split_and!; [congruence|by rewrite insert_length|congruence| | |].
  - intros r'. rewrite elem_of_app, elem_of_list_singleton. destruct (decide (r' = r)) as [->|Hne].
    + rewrite list_lookup_insert by lia. split; [by right|done].
    + rewrite list_lookup_insert_ne by done. rewrite H4. split; [by left|]. by intros [?|?].
  - intros c. rewrite E5, H5, (row_elem r b cols c Hrow). setoid_rewrite elem_of_app. setoid_rewrite elem_of_list_singleton. split.
    + intros [(r' & A & B)|[A B]]; [exists r'; split; [by left|done]|exists r; split; [by right|by split]].
    + intros (r' & [A | ->] & B & D); [left; by exists r'|right; by split].
  - intros r' c pos Hs.
    rewrite (row_effect r b cols r' c pos vals vals' (fun c _ => Some (if decide (c = r) then scale else zero)) Hrow E3 E4 Hs).
    rewrite (H6 _ _ _ Hs). destruct (decide (r' = r)) as [->|Hne].
    + rewrite (decide_True (P := r ∈ rows ++ [r])) by (apply elem_of_app; right; by apply elem_of_list_singleton). done.
    + destruct (decide (r' ∈ rows)) as [Hin|Hin].
      * rewrite (decide_True (P := r' ∈ rows ++ [r])) by (apply elem_of_app; by left). done.
      * rewrite (decide_False (P := r' ∈ rows ++ [r])); [done|]. rewrite elem_of_app, elem_of_list_singleton. by intros [?|?].
Qed.

Lemma first_pass vals0 n : length vals0 = length (pt_cols p) -> pt_nrows p <= n -> forall rows' rows st,
  Forall (fun r => r < pt_nrows p) rows' -> first_inv vals0 n rows st ->
  exists st', ofold (dirichlet_row zero p scale) st rows' = Ok st' /\ first_inv vals0 n (rows ++ rows') st'.
Proof using Hwf Hsq.
  intros Hl Hn. induction rows' as [|r rows' IH]; intros rows st Hr Hi; cbn [ofold].
  { exists st. by rewrite app_nil_r. }
  apply Forall_cons in Hr as [Hr Hrs]. destruct (first_step vals0 n rows st r Hl Hn Hr Hi) as (st' & -> & Hi').
  destruct (IH (rows ++ [r]) st' Hrs Hi') as (st'' & -> & Hi''). exists st''. split; [done|]. by rewrite <- app_assoc in Hi''.
Qed.

Lemma second_pass mem (con : nat -> Prop) vals0 : (forall r, mem !! r = Some true <-> con r) -> pt_nrows p <= length mem ->
  length vals0 = length (pt_cols p) -> forall rows' rows vals, Forall (fun r => r < pt_nrows p) rows' ->
  length vals = length vals0 ->
  (forall r c pos, stored p r c pos -> vals !! pos = if decide (r ∈ rows /\ mem !! r <> Some true /\ mem !! c = Some true) then Some zero else vals0 !! pos) ->
  exists vals', ofold (dirichlet_visit zero p mem) vals rows' = Ok vals' /\ length vals' = length vals0 /\
  (forall r c pos, stored p r c pos -> vals' !! pos = if decide (r ∈ rows ++ rows' /\ mem !! r <> Some true /\ mem !! c = Some true) then Some zero else vals0 !! pos).
Proof using Hwf Hsq.
  intros Hmem Hn Hl0. induction rows' as [|r rows' IH]; intros rows vals Hr Hl Hv; cbn [ofold].
  { exists vals. by rewrite app_nil_r. }
  apply Forall_cons in Hr as [Hr Hrs]. unfold dirichlet_visit at 1.
  destruct (lookup_lt_is_Some_2 mem r) as [[|] Hm]; [lia| |]; rewrite Hm.
  - destruct (IH (rows ++ [r]) vals Hrs Hl) as (vals' & H1 & H2 & H3).
    { intros r' c pos Hs. rewrite (Hv _ _ _ Hs). destruct (decide (r' = r)) as [->|Hne].
      - rewrite !decide_False; [done|by intros (_ & ? & _)|by intros (_ & ? & _)].
      - apply decide_ext. rewrite elem_of_app, elem_of_list_singleton. intuition. }
    exists vals'. rewrite <- app_assoc in H3. done.
  - destruct (pat_row_exists p Hwf r Hr) as (b & cols & Hrow). rewrite Hrow.
    pose proof (row_bound r b cols Hrow) as Hb. pose proof (row_cols_bound r b cols Hrow) as Hcb.
    destruct (visit_fold b mem cols 0 vals) as (vals1 & -> & E1 & E2 & E3).
    { eapply Forall_impl; [exact Hcb|]. intros c Hc. simpl in Hc. lia. } { lia. }
    destruct (IH (rows ++ [r]) vals1 Hrs) as (vals' & H1 & H2 & H3); [congruence| |].
    { intros r' c pos Hs.
      rewrite (row_effect r b cols r' c pos vals vals1 (fun c o => if decide (mem !! c = Some true) then Some zero else o) Hrow E2 E3 Hs).
      rewrite (Hv _ _ _ Hs). destruct (decide (r' = r)) as [->|Hne].
      - destruct (decide (mem !! c = Some true)) as [Hc|Hc].
        + rewrite decide_True; [done|]. split_and!; [apply elem_of_app; right; by apply elem_of_list_singleton|congruence|done].
        + rewrite !decide_False; [done|by intros (_ & _ & ?)|by intros (_ & _ & ?)].
      - apply decide_ext. rewrite elem_of_app, elem_of_list_singleton. intuition. }
    exists vals'. rewrite <- app_assoc in H3. done.
Qed.
End pat.

Lemma visited_spec visit r : r ∈ visited visit <-> visit !! r = Some true.
Proof.
  unfold visited. rewrite elem_of_list_omap. split.
  - intros ([i b] & Hi & Hb). destruct b; [|done]. injection Hb as ->. apply elem_of_list_lookup in Hi as [k Hk].
    apply lookup_zip_with_Some in Hk as (x & y & Heq & Hx & Hy). simplify_eq. apply lookup_seq in Hx as [-> _]. done.
  - intros Hr. exists (r, true). split; [|done]. apply elem_of_list_lookup. exists r.
    apply lookup_zip_with_Some. exists r, true. split_and!; [done| |done]. apply lookup_seq. apply lookup_lt_Some in Hr. lia.
Qed.

Context (one : T) (abs : T -> T) (is_zero : T -> bool).

Lemma dirichlet_csr_spec (m : csr T) nodes d :
  csr_wf m -> pt_ncols (cs_pat m) = pt_nrows (cs_pat m) -> struct_sym (cs_pat m) ->
  (forall r, constrained nodes d r -> r < pt_nrows (cs_pat m)) ->
  exists m', dirichlet_csr zero one abs is_zero m nodes d = Ok m' /\
    bc_imposed zero (dirichlet_scale one abs is_zero m) (constrained nodes d) m m'.
Proof.
  intros [Hwf Hl] Hsq Hsym Hcon. unfold dirichlet_csr. set (p := cs_pat m) in *. set (s := dirichlet_scale _ _ _ _).
  destruct d as [|d'].
  { assert (dofs_of nodes 0 = []) as ->. { clear. unfold dofs_of. induction nodes as [|x nodes IH]; [done|]. rewrite bind_cons. exact IH. }
    simpl. exists m. split; [by destruct m|]. assert (forall r, ~ constrained nodes 0 r) as Hn by (intros r (? & ? & _ & ? & _); lia).
    split_and!; [done|done|]. intros r c pos x Hs Hx. split_and!; [by intros ?%Hn|by intros [?%Hn|?%Hn]|done]. }
  set (d := S d') in *. set (n := d * pt_nrows p). assert (pt_nrows p <= n) as Hn by (unfold n, d; lia).
  destruct (first_pass p Hwf Hsq s (cs_vals m) n Hl Hn (dofs_of nodes d) [] (cs_vals m, replicate n false, replicate n false)) as (st & Hst & Hinv).
  { apply Forall_forall. intros r Hr. apply Hcon. by apply dofs_spec. }
  { split_and!; [done|apply replicate_length|apply replicate_length| | |].
    - intros r. split; [intros H; apply lookup_replicate in H as [? _]; done|intros H; by apply elem_of_nil in H].
    - intros r. split; [intros H; apply lookup_replicate in H as [? _]; done|intros (? & H & _); by apply elem_of_nil in H].
    - intros r c pos _. rewrite decide_False; [done|]. apply not_elem_of_nil. }
  rewrite Hst. simpl in Hinv |- *. destruct st as [[vals mem] visit]. simpl. destruct Hinv as (H1 & H2 & H3 & H4 & H5 & H6).
  destruct (second_pass p Hwf Hsq mem (constrained nodes d) vals) with (rows' := visited visit) (rows := @nil nat) (vals := vals)
    as (vals' & -> & E1 & E2).
  { intros r. by rewrite H4, dofs_spec. } { lia. } { congruence. }
  { apply Forall_forall. intros r Hr. apply visited_spec, H5 in Hr as (r' & _ & _ & pos & Hs).
    rewrite <- Hsq. destruct Hwf as (_ & _ & _ & _ & Hb). by eapply Hb. } { done. }
  { intros r c pos _. rewrite decide_False; [done|]. intros [H _]. by apply elem_of_nil in H. }
  simpl. eexists. split; [reflexivity|]. split_and!; [done|simpl; congruence|]. intros r c pos x Hs Hx. simpl.
  rewrite (E2 _ _ _ Hs), (H6 _ _ _ Hs). fold p in Hs. split_and!.
  - intros Hr <-. rewrite decide_False.
    + rewrite decide_True by (by apply dofs_spec). by rewrite decide_True.
    + intros (_ & Hne & _). apply Hne, H4. by apply dofs_spec.
  - intros Hrc Hne. destruct (decide (r ∈ dofs_of nodes d)) as [Hr|Hr].
    + rewrite decide_False; [by rewrite decide_False|]. intros (_ & Hf & _). by apply Hf, H4.
    + assert (c ∈ dofs_of nodes d) as Hc. { apply dofs_spec. destruct Hrc as [Hrc|]; [|done]. by apply dofs_spec in Hrc. }
      rewrite decide_True; [done|]. split_and!.
      * apply elem_of_app; right. apply visited_spec, H5. exists c. split_and!; [done|done|]. apply Hsym. by exists pos.
      * by rewrite H4.
      * by apply H4.
  - intros Hr Hc. rewrite decide_False; [|by intros (_ & _ & Hf%H4%dofs_spec)]. rewrite decide_False; [done|]. by rewrite dofs_spec.
Qed.

(** The scale. *)
Lemma skip_zero_app (l1 l2 : list T) : skip_zero is_zero (l1 ++ l2) =
  match skip_zero is_zero l1 with [] => skip_zero is_zero l2 | x :: l => x :: l ++ l2 end.
Proof. induction l1 as [|x l1 IH]; simpl; [done|]. by destruct (is_zero x). Qed.

Lemma skip_zero_nil (l : list T) : skip_zero is_zero l = [] -> forall x, x ∈ l -> is_zero x = true.
Proof.
  induction l as [|y l IH]; simpl; intros H x Hx; [by apply elem_of_nil in Hx|].
  destruct (is_zero y) eqn:Hy; [|done]. apply elem_of_cons in Hx as [->|Hx]; [done|by apply IH].
Qed.

Lemma skip_zero_cons (l : list T) x l' : skip_zero is_zero l = x :: l' -> x ∈ l /\ is_zero x = false.
Proof.
  induction l as [|y l IH]; simpl; intros H; [done|]. destruct (is_zero y) eqn:Hy.
  - destruct (IH H) as [? ?]. split; [by right|done].
  - simplify_eq. split; [by left|done].
Qed.

Definition row_diag (m : csr T) (r : nat) : list T :=
  omap (fun '(i, j, v) => if decide (i = j) then Some v else None)
    match pat_row (cs_pat m) r with
    | Some (b, cols) => omap (fun '(k, c) => v ← cs_vals m !! (b + k); Some (r, c, v)) (zip (seq 0 (length cols)) cols)
    | None => []
    end.

Lemma row_diag_spec (m : csr T) r : csr_wf m -> r < pt_nrows (cs_pat m) -> forall v,
  v ∈ row_diag m r <-> exists pos, stored (cs_pat m) r r pos /\ cs_vals m !! pos = Some v.
Proof.
  intros [Hwf Hl] Hr v. unfold row_diag. destruct (pat_row_exists _ Hwf r Hr) as (b & cols & Hrow). rewrite Hrow.
  rewrite elem_of_list_omap. split.
  - intros ([[i j] w] & Hin & Hw). apply elem_of_list_omap in Hin as ([k c] & Hk & Hc).
    apply elem_of_list_lookup in Hk as [q Hq]. apply lookup_zip_with_Some in Hq as (x & y & Heq & Hx & Hy). simplify_eq.
    apply lookup_seq in Hx as [-> _]. simpl in *. destruct (cs_vals m !! (b + q)) as [u|] eqn:Hu; simpl in Hc; [|done].
    simplify_eq. case_decide as Hij; [|done]. simplify_eq. exists (b + q). split; [|done]. by apply (pat_row_spec _ _ _ _ Hrow).
  - intros (pos & Hs & Hv). destruct (pat_row_stored _ _ _ _ _ _ Hrow Hs) as [Hb Hc].
    exists (r, r, v). split; [|by rewrite decide_True]. apply elem_of_list_omap. exists (pos - b, r). split.
    + apply elem_of_list_lookup. exists (pos - b). apply lookup_zip_with_Some. exists (pos - b), r. split_and!; [done| |done].
      apply lookup_seq. apply lookup_lt_Some in Hc. lia.
    + replace (b + (pos - b)) with pos by lia. by rewrite Hv.
Qed.

Lemma omap_bind {A B C} (f : B -> option C) (g : A -> list B) (l : list A) : omap f (l ≫= g) = l ≫= (fun x => omap f (g x)).
Proof. induction l as [|x l IH]; [done|]. rewrite !bind_cons, omap_app. by f_equal. Qed.

Lemma scale_rows (m : csr T) : csr_wf m -> forall n k, k + n = pt_nrows (cs_pat m) ->
  match skip_zero is_zero (r ← seq k n; row_diag m r) with
  | [] => forall r pos v, k <= r -> stored (cs_pat m) r r pos -> cs_vals m !! pos = Some v -> is_zero v = true
  | x :: _ => exists r pos, stored (cs_pat m) r r pos /\ cs_vals m !! pos = Some x /\ is_zero x = false /\
      forall r' pos' v, k <= r' < r -> stored (cs_pat m) r' r' pos' -> cs_vals m !! pos' = Some v -> is_zero v = true
  end.
Proof.
  intros Hwf. induction n as [|n IH]; intros k Hk.
  { simpl. intros r pos v Hr Hs _. destruct (stored_row _ (proj1 Hwf) _ _ _ Hs). lia. }
  cbn [seq]. rewrite bind_cons, skip_zero_app. destruct (skip_zero is_zero (row_diag m k)) as [|x l] eqn:Hd.
  - specialize (IH (S k) ltac:(lia)).
    assert (forall pos v, stored (cs_pat m) k k pos -> cs_vals m !! pos = Some v -> is_zero v = true) as Hz.
    { intros pos v Hs Hv. apply (skip_zero_nil _ Hd). apply row_diag_spec; [done|lia|]. by exists pos. }
    destruct (skip_zero is_zero _) as [|x l].
    + intros r pos v Hr Hs Hv. destruct (decide (r = k)) as [->|]; [by eapply Hz|]. eapply IH; [|exact Hs|exact Hv]. lia.
    + destruct IH as (r & pos & H1 & H2 & H3 & H4). exists r, pos. split_and!; [done..|].
      intros r' pos' v Hr Hs Hv. destruct (decide (r' = k)) as [->|]; [by eapply Hz|]. eapply H4; [|exact Hs|exact Hv]. lia.
  - apply skip_zero_cons in Hd as [Hx Hz]. apply row_diag_spec in Hx as (pos & Hs & Hv); [|done|lia].
    exists k, pos. split_and!; [done..|]. lia.
Qed.

Lemma dirichlet_scale_spec (m : csr T) : (forall x, is_zero x = true <-> x = zero) -> csr_wf m ->
  scale_choice zero one abs m (dirichlet_scale one abs is_zero m).
Proof.
  intros Hz Hwf. unfold dirichlet_scale, csr_triplets. rewrite omap_bind.
  pose proof (scale_rows m Hwf (pt_nrows (cs_pat m)) 0 eq_refl) as H. unfold row_diag in H.
  destruct (skip_zero is_zero _) as [|x l]; simpl.
  - left. split; [done|]. intros r pos Hs. destruct (lookup_lt_is_Some_2 (cs_vals m) pos) as [v Hv].
    { destruct Hwf as [Hp ->]. by apply (stored_row _ Hp _ _ _ Hs). }
    rewrite Hv. f_equal. apply Hz. eapply H; [|exact Hs|exact Hv]. lia.
  - right. destruct H as (r & pos & H1 & H2 & H3 & H4). exists r, pos, x. split_and!; [done|done| |done|].
    + intros Hx. apply Hz in Hx. congruence.
    + intros r' pos' Hr Hs. destruct (lookup_lt_is_Some_2 (cs_vals m) pos') as [v Hv].
      { destruct Hwf as [Hp ->]. by apply (stored_row _ Hp _ _ _ Hs). }
      rewrite Hv. f_equal. apply Hz. eapply H4; [|exact Hs|exact Hv]. lia.
Qed.

(** Entries of the dense view. *)
Lemma bc_entries (con : nat -> Prop) (s : T) (m m' : csr T) r c x :
  csr_wf m -> (forall k, con k -> exists pos, stored (cs_pat m) k k pos) -> bc_imposed zero s con m m' ->
  entry_is zero m r c x ->
  (con r -> r = c -> entry_is zero m' r c s) /\
  (con r \/ con c -> r <> c -> entry_is zero m' r c zero) /\
  (~ con r -> ~ con c -> entry_is zero m' r c x).
Proof.
  intros [Hwf Hl] Hd (Hp & Hl' & Hb) [(pos & Hs & Hx)|[Hn ->]].
  - specialize (Hb _ _ _ _ Hs Hx) as (H1 & H2 & H3). unfold entry_is. rewrite Hp. split_and!; intros; left; exists pos; auto.
  - unfold entry_is. rewrite Hp. split_and!.
    + intros Hc <-. destruct (Hd r Hc) as [pos Hs]. by destruct (Hn pos).
    + intros _ _. by right.
    + intros _ _. by right.
Qed.

Lemma bc_wf (con : nat -> Prop) (s : T) (m m' : csr T) : csr_wf m -> bc_imposed zero s con m m' -> csr_wf m'.
Proof. intros [Hwf Hl] (Hp & Hl' & _). split; by rewrite Hp, ?Hl'. Qed.

Lemma bc_symmetric (con : nat -> Prop) (s : T) (m m' : csr T) : (forall k, Decision (con k)) ->
  csr_wf m -> bc_imposed zero s con m m' -> struct_sym (cs_pat m) ->
  (forall r c x, entry_is zero m r c x -> entry_is zero m c r x) ->
  forall r c x, entry_is zero m' r c x -> entry_is zero m' c r x.
Proof.
  intros Hdec [Hwf Hl] (Hp & Hl' & Hb) Hst Hsym r c x [(pos & Hs & Hx)|[Hn ->]]; unfold entry_is; rewrite Hp in *.
  - destruct (Hst r c) as [pos' Hs']; [by exists pos|]. left. exists pos'. split; [done|].
    destruct (lookup_lt_is_Some_2 (cs_vals m) pos) as [v Hv]; [rewrite Hl; by apply (stored_row _ Hwf _ _ _ Hs)|].
    assert (cs_vals m !! pos' = Some v) as Hv'.
    { destruct (Hsym r c v) as [(q & Hq & Hqv)|[Hn _]]; [left; by exists pos| |by destruct (Hn pos')].
      by rewrite (stored_inj _ Hwf _ _ _ _ Hs' Hq). }
    destruct (Hb _ _ _ _ Hs Hv) as (A1 & A2 & A3). destruct (Hb _ _ _ _ Hs' Hv') as (B1 & B2 & B3).
    destruct (decide (r = c)) as [->|Hne].
    { destruct (Hdec c) as [Hc|Hc]; [rewrite A1 in Hx by done; rewrite B1 by done; done|rewrite A3 in Hx by done; rewrite B3 by done; done]. }
    destruct (Hdec r) as [Hr|Hr]; [rewrite A2 in Hx by auto; rewrite B2 by auto; done|].
    destruct (Hdec c) as [Hc|Hc]; [rewrite A2 in Hx by auto; rewrite B2 by auto; done|].
    rewrite A3 in Hx by done. rewrite B3 by done. done.
  - right. split; [|done]. intros pos Hs. destruct (Hst c r) as [pos' Hs']; [by exists pos|]. by destruct (Hn pos').
Qed.
End csr.

(** ** Dense *)
Section dense.
Context {T : Type} (zero : T).

Lemma dirichlet_dof_spec (s : T) (A : dmat T) idx : dmat_wf A -> idx < length (dm_rows A) -> idx < dm_ncols A ->
  exists A', dirichlet_dof zero s A idx = Ok A' /\ dmat_wf A' /\ length (dm_rows A') = length (dm_rows A) /\ dm_ncols A' = dm_ncols A /\
    forall i j x, dm_at A i j = Some x -> dm_at A' i j =
      Some (if decide (i = idx) then (if decide (j = idx) then s else zero) else if decide (j = idx) then zero else x).
Proof.
  intros Hwf H1 H2. unfold dirichlet_dof. rewrite !decide_True by done. eexists. split; [reflexivity|].
  unfold dmat_wf, dm_at in *. cbn [dm_rows dm_ncols]. split_and!.
  - apply Forall_lookup. intros i row Hi. rewrite Forall_lookup in Hwf.
    destruct (decide (i = idx)) as [->|Hne].
    + rewrite list_lookup_alter, list_lookup_alter, list_lookup_fmap in Hi. destruct (dm_rows A !! idx) as [r|] eqn:Hr; simpl in Hi; [|done].
      simplify_eq. rewrite insert_length, map_length, insert_length. by eapply Hwf.
    + rewrite list_lookup_alter_ne, list_lookup_alter_ne, list_lookup_fmap in Hi by done. destruct (dm_rows A !! i) as [r|] eqn:Hr; simpl in Hi; [|done].
      simplify_eq. rewrite insert_length. by eapply Hwf.
  - by rewrite !alter_length, map_length.
  - done.
  - intros i j x Hx. destruct (dm_rows A !! i) as [r|] eqn:Hr; simpl in Hx; [|done]. rewrite Forall_lookup in Hwf. specialize (Hwf _ _ Hr).
    destruct (decide (i = idx)) as [->|Hne].
    + rewrite list_lookup_alter, list_lookup_alter, list_lookup_fmap, Hr. cbn [fmap option_fmap option_map mbind option_bind].
      destruct (decide (j = idx)) as [->|Hj].
      * rewrite list_lookup_insert; [done|]. rewrite map_length, insert_length. simpl in Hwf. lia.
      * rewrite list_lookup_insert_ne by done. change (map (fun _ : T => zero) (<[idx:=zero]> r)) with ((fun _ : T => zero) <$> (<[idx:=zero]> r)). rewrite list_lookup_fmap.
        rewrite list_lookup_insert_ne by done. by rewrite Hx.
    + rewrite list_lookup_alter_ne, list_lookup_alter_ne, list_lookup_fmap, Hr by done. cbn [fmap option_fmap option_map mbind option_bind].
      destruct (decide (j = idx)) as [->|Hj].
      * rewrite list_lookup_insert; [done|]. simpl in Hwf. lia.
      * by rewrite list_lookup_insert_ne.
Qed.

Lemma dirichlet_dofs_spec (s : T) : forall rows (A : dmat T), dmat_wf A ->
  Forall (fun i => i < length (dm_rows A) /\ i < dm_ncols A) rows ->
  exists A', ofold (dirichlet_dof zero s) A rows = Ok A' /\ dmat_wf A' /\ length (dm_rows A') = length (dm_rows A) /\ dm_ncols A' = dm_ncols A /\
    forall i j x, dm_at A i j = Some x ->
      (i ∈ rows -> i = j -> dm_at A' i j = Some s) /\
      (i ∈ rows \/ j ∈ rows -> i <> j -> dm_at A' i j = Some zero) /\
      (i ∉ rows -> j ∉ rows -> dm_at A' i j = Some x).
Proof.
  induction rows as [|r rows IH]; intros A Hwf Hr; cbn [ofold].
  { exists A. split_and!; try done. intros i j x Hx. split_and!; [by intros ?%elem_of_nil|by intros [?%elem_of_nil|?%elem_of_nil]|done]. }
  apply Forall_cons in Hr as [[Hr1 Hr2] Hr]. destruct (dirichlet_dof_spec s A r Hwf Hr1 Hr2) as (A1 & -> & Hwf1 & L1 & C1 & E1).
  destruct (IH A1 Hwf1) as (A' & -> & Hwf' & L' & C' & E'). { by rewrite L1, C1. }
  exists A'. split_and!; [done|done|congruence|congruence|]. intros i j x Hx.
  specialize (E' _ _ _ (E1 _ _ _ Hx)) as (H1 & H2 & H3).
  rewrite !not_elem_of_cons, !elem_of_cons. split_and!.
  - intros Hi <-. destruct (decide (i ∈ rows)) as [Hin|Hin]; [by apply H1|]. rewrite H3 by done. destruct Hi as [->|]; [|done]. by rewrite !decide_True.
  - intros Hij Hne. destruct (decide (i ∈ rows \/ j ∈ rows)) as [Hin|Hin]; [by apply H2|].
    rewrite H3 by (by intros ?; apply Hin; auto). destruct Hij as [[->|?]|[->|?]].
    + rewrite decide_True by done. by rewrite decide_False by done.
    + destruct Hin. by left.
    + destruct (decide (i = r)) as [->|]; [done|]. by rewrite decide_True.
    + destruct Hin. by right.
  - intros [Hi Hi'] [Hj Hj']. rewrite H3 by done. by rewrite !decide_False.
Qed.

Lemma dirichlet_rhs_spec (b : list T) nodes d : (forall r, constrained nodes d r -> r < length b) ->
  exists b', dirichlet_rhs zero b nodes d = Ok b' /\ length b' = length b /\
    forall i x, b !! i = Some x -> (constrained nodes d i -> b' !! i = Some zero) /\ (~ constrained nodes d i -> b' !! i = Some x).
Proof.
  intros Hc. unfold dirichlet_rhs. setoid_rewrite <- (dofs_spec nodes d) in Hc. setoid_rewrite <- (dofs_spec nodes d).
  generalize dependent (dofs_of nodes d). intros rows. revert b. induction rows as [|r rows IH]; intros b Hc; cbn [ofold].
  { exists b. split_and!; try done. intros i x Hx. split; [by intros ?%elem_of_nil|done]. }
  rewrite decide_True by (apply Hc; by left). destruct (IH (<[r := zero]> b)) as (b' & -> & Hl & Hb).
  { intros i Hi. rewrite insert_length. apply Hc. by right. }
  exists b'. split_and!; [done|by rewrite Hl, insert_length|]. intros i x Hx. rewrite elem_of_cons.
  assert (r < length b) as Hr by (apply Hc; by left).
  destruct (decide (i = r)) as [->|Hne].
  - destruct (Hb r zero) as [H1 H2]; [by apply list_lookup_insert|]. split; [|intros H; exfalso; apply H; by left].
    intros _. destruct (decide (r ∈ rows)); auto.
  - destruct (Hb i x) as [H1 H2]; [by rewrite list_lookup_insert_ne|]. split; [by intros [?|?]; auto|]. intros H. apply H2. intros ?. apply H. by right.
Qed.
End dense.

(** ** Systems *)
Lemma sum_below_S n f : sum_below (S n) f = (sum_below n f + f n)%R.
Proof.
  unfold sum_below. rewrite seq_S, map_app, foldr_app. simpl.
  assert (forall l x, foldr Rplus x l = (foldr Rplus 0 l + x)%R) as H.
  { induction l as [|y l IH]; intros x; simpl; [ring|]. rewrite IH. ring. }
  rewrite H. ring.
Qed.

Lemma sum_below_ext n f g : (forall i, i < n -> f i = g i) -> sum_below n f = sum_below n g.
Proof. induction n as [|n IH]; intros H; [done|]. rewrite !sum_below_S, IH by auto. by rewrite H by lia. Qed.

Lemma sum_below_single n f k : k < n -> (forall i, i < n -> i <> k -> f i = 0%R) -> sum_below n f = f k.
Proof.
  induction n as [|n IH]; intros Hk H; [lia|]. rewrite sum_below_S. destruct (decide (k = n)) as [->|Hne].
  - assert (sum_below n f = 0%R) as ->.
    { clear IH Hk. assert (forall i, i < n -> f i = 0%R) as H' by (intros; apply H; lia). clear H.
      induction n as [|n IH]; [done|]. rewrite sum_below_S, IH, H' by auto. ring. }
    ring.
  - rewrite IH; [|lia|intros; apply H; lia]. rewrite (H n) by lia. ring.
Qed.

(** Solutions of the constrained system are solutions of the free system extended by zero. *)
Lemma system_reduction n (con : nat -> Prop) (A A' : nat -> nat -> R) (x b b' : nat -> R) s :
  (forall k, Decision (con k)) -> s <> 0%R ->
  (forall i j, i < n -> j < n ->
     (con i -> i = j -> A' i j = s) /\ (con i \/ con j -> i <> j -> A' i j = 0%R) /\ (~ con i -> ~ con j -> A' i j = A i j)) ->
  (forall i, i < n -> (con i -> b' i = 0%R) /\ (~ con i -> b' i = b i)) ->
  solves n A' x b' <->
  (forall i, i < n -> con i -> x i = 0%R) /\
  (forall i, i < n -> ~ con i -> sum_below n (fun j => A i j * x j)%R = b i).
Proof.
  intros Hdec Hs HA Hb.
  assert (forall i, i < n -> con i -> sum_below n (fun j => A' i j * x j)%R = (s * x i)%R) as Hc.
  { intros i Hi Hci. rewrite (sum_below_single n _ i Hi).
    - destruct (HA i i Hi Hi) as (H & _). by rewrite H.
    - intros j Hj Hne. destruct (HA i j Hi Hj) as (_ & H & _). rewrite H by auto. ring. }
  assert ((forall i, i < n -> con i -> x i = 0%R) -> forall i, i < n -> ~ con i ->
     sum_below n (fun j => A' i j * x j)%R = sum_below n (fun j => A i j * x j)%R) as Hf.
  { intros Hx i Hi Hci. apply sum_below_ext. intros j Hj. destruct (HA i j Hi Hj) as (_ & H1 & H2). destruct (Hdec j) as [Hcj|Hcj].
    - rewrite (Hx j Hj Hcj). ring.
    - by rewrite H2. }
  unfold solves. split.
  - intros H. assert (forall i, i < n -> con i -> x i = 0%R) as Hx.
    { intros i Hi Hci. specialize (H i Hi). destruct (Hb i Hi) as [B1 B2].
      rewrite (Hc i Hi Hci), (B1 Hci) in H. apply Rmult_integral in H as [H|H]; [by destruct Hs|done]. }
    split; [done|]. intros i Hi Hci. destruct (Hb i Hi) as [B1 B2]. by rewrite <- (Hf Hx i Hi Hci), H, B2.
  - intros [H1 H2] i Hi. destruct (Hb i Hi) as [B1 B2]. destruct (Hdec i) as [Hci|Hci].
    + rewrite (Hc i Hi Hci), (H1 i Hi Hci), (B1 Hci). ring.
    + by rewrite (Hf H1 i Hi Hci), (H2 i Hi Hci), (B2 Hci).
Qed.

Lemma constrained_dec nodes d r : Decision (constrained nodes d r).
Proof. destruct (decide (r ∈ dofs_of nodes d)) as [H|H]; [left; by apply dofs_spec|right; by rewrite <- dofs_spec]. Defined.

(** ** The dense case over the reals *)
Lemma foldl_Rplus l : forall x, foldl Rplus x l = (x + foldr Rplus 0 l)%R.
Proof. induction l as [|y l IH]; intros x; simpl; [ring|]. rewrite IH. ring. Qed.

Definition div_nat (x : R) (n : nat) : R := (x / INR n)%R.

Lemma mean_abs_diag_spec (A : dmat R) (a : nat -> nat -> R) n :
  length (dm_rows A) = n -> dm_ncols A = n -> (forall i j, i < n -> j < n -> dm_at A i j = Some (a i j)) ->
  mean_abs_diag 0%R Rplus Rabs div_nat A = (sum_below n (fun i => Rabs (a i i)) / INR n)%R.
Proof.
  intros Hn Hc Ha. unfold mean_abs_diag, div_nat. rewrite Hn, Hc, Nat.min_id, foldl_Rplus, Rplus_0_l. unfold sum_below. do 2 f_equal.
  assert (forall l, Forall (fun i => i < n) l -> map Rabs (omap (fun i => row ← dm_rows A !! i; row !! i) l) = map (fun i => Rabs (a i i)) l) as H.
  { induction l as [|i l IH]; intros Hl; [done|]. apply Forall_cons in Hl as [Hi Hl].
    assert ((row ← dm_rows A !! i; row !! i) = Some (a i i)) as E by (exact (Ha i i Hi Hi)). cbn [omap list_omap]. rewrite E. simpl. f_equal. by apply IH. }
  apply H. apply Forall_forall. intros i Hi. apply elem_of_seq in Hi. lia.
Qed.

Lemma dirichlet_matrix_spec (A : dmat R) (a : nat -> nat -> R) n nodes d :
  length (dm_rows A) = n -> dm_ncols A = n -> dmat_wf A -> (forall i j, i < n -> j < n -> dm_at A i j = Some (a i j)) ->
  (forall r, constrained nodes d r -> r < n) ->
  exists A' (a' : nat -> nat -> R), dirichlet_matrix 0%R Rplus Rabs div_nat A nodes d = Ok A' /\
    length (dm_rows A') = n /\ dm_ncols A' = n /\ dmat_wf A' /\ (forall i j, i < n -> j < n -> dm_at A' i j = Some (a' i j)) /\
    forall i j, i < n -> j < n ->
      (constrained nodes d i -> i = j -> a' i j = (sum_below n (fun i => Rabs (a i i)) / INR n)%R) /\
      (constrained nodes d i \/ constrained nodes d j -> i <> j -> a' i j = 0%R) /\
      (~ constrained nodes d i -> ~ constrained nodes d j -> a' i j = a i j).
Proof.
  intros Hn Hc Hwf Ha Hcon. unfold dirichlet_matrix. rewrite (mean_abs_diag_spec A a n Hn Hc Ha).
  destruct (dirichlet_dofs_spec 0%R (sum_below n (fun i => Rabs (a i i)) / INR n)%R (dofs_of nodes d) A Hwf) as (A' & -> & Hwf' & L & C & H).
  { apply Forall_forall. intros r Hr. apply dofs_spec, Hcon in Hr. lia. }
  exists A', (fun i j => default 0%R (dm_at A' i j)). split; [done|]. split; [congruence|]. split; [congruence|]. split; [done|]. split.
  - intros i j Hi Hj. unfold dm_at. destruct (lookup_lt_is_Some_2 (dm_rows A') i) as [row Hrow]; [lia|]. rewrite Hrow. simpl.
    unfold dmat_wf in Hwf'. rewrite Forall_lookup in Hwf'. specialize (Hwf' _ _ Hrow). simpl in Hwf'.
    destruct (lookup_lt_is_Some_2 row j) as [x Hx]; [lia|]. by rewrite Hx.
  - intros i j Hi Hj. specialize (H _ _ _ (Ha i j Hi Hj)) as (H1 & H2 & H3). rewrite <- !(dofs_spec nodes d). split_and!.
    + intros A1 A2. by rewrite H1. + intros A1 A2. by rewrite H2. + intros A1 A2. by rewrite H3.
Qed.

Lemma sum_abs_pos n f k : k < n -> f k <> 0%R -> (0 < sum_below n (fun i => Rabs (f i)))%R.
Proof.
  intros Hk Hf. assert (forall m, (0 <= sum_below m (fun i => Rabs (f i)))%R) as H0.
  { induction m as [|m IH]; [apply Rle_refl|]. rewrite sum_below_S. apply Rplus_le_le_0_compat; [done|apply Rabs_pos]. }
  induction n as [|n IH]; [lia|]. rewrite sum_below_S. destruct (decide (k = n)) as [->|].
  - apply Rplus_le_lt_0_compat; [apply H0|by apply Rabs_pos_lt].
  - apply Rplus_lt_le_0_compat; [apply IH; lia|apply Rabs_pos].
Qed.

Lemma entry_unique_wf {T} (zero : T) (m : csr T) r c x y : pat_wf (cs_pat m) -> entry_is zero m r c x -> entry_is zero m r c y -> x = y.
Proof.
  intros Hwf [(p & Hp & Hx)|[Hn ->]] [(q & Hq & Hy)|[Hn' ->]]; [|by destruct (Hn' p)|by destruct (Hn q)|done].
  rewrite (stored_inj _ Hwf _ _ _ _ Hp Hq) in Hx. congruence.
Qed.

(** C32, C33, C34. *)
From stdpp Require Import base list list_numbers sorting.
From Coq Require Import Lia.
From Verif Require Import Prelude TableModel TableSpec.

(** * C32 *)
Section AggregateProofs.
  Context {Q : Type}.
  Implicit Types (asms : list (assembler Q)).

  Lemma elements_app asms asms' : elements (asms ++ asms') = elements asms ++ elements asms'.
  Proof. unfold elements. by rewrite map_app, concat_app. Qed.
  Lemma elements_cons a asms : elements (a :: asms) = map (asm_query a) (seq 0 (asm_num_elements a)) ++ elements asms.
  Proof. done. Qed.
  Lemma elements_len1 (a : assembler Q) : length (elements [a]) = asm_num_elements a.
  Proof. unfold elements. cbn. by rewrite app_nil_r, map_length, seq_length. Qed.

  Definition off asms (i : nat) : nat := length (elements (take i asms)).
  Lemma off_0 asms : off asms 0 = 0.
  Proof. unfold off. by rewrite take_0. Qed.
  Lemma off_S asms i a : asms !! i = Some a -> off asms (S i) = off asms i + asm_num_elements a.
  Proof. intros H. unfold off. by rewrite (take_S_r _ _ _ H), elements_app, app_length, elements_len1. Qed.
  Lemma off_mono asms i j : i <= j -> off asms i <= off asms j.
  Proof.
    intros H. unfold off. replace (take i asms) with (take i (take j asms)) by (rewrite take_take; f_equal; lia).
    pose proof (f_equal length (f_equal elements (take_drop i (take j asms)))) as E. rewrite elements_app, app_length in E. lia.
  Qed.
  Lemma elements_lookup asms i a j : asms !! i = Some a -> j < asm_num_elements a -> elements asms !! (off asms i + j) = Some (asm_query a j).
  Proof.
    intros Ha Hj. unfold off. pose proof (f_equal elements (take_drop_middle _ _ _ Ha)) as E. rewrite <- E. rewrite elements_app, elements_cons.
    rewrite lookup_app_r by lia. replace (length _ + j - length _) with j by lia.
    rewrite lookup_app_l by (by rewrite map_length, seq_length). rewrite list_lookup_fmap, lookup_seq_lt by done. done.
  Qed.

  Lemma offsets_fold asms : forall pre o t,
    o = map (off pre) (seq 0 (length pre)) -> t = length (elements pre) ->
    foldl (fun '(offsets, total) a => (offsets ++ [total], total + asm_num_elements a)) (o, t) asms =
    (map (off (pre ++ asms)) (seq 0 (length (pre ++ asms))), length (elements (pre ++ asms))).
  Proof.
    induction asms as [|a asms IH]; intros pre o t -> ->; cbn [foldl].
    - by rewrite app_nil_r.
    - rewrite (IH (pre ++ [a])); [by rewrite <- app_assoc| |].
      + rewrite app_length. cbn. rewrite Nat.add_1_r, seq_S, map_app. cbn [map]. f_equal; [|f_equal].
        * apply map_ext_in. intros i Hi. apply in_seq in Hi. unfold off. by rewrite take_app_le by lia.
        * unfold off. cbn. by rewrite take_app.
      + by rewrite elements_app, app_length, elements_len1.
  Qed.

  Lemma from_assemblers_ok asms g : from_assemblers asms = Ok g ->
    agg_assemblers g = asms /\ agg_num_elements g = length (elements asms) /\ agg_offsets g = map (off asms) (seq 0 (length asms)).
  Proof.
    unfold from_assemblers. destruct asms as [|a0 asms]; [done|]. repeat case_decide; [|done..].
    rewrite (offsets_fold _ [] [] 0) by done. intros [= <-]. done.
  Qed.

  Lemma offsets_sorted asms : sorted_list (map (off asms) (seq 0 (length asms))).
  Proof.
    intros i j x y Hij Hx Hy. rewrite list_lookup_fmap in Hx, Hy. apply fmap_Some in Hx as (i' & Hi & ->). apply fmap_Some in Hy as (j' & Hj & ->).
    apply lookup_seq in Hi as [-> _]. apply lookup_seq in Hj as [-> _]. by apply off_mono.
  Qed.
  Lemma offsets_lookup asms i x : map (off asms) (seq 0 (length asms)) !! i = Some x <-> i < length asms /\ x = off asms i.
  Proof.
    rewrite list_lookup_fmap, fmap_Some. split.
    - intros (i' & Hi & ->). apply lookup_seq in Hi as [-> ?]. done.
    - intros [Hi ->]. exists i. by rewrite lookup_seq_lt.
  Qed.

  (** the position with the last offset not above k owns element k *)
  Lemma owner asms i k q : elements asms !! k = Some q -> i < length asms -> off asms i <= k -> (forall j, i < j -> j < length asms -> k < off asms j) ->
    exists a, asms !! i = Some a /\ q = asm_query a (k - off asms i).
  Proof.
    intros Hq Hi Hle Hgt. destruct (lookup_lt_is_Some_2 _ _ Hi) as [a Ha]. exists a. split; [done|].
    assert (Hk : k - off asms i < asm_num_elements a).
    { pose proof (off_S _ _ _ Ha) as HS. destruct (decide (S i < length asms)) as [Hn|Hn].
      - specialize (Hgt (S i) ltac:(lia) Hn). lia.
      - apply lookup_lt_Some in Hq. unfold off in HS at 1. rewrite take_ge in HS by lia. lia. }
    pose proof (elements_lookup _ _ _ _ Ha Hk) as E. replace (off asms i + (k - off asms i)) with k in E by lia. rewrite Hq in E. by injection E.
  Qed.

  Lemma query_owner bs asms g k q i : from_assemblers asms = Ok g -> elements asms !! k = Some q ->
    match bs (agg_offsets g) k with inl i => Some i | inr 0 => None | inr (S i) => Some i end = Some i ->
    i < length asms -> off asms i <= k -> (forall j, i < j -> j < length asms -> k < off asms j) -> agg_query bs g k = Ok q.
  Proof.
    intros Hg Hq Hb Hi Hle Hgt. destruct (from_assemblers_ok _ _ Hg) as (E1 & E2 & E3).
    destruct (owner _ _ _ _ Hq Hi Hle Hgt) as (a & Ha & ->).
    unfold agg_query, find_assembler. rewrite E2. rewrite decide_True by (apply lookup_lt_Some in Hq; lia). rewrite Hb, E1, E3, Ha.
    rewrite (proj2 (offsets_lookup asms i (off asms i))) by done. cbn [obind]. by rewrite decide_True.
  Qed.
End AggregateProofs.

(** C32: the aggregate is constructed exactly if there is an assembler and all agree on the dimension and the number of nodes;
    its number of elements is the total. *)
Theorem C32_construction : forall Q (asms : list (assembler Q)),
  (forall g, from_assemblers asms = Ok g -> agg_num_elements g = length (elements asms) /\
     Forall (fun a => asm_sdim a = agg_sdim g /\ asm_num_nodes a = agg_num_nodes g) asms) /\
  ((exists g, from_assemblers asms = Ok g) <->
     asms ≠ [] /\ exists s n, Forall (fun a => asm_sdim a = s /\ asm_num_nodes a = n) asms).
Proof.
  intros Q asms. split.
  - intros g Hg. destruct (from_assemblers_ok _ _ Hg) as (_ & E & _). split; [done|].
    unfold from_assemblers in Hg. destruct asms as [|a0 asms]; [done|]. repeat case_decide; [|done..].
    destruct (foldl _ _ _) in Hg. injection Hg as <-. cbn [agg_sdim agg_num_nodes]. by apply Forall_and.
  - split.
    + intros [g Hg]. split; [by intros ->|]. unfold from_assemblers in Hg. destruct asms as [|a0 asms]; [done|]. repeat case_decide; [|done..].
      exists (asm_sdim a0), (asm_num_nodes a0). by apply Forall_and.
    + intros (Hne & s & n & HF). destruct asms as [|a0 asms]; [done|]. unfold from_assemblers. pose proof (Forall_inv HF) as [H0 H1].
      apply Forall_and in HF as [F1 F2]. rewrite H0, H1. rewrite !decide_True by done. destruct (foldl _ _ _). by eexists.
Qed.
Print Assumptions C32_construction.

(** C32: if every assembler has an element, then every query is answered by the owner of the element with its local index,
    whatever match the binary search picks. *)
Theorem C32_dispatch : forall Q bs (asms : list (assembler Q)) g, bsearch_contract bs -> from_assemblers asms = Ok g ->
  Forall (fun a => 0 < asm_num_elements a) asms -> forall k q, elements asms !! k = Some q -> agg_query bs g k = Ok q.
Proof.
  intros Q bs asms g Hbs Hg Hpos k q Hq. destruct (from_assemblers_ok _ _ Hg) as (E1 & E2 & E3).
  pose proof (Hbs (agg_offsets g) k) as Hb. rewrite E3 in Hb. specialize (Hb (offsets_sorted asms)). rewrite <- E3 in Hb.
  assert (Hne : 0 < length asms) by (destruct asms; [done|cbn; lia]).
  destruct (bs (agg_offsets g) k) as [i|i] eqn:Eb.
  - rewrite E3 in Hb. apply offsets_lookup in Hb as [Hi Hk]. apply (query_owner bs asms g k q i); try done.
    + by rewrite Eb.
    + lia.
    + intros j Hj Hjl. destruct (lookup_lt_is_Some_2 _ _ Hi) as [a Ha]. rewrite Forall_lookup in Hpos. specialize (Hpos _ _ Ha).
      pose proof (off_S _ _ _ Ha). pose proof (off_mono asms (S i) j ltac:(lia)). lia.
  - destruct Hb as [Hl Hb]. rewrite E3 in Hl, Hb. rewrite map_length, seq_length in Hl. destruct i as [|i].
    + destruct (Hb 0 (off asms 0)) as [_ H0]; [by apply offsets_lookup|]. specialize (H0 (Nat.le_refl _)). rewrite off_0 in H0. lia.
    + apply (query_owner bs asms g k q i); try done; [by rewrite Eb| |].
      * destruct (Hb i (off asms i)) as [H0 _]; [by apply offsets_lookup|]. specialize (H0 ltac:(lia)). lia.
      * intros j Hj Hjl. destruct (Hb j (off asms j)) as [_ H0]; [by apply offsets_lookup|]. apply H0. lia.
Qed.
Print Assumptions C32_dispatch.

Lemma bs_loop_spec l x : sorted_list l -> forall fuel base size, size <= fuel -> 0 < size -> base + size <= length l ->
  (base = 0 \/ exists v, l !! base = Some v /\ v <= x) -> (forall j y, base + size <= j -> l !! j = Some y -> x < y) ->
  let r := bs_loop fuel l x base size in
  r < length l /\ (r = 0 \/ exists v, l !! r = Some v /\ v <= x) /\ (forall j y, r < j -> l !! j = Some y -> x < y).
Proof.
  intros Hs. induction fuel as [|fuel IH]; intros base size Hf Hpos Hl Hb Hgt; cbn [bs_loop]; [lia|].
  case_decide as Hsz.
  - pose proof (Nat.div_mod size 2 ltac:(lia)) as Hd. pose proof (Nat.mod_upper_bound size 2 ltac:(lia)) as Hm.
    assert (Hhalf : 0 < size / 2 /\ size / 2 < size) by (split; [apply Nat.div_str_pos|apply Nat.div_lt]; lia).
    destruct (lookup_lt_is_Some_2 l (base + size / 2)) as [v Hv]; [lia|]. rewrite Hv. cbn [default from_option id].
    case_decide as Hx; apply IH; try lia; try done.
    + intros j y Hj Hy. destruct (decide (base + size <= j)); [by eapply Hgt|].
      pose proof (Hs (base + size / 2) j v y ltac:(lia) Hv Hy). lia.
    + right. exists v. split; [done|lia].
    + intros j y Hj Hy. eapply Hgt; [|done]. lia.
  - assert (size = 1) as -> by lia. split; [lia|]. split; [done|]. intros j y Hj Hy. eapply Hgt; [|done]. lia.
Qed.

(** The search of the standard library keeps the contract. *)
Lemma std_bsearch_contract : bsearch_contract std_bsearch.
Proof.
  intros l x Hs. unfold std_bsearch. case_decide as Hl; [split; [lia|]; intros j y Hy; apply lookup_lt_Some in Hy; lia|].
  destruct (bs_loop_spec l x Hs (length l) 0 (length l)) as (Hr & Hle & Hgt); [lia|lia|lia|by left| |].
  { intros j y Hj Hy. apply lookup_lt_Some in Hy. lia. }
  set (r := bs_loop _ _ _ _ _) in *. destruct (lookup_lt_is_Some_2 l r Hr) as [v Hv]. rewrite Hv. cbn [default from_option id].
  case_decide as He; [by subst|]. case_decide as Hlt.
  - split; [lia|]. intros j y Hy. split; [|intros; eapply Hgt; [|done]; lia]. intros Hj. pose proof (Hs j r y v ltac:(lia) Hy Hv). lia.
  - assert (r = 0) as Hr0 by (destruct Hle as [?|(v' & Hv' & ?)]; [done|]; rewrite Hv in Hv'; injection Hv' as ->; lia).
    rewrite Hr0 in *. split; [lia|]. intros j y Hy. split; [lia|]. intros _. destruct (decide (j = 0)) as [->|]; [rewrite Hv in Hy; injection Hy as <-; lia|].
    eapply Hgt; [|done]. lia.
Qed.

(** C32 for the binary search of the current standard library: it finds the last of equal offsets, and then assemblers without
    elements are harmless. *)
Theorem C32_dispatch_std : forall Q (asms : list (assembler Q)) g, from_assemblers asms = Ok g ->
  forall k q, elements asms !! k = Some q -> agg_query std_bsearch g k = Ok q.
Proof.
  intros Q asms g Hg k q Hq. destruct (from_assemblers_ok _ _ Hg) as (E1 & E2 & E3).
  assert (Hne : 0 < length asms) by (destruct asms; [done|cbn; lia]).
  destruct (bs_loop_spec (agg_offsets g) k ltac:(rewrite E3; apply offsets_sorted) (length asms) 0 (length asms)) as (Hr & Hle & Hgt);
    [lia|lia|rewrite E3, map_length, seq_length; lia|by left| |].
  { intros j y Hj Hy. apply lookup_lt_Some in Hy. rewrite E3, map_length, seq_length in Hy. lia. }
  set (r := bs_loop _ _ _ _ _) in *.
  assert (Hlen : length (agg_offsets g) = length asms) by (by rewrite E3, map_length, seq_length).
  assert (Hv : agg_offsets g !! r = Some (off asms r)) by (rewrite E3; apply offsets_lookup; split; [lia|done]).
  assert (Hk : off asms r <= k).
  { destruct Hle as [->|(v & Hv' & ?)]; [rewrite off_0; lia|]. rewrite Hv in Hv'. by injection Hv' as <-. }
  apply (query_owner std_bsearch asms g k q r); try done; [|lia|].
  - unfold std_bsearch. rewrite Hlen. rewrite decide_False by lia. fold r. rewrite Hv. cbn [default from_option id].
    case_decide; [done|]. rewrite decide_True by lia. by rewrite Nat.add_1_r.
  - intros j Hj Hjl. apply (Hgt j (off asms j) Hj). rewrite E3. by apply offsets_lookup.
Qed.
Print Assumptions C32_dispatch_std.

(** A search that returns on the first match it probes, as the standard library did before Rust 1.82. *)
Fixpoint probe_loop (fuel : nat) (l : list nat) (x left right : nat) : nat + nat :=
  match fuel with
  | 0 => inr left
  | S fuel =>
      if decide (left < right) then
        let mid := left + (right - left) / 2 in
        let v := default 0 (l !! mid) in
        if decide (v = x) then inl mid
        else if decide (v < x) then probe_loop fuel l x (mid + 1) right else probe_loop fuel l x left mid
      else inr left
  end.
Definition probe_bsearch (l : list nat) (x : nat) : nat + nat := probe_loop (S (length l)) l x 0 (length l).

Lemma probe_bsearch_contract : bsearch_contract probe_bsearch.
Proof.
  intros l x Hs. unfold probe_bsearch.
  assert (H : forall fuel left right, right - left < fuel -> left <= right -> right <= length l ->
    (forall j y, j < left -> l !! j = Some y -> y < x) -> (forall j y, right <= j -> l !! j = Some y -> x < y) ->
    match probe_loop fuel l x left right with
    | inl i => l !! i = Some x
    | inr i => i <= length l /\ forall j y, l !! j = Some y -> (j < i -> y < x) /\ (i <= j -> x < y)
    end).
  { induction fuel as [|fuel IH]; intros left right Hf Hlr Hl Hlow Hhigh; [lia|]. cbn [probe_loop]. case_decide as Hlt.
    - assert (Hd : (right - left) / 2 < right - left) by (apply Nat.div_lt; lia).
      destruct (lookup_lt_is_Some_2 l (left + (right - left) / 2)) as [v Hv]; [lia|]. rewrite Hv. cbn [default from_option id].
      case_decide; [by subst|]. case_decide as Hvx; apply IH; try lia; try done.
      + intros j y Hj Hy. pose proof (Hs j (left + (right - left) / 2) y v ltac:(lia) Hy Hv). lia.
      + intros j y Hj Hy. pose proof (Hs (left + (right - left) / 2) j v y ltac:(lia) Hv Hy). lia.
    - assert (left = right) as -> by lia. split; [lia|]. intros j y Hy. split; intros Hj; [by eapply Hlow|by eapply Hhigh]. }
  apply H; [lia|lia|lia| |].
  - intros; lia.
  - intros j y Hj Hy. apply lookup_lt_Some in Hy. lia.
Qed.

(** C32 is false without the hypothesis that every assembler has an element: a search that keeps the contract may select an
    assembler without elements, which is then asked about an element it does not have. *)
Theorem C32_empty_assembler_refuted : exists (bs : list nat -> nat -> nat + nat) (asms : list (assembler (nat * nat))) g k q,
  bsearch_contract bs /\ from_assemblers asms = Ok g /\ elements asms !! k = Some q /\
  agg_query bs g k ≠ Ok q /\ exists a o, find_assembler bs g k = Ok (a, o) /\ asm_num_elements a <= k - o.
Proof.
  exists probe_bsearch, [Assembler 1 0 4 (pair 0); Assembler 1 0 4 (pair 1); Assembler 1 5 4 (pair 2)].
  eexists _, 0, (2, 0). split; [apply probe_bsearch_contract|]. split; [reflexivity|]. split; [reflexivity|].
  split; [vm_compute; by intros [=]|]. eexists _, _. split; [vm_compute; reflexivity|]. vm_compute. lia.
Qed.
Print Assumptions C32_empty_assembler_refuted.

(** C32: the assertion lets the index one past the end through, and the last assembler is asked about an element it does not
    have; larger indices panic. *)
Theorem C32_bound_refuted : (exists (asms : list (assembler (nat * nat))) g q, from_assemblers asms = Ok g /\
    Forall (fun a => 0 < asm_num_elements a) asms /\ agg_query std_bsearch g (agg_num_elements g) = Ok q) /\
  forall Q bs (g : aggregate Q) k, agg_num_elements g < k -> agg_query bs g k = Panic.
Proof.
  split.
  - exists [Assembler 1 2 4 (pair 0); Assembler 1 3 4 (pair 1)]. eexists _, _. split; [reflexivity|]. split; [repeat constructor|vm_compute; reflexivity].
  - intros Q bs g k Hk. unfold agg_query, find_assembler. by rewrite decide_False by lia.
Qed.
Print Assumptions C32_bound_refuted.

Example C32_example :
  let asms := [Assembler 2 2 9 (pair 0); Assembler 2 1 9 (pair 1); Assembler 2 3 9 (pair 2)] in
  (exists g, from_assemblers asms = Ok g /\ map (agg_query std_bsearch g) (seq 0 6) = map Ok (elements asms) /\
     map (agg_query probe_bsearch g) (seq 0 6) = map Ok (elements asms)) /\
  elements asms = [(0, 0); (0, 1); (1, 0); (2, 0); (2, 1); (2, 2)].
Proof. split; [eexists; split_and!; vm_compute; reflexivity|reflexivity]. Qed.

(** * C33 *)
Section WorkspaceProofs.
  Context {V : Type}.
  Implicit Types (ws : list (nat * V)).

  Lemma rposition_Some ty ws i : rposition ty ws = Some i -> exists v, ws !! i = Some (ty, v).
  Proof.
    revert i. induction ws as [|[t v] ws IH]; intros i; cbn [rposition]; [done|]. destruct (rposition ty ws) as [j|].
    - intros [= <-]. cbn. by apply IH.
    - cbn [fst]. case_decide; [|done]. intros [= <-]. subst. by exists v.
  Qed.
  Lemma rposition_None ty ws : rposition ty ws = None -> ty ∉ map fst ws.
  Proof.
    induction ws as [|[t v] ws IH]; cbn [rposition map]; [intros _; apply not_elem_of_nil|].
    destruct (rposition ty ws); [done|]. cbn [fst]. case_decide; [done|]. intros _. apply not_elem_of_cons. split; [done|by apply IH].
  Qed.

  Lemma swap_perm ws i j ws' : swap_slots ws i j = Some ws' -> ws' ≡ₚ ws /\ ws' !! i = ws !! j /\ (ws !! i) = (ws' !! j) /\ length ws' = length ws.
  Proof.
    unfold swap_slots. destruct (ws !! i) as [x|] eqn:Ei; [|done]. destruct (ws !! j) as [y|] eqn:Ej; [|done]. intros [= <-].
    pose proof (lookup_lt_Some _ _ _ Ei). pose proof (lookup_lt_Some _ _ _ Ej).
    split_and!.
    - destruct (decide (i = j)) as [->|Hne].
      + rewrite Ei in Ej. injection Ej as ->. by rewrite !list_insert_id by (rewrite ?list_insert_id by done; done).
      + apply Permutation_inj. split; [by rewrite !insert_length|].
        exists (fun k => if decide (k = i) then j else if decide (k = j) then i else k). split.
        * intros a b. repeat case_decide; subst; try congruence; intros ?; subst; congruence.
        * intros k. repeat case_decide; subst.
          -- rewrite list_lookup_insert by (by rewrite insert_length). done.
          -- rewrite list_lookup_insert_ne by done. by rewrite list_lookup_insert.
          -- rewrite !list_lookup_insert_ne by done. done.
    - by rewrite list_lookup_insert by (by rewrite insert_length).
    - destruct (decide (i = j)) as [->|Hne]; [rewrite list_lookup_insert by (by rewrite insert_length); congruence|].
      rewrite list_lookup_insert_ne by done. by rewrite list_lookup_insert.
    - by rewrite !insert_length.
  Qed.

  Lemma represents_perm ws ws' s : ws ≡ₚ ws' -> represents ws s -> represents ws' s.
  Proof.
    intros Hp [Hnd H]. split; [by rewrite <- Hp|]. intros ty v. rewrite <- H. by rewrite Hp.
  Qed.

  Lemma get_spec ty create write ws s : represents ws s ->
    exists ws', get_or_insert_with ty create write ws = Ok (default create (s ty), ws') /\
      represents ws' (store_set s ty (write (default create (s ty)))) /\ last ws' = Some (ty, write (default create (s ty))).
  Proof.
    intros [Hnd Hin]. unfold get_or_insert_with.
    assert (Hfound : exists idx ws1, match rposition ty ws with Some idx => (idx, ws) | None => (length ws, ws ++ [(ty, create)]) end = (idx, ws1) /\
      ws1 !! idx = Some (ty, default create (s ty)) /\ NoDup (map fst ws1) /\ (forall t v, t ≠ ty -> ((t, v) ∈ ws1 <-> s t = Some v))).
    { destruct (rposition ty ws) as [idx|] eqn:Er.
      - apply rposition_Some in Er as [v Hv]. assert (s ty = Some v) as Hs by (apply Hin; by eapply elem_of_list_lookup_2).
        exists idx, ws. rewrite Hs. done.
      - apply rposition_None in Er. assert (s ty = None) as Hs.
        { destruct (s ty) as [v|] eqn:Es; [|done]. apply Hin in Es. exfalso. apply Er. apply elem_of_list_fmap. by exists (ty, v). }
        exists (length ws), (ws ++ [(ty, create)]). rewrite Hs. split_and!; [done|..].
        + by rewrite list_lookup_middle.
        + rewrite map_app. apply NoDup_app. split; [done|]. split; [|apply NoDup_singleton]. cbn. intros x Hx ->%elem_of_list_singleton. done.
        + intros t v Hne. rewrite elem_of_app, elem_of_list_singleton, <- Hin. split; [intros [?|[= -> ->]]; done|by left]. }
    destruct Hfound as (idx & ws1 & -> & Hidx & Hnd1 & Hin1).
    pose proof (lookup_lt_Some _ _ _ Hidx) as Hlt. destruct (lookup_lt_is_Some_2 ws1 (length ws1 - 1)) as [y Hy]; [lia|].
    destruct (swap_slots ws1 idx (length ws1 - 1)) as [ws2|] eqn:Esw; [|unfold swap_slots in Esw; by rewrite Hidx, Hy in Esw].
    destruct (swap_perm _ _ _ _ Esw) as (Hp & _ & El & Hlen). rewrite Hidx in El. rewrite <- El. rewrite decide_True by done.
    eexists. split; [reflexivity|]. set (v := default create (s ty)) in *.
    assert (Hsplit : exists pre, ws2 = pre ++ [(ty, v)] /\ length pre = length ws1 - 1).
    { exists (take (length ws1 - 1) ws2). split; [|rewrite take_length; lia].
      rewrite <- (take_drop_middle _ _ _ (eq_sym El)) at 1. rewrite drop_ge by lia. done. }
    destruct Hsplit as (pre & -> & Hpre). rewrite <- Hpre. rewrite <- (Nat.add_0_r (length pre)), insert_app_r. cbn [insert list_insert].
    assert (Hnd2 : NoDup (map fst (pre ++ [(ty, v)]))) by (by rewrite Hp).
    split; [split|].
    - rewrite map_app in Hnd2 |- *. done.
    - intros t w. unfold store_set. case_decide as Ht.
      + subst. rewrite elem_of_app, elem_of_list_singleton. split; [|intros [= ->]; by right]. intros [Hc|[= ->]]; [|done].
        exfalso. rewrite map_app in Hnd2. apply NoDup_app in Hnd2 as (_ & Hd & _). apply (Hd ty); [|by left]. apply elem_of_list_fmap. by exists (ty, w).
      + rewrite <- Hin1 by done. rewrite <- Hp. rewrite !elem_of_app, !elem_of_list_singleton. split; (intros [?|[= ? ?]]; [by left|done]).
    - by rewrite last_snoc.
  Qed.

  Lemma run_spec h : forall ws s, represents ws s ->
    exists ws', run_accesses ws h = Ok ((store_run s h).1, ws') /\ represents ws' (store_run s h).2.
  Proof.
    induction h as [|a h IH]; intros ws s Hr; cbn [run_accesses store_run]; [by exists ws|].
    destruct (get_spec (acc_type a) (acc_create a) (acc_write a) ws s Hr) as (ws1 & E & Hr1 & _). rewrite E. cbn [obind fst snd].
    destruct (IH ws1 _ Hr1) as (ws2 & E2 & Hr2). rewrite E2. cbn [obind fst snd]. by exists ws2.
  Qed.
End WorkspaceProofs.

(** C33: every history of accesses to a fresh workspace succeeds, sees exactly the values that one independent cell per type
    would hold, and ends with one slot per type. *)
Theorem C33_workspace : forall V (h : list (access V)), exists ws',
  run_accesses [] h = Ok ((store_run (fun _ => None) h).1, ws') /\ represents ws' (store_run (fun _ => None) h).2.
Proof.
  intros V h. apply run_spec. split; [constructor|]. intros ty v. split; [intros []%elem_of_nil|done].
Qed.
Print Assumptions C33_workspace.

(** C33: the slot just used is the last one, where the next access to the same type finds it first. *)
Theorem C33_last : forall V (h : list (access V)) a ws, run_accesses [] h = Ok ws ->
  exists v ws', get_or_insert_with (acc_type a) (acc_create a) (acc_write a) ws.2 = Ok (v, ws') /\
    last ws' = Some (acc_type a, acc_write a v) /\ rposition (acc_type a) ws' = Some (length ws' - 1).
Proof.
  intros V h a ws Hr. destruct (C33_workspace V h) as (ws1 & E & Hrep). rewrite E in Hr. injection Hr as <-. cbn [snd].
  destruct (get_spec (acc_type a) (acc_create a) (acc_write a) _ _ Hrep) as (ws2 & E2 & _ & Hlast). eexists _, ws2. split; [done|]. split; [done|].
  apply last_Some in Hlast as (pre & ->). rewrite app_length. cbn. rewrite Nat.add_sub. clear. induction pre as [|x pre IH]; cbn [rposition app].
  - cbn. by rewrite decide_True.
  - by rewrite IH.
Qed.
Print Assumptions C33_last.

Example C33_example :
  let h := [Access 1 10 (Nat.add 1); Access 2 20 (Nat.add 2); Access 1 10 (Nat.add 1); Access 3 30 id; Access 2 0 id; Access 1 0 id] in
  run_accesses [] h = Ok ([10; 20; 11; 30; 22; 12], [(3, 30); (2, 22); (1, 12)]).
Proof. reflexivity. Qed.

(** * C34 *)
Section TableProofs.
  Context {P W D : Type}.
  Implicit Types (rs : list (rule P W D)).

  Lemma copy_ok {A} (l : list A) n : copy_checked (Some l) n = if decide (n = length l) then Ok l else Panic.
  Proof. unfold copy_checked. repeat case_decide; congruence. Qed.

  Lemma consistent_rules (ps : list (list P)) (ws : list (list W)) (ds : list (list D)) :
    rules_consistent ps ws ds <-> exists rs, ps = points_of rs /\ ws = weights_of rs /\ ds = data_of rs /\ Forall rule_ok rs.
  Proof.
    split.
    - intros (H1 & H2 & HF). exists (zip (zip ps ws) ds).
      assert (Hl : length (zip ps ws) = length ps) by (rewrite zip_with_length_l; lia).
      split_and!.
      + unfold points_of. rewrite <- (map_map fst fst). rewrite fst_zip by lia. by rewrite fst_zip by lia.
      + unfold weights_of. rewrite <- (map_map fst snd). rewrite fst_zip by lia. by rewrite snd_zip by lia.
      + unfold data_of. by rewrite snd_zip by lia.
      + apply (Forall_impl _ _ _ HF). by intros [[p w] d].
    - intros (rs & -> & -> & -> & HF). unfold rules_consistent, points_of, weights_of, data_of. rewrite !map_length. split_and!; [done..|].
      induction HF as [|[[p w] d] rs H HF IH]; cbn; constructor; done.
  Qed.

  Lemma serves_rule size data quad e (r : rule P W D) : rule_ok r ->
    size e = Ok (length r.1.2) -> (forall n, data e n = copy_checked (Some r.2) n) ->
    (forall n m, quad e n m = let! p := copy_checked (Some r.1.1) n in let! w := copy_checked (Some r.1.2) m in Ok (p, w)) ->
    serves size data quad e (Some r).
  Proof.
    destruct r as [[p w] d]. intros [H1 H2] Hs Hd Hq. cbn [fst snd] in *. setoid_rewrite copy_ok in Hd. split_and!.
    - done.
    - rewrite Hd. by rewrite decide_True by lia.
    - rewrite Hq, !copy_ok. by rewrite !decide_True by lia.
    - intros n Hn. rewrite Hd. by rewrite decide_False by lia.
    - intros n m Hnm. rewrite Hq, !copy_ok. destruct (decide (n = length p)); [|done]. cbn [obind]. rewrite decide_False by lia. done.
  Qed.
End TableProofs.

(** C34: a general table is constructed exactly from consistent rules, and serves for every element the rule registered for it. *)
Theorem C34_general : forall P W D (ps : list (list P)) (ws : list (list W)) (ds : list (list D)),
  (forall t, general_from ps ws ds = Ok t -> exists rs, ps = points_of rs /\ ws = weights_of rs /\ ds = data_of rs /\
     forall e, serves (general_size t) (general_data t) (general_quadrature t) e (rs !! e)) /\
  ((exists t, general_from ps ws ds = Ok t) <-> exists rs, ps = points_of rs /\ ws = weights_of rs /\ ds = data_of rs /\ Forall rule_ok rs).
Proof.
  intros P W D ps ws ds. split.
  - intros t. unfold general_from. case_decide as Hc; [|done]. intros [= <-]. apply consistent_rules in Hc as (rs & -> & -> & -> & HF).
    exists rs. split_and!; [done..|]. intros e. destruct (rs !! e) as [r|] eqn:Er.
    + rewrite Forall_lookup in HF. apply serves_rule; [by eapply HF|..];
        intros; unfold general_size, general_data, general_quadrature, points_of, weights_of, data_of; cbn [gen_points gen_weights gen_data];
        by rewrite !list_lookup_fmap, Er.
    + cbn. unfold general_size, general_data, general_quadrature, points_of, weights_of, data_of. cbn [gen_points gen_weights gen_data].
      rewrite !list_lookup_fmap, Er. done.
  - rewrite <- consistent_rules. unfold general_from. case_decide; split; try done; [by eexists|intros [? ?]; done].
Qed.
Print Assumptions C34_general.

(** C34: a uniform table serves its rule for every element. *)
Theorem C34_uniform : forall P W D (p : list P) (w : list W) (d : list D),
  (forall t, uniform_from p w d = Ok t -> forall e, serves (uniform_size t) (uniform_data t) (uniform_quadrature t) e (Some (p, w, d))) /\
  ((exists t, uniform_from p w d = Ok t) <-> length p = length w /\ length p = length d).
Proof.
  intros P W D p w d. split.
  - intros t. unfold uniform_from. repeat case_decide; try done. intros [= <-] e. apply serves_rule; try done.
    unfold uniform_size. cbn. congruence.
  - unfold uniform_from. repeat case_decide; (split; [intros [? ?]; try done|intros [? ?]; try done; try by eexists]).
Qed.
Print Assumptions C34_uniform.

(** C34: a uniform table from a quadrature rule and one datum. *)
Theorem C34_uniform_data : forall P W D (p : list P) (w : list W) (d : D),
  (forall t, uniform_from_quadrature (w, p) d = Ok t ->
     forall e, serves (uniform_size t) (uniform_data t) (uniform_quadrature t) e (Some (p, w, repeat d (length p)))) /\
  ((exists t, uniform_from_quadrature (w, p) d = Ok t) <-> length p = length w).
Proof.
  intros P W D p w d. unfold uniform_from_quadrature. destruct (C34_uniform P W D p w (repeat d (length w))) as [H1 H2]. split.
  - intros t Ht e. pose proof (proj1 H2 (ex_intro _ _ Ht)) as [-> _]. by apply H1.
  - rewrite H2. rewrite repeat_length. tauto.
Qed.
Print Assumptions C34_uniform_data.

(** C34: a compact table is constructed exactly from consistent rules and a map into them, and serves for element e the rule the
    map assigns to it. *)
Theorem C34_compact : forall P W D (ps : list (list P)) (ws : list (list W)) (ds : list (list D)) (m : list nat),
  (forall t, compact_from ps ws ds m = Ok t -> exists rs, ps = points_of rs /\ ws = weights_of rs /\ ds = data_of rs /\
     forall e, serves (compact_size t) (compact_data t) (compact_quadrature t) e (r ← m !! e; rs !! r)) /\
  ((exists t, compact_from ps ws ds m = Ok t) <->
     (exists rs, ps = points_of rs /\ ws = weights_of rs /\ ds = data_of rs /\ Forall rule_ok rs) /\ Forall (fun r => r < length ps) m).
Proof.
  intros P W D ps ws ds m. split.
  - intros t. unfold compact_from. case_decide as Hc; [|done]. case_decide as Hm; [|done]. intros [= <-].
    apply consistent_rules in Hc as (rs & -> & -> & -> & HF).
    exists rs. split_and!; [done..|]. intros e. destruct (m !! e) as [i|] eqn:Em; cbn [mbind option_bind].
    + rewrite Forall_lookup in Hm. pose proof (Hm _ _ Em) as Hi. unfold points_of in Hi. rewrite map_length in Hi.
      destruct (lookup_lt_is_Some_2 _ _ Hi) as [r Er]. rewrite Er. rewrite Forall_lookup in HF. pose proof (HF _ _ Er) as Hr. apply serves_rule; [done|..];
        intros; unfold compact_size, compact_data, compact_quadrature, compact_rule, points_of, weights_of, data_of; cbn [com_points com_weights com_data com_map];
        rewrite Em; cbn [obind]; rewrite !list_lookup_fmap, Er; cbn; [|done..]. by destruct Hr as [-> _].
    + cbn. unfold compact_size, compact_data, compact_quadrature, compact_rule. cbn [com_map]. rewrite Em. done.
  - rewrite <- consistent_rules. unfold compact_from. repeat case_decide; split; try tauto; try (by eexists); intros [? ?]; done.
Qed.
Print Assumptions C34_compact.

(** C34: a compact table behaves like the general table in which the rule of every element is written out. *)
Theorem C34_compact_general : forall P W D (rs : list (rule P W D)) m t, compact_from (points_of rs) (weights_of rs) (data_of rs) m = Ok t ->
  exists es g, Forall2 (fun r x => rs !! r = Some x) m es /\ general_from (points_of es) (weights_of es) (data_of es) = Ok g /\
  forall e, compact_size t e = general_size g e /\ (forall n, compact_data t e n = general_data g e n) /\
    (forall n k, compact_quadrature t e n k = general_quadrature g e n k).
Proof.
  intros P W D rs m t. unfold compact_from. case_decide as Hc; [|done]. case_decide as Hm; [|done]. intros [= <-].
  assert (He : exists es, Forall2 (fun r x => rs !! r = Some x) m es).
  { unfold points_of in Hm. rewrite map_length in Hm. clear Hc. induction Hm as [|r m Hr Hm (es & IH)]; [by exists []|].
    destruct (lookup_lt_is_Some_2 _ _ Hr) as [x Hx]. exists (x :: es). by constructor. }
  destruct He as [es He]. exists es.
  apply consistent_rules in Hc as (rs' & E1 & E2 & E3 & HF).
  assert (rs' = rs) as ->.
  { clear -E1 E2 E3. revert rs' E1 E2 E3. induction rs as [|[[p w] d] rs IH]; intros [|[[p' w'] d'] rs'] E1 E2 E3; try done.
    cbn in *. injection E1 as -> E1. injection E2 as -> E2. injection E3 as -> E3. f_equal. by apply IH. }
  assert (HFe : Forall rule_ok es).
  { apply Forall_lookup. intros i x Hx. destruct (Forall2_lookup_r _ _ _ _ _ He Hx) as (r & _ & Hr). rewrite Forall_lookup in HF. by eapply HF. }
  eexists. split; [done|]. split.
  { unfold general_from. rewrite decide_True; [reflexivity|]. apply consistent_rules. by exists es. }
  intros e. unfold compact_size, compact_data, compact_quadrature, compact_rule, general_size, general_data, general_quadrature, points_of, weights_of, data_of.
  cbn [com_points com_weights com_data com_map gen_points gen_weights gen_data]. rewrite !list_lookup_fmap.
  destruct (m !! e) as [r|] eqn:Em.
  - destruct (Forall2_lookup_l _ _ _ _ _ He Em) as (x & Hx & Hr). cbn [obind]. rewrite !list_lookup_fmap, Hx, Hr. cbn.
    rewrite Forall_lookup in HFe. destruct (HFe _ _ Hx) as [-> _]. done.
  - assert (es !! e = None) as ->; [|done]. apply lookup_ge_None. rewrite <- (Forall2_length _ _ _ He). by apply lookup_ge_None.
Qed.
Print Assumptions C34_compact_general.

(** C34: the data attached to a table without data have the right shape, so only the points and weights have to be consistent. *)
Theorem C34_no_data : forall P W (ps : list (list P)) (ws : list (list W)) m,
  ((exists t, general_from_points_and_weights ps ws = Ok t) <-> Forall2 (fun p w => length p = length w) ps ws) /\
  ((exists t, compact_from_points_and_weights ps ws m = Ok t) <->
    Forall2 (fun p w => length p = length w) ps ws /\ Forall (fun r => r < length ps) m).
Proof.
  intros P W ps ws m. assert (H : rules_consistent ps ws (unit_data ws) <-> Forall2 (fun p w => length p = length w) ps ws).
  { unfold rules_consistent, unit_data. rewrite map_length. split.
    - intros (H1 & _ & HF). revert ws H1 HF. induction ps as [|p ps IH]; intros [|w ws] H1 HF; try done. cbn in *.
      apply Forall_cons in HF as [[? _] HF]. constructor; [done|]. apply IH; [lia|done].
    - intros HF. pose proof (Forall2_length _ _ _ HF) as Hl. split_and!; [done..|]. clear Hl.
      induction HF as [|p w ps ws Hp HF IH]; cbn; constructor; [rewrite repeat_length; lia|]. by apply IH. }
  unfold general_from_points_and_weights, compact_from_points_and_weights, general_from, compact_from. rewrite <- H. split.
  - case_decide; split; try done; [by eexists|by intros [? ?]].
  - repeat case_decide; (split; [intros [? ?]|intros [? ?]]); try done; by eexists.
Qed.
Print Assumptions C34_no_data.

Example C34_example :
  let rs : list (rule nat nat bool) := [([1; 2], [5; 6], [true; false]); ([3], [7], [true])] in
  exists t, compact_from (points_of rs) (weights_of rs) (data_of rs) [1; 0; 1] = Ok t /\
    compact_size t 1 = Ok 2 /\ compact_quadrature t 1 2 2 = Ok ([1; 2], [5; 6]) /\ compact_data t 2 1 = Ok [true] /\
    compact_quadrature t 1 1 1 = Panic /\ compact_size t 3 = Panic /\
    compact_from (points_of rs) (weights_of rs) (data_of rs) [2] = Panic.
Proof. eexists. split_and!; vm_compute; reflexivity. Qed.

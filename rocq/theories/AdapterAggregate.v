(** Proofs about aggregates of relabelled assemblers: several bodies in one system. *)
From stdpp Require Import base list list_numbers sorting.
From Coq Require Import Lia.
From Verif Require Import Prelude NestedVecModel NestedVecSpec NestedVecProofs ParadisModel ParadisSpec
  ParadisProofs ColoringProofs VectorModel VectorSpec VectorProofs VectorAgree
  CsrModel CsrSpec CsrProofs CsrSerial CsrAlgebra TableModel TableSpec PropTable AdapterModel AdapterSpec AdapterProofs.

Lemma collect_map_ok {E A} (l : list A) : collect (map (@Ok E A) l) = Ok l.
Proof. induction l as [|x l IH]; [done|]. cbn. by rewrite IH. Qed.
Lemma collect_ok_inv {E A} (l : list (outcome E A)) xs : collect l = Ok xs -> l = map Ok xs.
Proof.
  revert xs. induction l as [|[x|e|] l IH]; intros xs; cbn; intros H; [by simplify_eq| |done|done].
  destruct (collect l) as [ys| |]; cbn in H; simplify_eq. cbn. f_equal. by apply IH.
Qed.
Lemma collect_first {E A} (good : list A) (x : outcome E A) rest : collect (map Ok good ++ x :: rest) =
  match x with Ok y => let! ys := collect rest in Ok (good ++ y :: ys) | Err e => Err e | Panic => Panic end.
Proof.
  induction good as [|y good IH]; cbn.
  - destruct x; [|done..]. cbn. by destruct (collect rest).
  - rewrite IH. destruct x; [|done..]. by destruct (collect rest).
Qed.
Lemma collect_app {E A} (l1 l2 : list (outcome E A)) : collect (l1 ++ l2) = let! a := collect l1 in let! b := collect l2 in Ok (a ++ b).
Proof.
  induction l1 as [|[x|e|] l1 IH]; cbn; [by destruct (collect l2)| |done|done].
  rewrite IH. destruct (collect l1); cbn; [|done..]. by destruct (collect l2).
Qed.

Section Agg.
  Context {T E : Type} (add : T -> T -> T) (zero : T) (umax : nat).

  Lemma assemble_vector_collect (a : @vec_asm T E) ls vs ws : has_conn (va_conn a) ls -> nodes_in_range (ca_nodes (va_conn a)) ls -> has_vecs a ls vs ->
    match collect vs with
    | Ok good => exists out, (assemble_vector add zero umax ws a).2 = Ok out /\
        sums_to add (ca_sdim (va_conn a)) ls good (replicate (ca_sdim (va_conn a) * ca_nodes (va_conn a)) zero) out
    | Err e => (assemble_vector add zero umax ws a).2 = Err e
    | Panic => (assemble_vector add zero umax ws a).2 = Panic
    end.
  Proof.
    intros Hc Hr Hv. unfold assemble_vector.
    destruct (assemble_vector_into_spec add zero umax a ls vs ws (replicate (ca_sdim (va_conn a) * ca_nodes (va_conn a)) zero) Hc Hr Hv) as (ws' & out & r & good & -> & Hs & Hr');
      [by rewrite replicate_length|]. destruct r as [[]|e|].
    - rewrite Hr', collect_map_ok. exists out. split; [done|]. destruct Hv as [Hl _]. rewrite Hr', map_length in Hl. by rewrite take_ge in Hs by lia.
    - destruct Hr' as [rest ->]. by rewrite collect_first.
    - destruct Hr' as [rest ->]. by rewrite collect_first.
  Qed.

  Lemma agg_lookup {Q V} (P : Q -> list nat -> V -> Prop) (asms : list (assembler Q)) (lss : list (list (list nat))) (vss : list (list V)) :
    Forall3 (fun a ls vs => length ls = asm_num_elements a /\ length vs = length ls /\
      forall i ns v, ls !! i = Some ns -> vs !! i = Some v -> P (asm_query a i) ns v) asms lss vss ->
    length (concat lss) = length (elements asms) /\ length (concat vss) = length (concat lss) /\
    forall k ns v, concat lss !! k = Some ns -> concat vss !! k = Some v -> exists q, elements asms !! k = Some q /\ P q ns v.
  Proof.
    induction 1 as [|a ls vs asms lss vss (Hl & Hv & HP) _ (IH1 & IH2 & IH3)]; [split; [done|split; [done|intros k ns v Hk; by apply lookup_nil_Some in Hk || (cbn in Hk; by rewrite lookup_nil in Hk)]]|].
    rewrite elements_cons. cbn [concat]. rewrite !app_length, map_length, seq_length. split; [lia|]. split; [lia|].
    intros k ns v Hk Hk'. destruct (decide (k < length ls)) as [Hlt|Hge].
    - rewrite lookup_app_l in Hk by lia. rewrite lookup_app_l in Hk' by lia. exists (asm_query a k). split; [|by apply (HP k)].
      rewrite lookup_app_l by (rewrite map_length, seq_length; lia). rewrite list_lookup_fmap, lookup_seq_lt by lia. done.
    - rewrite lookup_app_r in Hk by lia. rewrite lookup_app_r in Hk' by lia. rewrite Hv in Hk'. destruct (IH3 _ _ _ Hk Hk') as (q & Hq & HPq). exists q. split; [|done].
      rewrite lookup_app_r by (rewrite map_length, seq_length; lia). rewrite map_length, seq_length. by rewrite <- Hl.
  Qed.

  Lemma agg_vec_contract bs (asms : list (@vec_asm T E)) g lss vss s : bsearch_contract bs ->
    from_assemblers (map vec_component asms) = Ok g -> Forall (fun a => ca_sdim (va_conn a) = s /\ 0 < ca_elems (va_conn a)) asms ->
    Forall3 (fun a ls vs => has_conn (va_conn a) ls /\ has_vecs a ls vs) asms lss vss ->
    has_conn (va_conn (agg_vec bs g)) (concat lss) /\ has_vecs (agg_vec bs g) (concat lss) (concat vss).
  Proof.
    intros Hbs Hg Hs H3. destruct (from_assemblers_ok _ _ Hg) as (E1 & E2 & _).
    assert (Hpos : Forall (fun a => 0 < asm_num_elements a) (map vec_component asms)).
    { apply Forall_fmap. eapply Forall_impl; [exact Hs|]. intros a [_ ?]. done. }
    assert (Hsd : agg_sdim g = s).
    { destruct (C32_construction _ (map vec_component asms)) as [Hc _]. destruct (Hc g Hg) as [_ HF]. destruct asms as [|a asms]; [done|].
      cbn [map] in HF. apply Forall_inv in HF as [HF _]. apply Forall_inv in Hs as [Hs _]. cbn in HF. congruence. }
    set (P := fun (q : nat * (list nat -> list nat) * (list T -> outcome E (list T))) (ns : list nat) (v : outcome E (list T)) =>
      q.1.1 = length ns /\ (forall buf, length buf = length ns -> q.1.2 buf = ns) /\
      (forall buf, length buf = s * length ns -> q.2 buf = v) /\ (forall x, v = Ok x -> length x = s * length ns)).
    destruct (agg_lookup P (map vec_component asms) lss vss) as (L1 & L2 & L3).
    { clear -H3 Hs. induction H3 as [|a ls vs asms lss vss [[H1 H1'] [H2 H2']] _ IH]; [constructor|]. apply Forall_cons in Hs as [[Hsa _] Hs]. cbn [map]. constructor; [|by apply IH].
      cbn. split; [done|]. split; [done|]. intros i ns v Hi Hv. destruct (H1' i ns Hi). destruct (H2' i ns v Hi Hv) as [H2a H2b]. rewrite Hsa in H2a, H2b. done. }
    assert (HQ : forall k ns v, concat lss !! k = Some ns -> concat vss !! k = Some v -> exists q, agg_query bs g k = Ok q /\ P q ns v).
    { intros k ns v Hk Hk'. destruct (L3 k ns v Hk Hk') as (q & Hq & HP). exists q. split; [|done]. by apply (C32_dispatch _ bs (map vec_component asms) g). }
    split.
    - split; [cbn; congruence|]. intros i ns Hi. destruct (lookup_lt_is_Some_2 (concat vss) i) as [v Hv]; [rewrite L2; by eapply lookup_lt_Some|].
      destruct (HQ i ns v Hi Hv) as (q & Hq & HP1 & HP2 & _). cbn. by rewrite Hq.
    - split; [done|]. intros i ns v Hi Hv. destruct (HQ i ns v Hi Hv) as (q & Hq & _ & _ & HP3 & HP4). unfold yields_vec. cbn. rewrite Hq, Hsd. done.
  Qed.

  Lemma agg_mat_contract bs (asms : list (@mat_asm T E)) g lss vss s : bsearch_contract bs ->
    from_assemblers (map mat_component asms) = Ok g -> Forall (fun a => ca_sdim (ma_conn a) = s /\ 0 < ca_elems (ma_conn a)) asms ->
    Forall3 (fun a ls vs => has_conn (ma_conn a) ls /\ has_mats a ls vs) asms lss vss ->
    has_conn (ma_conn (agg_mat bs g)) (concat lss) /\ has_mats (agg_mat bs g) (concat lss) (concat vss).
  Proof.
    intros Hbs Hg Hs H3. destruct (from_assemblers_ok _ _ Hg) as (E1 & E2 & _).
    assert (Hpos : Forall (fun a => 0 < asm_num_elements a) (map mat_component asms)).
    { apply Forall_fmap. eapply Forall_impl; [exact Hs|]. intros a [_ ?]. done. }
    assert (Hsd : agg_sdim g = s).
    { destruct (C32_construction _ (map mat_component asms)) as [Hc _]. destruct (Hc g Hg) as [_ HF]. destruct asms as [|a asms]; [done|].
      cbn [map] in HF. apply Forall_inv in HF as [HF _]. apply Forall_inv in Hs as [Hs _]. cbn in HF. congruence. }
    set (P := fun (q : nat * (list nat -> list nat) * (list (list T) -> outcome E (list (list T)))) (ns : list nat) (v : outcome E (list (list T))) =>
      q.1.1 = length ns /\ (forall buf, length buf = length ns -> q.1.2 buf = ns) /\
      (forall buf, square (s * length ns) buf -> q.2 buf = v) /\ (forall A, v = Ok A -> square (s * length ns) A)).
    destruct (agg_lookup P (map mat_component asms) lss vss) as (L1 & L2 & L3).
    { clear -H3 Hs. induction H3 as [|a ls vs asms lss vss [[H1 H1'] [H2 H2']] _ IH]; [constructor|]. apply Forall_cons in Hs as [[Hsa _] Hs]. cbn [map]. constructor; [|by apply IH].
      cbn. split; [done|]. split; [done|]. intros i ns v Hi Hv. destruct (H1' i ns Hi). destruct (H2' i ns v Hi Hv) as [H2a H2b]. rewrite Hsa in H2a, H2b. done. }
    assert (HQ : forall k ns v, concat lss !! k = Some ns -> concat vss !! k = Some v -> exists q, agg_query bs g k = Ok q /\ P q ns v).
    { intros k ns v Hk Hk'. destruct (L3 k ns v Hk Hk') as (q & Hq & HP). exists q. split; [|done]. by apply (C32_dispatch _ bs (map mat_component asms) g). }
    split.
    - split; [cbn; congruence|]. intros i ns Hi. destruct (lookup_lt_is_Some_2 (concat vss) i) as [v Hv]; [rewrite L2; by eapply lookup_lt_Some|].
      destruct (HQ i ns v Hi Hv) as (q & Hq & HP1 & HP2 & _). cbn. by rewrite Hq.
    - split; [done|]. intros i ns v Hi Hv. destruct (HQ i ns v Hi Hv) as (q & Hq & _ & _ & HP3 & HP4). unfold yields_mat. cbn. rewrite Hq, Hsd. done.
  Qed.

  (** Bodies placed one after the other from node [off] on, in a system of [N] nodes. *)
  Fixpoint place_lists (off : nat) (lss : list (nat * list (list nat))) : list (list (list nat)) :=
    match lss with
    | [] => []
    | (n, ls) :: lss => map (map (fun i => off + i)) ls :: place_lists (off + n) lss
    end.

  Lemma place_range off lss : Forall (fun b => nodes_in_range b.1 b.2) lss ->
    forall ns k, ns ∈ concat (place_lists off lss) -> k ∈ ns -> off <= k < off + sum_list_with fst lss.
  Proof.
    intros H. revert off. induction H as [|[n ls] lss Hr _ IH]; intros off ns k; cbn [place_lists concat]; [intros Hn; by apply elem_of_nil in Hn|].
    intros Hn Hk. cbn [sum_list_with fst]. apply elem_of_app in Hn as [Hn|Hn].
    - apply elem_of_list_fmap in Hn as (ns' & -> & Hn). apply elem_of_list_fmap in Hk as (k' & -> & Hk). specialize (Hr ns' k' Hn Hk). cbn in Hr. lia.
    - specialize (IH (off + n) ns k Hn Hk). lia.
  Qed.

  Lemma place_contribs s off lss (vss : list (list (list T))) : 0 < s -> Forall (fun b => nodes_in_range b.1 b.2) lss ->
    forall outs, Forall3 (fun b vs out => length vs = length b.2 /\ sums_to add s b.2 vs (replicate (s * b.1) zero) out) lss vss outs ->
    length (concat outs) = s * sum_list_with fst lss /\
    forall d, d < s * sum_list_with fst lss ->
      concat outs !! d = Some (foldl add zero (contribs s (concat (place_lists off lss)) (concat vss) (s * off + d))).
  Proof.
    intros Hs HF outs H3. revert off. induction H3 as [|[n ls] vs out lss vss outs [Hl [Hlen Hsum]] _ IH]; intros off.
    - split; [cbn; lia|]. intros d Hd. cbn in Hd. lia.
    - apply Forall_cons in HF as [Hr HF]. cbn [fst snd] in *. rewrite replicate_length in Hlen. cbn [sum_list_with concat place_lists fst]. specialize (IH HF).
      split; [rewrite app_length; destruct (IH 0); lia|].
      intros d Hd. rewrite contribs_app by (by rewrite map_length). destruct (decide (d < s * n)) as [Hlt|Hge].
      + rewrite lookup_app_l by lia. rewrite (contribs_none s (concat (place_lists (off + n) lss))).
        2:{ intros ns Hns Hin. pose proof (place_range _ _ HF ns _ Hns Hin) as [Hlo _]. apply (Nat.mul_le_mono_l _ _ s) in Hlo.
            pose proof (Nat.mul_div_le (s * off + d) s ltac:(lia)). lia. }
        rewrite app_nil_r. assert (Ed : d = s * (d / s) + d mod s) by (apply Nat.div_mod; lia).
        assert (Hm : d mod s < s) by (apply Nat.mod_upper_bound; lia). assert (Hi : d / s < n) by (apply Nat.div_lt_upper_bound; lia).
        replace (s * off + d) with (s * (off + d / s) + d mod s) by lia.
        rewrite (contribs_inj (fun i => off + i) s ls vs n) by (try done; intros; lia). rewrite <- Ed. apply Hsum. by apply lookup_replicate.
      + rewrite lookup_app_r by lia. rewrite contribs_none.
        2:{ intros ns Hns Hin. apply elem_of_list_fmap in Hns as (ns' & -> & Hns). apply elem_of_list_fmap in Hin as (k & Hk & Hin).
            specialize (Hr ns' k Hns Hin). pose proof (Nat.div_mod (s * off + d) s ltac:(lia)) as Hdm. rewrite Hk in Hdm.
            pose proof (Nat.mod_upper_bound (s * off + d) s ltac:(lia)). nia. }
        cbn [app]. destruct (IH (off + n)) as [_ IHd]. rewrite Hlen. rewrite IHd by lia. do 3 f_equal. lia.
  Qed.

  Lemma place_mat_contribs s (lss : list (nat * list (list nat))) : 0 < s -> Forall (fun b => nodes_in_range b.1 b.2) lss ->
    forall (Ass : list (list (list (list T)))) off k l n ls As n' ls' i c j d, Forall2 (fun b As => length As = length b.2) lss Ass -> lss !! k = Some (n, ls) -> Ass !! k = Some As ->
      lss !! l = Some (n', ls') -> i < n -> j < n' -> c < s -> d < s ->
      mat_contribs s (concat (place_lists off lss)) (concat Ass)
        (s * (off + sum_list_with fst (take k lss) + i) + c) (s * (off + sum_list_with fst (take l lss) + j) + d) =
      if decide (k = l) then mat_contribs s ls As (s * i + c) (s * j + d) else [].
  Proof.
    intros Hs HF. induction HF as [|[n0 ls0] lss Hr HF IH]; intros Ass off k l n ls As n' ls' i c j d H2 Hk HA Hl Hi Hj Hc Hd; [by rewrite lookup_nil in Hk|].
    apply Forall2_cons_inv_l in H2 as (As0 & Ass' & Hl0 & H2 & ->). cbn [fst snd] in *. cbn [place_lists concat].
    unfold mat_contribs at 1. rewrite zip_with_app, concat_app by (by rewrite map_length). fold (mat_contribs (T:=T)).
    change (concat (zip_with (fun ns A => mat_contrib s ns A ?r ?c) ?x ?y)) with (mat_contribs s x y r c).
    assert (Hhead : forall r c, r / s < off + n0 -> mat_contribs s (concat (place_lists (off + n0) lss)) (concat Ass') r c = []).
    { intros r c' Hr'. apply mat_contribs_none. intros ns Hns Hin. pose proof (place_range _ _ HF ns _ Hns Hin). lia. }
    assert (Hhead' : forall r c, c / s < off + n0 -> mat_contribs s (concat (place_lists (off + n0) lss)) (concat Ass') r c = []).
    { intros r c' Hr'. apply mat_contribs_none. intros ns Hns _ Hin. pose proof (place_range _ _ HF ns _ Hns Hin). lia. }
    assert (Hown : forall ns x, ns ∈ map (map (fun i => off + i)) ls0 -> x ∈ ns -> x < off + n0).
    { intros ns x Hns Hx. apply elem_of_list_fmap in Hns as (ns' & -> & Hns). apply elem_of_list_fmap in Hx as (y & -> & Hx). specialize (Hr _ _ Hns Hx). lia. }
    destruct k as [|k]; cbn in Hk, HA.
    - injection Hk as -> ->. injection HA as ->. rewrite Hhead by (rewrite (proj1 (div_dof s _ c Hc)); cbn; lia). rewrite app_nil_r.
      destruct l as [|l]; cbn in Hl.
      + injection Hl as -> ->. rewrite decide_True by done. cbn [take sum_list_with]. rewrite Nat.add_0_r.
        apply (mat_contribs_inj (fun i => off + i) s ls' As n'); try done. intros; lia.
      + rewrite decide_False by lia. apply mat_contribs_none. intros ns Hns _ Hin. rewrite (proj1 (div_dof s _ d Hd)) in Hin.
        specialize (Hown _ _ Hns Hin). cbn in Hown. lia.
    - rewrite (mat_contribs_none s (map (map (fun i => off + i)) ls0)).
      2:{ intros ns Hns Hin. rewrite (proj1 (div_dof s _ c Hc)) in Hin. specialize (Hown _ _ Hns Hin). cbn in Hown. lia. }
      cbn [app]. destruct l as [|l]; cbn in Hl.
      + rewrite decide_False by lia. apply Hhead'. rewrite (proj1 (div_dof s _ d Hd)). injection Hl as -> ->. cbn. lia.
      + cbn [take sum_list_with fst]. rewrite !Nat.add_assoc. rewrite (IH Ass' (off + n0) k l n ls As n' ls' i c j d) by done.
        destruct (decide (k = l)) as [->|Hne]; [by rewrite !decide_True|]. by rewrite !decide_False by lia.
  Qed.
End Agg.

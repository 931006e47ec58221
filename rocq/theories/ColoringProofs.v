(** Proofs about the greedy colouring. *)
From stdpp Require Import base list list_numbers sorting.
From Coq Require Import Lia ZArith.
From Verif Require Import Prelude NestedVecModel NestedVecSpec NestedVecProofs
  ParadisModel ParadisSpec ParadisProofs.

(** What a colour must look like, relative to the family [ls]. *)
Definition good_color (ls : list (list nat)) (c : dsubs) : Prop :=
  exists sub, Forall2 (fun i s => ls !! i = Some s) (ds_labels c) sub /\
    ds_subsets c = nv_of_lists sub /\ pairwise_disjoint sub /\
    ds_labels c <> [] /\ StronglySorted lt (ds_labels c) /\
    ds_max c = foldl max_upd None (concat sub).

Definition greedy_colors (ls : list (list nat)) (current : list nat) (colors : list dsubs) : Prop :=
  concat (map ds_labels colors) ≡ₚ current /\
  Forall (good_color ls) colors /\
  (forall k c i, colors !! k = Some c -> i ∈ ds_labels c ->
     forall k', k' < k -> exists c' j s t, colors !! k' = Some c' /\ j ∈ ds_labels c' /\ j < i /\
       ls !! i = Some s /\ ls !! j = Some t /\ share s t).

(** Table facts. *)
Definition table_inv (table : list Z) (color : Z) (marked : list nat) : Prop :=
  (forall n c, table !! n = Some c -> (c <= color)%Z) /\
  (forall n, table !! n = Some color <-> n ∈ marked).

Lemma vec_resize_lookup {A} (l : list A) n x i : length l <= n ->
  vec_resize l n x !! i = if decide (i < length l) then l !! i else if decide (i < n) then Some x else None.
Proof.
  intros Hn. unfold vec_resize.
  rewrite take_ge by (rewrite app_length, replicate_length; lia).
  destruct (decide (i < length l)); [by rewrite lookup_app_l|].
  rewrite lookup_app_r by lia. destruct (decide (i < n)).
  - apply lookup_replicate_2. lia.
  - apply lookup_ge_None_2. rewrite replicate_length. lia.
Qed.

Lemma vec_resize_length {A} (l : list A) n x : length (vec_resize l n x) = n.
Proof. unfold vec_resize. rewrite take_length, app_length, replicate_length. lia. Qed.

Lemma table_mark_inv table color marked n : (0 <= color)%Z ->
  table_inv table color marked -> table_inv (table_mark table color n) color (n :: marked).
Proof.
  intros Hc [H1 H2]. unfold table_mark. destruct (table !! n) as [c0|] eqn:E.
  - assert (n < length table) by (by eapply lookup_lt_Some). split.
    + intros m c Hm. apply list_lookup_insert_Some in Hm as [(-> & <- & _)|[_ Hm]]; [lia|eauto].
    + intros m. rewrite list_lookup_insert_Some, elem_of_cons, <- H2. split.
      * intros [(-> & _)|[_ Hm]]; [by left|by right].
      * intros [->|Hm]; [by left|]. destruct (decide (n = m)) as [->|Hne]; [by left|by right].
  - apply lookup_ge_None in E.
    assert (length (vec_resize table (2 * n + 1) (-1)%Z) = 2 * n + 1) as Hlen by apply vec_resize_length.
    split.
    + intros m c Hm. apply list_lookup_insert_Some in Hm as [(-> & <- & _)|[_ Hm]]; [lia|].
      rewrite vec_resize_lookup in Hm by lia. destruct (decide (m < length table)); [eauto|].
      destruct (decide (m < 2 * n + 1)); simplify_eq. lia.
    + intros m. rewrite list_lookup_insert_Some, elem_of_cons, <- H2, Hlen.
      rewrite vec_resize_lookup by lia. split.
      * intros [(-> & _)|[Hne Hm]]; [by left|]. right.
        destruct (decide (m < length table)); [done|]. destruct (decide (m < 2 * n + 1)); simplify_eq; lia.
      * intros [->|Hm]; [left; split_and!; lia|]. right.
        assert (m < length table) by (by eapply lookup_lt_Some).
        rewrite decide_True by done. split; [lia|done].
Qed.

Lemma table_fold_inv s color : (0 <= color)%Z -> forall m table marked, table_inv table color marked ->
  exists table', foldl (fun '(m, tb) n =>
       (match m with Some c => Some (max n c) | None => Some n end, table_mark tb color n)) (m, table) s
    = (foldl max_upd m s, table') /\
    table_inv table' color (rev s ++ marked).
Proof.
  intros Hc. induction s as [|n s IH]; intros m table marked H; simpl; [by exists table|].
  destruct (IH (max_upd m n) (table_mark table color n) (n :: marked)) as (tb & Heq & Hinv).
  { by apply table_mark_inv. }
  exists tb. split.
  - rewrite <- Heq. f_equal. f_equal. destruct m; simpl; [|done]. by rewrite Nat.max_comm.
  - by rewrite <- app_assoc.
Qed.

Lemma is_blocked_spec table color marked s : table_inv table color marked ->
  is_blocked table color s = true <-> share s marked.
Proof.
  intros [_ H2]. unfold is_blocked. rewrite existsb_exists. split.
  - intros (n & Hn & Hb). apply elem_of_list_In in Hn. exists n. split; [done|].
    apply H2. destruct (table !! n) as [c|]; [|done]. apply Z.eqb_eq in Hb. by subst.
  - intros (n & Hn & Hm). exists n. split; [by apply elem_of_list_In|].
    apply H2 in Hm. rewrite Hm. apply Z.eqb_refl.
Qed.

Lemma pairwise_disjoint_snoc sub s :
  pairwise_disjoint sub -> ~ share s (concat sub) -> pairwise_disjoint (sub ++ [s]).
Proof.
  intros Hp Hs i j a b Hij Hi Hj (n & Ha & Hb).
  apply lookup_app_Some in Hi as [Hi|[Hgi Hi]]; apply lookup_app_Some in Hj as [Hj|[Hgj Hj]].
  - apply (Hp i j a b Hij Hi Hj). by exists n.
  - apply list_lookup_singleton_Some in Hj as [_ <-]. apply Hs. exists n. split; [done|].
    apply concat_elem. exists a. split; [by eapply elem_of_list_lookup_2|done].
  - apply list_lookup_singleton_Some in Hi as [_ <-]. apply Hs. exists n. split; [done|].
    apply concat_elem. exists b. split; [by eapply elem_of_list_lookup_2|done].
  - apply list_lookup_singleton_Some in Hi as [? _]. apply list_lookup_singleton_Some in Hj as [? _]. lia.
Qed.

(** Invariant of the inner loop after having processed [pre]. *)
Definition pass_inv (ls : list (list nat)) (color : Z) (pre : list nat) (st : pass_state) : Prop :=
  exists sub marked, Forall2 (fun i s => ls !! i = Some s) (ps_labels st) sub /\
    ps_subsets st = nv_of_lists sub /\ pairwise_disjoint sub /\
    ps_max st = foldl max_upd None (concat sub) /\
    table_inv (ps_table st) color marked /\ (forall n, n ∈ marked <-> n ∈ concat sub) /\
    ps_labels st ++ ps_postponed st ≡ₚ pre /\
    StronglySorted lt (ps_labels st) /\ StronglySorted lt (ps_postponed st) /\
    (pre <> [] -> ps_labels st <> []) /\
    (forall i, i ∈ ps_postponed st -> exists j s t, j ∈ ps_labels st /\ j < i /\
        ls !! i = Some s /\ ls !! j = Some t /\ share s t).

Lemma StronglySorted_snoc (l : list nat) x :
  StronglySorted lt l -> Forall (fun y => y < x) l -> StronglySorted lt (l ++ [x]).
Proof.
  induction l as [|a l IH]; intros Hs Hf; simpl; [by repeat constructor|].
  inversion_clear Hs as [|?? Hs' Ha]. inversion_clear Hf as [|?? Hax Hf']. constructor; [auto|].
  apply Forall_app. split; [done|]. by repeat constructor.
Qed.

Lemma pass_step_inv ls (subsets : nvec nat) color pre st i s : (0 <= color)%Z ->
  (forall k, nv_get subsets k = ls !! k) -> ls !! i = Some s ->
  Forall (fun y => y < i) pre ->
  pass_inv ls color pre st ->
  exists st', pass_step subsets color st i = Ok st' /\ pass_inv ls color (pre ++ [i]) st'.
Proof.
  intros Hc Hget Hi Hlt (sub & marked & Hf2 & Hsub & Hpd & Hmax & Htb & Hmk & Hperm & Hs1 & Hs2 & Hne & Hpost).
  unfold pass_step. rewrite Hget, Hi.
  assert (Forall (fun y => y < i) (ps_labels st) /\ Forall (fun y => y < i) (ps_postponed st)) as [Hl1 Hl2].
  { rewrite <- Hperm in Hlt. by apply Forall_app in Hlt. }
  destruct (is_blocked (ps_table st) color s) eqn:Eb.
  - apply (is_blocked_spec _ _ marked s Htb) in Eb as (n & Hn & Hm).
    eexists. split; [done|]. exists sub, marked. split_and!; simpl; try done.
    + rewrite app_assoc, Hperm. done.
    + by apply StronglySorted_snoc.
    + intros _ Hnil. rewrite Hnil in Hf2. inversion Hf2; subst. apply Hmk in Hm. simpl in Hm.
      by apply elem_of_nil in Hm.
    + intros i' Hi'. apply elem_of_app in Hi' as [Hi'|Hi']; [eauto|].
      apply elem_of_list_singleton in Hi' as ->.
      apply Hmk, concat_elem in Hm as (t & Ht & Hnt).
      apply elem_of_list_lookup in Ht as [k Hk].
      destruct (Forall2_lookup_r _ _ _ _ _ Hf2 Hk) as (j & Hj & Hjt).
      exists j, s, t. split_and!; try done.
      * by eapply elem_of_list_lookup_2.
      * rewrite Forall_forall in Hl1. apply Hl1. by eapply elem_of_list_lookup_2.
      * by exists n.
  - destruct (table_fold_inv s color Hc (ps_max st) (ps_table st) marked Htb) as (tb & -> & Htb').
    eexists. split; [done|]. exists (sub ++ [s]), (rev s ++ marked). split_and!; simpl.
    + apply Forall2_app; [done|]. by repeat constructor.
    + rewrite Hsub. unfold nv_of_lists. by rewrite foldl_app.
    + apply pairwise_disjoint_snoc; [done|]. intros (n & Hn & Hm).
      assert (is_blocked (ps_table st) color s = true) as Hb; [|congruence].
      apply (is_blocked_spec _ _ marked s Htb). exists n. split; [done|]. by apply Hmk.
    + rewrite concat_app, foldl_app. simpl. rewrite app_nil_r. by rewrite Hmax.
    + done.
    + intros n. rewrite elem_of_app, concat_app, elem_of_app. simpl. rewrite app_nil_r.
      rewrite Hmk. rewrite !elem_of_list_In, <- in_rev. tauto.
    + rewrite <- app_assoc. rewrite (Permutation_app_comm [i]). by rewrite app_assoc, Hperm.
    + by apply StronglySorted_snoc.
    + done.
    + intros _ Hnil. by destruct (ps_labels st).
    + intros i' Hi'. destruct (Hpost i' Hi') as (j & s' & t & Hj & Hrest).
      exists j, s', t. split; [apply elem_of_app; by left|done].
Qed.

Lemma pass_fold_inv ls (subsets : nvec nat) color : (0 <= color)%Z ->
  (forall k, nv_get subsets k = ls !! k) -> forall cur pre st,
  StronglySorted lt (pre ++ cur) -> Forall (fun i => i < length ls) cur ->
  pass_inv ls color pre st ->
  exists st', ofold (pass_step subsets color) st cur = Ok st' /\ pass_inv ls color (pre ++ cur) st'.
Proof.
  intros Hc Hget. induction cur as [|i cur IH]; intros pre st Hss Hin Hinv; simpl.
  - exists st. by rewrite app_nil_r.
  - inversion_clear Hin as [|?? Hi Hin'].
    destruct (lookup_lt_is_Some_2 ls i Hi) as [s Hs].
    destruct (pass_step_inv ls subsets color pre st i s) as (st1 & -> & Hinv1); try done.
    { clear -Hss. induction pre as [|a pre IHp]; [done|]. simpl in Hss.
      inversion_clear Hss as [|?? Hss' Hf]. constructor; [|auto].
      apply Forall_app in Hf as [_ Hf]. by inversion_clear Hf. }
    replace (pre ++ i :: cur) with ((pre ++ [i]) ++ cur) in * by (by rewrite <- app_assoc).
    by apply IH.
Qed.

Lemma good_color_try_from ls c ord : hash_order ord -> good_color ls c ->
  try_from_disjoint_subsets ord (ds_subsets c) (ds_labels c) = Ok c.
Proof.
  intros Hord (sub & Hf2 & Hsub & Hpd & Hne & Hss & Hmax).
  unfold try_from_disjoint_subsets.
  rewrite Hsub. pose proof (rep_canon sub) as Hrep. rewrite <- canon_of_lists in Hrep.
  assert (nv_len (nv_of_lists sub) = length sub) as Hlen by (by destruct Hrep).
  rewrite Hlen. rewrite decide_True by (symmetry; by eapply Forall2_length).
  rewrite (rep_iter _ _ Hrep).
  destruct (check_disjoint_spec ord sub Hord 0 None []) as [_ H2].
  rewrite H2; [|done|intros; apply not_elem_of_nil].
  destruct c as [m sb lb]; simpl in *. by subst.
Qed.

Lemma coloring_loop_spec ls (subsets : nvec nat) ord debug : hash_order ord ->
  (forall k, nv_get subsets k = ls !! k) ->
  forall fuel table color current colors,
  length current <= fuel -> (0 <= color)%Z ->
  (forall n c, table !! n = Some c -> (c < color)%Z) ->
  (color + Z.of_nat (length current) <= i32_max)%Z ->
  StronglySorted lt current -> Forall (fun i => i < length ls) current ->
  exists new, coloring_loop ord debug fuel subsets table color current colors = Some (Ok (colors ++ new)) /\
    greedy_colors ls current new.
Proof.
  intros Hord Hget. induction fuel as [|fuel IH]; intros table color current colors Hfuel Hc Htab Hbound Hss Hin.
  - destruct current; [|simpl in Hfuel; lia]. exists []. simpl. rewrite app_nil_r. split; [done|].
    split_and!; [done|constructor|]. intros k c i Hk. done.
  - destruct current as [|i0 current'] eqn:Ecur.
    { exists []. simpl. rewrite app_nil_r. split; [done|]. split_and!; [done|constructor|]. intros k c i Hk. done. }
    rewrite <- Ecur in *.
    assert (current <> []) as Hnil by (by subst).
    assert (coloring_loop ord debug (S fuel) subsets table color current colors =
       match ofold (pass_step subsets color) (PassState table nv_new [] None []) current with
          | Err e => Some (Err e)
          | Panic => Some Panic
          | Ok st =>
              if debug && match try_from_disjoint_subsets ord (ps_subsets st) (ps_labels st) with
                          | Ok _ => false | _ => true end
              then Some Panic
              else
                match from_disjoint_subsets_unchecked (ps_subsets st) (ps_labels st) (ps_max st) with
                | Ok c =>
                    if Z.ltb color i32_max then
                      coloring_loop ord debug fuel subsets (ps_table st) (color + 1)%Z
                        (ps_postponed st) (colors ++ [c])
                    else Some Panic
                | _ => Some Panic
                end
          end) as ->.
    { rewrite Ecur. done. }
    destruct (pass_fold_inv ls subsets color Hc Hget current [] (PassState table nv_new [] None [])) as (st & -> & Hinv).
    { done. } { done. }
    { exists [], []. split; [constructor|]. split; [done|]. split; [done|]. split; [done|].
      split; [split|].
      - intros n c Hn. specialize (Htab n c Hn). lia.
      - intros n. split; intros Hn; [specialize (Htab n _ Hn); lia|by apply elem_of_nil in Hn].
      - split_and!; simpl; try done; try constructor.
        intros i Hi. by apply elem_of_nil in Hi. }
    simpl in Hinv.
    destruct Hinv as (sub & marked & Hf2 & Hsub & Hpd & Hmax & Htb & Hmk & Hperm & Hs1 & Hs2 & Hne & Hpost).
    set (c := DSubs (ps_max st) (ps_subsets st) (ps_labels st)).
    assert (good_color ls c) as Hgood.
    { exists sub. split_and!; simpl; try done. auto. }
    pose proof (good_color_try_from ls c ord Hord Hgood) as Htry. simpl in Htry. rewrite Htry.
    rewrite andb_false_r.
    assert (from_disjoint_subsets_unchecked (ps_subsets st) (ps_labels st) (ps_max st) = Ok c) as ->.
    { unfold from_disjoint_subsets_unchecked. unfold try_from_disjoint_subsets in Htry.
      destruct (decide _); [done|discriminate Htry]. }
    assert (length (ps_postponed st) < length current) as Hlt.
    { rewrite <- Hperm. rewrite app_length. specialize (Hne Hnil). destruct (ps_labels st); [done|simpl; lia]. }
    assert (color < i32_max)%Z as Hltc by (unfold i32_max in *; lia).
    apply Z.ltb_lt in Hltc. rewrite Hltc.
    destruct (IH (ps_table st) (color + 1)%Z (ps_postponed st) (colors ++ [c])) as (new & -> & Hg).
    { lia. } { lia. }
    { intros n c' Hn. destruct Htb as [Htb _]. specialize (Htb n c' Hn). lia. }
    { lia. } { done. }
    { rewrite <- Hperm in Hin. by apply Forall_app in Hin as [_ Hin]. }
    exists (c :: new). rewrite <- app_assoc. split; [done|].
    destruct Hg as (Hg1 & Hg2 & Hg3). split_and!.
    + simpl. by rewrite Hg1.
    + by constructor.
    + intros k c' i Hk Hi k' Hk'. destruct k as [|k]; [lia|]. simpl in Hk.
      destruct k' as [|k']; simpl.
      * assert (i ∈ ps_postponed st) as Hip.
        { rewrite <- Hg1. apply concat_elem. exists (ds_labels c'). split; [|done].
          apply elem_of_list_fmap. exists c'. split; [done|]. by eapply elem_of_list_lookup_2. }
        destruct (Hpost i Hip) as (j & s & t & Hj & Hji & Hs & Ht & Hsh). exists c, j, s, t. done.
      * apply (Hg3 k c' i Hk Hi k'). lia.
Qed.

Lemma seq_strongly_sorted k n : StronglySorted lt (seq k n).
Proof.
  revert k. induction n as [|n IH]; intros k; simpl; constructor; [done|].
  apply Forall_forall. intros x Hx. apply elem_of_seq in Hx. lia.
Qed.

Lemma coloring_spec ls (subsets : nvec nat) ord debug : hash_order ord -> holds subsets ls ->
  (Z.of_nat (length ls) <= i32_max)%Z ->
  exists colors, sequential_greedy_coloring ord debug subsets = Some (Ok colors) /\
    greedy_colors ls (seq 0 (length ls)) colors.
Proof.
  intros Hord (Hlen & Hget & _) Hb. unfold sequential_greedy_coloring. rewrite Hlen.
  destruct (coloring_loop_spec ls subsets ord debug Hord Hget (length ls) [] 0%Z (seq 0 (length ls)) []) as (new & Hn & Hg).
  - by rewrite seq_length.
  - lia.
  - intros n c Hn. by rewrite lookup_nil in Hn.
  - by rewrite seq_length.
  - apply seq_strongly_sorted.
  - apply Forall_forall. intros x Hx. apply elem_of_seq in Hx. lia.
  - exists new. done.
Qed.

(** Number of colours. *)
Lemma greedy_color_rank ls cur colors k c i : greedy_colors ls cur colors ->
  colors !! k = Some c -> i ∈ ds_labels c -> NoDup (concat (map ds_labels colors)) ->
  k <= length (earlier_conflicts ls i).
Proof.
  intros (_ & _ & Hg) Hk Hi Hnd.
  (* choose one conflicting subset per earlier colour *)
  assert (forall n, n <= k -> exists js, length js = n /\ NoDup js /\
     (forall j, j ∈ js -> j ∈ earlier_conflicts ls i /\ exists k' c', k' < n /\ colors !! k' = Some c' /\ j ∈ ds_labels c')) as H.
  { induction n as [|n IH]; intros Hn.
    - exists []. split_and!; [done|constructor|]. intros j Hj. by apply elem_of_nil in Hj.
    - destruct IH as (js & Hlen & Hndj & Hjs); [lia|].
      destruct (Hg k c i Hk Hi n) as (c' & j & s & t & Hc' & Hj & Hji & Hs & Ht & (x & Hxs & Hxt)); [lia|].
      exists (j :: js). split_and!.
      + simpl. by f_equal.
      + constructor; [|done]. intros Hjn. destruct (Hjs j Hjn) as (_ & k' & c'' & Hk' & Hc'' & Hj').
        (* j in two different colours contradicts NoDup *)
        clear -Hnd Hk' Hc'' Hj' Hc' Hj. revert k' n Hk' Hc'' Hc'. induction colors as [|c0 colors IH]; intros k' n Hk' Hc'' Hc'; [done|].
        simpl in Hnd. apply NoDup_app in Hnd as (Hn0 & Hd & Hn1). destruct n as [|n]; [lia|]. simpl in Hc'.
        destruct k' as [|k']; simpl in Hc''.
        * simplify_eq. apply (Hd j); [done|]. apply concat_elem. exists (ds_labels c'). split; [|done].
          apply elem_of_list_fmap. exists c'. split; [done|by eapply elem_of_list_lookup_2].
        * eapply (IH Hn1 k' n); try done. lia.
      + intros j' Hj'. apply elem_of_cons in Hj' as [->|Hj'].
        * split; [|exists n, c'; split_and!; [lia|done|done]].
          unfold earlier_conflicts. apply elem_of_list_filter. split; [|apply elem_of_seq; lia].
          rewrite Hs, Ht. simpl. apply Exists_exists. by exists x.
        * destruct (Hjs j' Hj') as (He & k' & c'' & Hk' & Hrest). split; [done|]. exists k', c''. split; [lia|done]. }
  destruct (H k ltac:(lia)) as (js & Hlen & Hndj & Hjs). rewrite <- Hlen.
  apply submseteq_length. apply NoDup_submseteq; [done|]. intros j Hj. by apply Hjs.
Qed.

Lemma greedy_colors_count ls n colors : greedy_colors ls (seq 0 n) colors -> length colors <= n.
Proof.
  intros (Hp & Hf & _). rewrite <- (seq_length n 0). rewrite <- Hp.
  clear Hp. induction colors as [|c colors IH]; simpl; [lia|].
  inversion_clear Hf as [|?? (sub & _ & _ & _ & Hne & _) Hf']. rewrite app_length.
  specialize (IH Hf'). destruct (ds_labels c); [done|simpl; lia].
Qed.

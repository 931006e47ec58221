(** Parallel sparsity pattern assembly: every schedule gives the serial pattern. *)
From stdpp Require Import base list list_numbers sorting relations.
From Coq Require Import Lia ZArith.
From Verif Require Import Prelude NestedVecModel NestedVecSpec NestedVecProofs ParadisModel ParadisSpec
  ParadisProofs ColoringProofs ParadisSafety VectorModel VectorSpec VectorProofs VectorParProofs VectorColors VectorAgree
  CsrModel CsrSpec CsrProofs CsrSerial CsrPattern.

Set Default Proof Using "Type".

(** ** Batches *)
Lemma batches_concat size n : 0 < size -> concat (batches size n) = seq 0 n.
Proof.
  intros Hs. unfold batches.
  assert (forall m, concat (map (fun k => seq (size * k) (n `min` (size * k + size) - size * k)) (seq 0 m)) = seq 0 (n `min` (size * m))) as H.
  { induction m as [|m IH].
    - simpl. by rewrite Nat.mul_0_r, Nat.min_0_r.
    - rewrite seq_S, map_app, concat_app, IH. simpl. rewrite app_nil_r.
      destruct (decide (n <= size * m)) as [Hn|Hn].
      + replace (n `min` (size * m + size) - size * m) with 0 by lia. rewrite app_nil_r. f_equal. lia.
      + rewrite (Nat.min_r n (size * m)) by lia. rewrite <- seq_app. f_equal. lia. }
  rewrite H. f_equal. apply Nat.min_l.
  pose proof (Nat.div_mod (n + size - 1) size ltac:(lia)) as Hd.
  pose proof (Nat.mod_upper_bound (n + size - 1) size ltac:(lia)). lia.
Qed.

Lemma batches_in_range size n b i : 0 < size -> b ∈ batches size n -> i ∈ b -> i < n.
Proof.
  intros Hs Hb Hi. assert (i ∈ seq 0 n) as H; [|apply elem_of_seq in H; lia].
  rewrite <- (batches_concat size n Hs). apply concat_elem. by exists b.
Qed.

(** ** Critical sections *)
Definition elem_actions (ns : list nat) : list (nat * list nat) := map (fun a => (a, ns)) ns.

Lemma batch_actions_spec umax c ls buf batch : has_conn c ls -> (forall i, i ∈ batch -> i < length ls) ->
  batch_actions umax c buf batch = concat (map (fun i => elem_actions (default [] (ls !! i))) batch).
Proof.
  intros [Hl Hc] Hb. unfold batch_actions.
  assert (forall acts buf, (foldl (fun '(acts, buf) i =>
      let buf := ca_populate c i (vec_resize buf (ca_count c i) umax) in
      (acts ++ map (fun a => (a, buf)) buf, buf)) (acts, buf) batch).1 =
      acts ++ concat (map (fun i => elem_actions (default [] (ls !! i))) batch)) as H; [|exact (H [] buf)].
  induction batch as [|i batch IH]; intros acts buf'; simpl; [by rewrite app_nil_r|].
  destruct (lookup_lt_is_Some_2 ls i) as [ns Hns]; [apply Hb; by left|]. destruct (Hc i ns Hns) as [H1 H2].
  rewrite H1, H2 by apply vec_resize_length. rewrite IH by (intros; apply Hb; by right). rewrite Hns. simpl. by rewrite <- app_assoc.
Qed.

Lemma all_actions size umax c ls bufs : 0 < size -> has_conn c ls ->
  concat (imap (fun k b => batch_actions umax c (bufs k) b) (batches size (ca_elems c))) = concat (map elem_actions ls).
Proof.
  intros Hs Hc. rewrite <- (proj1 Hc).
  assert (forall bs (bufs : nat -> list nat), (forall b i, b ∈ bs -> i ∈ b -> i < length ls) ->
    concat (imap (fun k b => batch_actions umax c (bufs k) b) bs) = concat (map (fun i => elem_actions (default [] (ls !! i))) (concat bs))) as H.
  { induction bs as [|b bs IH]; intros bufs' Hb; simpl; [done|].
    rewrite map_app, concat_app. f_equal.
    - apply batch_actions_spec; [done|]. intros i Hi. eapply Hb; [by left|done].
    - apply (IH (fun k => bufs' (S k))). intros b' i Hb' Hi. eapply Hb; [by right|done]. }
  rewrite H.
  - rewrite batches_concat by done. f_equal. apply list_eq. intros i. rewrite !list_lookup_fmap.
    destruct (decide (i < length ls)) as [Hi|Hi].
    + rewrite lookup_seq_lt by done. simpl. destruct (lookup_lt_is_Some_2 ls i Hi) as [ns ->]. done.
    + by rewrite lookup_seq_ge, (lookup_ge_None_2 ls) by lia.
  - intros b i. by apply batches_in_range.
Qed.

Lemma elem_of_actions ls a ns : (a, ns) ∈ concat (map elem_actions ls) <-> ns ∈ ls /\ a ∈ ns.
Proof.
  rewrite concat_elem. split.
  - intros (l & Hl & Ha). apply elem_of_list_fmap in Hl as (ns' & -> & Hns). apply elem_of_list_fmap in Ha as (a' & [= -> ->] & Ha). done.
  - intros [Hns Ha]. exists (elem_actions ns). split; [by apply elem_of_list_fmap_1|]. by apply (elem_of_list_fmap_1 (fun a => (a, ns))).
Qed.

Definition lock_inv (n : nat) (all : list (nat * list nat)) (st : list (list nat) * list (list (nat * list nat))) : Prop :=
  exists past, past ++ concat st.2 ≡ₚ all /\ sets_hold n (fun a b => exists ns, (a, ns) ∈ past /\ b ∈ ns) st.1.

Lemma lock_step_inv n all st st' : lock_inv n all st -> lock_step st st' ->
  lock_inv n all st' /\ length (concat st.2) = S (length (concat st'.2)).
Proof.
  intros (past & Hp & Hs) Hstep. destruct Hstep as [sets ths k a ns rest s Hk Ha]. simpl in *.
  assert (concat ths ≡ₚ (a, ns) :: concat (<[k:=rest]> ths)) as Hc.
  { rewrite <- (take_drop_middle ths k _ Hk) at 1. rewrite insert_take_drop by (by eapply lookup_lt_Some).
    rewrite !concat_app. simpl. by rewrite <- Permutation_middle. }
  split; [|by rewrite Hc]. exists (past ++ [(a, ns)]). simpl. split.
  - rewrite <- Hp, Hc. by rewrite <- app_assoc.
  - eapply sets_hold_ext; [|exact (sets_hold_insert n _ sets a ns s Hs Ha)]. intros x y _. simpl.
    setoid_rewrite elem_of_app. setoid_rewrite elem_of_list_singleton. naive_solver.
Qed.

Lemma lock_steps_inv n all st st' : lock_inv n all st -> rtc lock_step st st' -> lock_inv n all st'.
Proof. intros Hi Hs. induction Hs as [|x y z Hxy _ IH]; [done|]. apply IH. by eapply lock_step_inv. Qed.

Lemma lock_inv_start n ths : lock_inv n (concat ths) (replicate n [], ths).
Proof.
  exists []. split; [done|]. split; [apply replicate_length|]. intros a s Ha. simpl in Ha. apply lookup_replicate in Ha as [-> _].
  split; [constructor|]. intros b. rewrite elem_of_nil. setoid_rewrite elem_of_nil. naive_solver.
Qed.

Lemma concat_all_nil {A} (ths : list (list A)) : Forall (fun t => t = []) ths -> concat ths = [].
Proof. induction 1 as [|t ths -> _ IH]; simpl; auto. Qed.

Lemma lock_done n ls sets ths : lock_inv n (concat (map elem_actions ls)) (sets, ths) -> Forall (fun t => t = []) ths ->
  sets_hold n (coupled ls) sets.
Proof.
  intros (past & Hp & Hs) Hd. simpl in *. rewrite (concat_all_nil ths Hd), app_nil_r in Hp.
  eapply sets_hold_ext; [|exact Hs]. intros a b _. simpl. unfold coupled.
  setoid_rewrite Hp. setoid_rewrite elem_of_actions. naive_solver.
Qed.

Lemma lock_exists n all : (forall a ns, (a, ns) ∈ all -> a < n) -> forall m st, lock_inv n all st -> length (concat st.2) = m ->
  exists sets ths, rtc lock_step st (sets, ths) /\ Forall (fun t => t = []) ths.
Proof.
  intros Hr. induction m as [|m IH]; intros [sets ths] Hi Hm; simpl in Hm.
  - exists sets, ths. split; [done|]. rewrite Forall_forall. intros t Ht. destruct t as [|x t]; [done|].
    assert (x ∈ concat ths) as H by (apply concat_elem; exists (x :: t); split; [done|by left]).
    destruct (concat ths); [by apply elem_of_nil in H|done].
  - assert (exists k a ns rest, ths !! k = Some ((a, ns) :: rest)) as (k & a & ns & rest & Hk).
    { clear -Hm. induction ths as [|[|[a ns] t] ths IH]; simpl in Hm; [done| |].
      - destruct (IH Hm) as (k & a & ns & rest & Hk). by exists (S k), a, ns, rest.
      - by exists 0, a, ns, t. }
    destruct (lookup_lt_is_Some_2 sets a) as [s Ha].
    { destruct Hi as (past & Hp & [Hl _]). simpl in *. rewrite Hl. apply (Hr a ns). rewrite <- Hp. apply elem_of_app. right.
      apply concat_elem. exists ((a, ns) :: rest). split; [by eapply elem_of_list_lookup_2|by left]. }
    pose proof (lock_insert sets ths k a ns rest s Hk Ha) as Hstep.
    destruct (lock_step_inv n all _ _ Hi Hstep) as [Hi' Hm']. simpl in Hm'.
    destruct (IH _ Hi') as (sets' & ths' & Hrun & Hd); [simpl; lia|]. exists sets', ths'. split; [|done]. by eapply rtc_l.
Qed.

(** ** Writes *)
Lemma block_updates_app {T} off (xs ys : list T) : block_updates off (xs ++ ys) = block_updates off xs ++ block_updates (off + length xs) ys.
Proof. unfold block_updates. rewrite app_length, seq_app. apply zip_with_app. by rewrite seq_length. Qed.

Lemma block_updates_fst {T} off (xs : list T) : map fst (block_updates off xs) = seq off (length xs).
Proof. unfold block_updates. rewrite fst_zip; [done|]. by rewrite seq_length. Qed.

Lemma row_writes {E} s b e buf ws : e - b = s * length buf ->
  ofold (fun ws '(k, node_j) =>
    if decide (s * (k + 1) <= e - b) then
      Ok (ws ++ map (fun j => (b + (s * k + j), s * node_j + j)) (seq 0 s))
    else Panic) ws (zip (seq 0 (length buf)) buf) = @Ok E _ (ws ++ block_updates b (row_cols s buf)).
Proof.
  intros He. set (f := fun ws '(k, node_j) => _).
  assert (forall l k ws, s * (k + length l) <= e - b ->
    ofold f ws (zip (seq k (length l)) l) = @Ok E _ (ws ++ block_updates (b + s * k) (row_cols s l))) as H.
  { induction l as [|n l IH]; intros k ws' Hk; [simpl; by rewrite app_nil_r|].
    - cbn [length] in Hk. cbn [length seq zip_with ofold]. unfold f at 1. rewrite decide_True by nia. rewrite IH by lia. f_equal. rewrite <- app_assoc. f_equal.
      change (row_cols s (n :: l)) with (map (fun j => s * n + j) (seq 0 s) ++ row_cols s l). rewrite block_updates_app. rewrite map_length, seq_length. f_equal.
      + unfold block_updates. rewrite map_length, seq_length. apply list_eq. intros i. rewrite list_lookup_fmap, lookup_zip_with, list_lookup_fmap.
        destruct (decide (i < s)) as [Hi|Hi].
        * rewrite !lookup_seq_lt by done. simpl. do 2 f_equal. lia.
        * by rewrite !lookup_seq_ge by lia.
      + f_equal. lia. }
  rewrite (H buf 0 ws) by lia. by rewrite Nat.mul_0_r, Nat.add_0_r.
Qed.

Definition row_update (rows : list (list nat)) (r : nat) : list (nat * nat) :=
  block_updates (length (concat (take r rows))) (default [] (rows !! r)).

Lemma batch_writes_spec {E} ord s sets batch : hash_order ord -> (forall i, i ∈ batch -> i < length sets) ->
  batch_writes (E := E) ord s (pattern_offsets s sets).1 sets batch =
  Ok (concat (map (row_update (pattern_rows ord s sets)) (row_cols s batch))).
Proof.
  intros Ho Hb. set (rows := pattern_rows ord s sets). unfold batch_writes.
  rewrite (pattern_offsets_flat ord s sets 0 Ho). fold rows. cbn [fst]. set (f := fun ws '(i, s_i) => _).
  assert (forall i m k ws, i < length sets -> k + m <= s ->
    ofold f ws (s_i ← seq k m; [(i, s_i)]) = @Ok E _ (ws ++ concat (map (row_update rows) (map (fun j => s * i + j) (seq k m))))) as Hin.
  { intros i. induction m as [|m IH]; intros k ws Hi Hk; [simpl; by rewrite app_nil_r|].
    cbn [seq]. rewrite bind_cons. cbn [app ofold]. unfold f at 1.
    assert (length rows = s * length sets) as Hlr by apply pattern_rows_length.
    assert (s * i + k < length rows) as Hr by nia.
    destruct (lookup_lt_is_Some_2 sets i Hi) as [set Hset].
    assert (rows !! (s * i + k) = Some (row_cols s (sort_nat (ord i set)))) as Hrow.
    { unfold rows. rewrite pattern_rows_lookup by lia. rewrite (Nat.mul_comm s), Nat.div_add_l, Nat.div_small, Nat.add_0_r, Hset by lia. done. }
    rewrite Hset, !flat_offs, !decide_True by lia. rewrite row_writes.
    - rewrite IH by lia. f_equal. rewrite <- app_assoc. f_equal. simpl. f_equal. unfold row_update. by rewrite Hrow.
    - rewrite Nat.add_1_r, (take_S_r _ _ _ Hrow), concat_app, app_length. simpl. rewrite app_nil_r, row_cols_length. lia. }
  assert (forall l ws, (forall i, i ∈ l -> i < length sets) -> ofold f ws (i ← l; s_i ← seq 0 s; [(i, s_i)]) =
    @Ok E _ (ws ++ concat (map (row_update rows) (row_cols s l)))) as H; [|exact (H batch [] Hb)].
  induction l as [|i l IH]; intros ws Hl; [simpl; by rewrite app_nil_r|].
  unfold row_cols. rewrite !bind_cons. rewrite ofold_app, Hin by (lia || (apply Hl; by left)).
  rewrite IH by (intros; apply Hl; by right). f_equal. rewrite map_app, concat_app, <- app_assoc. done.
Qed.

Lemma row_cols_seq s n : row_cols s (seq 0 n) = seq 0 (s * n).
Proof.
  unfold row_cols. induction n as [|n IH]; [by rewrite Nat.mul_0_r|].
  rewrite seq_S, bind_app, IH. simpl. rewrite app_nil_r. replace (s * S n) with (s * n + s) by lia. rewrite seq_app. f_equal.
  apply list_eq. intros i. rewrite list_lookup_fmap. destruct (decide (i < s)).
  - by rewrite !lookup_seq_lt by done.
  - by rewrite !lookup_seq_ge by lia.
Qed.

Lemma row_updates_concat rows : concat (map (row_update rows) (seq 0 (length rows))) = block_updates 0 (concat rows).
Proof.
  induction rows as [|row rows IH] using rev_ind; [done|].
  rewrite app_length. simpl length. rewrite seq_app, map_app, !concat_app, block_updates_app. f_equal.
  - rewrite <- IH. f_equal. apply map_ext_in. intros r Hr. apply in_seq in Hr. unfold row_update.
    by rewrite take_app_le, lookup_app_l by lia.
  - simpl. rewrite !app_nil_r. unfold row_update. rewrite take_app, lookup_app_r, Nat.sub_diag by lia. done.
Qed.

Lemma concat_row_cols s bs : row_cols s (concat bs) = concat (map (row_cols s) bs).
Proof. unfold row_cols. induction bs as [|b bs IH]; [done|]. cbn [concat map]. by rewrite bind_app, IH. Qed.

Lemma writes_concat ord size s sets n : 0 < size -> length sets = n ->
  concat (map (fun b => concat (map (row_update (pattern_rows ord s sets)) (row_cols s b))) (batches size n)) =
  block_updates 0 (concat (pattern_rows ord s sets)).
Proof.
  intros Hs Hn. rewrite <- row_updates_concat, pattern_rows_length, Hn, <- row_cols_seq, <- (batches_concat size n Hs), concat_row_cols.
  generalize (batches size n) as bs. induction bs as [|b bs IH]; simpl; [done|]. by rewrite IH, map_app, concat_app.
Qed.

Lemma nodup_pairwise (ls : list (list nat)) : NoDup (concat ls) -> pairwise_disjoint ls.
Proof.
  intros Hnd i j s t Hij Hi Hj (x & Hx1 & Hx2).
  assert (forall i j s t, i < j -> ls !! i = Some s -> ls !! j = Some t -> x ∈ s -> x ∈ t -> False) as H.
  { clear -Hnd. induction ls as [|l ls IH]; intros i j s t Hij Hi Hj Hs Ht; [done|].
    simpl in Hnd. apply NoDup_app in Hnd as (_ & Hd & Hnd). destruct j as [|j]; [lia|]. simpl in Hj.
    destruct i as [|i]; simpl in Hi.
    - simplify_eq. apply (Hd x Hs). apply concat_elem. exists t. split; [by eapply elem_of_list_lookup_2|done].
    - by apply (IH Hnd i j s t); [lia| | | |]. }
  destruct (decide (i < j)); [by apply (H i j s t)|by apply (H j i t s); [lia| | | |]].
Qed.

Lemma store_all xs : forall l1 (l2 : list nat), length l2 = length xs ->
  foldl (upd store) (l1 ++ l2) (block_updates (length l1) xs) = l1 ++ xs.
Proof.
  induction xs as [|x xs IH]; intros l1 l2 Hl.
  - destruct l2; [done|simpl in Hl; lia].
  - destruct l2 as [|y l2]; [simpl in Hl; lia|].
    change (block_updates (length l1) (x :: xs)) with ((length l1, x) :: block_updates (S (length l1)) xs). cbn [foldl].
    assert (upd store (l1 ++ y :: l2) (length l1, x) = (l1 ++ [x]) ++ l2) as ->.
    { unfold upd. cbn [fst snd]. rewrite <- (app_assoc l1). clear. induction l1 as [|z l1 IH]; [done|]. exact (f_equal (cons z) IH). }
    replace (S (length l1)) with (length (l1 ++ [x])) by (rewrite app_length; simpl; lia).
    rewrite IH by (simpl in Hl; lia). by rewrite <- app_assoc.
Qed.

(** ** Determinism *)
Lemma sort_nat_eq l1 l2 : l1 ≡ₚ l2 -> sort_nat l1 = sort_nat l2.
Proof.
  intros Hp. apply (StronglySorted_unique le); [apply (StronglySorted_merge_sort le)|apply (StronglySorted_merge_sort le)|].
  by rewrite !sort_nat_perm.
Qed.

Lemma pattern_rows_eq ord ord' s n R sets sets' : hash_order ord -> hash_order ord' -> sets_hold n R sets -> sets_hold n R sets' ->
  pattern_rows ord s sets = pattern_rows ord' s sets'.
Proof.
  intros Ho Ho' [Hl Hs] [Hl' Hs']. unfold pattern_rows. f_equal. apply list_eq. intros k. rewrite !list_lookup_imap.
  destruct (sets !! k) as [set|] eqn:E1, (sets' !! k) as [set'|] eqn:E2; simpl; [| | |done].
  - do 3 f_equal. apply sort_nat_eq. rewrite (Ho k set), (Ho' k set'). destruct (Hs _ _ E1) as [Hnd Hin], (Hs' _ _ E2) as [Hnd' Hin'].
    apply NoDup_Permutation; [done|done|]. intros b. by rewrite Hin, Hin'.
  - apply lookup_lt_Some in E1. apply lookup_ge_None in E2. lia.
  - apply lookup_lt_Some in E2. apply lookup_ge_None in E1. lia.
Qed.

Lemma assemble_pattern_flat {E} ord umax c ls : hash_order ord -> has_conn c ls -> nodes_in_range (ca_nodes c) ls ->
  exists sets, sets_hold (ca_nodes c) (coupled ls) sets /\
    @assemble_pattern E ord umax c = Ok (flat (pattern_rows ord (ca_sdim c) sets) (ca_sdim c * ca_nodes c)).
Proof.
  intros Ho Hc Hr. unfold assemble_pattern. destruct (node_sets_spec (E := E) umax c ls Hc Hr) as (sets & -> & Hs).
  exists sets. split; [done|]. simpl. exact (finish_flat ord _ sets _ Ho (proj1 Hs)).
Qed.

Section runs.
Context {E : Type} (ord : nat -> list nat -> list nat) (size umax : nat) (c : conn_asm) (ls : list (list nat)).
Hypotheses (Ho : hash_order ord) (Hsz : 0 < size) (Hc : has_conn c ls) (Hr : nodes_in_range (ca_nodes c) ls).

Lemma run_inv bufs sets ths :
  rtc lock_step (replicate (ca_nodes c) [],
     imap (fun k b => batch_actions umax c (bufs k) b) (batches size (ca_elems c))) (sets, ths) ->
  lock_inv (ca_nodes c) (concat (map elem_actions ls)) (sets, ths).
Proof using Hc Hsz.
  intros Hrun. eapply lock_steps_inv; [|exact Hrun]. rewrite <- (all_actions size umax c ls bufs Hsz Hc). apply lock_inv_start.
Qed.

Lemma batch_nodes sets b i : sets_hold (ca_nodes c) (coupled ls) sets -> b ∈ batches size (ca_nodes c) -> i ∈ b -> i < length sets.
Proof using Hsz. intros [-> _] Hb Hi. by eapply batches_in_range. Qed.

(** The tasks of the second phase: one per batch; together they store each position exactly once. *)
Definition batch_task (sets : list (list nat)) (b : list nat) : list (nat * nat) :=
  concat (map (row_update (pattern_rows ord (ca_sdim c) sets)) (row_cols (ca_sdim c) b)).

Lemma tasks_concat sets : sets_hold (ca_nodes c) (coupled ls) sets ->
  concat (map (batch_task sets) (batches size (ca_nodes c))) = block_updates 0 (concat (pattern_rows ord (ca_sdim c) sets)).
Proof using Hsz. intros Hs. exact (writes_concat ord size (ca_sdim c) sets (ca_nodes c) Hsz (proj1 Hs)). Qed.

Lemma tasks_ok sets : sets_hold (ca_nodes c) (coupled ls) sets ->
  let tasks := map (batch_task sets) (batches size (ca_nodes c)) in
  pairwise_disjoint (map (map fst) tasks) /\
  (forall us u, us ∈ tasks -> u ∈ us -> u.1 < length (replicate (pattern_offsets (ca_sdim c) sets).2 0)).
Proof using Ho Hsz.
  intros Hs tasks. pose proof (tasks_concat sets Hs) as Hcat. fold tasks in Hcat.
  assert (concat (map (map fst) tasks) = seq 0 (length (concat (pattern_rows ord (ca_sdim c) sets)))) as Hfst.
  { rewrite <- block_updates_fst, <- Hcat. by rewrite concat_map. }
  split.
  - apply nodup_pairwise. rewrite Hfst. apply NoDup_seq.
  - intros us u Hus Hu. rewrite replicate_length, (pattern_offsets_flat ord _ sets 0 Ho). simpl.
    assert (u.1 ∈ concat (map (map fst) tasks)) as H.
    { apply concat_elem. exists (map fst us). split; [by apply elem_of_list_fmap_1|by apply elem_of_list_fmap_1]. }
    rewrite Hfst in H. apply elem_of_seq in H. lia.
Qed.

Lemma tasks_result sets : sets_hold (ca_nodes c) (coupled ls) sets ->
  foldl (upd store) (replicate (pattern_offsets (ca_sdim c) sets).2 0) (concat (map (batch_task sets) (batches size (ca_nodes c)))) =
  pattern_cols ord (ca_sdim c) sets.
Proof using Ho Hsz.
  intros Hs. rewrite tasks_concat by done. rewrite (pattern_offsets_flat ord _ sets 0 Ho), pattern_cols_concat. cbn [snd].
  apply (store_all _ []). by rewrite replicate_length.
Qed.

Lemma writes_eq sets writes : sets_hold (ca_nodes c) (coupled ls) sets ->
  Forall2 (fun b ws => batch_writes (E := E) ord (ca_sdim c) (pattern_offsets (ca_sdim c) sets).1 sets b = Ok ws)
    (batches size (ca_nodes c)) writes -> writes = map (batch_task sets) (batches size (ca_nodes c)).
Proof using Ho Hsz.
  intros Hs HF. assert (forall b i, b ∈ batches size (ca_nodes c) -> i ∈ b -> i < length sets) as Hb by (intros b i; by apply batch_nodes).
  induction HF as [|b ws bs writes Hbw HF IH]; simpl; [done|].
  rewrite batch_writes_spec in Hbw; [|done|intros; eapply Hb; [by left|done]]. simplify_eq.
  f_equal. apply IH. intros; eapply Hb; [by right|done].
Qed.

Lemma par_pattern_agrees ord' umax' r : hash_order ord' ->
  par_assemble_pattern ord size umax c r -> r = @assemble_pattern E ord' umax' c.
Proof using All.
  intros Ho' Hrun. destruct (assemble_pattern_flat (E := E) ord' umax' c ls Ho' Hc Hr) as (sets0 & Hs0 & ->).
  destruct Hrun as [bufs sets ths writes cols ths' Hlock Hd HF Hmem Hdone|bufs sets ths k a ns rest Hlock Hk Ha|bufs sets ths b Hlock Hd Hb Hw].
  - pose proof (run_inv _ _ _ Hlock) as Hinv. pose proof (lock_done _ _ _ _ Hinv Hd) as Hs.
    rewrite (writes_eq sets writes Hs HF) in Hmem. destruct (tasks_ok sets Hs) as [Hpd Hin].
    rewrite (mem_run_unique store _ _ _ _ Hpd Hin Hmem Hdone), tasks_result by done.
    rewrite (finish_flat ord _ sets _ Ho (proj1 Hs)). do 2 f_equal. by apply (pattern_rows_eq ord ord' _ (ca_nodes c) (coupled ls)).
  - exfalso. destruct (run_inv _ _ _ Hlock) as (past & Hp & [Hl _]). simpl in *. apply lookup_ge_None in Ha.
    assert ((a, ns) ∈ concat (map elem_actions ls)) as H.
    { rewrite <- Hp. apply elem_of_app. right. apply concat_elem. exists ((a, ns) :: rest). split; [by eapply elem_of_list_lookup_2|by left]. }
    apply elem_of_actions in H as [H1 H2]. specialize (Hr ns a H1 H2). lia.
  - exfalso. pose proof (run_inv _ _ _ Hlock) as Hinv. pose proof (lock_done _ _ _ _ Hinv Hd) as Hs.
    rewrite batch_writes_spec in Hw; [done|done|]. intros i. by apply batch_nodes.
Qed.

Lemma par_pattern_exists : exists r, @par_assemble_pattern E ord size umax c r.
Proof using All.
  set (ths0 := imap (fun k b => batch_actions umax c [] b) (batches size (ca_elems c))).
  assert (concat ths0 = concat (map elem_actions ls)) as Hall by exact (all_actions size umax c ls (fun _ => []) Hsz Hc).
  destruct (lock_exists (ca_nodes c) (concat (map elem_actions ls))) with (m := length (concat ths0)) (st := (replicate (ca_nodes c) ([] : list nat), ths0))
    as (sets & ths & Hlock & Hd).
  - intros a ns H. apply elem_of_actions in H as [H1 H2]. by apply (Hr ns).
  - rewrite <- Hall. apply lock_inv_start.
  - done.
  - pose proof (run_inv (fun _ => []) _ _ Hlock) as Hinv. pose proof (lock_done _ _ _ _ Hinv Hd) as Hs.
    destruct (tasks_ok sets Hs) as [Hpd Hin].
    destruct (mem_run_exists store _ _ Hpd Hin) as (ths' & Hmem & Hdone).
    eexists. eapply (par_pattern_ok ord size umax c (fun _ => []) sets ths _ _ ths'); [exact Hlock|exact Hd| |exact Hmem|exact Hdone].
    apply Forall2_fmap_r, Forall2_same_length_lookup_2; [done|]. intros i b b' H1 H2. simplify_eq. unfold compose.
    rewrite batch_writes_spec; [done|done|]. intros j. apply batch_nodes; [done|]. by eapply elem_of_list_lookup_2.
Qed.

(** The positions written by the batches partition the column array. *)
Lemma par_pattern_cover bufs sets ths writes :
  rtc lock_step (replicate (ca_nodes c) [],
     imap (fun k b => batch_actions umax c (bufs k) b) (batches size (ca_elems c))) (sets, ths) ->
  Forall (fun t => t = []) ths ->
  Forall2 (fun b ws => batch_writes (E := E) ord (ca_sdim c) (pattern_offsets (ca_sdim c) sets).1 sets b = Ok ws)
    (batches size (ca_nodes c)) writes ->
  map fst (concat writes) = seq 0 (pattern_offsets (ca_sdim c) sets).2.
Proof using All.
  intros Hlock Hd HF. pose proof (run_inv _ _ _ Hlock) as Hinv. pose proof (lock_done _ _ _ _ Hinv Hd) as Hs.
  rewrite (writes_eq sets writes Hs HF), tasks_concat, block_updates_fst by done.
  by rewrite (pattern_offsets_flat ord _ sets 0 Ho).
Qed.
End runs.

(** C12-C17: sparsity patterns and CSR assembly. *)
From stdpp Require Import base list list_numbers sorting relations.
From Coq Require Import Lia ZArith.
From Verif Require Import Prelude NestedVecModel NestedVecSpec NestedVecProofs ParadisModel ParadisSpec
  ParadisProofs ColoringProofs ParadisSafety PropParadis
  VectorModel VectorSpec VectorProofs VectorParProofs VectorColors VectorAgree PropVector
  CsrModel CsrSpec CsrProofs CsrSerial CsrPattern CsrParPattern CsrPar CsrParAgree CsrAlgebra.

(** ** Examples of the oracles *)
Definition key_le (x y : nat * nat) : Prop := x.1 <= y.1.
#[global] Instance key_le_dec x y : Decision (key_le x y). Proof. unfold key_le. apply _. Defined.
#[global] Instance key_le_total : Total key_le. Proof. intros x y. unfold key_le. lia. Qed.
#[global] Instance key_le_trans : Transitive key_le. Proof. intros x y z. unfold key_le. lia. Qed.
Definition key_sort (keys : list nat) : list nat := map snd (merge_sort key_le (zip keys (seq 0 (length keys)))).

Lemma key_sort_ok : sorts_by_key key_sort.
Proof.
  intros keys. unfold key_sort. set (l := merge_sort key_le _).
  assert (l ≡ₚ zip keys (seq 0 (length keys))) as Hp by apply merge_sort_Permutation.
  assert (StronglySorted key_le l) as Hs by apply (StronglySorted_merge_sort key_le). split.
  - rewrite Hp. rewrite <- (snd_zip keys (seq 0 (length keys))) at 2 by (by rewrite seq_length). done.
  - assert (forall x, x ∈ l -> keys !! x.2 = Some x.1) as Hk.
    { intros [k i] Hx. rewrite Hp in Hx. apply elem_of_list_lookup in Hx as [j Hj].
      apply lookup_zip_with_Some in Hj as (a & b & Heq & Ha & Hb). simplify_eq. by apply lookup_seq in Hb as [-> _]. }
    clearbody l. clear Hp. induction Hs as [|x l Hs IH Hle]; simpl; [constructor|]. constructor.
    + apply IH. intros y Hy. apply Hk. by right.
    + rewrite Forall_forall in Hle. apply Forall_forall. intros j Hj a b Ha Hb. apply elem_of_list_fmap in Hj as (y & -> & Hy).
      rewrite (Hk x ltac:(by left)) in Ha. rewrite (Hk y ltac:(by right)) in Hb. simplify_eq. by apply Hle.
Qed.

Definition table_mat {T E} (s n : nat) (ls : list (list nat)) (vs : list (outcome E (list (list T)))) : mat_asm :=
  MatAsm (table_conn s n ls) (fun i _ => default Panic (vs !! i)).

Definition ex_mls : list (list nat) := [[2; 0]; [1; 2]].
Definition ex_mats : list (list (list Z)) := [[[1; 2]; [2; 3]]; [[10; 20]; [20; 30]]]%Z.
Definition ex_mvs : list (outcome nat (list (list Z))) := map Ok ex_mats.

Lemma ex_has_mats : has_mats (table_mat 1 3 ex_mls ex_mvs) ex_mls ex_mvs.
Proof.
  split; [done|]. intros i ns v Hi Hv. split.
  - intros buf _. simpl. by rewrite Hv.
  - intros A ->. destruct i as [|[|i]]; simpl in *; simplify_eq; (split; [done|repeat constructor]).
Qed.

Lemma ex_mls_range : nodes_in_range 3 ex_mls.
Proof.
  intros ns k Hns Hk. unfold ex_mls in Hns. repeat (apply elem_of_cons in Hns as [->|Hns]; [|]);
  repeat (apply elem_of_cons in Hk as [->|Hk]; [lia|]); try (by apply elem_of_nil in Hk); by apply elem_of_nil in Hns.
Qed.

Lemma ex_mls_nodup : Forall NoDup ex_mls.
Proof. repeat constructor; set_solver. Qed.

(** C12. [assemble_pattern] returns a valid square pattern whose entries are exactly the couplings. *)
Theorem C12_pattern_is_coupling_graph :
  forall (E : Type) (ord : nat -> list nat -> list nat) (umax : nat) (c : conn_asm) (ls : list (list nat)),
    hash_order ord -> has_conn c ls -> nodes_in_range (ca_nodes c) ls ->
    exists p, @assemble_pattern E ord umax c = Ok p /\ pat_wf p /\
      pt_nrows p = ca_sdim c * ca_nodes c /\ pt_ncols p = ca_sdim c * ca_nodes c /\
      forall r col, (exists pos, stored p r col pos) <-> 0 < ca_sdim c /\ coupled ls (r / ca_sdim c) (col / ca_sdim c).
Proof. exact @assemble_pattern_spec. Qed.
Print Assumptions C12_pattern_is_coupling_graph.

(** C12. The rows of one node have the same columns. *)
Theorem C12_block_rows_equal :
  forall (E : Type) (ord : nat -> list nat -> list nat) (umax : nat) (c : conn_asm) (ls : list (list nat)) (p : pattern),
    hash_order ord -> has_conn c ls -> nodes_in_range (ca_nodes c) ls -> @assemble_pattern E ord umax c = Ok p ->
    forall a i j col, i < ca_sdim c -> j < ca_sdim c ->
      (exists pos, stored p (ca_sdim c * a + i) col pos) -> exists pos, stored p (ca_sdim c * a + j) col pos.
Proof.
  intros E ord umax c ls p Ho Hc Hr Hp a i j col Hi Hj H.
  destruct (assemble_pattern_spec (E := E) ord umax c ls Ho Hc Hr) as (p' & Hp' & _ & _ & _ & Hst).
  assert (p' = p) as -> by congruence. apply Hst in H. apply Hst.
  rewrite (Nat.mul_comm (ca_sdim c)), Nat.div_add_l, Nat.div_small in H |- * by lia. done.
Qed.
Print Assumptions C12_block_rows_equal.

(** C12. The hash order and the buffers do not matter. *)
Theorem C12_pattern_unique :
  forall (E : Type) (ord ord' : nat -> list nat -> list nat) (umax umax' : nat) (c : conn_asm) (ls : list (list nat)),
    hash_order ord -> hash_order ord' -> has_conn c ls -> nodes_in_range (ca_nodes c) ls ->
    @assemble_pattern E ord umax c = assemble_pattern ord' umax' c.
Proof.
  intros E ord ord' umax umax' c ls Ho Ho' Hc Hr.
  destruct (par_pattern_exists (E := E) ord 10 umax c ls Ho ltac:(lia) Hc Hr) as [r Hrun].
  rewrite <- (par_pattern_agrees ord 10 umax c ls Ho ltac:(lia) Hc Hr ord umax r Ho Hrun).
  exact (par_pattern_agrees ord 10 umax c ls Ho ltac:(lia) Hc Hr ord' umax' r Ho' Hrun).
Qed.
Print Assumptions C12_pattern_unique.

Example C12_example :
  has_conn (table_conn 2 3 ex_ls) ex_ls /\ nodes_in_range 3 ex_ls /\
  @assemble_pattern nat rev_order 77 (table_conn 2 3 ex_ls) =
    Ok (Pattern [0; 4; 8; 14; 20; 24; 28]
      [0; 1; 2; 3; 0; 1; 2; 3; 0; 1; 2; 3; 4; 5; 0; 1; 2; 3; 4; 5; 2; 3; 4; 5; 2; 3; 4; 5] 6).
Proof. split; [apply table_has_conn|]. split; [exact ex_in_range|]. vm_compute. reflexivity. Qed.

(** C13. There is a parallel run, and every run returns the serial pattern: for every schedule of the critical
    sections and of the stores, all contents of the thread-local buffers, all hash orders and batch sizes. *)
Theorem C13_parallel_pattern :
  forall (E : Type) (ord ord' : nat -> list nat -> list nat) (size umax umax' : nat) (c : conn_asm) (ls : list (list nat)),
    hash_order ord -> hash_order ord' -> 0 < size -> has_conn c ls -> nodes_in_range (ca_nodes c) ls ->
    (exists r, @par_assemble_pattern E ord size umax c r) /\
    forall r, @par_assemble_pattern E ord size umax c r -> r = assemble_pattern ord' umax' c.
Proof.
  intros E ord ord' size umax umax' c ls Ho Ho' Hs Hc Hr. split.
  - exact (par_pattern_exists ord size umax c ls Ho Hs Hc Hr).
  - intros r. exact (par_pattern_agrees ord size umax c ls Ho Hs Hc Hr ord' umax' r Ho').
Qed.
Print Assumptions C13_parallel_pattern.

(** C13. The unchecked writes of the batches hit each position of the column array exactly once, in order. *)
Theorem C13_writes_partition :
  forall (E : Type) (ord : nat -> list nat -> list nat) (size umax : nat) (c : conn_asm) (ls : list (list nat))
         (bufs : nat -> list nat) (sets : list (list nat)) (ths : list (list (nat * list nat))) (writes : list (list (nat * nat))),
    hash_order ord -> 0 < size -> has_conn c ls -> nodes_in_range (ca_nodes c) ls ->
    rtc lock_step (replicate (ca_nodes c) [],
       imap (fun k b => batch_actions umax c (bufs k) b) (batches size (ca_elems c))) (sets, ths) ->
    Forall (fun t => t = []) ths ->
    Forall2 (fun b ws => batch_writes (E := E) ord (ca_sdim c) (pattern_offsets (ca_sdim c) sets).1 sets b = Ok ws)
      (batches size (ca_nodes c)) writes ->
    map fst (concat writes) = seq 0 (pattern_offsets (ca_sdim c) sets).2.
Proof.
  intros E ord size umax c ls bufs sets ths writes Ho Hs Hc Hr H1 H2 H3.
  exact (par_pattern_cover ord size umax c ls Ho Hs Hc Hr bufs sets ths writes H1 H2 H3).
Qed.
Print Assumptions C13_writes_partition.

Example C13_example : batches 2 5 = [[0; 1]; [2; 3]; [4]] /\
  batch_actions 9 (table_conn 2 3 ex_ls) [8; 8; 8] [1; 0] = [(2, [2; 1]); (1, [2; 1]); (0, [0; 1]); (1, [0; 1])].
Proof. split; reflexivity. Qed.

(** C14. Assembly into an existing matrix whose pattern has room for all couplings: no panic of its own; the
    elements before the first failing one are summed (in element order) into the stored entries. *)
Theorem C14_assemble_into_csr :
  forall (T E : Type) (add : T -> T -> T) (zero : T) (srt : list nat -> list nat)
         (a : @mat_asm T E) (ls : list (list nat)) (vs : list (outcome E (list (list T)))) (ws : csr_ws) (m : csr T),
    has_conn (ma_conn a) ls -> has_mats a ls vs -> pat_wf (cs_pat m) -> sorts_by_key srt ->
    1 <= ca_sdim (ma_conn a) -> Forall NoDup ls -> has_couplings (ca_sdim (ma_conn a)) ls (cs_pat m) ->
    exists ws' m' r good,
      assemble_into_csr add zero srt ws m a = (ws', m', r) /\
      csr_sums add (ca_sdim (ma_conn a)) (take (length good) ls) good m m' /\
      match r with
      | Ok _ => vs = map Ok good
      | Err e => exists rest, vs = map Ok good ++ Err e :: rest
      | Panic => exists rest, vs = map Ok good ++ Panic :: rest
      end.
Proof. exact @assemble_into_csr_spec. Qed.
Print Assumptions C14_assemble_into_csr.

(** C14. [assemble]: the dense view of the result is the sum of the scattered element matrices. *)
Theorem C14_assemble :
  forall (T E : Type) (add : T -> T -> T) (zero : T) (srt : list nat -> list nat) (ord : nat -> list nat -> list nat)
         (umax : nat) (ws : csr_ws) (a : @mat_asm T E) (ls : list (list nat)) (vs : list (outcome E (list (list T)))),
    hash_order ord -> sorts_by_key srt -> has_conn (ma_conn a) ls -> nodes_in_range (ca_nodes (ma_conn a)) ls ->
    has_mats a ls vs -> 1 <= ca_sdim (ma_conn a) -> Forall NoDup ls ->
    match (assemble_csr add zero srt ord umax ws a).2 with
    | Ok m => exists As, vs = map Ok As /\ csr_wf m /\ pt_nrows (cs_pat m) = ca_sdim (ma_conn a) * ca_nodes (ma_conn a) /\
        forall r c, entry_is zero m r c (foldl add zero (mat_contribs (ca_sdim (ma_conn a)) ls As r c))
    | Err e => exists good rest, vs = map Ok good ++ Err e :: rest
    | Panic => exists good rest, vs = map Ok good ++ Panic :: rest
    end.
Proof. exact @assemble_csr_spec. Qed.
Print Assumptions C14_assemble.

(** [entry_is] describes one value. *)
Theorem C14_entry_unique :
  forall (T : Type) (zero : T) (m : csr T) (r c : nat) (x y : T),
    pat_wf (cs_pat m) -> entry_is zero m r c x -> entry_is zero m r c y -> x = y.
Proof. exact @entry_unique. Qed.
Print Assumptions C14_entry_unique.

Example C14_example :
  has_conn (table_conn 1 3 ex_mls) ex_mls /\ nodes_in_range 3 ex_mls /\ has_mats (table_mat 1 3 ex_mls ex_mvs) ex_mls ex_mvs /\
  Forall NoDup ex_mls /\ sorts_by_key key_sort /\
  (assemble_csr Z.add 0%Z key_sort rev_order 9 (CsrWs [5] [[7; 7]; [7]]%Z) (table_mat 1 3 ex_mls ex_mvs)).2 =
    Ok (Csr (Pattern [0; 2; 4; 7] [0; 2; 1; 2; 0; 1; 2] 3) [3; 2; 10; 20; 2; 20; 31]%Z).
Proof.
  split; [apply table_has_conn|]. split; [exact ex_mls_range|]. split; [exact ex_has_mats|]. split; [exact ex_mls_nodup|].
  split; [exact key_sort_ok|]. vm_compute. reflexivity.
Qed.

(** C15. "Assembly never panics when all node indices are in range and the pattern comes from assemble_pattern"
    is false: an element with a repeated node, which vector and pattern assembly accept. *)
Theorem C15_assembly_never_panics_refuted :
  exists (ls : list (list nat)) (As : list (list (list Z))) (vs : list (list Z)),
    nodes_in_range 2 ls /\
    has_mats (table_mat 1 2 ls (map (@Ok nat _) As)) ls (map Ok As) /\
    (exists p, @assemble_pattern nat id_order 0 (table_conn 1 2 ls) = Ok p) /\
    (assemble_vector_into Z.add 0%Z 0 (VecWs [] []) [0; 0]%Z (table_vec 1 2 ls (map (@Ok nat _) vs))).2 = Ok tt /\
    (assemble_csr Z.add 0%Z key_sort id_order 0 (CsrWs [] []) (table_mat 1 2 ls (map (@Ok nat _) As))).2 = Panic.
Proof.
  exists [[0; 0]], [[[1; 2]; [3; 4]]%Z], [[1; 2]%Z]. split_and!.
  - intros ns k Hns Hk. apply elem_of_list_singleton in Hns as ->.
    repeat (apply elem_of_cons in Hk as [->|Hk]; [lia|]). by apply elem_of_nil in Hk.
  - split; [done|]. intros i ns v Hi Hv. destruct i as [|i]; simpl in *; [|done]. simplify_eq. split; [done|].
    intros A [= <-]. split; [done|repeat constructor].
  - eexists. vm_compute. reflexivity.
  - vm_compute. reflexivity.
  - vm_compute. reflexivity.
Qed.
Print Assumptions C15_assembly_never_panics_refuted.

(** C15. What does hold: with successful element matrices, [assemble] succeeds if no element repeats a node, and
    panics otherwise. *)
Theorem C15_panics_iff_repeated_node :
  forall (T E : Type) (add : T -> T -> T) (zero : T) (srt : list nat -> list nat) (ord : nat -> list nat -> list nat)
         (umax : nat) (ws : csr_ws) (a : @mat_asm T E) (ls : list (list nat)) (As : list (list (list T))),
    hash_order ord -> sorts_by_key srt -> has_conn (ma_conn a) ls -> nodes_in_range (ca_nodes (ma_conn a)) ls ->
    has_mats a ls (map Ok As) -> 1 <= ca_sdim (ma_conn a) ->
    ((assemble_csr add zero srt ord umax ws a).2 = Panic <-> ~ Forall NoDup ls) /\
    ((exists m, (assemble_csr add zero srt ord umax ws a).2 = Ok m) <-> Forall NoDup ls).
Proof. exact @assemble_csr_repeat. Qed.
Print Assumptions C15_panics_iff_repeated_node.

(** C16. Parallel assembly over colours from the safe constructors: a complete run exists, every run returns Ok
    with the same matrix, that of adding element after element in colour order; [add] is arbitrary. *)
Theorem C16_parallel_csr_deterministic :
  forall (T E : Type) (add : T -> T -> T) (zero : T) (srt : list nat -> list nat) (a : @mat_asm T E) (debug : bool)
         (mats : nat -> list (list T)) (colors : list dsubs) (lss : list (list (list nat))) (n : nat) (m : csr T),
    Forall2 safe_value colors lss -> 1 <= ca_sdim (ma_conn a) ->
    csr_wf m -> sorts_by_key srt -> pt_nrows (cs_pat m) = ca_sdim (ma_conn a) * n ->
    nodes_in_range n (concat lss) -> Forall NoDup (concat lss) ->
    has_couplings (ca_sdim (ma_conn a)) (concat lss) (cs_pat m) ->
    (debug = true -> Forall (fun ls => exists ns, ns ∈ ls /\ ns <> []) lss) ->
    Forall2 (fun i ns => ca_count (ma_conn a) i = length ns /\
        (forall buf, length buf = length ns -> ca_populate (ma_conn a) i buf = ns) /\ yields_mat a i (length ns) (Ok (mats i)))
      (concat (map ds_labels colors)) (concat lss) ->
    exists m', par_assemble_into_csr add zero srt debug a colors m m' (Ok tt) /\
      csr_sums add (ca_sdim (ma_conn a)) (concat lss) (map mats (concat (map ds_labels colors))) m m' /\
      forall m'' r, par_assemble_into_csr add zero srt debug a colors m m'' r -> r = Ok tt /\ m'' = m'.
Proof. exact @par_csr_deterministic. Qed.
Print Assumptions C16_parallel_csr_deterministic.

(** C16. With the colouring of the connectivity every run agrees with serial assembly when addition is
    associative and commutative. *)
Theorem C16_parallel_agrees_with_serial :
  forall (T E : Type) (add : T -> T -> T) (zero : T) (srt : list nat -> list nat) (a : @mat_asm T E)
         (ls : list (list nat)) (vs : list (outcome E (list (list T)))) (ord : nat -> list nat -> list nat) (debug : bool)
         (colors : list dsubs) (ws : csr_ws) (m m' : csr T) (r : outcome E unit),
    (forall x y z, add x (add y z) = add (add x y) z) -> (forall x y, add x y = add y x) ->
    hash_order ord -> sorts_by_key srt -> has_conn (ma_conn a) ls -> nodes_in_range (ca_nodes (ma_conn a)) ls ->
    has_mats a ls vs -> Forall NoDup ls -> 1 <= ca_sdim (ma_conn a) -> (Z.of_nat (length ls) <= i32_max)%Z ->
    (debug = true -> forall ns, ns ∈ ls -> ns <> []) ->
    csr_wf m -> pt_nrows (cs_pat m) = ca_sdim (ma_conn a) * ca_nodes (ma_conn a) ->
    has_couplings (ca_sdim (ma_conn a)) ls (cs_pat m) ->
    color_nodes ord debug (ma_conn a) = Some (Ok colors) ->
    par_assemble_into_csr add zero srt debug a colors m m' r ->
    let '(_, m'', r') := assemble_into_csr add zero srt ws m a in
    match r with
    | Ok _ => r' = Ok tt /\ m' = m''
    | Err e => (exists i, vs !! i = Some (Err e)) /\ r' <> Ok tt
    | Panic => (exists i, vs !! i = Some Panic) /\ r' <> Ok tt
    end.
Proof. exact @par_csr_agrees. Qed.
Print Assumptions C16_parallel_agrees_with_serial.

Definition ex_pat : pattern := Pattern [0; 2; 4; 7] [0; 2; 1; 2; 0; 1; 2] 3.

Example C16_example :
  exists colors, color_nodes id_order true (table_conn 1 3 ex_mls) = Some (Ok colors) /\
    map ds_labels colors = [[0]; [1]] /\ @assemble_pattern nat id_order 0 (table_conn 1 3 ex_mls) = Ok ex_pat /\
    csr_wf (Csr ex_pat (replicate 7 100%Z)) /\ has_couplings 1 ex_mls ex_pat /\
    (assemble_into_csr Z.add 0%Z key_sort (CsrWs [] []) (Csr ex_pat (replicate 7 100%Z)) (table_mat 1 3 ex_mls ex_mvs)).1.2 =
      Csr ex_pat [103; 102; 110; 120; 102; 120; 131]%Z.
Proof.
  eexists. split; [vm_compute; reflexivity|]. split; [reflexivity|]. split; [vm_compute; reflexivity|].
  destruct (assemble_pattern_spec (E := nat) id_order 0 (table_conn 1 3 ex_mls) ex_mls id_order_ok (table_has_conn _ _ _) ex_mls_range)
    as (p & Hp & Hwf & _ & _ & Hst).
  assert (p = ex_pat) as -> by (vm_compute in Hp; by simplify_eq).
  split; [by split|]. split; [|vm_compute; reflexivity]. intros r c H1 H2. apply Hst. by split.
Qed.

(** C17. Symmetric element matrices give a symmetric matrix, bit for bit: no law of [add] is needed. *)
Theorem C17_symmetry :
  forall (T E : Type) (add : T -> T -> T) (zero : T) (srt : list nat -> list nat) (ord : nat -> list nat -> list nat)
         (umax : nat) (ws : csr_ws) (a : @mat_asm T E) (ls : list (list nat)) (As : list (list (list T))),
    hash_order ord -> sorts_by_key srt -> has_conn (ma_conn a) ls -> nodes_in_range (ca_nodes (ma_conn a)) ls ->
    has_mats a ls (map Ok As) -> 1 <= ca_sdim (ma_conn a) -> Forall NoDup ls -> Forall symmetric_mat As ->
    exists m, (assemble_csr add zero srt ord umax ws a).2 = Ok m /\
      forall r c x, entry_is zero m r c x -> entry_is zero m c r x.
Proof.
  intros T E add zero srt ord umax ws a ls As Ho Hsrt Hc Hr Hm Hs Hnd Hsym.
  destruct (proj2 (proj2 (assemble_csr_repeat add zero srt ord umax ws a ls As Ho Hsrt Hc Hr Hm Hs)) Hnd) as [m Hok].
  exists m. split; [done|]. pose proof (assemble_csr_spec add zero srt ord umax ws a ls _ Ho Hsrt Hc Hr Hm Hs Hnd) as H.
  rewrite Hok in H. destruct H as (As' & Heq & Hwf & _ & Hent). apply map_ok_inj in Heq as <-.
  intros r c x Hx. rewrite (entry_unique zero m r c _ _ (proj1 Hwf) Hx (Hent r c)).
  rewrite (mat_contribs_sym _ ls As r c Hnd Hsym). apply Hent.
Qed.
Print Assumptions C17_symmetry.

(** C17. Linearity: the assembled matrix of a sum is the sum of the assembled matrices. *)
Theorem C17_additive :
  forall (T E : Type) (add : T -> T -> T) (zero : T) (srt : list nat -> list nat) (ord : nat -> list nat -> list nat)
         (umax : nat) (ws1 ws2 ws3 : csr_ws) (c : conn_asm) (f1 f2 f3 : nat -> list (list T) -> outcome E (list (list T)))
         (ls : list (list nat)) (As Bs : list (list (list T))),
    (forall x y z, add x (add y z) = add (add x y) z) -> (forall x y, add x y = add y x) -> (forall x, add zero x = x) ->
    hash_order ord -> sorts_by_key srt -> has_conn c ls -> nodes_in_range (ca_nodes c) ls -> 1 <= ca_sdim c -> Forall NoDup ls ->
    has_mats (MatAsm c f1) ls (map Ok As) -> has_mats (MatAsm c f2) ls (map Ok Bs) ->
    has_mats (MatAsm c f3) ls (map Ok (zip_with (mat_add add) As Bs)) ->
    exists m1 m2 m3,
      (assemble_csr add zero srt ord umax ws1 (MatAsm c f1)).2 = Ok m1 /\
      (assemble_csr add zero srt ord umax ws2 (MatAsm c f2)).2 = Ok m2 /\
      (assemble_csr add zero srt ord umax ws3 (MatAsm c f3)).2 = Ok m3 /\
      forall r col x y, entry_is zero m1 r col x -> entry_is zero m2 r col y -> entry_is zero m3 r col (add x y).
Proof.
  intros T E add zero srt ord umax ws1 ws2 ws3 c f1 f2 f3 ls As Bs Ha Hcm H0 Ho Hsrt Hc Hr Hs Hnd HA HB HC.
  destruct (proj2 (proj2 (assemble_csr_repeat add zero srt ord umax ws1 (MatAsm c f1) ls As Ho Hsrt Hc Hr HA Hs)) Hnd) as [m1 Hm1].
  destruct (proj2 (proj2 (assemble_csr_repeat add zero srt ord umax ws2 (MatAsm c f2) ls Bs Ho Hsrt Hc Hr HB Hs)) Hnd) as [m2 Hm2].
  destruct (proj2 (proj2 (assemble_csr_repeat add zero srt ord umax ws3 (MatAsm c f3) ls _ Ho Hsrt Hc Hr HC Hs)) Hnd) as [m3 Hm3].
  exists m1, m2, m3. split_and!; [done|done|done|].
  pose proof (assemble_csr_spec add zero srt ord umax ws1 (MatAsm c f1) ls _ Ho Hsrt Hc Hr HA Hs Hnd) as E1.
  pose proof (assemble_csr_spec add zero srt ord umax ws2 (MatAsm c f2) ls _ Ho Hsrt Hc Hr HB Hs Hnd) as E2.
  pose proof (assemble_csr_spec add zero srt ord umax ws3 (MatAsm c f3) ls _ Ho Hsrt Hc Hr HC Hs Hnd) as E3.
  rewrite Hm1 in E1. rewrite Hm2 in E2. rewrite Hm3 in E3.
  destruct E1 as (As1 & Q1 & [W1 _] & _ & E1). destruct E2 as (As2 & Q2 & [W2 _] & _ & E2). destruct E3 as (As3 & Q3 & _ & _ & E3).
  apply map_ok_inj in Q1 as <-. apply map_ok_inj in Q2 as <-. apply map_ok_inj in Q3 as <-.
  intros r col x y Hx Hy. rewrite (entry_unique zero m1 r col _ _ W1 Hx (E1 r col)), (entry_unique zero m2 r col _ _ W2 Hy (E2 r col)).
  rewrite <- (sum3_fold add (mat_contribs (ca_sdim c) ls As r col) (mat_contribs (ca_sdim c) ls Bs r col)
    (mat_contribs (ca_sdim c) ls (zip_with (mat_add add) As Bs) r col) Ha Hcm).
  - rewrite H0. apply E3.
  - assert (forall f (Cs : list (list (list T))), has_mats (MatAsm (E := E) c f) ls (map Ok Cs) ->
        Forall2 (fun (ns : list nat) (A : list (list T)) => square (ca_sdim c * length ns) A) ls Cs) as Hsq.
    { intros f Cs [Hl Hv]. rewrite map_length in Hl. apply Forall2_same_length_lookup_2; [done|]. intros i ns A Hns HAi.
      destruct (Hv i ns (Ok A) Hns) as [_ Hsq]; [by rewrite list_lookup_fmap, HAi|]. by apply Hsq. }
    apply mat_contribs_add; by eapply Hsq.
Qed.
Print Assumptions C17_additive.

(** C17. Entry-wise additive maps (for example scaling) commute with assembly. *)
Theorem C17_additive_map :
  forall (T E : Type) (add : T -> T -> T) (zero : T) (h : T -> T) (srt : list nat -> list nat) (ord : nat -> list nat -> list nat)
         (umax : nat) (ws1 ws2 : csr_ws) (c : conn_asm) (f1 f2 : nat -> list (list T) -> outcome E (list (list T)))
         (ls : list (list nat)) (As : list (list (list T))),
    (forall x y, h (add x y) = add (h x) (h y)) -> h zero = zero ->
    hash_order ord -> sorts_by_key srt -> has_conn c ls -> nodes_in_range (ca_nodes c) ls -> 1 <= ca_sdim c -> Forall NoDup ls ->
    has_mats (MatAsm c f1) ls (map Ok As) -> has_mats (MatAsm c f2) ls (map Ok (map (map (map h)) As)) ->
    exists m1 m2,
      (assemble_csr add zero srt ord umax ws1 (MatAsm c f1)).2 = Ok m1 /\
      (assemble_csr add zero srt ord umax ws2 (MatAsm c f2)).2 = Ok m2 /\
      forall r col x, entry_is zero m1 r col x -> entry_is zero m2 r col (h x).
Proof.
  intros T E add zero h srt ord umax ws1 ws2 c f1 f2 ls As Hh H0 Ho Hsrt Hc Hr Hs Hnd HA HB.
  destruct (proj2 (proj2 (assemble_csr_repeat add zero srt ord umax ws1 (MatAsm c f1) ls As Ho Hsrt Hc Hr HA Hs)) Hnd) as [m1 Hm1].
  destruct (proj2 (proj2 (assemble_csr_repeat add zero srt ord umax ws2 (MatAsm c f2) ls _ Ho Hsrt Hc Hr HB Hs)) Hnd) as [m2 Hm2].
  exists m1, m2. split_and!; [done|done|].
  pose proof (assemble_csr_spec add zero srt ord umax ws1 (MatAsm c f1) ls _ Ho Hsrt Hc Hr HA Hs Hnd) as E1.
  pose proof (assemble_csr_spec add zero srt ord umax ws2 (MatAsm c f2) ls _ Ho Hsrt Hc Hr HB Hs Hnd) as E2.
  rewrite Hm1 in E1. rewrite Hm2 in E2.
  destruct E1 as (As1 & Q1 & [W1 _] & _ & E1). destruct E2 as (As2 & Q2 & [W2 _] & _ & E2).
  apply map_ok_inj in Q1 as <-. apply map_ok_inj in Q2 as <-.
  intros r col x Hx. rewrite (entry_unique zero m1 r col _ _ W1 Hx (E1 r col)).
  rewrite <- (foldl_hom add h _ Hh), H0, <- mat_contribs_map. apply E2.
Qed.
Print Assumptions C17_additive_map.

Example C17_example : Forall symmetric_mat ex_mats /\
  zip_with (mat_add Z.add) ex_mats ex_mats = map (map (map (Z.mul 2))) ex_mats.
Proof.
  split; [|reflexivity]. repeat constructor; intros [|[|i]] [|[|j]]; simpl; try done; unfold mat_at; by destruct (_ !! _).
Qed.

(** C09, C10, C11, C20, C21: vector and scalar assembly, gather/scatter. *)
From stdpp Require Import base list list_numbers sorting relations.
From Coq Require Import Lia ZArith Ring.
From Verif Require Import Prelude NestedVecModel NestedVecSpec NestedVecProofs ParadisModel ParadisSpec
  ParadisProofs ColoringProofs ParadisSafety PropParadis
  VectorModel VectorSpec VectorProofs VectorParProofs VectorColors VectorAgree.

(** Callbacks given by tables, for the examples. *)
Definition table_conn (s n : nat) (ls : list (list nat)) : conn_asm :=
  ConnAsm s n (length ls) (fun i => length (default [] (ls !! i))) (fun i _ => default [] (ls !! i)).
Definition table_vec {T E} (s n : nat) (ls : list (list nat)) (vs : list (outcome E (list T))) : vec_asm :=
  VecAsm (table_conn s n ls) (fun i _ => default Panic (vs !! i)).

Lemma table_has_conn s n ls : has_conn (table_conn s n ls) ls.
Proof. split; [done|]. intros i ns H. simpl. by rewrite H. Qed.

Definition ex_ls : list (list nat) := [[0; 1]; [2; 1]; [1; 1]].
Definition ex_vs : list (outcome nat (list Z)) := [Ok [1; 2; 3; 4]%Z; Ok [5; 6; 7; 8]%Z; Ok [9; 10; 11; 12]%Z].

Lemma ex_has_vecs : has_vecs (table_vec 2 3 ex_ls ex_vs) ex_ls ex_vs.
Proof.
  split; [done|]. intros i ns v Hi Hv. split.
  - intros buf _. simpl. by rewrite Hv.
  - intros x ->. destruct i as [|[|[|i]]]; simpl in *; by simplify_eq.
Qed.

Lemma ex_in_range : nodes_in_range 3 ex_ls.
Proof.
  intros ns k Hns Hk. unfold ex_ls in Hns. repeat (apply elem_of_cons in Hns as [->|Hns]; [|]);
  repeat (apply elem_of_cons in Hk as [->|Hk]; [lia|]); try (by apply elem_of_nil in Hk); by apply elem_of_nil in Hns.
Qed.

(** C09. Serial assembly into an output of the right size: the elements before the first failing one have
    contributed (in element and local order) and nothing else; its error is returned. For every previous
    content [ws] of the workspace. *)
Theorem C09_serial_vector_assembly :
  forall (T E : Type) (add : T -> T -> T) (zero : T) (umax : nat)
         (a : @vec_asm T E) (ls : list (list nat)) (vs : list (outcome E (list T))) (ws : vec_ws) (out : list T),
    has_conn (va_conn a) ls -> nodes_in_range (ca_nodes (va_conn a)) ls -> has_vecs a ls vs ->
    length out = ca_sdim (va_conn a) * ca_nodes (va_conn a) ->
    exists ws' out' r good,
      assemble_vector_into add zero umax ws out a = (ws', out', r) /\
      sums_to add (ca_sdim (va_conn a)) (take (length good) ls) good out out' /\
      match r with
      | Ok _ => vs = map Ok good
      | Err e => exists rest, vs = map Ok good ++ Err e :: rest
      | Panic => exists rest, vs = map Ok good ++ Panic :: rest
      end.
Proof. exact @assemble_vector_into_spec. Qed.
Print Assumptions C09_serial_vector_assembly.

Example C09_example :
  has_conn (table_conn 2 3 ex_ls) ex_ls /\ nodes_in_range 3 ex_ls /\ has_vecs (table_vec 2 3 ex_ls ex_vs) ex_ls ex_vs /\
  (let '(_, out, r) := assemble_vector_into Z.add 0%Z 77 (VecWs [9; 9; 9]%Z [4; 4; 4; 4; 4]) (replicate 6 100%Z)
     (table_vec 2 3 ex_ls ex_vs) in (out, r)) = ([101; 102; 130; 134; 105; 106]%Z, Ok tt).
Proof.
  split; [apply table_has_conn|]. split; [exact ex_in_range|]. split; [exact ex_has_vecs|]. vm_compute. reflexivity.
Qed.

(** C10. Parallel assembly over colours from the safe constructors: there is a complete run, every run returns
    Ok, and every run (any split tree, any consumption, any interleaving of the loads and stores of the tasks)
    leaves the same output, the one of adding colour after colour in subset order. [add] is arbitrary. *)
Theorem C10_parallel_vector_deterministic :
  forall (T E : Type) (add : T -> T -> T) (zero : T) (umax : nat) (a : @vec_asm T E) (debug : bool)
         (vecs : nat -> list T) (colors : list dsubs) (lss : list (list (list nat))) (out : list T),
    Forall2 safe_value colors lss -> 0 < ca_sdim (va_conn a) ->
    length out = ca_sdim (va_conn a) * ca_nodes (va_conn a) ->
    nodes_in_range (ca_nodes (va_conn a)) (concat lss) ->
    (debug = true -> Forall (fun ls => exists ns, ns ∈ ls /\ ns <> []) lss) ->
    Forall2 (fun i ns => ca_count (va_conn a) i = length ns /\ yields_vec a i (length ns) (Ok (vecs i)))
      (concat (map ds_labels colors)) (concat lss) ->
    exists out', par_assemble_vector_into add zero umax a debug colors out out' (Ok tt) /\
      sums_to add (ca_sdim (va_conn a)) (concat lss) (map vecs (concat (map ds_labels colors))) out out' /\
      forall out'' r, par_assemble_vector_into add zero umax a debug colors out out'' r -> r = Ok tt /\ out'' = out'.
Proof. exact @par_vec_deterministic. Qed.
Print Assumptions C10_parallel_vector_deterministic.

(** C10: tasks with disjoint footprints never deadlock and every schedule is finite. *)
Theorem C10_no_deadlock :
  forall (T : Type) (add : T -> T -> T) (mem : list T) (tasks : list (list (nat * T))) (st : list T * list (option T * list (nat * T))) (n : nat),
    pairwise_disjoint (map (map fst) tasks) -> (forall us u, us ∈ tasks -> u ∈ us -> u.1 < length mem) ->
    relations.nsteps (mem_step add) n (mem, map (fun us => (None, us)) tasks) st ->
    n <= 2 * length (concat tasks) /\ (mem_done st.2 \/ exists st', mem_step add st st').
Proof. exact @mem_run_no_deadlock. Qed.
Print Assumptions C10_no_deadlock.

(** Without disjointness the interleaving semantics does lose updates, so C10 is not vacuous. *)
Example C10_race_without_disjointness :
  exists ths, rtc (mem_step Z.add) ([0%Z], [(None, [(0, 1%Z)]); (None, [(0, 1%Z)])]) ([1%Z], ths) /\ mem_done ths.
Proof.
  exists [(None, []); (None, [])]. split; [|repeat constructor].
  eapply rtc_l; [eapply (step_load _ _ _ 0); reflexivity|]. simpl.
  eapply rtc_l; [eapply (step_load _ _ _ 1); reflexivity|]. simpl.
  eapply rtc_l; [eapply (step_store _ _ _ 0); reflexivity|]. simpl.
  eapply rtc_l; [eapply (step_store _ _ _ 1); reflexivity|]. simpl. apply rtc_refl.
Qed.

Definition ex_color1 : dsubs := DSubs (Some 2) (nv_of_lists [[0]; [2; 1]]) [3; 5].
Definition ex_color2 : dsubs := DSubs (Some 1) (nv_of_lists [[1; 0]]) [4].

Example C10_example :
  let a := table_vec 2 3 [[]; []; []; [0]; [1; 0]; [2; 1]]
             (map (fun l => @Ok nat _ l) [[]; []; []; [1; 2]; [3; 4; 5; 6]; [7; 8; 9; 10]]%Z) in
  let vecs i := default [] ([[]; []; []; [1; 2]; [3; 4; 5; 6]; [7; 8; 9; 10]]%Z !! i) in
  Forall2 safe_value [ex_color1; ex_color2] [[[0]; [2; 1]]; [[1; 0]]] /\
  nodes_in_range 3 (concat [[[0]; [2; 1]]; [[1; 0]]]) /\
  Forall (fun ls : list (list nat) => exists ns, ns ∈ ls /\ ns <> []) [[[0]; [2; 1]]; [[1; 0]]] /\
  Forall2 (fun i ns => ca_count (va_conn a) i = length ns /\ yields_vec a i (length ns) (Ok (vecs i)))
      (concat (map ds_labels [ex_color1; ex_color2])) (concat [[[0]; [2; 1]]; [[1; 0]]]).
Proof.
  split_and!.
  - constructor; [|constructor; [|constructor]].
    + eapply (from_checked id_order (nv_of_lists [[0]; [2; 1]]) _ [3; 5]); [exact id_order_ok|apply of_lists_holds|vm_compute; reflexivity].
    + eapply (from_checked id_order (nv_of_lists [[1; 0]]) _ [4]); [exact id_order_ok|apply of_lists_holds|vm_compute; reflexivity].
  - intros ns k Hns Hk. simpl in Hns. repeat (apply elem_of_cons in Hns as [->|Hns]; [|]);
    repeat (apply elem_of_cons in Hk as [->|Hk]; [lia|]); try (by apply elem_of_nil in Hk); by apply elem_of_nil in Hns.
  - repeat constructor; eexists; (split; [by left|done]).
  - repeat constructor; simpl; try done; intros x [= <-]; done.
Qed.

(** C11. With the colouring of the element connectivity, every run of the parallel assembly agrees with the
    serial one when addition is associative and commutative; the parallel run fails only with the error of a
    failing element, and then the serial one fails as well. *)
Theorem C11_parallel_agrees_with_serial :
  forall (T E : Type) (add : T -> T -> T) (zero : T) (umax : nat)
         (a : @vec_asm T E) (ls : list (list nat)) (vs : list (outcome E (list T)))
         (ord : nat -> list nat -> list nat) (debug : bool) (colors : list dsubs)
         (ws : vec_ws) (out out' : list T) (r : outcome E unit),
    (forall x y z, add x (add y z) = add (add x y) z) -> (forall x y, add x y = add y x) ->
    hash_order ord -> has_conn (va_conn a) ls -> nodes_in_range (ca_nodes (va_conn a)) ls -> has_vecs a ls vs ->
    0 < ca_sdim (va_conn a) -> (Z.of_nat (length ls) <= i32_max)%Z ->
    (debug = true -> forall ns, ns ∈ ls -> ns <> []) ->
    length out = ca_sdim (va_conn a) * ca_nodes (va_conn a) ->
    color_nodes ord debug (va_conn a) = Some (Ok colors) ->
    par_assemble_vector_into add zero umax a debug colors out out' r ->
    let '(_, out'', r') := assemble_vector_into add zero umax ws out a in
    match r with
    | Ok _ => r' = Ok tt /\ out' = out''
    | Err e => (exists i, vs !! i = Some (Err e)) /\ r' <> Ok tt
    | Panic => (exists i, vs !! i = Some Panic) /\ r' <> Ok tt
    end.
Proof. exact @par_vec_agrees. Qed.
Print Assumptions C11_parallel_agrees_with_serial.

Example C11_example :
  exists colors, color_nodes id_order true (table_conn 2 3 ex_ls) = Some (Ok colors) /\
    map ds_labels colors = [[0]; [1]; [2]] /\ (forall ns, ns ∈ ex_ls -> ns <> []).
Proof.
  eexists. split; [vm_compute; reflexivity|]. split; [reflexivity|].
  intros ns Hns. unfold ex_ls in Hns. repeat (apply elem_of_cons in Hns as [->|Hns]; [done|]). by apply elem_of_nil in Hns.
Qed.

(** C20. Serial scalar assembly: the sum in element order or the error of the first failing element. *)
Theorem C20_serial_scalar :
  forall (T E : Type) (add : T -> T -> T) (zero : T) (f : nat -> outcome E T) (n : nat),
    match assemble_scalar add zero n f with
    | Ok y => exists vals, map f (seq 0 n) = map Ok vals /\ y = foldl add zero vals
    | Err e => exists l1 i l2 vals, seq 0 n = l1 ++ i :: l2 /\ map f l1 = map Ok vals /\ f i = Err e
    | Panic => exists l1 i l2 vals, seq 0 n = l1 ++ i :: l2 /\ map f l1 = map Ok vals /\ f i = Panic
    end.
Proof. intros T E add zero f n. exact (scalar_fold add f (seq 0 n) zero). Qed.
Print Assumptions C20_serial_scalar.

(** C20. Every reduction tree gives the serial result when addition is associative with neutral [zero]; it
    fails only with the error of a failing element, and then the serial assembly fails as well. *)
Theorem C20_parallel_scalar :
  forall (T E : Type) (add : T -> T -> T) (zero : T) (f : nat -> outcome E T) (n : nat) (r : outcome E T),
    (forall x y z, add x (add y z) = add (add x y) z) -> (forall x, add zero x = x) -> (forall x, add x zero = x) ->
    par_assemble_scalar add zero n f r ->
    match r with
    | Ok y => assemble_scalar add zero n f = Ok y
    | Err e => (exists i, i < n /\ f i = Err e) /\ forall y, assemble_scalar add zero n f <> Ok y
    | Panic => (exists i, i < n /\ f i = Panic) /\ forall y, assemble_scalar add zero n f <> Ok y
    end.
Proof. exact @scalar_par_agrees. Qed.
Print Assumptions C20_parallel_scalar.

Example C20_example :
  par_assemble_scalar Z.add 0%Z 3 (fun i => @Ok nat Z (Z.of_nat (10 * i + 1))) (Ok 33%Z) /\
  assemble_scalar Z.add 0%Z 3 (fun i => if decide (i = 1) then @Err nat Z 5 else Ok 1%Z) = Err 5.
Proof.
  split; [|reflexivity].
  set (f := fun i => @Ok nat Z (Z.of_nat (10 * i + 1))).
  apply (reduce_node Z.add 0%Z f 0 1 2 1%Z 32%Z); [exact (reduce_leaf Z.add 0%Z f 0 1)|].
  apply (reduce_node Z.add 0%Z f 1 1 1 11%Z 21%Z); [exact (reduce_leaf Z.add 0%Z f 1 1)|exact (reduce_leaf Z.add 0%Z f 2 1)].
Qed.

(** C21. Gather copies exactly the components of the listed nodes, and panics exactly on a wrong local length
    or an out-of-range index. *)
Theorem C21_gather_copies :
  forall (T : Type) (s : nat) (global local : list T) (indices : list nat),
    match gather_global_to_local global local indices s with
    | Ok loc => length local = length indices * s /\ length loc = length local /\
         forall il ig c, indices !! il = Some ig -> c < s ->
           s * ig + c < length global /\ loc !! (s * il + c) = global !! (s * ig + c)
    | Err _ => False
    | Panic => length local <> length indices * s \/ Exists (fun ig => length global < s * ig + s) indices
    end.
Proof.
  intros T s global local indices. pose proof (gather_spec s global local indices) as H.
  destruct (gather_global_to_local global local indices s) as [loc|[]|] eqn:E; [|done].
  destruct H as (Hl & HF & Heq). split; [done|]. split.
  - rewrite Heq, Hl. clear -HF. induction HF as [|ig indices H HF IH]; simpl; [done|].
    rewrite app_length, IH, take_length, drop_length. lia.
  - intros il ig c Hil Hc. split; [|by eapply gather_lookup].
    rewrite Forall_forall in HF. specialize (HF ig ltac:(by eapply elem_of_list_lookup_2)). lia.
Qed.
Print Assumptions C21_gather_copies.

(** C21. Scatter adds each local component to the matching global one, once per occurrence of the node. *)
Theorem C21_scatter_adds :
  forall (T : Type) (add : T -> T -> T) (s : nat) (local global : list T) (indices : list nat),
    match add_local_to_global add local global indices s with
    | Ok out => length local = length indices * s /\ sums_to add s [indices] [local] global out
    | Err _ => False
    | Panic => length local <> length indices * s \/ Exists (fun ig => length global < s * ig + s) indices
    end.
Proof.
  intros T add s local global indices. rewrite add_local_to_global_spec.
  destruct (decide _) as [[Hl HF]|Hn].
  - split; [done|]. destruct s as [|s]; [|apply sums_to_one; left; lia].
    assert (local = []) as -> by (destruct local; [done|simpl in Hl; lia]).
    split; [apply upds_length|]. intros dof x Hx. rewrite upds_lookup, Hx. simpl. f_equal.
    transitivity (foldl add x []); f_equal.
    + unfold scatter_updates. rewrite touching_concat. apply concat_nil_Forall, Forall_forall.
      intros l Hl'. apply elem_of_list_fmap in Hl' as (us & -> & Hus).
      apply elem_of_list_fmap in Hus as ([il ig] & -> & _). by rewrite drop_nil.
    + unfold contribs, elem_contrib. simpl. rewrite app_nil_r. symmetry. generalize (zip (seq 0 (length indices)) indices).
      intros l. induction l as [|[il ig] l IH]; simpl; [done|]. by destruct (decide _).
  - destruct (decide (length local = length indices * s)) as [Hl|Hl]; [right|by left].
    assert (~ Forall (fun ig => s * ig + s <= length global) indices) as HF by tauto.
    apply not_Forall_Exists in HF; [|apply _]. eapply Exists_impl; [exact HF|]. simpl. intros ig Hig. lia.
Qed.
Print Assumptions C21_scatter_adds.

(** C21. Adjointness over any commutative semiring, also for repeated indices. *)
Theorem C21_gather_scatter_adjoint :
  forall (T : Type) (zero one : T) (add mul : T -> T -> T), semi_ring_theory zero one add mul (=) ->
    forall (s : nat) (u v local loc out : list T) (indices : list nat),
      gather_global_to_local u local indices s = Ok loc ->
      add_local_to_global add v (replicate (length u) zero) indices s = Ok out ->
      dot zero add mul loc v = dot zero add mul u out.
Proof. exact @gather_scatter_adjoint. Qed.
Print Assumptions C21_gather_scatter_adjoint.

Example C21_example :
  gather_global_to_local [1; 2; 3; 4]%Z [0; 0; 0; 0]%Z [1; 1] 2 = Ok [3; 4; 3; 4]%Z /\
  add_local_to_global Z.add [10; 20; 30; 40]%Z (replicate 4 0%Z) [1; 1] 2 = Ok [0; 0; 40; 60]%Z /\
  dot 0%Z Z.add Z.mul [3; 4; 3; 4]%Z [10; 20; 30; 40]%Z = 360%Z /\ dot 0%Z Z.add Z.mul [1; 2; 3; 4]%Z [0; 0; 40; 60]%Z = 360%Z.
Proof. vm_compute. auto. Qed.

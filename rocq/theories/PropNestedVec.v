(** C01, C02: NestedVec. *)
From stdpp Require Import base list list_numbers.
From Verif Require Import Prelude NestedVecModel NestedVecSpec NestedVecProofs.

(** C01. Every history of public operations (including leaked appenders) panics exactly when the same
    history on a vector of vectors does, and otherwise all observers agree with it. *)
Theorem C01_nested_vec_refines_vec_of_vecs :
  forall (T : Type) (os : list (op T)),
    match run_ops os, spec_ops os with
    | Ok v, Ok l => shows v l
    | Panic, Panic => True
    | _, _ => False
    end.
Proof. exact @nested_vec_refines. Qed.
Print Assumptions C01_nested_vec_refines_vec_of_vecs.

Example C01_example :
  exists v : nvec nat,
    run_ops [OpPush [1; 2]; OpAppend [3; 4; 5]; OpPush []; OpWrite 1 2 9; OpWriteLast 0 7] = Panic /\
    run_ops [OpPush [1; 2]; OpAppend [3; 4; 5]; OpWrite 1 2 9; OpWriteFirst 0 8; OpPush []] = Ok v /\
    shows v [[8; 2]; [3; 4; 9]; []].
Proof.
  eexists. split; [reflexivity|]. split; [reflexivity|].
  pose proof (C01_nested_vec_refines_vec_of_vecs nat
    [OpPush [1; 2]; OpAppend [3; 4; 5]; OpWrite 1 2 9; OpWriteFirst 0 8; OpPush []]) as H. exact H.
Qed.

(** C01, live appender: after pushing [xs], [count] is the number of pushed elements. *)
Theorem C01_appender_count :
  forall (T : Type) (v : nvec T) (xs : list T),
    ap_count (foldl ap_push_single (nv_begin_array v) xs) = Some (length xs).
Proof. exact @appender_count. Qed.
Print Assumptions C01_appender_count.

Example C01_appender_count_example :
  ap_count (foldl ap_push_single (nv_begin_array (nv_of_lists [[1]; [2; 3]])) [4; 5]) = Some 2.
Proof. reflexivity. Qed.

(** C02, conversions: Vec<Vec<T>> -> NestedVec -> Vec<Vec<T>> is the identity. *)
Theorem C02_roundtrip_lists :
  forall (T : Type) (l : list (list T)), nv_to_lists (nv_of_lists l) = Some l.
Proof. exact @nested_vec_roundtrip. Qed.
Print Assumptions C02_roundtrip_lists.

(** C02, conversions: NestedVec -> Vec<Vec<T>> -> NestedVec is the identity (bit for bit) on every
    value reachable without leaking an appender. *)
Theorem C02_roundtrip_nested :
  forall (T : Type) (os : list (op T)) (v : nvec T) (l : list (list T)),
    Forall no_leak os -> run_ops os = Ok v -> nv_to_lists v = Some l -> nv_of_lists l = v.
Proof. exact @nested_vec_roundtrip_back. Qed.
Print Assumptions C02_roundtrip_nested.

(** C02, equality: derived [==] coincides with equality of contents for any two histories. *)
Theorem C02_eq_is_extensional :
  forall (T : Type) (os1 os2 : list (op T)) (v1 v2 : nvec T) (l1 l2 : list (list T)),
    Forall no_leak os1 -> Forall no_leak os2 ->
    run_ops os1 = Ok v1 -> run_ops os2 = Ok v2 ->
    nv_iter v1 = Some l1 -> nv_iter v2 = Some l2 ->
    (nv_eq v1 v2 <-> l1 = l2).
Proof. exact @nested_vec_eq_iff. Qed.
Print Assumptions C02_eq_is_extensional.

Example C02_example :
  exists v1 v2 : nvec nat,
    run_ops [OpPush [7]; OpClear; OpAppend [1; 2]; OpPush [0; 3]; OpWrite 1 0 4] = Ok v1 /\
    run_ops [OpPush [1; 2]; OpPush [4; 3]] = Ok v2 /\
    nv_iter v1 = Some [[1; 2]; [4; 3]] /\ nv_eq v1 v2 /\
    nv_of_lists [[1; 2]; [4; 3]] = v1 /\ nv_to_lists v1 = Some [[1; 2]; [4; 3]].
Proof. do 2 eexists. unfold nv_eq. split_and!; reflexivity. Qed.

(** C02 needs the no-leak hypothesis: leaking an appender leaves two vectors with equal contents that
    compare different. *)
Theorem C02_eq_with_leak_refuted :
  exists (os1 os2 : list (op nat)) (v1 v2 : nvec nat) (l : list (list nat)),
    run_ops os1 = Ok v1 /\ run_ops os2 = Ok v2 /\
    nv_iter v1 = Some l /\ nv_iter v2 = Some l /\ ~ nv_eq v1 v2.
Proof.
  exists [OpLeak [1]; OpPush [2]], [OpPush [2]]. do 2 eexists. exists [[2]].
  split_and!; try (vm_compute; reflexivity). intros [H _]. vm_compute in H. discriminate H.
Qed.
Print Assumptions C02_eq_with_leak_refuted.

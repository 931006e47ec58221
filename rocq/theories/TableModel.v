(** Aggregated element assemblers, the typed workspace and quadrature tables. *)
From stdpp Require Import base list.
From Verif Require Import Prelude.

(** * src/assembly/local.rs 152-281: [AggregateElementAssembler] *)
Section Aggregate.
  Context {Q : Type}.

  (** [asm_query] stands for any of the per-element methods ([element_node_count], [populate_element_nodes], element scalar,
      vector, matrix), called with a local element index. *)
  Record assembler := Assembler {
    asm_sdim : nat;
    asm_num_elements : nat;
    asm_num_nodes : nat;
    asm_query : nat -> Q;
  }.

  Record aggregate := Aggregate {
    agg_assemblers : list assembler;
    agg_sdim : nat;
    agg_num_elements : nat;
    agg_num_nodes : nat;
    agg_offsets : list nat;
  }.

  (** 171-203 [from_assemblers] *)
  Definition from_assemblers (asms : list assembler) : outcome unit aggregate :=
    match asms with
    | [] => Panic
    | a0 :: _ =>
        if decide (Forall (fun a => asm_sdim a = asm_sdim a0) asms) then
          if decide (Forall (fun a => asm_num_nodes a = asm_num_nodes a0) asms) then
            let '(offsets, total) :=
              foldl (fun '(offsets, total) a => (offsets ++ [total], total + asm_num_elements a)) ([], 0) asms in
            Ok (Aggregate asms (asm_sdim a0) total (asm_num_nodes a0) offsets)
          else Panic
        else Panic
    end.

  (** [slice::binary_search]: which of several equal entries is found is not specified, so the search is a parameter;
      [inl i] is [Ok(i)] and [inr i] is [Err(i)]. *)
  Variable bsearch : list nat -> nat -> nat + nat.

  (** 205-212 [find_assembler_and_offset_for_element_index] *)
  Definition find_assembler (g : aggregate) (k : nat) : outcome unit (assembler * nat) :=
    if decide (k <= agg_num_elements g) then
      let idx := match bsearch (agg_offsets g) k with
                 | inl i => Some i
                 | inr 0 => None
                 | inr (S i) => Some i
                 end in
      match idx with
      | None => Panic
      | Some i =>
          match agg_assemblers g !! i, agg_offsets g !! i with
          | Some a, Some o => Ok (a, o)
          | _, _ => Panic
          end
      end
    else Panic.

  (** 231-281: every query is forwarded with the local index (subtraction below zero would panic). *)
  Definition agg_query (g : aggregate) (k : nat) : outcome unit Q :=
    let! ao := find_assembler g k in
    let '(a, o) := ao in
    if decide (o <= k) then Ok (asm_query a (k - o)) else Panic.
End Aggregate.
Arguments assembler : clear implicits.
Arguments aggregate : clear implicits.

(** [core::slice::binary_search_by] as of Rust 1.82: the search continues to the right of an equal entry. *)
Fixpoint bs_loop (fuel : nat) (l : list nat) (x base size : nat) : nat :=
  match fuel with
  | 0 => base
  | S fuel =>
      if decide (1 < size) then
        let half := size / 2 in
        let mid := base + half in
        let base := if decide (x < default 0 (l !! mid)) then base else mid in
        bs_loop fuel l x base (size - half)
      else base
  end.
Definition std_bsearch (l : list nat) (x : nat) : nat + nat :=
  if decide (length l = 0) then inr 0
  else
    let base := bs_loop (length l) l x 0 (length l) in
    let v := default 0 (l !! base) in
    if decide (v = x) then inl base else inr (base + (if decide (v < x) then 1 else 0)).

(** * src/workspace.rs 17-44: [Workspace::get_or_insert_with]

    A slot is a boxed value with its type identity; values of all types live in one type [V] here, a slot belongs to the type
    it is tagged with. The reference that is returned is used by the caller to replace the value ([write]). *)
Section Workspace.
  Context {V : Type}.

  (** [iter().rposition(..)] *)
  Fixpoint rposition (ty : nat) (ws : list (nat * V)) : option nat :=
    match ws with
    | [] => None
    | s :: ws =>
        match rposition ty ws with
        | Some i => Some (S i)
        | None => if decide (s.1 = ty) then Some 0 else None
        end
    end.

  (** [Vec::swap] *)
  Definition swap_slots (ws : list (nat * V)) (i j : nat) : option (list (nat * V)) :=
    match ws !! i, ws !! j with
    | Some x, Some y => Some (<[i := y]> (<[j := x]> ws))
    | _, _ => None
    end.

  (** 17-44. Result: the value behind the reference, and the workspace after the caller wrote through it. *)
  Definition get_or_insert_with (ty : nat) (create : V) (write : V -> V) (ws : list (nat * V)) : outcome unit (V * list (nat * V)) :=
    let '(idx, ws) := match rposition ty ws with
                      | Some idx => (idx, ws)
                      | None => (length ws, ws ++ [(ty, create)])
                      end in
    let last := length ws - 1 in
    match swap_slots ws idx last with
    | None => Panic
    | Some ws =>
        match ws !! last with
        | Some (ty', v) => if decide (ty' = ty) then Ok (v, <[last := (ty, write v)]> ws) else Panic
        | None => Panic
        end
    end.

  Record access := Access { acc_type : nat; acc_create : V; acc_write : V -> V }.

  (** A history of accesses: the values seen, and the final workspace. *)
  Fixpoint run_accesses (ws : list (nat * V)) (h : list access) : outcome unit (list V * list (nat * V)) :=
    match h with
    | [] => Ok ([], ws)
    | a :: h =>
        let! r := get_or_insert_with (acc_type a) (acc_create a) (acc_write a) ws in
        let! r' := run_accesses r.2 h in
        Ok (r.1 :: r'.1, r'.2)
    end.
End Workspace.
Arguments access : clear implicits.

(** * src/assembly/local/quadrature_table.rs; [NestedVec] is a list of lists *)
Section Tables.
  Context {P W D : Type}.

  (** 93-126 [check_rules_consistency] *)
  Definition rules_consistent (points : list (list P)) (weights : list (list W)) (data : list (list D)) : Prop :=
    length points = length weights /\ length points = length data /\
    Forall (fun '(p, w, d) => length p = length w /\ length p = length d) (zip (zip points weights) data).
  Global Instance rules_consistent_dec points weights data : Decision (rules_consistent points weights data).
  Proof. unfold rules_consistent. apply and_dec; [apply _|]. apply and_dec; [apply _|]. apply Forall_dec. intros [[p w] d]. apply _. Defined.

  Record general := General { gen_points : list (list P); gen_weights : list (list W); gen_data : list (list D) }.
  (** 134-141 *)
  Definition general_from (points : list (list P)) (weights : list (list W)) (data : list (list D)) : outcome unit general :=
    if decide (rules_consistent points weights data) then Ok (General points weights data) else Panic.

  (** the slice copies: the output slices have the lengths given and are overwritten *)
  Definition copy_checked {A} (src : option (list A)) (len : nat) : outcome unit (list A) :=
    match src with
    | None => Panic
    | Some l => if decide (length l = len) then Ok l else Panic
    end.

  (** 174-210 *)
  Definition general_size (t : general) (e : nat) : outcome unit nat :=
    match gen_weights t !! e with Some w => Ok (length w) | None => Panic end.
  Definition general_data (t : general) (e len : nat) : outcome unit (list D) := copy_checked (gen_data t !! e) len.
  Definition general_quadrature (t : general) (e plen wlen : nat) : outcome unit (list P * list W) :=
    let! p := match gen_points t !! e with None => Panic | Some p => Ok p end in
    let! w := match gen_weights t !! e with None => Panic | Some w => Ok w end in
    let! p := copy_checked (Some p) plen in
    let! w := copy_checked (Some w) wlen in
    Ok (p, w).

  Record uniform := Uniform { uni_points : list P; uni_weights : list W; uni_data : list D }.
  (** 245-262 *)
  Definition uniform_from (points : list P) (weights : list W) (data : list D) : outcome unit uniform :=
    if decide (length points = length weights) then
      if decide (length points = length data) then Ok (Uniform points weights data) else Panic
    else Panic.
  Definition uniform_from_quadrature (q : list W * list P) (d : D) : outcome unit uniform :=
    let '(weights, points) := q in uniform_from points weights (repeat d (length weights)).
  (** 278-298 *)
  Definition uniform_size (t : uniform) (_ : nat) : outcome unit nat := Ok (length (uni_points t)).
  Definition uniform_data (t : uniform) (_ : nat) (len : nat) : outcome unit (list D) := copy_checked (Some (uni_data t)) len.
  Definition uniform_quadrature (t : uniform) (_ : nat) (plen wlen : nat) : outcome unit (list P * list W) :=
    let! p := copy_checked (Some (uni_points t)) plen in
    let! w := copy_checked (Some (uni_weights t)) wlen in
    Ok (p, w).

  Record compact := Compact { com_points : list (list P); com_weights : list (list W); com_data : list (list D); com_map : list nat }.
  (** 357-381 *)
  Definition compact_from (points : list (list P)) (weights : list (list W)) (data : list (list D)) (map : list nat) : outcome unit compact :=
    if decide (rules_consistent points weights data) then
      if decide (Forall (fun r => r < length points) map) then Ok (Compact points weights data map) else Panic
    else Panic.
  (** 383-439 *)
  Definition compact_rule (t : compact) (e : nat) : outcome unit nat :=
    match com_map t !! e with Some r => Ok r | None => Panic end.
  Definition compact_size (t : compact) (e : nat) : outcome unit nat :=
    let! r := compact_rule t e in
    match com_points t !! r with Some p => Ok (length p) | None => Panic end.
  Definition compact_data (t : compact) (e len : nat) : outcome unit (list D) :=
    let! r := compact_rule t e in copy_checked (com_data t !! r) len.
  Definition compact_quadrature (t : compact) (e plen wlen : nat) : outcome unit (list P * list W) :=
    let! r := compact_rule t e in
    let! p := match com_points t !! r with None => Panic | Some p => Ok p end in
    let! w := match com_weights t !! r with None => Panic | Some w => Ok w end in
    let! p := copy_checked (Some p) plen in
    let! w := copy_checked (Some w) wlen in
    Ok (p, w).
End Tables.
Arguments general : clear implicits.
Arguments uniform : clear implicits.
Arguments compact : clear implicits.

(** 71-77 [unit_data_table_for_weights], 86-89 and 341-348: tables without data *)
Definition unit_data {W} (weights : list (list W)) : list (list unit) := map (fun w => repeat tt (length w)) weights.
Definition general_from_points_and_weights {P W} (points : list (list P)) (weights : list (list W)) : outcome unit (general P W unit) :=
  general_from points weights (unit_data weights).
Definition compact_from_points_and_weights {P W} (points : list (list P)) (weights : list (list W)) (map : list nat) :
    outcome unit (compact P W unit) := compact_from points weights (unit_data weights) map.

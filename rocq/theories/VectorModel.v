(** Model of src/assembly/global.rs, vector and scalar part (lines 553-796), and color_nodes (539-551). *)
From stdpp Require Import base list list_numbers relations.
From Coq Require Import ZArith.
From Verif Require Import Prelude NestedVecModel ParadisModel.

(** src/assembly/local.rs:18-46 [trait ElementConnectivityAssembler]: user callbacks. [ca_populate i buf] is
    the buffer of length [ca_count i] after [populate_element_nodes] has run on the buffer [buf]. *)
Record conn_asm := ConnAsm {
  ca_sdim : nat;
  ca_nodes : nat;
  ca_elems : nat;
  ca_count : nat -> nat;
  ca_populate : nat -> list nat -> list nat;
}.

Section model.
Context {T E : Type} (add : T -> T -> T) (zero : T).

(** [x[i] += v] on a slice (no effect out of bounds; callers check). *)
Definition upd (out : list T) (u : nat * T) : list T := alter (fun x => add x u.2) u.1 out.

(** [a += b] for an [s]-row view starting at [off]: single additions in order. *)
Definition block_updates (off : nat) (xs : list T) : list (nat * T) := zip (seq off (length xs)) xs.

(** global.rs:751-768 [gather_global_to_local_]. Views [(s*i..s*i+s, 0)] panic when out of bounds. *)
Definition gather_global_to_local (global local : list T) (indices : list nat) (s : nat)
  : outcome Empty_set (list T) :=
  if decide (length local = length indices * s) then
    ofold (fun loc '(il, ig) =>
      match slice_get global (s * ig) (s * ig + s) with
      | Some xs => if decide (s * il + s <= length loc)
                   then Ok (take (s * il) loc ++ xs ++ drop (s * il + s) loc) else Panic
      | None => Panic
      end) local (zip (seq 0 (length indices)) indices)
  else Panic.

(** global.rs:779-796 [add_local_to_global_]. *)
Definition add_local_to_global (local global : list T) (indices : list nat) (s : nat)
  : outcome Empty_set (list T) :=
  if decide (length local = length indices * s) then
    ofold (fun glob '(il, ig) =>
      if decide (s * ig + s <= length glob) then
        match slice_get local (s * il) (s * il + s) with
        | Some xs => Ok (foldl upd glob (block_updates (s * ig) xs))
        | None => Panic
        end
      else Panic) global (zip (seq 0 (length indices)) indices)
  else Panic.

(** src/assembly/local.rs:103-117 [trait ElementVectorAssembler]: [va_vec i buf] is what
    [assemble_element_vector_into] leaves in a buffer holding [buf], or its error. *)
Record vec_asm := VecAsm {
  va_conn : conn_asm;
  va_vec : nat -> list T -> outcome E (list T);
}.

(** global.rs:553-557 [VectorAssemblerWorkspace]. *)
Record vec_ws := VecWs { vw_vector : list T; vw_nodes : list nat }.

(** usize::MAX, the fill value of new node slots (global.rs:598, 665); any number. *)
Context (usize_max : nat).

(** global.rs:597-603 and 663-669: buffers prepared for element [i], nodes populated, element vector
    assembled. On failure the vector buffer is left as it was resized (the callback may have written part of
    it; later uses do not depend on its contents). *)
Definition prepare_element (a : vec_asm) (ws : vec_ws) (i : nat) : vec_ws * outcome E (list T) :=
  let c := va_conn a in
  let nodes := ca_populate c i (vec_resize (vw_nodes ws) (ca_count c i) usize_max) in
  let buf := vec_resize (vw_vector ws) (ca_sdim c * ca_count c i) zero in
  match va_vec a i buf with
  | Ok v => (VecWs v nodes, Ok v)
  | r => (VecWs buf nodes, r)
  end.

(** global.rs:596-605: the loop over elements, with the state of workspace and output kept on failure. *)
Fixpoint vector_loop (a : vec_asm) (ws : vec_ws) (out : list T) (is : list nat)
  : vec_ws * list T * outcome E unit :=
  match is with
  | [] => (ws, out, Ok tt)
  | i :: is =>
      let '(ws, r) := prepare_element a ws i in
      match r with
      | Ok v =>
          match add_local_to_global v out (vw_nodes ws) (ca_sdim (va_conn a)) with
          | Ok out => vector_loop a ws out is
          | _ => (ws, out, Panic)
          end
      | Err e => (ws, out, Err e)
      | Panic => (ws, out, Panic)
      end
  end.

(** global.rs:582-608 [VectorAssembler::assemble_vector_into]. *)
Definition assemble_vector_into (ws : vec_ws) (out : list T) (a : vec_asm) : vec_ws * list T * outcome E unit :=
  if decide (length out = ca_sdim (va_conn a) * ca_nodes (va_conn a)) then
    vector_loop a ws out (seq 0 (ca_elems (va_conn a)))
  else (ws, out, Panic).

(** global.rs:610-615 [VectorAssembler::assemble_vector]. *)
Definition assemble_vector (ws : vec_ws) (a : vec_asm) : vec_ws * outcome E (list T) :=
  let '(ws, out, r) := assemble_vector_into ws (replicate (ca_sdim (va_conn a) * ca_nodes (va_conn a)) zero) a in
  (ws, let! _ := r in Ok out).

(** ** Parallel assembly *)

(** global.rs:671-677: the single-location additions of the task for one subset, in program order:
    [subset.get_mut(local)] (checked slice access), [block.index_mut(i)] (checked block access),
    [ws.vector.rows(s*local, s)[i]]. *)
Definition task_updates (s : nat) (acc : subset_access) (count : nat) (v : list T)
  : outcome E (list (nat * T)) :=
  ofold (fun us '(local, i) =>
      match sa_get acc local with
      | Ok g => match block_get s g i, v !! (s * local + i) with
                | Some x, Some y => Ok (us ++ [(x, y)])
                | _, _ => Panic
                end
      | _ => Panic
      end) [] (local ← seq 0 count; i ← seq 0 s; [(local, i)]).

(** global.rs:659-680: the closure run on one subset, with whatever workspace [ws] the worker thread has;
    yields the additions it performs, or its error. *)
Definition vector_task (a : vec_asm) (ws : vec_ws) (acc : subset_access) : outcome E (list (nat * T)) :=
  let i := sa_label acc in
  match (prepare_element a ws i).2 with
  | Ok v => task_updates (ca_sdim (va_conn a)) acc (ca_count (va_conn a) i) v
  | Err e => Err e
  | Panic => Panic
  end.

(** Execution of concurrent tasks on shared memory: a task is its remaining additions and, between the load
    and the store of [x += v], the loaded value. *)
Notation thread := (option T * list (nat * T))%type (only parsing).

Inductive mem_step : list T * list thread -> list T * list thread -> Prop :=
| step_load mem ths k i v us x :
    ths !! k = Some (None, (i, v) :: us) -> mem !! i = Some x ->
    mem_step (mem, ths) (mem, <[k := (Some x, (i, v) :: us)]> ths)
| step_store mem ths k i v us x :
    ths !! k = Some (Some x, (i, v) :: us) ->
    mem_step (mem, ths) (<[i := add x v]> mem, <[k := (None, us)]> ths).

Definition mem_done (ths : list thread) : Prop := Forall (fun t => t = (None, [])) ths.

(** One colour, global.rs:655-681, as the set of its possible results: [ws k] is the workspace found by the
    [k]-th item; [items] are the items handed out (C04). A failing item may prevent others from running, and
    collect() returns the error of some failing item; nothing is said about the output then. *)
Inductive color_run (a : vec_asm) (ws : nat -> vec_ws) (items : list subset_access) (out : list T)
  : list T -> outcome E unit -> Prop :=
| color_ok tasks out' ths :
    Forall2 (fun kacc us => vector_task a (ws kacc.1) kacc.2 = Ok us) (zip (seq 0 (length items)) items) tasks ->
    rtc mem_step (out, map (fun us => (None, us)) tasks) (out', ths) -> mem_done ths ->
    color_run a ws items out out' (Ok tt)
| color_err k acc e out' :
    items !! k = Some acc -> vector_task a (ws k) acc = Err e -> color_run a ws items out out' (Err e)
| color_panic k acc out' :
    items !! k = Some acc -> vector_task a (ws k) acc = Panic -> color_run a ws items out out' Panic.

(** global.rs:654-684, the loop over colours; [debug] selects the debug assertion of [subsets_par_iter]. The
    items of a colour are those of some complete run of the parallel iterator. *)
Inductive colors_run (a : vec_asm) (debug : bool) : list dsubs -> list T -> list T -> outcome E unit -> Prop :=
| colors_nil out : colors_run a debug [] out out (Ok tt)
| colors_start_panic c colors out :
    (block_adapter_len (length out) (ca_sdim (va_conn a)) = Panic \/
     exists n, block_adapter_len (length out) (ca_sdim (va_conn a)) = Ok n /\ par_iter_start debug c n = Panic) ->
    colors_run a debug (c :: colors) out out Panic
| colors_cons c colors out out1 out2 n range t items its ws r :
    block_adapter_len (length out) (ca_sdim (va_conn a)) = Ok n ->
    par_iter_start debug c n = Ok range ->
    run_tree c (Producer range.1 range.2) t = Ok (items, its) ->
    Forall (fun it => it_len it = 0) its ->
    color_run a ws items out out1 (Ok tt) ->
    colors_run a debug colors out1 out2 r ->
    colors_run a debug (c :: colors) out out2 r
| colors_stop c colors out out1 n range t items its ws r :
    block_adapter_len (length out) (ca_sdim (va_conn a)) = Ok n ->
    par_iter_start debug c n = Ok range ->
    run_tree c (Producer range.1 range.2) t = Ok (items, its) ->
    color_run a ws items out out1 r -> r <> Ok tt ->
    colors_run a debug (c :: colors) out out1 r.

(** global.rs:643-685 [VectorParAssembler::assemble_vector_into]. *)
Inductive par_assemble_vector_into (a : vec_asm) (debug : bool) (colors : list dsubs) (out : list T)
  : list T -> outcome E unit -> Prop :=
| par_vec_dims : length out <> ca_sdim (va_conn a) * ca_nodes (va_conn a) ->
    par_assemble_vector_into a debug colors out out Panic
| par_vec_run out' r : length out = ca_sdim (va_conn a) * ca_nodes (va_conn a) ->
    colors_run a debug colors out out' r ->
    par_assemble_vector_into a debug colors out out' r.

(** ** Scalars *)

(** global.rs:697-710 [assemble_scalar]; [f i] is the (error-wrapped) [assemble_element_scalar(i)]. *)
Definition assemble_scalar (n : nat) (f : nat -> outcome E T) : outcome E T :=
  ofold (fun acc i => let! x := f i in Ok (add acc x)) zero (seq 0 n).

(** A rayon [try_reduce] over an index range: the range is split recursively; a leaf folds its items from the
    identity; halves are combined with the operation; errors win (either one if both fail). *)
Inductive reduce (f : nat -> outcome E T) : nat -> nat -> outcome E T -> Prop :=
| reduce_leaf from len : reduce f from len
    (ofold (fun acc i => let! x := f i in Ok (add acc x)) zero (seq from len))
| reduce_node from l1 l2 x y :
    reduce f from l1 (Ok x) -> reduce f (from + l1) l2 (Ok y) -> reduce f from (l1 + l2) (Ok (add x y))
| reduce_stop_l from l1 l2 r : (forall x, r <> Ok x) -> reduce f from l1 r -> reduce f from (l1 + l2) r
| reduce_stop_r from l1 l2 r : (forall x, r <> Ok x) -> reduce f (from + l1) l2 r -> reduce f from (l1 + l2) r.

(** global.rs:724-739 [par_assemble_scalar]. *)
Definition par_assemble_scalar (n : nat) (f : nat -> outcome E T) (r : outcome E T) : Prop := reduce f 0 n r.

End model.

(** global.rs:540-551 [color_nodes]: the nested vector of element nodes (with a reused buffer), coloured. *)
Definition collect_nodes (c : conn_asm) : nvec nat :=
  (foldl (fun '(nested, buf) i =>
      let buf := ca_populate c i (vec_resize buf (ca_count c i) 0) in (nv_push nested buf, buf))
    (nv_new, []) (seq 0 (ca_elems c))).1.

Definition color_nodes ord debug (c : conn_asm) : option (outcome not_disjoint (list dsubs)) :=
  sequential_greedy_coloring ord debug (collect_nodes c).

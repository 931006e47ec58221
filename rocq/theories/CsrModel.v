(** Model of src/assembly/global.rs, matrix part (lines 25-377, 497-537), and of the row access of
    fenris-sparse/src/sparse.rs:173-279. *)
From stdpp Require Import base list list_numbers sorting relations.
From Verif Require Import Prelude NestedVecModel ParadisModel VectorModel.

(** nalgebra_sparse [SparsityPattern] (external crate): major offsets, minor indices, number of columns. *)
Record pattern := Pattern { pt_offs : list nat; pt_cols : list nat; pt_ncols : nat }.
Definition pt_nrows (p : pattern) : nat := length (pt_offs p) - 1.

(** Row [r]: first position and column indices. [None] is the out-of-bounds panic of [row_mut]
    (global.rs:165). sparse.rs:251-261 [get_unchecked_mut] reads the same offsets unchecked. *)
Definition pat_row (p : pattern) (r : nat) : option (nat * list nat) :=
  b ← pt_offs p !! r; e ← pt_offs p !! S r; cs ← slice_get (pt_cols p) b e; Some (b, cs).

(** nalgebra_sparse [CsrMatrix] (external crate). *)
Record csr {T : Type} := Csr { cs_pat : pattern; cs_vals : list T }.
Arguments csr : clear implicits.
Arguments Csr {T} _ _.

(** ** Sparsity pattern *)

(** global.rs:76-80: [node_sets[node_i].insert(node_j)] for all pairs; sets are duplicate-free lists. *)
Definition insert_pairs {E} (sets : list (list nat)) (ns : list nat) : outcome E (list (list nat)) :=
  ofold (fun sets '(a, b) =>
    match sets !! a with Some s => Ok (<[a := (set_insert s b).1]> sets) | None => Panic end)
    sets (a ← ns; b ← ns; [(a, b)]).

(** global.rs:69-81: the node sets, with a reused buffer. *)
Definition node_sets {E} (umax : nat) (c : conn_asm) : outcome E (list (list nat)) :=
  let! st := ofold (fun '(sets, buf) i =>
      let buf := ca_populate c i (vec_resize buf (ca_count c i) umax) in
      let! sets := insert_pairs sets buf in Ok (sets, buf))
    (replicate (ca_nodes c) [], []) (seq 0 (ca_elems c)) in
  Ok st.1.

(** global.rs:83-92 and 242-251: offsets. *)
Definition pattern_offsets (s : nat) (sets : list (list nat)) : list nat * nat :=
  foldl (fun st (set : list nat) =>
      foldl (fun '(offs, cur) _ => let count := s * length set in (offs ++ [cur + count], cur + count))
        st (seq 0 s))
    ([0], 0) sets.

(** [sort_unstable] on a vector of numbers (std): any sorting algorithm gives this list. *)
Definition sort_nat (l : list nat) : list nat := merge_sort le l.

(** global.rs:103-108: columns of one row of a node with neighbours [buf]. *)
Definition row_cols (s : nat) (buf : list nat) : list nat := n ← buf; map (fun j => s * n + j) (seq 0 s).

(** global.rs:95-110; [ord k set] is the iteration order of the [k]-th hash set. *)
Definition pattern_cols (ord : nat -> list nat -> list nat) (s : nat) (sets : list (list nat)) : list nat :=
  concat (imap (fun k set =>
      let buf := sort_nat (ord k set) in concat (replicate s (row_cols s buf))) sets).

(** global.rs:93, 112, 119: the two assertions and the unchecked construction. The debug assertion at 114-118
    tests the validity that theorem C12 proves, so it cannot fire and is left out. *)
Definition finish_pattern {E} (rows : nat) (offs : list nat) (cols : list nat) : outcome E pattern :=
  if decide (length offs = rows + 1) then
    if decide (last offs = Some (length cols)) then Ok (Pattern offs cols rows) else Panic
  else Panic.

(** global.rs:65-120 [CsrAssembler::assemble_pattern]. *)
Definition assemble_pattern {E} ord (umax : nat) (c : conn_asm) : outcome E pattern :=
  let! sets := node_sets umax c in
  let offs := (pattern_offsets (ca_sdim c) sets).1 in
  finish_pattern (ca_sdim c * ca_nodes c) offs (pattern_cols ord (ca_sdim c) sets).

(** ** Values *)
Section values.
Context {T E : Type} (add : T -> T -> T) (zero : T).

(** src/assembly/local.rs:77-79 [ElementMatrixAssembler]: [ma_mat i buf] is what
    [assemble_element_matrix_into] leaves in a matrix (list of rows) holding [buf], or its error. *)
Record mat_asm := MatAsm {
  ma_conn : conn_asm;
  ma_mat : nat -> list (list T) -> outcome E (list (list T));
}.

(** [Iterator::find] on the remaining (position, column) pairs: position of the first column equal to [c] and
    what is left of the iterator. *)
Fixpoint find_col (pos : nat) (rest : list nat) (c : nat) : option (nat * list nat) :=
  match rest with
  | [] => None
  | x :: rest => if decide (x = c) then Some (pos, rest) else find_col (S pos) rest c
  end.

(** global.rs:504-537 [add_element_row_to_csr_row]: the additions (position in the row, value) it performs, in
    order. A panic after some additions is a panic of the whole call. *)
Definition add_element_row (cols conn perm : list nat) (dim : nat) (local_row : list T)
  : outcome E (list (nat * T)) :=
  if decide (length conn = length perm) then
    if decide (length conn * dim = length local_row) then
      if decide (1 <= dim) then
        let! st := ofold (fun '(pos, rest, us) '(nl, i) =>
            match conn !! nl with
            | None => Panic
            | Some g =>
                match find_col pos rest (dim * g + i), local_row !! (dim * nl + i) with
                | Some (p, rest), Some v => Ok (S p, rest, us ++ [(p, v)])
                | _, _ => Panic
                end
            end) (0, cols, []) (nl ← perm; i ← seq 0 dim; [(nl, i)]) in
        Ok st.2
      else Panic
    else Panic
  else Panic.

(** global.rs:161-178: all rows of an element; additions at positions of the value array. The pattern is not
    modified, so the additions do not depend on the values. *)
Definition element_updates (p : pattern) (conn perm : list nat) (dim : nat) (A : list (list T))
  : outcome E (list (nat * T)) :=
  ofold (fun us '(il, g, i) =>
      match pat_row p (dim * g + i), A !! (dim * il + i) with
      | Some (b, cols), Some a_row =>
          let! row_us := add_element_row cols conn perm dim a_row in
          Ok (us ++ map (fun u => (b + u.1, u.2)) row_us)
      | _, _ => Panic
      end) [] ('(il, g) ← zip (seq 0 (length conn)) conn; i ← seq 0 dim; [(il, g, i)]).

(** [DMatrix::resize_mut] (nalgebra): keeps the common block and fills with [zero]. *)
Definition mat_resize (A : list (list T)) (n : nat) : list (list T) :=
  map (fun r => vec_resize r n zero) (vec_resize A n []).

(** global.rs:41-48 [CsrAssemblerWorkspace] ([connectivity_permutation] is overwritten before each use). *)
Record csr_ws := CsrWs { cw_nodes : list nat; cw_mat : list (list T) }.

(** global.rs:147-159: buffers, element matrix, nodes. [srt keys] is the result of sorting the local indices by
    key with [sort_unstable_by_key]: the order of equal keys is unspecified, hence an argument. *)
Definition prepare_matrix (a : mat_asm) (ws : csr_ws) (i : nat) : csr_ws * outcome E (list (list T)) :=
  let c := ma_conn a in
  let nodes := vec_resize (cw_nodes ws) (ca_count c i) 0 in
  let buf := mat_resize (cw_mat ws) (ca_sdim c * ca_count c i) in
  match ma_mat a i buf with
  | Ok A => (CsrWs (ca_populate c i nodes) A, Ok A)
  | r => (CsrWs nodes buf, r)
  end.

Context (srt : list nat -> list nat).

(** global.rs:146-179, the loop over elements. *)
Fixpoint csr_loop (a : mat_asm) (ws : csr_ws) (p : pattern) (vals : list T) (is : list nat)
  : csr_ws * list T * outcome E unit :=
  match is with
  | [] => (ws, vals, Ok tt)
  | i :: is =>
      let '(ws, r) := prepare_matrix a ws i in
      match r with
      | Ok A =>
          match element_updates p (cw_nodes ws) (srt (cw_nodes ws)) (ca_sdim (ma_conn a)) A with
          | Ok us => csr_loop a ws p (foldl (upd add) vals us) is
          | Err e => (ws, vals, Err e)
          | Panic => (ws, vals, Panic)
          end
      | Err e => (ws, vals, Err e)
      | Panic => (ws, vals, Panic)
      end
  end.

(** global.rs:133-182 [CsrAssembler::assemble_into_csr]. *)
Definition assemble_into_csr (ws : csr_ws) (m : csr T) (a : mat_asm) : csr_ws * csr T * outcome E unit :=
  let '(ws, vals, r) := csr_loop a ws (cs_pat m) (cs_vals m) (seq 0 (ca_elems (ma_conn a))) in
  (ws, Csr (cs_pat m) vals, r).

(** global.rs:124-131 [CsrAssembler::assemble]. *)
Definition assemble_csr ord (umax : nat) (ws : csr_ws) (a : mat_asm) : csr_ws * outcome E (csr T) :=
  match assemble_pattern ord umax (ma_conn a) with
  | Ok p =>
      let '(ws, m, r) := assemble_into_csr ws (Csr p (replicate (length (pt_cols p)) zero)) a in
      (ws, let! _ := r in Ok m)
  | Err e => (ws, Err e)
  | Panic => (ws, Panic)
  end.

(** ** Parallel assembly of values *)

(** global.rs:327-371, the closure run on one subset. [subset.get_mut(local)] is checked against the subset,
    [csr_block_row.get_mut(i)] against the block size; the row is read with unchecked offsets ([pat_row], whose
    failure would be undefined behaviour and counts as a panic here; excluded by theorem). [debug]: the
    assertion of line 341. *)
Definition csr_task (debug : bool) (a : mat_asm) (p : pattern) (ws : csr_ws) (acc : subset_access)
  : outcome E (list (nat * T)) :=
  let i := sa_label acc in
  let s := ca_sdim (ma_conn a) in
  let '(ws, r) := prepare_matrix a ws i in
  match r with
  | Ok A =>
      if debug && negb (bool_decide (sa_indices acc = cw_nodes ws)) then Panic else
      ofold (fun us '(local, k) =>
          match sa_get acc local with
          | Ok g =>
              match block_get s g k with
              | Some row =>
                  match pat_row p row, A !! (s * local + k) with
                  | Some (b, cols), Some a_row =>
                      let! row_us := add_element_row cols (cw_nodes ws) (srt (cw_nodes ws)) s a_row in
                      Ok (us ++ map (fun u => (b + u.1, u.2)) row_us)
                  | _, _ => Panic
                  end
              | None => Panic
              end
          | _ => Panic
          end) [] (local ← seq 0 (ca_count (ma_conn a) i); k ← seq 0 s; [(local, k)])
  | Err e => Err e
  | Panic => Panic
  end.

(** A colour loop over a collection of [n] records in blocks of [s], whose closure is [task] (with any workspace
    of type [W] per item): as [color_run] and [colors_run] of VectorModel.v, with the closure as an argument. *)
Section tasks.
Context {W : Type} (task : W -> subset_access -> outcome E (list (nat * T))) (n s : nat) (debug : bool).

Inductive gcolor_run (ws : nat -> W) (items : list subset_access) (out : list T) : list T -> outcome E unit -> Prop :=
| gcolor_ok tasks out' ths :
    Forall2 (fun kacc us => task (ws kacc.1) kacc.2 = Ok us) (zip (seq 0 (length items)) items) tasks ->
    rtc (mem_step add) (out, map (fun us => (None, us)) tasks) (out', ths) -> mem_done ths ->
    gcolor_run ws items out out' (Ok tt)
| gcolor_err k acc e out' :
    items !! k = Some acc -> task (ws k) acc = Err e -> gcolor_run ws items out out' (Err e)
| gcolor_panic k acc out' :
    items !! k = Some acc -> task (ws k) acc = Panic -> gcolor_run ws items out out' Panic.

Inductive gcolors_run : list dsubs -> list T -> list T -> outcome E unit -> Prop :=
| gcolors_nil out : gcolors_run [] out out (Ok tt)
| gcolors_start_panic c colors out :
    (block_adapter_len n s = Panic \/ exists k, block_adapter_len n s = Ok k /\ par_iter_start debug c k = Panic) ->
    gcolors_run (c :: colors) out out Panic
| gcolors_cons c colors out out1 out2 k range t items its ws r :
    block_adapter_len n s = Ok k ->
    par_iter_start debug c k = Ok range ->
    run_tree c (Producer range.1 range.2) t = Ok (items, its) ->
    Forall (fun it => it_len it = 0) its ->
    gcolor_run ws items out out1 (Ok tt) ->
    gcolors_run colors out1 out2 r ->
    gcolors_run (c :: colors) out out2 r
| gcolors_stop c colors out out1 k range t items its ws r :
    block_adapter_len n s = Ok k ->
    par_iter_start debug c k = Ok range ->
    run_tree c (Producer range.1 range.2) t = Ok (items, its) ->
    gcolor_run ws items out out1 r -> r <> Ok tt ->
    gcolors_run (c :: colors) out out1 r.
End tasks.

(** global.rs:314-376 [CsrParAssembler::assemble_into_csr]: possible final matrices and results. *)
Inductive par_assemble_into_csr (debug : bool) (a : mat_asm) (colors : list dsubs) (m : csr T)
  : csr T -> outcome E unit -> Prop :=
| par_csr vals r :
    gcolors_run (csr_task debug a (cs_pat m)) (pt_nrows (cs_pat m)) (ca_sdim (ma_conn a)) debug colors
      (cs_vals m) vals r ->
    par_assemble_into_csr debug a colors m (Csr (cs_pat m) vals) r.

End values.

(** ** Parallel pattern *)

(** global.rs:219-225, 264-267: the index ranges of the batches of [size] indices below [n]. *)
Definition batches (size n : nat) : list (list nat) :=
  map (fun k => seq (size * k) (min n (size * k + size) - size * k)) (seq 0 ((n + size - 1) / size)).

(** global.rs:226-237: the critical sections of one batch: lock the set of [a], insert all of [ns]. *)
Definition batch_actions (umax : nat) (c : conn_asm) (buf : list nat) (batch : list nat) : list (nat * list nat) :=
  (foldl (fun '(acts, buf) i =>
      let buf := ca_populate c i (vec_resize buf (ca_count c i) umax) in
      (acts ++ map (fun a => (a, buf)) buf, buf)) ([], buf) batch).1.

(** Critical sections of different threads in any order. *)
Inductive lock_step : list (list nat) * list (list (nat * list nat)) ->
    list (list nat) * list (list (nat * list nat)) -> Prop :=
| lock_insert sets ths k a ns rest s :
    ths !! k = Some ((a, ns) :: rest) -> sets !! a = Some s ->
    lock_step (sets, ths) (<[a := foldl (fun s b => (set_insert s b).1) s ns]> sets, <[k := rest]> ths).

(** global.rs:270-287: the writes (position, value) of one batch of nodes. *)
Definition batch_writes {E} ord (s : nat) (offs : list nat) (sets : list (list nat)) (batch : list nat)
  : outcome E (list (nat * nat)) :=
  ofold (fun ws '(i, s_i) =>
      match sets !! i, offs !! (s * i + s_i), offs !! (s * i + s_i + 1) with
      | Some set, Some b, Some e =>
          let buf := sort_nat (ord i set) in
          ofold (fun ws '(k, node_j) =>
              if decide (s * (k + 1) <= e - b) then
                Ok (ws ++ map (fun j => (b + (s * k + j), s * node_j + j)) (seq 0 s))
              else Panic) ws (zip (seq 0 (length buf)) buf)
      | _, _, _ => Panic
      end) [] (i ← batch; s_i ← seq 0 s; [(i, s_i)]).

(** Plain stores as the degenerate "addition" of [mem_step]. *)
Definition store (_ v : nat) : nat := v.

(** global.rs:206-297 [CsrParAssembler::assemble_pattern]: possible results; [size] is the batch
    size (10 in the code); [bufs] are the thread-local buffers found by the batches. *)
Inductive par_assemble_pattern {E} ord (size umax : nat) (c : conn_asm) : outcome E pattern -> Prop :=
| par_pattern_ok bufs sets ths writes cols ths' :
    rtc lock_step (replicate (ca_nodes c) [],
                   imap (fun k b => batch_actions umax c (bufs k) b) (batches size (ca_elems c))) (sets, ths) ->
    Forall (fun t => t = []) ths ->
    Forall2 (fun b ws => batch_writes (E := E) ord (ca_sdim c) (pattern_offsets (ca_sdim c) sets).1 sets b = Ok ws)
      (batches size (ca_nodes c)) writes ->
    rtc (mem_step store) (replicate (pattern_offsets (ca_sdim c) sets).2 0, map (fun us => (None, us)) writes) (cols, ths') ->
    mem_done ths' ->
    par_assemble_pattern ord size umax c (finish_pattern (ca_sdim c * ca_nodes c) (pattern_offsets (ca_sdim c) sets).1 cols)
| par_pattern_index_panic bufs sets ths k a ns rest :
    rtc lock_step (replicate (ca_nodes c) [],
                   imap (fun k b => batch_actions umax c (bufs k) b) (batches size (ca_elems c))) (sets, ths) ->
    ths !! k = Some ((a, ns) :: rest) -> sets !! a = None ->
    par_assemble_pattern ord size umax c Panic
| par_pattern_write_panic bufs sets ths b :
    rtc lock_step (replicate (ca_nodes c) [],
                   imap (fun k b => batch_actions umax c (bufs k) b) (batches size (ca_elems c))) (sets, ths) ->
    Forall (fun t => t = []) ths ->
    b ∈ batches size (ca_nodes c) ->
    batch_writes (E := E) ord (ca_sdim c) (pattern_offsets (ca_sdim c) sets).1 sets b = Panic ->
    par_assemble_pattern ord size umax c Panic.

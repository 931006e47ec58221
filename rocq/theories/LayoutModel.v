(** Model of matrix views on a buffer, stacking of matrices, prefix sums, gathering of nodal values and iteration of quadrature rules. *)
From Coq Require Import List Arith NArith Bool.
Import ListNotations.

(** ** nalgebra views *)
(** A view (nalgebra [ViewStorage] or the storage of an owned matrix): where it starts in its buffer, its shape and its strides. *)
Record view := View { v_base : nat; v_rows : nat; v_cols : nat; v_rstride : nat; v_cstride : nat }.
Definition address (v : view) (i j : nat) : nat := v_base v + i * v_rstride v + j * v_cstride v.
(** Reading through the pointer; [None] is undefined behaviour. *)
Definition entry {T} (buf : list T) (v : view) (i j : nat) : option T := nth_error buf (address v i j).

(** src/util.rs:54-76 [reshape_to_slice]; [None] is the failed assertion. *)
Definition reshape_to_slice (v : view) (shape : nat * nat) : option view :=
  let '(r2, c2) := shape in
  if v_rows v * v_cols v =? r2 * c2 then Some (View (v_base v) r2 c2 1 r2) else None.

(** src/util.rs:81-112, 266-297 [coerce_col_major_slice], [coerce_col_major_slice_mut]; [None] is a failed assertion. *)
Definition coerce_col_major_slice (v : view) (slice_rows slice_cols : nat) : option view :=
  if negb (slice_rows =? v_rows v) then None
  else if negb (slice_cols =? v_cols v) then None
  else if (v_rstride v =? 1) && (v_cstride v =? v_rows v) then Some (View (v_base v) slice_rows slice_cols 1 slice_rows) else None.

(** ** Stacking *)
(** A matrix as its number of columns and the list of its rows. *)
Record mat (T : Type) := Mat { m_cols : nat; m_rows : list (list T) }.
Arguments Mat {T}. Arguments m_cols {T}. Arguments m_rows {T}.
Definition nrows {T} (m : mat T) : nat := length (m_rows m).

(** util/src/lib.rs:38-72 [flatten_vertically_into]; [None] is a panic: an assertion, [rows_mut] out of range, or [copy_from] with
    different shapes. *)
Fixpoint flatten_loop {T} (cols : nat) (matrices : list (mat T)) (rows : nat) (out : mat T) : option (nat * mat T) :=
  match matrices with
  | [] => Some (rows, out)
  | m :: matrices' =>
      if negb (m_cols m =? cols) then None
      else if nrows out <? rows + nrows m then None
      else if negb (m_cols out =? m_cols m) then None
      else flatten_loop cols matrices' (rows + nrows m) (Mat (m_cols out) (firstn rows (m_rows out) ++ m_rows m ++ skipn (rows + nrows m) (m_rows out)))
  end.
Definition flatten_vertically_into {T} (out : mat T) (matrices : list (mat T)) : option (mat T) :=
  match matrices with
  | first :: _ =>
      match flatten_loop (m_cols first) matrices 0 out with
      | Some (rows, out') => if rows =? nrows out' then Some out' else None
      | None => None
      end
  | [] => if nrows out =? 0 then Some out else None
  end.
(** util/src/lib.rs:74-90 [flatten_vertically]; the outer [None] is a panic, the inner one the returned [None]. *)
Definition flatten_vertically {T} (zero : T) (matrices : list (mat T)) : option (option (mat T)) :=
  match matrices with
  | first :: _ =>
      let rows := fold_left (fun n m => n + nrows m) matrices 0 in
      option_map Some (flatten_vertically_into (Mat (m_cols first) (repeat (repeat zero (m_cols first)) rows)) matrices)
  | [] => Some None
  end.

(** util/src/lib.rs:92-98 [prefix_sum], collected; [None] is the overflow of [usize] (with overflow checks). *)
Fixpoint prefix_sum (max : N) (counts : list N) (sum : N) : option (list N) :=
  match counts with
  | [] => Some []
  | x :: counts' =>
      if (max <? sum + x)%N then None
      else option_map (cons sum) (prefix_sum max counts' (sum + x)%N)
  end.

(** src/util.rs:427-441 [extract_by_node_index]; [None] is the panic of [rows_generic] out of range. *)
Definition rows_generic {T} (u : list T) (start d : nat) : option (list T) :=
  if length u <? start + d then None else Some (firstn d (skipn start u)).
Fixpoint extract_loop {T} (d : nat) (u : list T) (nodes : list nat) (i_local : nat) (extracted : list T) : option (list T) :=
  match nodes with
  | [] => Some extracted
  | i_global :: nodes' =>
      match rows_generic u (d * i_global) d with
      | None => None
      | Some ui => if length extracted <? d * i_local + d then None
          else extract_loop d u nodes' (S i_local) (firstn (d * i_local) extracted ++ ui ++ skipn (d * i_local + d) extracted)
      end
  end.
Definition extract_by_node_index {T} (zero : T) (d : nat) (u : list T) (nodes : list nat) : option (list T) :=
  extract_loop d u nodes 0 (repeat zero (d * length nodes)).

(** ** Quadrature rules *)
(** src/quadrature.rs:74-101 [QuadratureIter]: the three slice iterators are the remaining elements. [next] advances the iterators in
    order until one is exhausted. *)
Definition quadrature_next {W P D} (st : list W * list P * list D) : option (W * P * D) * (list W * list P * list D) :=
  match st with
  | ([], ps, ds) => (None, ([], ps, ds))
  | (w :: ws, [], ds) => (None, (ws, [], ds))
  | (w :: ws, p :: ps, []) => (None, (ws, ps, []))
  | (w :: ws, p :: ps, d :: ds) => (Some (w, p, d), (ws, ps, ds))
  end.
(** Collecting calls [next] until it returns [None]; the number of calls is bounded by the number of weights. *)
Fixpoint collect_loop {W P D} (fuel : nat) (st : list W * list P * list D) : list (W * P * D) :=
  match fuel with
  | O => []
  | S fuel' => match quadrature_next st with (Some x, st') => x :: collect_loop fuel' st' | (None, _) => [] end
  end.
Definition quadrature_iter {W P D} (weights : list W) (points : list P) (data : list D) : list (W * P * D) :=
  collect_loop (S (length weights)) (weights, points, data).
(** src/quadrature.rs:159-176, 265-270, 278-286: the data of a pair or of a rule without data. *)
Definition unit_data {W} (weights : list W) : list unit := repeat tt (length weights).
(** src/quadrature.rs:45-55 [integrate]. *)
Definition quadrature_integrate {W P U} (zero : U) (add : U -> U -> U) (mul : U -> W -> U) (weights : list W) (points : list P) (f : P -> U) : U :=
  fold_left (fun integral wp => add integral (mul (f (snd wp)) (fst wp))) (combine weights points) zero.
(** fenris-quadrature/src/lib.rs:124-127 [integrate]. *)
Definition rule_integrate {W P} (zero : W) (add mul : W -> W -> W) (rule : list W * list P) (f : P -> W) : W :=
  fold_left add (map (fun wp => mul (fst wp) (f (snd wp))) (combine (fst rule) (snd rule))) zero.
(** src/quadrature.rs:288-316 [convert_quadrature_rule_from_1d_f64], [.._2d_..], [.._3d_..]: weights and coordinates are converted. *)
Definition convert_rule {W W'} (convert : W -> W') (rule : list W * list (list W)) : list W' * list (list W') :=
  (map convert (fst rule), map (map convert) (snd rule)).

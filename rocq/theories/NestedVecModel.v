(** Model of fenris-nested-vec/src/lib.rs (whole crate, lines 1-178). *)
From stdpp Require Import base list list_numbers.
From Verif Require Import Prelude.

(** fenris-nested-vec/src/lib.rs:7-12 [struct NestedVec]. *)
Record nvec (T : Type) : Type := NVec {
  nv_data : list T;
  nv_begin : list nat;
  nv_end : list nat;
}.
Arguments NVec {T} _ _ _.
Arguments nv_data {T} _.
Arguments nv_begin {T} _.
Arguments nv_end {T} _.

Section model.
Context {T : Type}.
Implicit Types v : nvec T.

(** Range indexing of a slice, [data.get(begin..end)]: [None] unless begin <= end <= len
    (std behaviour used at lib.rs:73, 78, 102, 107). *)
Definition slice_get {A} (data : list A) (b e : nat) : option (list A) :=
  if decide (b <= e /\ e <= length data) then Some (take (e - b) (drop b data)) else None.

(** lib.rs:27-33 [NestedVec::new]. *)
Definition nv_new : nvec T := NVec [] [] [].

(** lib.rs:54-56 [len]. *)
Definition nv_len v : nat := length (nv_begin v).

(** lib.rs:81-85 [get_index_range]. *)
Definition nv_index_range v (i : nat) : option (nat * nat) :=
  b ← nv_begin v !! i; e ← nv_end v !! i; Some (b, e).

(** lib.rs:71-74 [get]. *)
Definition nv_get v (i : nat) : option (list T) :=
  r ← nv_index_range v i; slice_get (nv_data v) r.1 r.2.

(** lib.rs:87-89 [first]. *)
Definition nv_first v : option (list T) := nv_get v 0.

(** lib.rs:95-99 [get_last_range]. *)
Definition nv_last_range v : option (nat * nat) :=
  b ← last (nv_begin v); e ← last (nv_end v); Some (b, e).

(** lib.rs:101-104 [last]. *)
Definition nv_last v : option (list T) :=
  r ← nv_last_range v; slice_get (nv_data v) r.1 r.2.

(** lib.rs:50-52 [iter]: (0..len).map(|i| get(i).unwrap()); [None] is the panic of [unwrap]. *)
Definition nv_iter v : option (list (list T)) :=
  mapM (nv_get v) (seq 0 (nv_len v)).

(** lib.rs:59-61 [iter_array_elements] = iter().flatten(). *)
Definition nv_iter_elements v : option (list T) := l ← nv_iter v; Some (concat l).

(** lib.rs:63-69 [total_num_elements]. [end - begin] on usize panics (debug) on underflow: [None]. *)
Definition nv_total v : option nat :=
  ds ← mapM (fun be : nat * nat => if decide (be.1 <= be.2) then Some (be.2 - be.1) else None)
            (zip (nv_begin v) (nv_end v));
  Some (sum_list ds).

(** lib.rs:145-149 [push]. *)
Definition nv_push v (a : list T) : nvec T :=
  NVec (nv_data v ++ a) (nv_begin v ++ [length (nv_data v)])
       (nv_end v ++ [length (nv_data v ++ a)]).

(** lib.rs:118-124 [struct ArrayAppender]: the mutable borrow of the vector is modelled by owning it. *)
Record appender := Appender { ap_vec : nvec T; ap_initial : nat }.

(** lib.rs:40-48 [begin_array]. *)
Definition nv_begin_array v : appender := Appender v (length (nv_data v)).

(** lib.rs:127-130 [push_single]. *)
Definition ap_push_single (a : appender) (x : T) : appender :=
  let v := ap_vec a in
  Appender (NVec (nv_data v ++ [x]) (nv_begin v) (nv_end v)) (ap_initial a).

(** lib.rs:132-134 [count]; [None] is an underflow panic. *)
Definition ap_count (a : appender) : option nat :=
  if decide (ap_initial a <= length (nv_data (ap_vec a)))
  then Some (length (nv_data (ap_vec a)) - ap_initial a) else None.

(** lib.rs:137-142 [Drop for ArrayAppender]. *)
Definition ap_drop (a : appender) : nvec T :=
  let v := ap_vec a in
  NVec (nv_data v) (nv_begin v ++ [ap_initial a]) (nv_end v ++ [length (nv_data v)]).

(** [mem::forget] of the appender: the destructor does not run (safe Rust). *)
Definition ap_forget (a : appender) : nvec T := ap_vec a.

(** lib.rs:111-115 [clear]. *)
Definition nv_clear v : nvec T := NVec [] [] [].

(** Write [x] at local position [j] of the sub-slice data[b..e] obtained from [get_mut] & co.
    (lib.rs:76-79, 91-93, 106-109): [Panic] if [j] is outside the slice; nothing happens if the
    accessor returned [None] (caller's [if let Some(slice) = ...]). *)
Definition nv_write_range v (r : option (nat * nat)) (j : nat) (x : T) : outcome Empty_set (nvec T) :=
  match r with
  | None => Ok v
  | Some (b, e) =>
      match slice_get (nv_data v) b e with
      | None => Ok v
      | Some s =>
          if decide (j < length s)
          then Ok (NVec (<[b + j := x]> (nv_data v)) (nv_begin v) (nv_end v))
          else Panic
      end
  end.

(** lib.rs:152-160 [From<&Vec<Vec<T>>>] (and 162-166, by value). *)
Definition nv_of_lists (l : list (list T)) : nvec T := foldl nv_push nv_new l.

(** lib.rs:168-178 [From<&NestedVec<T>> for Vec<Vec<T>>]; [None] is the panic inside [iter]. *)
Definition nv_to_lists v : option (list (list T)) := nv_iter v.

(** lib.rs:7 [#[derive(PartialEq)]]: fieldwise equality (stated as propositional equality of the three
    buffers, which is what the derived [==] decides for element types with lawful [Eq]). *)
Definition nv_eq (v w : nvec T) : Prop :=
  nv_data v = nv_data w /\ nv_begin v = nv_begin w /\ nv_end v = nv_end w.

(** Public mutating operations. [OpAppend xs] is begin_array, one push_single per element, drop;
    [OpLeak xs] the same with [mem::forget] in place of the drop. *)
Inductive op :=
| OpPush (a : list T)
| OpAppend (xs : list T)
| OpLeak (xs : list T)
| OpClear
| OpWrite (i j : nat) (x : T)
| OpWriteFirst (j : nat) (x : T)
| OpWriteLast (j : nat) (x : T).

Definition run_op v (o : op) : outcome Empty_set (nvec T) :=
  match o with
  | OpPush a => Ok (nv_push v a)
  | OpAppend xs => Ok (ap_drop (foldl ap_push_single (nv_begin_array v) xs))
  | OpLeak xs => Ok (ap_forget (foldl ap_push_single (nv_begin_array v) xs))
  | OpClear => Ok (nv_clear v)
  | OpWrite i j x => nv_write_range v (nv_index_range v i) j x
  | OpWriteFirst j x => nv_write_range v (nv_index_range v 0) j x
  | OpWriteLast j x => nv_write_range v (nv_last_range v) j x
  end.

(** A history applied to a fresh vector. *)
Definition run_ops (os : list op) : outcome Empty_set (nvec T) := ofold run_op nv_new os.

End model.
Arguments appender : clear implicits.
Arguments op : clear implicits.

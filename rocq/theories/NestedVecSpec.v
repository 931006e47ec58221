(** Specification of NestedVec: a plain vector of vectors. *)
From stdpp Require Import base list list_numbers.
From Verif Require Import Prelude NestedVecModel.

Section spec.
Context {T : Type}.

(** The effect of an operation on an ordinary [Vec<Vec<T>>]. Writing outside an existing inner vector
    panics; writing to a missing inner vector does nothing. A leaked appender adds no inner vector. *)
Definition spec_write (l : list (list T)) (row : option nat) (j : nat) (x : T)
  : outcome Empty_set (list (list T)) :=
  match row with
  | None => Ok l
  | Some i =>
      match l !! i with
      | None => Ok l
      | Some s => if decide (j < length s) then Ok (<[i := <[j := x]> s]> l) else Panic
      end
  end.

Definition spec_op (l : list (list T)) (o : op T) : outcome Empty_set (list (list T)) :=
  match o with
  | OpPush a => Ok (l ++ [a])
  | OpAppend xs => Ok (l ++ [xs])
  | OpLeak _ => Ok l
  | OpClear => Ok []
  | OpWrite i j x => spec_write l (Some i) j x
  | OpWriteFirst j x => spec_write l (Some 0) j x
  | OpWriteLast j x =>
      spec_write l (match l with [] => None | _ => Some (length l - 1) end) j x
  end.

Definition spec_ops (os : list (op T)) : outcome Empty_set (list (list T)) := ofold spec_op [] os.

(** [v] is observably the vector of vectors [l]. *)
Definition shows (v : nvec T) (l : list (list T)) : Prop :=
  nv_len v = length l /\
  (forall i, nv_get v i = l !! i) /\
  nv_first v = head l /\
  nv_last v = last l /\
  nv_iter v = Some l /\
  nv_iter_elements v = Some (concat l) /\
  nv_total v = Some (length (concat l)).

Definition no_leak (o : op T) : Prop := match o with OpLeak _ => False | _ => True end.

End spec.

(** Common vocabulary of the model: results with panics. *)
From stdpp Require Import base list.

(** Outcome of a Rust call: a value, an error value ([Result::Err] / [eyre] report), or a panic.
    [Ok]/[Err] mirror [Result]; [Panic] stands for any unwinding panic (assertion, index out of
    bounds, unwrap/expect on [None]). *)
Inductive outcome (E A : Type) : Type :=
| Ok (a : A)
| Err (e : E)
| Panic.
Arguments Ok {E A} a.
Arguments Err {E A} e.
Arguments Panic {E A}.

Definition obind {E A B} (x : outcome E A) (f : A -> outcome E B) : outcome E B :=
  match x with Ok a => f a | Err e => Err e | Panic => Panic end.

Notation "'let!' x := e1 'in' e2" := (obind e1 (fun x => e2))
  (at level 200, x name, e1 at level 100, e2 at level 200).

(** [for x in xs { s = f(s, x)?; }] *)
Fixpoint ofold {E A S} (f : S -> A -> outcome E S) (s : S) (xs : list A) : outcome E S :=
  match xs with
  | [] => Ok s
  | x :: xs => match f s x with Ok s' => ofold f s' xs | Err e => Err e | Panic => Panic end
  end.

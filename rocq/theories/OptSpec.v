(** Specification vocabulary for root finding and finite differences. *)
From Coq Require Import Reals.
From Verif Require Import CgModel CgSpec OptModel.
Open Scope R_scope.

(** [F] depends on the first [n] entries only. *)
Definition respects (n : nat) (F : vec -> vec) : Prop := forall x y, veq n x y -> veq n (F x) (F y).

(** [k]-fold composition of a relation between points. *)
Inductive steps (one : vec -> vec -> Prop) : nat -> vec -> vec -> Prop :=
| steps_none x : steps one 0 x x
| steps_more k x y z : steps one k x y -> one y z -> steps one (S k) x z.

(** A line search leaves the function value at the point it leaves. *)
Definition keeps_value (n : nat) (step : line_search) : Prop :=
  forall F f x p f' x' r, respects n F -> step F f x p = ((f', x'), r) -> veq n f' (F x').

(** One Newton step from a point that is not a root up to tolerance. *)
Definition newton_step (n : nat) (F : vec -> vec) (jsolve : vec -> vec -> option vec) (tol : R) (x y : vec) : Prop :=
  tol < length2 n (F x) /\ exists f d, veq n f (F x) /\ jsolve x f = Some d /\ veq n y (fun i => x i - d i).

(** One step of Newton's method with a line search. *)
Definition search_step (n : nat) (F : vec -> vec) (jsolve : vec -> vec -> option vec) (step : line_search) (tol : R) (x y : vec) : Prop :=
  tol < length2 n (F x) /\ exists f d p f' a, veq n f (F x) /\ jsolve x f = Some d /\ (forall i, p i = - d i) /\ step F f x p = ((f', y), Some a).

(** Sufficient decrease of half the squared length of F for a step of length a along p. *)
Definition decreases (n : nat) (F : vec -> vec) (x p : vec) (a : R) : Prop :=
  inner n (F (fun i => x i + a * p i)) (F (fun i => x i + a * p i)) / 2 <= (1 - a / 10000) * (inner n (F x) (F x) / 2).

(** The step lengths that a backtracking search tries, in order. *)
Definition trial (k : nat) : R := match k with O => 1 | S O => 3/4 | S (S O) => 1/2 | S (S k) => (1/4) ^ k end.

(** The restriction of a function to the line through [x] along coordinate [i], as a function of that coordinate. *)
Definition along (f : vec -> R) (x : vec) (i : nat) (t : R) : R := f (fun j => if Nat.eq_dec j i then t else x j).

(** A scalar function of the first [n] entries. *)
Definition depends (n : nat) (f : vec -> R) : Prop := forall x y, veq n x y -> f x = f y.
(** A vector function that overwrites the first [m] entries of its output buffer. *)
Definition overwrites (n m : nat) (f : vec -> vec -> vec) : Prop := forall x y b b', veq n x y -> veq m (f x b) (f y b').

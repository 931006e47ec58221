(** Specification vocabulary for finite elements. *)
From Coq Require Import Reals List.
From Verif Require Import ElementModel.
Import ListNotations.
Local Open Scope R_scope.

(** The point [xi] with coordinate [d] replaced by [t]. *)
Definition upd (xi : point) (d : nat) (t : R) : point := fun k => if Nat.eqb k d then t else xi k.

(** Polynomials in three variables as lists of (coefficient, exponents). *)
Definition monomial (e : nat * nat * nat) (x : point) : R := x 0%nat ^ fst (fst e) * x 1%nat ^ snd (fst e) * x 2%nat ^ snd e.
Definition poly := list (R * (nat * nat * nat)).
Definition peval (p : poly) (x : point) : R := fold_right (fun m acc => fst m * monomial (snd m) x + acc) 0 p.

Definition exps := (nat * nat * nat)%type.
(** total degree at most k, in the first [dim] variables *)
Definition total_degree (dim k : nat) (e : exps) : Prop :=
  (fst (fst e) + snd (fst e) + snd e <= k)%nat /\ ((dim < 3)%nat -> snd e = 0%nat) /\ ((dim < 2)%nat -> snd (fst e) = 0%nat).
(** degree at most k in each of the first [dim] variables *)
Definition each_degree (dim k : nat) (e : exps) : Prop :=
  (fst (fst e) <= k /\ snd (fst e) <= k /\ snd e <= k)%nat /\ ((dim < 3)%nat -> snd e = 0%nat) /\ ((dim < 2)%nat -> snd (fst e) = 0%nat).

(** Interpolation of the values of [f] at the reference nodes. *)
Definition interpolate (e : element) (f : point -> R) (xi : point) : R :=
  fold_right Rplus 0 (map (fun wn => fst wn * f (pt (snd wn))) (List.combine (el_basis e xi) (el_ref e))).

(** degree at most two in each variable, at most one of them quadratic (the 20-node serendipity space) *)
Definition serendipity (e : exps) : Prop :=
  each_degree 3 2 e /\
  (fst (fst e) <> 2 \/ snd (fst e) <> 2)%nat /\ (fst (fst e) <> 2 \/ snd e <> 2)%nat /\ (snd (fst e) <> 2 \/ snd e <> 2)%nat.

(** The polynomial space of each element. *)
Definition element_spaces : list (element * (exps -> Prop)) :=
  [(segment2, total_degree 1 1); (tri3, total_degree 2 1); (tri6, total_degree 2 2); (quad4, each_degree 2 1); (quad9, each_degree 2 2);
   (tet4, total_degree 3 1); (tet10, total_degree 3 2); (tet20, total_degree 3 3); (hex8, each_degree 3 1); (hex20, serendipity); (hex27, each_degree 3 2)].

(** Specification vocabulary for fixed interpolation. *)
From stdpp Require Import base list.
From Coq Require Import Reals.
From Verif Require Import Prelude InterpModel.

(** Sum of [f] over a list. *)
Definition rsum {A} (f : A -> R) (l : list A) : R := foldr (fun x acc => f x + acc)%R 0%R l.

(** What an interpolation point depends on: nodes with their weight and their gradient. *)
Record term := Term { tm_node : nat; tm_value : R; tm_grad : list R }.

(** Component [c] of node [j] of a vector with [s] components per node. *)
Definition comp (s : nat) (u : list R) (j c : nat) : R := nth (s * j + c) u 0%R.

(** The value, and the derivative in direction [i], of component [c] at a point. *)
Definition value_at (s : nat) (u : list R) (c : nat) (ts : list term) : R := rsum (fun t => tm_value t * comp s u (tm_node t) c)%R ts.
Definition deriv_at (s : nat) (u : list R) (i c : nat) (ts : list term) : R := rsum (fun t => nth i (tm_grad t) 0 * comp s u (tm_node t) c)%R ts.

(** The compressed arrays for a list of points: entries of all points one after the other, and the positions where each point
    starts. *)
Definition flat_values (pts : list (list term)) : list R := map tm_value (concat pts).
Definition flat_gradients (pts : list (list term)) : list R := concat (map tm_grad (concat pts)).
Definition flat_nodes (pts : list (list term)) : list nat := map tm_node (concat pts).
Definition starts (pts : list (list term)) : list nat := map (fun i => length (concat (take i pts))) (seq 0 (length pts + 1)).

(** The terms of a point in the element [e] at reference coordinates [xi]: gradients are transformed to physical space. *)
Definition element_terms {P X} (sp : space P X) (d : nat) (jit : nat -> nat -> R) (e : nat) (xi : X) : list term :=
  imap (fun a j => Term j (sp_basis sp e xi a)
    (map (fun i => rsum (fun k => jit i k * sp_ref_grad sp e xi a k)%R (seq 0 d)) (seq 0 d))) (sp_nodes sp e).

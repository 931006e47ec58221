(** Specification vocabulary for Dirichlet conditions. *)
From stdpp Require Import base list list_numbers.
From Coq Require Import Reals.
From Verif Require Import Prelude CsrModel CsrSpec DirichletModel.

(** Row [r] belongs to one of the nodes. *)
Definition constrained (nodes : list nat) (d r : nat) : Prop := exists node i, node ∈ nodes /\ i < d /\ r = d * node + i.

Definition struct_sym (p : pattern) : Prop := forall r c, (exists pos, stored p r c pos) -> exists pos, stored p c r pos.

(** Result of imposing the conditions on the stored entries. *)
Definition bc_imposed {T} (zero scale : T) (con : nat -> Prop) (m m' : csr T) : Prop :=
  cs_pat m' = cs_pat m /\ length (cs_vals m') = length (cs_vals m) /\
  forall r c pos x, stored (cs_pat m) r c pos -> cs_vals m !! pos = Some x ->
    (con r -> r = c -> cs_vals m' !! pos = Some scale) /\
    (con r \/ con c -> r <> c -> cs_vals m' !! pos = Some zero) /\
    (~ con r -> ~ con c -> cs_vals m' !! pos = Some x).

(** The scale: absolute value of the first non-zero diagonal entry, one if there is none. *)
Definition scale_choice {T} (zero one : T) (abs : T -> T) (m : csr T) (s : T) : Prop :=
  (s = one /\ forall r pos, stored (cs_pat m) r r pos -> cs_vals m !! pos = Some zero) \/
  (exists r pos x, stored (cs_pat m) r r pos /\ cs_vals m !! pos = Some x /\ x <> zero /\ s = abs x /\
     forall r' pos', r' < r -> stored (cs_pat m) r' r' pos' -> cs_vals m !! pos' = Some zero).

Definition dmat_wf {T} (A : dmat T) : Prop := Forall (fun row => length row = dm_ncols A) (dm_rows A).
Definition dm_at {T} (A : dmat T) (i j : nat) : option T := row ← dm_rows A !! i; row !! j.

(** Linear systems over the reals. *)
Definition sum_below (n : nat) (f : nat -> R) : R := foldr Rplus 0%R (map f (seq 0 n)).
Definition solves (n : nat) (A : nat -> nat -> R) (x b : nat -> R) : Prop :=
  forall i, i < n -> sum_below n (fun j => A i j * x j)%R = b i.

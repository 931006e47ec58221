(** Specification vocabulary for aggregated assemblers, the typed workspace and quadrature tables. *)
From stdpp Require Import base list.
From Verif Require Import Prelude TableModel.

(** The documented contract of [slice::binary_search] on a sorted slice: [Ok] with the position of any matching entry, or
    [Err] with the only position where the value can be inserted. *)
Definition sorted_list (l : list nat) : Prop := forall i j x y, i <= j -> l !! i = Some x -> l !! j = Some y -> x <= y.
Definition bsearch_contract (bs : list nat -> nat -> nat + nat) : Prop := forall l x, sorted_list l ->
  match bs l x with
  | inl i => l !! i = Some x
  | inr i => i <= length l /\ forall j y, l !! j = Some y -> (j < i -> y < x) /\ (i <= j -> x < y)
  end.

(** All elements of all assemblers, in order: what the queries of the aggregate have to return. *)
Definition elements {Q} (asms : list (assembler Q)) : list Q :=
  concat (map (fun a => map (asm_query a) (seq 0 (asm_num_elements a))) asms).

(** The workspace as a store with one independent cell per type. *)
Section Store.
  Context {V : Type}.
  Definition store : Type := nat -> option V.
  Definition store_set (s : store) (ty : nat) (v : V) : store := fun t => if decide (t = ty) then Some v else s t.
  Fixpoint store_run (s : store) (h : list (access V)) : list V * store :=
    match h with
    | [] => ([], s)
    | a :: h =>
        let v := default (acc_create a) (s (acc_type a)) in
        let r := store_run (store_set s (acc_type a) (acc_write a v)) h in
        (v :: r.1, r.2)
    end.
  Definition represents (ws : list (nat * V)) (s : store) : Prop :=
    NoDup (map fst ws) /\ forall ty v, (ty, v) ∈ ws <-> s ty = Some v.
End Store.
Arguments store : clear implicits.

(** A quadrature rule with data, and the three table types as functions from elements to rules. *)
Notation rule P W D := (list P * list W * list D)%type.
Section Rules.
  Context {P W D : Type}.
  Definition rule_ok (r : rule P W D) : Prop := length r.1.1 = length r.1.2 /\ length r.1.1 = length r.2.
  Definition points_of (rs : list (rule P W D)) : list (list P) := map (fun r => r.1.1) rs.
  Definition weights_of (rs : list (rule P W D)) : list (list W) := map (fun r => r.1.2) rs.
  Definition data_of (rs : list (rule P W D)) : list (list D) := map (fun r => r.2) rs.

  (** A table with the three queries behaves, on element [e], like one that stores the rule [r] for it: the reported size is the
      number of weights; buffers of that size are filled with the rule; buffers of any other size are refused. [None]: the
      element does not exist, and every query panics. *)
  Definition serves (size : nat -> outcome unit nat) (data : nat -> nat -> outcome unit (list D))
      (quad : nat -> nat -> nat -> outcome unit (list P * list W)) (e : nat) (r : option (rule P W D)) : Prop :=
    match r with
    | Some (p, w, d) =>
        size e = Ok (length w) /\ data e (length w) = Ok d /\ quad e (length w) (length w) = Ok (p, w) /\
        (forall n, n ≠ length w -> data e n = Panic) /\ (forall n m, n ≠ length w \/ m ≠ length w -> quad e n m = Panic)
    | None => size e = Panic /\ (forall n, data e n = Panic) /\ (forall n m, quad e n m = Panic)
    end.
End Rules.

(** Specification vocabulary for element assembler adapters. *)
From stdpp Require Import base list list_numbers.
From Verif Require Import Prelude NestedVecModel ParadisModel VectorModel VectorSpec CsrModel CsrSpec AdapterModel.

(** The results of several calls made in order, up to the first failure. *)
Fixpoint collect {E A} (l : list (outcome E A)) : outcome E (list A) :=
  match l with
  | [] => Ok []
  | x :: l => let! y := x in let! ys := collect l in Ok (y :: ys)
  end.

(** The nodes below [n] that [f] sends to [j], and pairs of such nodes. *)
Definition fibre (f : nat -> nat) (n j : nat) : list nat := filter (fun i => f i = j) (seq 0 n).
Definition fibre2 (f : nat -> nat) (n j j' : nat) : list (nat * nat) := a ← fibre f n j; b ← fibre f n j'; [(a, b)].

Definition injective_below (n : nat) (f : nat -> nat) : Prop := forall a b, a < n -> b < n -> f a = f b -> a = b.

Section Bodies.
  Context {T E : Type}.

  (** Several bodies in one system (the documented use of [map_element_nodes], local.rs 33-36): the nodes of each body are
      shifted behind the nodes of the bodies before it. *)
  Fixpoint place_vec (total off : nat) (bodies : list (@vec_asm T E)) : list (@vec_asm T E) :=
    match bodies with
    | [] => []
    | a :: bodies => map_nodes_vec (fun i => off + i) total a :: place_vec total (off + ca_nodes (va_conn a)) bodies
    end.
  Fixpoint place_mat (total off : nat) (bodies : list (@mat_asm T E)) : list (@mat_asm T E) :=
    match bodies with
    | [] => []
    | a :: bodies => map_nodes_mat (fun i => off + i) total a :: place_mat total (off + ca_nodes (ma_conn a)) bodies
    end.

  (** A body with its node lists: contract of the callbacks, at least one element, nodes in range. *)
  Definition vec_body (s : nat) (a : @vec_asm T E) : Prop :=
    ca_sdim (va_conn a) = s /\ 0 < ca_elems (va_conn a) /\
    exists ls vs, has_conn (va_conn a) ls /\ nodes_in_range (ca_nodes (va_conn a)) ls /\ has_vecs a ls vs.
  Definition mat_body (s : nat) (a : @mat_asm T E) : Prop :=
    ca_sdim (ma_conn a) = s /\ 0 < ca_elems (ma_conn a) /\
    exists ls vs, has_conn (ma_conn a) ls /\ nodes_in_range (ca_nodes (ma_conn a)) ls /\ Forall NoDup ls /\ has_mats a ls vs.
End Bodies.

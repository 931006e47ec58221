(** Specification vocabulary for vector assembly: contracts of the user callbacks and sums of contributions. *)
From stdpp Require Import base list list_numbers.
From Coq Require Import ZArith.
From Verif Require Import Prelude NestedVecModel ParadisModel ParadisSpec VectorModel.

(** The connectivity callbacks describe the element-to-node lists [ls], whatever the buffers contain. *)
Definition has_conn (c : conn_asm) (ls : list (list nat)) : Prop :=
  length ls = ca_elems c /\
  forall i ns, ls !! i = Some ns ->
    ca_count c i = length ns /\ forall buf, length buf = length ns -> ca_populate c i buf = ns.

Definition nodes_in_range (n : nat) (ls : list (list nat)) : Prop :=
  forall ns k, ns ∈ ls -> k ∈ ns -> k < n.

Section spec.
Context {T E : Type} (add : T -> T -> T).

(** The element-vector callback produces [v] for element [i] with [count] nodes: a result that does not depend
    on the previous buffer contents and has the right length. *)
Definition yields_vec (a : @vec_asm T E) (i count : nat) (v : outcome E (list T)) : Prop :=
  (forall buf, length buf = ca_sdim (va_conn a) * count -> va_vec a i buf = v) /\
  (forall x, v = Ok x -> length x = ca_sdim (va_conn a) * count).

Definition has_vecs (a : @vec_asm T E) (ls : list (list nat)) (vs : list (outcome E (list T))) : Prop :=
  length vs = length ls /\
  forall i ns v, ls !! i = Some ns -> vs !! i = Some v -> yields_vec a i (length ns) v.

(** Contributions of one element with nodes [ns] and vector [v] to degree of freedom [dof], in local order:
    local node [il] contributes when it is the node of [dof]. *)
Definition elem_contrib (s : nat) (ns : list nat) (v : list T) (dof : nat) : list T :=
  omap (fun '(il, n) => if decide (n = dof `div` s) then v !! (s * il + dof `mod` s) else None)
       (zip (seq 0 (length ns)) ns).

(** Contributions of several elements, in element order. *)
Definition contribs (s : nat) (ls : list (list nat)) (vs : list (list T)) (dof : nat) : list T :=
  concat (zip_with (fun ns v => elem_contrib s ns v dof) ls vs).

(** [out'] is [out] with the contributions added one after the other. *)
Definition sums_to (s : nat) (ls : list (list nat)) (vs : list (list T)) (out out' : list T) : Prop :=
  length out' = length out /\
  forall dof x, out !! dof = Some x -> out' !! dof = Some (foldl add x (contribs s ls vs dof)).

End spec.

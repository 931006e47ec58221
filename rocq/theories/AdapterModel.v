(** Element assembler adapters: src/assembly/local.rs 37-47, 80-88, 90-102, 108-117, 119-131, 136-148 and 283-519, and the
    aggregate (151-281) as an assembler. The [delegate!] impls forward the remaining methods to the inner assembler unchanged,
    which is expressed here by keeping the other record fields. *)
From stdpp Require Import base list.
From Verif Require Import Prelude NestedVecModel ParadisModel VectorModel CsrModel TableModel.

(** 37-47 [map_element_nodes], 308-335 [MapElementNodes]: the inner assembler fills the buffer, then each index in it is
    replaced. *)
Definition map_nodes_conn (f : nat -> nat) (new_nodes : nat) (c : conn_asm) : conn_asm :=
  ConnAsm (ca_sdim c) new_nodes (ca_elems c) (ca_count c) (fun i buf => map f (ca_populate c i buf)).

Section Adapters.
  Context {T E : Type} (zero : T).

  (** 462-480 (delegation): vectors and matrices of the inner assembler. *)
  Definition map_nodes_vec (f : nat -> nat) (new_nodes : nat) (a : @vec_asm T E) : @vec_asm T E :=
    VecAsm (map_nodes_conn f new_nodes (va_conn a)) (va_vec a).
  Definition map_nodes_mat (f : nat -> nat) (new_nodes : nat) (a : @mat_asm T E) : @mat_asm T E :=
    MatAsm (map_nodes_conn f new_nodes (ma_conn a)) (ma_mat a).

  (** 482-492 [TransformElementScalar::assemble_element_scalar] *)
  Definition transform_scalar (g : T -> outcome E T) (f : nat -> outcome E T) (i : nat) : outcome E T :=
    let! untransformed := f i in g untransformed.

  (** 494-505 [TransformElementVector::assemble_element_vector_into]: [g v] is what the transformation leaves in a view
      holding [v]. *)
  Definition transform_vec (g : list T -> outcome E (list T)) (a : @vec_asm T E) : @vec_asm T E :=
    VecAsm (va_conn a) (fun i output => let! output := va_vec a i output in g output).

  (** 507-518 [TransformElementMatrix::assemble_element_matrix_into] *)
  Definition transform_mat (g : list (list T) -> outcome E (list (list T))) (a : @mat_asm T E) : @mat_asm T E :=
    MatAsm (ma_conn a) (fun i output => let! output := ma_mat a i output in g output).

  (** 108-117 [assemble_element_vector] *)
  Definition assemble_element_vector (a : @vec_asm T E) (i : nat) : outcome E (list T) :=
    let ndof := ca_sdim (va_conn a) * ca_count (va_conn a) i in
    va_vec a i (replicate ndof zero).

  (** 80-88 [assemble_element_matrix] *)
  Definition assemble_element_matrix (a : @mat_asm T E) (i : nat) : outcome E (list (list T)) :=
    let ndof := ca_sdim (ma_conn a) * ca_count (ma_conn a) i in
    ma_mat a i (replicate ndof (replicate ndof zero)).

  (** 151-281: an assembler as a component of an [AggregateElementAssembler], and the aggregate as an assembler. The
      connectivity callbacks of the model cannot panic; when the dispatch panics (never for an element of the aggregate, C32)
      they return nothing. *)
  Definition vec_component (a : @vec_asm T E) : assembler (nat * (list nat -> list nat) * (list T -> outcome E (list T))) :=
    Assembler (ca_sdim (va_conn a)) (ca_elems (va_conn a)) (ca_nodes (va_conn a))
      (fun i => (ca_count (va_conn a) i, ca_populate (va_conn a) i, va_vec a i)).
  Definition mat_component (a : @mat_asm T E) : assembler (nat * (list nat -> list nat) * (list (list T) -> outcome E (list (list T)))) :=
    Assembler (ca_sdim (ma_conn a)) (ca_elems (ma_conn a)) (ca_nodes (ma_conn a))
      (fun i => (ca_count (ma_conn a) i, ca_populate (ma_conn a) i, ma_mat a i)).

  Definition agg_conn {V} bs (g : aggregate (nat * (list nat -> list nat) * V)) : conn_asm :=
    ConnAsm (agg_sdim g) (agg_num_nodes g) (agg_num_elements g)
      (fun k => match agg_query bs g k with Ok q => q.1.1 | _ => 0 end)
      (fun k buf => match agg_query bs g k with Ok q => q.1.2 buf | _ => [] end).
  Definition agg_vec bs (g : aggregate (nat * (list nat -> list nat) * (list T -> outcome E (list T)))) : @vec_asm T E :=
    VecAsm (agg_conn bs g) (fun k buf => match agg_query bs g k with Ok q => q.2 buf | _ => Panic end).
  Definition agg_mat bs (g : aggregate (nat * (list nat -> list nat) * (list (list T) -> outcome E (list (list T))))) : @mat_asm T E :=
    MatAsm (agg_conn bs g) (fun k buf => match agg_query bs g k with Ok q => q.2 buf | _ => Panic end).
End Adapters.

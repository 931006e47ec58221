(** Operators handed to the conjugate gradient solver: fenris-sparse/src/cg.rs:43-63. Exact reals; a vector is a function of the index, as in [CgModel]. *)
From stdpp Require Import base list list_numbers.
From Coq Require Import Reals.
From Verif Require Import Prelude NestedVecModel CsrModel.
Local Open Scope R_scope.

(** 43-51 [LinearOperator] for [CsrMatrix]: [spmm_csr_dense] (external crate nalgebra-sparse) with factors 0 and 1 adds up, row by row, the stored values times the entries of [x]. What [y] contained
    before is multiplied by 0. Vectors of the wrong length, which panic, are excluded by construction. *)
Definition csr_apply (m : csr R) (x : nat -> R) : option (nat -> R) :=
  Some (fun i => match pat_row (cs_pat m) i with
    | Some (b, cols) => foldl (fun acc '(k, c) => acc + default 0 (cs_vals m !! (b + k)%nat) * x c) 0 (zip (seq 0 (length cols)) cols)
    | None => 0
    end).
(** 53-60 [IdentityOperator] *)
Definition identity_apply (x : nat -> R) : option (nat -> R) := Some x.

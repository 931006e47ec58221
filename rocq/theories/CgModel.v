(** The conjugate gradient solver: fenris-sparse/src/cg.rs. Scalars are exact reals; a vector of dimension [n] is a function of the
    index, of which only the entries below [n] are used. *)
From Coq Require Import Reals List.
Import ListNotations.
Open Scope R_scope.

Definition vec : Type := nat -> R.

(** [dot] *)
Fixpoint dot (n : nat) (x y : vec) : R := match n with O => 0 | S n => dot n x y + x n * y n end.
Definition norm (n : nat) (x : vec) : R := sqrt (dot n x x).

(** 264-273 [SolveErrorKind] *)
Inductive cg_error := OperatorError | PreconditionerError | StoppingCriterionError | IndefiniteOperator | IndefinitePreconditioner
  | MaxIterationsReached (max_iter : nat).

(** The solution vector and the number of iterations when the solver returns, and how it returns. *)
Record cg_result := CgResult { res_x : vec; res_iterations : nat; res_error : option cg_error }.

(** The variables of the loop 413-476. *)
Record cg_state := CgState { cg_x : vec; cg_r : vec; cg_p : vec; cg_zTr : R; cg_k : nat }.

Section CG.
  Variable n : nat.
  (** [LinearOperator::apply]: [None] is an error. *)
  Variable A P : vec -> option vec.
  (** [CgStoppingCriterion::has_converged] with the arguments x, b, b_norm, iteration, residual *)
  Variable criterion : vec -> vec -> R -> nat -> vec -> bool + cg_error.
  Variable max_iter : option nat.
  Variable b : vec.
  Variable b_norm : R.

  (** 413-476: one pass through the loop; either the solver returns or it goes on with the next state. *)
  Definition cg_pass (st : cg_state) : cg_result + cg_state :=
    let stop e := inl (CgResult (cg_x st) (cg_k st) e) in
    match criterion (cg_x st) b b_norm (cg_k st) (cg_r st) with
    | inr e => stop (Some e)
    | inl true => stop None
    | inl false =>
        let limit := match max_iter with Some m => if le_dec m (cg_k st) then Some m else None | None => None end in
        match limit with
        | Some m => stop (Some (MaxIterationsReached m))
        | None =>
            match A (cg_p st) with
            | None => stop (Some OperatorError)
            | Some Ap =>
                let pAp := dot n (cg_p st) Ap in
                if Rle_dec pAp 0 then stop (Some IndefiniteOperator)
                else if Rle_dec (cg_zTr st) 0 then stop (Some IndefinitePreconditioner)
                else
                  let alpha := cg_zTr st / pAp in
                  let x := fun i => cg_x st i + alpha * cg_p st i in
                  let r := fun i => cg_r st i - alpha * Ap i in
                  let k := S (cg_k st) in
                  match P r with
                  | None => inl (CgResult x k (Some PreconditionerError))
                  | Some z =>
                      let zTr_next := dot n z r in
                      let beta := zTr_next / cg_zTr st in
                      inr (CgState x r (fun i => cg_p st i * beta + z i) zTr_next k)
                  end
            end
        end
    end.

  (** The loop; [None] if it has not returned after [fuel] passes. *)
  Fixpoint cg_loop (fuel : nat) (st : cg_state) : option cg_result :=
    match fuel with
    | O => None
    | S fuel => match cg_pass st with inl res => Some res | inr st => cg_loop fuel st end
    end.

  (** 382-400: everything before the loop *)
  Definition cg_init (x : vec) : cg_result + cg_state :=
    match A x with
    | None => inl (CgResult x 0 (Some OperatorError))
    | Some Ax =>
        let r := fun i => b i - Ax i in
        match P r with
        | None => inl (CgResult x 0 (Some PreconditionerError))
        | Some z => inr (CgState x r z (dot n z r) 0)
        end
    end.
End CG.

(** 373-479 [solve_with_guess_]; the lengths of [b] and [x] are equal by construction *)
Definition cg_solve (n : nat) (A P : vec -> option vec) (criterion : vec -> vec -> R -> nat -> vec -> bool + cg_error)
    (max_iter : option nat) (b x : vec) (fuel : nat) : option cg_result :=
  match cg_init n A P b x with
  | inl res => Some res
  | inr st =>
      let b_norm := norm n b in
      if Req_EM_T b_norm 0 then Some (CgResult (fun _ => 0) 0 None)
      else cg_loop n A P criterion max_iter b b_norm fuel st
  end.

(** 107-124 [RelativeResidualCriterion] *)
Definition relative_residual (n : nat) (tol : R) : vec -> vec -> R -> nat -> vec -> bool + cg_error :=
  fun _ _ b_norm _ r => inl (if Rle_dec (norm n r) (tol * b_norm) then true else false).

(** Model of [fenris-optimize/src/newton.rs] and [calculus.rs]. Vectors are functions on indices of which the first [n] count, as in
    [CgModel]; scalars are exact reals. The function whose root is sought overwrites its output, so it is a function of the point
    alone. *)
From Coq Require Import Reals Arith List.
From Verif Require Import CgModel.
Open Scope R_scope.

(** * newton.rs *)
Section Newton.
  Variable n : nat.

  (** 26-34 [NewtonError] *)
  Inductive newton_error := MaximumIterationsReached (m : nat) | JacobianError | LineSearchError.

  (** x.axpy(a, p, 1) *)
  Definition axpy (a : R) (p x : vec) : vec := fun i => a * p i + 1 * x i.

  (** 134-142 [LineSearch::step]: new values of [f] and [x], and the step length or an error *)
  Definition line_search := (vec -> vec) -> vec -> vec -> vec -> (vec * vec) * option R.

  (** 148-166 [NoLineSearch] *)
  Definition no_line_search : line_search := fun F f x p => let x := axpy 1 p x in ((F x, x), Some 1).

  (** 212-216: the step lengths in the order in which they are produced *)
  Definition alpha (k : nat) : R :=
    match k with O => 0 | S O => 1 | S (S O) => 3/4 | S (S (S O)) => 1/2 | S (S (S (S k))) => Nat.iter k (fun a => 1/4 * a) (1/4) end.
  Definition alpha_min : R := 1/1000000.
  Definition armijo_c : R := 1/10000.

  (** 221-246: the loop, [k] counting the step lengths consumed; [None] when out of fuel *)
  Fixpoint backtrack (fuel : nat) (F : vec -> vec) (g_initial : R) (p : vec) (k : nat) (x : vec) : option ((vec * vec) * option R) :=
    match fuel with
    | O => None
    | S fuel =>
        let delta := alpha k - alpha (pred k) in
        let x := axpy delta p x in
        let f := F x in
        let g := 1/2 * dot n f f in
        if Rle_dec g ((1 - armijo_c * alpha k) * g_initial) then Some ((f, x), Some (alpha k))
        else if Rlt_dec (alpha k) alpha_min then Some ((f, x), None)
        else backtrack fuel F g_initial p (S k) x
    end.
  (** 174-249 [BacktrackingLineSearch::step] *)
  Definition backtracking (fuel : nat) (F : vec -> vec) (f x p : vec) : option ((vec * vec) * option R) :=
    backtrack fuel F (1/2 * dot n f f) p 1 x.
  (** The same as a line search; by [C39_terminates] the fuel is enough. *)
  Definition backtracking_search : line_search := fun F f x p => match backtracking 13 F f x p with Some r => r | None => ((f, x), None) end.

  Record newton_result := NewtonResult { nr_x : vec; nr_f : vec; nr_status : nat + newton_error }.
  Record newton_state := NewtonState { ns_x : vec; ns_f : vec; ns_iter : nat }.

  (** 100-129: the test of the loop and one pass through its body *)
  Definition newton_pass (F : vec -> vec) (jsolve : vec -> vec -> option vec) (step : line_search) (tol : R) (max_iter : option nat)
      (st : newton_state) : newton_result + newton_state :=
    let stop e := inl (NewtonResult (ns_x st) (ns_f st) e) in
    if Rlt_dec tol (norm n (ns_f st)) then
      let limit := match max_iter with Some m => if Nat.eq_dec (ns_iter st) m then true else false | None => false end in
      if limit then stop (inr (MaximumIterationsReached (ns_iter st)))
      else match jsolve (ns_x st) (ns_f st) with
           | None => stop (inr JacobianError)
           | Some d =>
               let dx := fun i => d i * -1 in
               match step F (ns_f st) (ns_x st) dx with
               | ((f, x), Some _) => inr (NewtonState x f (S (ns_iter st)))
               | ((f, x), None) => inl (NewtonResult x f (inr LineSearchError))
               end
           end
    else stop (inl (ns_iter st)).

  Fixpoint newton_loop (fuel : nat) F jsolve step tol max_iter st : option newton_result :=
    match fuel with
    | O => None
    | S fuel => match newton_pass F jsolve step tol max_iter st with inl res => Some res | inr st => newton_loop fuel F jsolve step tol max_iter st end
    end.

  (** 77-132 [newton_line_search]; the lengths asserted at 94-95 are equal by construction *)
  Definition newton_line_search (fuel : nat) F jsolve step tol max_iter (x : vec) : option newton_result :=
    newton_loop fuel F jsolve step tol max_iter (NewtonState x (F x) 0).
  (** 60-73 [newton] *)
  Definition newton fuel F jsolve tol max_iter x := newton_line_search fuel F jsolve no_line_search tol max_iter x.
End Newton.

(** * calculus.rs *)
Definition set_entry (x : vec) (i : nat) (v : R) : vec := fun j => if Nat.eq_dec j i then v else x j.

(** 238-257 [approximate_gradient_fd_into_]: the gradient and the point afterwards *)
Definition gradient_fd (n : nat) (f : vec -> R) (h : R) (df x : vec) : vec * vec :=
  fold_left (fun acc i =>
    let '(df, x) := acc in
    let x_i := x i in
    let x := set_entry x i (x_i + h) in
    let f_plus := f x in
    let x := set_entry x i (x_i - h) in
    let f_minus := f x in
    (set_entry df i ((f_plus - f_minus) / (2 * h)), set_entry x i x_i)) (seq 0 n) (df, x).

(** 298-330 [approximate_jacobian_fd_into_]: the matrix (row, column) and the point afterwards. The function gets the point and the
    present content of its output buffer. [None] is the panic of 309. *)
Definition jacobian_fd (ncols : nat) (n : nat) (f : vec -> vec -> vec) (h : R) (J : nat -> vec) (x : vec) : option ((nat -> vec) * vec) :=
  if Nat.eq_dec n ncols then
    let '(J, x, _, _) := fold_left (fun acc i =>
      let '(J, x, f_plus, f_minus) := acc in
      let xi := x i in
      let x := set_entry x i (xi + h) in
      let f_plus := f x f_plus in
      let x := set_entry x i (xi - h) in
      let f_minus := f x f_minus in
      let x := set_entry x i xi in
      ((fun r c => if Nat.eq_dec c i then (f_plus r - f_minus r) / (2 * h) else J r c), x, f_plus, f_minus))
      (seq 0 n) (J, x, (fun _ => 0), (fun _ => 0)) in
    Some (J, x)
  else None.

(** 156-197 [approximate_jacobian] *)
Definition jacobian_central (n : nat) (f : vec -> vec -> vec) (h : R) (x : vec) : nat -> vec :=
  let '(J, _, _, _, _) := fold_left (fun acc j =>
    let '(J, x_plus, x_minus, f_plus, f_minus) := acc in
    let x_plus := set_entry x j (x j + h) in
    let x_minus := set_entry x j (x j - h) in
    let f_plus := f x_plus f_plus in
    let f_minus := f x_minus f_minus in
    ((fun r c => if Nat.eq_dec c j then (J r c + f_plus r - f_minus r) / (2 * h) else J r c), x_plus, x_minus, f_plus, f_minus))
    (seq 0 n) ((fun _ _ => 0), x, x, (fun _ => 0), (fun _ => 0)) in
  J.

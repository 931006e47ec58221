(** Model of src/assembly/global.rs:379-495, homogeneous Dirichlet boundary conditions. *)
From stdpp Require Import base list list_numbers.
From Verif Require Import Prelude NestedVecModel VectorModel CsrModel.

(** Degrees of freedom visited by the loops at global.rs:415-417, 470-472, 489-491: [d * node + i], in order. *)
Definition dofs_of (nodes : list nat) (d : nat) : list nat := node ← nodes; map (fun i => d * node + i) (seq 0 d).

Section csr.
Context {T : Type} (zero one : T) (abs : T -> T) (is_zero : T -> bool).

(** nalgebra_sparse [triplet_iter]: stored entries row by row. *)
Definition csr_triplets (m : csr T) : list (nat * nat * T) :=
  r ← seq 0 (pt_nrows (cs_pat m));
  match pat_row (cs_pat m) r with
  | Some (b, cols) => omap (fun '(k, c) => v ← cs_vals m !! (b + k); Some (r, c, v)) (zip (seq 0 (length cols)) cols)
  | None => []
  end.

(** global.rs:391-400: absolute value of the first diagonal entry left after [skip_while] zero; 1 if none. *)
Fixpoint skip_zero (l : list T) : list T :=
  match l with [] => [] | x :: l' => if is_zero x then skip_zero l' else l end.
Definition dirichlet_scale (m : csr T) : T :=
  let diag := omap (fun '(i, j, v) => if decide (i = j) then Some v else None) (csr_triplets m) in
  match map abs (skip_zero diag) with x :: _ => x | [] => one end.

(** global.rs:412-434: one constrained row. State: values, dirichlet_membership, rows_to_visit. *)
Definition dirichlet_row (p : pattern) (scale : T) (st : list T * list bool * list bool) (row : nat)
  : outcome Empty_set (list T * list bool * list bool) :=
  let '(vals, mem, visit) := st in
  if decide (row < length mem) then
    match pat_row p row with
    | Some (b, cols) =>
        let! r := ofold (fun '(vals, visit) '(k, c) =>
            if decide (c = row) then Ok (<[b + k := scale]> vals, visit)
            else if decide (c < length visit) then Ok (<[b + k := zero]> vals, <[c := true]> visit)
            else Panic) (vals, visit) (zip (seq 0 (length cols)) cols) in
        Ok (r.1, <[row := true]> mem, r.2)
    | None => Panic
    end
  else Panic.

(** global.rs:440-452: one visited row of the second pass. *)
Definition dirichlet_visit (p : pattern) (mem : list bool) (vals : list T) (row : nat) : outcome Empty_set (list T) :=
  match mem !! row with
  | None => Panic
  | Some true => Ok vals
  | Some false =>
      match pat_row p row with
      | Some (b, cols) =>
          ofold (fun vals '(k, c) =>
            match mem !! c with
            | Some true => Ok (<[b + k := zero]> vals)
            | Some false => Ok vals
            | None => Panic
            end) vals (zip (seq 0 (length cols)) cols)
      | None => Panic
      end
  end.

(** global.rs:436-439: the rows marked for a visit, in order. *)
Definition visited (visit : list bool) : list nat :=
  omap (fun '(i, b) => if b : bool then Some i else None) (zip (seq 0 (length visit)) visit).

(** global.rs:379-451 [apply_homogeneous_dirichlet_bc_csr]. *)
Definition dirichlet_csr (m : csr T) (nodes : list nat) (d : nat) : outcome Empty_set (csr T) :=
  let p := cs_pat m in
  let scale := dirichlet_scale m in
  let! st := ofold (dirichlet_row p scale)
    (cs_vals m, replicate (d * pt_nrows p) false, replicate (d * pt_nrows p) false) (dofs_of nodes d) in
  let! vals := ofold (dirichlet_visit p st.1.2) st.1.1 (visited st.2) in
  Ok (Csr p vals).
End csr.

Section dense.
Context {T : Type} (zero : T) (add : T -> T -> T) (abs : T -> T) (div_nat : T -> nat -> T).

(** nalgebra [DMatrix] (external crate): rows and number of columns. *)
Record dmat := DMat { dm_ncols : nat; dm_rows : list (list T) }.

(** global.rs:463-467: mean absolute diagonal entry. [div_nat x n] is [x / T::from_usize(n)]. *)
Definition mean_abs_diag (A : dmat) : T :=
  div_nat (foldl add zero (map abs (omap (fun i => row ← dm_rows A !! i; row !! i)
    (seq 0 (min (length (dm_rows A)) (dm_ncols A)))))) (length (dm_rows A)).

(** global.rs:472-475: column, row and diagonal entry; views out of range panic. *)
Definition dirichlet_dof (scale : T) (A : dmat) (idx : nat) : outcome Empty_set dmat :=
  if decide (idx < dm_ncols A) then
    if decide (idx < length (dm_rows A)) then
      let rows := map (fun row => <[idx := zero]> row) (dm_rows A) in
      let rows := alter (map (fun _ => zero)) idx rows in
      Ok (DMat (dm_ncols A) (alter (fun row => <[idx := scale]> row) idx rows))
    else Panic
  else Panic.

(** global.rs:453-477 [apply_homogeneous_dirichlet_bc_matrix]. *)
Definition dirichlet_matrix (A : dmat) (nodes : list nat) (d : nat) : outcome Empty_set dmat :=
  let scale := mean_abs_diag A in ofold (dirichlet_dof scale) A (dofs_of nodes d).

(** global.rs:479-495 [apply_homogeneous_dirichlet_bc_rhs]. *)
Definition dirichlet_rhs (b : list T) (nodes : list nat) (d : nat) : outcome Empty_set (list T) :=
  ofold (fun b idx => if decide (idx < length b) then Ok (<[idx := zero]> b) else Panic) b (dofs_of nodes d).
End dense.
Arguments dmat : clear implicits.

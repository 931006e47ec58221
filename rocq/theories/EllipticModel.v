(** Model of the local assembly of fenris: element energies, vectors and matrices of elliptic operators (src/assembly/local/elliptic.rs), mass matrices (mass.rs),
    source vectors (source.rs), the default batch contraction of an elliptic operator and the Laplace operator (src/assembly/operators.rs, operators/laplace.rs),
    and the gravity source of fenris-solid. Exact reals instead of floats. Matrices and vectors of fixed dimension are functions that are 0 outside their
    dimensions; output views are functions together with their numbers of rows and columns. A finite element is given by its functions; the methods that fill
    a buffer overwrite all of it, so a buffer is only its length. *)
From Coq Require Import Reals List Arith.
From Verif Require Import MaterialModel.
Import ListNotations.
Open Scope R_scope.

Local Notation vec := (nat -> R).
Local Notation mat := (nat -> nat -> R).

(** outcome of an assembly: [Singular] is the error value, [Mismatch] a panic *)
Inductive result (A : Type) : Type := Done (a : A) | Singular | Mismatch.
Arguments Done {A} a.
Arguments Singular {A}.
Arguments Mismatch {A}.

(** [VolumetricFiniteElement], src/element.rs:30-130: reference and geometry dimension agree *)
Record element (Pt : Type) := Element {
  el_nodes : nat;
  el_dim : nat;
  el_basis : Pt -> nat -> R;
  el_gradients : Pt -> nat -> vec;
  el_map : Pt -> vec;
  el_jacobian : Pt -> mat }.
Arguments el_nodes {Pt} e.
Arguments el_dim {Pt} e.
Arguments el_basis {Pt} e _ _.
Arguments el_gradients {Pt} e _ _ _.
Arguments el_map {Pt} e _ _.
Arguments el_jacobian {Pt} e _ _ _.

Definition zeros : mat := fun _ _ => 0.
(** a [d] by [s] matrix *)
Definition within (d s : nat) (A : mat) : mat := fun i j => if ((i <? d) && (j <? s))%bool%nat then A i j else 0.

(** src/util.rs:38-50: column by column, below the diagonal *)
Definition clone_upper_to_lower (nrows ncols : nat) (A : mat) : mat :=
  fold_left (fun A j => fold_left (fun (A : mat) i => fun p q => if ((p =? i) && (q =? j))%bool%nat then A j i else A p q) (seq (j + 1) (nrows - (j + 1))) A) (seq 0 ncols) A.

(** operators.rs:146-190, the default [accumulate_contractions_into] *)
Definition accumulate_contractions (d s : nat) (symmetric : bool) (contract : vec -> vec -> mat) (nrows ncols : nat) (out : mat) (alpha : R) (a b : list R) : option mat :=
  if (d =? 0)%nat then None
  else if negb (length a mod d =? 0)%nat then None
  else if negb (length b mod d =? 0)%nat then None
  else
    let M := (length a / d)%nat in
    let N := (length b / d)%nat in
    if negb (nrows =? s * M)%nat then None
    else if negb (ncols =? s * N)%nat then None
    else Some (fold_left (fun out J =>
           let row_range := if symmetric then min (J + 1) M else M in
           fold_left (fun out I =>
             let a_I := rows d (d * I) a in
             let b_J := rows d (d * J) b in
             add_block s (s * I) (s * J) alpha (contract a_I b_J) out)
           (seq 0 row_range) out)
         (seq 0 N) out).

(** laplace.rs: solution dimension 1 *)
Definition laplace_energy (d : nat) (G : mat) : R := 1/2 * summ d (fun k => G k 0%nat * G k 0%nat).
Definition laplace_operator (G : mat) : mat := G.
Definition laplace_contract (d : nat) (G : mat) (a b : vec) : mat := fun _ _ => vdot d a b.

Section assembly.
Context {Pt Data : Type}.

(** elliptic.rs:25-59; [u] is viewed as an [s] by [n] matrix in column-major order *)
Definition volume_u_grad (d s n : nat) (j_inv_t : mat) (phi_grad_ref : nat -> vec) (u : list R) : mat :=
  within d s (mmul d j_inv_t
    (fold_left (fun (u_grad : mat) I => fun i j => u_grad i j + phi_grad_ref I i * nth (s * I + j) u 0) (seq 0 n) zeros)).

(** the loop over the quadrature points with early return *)
Fixpoint quadrature_loop {St} (step : R -> Pt -> Data -> St -> result St) (q : list (R * (Pt * Data))) (st : St) : result St :=
  match q with
  | [] => Done st
  | (w, (p, data)) :: q =>
      match step w p data st with
      | Done st => quadrature_loop step q st
      | Singular => Singular
      | Mismatch => Mismatch
      end
  end.

Variable el : element Pt.

(** elliptic.rs:549-605 *)
Definition element_energy (s : nat) (energy : mat -> Data -> R) (u : list R) (weights : list R) (points : list Pt) (data : list Data) (buffer : nat) : result R :=
  let n := el_nodes el in let d := el_dim el in
  if negb (length weights =? length points)%nat then Mismatch
  else if negb (length points =? length data)%nat then Mismatch
  else if negb (buffer =? n)%nat then Mismatch
  else if negb (length u =? s * n)%nat then Mismatch
  else quadrature_loop (fun weight point data integral =>
    let j := el_jacobian el point in
    let j_det := determinant d j in
    match try_inverse d j with
    | None => Singular
    | Some j_inv =>
        let j_inv_t := transpose j_inv in
        let u_grad := volume_u_grad d s n j_inv_t (el_gradients el point) u in
        let psi := energy u_grad data in
        Done (integral + weight * Rabs j_det * psi)
    end) (combine weights (combine points data)) 0.

(** elliptic.rs:448-530; the output vector is viewed as an [s] by [n] matrix in column-major order *)
Definition element_vector (s : nat) (operator_transpose : mat -> Data -> mat) (u : list R) (weights : list R) (points : list Pt) (data : list Data) (buffer nout : nat) : result vec :=
  let n := el_nodes el in let d := el_dim el in
  if negb (length weights =? length points)%nat then Mismatch
  else if negb (length points =? length data)%nat then Mismatch
  else if negb (buffer =? n)%nat then Mismatch
  else if negb (length u =? s * n)%nat then Mismatch
  else if negb (nout =? s * n)%nat then Mismatch
  else quadrature_loop (fun weight point data (output : vec) =>
    let j := el_jacobian el point in
    let j_det := determinant d j in
    match try_inverse d j with
    | None => Singular
    | Some j_inv =>
        let j_inv_t := transpose j_inv in
        let phi_grad_ref := el_gradients el point in
        let u_grad := volume_u_grad d s n j_inv_t phi_grad_ref u in
        let g_t := operator_transpose u_grad data in
        let g_t_j_inv_t := mmul d g_t j_inv_t in
        Done (fun r => output r + weight * Rabs j_det * summ d (fun k => g_t_j_inv_t (r mod s)%nat k * phi_grad_ref (r / s)%nat k))
    end) (combine weights (combine points data)) (fun _ => 0).

(** elliptic.rs:352-432; [accumulate] is [accumulate_contractions_into] of the operator *)
Definition element_matrix (s : nat) (symmetric : bool) (accumulate : mat -> Data -> nat -> nat -> mat -> R -> list R -> list R -> option mat)
    (u : list R) (weights : list R) (points : list Pt) (data : list Data) (buffer nrows ncols : nat) : result mat :=
  let n := el_nodes el in let d := el_dim el in
  if negb (length weights =? length points)%nat then Mismatch
  else if negb (length points =? length data)%nat then Mismatch
  else if negb (buffer =? n)%nat then Mismatch
  else if negb (length u =? s * n)%nat then Mismatch
  else if negb (nrows =? s * n)%nat then Mismatch
  else if negb (ncols =? s * n)%nat then Mismatch
  else
    match quadrature_loop (fun weight point data (output : mat) =>
      let j := el_jacobian el point in
      let j_det := determinant d j in
      match try_inverse d j with
      | None => Singular
      | Some j_inv =>
          let j_inv_t := transpose j_inv in
          let phi_grad_ref := el_gradients el point in
          let u_grad := volume_u_grad d s n j_inv_t phi_grad_ref u in
          let phi_grad := fun I => mulv d j_inv_t (phi_grad_ref I) in
          let scale := weight * Rabs j_det in
          let stacked := map (fun r => phi_grad (r / d)%nat (r mod d)%nat) (seq 0 (d * n)) in
          match accumulate u_grad data nrows ncols output scale stacked stacked with
          | Some output => Done output
          | None => Mismatch
          end
      end) (combine weights (combine points data)) zeros with
    | Done output => Done (if symmetric then clone_upper_to_lower nrows ncols output else output)
    | Singular => Singular
    | Mismatch => Mismatch
    end.

End assembly.

Section mass.
Context {Pt : Type}.
Variable el : element Pt.

(** mass.rs:215-286; the Jacobian is not inverted, so there is no error *)
Definition element_mass (weights : list R) (points : list Pt) (density : list R) (s buffer nrows ncols : nat) : result mat :=
  let n := el_nodes el in
  if negb (length weights =? length points)%nat then Mismatch
  else if negb (length points =? length density)%nat then Mismatch
  else if negb (buffer =? n)%nat then Mismatch
  else if negb (nrows =? s * n)%nat then Mismatch
  else if negb (ncols =? s * n)%nat then Mismatch
  else
    let output := fold_left (fun output '(weight, (point, density)) =>
      let j_det := determinant (el_dim el) (el_jacobian el point) in
      let phi := el_basis el point in
      let scale := weight * Rabs j_det * density in
      fold_left (fun output I =>
        fold_left (fun output J =>
          let contribution := scale * phi I * phi J in
          fold_left (fun (output : mat) i => fun p q => if ((p =? s * I + i) && (q =? s * J + i))%bool%nat then output p q + contribution else output p q) (seq 0 s) output)
        (seq I (n - I)) output)
      (seq 0 n) output) (combine weights (combine points density)) zeros in
    Done (clone_upper_to_lower nrows ncols output).

(** source.rs:213-278 *)
Definition element_source {Data} (s : nat) (source : vec -> Data -> vec) (weights : list R) (points : list Pt) (data : list Data) (buffer nout : nat) : result vec :=
  let n := el_nodes el in
  if negb (length weights =? length points)%nat then Mismatch
  else if negb (length points =? length data)%nat then Mismatch
  else if negb (buffer =? n)%nat then Mismatch
  else if negb (nout =? n * s)%nat then Mismatch
  else Done (fold_left (fun (output : vec) '(weight, (point, data)) =>
    let phi := el_basis el point in
    let x := el_map el point in
    let j := el_jacobian el point in
    let f := source x data in
    fun r => output r + weight * Rabs (determinant (el_dim el) j) * (f (r mod s)%nat * phi (r / s)%nat)) (combine weights (combine points data)) (fun _ => 0)).
End mass.

(** fenris-solid/src/gravity_source.rs:56-66 *)
Definition gravity_source (gravity : vec) (x : vec) (density : R) : vec := fun i => gravity i * density.

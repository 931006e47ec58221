(** Model of the element assemblers of src/assembly/local: [ElementEllipticAssembler] (elliptic.rs), [ElementMassAssembler] (mass.rs) and
    [ElementSourceAssembler] (source.rs), with the buffers of src/assembly/buffers.rs that live in thread-local workspaces. Exact reals. A workspace is found
    in any state: the assemblers below get for every element the workspace the thread has at that moment. The nalgebra matrix of an element is a list of
    rows, as in [CsrModel]. *)
From stdpp Require Import base list list_numbers.
From Coq Require Import Reals.
From Verif Require Import Prelude NestedVecModel ParadisModel VectorModel CsrModel MaterialModel EllipticModel TableModel.
Local Open Scope nat_scope.

Local Notation vec := (nat -> R).
Local Notation mat := (nat -> nat -> R).

(** src/space.rs [FiniteElementConnectivity] and [FiniteElementSpace]: the nodes and the element of an element index; the buffer handed to
    [populate_element_nodes] is overwritten or has the wrong length *)
Record fe_space (Pt : Type) := FeSpace {
  fs_elems : nat;
  fs_nodes : nat;
  fs_count : nat -> nat;
  fs_populate : nat -> list nat -> list nat;
  fs_element : nat -> element Pt }.
Arguments FeSpace {Pt}.
Arguments fs_elems {Pt}.
Arguments fs_nodes {Pt}.
Arguments fs_count {Pt}.
Arguments fs_populate {Pt}.
Arguments fs_element {Pt}.

(** quadrature_table.rs:11-40 [QuadratureTable]: size, and what the buffers for points, weights and data hold after
    [populate_element_quadrature_and_data] *)
Record q_table (Pt Data : Type) := QTable {
  qt_size : nat -> outcome unit nat;
  qt_populate : nat -> list Pt -> list R -> list Data -> outcome unit (list Pt * list R * list Data) }.
Arguments QTable {Pt Data}.
Arguments qt_size {Pt Data}.
Arguments qt_populate {Pt Data}.

(** quadrature_table.rs:27-39, the default [populate_element_quadrature_and_data], for the three tables *)
Definition quadrature_and_data {Pt Data} (quadrature : nat -> nat -> nat -> outcome unit (list Pt * list R)) (data : nat -> nat -> outcome unit (list Data))
    (e : nat) (points : list Pt) (weights : list R) (d : list Data) : outcome unit (list Pt * list R * list Data) :=
  let! pw := quadrature e (length points) (length weights) in
  let! d := data e (length d) in
  Ok (pw.1, pw.2, d).
Definition general_table {Pt Data} (t : general Pt R Data) : q_table Pt Data := QTable (general_size t) (quadrature_and_data (general_quadrature t) (general_data t)).
Definition uniform_table {Pt Data} (t : uniform Pt R Data) : q_table Pt Data := QTable (uniform_size t) (quadrature_and_data (uniform_quadrature t) (uniform_data t)).
Definition compact_table {Pt Data} (t : compact Pt R Data) : q_table Pt Data := QTable (compact_size t) (quadrature_and_data (compact_quadrature t) (compact_data t)).

Definition of_result {A} (r : result A) : outcome unit A := match r with Done a => Ok a | Singular => Err tt | Mismatch => Panic end.
Definition as_list (n : nat) (f : nat -> R) : list R := map f (seq 0 n).
Definition as_rows (n : nat) (f : nat -> nat -> R) : list (list R) := map (fun i => map (f i) (seq 0 n)) (seq 0 n).

Section assemblers.
Context {Pt Data : Type} (origin : Pt) (default_data : Data) (usize_max : nat) (sp : fe_space Pt) (table : q_table Pt Data).

(** elliptic.rs:190-216 [EllipticAssemblerWorkspace]; mass.rs:110-129, source.rs:135-157 without [u_element]. The gradients are overwritten before they are read;
    only their number of columns is kept, likewise the length of the basis values *)
Record ell_ws := EllWs { ew_u : list R; ew_points : list Pt; ew_weights : list R; ew_data : list Data; ew_nodes : list nat; ew_basis : nat }.

(** buffers.rs:30-44 [resize], [populate_element_nodes_from_space] *)
Definition prepare_nodes (ws : ell_ws) (e n : nat) : ell_ws :=
  EllWs (ew_u ws) (ew_points ws) (ew_weights ws) (ew_data ws) (fs_populate sp e (vec_resize (ew_nodes ws) n usize_max)) n.
(** buffers.rs:160-180 [populate_element_quadrature_from_table] *)
Definition prepare_quadrature (ws : ell_ws) (e : nat) : outcome unit ell_ws :=
  let! size := qt_size table e in
  let! r := qt_populate table e (vec_resize (ew_points ws) size origin) (vec_resize (ew_weights ws) size 0%R) (vec_resize (ew_data ws) size default_data) in
  let '(points, weights, data) := r in
  Ok (EllWs (ew_u ws) points weights data (ew_nodes ws) (ew_basis ws)).
(** elliptic.rs:227-241, 267-282, 309-325 *)
Definition prepare_elliptic (s : nat) (u : list R) (ws : ell_ws) (e : nat) : outcome unit ell_ws :=
  let n := fs_count sp e in
  let ws := prepare_nodes ws e n in
  match gather_global_to_local u (vec_resize (ew_u ws) (s * n) 0%R) (ew_nodes ws) s with
  | Ok ue => prepare_quadrature (EllWs ue (ew_points ws) (ew_weights ws) (ew_data ws) (ew_nodes ws) (ew_basis ws)) e
  | _ => Panic
  end.

Definition fs_conn (s : nat) : conn_asm := ConnAsm s (fs_nodes sp) (fs_elems sp) (fs_count sp) (fs_populate sp).

(** elliptic.rs:226-255 [assemble_element_scalar] *)
Definition elliptic_scalar (s : nat) (energy : mat -> Data -> R) (u : list R) (ws : ell_ws) (e : nat) : outcome unit R :=
  let! ws := prepare_elliptic s u ws e in
  of_result (element_energy (fs_element sp e) s energy (ew_u ws) (ew_weights ws) (ew_points ws) (ew_data ws) (ew_basis ws)).
(** elliptic.rs:266-297 [assemble_element_vector_into] *)
Definition elliptic_vector (s : nat) (operator_transpose : mat -> Data -> mat) (u : list R) (ws : ell_ws) (e : nat) (output : list R) : outcome unit (list R) :=
  if decide (length output = s * fs_count sp e) then
    let! ws := prepare_elliptic s u ws e in
    let! f := of_result (element_vector (fs_element sp e) s operator_transpose (ew_u ws) (ew_weights ws) (ew_points ws) (ew_data ws) (ew_basis ws) (length output)) in
    Ok (as_list (length output) f)
  else Panic.
(** elliptic.rs:308-340 [assemble_element_matrix_into] *)
Definition elliptic_matrix (s : nat) (symmetric : bool) (accumulate : mat -> Data -> nat -> nat -> mat -> R -> list R -> list R -> option mat)
    (u : list R) (ws : ell_ws) (e : nat) (output : list (list R)) : outcome unit (list (list R)) :=
  let n := fs_count sp e in
  if decide (length output = s * n /\ Forall (fun row => length row = s * n) output) then
    let! ws := prepare_elliptic s u ws e in
    let! K := of_result (element_matrix (fs_element sp e) s symmetric accumulate (ew_u ws) (ew_weights ws) (ew_points ws) (ew_data ws) (ew_basis ws) (s * n) (s * n)) in
    Ok (as_rows (s * n) K)
  else Panic.
(** source.rs:167-193 [assemble_element_vector_into] *)
Definition source_vector (s : nat) (source : vec -> Data -> vec) (ws : ell_ws) (e : nat) (output : list R) : outcome unit (list R) :=
  let! ws := prepare_quadrature (prepare_nodes ws e (fs_count sp e)) e in
  let! f := of_result (element_source (fs_element sp e) s source (ew_weights ws) (ew_points ws) (ew_data ws) (ew_basis ws) (length output)) in
  Ok (as_list (length output) f).

Definition elliptic_vec_asm s operator_transpose u (ws : nat -> ell_ws) : @vec_asm R unit :=
  VecAsm (fs_conn s) (fun e => elliptic_vector s operator_transpose u (ws e) e).
Definition elliptic_mat_asm s symmetric accumulate u (ws : nat -> ell_ws) : @mat_asm R unit :=
  MatAsm (fs_conn s) (fun e => elliptic_matrix s symmetric accumulate u (ws e) e).
Definition source_vec_asm s source (ws : nat -> ell_ws) : @vec_asm R unit :=
  VecAsm (fs_conn s) (fun e => source_vector s source (ws e) e).
End assemblers.
Arguments ell_ws : clear implicits.
Arguments EllWs {Pt Data}.

(** mass.rs:138-159 [assemble_element_matrix_into]; the data of the table are densities *)
Definition mass_matrix {Pt} (origin : Pt) (usize_max : nat) (sp : fe_space Pt) (table : q_table Pt R) (s : nat) (ws : ell_ws Pt R) (e : nat) (output : list (list R)) :
    outcome unit (list (list R)) :=
  let! ws := prepare_quadrature origin 0%R table (prepare_nodes usize_max sp ws e (fs_count sp e)) e in
  let nrows := length output in
  let ncols := match output with [] => 0 | row :: _ => length row end in
  let! M := of_result (element_mass (fs_element sp e) (ew_weights ws) (ew_points ws) (ew_data ws) s (ew_basis ws) nrows ncols) in
  Ok (as_rows nrows M).
Definition mass_mat_asm {Pt} (origin : Pt) (usize_max : nat) (sp : fe_space Pt) (table : q_table Pt R) (s : nat) (ws : nat -> ell_ws Pt R) : @mat_asm R unit :=
  MatAsm (fs_conn sp s) (fun e => mass_matrix origin usize_max sp table s (ws e) e).

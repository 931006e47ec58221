(** Model of interpolation at arbitrary points: src/space/interpolate.rs and [InterpolationBuffer] of src/assembly/buffers.rs. Exact reals. The space is as in [GlobalModel];
    [find] is [find_closest_element_and_reference_coords] of the space, [None] is a panic of it. The result for a point is a function that is read at indices below the
    solution dimension (and the geometry dimension, for gradients). *)
From stdpp Require Import base list list_numbers.
From Coq Require Import Reals.
From Verif Require Import Prelude NestedVecModel ParadisModel VectorModel MaterialModel EllipticModel TableModel GlobalModel IntegrateModel.
Local Open Scope nat_scope.
Local Open Scope R_scope.

Local Notation vec := (nat -> R).
Local Notation mat := (nat -> nat -> R).

(** buffers.rs:12-18, 223-227 [BasisFunctionBuffer] and [InterpolationBuffer]: nodes, number of basis values and of columns of gradients, values, gradients, local
    interpolation weights; values and gradients of a buffer are what was left in it *)
Record ibuffer := IBuffer { ib_nodes : list nat; ib_count : nat; ib_values : nat -> R; ib_gradients : nat -> vec; ib_u : list R }.

Inductive buffer_update := BasisValues | BasisGradients | Both.

Section interpolation.
Context {P Pt : Type} (origin : Pt) (usize_max : nat) (sp : fe_space Pt).

(** buffers.rs:252-287 [prepare_element_in_space]: the buffer, the reference point and the element number *)
Definition prepare_element_in_space (buf : ibuffer) (element_index : nat) (u_global : list R) (solution_dim : nat) : option (ibuffer * Pt * nat) :=
  let node_count := fs_count sp element_index in
  let nodes := fs_populate sp element_index (vec_resize (ib_nodes buf) node_count usize_max) in
  match gather_global_to_local u_global (vec_resize (ib_u buf) (solution_dim * node_count) 0) nodes solution_dim with
  | Ok u_local => Some (IBuffer nodes node_count (ib_values buf) (ib_gradients buf) u_local, origin, element_index)
  | _ => None
  end.

(** buffers.rs:303-313 [update_reference_point] *)
Definition update_reference_point (eb : ibuffer * Pt * nat) (reference_point : Pt) (update : buffer_update) : ibuffer * Pt * nat :=
  let '(buf, _, e) := eb in
  let values := match update with BasisValues | Both => el_basis (fs_element sp e) reference_point | BasisGradients => ib_values buf end in
  let gradients := match update with BasisGradients | Both => el_gradients (fs_element sp e) reference_point | BasisValues => ib_gradients buf end in
  (IBuffer (ib_nodes buf) (ib_count buf) values gradients (ib_u buf), reference_point, e).

(** buffers.rs:320-323, 325-331, 333-343 *)
Definition element_reference_jacobian (eb : ibuffer * Pt * nat) : mat := let '(_, xi, e) := eb in el_jacobian (fs_element sp e) xi.
Definition buffer_interpolate (s : nat) (eb : ibuffer * Pt * nat) : option vec :=
  let '(buf, _, _) := eb in compute_interpolation s (ib_count buf) (ib_u buf) (ib_values buf).
Definition interpolate_ref_gradient (d s : nat) (eb : ibuffer * Pt * nat) : option mat :=
  let '(buf, _, _) := eb in compute_interpolation_gradient d s (ib_count buf) (ib_u buf) (ib_gradients buf).
Definition buffer_of (eb : ibuffer * Pt * nat) : ibuffer := let '(buf, _, _) := eb in buf.

Variable find : P -> option (option (nat * Pt)).

(** interpolate.rs:177-191, 233-251: the loops; the workspace is handed from point to point *)
Fixpoint points_loop {A} (step : ibuffer -> nat -> Pt -> option (A * ibuffer)) (zero : A) (points : list P) (results : list A) (buf : ibuffer) : option (list A) :=
  match points, results with
  | point :: points, _ :: results =>
      match find point with
      | None => None
      | Some (Some (element, ref_coords)) =>
          match step buf element ref_coords with
          | None => None
          | Some (a, buf) => option_map (cons a) (points_loop step zero points results buf)
          end
      | Some None => option_map (cons zero) (points_loop step zero points results buf)
      end
  | _, _ => Some results
  end.

(** interpolate.rs:159-192; the thread-local workspace is [buf] *)
Definition interpolate_at_points (s : nat) (points : list P) (u : list R) (result_buffer : list vec) (buf : ibuffer) : option (list vec) :=
  if (length points =? length result_buffer)%nat then
    points_loop (fun buf element ref_coords =>
      match prepare_element_in_space buf element u s with
      | None => None
      | Some element_buf =>
          let element_buf := update_reference_point element_buf ref_coords BasisValues in
          option_map (fun interpolation => (interpolation, buffer_of element_buf)) (buffer_interpolate s element_buf)
      end) (fun _ => 0) points result_buffer buf
  else None.

(** interpolate.rs:213-252; [d] is the geometry and reference dimension *)
Definition interpolate_gradient_at_points (d s : nat) (points : list P) (u : list R) (result_buffer : list mat) (buf : ibuffer) : option (list mat) :=
  if (length points =? length result_buffer)%nat then
    points_loop (fun buf element ref_coords =>
      match prepare_element_in_space buf element u s with
      | None => None
      | Some element_buf =>
          let element_buf := update_reference_point element_buf ref_coords BasisGradients in
          match interpolate_ref_gradient d s element_buf with
          | None => None
          | Some ref_gradient =>
              let j := element_reference_jacobian element_buf in
              match try_inverse d j with
              | None => None
              | Some j_inv =>
                  let inv_j_t := transpose j_inv in
                  Some (within d s (mmul d inv_j_t ref_gradient), buffer_of element_buf)
              end
          end
      end) zeros points result_buffer buf
  else None.

(** interpolate.rs:20-30, 63-72, 84-94, 127-136: a fresh buffer of zeros, one point or many *)
Definition interpolate_at_point (s : nat) (point : P) (u : list R) (buf : ibuffer) : option vec :=
  match interpolate_at_points s [point] u [fun _ => 0] buf with Some [result] => Some result | _ => None end.
Definition interpolate_all (s : nat) (points : list P) (u : list R) (buf : ibuffer) : option (list vec) :=
  interpolate_at_points s points u (replicate (length points) (fun _ => 0)) buf.
Definition interpolate_gradient_at_point (d s : nat) (point : P) (u : list R) (buf : ibuffer) : option mat :=
  match interpolate_gradient_at_points d s [point] u [zeros] buf with Some [result] => Some result | _ => None end.
Definition interpolate_gradient_all (d s : nat) (points : list P) (u : list R) (buf : ibuffer) : option (list mat) :=
  interpolate_gradient_at_points d s points u (replicate (length points) zeros) buf.
End interpolation.

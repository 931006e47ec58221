(** Model of src/integrate.rs (volume form, integrands, integrals over elements, element integral assemblers), src/error.rs (L2 and H1 seminorm errors) and the
    interpolation functions of src/util.rs. Exact reals instead of floats. Elements and buffers as in [EllipticModel] and [GlobalModel]; an element whose geometry
    dimension differs from its reference dimension [el_dim] is given together with the geometry dimension. A vector of output dimension [o] is a function that is
    read at indices below [o]. The closures that compute u_h and its gradient are evaluated only by integrands that use them; the value [None] stands for a
    closure that panics when called. *)
From stdpp Require Import base list list_numbers.
From Coq Require Import Reals.
From Verif Require Import Prelude NestedVecModel ParadisModel VectorModel MaterialModel EllipticModel TableModel GlobalModel.
Local Open Scope nat_scope.
Local Open Scope R_scope.

Local Notation vec := (nat -> R).
Local Notation mat := (nat -> nat -> R).

(** integrate.rs:20-36; [g] geometry dimension, [r] reference dimension *)
Definition volume_form (g r : nat) (jacobian : mat) : R :=
  if (g =? r)%nat then Rabs (determinant g jacobian)
  else sqrt (determinant r (mmul g (transpose jacobian) jacobian)).

(** integrate.rs:162-180, 182-201 [UFunction] for [FnFunction]: f(x, u), and f(x) with [NoDeps] *)
Inductive u_function := FunU (f : vec -> vec -> vec) | FunX (f : vec -> vec).
Definition evaluate_u (f : u_function) (x : vec) (u : option vec) : option vec :=
  match f with
  | FunU f => match u with Some u => Some (f x u) | None => None end
  | FunX f => Some (f x)
  end.
(** integrate.rs:203-226, 228-248, 250-270 [UGradFunction] for [FnFunction]: f(x, u, grad u), f(x, grad u) with [DependsOnGrad], f(x, u) with [DependsOnU] *)
Inductive u_grad_function := FunUGrad (f : vec -> vec -> mat -> vec) | FunGrad (f : vec -> mat -> vec) | FunOnlyU (f : vec -> vec -> vec).
Definition evaluate_u_grad (f : u_grad_function) (x : vec) (u : option vec) (u_grad : option mat) : option vec :=
  match f with
  | FunUGrad f => match u, u_grad with Some u, Some u_grad => Some (f x u u_grad) | _, _ => None end
  | FunGrad f => match u_grad with Some u_grad => Some (f x u_grad) | None => None end
  | FunOnlyU f => match u with Some u => Some (f x u) | None => None end
  end.

(** util.rs:688-704: [u] reshaped to an [s] by [n] matrix in column-major order, times the basis values *)
Definition compute_interpolation (s n : nat) (u : list R) (basis : nat -> R) : option vec :=
  if (length u =? s * n)%nat then Some (fun i => if (i <? s)%nat then fold_left (fun acc I => acc + nth (s * I + i) u 0 * basis I) (seq 0 n) 0 else 0)
  else None.
(** util.rs:750-782 *)
Definition compute_interpolation_gradient (d s n : nat) (u : list R) (basis_gradients : nat -> vec) : option mat :=
  if (length u =? s * n)%nat then Some (within d s (fold_left (fun (u_grad : mat) I => fun i j => u_grad i j + basis_gradients I i * nth (s * I + j) u 0) (seq 0 n) zeros))
  else None.

Section element.
Context {Pt : Type} (el : element Pt).

(** the iteration over zipped weights and points: the shorter of the two determines the number of points *)
Definition weights_and_points (weights : list R) (points : list Pt) : list (R * (Pt * unit)) := zip weights (map (fun p => (p, tt)) points).

(** integrate.rs:596-644 *)
Definition integrate_over_element (g s : nat) (integrand : u_function) (weights : list R) (points : list Pt) (interpolation_weights : list R) : result vec :=
  let n := el_nodes el in
  quadrature_loop (fun w p_ref _ (result : vec) =>
    let u_h := compute_interpolation s n interpolation_weights (el_basis el p_ref) in
    let x := el_map el p_ref in
    let jacobian := el_jacobian el p_ref in
    match evaluate_u integrand x u_h with
    | None => Mismatch
    | Some f => Done (fun k => result k + f k * (w * volume_form g (el_dim el) jacobian))
    end) (weights_and_points weights points) (fun _ => 0).

(** integrate.rs:647-706; geometry and reference dimension agree *)
Definition integrate_over_volume_element (s : nat) (function : u_grad_function) (weights : list R) (points : list Pt) (interpolation_weights : list R) : result vec :=
  let n := el_nodes el in let d := el_dim el in
  quadrature_loop (fun w p_ref _ (result : vec) =>
    let x := el_map el p_ref in
    let jacobian := el_jacobian el p_ref in
    match try_inverse d (transpose jacobian) with
    | None => Singular
    | Some jacobian_inv_t =>
        let u_h := compute_interpolation s n interpolation_weights (el_basis el p_ref) in
        let u_h_grad := match compute_interpolation_gradient d s n interpolation_weights (el_gradients el p_ref) with
                        | Some u_h_ref_grad => Some (within d s (mmul d jacobian_inv_t u_h_ref_grad))
                        | None => None
                        end in
        match evaluate_u_grad function x u_h u_h_grad with
        | None => Mismatch
        | Some f => Done (fun k => result k + f k * (w * volume_form d d jacobian))
        end
    end) (weights_and_points weights points) (fun _ => 0).

(** error.rs:249-264; one component *)
Definition l2_integrand (s : nat) (u : vec -> vec) : u_function := FunU (fun x u_h => let error := fun i => u_h i - u x i in fun _ => summ s (fun i => error i * error i)).
(** error.rs:267-282; squared Frobenius norm of a [d] by [s] matrix *)
Definition h1_integrand (d s : nat) (u_grad : vec -> mat) : u_grad_function :=
  FunGrad (fun x u_h_grad => let error := fun i j => u_h_grad i j - u_grad x i j in fun _ => summ d (fun i => summ s (fun j => error i j * error i j))).

(** error.rs:117-144 *)
Definition element_l2_error_squared (s : nat) (u : vec -> vec) (u_h : list R) (weights : list R) (points : list Pt) : outcome unit R :=
  if (length u_h =? el_nodes el * s)%nat then
    match integrate_over_element (el_dim el) s (l2_integrand s u) weights points u_h with Done r => Ok (r 0%nat) | _ => Panic end
  else Panic.
(** error.rs:223-246 *)
Definition element_l2_error (s : nat) (u : vec -> vec) (u_h : list R) (weights : list R) (points : list Pt) : outcome unit R :=
  let! e := element_l2_error_squared s u u_h weights points in Ok (sqrt e).
(** error.rs:153-182; a singular Jacobian is a panic *)
Definition element_h1_error_squared (s : nat) (u_grad : vec -> mat) (u_h : list R) (weights : list R) (points : list Pt) : outcome unit R :=
  if (length u_h =? el_nodes el * s)%nat then
    match integrate_over_volume_element s (h1_integrand (el_dim el) s u_grad) weights points u_h with Done r => Ok (r 0%nat) | _ => Panic end
  else Panic.
(** error.rs:190-213 *)
Definition element_h1_error (s : nat) (u_grad : vec -> mat) (u_h : list R) (weights : list R) (points : list Pt) : outcome unit R :=
  let! e := element_h1_error_squared s u_grad u_h weights points in Ok (sqrt e).
End element.

(** quadrature_table.rs:11-25: size, and what the buffers for points and weights hold after [populate_element_quadrature] *)
Record wp_table (Pt : Type) := WpTable {
  wt_size : nat -> outcome unit nat;
  wt_populate : nat -> list Pt -> list R -> outcome unit (list Pt * list R) }.
Arguments WpTable {Pt}.
Arguments wt_size {Pt}.
Arguments wt_populate {Pt}.
Definition general_points {Pt Data} (t : general Pt R Data) : wp_table Pt := WpTable (general_size t) (fun e points weights => general_quadrature t e (length points) (length weights)).
Definition uniform_points {Pt Data} (t : uniform Pt R Data) : wp_table Pt := WpTable (uniform_size t) (fun e points weights => uniform_quadrature t e (length points) (length weights)).
Definition compact_points {Pt Data} (t : compact Pt R Data) : wp_table Pt := WpTable (compact_size t) (fun e points weights => compact_quadrature t e (length points) (length weights)).

Section assemblers.
Context {Pt : Type} (origin : Pt) (usize_max : nat) (sp : fe_space Pt) (table : wp_table Pt).

(** integrate.rs:875-901 [ElementIntegralAssemblerWorkspace]; the basis buffer is resized and overwritten before it is read *)
Record int_ws := IntWs { iw_points : list Pt; iw_weights : list R; iw_u : list R; iw_nodes : list nat }.

(** integrate.rs:915-931, 993-1009; buffers.rs:182-190 [populate_element_weights_and_points_from_table] *)
Definition prepare_integral (s : nat) (u : list R) (ws : int_ws) (e : nat) : outcome unit int_ws :=
  let n := fs_count sp e in
  let! size := wt_size table e in
  let! r := wt_populate table e (vec_resize (iw_points ws) size origin) (vec_resize (iw_weights ws) size 0%R) in
  let u_local := vec_resize (iw_u ws) (n * s) 0%R in
  let nodes := fs_populate sp e (vec_resize (iw_nodes ws) n usize_max) in
  match gather_global_to_local u u_local nodes s with
  | Ok u_local => Ok (IntWs r.1 r.2 u_local nodes)
  | _ => Panic
  end.
(** integrate.rs:914-943 [ElementIntegralAssembler::assemble_element_scalar] *)
Definition integral_scalar (g s : nat) (integrand : u_function) (u : list R) (ws : int_ws) (e : nat) : outcome unit R :=
  let! ws := prepare_integral s u ws e in
  let! r := of_result (integrate_over_element (fs_element sp e) g s integrand (iw_weights ws) (iw_points ws) (iw_u ws)) in
  Ok (r 0%nat).
(** integrate.rs:992-1036 [ElementIntegralVolumeAssembler::assemble_element_scalar] *)
Definition volume_integral_scalar (s : nat) (integrand : u_grad_function) (u : list R) (ws : int_ws) (e : nat) : outcome unit R :=
  let! ws := prepare_integral s u ws e in
  let! r := of_result (integrate_over_volume_element (fs_element sp e) s integrand (iw_weights ws) (iw_points ws) (iw_u ws)) in
  Ok (r 0%nat).

(** integrate.rs:784-812 [build_integrator], then [assemble_scalar] (global.rs) *)
Definition mesh_integrate (g s : nat) (integrand : u_function) (u : list R) (ws : nat -> int_ws) : outcome unit R :=
  if (length u =? fs_nodes sp * s)%nat then assemble_scalar Rplus 0 (fs_elems sp) (fun e => integral_scalar g s integrand u (ws e) e) else Panic.
(** integrate.rs:814-840 [build_volume_integrator] *)
Definition mesh_volume_integrate (s : nat) (integrand : u_grad_function) (u : list R) (ws : nat -> int_ws) : outcome unit R :=
  if (length u =? fs_nodes sp * s)%nat then assemble_scalar Rplus 0 (fs_elems sp) (fun e => volume_integral_scalar s integrand u (ws e) e) else Panic.

(** error.rs:287-308, 313-327 *)
Definition estimate_l2_error_squared (d s : nat) (u : vec -> vec) (u_h : list R) (ws : nat -> int_ws) : outcome unit R := mesh_integrate d s (l2_integrand s u) u_h ws.
Definition estimate_l2_error (d s : nat) (u : vec -> vec) (u_h : list R) (ws : nat -> int_ws) : outcome unit R := let! e := estimate_l2_error_squared d s u u_h ws in Ok (sqrt e).
(** error.rs:332-355, 358-373 *)
Definition estimate_h1_error_squared (d s : nat) (u_grad : vec -> mat) (u_h : list R) (ws : nat -> int_ws) : outcome unit R := mesh_volume_integrate s (h1_integrand d s u_grad) u_h ws.
Definition estimate_h1_error (d s : nat) (u_grad : vec -> mat) (u_h : list R) (ws : nat -> int_ws) : outcome unit R := let! e := estimate_h1_error_squared d s u_grad u_h ws in Ok (sqrt e).
End assemblers.
Arguments int_ws : clear implicits.
Arguments IntWs {Pt}.

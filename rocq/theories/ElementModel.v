(** Model of the finite elements of src/element.rs and src/element/*.rs over the exact reals.
    A point (or vector) of any dimension is its coordinate function; components beyond the dimension are never read.
    A basis row vector is the list of its entries, a gradient matrix the list of its columns. *)
From Coq Require Import Reals List.
Import ListNotations.
Local Open Scope R_scope.

Definition point := nat -> R.
Definition pt (l : list R) : point := fun k => nth k l 0.
Definition sum (l : list R) : R := fold_right Rplus 0 l.

(** src/element.rs:246-251 [phi_linear_1d], 258-263 [phi_linear_1d_grad] *)
Definition phi_linear_1d (alpha xi : R) : R := (1 + alpha * xi) / 2.
Definition phi_linear_1d_grad (alpha : R) : R := alpha / 2.

(** src/element.rs:272-281 [phi_quadratic_1d], 290-298 [phi_quadratic_1d_grad] *)
Definition phi_quadratic_1d (alpha xi : R) : R :=
  let alpha2 := alpha * alpha in let xi2 := xi * xi in (3 / 2 * alpha2 - 1) * xi2 + 1 / 2 * alpha * xi + 1 - alpha2.
Definition phi_quadratic_1d_grad (alpha xi : R) : R :=
  let alpha2 := alpha * alpha in 2 * (3 / 2 * alpha2 - 1) * xi + 1 / 2 * alpha.

(** src/element/segment.rs:82-86 [segment2_basis], 88-91 [segment2_gradients] *)
Definition segment2_basis (xi : point) : list R := [(1 - xi 0%nat) / 2; (1 + xi 0%nat) / 2].
Definition segment2_grads (xi : point) : list (list R) := [[- (1 / 2)]; [1 / 2]].
(** The code has no reference() for segments; the reference interval is [-1, 1] (src/element/segment.rs:82-86). *)
Definition segment2_ref : list (list R) := [[-1]; [1]].

(** src/element/triangle.rs:72-78, 82-89, 58-60 (and the copies for [Tri3d3Element], 362-381) *)
Definition tri3_basis (xi : point) : list R :=
  [- (1 / 2) * xi 0%nat - 1 / 2 * xi 1%nat; 1 / 2 * xi 0%nat + 1 / 2; 1 / 2 * xi 1%nat + 1 / 2].
Definition tri3_grads (xi : point) : list (list R) := [[- (1 / 2); - (1 / 2)]; [1 / 2; 0]; [0; 1 / 2]].
Definition tri3_ref : list (list R) := [[-1; -1]; [1; -1]; [-1; 1]].

(** Column operations of the gradient matrices *)
Definition col (g : list (list R)) (i : nat) : list R := nth i g [].
Definition vscale (v : list R) (s : R) : list R := map (fun x => x * s) v.
Fixpoint vadd (u v : list R) : list R := match u, v with x :: u, y :: v => (x + y) :: vadd u v | _, _ => [] end.

(** src/element/triangle.rs:212-225, 228-249, 188-200 *)
Definition tri6_basis (xi : point) : list R :=
  let psi i := nth i (tri3_basis xi) 0 in
  [psi 0%nat * (2 * psi 0%nat - 1); psi 1%nat * (2 * psi 1%nat - 1); psi 2%nat * (2 * psi 2%nat - 1);
   4 * psi 0%nat * psi 1%nat; 4 * psi 1%nat * psi 2%nat; 4 * psi 0%nat * psi 2%nat].
Definition vertex_gradient (basis : list R) (g : list (list R)) (i : nat) : list R := vscale (col g i) (4 * nth i basis 0 - 1).
Definition edge_gradient (basis : list R) (g : list (list R)) (i j : nat) : list R :=
  vadd (vscale (col g i) (4 * nth j basis 0)) (vscale (col g j) (4 * nth i basis 0)).
Definition tri6_grads (xi : point) : list (list R) :=
  let psi := tri3_basis xi in let g := tri3_grads xi in
  [vertex_gradient psi g 0; vertex_gradient psi g 1; vertex_gradient psi g 2; edge_gradient psi g 0 1; edge_gradient psi g 1 2; edge_gradient psi g 0 2].
Definition tri6_ref : list (list R) := [[-1; -1]; [1; -1]; [-1; 1]; [0; -1]; [0; 0]; [-1; 0]].

(** src/element/quadrilateral.rs:79-90, 94-107, 49-56 *)
Definition quad4_phi (xi : point) (alpha beta : R) : R := (1 + alpha * xi 0%nat) * (1 + beta * xi 1%nat) / 4.
Definition quad4_phi_grad (xi : point) (alpha beta : R) : list R := [alpha * (1 + beta * xi 1%nat) / 4; beta * (1 + alpha * xi 0%nat) / 4].
Definition quad4_basis (xi : point) : list R := [quad4_phi xi (-1) (-1); quad4_phi xi 1 (-1); quad4_phi xi 1 1; quad4_phi xi (-1) 1].
Definition quad4_grads (xi : point) : list (list R) :=
  [quad4_phi_grad xi (-1) (-1); quad4_phi_grad xi 1 (-1); quad4_phi_grad xi 1 1; quad4_phi_grad xi (-1) 1].
Definition quad4_ref : list (list R) := [[-1; -1]; [1; -1]; [1; 1]; [-1; 1]].

(** src/element/quadrilateral.rs:226-236 [quad9_phi_1d], 247-272, 276-310, 210-223 *)
Definition quad9_phi_1d (alpha xi : R) : R :=
  let alpha2 := alpha * alpha in let a := 3 / 2 * alpha2 - 1 in let b := alpha / 2 in let c := 1 - alpha2 in a * xi * xi + b * xi + c.
Definition quad9_phi_grad_1d (alpha xi : R) : R :=
  let alpha2 := alpha * alpha in let a := 3 / 2 * alpha2 - 1 in let b := alpha / 2 in 2 * a * xi + b.
Definition quad9_phi (xi : point) (alpha beta : R) : R := quad9_phi_1d alpha (xi 0%nat) * quad9_phi_1d beta (xi 1%nat).
Definition quad9_phi_grad (xi : point) (alpha beta : R) : list R :=
  [quad9_phi_1d beta (xi 1%nat) * quad9_phi_grad_1d alpha (xi 0%nat); quad9_phi_1d alpha (xi 0%nat) * quad9_phi_grad_1d beta (xi 1%nat)].
Definition quad9_basis (xi : point) : list R :=
  let phi := quad9_phi xi in
  [phi (-1) (-1); phi 1 (-1); phi 1 1; phi (-1) 1; phi 0 (-1); phi 1 0; phi 0 1; phi (-1) 0; phi 0 0].
Definition quad9_grads (xi : point) : list (list R) :=
  let phi_grad := quad9_phi_grad xi in
  [phi_grad (-1) (-1); phi_grad 1 (-1); phi_grad 1 1; phi_grad (-1) 1; phi_grad 0 (-1); phi_grad 1 0; phi_grad 0 1; phi_grad (-1) 0; phi_grad 0 0].
Definition quad9_ref : list (list R) := [[-1; -1]; [1; -1]; [1; 1]; [-1; 1]; [0; -1]; [1; 0]; [0; 1]; [-1; 0]; [0; 0]].

(** src/element/tetrahedron.rs:551-558, 561-568, 530-539 *)
Definition tet4_basis (xi : point) : list R :=
  [- (1 / 2) * xi 0%nat - 1 / 2 * xi 1%nat - 1 / 2 * xi 2%nat - 1 / 2; 1 / 2 * xi 0%nat + 1 / 2; 1 / 2 * xi 1%nat + 1 / 2; 1 / 2 * xi 2%nat + 1 / 2].
Definition tet4_grads (xi : point) : list (list R) := [[- (1 / 2); - (1 / 2); - (1 / 2)]; [1 / 2; 0; 0]; [0; 1 / 2; 0]; [0; 0; 1 / 2]].
Definition tet4_ref : list (list R) := [[-1; -1; -1]; [1; -1; -1]; [-1; 1; -1]; [-1; -1; 1]].

(** src/element/tetrahedron.rs:179-195, 198-223, 151-167 *)
Definition tet10_basis (xi : point) : list R :=
  let psi i := nth i (tet4_basis xi) 0 in
  [psi 0%nat * (2 * psi 0%nat - 1); psi 1%nat * (2 * psi 1%nat - 1); psi 2%nat * (2 * psi 2%nat - 1); psi 3%nat * (2 * psi 3%nat - 1);
   4 * psi 0%nat * psi 1%nat; 4 * psi 1%nat * psi 2%nat; 4 * psi 0%nat * psi 2%nat; 4 * psi 0%nat * psi 3%nat; 4 * psi 2%nat * psi 3%nat; 4 * psi 1%nat * psi 3%nat].
Definition tet10_grads (xi : point) : list (list R) :=
  let psi := tet4_basis xi in let g := tet4_grads xi in
  [vertex_gradient psi g 0; vertex_gradient psi g 1; vertex_gradient psi g 2; vertex_gradient psi g 3;
   edge_gradient psi g 0 1; edge_gradient psi g 1 2; edge_gradient psi g 0 2; edge_gradient psi g 0 3; edge_gradient psi g 2 3; edge_gradient psi g 1 3].
Definition tet10_ref : list (list R) :=
  [[-1; -1; -1]; [1; -1; -1]; [-1; 1; -1]; [-1; -1; 1]; [0; -1; -1]; [0; 0; -1]; [-1; 0; -1]; [-1; -1; 0]; [-1; 0; 0]; [0; -1; 0]].

(** src/element/tetrahedron.rs:353-405, 408-469, 303-341 *)
Definition tet20_phi_vertex (psi : nat -> R) (i : nat) : R := 1 / 2 * psi i * (3 * psi i - 1) * (3 * psi i - 2).
Definition tet20_phi_edge (psi : nat -> R) (closest other : nat) : R := (9 / 2) * psi closest * psi other * (3 * psi closest - 1).
Definition tet20_phi_face (psi : nat -> R) (a b c : nat) : R := 27 * psi a * psi b * psi c.
Definition tet20_basis (xi : point) : list R :=
  let psi i := nth i (tet4_basis xi) 0 in
  let phi_edge := tet20_phi_edge psi in let phi_face := tet20_phi_face psi in
  [tet20_phi_vertex psi 0; tet20_phi_vertex psi 1; tet20_phi_vertex psi 2; tet20_phi_vertex psi 3;
   phi_edge 0%nat 1%nat; phi_edge 1%nat 0%nat; phi_edge 0%nat 2%nat; phi_edge 2%nat 0%nat; phi_edge 0%nat 3%nat; phi_edge 3%nat 0%nat;
   phi_edge 1%nat 2%nat; phi_edge 2%nat 1%nat; phi_edge 1%nat 3%nat; phi_edge 3%nat 1%nat; phi_edge 2%nat 3%nat; phi_edge 3%nat 2%nat;
   phi_face 0%nat 1%nat 2%nat; phi_face 0%nat 1%nat 3%nat; phi_face 0%nat 2%nat 3%nat; phi_face 1%nat 2%nat 3%nat].
Definition tet20_vertex_gradient (psi : nat -> R) (g : nat -> list R) (i : nat) : list R :=
  let p := psi i in vscale (vscale (g i) (1 / 2)) (27 * p * p - 18 * p + 2).
Definition tet20_edge_gradient (psi : nat -> R) (g : nat -> list R) (a b : nat) : list R :=
  let pa := psi a in let pb := psi b in
  vscale (vadd (vscale (g a) (pb * (6 * pa - 1))) (vscale (g b) (pa * (3 * pa - 1)))) (9 / 2).
Definition tet20_face_gradient (psi : nat -> R) (g : nat -> list R) (a b c : nat) : list R :=
  vscale (vadd (vadd (vscale (vscale (g a) (psi b)) (psi c)) (vscale (vscale (g b) (psi a)) (psi c))) (vscale (vscale (g c) (psi a)) (psi b))) 27.
Definition tet20_grads (xi : point) : list (list R) :=
  let psi i := nth i (tet4_basis xi) 0 in let g := col (tet4_grads xi) in
  let vg := tet20_vertex_gradient psi g in let eg := tet20_edge_gradient psi g in let fg := tet20_face_gradient psi g in
  [vg 0%nat; vg 1%nat; vg 2%nat; vg 3%nat;
   eg 0%nat 1%nat; eg 1%nat 0%nat; eg 0%nat 2%nat; eg 2%nat 0%nat; eg 0%nat 3%nat; eg 3%nat 0%nat;
   eg 1%nat 2%nat; eg 2%nat 1%nat; eg 1%nat 3%nat; eg 3%nat 1%nat; eg 2%nat 3%nat; eg 3%nat 2%nat;
   fg 0%nat 1%nat 2%nat; fg 0%nat 1%nat 3%nat; fg 0%nat 2%nat 3%nat; fg 1%nat 2%nat 3%nat].
Definition tet20_ref : list (list R) :=
  [[-1; -1; -1]; [1; -1; -1]; [-1; 1; -1]; [-1; -1; 1];
   [-1 / 3; -1; -1]; [1 / 3; -1; -1]; [-1; -1 / 3; -1]; [-1; 1 / 3; -1]; [-1; -1; -1 / 3]; [-1; -1; 1 / 3];
   [1 / 3; -1 / 3; -1]; [-1 / 3; 1 / 3; -1]; [1 / 3; -1; -1 / 3]; [-1 / 3; -1; 1 / 3]; [-1; 1 / 3; -1 / 3]; [-1; -1 / 3; 1 / 3];
   [-1 / 3; -1 / 3; -1]; [-1 / 3; -1; -1 / 3]; [-1; -1 / 3; -1 / 3]; [-1 / 3; -1 / 3; -1 / 3]].

(** src/element/hexahedron.rs:43-60, 63-83, 142-153 *)
Definition hex8_phi (xi : point) (alpha beta gamma : R) : R :=
  phi_linear_1d alpha (xi 0%nat) * phi_linear_1d beta (xi 1%nat) * phi_linear_1d gamma (xi 2%nat).
Definition hex8_phi_grad (xi : point) (alpha beta gamma : R) : list R :=
  [phi_linear_1d_grad alpha * phi_linear_1d beta (xi 1%nat) * phi_linear_1d gamma (xi 2%nat);
   phi_linear_1d alpha (xi 0%nat) * phi_linear_1d_grad beta * phi_linear_1d gamma (xi 2%nat);
   phi_linear_1d alpha (xi 0%nat) * phi_linear_1d beta (xi 1%nat) * phi_linear_1d_grad gamma].
Definition hex8_basis (xi : point) : list R :=
  let phi := hex8_phi xi in
  [phi (-1) (-1) (-1); phi 1 (-1) (-1); phi 1 1 (-1); phi (-1) 1 (-1); phi (-1) (-1) 1; phi 1 (-1) 1; phi 1 1 1; phi (-1) 1 1].
Definition hex8_grads (xi : point) : list (list R) :=
  let phi_grad := hex8_phi_grad xi in
  [phi_grad (-1) (-1) (-1); phi_grad 1 (-1) (-1); phi_grad 1 1 (-1); phi_grad (-1) 1 (-1); phi_grad (-1) (-1) 1; phi_grad 1 (-1) 1; phi_grad 1 1 1; phi_grad (-1) 1 1].
Definition hex8_ref : list (list R) := [[-1; -1; -1]; [1; -1; -1]; [1; 1; -1]; [-1; 1; -1]; [-1; -1; 1]; [1; -1; 1]; [1; 1; 1]; [-1; 1; 1]].

(** src/element/hexahedron.rs:223-266, 269-315, 178-211 *)
Definition hex27_phi (xi : point) (alpha beta gamma : R) : R :=
  phi_quadratic_1d alpha (xi 0%nat) * phi_quadratic_1d beta (xi 1%nat) * phi_quadratic_1d gamma (xi 2%nat).
Definition hex27_phi_grad (xi : point) (alpha beta gamma : R) : list R :=
  [phi_quadratic_1d_grad alpha (xi 0%nat) * phi_quadratic_1d beta (xi 1%nat) * phi_quadratic_1d gamma (xi 2%nat);
   phi_quadratic_1d alpha (xi 0%nat) * phi_quadratic_1d_grad beta (xi 1%nat) * phi_quadratic_1d gamma (xi 2%nat);
   phi_quadratic_1d alpha (xi 0%nat) * phi_quadratic_1d beta (xi 1%nat) * phi_quadratic_1d_grad gamma (xi 2%nat)].
Definition hex27_basis (xi : point) : list R :=
  let phi := hex27_phi xi in
  [phi (-1) (-1) (-1); phi 1 (-1) (-1); phi 1 1 (-1); phi (-1) 1 (-1); phi (-1) (-1) 1; phi 1 (-1) 1; phi 1 1 1; phi (-1) 1 1;
   phi 0 (-1) (-1); phi (-1) 0 (-1); phi (-1) (-1) 0; phi 1 0 (-1); phi 1 (-1) 0; phi 0 1 (-1); phi 1 1 0; phi (-1) 1 0;
   phi 0 (-1) 1; phi (-1) 0 1; phi 1 0 1; phi 0 1 1;
   phi 0 0 (-1); phi 0 (-1) 0; phi (-1) 0 0; phi 1 0 0; phi 0 1 0; phi 0 0 1; phi 0 0 0].
Definition hex27_grads (xi : point) : list (list R) :=
  let phi_grad := hex27_phi_grad xi in
  [phi_grad (-1) (-1) (-1); phi_grad 1 (-1) (-1); phi_grad 1 1 (-1); phi_grad (-1) 1 (-1); phi_grad (-1) (-1) 1; phi_grad 1 (-1) 1; phi_grad 1 1 1; phi_grad (-1) 1 1;
   phi_grad 0 (-1) (-1); phi_grad (-1) 0 (-1); phi_grad (-1) (-1) 0; phi_grad 1 0 (-1); phi_grad 1 (-1) 0; phi_grad 0 1 (-1); phi_grad 1 1 0; phi_grad (-1) 1 0;
   phi_grad 0 (-1) 1; phi_grad (-1) 0 1; phi_grad 1 0 1; phi_grad 0 1 1;
   phi_grad 0 0 (-1); phi_grad 0 (-1) 0; phi_grad (-1) 0 0; phi_grad 1 0 0; phi_grad 0 1 0; phi_grad 0 0 1; phi_grad 0 0 0].
Definition hex27_ref : list (list R) :=
  [[-1; -1; -1]; [1; -1; -1]; [1; 1; -1]; [-1; 1; -1]; [-1; -1; 1]; [1; -1; 1]; [1; 1; 1]; [-1; 1; 1];
   [0; -1; -1]; [-1; 0; -1]; [-1; -1; 0]; [1; 0; -1]; [1; -1; 0]; [0; 1; -1]; [1; 1; 0]; [-1; 1; 0];
   [0; -1; 1]; [-1; 0; 1]; [1; 0; 1]; [0; 1; 1];
   [0; 0; -1]; [0; -1; 0]; [-1; 0; 0]; [1; 0; 0]; [0; 1; 0]; [0; 0; 1]; [0; 0; 0]].

(** src/element/hexahedron.rs:414-464, 467-543, 378-402 *)
Definition hex20_phi_corner (xi : point) (alpha beta gamma : R) : R :=
  (1 / 8) * (1 + alpha * xi 0%nat) * (1 + beta * xi 1%nat) * (1 + gamma * xi 2%nat) * (alpha * xi 0%nat + beta * xi 1%nat + gamma * xi 2%nat - 2).
Definition hex20_phi_edge (xi : point) (alpha beta gamma : R) : R :=
  let alpha2 := alpha * alpha in let beta2 := beta * beta in let gamma2 := gamma * gamma in
  (1 / 4) * (1 - (1 - alpha2) * xi 0%nat * xi 0%nat) * (1 - (1 - beta2) * xi 1%nat * xi 1%nat) * (1 - (1 - gamma2) * xi 2%nat * xi 2%nat)
    * (1 + alpha * xi 0%nat) * (1 + beta * xi 1%nat) * (1 + gamma * xi 2%nat).
Definition hex20_basis (xi : point) : list R :=
  let phi_corner := hex20_phi_corner xi in let phi_edge := hex20_phi_edge xi in
  [phi_corner (-1) (-1) (-1); phi_corner 1 (-1) (-1); phi_corner 1 1 (-1); phi_corner (-1) 1 (-1);
   phi_corner (-1) (-1) 1; phi_corner 1 (-1) 1; phi_corner 1 1 1; phi_corner (-1) 1 1;
   phi_edge 0 (-1) (-1); phi_edge (-1) 0 (-1); phi_edge (-1) (-1) 0; phi_edge 1 0 (-1); phi_edge 1 (-1) 0; phi_edge 0 1 (-1);
   phi_edge 1 1 0; phi_edge (-1) 1 0; phi_edge 0 (-1) 1; phi_edge (-1) 0 1; phi_edge 1 0 1; phi_edge 0 1 1].
Definition hex20_phi_grad_corner (xi : point) (alpha beta gamma : R) : list R :=
  let f := alpha * xi 0%nat + beta * xi 1%nat + gamma * xi 2%nat - 2 in
  let g := (1 + alpha * xi 0%nat) * (1 + beta * xi 1%nat) * (1 + gamma * xi 2%nat) in
  let s := 1 / 8 in
  [s * (alpha * g + f * alpha * (1 + beta * xi 1%nat) * (1 + gamma * xi 2%nat));
   s * (beta * g + f * beta * (1 + alpha * xi 0%nat) * (1 + gamma * xi 2%nat));
   s * (gamma * g + f * gamma * (1 + alpha * xi 0%nat) * (1 + beta * xi 1%nat))].
Definition hex20_phi_grad_edge (xi : point) (alpha beta gamma : R) : list R :=
  let alpha2 := alpha * alpha in let beta2 := beta * beta in let gamma2 := gamma * gamma in
  let h := (1 - (1 - alpha2) * xi 0%nat * xi 0%nat) * (1 - (1 - beta2) * xi 1%nat * xi 1%nat) * (1 - (1 - gamma2) * xi 2%nat * xi 2%nat) in
  let g := (1 + alpha * xi 0%nat) * (1 + beta * xi 1%nat) * (1 + gamma * xi 2%nat) in
  let s := 1 / 4 in
  let dh_xi0 := -2 * (1 - alpha2) * xi 0%nat * (1 - (1 - beta2) * xi 1%nat * xi 1%nat) * (1 - (1 - gamma2) * xi 2%nat * xi 2%nat) in
  let dh_xi1 := -2 * (1 - beta2) * xi 1%nat * (1 - (1 - alpha2) * xi 0%nat * xi 0%nat) * (1 - (1 - gamma2) * xi 2%nat * xi 2%nat) in
  let dh_xi2 := -2 * (1 - gamma2) * xi 2%nat * (1 - (1 - alpha2) * xi 0%nat * xi 0%nat) * (1 - (1 - beta2) * xi 1%nat * xi 1%nat) in
  [s * (dh_xi0 * g + h * alpha * (1 + beta * xi 1%nat) * (1 + gamma * xi 2%nat));
   s * (dh_xi1 * g + h * beta * (1 + alpha * xi 0%nat) * (1 + gamma * xi 2%nat));
   s * (dh_xi2 * g + h * gamma * (1 + alpha * xi 0%nat) * (1 + beta * xi 1%nat))].
Definition hex20_grads (xi : point) : list (list R) :=
  let gc := hex20_phi_grad_corner xi in let ge := hex20_phi_grad_edge xi in
  [gc (-1) (-1) (-1); gc 1 (-1) (-1); gc 1 1 (-1); gc (-1) 1 (-1); gc (-1) (-1) 1; gc 1 (-1) 1; gc 1 1 1; gc (-1) 1 1;
   ge 0 (-1) (-1); ge (-1) 0 (-1); ge (-1) (-1) 0; ge 1 0 (-1); ge 1 (-1) 0; ge 0 1 (-1);
   ge 1 1 0; ge (-1) 1 0; ge 0 (-1) 1; ge (-1) 0 1; ge 1 0 1; ge 0 1 1].
Definition hex20_ref : list (list R) :=
  [[-1; -1; -1]; [1; -1; -1]; [1; 1; -1]; [-1; 1; -1]; [-1; -1; 1]; [1; -1; 1]; [1; 1; 1]; [-1; 1; 1];
   [0; -1; -1]; [-1; 0; -1]; [-1; -1; 0]; [1; 0; -1]; [1; -1; 0]; [0; 1; -1]; [1; 1; 0]; [-1; 1; 0];
   [0; -1; 1]; [-1; 0; 1]; [1; 0; 1]; [0; 1; 1]].

(** The geometry map and its Jacobian: [X * N^T] and [X * G^T] with the vertices as columns of X. *)
Fixpoint combine (w : list R) (vs : list point) (i : nat) : R :=
  match w, vs with x :: w, v :: vs => v i * x + combine w vs i | _, _ => 0 end.
Definition isoparametric_map (basis : point -> list R) (vs : list point) (xi : point) : point := combine (basis xi) vs.
Definition isoparametric_jacobian (grads : point -> list (list R)) (vs : list point) (xi : point) (i k : nat) : R :=
  combine (map (fun g => nth k g 0) (grads xi)) vs i.
(** src/element/segment.rs:135-139, 163-167: the Jacobian of a segment is (b - a) / 2. *)
Definition segment_jacobian (vs : list point) (xi : point) (i k : nat) : R :=
  match vs with [a; b] => (b i - a i) / 2 | _ => 0 end.

(** An element type: reference dimension, nodes, basis, gradients, and the map from vertices to geometry.
    The quadratic and cubic elements use the map of the linear element on their first vertices
    (triangle.rs:258-264, quadrilateral.rs:316-323, tetrahedron.rs:233-240, 479-486, hexahedron.rs:324-330, 552-558). *)
Record element := Element {
  el_dim : nat; el_ref : list (list R); el_basis : point -> list R; el_grads : point -> list (list R);
  el_corners : nat;   (* number of vertices that determine the geometry *)
  el_map : list point -> point -> point; el_jacobian : list point -> point -> nat -> nat -> R }.

Definition on_first (n : nat) {A} (f : list point -> A) (vs : list point) : A := f (firstn n vs).
Definition segment2 := Element 1 segment2_ref segment2_basis segment2_grads 2 (isoparametric_map segment2_basis) segment_jacobian.
Definition tri3 := Element 2 tri3_ref tri3_basis tri3_grads 3 (isoparametric_map tri3_basis) (isoparametric_jacobian tri3_grads).
Definition tri6 := Element 2 tri6_ref tri6_basis tri6_grads 3 (on_first 3 (el_map tri3)) (on_first 3 (el_jacobian tri3)).
Definition quad4 := Element 2 quad4_ref quad4_basis quad4_grads 4 (isoparametric_map quad4_basis) (isoparametric_jacobian quad4_grads).
Definition quad9 := Element 2 quad9_ref quad9_basis quad9_grads 4 (on_first 4 (el_map quad4)) (on_first 4 (el_jacobian quad4)).
Definition tet4 := Element 3 tet4_ref tet4_basis tet4_grads 4 (isoparametric_map tet4_basis) (isoparametric_jacobian tet4_grads).
Definition tet10 := Element 3 tet10_ref tet10_basis tet10_grads 4 (on_first 4 (el_map tet4)) (on_first 4 (el_jacobian tet4)).
Definition tet20 := Element 3 tet20_ref tet20_basis tet20_grads 4 (on_first 4 (el_map tet4)) (on_first 4 (el_jacobian tet4)).
Definition hex8 := Element 3 hex8_ref hex8_basis hex8_grads 8 (isoparametric_map hex8_basis) (isoparametric_jacobian hex8_grads).
Definition hex27 := Element 3 hex27_ref hex27_basis hex27_grads 8 (on_first 8 (el_map hex8)) (on_first 8 (el_jacobian hex8)).
Definition hex20 := Element 3 hex20_ref hex20_basis hex20_grads 8 (on_first 8 (el_map hex8)) (on_first 8 (el_jacobian hex8)).

Definition all_elements : list element := [segment2; tri3; tri6; quad4; quad9; tet4; tet10; tet20; hex8; hex20; hex27].

(** Conversions of single elements to higher order; midpoint is fenris-geometry/src/primitives/line.rs:109-111 *)
Definition midpoint (a b : point) : point := fun i => (a i + b i) / 2.
Definition half_sum (a b : point) : point := fun i => (a i + b i) * (1 / 2).
Definition vx (vs : list point) (j : nat) : point := nth j vs (fun _ => 0).
(** src/element/triangle.rs:155-171 *)
Definition tri6_from_tri3 (v : list point) : list point :=
  firstn 3 v ++ [midpoint (vx v 0) (vx v 1); midpoint (vx v 1) (vx v 2); midpoint (vx v 2) (vx v 0)].
(** src/element/quadrilateral.rs:173-193 *)
Definition quad9_from_quad4 (v : list point) : list point :=
  let v4 := midpoint (vx v 0) (vx v 1) in let v5 := midpoint (vx v 1) (vx v 2) in
  let v6 := midpoint (vx v 2) (vx v 3) in let v7 := midpoint (vx v 3) (vx v 0) in
  firstn 4 v ++ [v4; v5; v6; v7; midpoint v4 v6].
(** src/element/tetrahedron.rs:118-143 *)
Definition tet10_from_tet4 (v : list point) : list point :=
  firstn 4 v ++ [half_sum (vx v 0) (vx v 1); half_sum (vx v 1) (vx v 2); half_sum (vx v 0) (vx v 2);
                 half_sum (vx v 0) (vx v 3); half_sum (vx v 2) (vx v 3); half_sum (vx v 1) (vx v 3)].
(** src/element/tetrahedron.rs:262-277 *)
Definition tet20_from_tet4 (v : list point) : list point := map (fun x => el_map tet4 v (pt x)) tet20_ref.

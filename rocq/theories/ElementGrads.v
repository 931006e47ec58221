(** Gradients are derivatives. *)
From Coq Require Import Reals List Lra Lia.
From Coquelicot Require Import Coquelicot.
From Verif Require Import ElementModel ElementSpec ElementNodal.
Import ListNotations.
Local Open Scope R_scope.

(** * Gradients *)
Definition grad_ok (basis : point -> list R) (grads : point -> list (list R)) (dim n : nat) : Prop :=
  forall i d xi, (i < n)%nat -> (d < dim)%nat -> is_derive (fun t => nth i (basis (upd xi d t)) 0) (xi d) (nth d (nth i (grads xi) []) 0).

Ltac derive1 := cbn; unfold upd; cbn; auto_derive; [exact I|field].

Lemma grad_segment2 : grad_ok segment2_basis segment2_grads 1 2.
Proof. intros i d xi Hi Hd. do 2 (try (destruct i as [|i])); try lia; destruct d as [|d]; try lia; derive1. Qed.
Lemma grad_tri3 : grad_ok tri3_basis tri3_grads 2 3.
Proof. intros i d xi Hi Hd. do 3 (try (destruct i as [|i])); try lia; do 2 (try (destruct d as [|d])); try lia; derive1. Qed.
Lemma grad_tri6 : grad_ok tri6_basis tri6_grads 2 6.
Proof. intros i d xi Hi Hd. do 6 (try (destruct i as [|i])); try lia; do 2 (try (destruct d as [|d])); try lia; derive1. Qed.
Lemma grad_quad4 : grad_ok quad4_basis quad4_grads 2 4.
Proof. intros i d xi Hi Hd. unfold quad4_basis, quad4_phi. do 4 (try (destruct i as [|i])); try lia; do 2 (try (destruct d as [|d])); try lia; derive1. Qed.
Lemma grad_quad9 : grad_ok quad9_basis quad9_grads 2 9.
Proof. intros i d xi Hi Hd. unfold quad9_basis, quad9_grads, quad9_phi, quad9_phi_grad, quad9_phi_1d, quad9_phi_grad_1d. do 9 (try (destruct i as [|i])); try lia; do 2 (try (destruct d as [|d])); try lia; derive1. Qed.
Lemma grad_tet4 : grad_ok tet4_basis tet4_grads 3 4.
Proof. intros i d xi Hi Hd. unfold tet4_basis. do 4 (try (destruct i as [|i])); try lia; do 3 (try (destruct d as [|d])); try lia; derive1. Qed.
Lemma grad_tet10 : grad_ok tet10_basis tet10_grads 3 10.
Proof. intros i d xi Hi Hd. unfold tet10_basis. do 10 (try (destruct i as [|i])); try lia; do 3 (try (destruct d as [|d])); try lia; derive1. Qed.
Lemma grad_tet20 : grad_ok tet20_basis tet20_grads 3 20.
Proof. intros i d xi Hi Hd. unfold tet20_basis, tet20_grads, tet20_phi_vertex, tet20_phi_edge, tet20_phi_face, tet20_vertex_gradient, tet20_edge_gradient, tet20_face_gradient. do 20 (try (destruct i as [|i])); try lia; do 3 (try (destruct d as [|d])); try lia; derive1. Qed.
Lemma grad_hex8 : grad_ok hex8_basis hex8_grads 3 8.
Proof. intros i d xi Hi Hd. unfold hex8_basis, hex8_grads, hex8_phi, hex8_phi_grad, phi_linear_1d, phi_linear_1d_grad. do 8 (try (destruct i as [|i])); try lia; do 3 (try (destruct d as [|d])); try lia; derive1. Qed.
Lemma grad_hex27 : grad_ok hex27_basis hex27_grads 3 27.
Proof. intros i d xi Hi Hd. unfold hex27_basis, hex27_grads, hex27_phi, hex27_phi_grad, phi_quadratic_1d, phi_quadratic_1d_grad. do 27 (try (destruct i as [|i])); try lia; do 3 (try (destruct d as [|d])); try lia; derive1. Qed.
Lemma grad_hex20 : grad_ok hex20_basis hex20_grads 3 20.
Proof. intros i d xi Hi Hd. unfold hex20_basis, hex20_grads, hex20_phi_corner, hex20_phi_edge, hex20_phi_grad_corner, hex20_phi_grad_edge. do 20 (try (destruct i as [|i])); try lia; do 3 (try (destruct d as [|d])); try lia; derive1. Qed.

Lemma gradients_ok e : In e all_elements -> grad_ok (el_basis e) (el_grads e) (el_dim e) (length (el_ref e)).
Proof.
  intros H. unfold all_elements in H.
  each H (cbn [el_ref el_basis el_grads el_dim segment2 tri3 tri6 quad4 quad9 tet4 tet10 tet20 hex8 hex20 hex27];
  first [exact grad_segment2|exact grad_tri3|exact grad_tri6|exact grad_quad4|exact grad_quad9|exact grad_tet4|exact grad_tet10
   |exact grad_tet20|exact grad_hex8|exact grad_hex20|exact grad_hex27]).
Qed.

(** Nodality of the bases. *)
From Coq Require Import Reals List Lra Lia.
From Verif Require Import ElementModel ElementSpec.
Import ListNotations.
Local Open Scope R_scope.

Tactic Notation "each" ident(H) tactic3(t) := repeat (destruct H as [<-|H]; [t|]); destruct H.

Lemma lengths e xi : In e all_elements -> length (el_basis e xi) = length (el_ref e) /\ length (el_grads e xi) = length (el_ref e).
Proof. intros H. unfold all_elements in H. each H (split; reflexivity). Qed.

(** * Nodality *)
Definition unit_rows (n : nat) : list (list R) := map (fun j => map (fun i => if Nat.eqb i j then 1 else 0) (seq 0 n)) (seq 0 n).

Lemma pl_11 : phi_linear_1d 1 1 = 1. Proof. unfold phi_linear_1d; field. Qed.
Lemma pl_1m : phi_linear_1d 1 (-1) = 0. Proof. unfold phi_linear_1d; field. Qed.
Lemma pl_m1 : phi_linear_1d (-1) 1 = 0. Proof. unfold phi_linear_1d; field. Qed.
Lemma pl_mm : phi_linear_1d (-1) (-1) = 1. Proof. unfold phi_linear_1d; field. Qed.
Lemma pq_11 : phi_quadratic_1d 1 1 = 1. Proof. unfold phi_quadratic_1d; field. Qed.
Lemma pq_10 : phi_quadratic_1d 1 0 = 0. Proof. unfold phi_quadratic_1d; field. Qed.
Lemma pq_1m : phi_quadratic_1d 1 (-1) = 0. Proof. unfold phi_quadratic_1d; field. Qed.
Lemma pq_01 : phi_quadratic_1d 0 1 = 0. Proof. unfold phi_quadratic_1d; field. Qed.
Lemma pq_00 : phi_quadratic_1d 0 0 = 1. Proof. unfold phi_quadratic_1d; field. Qed.
Lemma pq_0m : phi_quadratic_1d 0 (-1) = 0. Proof. unfold phi_quadratic_1d; field. Qed.
Lemma pq_m1 : phi_quadratic_1d (-1) 1 = 0. Proof. unfold phi_quadratic_1d; field. Qed.
Lemma pq_m0 : phi_quadratic_1d (-1) 0 = 0. Proof. unfold phi_quadratic_1d; field. Qed.
Lemma pq_mm : phi_quadratic_1d (-1) (-1) = 1. Proof. unfold phi_quadratic_1d; field. Qed.

Ltac list_eq tac := repeat (match goal with |- _ :: _ = _ :: _ => apply f_equal2 | |- [] = [] => reflexivity end); tac.

Lemma nodal_segment2 : map (fun x => segment2_basis (pt x)) segment2_ref = unit_rows 2.
Proof. unfold segment2_basis, segment2_ref, unit_rows. cbn. list_eq ltac:(field). Qed.
Lemma nodal_tri3 : map (fun x => tri3_basis (pt x)) tri3_ref = unit_rows 3.
Proof. unfold tri3_basis, tri3_ref, unit_rows. cbn. list_eq ltac:(field). Qed.
Lemma nodal_tri6 : map (fun x => tri6_basis (pt x)) tri6_ref = unit_rows 6.
Proof. unfold tri6_basis, tri6_ref, unit_rows. cbn. list_eq ltac:(field). Qed.
Lemma nodal_quad4 : map (fun x => quad4_basis (pt x)) quad4_ref = unit_rows 4.
Proof. unfold quad4_basis, quad4_ref, unit_rows, quad4_phi. cbn. list_eq ltac:(field). Qed.
Lemma nodal_quad9 : map (fun x => quad9_basis (pt x)) quad9_ref = unit_rows 9.
Proof. unfold quad9_basis, quad9_ref, unit_rows, quad9_phi, quad9_phi_1d. cbn. list_eq ltac:(field). Qed.
Lemma nodal_tet4 : map (fun x => tet4_basis (pt x)) tet4_ref = unit_rows 4.
Proof. unfold tet4_basis, tet4_ref, unit_rows. cbn. list_eq ltac:(field). Qed.
Lemma nodal_tet10 : map (fun x => tet10_basis (pt x)) tet10_ref = unit_rows 10.
Proof. unfold tet10_basis, tet10_ref, unit_rows. cbn. list_eq ltac:(field). Qed.
Lemma nodal_tet20 : map (fun x => tet20_basis (pt x)) tet20_ref = unit_rows 20.
Proof. unfold tet20_basis, tet20_phi_vertex, tet20_phi_edge, tet20_phi_face, tet20_ref, unit_rows. cbn. list_eq ltac:(field). Qed.
Lemma nodal_hex8 : map (fun x => hex8_basis (pt x)) hex8_ref = unit_rows 8.
Proof. unfold hex8_basis, hex8_phi, hex8_ref, unit_rows. cbn. rewrite ?pl_11, ?pl_1m, ?pl_m1, ?pl_mm. list_eq ltac:(ring). Qed.
Lemma nodal_hex27 : map (fun x => hex27_basis (pt x)) hex27_ref = unit_rows 27.
Proof.
  unfold hex27_basis, hex27_phi, hex27_ref, unit_rows. cbn. rewrite ?pq_11, ?pq_10, ?pq_1m, ?pq_01, ?pq_00, ?pq_0m, ?pq_m1, ?pq_m0, ?pq_mm.
  list_eq ltac:(ring).
Qed.
Lemma nodal_hex20 : map (fun x => hex20_basis (pt x)) hex20_ref = unit_rows 20.
Proof. unfold hex20_basis, hex20_phi_corner, hex20_phi_edge, hex20_ref, unit_rows. cbn. list_eq ltac:(field). Qed.

Lemma nodal_from_rows (basis : point -> list R) (ref : list (list R)) n : length ref = n ->
  map (fun x => basis (pt x)) ref = unit_rows n ->
  forall i j, (i < n)%nat -> (j < n)%nat -> nth i (basis (pt (nth j ref []))) 0 = if Nat.eqb i j then 1 else 0.
Proof.
  intros Hl H i j Hi Hj.
  assert (basis (pt (nth j ref [])) = map (fun i => if Nat.eqb i j then 1 else 0) (seq 0 n)) as ->.
  { assert (nth_error (map (fun x => basis (pt x)) ref) j = nth_error (unit_rows n) j) as E by (rewrite H; reflexivity).
    rewrite nth_error_map, (nth_error_nth' ref []) in E by lia. simpl in E.
    unfold unit_rows in E. rewrite nth_error_map, (nth_error_nth' (seq 0 n) 0%nat), seq_nth in E by (rewrite ?seq_length; lia). simpl in E. congruence. }
  assert (nth_error (map (fun i => if Nat.eqb i j then 1 else 0) (seq 0 n)) i = Some (if Nat.eqb i j then 1 else 0)) as E.
  { rewrite nth_error_map, (nth_error_nth' (seq 0 n) 0%nat), seq_nth by (rewrite ?seq_length; lia). reflexivity. }
  apply (nth_error_nth _ _ 0) in E. exact E.
Qed.

Lemma nodal e : In e all_elements -> forall i j, (i < length (el_ref e))%nat -> (j < length (el_ref e))%nat ->
  nth i (el_basis e (pt (nth j (el_ref e) []))) 0 = if Nat.eqb i j then 1 else 0.
Proof.
  intros H. unfold all_elements in H.
  each H (apply nodal_from_rows; [reflexivity|];
  cbn [el_ref el_basis segment2 tri3 tri6 quad4 quad9 tet4 tet10 tet20 hex8 hex20 hex27];
  first [exact nodal_segment2|exact nodal_tri3|exact nodal_tri6|exact nodal_quad4|exact nodal_quad9|exact nodal_tet4|exact nodal_tet10
   |exact nodal_tet20|exact nodal_hex8|exact nodal_hex20|exact nodal_hex27]).
Qed.

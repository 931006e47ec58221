(** Polynomial reproduction. *)
From Coq Require Import Reals List Lra Lia.
From Verif Require Import ElementModel ElementSpec ElementNodal.
Import ListNotations.
Local Open Scope R_scope.

Definition reproduces (e : element) (S : exps -> Prop) : Prop := forall m, S m -> forall xi, interpolate e (monomial m) xi = monomial m xi.

Lemma interpolate_linear e p xi :
  interpolate e (peval p) xi = fold_right (fun m acc => fst m * interpolate e (monomial (snd m)) xi + acc) 0 p.
Proof.
  unfold interpolate. generalize (List.combine (el_basis e xi) (el_ref e)). intros l. induction p as [|[c m] p IH].
  - simpl. induction l as [|[w n] l IHl]; simpl; [reflexivity|]. rewrite IHl. ring.
  - simpl. rewrite <- IH. clear IH. induction l as [|[w n] l IHl]; simpl in *; [ring|]. rewrite IHl. ring.
Qed.

Lemma reproduces_poly e S p xi : reproduces e S -> Forall (fun m => S (snd m)) p -> interpolate e (peval p) xi = peval p xi.
Proof.
  intros H HF. rewrite interpolate_linear. unfold peval. induction HF as [|m p Hm _ IH]; simpl; [reflexivity|]. rewrite IH, H by assumption. reflexivity.
Qed.

Ltac small i := destruct i as [|[|[|[|i]]]]; try (exfalso; lia).
Ltac mono := intros [[i j] k] Hm xi; unfold serendipity, total_degree, each_degree in Hm; cbn [fst snd] in Hm;
  (assert (k = 0 \/ k = 1 \/ k = 2 \/ k = 3)%nat as [->|[->|[->| ->]]] by lia; try (exfalso; lia));
  (assert (j = 0 \/ j = 1 \/ j = 2 \/ j = 3)%nat as [->|[->|[->| ->]]] by lia; try (exfalso; lia));
  (assert (i = 0 \/ i = 1 \/ i = 2 \/ i = 3)%nat as [->|[->|[->| ->]]] by lia; try (exfalso; lia)); clear Hm.

Lemma poly_segment2 : reproduces segment2 (total_degree 1 1).
Proof. mono; unfold interpolate, monomial; cbn; field. Qed.
Lemma poly_tri3 : reproduces tri3 (total_degree 2 1).
Proof. mono; unfold interpolate, monomial; cbn; field. Qed.
Lemma poly_tri6 : reproduces tri6 (total_degree 2 2).
Proof. mono; unfold interpolate, monomial; cbn; field. Qed.
Lemma poly_quad4 : reproduces quad4 (each_degree 2 1).
Proof. mono; unfold interpolate, monomial; cbn; unfold quad4_phi; field. Qed.
Lemma poly_quad9 : reproduces quad9 (each_degree 2 2).
Proof. mono; unfold interpolate, monomial; cbn; unfold quad9_phi, quad9_phi_1d; field. Qed.
Lemma poly_tet4 : reproduces tet4 (total_degree 3 1).
Proof. mono; unfold interpolate, monomial; cbn; field. Qed.
Lemma poly_tet10 : reproduces tet10 (total_degree 3 2).
Proof. mono; unfold interpolate, monomial; cbn; field. Qed.
Lemma poly_tet20 : reproduces tet20 (total_degree 3 3).
Proof. mono; unfold interpolate, monomial; cbn; unfold tet20_phi_vertex, tet20_phi_edge, tet20_phi_face; cbn; field. Qed.
Lemma poly_hex8 : reproduces hex8 (each_degree 3 1).
Proof. mono; unfold interpolate, monomial; cbn; unfold hex8_phi, phi_linear_1d; field. Qed.
Lemma poly_hex20 : reproduces hex20 serendipity.
Proof. mono; unfold interpolate, monomial; cbn; unfold hex20_phi_corner, hex20_phi_edge; field. Qed.

(** Hex27: one direction at a time. *)
Lemma quad_moment (x : R) (i : nat) : (i <= 2)%nat ->
  phi_quadratic_1d (-1) x * (-1) ^ i + phi_quadratic_1d 0 x * 0 ^ i + phi_quadratic_1d 1 x * 1 ^ i = x ^ i.
Proof.
  intros H. assert (i = 0 \/ i = 1 \/ i = 2)%nat as [->|[->| ->]] by lia; unfold phi_quadratic_1d; simpl; field.
Qed.

Lemma poly_hex27 : reproduces hex27 (each_degree 3 2).
Proof.
  intros [[i j] k] [[Hi [Hj Hk]] _] xi. cbn [fst snd] in *. unfold interpolate, monomial. cbn [fst snd].
  rewrite <- (quad_moment (xi 0%nat) i Hi), <- (quad_moment (xi 1%nat) j Hj), <- (quad_moment (xi 2%nat) k Hk).
  cbn -[pow]. unfold hex27_phi.
  generalize (phi_quadratic_1d (-1) (xi 0%nat)) (phi_quadratic_1d 0 (xi 0%nat)) (phi_quadratic_1d 1 (xi 0%nat)).
  generalize (phi_quadratic_1d (-1) (xi 1%nat)) (phi_quadratic_1d 0 (xi 1%nat)) (phi_quadratic_1d 1 (xi 1%nat)).
  generalize (phi_quadratic_1d (-1) (xi 2%nat)) (phi_quadratic_1d 0 (xi 2%nat)) (phi_quadratic_1d 1 (xi 2%nat)).
  unfold pt; cbn -[pow]. generalize ((-1) ^ i) (0 ^ i) (1 ^ i) ((-1) ^ j) (0 ^ j) (1 ^ j) ((-1) ^ k) (0 ^ k) (1 ^ k). intros. ring.
Qed.

Lemma reproduces_all e S : In (e, S) element_spaces -> reproduces e S.
Proof.
  intros H. unfold element_spaces in H.
  repeat (destruct H as [H|H]; [injection H as <- <-;
    first [exact poly_segment2|exact poly_tri3|exact poly_tri6|exact poly_quad4|exact poly_quad9|exact poly_tet4|exact poly_tet10
     |exact poly_tet20|exact poly_hex8|exact poly_hex20|exact poly_hex27]|]). destruct H.
Qed.

Lemma every_element_has_space e : In e all_elements -> exists S, In (e, S) element_spaces /\ S (0, 0, 0)%nat.
Proof.
  intros H. unfold all_elements in H.
  each H (eexists; split; [unfold element_spaces; repeat (first [left; reflexivity|right])|
    unfold total_degree, serendipity, each_degree; cbn [fst snd]; lia]).
Qed.

Lemma partition_of_unity e xi : In e all_elements -> fold_right Rplus 0 (el_basis e xi) = 1.
Proof.
  intros H. destruct (every_element_has_space e H) as (S & HS & H0). pose proof (reproduces_all e S HS (0, 0, 0)%nat H0 xi) as E.
  unfold monomial in E. simpl in E. replace (1 * 1 * 1) with 1 in E by ring. rewrite <- E. unfold interpolate.
  pose proof (proj1 (lengths e xi H)) as Hl. revert Hl. generalize (el_basis e xi) (el_ref e). clear.
  intros l. induction l as [|x l IH]; intros [|y l'] Hl; try discriminate; [reflexivity|]. injection Hl as Hl. simpl. rewrite (IH l' Hl).
  ring.
Qed.

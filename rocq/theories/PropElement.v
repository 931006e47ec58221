(** C51, C52, C53, C60: finite elements. *)
From Coq Require Import Reals List Lra Lia.
From Coquelicot Require Import Coquelicot.
From Verif Require Import ElementModel ElementSpec ElementNodal ElementGrads ElementPoly ElementGeometry.
Import ListNotations.
Local Open Scope R_scope.

(** C51. The basis functions sum to one at every point ... *)
Theorem C51_partition_of_unity : forall e, In e all_elements -> forall xi, fold_right Rplus 0 (el_basis e xi) = 1.
Proof. intros e He xi. exact (partition_of_unity e xi He). Qed.
Print Assumptions C51_partition_of_unity.

(** ... there is one for each node, and it is one there and zero at the other nodes. *)
Theorem C51_nodal : forall e, In e all_elements ->
  (forall xi, length (el_basis e xi) = length (el_ref e)) /\
  (forall i j, (i < length (el_ref e))%nat -> (j < length (el_ref e))%nat ->
     nth i (el_basis e (pt (nth j (el_ref e) []))) 0 = if Nat.eqb i j then 1 else 0).
Proof. intros e He. split; [intros xi; exact (proj1 (lengths e xi He))|exact (nodal e He)]. Qed.
Print Assumptions C51_nodal.

(** C52. Each gradient component is the partial derivative. *)
Theorem C52_gradients : forall e, In e all_elements -> forall xi,
  length (el_grads e xi) = length (el_ref e) /\
  forall i d, (i < length (el_ref e))%nat -> (d < el_dim e)%nat ->
    is_derive (fun t => nth i (el_basis e (upd xi d t)) 0) (xi d) (nth d (nth i (el_grads e xi) []) 0).
Proof. intros e He xi. split; [exact (proj2 (lengths e xi He))|]. intros i d Hi Hd. exact (gradients_ok e He i d xi Hi Hd). Qed.
Print Assumptions C52_gradients.

Theorem C52_gradients_sum_to_zero : forall e, In e all_elements -> forall xi d, (d < el_dim e)%nat ->
  fold_right Rplus 0 (map (fun g => nth d g 0) (el_grads e xi)) = 0.
Proof. intros e He xi d Hd. exact (gradients_sum e xi d He Hd). Qed.
Print Assumptions C52_gradients_sum_to_zero.

(** C53. Interpolation reproduces the polynomials of the element's space. *)
Theorem C53_reproduction : forall (e : element) (S : exps -> Prop), In (e, S) element_spaces ->
  forall p : poly, List.Forall (fun m : R * exps => S (snd m)) p -> forall xi, interpolate e (peval p) xi = peval p xi.
Proof. intros e S HS p Hp xi. exact (reproduces_poly e S p xi (reproduces_all e S HS) Hp). Qed.
Print Assumptions C53_reproduction.

(** C53. The geometry map sends reference corners to the element's corners and its Jacobian is its derivative. *)
Theorem C53_geometry : forall e, In e all_elements -> forall vs, length vs = length (el_ref e) ->
  (forall j i, (j < el_corners e)%nat -> el_map e vs (pt (nth j (el_ref e) [])) i = nth j vs (fun _ => 0) i) /\
  (forall xi i d, (d < el_dim e)%nat -> is_derive (fun t => el_map e vs (upd xi d t) i) (xi d) (el_jacobian e vs xi i d)).
Proof. exact geometry. Qed.
Print Assumptions C53_geometry.

Example C53_example :
  let p : poly := [(3, (1, 1, 0)%nat); (-2, (0, 0, 2)%nat); (5, (0, 0, 0)%nat)] in
  List.Forall (fun m => total_degree 3 2 (snd m)) p /\
  interpolate tet10 (peval p) (pt [1 / 3; -1 / 2; 0]) = 9 / 2 /\ el_basis tet10 (pt [1 / 3; -1 / 2; 0]) <> [].
Proof.
  cbv zeta. split; [|split; [|discriminate]].
  - unfold total_degree. repeat constructor; simpl; lia.
  - rewrite (C53_reproduction tet10 (total_degree 3 2)).
    + unfold peval, monomial, pt. simpl. field.
    + unfold element_spaces. repeat (first [left; reflexivity|right]).
    + unfold total_degree. repeat constructor; simpl; lia.
Qed.

(** C60. Converting an element to higher order puts its nodes at the images of the reference nodes and keeps its geometry. *)
Definition conversions : list (element * element * (list point -> list point)) :=
  [(tri3, tri6, tri6_from_tri3); (quad4, quad9, quad9_from_quad4); (tet4, tet10, tet10_from_tet4); (tet4, tet20, tet20_from_tet4)].

Theorem C60_element_conversion : forall lo hi conv, In (lo, hi, conv) conversions ->
  forall vs, length vs = length (el_ref lo) ->
  length (conv vs) = length (el_ref hi) /\
  (forall j i, (j < length (el_ref hi))%nat -> nth j (conv vs) (fun _ => 0) i = el_map lo vs (pt (nth j (el_ref hi) [])) i) /\
  (forall xi i, el_map hi (conv vs) xi i = el_map lo vs xi i).
Proof.
  intros lo hi conv H vs Hl. unfold conversions in H. destruct H as [H|[H|[H|[H|[]]]]]; injection H as <- <- <-.
  - destruct vs as [|v0 [|v1 [|v2 [|? ?]]]]; try discriminate. split; [reflexivity|]. split; [|reflexivity].
    intros j i Hj. do 6 (try (destruct j as [|j])); try (simpl in Hj; lia); cbn; unfold isoparametric_map, midpoint; cbn; field.
  - destruct vs as [|v0 [|v1 [|v2 [|v3 [|? ?]]]]]; try discriminate. split; [reflexivity|]. split; [|reflexivity].
    intros j i Hj. do 9 (try (destruct j as [|j])); try (simpl in Hj; lia); cbn; unfold isoparametric_map, midpoint; cbn; unfold quad4_phi; cbn; field.
  - destruct vs as [|v0 [|v1 [|v2 [|v3 [|? ?]]]]]; try discriminate. split; [reflexivity|]. split; [|reflexivity].
    intros j i Hj. do 10 (try (destruct j as [|j])); try (simpl in Hj; lia); cbn; unfold isoparametric_map, half_sum; cbn; field.
  - split; [reflexivity|]. split.
    + intros j i Hj. unfold tet20_from_tet4. cbn [el_ref tet20] in *.
      assert (nth_error (map (fun x => el_map tet4 vs (pt x)) tet20_ref) j = Some (el_map tet4 vs (pt (nth j tet20_ref [])))) as E.
      { rewrite nth_error_map, (nth_error_nth' tet20_ref []) by exact Hj. reflexivity. }
      rewrite (nth_error_nth _ _ _ E). reflexivity.
    + intros xi i. destruct vs as [|v0 [|v1 [|v2 [|v3 [|? ?]]]]]; try discriminate.
      cbn. unfold isoparametric_map. cbn. unfold isoparametric_map. cbn. field.
Qed.
Print Assumptions C60_element_conversion.

Example C60_example : length [pt [0; 0]; pt [1; 0]; pt [0; 2]] = length (el_ref tri3) /\
  nth 4%nat (tri6_from_tri3 [pt [0; 0]; pt [1; 0]; pt [0; 2]]) (fun _ => 0) 1%nat = 1.
Proof. split; [reflexivity|]. cbn. unfold midpoint. cbn. field. Qed.

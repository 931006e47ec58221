(** Geometry maps and Jacobians. *)
From Coq Require Import Reals List Lra Lia.
From Coquelicot Require Import Coquelicot.
From Verif Require Import ElementModel ElementSpec ElementNodal ElementGrads ElementPoly.
Import ListNotations.
Local Open Scope R_scope.

Lemma combine_derive vs : forall (basis : R -> list R) (gs : list R) n i t,
  (forall s, length (basis s) = n) -> length gs = n ->
  (forall k, (k < n)%nat -> is_derive (fun s => nth k (basis s) 0) t (nth k gs 0)) ->
  is_derive (fun s => ElementModel.combine (basis s) vs i) t (ElementModel.combine gs vs i).
Proof.
  induction vs as [|v vs IH]; intros basis gs n i t Hb Hg Hd.
  - replace (ElementModel.combine gs [] i) with 0 by (destruct gs; reflexivity).
    apply (is_derive_ext (fun _ => 0)); [intros s; destruct (basis s); reflexivity|]. auto_derive; [exact I|reflexivity].
  - destruct n as [|n].
    + destruct gs; [|discriminate]. simpl. apply (is_derive_ext (fun _ => 0)).
      { intros s. specialize (Hb s). destruct (basis s); [reflexivity|discriminate]. }
      auto_derive; [exact I|reflexivity].
    + destruct gs as [|g gs]; [discriminate|]. injection Hg as Hg. simpl.
      apply (is_derive_ext (fun s => v i * nth 0 (basis s) 0 + ElementModel.combine (tl (basis s)) vs i)).
      { intros s. specialize (Hb s). destruct (basis s); [discriminate|]. reflexivity. }
      apply @is_derive_plus.
      * apply (is_derive_scal (fun s => nth 0 (basis s) 0) t (v i) g). apply (Hd 0%nat). lia.
      * apply (IH (fun s => tl (basis s)) gs n); [|exact Hg|].
        { intros s. specialize (Hb s). destruct (basis s); [discriminate|]. simpl in *. lia. }
        intros k Hk. apply (is_derive_ext (fun s => nth (S k) (basis s) 0)); [|apply (Hd (S k)); lia].
        intros s. specialize (Hb s). destruct (basis s); [discriminate|]. reflexivity.
Qed.

Lemma combine_unit vs : forall w i j, length w = length vs -> (j < length vs)%nat ->
  (forall k, (k < length vs)%nat -> nth k w 0 = if Nat.eqb k j then 1 else 0) ->
  ElementModel.combine w vs i = nth j vs (fun _ => 0) i.
Proof.
  assert (forall vs w i, length w = length vs -> (forall k, (k < length vs)%nat -> nth k w 0 = 0) -> ElementModel.combine w vs i = 0) as Hz.
  { clear vs. induction vs as [|v vs IH]; intros [|x w] i Hl H; try discriminate; simpl; [reflexivity|]. injection Hl as Hl.
    rewrite IH; [|exact Hl|intros k Hk; apply (H (S k)); simpl; lia]. specialize (H 0%nat ltac:(simpl; lia)). simpl in H. rewrite H. ring. }
  induction vs as [|v vs IH]; intros [|x w] i j Hl Hj H; try discriminate; simpl in *; [lia|]. injection Hl as Hl. destruct j as [|j].
  - rewrite Hz; [|exact Hl|intros k Hk; specialize (H (S k) ltac:(lia)); exact H]. specialize (H 0%nat ltac:(lia)). simpl in H. rewrite H. ring.
  - rewrite (IH w i j Hl); [|lia|intros k Hk; specialize (H (S k) ltac:(lia)); exact H]. specialize (H 0%nat ltac:(lia)). simpl in H. rewrite H. ring.
Qed.

Lemma in_linear b : In b [tri3; quad4; tet4; hex8] -> In b all_elements.
Proof. intros H. unfold all_elements. simpl in H. simpl. intuition. Qed.

Lemma map_derive b n vs xi i d : In b all_elements -> (d < el_dim b)%nat -> length (el_ref b) = n ->
  is_derive (fun t => isoparametric_map (el_basis b) vs (upd xi d t) i) (xi d) (isoparametric_jacobian (el_grads b) vs xi i d).
Proof.
  intros Hb Hd Hn. unfold isoparametric_map, isoparametric_jacobian. apply (combine_derive vs (fun t => el_basis b (upd xi d t)) _ n).
  - intros s. rewrite (proj1 (lengths b _ Hb)). exact Hn.
  - rewrite map_length, (proj2 (lengths b _ Hb)). exact Hn.
  - intros k Hk. pose proof (gradients_ok b Hb k d xi ltac:(lia) Hd) as H.
    replace (nth k (map (fun g => nth d g 0) (el_grads b xi)) 0) with (nth d (nth k (el_grads b xi) []) 0); [exact H|].
    symmetry. assert (nth_error (map (fun g => nth d g 0) (el_grads b xi)) k = Some (nth d (nth k (el_grads b xi) []) 0)) as E.
    { rewrite nth_error_map, (nth_error_nth' (el_grads b xi) []); [reflexivity|]. rewrite (proj2 (lengths b _ Hb)). lia. }
    exact (nth_error_nth _ _ _ E).
Qed.

Lemma map_nodal b vs j i : In b all_elements -> length vs = length (el_ref b) -> (j < length (el_ref b))%nat ->
  isoparametric_map (el_basis b) vs (pt (nth j (el_ref b) [])) i = nth j vs (fun _ => 0) i.
Proof.
  intros Hb Hl Hj. unfold isoparametric_map. apply combine_unit; [rewrite (proj1 (lengths b _ Hb)); lia|lia|].
  intros k Hk. apply nodal; [exact Hb|lia|exact Hj].
Qed.

Lemma nth_firstn {A} (l : list A) n j d : (j < n)%nat -> nth j (firstn n l) d = nth j l d.
Proof. revert n j. induction l as [|x l IH]; intros [|n] [|j] H; simpl; try reflexivity; try lia. apply IH. lia. Qed.

(** An element whose geometry is that of the linear element [b] on its first vertices *)
Lemma subparametric (e b : element) n : In b all_elements -> length (el_ref b) = n -> firstn n (el_ref e) = el_ref b -> (n <= length (el_ref e))%nat ->
  (forall vs xi i, el_map e vs xi i = isoparametric_map (el_basis b) (firstn n vs) xi i) ->
  (forall vs xi i d, el_jacobian e vs xi i d = isoparametric_jacobian (el_grads b) (firstn n vs) xi i d) ->
  el_dim e = el_dim b -> el_corners e = n ->
  forall vs, length vs = length (el_ref e) ->
  (forall j i, (j < el_corners e)%nat -> el_map e vs (pt (nth j (el_ref e) [])) i = nth j vs (fun _ => 0) i) /\
  (forall xi i d, (d < el_dim e)%nat -> is_derive (fun t => el_map e vs (upd xi d t) i) (xi d) (el_jacobian e vs xi i d)).
Proof.
  intros Hb Hn Hf Hle Hmap Hjac Hdim Hc vs Hl. split.
  - intros j i Hj. rewrite Hc in Hj. rewrite Hmap, <- (nth_firstn (el_ref e) n j) by exact Hj. rewrite Hf, map_nodal; [|exact Hb| |lia].
    + rewrite (nth_firstn vs n j) by exact Hj. reflexivity.
    + rewrite firstn_length. lia.
  - intros xi i d Hd. rewrite Hjac. apply (is_derive_ext (fun t => isoparametric_map (el_basis b) (firstn n vs) (upd xi d t) i)).
    + intros t. symmetry. apply Hmap.
    + apply (map_derive b n); [exact Hb|lia|exact Hn].
Qed.

Lemma geometry e : In e all_elements -> forall vs, length vs = length (el_ref e) ->
  (forall j i, (j < el_corners e)%nat -> el_map e vs (pt (nth j (el_ref e) [])) i = nth j vs (fun _ => 0) i) /\
  (forall xi i d, (d < el_dim e)%nat -> is_derive (fun t => el_map e vs (upd xi d t) i) (xi d) (el_jacobian e vs xi i d)).
Proof.
  assert (In tri3 all_elements /\ In quad4 all_elements /\ In tet4 all_elements /\ In hex8 all_elements) as (H3 & H4 & HT & H8).
  { repeat split; apply in_linear; simpl; tauto. }
  intros H vs Hl. unfold all_elements in H.
  destruct H as [<-|H].
  { destruct vs as [|v0 [|v1 [|? ?]]]; try discriminate. split.
    - intros j i Hj. cbn in Hj. do 2 (try (destruct j as [|j])); try lia; cbn; field.
    - intros xi i d Hd. cbn in Hd. destruct d as [|d]; [|lia]. cbn. unfold upd, isoparametric_map. cbn. auto_derive; [exact I|]. field. }
  destruct H as [<-|H]; [|destruct H as [<-|H]; [|destruct H as [<-|H]; [|destruct H as [<-|H]; [|destruct H as [<-|H]; [|destruct H as [<-|H]; [|
  destruct H as [<-|H]; [|destruct H as [<-|H]; [|destruct H as [<-|H]; [|destruct H as [<-|[]]]]]]]]]]].
  - split; [intros j i Hj; apply (map_nodal tri3); assumption|intros xi i d Hd; apply (map_derive tri3 3); [exact H3|exact Hd|reflexivity]].
  - apply (subparametric tri6 tri3 3); try reflexivity; try assumption. simpl; lia.
  - split; [intros j i Hj; apply (map_nodal quad4); assumption|intros xi i d Hd; apply (map_derive quad4 4); [exact H4|exact Hd|reflexivity]].
  - apply (subparametric quad9 quad4 4); try reflexivity; try assumption. simpl; lia.
  - split; [intros j i Hj; apply (map_nodal tet4); assumption|intros xi i d Hd; apply (map_derive tet4 4); [exact HT|exact Hd|reflexivity]].
  - apply (subparametric tet10 tet4 4); try reflexivity; try assumption. simpl; lia.
  - apply (subparametric tet20 tet4 4); try reflexivity; try assumption. simpl; lia.
  - split; [intros j i Hj; apply (map_nodal hex8); assumption|intros xi i d Hd; apply (map_derive hex8 8); [exact H8|exact Hd|reflexivity]].
  - apply (subparametric hex20 hex8 8); try reflexivity; try assumption. simpl; lia.
  - apply (subparametric hex27 hex8 8); try reflexivity; try assumption. simpl; lia.
Qed.

(** * Gradients sum to zero *)
Lemma combine_ones l i : ElementModel.combine l (repeat (fun _ => 1) (length l)) i = fold_right Rplus 0 l.
Proof. induction l as [|x l IH]; simpl; [reflexivity|]. rewrite IH. ring. Qed.

Lemma gradients_sum e xi d : In e all_elements -> (d < el_dim e)%nat ->
  fold_right Rplus 0 (map (fun g => nth d g 0) (el_grads e xi)) = 0.
Proof.
  intros He Hd. set (n := length (el_ref e)).
  pose proof (map_derive e n (repeat (fun _ => 1) n) xi 0 d He Hd eq_refl) as H.
  assert (isoparametric_jacobian (el_grads e) (repeat (fun _ => 1) n) xi 0 d = fold_right Rplus 0 (map (fun g => nth d g 0) (el_grads e xi))) as E.
  { unfold isoparametric_jacobian. replace n with (length (map (fun g => nth d g 0) (el_grads e xi))) by (rewrite map_length; apply lengths; exact He). apply combine_ones. }
  rewrite E in H. apply (is_derive_ext _ (fun _ => 1)) in H.
  - apply is_derive_unique in H. rewrite <- H. apply Derive_const.
  - intros t. unfold isoparametric_map. replace n with (length (el_basis e (upd xi d t))) by (apply lengths; exact He).
    rewrite combine_ones. apply partition_of_unity. exact He.
Qed.

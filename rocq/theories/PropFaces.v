(** C59: face tables. *)
From stdpp Require Import base list list_numbers.
From Coq Require Import Reals Lra Lia.
From Verif Require Import Prelude MeshModel MeshSpec MeshProofs PropMesh FacesSpec.
Local Open Scope R_scope.

(** C59. Each face of each connectivity type refers to nodes of the cell. *)
Theorem C59_faces_exist : forall k, k ∈ all_kinds -> forall cell, length cell = ck_size k ->
  forall l, (l < ck_num_faces k)%nat -> exists f, face_of k cell l = Some f /\ Forall (fun v => v ∈ cell) f.
Proof.
  intros k Hin cell Hl l Hlt. pose proof kinds_ok as H. rewrite Forall_forall in H. destruct (H k Hin l Hlt) as (t & Ht & HF).
  destruct (ReorderProofs.Forall2_exists (fun j v => cell !! j = Some v) t) as [f Hf].
  { intros j Hj. apply lookup_lt_is_Some_2. rewrite Forall_forall in HF. rewrite Hl. by apply HF. }
  exists f. split; [apply face_of_spec; by exists t|]. clear -Hf. induction Hf as [|j v t f Hj _ IH]; constructor; [exact (elem_of_list_lookup_2 _ _ _ Hj)|done].
Qed.
Print Assumptions C59_faces_exist.

(** C59. Closed and consistently oriented: the directed edges of all faces of a cell are their own reversal. *)
Definition local_corners (k : conn_kind) (n : nat) : list (list nat) :=
  omap (fun l => take n <$> ck_face k l) (seq 0 (ck_num_faces k)).

Lemma zip_map2 {A B} (f : A -> B) l1 l2 : zip (map f l1) (map f l2) = map (fun e => (f e.1, f e.2)) (zip l1 l2).
Proof. revert l2. induction l1 as [|x l1 IH]; intros [|y l2]; try done. simpl. by f_equal. Qed.

Lemma loop_edges_map {A B} (f : A -> B) l : loop_edges (map f l) = map (fun e => (f e.1, f e.2)) (loop_edges l).
Proof. destruct l as [|x l]; [done|]. unfold loop_edges. rewrite <- zip_map2, map_app. done. Qed.

Lemma face_corners_map k n cell : kind_ok k -> length cell = ck_size k ->
  face_corners k n cell = map (map (fun j => default 0%nat (cell !! j))) (local_corners k n).
Proof.
  intros Hk Hl. unfold face_corners, local_corners.
  assert (forall ls, Forall (fun l => (l < ck_num_faces k)%nat) ls ->
    omap (fun l => take n <$> face_of k cell l) ls = map (map (fun j => default 0%nat (cell !! j))) (omap (fun l => take n <$> ck_face k l) ls)) as H.
  { induction ls as [|l ls IH]; intros HF; [done|]. apply Forall_cons in HF as [Hlt HF]. cbn [omap list_omap]. destruct (Hk l Hlt) as (t & Ht & Htl).
    assert (face_of k cell l = Some (map (fun j => default 0%nat (cell !! j)) t)) as ->.
    { apply face_of_spec. exists t. split; [done|]. rewrite <- Hl in Htl. clear -Htl. induction Htl as [|j t Hj _ IH]; constructor; [|done].
      destruct (lookup_lt_is_Some_2 cell j Hj) as [v ->]. done. }
    rewrite Ht. simpl. rewrite firstn_map. f_equal. by apply IH. }
  apply H. apply Forall_forall. intros l Hin. apply elem_of_seq in Hin. lia.
Qed.

Lemma closed_map (L : list (list nat)) (f : nat -> nat) :
  concat (map loop_edges L) ≡ₚ map (fun e => (e.2, e.1)) (concat (map loop_edges L)) ->
  concat (map loop_edges (map (map f) L)) ≡ₚ map (fun e => (e.2, e.1)) (concat (map loop_edges (map (map f) L))).
Proof.
  intros H. assert (concat (map loop_edges (map (map f) L)) = map (fun e => (f e.1, f e.2)) (concat (map loop_edges L))) as ->.
  { rewrite map_map. clear H. induction L as [|l L IH]; [done|]. simpl. by rewrite IH, loop_edges_map, map_app. }
  rewrite H at 1. rewrite !map_map. done.
Qed.

Theorem C59_faces_closed :
  forall k n, (k, n) ∈ [(tet4_kind, 3); (tet10_kind, 3); (hex8_kind, 4); (hex20_kind, 4); (hex27_kind, 4)]%nat ->
  forall cell, length cell = ck_size k ->
    concat (map loop_edges (face_corners k n cell)) ≡ₚ map (fun e => (e.2, e.1)) (concat (map loop_edges (face_corners k n cell))) /\
    (NoDup cell -> NoDup (concat (map loop_edges (face_corners k n cell)))).
Proof.
  intros k n Hin cell Hl.
  assert (kind_ok k /\ concat (map loop_edges (local_corners k n)) ≡ₚ map (fun e => (e.2, e.1)) (concat (map loop_edges (local_corners k n))) /\
    NoDup (concat (map loop_edges (local_corners k n))) /\ Forall (fun e => (e.1 < ck_size k /\ e.2 < ck_size k)%nat) (concat (map loop_edges (local_corners k n)))) as (Hk & Hp & Hnd & Hlt).
  { pose proof kinds_ok as Hok. rewrite Forall_forall in Hok. clear Hl cell.
    repeat (apply elem_of_cons in Hin as [[= -> ->]|Hin]); [..|by apply elem_of_nil in Hin];
    (split; [apply Hok; apply elem_of_list_In; unfold all_kinds; repeat (first [left; reflexivity|right])|]);
    vm_compute local_corners; cbn [map concat loop_edges zip_with app fst snd];
    (split; [solve_Permutation || apply (bool_decide_unpack _); vm_compute; exact I|]);
    (split; [apply (bool_decide_unpack _); vm_compute; exact I|]);
    apply (bool_decide_unpack _); vm_compute; exact I. }
  rewrite face_corners_map by done. split; [by apply closed_map|].
  intros Hndc. set (f := fun j => default 0%nat (cell !! j)).
  assert (concat (map loop_edges (map (map f) (local_corners k n))) = map (fun e => (f e.1, f e.2)) (concat (map loop_edges (local_corners k n)))) as ->.
  { rewrite map_map. clear. induction (local_corners k n) as [|l L IH]; [done|]. simpl. by rewrite IH, loop_edges_map, map_app. }
  rewrite <- Hl in Hlt. revert Hnd Hlt. clear -Hndc. generalize (concat (map loop_edges (local_corners k n))). intros es Hnd Hlt.
  assert (forall i j, (i < length cell)%nat -> (j < length cell)%nat -> f i = f j -> i = j) as Hinj.
  { intros i j Hi Hj. unfold f. destruct (lookup_lt_is_Some_2 cell i Hi) as [x Hx]. destruct (lookup_lt_is_Some_2 cell j Hj) as [y Hy]. rewrite Hx, Hy. simpl. intros ->. exact (NoDup_lookup _ _ _ _ Hndc Hx Hy). }
  induction Hnd as [|[a b] es Hn Hnd IH]; [constructor|]. apply Forall_cons in Hlt as [[Ha Hb] Hlt]. simpl. constructor; [|by apply IH].
  intros Hin. apply elem_of_list_fmap in Hin as ([a' b'] & [= E1 E2] & Hin). rewrite Forall_forall in Hlt. destruct (Hlt _ Hin) as [Ha' Hb']. simpl in *.
  apply Hinj in E1; [|done|done]. apply Hinj in E2; [|done|done]. subst. done.
Qed.
Print Assumptions C59_faces_closed.

(** C59. Faces of a tetrahedron of positive volume point outwards. *)
Theorem C59_tet4_outward : forall p : nat -> point3, 0 < orient3 (p 0%nat) (p 1%nat) (p 2%nat) (p 3%nat) ->
  forall l t j, (l < ck_num_faces tet4_kind)%nat -> ck_face tet4_kind l = Some t -> (j < 4)%nat -> j ∉ t -> behind p t j.
Proof.
  intros p Hv l t j Hl Ht Hj Hn.
  destruct (p 0%nat) as [[x0 y0] z0] eqn:E0, (p 1%nat) as [[x1 y1] z1] eqn:E1, (p 2%nat) as [[x2 y2] z2] eqn:E2, (p 3%nat) as [[x3 y3] z3] eqn:E3.
  set (v := orient3 (x0, y0, z0) (x1, y1, z1) (x2, y2, z2) (x3, y3, z3)) in Hv.
  assert (j = 0 \/ j = 1 \/ j = 2 \/ j = 3)%nat as Hj' by lia. clear Hj.
  do 4 (try (destruct l as [|l])); cbn in Hl; try lia; cbn in Ht; injection Ht as <-;
    destruct Hj' as [->|[->|[->| ->]]]; try (exfalso; apply Hn; repeat (first [apply elem_of_list_here|apply elem_of_list_further]); fail);
    intros i a b c Ha Hb Hc; do 3 (try (destruct i as [|i])); cbn in Ha, Hb, Hc; simplify_eq; rewrite ?E0, ?E1, ?E2, ?E3;
    match goal with |- ?g < 0 => replace g with (- v) by (unfold v, orient3, det3, sub3; simpl; ring); lra end.
Qed.
Print Assumptions C59_tet4_outward.

(** C59. Faces of a positively oriented parallelepiped point outwards. *)
Theorem C59_hex8_outward : forall o u v w : point3, 0 < det3 u v w ->
  forall l t j, (l < ck_num_faces hex8_kind)%nat -> ck_face hex8_kind l = Some t -> (j < 8)%nat -> j ∉ t -> behind (parallelepiped o u v w) t j.
Proof.
  intros [[o1 o2] o3] [[u1 u2] u3] [[v1 v2] v3] [[w1 w2] w3] Hv l t j Hl Ht Hj Hn.
  set (d := det3 _ _ _) in Hv.
  do 6 (try (destruct l as [|l])); cbn in Hl; try lia; cbn in Ht; injection Ht as <-;
    do 8 (try (destruct j as [|j]; [try (exfalso; apply Hn; repeat (first [apply elem_of_list_here|apply elem_of_list_further]); fail)|])); try lia;
    (intros i a b c Ha Hb Hc; do 4 (try (destruct i as [|i])); cbn in Ha, Hb, Hc; simplify_eq;
    match goal with |- ?g < 0 => replace g with (- (8 * d)) by (unfold d, orient3, det3, sub3, parallelepiped; simpl; ring); lra end).
Qed.
Print Assumptions C59_hex8_outward.

(** C59. Faces of quadratic cells number their nodes as the face types expect. *)
Theorem C59_quadratic_faces_conform :
  forall k nodes face_nodes, (k, nodes, face_nodes) ∈ [(tet10_kind, tet10_nodes, tri6_nodes); (hex20_kind, hex20_nodes, quad8_nodes); (hex27_kind, hex27_nodes, quad9_nodes)] ->
  forall p : nat -> R, at_means nodes p ->
  forall l t, (l < ck_num_faces k)%nat -> ck_face k l = Some t -> at_means face_nodes (fun i => p (default 0%nat (t !! i))).
Proof.
  intros k nodes face_nodes Hin p Hp l t Hl Ht.
  repeat (apply elem_of_cons in Hin as [[= -> -> ->]|Hin]); [..|by apply elem_of_nil in Hin];
    unfold at_means, tet10_nodes, hex27_nodes, hex20_nodes, mean in Hp; simpl in Hp; repeat (rewrite Forall_cons in Hp); simpl in Hp;
    repeat match goal with H : _ /\ _ |- _ => destruct H end;
    do 6 (try (destruct l as [|l])); cbn in Hl; try lia; cbn in Ht; injection Ht as <-;
    unfold at_means, tri6_nodes, quad9_nodes, quad8_nodes, mean; simpl; repeat (apply Forall_cons; split); try apply Forall_nil; simpl; try exact I; lra.
Qed.
Print Assumptions C59_quadratic_faces_conform.

Example C59_example :
  0 < orient3 (0, 0, 0) (1, 0, 0) (0, 1, 0) (0, 0, 1) /\ 0 < det3 (1, 0, 0) (0, 2, 0) (1, 1, 3) /\
  face_of hex8_kind [10; 11; 12; 13; 14; 15; 16; 17]%nat 4 = Some [14; 17; 13; 10]%nat /\
  at_means tet10_nodes (fun i => default 0 ([0; 1; 0; 0; 1/2; 1/2; 0; 0; 0; 1/2] !! i)).
Proof.
  split_and!; [unfold orient3, det3, sub3; simpl; lra|unfold det3; simpl; lra|by vm_compute|].
  unfold at_means, tet10_nodes, mean. simpl. repeat (apply Forall_cons; split); try apply Forall_nil; simpl; lra.
Qed.

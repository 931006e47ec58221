(** Faces and neighbours in uniform grids. Auxiliary to C109. *)
From stdpp Require Import base list list_numbers.
From Coq Require Import Lia.
From Verif Require Import Prelude MeshModel MeshSpec PropMesh ProcModel PropProc PatchCells PatchHex PatchHexCells PropPatch PropVoxel.
Import ListNotations.

(** * the smallest and the largest node of a face *)
Definition extremes (f : list nat) (a b : nat) : Prop := a ∈ f /\ b ∈ f /\ forall x, x ∈ f -> a <= x <= b.
Lemma extremes_perm f f' a b a' b' : f ≡ₚ f' -> extremes f a b -> extremes f' a' b' -> a = a' /\ b = b'.
Proof.
  intros E (Ha & Hb & H) (Ha' & Hb' & H'). assert (In1 : forall x, x ∈ f <-> x ∈ f') by (intros x; rewrite E; reflexivity).
  pose proof (H' a (proj1 (In1 a) Ha)). pose proof (H' b (proj1 (In1 b) Hb)). pose proof (H a' (proj2 (In1 a') Ha')). pose proof (H b' (proj2 (In1 b') Hb')). lia.
Qed.
Lemma concat_pairs {A B} (f : A -> list B) l k s x : (forall x, x ∈ l -> length (f x) = 2) -> l !! k = Some x -> s < 2 -> concat (map f l) !! (2 * k + s) = f x !! s.
Proof.
  intros H. revert k. induction l as [|y l IH]; intros k Hk Hs; [discriminate Hk|]. cbn [map concat]. assert (Ly : length (f y) = 2) by (apply H; left). destruct k as [|k].
  - injection Hk as <-. rewrite lookup_app_l by lia. reflexivity.
  - cbn in Hk. rewrite lookup_app_r by lia. replace (2 * S k + s - length (f y)) with (2 * k + s) by lia. apply IH; [intros z Hz; apply H; right; exact Hz|exact Hk|exact Hs].
Qed.
Lemma concat_pairs_length {A B} (f : A -> list B) l : (forall x, x ∈ l -> length (f x) = 2) -> length (concat (map f l)) = 2 * length l.
Proof. intros H. induction l as [|y l IH]; [reflexivity|]. cbn [map concat length]. rewrite app_length, (H y) by left. rewrite IH by (intros z Hz; apply H; right; exact Hz). lia. Qed.
Ltac members := intros; repeat match goal with H : _ ∈ (_ :: _) |- _ => apply elem_of_cons in H; destruct H as [->|H] | H : _ ∈ [] |- _ => apply elem_of_nil in H; destruct H end.
Ltac member := repeat first [apply elem_of_list_here|apply elem_of_list_further].

(** * rectangles *)
Section two.
Context (nx ny : nat).
Definition V2 (i j : nat) : nat := (nx + 1) * j + i.
Definition quad_cell (i j : nat) : list nat := [V2 i (j + 1); V2 (i + 1) (j + 1); V2 (i + 1) j; V2 i j].
Definition quads : list (list nat) := for_range ny (fun j => for_range nx (fun i => [quad_cell i j])).
Definition triangles : list (list nat) := concat (map halves quads).
Definition triangle (i j s : nat) : list nat := match s with 0 => [V2 i (j + 1); V2 (i + 1) (j + 1); V2 (i + 1) j] | _ => [V2 i (j + 1); V2 (i + 1) j; V2 i j] end.
Lemma V2_inj i j i' j' : i <= nx -> i' <= nx -> V2 i j = V2 i' j' -> i = i' /\ j = j'.
Proof. unfold V2. intros Hi Hi' E. assert (j = j') by nia. subst. lia. Qed.
Lemma V2_split v : v < (nx + 1) * (ny + 1) -> exists i j, i <= nx /\ j <= ny /\ v = V2 i j.
Proof. intros H. destruct (split2 _ _ _ H) as (i & j & Hi & Hj & ->). exists i, j. unfold V2. lia. Qed.
Lemma V2_range i j : i <= nx -> j <= ny -> V2 i j < (nx + 1) * (ny + 1).
Proof. unfold V2. nia. Qed.

Lemma quads_length : length quads = nx * ny. Proof. apply fr2_length. Qed.
Lemma quads_lookup i j : i < nx -> j < ny -> quads !! (nx * j + i) = Some (quad_cell i j).
Proof. intros Hi Hj. unfold quads. rewrite (fr2_lookup ny nx (fun j i => quad_cell i j)) by assumption. reflexivity. Qed.
Lemma quads_index c cell : quads !! c = Some cell -> exists i j, i < nx /\ j < ny /\ c = nx * j + i /\ cell = quad_cell i j.
Proof. intros H. assert (Hc : c < nx * ny) by (rewrite <- quads_length; exact (lookup_lt_Some _ _ _ H)). destruct (split2 _ _ _ Hc) as (i & j & Hi & Hj & ->). rewrite quads_lookup in H by assumption. injection H as <-. eauto 8. Qed.
Lemma quads_elem cell : cell ∈ quads <-> exists i j, i < nx /\ j < ny /\ cell = quad_cell i j.
Proof.
  split; [intros H; apply elem_of_list_lookup in H as (c & H); destruct (quads_index _ _ H) as (i & j & Hi & Hj & _ & ->); eauto|]. intros (i & j & Hi & Hj & ->). apply (elem_of_list_lookup_2 _ (nx * j + i)), quads_lookup; assumption.
Qed.
Lemma halves_two cell : cell ∈ quads -> length (halves cell) = 2.
Proof. intros H. apply quads_elem in H as (i & j & _ & _ & ->). reflexivity. Qed.
Lemma triangles_length : length triangles = 2 * (nx * ny).
Proof. unfold triangles. rewrite concat_pairs_length by exact halves_two. rewrite quads_length. reflexivity. Qed.
Lemma triangles_lookup i j s : i < nx -> j < ny -> s < 2 -> triangles !! (2 * (nx * j + i) + s) = Some (triangle i j s).
Proof. intros Hi Hj Hs. unfold triangles. rewrite (concat_pairs halves quads _ s (quad_cell i j) halves_two (quads_lookup i j Hi Hj) Hs). destruct s as [|[|s]]; [reflexivity|reflexivity|lia]. Qed.
Lemma triangles_index c cell : triangles !! c = Some cell -> exists i j s, i < nx /\ j < ny /\ s < 2 /\ c = 2 * (nx * j + i) + s /\ cell = triangle i j s.
Proof.
  intros H. assert (Hc : c < 2 * (nx * ny)) by (rewrite <- triangles_length; exact (lookup_lt_Some _ _ _ H)). destruct (split2 2 (nx * ny) c Hc) as (s & q & Hs & Hq & ->). destruct (split2 _ _ _ Hq) as (i & j & Hi & Hj & ->).
  rewrite triangles_lookup in H by assumption. injection H as <-. exists i, j, s. auto.
Qed.
Lemma triangles_elem cell : cell ∈ triangles <-> exists i j s, i < nx /\ j < ny /\ s < 2 /\ cell = triangle i j s.
Proof.
  split; [intros H; apply elem_of_list_lookup in H as (c & H); destruct (triangles_index _ _ H) as (i & j & s & Hi & Hj & Hs & _ & ->); eauto 8|]. intros (i & j & s & Hi & Hj & Hs & ->). apply (elem_of_list_lookup_2 _ (2 * (nx * j + i) + s)), triangles_lookup; assumption.
Qed.

(** the ends of an edge of the grid *)
Definition quad_edge (i j l : nat) : list nat := match l with 0 => [V2 i (j + 1); V2 (i + 1) (j + 1)] | 1 => [V2 (i + 1) (j + 1); V2 (i + 1) j] | 2 => [V2 (i + 1) j; V2 i j] | _ => [V2 i j; V2 i (j + 1)] end.
Definition quad_low (i j l : nat) : nat * nat := match l with 0 => (i, j + 1) | 1 => (i + 1, j) | _ => (i, j) end.
Definition quad_high (i j l : nat) : nat * nat := match l with 0 => (i + 1, j + 1) | 1 => (i + 1, j + 1) | 2 => (i + 1, j) | _ => (i, j + 1) end.
Lemma quad_extremes i j l : l < 4 -> extremes (quad_edge i j l) (V2 (quad_low i j l).1 (quad_low i j l).2) (V2 (quad_high i j l).1 (quad_high i j l).2).
Proof. intros H. do 4 (destruct l as [|l]; [cbn [quad_edge quad_low quad_high fst snd]; split; [member|split; [member|members; unfold V2; lia]]|]). lia. Qed.
Lemma quad_face f c l : is_face quad4d2_kind quads f c l <-> exists i j, i < nx /\ j < ny /\ c = nx * j + i /\ l < 4 /\ f = quad_edge i j l.
Proof.
  assert (T : table_of quad4d2_kind quad4_faces) by (clear; check_table). rewrite (face_iff quad4d2_kind quad4_faces); [|exact T|apply Forall_forall; intros cell Hc; apply quads_elem in Hc as (i & j & _ & _ & ->); reflexivity].
  assert (E : forall i j, i < nx -> j < ny -> l < 4 -> face_nodes quad4_faces quads (nx * j + i) l = quad_edge i j l).
  { intros i j Hi Hj Hl. unfold face_nodes. rewrite (nth_lookup_Some _ _ _ _ (quads_lookup i j Hi Hj)). do 4 (destruct l as [|l]; [reflexivity|]). lia. }
  rewrite quads_length. split.
  - intros (Hc & Hl & ->). destruct (split2 _ _ _ Hc) as (i & j & Hi & Hj & ->). exists i, j. rewrite E by assumption. auto.
  - intros (i & j & Hi & Hj & -> & Hl & ->). rewrite E by assumption. split; [nia|]. auto.
Qed.
Lemma quad_same i j l i' j' l' : i < nx -> i' < nx -> l < 4 -> l' < 4 -> quad_edge i j l ≡ₚ quad_edge i' j' l' -> quad_low i j l = quad_low i' j' l' /\ quad_high i j l = quad_high i' j' l'.
Proof.
  intros Hi Hi' Hl Hl' E. destruct (extremes_perm _ _ _ _ _ _ E (quad_extremes i j l Hl) (quad_extremes i' j' l' Hl')) as (A & B).
  assert (R : forall i l, i < nx -> (quad_low i j l).1 <= nx /\ (quad_high i j l).1 <= nx /\ (quad_low i j' l).1 <= nx /\ (quad_high i j' l).1 <= nx) by (intros a b Ha; destruct b as [|[|[|b]]]; cbn; lia).
  apply V2_inj in A; [|apply R; exact Hi|apply R; exact Hi']. apply V2_inj in B; [|apply R; exact Hi|apply R; exact Hi']. split; apply injective_projections; tauto.
Qed.
Lemma quads_oriented : oriented quad4d2_kind quads edge2_reversals.
Proof.
  intros f c l f' c' l' H H' E N. apply quad_face in H as (i & j & Hi & Hj & -> & Hl & ->). apply quad_face in H' as (i' & j' & Hi' & Hj' & -> & Hl' & ->). destruct (quad_same _ _ _ _ _ _ Hi' Hi Hl' Hl E) as (A & B). exists [1; 0]. split; [left; reflexivity|].
  do 4 (destruct l as [|l]; [do 4 (destruct l' as [|l']; [cbn in A, B; injection A; injection B; intros; first [lia|elim N; f_equal; f_equal; lia|cbn; f_equal; [|f_equal]; unfold V2; nia]|]); lia|]). lia.
Qed.
Lemma quads_boundary f c l : is_boundary_face quad4d2_kind quads f c l <->
  exists i j, i < nx /\ j < ny /\ c = nx * j + i /\ f = quad_edge i j l /\ (l = 0 /\ j + 1 = ny \/ l = 1 /\ i + 1 = nx \/ l = 2 /\ j = 0 \/ l = 3 /\ i = 0).
Proof.
  split.
  - intros (H & U). apply quad_face in H as (i & j & Hi & Hj & -> & Hl & ->). exists i, j. split_and!; auto.
    assert (W : forall i' j' l', i' < nx -> j' < ny -> l' < 4 -> quad_edge i' j' l' ≡ₚ quad_edge i j l -> l' = l) by (intros i' j' l' A B C D; apply (U (quad_edge i' j' l') (nx * j' + i') l'); [apply quad_face; eauto 8|exact D]).
    destruct l as [|[|[|[|l]]]]; [..|lia].
    + destruct (decide (j + 1 = ny)); [lia|]. specialize (W i (j + 1) 2 Hi ltac:(lia) ltac:(lia) (perm_swap _ _ _)). discriminate W.
    + destruct (decide (i + 1 = nx)); [lia|]. specialize (W (i + 1) j 3 ltac:(lia) Hj ltac:(lia) (perm_swap _ _ _)). discriminate W.
    + destruct (decide (j = 0)); [lia|]. specialize (W i (j - 1) 0 Hi ltac:(lia) ltac:(lia)). assert (E : j - 1 + 1 = j) by lia. cbn [quad_edge] in W. rewrite E in W. specialize (W (perm_swap _ _ _)). discriminate W.
    + destruct (decide (i = 0)); [lia|]. specialize (W (i - 1) j 1 ltac:(lia) Hj ltac:(lia)). assert (E : i - 1 + 1 = i) by lia. cbn [quad_edge] in W. rewrite E in W. specialize (W (perm_swap _ _ _)). discriminate W.
  - intros (i & j & Hi & Hj & -> & -> & Hs). split; [apply quad_face; exists i, j; split_and!; auto; lia|]. intros f' c' l' H' E. apply quad_face in H' as (i' & j' & Hi' & Hj' & -> & Hl' & ->). assert (Hl : l < 4) by lia.
    destruct (quad_same _ _ _ _ _ _ Hi' Hi Hl' Hl E) as (A & B). destruct Hs as [(-> & Hs)|[(-> & Hs)|[(-> & Hs)|(-> & Hs)]]]; (do 4 (destruct l' as [|l']; [cbn in A, B; injection A; injection B; intros; first [lia|split; [f_equal; nia|reflexivity]]|])); lia.
Qed.
Lemma quads_rim : 0 < nx -> 0 < ny -> exists vs, find_boundary_vertices quad4d2_kind quads = Some vs /\ forall i j, i <= nx -> j <= ny -> V2 i j ∈ vs <-> (i = 0 \/ i = nx \/ j = 0 \/ j = ny).
Proof.
  intros Hx Hy. destruct (C26_boundary_vertices quad4d2_kind quads) as (vs & E & _ & H).
  { assert (K := kinds_ok). rewrite Forall_forall in K. apply K. unfold all_kinds. member. }
  { apply Forall_forall. intros cell Hc. apply quads_elem in Hc as (i & j & _ & _ & ->). reflexivity. }
  exists vs. split; [exact E|]. intros i j Hi Hj. rewrite H. split.
  - intros (f & c & l & Hb & Hv). apply quads_boundary in Hb as (a & b & Ha & Hb & -> & -> & Hs). destruct Hs as [(-> & Hs)|[(-> & Hs)|[(-> & Hs)|(-> & Hs)]]]; cbn [quad_edge] in Hv;
      rewrite !elem_of_cons, elem_of_nil in Hv; destruct Hv as [Hv|[Hv|[]]]; apply V2_inj in Hv; lia.
  - intros Hs. assert (B : forall i j l, i < nx -> j < ny -> (l = 0 /\ j + 1 = ny \/ l = 1 /\ i + 1 = nx \/ l = 2 /\ j = 0 \/ l = 3 /\ i = 0) -> is_boundary_face quad4d2_kind quads (quad_edge i j l) (nx * j + i) l) by (intros; apply quads_boundary; eauto 10).
    destruct (decide (j = 0)) as [->|N1]; [|destruct (decide (j = ny)) as [->|N2]; [|destruct (decide (i = 0)) as [->|N3]]].
    + destruct (decide (i = nx)) as [->|N]; [exists (quad_edge (nx - 1) 0 2)|exists (quad_edge i 0 2)]; do 2 eexists; (split; [apply B; lia|]); cbn [quad_edge]; [replace (nx - 1 + 1) with nx by lia|]; member.
    + destruct (decide (i = nx)) as [->|N]; [exists (quad_edge (nx - 1) (ny - 1) 0)|exists (quad_edge i (ny - 1) 0)]; do 2 eexists; (split; [apply B; lia|]); cbn [quad_edge]; replace (ny - 1 + 1) with ny by lia; [replace (nx - 1 + 1) with nx by lia|]; member.
    + exists (quad_edge 0 j 3). do 2 eexists. split; [apply B; lia|]. member.
    + assert (i = nx) as -> by lia. exists (quad_edge (nx - 1) j 1). do 2 eexists. split; [apply B; lia|]. cbn [quad_edge]. replace (nx - 1 + 1) with nx by lia. member.
Qed.

(** triangles *)
Definition tri_edge (i j s l : nat) : list nat :=
  match s, l with
  | 0, 0 => [V2 i (j + 1); V2 (i + 1) (j + 1)] | 0, 1 => [V2 (i + 1) (j + 1); V2 (i + 1) j] | 0, _ => [V2 (i + 1) j; V2 i (j + 1)]
  | _, 0 => [V2 i (j + 1); V2 (i + 1) j] | _, 1 => [V2 (i + 1) j; V2 i j] | _, _ => [V2 i j; V2 i (j + 1)]
  end.
Definition tri_low (i j s l : nat) : nat * nat := match s, l with 0, 0 => (i, j + 1) | 0, _ => (i + 1, j) | _, 0 => (i + 1, j) | _, _ => (i, j) end.
Definition tri_high (i j s l : nat) : nat * nat := match s, l with 0, 0 => (i + 1, j + 1) | 0, 1 => (i + 1, j + 1) | 0, _ => (i, j + 1) | _, 0 => (i, j + 1) | _, 1 => (i + 1, j) | _, _ => (i, j + 1) end.
Ltac tri_cases s l := destruct s as [|[|s]]; [destruct l as [|[|[|l]]]|destruct l as [|[|[|l]]]|]; try lia.
Lemma tri_extremes i j s l : 0 < nx -> s < 2 -> l < 3 -> extremes (tri_edge i j s l) (V2 (tri_low i j s l).1 (tri_low i j s l).2) (V2 (tri_high i j s l).1 (tri_high i j s l).2).
Proof. intros Hx Hs H. tri_cases s l; (cbn [tri_edge tri_low tri_high fst snd]; split; [member|split; [member|members; unfold V2; lia]]). Qed.
Lemma tri_face f c l : is_face tri3d2_kind triangles f c l <-> exists i j s, i < nx /\ j < ny /\ s < 2 /\ c = 2 * (nx * j + i) + s /\ l < 3 /\ f = tri_edge i j s l.
Proof.
  assert (T : table_of tri3d2_kind tri3_faces) by (clear; check_table).
  rewrite (face_iff tri3d2_kind tri3_faces); [|exact T|apply Forall_forall; intros cell Hc; apply triangles_elem in Hc as (i & j & [|s] & _ & _ & _ & ->); reflexivity].
  assert (E : forall i j s, i < nx -> j < ny -> s < 2 -> l < 3 -> face_nodes tri3_faces triangles (2 * (nx * j + i) + s) l = tri_edge i j s l).
  { intros i j s Hi Hj Hs Hl. unfold face_nodes. rewrite (nth_lookup_Some _ _ _ _ (triangles_lookup i j s Hi Hj Hs)). tri_cases s l; reflexivity. }
  rewrite triangles_length. split.
  - intros (Hc & Hl & ->). destruct (split2 2 (nx * ny) c Hc) as (s & q & Hs & Hq & ->). destruct (split2 _ _ _ Hq) as (i & j & Hi & Hj & ->). exists i, j, s. rewrite E by assumption. auto 10.
  - intros (i & j & s & Hi & Hj & Hs & -> & Hl & ->). rewrite E by assumption. split; [nia|]. auto.
Qed.
Lemma tri_same i j s l i' j' s' l' : i < nx -> i' < nx -> s < 2 -> s' < 2 -> l < 3 -> l' < 3 -> tri_edge i j s l ≡ₚ tri_edge i' j' s' l' -> tri_low i j s l = tri_low i' j' s' l' /\ tri_high i j s l = tri_high i' j' s' l'.
Proof.
  intros Hi Hi' Hs Hs' Hl Hl' E. destruct (extremes_perm _ _ _ _ _ _ E (tri_extremes i j s l ltac:(lia) Hs Hl) (tri_extremes i' j' s' l' ltac:(lia) Hs' Hl')) as (A & B).
  assert (R : forall i j s l, i < nx -> (tri_low i j s l).1 <= nx /\ (tri_high i j s l).1 <= nx) by (intros a d e b Ha; destruct e as [|e], b as [|[|b]]; cbn; lia).
  apply V2_inj in A; [|apply R; exact Hi|apply R; exact Hi']. apply V2_inj in B; [|apply R; exact Hi|apply R; exact Hi']. split; apply injective_projections; tauto.
Qed.
Lemma triangles_oriented : oriented tri3d2_kind triangles edge2_reversals.
Proof.
  intros f c l f' c' l' H H' E N. apply tri_face in H as (i & j & s & Hi & Hj & Hs & -> & Hl & ->). apply tri_face in H' as (i' & j' & s' & Hi' & Hj' & Hs' & -> & Hl' & ->).
  destruct (tri_same _ _ _ _ _ _ _ _ Hi' Hi Hs' Hs Hl' Hl E) as (A & B). exists [1; 0]. split; [left; reflexivity|].
  tri_cases s l; tri_cases s' l'; cbn in A, B; injection A; injection B; intros; first [lia|elim N; f_equal; nia|cbn; f_equal; [|f_equal]; unfold V2; nia].
Qed.
Definition tri_outer (i j s l : nat) : Prop := s = 0 /\ (l = 0 /\ j + 1 = ny \/ l = 1 /\ i + 1 = nx) \/ s = 1 /\ (l = 1 /\ j = 0 \/ l = 2 /\ i = 0).
Lemma triangles_boundary f c l : is_boundary_face tri3d2_kind triangles f c l <->
  exists i j s, i < nx /\ j < ny /\ s < 2 /\ c = 2 * (nx * j + i) + s /\ f = tri_edge i j s l /\ tri_outer i j s l.
Proof.
  unfold tri_outer. split.
  - intros (H & U). apply tri_face in H as (i & j & s & Hi & Hj & Hs & -> & Hl & ->). exists i, j, s. split_and!; auto.
    assert (W : forall i' j' s' l', i' < nx -> j' < ny -> s' < 2 -> l' < 3 -> tri_edge i' j' s' l' ≡ₚ tri_edge i j s l -> l' = l) by (intros i' j' s' l' A B S C D; apply (U (tri_edge i' j' s' l') (2 * (nx * j' + i') + s') l'); [apply tri_face; eauto 10|exact D]).
    tri_cases s l.
    + destruct (decide (j + 1 = ny)); [lia|]. specialize (W i (j + 1) 1 1 Hi ltac:(lia) ltac:(lia) ltac:(lia) (perm_swap _ _ _)). discriminate W.
    + destruct (decide (i + 1 = nx)); [lia|]. specialize (W (i + 1) j 1 2 ltac:(lia) Hj ltac:(lia) ltac:(lia) (perm_swap _ _ _)). discriminate W.
    + specialize (W i j 1 0 Hi Hj ltac:(lia) ltac:(lia) (perm_swap _ _ _)). discriminate W.
    + specialize (W i j 0 2 Hi Hj ltac:(lia) ltac:(lia) (perm_swap _ _ _)). discriminate W.
    + destruct (decide (j = 0)); [lia|]. specialize (W i (j - 1) 0 0 Hi ltac:(lia) ltac:(lia) ltac:(lia)). assert (E : j - 1 + 1 = j) by lia. cbn [tri_edge] in W. rewrite E in W. specialize (W (perm_swap _ _ _)). discriminate W.
    + destruct (decide (i = 0)); [lia|]. specialize (W (i - 1) j 0 1 ltac:(lia) Hj ltac:(lia) ltac:(lia)). assert (E : i - 1 + 1 = i) by lia. cbn [tri_edge] in W. rewrite E in W. specialize (W (perm_swap _ _ _)). discriminate W.
  - intros (i & j & s & Hi & Hj & Hs & -> & -> & Ho). assert (Hl : l < 3) by lia. split; [apply tri_face; exists i, j, s; split_and!; auto; lia|]. intros f' c' l' H' E. apply tri_face in H' as (i' & j' & s' & Hi' & Hj' & Hs' & -> & Hl' & ->).
    destruct (tri_same _ _ _ _ _ _ _ _ Hi' Hi Hs' Hs Hl' Hl E) as (A & B). tri_cases s l; tri_cases s' l'; cbn in A, B; injection A; injection B; intros; first [lia|split; [nia|reflexivity]].
Qed.
Lemma triangles_rim : 0 < nx -> 0 < ny -> exists vs, find_boundary_vertices tri3d2_kind triangles = Some vs /\ forall i j, i <= nx -> j <= ny -> V2 i j ∈ vs <-> (i = 0 \/ i = nx \/ j = 0 \/ j = ny).
Proof.
  intros Hx Hy. destruct (C26_boundary_vertices tri3d2_kind triangles) as (vs & E & _ & H).
  { assert (K := kinds_ok). rewrite Forall_forall in K. apply K. unfold all_kinds. member. }
  { apply Forall_forall. intros cell Hc. apply triangles_elem in Hc as (i & j & [|s] & _ & _ & _ & ->); reflexivity. }
  exists vs. split; [exact E|]. intros i j Hi Hj. rewrite H. split.
  - intros (f & c & l & Hb & Hv). apply triangles_boundary in Hb as (a & b & s & Ha & Hb & Hs & -> & -> & Ho). unfold tri_outer in Ho. destruct Ho as [(-> & [(-> & Ho)|(-> & Ho)])|(-> & [(-> & Ho)|(-> & Ho)])]; cbn [tri_edge] in Hv;
      rewrite !elem_of_cons, elem_of_nil in Hv; destruct Hv as [Hv|[Hv|[]]]; apply V2_inj in Hv; lia.
  - intros Hs. assert (B : forall i j s l, i < nx -> j < ny -> s < 2 -> tri_outer i j s l -> is_boundary_face tri3d2_kind triangles (tri_edge i j s l) (2 * (nx * j + i) + s) l) by (intros; apply triangles_boundary; eauto 10).
    unfold tri_outer in B. destruct (decide (j = 0)) as [->|N1]; [|destruct (decide (j = ny)) as [->|N2]; [|destruct (decide (i = 0)) as [->|N3]]].
    + destruct (decide (i = nx)) as [->|N]; [exists (tri_edge (nx - 1) 0 1 1)|exists (tri_edge i 0 1 1)]; do 2 eexists; (split; [apply B; lia|]); cbn [tri_edge]; [replace (nx - 1 + 1) with nx by lia|]; member.
    + destruct (decide (i = nx)) as [->|N]; [exists (tri_edge (nx - 1) (ny - 1) 0 0)|exists (tri_edge i (ny - 1) 0 0)]; do 2 eexists; (split; [apply B; lia|]); cbn [tri_edge]; replace (ny - 1 + 1) with ny by lia; [replace (nx - 1 + 1) with nx by lia|]; member.
    + exists (tri_edge 0 j 1 2). do 2 eexists. split; [apply B; lia|]. member.
    + assert (i = nx) as -> by lia. exists (tri_edge (nx - 1) j 0 1). do 2 eexists. split; [apply B; lia|]. cbn [tri_edge]. replace (nx - 1 + 1) with nx by lia. member.
Qed.
End two.

(** * boxes *)
Section three.
Context (nx ny nz : nat).
Definition V3 (i j k : nat) : nat := (nx + 1) * (ny + 1) * k + (nx + 1) * j + i.
Definition hex_cell (i j k : nat) : list nat := [V3 i j k; V3 (i + 1) j k; V3 (i + 1) (j + 1) k; V3 i (j + 1) k; V3 i j (k + 1); V3 (i + 1) j (k + 1); V3 (i + 1) (j + 1) (k + 1); V3 i (j + 1) (k + 1)].
Definition hexes : list (list nat) := for_range nz (fun k => for_range ny (fun j => for_range nx (fun i => [hex_cell i j k]))).
Lemma V3_inj i j k i' j' k' : i <= nx -> i' <= nx -> j <= ny -> j' <= ny -> V3 i j k = V3 i' j' k' -> i = i' /\ j = j' /\ k = k'.
Proof.
  unfold V3. intros Hi Hi' Hj Hj' E. assert (A : (nx + 1) * j + i < (nx + 1) * (ny + 1)) by nia. assert (A' : (nx + 1) * j' + i' < (nx + 1) * (ny + 1)) by nia.
  assert (k = k') by nia. subst k'. assert (j = j') by nia. subst j'. lia.
Qed.
Lemma V3_split v : v < (nx + 1) * (ny + 1) * (nz + 1) -> exists i j k, i <= nx /\ j <= ny /\ k <= nz /\ v = V3 i j k.
Proof. intros H. destruct (split3 _ _ _ _ H) as (i & j & k & Hi & Hj & Hk & ->). exists i, j, k. unfold V3. lia. Qed.
Lemma V3_range i j k : i <= nx -> j <= ny -> k <= nz -> V3 i j k < (nx + 1) * (ny + 1) * (nz + 1).
Proof. unfold V3. intros Hi Hj Hk. assert ((nx + 1) * j + i < (nx + 1) * (ny + 1)) by nia. nia. Qed.
Lemma V3_mono i j k i' j' k' : i <= i' -> j <= j' -> k <= k' -> V3 i j k <= V3 i' j' k'.
Proof. unfold V3. intros A B C. apply Nat.add_le_mono; [apply Nat.add_le_mono; apply Nat.mul_le_mono_l; assumption|assumption]. Qed.

Lemma hexes_length : length hexes = nx * ny * nz. Proof. apply fr3_length. Qed.
Lemma hexes_lookup i j k : i < nx -> j < ny -> k < nz -> hexes !! (nx * ny * k + nx * j + i) = Some (hex_cell i j k).
Proof. intros Hi Hj Hk. unfold hexes. rewrite (fr3_lookup nz ny nx (fun k j i => hex_cell i j k)) by assumption. reflexivity. Qed.
Lemma hexes_index c cell : hexes !! c = Some cell -> exists i j k, i < nx /\ j < ny /\ k < nz /\ c = nx * ny * k + nx * j + i /\ cell = hex_cell i j k.
Proof. intros H. assert (Hc : c < nx * ny * nz) by (rewrite <- hexes_length; exact (lookup_lt_Some _ _ _ H)). destruct (split3 _ _ _ _ Hc) as (i & j & k & Hi & Hj & Hk & ->). rewrite hexes_lookup in H by assumption. injection H as <-. eauto 10. Qed.
Lemma hexes_elem cell : cell ∈ hexes <-> exists i j k, i < nx /\ j < ny /\ k < nz /\ cell = hex_cell i j k.
Proof.
  split; [intros H; apply elem_of_list_lookup in H as (c & H); destruct (hexes_index _ _ H) as (i & j & k & Hi & Hj & Hk & _ & ->); eauto 8|]. intros (i & j & k & Hi & Hj & Hk & ->). apply (elem_of_list_lookup_2 _ (nx * ny * k + nx * j + i)), hexes_lookup; assumption.
Qed.

Definition hex_side (i j k l : nat) : list nat :=
  match l with
  | 0 => [V3 i (j + 1) k; V3 (i + 1) (j + 1) k; V3 (i + 1) j k; V3 i j k]
  | 1 => [V3 i j k; V3 (i + 1) j k; V3 (i + 1) j (k + 1); V3 i j (k + 1)]
  | 2 => [V3 (i + 1) j k; V3 (i + 1) (j + 1) k; V3 (i + 1) (j + 1) (k + 1); V3 (i + 1) j (k + 1)]
  | 3 => [V3 (i + 1) (j + 1) k; V3 i (j + 1) k; V3 i (j + 1) (k + 1); V3 (i + 1) (j + 1) (k + 1)]
  | 4 => [V3 i j (k + 1); V3 i (j + 1) (k + 1); V3 i (j + 1) k; V3 i j k]
  | _ => [V3 (i + 1) j (k + 1); V3 (i + 1) (j + 1) (k + 1); V3 i (j + 1) (k + 1); V3 i j (k + 1)]
  end.
Definition hex_low (i j k l : nat) : nat * nat * nat := match l with 2 => (i + 1, j, k) | 3 => (i, j + 1, k) | 5 => (i, j, k + 1) | _ => (i, j, k) end.
Definition hex_high (i j k l : nat) : nat * nat * nat := match l with 0 => (i + 1, j + 1, k) | 1 => (i + 1, j, k + 1) | 4 => (i, j + 1, k + 1) | _ => (i + 1, j + 1, k + 1) end.
Definition V3' (p : nat * nat * nat) : nat := V3 p.1.1 p.1.2 p.2.
Lemma hex_extremes i j k l : l < 6 -> extremes (hex_side i j k l) (V3' (hex_low i j k l)) (V3' (hex_high i j k l)).
Proof. intros H. do 6 (destruct l as [|l]; [unfold V3'; cbn [hex_side hex_low hex_high fst snd]; split; [member|split; [member|members; split; apply V3_mono; lia]]|]). lia. Qed.
Lemma hex_face f c l : is_face hex8_kind hexes f c l <-> exists i j k, i < nx /\ j < ny /\ k < nz /\ c = nx * ny * k + nx * j + i /\ l < 6 /\ f = hex_side i j k l.
Proof.
  assert (T : table_of hex8_kind hex8_faces) by (clear; check_table). rewrite (face_iff hex8_kind hex8_faces); [|exact T|apply Forall_forall; intros cell Hc; apply hexes_elem in Hc as (i & j & k & _ & _ & _ & ->); reflexivity].
  assert (E : forall i j k, i < nx -> j < ny -> k < nz -> l < 6 -> face_nodes hex8_faces hexes (nx * ny * k + nx * j + i) l = hex_side i j k l).
  { intros i j k Hi Hj Hk Hl. unfold face_nodes. rewrite (nth_lookup_Some _ _ _ _ (hexes_lookup i j k Hi Hj Hk)). do 6 (destruct l as [|l]; [reflexivity|]). lia. }
  rewrite hexes_length. split.
  - intros (Hc & Hl & ->). destruct (split3 _ _ _ _ Hc) as (i & j & k & Hi & Hj & Hk & ->). exists i, j, k. rewrite E by assumption. auto 10.
  - intros (i & j & k & Hi & Hj & Hk & -> & Hl & ->). rewrite E by assumption. split; [assert (nx * j + i < nx * ny) by nia; change (nx * ny * k + nx * j + i < nx * ny * nz); nia|]. auto.
Qed.
Lemma hex_same i j k l i' j' k' l' : i < nx -> i' < nx -> j < ny -> j' < ny -> l < 6 -> l' < 6 -> hex_side i j k l ≡ₚ hex_side i' j' k' l' -> hex_low i j k l = hex_low i' j' k' l' /\ hex_high i j k l = hex_high i' j' k' l'.
Proof.
  intros Hi Hi' Hj Hj' Hl Hl' E. destruct (extremes_perm _ _ _ _ _ _ E (hex_extremes i j k l Hl) (hex_extremes i' j' k' l' Hl')) as (A & B).
  assert (R : forall i j k l, i < nx -> j < ny -> (hex_low i j k l).1.1 <= nx /\ (hex_high i j k l).1.1 <= nx /\ (hex_low i j k l).1.2 <= ny /\ (hex_high i j k l).1.2 <= ny) by (intros a d e b Ha Hd; destruct b as [|[|[|[|[|[|b]]]]]]; cbn; lia).
  pose proof (R i j k l Hi Hj). pose proof (R i' j' k' l' Hi' Hj'). apply V3_inj in A; [|tauto..]. apply V3_inj in B; [|tauto..]. split; (apply injective_projections; [apply injective_projections|]; tauto).
Qed.
Ltac align a b := first [assert (a = b) by lia; subst b|assert (a = b + 1) by lia; subst a|assert (b = a + 1) by lia; subst b].
Ltac try_reversals := first [exists [0; 3; 2; 1]; split; [cbn; tauto|reflexivity]|exists [1; 0; 3; 2]; split; [cbn; tauto|reflexivity]|exists [2; 1; 0; 3]; split; [cbn; tauto|reflexivity]|exists [3; 2; 1; 0]; split; [cbn; tauto|reflexivity]].
Lemma hexes_oriented : oriented hex8_kind hexes quad4_reversals.
Proof.
  intros f c l f' c' l' H H' E N. apply hex_face in H as (i & j & k & Hi & Hj & Hk & -> & Hl & ->). apply hex_face in H' as (i' & j' & k' & Hi' & Hj' & Hk' & -> & Hl' & ->). destruct (hex_same _ _ _ _ _ _ _ _ Hi' Hi Hj' Hj Hl' Hl E) as (A & B). clear E.
  do 6 (destruct l as [|l]; [do 6 (destruct l' as [|l']; [cbn in A, B; injection A; injection B; intros; first [exfalso; lia|align i i'; align j j'; align k k'; first [elim N; reflexivity|try_reversals]]|]); lia|]). lia.
Qed.
Definition hex_outer (i j k l : nat) : Prop := l = 0 /\ k = 0 \/ l = 1 /\ j = 0 \/ l = 2 /\ i + 1 = nx \/ l = 3 /\ j + 1 = ny \/ l = 4 /\ i = 0 \/ l = 5 /\ k + 1 = nz.
Lemma hexes_boundary f c l : is_boundary_face hex8_kind hexes f c l <-> exists i j k, i < nx /\ j < ny /\ k < nz /\ c = nx * ny * k + nx * j + i /\ f = hex_side i j k l /\ hex_outer i j k l.
Proof.
  unfold hex_outer. split.
  - intros (H & U). apply hex_face in H as (i & j & k & Hi & Hj & Hk & -> & Hl & ->). exists i, j, k. split_and!; auto.
    assert (W : forall i' j' k' l', i' < nx -> j' < ny -> k' < nz -> l' < 6 -> hex_side i' j' k' l' ≡ₚ hex_side i j k l -> l' = l) by (intros i' j' k' l' A B C D F; apply (U (hex_side i' j' k' l') (nx * ny * k' + nx * j' + i') l'); [apply hex_face; eauto 10|exact F]).
    assert (P : forall a b c d : nat, [a; b; c; d] ≡ₚ [b; a; d; c] /\ [a; b; c; d] ≡ₚ [a; d; c; b] /\ [a; b; c; d] ≡ₚ [c; b; a; d] /\ [a; b; c; d] ≡ₚ [d; c; b; a]) by (intros; split_and!; solve_Permutation).
    destruct l as [|[|[|[|[|[|l]]]]]]; [..|lia].
    + destruct (decide (k = 0)); [lia|]. specialize (W i j (k - 1) 5 Hi Hj ltac:(lia) ltac:(lia)). assert (E : k - 1 + 1 = k) by lia. cbn [hex_side] in W. rewrite E in W. lapply W; [discriminate|apply P].
    + destruct (decide (j = 0)); [lia|]. specialize (W i (j - 1) k 3 Hi ltac:(lia) Hk ltac:(lia)). assert (E : j - 1 + 1 = j) by lia. cbn [hex_side] in W. rewrite E in W. lapply W; [discriminate|apply P].
    + destruct (decide (i + 1 = nx)); [lia|]. specialize (W (i + 1) j k 4 ltac:(lia) Hj Hk ltac:(lia)). cbn [hex_side] in W. lapply W; [discriminate|apply P].
    + destruct (decide (j + 1 = ny)); [lia|]. specialize (W i (j + 1) k 1 Hi ltac:(lia) Hk ltac:(lia)). cbn [hex_side] in W. lapply W; [discriminate|apply P].
    + destruct (decide (i = 0)); [lia|]. specialize (W (i - 1) j k 2 ltac:(lia) Hj Hk ltac:(lia)). assert (E : i - 1 + 1 = i) by lia. cbn [hex_side] in W. rewrite E in W. lapply W; [discriminate|apply P].
    + destruct (decide (k + 1 = nz)); [lia|]. specialize (W i j (k + 1) 0 Hi Hj ltac:(lia) ltac:(lia)). cbn [hex_side] in W. lapply W; [discriminate|apply P].
  - intros (i & j & k & Hi & Hj & Hk & -> & -> & Ho). assert (Hl : l < 6) by lia. split; [apply hex_face; exists i, j, k; split_and!; auto|]. intros f' c' l' H' E. apply hex_face in H' as (i' & j' & k' & Hi' & Hj' & Hk' & -> & Hl' & ->).
    destruct (hex_same _ _ _ _ _ _ _ _ Hi' Hi Hj' Hj Hl' Hl E) as (A & B). clear E.
    do 6 (destruct l as [|l]; [do 6 (destruct l' as [|l']; [cbn in A, B; injection A; injection B; intros; first [exfalso; lia|align i i'; align j j'; align k k'; split; reflexivity]|]); lia|]). lia.
Qed.
Lemma hexes_rim : 0 < nx -> 0 < ny -> 0 < nz -> exists vs, find_boundary_vertices hex8_kind hexes = Some vs /\
  forall i j k, i <= nx -> j <= ny -> k <= nz -> V3 i j k ∈ vs <-> (i = 0 \/ i = nx \/ j = 0 \/ j = ny \/ k = 0 \/ k = nz).
Proof.
  intros Hx Hy Hz. destruct (C26_boundary_vertices hex8_kind hexes) as (vs & E & _ & H).
  { assert (K := kinds_ok). rewrite Forall_forall in K. apply K. unfold all_kinds. member. }
  { apply Forall_forall. intros cell Hc. apply hexes_elem in Hc as (i & j & k & _ & _ & _ & ->). reflexivity. }
  exists vs. split; [exact E|]. intros i j k Hi Hj Hk. rewrite H. split.
  - intros (f & c & l & Hb & Hv). apply hexes_boundary in Hb as (a & b & d & Ha & Hb & Hd & -> & -> & Ho). unfold hex_outer in Ho.
    destruct Ho as [(-> & Ho)|[(-> & Ho)|[(-> & Ho)|[(-> & Ho)|[(-> & Ho)|(-> & Ho)]]]]]; cbn [hex_side] in Hv; rewrite !elem_of_cons, elem_of_nil in Hv; destruct Hv as [Hv|[Hv|[Hv|[Hv|[]]]]]; (apply V3_inj in Hv; lia).
  - intros Hs. assert (L : forall n i, 0 < n -> i <= n -> exists a, a < n /\ (i = a \/ i = a + 1) /\ (i = 0 -> a = 0) /\ (i = n -> a + 1 = n)).
    { intros n x Hn Hxn. destruct (decide (x = n)); [exists (n - 1)|exists x]; lia. }
    destruct (L nx i Hx Hi) as (a & Ha & Ia & Za & Na). destruct (L ny j Hy Hj) as (b & Hb & Ib & Zb & Nb). destruct (L nz k Hz Hk) as (d & Hd & Id & Zd & Nd).
    assert (B : forall l, hex_outer a b d l -> V3 i j k ∈ hex_side a b d l -> exists f c l, is_boundary_face hex8_kind hexes f c l /\ V3 i j k ∈ f) by (intros l Ho Hv; do 3 eexists; split; [apply hexes_boundary; eauto 12|exact Hv]).
    unfold hex_outer in B. destruct Hs as [Hs|[Hs|[Hs|[Hs|[Hs|Hs]]]]].
    + specialize (Za Hs). apply (B 4); [lia|]. assert (i = a) as -> by lia. destruct Ib as [->| ->], Id as [->| ->]; cbn [hex_side]; member.
    + specialize (Na Hs). apply (B 2); [lia|]. assert (i = a + 1) as -> by lia. destruct Ib as [->| ->], Id as [->| ->]; cbn [hex_side]; member.
    + specialize (Zb Hs). apply (B 1); [lia|]. assert (j = b) as -> by lia. destruct Ia as [->| ->], Id as [->| ->]; cbn [hex_side]; member.
    + specialize (Nb Hs). apply (B 3); [lia|]. assert (j = b + 1) as -> by lia. destruct Ia as [->| ->], Id as [->| ->]; cbn [hex_side]; member.
    + specialize (Zd Hs). apply (B 0); [lia|]. assert (k = d) as -> by lia. destruct Ib as [->| ->], Ia as [->| ->]; cbn [hex_side]; member.
    + specialize (Nd Hs). apply (B 5); [lia|]. assert (k = d + 1) as -> by lia. destruct Ib as [->| ->], Ia as [->| ->]; cbn [hex_side]; member.
Qed.
End three.

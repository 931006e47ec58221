(** C106 for meshes of all element types: their spaces meet the conditions of the balance of forces if every node lies where the geometry of its elements puts it. *)
From stdpp Require Import base list list_numbers sets.
From Coq Require Import Reals Lia Lra Psatz.
From Coquelicot Require Import Coquelicot.
From Verif Require Import Prelude NestedVecModel ParadisModel VectorModel VectorSpec VectorProofs ParadisSpec CsrModel CsrSpec CsrProofs CsrPattern PropVector PropCsr.
From Verif Require Import MaterialModel EllipticModel PropMaterial PropObjective PropElliptic PropEllipticOps PropMass GlobalModel PropGlobal PropGlobalForms SolveProofs PropSolve PropBalance.
From Verif Require Import ElementModel ElementSpec ElementNodal ElementGrads ElementPoly ElementGeometry PropElement ElementSpaceModel TableModel.
From Verif Require Import ReorderModel MeshModel ConvertModel FacesSpec ConvertSpec PropConvert Tet20Model Tet20Spec PropTet20.
Import ListNotations.
Local Open Scope R_scope.
Local Notation vec := (nat -> R).
Local Notation mat := (nat -> nat -> R).

(** * specification *)
Definition zero_point : point := fun _ => 0.
(** cells have the nodes of the element type, no node twice, and indices of vertices *)
Definition element_cells (el : ElementModel.element) (vertices : list point) (cells : list (list nat)) : Prop :=
  forall cell, cell ∈ cells -> length cell = length (el_ref el) /\ NoDup cell /\ forall a, a ∈ cell -> (a < length vertices)%nat.
(** no Jacobian is singular at a quadrature point *)
Definition regular_cells {Data} (el : ElementModel.element) (vertices : list point) (cells : list (list nat)) (w : nat -> list R) (p : nat -> list point) (x : nat -> list Data) : Prop :=
  forall e cell wt pt y, cells !! e = Some cell -> In (wt, (pt, y)) (List.combine (w e) (List.combine (p e) (x e))) -> determinant (ElementModel.el_dim el) (ElementModel.el_jacobian el (map (fun a => nth a vertices zero_point) cell) pt) <> 0.
(** every node lies at the image of its reference node *)
Definition placed (el : ElementModel.element) (vertices : list point) (cells : list (list nat)) : Prop :=
  forall cell I i, cell ∈ cells -> (I < length (el_ref el))%nat -> (i < ElementModel.el_dim el)%nat ->
    nth (nth I cell 0%nat) vertices zero_point i = ElementModel.el_map el (map (fun a => nth a vertices zero_point) cell) (pt (nth I (el_ref el) [])) i.

Lemma cell_points_ok vertices cell : (forall a, a ∈ cell -> (a < length vertices)%nat) -> cell_points vertices cell = Some (map (fun a => nth a vertices zero_point) cell).
Proof.
  induction cell as [|a cell IH]; intros H; [reflexivity|]. change (cell_points vertices (a :: cell)) with (vertices !! a ≫= fun b => cell_points vertices cell ≫= fun l => Some (b :: l)). rewrite IH by (intros b Hb; apply H; right; exact Hb).
  rewrite (some_nth vertices a zero_point) by (apply H; left). reflexivity.
Qed.
Lemma sum_nth (l : list R) n : length l = n -> fold_right Rplus 0 l = summ n (fun I => nth I l 0).
Proof.
  revert n. induction l as [|y l IH]; intros n <-; [reflexivity|]. cbn [fold_right length]. rewrite (IH (length l) eq_refl). clear IH. generalize (length l). intros n.
  induction n as [|n IH]; cbn [summ nth]; [ring|]. cbn [summ] in IH. rewrite <- Rplus_assoc, IH. reflexivity.
Qed.
Lemma interpolate_sum el f xi : In el all_elements -> interpolate el f xi = summ (length (el_ref el)) (fun I => nth I (ElementModel.el_basis el xi) 0 * f (pt (nth I (el_ref el) []))).
Proof.
  intros He. unfold interpolate. assert (L : length (ElementModel.el_basis el xi) = length (el_ref el)) by apply (lengths el xi He).
  rewrite (sum_nth _ (length (el_ref el))) by (rewrite map_length, combine_length, L; lia). apply summ_ext. intros I HI.
  assert (E : forall (l1 : list R) (l2 : list (list R)) I, (I < length l1)%nat -> length l1 = length l2 -> nth I (map (fun wn => fst wn * f (pt (snd wn))) (List.combine l1 l2)) 0 = nth I l1 0 * f (pt (nth I l2 []))).
  { induction l1 as [|y l1 IH]; intros [|z l2] J HJ HL; cbn in HJ, HL; try lia. destruct J as [|J]; [reflexivity|]. cbn. apply IH; lia. }
  apply E; [lia|exact L].
Qed.
(** the components of the maps of all element types are in their spaces *)
Definition affine2 (a b c : R) : poly := [(a, (0, 0, 0)%nat); (b, (1, 0, 0)%nat); (c, (0, 1, 0)%nat)].
Definition affine3 (a b c d : R) : poly := [(a, (0, 0, 0)%nat); (b, (1, 0, 0)%nat); (c, (0, 1, 0)%nat); (d, (0, 0, 1)%nat)].
Definition bilinear2 (a b c d : R) : poly := [(a, (0, 0, 0)%nat); (b, (1, 0, 0)%nat); (c, (0, 1, 0)%nat); (d, (1, 1, 0)%nat)].
Definition trilinear3 (c0 c1 c2 c3 c4 c5 c6 c7 : R) : poly := [(c0, (0, 0, 0)%nat); (c1, (1, 0, 0)%nat); (c2, (0, 1, 0)%nat); (c3, (0, 0, 1)%nat); (c4, (1, 1, 0)%nat); (c5, (1, 0, 1)%nat); (c6, (0, 1, 1)%nat); (c7, (1, 1, 1)%nat)].
Lemma tri_polynomial vs i : (3 <= length vs)%nat -> exists a b c, forall xi, on_first 3 (isoparametric_map tri3_basis) vs xi i = peval (affine2 a b c) xi.
Proof.
  intros L. destruct vs as [|v0 [|v1 [|v2 vs]]]; cbn [length] in L; try lia. exists ((v1 i + v2 i) / 2), ((v1 i - v0 i) / 2), ((v2 i - v0 i) / 2). intros xi.
  unfold on_first, isoparametric_map, peval, monomial. cbn. field.
Qed.
Lemma quad_polynomial vs i : (4 <= length vs)%nat -> exists a b c d, forall xi, on_first 4 (isoparametric_map quad4_basis) vs xi i = peval (bilinear2 a b c d) xi.
Proof.
  intros L. destruct vs as [|v0 [|v1 [|v2 [|v3 vs]]]]; cbn [length] in L; try lia. exists ((v0 i + v1 i + v2 i + v3 i) / 4), ((- v0 i + v1 i + v2 i - v3 i) / 4), ((- v0 i - v1 i + v2 i + v3 i) / 4), ((v0 i - v1 i + v2 i - v3 i) / 4). intros xi.
  unfold on_first, isoparametric_map, peval, monomial. cbn. unfold quad4_phi. cbn. field.
Qed.
Lemma tet_polynomial vs i : (4 <= length vs)%nat -> exists a b c d, forall xi, on_first 4 (isoparametric_map tet4_basis) vs xi i = peval (affine3 a b c d) xi.
Proof.
  intros L. destruct vs as [|v0 [|v1 [|v2 [|v3 vs]]]]; cbn [length] in L; try lia. exists ((- v0 i + v1 i + v2 i + v3 i) / 2), ((v1 i - v0 i) / 2), ((v2 i - v0 i) / 2), ((v3 i - v0 i) / 2). intros xi.
  unfold on_first, isoparametric_map, peval, monomial. cbn. field.
Qed.
Lemma hex_polynomial vs i : (8 <= length vs)%nat -> exists c0 c1 c2 c3 c4 c5 c6 c7, forall xi, on_first 8 (isoparametric_map hex8_basis) vs xi i = peval (trilinear3 c0 c1 c2 c3 c4 c5 c6 c7) xi.
Proof.
  intros L. destruct vs as [|v0 [|v1 [|v2 [|v3 [|v4 [|v5 [|v6 [|v7 vs]]]]]]]]; cbn [length] in L; try lia.
  exists ((v0 i + v1 i + v2 i + v3 i + v4 i + v5 i + v6 i + v7 i) / 8), ((- v0 i + v1 i + v2 i - v3 i - v4 i + v5 i + v6 i - v7 i) / 8), ((- v0 i - v1 i + v2 i + v3 i - v4 i - v5 i + v6 i + v7 i) / 8),
    ((- v0 i - v1 i - v2 i - v3 i + v4 i + v5 i + v6 i + v7 i) / 8), ((v0 i - v1 i + v2 i - v3 i + v4 i - v5 i + v6 i - v7 i) / 8), ((v0 i - v1 i - v2 i + v3 i - v4 i + v5 i + v6 i - v7 i) / 8),
    ((v0 i + v1 i - v2 i - v3 i - v4 i - v5 i + v6 i + v7 i) / 8), ((- v0 i + v1 i - v2 i + v3 i + v4 i - v5 i + v6 i - v7 i) / 8).
  intros xi. unfold on_first, isoparametric_map, peval, monomial, hex8_basis, hex8_phi, phi_linear_1d. cbn. field.
Qed.
Lemma map_polynomial el vs i : In el all_elements -> length vs = length (el_ref el) -> exists S q, In (el, S) element_spaces /\ List.Forall (fun m : R * exps => S (snd m)) q /\ forall xi, ElementModel.el_map el vs xi i = peval q xi.
Proof.
  intros H L. unfold all_elements in H.
  assert (T : forall (e : ElementModel.element) (S : exps -> Prop), In (e, S) element_spaces -> (forall q, List.Forall (fun m : R * exps => S (snd m)) q -> (forall xi, ElementModel.el_map e vs xi i = peval q xi) ->
    exists S q, In (e, S) element_spaces /\ List.Forall (fun m : R * exps => S (snd m)) q /\ forall xi, ElementModel.el_map e vs xi i = peval q xi)) by (intros e S HS q Hq Hx; exists S, q; split; [exact HS|split; [exact Hq|exact Hx]]).
  assert (Id : forall n (f : list point -> point -> point), length vs = n -> forall xi, f vs xi i = on_first n f vs xi i) by (intros n f Hn xi; unfold on_first; rewrite firstn_all2 by lia; reflexivity).
  destruct H as [<-|H].
  { destruct vs as [|v0 [|v1 [|]]]; try discriminate. apply (T segment2 (total_degree 1 1) ltac:(left; reflexivity) [((v0 i + v1 i) / 2, (0, 0, 0)%nat); ((v1 i - v0 i) / 2, (1, 0, 0)%nat)]).
    - unfold total_degree. repeat constructor; cbn; lia.
    - intros. cbn. unfold isoparametric_map, peval, monomial. cbn. field. }
  destruct H as [<-|H].
  { destruct (tri_polynomial vs i ltac:(cbn in L; lia)) as (a & b & c & E). apply (T tri3 (total_degree 2 1) ltac:(right; left; reflexivity) (affine2 a b c)); [unfold total_degree; repeat constructor; cbn; lia|].
    intros xi. rewrite <- E. apply (Id 3%nat (isoparametric_map tri3_basis) L). }
  destruct H as [<-|H].
  { destruct (tri_polynomial vs i ltac:(cbn in L; lia)) as (a & b & c & E). apply (T tri6 (total_degree 2 2) ltac:(do 2 right; left; reflexivity) (affine2 a b c)); [unfold total_degree; repeat constructor; cbn; lia|exact E]. }
  destruct H as [<-|H].
  { destruct (quad_polynomial vs i ltac:(cbn in L; lia)) as (a & b & c & d & E). apply (T quad4 (each_degree 2 1) ltac:(do 3 right; left; reflexivity) (bilinear2 a b c d)); [unfold each_degree; repeat constructor; cbn; lia|].
    intros xi. rewrite <- E. apply (Id 4%nat (isoparametric_map quad4_basis) L). }
  destruct H as [<-|H].
  { destruct (quad_polynomial vs i ltac:(cbn in L; lia)) as (a & b & c & d & E). apply (T quad9 (each_degree 2 2) ltac:(do 4 right; left; reflexivity) (bilinear2 a b c d)); [unfold each_degree; repeat constructor; cbn; lia|exact E]. }
  destruct H as [<-|H].
  { destruct (tet_polynomial vs i ltac:(cbn in L; lia)) as (a & b & c & d & E). apply (T tet4 (total_degree 3 1) ltac:(do 5 right; left; reflexivity) (affine3 a b c d)); [unfold total_degree; repeat constructor; cbn; lia|].
    intros xi. rewrite <- E. apply (Id 4%nat (isoparametric_map tet4_basis) L). }
  destruct H as [<-|H].
  { destruct (tet_polynomial vs i ltac:(cbn in L; lia)) as (a & b & c & d & E). apply (T tet10 (total_degree 3 2) ltac:(do 6 right; left; reflexivity) (affine3 a b c d)); [unfold total_degree; repeat constructor; cbn; lia|exact E]. }
  destruct H as [<-|H].
  { destruct (tet_polynomial vs i ltac:(cbn in L; lia)) as (a & b & c & d & E). apply (T tet20 (total_degree 3 3) ltac:(do 7 right; left; reflexivity) (affine3 a b c d)); [unfold total_degree; repeat constructor; cbn; lia|exact E]. }
  destruct H as [<-|H].
  { destruct (hex_polynomial vs i ltac:(cbn in L; lia)) as (c0 & c1 & c2 & c3 & c4 & c5 & c6 & c7 & E). apply (T hex8 (each_degree 3 1) ltac:(do 8 right; left; reflexivity) (trilinear3 c0 c1 c2 c3 c4 c5 c6 c7)); [unfold each_degree; repeat constructor; cbn; lia|].
    intros xi. rewrite <- E. apply (Id 8%nat (isoparametric_map hex8_basis) L). }
  destruct H as [<-|H].
  { destruct (hex_polynomial vs i ltac:(cbn in L; lia)) as (c0 & c1 & c2 & c3 & c4 & c5 & c6 & c7 & E). apply (T hex20 serendipity ltac:(do 9 right; left; reflexivity) (trilinear3 c0 c1 c2 c3 c4 c5 c6 c7)); [unfold serendipity, each_degree; repeat constructor; cbn; lia|exact E]. }
  destruct H as [<-|[]].
  destruct (hex_polynomial vs i ltac:(cbn in L; lia)) as (c0 & c1 & c2 & c3 & c4 & c5 & c6 & c7 & E). apply (T hex27 (each_degree 3 2) ltac:(do 10 right; left; reflexivity) (trilinear3 c0 c1 c2 c3 c4 c5 c6 c7)); [unfold each_degree; repeat constructor; cbn; lia|exact E].
Qed.
(** the map is the interpolation of its values at the reference nodes, so its Jacobian is the sum of the gradients times these values *)
Lemma map_jacobian el vs xi i k : In el all_elements -> length vs = length (el_ref el) -> (k < ElementModel.el_dim el)%nat ->
  summ (length (el_ref el)) (fun I => ElementModel.el_map el vs (pt (nth I (el_ref el) [])) i * nth k (nth I (el_grads el xi) []) 0) = ElementModel.el_jacobian el vs xi i k.
Proof.
  intros He L Hk. destruct (map_polynomial el vs i He L) as (S & q & HS & Hq & E). destruct (C53_geometry el He vs L) as (_ & HJ). specialize (HJ xi i k Hk). apply is_derive_unique in HJ. rewrite <- HJ. symmetry. apply is_derive_unique.
  apply (is_derive_ext (fun t => summ (length (el_ref el)) (fun I => ElementModel.el_map el vs (pt (nth I (el_ref el) [])) i * nth I (ElementModel.el_basis el (upd xi k t)) 0))).
  - intros t. rewrite (E (upd xi k t)), <- (C53_reproduction el S HS q Hq (upd xi k t)), (interpolate_sum el _ _ He). apply summ_ext. intros I HI. rewrite E. ring.
  - apply (is_derive_summ (length (el_ref el)) (fun I t => ElementModel.el_map el vs (pt (nth I (el_ref el) [])) i * nth I (ElementModel.el_basis el (upd xi k t)) 0)). intros I HI.
    destruct (C52_gradients el He xi) as (_ & HG). apply (is_derive_scal (fun t => nth I (ElementModel.el_basis el (upd xi k t)) 0) _ (ElementModel.el_map el vs (pt (nth I (el_ref el) [])) i)). apply HG; assumption.
Qed.

Lemma element_small el : In el all_elements -> small (ElementModel.el_dim el).
Proof. intros Hel. unfold all_elements in Hel. cbn in Hel. unfold small. repeat (destruct Hel as [<-|Hel]; [cbn; tauto|]). destruct Hel. Qed.
Section space.
Context (el : ElementModel.element) (vertices : list point) (cells : list (list nat)).
Hypothesis Hel : In el all_elements.
Hypothesis Hcells : element_cells el vertices cells.
Let X a := nth a vertices zero_point.

Lemma cell_at e cell : cells !! e = Some cell -> cell ∈ cells /\ nth e cells [] = cell /\ (e < length cells)%nat.
Proof using. intros H. split; [exact (elem_of_list_lookup_2 _ _ _ H)|]. split; [exact (nth_some _ _ [] _ H)|exact (lookup_lt_Some _ _ _ H)]. Qed.
Lemma space_element e cell : cells !! e = Some cell -> fs_element (element_space el vertices cells) e = element_fe el (map X cell).
Proof using Hcells. intros H. destruct (cell_at e cell H) as (Hin & E & _). cbn [element_space fs_element]. rewrite E, cell_points_ok by apply (Hcells cell Hin). reflexivity. Qed.
Lemma space_flat {Data} w p (x : nat -> list Data) : flat_constants (element_space el vertices cells) cells w p x.
Proof using Hel Hcells.
  intros e wt q y i He Hin Hi. rewrite (space_element e _ (some_nth cells e [] He)) in Hi |- *. cbn [element_fe EllipticModel.el_nodes EllipticModel.el_gradients EllipticModel.el_dim] in *.
  pose proof (C52_gradients_sum_to_zero el Hel q i Hi) as H. rewrite (sum_nth _ (length (el_ref el))) in H by (rewrite map_length; apply (lengths el q Hel)). transitivity (summ (length (el_ref el)) (fun I => nth I (map (fun g => nth i g 0) (el_grads el q)) 0)); [|exact H]. clear H. apply summ_ext. intros I HI.
  transitivity (nth I (map (fun g => nth i g 0) (el_grads el q)) (nth i [] 0)); [symmetry; exact (map_nth (fun g => nth i g 0) (el_grads el q) [] I)|]. apply nth_indep. rewrite map_length, (proj2 (lengths el q Hel)). exact HI.
Qed.
Lemma space_positions {Data} w p (x : nat -> list Data) : placed el vertices cells -> positions (element_space el vertices cells) cells w p x X.
Proof using Hel Hcells.
  intros Hp e cell wt q y i k He Hin Hi Hk. rewrite (space_element e cell He) in Hi, Hk |- *. cbn [element_fe EllipticModel.el_nodes EllipticModel.el_gradients EllipticModel.el_dim EllipticModel.el_jacobian] in *.
  destruct (cell_at e cell He) as (Hc & _ & _). destruct (Hcells cell Hc) as (L & _). rewrite L. rewrite <- (map_jacobian el (map X cell) q k i Hel) by (rewrite ?map_length; assumption).
  apply summ_ext. intros I HI. f_equal. apply (Hp cell I k Hc HI Hk).
Qed.
Lemma space_regular {Data} (table : q_table point Data) w p x srt ord s : reads_quadrature table (length cells) w p x -> hash_order ord -> sorts_by_key srt -> regular_cells el vertices cells w p x ->
  regular_mesh (element_space el vertices cells) table cells w p x (ElementModel.el_dim el) srt ord s.
Proof using Hel Hcells.
  intros Hq Ho Hs Hr. split; [split; [reflexivity|]|].
  { intros e ns He. destruct (cell_at e ns He) as (_ & E & _). cbn [ca_count ca_populate fs_conn element_space fs_count fs_populate]. rewrite E. split; reflexivity. }
  split; [intros ns k Hns Hk; apply (Hcells ns Hns); exact Hk|]. split; [rewrite Forall_forall; intros ns Hns; apply (Hcells ns Hns)|]. split; [exact Hq|]. split; [exact Ho|]. split; [exact Hs|]. split; [exact (element_small el Hel)|].
  intros e ns He. rewrite (space_element e ns He). cbn [element_fe EllipticModel.el_nodes EllipticModel.el_dim EllipticModel.el_jacobian]. destruct (cell_at e ns He) as (Hc & _ & _). split; [symmetry; apply (Hcells ns Hc)|]. split; [reflexivity|].
  intros wt q y Hin. cbn [element_fe EllipticModel.el_dim EllipticModel.el_jacobian]. exact (Hr e ns wt q y He Hin).
Qed.
End space.

(** C106: the spaces of meshes of every element type meet the conditions, if the nodes lie where the geometry puts them. For elements whose nodes are their corners they do *)
Theorem C106_spaces {Data} el vertices cells (table : q_table point Data) w p x srt ord s : In el all_elements -> element_cells el vertices cells ->
  flat_constants (element_space el vertices cells) cells w p x /\
  (placed el vertices cells -> positions (element_space el vertices cells) cells w p x (fun a => nth a vertices zero_point)) /\
  (el_corners el = length (el_ref el) -> placed el vertices cells) /\
  (reads_quadrature table (length cells) w p x -> hash_order ord -> sorts_by_key srt -> regular_cells el vertices cells w p x -> regular_mesh (element_space el vertices cells) table cells w p x (ElementModel.el_dim el) srt ord s).
Proof.
  intros Hel Hc. split; [apply space_flat; assumption|]. split; [apply space_positions; assumption|]. split; [|apply space_regular; assumption].
  intros E cell I i Hcell HI Hi. destruct (Hc cell Hcell) as (L & _). destruct (C53_geometry el Hel (map (fun a => nth a vertices zero_point) cell) ltac:(rewrite map_length; exact L)) as (Hg & _).
  rewrite Hg by (rewrite E; exact HI). assert (HI' : (I < length cell)%nat) by (rewrite L; exact HI).
  transitivity (nth I (map (fun a => nth a vertices zero_point) cell) (nth 0%nat vertices zero_point) i); [rewrite (map_nth (fun a => nth a vertices zero_point) cell 0%nat I); reflexivity|].
  rewrite (nth_indep (map (fun a => nth a vertices zero_point) cell) (nth 0%nat vertices zero_point) (fun _ => 0)) by (rewrite map_length; exact HI'). reflexivity.
Qed.
Print Assumptions C106_spaces.

(** * converted meshes *)
Lemma coord_nth vs d v : coord vs d v = nth v vs zero_point d.
Proof. unfold coord. destruct (vs !! v) as [q|] eqn:E; [rewrite (nth_some _ _ zero_point _ E); reflexivity|]. rewrite nth_overflow by (apply lookup_ge_None, E). reflexivity. Qed.
Definition mesh_conversions : list (ElementModel.element * nat * list (nat * list nat)) := [(tri6, 3%nat, tri6_nodes); (quad9, 4%nat, quad9_nodes); (tet10, 4%nat, tet10_nodes); (hex20, 8%nat, hex20_nodes); (hex27, 8%nat, hex27_nodes)].
Tactic Notation "parents" constr(H) constr(j) ident(E) := destruct (H j ltac:(cbn; lia)) as (? & ?HH & E); vm_compute in HH; injection HH as <-; cbn [nth map] in E; unfold mean in E; cbn [foldr length] in E.
(** C106: the meshes that the conversions to quadratic and cubic elements return have their nodes at these places *)
Theorem C106_converted hi nc nodes m m' : In (hi, nc, nodes) mesh_conversions -> cells_of_size nc m -> nodes_at_means nc nodes (length (el_ref hi)) m m' -> placed hi (ms_vertices m') (ms_cells m').
Proof.
  intros Hhi Hm (Hn & Hlen & Hmean) cell' J i Hc HJ Hi. apply elem_of_list_lookup in Hc as (k & Hk). destruct (lookup_lt_is_Some_2 (ms_cells m) k) as (cell & Hcell); [rewrite <- Hlen; exact (lookup_lt_Some _ _ _ Hk)|].
  assert (L : length cell = nc) by (unfold cells_of_size in Hm; rewrite Forall_forall in Hm; apply (Hm cell), (elem_of_list_lookup_2 _ _ _ Hcell)).
  assert (L' : length cell' = length (el_ref hi)) by (unfold cells_of_size in Hn; rewrite Forall_forall in Hn; apply (Hn cell'), (elem_of_list_lookup_2 _ _ _ Hk)).
  assert (H : forall j, (j < length (el_ref hi))%nat -> exists ps, node_parents nc nodes cell j = Some ps /\ nth (nth j cell' 0%nat) (ms_vertices m') zero_point i = mean (map (coord (ms_vertices m) i) ps)).
  { intros j Hj. destruct (Hmean k cell cell' j (nth j cell' 0%nat) Hcell Hk) as (ps & E & C); [apply some_nth; lia|]. exists ps. split; [exact E|]. rewrite <- coord_nth. apply C. }
  clear Hmean Hk Hcell Hm Hn Hlen. unfold mesh_conversions in Hhi. destruct Hhi as [Hhi|[Hhi|[Hhi|[Hhi|[Hhi|[]]]]]]; injection Hhi as <- <- <-; cbn in Hi, L'.
  - destruct cell as [|c0 [|c1 [|c2 [|]]]]; try discriminate L. destruct cell' as [|a0 [|a1 [|a2 [|a3 [|a4 [|a5 [|]]]]]]]; try discriminate L'.
    parents H 0%nat E0. parents H 1%nat E1. parents H 2%nat E2. destruct (H J HJ) as (ps & EJ & CJ). rewrite CJ. clear CJ H. cbn in HJ.
    do 6 (try (destruct J as [|J]; [vm_compute in EJ; injection EJ as <-; cbn; unfold on_first, isoparametric_map; cbn; rewrite ?E0, ?E1, ?E2; unfold mean; cbn; field|])). lia.
  - destruct cell as [|c0 [|c1 [|c2 [|c3 [|]]]]]; try discriminate L. destruct cell' as [|a0 [|a1 [|a2 [|a3 [|a4 [|a5 [|a6 [|a7 [|a8 [|]]]]]]]]]]; try discriminate L'.
    parents H 0%nat E0. parents H 1%nat E1. parents H 2%nat E2. parents H 3%nat E3. destruct (H J HJ) as (ps & EJ & CJ). rewrite CJ. clear CJ H. cbn in HJ.
    do 9 (try (destruct J as [|J]; [vm_compute in EJ; injection EJ as <-; cbn; unfold on_first, isoparametric_map, quad4_basis, quad4_phi; cbn; rewrite ?E0, ?E1, ?E2, ?E3; unfold mean; cbn; field|])). lia.
  - destruct cell as [|c0 [|c1 [|c2 [|c3 [|]]]]]; try discriminate L. destruct cell' as [|a0 [|a1 [|a2 [|a3 [|a4 [|a5 [|a6 [|a7 [|a8 [|a9 [|]]]]]]]]]]]; try discriminate L'.
    parents H 0%nat E0. parents H 1%nat E1. parents H 2%nat E2. parents H 3%nat E3. destruct (H J HJ) as (ps & EJ & CJ). rewrite CJ. clear CJ H. cbn in HJ.
    do 10 (try (destruct J as [|J]; [vm_compute in EJ; injection EJ as <-; cbn; unfold on_first, isoparametric_map; cbn; rewrite ?E0, ?E1, ?E2, ?E3; unfold mean; cbn; field|])). lia.
  - destruct cell as [|c0 [|c1 [|c2 [|c3 [|c4 [|c5 [|c6 [|c7 [|]]]]]]]]]; try discriminate L. destruct cell' as [|a0 [|a1 [|a2 [|a3 [|a4 [|a5 [|a6 [|a7 [|a8 [|a9 [|a10 [|a11 [|a12 [|a13 [|a14 [|a15 [|a16 [|a17 [|a18 [|a19 [|]]]]]]]]]]]]]]]]]]]]]; try discriminate L'.
    parents H 0%nat E0. parents H 1%nat E1. parents H 2%nat E2. parents H 3%nat E3. parents H 4%nat E4. parents H 5%nat E5. parents H 6%nat E6. parents H 7%nat E7. destruct (H J HJ) as (ps & EJ & CJ). rewrite CJ. clear CJ H. cbn in HJ.
    do 20 (try (destruct J as [|J]; [vm_compute in EJ; injection EJ as <-; cbn; unfold on_first, isoparametric_map, hex8_basis, hex8_phi, phi_linear_1d; cbn; rewrite ?E0, ?E1, ?E2, ?E3, ?E4, ?E5, ?E6, ?E7; unfold mean; cbn; field|])). lia.
  - destruct cell as [|c0 [|c1 [|c2 [|c3 [|c4 [|c5 [|c6 [|c7 [|]]]]]]]]]; try discriminate L. destruct cell' as [|a0 [|a1 [|a2 [|a3 [|a4 [|a5 [|a6 [|a7 [|a8 [|a9 [|a10 [|a11 [|a12 [|a13 [|a14 [|a15 [|a16 [|a17 [|a18 [|a19 [|a20 [|a21 [|a22 [|a23 [|a24 [|a25 [|a26 [|]]]]]]]]]]]]]]]]]]]]]]]]]]]]; try discriminate L'.
    parents H 0%nat E0. parents H 1%nat E1. parents H 2%nat E2. parents H 3%nat E3. parents H 4%nat E4. parents H 5%nat E5. parents H 6%nat E6. parents H 7%nat E7. destruct (H J HJ) as (ps & EJ & CJ). rewrite CJ. clear CJ H. cbn in HJ.
    do 27 (try (destruct J as [|J]; [vm_compute in EJ; injection EJ as <-; cbn; unfold on_first, isoparametric_map, hex8_basis, hex8_phi, phi_linear_1d; cbn; rewrite ?E0, ?E1, ?E2, ?E3, ?E4, ?E5, ?E6, ?E7; unfold mean; cbn; field|])). lia.
Qed.
Print Assumptions C106_converted.
Theorem C106_converted_tet20 search m m' : search_contract search -> cells_of_size 4 m -> tet20_from_tet4_mesh search m = Some m' -> placed tet20 (ms_vertices m') (ms_cells m').
Proof.
  intros Hs Hm Ef. destruct (C61_tet20 search m Hs Hm) as (m1 & Ef1 & Hn & Hlen & _). assert (m1 = m') as -> by congruence. clear Ef1.
  intros cell' J i Hc HJ Hi. apply elem_of_list_lookup in Hc as (k & Hk). destruct (lookup_lt_is_Some_2 (ms_cells m) k) as (cell & Hcell); [rewrite <- Hlen; exact (lookup_lt_Some _ _ _ Hk)|].
  unfold cells_of_size in Hm. pose proof Hm as Hm'. rewrite Forall_forall in Hm'. destruct (Hm' cell (elem_of_list_lookup_2 _ _ _ Hcell)) as (L & HR). rewrite Forall_forall in HR.
  assert (L' : length cell' = 20%nat) by (unfold cells_of_size in Hn; rewrite Forall_forall in Hn; apply (Hn cell'), (elem_of_list_lookup_2 _ _ _ Hk)).
  set (ps := map (fun a => nth a (ms_vertices m) zero_point) cell). assert (Eps : mapM (fun v => (ms_vertices m !! v : option point)) cell = Some ps) by (apply cell_points_ok; exact HR).
  assert (H : forall j, (j < 20)%nat -> nth (nth j cell' 0%nat) (ms_vertices m') zero_point i = ElementModel.el_map tet4 ps (pt (nth j (el_ref tet20) [])) i).
  { intros j Hj. rewrite <- coord_nth. apply (C61_map search m m' Hs Hm Ef k cell cell' ps j _ _ Hcell Hk Eps); apply some_nth; [lia|exact Hj]. }
  rewrite (H J HJ). assert (Lp : length ps = 4%nat) by (unfold ps; rewrite map_length; exact L). clearbody ps. clear Ef Hm Hm' Hn Hlen Hk Hcell Eps.
  pose proof (H 0%nat ltac:(lia)) as H0. pose proof (H 1%nat ltac:(lia)) as H1. pose proof (H 2%nat ltac:(lia)) as H2. pose proof (H 3%nat ltac:(lia)) as H3. clear H.
  destruct cell' as [|a0 [|a1 [|a2 [|a3 rest]]]]; try discriminate L'. destruct ps as [|p0 [|p1 [|p2 [|p3 [|]]]]]; try discriminate Lp. generalize (pt (nth J (el_ref tet20) [])). intros xi.
  cbn [ElementModel.el_map tet20 tet4 map]. unfold on_first. cbn [firstn]. cbn in H0, H1, H2, H3. unfold isoparametric_map in *. cbn in H0, H1, H2, H3 |- *. rewrite H0, H1, H2, H3. field.
Qed.
Print Assumptions C106_converted_tet20.

(** a trapezoid with nine nodes, the rule of one point, and any displacements *)
Definition trapezoid9 : list point := quad9_from_quad4 [pt [0; 0]; pt [4; 0]; pt [3; 2]; pt [1; 2]].
Lemma trapezoid9_ok : element_cells quad9 trapezoid9 (seq 0 9 :: []) /\ placed quad9 trapezoid9 (seq 0 9 :: []) /\ regular_cells quad9 trapezoid9 (seq 0 9 :: []) (fun _ => 4 :: []) (fun _ => pt [0; 0] :: []) (fun _ => (5, 7) :: []).
Proof.
  split; [|split].
  - intros cell Hc. apply elem_of_list_singleton in Hc as ->. split; [reflexivity|]. split; [apply NoDup_seq|]. intros a Ha. apply elem_of_seq in Ha. cbn. lia.
  - intros cell I i Hc HI Hi. apply elem_of_list_singleton in Hc as ->. destruct (C60_element_conversion quad4 quad9 quad9_from_quad4 ltac:(right; left; reflexivity) [pt [0; 0]; pt [4; 0]; pt [3; 2]; pt [1; 2]] eq_refl) as (_ & H & H').
    fold trapezoid9 in H, H'. change (map (fun a => nth a trapezoid9 zero_point) (seq 0 9)) with trapezoid9. rewrite H', <- H by exact HI. cbn in HI. rewrite seq_nth by exact HI. reflexivity.
  - intros e cell wt q y He Hin. destruct e; [|discriminate]. injection He as <-. destruct Hin as [Hin|[]]. injection Hin as <- <- <-. cbn [quad9 ElementModel.el_dim ElementModel.el_jacobian determinant].
    unfold on_first, isoparametric_jacobian, trapezoid9. cbn. lra.
Qed.
Example C106_example u vws ws : length u = 18%nat -> let sp := element_space quad9 trapezoid9 (seq 0 9 :: []) in
  exists t f, uniform_from (pt [0; 0] :: []) (4 :: []) ((5, 7) :: []) = Ok t /\
  (assemble_vector Rplus 0 77 vws (elliptic_vec_asm zero_point (0, 0) 77 sp (uniform_table t) 2 (fun G y => elliptic_operator_transpose (stvk_stress 2 (fst y) (snd y)) G) u ws)).2 = Ok f /\
  total_force 2 9 f 0 = 0 /\ total_force 2 9 f 1 = 0 /\ torque 2 9 (fun a c => nth a trapezoid9 zero_point c + value_at 2 u a c) f 0 1 = 0.
Proof.
  intros Lu sp. destruct trapezoid9_ok as (Hc & Hp & Hr). destruct (uniform_from (pt [0; 0] :: []) (4 :: []) ((5, 7) :: [])) as [t| |] eqn:E; [|discriminate|discriminate]. exists t.
  pose proof (proj1 (proj2 (C78_tables [] [] [] [] _ _ _ 1)) t E) as Q. destruct (C106_spaces quad9 trapezoid9 (seq 0 9 :: []) (uniform_table t) (fun _ => 4 :: []) (fun _ => pt [0; 0] :: []) (fun _ => (5, 7) :: []) PropCsr.key_sort (fun _ l => l) 2 ltac:(do 4 right; left; reflexivity) Hc) as (F & P & _ & Rg).
  specialize (P Hp). specialize (Rg Q (fun _ _ => reflexivity _) PropCsr.key_sort_ok Hr).
  destruct (C106_virtual_work zero_point (0, 0) 77 sp (uniform_table t) 2 (seq 0 9 :: []) _ _ _ 2 PropCsr.key_sort (fun _ l => l) (fun G y => elliptic_operator_transpose (stvk_stress 2 (fst y) (snd y)) G) vws ws u ltac:(lia) Rg Lu) as (f & Ef & _).
  exists f. split; [reflexivity|]. split; [exact Ef|]. split; [exact (C106_force zero_point (0, 0) 77 sp (uniform_table t) 2 (seq 0 9 :: []) _ _ _ 2 PropCsr.key_sort (fun _ l => l) _ vws ws u f ltac:(lia) Rg F Lu Ef 0%nat ltac:(lia))|].
  split; [exact (C106_force zero_point (0, 0) 77 sp (uniform_table t) 2 (seq 0 9 :: []) _ _ _ 2 PropCsr.key_sort (fun _ l => l) _ vws ws u f ltac:(lia) Rg F Lu Ef 1%nat ltac:(lia))|].
  exact (proj1 (C106_materials zero_point (0, 0) 77 sp (uniform_table t) (seq 0 9 :: []) _ _ _ 2 PropCsr.key_sort (fun _ l => l) vws ws u f _ Rg F P Lu) Ef 0%nat 1%nat ltac:(lia) ltac:(lia)).
Qed.
(** a quarter turn and a translation of any deformation of the trapezoid, and a linearised rotation *)
Definition quarter_turn : mat := fun i j => match i, j with 0%nat, 1%nat => -1 | 1%nat, 0%nat => 1 | _, _ => 0 end.
Lemma moved_exists d N X Q t u : exists u', moved d N X Q t u u'.
Proof.
  exists (PropBalance.nodal d N (fun a c => t c + summ d (fun j => Q c j * (X a j + value_at d u a j)) - X a c)). split; [apply length_nodal|]. intros a c Ha Hc. rewrite value_nodal by assumption. ring.
Qed.
Example C106_rigid_example u ws ws' vws vws' cws u0 : length u = 18%nat -> length u0 = 18%nat -> let sp := element_space quad9 trapezoid9 (seq 0 9 :: []) in
  exists t u' E f f' m A, uniform_from (pt [0; 0] :: []) (4 :: []) ((5, 7) :: []) = Ok t /\ moved 2 9 (fun a => nth a trapezoid9 zero_point) quarter_turn (fun i => nth i [10; 20] 0) u u' /\
  let energy ws u := assemble_scalar Rplus 0 1 (fun e => elliptic_scalar zero_point (0, 0) 77 sp (uniform_table t) 2 (fun G y => operator_energy (stvk_energy 2 (fst y) (snd y)) G) u (ws e) e) in
  let forces vws ws u := (assemble_vector Rplus 0 77 vws (elliptic_vec_asm zero_point (0, 0) 77 sp (uniform_table t) 2 (fun G y => elliptic_operator_transpose (stvk_stress 2 (fst y) (snd y)) G) u ws)).2 in
  energy ws u = Ok E /\ energy ws' u' = Ok E /\ forces vws ws u = Ok f /\ forces vws' ws' u' = Ok f' /\ (forall a, (a < 9)%nat -> value_at 2 f' a 0 = - value_at 2 f a 1 /\ value_at 2 f' a 1 = value_at 2 f a 0) /\
  (assemble_csr Rplus 0 PropCsr.key_sort (fun _ l => l) 77 cws (elliptic_mat_asm zero_point (0, 0) 77 sp (uniform_table t) 2 true
      (fun (G : mat) y nrows ncols out alpha a b => batch_contraction 2 nrows ncols out alpha a b (operator_contract (le_contraction 2 (fst y) (snd y)) G)) u0 ws)).2 = Ok m /\ entries_of 18 m A /\
  forall r, (r < 18)%nat -> summ 18 (fun c => A r c * nth c (PropBalance.nodal 2 9 (fun a c => summ 2 (fun j => quarter_turn c j * nth a trapezoid9 zero_point j))) 0) = 0.
Proof.
  intros Lu L0 sp. destruct trapezoid9_ok as (Hc & Hp & Hr). destruct (uniform_from (pt [0; 0] :: []) (4 :: []) ((5, 7) :: [])) as [t| |] eqn:E; [|discriminate|discriminate]. exists t.
  pose proof (proj1 (proj2 (C78_tables [] [] [] [] _ _ _ 1)) t E) as Q. destruct (C106_spaces quad9 trapezoid9 (seq 0 9 :: []) (uniform_table t) (fun _ => 4 :: []) (fun _ => pt [0; 0] :: []) (fun _ => (5, 7) :: []) PropCsr.key_sort (fun _ l => l) 2 ltac:(do 4 right; left; reflexivity) Hc) as (F & P & _ & Rg).
  specialize (P Hp). specialize (Rg Q (fun _ _ => reflexivity _) PropCsr.key_sort_ok Hr).
  assert (HQ : orthogonal 2 quarter_turn) by (intros i j Hi Hj; destruct i as [|[|i]]; [| |lia]; (destruct j as [|[|j]]; [| |lia]); cbn; ring).
  destruct (moved_exists 2 9 (fun a => nth a trapezoid9 zero_point) quarter_turn (fun i => nth i [10; 20] 0) u) as (u' & Hu'). exists u'.
  destruct (proj1 (C106_rigid_motion zero_point (0, 0) 77 sp (uniform_table t) (seq 0 9 :: []) _ _ _ 2 PropCsr.key_sort (fun _ l => l) _ quarter_turn _ u u' ws ws' vws vws' Rg F P Lu Hu') HQ) as ((En & E1 & E2) & f & f' & F1 & F2 & HF).
  destruct (C106_elastic_matrix zero_point (0, 0) 77 sp (uniform_table t) (seq 0 9 :: []) _ _ _ 2 PropCsr.key_sort (fun _ l => l) u0 cws ws Rg L0) as (m & A & Em & _ & _ & HA & _ & _ & _ & _ & _ & HK).
  exists En, f, f', m, A. split; [reflexivity|]. split; [exact Hu'|]. split; [exact E1|]. split; [exact E2|]. split; [exact F1|]. split; [exact F2|]. split; [|split; [exact Em|split; [exact HA|]]].
  - intros a Ha. split; [rewrite (HF a 0%nat Ha ltac:(lia))|rewrite (HF a 1%nat Ha ltac:(lia))]; cbn; ring.
  - apply (HK (fun a => nth a trapezoid9 zero_point) _ F P). split; [apply length_nodal|]. exists (fun _ => 0), quarter_turn. split.
    + intros i j Hi Hj. destruct i as [|[|i]]; [| |lia]; (destruct j as [|[|j]]; [| |lia]); cbn; ring.
    + intros a c Ha Hcc. change (fs_nodes sp) with 9%nat in Ha. rewrite value_nodal by assumption. ring.
Qed.

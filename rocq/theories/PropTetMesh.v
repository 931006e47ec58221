(** C110: the uniform tetrahedral mesh of a box is ready for computations as well: the tetrahedra have positive Jacobians, agree on their common faces, leave no gap inside the box, and are connected across faces. *)
From stdpp Require Import base list list_numbers sets relations.
From Coq Require Import Reals Lia Lra Psatz ZArith.
From Coquelicot Require Import Coquelicot.
From Verif Require Import Prelude NestedVecModel ParadisModel VectorModel VectorSpec VectorProofs ParadisSpec CsrModel CsrSpec CsrProofs CsrPattern PropVector PropCsr.
From Verif Require Import ReorderModel MaterialModel EllipticModel PropMaterial PropElliptic PropMass GlobalModel PropGlobal PropGlobalForms SolveProofs PropSolve PropBalance.
From Verif Require PropSolveMesh PropUnisolvent CanonicalModel PolyquadModel QuadratureModel PropPolyquadTables PropCanonicalTables.
From Verif Require Import ElementModel ElementSpec PropElement ElementSpaceModel TableModel MeshModel MeshSpec PropMesh PropBalanceMesh PropSolveSpaces ProcModel PropProc VoxelModel PatchCells PatchHex PatchHexCells PropPatch GridProofs GridLinks PropGrid.
From Verif Require Import TetTables TetGrid TetFaces TetLinks.
Import ListNotations.
Local Open Scope R_scope.
Local Notation vec := (nat -> R).
Local Notation mat := (nat -> nat -> R).

Definition half (p : pnt) : R := if p.1 then 1 / 2 else 0.
Definition bit (p : pnt) : list Z := let e := if p.1 then 1%Z else 0%Z in [(2 * Z.of_nat (px p) + e)%Z; (2 * Z.of_nat (py p) + e)%Z; (2 * Z.of_nat (pz p) + e)%Z].
Definition shape_bits (k : kind) : list (list Z) := map bit (k_shape k).
Lemma shape_bits_ok k : In k kinds -> closed3 (shape_bits k) = true /\ (zdet3 (shape_bits k) 0 1 2 3 < 0)%Z.
Proof.
  intros Hk. assert (H : forallb (fun k => closed3 (shape_bits k) && (zdet3 (shape_bits k) 0 1 2 3 <? 0)%Z) kinds = true) by (vm_compute; reflexivity).
  pose proof (proj1 (forallb_forall _ kinds) H k Hk) as E. cbv beta in E. apply andb_true_iff in E as (A & B). split; [exact A|apply Z.ltb_lt, B].
Qed.

Section box.
Context (cx cy cz : nat) (h : R) (vs : list point).
Hypotheses (Hcx : (0 < cx)%nat) (Hcy : (0 < cy)%nat) (Hcz : (0 < cz)%nat) (Hh : 0 < h) (Hlen : length vs = (corners_number cx cy cz + cx * cy * cz)%nat).
Local Notation node := (node cx cy cz).
Local Notation inside := (inside cx cy cz).
Local Notation tets := (tets cx cy cz).
Local Notation tet := (tet cx cy cz).
Hypothesis Hvs : forall p, inside p -> nth (node p) vs zero_point = pt [h * (half p + INR (px p)); h * (half p + INR (py p)); h * (half p + INR (pz p))].
Local Notation X := (fun a => nth a vs zero_point).
Definition high4 : vec := fun c => match c with 0%nat => INR cx * h | 1%nat => INR cy * h | _ => INR cz * h end.
Lemma node_split a : (a < length vs)%nat -> exists p, inside p /\ a = node p.
Proof using Hcx Hcy Hcz Hh Hlen Hvs.
  rewrite Hlen. intros Ha. destruct (decide (a < corners_number cx cy cz)%nat) as [L|L].
  - destruct (V3_split _ _ _ _ L) as (i & j & k & Hi & Hj & Hk & ->). exists (false, (i, j, k)). split; [cbn; auto|reflexivity].
  - assert (L' : (a - corners_number cx cy cz < cx * cy * cz)%nat) by lia. destruct (split3 _ _ _ _ L') as (i & j & k & Hi & Hj & Hk & E). exists (true, (i, j, k)). split; [cbn; auto|]. unfold TetGrid.node. cbn [fst]. rewrite centre_index. unfold px, py, pz. cbn [fst snd]. lia.
Qed.
Lemma node_range p : inside p -> (node p < length vs)%nat.
Proof using Hcx Hcy Hcz Hh Hlen Hvs.
  rewrite Hlen. unfold TetGrid.inside, TetGrid.node. destruct (p.1); intros (A & B & C).
  - rewrite centre_index. assert (D : (cx * py p + px p < cx * cy)%nat) by nia. assert ((cx * cy * pz p + cx * py p + px p < cx * cy * cz)%nat) by nia. lia.
  - rewrite corner_index. pose proof (V3_range cx cy cz _ _ _ A B C). unfold corners_number. lia.
Qed.
Lemma coordinate_bounds (e : bool) x n : (if e then (x < n)%nat else (x <= n)%nat) -> let X := h * ((if e then 1 / 2 else 0) + INR x) in 0 <= X <= INR n * h /\ (X = 0 <-> e = false /\ x = 0%nat) /\ (X = INR n * h <-> e = false /\ x = n).
Proof using Hcx Hcy Hcz Hh Hlen Hvs.
  intros Hx X. unfold X. pose proof (pos_INR x) as P. destruct e.
  - assert (Hx' : (x + 1 <= n)%nat) by lia. apply le_INR in Hx'. rewrite plus_INR in Hx'. cbn [INR] in Hx'. split; [split; nra|]. split; (split; [intros E; exfalso; nra|intros (E & _); discriminate]).
  - pose proof (le_INR _ _ Hx). split; [split; nra|]. split; (split; [intros E; split; [reflexivity|]|intros (_ & E)]).
    + apply INR_eq. cbn [INR]. nra. + subst x. cbn [INR]. lra. + apply INR_eq. nra. + subst x. lra.
Qed.
Lemma inside_each p : inside p -> (if p.1 then (px p < cx)%nat else (px p <= cx)%nat) /\ (if p.1 then (py p < cy)%nat else (py p <= cy)%nat) /\ (if p.1 then (pz p < cz)%nat else (pz p <= cz)%nat).
Proof using Hcx Hcy Hcz Hh Hlen Hvs. unfold TetGrid.inside. destruct (p.1); auto. Qed.
Lemma within4 a c : (a < length vs)%nat -> (c < 3)%nat -> 0 <= nth a vs zero_point c <= high4 c.
Proof using Hcx Hcy Hcz Hh Hlen Hvs.
  intros Ha Hc. destruct (node_split a Ha) as (p & Hp & ->). rewrite Hvs by exact Hp. apply inside_each in Hp as (A & B & C). assert (c = 0 \/ c = 1 \/ c = 2)%nat as [->|[->| ->]] by lia; unfold pt; cbn [high4 nth]; apply (coordinate_bounds p.1); assumption.
Qed.
Lemma sides4 p : inside p -> at_side cx cy cz p <-> exists c, (c < 3)%nat /\ (nth (node p) vs zero_point c = 0 \/ nth (node p) vs zero_point c = high4 c).
Proof using Hcx Hcy Hcz Hh Hlen Hvs.
  intros Hp. rewrite Hvs by exact Hp. apply inside_each in Hp as (A & B & C). apply (coordinate_bounds p.1) in A as (_ & A0 & A1). apply (coordinate_bounds p.1) in B as (_ & B0 & B1). apply (coordinate_bounds p.1) in C as (_ & C0 & C1). unfold half, at_side. split.
  - intros (E & [S|[S|[S|[S|[S|S]]]]]); [exists 0%nat|exists 0%nat|exists 1%nat|exists 1%nat|exists 2%nat|exists 2%nat]; (split; [lia|]); unfold pt; cbn [nth high4]; [left; apply A0|right; apply A1|left; apply B0|right; apply B1|left; apply C0|right; apply C1]; auto.
  - intros (c & Hc & E). assert (c = 0 \/ c = 1 \/ c = 2)%nat as [->|[->| ->]] by lia; unfold pt in E; cbn [nth high4] in E; (destruct E as [E|E]; [first [apply A0 in E|apply B0 in E|apply C0 in E]|first [apply A1 in E|apply B1 in E|apply C1 in E]]); tauto.
Qed.
Lemma tet_cell_ok t : t ∈ tets -> NoDup t /\ forall a, a ∈ t -> (a < length vs)%nat.
Proof using Hcx Hcy Hcz Hh Hlen Hvs.
  intros Ht. apply tets_elem in Ht as (b & k & Hb & Hk & Hh' & ->). split.
  - apply NoDup_alt. intros i j v Hi Hj. unfold TetGrid.tet in Hi, Hj. change (map (fun p => node (shift b p)) (k_shape k)) with ((fun p => node (shift b p)) <$> k_shape k) in Hi, Hj. rewrite list_lookup_fmap in Hi, Hj.
    destruct (k_shape k !! i) as [p|] eqn:Ep; [|discriminate]. destruct (k_shape k !! j) as [q|] eqn:Eq; [|discriminate]. cbn [fmap option_fmap option_map] in Hi, Hj. injection Hi as Hi. injection Hj as Hj. subst v.
    assert (Hp : In p (k_shape k)) by (apply elem_of_list_In, (elem_of_list_lookup_2 _ _ _ Ep)). assert (Hq : In q (k_shape k)) by (apply elem_of_list_In, (elem_of_list_lookup_2 _ _ _ Eq)).
    apply node_inj in Hj; [|apply (shape_inside cx cy cz k); assumption|apply (shape_inside cx cy cz k); assumption]. apply shift_inj in Hj. subst q. exact (NoDup_lookup _ i j p (kinds_nodup k Hk) Ep Eq).
  - intros a Ha. unfold TetGrid.tet in Ha. apply elem_of_list_In, in_map_iff in Ha as (p & <- & Hp). apply node_range, (shape_inside cx cy cz k); assumption.
Qed.
Lemma bit_position b p c : inside (shift b p) -> (c < 3)%nat -> nth (node (shift b p)) vs zero_point c = h * INR (get c b) + h / 2 * IZR (nth c (bit p) 0%Z).
Proof using Hcx Hcy Hcz Hh Hlen Hvs.
  intros Hp Hc. rewrite Hvs by exact Hp. destruct b as [[i j] m], p as [e [[x y] z]]. unfold shift, bit, half, px, py, pz, pt. cbn [fst snd].
  assert (c = 0 \/ c = 1 \/ c = 2)%nat as [->|[->| ->]] by lia; cbn [nth get fst snd]; rewrite plus_IZR, mult_IZR, <- INR_IZR_INZ, plus_INR; destruct e; lra.
Qed.
Lemma tet_cornered b k : in_box cx cy cz b -> In k kinds -> holds cx cy cz k b -> cornered (shape_bits k) 3 X (tet b (k_shape k)).
Proof using Hcx Hcy Hcz Hh Hlen Hvs.
  intros Hb Hk Hh'. split; [unfold TetGrid.tet, shape_bits; rewrite !map_length; reflexivity|]. split; [apply tet_cell_ok, tets_elem; exists b, k; auto 10|]. exists (fun c => h * INR (get c b)), (fun _ => h / 2). split; [intros; lra|].
  intros I c HI Hc. unfold TetGrid.tet in HI |- *. rewrite map_length in HI. assert (E : nth I (map (fun p => node (shift b p)) (k_shape k)) 0%nat = node (shift b (nth I (k_shape k) no_pnt))).
  { rewrite <- (map_nth (fun p => node (shift b p)) (k_shape k) no_pnt I). apply nth_indep. rewrite map_length. exact HI. }
  rewrite E. assert (Ez : zb (shape_bits k) I c = nth c (bit (nth I (k_shape k) no_pnt)) 0%Z). { unfold zb, shape_bits. f_equal. rewrite <- (map_nth bit (k_shape k) no_pnt I). apply nth_indep. rewrite map_length. exact HI. }
  rewrite Ez. apply bit_position; [apply (shape_inside cx cy cz k); try assumption; apply nth_In; exact HI|exact Hc].
Qed.
Lemma tet_positive b k x : in_box cx cy cz b -> In k kinds -> holds cx cy cz k b -> 0 < determinant 3 (ElementModel.el_jacobian tet4 (map X (tet b (k_shape k))) x).
Proof using Hcx Hcy Hcz Hh Hlen Hvs.
  intros Hb Hk Hh'. destruct (tet_cornered b k Hb Hk Hh') as (L & _ & o & g & _ & HX). assert (Hg : forall I c, (I < 4)%nat -> (c < 3)%nat -> X (nth I (tet b (k_shape k)) 0%nat) c = h * INR (get c b) + h / 2 * IZR (zb (shape_bits k) I c)).
  { clear o g HX. intros I c HI Hc. assert (HI' : (I < length (k_shape k))%nat) by (rewrite kind_length by exact Hk; exact HI). assert (Ez : zb (shape_bits k) I c = nth c (bit (nth I (k_shape k) no_pnt)) 0%Z) by (unfold zb, shape_bits; f_equal; rewrite <- (map_nth bit (k_shape k) no_pnt I); apply nth_indep; rewrite map_length; exact HI').
    assert (E : nth I (tet b (k_shape k)) 0%nat = node (shift b (nth I (k_shape k) no_pnt))) by (unfold TetGrid.tet; rewrite <- (map_nth (fun p => node (shift b p)) (k_shape k) no_pnt I); apply nth_indep; rewrite map_length; exact HI').
    cbv beta. rewrite E, Ez. apply bit_position; [apply (shape_inside cx cy cz k); try assumption; apply nth_In; exact HI'|exact Hc]. }
  clear o g HX. destruct (shape_bits_ok k Hk) as (_ & D). assert (D' : IZR (zdet3 (shape_bits k) 0 1 2 3) < 0) by (apply IZR_lt; exact D). clear D.
  assert (L4 : length (tet b (k_shape k)) = 4%nat) by (unfold TetGrid.tet; rewrite map_length; apply kind_length, Hk). destruct (tet b (k_shape k)) as [|v0 [|v1 [|v2 [|v3 [|]]]]]; try discriminate L4. clear L4 L.
  assert (E : determinant 3 (ElementModel.el_jacobian tet4 (map X [v0; v1; v2; v3]) x) = (h / 4) * (h / 4) * (h / 4) * - IZR (zdet3 (shape_bits k) 0 1 2 3)).
  { pose proof (fun c => Hg 0%nat c ltac:(lia)) as G0. pose proof (fun c => Hg 1%nat c ltac:(lia)) as G1. pose proof (fun c => Hg 2%nat c ltac:(lia)) as G2. pose proof (fun c => Hg 3%nat c ltac:(lia)) as G3. cbv beta in G0, G1, G2, G3. cbn [nth] in G0, G1, G2, G3. clear Hg D'.
    unfold zdet3. repeat (rewrite ?plus_IZR, ?minus_IZR, ?mult_IZR). cbn [ElementModel.el_jacobian tet4 determinant map]. unfold isoparametric_jacobian. cbn [tet4_grads map ElementModel.combine nth]. rewrite !G0, !G1, !G2, !G3 by lia. field. }
  rewrite E. assert (0 < h / 4) by lra. assert (Q : 0 < h / 4 * (h / 4) * (h / 4)) by (apply Rmult_lt_0_compat; [apply Rmult_lt_0_compat|]; assumption). apply Rmult_lt_0_compat; [exact Q|lra].
Qed.
(** every node belongs to a tetrahedron *)
Lemma tet_cover a : (a < length vs)%nat -> exists cell, cell ∈ tets /\ a ∈ cell.
Proof using Hcx Hcy Hcz Hh Hlen Hvs.
  intros Ha. destruct (node_split a Ha) as (p & Hp & ->). 
  assert (W : exists b o, in_box cx cy cz b /\ In o unit_offsets /\ (p = shift b (corner_at o) \/ p = shift b (centre_at (0, 0, 0)%nat))).
  { destruct p as [e [[x y] z]]. unfold TetGrid.inside, px, py, pz in Hp. cbn [fst snd] in Hp. destruct e.
    - exists (x, y, z), (0, 0, 0)%nat. split; [exact Hp|]. split; [cbn; auto|]. right. unfold shift, px, py, pz, centre_at. cbn [fst snd]. rewrite !Nat.add_0_r. reflexivity.
    - destruct Hp as (P1 & P2 & P3). destruct (near cx x Hcx P1) as (a1 & d1 & A1 & I1 & D1 & _). destruct (near cy y Hcy P2) as (a2 & d2 & A2 & I2 & D2 & _). destruct (near cz z Hcz P3) as (a3 & d3 & A3 & I3 & D3 & _). exists (a1, a2, a3), (d1, d2, d3). split; [unfold TetGrid.in_box; cbn [fst snd]; auto|].
      split; [destruct d1 as [|[|]], d2 as [|[|]], d3 as [|[|]]; try lia; cbn; tauto|]. left. unfold shift, px, py, pz, corner_at. cbn [fst snd]. rewrite I1, I2, I3. reflexivity. }
  destruct W as (b & o & Hb & Ho & W). set (e := even b).
  assert (C : forallb (fun o => forallb (fun el => forallb (fun eh => forallb (fun e => existsb (fun x => existsb (fun q => pnt_eqb (shift (1, 1, 1)%nat (corner_at o)) (shift (bsub (1, 1, 1)%nat x.2) q)) x.1 && existsb (fun q => pnt_eqb (shift (1, 1, 1)%nat (centre_at (0, 0, 0)%nat)) (shift (bsub (1, 1, 1)%nat x.2) q)) x.1)
      (group 0 false el e ++ group 0 true eh e)) bools) bools) bools) unit_offsets = true) by (vm_compute; reflexivity).
  pose proof (proj1 (forallb_forall _ unit_offsets) C o Ho) as C1. cbv beta in C1. pose proof (proj1 (forallb_forall _ bools) C1 (side_edge cx cy cz b 0 false) (bools_all _)) as C2. cbv beta in C2. pose proof (proj1 (forallb_forall _ bools) C2 (side_edge cx cy cz b 0 true) (bools_all _)) as C3. cbv beta in C3. pose proof (proj1 (forallb_forall _ bools) C3 (even b) (bools_all _)) as C4. cbv beta in C4. clear C C1 C2 C3.
  apply existsb_exists in C4 as (x & Hx & C4). apply andb_true_iff in C4 as (K1 & K2). assert (V : valid cx cy cz b x) by (apply in_app_iff in Hx as [Hx|Hx]; [apply (group_valid cx cy cz b 0 false)|apply (group_valid cx cy cz b 0 true)]; try assumption; lia).
  exists (real cx cy cz b x). split; [apply real_in, V|]. destruct V as (V1 & V2 & _ & _). unfold real, TetGrid.tet. apply elem_of_list_In, in_map_iff.
  assert (Q : forall p0, existsb (fun q => pnt_eqb (shift (1, 1, 1)%nat p0) (shift (bsub (1, 1, 1)%nat x.2) q)) x.1 = true -> exists q, node (shift (bsub b x.2) q) = node (shift b p0) /\ In q x.1).
  { intros p0 K. apply existsb_exists in K as (q & Hq & K). apply pnt_eqb_eq in K. exists q. split; [|exact Hq]. f_equal. pose proof (f_equal fst K) as F0. pose proof (f_equal px K) as F1. pose proof (f_equal py K) as F2. pose proof (f_equal pz K) as F3.
    unfold shift, bsub, px, py, pz in F0, F1, F2, F3 |- *. cbn [fst snd] in *. rewrite F0. f_equal. f_equal; [f_equal|]; lia. }
  destruct W as [-> | ->]; apply Q; assumption.
Qed.
Lemma tet_box : box_mesh tet4 tet4_kind tri3_reversals (Mesh vs tets) (fun _ => 0) high4.
Proof using Hcx Hcy Hcz Hh Hlen Hvs.
  unfold box_mesh. cbn [ms_vertices ms_cells]. cbn zeta. change (ElementModel.el_dim tet4) with 3%nat.
  assert (Hec : element_cells tet4 vs tets) by (intros cell Hc; split; [exact (tet_length cx cy cz cell Hc)|apply tet_cell_ok, Hc]).
  split; [exact Hec|]. split; [apply (C106_spaces tet4 vs tets ex_centre (fun _ => []) (fun _ => []) (fun _ => []) PropCsr.key_sort (fun _ l => l) 1%nat); [cbn; tauto|exact Hec|reflexivity]|].
  split; [apply C107_simplices; [cbn; tauto|exact Hec]|]. split.
  { intros cell x Hc. apply tets_elem in Hc as (b & k & Hb & Hk & Hh' & ->). apply tet_positive; assumption. }
  split; [apply tets_oriented|]. split; [exact tet_cover|]. split; [intros a c Ha Hc; exact (within4 a c Ha Hc)|]. split.
  { destruct (tets_rim cx cy cz Hcx Hcy Hcz) as (bs & E & Hb). exists bs. split; [exact E|]. intros a Ha. destruct (node_split a Ha) as (p & Hp & ->). rewrite Hb by assumption. apply sides4; assumption. }
  split.
  { intros nodes j k Hj Lj Lk. destruct (tet_cover k Lk) as (cell & Hc & Hk). exact (joined_all 3 tets nodes j ltac:(lia) (tets_linked cx cy cz) Hj (tet_cover j Lj) cell k Hc Hk). }
  intros nodes cell js k Hc Nj Lj Hj Lk. destruct (tet_cover k Lk) as (cell' & Hc' & Hk). apply (pinned_all 3 X tets nodes js cell) with (cell := cell'); try assumption; [|exact (tets_linked cx cy cz)].
  apply filled3_each. intros e He. apply tets_elem in He as (b & kd & Hb & Hkd & Hh' & ->). exists (shape_bits kd). split; [apply shape_bits_ok, Hkd|apply tet_cornered; assumption].
Qed.
End box.
Lemma tet_mesh_parts u ux uy uz n : (0 < n)%nat -> (0 < ux)%nat -> (0 < uy)%nat -> (0 < uz)%nat -> let cx := (ux * n)%nat in let cy := (uy * n)%nat in let cz := (uz * n)%nat in let h := u / INR n in
  exists vs, tet_mesh u ux uy uz n = Some (Mesh vs (tets cx cy cz)) /\ length vs = (corners_number cx cy cz + cx * cy * cz)%nat /\
  forall p, inside cx cy cz p -> nth (node cx cy cz p) vs zero_point = pt [h * (half p + INR (px p)); h * (half p + INR (py p)); h * (half p + INR (pz p))].
Proof.
  intros Hn Hx Hy Hz cx cy cz h. unfold tet_mesh. rewrite decide_False by lia. fold cx cy cz h.
  set (corners := for_range (cz + 1) _). set (centres := for_range cz (fun k => for_range cy (fun j => for_range cx (fun i => pt _ :: [])))).
  assert (Lc : length corners = corners_number cx cy cz) by apply fr3_length. assert (Lm : length centres = (cx * cy * cz)%nat) by apply fr3_length.
  rewrite Lc. destruct (tets_made cx cy cz) as (E & Ec). rewrite E. cbn [mbind option_bind]. rewrite Ec. exists (corners ++ centres). split; [reflexivity|]. split; [rewrite app_length, Lc, Lm; reflexivity|].
  intros [e [[x y] z]] Hp. apply nth_lookup_Some. unfold TetGrid.inside, TetGrid.node, half, px, py, pz in *. cbn [fst snd] in *. destruct e; destruct Hp as (P1 & P2 & P3).
  - rewrite centre_index, lookup_app_r by (rewrite Lc; lia). rewrite Lc. replace (cx * cy * z + cx * y + x + corners_number cx cy cz - corners_number cx cy cz)%nat with (cx * cy * z + cx * y + x)%nat by lia.
    exact (fr3_lookup cz cy cx (fun k j i => pt [h * (1 / 2 + INR i); h * (1 / 2 + INR j); h * (1 / 2 + INR k)]) x y z P1 P2 P3).
  - rewrite !Rplus_0_l, corner_index. apply lookup_app_l_Some. unfold V3. exact (fr3_lookup (cz + 1) (cy + 1) (cx + 1) (fun k j i => pt [h * INR i; h * INR j; h * INR k]) x y z ltac:(lia) ltac:(lia) ltac:(lia)).
Qed.
(** C110: the tetrahedral mesh of a box *)
Theorem C110_tet_mesh u ux uy uz n : 0 < u -> (0 < ux)%nat -> (0 < uy)%nat -> (0 < uz)%nat -> (0 < n)%nat -> exists m, tet_mesh u ux uy uz n = Some m /\
  box_mesh tet4 tet4_kind [[0; 2; 1]; [1; 0; 2]; [2; 1; 0]]%nat m (pt [0; 0; 0]) (pt [INR ux * u; INR uy * u; INR uz * u]).
Proof.
  intros Hu Hx Hy Hz Hn. destruct (tet_mesh_parts u ux uy uz n Hn Hx Hy Hz) as (vs & E & L & Hv). eexists. split; [exact E|].
  refine (box_ext _ _ _ _ _ _ _ _ _ (tet_box (ux * n) (uy * n) (uz * n) (u / INR n) vs ltac:(lia) ltac:(lia) ltac:(lia) (step_positive u n Hn Hu) L Hv)).
  intros c Hc. change (ElementModel.el_dim tet4) with 3%nat in Hc. assert (c = 0 \/ c = 1 \/ c = 2)%nat as [->|[->| ->]] by lia; unfold high4; rewrite step_total by exact Hn; split; reflexivity.
Qed.
Print Assumptions C110_tet_mesh.
(** C110: in particular the mesh of the unit box *)
Theorem C110_unit n : (0 < n)%nat -> exists m, unit_box_tet_mesh n = Some m /\ box_mesh tet4 tet4_kind [[0; 2; 1]; [1; 0; 2]; [2; 1; 0]]%nat m (pt [0; 0; 0]) (pt [1; 1; 1]).
Proof.
  intros Hn. destruct (C110_tet_mesh 1 1 1 1 n Rlt_0_1 Nat.lt_0_1 Nat.lt_0_1 Nat.lt_0_1 Hn) as (m & E & B). exists m. split; [exact E|]. refine (box_ext _ _ _ _ _ _ _ _ _ B).
  intros c Hc. change (ElementModel.el_dim tet4) with 3%nat in Hc. assert (c = 0 \/ c = 1 \/ c = 2)%nat as [->|[->| ->]] by lia; unfold pt; cbn; lra.
Qed.
Print Assumptions C110_unit.
(** * the vertices that the mesh reports as its boundary, all fixed *)
Definition faces_wide (kd : conn_kind) (d : nat) : Prop := forall l t, (l < ck_num_faces kd)%nat -> ck_face kd l = Some t -> NoDup t /\ (d <= length t)%nat.
Lemma boundary_use el kd rev m lo hi a c : box_mesh el kd rev m lo hi -> kind_ok kd -> cells_of_kind kd (ms_cells m) -> faces_wide kd (ElementModel.el_dim el) -> (a < length (ms_vertices m))%nat -> (c < ElementModel.el_dim el)%nat -> nth a (ms_vertices m) zero_point c = lo c \/ nth a (ms_vertices m) zero_point c = hi c ->
  exists bs cell js, find_boundary_vertices kd (ms_cells m) = Some bs /\ bs <> [] /\ (forall k, k ∈ bs -> (k < length (ms_vertices m))%nat) /\ cell ∈ ms_cells m /\ NoDup js /\ length js = ElementModel.el_dim el /\ forall j, j ∈ js -> j ∈ cell /\ j ∈ bs.
Proof.
  intros (B1 & _ & _ & _ & _ & _ & _ & (bs & Eb & Hb) & _) Hk Hck Hw La Lc Hx. destruct (C26_boundary_vertices kd (ms_cells m) Hk Hck) as (bs' & Eb' & _ & H'). rewrite Eb in Eb'. injection Eb' as <-.
  assert (Wa : a ∈ bs) by (apply (Hb a La); exists c; split; assumption). pose proof Wa as Wf. apply H' in Wf as (f & e & l & Bf & _). pose proof Bf as ((Hl & cell & t & Ec & Et & F2) & _). destruct (Hw l t Hl Et) as (Nt & Lt). pose proof (elem_of_list_lookup_2 _ _ _ Ec) as Hc. destruct (B1 cell Hc) as (_ & Nc & Rc).
  assert (Fc : forall i v, f !! i = Some v -> exists j, t !! i = Some j /\ cell !! j = Some v) by (intros i v Hi; destruct (Forall2_lookup_r _ _ _ _ _ F2 Hi) as (j & Hj & Ej); exists j; split; assumption).
  assert (Nf : NoDup f). { apply NoDup_alt. intros i i' v Hi Hi'. destruct (Fc i v Hi) as (j & Hj & Ej). destruct (Fc i' v Hi') as (j' & Hj' & Ej'). assert (j = j') as <- by exact (NoDup_lookup _ j j' v Nc Ej Ej'). exact (NoDup_lookup _ i i' j Nt Hj Hj'). }
  exists bs, cell, (take (ElementModel.el_dim el) f). split; [exact Eb|]. split; [intros ->; apply elem_of_nil in Wa; exact Wa|]. split.
  - intros k Hkb. apply H' in Hkb as (g & e' & l' & ((_ & cell' & t' & Ec' & _ & G2) & _) & Hg). apply elem_of_list_lookup in Hg as (i & Hi). destruct (Forall2_lookup_r _ _ _ _ _ G2 Hi) as (j & _ & Ej). apply (B1 cell'); [apply (elem_of_list_lookup_2 _ e'), Ec'|apply (elem_of_list_lookup_2 _ j), Ej].
  - split; [exact Hc|]. split; [rewrite <- (take_drop (ElementModel.el_dim el) f) in Nf; apply NoDup_app in Nf; apply Nf|]. split; [rewrite take_length; rewrite (Forall2_length _ _ _ F2) in Lt; lia|].
    intros j Hj. assert (Hf : j ∈ f) by (rewrite <- (take_drop (ElementModel.el_dim el) f); apply elem_of_app; left; exact Hj). split; [apply elem_of_list_lookup in Hf as (i & Hi); destruct (Fc i j Hi) as (j' & _ & Ej); exact (elem_of_list_lookup_2 _ _ _ Ej)|]. apply H'. exists f, e, l. split; [exact Bf|exact Hf].
Qed.
(** the Poisson problem and linear elasticity, with the quadrature that the mesh chooses *)
Definition dirichlet_solvable (fuel : nat) (tri tet : list PolyquadModel.entry) (el : ElementModel.element) (kd : conn_kind) (m : mesh point) : Prop :=
  exists bs q t, find_boundary_vertices kd (ms_cells m) = Some bs /\ uniform_from_quadrature q tt = Ok t /\
  In (el, Some q) (CanonicalModel.canonical_stiffness (QuadratureModel.newton_root fuel) (PropCanonicalTables.table_rule PropPolyquadTables.Tri tri) (PropCanonicalTables.table_rule PropPolyquadTables.Tet tet)) /\
  forall Data' (default_data' : Data') umax (table' : q_table point Data') w' p' x' srt ord is_zero cws ws vws ws',
   hash_order ord -> sorts_by_key srt -> (forall x, is_zero x = true <-> x = 0) -> reads_quadrature table' (length (ms_cells m)) w' p' x' ->
   (forall source u0, length u0 = length (ms_vertices m) ->
     poisson_solved zero_point default_data' umax (element_space el (ms_vertices m) (ms_cells m)) (uniform_table t) table' (ms_cells m) (fun _ => fst q) (fun _ => snd q) (fun _ => repeat tt (length (fst q))) (ElementModel.el_dim el) w' p' x' srt ord source bs is_zero u0 cws ws vws ws') /\
   (forall params (table : q_table point (R * R)) x source u0 ws1, reads_quadrature table (length (ms_cells m)) (fun _ => fst q) (fun _ => snd q) x -> (forall e y, (e < length (ms_cells m))%nat -> In y (x e) -> stable (ElementModel.el_dim el) y) -> length u0 = (ElementModel.el_dim el * length (ms_vertices m))%nat ->
     elasticity_solved zero_point params default_data' umax (element_space el (ms_vertices m) (ms_cells m)) table table' (ms_cells m) (fun _ => fst q) (fun _ => snd q) x (ElementModel.el_dim el) w' p' x' srt ord source bs is_zero u0 cws ws1 vws ws').
Lemma box_dirichlet fuel tri tet el kd rev m lo hi oq a c : (5 <= fuel)%nat -> PropCanonicalTables.shipped PropPolyquadTables.Tri tri -> PropCanonicalTables.shipped PropPolyquadTables.Tet tet ->
  In (el, oq) (CanonicalModel.canonical_stiffness (QuadratureModel.newton_root fuel) (PropCanonicalTables.table_rule PropPolyquadTables.Tri tri) (PropCanonicalTables.table_rule PropPolyquadTables.Tet tet)) ->
  box_mesh el kd rev m lo hi -> kind_ok kd -> cells_of_kind kd (ms_cells m) -> faces_wide kd (ElementModel.el_dim el) -> (a < length (ms_vertices m))%nat -> (c < ElementModel.el_dim el)%nat -> nth a (ms_vertices m) zero_point c = lo c \/ nth a (ms_vertices m) zero_point c = hi c ->
  dirichlet_solvable fuel tri tet el kd m.
Proof.
  intros Hf Htri Htet In1 B Hk Hck Hw La Lc Hx. destruct (boundary_use el kd rev m lo hi a c B Hk Hck Hw La Lc Hx) as (bs & cell & js & Eb & Ne & Rb & Hc & Nj & Lj & Hj).
  destruct (C109_poisson fuel tri tet Hf Htri Htet el _ _ _ _ _ _ B In1) as (q & t & Eq & Et & HP). destruct (C109_elasticity fuel tri tet Hf Htri Htet el _ _ _ _ _ _ B In1) as (q' & Eq' & L & HE). rewrite Eq in Eq'. injection Eq' as <-. rewrite Eq in In1.
  exists bs, q, t. split; [exact Eb|]. split; [exact Et|]. split; [exact In1|]. intros Data' dd umax table' w' p' x' srt ord is_zero cws ws vws ws' Ho Hs Hz Hq. split.
  - intros source u0 Lu. apply HP; try assumption. split; assumption.
  - intros params table x source u0 ws1 Hq1 Hst Lu. apply (HE Data' params dd umax table x table') with (cell := cell) (js := js); assumption.
Qed.
Lemma faces_wide_ok : faces_wide quad4d2_kind 2 /\ faces_wide tri3d2_kind 2 /\ faces_wide hex8_kind 3 /\ faces_wide tet4_kind 3.
Proof.
  split; [|split; [|split]]; intros l t Hl E; cbn in Hl; do 6 (try (destruct l as [|l]; [cbn in E; injection E as <-; split; [apply (bool_decide_unpack _); vm_compute; exact I|cbn; lia]|])); exfalso; lia.
Qed.
(** C110: on all four kinds of meshes of rectangles and boxes, both problems are solvable when the vertices fixed are those that [find_boundary_vertices] returns *)
Theorem C110_dirichlet fuel tri tet u ux uy uz n tl : (5 <= fuel)%nat -> PropCanonicalTables.shipped PropPolyquadTables.Tri tri -> PropCanonicalTables.shipped PropPolyquadTables.Tet tet ->
  0 < u -> (0 < ux)%nat -> (0 < uy)%nat -> (0 < uz)%nat -> (0 < n)%nat ->
  dirichlet_solvable fuel tri tet quad4 quad4d2_kind (quad_mesh u ux uy n tl) /\
  (exists m, split_into_triangles (quad_mesh u ux uy n tl) = Some m /\ dirichlet_solvable fuel tri tet tri3 tri3d2_kind m) /\
  dirichlet_solvable fuel tri tet hex8 hex8_kind (hex_mesh u ux uy uz n) /\
  (exists m, tet_mesh u ux uy uz n = Some m /\ dirichlet_solvable fuel tri tet tet4 tet4_kind m).
Proof.
  intros Hf Htri Htet Hu Hx Hy Hz Hn. destruct faces_wide_ok as (W1 & W2 & W3 & W4). assert (K := kinds_ok). rewrite Forall_forall in K.
  destruct (quad_mesh_parts u ux uy n tl Hn Hx Hy) as (vs & Em & L & Hv). specialize (Hv 0%nat 0%nat ltac:(lia) ltac:(lia)). replace (V2 (ux * n) 0 0) with 0%nat in Hv by (unfold V2; lia). assert (X0 : nth 0 vs zero_point 0%nat = tl 0%nat) by (rewrite Hv; unfold pt; cbn [nth INR]; lra). assert (L0 : (0 < length vs)%nat) by lia. split; [|split; [|split]].
  - pose proof (C109_quad_mesh u ux uy n tl Hu Hx Hy Hn) as B. rewrite Em in B |- *. refine (box_dirichlet _ _ _ _ _ _ _ _ _ _ 0%nat 0%nat Hf Htri Htet _ B _ _ W1 L0 Nat.lt_0_2 _); [right; right; left; reflexivity|apply K; unfold all_kinds; member|apply Forall_forall; intros e He; apply (proj1 B e He)|left; exact X0].
  - destruct (C109_tri_mesh u ux uy n tl Hu Hx Hy Hn) as (m & Es & B). exists m. split; [exact Es|]. assert (Ev : ms_vertices m = vs). { rewrite Em in Es. unfold split_into_triangles in Es. cbn [ms_vertices ms_cells] in Es. destruct (mapM _ _) as [ts|]; [|discriminate]. injection Es as <-. reflexivity. }
    refine (box_dirichlet _ _ _ _ _ _ _ _ _ _ 0%nat 0%nat Hf Htri Htet _ B _ _ W2 _ Nat.lt_0_2 _); [left; reflexivity|apply K; unfold all_kinds; member|apply Forall_forall; intros e He; apply (proj1 B e He)|rewrite Ev; exact L0|left; rewrite Ev; exact X0].
  - clear vs Em L Hv X0 L0. destruct (hex_mesh_parts u ux uy uz n Hn Hx Hy) as (vs & Em & L & Hv). specialize (Hv 0%nat 0%nat 0%nat ltac:(lia) ltac:(lia) ltac:(lia)). replace (V3 (ux * n) (uy * n) 0 0 0) with 0%nat in Hv by (unfold V3; lia). assert (X0 : nth 0 vs zero_point 0%nat = 0) by (rewrite Hv; unfold pt; cbn [nth INR]; lra). assert (L0 : (0 < length vs)%nat) by nia.
    pose proof (C109_hex_mesh u ux uy uz n Hu Hx Hy Hz Hn) as B. rewrite Em in B |- *. refine (box_dirichlet _ _ _ _ _ _ _ _ _ _ 0%nat 0%nat Hf Htri Htet _ B _ _ W3 L0 (Nat.lt_0_succ 2) _); [do 7 right; left; reflexivity|apply K; unfold all_kinds; member|apply Forall_forall; intros e He; apply (proj1 B e He)|left; exact X0].
  - clear vs Em L Hv X0 L0. destruct (C110_tet_mesh u ux uy uz n Hu Hx Hy Hz Hn) as (m & Em & B). exists m. split; [exact Em|]. destruct (tet_mesh_parts u ux uy uz n Hn Hx Hy Hz) as (vs & Em' & Lv & Hv). rewrite Em in Em'. injection Em' as ->. cbv zeta in Hv.
    assert (I0 : inside (ux * n) (uy * n) (uz * n) (false, (0, 0, 0)%nat)) by (cbn; unfold px, py, pz; cbn; lia). assert (N0 : node (ux * n) (uy * n) (uz * n) (false, (0, 0, 0)%nat) = 0%nat) by (unfold node; cbn [fst]; rewrite corner_index; unfold V3, px, py, pz; cbn [fst snd]; lia).
    specialize (Hv _ I0). rewrite N0 in Hv. assert (L0 : (0 < length vs)%nat) by (rewrite Lv; unfold corners_number; nia). assert (X0 : nth 0 vs zero_point 0%nat = 0) by (rewrite Hv; unfold pt, half, px; cbn [nth fst snd INR]; lra).
    refine (box_dirichlet _ _ _ _ _ _ _ _ _ _ 0%nat 0%nat Hf Htri Htet _ B _ _ W4 L0 (Nat.lt_0_succ 2) _); [do 4 right; left; reflexivity|apply K; unfold all_kinds; member|apply Forall_forall; intros e He; apply (proj1 B e He)|left; exact X0].
Qed.
Print Assumptions C110_dirichlet.
(** beside C110: the twelve tetrahedra of the unit box with one cell, with a node at the centre; the eight corners are the boundary. Both problems are solvable, the second with the corners of one boundary triangle fixed *)
Example C110_example source u0 u1 cws ws ws1 vws ws' : length u0 = 9%nat -> length u1 = 27%nat -> let steel := lame_from_young_poisson 210 (3/10) in
  exists m, unit_box_tet_mesh 1 = Some m /\ length (ms_vertices m) = 9%nat /\ nth 8 (ms_vertices m) zero_point 0%nat = 1 / 2 /\ length (ms_cells m) = 12%nat /\ [5; 7; 3; 8]%nat ∈ ms_cells m /\
  (exists vs, find_boundary_vertices tet4_kind (ms_cells m) = Some vs /\ vs ≡ₚ [0; 1; 2; 3; 4; 5; 6; 7]%nat) /\
  let sp := element_space tet4 (ms_vertices m) (ms_cells m) in
  exists q t t1, PropCanonicalTables.table_rule PropPolyquadTables.Tet (PropPolyquadTables.files PropPolyquadTables.Tet) 1 = Some q /\ uniform_from_quadrature q tt = Ok t /\ uniform_from_quadrature q steel = Ok t1 /\
  poisson_solved zero_point tt 77 sp (uniform_table t) (uniform_table t) (ms_cells m) (fun _ => fst q) (fun _ => snd q) (fun _ => repeat tt (length (fst q))) 3
    (fun _ => fst q) (fun _ => snd q) (fun _ => repeat tt (length (fst q))) PropCsr.key_sort (fun _ l => l) source [0; 1; 2; 3; 4; 5; 6; 7]%nat PropSolveMesh.is_zeroR u0 cws ws vws ws' /\
  elasticity_solved zero_point (0, 0) tt 77 sp (uniform_table t1) (uniform_table t) (ms_cells m) (fun _ => fst q) (fun _ => snd q) (fun _ => repeat steel (length (fst q))) 3
    (fun _ => fst q) (fun _ => snd q) (fun _ => repeat tt (length (fst q))) PropCsr.key_sort (fun _ l => l) (fun _ _ i => nth i [0; 0; -981/100] 0) [5; 7; 3]%nat PropSolveMesh.is_zeroR u1 cws ws1 vws ws'.
Proof.
  intros L0 L1 steel. destruct PropUnisolvent.C107_example as (ST & SE & _). destruct (C110_unit 1 ltac:(lia)) as (m & Em & B). exists m. split; [exact Em|].
  destruct (tet_mesh_parts 1 1 1 1 1 ltac:(lia) ltac:(lia) ltac:(lia) ltac:(lia)) as (vs & Em' & Lv & Hv). unfold unit_box_tet_mesh in Em. rewrite Em' in Em. injection Em as <-. cbn [ms_vertices ms_cells] in *. change (length vs = 9%nat) in Lv. change (1 * 1)%nat with 1%nat in *.
  split; [exact Lv|]. split; [pose proof (Hv (true, (0, 0, 0)%nat) ltac:(cbn; lia)) as E; change (node 1 1 1 (true, (0, 0, 0)%nat)) with 8%nat in E; rewrite E; unfold pt, half; cbn; lra|].
  split; [reflexivity|]. split; [apply (bool_decide_unpack _); vm_compute; exact I|]. split; [eexists; split; [vm_compute; reflexivity|apply (bool_decide_unpack _); vm_compute; exact I]|].
  assert (In1 : In (tet4, PropCanonicalTables.table_rule PropPolyquadTables.Tet (PropPolyquadTables.files PropPolyquadTables.Tet) 1) (CanonicalModel.canonical_stiffness (QuadratureModel.newton_root 5) (PropCanonicalTables.table_rule PropPolyquadTables.Tri (PropPolyquadTables.files PropPolyquadTables.Tri)) (PropCanonicalTables.table_rule PropPolyquadTables.Tet (PropPolyquadTables.files PropPolyquadTables.Tet)))) by (right; right; right; right; left; reflexivity).
  destruct (C109_poisson 5 _ _ (Nat.le_refl 5) ST SE tet4 _ _ _ _ _ _ B In1) as (q & t & Eq & Et & HP). destruct (C109_elasticity 5 _ _ (Nat.le_refl 5) ST SE tet4 _ _ _ _ _ _ B In1) as (q' & Eq' & L & HE). rewrite Eq in Eq'. injection Eq' as <-. cbn [ms_vertices ms_cells] in HP, HE.
  destruct (reads_uniform q tt L) as (t' & Et' & Q). rewrite Et in Et'. injection Et' as <-. destruct (reads_uniform q steel L) as (t1 & Et1 & Q1). exists q, t, t1. split; [exact Eq|]. split; [exact Et|]. split; [exact Et1|].
  assert (Rg : forall k, k ∈ [0; 1; 2; 3; 4; 5; 6; 7]%nat -> (k < length vs)%nat) by (intros k Hk; rewrite Lv; rewrite !elem_of_cons, elem_of_nil in Hk; lia). split.
  - apply HP; [intros k s; reflexivity|exact PropCsr.key_sort_ok|exact PropSolveMesh.is_zeroR_spec|apply Q|split; [discriminate|exact Rg]|rewrite L0, Lv; reflexivity].
  - apply (HE unit (0, 0) tt 77%nat (uniform_table t1) _ (uniform_table t)) with (cell := [5; 7; 3; 8]%nat) (js := [5; 7; 3]%nat); [apply Q1| |intros k s; reflexivity|exact PropCsr.key_sort_ok|exact PropSolveMesh.is_zeroR_spec|apply Q| | | |reflexivity| |rewrite L1, Lv; reflexivity].
    + intros e y _ Hy. apply repeat_spec in Hy as ->. apply PropSolveMesh.C105_young_poisson; [right; right; reflexivity|lra|lra].
    + intros k Hk. apply Rg. rewrite !elem_of_cons, elem_of_nil in Hk. rewrite !elem_of_cons. lia.
    + apply (bool_decide_unpack _). vm_compute. exact I.
    + apply (bool_decide_unpack _). vm_compute. exact I.
    + intros j Hj. rewrite !elem_of_cons, elem_of_nil in Hj. rewrite !elem_of_cons. lia.
Qed.
(** beside C110_dirichlet: the tables of the repository and five Newton steps; a plate of 3 by 2 units of length 1/10 with four cells per unit, and a box of 3 by 2 by 1 units *)
Example C110_dirichlet_example : let tri := PropPolyquadTables.files PropPolyquadTables.Tri in let tet := PropPolyquadTables.files PropPolyquadTables.Tet in
  dirichlet_solvable 5 tri tet quad4 quad4d2_kind (quad_mesh (1 / 10) 3 2 4 (pt [-1; 7])) /\ exists m, tet_mesh (1 / 10) 3 2 1 4 = Some m /\ length (ms_cells m) = 4608%nat /\ dirichlet_solvable 5 tri tet tet4 tet4_kind m.
Proof.
  intros tri tet. destruct PropUnisolvent.C107_example as (ST & SE & _). destruct (C110_dirichlet 5 tri tet (1 / 10) 3 2 1 4 (pt [-1; 7]) (Nat.le_refl 5) ST SE) as (D1 & _ & _ & m & E & D4); [lra|lia..|]. split; [exact D1|]. exists m. split; [exact E|]. split; [|exact D4].
  destruct (C30_tet_mesh (1 / 10) 3 2 1 4) as (m' & E' & _ & L & _); [lia..|]. rewrite E in E'. injection E' as <-. rewrite L. reflexivity.
Qed.

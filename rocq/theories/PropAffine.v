(** C111: with values prescribed at boundary vertices, the nodal values in equilibrium are unique, and affine functions are reproduced exactly. *)
From stdpp Require Import base list list_numbers sets relations.
From Coq Require Import Reals Lia Lra Psatz ZArith.
From Coquelicot Require Import Coquelicot.
From Verif Require Import QuadPolyN RuleProofs.
From Verif Require Import Prelude NestedVecModel ParadisModel VectorModel VectorSpec VectorProofs ParadisSpec CsrModel CsrSpec CsrProofs CsrPattern PropVector PropCsr DirichletSpec.
From Verif Require Import ReorderModel MaterialModel EllipticModel PropMaterial PropObjective PropElliptic PropEllipticOps PropMass GlobalModel PropGlobal PropGlobalForms SolveProofs PropSolve PropBalance.
From Verif Require PropCanonical PropSolveMesh PropUnisolvent CanonicalModel PolyquadModel QuadratureModel PropPolyquadTables PropCanonicalTables.
From Verif Require Import ElementModel ElementSpec PropElement ElementSpaceModel TableModel MeshModel MeshSpec PropMesh PropBalanceMesh PropSolveSpaces ProcModel PropProc VoxelModel PatchCells PatchHex PatchHexCells PropPatch GridProofs GridLinks PropGrid TetTables TetGrid TetFaces TetLinks PropTetMesh.
Import ListNotations.
Local Open Scope R_scope.
Local Notation vec := (nat -> R).
Local Notation mat := (nat -> nat -> R).
Local Notation summ_ext := PropMaterial.summ_ext.
Local Notation el_dim := EllipticModel.el_dim.
Local Notation el_jacobian := EllipticModel.el_jacobian.
Local Notation combine := List.combine.

(** * states with the same values at some nodes and the same forces at the others are equal *)
Lemma constrained_dec nodes s r : (0 < s)%nat -> constrained nodes s r \/ ~ constrained nodes s r.
Proof.
  intros Hs. destruct (decide ((r / s)%nat ∈ nodes)) as [I|I]; [left|right].
  - exists (r / s)%nat, (r mod s)%nat. split; [exact I|]. split; [apply Nat.mod_upper_bound; lia|apply Nat.div_mod; lia].
  - intros (k & i & Hk & Hi & ->). apply I. destruct (divmod_block s k i Hi) as (-> & _). exact Hk.
Qed.
Section unique.
Context {Pt Data : Type} (origin : Pt) (default_data : Data) (umax : nat) (sp : fe_space Pt) (table : q_table Pt Data) (s : nat) (ls : list (list nat)) (w : nat -> list R) (p : nat -> list Pt) (x : nat -> list Data) (d : nat) (srt : list nat -> list nat) (ord : nat -> list nat -> list nat).
Context (op : mat -> Data -> mat) (E : mat -> Data -> R) (Z : mat -> Prop) (nodes : list nat).
Hypotheses (Hs : (0 < s)%nat) (Hmesh : regular_mesh sp table ls w p x d srt ord s) (Hw : forall e wt, (e < length ls)%nat -> In wt (w e) -> 0 < wt).
Hypothesis Hop : forall e y G G0 H, (e < length ls)%nat -> In y (x e) -> (forall k c, (k < d)%nat -> (c < s)%nat -> H k c = G k c - G0 k c) -> summ s (fun i => summ d (fun k => (op G y i k - op G0 y i k) * H k i)) = E H y.
Hypothesis HE : forall e y H, (e < length ls)%nat -> In y (x e) -> 0 <= E H y /\ (E H y = 0 -> Z H).
Hypothesis Hanch : anchored sp ls w p x s nodes Z.
Lemma equal_states u u0 vws ws vws0 ws0 f f0 : length u = (s * fs_nodes sp)%nat -> length u0 = (s * fs_nodes sp)%nat ->
  (assemble_vector Rplus 0 umax vws (elliptic_vec_asm origin default_data umax sp table s op u ws)).2 = Ok f -> (assemble_vector Rplus 0 umax vws0 (elliptic_vec_asm origin default_data umax sp table s op u0 ws0)).2 = Ok f0 ->
  (forall r, (r < s * fs_nodes sp)%nat -> constrained nodes s r -> nth r u 0 = nth r u0 0) -> (forall r, (r < s * fs_nodes sp)%nat -> ~ constrained nodes s r -> nth r f 0 = nth r f0 0) ->
  forall r, (r < s * fs_nodes sp)%nat -> nth r u 0 = nth r u0 0.
Proof using Hs Hmesh Hw Hop HE Hanch.
  intros Lu Lu0 Ef Ef0 Hc Hf r Hr. set (n := (s * fs_nodes sp)%nat) in *. set (v := as_list n (fun r => nth r u 0 - nth r u0 0)). assert (Lv : length v = n) by apply length_as_list.
  destruct (virtual_work origin default_data umax sp table s ls w p x d srt ord Hs Hmesh op vws ws u Lu) as (f' & Ef' & Lf & VW). rewrite Ef in Ef'. injection Ef' as <-. destruct (virtual_work origin default_data umax sp table s ls w p x d srt ord Hs Hmesh op vws0 ws0 u0 Lu0) as (f' & Ef' & Lf0 & VW0). rewrite Ef0 in Ef'. injection Ef' as <-.
  specialize (VW v). specialize (VW0 v). cbv zeta in VW, VW0. fold n in VW, VW0.
  assert (Hv : forall r, (r < n)%nat -> nth r v 0 = nth r u 0 - nth r u0 0) by (intros r' Hr'; unfold v; rewrite nth_as_list by exact Hr'; reflexivity).
  assert (Hdiff : summ n (fun k => nth k f 0 * nth k v 0) = summ n (fun k => nth k f0 0 * nth k v 0)).
  { apply summ_ext. intros k Hk. destruct (constrained_dec nodes s k Hs) as [C|C]; [rewrite (Hv k Hk), (Hc k Hk C); ring|rewrite (Hf k Hk C); reflexivity]. }
  assert (Hgrad : forall e pt k c, (e < length ls)%nat -> (k < d)%nat -> (c < s)%nat -> ugrad (fs_element sp e) s (local_values s v (nth e ls [])) pt k c = ugrad (fs_element sp e) s (local_values s u (nth e ls [])) pt k c - ugrad (fs_element sp e) s (local_values s u0 (nth e ls [])) pt k c).
  { intros e pt k c He Hk Hc'. pose proof (fun z Hz => gradient_values sp table s ls w p x d srt ord Hs Hmesh z e pt k c Hz He Hk Hc') as GV. cbv zeta in GV. rewrite (GV v Lv), (GV u Lu), (GV u0 Lu0). unfold Rminus. rewrite <- (Rmult_1_l (summ _ (fun I => _ * value_at s u0 _ _))), Ropp_mult_distr_l, <- summ_l, <- summ_plus.
    apply summ_ext. intros I HI. unfold value_at. rewrite Hv; [ring|]. pose proof (mesh_node_in sp table s ls w p x d srt ord Hmesh e I He HI) as Hn. cbv zeta in Hn. unfold n. nia. }
  set (H := fun e pt => ugrad (fs_element sp e) s (local_values s v (nth e ls [])) pt).
  assert (HI : mesh_integral sp (length ls) w p x (fun e pt y => E (H e pt) y) = 0).
  { transitivity (summ n (fun k => nth k f 0 * nth k v 0) + -1 * summ n (fun k => nth k f0 0 * nth k v 0)); [|rewrite Hdiff; ring]. rewrite VW, VW0. unfold mesh_integral. rewrite <- summ_l, <- summ_plus. apply summ_ext. intros e He. rewrite <- qsum_l, <- qsum_plus. apply qsum_ext. intros wt pt y Hin.
    assert (Hy : In y (x e)) by (apply List.in_combine_r, List.in_combine_r in Hin; exact Hin). rewrite <- (Hop e y (ugrad (fs_element sp e) s (local_values s u (nth e ls [])) pt) (ugrad (fs_element sp e) s (local_values s u0 (nth e ls [])) pt) (H e pt) He Hy (fun k c Hk Hc' => Hgrad e pt k c He Hk Hc')).
    set (D := wt * Rabs _). rewrite <- !summ_l. rewrite <- summ_plus. apply summ_ext. intros i _. rewrite <- !summ_l. rewrite <- summ_plus. apply summ_ext. intros k _. unfold H. ring. }
  assert (Hin' : forall e wt pt y, In (wt, (pt, y)) (combine (w e) (combine (p e) (x e))) -> In wt (w e) /\ In y (x e)) by (intros e wt pt y Hin; split; [exact (List.in_combine_l _ _ _ _ Hin)|apply List.in_combine_r, List.in_combine_r in Hin; exact Hin]).
  assert (Hnn : forall e wt pt y, (e < length ls)%nat -> In (wt, (pt, y)) (combine (w e) (combine (p e) (x e))) -> 0 <= wt * Rabs (determinant (el_dim (fs_element sp e)) (el_jacobian (fs_element sp e) pt)) * E (H e pt) y).
  { intros e wt pt y He Hin. destruct (Hin' e wt pt y Hin) as (I1 & I2). apply Rmult_le_pos; [apply Rmult_le_pos; [apply Rlt_le, (Hw e wt He I1)|apply Rabs_pos]|apply (HE e y _ He I2)]. }
  enough (V0 : nth r v 0 = 0) by (rewrite (Hv r Hr) in V0; lra). apply (Hanch v Lv); [|intros e ns wt pt y G Ens Hin HG|exact Hr].
  - intros k C. destruct (decide (k < n)%nat) as [L|L]; [rewrite (Hv k L), (Hc k L C); ring|apply nth_overflow; lia].
  - assert (He : (e < length ls)%nat) by (apply lookup_lt_Some in Ens; exact Ens). destruct Hmesh as (_ & _ & _ & _ & _ & _ & Hd & Hel). destruct (Hel e ns Ens) as (_ & Ed & Hreg). assert (EG : G = H e pt).
    { rewrite (ugrad_unique (fs_element sp e) s (local_values s v ns) pt G); [unfold H; rewrite (nth_lookup_Some _ _ _ _ Ens); reflexivity|rewrite Ed; exact Hd|exact (Hreg wt pt y Hin)|exact HG]. }
    rewrite EG. destruct (Hin' e wt pt y Hin) as (I1 & I2). apply (HE e y (H e pt) He I2). unfold mesh_integral in HI.
    pose proof (PropObjective.summ_nonneg_zero (length ls) _ (fun e He => qsum_nonneg _ _ (fun wt pt y Hin => Hnn e wt pt y He Hin)) HI e He) as Z1. cbv beta in Z1. pose proof (qsum_nonneg_zero _ _ (fun wt pt y Hin => Hnn e wt pt y He Hin) Z1 wt pt y Hin) as Z2. cbv beta in Z2.
    apply Rmult_integral in Z2 as [Z2|Z2]; [exfalso|exact Z2]. apply Rmult_integral in Z2 as [Z2|Z2]; [specialize (Hw e wt He I1); lra|]. revert Z2. apply Rabs_no_R0. exact (Hreg wt pt y Hin).
Qed.
End unique.

(** the products of stresses and gradients *)
Lemma laplace_product d (G G0 H : mat) : (forall k c, (k < d)%nat -> (c < 1)%nat -> H k c = G k c - G0 k c) -> summ 1 (fun i => summ d (fun k => (transpose (laplace_operator G) i k - transpose (laplace_operator G0) i k) * H k i)) = 2 * laplace_energy d H.
Proof.
  intros E. cbn [summ]. rewrite Rplus_0_l. unfold laplace_energy, transpose, laplace_operator. replace (2 * (1 / 2 * summ d (fun k => H k 0%nat * H k 0%nat))) with (summ d (fun k => H k 0%nat * H k 0%nat)) by field. apply summ_ext. intros k Hk. rewrite (E k 0%nat Hk) by lia. ring.
Qed.
Lemma elastic_product d mu la (G G0 H : mat) : small d -> (forall k c, (k < d)%nat -> (c < d)%nat -> H k c = G k c - G0 k c) ->
  summ d (fun i => summ d (fun k => (elliptic_operator_transpose (le_stress d mu la) G i k - elliptic_operator_transpose (le_stress d mu la) G0 i k) * H k i)) = 2 * operator_energy (le_energy d mu la) H.
Proof.
  intros Hd E. rewrite le_value. unfold strain_product, mdot, trace, strain, elliptic_operator_transpose, le_stress, madd, mscale, infinitesimal_strain, msub, symmetric_part, deformation_gradient, madd, transpose, eye, trace.
  destruct Hd as [-> | [-> | ->]]; cbn [summ Nat.eqb]; rewrite !E by lia; field.
Qed.

Section canonical.
Variables (fuel : nat) (tri tet : list PolyquadModel.entry).
Hypotheses (Hfuel : (5 <= fuel)%nat) (Htri : PropCanonicalTables.shipped PropPolyquadTables.Tri tri) (Htet : PropCanonicalTables.shipped PropPolyquadTables.Tet tet).
Local Notation rules := (CanonicalModel.canonical_stiffness (QuadratureModel.newton_root fuel) (PropCanonicalTables.table_rule PropPolyquadTables.Tri tri) (PropCanonicalTables.table_rule PropPolyquadTables.Tet tet)).
(** the forces of the Laplace operator and of linear elasticity *)
Definition laplace_forces umax el vertices cells (table : q_table point unit) u vws ws :=
  (assemble_vector Rplus 0 umax vws (elliptic_vec_asm zero_point tt umax (element_space el vertices cells) table 1 (fun G _ => transpose (laplace_operator G)) u ws)).2.
Definition elastic_forces umax params el vertices cells (table : q_table point (R * R)) u vws ws :=
  (assemble_vector Rplus 0 umax vws (elliptic_vec_asm zero_point params umax (element_space el vertices cells) table (ElementModel.el_dim el) (fun G y => elliptic_operator_transpose (le_stress (ElementModel.el_dim el) (fst y) (snd y)) G) u ws)).2.
(** C111: two functions with the same values at some nodes, to which all nodes are connected, and the same forces at the other nodes are equal *)
Theorem C111_unique_poisson el q umax vertices cells (table : q_table point unit) x nodes u u0 vws ws vws0 ws0 f f0 : In (el, Some q) rules ->
  element_cells el vertices cells -> regular_rule el vertices cells (snd q) -> reads_quadrature table (length cells) (fun _ => fst q) (fun _ => snd q) x -> (forall k, (k < length vertices)%nat -> joined cells nodes k) ->
  length u = length vertices -> length u0 = length vertices -> laplace_forces umax el vertices cells table u vws ws = Ok f -> laplace_forces umax el vertices cells table u0 vws0 ws0 = Ok f0 ->
  (forall a, (a < length vertices)%nat -> a ∈ nodes -> nth a u 0 = nth a u0 0) -> (forall a, (a < length vertices)%nat -> a ∉ nodes -> nth a f 0 = nth a f0 0) -> u = u0.
Proof using Hfuel Htri Htet.
  intros Hin Hc Hr Hq Hj Lu Lu0 Ef Ef0 Hn Hfree. destruct (PropUnisolvent.C107_stiffness fuel tri tet Hfuel Htri Htet el _ Hin) as (q' & Eq & L & Hw & HD). injection Eq as <-. pose proof (PropUnisolvent.canonical_all el (PropUnisolvent.stiffness_element_in fuel tri tet el _ Hin)) as Hel.
  assert (Hm : regular_mesh (element_space el vertices cells) table cells (fun _ => fst q) (fun _ => snd q) x (ElementModel.el_dim el) PropCsr.key_sort (fun _ l => l) 1) by (apply space_regular; try assumption; [intros k s; reflexivity|exact PropCsr.key_sort_ok|apply rule_regular, Hr]).
  assert (Hcon : forall r, constrained nodes 1 r <-> r ∈ nodes). { intros r. split; [intros (k & i & Hk & Hi & ->); replace (1 * k + i)%nat with k by lia; exact Hk|intros Hk; exists r, 0%nat; split; [exact Hk|lia]]. }
  assert (Eu : forall r, (r < length u)%nat -> nth r u 0 = nth r u0 0). 2: { apply nth_eq; [congruence|exact Eu]. }
  intros r Hr'. apply (equal_states zero_point tt umax (element_space el vertices cells) table 1 cells (fun _ => fst q) (fun _ => snd q) x (ElementModel.el_dim el) PropCsr.key_sort (fun _ l => l) (fun G _ => transpose (laplace_operator G)) (fun G _ => 2 * laplace_energy (ElementModel.el_dim el) G) (fun G => forall k, (k < ElementModel.el_dim el)%nat -> G k 0%nat = 0) nodes ltac:(lia) Hm) with (vws := vws) (ws := ws) (vws0 := vws0) (ws0 := ws0) (f := f) (f0 := f0); cbn [element_space fs_nodes]; rewrite ?Nat.mul_1_l; try assumption.
  - intros e wt _ Hi. exact (Hw wt Hi).
  - intros e y G G0 H _ _ E. apply laplace_product, E.
  - intros e y H _ _. split; [pose proof (laplace_nonneg (ElementModel.el_dim el) H); lra|]. intros Z. apply laplace_zero. lra.
  - apply (anchored_joined el vertices cells Hel Hc q table); assumption.
  - intros a Ha C. apply Hn; [exact Ha|apply Hcon, C].
  - intros a Ha C. apply Hfree; [exact Ha|]. intros Ha'. apply C, Hcon, Ha'.
  - lia.
Qed.
(** C111: the same for linear elasticity with stable materials, when the nodes pin all others *)
Theorem C111_unique_elasticity el q umax params vertices cells (table : q_table point (R * R)) x nodes u u0 vws ws vws0 ws0 f f0 : In (el, Some q) rules -> let d := ElementModel.el_dim el in
  element_cells el vertices cells -> placed el vertices cells -> affine_cells el vertices cells -> regular_rule el vertices cells (snd q) -> reads_quadrature table (length cells) (fun _ => fst q) (fun _ => snd q) x -> (forall e y, (e < length cells)%nat -> In y (x e) -> stable d y) ->
  (forall k, (k < length vertices)%nat -> pinned d (fun a => nth a vertices zero_point) cells nodes k) ->
  length u = (d * length vertices)%nat -> length u0 = (d * length vertices)%nat -> elastic_forces umax params el vertices cells table u vws ws = Ok f -> elastic_forces umax params el vertices cells table u0 vws0 ws0 = Ok f0 ->
  (forall a c, (a < length vertices)%nat -> (c < d)%nat -> a ∈ nodes -> value_at d u a c = value_at d u0 a c) -> (forall a c, (a < length vertices)%nat -> (c < d)%nat -> a ∉ nodes -> value_at d f a c = value_at d f0 a c) -> u = u0.
Proof using Hfuel Htri Htet.
  intros Hin d Hc Hp Ha Hr Hq Hst Hj Lu Lu0 Ef Ef0 Hn Hfree. destruct (PropUnisolvent.C107_stiffness fuel tri tet Hfuel Htri Htet el _ Hin) as (q' & Eq & L & Hw & HD). injection Eq as <-. pose proof (PropUnisolvent.canonical_all el (PropUnisolvent.stiffness_element_in fuel tri tet el _ Hin)) as Hel.
  assert (Hd : small d) by (apply element_small, Hel). assert (Hd0 : (0 < d)%nat) by (destruct Hd as [-> | [-> | ->]]; lia).
  assert (Hm : regular_mesh (element_space el vertices cells) table cells (fun _ => fst q) (fun _ => snd q) x d PropCsr.key_sort (fun _ l => l) d) by (apply space_regular; try assumption; [intros k s; reflexivity|exact PropCsr.key_sort_ok|apply rule_regular, Hr]).
  assert (Eu : forall r, (r < length u)%nat -> nth r u 0 = nth r u0 0). 2: { apply nth_eq; [congruence|exact Eu]. }
  intros r Hr'. apply (equal_states zero_point params umax (element_space el vertices cells) table d cells (fun _ => fst q) (fun _ => snd q) x d PropCsr.key_sort (fun _ l => l) (fun G y => elliptic_operator_transpose (le_stress d (fst y) (snd y)) G) (fun G y => 2 * operator_energy (le_energy d (fst y) (snd y)) G) (fun G => forall i j, (i < d)%nat -> (j < d)%nat -> strain G i j = 0) nodes Hd0 Hm) with (vws := vws) (ws := ws) (vws0 := vws0) (ws0 := ws0) (f := f) (f0 := f0); cbn [element_space fs_nodes]; try assumption.
  - intros e wt _ Hi. exact (Hw wt Hi).
  - intros e y G G0 H _ _ E. apply elastic_product; [exact Hd|exact E].
  - intros e y H He Hy. specialize (Hst e y He Hy). split; [pose proof (le_nonneg d y H Hd Hst); lra|]. intros Z. apply (le_zero d y); [exact Hd|exact Hst|lra].
  - apply (anchored_pinned el vertices cells Hel Hc q table); try assumption. intros v a I J HI HJ H. exact (PropUnisolvent.segment_constant fuel tri tet Hfuel Htri Htet el _ q v a I J Hin eq_refl HI HJ H).
  - intros k Hk (a & c & Hia & Hic & ->). apply Hn; [nia|exact Hic|exact Hia].
  - intros k Hk C. destruct (PropSolveMesh.split_index d k _ Hd0 Hk) as (a & c & Hia & Hic & ->). apply Hfree; [exact Hia|exact Hic|]. intros I. apply C. exists a, c. auto.
  - rewrite <- Lu. exact Hr'.
Qed.
End canonical.

(** * affine functions *)
Definition on_sides (d : nat) (lo hi X : vec) : Prop := exists c, (c < d)%nat /\ (X c = lo c \/ X c = hi c).
Definition affine_at (d : nat) (b : vec) (A : mat) (X : vec) (c : nat) : R := b c + summ d (fun k => A c k * X k).
(** nodal values [u] with forces [f] that agree with an affine function on the sides of the box and leave no force inside *)
Definition affine_on_sides (s d : nat) (m : mesh point) (lo hi : vec) (b : vec) (A : mat) (u f : list R) : Prop :=
  let X a := nth a (ms_vertices m) zero_point in let n := length (ms_vertices m) in length u = (s * n)%nat /\
  (forall a c, (a < n)%nat -> (c < s)%nat -> on_sides d lo hi (X a) -> value_at s u a c = affine_at d b A (X a) c) /\ (forall a c, (a < n)%nat -> (c < s)%nat -> ~ on_sides d lo hi (X a) -> value_at s f a c = 0).
Definition affine_all (s d : nat) (m : mesh point) (b : vec) (A : mat) (u : list R) : Prop := forall a c, (a < length (ms_vertices m))%nat -> (c < s)%nat -> value_at s u a c = affine_at d b A (nth a (ms_vertices m) zero_point) c.
(** on the mesh of a box with the rule [q]: such values exist, and agree with the affine function everywhere *)
Definition reproduces_affine (el : ElementModel.element) (q : list R * list point) (m : mesh point) (lo hi : vec) : Prop :=
  let d := ElementModel.el_dim el in forall umax b A,
  (forall (table : q_table point unit) x vws ws, reads_quadrature table (length (ms_cells m)) (fun _ => fst q) (fun _ => snd q) x ->
    (exists u f, laplace_forces umax el (ms_vertices m) (ms_cells m) table u vws ws = Ok f /\ affine_on_sides 1 d m lo hi b A u f) /\
    (forall u f, laplace_forces umax el (ms_vertices m) (ms_cells m) table u vws ws = Ok f -> affine_on_sides 1 d m lo hi b A u f -> affine_all 1 d m b A u)) /\
  (forall params (table : q_table point (R * R)) x y0 vws ws, reads_quadrature table (length (ms_cells m)) (fun _ => fst q) (fun _ => snd q) x -> stable d y0 -> (forall e y, (e < length (ms_cells m))%nat -> In y (x e) -> y = y0) ->
    (exists u f, elastic_forces umax params el (ms_vertices m) (ms_cells m) table u vws ws = Ok f /\ affine_on_sides d d m lo hi b A u f) /\
    (forall u f, elastic_forces umax params el (ms_vertices m) (ms_cells m) table u vws ws = Ok f -> affine_on_sides d d m lo hi b A u f -> affine_all d d m b A u)).
Lemma box_affine fuel tri tet el kd Sp rev q W m lo hi a0 c0 : (5 <= fuel)%nat -> PropCanonicalTables.shipped PropPolyquadTables.Tri tri -> PropCanonicalTables.shipped PropPolyquadTables.Tet tet ->
  In (el, Some q) (CanonicalModel.canonical_stiffness (QuadratureModel.newton_root fuel) (PropCanonicalTables.table_rule PropPolyquadTables.Tri tri) (PropCanonicalTables.table_rule PropPolyquadTables.Tet tet)) ->
  In (el, kd, Sp, rev) patch_types -> rules_match el Sp W (length (ms_cells m)) (fun _ => fst q) (fun _ => snd q) ->
  box_mesh el kd rev m lo hi -> kind_ok kd -> cells_of_kind kd (ms_cells m) -> faces_wide kd (ElementModel.el_dim el) -> (a0 < length (ms_vertices m))%nat -> (c0 < ElementModel.el_dim el)%nat -> nth a0 (ms_vertices m) zero_point c0 = lo c0 \/ nth a0 (ms_vertices m) zero_point c0 = hi c0 ->
  reproduces_affine el q m lo hi.
Proof.
  intros Hf Htri Htet Hin Ht Hrm B Hk Hck Hw La0 Lc0 Hx0. destruct (boundary_use el kd rev m lo hi a0 c0 B Hk Hck Hw La0 Lc0 Hx0) as (bs & cell & js & Eb & Ne & Rb & Hc & Nj & Lj & Hj).
  pose proof B as (B1 & B2 & B3 & B4 & _ & _ & _ & (bs' & Eb' & B8) & B9 & B10). rewrite Eb in Eb'. injection Eb' as <-.
  assert (Hr : regular_rule el (ms_vertices m) (ms_cells m) (snd q)) by (intros cl y Hcl _; specialize (B4 cl y Hcl); lra).
  assert (Hins : forall a, (a < length (ms_vertices m))%nat -> ~ on_sides (ElementModel.el_dim el) lo hi (nth a (ms_vertices m) zero_point) -> forall k, (k < ElementModel.el_dim el)%nat -> lo k < nth a (ms_vertices m) zero_point k < hi k).
  { intros a La Hn k Hkd. pose proof B as (_ & _ & _ & _ & _ & _ & B7 & _). specialize (B7 a k La Hkd). cbv zeta in B7. split; destruct (Req_dec (nth a (ms_vertices m) zero_point k) (lo k)) as [E|E], (Req_dec (nth a (ms_vertices m) zero_point k) (hi k)) as [E'|E']; try (exfalso; apply Hn; exists k; auto; fail); lra. }
  intros umax b A. split.
  - intros table x vws ws Hq. set (d := ElementModel.el_dim el) in *. set (u0 := nodal 1 (length (ms_vertices m)) (fun a c => affine_at d b A (nth a (ms_vertices m) zero_point) c)).
    assert (V : forall a c, (a < length (ms_vertices m))%nat -> (c < 1)%nat -> value_at 1 u0 a c = affine_at d b A (nth a (ms_vertices m) zero_point) c) by (intros a c Ha Hc'; exact (value_nodal _ _ _ a c Ha Hc')).
    assert (V1 : forall (v : list R) a, value_at 1 v a 0%nat = nth a v 0) by (intros v a; unfold value_at; f_equal; lia).
    assert (L0 : length u0 = (1 * length (ms_vertices m))%nat) by apply length_nodal.
    destruct (C109_patch zero_point tt umax el kd Sp rev m lo hi table 1 _ _ x W tt A b u0 (fun G _ => transpose (laplace_operator G)) vws ws B Ht Nat.lt_0_1 Hq Hrm ltac:(intros e [] _ _; reflexivity) L0 V) as (f0 & Ef0 & Lf0 & Z0).
    split; [exists u0, f0; split; [exact Ef0|]; split; [exact L0|]; split; [intros a c Ha Hc' _; apply V; assumption|intros a c Ha Hc' No; apply Z0; [exact Ha|exact Hc'|exact (Hins a Ha No)]]|]. intros u f Ef (Lu & Hs & Hfree).
    assert (E : u = u0). 2: { intros a c Ha Hc'. rewrite E. apply V; assumption. }
    apply (C111_unique_poisson fuel tri tet Hf Htri Htet el q umax (ms_vertices m) (ms_cells m) table x bs u u0 vws ws vws ws f f0); try assumption.
    + intros k Hkn. destruct bs as [|b0 bs0]; [elim Ne; reflexivity|]. apply (B9 _ b0); [left|apply Rb; left|exact Hkn].
    + rewrite Lu. lia.
    + rewrite L0. lia.
    + intros a Ha Hab. rewrite <- (V1 u), (Hs a 0%nat Ha Nat.lt_0_1) by (apply (B8 a Ha), Hab). rewrite <- (V1 u0). symmetry. apply V; [exact Ha|lia].
    + intros a Ha Hab. assert (No : ~ on_sides d lo hi (nth a (ms_vertices m) zero_point)) by (intros O; apply Hab, (B8 a Ha), O). rewrite <- (V1 f), (Hfree a 0%nat Ha Nat.lt_0_1 No), <- (V1 f0). symmetry. apply Z0; [exact Ha|lia|]. exact (Hins a Ha No).
  - intros params table x y0 vws ws Hq Hst Hy. set (d := ElementModel.el_dim el) in *. set (u0 := nodal d (length (ms_vertices m)) (fun a c => affine_at d b A (nth a (ms_vertices m) zero_point) c)).
    assert (V : forall a c, (a < length (ms_vertices m))%nat -> (c < d)%nat -> value_at d u0 a c = affine_at d b A (nth a (ms_vertices m) zero_point) c) by (intros a c Ha Hc'; exact (value_nodal _ _ _ a c Ha Hc')).
    assert (L0 : length u0 = (d * length (ms_vertices m))%nat) by apply length_nodal. assert (Hd0 : (0 < d)%nat) by lia.
    destruct (C109_patch zero_point params umax el kd Sp rev m lo hi table d _ _ x W y0 A b u0 (fun G y => elliptic_operator_transpose (le_stress d (fst y) (snd y)) G) vws ws B Ht Hd0 Hq Hrm Hy L0 V) as (f0 & Ef0 & Lf0 & Z0).
    split; [exists u0, f0; split; [exact Ef0|]; split; [exact L0|]; split; [intros a c Ha Hc' _; apply V; assumption|intros a c Ha Hc' No; apply Z0; [exact Ha|exact Hc'|exact (Hins a Ha No)]]|]. intros u f Ef (Lu & Hs & Hfree).
    assert (E : u = u0). 2: { intros a c Ha Hc'. rewrite E. apply V; assumption. }
    apply (C111_unique_elasticity fuel tri tet Hf Htri Htet el q umax params (ms_vertices m) (ms_cells m) table x bs u u0 vws ws vws ws f f0); try assumption.
    + intros e y He Hiy. rewrite (Hy e y He Hiy). exact Hst.
    + intros k Hkn. exact (B10 bs cell js k Hc Nj Lj Hj Hkn).
    + intros a c Ha Hc' Hab. fold d in Hc' |- *. rewrite (Hs a c Ha Hc') by (apply (B8 a Ha), Hab). symmetry. apply V; assumption.
    + intros a c Ha Hc' Hab. fold d in Hc' |- *. assert (No : ~ on_sides d lo hi (nth a (ms_vertices m) zero_point)) by (intros O; apply Hab, (B8 a Ha), O). rewrite (Hfree a c Ha Hc' No). symmetry. apply Z0; [exact Ha|exact Hc'|]. exact (Hins a Ha No).
Qed.
(** a rule of positive weights matches the constants, up to a factor *)
Lemma constant_match el dim q n : PropCanonical.over_reference el (monomial (0, 0, 0)%nat) <> 0 -> rules_match el (total_degree dim 0) (QuadratureModel.rule_integrate q (monomial (0, 0, 0)%nat) / PropCanonical.over_reference el (monomial (0, 0, 0)%nat)) n (fun _ => fst q) (fun _ => snd q).
Proof.
  intros Hn e mm _ Hm. assert (mm = (0, 0, 0)%nat) as ->. { destruct mm as ((i, j), k). unfold total_degree in Hm. cbn [fst snd] in Hm. destruct Hm as (H & _). assert (i = 0 /\ j = 0 /\ k = 0)%nat as (-> & -> & ->) by lia. reflexivity. }
  destruct q as (w, p). cbn [fst snd]. field. exact Hn.
Qed.
Lemma triangle_volume : PropCanonical.over_reference tri3 (monomial (0, 0, 0)%nat) <> 0.
Proof.
  change (PropCanonical.over_reference tri3 (monomial (0, 0, 0)%nat)) with (on_triangle (monomial (0, 0, 0)%nat)). rewrite triangle_centre; [unfold centre_triangle, total, monomial, pt; cbn; lra|].
  apply (Poly_ext _ (fun x => 1 * monomial (0, 0, 0)%nat x)); [intros; ring|]. apply Poly_monomial. unfold total_degree. cbn. lia.
Qed.
Lemma tetrahedron_volume : PropCanonical.over_reference tet4 (monomial (0, 0, 0)%nat) <> 0.
Proof.
  change (PropCanonical.over_reference tet4 (monomial (0, 0, 0)%nat)) with (on_tetrahedron (monomial (0, 0, 0)%nat)). rewrite tetrahedron_centre; [unfold centre_tetrahedron, total, monomial, pt; cbn; lra|].
  apply (Poly_ext _ (fun x => 1 * monomial (0, 0, 0)%nat x)); [intros; ring|]. apply Poly_monomial. unfold total_degree. cbn. lia.
Qed.
(** C111: on uniform triangle meshes of rectangles and uniform tetrahedral meshes of boxes, with the quadrature that the mesh chooses, affine functions are reproduced exactly *)
Theorem C111_affine fuel tri tet u ux uy uz n tl : (5 <= fuel)%nat -> PropCanonicalTables.shipped PropPolyquadTables.Tri tri -> PropCanonicalTables.shipped PropPolyquadTables.Tet tet ->
  0 < u -> (0 < ux)%nat -> (0 < uy)%nat -> (0 < uz)%nat -> (0 < n)%nat ->
  let rules := CanonicalModel.canonical_stiffness (QuadratureModel.newton_root fuel) (PropCanonicalTables.table_rule PropPolyquadTables.Tri tri) (PropCanonicalTables.table_rule PropPolyquadTables.Tet tet) in
  (exists m q, split_into_triangles (quad_mesh u ux uy n tl) = Some m /\ In (tri3, Some q) rules /\ reproduces_affine tri3 q m (pt [tl 0%nat; tl 1%nat - INR uy * u]) (pt [tl 0%nat + INR ux * u; tl 1%nat])) /\
  (exists m q, tet_mesh u ux uy uz n = Some m /\ In (tet4, Some q) rules /\ reproduces_affine tet4 q m (pt [0; 0; 0]) (pt [INR ux * u; INR uy * u; INR uz * u])).
Proof.
  intros Hf Htri Htet Hu Hx Hy Hz Hn rules. destruct faces_wide_ok as (_ & W2 & _ & W4). assert (K := kinds_ok). rewrite Forall_forall in K. split.
  - destruct (quad_mesh_parts u ux uy n tl Hn Hx Hy) as (vs & Em & L & Hv). specialize (Hv 0%nat 0%nat ltac:(lia) ltac:(lia)). replace (V2 (ux * n) 0 0) with 0%nat in Hv by (unfold V2; lia). assert (X0 : nth 0 vs zero_point 0%nat = tl 0%nat) by (rewrite Hv; unfold pt; cbn [nth INR]; lra). assert (L0 : (0 < length vs)%nat) by lia.
    destruct (C109_tri_mesh u ux uy n tl Hu Hx Hy Hn) as (m & Es & B). assert (Ev : ms_vertices m = vs). { rewrite Em in Es. unfold split_into_triangles in Es. cbn [ms_vertices ms_cells] in Es. destruct (mapM _ _) as [ts|]; [|discriminate]. injection Es as <-. reflexivity. }
    assert (I1 : exists oq, In (tri3, oq) rules) by (eexists; left; reflexivity). destruct I1 as (oq & I1). destruct (PropUnisolvent.C107_stiffness fuel tri tet Hf Htri Htet tri3 oq I1) as (q & -> & _). exists m, q. split; [exact Es|]. split; [exact I1|].
    refine (box_affine _ _ _ _ _ _ _ _ _ _ _ _ 0%nat 0%nat Hf Htri Htet I1 _ (constant_match tri3 2 q _ triangle_volume) B _ _ W2 _ Nat.lt_0_2 _); [left; reflexivity|apply K; unfold all_kinds; member|apply Forall_forall; intros e He; apply (proj1 B e He)|rewrite Ev; exact L0|left; rewrite Ev; exact X0].
  - destruct (C110_tet_mesh u ux uy uz n Hu Hx Hy Hz Hn) as (m & Em & B). destruct (tet_mesh_parts u ux uy uz n Hn Hx Hy Hz) as (vs & Em' & Lv & Hv). rewrite Em in Em'. injection Em' as ->. cbv zeta in Hv.
    assert (I0 : inside (ux * n) (uy * n) (uz * n) (false, (0, 0, 0)%nat)) by (cbn; unfold px, py, pz; cbn; lia). assert (N0 : node (ux * n) (uy * n) (uz * n) (false, (0, 0, 0)%nat) = 0%nat) by (unfold node; cbn [fst]; rewrite corner_index; unfold V3, px, py, pz; cbn [fst snd]; lia).
    specialize (Hv _ I0). rewrite N0 in Hv. assert (L0 : (0 < length vs)%nat) by (rewrite Lv; unfold corners_number; nia). assert (X0 : nth 0 vs zero_point 0%nat = 0) by (rewrite Hv; unfold pt, half, px; cbn [nth fst snd INR]; lra).
    assert (I1 : exists oq, In (tet4, oq) rules) by (eexists; do 4 right; left; reflexivity). destruct I1 as (oq & I1). destruct (PropUnisolvent.C107_stiffness fuel tri tet Hf Htri Htet tet4 oq I1) as (q & -> & _). eexists _, q. split; [exact Em|]. split; [exact I1|].
    refine (box_affine _ _ _ _ _ _ _ _ _ _ _ _ 0%nat 0%nat Hf Htri Htet I1 _ (constant_match tet4 3 q _ tetrahedron_volume) B _ _ W4 L0 (Nat.lt_0_succ 2) _); [do 4 right; left; reflexivity|apply K; unfold all_kinds; member|apply Forall_forall; intros e He; apply (proj1 B e He)|left; exact X0].
Qed.
Print Assumptions C111_unique_poisson.
Print Assumptions C111_unique_elasticity.
Print Assumptions C111_affine.
(** beside C111: a sheet of eight triangles on the unit square with the tables of the repository. If the nodes on its sides carry the values of [1 + 2 x + 3 y] and the node at the centre is in equilibrium, its value is 7/2; if a plate of steel is sheared at its sides, its centre moves by 1/8 *)
Example C111_example umax vws ws vws1 ws1 : let rules := CanonicalModel.canonical_stiffness (QuadratureModel.newton_root 5) (PropCanonicalTables.table_rule PropPolyquadTables.Tri (PropPolyquadTables.files PropPolyquadTables.Tri)) (PropCanonicalTables.table_rule PropPolyquadTables.Tet (PropPolyquadTables.files PropPolyquadTables.Tet)) in
  let steel := lame_from_young_poisson 210 (3/10) in let b := pt (1 :: []) in let A : mat := fun c => pt [2; 3] in let b1 := pt [0; 0] in let A1 : mat := fun c => nth c [pt [0; 1/4]; pt [0; 0]] zero_point in
  exists m q t t1, unit_square_tri_mesh 2 = Some m /\ length (ms_vertices m) = 9%nat /\ In (tri3, Some q) rules /\ uniform_from_quadrature q tt = Ok t /\ uniform_from_quadrature q steel = Ok t1 /\
  ~ on_sides 2 (pt [0; 0]) (pt [1; 1]) (nth 4 (ms_vertices m) zero_point) /\ on_sides 2 (pt [0; 0]) (pt [1; 1]) (nth 3 (ms_vertices m) zero_point) /\
  (exists u f, laplace_forces umax tri3 (ms_vertices m) (ms_cells m) (uniform_table t) u vws ws = Ok f /\ affine_on_sides 1 2 m (pt [0; 0]) (pt [1; 1]) b A u f) /\
  (forall u f, laplace_forces umax tri3 (ms_vertices m) (ms_cells m) (uniform_table t) u vws ws = Ok f -> affine_on_sides 1 2 m (pt [0; 0]) (pt [1; 1]) b A u f -> nth 4 u 0 = 7 / 2) /\
  (exists u f, elastic_forces umax (0, 0) tri3 (ms_vertices m) (ms_cells m) (uniform_table t1) u vws1 ws1 = Ok f /\ affine_on_sides 2 2 m (pt [0; 0]) (pt [1; 1]) b1 A1 u f) /\
  (forall u f, elastic_forces umax (0, 0) tri3 (ms_vertices m) (ms_cells m) (uniform_table t1) u vws1 ws1 = Ok f -> affine_on_sides 2 2 m (pt [0; 0]) (pt [1; 1]) b1 A1 u f -> nth 8 u 0 = 1 / 8 /\ nth 9 u 0 = 0).
Proof.
  intros rules steel b A b1 A1. destruct PropUnisolvent.C107_example as (ST & SE & _). destruct (C111_affine 5 _ _ 1 1 1 1 2 (pt [0; 1]) (Nat.le_refl 5) ST SE) as ((m & q & Em & Hin & H) & _); [lra|lia..|].
  destruct (PropUnisolvent.C107_stiffness 5 _ _ (Nat.le_refl 5) ST SE tri3 _ Hin) as (q' & Eq & L & _). injection Eq as <-. destruct (reads_uniform q tt L) as (t & Et & Q). destruct (reads_uniform q steel L) as (t1 & Et1 & Q1). exists m, q, t, t1.
  destruct (quad_mesh_parts 1 1 1 2 (pt [0; 1])) as (vs & Eq & Lv & Hv); [lia..|]. rewrite Eq in Em. assert (Ev : ms_vertices m = vs). { unfold split_into_triangles in Em. cbn [ms_vertices ms_cells] in Em. destruct (mapM _ _) as [ts|]; [|discriminate]. injection Em as <-. reflexivity. }
  change (length vs = 9%nat) in Lv. pose proof (Hv 1%nat 1%nat ltac:(lia) ltac:(lia)) as V4. pose proof (Hv 0%nat 1%nat ltac:(lia) ltac:(lia)) as V3. change (V2 (1 * 2) 1 1) with 4%nat in V4. change (V2 (1 * 2) 0 1) with 3%nat in V3.
  assert (X4 : nth 4 vs zero_point 0%nat = 1 / 2 /\ nth 4 vs zero_point 1%nat = 1 / 2) by (rewrite V4; unfold pt; cbn; lra). assert (X3 : nth 3 vs zero_point 0%nat = 0) by (rewrite V3; unfold pt; cbn; lra). destruct X4 as (X40 & X41).
  assert (Elo : forall X, on_sides 2 (pt [pt [0; 1] 0%nat; pt [0; 1] 1%nat - INR 1 * 1]) (pt [pt [0; 1] 0%nat + INR 1 * 1; pt [0; 1] 1%nat]) X <-> on_sides 2 (pt [0; 0]) (pt [1; 1]) X).
  { intros X. split; intros (c & Hc & E); exists c; (split; [exact Hc|]); assert (c = 0 \/ c = 1)%nat as [->| ->] by lia; unfold pt in *; cbn in *; lra. }
  assert (Es : forall s b A u f, affine_on_sides s 2 m (pt [pt [0; 1] 0%nat; pt [0; 1] 1%nat - INR 1 * 1]) (pt [pt [0; 1] 0%nat + INR 1 * 1; pt [0; 1] 1%nat]) b A u f <-> affine_on_sides s 2 m (pt [0; 0]) (pt [1; 1]) b A u f).
  { intros. unfold affine_on_sides. cbv zeta. split; intros (E1 & E2 & E3); (split; [exact E1|]); (split; [intros a c Ha Hc O; apply E2; [exact Ha|exact Hc|apply Elo, O]|intros a c Ha Hc O; apply E3; [exact Ha|exact Hc|intros O'; apply O, Elo, O']]). }
  split; [unfold unit_square_tri_mesh, unit_square_quad_mesh; rewrite <- Em, Eq; reflexivity|]. split; [rewrite Ev; exact Lv|]. split; [exact Hin|]. split; [exact Et|]. split; [exact Et1|].
  split. { rewrite Ev. intros (c & Hc & E). assert (c = 0 \/ c = 1)%nat as [->| ->] by lia; rewrite ?X40, ?X41 in E; unfold pt in E; cbn in E; lra. }
  split. { rewrite Ev. exists 0%nat. split; [lia|]. left. rewrite X3. reflexivity. }
  destruct (H umax b A) as (HP & _). destruct (HP (uniform_table t) _ vws ws (Q _)) as ((u & f & Ef & Hs) & U). split; [exists u, f; split; [exact Ef|apply Es, Hs]|]. split.
  { clear u f Ef Hs. intros u f Ef Hs. specialize (U u f Ef (proj2 (Es _ _ _ _ _) Hs) 4%nat 0%nat). rewrite Ev, Lv in U. specialize (U ltac:(lia) ltac:(lia)). unfold value_at, affine_at, A, b in U. cbn [summ ElementModel.el_dim tri3] in U. change (1 * 4 + 0)%nat with 4%nat in U. rewrite U. cbn [summ]. rewrite X40, X41. unfold pt. cbn. lra. }
  clear HP U u f Ef Hs. destruct (H umax b1 A1) as (_ & HE). destruct (HE (0, 0) (uniform_table t1) _ steel vws1 ws1 (Q1 _)) as ((u & f & Ef & Hs) & U); [apply PropSolveMesh.C105_young_poisson; [right; left; reflexivity|lra|lra]|intros e y _ Hy; apply repeat_spec in Hy; exact Hy|]. split; [exists u, f; split; [exact Ef|apply Es, Hs]|].
  clear u f Ef Hs. intros u f Ef Hs. specialize (U u f Ef (proj2 (Es _ _ _ _ _) Hs)). split.
  - specialize (U 4%nat 0%nat). rewrite Ev, Lv in U. specialize (U ltac:(lia) ltac:(cbn; lia)). unfold value_at, affine_at, A1, b1 in U. cbn [ElementModel.el_dim tri3] in U. change (2 * 4 + 0)%nat with 8%nat in U. rewrite U. cbn [summ]. rewrite X40, X41. unfold pt. cbn. lra.
  - specialize (U 4%nat 1%nat). rewrite Ev, Lv in U. specialize (U ltac:(lia) ltac:(cbn; lia)). unfold value_at, affine_at, A1, b1 in U. cbn [ElementModel.el_dim tri3] in U. change (2 * 4 + 1)%nat with 9%nat in U. rewrite U. cbn [summ]. rewrite X40, X41. unfold pt. cbn. lra.
Qed.

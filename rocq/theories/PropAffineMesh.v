(** C111 for triangle and tetrahedral meshes of any shape: nodal values that agree with an affine function at the boundary vertices and are in equilibrium agree with it everywhere. *)
From stdpp Require Import base list list_numbers sets relations.
From Coq Require Import Reals Lia Lra Psatz ZArith.
From Coquelicot Require Import Coquelicot.
From Verif Require Import QuadPolyN RuleProofs.
From Verif Require Import Prelude NestedVecModel ParadisModel VectorModel VectorSpec VectorProofs ParadisSpec CsrModel CsrSpec CsrProofs CsrPattern PropVector PropCsr DirichletSpec.
From Verif Require Import ReorderModel MaterialModel EllipticModel PropMaterial PropObjective PropElliptic PropEllipticOps PropMass GlobalModel PropGlobal PropGlobalForms SolveProofs PropSolve PropBalance.
From Verif Require PropCanonical PropSolveMesh PropUnisolvent CanonicalModel PolyquadModel QuadratureModel PropPolyquadTables PropCanonicalTables.
From Verif Require Import ElementModel ElementSpec PropElement ElementSpaceModel TableModel MeshModel MeshSpec PropMesh PropBalanceMesh PropSolveSpaces PatchCells PropPatch PropAffine.
Import ListNotations.
Local Open Scope R_scope.
Local Notation vec := (nat -> R).
Local Notation mat := (nat -> nat -> R).
Local Notation combine := List.combine.

(** [u] with forces [f] agrees with an affine function at [nodes] and leaves no force elsewhere *)
Definition affine_on (nodes : list nat) (s d : nat) (vertices : list point) (b : vec) (A : mat) (u f : list R) : Prop :=
  let X a := nth a vertices zero_point in let n := length vertices in length u = (s * n)%nat /\
  (forall a c, (a < n)%nat -> (c < s)%nat -> a ∈ nodes -> value_at s u a c = affine_at d b A (X a) c) /\ (forall a c, (a < n)%nat -> (c < s)%nat -> a ∉ nodes -> value_at s f a c = 0).
Definition affine_everywhere (s d : nat) (vertices : list point) (b : vec) (A : mat) (u : list R) : Prop := forall a c, (a < length vertices)%nat -> (c < s)%nat -> value_at s u a c = affine_at d b A (nth a vertices zero_point) c.
Definition simplex_types : list (ElementModel.element * conn_kind * list (list nat)) := [(tri3, tri3d2_kind, edge2_reversals); (tet4, tet4_kind, tri3_reversals)].
Lemma simplex_parts el kd rev : In (el, kd, rev) simplex_types -> exists dim, In (el, kd, total_degree dim 0, rev) patch_types /\ PropCanonical.over_reference el (monomial (0, 0, 0)%nat) <> 0 /\ In el [tri3; tri6; tet4; tet10; tet20] /\ In el all_elements.
Proof.
  intros [E|[E|[]]]; injection E as <- <- <-.
  - exists 2%nat. split; [left; reflexivity|]. split; [exact triangle_volume|]. split; [left; reflexivity|]. right. left. reflexivity.
  - exists 3%nat. split; [do 4 right; left; reflexivity|]. split; [exact tetrahedron_volume|]. split; [do 2 right; left; reflexivity|]. cbn. tauto.
Qed.
Theorem C111_affine_mesh fuel tri tet el kd rev q vertices cells bs umax b A : (5 <= fuel)%nat -> PropCanonicalTables.shipped PropPolyquadTables.Tri tri -> PropCanonicalTables.shipped PropPolyquadTables.Tet tet ->
  In (el, Some q) (CanonicalModel.canonical_stiffness (QuadratureModel.newton_root fuel) (PropCanonicalTables.table_rule PropPolyquadTables.Tri tri) (PropCanonicalTables.table_rule PropPolyquadTables.Tet tet)) ->
  In (el, kd, rev) simplex_types -> let d := ElementModel.el_dim el in let X a := nth a vertices zero_point in
  element_cells el vertices cells -> oriented kd cells rev -> (forall cell x, cell ∈ cells -> In x (snd q) -> 0 < determinant d (ElementModel.el_jacobian el (map X cell) x)) -> find_boundary_vertices kd cells = Some bs ->
  ((forall k, (k < length vertices)%nat -> joined cells bs k) -> forall (table : q_table point unit) x vws ws, reads_quadrature table (length cells) (fun _ => fst q) (fun _ => snd q) x ->
    (exists u f, laplace_forces umax el vertices cells table u vws ws = Ok f /\ affine_on bs 1 d vertices b A u f) /\
    (forall u f, laplace_forces umax el vertices cells table u vws ws = Ok f -> affine_on bs 1 d vertices b A u f -> affine_everywhere 1 d vertices b A u)) /\
  ((forall k, (k < length vertices)%nat -> pinned d X cells bs k) -> forall params (table : q_table point (R * R)) x y0 vws ws, reads_quadrature table (length cells) (fun _ => fst q) (fun _ => snd q) x -> stable d y0 -> (forall e y, (e < length cells)%nat -> In y (x e) -> y = y0) ->
    (exists u f, elastic_forces umax params el vertices cells table u vws ws = Ok f /\ affine_on bs d d vertices b A u f) /\
    (forall u f, elastic_forces umax params el vertices cells table u vws ws = Ok f -> affine_on bs d d vertices b A u f -> affine_everywhere d d vertices b A u)).
Proof.
  intros Hf Htri Htet Hin Ht d X B1 Ho B4 Eb. destruct (simplex_parts el kd rev Ht) as (dim & Hp & Hvol & Hsim & Hall). pose proof (constant_match el dim q (length cells) Hvol) as Hrm.
  assert (B2 : placed el vertices cells) by (apply (C106_spaces el vertices cells ex_centre (fun _ => []) (fun _ => []) (fun _ => []) PropCsr.key_sort (fun _ l => l) 1%nat); [exact Hall|exact B1|destruct Ht as [E|[E|[]]]; injection E as <- <- <-; reflexivity]).
  assert (B3 : affine_cells el vertices cells) by (apply C107_simplices; assumption).
  assert (Hr : regular_rule el vertices cells (snd q)) by (intros cl y Hcl Hy; apply Rgt_not_eq, B4; assumption).
  assert (Hpos : forall Data (x : nat -> list Data), positive_cells el vertices cells (fun _ => fst q) (fun _ => snd q) x).
  { intros Data x e cell wt y z He Hi. apply B4; [exact (elem_of_list_lookup_2 _ _ _ He)|]. apply in_combine_r in Hi. apply in_combine_l in Hi. exact Hi. }
  split.
  - intros Hj table x vws ws Hq. set (u0 := nodal 1 (length vertices) (fun a c => affine_at d b A (X a) c)).
    assert (V : forall a c, (a < length vertices)%nat -> (c < 1)%nat -> value_at 1 u0 a c = affine_at d b A (X a) c) by (intros a c Ha Hc'; exact (value_nodal _ _ _ a c Ha Hc')).
    assert (V1 : forall (v : list R) a, value_at 1 v a 0%nat = nth a v 0) by (intros v a; unfold value_at; f_equal; lia).
    assert (L0 : length u0 = (1 * length vertices)%nat) by apply length_nodal.
    destruct (C108_patch zero_point tt umax el kd _ rev vertices cells table 1 _ _ x _ tt A b u0 (fun G _ => transpose (laplace_operator G)) vws ws Hp Nat.lt_0_1 B1 B2 Ho (Hpos _ x) Hq Hrm ltac:(intros e [] _ _; reflexivity) L0 V) as (f0 & bs' & Ef0 & Lf0 & Eb' & Z0). rewrite Eb in Eb'. injection Eb' as <-.
    split; [exists u0, f0; split; [exact Ef0|]; split; [exact L0|]; split; [intros a c Ha Hc' _; apply V; assumption|exact Z0]|]. intros u f Ef (Lu & Hs & Hfree).
    assert (E : u = u0). 2: { intros a c Ha Hc'. rewrite E. apply V; assumption. }
    apply (C111_unique_poisson fuel tri tet Hf Htri Htet el q umax vertices cells table x bs u u0 vws ws vws ws f f0); try assumption.
    + rewrite Lu. lia.
    + rewrite L0. lia.
    + intros a Ha Hab. rewrite <- (V1 u), (Hs a 0%nat Ha Nat.lt_0_1 Hab), <- (V1 u0). symmetry. apply V; [exact Ha|lia].
    + intros a Ha Hab. rewrite <- (V1 f), (Hfree a 0%nat Ha Nat.lt_0_1 Hab), <- (V1 f0). symmetry. apply Z0; [exact Ha|lia|exact Hab].
  - intros Hj params table x y0 vws ws Hq Hst Hy. set (u0 := nodal d (length vertices) (fun a c => affine_at d b A (X a) c)).
    assert (V : forall a c, (a < length vertices)%nat -> (c < d)%nat -> value_at d u0 a c = affine_at d b A (X a) c) by (intros a c Ha Hc'; exact (value_nodal _ _ _ a c Ha Hc')).
    assert (L0 : length u0 = (d * length vertices)%nat) by apply length_nodal. assert (Hd0 : (0 < d)%nat) by (unfold d; destruct Ht as [E|[E|[]]]; injection E as <- <- <-; cbn; lia).
    destruct (C108_patch zero_point params umax el kd _ rev vertices cells table d _ _ x _ y0 A b u0 (fun G y => elliptic_operator_transpose (le_stress d (fst y) (snd y)) G) vws ws Hp Hd0 B1 B2 Ho (Hpos _ x) Hq Hrm Hy L0 V) as (f0 & bs' & Ef0 & Lf0 & Eb' & Z0). rewrite Eb in Eb'. injection Eb' as <-.
    split; [exists u0, f0; split; [exact Ef0|]; split; [exact L0|]; split; [intros a c Ha Hc' _; apply V; assumption|exact Z0]|]. intros u f Ef (Lu & Hs & Hfree).
    assert (E : u = u0). 2: { intros a c Ha Hc'. rewrite E. apply V; assumption. }
    apply (C111_unique_elasticity fuel tri tet Hf Htri Htet el q umax params vertices cells table x bs u u0 vws ws vws ws f f0); try assumption.
    + intros e y He Hiy. rewrite (Hy e y He Hiy). exact Hst.
    + intros a c Ha Hc' Hab. fold d in Hc' |- *. rewrite (Hs a c Ha Hc' Hab). symmetry. apply V; assumption.
    + intros a c Ha Hc' Hab. fold d in Hc' |- *. rewrite (Hfree a c Ha Hc' Hab). symmetry. apply Z0; assumption.
Qed.
Print Assumptions C111_affine_mesh.
(** beside C111_affine_mesh: four triangles around the node 4 at (1/2, 1/4); with the values of [1 + 2 x + 3 y] at the corners, equilibrium gives 11/4 at this node, and a plate of steel that is sheared at its corners moves there by 1/16 *)
Example C111_affine_mesh_example umax vws ws vws1 ws1 : let rules := CanonicalModel.canonical_stiffness (QuadratureModel.newton_root 5) (PropCanonicalTables.table_rule PropPolyquadTables.Tri (PropPolyquadTables.files PropPolyquadTables.Tri)) (PropCanonicalTables.table_rule PropPolyquadTables.Tet (PropPolyquadTables.files PropPolyquadTables.Tet)) in
  let steel := lame_from_young_poisson 210 (3/10) in let b := pt (1 :: []) in let A : mat := fun c => pt [2; 3] in let b1 := pt [0; 0] in let A1 : mat := fun c => nth c [pt [0; 1/4]; pt [0; 0]] zero_point in
  exists q t t1, In (tri3, Some q) rules /\ uniform_from_quadrature q tt = Ok t /\ uniform_from_quadrature q steel = Ok t1 /\
  (exists u f, laplace_forces umax tri3 ex_square ex_fan (uniform_table t) u vws ws = Ok f /\ affine_on [0; 1; 2; 3]%nat 1 2 ex_square b A u f) /\
  (forall u f, laplace_forces umax tri3 ex_square ex_fan (uniform_table t) u vws ws = Ok f -> affine_on [0; 1; 2; 3]%nat 1 2 ex_square b A u f -> nth 4 u 0 = 11 / 4) /\
  (exists u f, elastic_forces umax (0, 0) tri3 ex_square ex_fan (uniform_table t1) u vws1 ws1 = Ok f /\ affine_on [0; 1; 2; 3]%nat 2 2 ex_square b1 A1 u f) /\
  (forall u f, elastic_forces umax (0, 0) tri3 ex_square ex_fan (uniform_table t1) u vws1 ws1 = Ok f -> affine_on [0; 1; 2; 3]%nat 2 2 ex_square b1 A1 u f -> nth 8 u 0 = 1 / 16 /\ nth 9 u 0 = 0).
Proof.
  intros rules steel b A b1 A1. destruct PropUnisolvent.C107_example as (ST & SE & _). destruct C108_example as (_ & Hc & _ & Ho & _ & _ & _ & Eb).
  assert (I1 : exists oq, In (tri3, oq) rules) by (eexists; left; reflexivity). destruct I1 as (oq & I1). destruct (PropUnisolvent.C107_stiffness 5 _ _ (Nat.le_refl 5) ST SE tri3 oq I1) as (q & -> & L & _). destruct (reads_uniform q tt L) as (t & Et & Q). destruct (reads_uniform q steel L) as (t1 & Et1 & Q1).
  exists q, t, t1. split; [exact I1|]. split; [exact Et|]. split; [exact Et1|].
  assert (Hpos : forall cell x, cell ∈ ex_fan -> In x (snd q) -> 0 < determinant (ElementModel.el_dim tri3) (ElementModel.el_jacobian tri3 (map (fun a => nth a ex_square zero_point) cell) x)).
  { intros cell x Hcell _. apply elem_of_list_In in Hcell. cbn in Hcell. repeat (destruct Hcell as [<-|Hcell]; [cbn; unfold pt; cbn; lra|]). destruct Hcell. }
  assert (H4 : forall k, (k < length ex_square)%nat -> k ∈ [0; 1; 2; 3]%nat \/ k = 4%nat) by (intros k Hk; cbn in Hk; rewrite !elem_of_cons; lia).
  assert (J : forall k, (k < length ex_square)%nat -> joined ex_fan [0; 1; 2; 3]%nat k).
  { intros k Hk. destruct (H4 k Hk) as [I| ->]; [apply joined_fixed, I|]. apply (joined_cell _ _ [0; 1; 4]%nat 0%nat); [left|left|do 2 right; left|apply joined_fixed; left]. }
  assert (Pn : forall k, (k < length ex_square)%nat -> pinned 2 (fun a => nth a ex_square zero_point) ex_fan [0; 1; 2; 3]%nat k).
  { intros k Hk. destruct (H4 k Hk) as [I| ->]; [apply pinned_fixed, I|]. apply (pinned_links _ _ _ _ _ [0; 1]%nat).
    - intros j Hj. apply pinned_fixed. rewrite !elem_of_cons, elem_of_nil in Hj. rewrite !elem_of_cons. lia.
    - intros j Hj. exists [0; 1; 4]%nat. split; [left|]. split; [rewrite !elem_of_cons, elem_of_nil in Hj; rewrite !elem_of_cons; lia|do 2 right; left].
    - intros a Ha. pose proof (Ha 0%nat ltac:(left)) as A0. pose proof (Ha 1%nat ltac:(right; left)) as A2. unfold pt in A0, A2. cbn in A0, A2. intros c Hc'. assert (c = 0 \/ c = 1)%nat as [->| ->] by lia; lra. }
  pose proof (fun b A => C111_affine_mesh 5 _ _ tri3 tri3d2_kind _ q ex_square ex_fan _ umax b A (Nat.le_refl 5) ST SE I1 (or_introl eq_refl) Hc Ho Hpos Eb) as H. cbv zeta in H. change (ElementModel.el_dim tri3) with 2%nat in H.
  destruct (H b A) as (HP & _). destruct (HP J (uniform_table t) _ vws ws (Q _)) as (Hex & U). split; [exact Hex|]. split.
  { intros u f Ef Hs. specialize (U u f Ef Hs 4%nat 0%nat ltac:(cbn; lia) ltac:(lia)). unfold value_at, affine_at, A, b in U. change (1 * 4 + 0)%nat with 4%nat in U. rewrite U. unfold pt. cbn. lra. }
  clear HP Hex U. destruct (H b1 A1) as (_ & HE). destruct (HE Pn (0, 0) (uniform_table t1) _ steel vws1 ws1 (Q1 _)) as (Hex & U); [apply PropSolveMesh.C105_young_poisson; [right; left; reflexivity|lra|lra]|intros e y _ Hy; apply repeat_spec in Hy; exact Hy|]. split; [exact Hex|].
  intros u f Ef Hs. specialize (U u f Ef Hs). split.
  - specialize (U 4%nat 0%nat ltac:(cbn; lia) ltac:(lia)). unfold value_at, affine_at, A1, b1 in U. change (2 * 4 + 0)%nat with 8%nat in U. rewrite U. unfold pt. cbn. lra.
  - specialize (U 4%nat 1%nat ltac:(cbn; lia) ltac:(lia)). unfold value_at, affine_at, A1, b1 in U. change (2 * 4 + 1)%nat with 9%nat in U. rewrite U. unfold pt. cbn. lra.
Qed.

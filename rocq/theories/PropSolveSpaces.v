(** C107 for meshes of all element types with the rules that the code chooses: which nodes have to be fixed for the Poisson problem and for linear elasticity, and the mass matrix is positive definite. *)
From stdpp Require Import base list list_numbers sets.
From Coq Require Import Reals Lia Lra Psatz.
From Coquelicot Require Import Coquelicot.
From Verif Require Import Prelude NestedVecModel ParadisModel VectorModel VectorSpec VectorProofs ParadisSpec CsrModel CsrSpec CsrProofs CsrPattern PropVector PropCsr.
From Verif Require Import MaterialModel EllipticModel PropMaterial PropObjective PropElliptic PropEllipticOps PropMass GlobalModel PropGlobal PropGlobalForms SolveProofs PropSolve PropBalance.
From Verif Require PropSolveMesh PropUnisolvent CanonicalModel PolyquadModel QuadratureModel PropPolyquadTables PropCanonicalTables.
From Verif Require Import ElementModel ElementSpec ElementNodal ElementGrads ElementPoly ElementGeometry PropElement ElementSpaceModel TableModel PropBalanceMesh.
Import ListNotations.
Local Open Scope R_scope.
Local Notation vec := (nat -> R).
Local Notation mat := (nat -> nat -> R).
Local Notation value_of := PropUnisolvent.value_of.
Local Notation slope_of := PropUnisolvent.slope_of.

(** * specification *)
(** a path through cells leads from a fixed node to [k] *)
Inductive joined (cells : list (list nat)) (nodes : list nat) : nat -> Prop :=
| joined_fixed k : k ∈ nodes -> joined cells nodes k
| joined_cell cell j k : cell ∈ cells -> j ∈ cell -> k ∈ cell -> joined cells nodes j -> joined cells nodes k.
(** [k] is fixed, or shares cells with such nodes in directions that span the space *)
Inductive pinned (d : nat) (X : nat -> point) (cells : list (list nat)) (nodes : list nat) : nat -> Prop :=
| pinned_fixed k : k ∈ nodes -> pinned d X cells nodes k
| pinned_links k (js : list nat) : (forall j, j ∈ js -> pinned d X cells nodes j) -> (forall j, j ∈ js -> exists cell, cell ∈ cells /\ j ∈ cell /\ k ∈ cell) ->
    (forall a : vec, (forall j, j ∈ js -> summ d (fun c => (X k c - X j c) * a c) = 0) -> forall c, (c < d)%nat -> a c = 0) -> pinned d X cells nodes k.
(** no cell is degenerate at a point of the rule *)
Definition regular_rule (el : ElementModel.element) (vertices : list point) (cells : list (list nat)) (xs : list point) : Prop :=
  forall cell x, cell ∈ cells -> In x xs -> determinant (ElementModel.el_dim el) (ElementModel.el_jacobian el (map (fun a => nth a vertices zero_point) cell) x) <> 0.
(** the geometry of every cell is an affine image of the reference element *)
Definition affine_cells (el : ElementModel.element) (vertices : list point) (cells : list (list nat)) : Prop :=
  forall cell, cell ∈ cells -> exists (A : mat) (b : vec), forall x i, (i < ElementModel.el_dim el)%nat ->
    ElementModel.el_map el (map (fun a => nth a vertices zero_point) cell) x i = b i + summ (ElementModel.el_dim el) (fun k => A i k * x k).
(** [v] is not zero, so neither is [v . A v] *)
Definition positive_definite (n : nat) (A : mat) : Prop := forall v, length v = n -> (exists k, (k < n)%nat /\ nth k v 0 <> 0) -> 0 < form n A v v.

Section space.
Context (el : ElementModel.element) (vertices : list point) (cells : list (list nat)).
Hypothesis Hel : In el all_elements.
Hypothesis Hcells : element_cells el vertices cells.
Let X a := nth a vertices zero_point.
Local Notation sp := (element_space el vertices cells).
Local Notation d := (ElementModel.el_dim el).

(** the chain rule *)
Lemma slope_gradient s v e cell xi G k c : cells !! e = Some cell -> interpolation_gradient (fs_element sp e) s (local_values s v cell) xi G -> (k < d)%nat -> (c < s)%nat ->
  slope_of el (fun I => nth (s * nth I cell 0%nat + c) v 0) k xi = summ d (fun i => ElementModel.el_jacobian el (map X cell) xi i k * G i c).
Proof using Hcells.
  intros He (P & HP & HG) Hk Hc. rewrite (space_element el vertices cells Hcells e cell He) in HP, HG. cbn [element_fe EllipticModel.el_nodes EllipticModel.el_dim EllipticModel.el_jacobian EllipticModel.el_gradients] in HP, HG.
  destruct (cell_at cells e cell He) as (Hin & _). destruct (Hcells cell Hin) as (L & _).
  rewrite (PropMaterial.summ_ext d _ (fun i => summ (length (el_ref el)) (fun I => ElementModel.el_jacobian el (map X cell) xi i k * P I i * nth (s * nth I cell 0%nat + c) v 0))).
  - rewrite summ_swap. unfold slope_of. apply PropMaterial.summ_ext. intros I HI. destruct (HP I HI) as (H1 & _). specialize (H1 k Hk). cbn [element_fe EllipticModel.el_nodes EllipticModel.el_dim EllipticModel.el_jacobian EllipticModel.el_gradients] in H1. fold X in H1. rewrite <- H1. rewrite <- summ_l. apply PropMaterial.summ_ext. intros. ring.
  - intros i Hi. rewrite HG, (proj2 (Nat.ltb_lt _ _) Hi), (proj2 (Nat.ltb_lt _ _) Hc). cbn [andb]. rewrite <- summ_l. apply PropMaterial.summ_ext. intros I HI. rewrite nth_local by (rewrite ?L; assumption). ring.
Qed.
Lemma cell_node cell k : cell ∈ cells -> k ∈ cell -> exists I, (I < length (el_ref el))%nat /\ nth I cell 0%nat = k.
Proof using Hcells. intros Hc Hk. apply elem_of_list_lookup in Hk as (I & HI). exists I. rewrite <- (proj1 (Hcells cell Hc)). split; [exact (lookup_lt_Some _ _ _ HI)|exact (nth_some _ _ 0%nat _ HI)]. Qed.
Lemma in_combine {Data} (w : list R) (xs : list point) (x : list Data) q : length w = length xs -> length x = length xs -> In q xs -> exists wt y, In (wt, (q, y)) (List.combine w (List.combine xs x)).
Proof using.
  revert w x. induction xs as [|z xs IH]; intros w x L1 L2 Hq; [destruct Hq|]. destruct w as [|wt w]; [discriminate|]. destruct x as [|y x]; [discriminate|]. destruct Hq as [->|Hq].
  - exists wt, y. left. reflexivity.
  - destruct (IH w x ltac:(cbn in L1; lia) ltac:(cbn in L2; lia) Hq) as (wt' & y' & H). exists wt', y'. right. exact H.
Qed.
Context {Data : Type} (q : list R * list point) (table : q_table point Data) (x : nat -> list Data) (nodes : list nat).
Local Notation w := (fun _ : nat => fst q).
Local Notation p := (fun _ : nat => snd q).
Hypothesis Hq : reads_quadrature table (length cells) w p x.
Hypothesis Hreg : regular_rule el vertices cells (snd q).

Lemma rule_regular : regular_cells el vertices cells w p x.
Proof using Hreg.
  intros e cell wt pt y He Hin. destruct (cell_at cells e cell He) as (Hc & _). apply Hreg; [exact Hc|]. apply List.in_combine_r, List.in_combine_l in Hin. exact Hin.
Qed.
Lemma rule_gradients s v e cell xi (Z : mat -> Prop) : cells !! e = Some cell -> In xi (snd q) ->
  (forall e ns wt pt y G, cells !! e = Some ns -> In (wt, (pt, y)) (List.combine (fst q) (List.combine (snd q) (x e))) -> interpolation_gradient (fs_element sp e) s (local_values s v ns) pt G -> Z G) ->
  exists G, interpolation_gradient (fs_element sp e) s (local_values s v cell) xi G /\ Z G.
Proof using Hel Hcells Hq Hreg.
  intros He Hx HZ. destruct (cell_at cells e cell He) as (Hc & _ & Hl). destruct (Hq e Hl) as (L1 & L2 & _). destruct (in_combine (fst q) (snd q) (x e) xi) as (wt & y & Hin); [congruence|congruence|exact Hx|].
  exists (ugrad (fs_element sp e) s (local_values s v cell) xi). assert (HG : interpolation_gradient (fs_element sp e) s (local_values s v cell) xi (ugrad (fs_element sp e) s (local_values s v cell) xi)).
  { rewrite (space_element el vertices cells Hcells e cell He). apply ugrad_spec; cbn [element_fe EllipticModel.el_dim EllipticModel.el_jacobian]; [exact (element_small el Hel)|exact (Hreg cell xi Hc Hx)]. }
  split; [exact HG|]. exact (HZ e cell wt xi y _ He Hin HG).
Qed.
Lemma anchored_joined : PropUnisolvent.determines_slopes el (snd q) -> (forall k, (k < length vertices)%nat -> joined cells nodes k) -> anchored sp cells w p x 1 nodes (fun G => forall k, (k < d)%nat -> G k 0%nat = 0).
Proof using Hel Hcells Hq Hreg.
  intros HD Hl v Hv Hvan HZ. cbn [element_space fs_nodes]. rewrite Nat.mul_1_l. intros k Hk. induction (Hl k Hk) as [k Hf|cell j k Hc Hj Hk' _ IH].
  - apply Hvan. exists k, 0%nat. split; [exact Hf|]. lia.
  - destruct (cell_node cell k Hc Hk') as (I & HI & EI). destruct (cell_node cell j Hc Hj) as (J & HJ & EJ). specialize (IH (proj2 (proj2 (Hcells cell Hc)) j Hj)).
    apply elem_of_list_lookup in Hc as (e & He). transitivity (nth j v 0); [|exact IH]. pose proof (HD (fun I => nth (1 * nth I cell 0%nat + 0) v 0)) as H. cbv beta in H.
    assert (E : nth (1 * nth I cell 0%nat + 0) v 0 = nth (1 * nth J cell 0%nat + 0) v 0). 2: { rewrite EI, EJ, !Nat.mul_1_l, !Nat.add_0_r in E. exact E. }
    apply H; [|exact HI|exact HJ]. intros xi i Hx Hi. destruct (rule_gradients 1 v e cell xi _ He Hx HZ) as (G & HG & HG0).
    rewrite (slope_gradient 1 v e cell xi G i 0 He HG Hi ltac:(lia)). apply summ_zero'. intros a Ha. rewrite (HG0 a Ha). ring.
Qed.
(** a constant Jacobian *)
Lemma affine_jacobian cell A b xi i k : cell ∈ cells -> (forall x i, (i < d)%nat -> ElementModel.el_map el (map X cell) x i = b i + summ d (fun k => A i k * x k)) -> (i < d)%nat -> (k < d)%nat -> ElementModel.el_jacobian el (map X cell) xi i k = A i k.
Proof using Hel Hcells.
  intros Hc HA Hi Hk. destruct (C53_geometry el Hel (map X cell)) as (_ & H); [rewrite map_length; apply (Hcells cell Hc)|]. specialize (H xi i k Hk). apply is_derive_unique in H. rewrite <- H. apply is_derive_unique.
  apply (is_derive_ext (fun t => b i + summ d (fun j => A i j * upd xi k t j))); [intros t; symmetry; apply HA, Hi|].
  replace (A i k) with (0 + summ d (fun j => if (j =? k)%nat then A i j else 0)) by (rewrite (summ_delta d k (fun j => A i j)) by exact Hk; ring).
  apply (is_derive_plus (V := R_NormedModule)); [apply (is_derive_const (b i))|]. apply (is_derive_summ d (fun j t => A i j * upd xi k t j)). intros j _. unfold upd. destruct (j =? k)%nat.
  - auto_derive; [trivial|ring].
  - apply (is_derive_const (A i j * xi j)).
Qed.
(** the distance of nodes of a cell does not change to first order *)
Definition edges_kept : Prop := forall (u : nat -> nat -> R) (a : nat -> R) I J, (I < length (el_ref el))%nat -> (J < length (el_ref el))%nat ->
  (forall x, In x (snd q) -> summ d (fun c => a c * summ d (fun k => (pt (nth I (el_ref el) []) k - pt (nth J (el_ref el) []) k) * slope_of el (fun K => u K c) k x)) = 0) -> summ d (fun c => a c * (u I c - u J c)) = 0.
Lemma anchored_pinned : edges_kept -> placed el vertices cells -> affine_cells el vertices cells -> (forall k, (k < length vertices)%nat -> pinned d X cells nodes k) ->
  anchored sp cells w p x d nodes (fun G => forall i j, (i < d)%nat -> (j < d)%nat -> strain G i j = 0).
Proof using Hel Hcells Hq Hreg.
  intros HE Hp Ha Hl v Hv Hvan HZ. cbn [element_space fs_nodes]. intros r Hr. assert (HD : (0 < d)%nat) by (destruct (element_small el Hel) as [E|[E|E]]; rewrite E; lia).
  destruct (PropSolveMesh.split_index d r _ HD Hr) as (k & c & Hk & Hc & ->). clear Hr. revert c Hc. specialize (Hl k Hk). clear Hk. induction Hl as [k Hf|k js _ IH Hjs Hspan]; intros c Hc.
  - apply Hvan. exists k, c. split; [exact Hf|]. auto.
  - apply (Hspan (fun c => nth (d * k + c) v 0)); [|exact Hc]. clear c Hc. intros j Hj. destruct (Hjs j Hj) as (cell & Hcell & Hjc & Hkc).
    destruct (cell_node cell k Hcell Hkc) as (I & HI & EI). destruct (cell_node cell j Hcell Hjc) as (J & HJ & EJ). destruct (Ha cell Hcell) as (A & b & HA). fold X in HA.
    pose proof (Hp cell I) as PI. pose proof (Hp cell J) as PJ. specialize (fun i => PI i Hcell HI). specialize (fun i => PJ i Hcell HJ). cbv beta in PI, PJ. rewrite EI in PI. rewrite EJ in PJ. change (nth k vertices zero_point) with (X k) in PI. change (nth j vertices zero_point) with (X j) in PJ. fold X in PI, PJ.
    set (h := fun k => pt (nth I (el_ref el) []) k - pt (nth J (el_ref el) []) k).
    assert (EX : forall i, (i < d)%nat -> X k i - X j i = summ d (fun m => A i m * h m)).
    { intros i Hi. rewrite (PI i Hi), (PJ i Hi), !HA by exact Hi. unfold h. rewrite (PropMaterial.summ_ext d (fun m => A i m * (_ - _)) (fun m => A i m * pt (nth I (el_ref el) []) m - A i m * pt (nth J (el_ref el) []) m)) by (intros; ring). rewrite summ_minus. ring. }
    assert (R : summ d (fun c => (X k c - X j c) * (nth (d * nth I cell 0%nat + c) v 0 - nth (d * nth J cell 0%nat + c) v 0)) = 0).
    + apply (HE (fun K c => nth (d * nth K cell 0%nat + c) v 0) (fun c => X k c - X j c) I J HI HJ). intros xi Hx. apply elem_of_list_lookup in Hcell as (e & He). destruct (rule_gradients d v e cell xi _ He Hx HZ) as (G & HG & HG0).
      transitivity (summ d (fun c => summ d (fun i => (X k c - X j c) * (X k i - X j i) * G i c))).
      { apply PropMaterial.summ_ext. intros c Hc. rewrite (PropMaterial.summ_ext d (fun i => (X k c - X j c) * (X k i - X j i) * G i c) (fun i => (X k c - X j c) * ((X k i - X j i) * G i c))) by (intros; ring). rewrite summ_l. f_equal.
        transitivity (summ d (fun m => summ d (fun i => A i m * h m * G i c))).
        - apply PropMaterial.summ_ext. intros m Hm. rewrite (slope_gradient d v e cell xi G m c He HG Hm Hc). fold (h m). rewrite <- summ_l. apply PropMaterial.summ_ext. intros i Hi.
          rewrite (affine_jacobian cell A b xi i m (elem_of_list_lookup_2 _ _ _ He) HA Hi Hm). ring.
        - rewrite summ_swap. apply PropMaterial.summ_ext. intros i Hi. rewrite (EX i Hi). rewrite Rmult_comm, <- summ_l. apply PropMaterial.summ_ext. intros. ring. }
      set (S := summ d (fun c => summ d (fun i => (X k c - X j c) * (X k i - X j i) * G i c))). assert (E2 : S + S = 0); [|lra]. unfold S at 2. rewrite summ_swap. unfold S. rewrite <- summ_plus. apply summ_zero'. intros c Hc. rewrite <- summ_plus. apply summ_zero'. intros i Hi.
      pose proof (HG0 i c Hi Hc) as Z. unfold strain in Z. replace (G c i) with (- G i c) by lra. ring.
    + refine (eq_trans _ R). apply PropMaterial.summ_ext. intros c Hc. rewrite EI, EJ. rewrite (IH j Hj c Hc). ring.
Qed.
End space.

(** cells of triangles and tetrahedra of any degree are affine *)
Lemma triangle_map vs xi i : (3 <= length vs)%nat -> on_first 3 (isoparametric_map tri3_basis) vs xi i =
  (nth 1 vs zero_point i + nth 2 vs zero_point i) / 2 + summ 2 (fun k => (nth (S k) vs zero_point i - nth 0 vs zero_point i) / 2 * xi k).
Proof. intros L. destruct vs as [|v0 [|v1 [|v2 vs]]]; cbn [length] in L; try lia. unfold on_first, isoparametric_map. cbn. field. Qed.
Lemma tetrahedron_map vs xi i : (4 <= length vs)%nat -> on_first 4 (isoparametric_map tet4_basis) vs xi i =
  (- nth 0 vs zero_point i + nth 1 vs zero_point i + nth 2 vs zero_point i + nth 3 vs zero_point i) / 2 + summ 3 (fun k => (nth (S k) vs zero_point i - nth 0 vs zero_point i) / 2 * xi k).
Proof. intros L. destruct vs as [|v0 [|v1 [|v2 [|v3 vs]]]]; cbn [length] in L; try lia. unfold on_first, isoparametric_map. cbn. field. Qed.
Theorem C107_simplices el vertices cells : In el [tri3; tri6; tet4; tet10; tet20] -> element_cells el vertices cells -> affine_cells el vertices cells.
Proof.
  intros Hel Hc cell Hin. destruct (Hc cell Hin) as (L & _). set (vs := map (fun a => nth a vertices zero_point) cell). assert (Lv : length vs = length (el_ref el)) by (unfold vs; rewrite map_length; exact L). clearbody vs.
  assert (F : forall n (f : list point -> point -> point), length vs = n -> f vs = on_first n f vs) by (intros n f E; unfold on_first; rewrite firstn_all2 by lia; reflexivity).
  cbn [In] in Hel. destruct Hel as [<-|[<-|[<-|[<-|[<-|[]]]]]]; cbn in Lv.
  - exists (fun i k => (nth (S k) vs zero_point i - nth 0 vs zero_point i) / 2), (fun i => (nth 1 vs zero_point i + nth 2 vs zero_point i) / 2). intros x i _. change (isoparametric_map tri3_basis vs x i = (nth 1 vs zero_point i + nth 2 vs zero_point i) / 2 + summ 2 (fun k => (nth (S k) vs zero_point i - nth 0 vs zero_point i) / 2 * x k)). rewrite (F 3%nat (isoparametric_map tri3_basis) Lv). apply triangle_map. lia.
  - exists (fun i k => (nth (S k) vs zero_point i - nth 0 vs zero_point i) / 2), (fun i => (nth 1 vs zero_point i + nth 2 vs zero_point i) / 2). intros x i _. apply (triangle_map vs x i). lia.
  - exists (fun i k => (nth (S k) vs zero_point i - nth 0 vs zero_point i) / 2), (fun i => (- nth 0 vs zero_point i + nth 1 vs zero_point i + nth 2 vs zero_point i + nth 3 vs zero_point i) / 2). intros x i _. change (isoparametric_map tet4_basis vs x i = (- nth 0 vs zero_point i + nth 1 vs zero_point i + nth 2 vs zero_point i + nth 3 vs zero_point i) / 2 + summ 3 (fun k => (nth (S k) vs zero_point i - nth 0 vs zero_point i) / 2 * x k)). rewrite (F 4%nat (isoparametric_map tet4_basis) Lv). apply tetrahedron_map. lia.
  - exists (fun i k => (nth (S k) vs zero_point i - nth 0 vs zero_point i) / 2), (fun i => (- nth 0 vs zero_point i + nth 1 vs zero_point i + nth 2 vs zero_point i + nth 3 vs zero_point i) / 2). intros x i _. apply (tetrahedron_map vs x i). lia.
  - exists (fun i k => (nth (S k) vs zero_point i - nth 0 vs zero_point i) / 2), (fun i => (- nth 0 vs zero_point i + nth 1 vs zero_point i + nth 2 vs zero_point i + nth 3 vs zero_point i) / 2). intros x i _. apply (tetrahedron_map vs x i). lia.
Qed.
Print Assumptions C107_simplices.

(** * the mass matrix *)
Lemma mass_definite el vertices cells (q : list R * list point) umax (table : q_table point R) rho srt ord s cws ws : In el all_elements -> element_cells el vertices cells -> reads_quadrature table (length cells) (fun _ => fst q) (fun _ => snd q) rho ->
  regular_rule el vertices cells (snd q) -> PropUnisolvent.determines_values el (snd q) -> hash_order ord -> sorts_by_key srt -> (0 < s)%nat ->
  (forall wt, In wt (fst q) -> 0 < wt) -> (forall e y, (e < length cells)%nat -> In y (rho e) -> 0 < y) -> (forall k, (k < length vertices)%nat -> exists cell, cell ∈ cells /\ k ∈ cell) ->
  exists m A, (assemble_csr Rplus 0 srt ord umax cws (mass_mat_asm zero_point umax (element_space el vertices cells) table s ws)).2 = Ok m /\ csr_wf m /\ entries_of (s * length vertices) m A /\
    (forall r c, (r < s * length vertices)%nat -> (c < s * length vertices)%nat -> A r c = A c r) /\ positive_definite (s * length vertices) A.
Proof.
  intros Hel Hcells Hq Hreg HD Ho Hsrt Hs Hw Hrho Hcov. set (sp := element_space el vertices cells). pose proof (space_regular el vertices cells Hel Hcells table _ _ rho srt ord s Hq Ho Hsrt (rule_regular el vertices cells q rho Hreg)) as Hm.
  assert (Hconf : conforming_mesh sp s cells) by (destruct Hm as (H1 & H2 & H3 & _ & _ & _ & _ & H4); split; [exact H1|split; [exact H2|split; [exact H3|intros e ns He; apply (H4 e ns He)]]]).
  destruct (C79_mass zero_point umax sp s cells (fun _ => fst q) (fun _ => snd q) srt ord Hconf Hs Ho Hsrt table rho Hq cws ws) as (m & Em & Hwf & Hrows & A & HA & Hsym & _ & Hform & Hpos & _).
  exists m, A. split; [exact Em|]. split; [exact Hwf|]. split; [exact HA|]. split; [exact Hsym|]. intros v Hv (k & Hk & Nk).
  assert (P : 0 <= form (s * length vertices) A v v). { apply Hpos; [intros e wt _ Hin; apply Rlt_le, Hw, Hin|intros e y He Hin; apply Rlt_le, (Hrho e y He Hin)|exact Hv]. }
  apply Rnot_le_lt. intros N. assert (Z : form (s * length vertices) A v v = 0) by lra. apply Nk. clear P N Nk Hpos.
  change (form (s * fs_nodes sp) A v v = 0) in Z. rewrite (Hform v v Hv Hv) in Z.
  destruct (PropSolveMesh.split_index s k _ Hs Hk) as (node & c & Hn & Hc & ->). destruct (Hcov node Hn) as (cell & Hcell & Hin). destruct (cell_node el vertices cells Hcells cell node Hcell Hin) as (I & HI & EI). rewrite <- EI.
  apply elem_of_list_lookup in Hcell as (e & He). destruct (cell_at cells e cell He) as (Hcell & En & Hl). destruct (Hcells cell Hcell) as (Lc & _).
  apply (HD (fun I => nth (s * nth I cell 0%nat + c) v 0)); [|exact HI]. intros xi Hx.
  destruct (Hq e Hl) as (L1 & L2 & _). destruct (in_combine (fst q) (snd q) (rho e) xi) as (wt & y & Hi); [congruence|congruence|exact Hx|].
  assert (Hin' : forall e wt pt y, In (wt, (pt, y)) (List.combine (fst q) (List.combine (snd q) (rho e))) -> In wt (fst q) /\ In pt (snd q) /\ In y (rho e)).
  { intros e' wt' pt' y' H. split; [exact (List.in_combine_l _ _ _ _ H)|]. apply List.in_combine_r in H. split; [exact (List.in_combine_l _ _ _ _ H)|exact (List.in_combine_r _ _ _ _ H)]. }
  assert (Hsq : forall e wt pt y, (e < length cells)%nat -> In (wt, (pt, y)) (List.combine (fst q) (List.combine (snd q) (rho e))) ->
    0 <= wt * Rabs (determinant (EllipticModel.el_dim (fs_element sp e)) (EllipticModel.el_jacobian (fs_element sp e) pt)) * (y * summ s (fun i => interpolated (fs_element sp e) s (local_values s v (nth e cells [])) pt i * interpolated (fs_element sp e) s (local_values s v (nth e cells [])) pt i))).
  { intros e' wt' pt' y' He' H. destruct (Hin' e' wt' pt' y' H) as (H1 & H2 & H3). apply Rmult_le_pos; [apply Rmult_le_pos; [apply Rlt_le, Hw, H1|apply Rabs_pos]|]. apply Rmult_le_pos; [apply Rlt_le, (Hrho e' y' He' H3)|]. apply PropObjective.summ_nonneg. intros. apply Rle_0_sqr. }
  unfold mesh_integral in Z. pose proof (summ_nonneg_zero (length cells) _ (fun e He => qsum_nonneg _ _ (fun wt pt y Hin => Hsq e wt pt y He Hin)) Z e Hl) as Z1. cbv beta in Z1.
  pose proof (qsum_nonneg_zero _ _ (fun wt pt y Hin => Hsq e wt pt y Hl Hin) Z1 wt xi y Hi) as Z2. cbv beta in Z2. destruct (Hin' e wt xi y Hi) as (H1 & H2 & H3).
  apply Rmult_integral in Z2 as [Z2|Z2].
  { exfalso. apply Rmult_integral in Z2 as [Z2|Z2]; [specialize (Hw wt H1); lra|]. revert Z2. apply Rabs_no_R0. unfold sp. rewrite (space_element el vertices cells Hcells e cell He). exact (Hreg cell xi Hcell H2). }
  apply Rmult_integral in Z2 as [Z2|Z2]; [specialize (Hrho e y Hl H3); lra|]. pose proof (summ_nonneg_zero s _ (fun i _ => Rle_0_sqr _) Z2 c Hc) as Z3. cbv beta in Z3.
  assert (Z4 : interpolated (fs_element sp e) s (local_values s v (nth e cells [])) xi c = 0) by (apply Rmult_integral in Z3 as [Z3|Z3]; exact Z3).
  rewrite En in Z4. unfold sp in Z4. rewrite (space_element el vertices cells Hcells e cell He) in Z4. unfold interpolated in Z4. cbn [element_fe EllipticModel.el_nodes EllipticModel.el_basis] in Z4.
  refine (eq_trans _ Z4). unfold PropUnisolvent.value_of. apply PropMaterial.summ_ext. intros J HJ. rewrite nth_local by (rewrite ?Lc; assumption). ring.
Qed.

(** * the rules that the code chooses *)
Lemma reads_uniform {Data} (q : list R * list point) (y : Data) : length (fst q) = length (snd q) -> exists t, uniform_from_quadrature q y = Ok t /\ forall elems, reads_quadrature (uniform_table t) elems (fun _ => fst q) (fun _ => snd q) (fun _ => repeat y (length (fst q))).
Proof.
  intros L. destruct q as (ws & xs). cbn [fst snd] in *. destruct (uniform_from xs ws (repeat y (length ws))) as [t| |] eqn:E.
  - exists t. split; [exact E|]. intros elems. exact (proj1 (proj2 (C78_tables [] [] [] [] _ _ _ elems)) t E).
  - exfalso. unfold uniform_from in E. destruct (decide _); [|discriminate]. destruct (decide _); discriminate.
  - exfalso. unfold uniform_from in E. destruct (decide _); [|congruence]. destruct (decide _) as [|N]; [discriminate|]. apply N. rewrite repeat_length. congruence.
Qed.
Section canonical.
Variables (fuel : nat) (tri tet : list PolyquadModel.entry).
Hypotheses (Hfuel : (5 <= fuel)%nat) (Htri : PropCanonicalTables.shipped PropPolyquadTables.Tri tri) (Htet : PropCanonicalTables.shipped PropPolyquadTables.Tet tet).
Local Notation root := (QuadratureModel.newton_root fuel).
Local Notation rule_tri := (PropCanonicalTables.table_rule PropPolyquadTables.Tri tri).
Local Notation rule_tet := (PropCanonicalTables.table_rule PropPolyquadTables.Tet tet).

(** C107: the Poisson problem on a mesh of any element type, with the quadrature that the mesh chooses: it is enough that every node is connected to a fixed one *)
Theorem C107_poisson el oq :
  In (el, oq) (CanonicalModel.canonical_stiffness root rule_tri rule_tet) -> exists q t, oq = Some q /\ uniform_from_quadrature q tt = Ok t /\
  forall Data' (default_data' : Data') umax vertices cells (table' : q_table point Data') w' p' x' srt ord source nodes is_zero u0 cws ws vws ws',
   element_cells el vertices cells -> regular_rule el vertices cells (snd q) -> hash_order ord -> sorts_by_key srt -> (forall x, is_zero x = true <-> x = 0) -> reads_quadrature table' (length cells) w' p' x' ->
   (forall k, k ∈ nodes -> exists cell, cell ∈ cells /\ k ∈ cell) -> (forall k, (k < length vertices)%nat -> joined cells nodes k) -> length u0 = length vertices ->
   poisson_solved zero_point default_data' umax (element_space el vertices cells) (uniform_table t) table' cells (fun _ => fst q) (fun _ => snd q) (fun _ => repeat tt (length (fst q))) (ElementModel.el_dim el) w' p' x' srt ord source nodes is_zero u0 cws ws vws ws'.
Proof using Hfuel Htri Htet.
  intros Hin. destruct (PropUnisolvent.C107_stiffness fuel tri tet Hfuel Htri Htet el oq Hin) as (q & Eq & L & Hw & HD). pose proof (PropUnisolvent.canonical_all el (PropUnisolvent.stiffness_element_in fuel tri tet el oq Hin)) as Hel.
  destruct (reads_uniform q tt L) as (t & Et & Hq). exists q, t. split; [exact Eq|]. split; [exact Et|]. intros Data' dd umax vertices cells table' w' p' x' srt ord source nodes is_zero u0 cws ws vws ws' Hc Hr Ho Hs Hz Hq' Hn Hj Hu. apply C105_poisson; try assumption.
  - apply space_regular; try assumption; [apply Hq|]. apply rule_regular, Hr.
  - intros e wt _ Hi. exact (Hw wt Hi).
  - apply (anchored_joined el vertices cells Hel Hc q (uniform_table t)); try assumption. apply Hq.
Qed.
(** C107: linear elasticity on a mesh of affine cells with their nodes in place, where materials may vary from point to point: it is enough that every node is pinned, in steps, by nodes with which it shares cells *)
Theorem C107_elasticity el oq :
  In (el, oq) (CanonicalModel.canonical_stiffness root rule_tri rule_tet) -> exists q, oq = Some q /\ length (fst q) = length (snd q) /\
  forall Data' params (default_data' : Data') umax vertices cells (table : q_table point (R * R)) x (table' : q_table point Data') w' p' x' srt ord source nodes is_zero u0 cws ws vws ws',
   element_cells el vertices cells -> placed el vertices cells -> affine_cells el vertices cells -> regular_rule el vertices cells (snd q) -> reads_quadrature table (length cells) (fun _ => fst q) (fun _ => snd q) x ->
   (forall e y, (e < length cells)%nat -> In y (x e) -> stable (ElementModel.el_dim el) y) -> hash_order ord -> sorts_by_key srt -> (forall x, is_zero x = true <-> x = 0) -> reads_quadrature table' (length cells) w' p' x' ->
   (forall k, k ∈ nodes -> exists cell, cell ∈ cells /\ k ∈ cell) -> (forall k, (k < length vertices)%nat -> pinned (ElementModel.el_dim el) (fun a => nth a vertices zero_point) cells nodes k) -> length u0 = (ElementModel.el_dim el * length vertices)%nat ->
   elasticity_solved zero_point params default_data' umax (element_space el vertices cells) table table' cells (fun _ => fst q) (fun _ => snd q) x (ElementModel.el_dim el) w' p' x' srt ord source nodes is_zero u0 cws ws vws ws'.
Proof using Hfuel Htri Htet.
  intros Hin. destruct (PropUnisolvent.C107_stiffness fuel tri tet Hfuel Htri Htet el oq Hin) as (q & Eq & L & Hw & HD). pose proof (PropUnisolvent.canonical_all el (PropUnisolvent.stiffness_element_in fuel tri tet el oq Hin)) as Hel.
  exists q. split; [exact Eq|]. split; [exact L|]. intros Data' params dd umax vertices cells table x table' w' p' x' srt ord source nodes is_zero u0 cws ws vws ws' Hc Hp Ha Hr Hq Hst Ho Hs Hz Hq' Hn Hj Hu. apply C105_elasticity; try assumption.
  - apply space_regular; try assumption. apply rule_regular, Hr.
  - intros e wt _ Hi. exact (Hw wt Hi).
  - apply (anchored_pinned el vertices cells Hel Hc q table); try assumption. intros u a I J HI HJ H. exact (PropUnisolvent.segment_constant fuel tri tet Hfuel Htri Htet el oq q u a I J Hin Eq HI HJ H).
Qed.
(** C107: the mass matrix with the quadrature that the mesh chooses and positive densities is positive definite if every node belongs to a cell *)
Theorem C107_mass_matrix el oq :
  In (el, oq) (CanonicalModel.canonical_mass root rule_tri rule_tet) -> exists q, oq = Some q /\ length (fst q) = length (snd q) /\
  forall umax vertices cells (table : q_table point R) rho srt ord s cws ws,
   element_cells el vertices cells -> regular_rule el vertices cells (snd q) -> reads_quadrature table (length cells) (fun _ => fst q) (fun _ => snd q) rho -> hash_order ord -> sorts_by_key srt -> (0 < s)%nat ->
   (forall e y, (e < length cells)%nat -> In y (rho e) -> 0 < y) -> (forall k, (k < length vertices)%nat -> exists cell, cell ∈ cells /\ k ∈ cell) ->
   exists m A, (assemble_csr Rplus 0 srt ord umax cws (mass_mat_asm zero_point umax (element_space el vertices cells) table s ws)).2 = Ok m /\ csr_wf m /\ entries_of (s * length vertices) m A /\
    (forall r c, (r < s * length vertices)%nat -> (c < s * length vertices)%nat -> A r c = A c r) /\ positive_definite (s * length vertices) A.
Proof using Hfuel Htri Htet.
  intros Hin. destruct (PropUnisolvent.C107_mass fuel tri tet Hfuel Htri Htet el oq Hin) as (q & Eq & L & Hw & HD). assert (Hel : In el all_elements) by (apply PropUnisolvent.canonical_all, (in_map fst _ _ Hin)).
  exists q. split; [exact Eq|]. split; [exact L|]. intros umax vertices cells table rho srt ord s cws ws. intros. apply (mass_definite el vertices cells q umax table rho); assumption.
Qed.
End canonical.
Print Assumptions C107_poisson.
Print Assumptions C107_elasticity.
Print Assumptions C107_mass_matrix.

(** a square of two quadratic triangles: for the Poisson problem one node is fixed, for elasticity two; steel, gravity; the tables of the repository, five steps *)
Definition square6 : list point := [pt [0; 0]; pt [2; 0]; pt [2; 2]; pt [0; 2]; pt [1; 0]; pt [2; 1]; pt [1; 1]; pt [1; 2]; pt [0; 1]].
Definition square6_cells : list (list nat) := [[0; 1; 2; 4; 5; 6]; [0; 2; 3; 6; 7; 8]]%nat.
Lemma square6_case (P : list nat -> Prop) : P [0; 1; 2; 4; 5; 6]%nat -> P [0; 2; 3; 6; 7; 8]%nat -> forall cell, cell ∈ square6_cells -> P cell.
Proof. intros H1 H2 cell H. apply elem_of_cons in H as [->|H]; [exact H1|]. apply elem_of_list_singleton in H as ->. exact H2. Qed.
Lemma square6_ok : element_cells tri6 square6 square6_cells /\ placed tri6 square6 square6_cells /\ forall xs, regular_rule tri6 square6 square6_cells xs.
Proof.
  split; [|split].
  - refine (square6_case (fun cell => length cell = length (el_ref tri6) /\ NoDup cell /\ forall a, a ∈ cell -> (a < length square6)%nat) _ _); (split; [reflexivity|]; split; [repeat constructor; rewrite ?elem_of_cons, ?elem_of_nil; lia|]; intros a Ha; rewrite !elem_of_cons, elem_of_nil in Ha; cbn; lia).
  - intros cell I i Hc HI Hi. revert cell Hc. cbn in HI, Hi. apply square6_case; (destruct i as [|[|i]]; [| |lia]); (destruct I as [|[|[|[|[|[|I]]]]]]; [| | | | | |lia]); cbn; unfold on_first, isoparametric_map; cbn; lra.
  - intros xs cell x Hc _. revert cell Hc. apply square6_case; cbn [tri6 ElementModel.el_dim ElementModel.el_jacobian determinant]; unfold on_first, isoparametric_jacobian; cbn; lra.
Qed.
Lemma square6_joined k : (k < 9)%nat -> joined square6_cells (0%nat :: []) k.
Proof.
  assert (F : joined square6_cells (0%nat :: []) 0%nat) by (apply joined_fixed; left). assert (C0 : [0; 1; 2; 4; 5; 6]%nat ∈ square6_cells) by left. assert (C1 : [0; 2; 3; 6; 7; 8]%nat ∈ square6_cells) by (right; left).
  intros Hk. destruct (decide (k ∈ [0; 1; 2; 4; 5; 6]%nat)) as [H|H]; [apply (joined_cell _ _ _ 0 k C0); [left|exact H|exact F]|]. apply (joined_cell _ _ _ 0 k C1); [left| |exact F]. rewrite !elem_of_cons, elem_of_nil in *. lia.
Qed.
Lemma square6_pinned k : (k < 9)%nat -> pinned 2 (fun a => nth a square6 zero_point) square6_cells [0; 1]%nat k.
Proof.
  assert (C0 : [0; 1; 2; 4; 5; 6]%nat ∈ square6_cells) by left. assert (C1 : [0; 2; 3; 6; 7; 8]%nat ∈ square6_cells) by (right; left).
  assert (P0 : pinned 2 (fun a => nth a square6 zero_point) square6_cells [0; 1]%nat 0%nat) by (apply pinned_fixed; left). assert (P1 : pinned 2 (fun a => nth a square6 zero_point) square6_cells [0; 1]%nat 1%nat) by (apply pinned_fixed; right; left).
  assert (T : forall i j k cell, cell ∈ square6_cells -> i ∈ cell -> j ∈ cell -> k ∈ cell -> pinned 2 (fun a => nth a square6 zero_point) square6_cells [0; 1]%nat i -> pinned 2 (fun a => nth a square6 zero_point) square6_cells [0; 1]%nat j ->
    (forall a : vec, summ 2 (fun c => (nth k square6 zero_point c - nth i square6 zero_point c) * a c) = 0 -> summ 2 (fun c => (nth k square6 zero_point c - nth j square6 zero_point c) * a c) = 0 -> a 0%nat = 0 /\ a 1%nat = 0) -> pinned 2 (fun a => nth a square6 zero_point) square6_cells [0; 1]%nat k).
  { intros i j k' cell Hc Hi Hj Hk Pi Pj H. apply (pinned_links _ _ _ _ k' [i; j]).
    - intros l Hl. rewrite !elem_of_cons, elem_of_nil in Hl. destruct Hl as [->|[->|[]]]; assumption.
    - intros l Hl. exists cell. split; [exact Hc|]. split; [|exact Hk]. rewrite !elem_of_cons, elem_of_nil in Hl. destruct Hl as [->|[->|[]]]; assumption.
    - intros a Ha c Hcc. destruct (H a) as (H0 & H1); [apply Ha; left|apply Ha; right; left|]. destruct c as [|[|c]]; [exact H0|exact H1|lia]. }
  assert (P2 : pinned 2 (fun a => nth a square6 zero_point) square6_cells [0; 1]%nat 2%nat) by (apply (T 0 1 2 _ C0)%nat; try assumption; [rewrite !elem_of_cons; lia..|]; intros a; cbn; lra).
  intros Hk. destruct k as [|[|[|[|[|[|[|[|[|k]]]]]]]]]; try assumption; [..|lia].
  - apply (T 0 2 3 _ C1)%nat; try assumption; [rewrite !elem_of_cons; lia..|]; intros a; cbn; lra.
  - apply (T 0 2 4 _ C0)%nat; try assumption; [rewrite !elem_of_cons; lia..|]; intros a; cbn; lra.
  - apply (T 0 2 5 _ C0)%nat; try assumption; [rewrite !elem_of_cons; lia..|]; intros a; cbn; lra.
  - apply (T 0 1 6 _ C0)%nat; try assumption; [rewrite !elem_of_cons; lia..|]; intros a; cbn; lra.
  - apply (T 0 2 7 _ C1)%nat; try assumption; [rewrite !elem_of_cons; lia..|]; intros a; cbn; lra.
  - apply (T 0 2 8 _ C1)%nat; try assumption; [rewrite !elem_of_cons; lia..|]; intros a; cbn; lra.
Qed.
Lemma square6_covered k : (k < 9)%nat -> exists cell, cell ∈ square6_cells /\ k ∈ cell.
Proof. intros Hk. destruct (decide (k ∈ [0; 1; 2; 4; 5; 6]%nat)) as [H|H]; [exists [0; 1; 2; 4; 5; 6]%nat; split; [left|exact H]|]. exists [0; 2; 3; 6; 7; 8]%nat. split; [right; left|]. rewrite !elem_of_cons, elem_of_nil in *. lia. Qed.
Example C107_square source u0 u1 cws ws ws1 mcws mws vws ws' : length u0 = 9%nat -> length u1 = 18%nat -> let sp := element_space tri6 square6 square6_cells in let steel := lame_from_young_poisson 210 (3/10) in
  exists q t t1 q2 t2 m A, PropCanonicalTables.table_rule PropPolyquadTables.Tri (PropPolyquadTables.files PropPolyquadTables.Tri) 2 = Some q /\ uniform_from_quadrature q tt = Ok t /\ uniform_from_quadrature q steel = Ok t1 /\
  poisson_solved zero_point tt 77 sp (uniform_table t) (uniform_table t) square6_cells (fun _ => fst q) (fun _ => snd q) (fun _ => repeat tt (length (fst q))) 2
    (fun _ => fst q) (fun _ => snd q) (fun _ => repeat tt (length (fst q))) PropCsr.key_sort (fun _ l => l) source (0%nat :: []) PropSolveMesh.is_zeroR u0 cws ws vws ws' /\
  elasticity_solved zero_point (0, 0) tt 77 sp (uniform_table t1) (uniform_table t) square6_cells (fun _ => fst q) (fun _ => snd q) (fun _ => repeat steel (length (fst q))) 2
    (fun _ => fst q) (fun _ => snd q) (fun _ => repeat tt (length (fst q))) PropCsr.key_sort (fun _ l => l) (fun _ _ i => nth i [0; -981/100] 0) [0; 1]%nat PropSolveMesh.is_zeroR u1 cws ws1 vws ws' /\
  PropCanonicalTables.table_rule PropPolyquadTables.Tri (PropPolyquadTables.files PropPolyquadTables.Tri) 4 = Some q2 /\ uniform_from_quadrature q2 7 = Ok t2 /\
  (assemble_csr Rplus 0 PropCsr.key_sort (fun _ l => l) 77 mcws (mass_mat_asm zero_point 77 sp (uniform_table t2) 2 mws)).2 = Ok m /\ entries_of 18 m A /\ positive_definite 18 A.
Proof.
  intros L0 L1 sp steel. destruct square6_ok as (Hc & Hp & Hr). destruct PropUnisolvent.C107_example as (ST & SE & _).
  assert (In1 : In (tri6, PropCanonicalTables.table_rule PropPolyquadTables.Tri (PropPolyquadTables.files PropPolyquadTables.Tri) 2) (CanonicalModel.canonical_stiffness (QuadratureModel.newton_root 5) (PropCanonicalTables.table_rule PropPolyquadTables.Tri (PropPolyquadTables.files PropPolyquadTables.Tri)) (PropCanonicalTables.table_rule PropPolyquadTables.Tet (PropPolyquadTables.files PropPolyquadTables.Tet)))) by (right; left; reflexivity).
  assert (In2 : In (tri6, PropCanonicalTables.table_rule PropPolyquadTables.Tri (PropPolyquadTables.files PropPolyquadTables.Tri) 4) (CanonicalModel.canonical_mass (QuadratureModel.newton_root 5) (PropCanonicalTables.table_rule PropPolyquadTables.Tri (PropPolyquadTables.files PropPolyquadTables.Tri)) (PropCanonicalTables.table_rule PropPolyquadTables.Tet (PropPolyquadTables.files PropPolyquadTables.Tet)))) by (right; left; reflexivity).
  destruct (C107_poisson 5 _ _ (Nat.le_refl 5) ST SE tri6 _ In1) as (q & t & Eq & Et & HP). destruct (C107_elasticity 5 _ _ (Nat.le_refl 5) ST SE tri6 _ In1) as (q' & Eq' & L & HE). rewrite Eq in Eq'. injection Eq' as <-. destruct (C107_mass_matrix 5 _ _ (Nat.le_refl 5) ST SE tri6 _ In2) as (q2 & Eq2 & L2 & HM).
  destruct (reads_uniform q tt L) as (t' & Et' & Q). rewrite Et in Et'. injection Et' as <-. destruct (reads_uniform q steel L) as (t1 & Et1 & Q1). destruct (reads_uniform q2 7 L2) as (t2 & Et2 & Q2).
  pose proof square6_covered as Cov.
  destruct (HM 77%nat square6 square6_cells (uniform_table t2) (fun _ => repeat 7 (length (fst q2))) PropCsr.key_sort (fun _ l => l) 2%nat mcws mws Hc (Hr _) (Q2 _) (fun _ _ => reflexivity _) PropCsr.key_sort_ok ltac:(lia)) as (m & A & Em & _ & HA & _ & Hpd); [intros e y _ Hy; apply repeat_spec in Hy as ->; lra|exact Cov|].
  exists q, t, t1, q2, t2, m, A. split; [exact Eq|]. split; [exact Et|]. split; [exact Et1|]. split; [|split; [|split; [exact Eq2|split; [exact Et2|split; [exact Em|split; [exact HA|exact Hpd]]]]]].
  - apply HP; [exact Hc|apply Hr|intros k s; reflexivity|exact PropCsr.key_sort_ok|exact PropSolveMesh.is_zeroR_spec|apply Q| |exact square6_joined|exact L0]. intros k Hk. apply elem_of_list_singleton in Hk as ->. clear. apply square6_covered. lia.
  - apply HE; [exact Hc|exact Hp|apply C107_simplices; [right; left; reflexivity|exact Hc]|apply Hr|apply Q1| |intros k s; reflexivity|exact PropCsr.key_sort_ok|exact PropSolveMesh.is_zeroR_spec|apply Q| |exact square6_pinned|exact L1].
    + intros e y _ Hy. apply repeat_spec in Hy as ->. apply PropSolveMesh.C105_young_poisson; [right; left; reflexivity|lra|lra].
    + clear. intros k Hk. apply square6_covered. rewrite !elem_of_cons, elem_of_nil in Hk. lia.
Qed.

(** C105 for meshes of triangles in the plane and of tetrahedra: which nodes have to be fixed for the Poisson problem and for linear elasticity. *)
From stdpp Require Import base list list_numbers sets.
From Coq Require Import Reals Lia Lra Psatz.
From Coquelicot Require Import Coquelicot.
From Verif Require Import Prelude NestedVecModel ParadisModel VectorModel VectorSpec VectorProofs ParadisSpec CsrModel CsrSpec CsrProofs CsrPattern PropVector PropCsr DirichletModel DirichletSpec DirichletProofs PropDirichlet.
From Verif Require Import CgModel CgSpec AabbModel AabbSpec MaterialModel PropMaterial PropObjective.
From Verif Require Import ElementModel ClosestModel ClosestSpec ClosestProofs PropClosestTet PropSearch.
From Verif Require Import EllipticModel PropElliptic PropEllipticOps PropMass GlobalModel PropGlobal PropGlobalForms PointInterpModel PropPointInterp MeshSpaceModel OperatorModel SolveProofs PropSolve.
From Verif Require Import TableModel.
From Verif Require PropPointMesh.
Import ListNotations.
Local Open Scope R_scope.

(** * specification *)
(** a path through cells leads from a fixed node to [k] *)
Inductive linked (m : mesh) (nodes : list nat) : nat -> Prop :=
| linked_fixed k : k ∈ nodes -> linked m nodes k
| linked_cell cell j k : cell ∈ m_cells m -> j ∈ cell -> k ∈ cell -> linked m nodes j -> linked m nodes k.
(** [k] is fixed, or the other nodes of a cell with [k] hold it *)
Inductive held (m : mesh) (nodes : list nat) : nat -> Prop :=
| held_fixed k : k ∈ nodes -> held m nodes k
| held_cell cell k : cell ∈ m_cells m -> k ∈ cell -> (forall j, j ∈ cell -> j <> k -> held m nodes j) -> held m nodes k.
(** every element has a quadrature point *)
Definition has_points (elems : nat) (w : nat -> list R) : Prop := forall e, (e < elems)%nat -> w e <> [].

(** * meshes as spaces *)
Lemma finite_choice {A} n (P : nat -> A -> Prop) : (forall i, (i < n)%nat -> exists y, P i y) -> (0 < n)%nat \/ inhabited A -> exists f, forall i, (i < n)%nat -> P i (f i).
Proof.
  induction n as [|n IH]; intros H Ha; [destruct Ha as [?|[a]]; [lia|]; exists (fun _ => a); intros; lia|]. destruct (H n ltac:(lia)) as (y & Hy). destruct IH as (f & Hf); [intros; apply H; lia|right; exact (inhabits y)|].
  exists (fun i => if (i =? n)%nat then y else f i). intros i Hi. destruct (Nat.eqb_spec i n) as [->|N]; [exact Hy|apply Hf; lia].
Qed.
Lemma split_index s k N : (0 < s)%nat -> (k < s * N)%nat -> exists node c, (node < N)%nat /\ (c < s)%nat /\ k = (s * node + c)%nat.
Proof. intros Hs Hk. exists (k / s)%nat, (k mod s)%nat. split; [apply Nat.div_lt_upper_bound; lia|]. split; [apply Nat.mod_upper_bound; lia|]. apply Nat.div_mod. lia. Qed.
Section mesh.
Context {Data : Type} (m : mesh) (table : q_table CgModel.vec Data) (w : nat -> list R) (p : nat -> list CgModel.vec) (x : nat -> list Data) (srt : list nat -> list nat) (ord : nat -> list nat -> list nat).
Hypothesis Hwf : well_formed m.
Hypothesis Hreg : PropPointMesh.regular_mesh m.
Hypothesis Hkind : m_kind m <> Tri3d3.
Let D := kind_dim (m_kind m).

Lemma mesh_small : small D.
Proof using. clear Hkind. unfold D, small. destruct (m_kind m); cbn; auto. Qed.
Lemma mesh_element_at e : (e < length (m_cells m))%nat -> fs_element (mesh_fe m) e = kind_fe (m_kind m) (cell_vertices m e).
Proof using Hwf. intros He. cbn [mesh_fe fs_element]. rewrite (proj1 (mesh_element_ok m e Hwf He)). reflexivity. Qed.
Lemma nodup_nth (l : list nat) : (forall I J, (I < length l)%nat -> (J < length l)%nat -> nth I l 0%nat = nth J l 0%nat -> I = J) -> NoDup l.
Proof using. intros H. apply NoDup_alt. intros i j y Hi Hj. apply H; [exact (lookup_lt_Some _ _ _ Hi)|exact (lookup_lt_Some _ _ _ Hj)|]. rewrite (nth_some _ _ 0%nat _ Hi), (nth_some _ _ 0%nat _ Hj). reflexivity. Qed.
Lemma kind_nodes k vs : EllipticModel.el_nodes (kind_fe k vs) = corners_of k.
Proof using. destruct k; reflexivity. Qed.
Lemma kind_dims k vs : k <> Tri3d3 -> EllipticModel.el_dim (kind_fe k vs) = kind_dim k.
Proof using. destruct k; try reflexivity. intros H. contradiction. Qed.
Lemma mesh_regular s : reads_quadrature table (length (m_cells m)) w p x -> hash_order ord -> sorts_by_key srt -> regular_mesh (mesh_fe m) table (m_cells m) w p x D srt ord s.
Proof using Hwf Hreg Hkind.
  intros Hq Ho Hs. split; [apply PropPointMesh.mesh_conn|]. split.
  { intros ns k Hns Hk. apply elem_of_list_lookup in Hns as (e & He). pose proof (lookup_lt_Some _ _ _ He) as Hl. destruct (PropPointMesh.cell_length m e Hwf Hl) as (_ & _ & B). apply B. rewrite (nth_some _ _ [] _ He). exact Hk. }
  split. { rewrite Forall_lookup. intros e ns He. pose proof (lookup_lt_Some _ _ _ He) as Hl. rewrite <- (nth_some _ _ [] _ He). apply nodup_nth. apply PropPointMesh.cell_nodup; assumption. }
  split; [exact Hq|]. split; [exact Ho|]. split; [exact Hs|]. split; [exact mesh_small|].
  intros e ns He. pose proof (lookup_lt_Some _ _ _ He) as Hl. rewrite (mesh_element_at e Hl). destruct (PropPointMesh.cell_length m e Hwf Hl) as (L & _). rewrite (nth_some _ _ [] _ He) in L.
  split; [rewrite kind_nodes; congruence|]. split; [apply kind_dims, Hkind|]. intros wt pt y _. rewrite kind_dims by exact Hkind. apply PropPointMesh.regular_jacobian; assumption.
Qed.
(** gradients at quadrature points are those of the linear function on the cell *)
Lemma mesh_gradient s v e xi G : (e < length (m_cells m))%nat -> interpolation_gradient (fs_element (mesh_fe m) e) s (local_values s v (nth e (m_cells m) [])) xi G -> PropPointMesh.linear_gradient m s v e G.
Proof using Hwf Hkind.
  intros He. rewrite (mesh_element_at e He). intros (P & HP & HG). apply (PropPointMesh.gradient_linear m s v e xi G Hwf He Hkind). intros i c Hi Hc.
  destruct (PropPointMesh.cell_length m e Hwf He) as (L & _). set (el := kind_fe (m_kind m) (cell_vertices m e)) in *.
  assert (Ed : EllipticModel.el_dim el = kind_dim (m_kind m)) by (apply kind_dims, Hkind). assert (En : EllipticModel.el_nodes el = length (nth e (m_cells m) [])) by (unfold el; rewrite kind_nodes; congruence).
  transitivity (summ (kind_dim (m_kind m)) (fun k => summ (EllipticModel.el_nodes el) (fun I => EllipticModel.el_jacobian el xi k i * P I k * nth (s * I + c) (local_values s v (nth e (m_cells m) [])) 0))).
  { apply summ_ext. intros k Hk. rewrite HG. rewrite Ed. rewrite (proj2 (Nat.ltb_lt _ _) Hk), (proj2 (Nat.ltb_lt _ _) Hc). cbn [andb]. rewrite <- summ_l. apply summ_ext. intros. ring. }
  rewrite summ_swap, En. apply summ_ext. intros I HI. destruct (HP I ltac:(lia)) as (H1 & _). specialize (H1 i). rewrite Ed in H1. rewrite <- (H1 Hi). rewrite nth_local by assumption.
  rewrite Rmult_comm, <- summ_l. apply summ_ext. intros. ring.
Qed.
(** an energy-free function has one energy-free gradient per element *)
Lemma mesh_point s e (v : list R) (Z : (nat -> nat -> R) -> Prop) : reads_quadrature table (length (m_cells m)) w p x -> has_points (length (m_cells m)) w -> (e < length (m_cells m))%nat ->
  (forall e ns wt pt y G, m_cells m !! e = Some ns -> In (wt, (pt, y)) (List.combine (w e) (List.combine (p e) (x e))) -> interpolation_gradient (fs_element (mesh_fe m) e) s (local_values s v ns) pt G -> Z G) ->
  exists G, PropPointMesh.linear_gradient m s v e G /\ Z G.
Proof using Hwf Hreg Hkind.
  intros Hq Hp He HZ. destruct (Hq e He) as (L1 & L2 & _). specialize (Hp e He). destruct (w e) as [|wt ws] eqn:Ew; [contradiction|]. destruct (p e) as [|pt ps] eqn:Ep; [discriminate|]. destruct (x e) as [|y ys] eqn:Ex; [discriminate|].
  pose proof (some_nth (m_cells m) e [] He) as El. assert (HG : interpolation_gradient (fs_element (mesh_fe m) e) s (local_values s v (nth e (m_cells m) [])) pt (ugrad (fs_element (mesh_fe m) e) s (local_values s v (nth e (m_cells m) [])) pt)).
  { apply ugrad_spec; rewrite (mesh_element_at e He), kind_dims by exact Hkind; [destruct (m_kind m); cbn; unfold physical; auto|]. apply PropPointMesh.regular_jacobian; assumption. }
  eexists. split; [exact (mesh_gradient s v e pt _ He HG)|]. apply (HZ e _ wt pt y _ El); [|exact HG]. rewrite Ew, Ep, Ex. left. reflexivity.
Qed.
(** the weights of the edge from the node [J] to the node [I] *)
Lemma edge_total n I J f : (I < n)%nat -> (J < n)%nat -> total n (fun K => ((if (K =? I)%nat then 1 else 0) - (if (K =? J)%nat then 1 else 0)) * f K) = f I - f J.
Proof using.
  intros HI HJ. rewrite PropPointMesh.total_summ. rewrite (summ_ext n _ (fun K => (if (K =? I)%nat then f K else 0) + (-1) * (if (K =? J)%nat then f K else 0))).
  2: { intros K _. destruct (K =? I)%nat, (K =? J)%nat; ring. }
  rewrite summ_plus, summ_l, !summ_delta by assumption. ring.
Qed.
Lemma linear_edge s v e G I J c : PropPointMesh.linear_gradient m s v e G -> (e < length (m_cells m))%nat -> (c < s)%nat -> (I < corners_of (m_kind m))%nat -> (J < corners_of (m_kind m))%nat ->
  summ D (fun k => (nth I (cell_vertices m e) (fun _ => 0) k - nth J (cell_vertices m e) (fun _ => 0) k) * G k c) = nth (s * nth I (nth e (m_cells m) []) 0%nat + c) v 0 - nth (s * nth J (nth e (m_cells m) []) 0%nat + c) v 0.
Proof using Hwf.
  intros HG He Hc HI HJ. destruct (PropPointMesh.cell_length m e Hwf He) as (L & Lv & _). set (b := fun K => (if (K =? I)%nat then 1 else 0) - (if (K =? J)%nat then 1 else 0)).
  assert (T : total (length (nth e (m_cells m) [])) b = 0).
  { transitivity (total (corners_of (m_kind m)) (fun K => b K * 1)); [rewrite L, !PropPointMesh.total_summ; apply summ_ext; intros; ring|]. unfold b. rewrite (edge_total _ I J (fun _ => 1)) by assumption. ring. }
  pose proof (HG b c T Hc) as H. unfold PropPointMesh.linear in H. rewrite L in H. unfold b in H at 2. rewrite (edge_total _ I J (fun I => nth (s * nth I (nth e (m_cells m) []) 0%nat + c) v 0)) in H by assumption. rewrite <- H.
  apply summ_ext. intros k Hk. f_equal. unfold mean. rewrite Lv. unfold b. rewrite (edge_total _ I J (fun i => nth i (cell_vertices m e) (fun _ => 0) k)) by assumption. reflexivity.
Qed.
Hypothesis Hq : reads_quadrature table (length (m_cells m)) w p x.
Hypothesis Hpts : has_points (length (m_cells m)) w.
Context (nodes : list nat).
Lemma cell_index cell k : cell ∈ m_cells m -> k ∈ cell -> exists e I, (e < length (m_cells m))%nat /\ nth e (m_cells m) [] = cell /\ (I < corners_of (m_kind m))%nat /\ nth I cell 0%nat = k.
Proof using Hwf.
  intros Hc Hk. apply elem_of_list_lookup in Hc as (e & He). apply elem_of_list_lookup in Hk as (I & HI). pose proof (lookup_lt_Some _ _ _ He) as Le. destruct (PropPointMesh.cell_length m e Hwf Le) as (L & _).
  rewrite (nth_some _ _ [] _ He) in L. exists e, I. split; [exact Le|]. split; [exact (nth_some _ _ [] _ He)|]. split; [rewrite <- L; exact (lookup_lt_Some _ _ _ HI)|exact (nth_some _ _ 0%nat _ HI)].
Qed.
Lemma same_cell cell e : cell ∈ m_cells m -> (e < length (m_cells m))%nat -> nth e (m_cells m) [] = cell -> forall j, j ∈ cell -> exists J, (J < corners_of (m_kind m))%nat /\ nth J cell 0%nat = j.
Proof using Hwf.
  intros Hc He Ec j Hj. apply elem_of_list_lookup in Hj as (J & HJ). exists J. destruct (PropPointMesh.cell_length m e Hwf He) as (L & _). rewrite Ec in L. split; [rewrite <- L; exact (lookup_lt_Some _ _ _ HJ)|exact (nth_some _ _ 0%nat _ HJ)].
Qed.
Lemma anchored_linked : (forall k, (k < length (m_vertices m))%nat -> linked m nodes k) -> anchored (mesh_fe m) (m_cells m) w p x 1 nodes (fun G => forall k, (k < D)%nat -> G k 0%nat = 0).
Proof using Hwf Hreg Hkind Hq Hpts.
  intros Hl v Hv Hvan HZ. cbn [mesh_fe fs_nodes]. rewrite Nat.mul_1_l. intros k Hk. induction (Hl k Hk) as [k Hf|cell j k Hc Hj Hk' _ IH].
  - apply Hvan. exists k, 0%nat. split; [exact Hf|]. lia.
  - destruct (cell_index cell k Hc Hk') as (e & I & He & Ec & HI & EI). destruct (same_cell cell e Hc He Ec j Hj) as (J & HJ & EJ).
    destruct (PropPointMesh.cell_length m e Hwf He) as (_ & _ & B). rewrite Ec in B. specialize (IH (B j Hj)).
    destruct (mesh_point 1 e v _ Hq Hpts He HZ) as (G & HG & HG0). pose proof (linear_edge 1 v e G I J 0 HG He ltac:(lia) HI HJ) as E. rewrite Ec, EI, EJ, !Nat.mul_1_l, !Nat.add_0_r in E. rewrite IH in E.
    rewrite (summ_ext D _ (fun _ => 0)) in E by (intros i Hi; rewrite (HG0 i Hi); ring). rewrite summ_zero in E. lra.
Qed.
(** the displacement of one vertex, with the others fixed, has strain unless it is zero *)
Lemma held_vertex (b : nat -> R) (a : nat -> R) (y : nat -> R) : (forall i c, (i < D)%nat -> (c < D)%nat -> b i * a c + b c * a i = 0) -> (forall c, (c < D)%nat -> summ D (fun k => y k * (b k * a c)) = a c) -> forall c, (c < D)%nat -> a c = 0.
Proof using.
  intros Hs Hy. set (t := summ D (fun k => y k * b k)). set (z := summ D (fun k => y k * a k)).
  assert (Ht : forall c, (c < D)%nat -> t * a c = a c). { intros c Hc. rewrite <- (Hy c Hc) at 2. unfold t. rewrite Rmult_comm, <- summ_l. apply summ_ext. intros. ring. }
  assert (Ha : forall c, (c < D)%nat -> a c + b c * z = 0).
  { intros c Hc. rewrite <- (Ht c Hc). unfold t, z. rewrite (Rmult_comm _ (a c)), <- !summ_l, <- summ_plus. rewrite (summ_ext D _ (fun _ => 0)); [apply summ_zero|]. intros i Hi. replace (a c * (y i * b i) + b c * (y i * a i)) with (y i * (b i * a c + b c * a i)) by ring. rewrite (Hs i c Hi Hc). ring. }
  assert (Hz : z + t * z = 0).
  { unfold z at 1, t. rewrite (Rmult_comm _ z), <- summ_l, <- summ_plus. rewrite (summ_ext D _ (fun _ => 0)); [apply summ_zero|]. intros i Hi. pose proof (Ha i Hi) as H. replace (y i * a i + z * (y i * b i)) with (y i * (a i + b i * z)) by ring. rewrite H. ring. }
  assert (Hz' : t * z = z). { unfold z. rewrite <- summ_l. apply summ_ext. intros i Hi. rewrite <- (Ht i Hi) at 2. ring. }
  assert (Z : z = 0) by lra. intros c Hc. pose proof (Ha c Hc) as H. rewrite Z in H. lra.
Qed.
Lemma anchored_held : (forall k, (k < length (m_vertices m))%nat -> held m nodes k) -> anchored (mesh_fe m) (m_cells m) w p x D nodes (fun G => forall i j, (i < D)%nat -> (j < D)%nat -> strain G i j = 0).
Proof using Hwf Hreg Hkind Hq Hpts.
  intros Hl v Hv Hvan HZ. cbn [mesh_fe fs_nodes]. intros r Hr. assert (HD : (0 < D)%nat) by (destruct mesh_small as [E|[E|E]]; rewrite E; lia). destruct (split_index D r _ HD Hr) as (k & c & Hk & Hc & ->).
  clear Hr. revert c Hc. specialize (Hl k Hk). clear Hk. induction Hl as [k Hf|cell k Hcell Hk' _ IH]; intros c Hc.
  - apply Hvan. exists k, c. split; [exact Hf|]. auto.
  - destruct (cell_index cell k Hcell Hk') as (e & I & He & Ec & HI & EI). destruct (PropPointMesh.cell_length m e Hwf He) as (L & Lv & _). 
    assert (Hdup := PropPointMesh.cell_nodup m e Hreg He). rewrite L, Ec in Hdup. rewrite Ec in L.
    set (a := fun c => nth (D * k + c) v 0). change (a c = 0).
    destruct (mesh_point D e v _ Hq Hpts He HZ) as (G & HG & HG0).
    (* the gradient *)
    assert (HB : exists b, forall i c, (i < D)%nat -> (c < D)%nat -> G i c = b i * a c).
    { assert (HC : forall i, (i < D)%nat -> exists bi, forall c, (c < D)%nat -> G i c = bi * a c).
      { intros i Hi. destruct (PropPointMesh.directions m e i Hwf Hreg He Hkind Hi) as (d & T & X). exists (d I). intros q Hq'. pose proof (HG d q T Hq') as E.
        rewrite (summ_ext _ _ (fun k => if (k =? i)%nat then G k q else 0)) in E. 2: { intros j Hj. rewrite (X j Hj). destruct (j =? i)%nat; ring. }
        rewrite (summ_delta _ i (fun k => G k q)) in E by exact Hi. rewrite E. unfold PropPointMesh.linear. rewrite Ec, L. rewrite PropPointMesh.total_summ.
        rewrite (summ_ext _ _ (fun K => if (K =? I)%nat then d K * a q else 0)). 1: { rewrite (summ_delta _ I (fun K => d K * a q)) by exact HI. reflexivity. }
        intros K HK. destruct (Nat.eqb_spec K I) as [->|N]; [rewrite EI; reflexivity|]. rewrite (IH (nth K cell 0%nat)); [ring| | |exact Hq'].
        - apply (elem_of_list_lookup_2 cell K), some_nth. lia.
        - intros EK. apply N, Hdup; [exact HK|exact HI|congruence]. }
      destruct (finite_choice D _ HC (or_introl HD)) as (b & Hb). exists b. intros i q Hi Hq'. exact (Hb i Hi q Hq'). }
    destruct HB as (b & Hb). assert (exists J, (J < corners_of (m_kind m))%nat /\ J <> I) as (J & HJ & NJ).
    { destruct I; [exists 1%nat|exists 0%nat]; (split; [destruct (m_kind m); cbn; lia|lia]). }
    apply (held_vertex b a (fun k => nth I (cell_vertices m e) (fun _ => 0) k - nth J (cell_vertices m e) (fun _ => 0) k)); [| |exact Hc].
    + intros i q Hi Hq'. pose proof (HG0 i q Hi Hq') as S. unfold strain in S. rewrite (Hb i q Hi Hq'), (Hb q i Hq' Hi) in S. lra.
    + intros q Hq'. pose proof (linear_edge D v e G I J q HG He Hq' HI HJ) as E. rewrite Ec, EI in E. rewrite (IH (nth J cell 0%nat)) in E; [|apply (elem_of_list_lookup_2 cell J), some_nth; lia| |exact Hq'].
      * rewrite (summ_ext D _ (fun i => (nth I (cell_vertices m e) (fun _ => 0) i - nth J (cell_vertices m e) (fun _ => 0) i) * G i q)) by (intros i Hi; rewrite (Hb i q Hi Hq'); reflexivity). rewrite E. unfold a. ring.
      * intros EJ. apply NJ, Hdup; [exact HJ|exact HI|congruence].
Qed.
End mesh.

(** C105 for the Poisson problem on a mesh of nondegenerate triangles in the plane or tetrahedra, with any rule of positive weights: it is enough that every node is connected to a fixed one *)
Theorem C105_poisson_mesh {Data'} (default_data' : Data') umax m (table : q_table vec unit) (table' : q_table vec Data') w p x w' p' x' srt ord source nodes is_zero u0 cws ws vws ws' :
  well_formed m -> PropPointMesh.regular_mesh m -> m_kind m <> Tri3d3 -> hash_order ord -> sorts_by_key srt -> (forall x, is_zero x = true <-> x = 0) ->
  reads_quadrature table (length (m_cells m)) w p x -> reads_quadrature table' (length (m_cells m)) w' p' x' -> has_points (length (m_cells m)) w -> (forall e wt, (e < length (m_cells m))%nat -> In wt (w e) -> 0 < wt) ->
  (forall k, k ∈ nodes -> exists cell, cell ∈ m_cells m /\ k ∈ cell) -> (forall k, (k < length (m_vertices m))%nat -> linked m nodes k) -> length u0 = length (m_vertices m) ->
  poisson_solved origin default_data' umax (mesh_fe m) table table' (m_cells m) w p x (kind_dim (m_kind m)) w' p' x' srt ord source nodes is_zero u0 cws ws vws ws'.
Proof.
  intros Hwf Hreg Hk Ho Hs Hz Hq Hq' Hp Hw Hn Hl Hu. apply C105_poisson; try assumption.
  - apply mesh_regular; assumption.
  - apply (anchored_linked m table); assumption.
Qed.
Print Assumptions C105_poisson_mesh.

(** C105 for linear elasticity: it is enough that every node is held by fixed nodes, cell by cell. Not necessary: rigid motions of larger parts can be excluded too *)
Theorem C105_elasticity_mesh {Data'} params (default_data' : Data') umax m (table : q_table vec (R * R)) (table' : q_table vec Data') w p x w' p' x' srt ord source nodes is_zero u0 cws ws vws ws' :
  well_formed m -> PropPointMesh.regular_mesh m -> m_kind m <> Tri3d3 -> hash_order ord -> sorts_by_key srt -> (forall x, is_zero x = true <-> x = 0) ->
  reads_quadrature table (length (m_cells m)) w p x -> reads_quadrature table' (length (m_cells m)) w' p' x' -> has_points (length (m_cells m)) w -> (forall e wt, (e < length (m_cells m))%nat -> In wt (w e) -> 0 < wt) ->
  (forall e y, (e < length (m_cells m))%nat -> In y (x e) -> stable (kind_dim (m_kind m)) y) ->
  (forall k, k ∈ nodes -> exists cell, cell ∈ m_cells m /\ k ∈ cell) -> (forall k, (k < length (m_vertices m))%nat -> held m nodes k) -> length u0 = (kind_dim (m_kind m) * length (m_vertices m))%nat ->
  elasticity_solved origin params default_data' umax (mesh_fe m) table table' (m_cells m) w p x (kind_dim (m_kind m)) w' p' x' srt ord source nodes is_zero u0 cws ws vws ws'.
Proof.
  intros Hwf Hreg Hk Ho Hs Hz Hq Hq' Hp Hw Hy Hn Hl Hu. apply C105_elasticity; try assumption.
  - apply mesh_regular; assumption.
  - apply (anchored_held m table); assumption.
Qed.
Print Assumptions C105_elasticity_mesh.

(** C105: Lame parameters of a material with positive Young's modulus and Poisson's ratio between -1 and 1/2 are stable in one, two and three dimensions *)
Theorem C105_young_poisson d young poisson : small d -> 0 < young -> -1 < poisson < 1/2 -> stable d (lame_from_young_poisson young poisson).
Proof.
  intros Hd Hy (H1 & H2). unfold stable, lame_from_young_poisson. cbn [fst snd]. assert (0 < / (1 + poisson)) by (apply Rinv_0_lt_compat; lra). assert (0 < / (1 - 2 * poisson)) by (apply Rinv_0_lt_compat; lra).
  split; [apply Rdiv_lt_0_compat; lra|].
  match goal with |- 0 < ?t => replace t with (young * / (1 + poisson) * / (1 - 2 * poisson) * (1 - 2 * poisson + INR d * poisson)) by (field; lra) end.
  apply Rmult_lt_0_compat; [repeat apply Rmult_lt_0_compat; assumption|]. destruct Hd as [-> | [-> | ->]]; simpl INR; lra.
Qed.
Print Assumptions C105_young_poisson.

(** the two triangles with a common vertex, with the rule of one point: one fixed node for the Poisson problem; for elasticity two nodes of one and the second node of the other triangle; steel, gravity *)
Definition is_zeroR (y : R) : bool := if Req_EM_T y 0 then true else false.
Lemma is_zeroR_spec y : is_zeroR y = true <-> y = 0.
Proof. unfold is_zeroR. destruct (Req_EM_T y 0); split; congruence. Qed.
Example C105_example source u0 u1 cws ws ws1 vws ws' : length u0 = 5%nat -> length u1 = 10%nat ->
  exists t t1, uniform_from (pt [-1/3; -1/3] :: []) (2 :: []) (tt :: []) = Ok t /\ uniform_from (pt [-1/3; -1/3] :: []) (2 :: []) (lame_from_young_poisson 210 (3/10) :: []) = Ok t1 /\
  poisson_solved origin tt 77 (mesh_fe two_triangles) (uniform_table t) (uniform_table t) [[0; 1; 2]; [1; 3; 4]]%nat (fun _ => 2 :: []) (fun _ => (pt [-1/3; -1/3] :: [])) (fun _ => (tt :: [])) 2
    (fun _ => 2 :: []) (fun _ => (pt [-1/3; -1/3] :: [])) (fun _ => (tt :: [])) key_sort (fun _ l => l) source (0%nat :: []) is_zeroR u0 cws ws vws ws' /\
  elasticity_solved origin (0, 0) tt 77 (mesh_fe two_triangles) (uniform_table t1) (uniform_table t) [[0; 1; 2]; [1; 3; 4]]%nat (fun _ => 2 :: []) (fun _ => (pt [-1/3; -1/3] :: [])) (fun _ => (lame_from_young_poisson 210 (3/10) :: [])) 2
    (fun _ => 2 :: []) (fun _ => (pt [-1/3; -1/3] :: [])) (fun _ => (tt :: [])) key_sort (fun _ l => l) (fun _ _ i => nth i [0; -981/100] 0) [0; 1; 3]%nat is_zeroR u1 cws ws1 vws ws'.
Proof.
  intros L0 L1. destruct PropPointMesh.two_triangles_ok as (W & Hr & _). destruct (uniform_from (pt [-1/3; -1/3] :: []) (2 :: []) (tt :: [])) as [t| |] eqn:E; [|discriminate|discriminate].
  destruct (uniform_from (pt [-1/3; -1/3] :: []) (2 :: []) (lame_from_young_poisson 210 (3/10) :: [])) as [t1| |] eqn:E1; [|discriminate|discriminate]. exists t, t1. split; [reflexivity|]. split; [reflexivity|].
  pose proof (proj1 (proj2 (C78_tables [] [] [] [] _ _ _ 2)) t E) as Q. pose proof (proj1 (proj2 (C78_tables [] [] [] [] _ _ _ 2)) t1 E1) as Q1.
  assert (P : has_points 2 (fun _ => 2 :: [])) by (intros e _; discriminate). assert (Hw : forall e wt, (e < 2)%nat -> In wt (2 :: []) -> 0 < wt) by (intros e wt _ [<-|[]]; lra).
  assert (C0 : [0; 1; 2]%nat ∈ m_cells two_triangles) by left. assert (C1 : [1; 3; 4]%nat ∈ m_cells two_triangles) by (right; left).
  split.
  - apply (C105_poisson_mesh tt 77 two_triangles (uniform_table t) (uniform_table t)); [exact W|exact Hr|discriminate|intros k s; reflexivity|apply key_sort_ok|exact is_zeroR_spec|exact Q|exact Q|exact P|exact Hw| | |exact L0].
    + intros k Hk. apply elem_of_list_singleton in Hk as ->. exists [0; 1; 2]%nat. split; [exact C0|left].
    + assert (L : forall k, k ∈ [0; 1; 2]%nat -> linked two_triangles (0%nat :: []) k) by (intros k Hk; apply (linked_cell _ _ _ 0 k C0); [left|exact Hk|apply linked_fixed; left]).
      assert (L' : forall k, k ∈ [1; 3; 4]%nat -> linked two_triangles (0%nat :: []) k) by (intros k Hk; apply (linked_cell _ _ _ 1 k C1); [left|exact Hk|apply L; right; left]).
      intros k Hk. cbn in Hk. destruct k as [|[|[|[|[|k]]]]]; [apply L; left|apply L; right; left|apply L; right; right; left|apply L'; right; left|apply L'; right; right; left|lia].
  - apply (C105_elasticity_mesh (0, 0) tt 77 two_triangles (uniform_table t1) (uniform_table t)); [exact W|exact Hr|discriminate|intros k s; reflexivity|apply key_sort_ok|exact is_zeroR_spec|exact Q1|exact Q|exact P|exact Hw| | | |exact L1].
    + intros e y _ [<-|[]]. apply C105_young_poisson; [right; left; reflexivity|lra|lra].
    + intros k Hk. repeat (apply elem_of_cons in Hk as [-> | Hk]); [exists [0; 1; 2]%nat|exists [0; 1; 2]%nat|exists [1; 3; 4]%nat|inversion Hk]; (split; [assumption|repeat (first [left | right])]).
    + assert (F : forall k, k ∈ [0; 1; 3]%nat -> held two_triangles [0; 1; 3]%nat k) by (intros k Hk; apply held_fixed, Hk).
      intros k Hk. cbn in Hk. destruct k as [|[|[|[|[|k]]]]]; [apply F; left|apply F; right; left| |apply F; right; right; left| |lia].
      * apply (held_cell _ _ _ 2 C0); [right; right; left|]. intros j Hj N. apply F. repeat (apply elem_of_cons in Hj as [-> | Hj]); [left|right; left|destruct (N eq_refl)|inversion Hj].
      * apply (held_cell _ _ _ 4 C1); [right; right; left|]. intros j Hj N. apply F. repeat (apply elem_of_cons in Hj as [-> | Hj]); [right; left|right; right; left|destruct (N eq_refl)|inversion Hj].
Qed.

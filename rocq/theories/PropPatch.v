(** C108: the patch test. In a state of uniform deformation no force acts on nodes inside the mesh. *)
From stdpp Require Import base list list_numbers sets.
From Coq Require Import Reals Lia Lra Psatz FunctionalExtensionality.
From Coquelicot Require Import Coquelicot.
From Verif Require Import Prelude NestedVecModel ParadisModel VectorModel VectorSpec VectorProofs ParadisSpec CsrModel CsrSpec CsrProofs CsrPattern PropVector PropCsr.
From Verif Require Import MaterialModel EllipticModel PropMaterial PropObjective PropElliptic PropEllipticOps PropMass GlobalModel PropGlobal PropGlobalForms SolveProofs PropSolve PropBalance.
From Verif Require Import ElementModel ElementSpec QuadratureModel QuadPolyN RuleProofs PropCanonical ElementSpaceModel PropBalanceMesh PatchCells PatchHex PatchHexCells.
From Verif Require Import ReorderModel MeshModel MeshSpec PropMesh.
Import ListNotations.
Local Open Scope R_scope.
Local Notation vec := (nat -> R).
Local Notation mat := (nat -> nat -> R).

(** * specification *)
(** different faces with the same nodes list them in opposite directions *)
Definition oriented (kd : conn_kind) (cells : list (list nat)) (reversals : list (list nat)) : Prop :=
  forall f c l f' c' l', is_face kd cells f c l -> is_face kd cells f' c' l' -> f' ≡ₚ f -> (c, l) <> (c', l') -> exists r, In r reversals /\ f' = map (fun j => nth j f 0%nat) r.
(** the Jacobians of all cells preserve orientation *)
Definition positive_cells {Data} (el : ElementModel.element) (vertices : list point) (cells : list (list nat)) (w : nat -> list R) (p : nat -> list point) (x : nat -> list Data) : Prop :=
  forall e cell wt pt y, cells !! e = Some cell -> In (wt, (pt, y)) (List.combine (w e) (List.combine (p e) (x e))) -> 0 < determinant (ElementModel.el_dim el) (ElementModel.el_jacobian el (map (fun a => nth a vertices zero_point) cell) pt).
(** the rules of all cells integrate polynomials over the reference element, up to a common factor *)
Definition rules_match (el : ElementModel.element) (S : exps -> Prop) (W : R) (elems : nat) (w : nat -> list R) (p : nat -> list point) : Prop :=
  forall e m, (e < elems)%nat -> S m -> rule_integrate (w e, p e) (monomial m) = W * over_reference el (monomial m).
(** element type, its connectivity, the polynomials that its quadrature rules have to integrate, and the orders in which neighbours list the nodes of a common face *)
Definition patch_types : list (ElementModel.element * conn_kind * (exps -> Prop) * list (list nat)) :=
  [(tri3, tri3d2_kind, total_degree 2 0, edge2_reversals); (tri6, tri6_kind, total_degree 2 1, edge3_reversals); (quad4, quad4d2_kind, each_degree 2 1, edge2_reversals);
   (quad9, quad9_kind, each_degree 2 2, edge3_reversals); (tet4, tet4_kind, total_degree 3 0, tri3_reversals); (tet10, tet10_kind, total_degree 3 1, tri6_reversals);
   (hex8, hex8_kind, each_degree 3 2, quad4_reversals); (hex20, hex20_kind, each_degree 3 3, quad8_reversals); (hex27, hex27_kind, each_degree 3 3, quad9_reversals)].

(** * sums over pairs cancel *)
Lemma cancel n (g : nat -> R) (P : nat -> nat -> bool) :
  (forall i, (i < n)%nat -> g i <> 0 -> exists j, (j < n)%nat /\ P i j = true /\ forall j', (j' < n)%nat -> P i j' = true -> j' = j) ->
  (forall i j, P i j = P j i) -> (forall i j, (i < n)%nat -> (j < n)%nat -> P i j = true -> g j = - g i) -> summ n g = 0.
Proof.
  intros U Sy Op. set (T := summ n (fun i => summ n (fun j => if P i j then g i else 0))).
  assert (E : summ n g = T).
  { apply PropMaterial.summ_ext. intros i Hi. destruct (Req_dec (g i) 0) as [Z|Z].
    - rewrite Z. symmetry. apply summ_zero'. intros j _. destruct (P i j); reflexivity.
    - destruct (U i Hi Z) as (j & Hj & Pj & Uj). rewrite (PropMaterial.summ_ext n _ (fun j' => if (j' =? j)%nat then g i else 0)); [symmetry; exact (summ_delta n j (fun _ => g i) Hj)|].
      intros j' Hj'. destruct (Nat.eqb_spec j' j) as [->|N]; [rewrite Pj; reflexivity|]. destruct (P i j') eqn:Q; [|reflexivity]. elim N. apply Uj; assumption. }
  assert (F : T = - T).
  { unfold T at 1. rewrite summ_swap. transitivity (summ n (fun i => summ n (fun j => -1 * (if P i j then g i else 0)))).
    - apply PropMaterial.summ_ext. intros i Hi. apply PropMaterial.summ_ext. intros j Hj. rewrite (Sy j i). destruct (P i j) eqn:Q; [rewrite (Op i j Hi Hj Q); ring|ring].
    - unfold T. rewrite (PropMaterial.summ_ext n _ (fun i => -1 * summ n (fun j => if P i j then g i else 0))) by (intros; rewrite summ_l; reflexivity). rewrite summ_l. ring. }
  lra.
Qed.

(** * faces of cells *)
Definition table_of (kd : conn_kind) (table : list (list nat)) : Prop :=
  ck_num_faces kd = length table /\ (forall l, (l < length table)%nat -> ck_face kd l = Some (nth l table []) /\ NoDup (nth l table []) /\ forall j, In j (nth l table []) -> (j < ck_size kd)%nat).
Definition face_nodes (table : list (list nat)) (cells : list (list nat)) (c l : nat) : list nat := map (fun j => nth j (nth c cells []) 0%nat) (nth l table []).

Lemma face_iff kd table cells f c l : table_of kd table -> cells_of_kind kd cells -> is_face kd cells f c l <-> (c < length cells)%nat /\ (l < length table)%nat /\ f = face_nodes table cells c l.
Proof.
  intros (En & Ht) Hc. unfold is_face. rewrite En. split.
  - intros (Hl & cell & t & Ecell & Et & HF). destruct (Ht l Hl) as (Et' & _). rewrite Et in Et'. injection Et' as ->. assert (Hlc : (c < length cells)%nat) by (apply lookup_lt_Some in Ecell; exact Ecell). split; [exact Hlc|]. split; [exact Hl|].
    unfold face_nodes. rewrite (some_nth cells c [] Hlc) in Ecell. injection Ecell as ->. clear -HF. induction HF as [|j v t f Hj _ IH]; [reflexivity|]. cbn [map]. f_equal; [|exact IH].
    assert (Hlj : (j < length cell)%nat) by (apply lookup_lt_Some in Hj; exact Hj). rewrite (some_nth cell j 0%nat Hlj) in Hj. injection Hj as ->. reflexivity.
  - intros (Hlc & Hl & ->). destruct (Ht l Hl) as (Et & _ & Hb). split; [exact Hl|]. exists (nth c cells []), (nth l table []). split; [apply some_nth, Hlc|]. split; [exact Et|].
    assert (Lc : length (nth c cells []) = ck_size kd). { unfold cells_of_kind in Hc. rewrite Forall_forall in Hc. apply Hc, (elem_of_list_lookup_2 cells c), some_nth, Hlc. }
    unfold face_nodes. clear -Hb Lc. induction (nth l table []) as [|j t IH]; constructor; [apply some_nth; rewrite Lc; apply Hb; left; reflexivity|]. apply IH. intros i Hi. apply Hb. right. exact Hi.
Qed.
Lemma face_nodup kd table cells c l : table_of kd table -> cells_of_kind kd cells -> (forall cell, cell ∈ cells -> NoDup cell) -> (c < length cells)%nat -> (l < length table)%nat -> NoDup (face_nodes table cells c l).
Proof.
  intros (En & Ht) Hc Hn Hlc Hl. destruct (Ht l Hl) as (_ & Hd & Hb). assert (Ec : nth c cells [] ∈ cells) by (apply (elem_of_list_lookup_2 cells c), some_nth, Hlc). assert (Nc := Hn _ Ec).
  assert (Lc : length (nth c cells []) = ck_size kd). { unfold cells_of_kind in Hc. rewrite Forall_forall in Hc. apply Hc, Ec. }
  unfold face_nodes. revert Hd Hb. generalize (nth l table []). intros t Hd. induction Hd as [|j t Hj _ IH]; intros Hb; cbn [map]; constructor; [|apply IH; intros i Hi; apply Hb; right; exact Hi].
  intros Hin. apply elem_of_list_In, in_map_iff in Hin. destruct Hin as (i & Ei & Hi). apply Hj. assert (i = j) as <-; [|apply elem_of_list_In, Hi].
  apply (NoDup_lookup (nth c cells []) i j (nth j (nth c cells []) 0%nat) Nc); [rewrite <- Ei|]; apply some_nth; rewrite Lc; apply Hb; [right; exact Hi|left; reflexivity].
Qed.
(** reordering by two lists of positions *)
Lemma positions_unique (f : list nat) r r' : NoDup f -> (forall j, In j r -> (j < length f)%nat) -> (forall j, In j r' -> (j < length f)%nat) -> map (fun j => nth j f 0%nat) r = map (fun j => nth j f 0%nat) r' -> r = r'.
Proof.
  intros Hf. revert r'. induction r as [|j r IH]; intros [|j' r'] H H' E; try discriminate E; [reflexivity|]. cbn [map] in E. injection E as E0 E. f_equal.
  - apply (NoDup_lookup f j j' (nth j f 0%nat) Hf); [|rewrite E0]; apply some_nth; [apply H|apply H']; left; reflexivity.
  - apply IH; [intros i Hi; apply H; right; exact Hi|intros i Hi; apply H'; right; exact Hi|exact E].
Qed.

Section patch.
Context (el : ElementModel.element) (kd : conn_kind) (table : list (list nat)) (load : list point -> nat -> nat -> R) (rev : list (list nat)) (n d : nat).
Hypothesis Htable : table_of kd table.
Hypothesis Hlength : forall l, (l < length table)%nat -> length (nth l table []) = n.
Hypothesis Hrev : reverses n d load rev.
Hypothesis Hrange : forall r j, In r rev -> In j r -> (j < n)%nat.
Context (cells : list (list nat)) (pos : nat -> point) (a k : nat).
Hypothesis Hcells : cells_of_kind kd cells.
Hypothesis Hnodup : forall cell, cell ∈ cells -> NoDup cell.
Hypothesis Horiented : oriented kd cells rev.
Hypothesis Hinner : forall f c l, is_boundary_face kd cells f c l -> a ∉ f.
Hypothesis Hk : (k < d)%nat.
Let nodes c l := face_nodes table cells c l.
Let force (f : list nat) := summ (length f) (fun j => if (nth j f 0%nat =? a)%nat then load (map pos f) j k else 0).

Lemma force_absent f : a ∉ f -> force f = 0.
Proof using. intros H. unfold force. apply summ_zero'. intros j Hj. destruct (Nat.eqb_spec (nth j f 0%nat) a) as [E|]; [|reflexivity]. elim H. rewrite <- E. apply (elem_of_list_lookup_2 f j), some_nth, Hj. Qed.
Lemma force_reversed f r : length f = n -> In r rev -> force (map (fun j => nth j f 0%nat) r) = - force f.
Proof using Hrev Hrange Hk.
  intros Lf Hr. destruct (Hrev r Hr) as (Lr & Hp & Hl & _). unfold force. rewrite map_length, Lr, Lf.
  transitivity (summ n (fun j => (fun i => -1 * (if (nth i f 0%nat =? a)%nat then load (map pos f) i k else 0)) (nth j r 0%nat))).
  - apply PropMaterial.summ_ext. intros j Hj. cbv beta. assert (E : nth j (map (fun i => nth i f 0%nat) r) 0%nat = nth (nth j r 0%nat) f 0%nat).
    { rewrite (nth_indep _ 0%nat (nth 0%nat f 0%nat)) by (rewrite map_length; lia). exact (map_nth (fun i => nth i f 0%nat) r 0%nat j). }
    rewrite E. destruct (_ =? a)%nat; [|ring]. rewrite map_map. rewrite (map_ext_in _ (vx (map pos f))).
    + rewrite (Hl (map pos f) j k) by (first [rewrite map_length; exact Lf|assumption]). ring.
    + intros i Hi. unfold vx. rewrite (nth_indep _ _ (pos 0%nat)) by (rewrite map_length, Lf; exact (Hrange r i Hr Hi)). symmetry. exact (map_nth pos f 0%nat i).
  - rewrite (Hp (fun i => -1 * (if (nth i f 0%nat =? a)%nat then load (map pos f) i k else 0))), summ_l. ring.
Qed.
Lemma inner_cancel : summ (length cells) (fun c => summ (length table) (fun l => force (nodes c l))) = 0.
Proof using Hcells Hinner Hk Hlength Hnodup Horiented Hrange Hrev Htable.
  destruct (Nat.eq_dec (length table) 0) as [Z|Z]; [apply summ_zero'; intros c _; rewrite Z; reflexivity|]. set (L := length table) in *. set (node i := nodes (i / L) (i mod L)).
  assert (Div : forall i, (i < L * length cells)%nat -> (i / L < length cells)%nat /\ (i mod L < L)%nat).
  { intros i Hi. split; [apply Nat.div_lt_upper_bound; assumption|apply Nat.mod_upper_bound, Z]. }
  assert (Dec : forall c l, (l < L)%nat -> ((L * c + l) / L = c /\ (L * c + l) mod L = l)%nat).
  { intros c l Hl. destruct (divmod_block L c l Hl) as (E1 & E2). split; assumption. }
  rewrite (PropMaterial.summ_ext (length cells) _ (fun c => summ L (fun l => force (node (L * c + l)%nat)))).
  2: { intros c _. apply PropMaterial.summ_ext. intros l Hl. unfold node. destruct (Dec c l Hl) as (-> & ->). reflexivity. }
  rewrite <- (summ_blocks L (length cells) (fun i => force (node i))).
  assert (Face : forall i, (i < L * length cells)%nat -> is_face kd cells (node i) (i / L) (i mod L)) by (intros i Hi; apply (face_iff kd table); [assumption..|]; destruct (Div i Hi); repeat split; assumption).
  assert (Ln : forall i, (i < L * length cells)%nat -> length (node i) = n). { intros i Hi. unfold node, nodes, face_nodes. rewrite map_length. apply Hlength, Div, Hi. }
  assert (Nn : forall i, (i < L * length cells)%nat -> NoDup (node i)). { intros i Hi. destruct (Div i Hi). apply (face_nodup kd); assumption. }
  assert (Inj : forall i j, ((i / L)%nat, (i mod L)%nat) = ((j / L)%nat, (j mod L)%nat) -> i = j). { intros i j E. injection E as E1 E2. rewrite (Nat.div_mod i L Z), (Nat.div_mod j L Z), E1, E2. reflexivity. }
  assert (Turn : forall i j, (i < L * length cells)%nat -> (j < L * length cells)%nat -> i <> j -> node j ≡ₚ node i -> exists r, In r rev /\ node j = map (fun m => nth m (node i) 0%nat) r).
  { intros i j Hi Hj N E. apply (Horiented (node i) (i / L)%nat (i mod L)%nat (node j) (j / L)%nat (j mod L)%nat); [apply Face, Hi|apply Face, Hj|exact E|]. intros E'. apply N, Inj, E'. }
  apply (cancel _ _ (fun i j => bool_decide (i <> j /\ node j ≡ₚ node i))).
  - intros i Hi Hg. assert (Ha : a ∈ node i). { destruct (decide (a ∈ node i)) as [H|H]; [exact H|]. elim Hg. apply force_absent, H. }
    assert (HE : exists j, (j < L * length cells)%nat /\ i <> j /\ node j ≡ₚ node i).
    { destruct (decide (Exists (fun j => i <> j /\ node j ≡ₚ node i) (seq 0 (L * length cells)))) as [H|H].
      - apply Exists_exists in H. destruct H as (j & Hj & H). apply elem_of_seq in Hj. exists j. split; [lia|exact H].
      - exfalso. apply (Hinner (node i) (i / L)%nat (i mod L)%nat); [|exact Ha]. split; [apply Face, Hi|]. intros f c l Hf Ef. apply (face_iff kd table) in Hf; [|assumption..]. destruct Hf as (Hc & Hl & ->). destruct (Dec c l Hl) as (D1 & D2).
        destruct (decide (i = (L * c + l)%nat)) as [->|N]; [split; symmetry; assumption|]. elim H. apply Exists_exists. exists (L * c + l)%nat. split; [apply elem_of_seq; fold L in Hl; nia|]. split; [exact N|].
        unfold node at 1. rewrite D1, D2. exact Ef. }
    destruct HE as (j & Hj & N & E). exists j. split; [exact Hj|]. split; [apply bool_decide_eq_true; split; assumption|]. intros j' Hj' P. apply bool_decide_eq_true in P as (N' & E').
    destruct (Turn i j Hi Hj N E) as (r & Hr & Er). destruct (Turn i j' Hi Hj' N' E') as (r' & Hr' & Er'). destruct (decide (j' = j)) as [D|D]; [exact D|exfalso].
    destruct (Turn j j' Hj Hj' (not_eq_sym D)) as (r2 & Hr2 & Er2); [rewrite E, E'; reflexivity|]. destruct (Hrev r Hr) as (Lr & _ & _ & Hcomp). apply (Hcomp r2 Hr2).
    replace (map (fun m => nth m r 0%nat) r2) with r'; [exact Hr'|]. apply (positions_unique (node i)).
    + apply Nn, Hi.
    + intros m Hm. rewrite Ln by exact Hi. exact (Hrange r' m Hr' Hm).
    + intros m Hm. rewrite Ln by exact Hi. apply in_map_iff in Hm. destruct Hm as (m' & <- & Hm'). apply (Hrange r _ Hr). apply nth_In. rewrite Lr. exact (Hrange r2 m' Hr2 Hm').
    + rewrite <- Er', Er2, Er, map_map. apply map_ext_in. intros m Hm. rewrite (nth_indep _ 0%nat (nth 0%nat (node i) 0%nat)) by (rewrite map_length, Lr; exact (Hrange r2 m Hr2 Hm)). exact (map_nth (fun j => nth j (node i) 0%nat) r 0%nat m).
  - intros i j. apply bool_decide_ext. split; intros (N & E); (split; [exact (not_eq_sym N)|symmetry; exact E]).
  - intros i j Hi Hj P. apply bool_decide_eq_true in P as (N & E). destruct (Turn i j Hi Hj N E) as (r & Hr & ->). apply force_reversed; [apply Ln, Hi|exact Hr].
Qed.
End patch.

(** * rules and polynomials *)
Lemma rule_from_monomials (S : exps -> Prop) dim over m W (q : rule point) : TableMoments.moments dim over m -> (forall e, S e -> dim = 2%nat -> snd e = 0%nat) ->
  (forall e, S e -> rule_integrate q (monomial e) = W * over (monomial e)) -> rule_matches S over W (zipped q).
Proof.
  intros M D H f (p & P & Ef). assert (E : f = peval p) by (apply functional_extensionality, Ef). subst f. clear Ef. rewrite M by (eapply List.Forall_impl; [|exact P]; intros c Hc; apply D, Hc).
  induction P as [|c p Hc _ IH]; cbn [fold_right]; [rewrite total_zero_fun; ring|]. rewrite Rmult_plus_distr_l, <- IH. change (peval (c :: p)) with (fun x => fst c * monomial (snd c) x + peval p x). rewrite total_plus_fun, total_scale_fun, <- integrate_total, (H _ Hc).
  assert (E : over (monomial (snd c)) = m (snd c)).
  { assert (Q : monomial (snd c) = peval ((1, snd c) :: nil)) by (apply functional_extensionality; intros x; unfold peval; cbn [fold_right fst snd]; ring). rewrite Q, M; [cbn [fold_right fst snd]; ring|]. constructor; [apply D, Hc|constructor]. }
  rewrite E. ring.
Qed.
Lemma qsum_total {Data} (w : list R) (p : list point) (x : list Data) h : length p = length w -> length x = length w -> qsum (List.combine w (List.combine p x)) (fun wt pt _ => wt * h pt) = total (zipped (w, p)) h.
Proof.
  revert p x. induction w as [|wt w IH]; intros [|pt p] [|y x] L1 L2; try discriminate; [reflexivity|]. cbn [List.combine]. unfold total, zipped. cbn [List.combine fst snd map]. change (qsum ((wt, (pt, y)) :: List.combine w (List.combine p x)) (fun wt pt _ => wt * h pt)) with (wt * h pt + qsum (List.combine w (List.combine p x)) (fun wt pt _ => wt * h pt)).
  rewrite IH by (cbn in *; congruence). unfold total, zipped, sum. cbn [fold_right fst snd]. reflexivity.
Qed.

(** * the assembled forces *)
Section forces.
Context {Data : Type} (origin : point) (default_data : Data) (umax : nat) (el : ElementModel.element) (vertices : list point) (cells : list (list nat)) (table : q_table point Data).
Context (s : nat) (w : nat -> list R) (p : nat -> list point) (x : nat -> list Data).
Context (kd : conn_kind) (ft : list (list nat)) (load : list point -> nat -> nat -> R) (rev : list (list nat)) (n : nat) (Sp : exps -> Prop) (over : (point -> R) -> R) (W : R).
Hypothesis Hs : (0 < s)%nat.
Hypothesis Hel : In el all_elements.
Hypothesis Hcells : element_cells el vertices cells.
Hypothesis Hplaced : placed el vertices cells.
Hypothesis Hq : reads_quadrature table (length cells) w p x.
Hypothesis Hpos : positive_cells el vertices cells w p x.
Hypothesis Hmatch : forall e, (e < length cells)%nat -> rule_matches Sp over W (zipped (w e, p e)).
Hypothesis Hident : cell_identity el (length (el_ref el)) ft load Sp over.
Hypothesis Htable : table_of kd ft.
Hypothesis Hsize : ck_size kd = length (el_ref el).
Hypothesis Hlength : forall l, (l < length ft)%nat -> length (nth l ft []) = n.
Hypothesis Hrev : reverses n (ElementModel.el_dim el) load rev.
Hypothesis Hrange : forall r j, In r rev -> In j r -> (j < n)%nat.
Hypothesis Horiented : oriented kd cells rev.
Let X a := nth a vertices zero_point.
Let N := length vertices.
Let d := ElementModel.el_dim el.
Let sp := element_space el vertices cells.
Context (y0 : Data) (A : mat) (b : vec) (u : list R).
Hypothesis Huniform : forall e y, (e < length cells)%nat -> In y (x e) -> y = y0.
Hypothesis Hu : length u = (s * N)%nat.
Hypothesis Haffine : forall a c, (a < N)%nat -> (c < s)%nat -> value_at s u a c = b c + summ d (fun k => A c k * X a k).

Lemma patch_regular : regular_mesh sp table cells w p x d PropCsr.key_sort (fun _ l => l) s.
Proof using Hcells Hel Hpos Hq.
  apply space_regular; [exact Hel|exact Hcells|exact Hq|intros k l; reflexivity|exact PropCsr.key_sort_ok|]. intros e cell wt pt y He Hin. apply Rgt_not_eq. exact (Hpos e cell wt pt y He Hin).
Qed.
Lemma patch_gradient e wt pt y : (e < length cells)%nat -> In (wt, (pt, y)) (List.combine (w e) (List.combine (p e) (x e))) ->
  ugrad (fs_element sp e) s (local_values s u (nth e cells [])) pt = fun k c => if ((k <? d) && (c <? s))%nat then A c k else 0.
Proof using Haffine Hcells Hel Hplaced Hpos Hq Hs Hu.
  intros He Hin. apply functional_extensionality. intros k. apply functional_extensionality. intros c. assert (Hm := patch_regular). destruct (mesh_el sp table s cells w p x d _ _ Hm e He) as (En & Ed & _).
  destruct (k <? d)%nat eqn:Ek; [|unfold ugrad; rewrite Ed, Ek; reflexivity]. destruct (c <? s)%nat eqn:Ec; [|unfold ugrad; rewrite Ec, andb_false_r; reflexivity]. cbn [andb].
  apply Nat.ltb_lt in Ek, Ec. rewrite (gradient_values sp table s cells w p x d _ _ Hs Hm u e pt k c Hu He Ek Ec).
  rewrite (PropMaterial.summ_ext _ _ (fun I => grads (fs_element sp e) pt I k * b c + summ d (fun m => grads (fs_element sp e) pt I k * X (nth I (nth e cells []) 0%nat) m * A c m))).
  2: { intros I HI. rewrite Haffine; [rewrite Rmult_plus_distr_l; f_equal; rewrite <- summ_l; apply PropMaterial.summ_ext; intros; ring|exact (mesh_node_in sp table s cells w p x d _ _ Hm e I He HI)|exact Ec]. }
  rewrite summ_plus, summ_r, (constant_gradient sp table s cells w p x d _ _ Hs Hm (space_flat el vertices cells Hel Hcells w p x) e wt pt y k (conj He Hin) Ek).
  rewrite summ_swap. rewrite (PropMaterial.summ_ext d _ (fun m => if (m =? k)%nat then A c m else 0)); [rewrite (summ_delta d k (fun m => A c m) Ek); ring|].
  intros m Hmd. rewrite summ_r, (position_gradient sp table s cells w p x d _ _ Hs Hm X (space_positions el vertices cells Hel Hcells w p x Hplaced) e wt pt y k m (conj He Hin) Ek Hmd).
  destruct (m =? k)%nat; ring.
Qed.
(** integrals over the cells as sums over their faces *)
Lemma cell_faces_sum e a k : (e < length cells)%nat -> (k < d)%nat ->
  summ (length (nth e cells [])) (fun I => if (nth I (nth e cells []) 0 =? a)%nat then W * local_load load ft (map X (nth e cells [])) I k else 0) =
  W * summ (length ft) (fun l => summ (length (face_nodes ft cells e l)) (fun j => if (nth j (face_nodes ft cells e l) 0 =? a)%nat then load (map X (face_nodes ft cells e l)) j k else 0)).
Proof using Hcells Hsize Htable.
  intros He Hk. set (cell := nth e cells []). assert (Lc : length cell = ck_size kd) by (rewrite Hsize; apply Hcells, (elem_of_list_lookup_2 cells e), some_nth, He).
  rewrite <- summ_l. unfold local_load.
  transitivity (summ (length ft) (fun l => summ (length (nth l ft [])) (fun j => summ (length cell) (fun I => if (I =? nth j (nth l ft []) 0)%nat then W * (if (nth I cell 0 =? a)%nat then load (map (vx (map X cell)) (nth l ft [])) j k else 0) else 0)))).
  - rewrite (PropMaterial.summ_ext (length cell) _ (fun I => summ (length ft) (fun l => summ (length (nth l ft [])) (fun j => if (I =? nth j (nth l ft []) 0)%nat then W * (if (nth I cell 0 =? a)%nat then load (map (vx (map X cell)) (nth l ft [])) j k else 0) else 0)))).
    + rewrite summ_swap. apply PropMaterial.summ_ext. intros l _. apply summ_swap.
    + intros I _. destruct (nth I cell 0 =? a)%nat.
      * rewrite <- summ_l. apply PropMaterial.summ_ext. intros l _. rewrite <- summ_l. apply PropMaterial.summ_ext. intros j _. rewrite (Nat.eqb_sym I). destruct (_ =? I)%nat; ring.
      * symmetry. apply summ_zero'. intros l _. apply summ_zero'. intros j _. destruct (_ =? _)%nat; ring.
  - apply PropMaterial.summ_ext. intros l Hl. destruct (proj2 Htable l Hl) as (_ & _ & Hb). unfold face_nodes. fold cell. rewrite map_length, <- summ_l. apply PropMaterial.summ_ext. intros j Hj.
    assert (Hj' : (nth j (nth l ft []) 0 < length cell)%nat) by (rewrite Lc; apply Hb, nth_In, Hj).
    rewrite (summ_delta (length cell) (nth j (nth l ft []) 0%nat) (fun I => W * (if (nth I cell 0 =? a)%nat then load (map (vx (map X cell)) (nth l ft [])) j k else 0)) Hj').
    assert (E : nth j (map (fun j => nth j cell 0%nat) (nth l ft [])) 0%nat = nth (nth j (nth l ft []) 0%nat) cell 0%nat).
    { rewrite (nth_indep _ 0%nat (nth 0%nat cell 0%nat)) by (rewrite map_length; exact Hj). exact (map_nth (fun i => nth i cell 0%nat) (nth l ft []) 0%nat j). }
    rewrite E, map_map. rewrite (map_ext_in (fun i => X (nth i cell 0%nat)) (vx (map X cell))); [reflexivity|]. intros i Hi. unfold vx. rewrite (nth_indep _ _ (X 0%nat)) by (rewrite map_length, Lc; apply Hb, Hi). symmetry. exact (map_nth X cell 0%nat i).
Qed.
Lemma point_flux e wt pt y I k : (e < length cells)%nat -> In (wt, (pt, y)) (List.combine (w e) (List.combine (p e) (x e))) -> (k < d)%nat ->
  Rabs (determinant (EllipticModel.el_dim (fs_element sp e)) (EllipticModel.el_jacobian (fs_element sp e) pt)) * grads (fs_element sp e) pt I k = flux el (map X (nth e cells [])) I k pt.
Proof using Hcells Hpos.
  intros He Hin Hk. assert (Ee := some_nth cells e [] He). assert (Hp := Hpos e _ wt pt y Ee Hin). unfold grads, sp. rewrite (space_element el vertices cells Hcells e _ Ee).
  cbn [element_fe EllipticModel.el_dim EllipticModel.el_jacobian EllipticModel.el_gradients]. fold d. rewrite (proj2 (Nat.ltb_lt k d) Hk), Rabs_pos_eq by (apply Rlt_le; exact Hp). unfold flux. fold d. rewrite <- summ_l. apply PropMaterial.summ_ext. intros m _. fold X in Hp |- *. fold d in Hp. field. apply Rgt_not_eq. exact Hp.
Qed.
Lemma patch_forces op vws ws : exists f, (assemble_vector Rplus 0 umax vws (elliptic_vec_asm origin default_data umax sp table s op u ws)).2 = Ok f /\ length f = (s * N)%nat /\
  forall a c, (a < N)%nat -> (c < s)%nat -> (forall g c l, is_boundary_face kd cells g c l -> a ∉ g) -> value_at s f a c = 0.
Proof using All.
  assert (Hm := patch_regular). destruct (virtual_work origin default_data umax sp table s cells w p x d _ _ Hs Hm op vws ws u Hu) as (f & Ef & Lf & Hf). exists f. split; [exact Ef|]. split; [exact Lf|].
  intros a c Ha Hc Hin. specialize (Hf (nodal s N (fun a' i => if (a' =? a)%nat then if (i =? c)%nat then 1 else 0 else 0))). change (fs_nodes sp) with N in Hf. rewrite dot_nodal in Hf.
  assert (EL : summ N (fun a' => summ s (fun i => value_at s f a' i * (if (a' =? a)%nat then if (i =? c)%nat then 1 else 0 else 0))) = value_at s f a c).
  { rewrite (PropMaterial.summ_ext N _ (fun a' => if (a' =? a)%nat then value_at s f a' c else 0)); [exact (summ_delta N a (fun a' => value_at s f a' c) Ha)|]. intros a' _. destruct (a' =? a)%nat; [|apply summ_zero'; intros; ring].
    rewrite (PropMaterial.summ_ext s _ (fun i => if (i =? c)%nat then value_at s f a' i else 0)) by (intros i _; destruct (i =? c)%nat; ring). exact (summ_delta s c (fun i => value_at s f a' i) Hc). }
  rewrite EL in Hf. rewrite Hf. clear EL Hf Ef Lf f. set (G0 := fun k c => if ((k <? d) && (c <? s))%nat then A c k else 0).
  unfold mesh_integral. transitivity (summ (length cells) (fun e => summ d (fun k => op G0 y0 c k * summ (length (nth e cells [])) (fun I => if (nth I (nth e cells []) 0 =? a)%nat then W * local_load load ft (map X (nth e cells [])) I k else 0)))).
  - apply PropMaterial.summ_ext. intros e He. destruct (Hq e He) as (L1 & L2 & _).
    transitivity (qsum (List.combine (w e) (List.combine (p e) (x e))) (fun wt pt _ => wt * summ d (fun k => op G0 y0 c k * summ (length (nth e cells [])) (fun I => if (nth I (nth e cells []) 0 =? a)%nat then flux el (map X (nth e cells [])) I k pt else 0)))).
    + apply qsum_ext. intros wt pt y Hy. rewrite Rmult_assoc. f_equal. assert (Ey : y = y0). { apply (Huniform e y He). apply in_combine_r in Hy. apply in_combine_r in Hy. exact Hy. } subst y.
      rewrite (patch_gradient e wt pt y0 He Hy). fold G0. rewrite (PropMaterial.summ_ext s _ (fun i => if (i =? c)%nat then summ d (fun k => op G0 y0 i k * summ (length (nth e cells [])) (fun I => if (nth I (nth e cells []) 0 =? a)%nat then grads (fs_element sp e) pt I k else 0)) else 0)).
      * rewrite (summ_delta s c (fun i => summ d (fun k => op G0 y0 i k * summ (length (nth e cells [])) (fun I => if (nth I (nth e cells []) 0 =? a)%nat then grads (fs_element sp e) pt I k else 0))) Hc).
        rewrite <- summ_l. apply PropMaterial.summ_ext. intros k Hk. rewrite <- Rmult_assoc, (Rmult_comm (Rabs _)), Rmult_assoc. f_equal. rewrite <- summ_l. apply PropMaterial.summ_ext. intros I _. destruct (_ =? a)%nat; [apply (point_flux e wt pt y0 I k He Hy Hk)|ring].
      * intros i Hi. destruct (i =? c)%nat eqn:Ei.
        -- apply PropMaterial.summ_ext. intros k Hk. f_equal. rewrite (gradient_nodal sp table s cells w p x d _ _ Hm _ e pt k i He Hk Hi). apply PropMaterial.summ_ext. intros I _. rewrite Ei. destruct (_ =? a)%nat; ring.
        -- apply summ_zero'. intros k Hk. rewrite (gradient_nodal sp table s cells w p x d _ _ Hm _ e pt k i He Hk Hi), Ei. rewrite summ_zero'; [ring|]. intros I _. destruct (_ =? a)%nat; ring.
    + rewrite (qsum_ext _ _ (fun wt pt _ => summ d (fun k => op G0 y0 c k * summ (length (nth e cells [])) (fun I => if (nth I (nth e cells []) 0 =? a)%nat then wt * flux el (map X (nth e cells [])) I k pt else 0)))).
      2: { intros wt pt _ _. rewrite <- summ_l. apply PropMaterial.summ_ext. intros k _. rewrite <- Rmult_assoc, (Rmult_comm wt), Rmult_assoc. f_equal. rewrite <- summ_l. apply PropMaterial.summ_ext. intros I _. destruct (_ =? a)%nat; ring. }
      rewrite qsum_summ. apply PropMaterial.summ_ext. intros k Hk. rewrite qsum_l. f_equal. rewrite qsum_summ. apply PropMaterial.summ_ext. intros I HI. destruct (_ =? a)%nat.
      * rewrite (qsum_total (w e) (p e) (x e) (flux el (map X (nth e cells [])) I k) L1 L2).
        assert (Lc : length (nth e cells []) = length (el_ref el)) by (apply Hcells, (elem_of_list_lookup_2 cells e), some_nth, He).
        apply Hident; [apply Hmatch, He|rewrite map_length; exact Lc|rewrite <- Lc; exact HI|exact Hk].
      * rewrite (qsum_ext _ _ (fun wt _ _ => 0 * wt)) by (intros; ring). rewrite qsum_l. ring.
  - rewrite summ_swap. apply summ_zero'. intros k Hk. rewrite summ_l. rewrite (PropMaterial.summ_ext (length cells) _ (fun e => W * summ (length ft) (fun l => summ (length (face_nodes ft cells e l)) (fun j => if (nth j (face_nodes ft cells e l) 0 =? a)%nat then load (map X (face_nodes ft cells e l)) j k else 0)))) by (intros e He; apply cell_faces_sum; assumption).
    rewrite summ_l, (inner_cancel kd ft load rev n d Htable Hlength Hrev Hrange cells X a k); [ring|..|exact Horiented|exact Hin|exact Hk].
    + unfold cells_of_kind. apply Forall_forall. intros cell Hcell. rewrite Hsize. apply Hcells, Hcell.
    + intros cell Hcell. apply Hcells, Hcell.
Qed.
End forces.

(** * element types *)
Definition patch_parts (el : ElementModel.element) (kd : conn_kind) (Sp : exps -> Prop) (rev : list (list nat)) : Prop :=
  exists ft load n over dim m, In el all_elements /\ cell_identity el (length (el_ref el)) ft load Sp over /\ table_of kd ft /\ ck_size kd = length (el_ref el) /\ In kd all_kinds /\
    (forall l, (l < length ft)%nat -> length (nth l ft []) = n) /\ reverses n (ElementModel.el_dim el) load rev /\ (forall r j, In r rev -> In j r -> (j < n)%nat) /\
    TableMoments.moments dim over m /\ (forall e, Sp e -> dim = 2%nat -> snd e = 0%nat) /\ forall f, over_reference el f = over f.
Ltac listed := cbn [In all_elements all_kinds]; repeat (first [left; reflexivity|right]).
Ltac check_table := split; [reflexivity|]; intros l H; cbn in H; repeat (destruct l as [|l]; [split; [reflexivity|split; [repeat (constructor; [set_solver|]); constructor|intros j Hj; cbn in Hj |- *; lia]]|]); lia.
Ltac check_lengths := intros l H; cbn in H; repeat (destruct l as [|l]; [reflexivity|]); lia.
Ltac check_range := intros r j H H'; cbn in H; repeat (destruct H as [<-|H]; [cbn in H'; lia|]); destruct H.
Ltac check_flat := intros e H D; first [discriminate D|destruct H as (_ & H & _); apply H; lia].
Ltac parts ft load n over dim Id Rv M := exists ft, load, n, over, dim; eexists; split; [listed|]; split; [exact Id|]; split; [check_table|]; split; [reflexivity|]; split; [listed|]; split; [check_lengths|]; split; [exact Rv|]; split; [check_range|]; split; [exact M|]; split; [check_flat|reflexivity].
Lemma patch_type_parts el kd Sp rev : In (el, kd, Sp, rev) patch_types -> patch_parts el kd Sp rev.
Proof.
  intros H. unfold patch_types in H. cbn [In] in H.
  destruct H as [H|H]; [injection H as <- <- <- <-|].
  { parts tri3_faces edge2_load 2%nat on_triangle 2%nat tri3_cell edge2_reverses TableMoments.triangle_moments. }
  destruct H as [H|H]; [injection H as <- <- <- <-|].
  { parts tri6_faces edge3_load 3%nat on_triangle 2%nat tri6_cell edge3_reverses TableMoments.triangle_moments. }
  destruct H as [H|H]; [injection H as <- <- <- <-|].
  { parts quad4_faces edge2_load 2%nat on_square 2%nat quad4_cell edge2_reverses TableMoments.square_moments. }
  destruct H as [H|H]; [injection H as <- <- <- <-|].
  { parts quad9_faces edge3_load 3%nat on_square 2%nat quad9_cell edge3_reverses TableMoments.square_moments. }
  destruct H as [H|H]; [injection H as <- <- <- <-|].
  { parts tet4_faces tri3_load 3%nat on_tetrahedron 3%nat tet4_cell tri3_reverses TableMoments.tetrahedron_moments. }
  destruct H as [H|H]; [injection H as <- <- <- <-|].
  { parts tet10_faces tri6_load 6%nat on_tetrahedron 3%nat tet10_cell tri6_reverses TableMoments.tetrahedron_moments. }
  destruct H as [H|H]; [injection H as <- <- <- <-|].
  { parts hex8_faces (quad_load quad4_moments) 4%nat on_cube 3%nat hex8_cell quad4_reverses TableMoments.cube_moments. }
  destruct H as [H|H]; [injection H as <- <- <- <-|].
  { parts hex20_faces (quad_load quad8_moments) 8%nat on_cube 3%nat hex20_cell quad8_reverses TableMoments.cube_moments. }
  destruct H as [H|H]; [injection H as <- <- <- <-|].
  { parts hex27_faces (quad_load quad9_moments) 9%nat on_cube 3%nat hex27_cell quad9_reverses TableMoments.cube_moments. }
  destruct H.
Qed.

(** C108: for every operator, with or without energy: at nodal values that are an affine function of the positions of the nodes, assembly succeeds and no force acts on a node that is not on the boundary *)
Theorem C108_patch {Data} (origin : point) (default_data : Data) umax el kd Sp rev vertices cells (table : q_table point Data) s w p x W y0 (A : mat) (b : vec) u operator_transpose vws ws :
  In (el, kd, Sp, rev) patch_types -> (0 < s)%nat -> element_cells el vertices cells -> placed el vertices cells -> oriented kd cells rev -> positive_cells el vertices cells w p x ->
  reads_quadrature table (length cells) w p x -> rules_match el Sp W (length cells) w p -> (forall e y, (e < length cells)%nat -> In y (x e) -> y = y0) ->
  length u = (s * length vertices)%nat ->
  (forall a c, (a < length vertices)%nat -> (c < s)%nat -> value_at s u a c = b c + summ (ElementModel.el_dim el) (fun k => A c k * nth a vertices zero_point k)) ->
  exists f vs, (assemble_vector Rplus 0 umax vws (elliptic_vec_asm origin default_data umax (element_space el vertices cells) table s operator_transpose u ws)).2 = Ok f /\ length f = (s * length vertices)%nat /\
    find_boundary_vertices kd cells = Some vs /\ forall a c, (a < length vertices)%nat -> (c < s)%nat -> a ∉ vs -> value_at s f a c = 0.
Proof.
  intros Ht Hs Hc Hp Ho Hpos Hq Hr Hy Hu Ha. destruct (patch_type_parts el kd Sp rev Ht) as (ft & load & n & over & dim & m & Hel & Hid & Htab & Hsize & Hkd & Hlen & Hrev & Hran & Hm & Hd & Hov).
  assert (Hck : cells_of_kind kd cells) by (unfold cells_of_kind; apply Forall_forall; intros cell Hcell; rewrite Hsize; apply Hc, Hcell).
  destruct (C26_boundary_vertices kd cells) as (vs & Evs & _ & Hvs); [|exact Hck|]. { assert (K := kinds_ok). rewrite Forall_forall in K. apply K, elem_of_list_In, Hkd. }
  destruct (patch_forces origin default_data umax el vertices cells table s w p x kd ft load rev n Sp over W Hs Hel Hc Hp Hq Hpos) with (y0 := y0) (A := A) (b := b) (u := u) (op := operator_transpose) (vws := vws) (ws := ws) as (f & Ef & Lf & Hf); try assumption.
  - intros e He. apply (rule_from_monomials Sp dim over m W (w e, p e) Hm Hd). intros q Sq. rewrite (Hr e q He Sq), Hov. reflexivity.
  - exists f, vs. split; [exact Ef|]. split; [exact Lf|]. split; [exact Evs|]. intros a c Hla Hlc Hn. apply Hf; [exact Hla|exact Hlc|]. intros g c' l Hb Hin. apply Hn, Hvs. exists g, c', l. split; assumption.
Qed.
Print Assumptions C108_patch.

(** four triangles around a node inside a square *)
Definition ex_square : list point := [pt [0; 0]; pt [1; 0]; pt [1; 1]; pt [0; 1]; pt [1 / 2; 1 / 4]].
Definition ex_fan : list (list nat) := [[0; 1; 4]; [1; 2; 4]; [2; 3; 4]; [3; 0; 4]]%nat.
Definition ex_centre : q_table point unit := QTable (fun _ => Ok 1%nat) (fun _ _ _ _ => Ok ((pt [-1/3; -1/3] :: []), (2 :: []), (tt :: []))).
Example C108_example :
  In (tri3, tri3d2_kind, total_degree 2 0, edge2_reversals) patch_types /\ element_cells tri3 ex_square ex_fan /\ placed tri3 ex_square ex_fan /\ oriented tri3d2_kind ex_fan edge2_reversals /\
  positive_cells tri3 ex_square ex_fan (fun _ => 2 :: []) (fun _ => pt [-1/3; -1/3] :: []) (fun _ => tt :: []) /\ reads_quadrature ex_centre 4 (fun _ => 2 :: []) (fun _ => pt [-1/3; -1/3] :: []) (fun _ => tt :: []) /\
  rules_match tri3 (total_degree 2 0) 1 4 (fun _ => 2 :: []) (fun _ => pt [-1/3; -1/3] :: []) /\ find_boundary_vertices tri3d2_kind ex_fan = Some [0; 1; 2; 3]%nat.
Proof.
  assert (Hc : element_cells tri3 ex_square ex_fan).
  { intros cell Hcell. apply elem_of_list_In in Hcell. cbn in Hcell. repeat (destruct Hcell as [<-|Hcell]; [split; [reflexivity|split; [repeat (constructor; [set_solver|]); constructor|intros a Ha; apply elem_of_list_In in Ha; cbn in Ha |- *; lia]]|]). destruct Hcell. }
  split; [left; reflexivity|]. split; [exact Hc|]. split; [apply (C106_spaces tri3 ex_square ex_fan ex_centre (fun _ => []) (fun _ => []) (fun _ => []) PropCsr.key_sort (fun _ l => l) 1%nat); [right; left; reflexivity|exact Hc|reflexivity]|].
  split.
  { assert (T : table_of tri3d2_kind tri3_faces) by check_table. assert (K : cells_of_kind tri3d2_kind ex_fan) by (repeat constructor).
    intros f c l f' c' l' H H' E N. apply (face_iff _ tri3_faces) in H; [|exact T|exact K]. apply (face_iff _ tri3_faces) in H'; [|exact T|exact K]. destruct H as (Hc1 & Hl & ->). destruct H' as (Hc' & Hl' & ->). exists [1; 0]%nat. split; [left; reflexivity|]. cbn in Hc1, Hl, Hc', Hl'.
    apply (bool_decide_eq_true_2 _) in E. repeat (destruct c as [|c]; [|try lia]); repeat (destruct l as [|l]; [|try lia]); repeat (destruct c' as [|c']; [|try lia]); repeat (destruct l' as [|l']; [|try lia]); vm_compute in E; first [discriminate E|reflexivity|elim N; reflexivity]. }
  split.
  { intros e cell wt q y He Hin. destruct Hin as [Hin|[]]. injection Hin as <- <- <-. repeat (destruct e as [|e]; [injection He as <-; cbn; unfold pt; cbn; lra|]). discriminate He. }
  split; [intros e He; repeat split; auto|]. split.
  { intros e q He (Hq & Hz & _). destruct q as ((i, j), k). cbn [fst snd] in *. assert (i = 0 /\ j = 0 /\ k = 0)%nat as (-> & -> & ->) by lia.
    change (over_reference tri3 (monomial (0, 0, 0)%nat)) with (on_triangle (monomial (0, 0, 0)%nat)).
    rewrite triangle_centre; [rewrite integrate_total; unfold zipped, centre_triangle, total, sum; cbn; ring|]. apply (Poly_ext _ (fun x => 1 * monomial (0, 0, 0)%nat x)); [intros; ring|]. apply Poly_monomial. unfold total_degree. cbn. lia. }
  vm_compute. reflexivity.
Qed.

(** eight cubes around the node 13 *)
Definition ex_cube (i j k : nat) : list nat := let v := (i + 3 * j + 9 * k)%nat in [v; v + 1; v + 4; v + 3; v + 9; v + 10; v + 13; v + 12]%nat.
Definition ex_cubes : list (list nat) := [ex_cube 0 0 0; ex_cube 1 0 0; ex_cube 0 1 0; ex_cube 1 1 0; ex_cube 0 0 1; ex_cube 1 0 1; ex_cube 0 1 1; ex_cube 1 1 1].
Definition ex_corners : list point := map (fun a => pt [INR (a mod 3)%nat; INR (a / 3 mod 3)%nat; INR (a / 9)%nat]) (seq 0 27).
Lemma oriented_check kd ft cells rev : table_of kd ft -> cells_of_kind kd cells ->
  forallb (fun c => forallb (fun l => forallb (fun c' => forallb (fun l' => let f := face_nodes ft cells c l in let f' := face_nodes ft cells c' l' in
    negb (bool_decide (f' ≡ₚ f)) || ((c =? c')%nat && (l =? l')%nat) || existsb (fun r => bool_decide (f' = map (fun j => nth j f 0%nat) r)) rev) (seq 0 (length ft))) (seq 0 (length cells))) (seq 0 (length ft))) (seq 0 (length cells)) = true -> oriented kd cells rev.
Proof.
  intros T K B f c l f' c' l' H H' E N. apply (face_iff _ ft) in H; [|exact T|exact K]. apply (face_iff _ ft) in H'; [|exact T|exact K]. destruct H as (Hc & Hl & ->). destruct H' as (Hc' & Hl' & ->).
  assert (I : forall n i, (i < n)%nat -> In i (seq 0 n)) by (intros n i Hi; apply in_seq; lia).
  rewrite forallb_forall in B. specialize (B c (I _ _ Hc)). rewrite forallb_forall in B. specialize (B l (I _ _ Hl)). rewrite forallb_forall in B. specialize (B c' (I _ _ Hc')). rewrite forallb_forall in B. specialize (B l' (I _ _ Hl')). cbv zeta in B.
  rewrite (bool_decide_eq_true_2 _ E) in B. cbn [negb orb] in B. apply orb_prop in B. destruct B as [B|B].
  - apply andb_prop in B. destruct B as (B1 & B2). apply Nat.eqb_eq in B1, B2. elim N. congruence.
  - apply existsb_exists in B. destruct B as (r & Hr & B). apply bool_decide_eq_true_1 in B. exists r. split; assumption.
Qed.
Example C108_example_hex : In (hex8, hex8_kind, each_degree 3 2, quad4_reversals) patch_types /\ element_cells hex8 ex_corners ex_cubes /\ placed hex8 ex_corners ex_cubes /\ oriented hex8_kind ex_cubes quad4_reversals /\
  find_boundary_vertices hex8_kind ex_cubes = Some (seq 0 13 ++ seq 14 13).
Proof.
  assert (Hc : element_cells hex8 ex_corners ex_cubes).
  { intros cell Hcell. apply elem_of_list_In in Hcell. cbn in Hcell. repeat (destruct Hcell as [<-|Hcell]; [split; [reflexivity|split; [repeat (constructor; [set_solver|]); constructor|intros a Ha; apply elem_of_list_In in Ha; unfold ex_corners; rewrite map_length, seq_length; cbn in Ha |- *; lia]]|]). destruct Hcell. }
  split; [unfold patch_types; cbn [In]; do 6 right; left; reflexivity|]. split; [exact Hc|].
  split; [apply (C106_spaces hex8 ex_corners ex_cubes ex_centre (fun _ => []) (fun _ => []) (fun _ => []) PropCsr.key_sort (fun _ l => l) 1%nat); [cbn; auto 20|exact Hc|reflexivity]|].
  split; [apply (oriented_check hex8_kind hex8_faces); [check_table|repeat constructor|vm_compute; reflexivity]|]. vm_compute. reflexivity.
Qed.

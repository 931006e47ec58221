(** C89 for meshes of triangles and tetrahedra: interpolation at arbitrary points is linear interpolation at the nearest point of the mesh. *)
From stdpp Require Import base list list_numbers.
From Coq Require Import Reals Lia Lra Psatz.
From Verif Require Import CgModel CgSpec AabbModel AabbSpec MaterialModel EllipticModel PropMaterial PropElliptic PropEllipticOps VectorModel VectorSpec GlobalModel PropGlobal.
From Verif Require Import ElementModel ClosestModel ClosestSpec ClosestProofs PropClosestTet PropSearch PointInterpModel PropPointInterp MeshSpaceModel.
Import ListNotations.
Local Open Scope R_scope.

(** * specification *)
(** linear interpolation of component [c] in the element [e] with barycentric weights [w] *)
Definition linear (m : mesh) (s : nat) (u : list R) (e : nat) (w : nat -> R) (c : nat) : R :=
  total (length (nth e (m_cells m) [])) (fun I => w I * nth (s * nth I (nth e (m_cells m) []) 0%nat + c) u 0).
(** [x] is a point of the element [e] up to [delta], with weights [w] *)
Definition weights_of (delta : R) (m : mesh) (e : nat) (w : nat -> R) (x : vec) : Prop :=
  weighting delta (length (nth e (m_cells m) [])) w /\ veq (kind_dim (m_kind m)) x (mean w (cell_vertices m e)).
(** the points of the mesh *)
Definition in_mesh (m : mesh) (x : vec) : Prop := exists e, (e < length (m_cells m))%nat /\ in_element m e x.

Lemma total_summ n f : total n f = summ n f.
Proof. induction n as [|n IH]; cbn; [reflexivity|]. rewrite IH. reflexivity. Qed.
Lemma mesh_conn m s : has_conn (fs_conn (mesh_fe m) s) (m_cells m).
Proof.
  split; [reflexivity|]. intros i ns E. cbn [ca_count ca_populate fs_conn mesh_fe fs_count fs_populate]. rewrite (nth_some _ _ [] _ E). split; reflexivity.
Qed.
Lemma reference_weights k w xi : total (corners_of k) w = 1 -> veq (corners_of k - 1) xi (mean w (reference_of k)) -> forall I, (I < corners_of k)%nat -> nth I (ElementModel.el_basis (kind_element k) xi) 0 = w I.
Proof.
  assert (T : total 3 w = 1 -> veq 2 xi (mean w (map pt tri3_ref)) -> forall I, (I < 3)%nat -> nth I (tri3_basis xi) 0 = w I).
  { intros W X. pose proof (X 0%nat ltac:(lia)) as X0. pose proof (X 1%nat ltac:(lia)) as X1. unfold mean in X0, X1. cbn [map length tri3_ref total nth] in X0, X1, W. unfold pt in X0, X1. cbn [nth] in X0, X1.
    intros [|[|[|I]]] HI; [| | |lia]; unfold tri3_basis; cbn [nth]; lra. }
  destruct k; cbn [corners_of reference_of kind_element]; [exact T|exact T|]. intros W X I HI. exact (tw4_of_mean w xi W X I HI).
Qed.
Lemma cell_length m e : well_formed m -> (e < length (m_cells m))%nat -> length (nth e (m_cells m) []) = corners_of (m_kind m) /\ length (cell_vertices m e) = corners_of (m_kind m) /\ forall k, k ∈ nth e (m_cells m) [] -> (k < length (m_vertices m))%nat.
Proof.
  intros W He. destruct (W (nth e (m_cells m) []) (nth_In _ _ He)) as (L & B). split; [exact L|]. split; [apply mesh_element_ok; assumption|]. intros k Hk. apply B. apply elem_of_list_In. exact Hk.
Qed.
Lemma mesh_values m s u e : well_formed m -> (e < length (m_cells m))%nat -> length u = (s * length (m_vertices m))%nat -> has_values s u (nth e (m_cells m) []).
Proof. intros W He Hu. apply Forall_forall. intros k Hk. destruct (cell_length m e W He) as (_ & _ & B). specialize (B k Hk). rewrite Hu. nia. Qed.

Lemma cell_vertex m e I : (I < length (nth e (m_cells m) []))%nat -> nth I (cell_vertices m e) (fun _ => 0) = nth (nth I (nth e (m_cells m) []) 0%nat) (m_vertices m) (fun _ => 0).
Proof.
  unfold cell_vertices. generalize (nth e (m_cells m) []). intros ns. revert I. induction ns as [|k ns IH]; intros [|I] H; cbn in *; [lia|lia|reflexivity|]. apply IH. lia.
Qed.

Section mesh.
Context (epsilon : R) (m : mesh) (neighbors : list entry -> vec -> list entry) (umax : nat).
Hypothesis Heps : 0 <= epsilon.
Hypothesis W : well_formed m.
Hypothesis By : by_distance (kind_dim (m_kind m)) neighbors.
Let find := find_closest neighbors (mesh_space epsilon m).
Let D := kind_dim (m_kind m).

Lemma found p : m_cells m <> [] -> exists e xi w x, find p = Some (Some (e, xi)) /\ (e < length (m_cells m))%nat /\ weights_of (2 * epsilon) m e w x /\ nearest D (in_mesh m) p x /\
  forall I, (I < length (nth e (m_cells m) []))%nat -> nth I (ElementModel.el_basis (kind_element (m_kind m)) xi) 0 = w I.
Proof.
  intros Ne. destruct (C88_mesh epsilon m neighbors p Heps W By) as (_ & H). destruct (H Ne) as (e & xi & x & E & He & _ & (w & Hw & X & Y) & N). destruct (cell_length m e W He) as (L1 & L2 & _).
  exists e, xi, w, x. rewrite L2 in Hw, X. split; [exact E|]. split; [exact He|]. split; [split; [rewrite L1; exact Hw|exact Y]|]. split; [intros y (e' & He' & Hy); apply (N e' y He' Hy)|].
  rewrite L1. apply reference_weights; [exact (proj2 Hw)|exact X].
Qed.
Lemma found_range p e xi : find p = Some (Some (e, xi)) -> (e < length (m_cells m))%nat.
Proof.
  intros E. destruct (C88_mesh epsilon m neighbors p Heps W By) as (Z & H). destruct (m_cells m) eqn:Ec; [|rewrite <- Ec in *].
  - specialize (Z eq_refl). unfold find in E. rewrite E in Z. discriminate.
  - destruct (H ltac:(rewrite Ec; discriminate)) as (e' & xi' & x & E' & He & _). unfold find in E. rewrite E in E'. injection E' as <- <-. exact He.
Qed.

(** C89: at every point the interpolated value is the linear interpolation of the nodal values at a point of the mesh (up to the tolerance) that is nearest to it; without cells it is zero *)
Theorem C89_mesh s points u results buf : length results = length points -> length u = (s * length (m_vertices m))%nat ->
  exists rs, mesh_interpolate neighbors epsilon umax m s points u results buf = Some rs /\
    (m_cells m = [] -> List.Forall (fun r => forall c, (c < s)%nat -> r c = 0) rs) /\
    (m_cells m <> [] -> Forall2 (fun p r => exists e w x, (e < length (m_cells m))%nat /\ weights_of (2 * epsilon) m e w x /\ nearest D (in_mesh m) p x /\ forall c, (c < s)%nat -> r c = linear m s u e w c) points rs).
Proof.
  intros Hl Hu. unfold mesh_interpolate. fold find. destruct (C89_values origin umax (mesh_fe m) find s (m_cells m) (mesh_conn m s) found_range points u results buf) as (Ex & Val).
  destruct (proj2 Ex) as (rs & E).
  { split; [symmetry; exact Hl|]. intros p _. destruct (decide (m_cells m = [])) as [Z|Ne].
    - exists None. split; [exact (proj1 (C88_mesh epsilon m neighbors p Heps W By) Z)|discriminate].
    - destruct (found p Ne) as (e & xi & w & x & E & He & _). exists (Some (e, xi)). split; [exact E|]. intros e' xi' [= <- <-]. apply mesh_values; assumption. }
  exists rs. split; [exact E|]. specialize (Val rs E). split.
  - intros Z. clear E Ex Hl. induction Val as [|p r ps rs (V & _) _ IH]; constructor; [|exact IH]. apply V. exact (proj1 (C88_mesh epsilon m neighbors p Heps W By) Z).
  - intros Ne. eapply Forall2_impl; [exact Val|]. cbv beta. intros p r (_ & V). destruct (found p Ne) as (e & xi & w & x & Ef & He & Hw & N & B). exists e, w, x.
    split; [exact He|]. split; [exact Hw|]. split; [exact N|]. intros c Hs. rewrite (V e xi Ef c Hs). unfold field_at, linear. etransitivity; [|symmetry; apply total_summ]. apply summ_ext. intros I HI. f_equal. exact (B I HI).
Qed.

Lemma linear_affine s u e w x A b : (e < length (m_cells m))%nat -> weights_of (2 * epsilon) m e w x ->
  (forall k c, (k < length (m_vertices m))%nat -> (c < s)%nat -> nth (s * k + c) u 0 = b c + summ D (fun i => A c i * nth k (m_vertices m) (fun _ => 0) i)) ->
  forall c, (c < s)%nat -> linear m s u e w c = b c + summ D (fun i => A c i * x i).
Proof.
  intros He ((_ & T) & X) Hu c Hs. destruct (cell_length m e W He) as (L1 & L2 & B). unfold linear. etransitivity; [apply total_summ|]. apply (eq_trans (eq_sym (total_summ _ _))) in T. set (ns := nth e (m_cells m) []) in *.
  rewrite (summ_ext _ _ (fun I => b c * w I + summ D (fun i => A c i * (w I * nth (nth I ns 0%nat) (m_vertices m) (fun _ => 0) i)))).
  2: { intros I HI. rewrite Hu; [|apply B; apply (elem_of_list_lookup_2 ns I), some_nth, HI|exact Hs]. rewrite Rmult_plus_distr_l, <- summ_l. f_equal; [ring|]. apply summ_ext. intros. ring. }
  rewrite summ_plus, summ_l, T, Rmult_1_r. f_equal. rewrite summ_swap. apply summ_ext. intros i Hi. rewrite summ_l. f_equal. rewrite (X i Hi). unfold mean. rewrite L2, <- L1. etransitivity; [|symmetry; apply total_summ]. apply summ_ext. intros I HI. f_equal.
  exact (f_equal (fun v => v i) (eq_sym (cell_vertex m e I HI))).
Qed.
(** C89: affine functions are reproduced: with nodal values A x + b the value at p is A x + b for a nearest point x, so A p + b for points of the mesh *)
Theorem C89_mesh_affine s points u results buf A b : length results = length points -> length u = (s * length (m_vertices m))%nat -> m_cells m <> [] ->
  (forall k c, (k < length (m_vertices m))%nat -> (c < s)%nat -> nth (s * k + c) u 0 = b c + summ D (fun i => A c i * nth k (m_vertices m) (fun _ => 0) i)) ->
  exists rs, mesh_interpolate neighbors epsilon umax m s points u results buf = Some rs /\
    Forall2 (fun p r => (exists e w x, (e < length (m_cells m))%nat /\ weights_of (2 * epsilon) m e w x /\ nearest D (in_mesh m) p x /\ forall c, (c < s)%nat -> r c = b c + summ D (fun i => A c i * x i)) /\
      (in_mesh m p -> forall c, (c < s)%nat -> r c = b c + summ D (fun i => A c i * p i))) points rs.
Proof.
  intros Hl Hu Ne HA. destruct (C89_mesh s points u results buf Hl Hu) as (rs & E & _ & F). exists rs. split; [exact E|]. eapply Forall2_impl; [exact (F Ne)|]. cbv beta. intros p r (e & w & x & He & Hw & N & V).
  assert (V' : forall c, (c < s)%nat -> r c = b c + summ D (fun i => A c i * x i)) by (intros c Hs; rewrite (V c Hs); exact (linear_affine s u e w x A b He Hw HA c Hs)).
  split; [exists e, w, x; auto|]. intros Hp c Hs. rewrite (V' c Hs). f_equal. apply summ_ext. intros i Hi. f_equal. specialize (N p Hp). rewrite (proj2 (dist2_zero D p p)) in N by (intros j _; reflexivity).
  pose proof (dist2_nonneg D p x). assert (Z : dist2 D p x = 0) by lra. apply dist2_zero in Z. symmetry. exact (Z i Hi).
Qed.
End mesh.
Print Assumptions C89_mesh.
Print Assumptions C89_mesh_affine.

(** C89: without tolerance the values are between the smallest and the largest nodal value, also for points far outside *)
Theorem C89_mesh_bounds m neighbors umax s points u results buf lo hi : well_formed m -> by_distance (kind_dim (m_kind m)) neighbors ->
  length results = length points -> length u = (s * length (m_vertices m))%nat -> m_cells m <> [] ->
  (forall k c, (k < length (m_vertices m))%nat -> (c < s)%nat -> lo c <= nth (s * k + c) u 0 <= hi c) ->
  exists rs, mesh_interpolate neighbors 0 umax m s points u results buf = Some rs /\ List.Forall (fun r => forall c, (c < s)%nat -> lo c <= r c <= hi c) rs.
Proof.
  intros W By Hl Hu Ne HB. destruct (C89_mesh 0 m neighbors umax (Rle_refl 0) W By s points u results buf Hl Hu) as (rs & E & _ & F). exists rs. split; [exact E|]. specialize (F Ne). clear E Hl.
  induction F as [|p r ps rs (e & w & x & He & ((Wp & T) & _) & _ & V) _ IH]; constructor; [|exact IH]. intros c Hs. rewrite (V c Hs). unfold linear. destruct (cell_length m e W He) as (_ & _ & B). set (ns := nth e (m_cells m) []) in *.
  assert (Bd : forall I, (I < length ns)%nat -> w I * lo c <= w I * nth (s * nth I ns 0%nat + c) u 0 <= w I * hi c).
  { intros I HI. specialize (Wp I HI). specialize (HB (nth I ns 0%nat) c (B _ (elem_of_list_lookup_2 ns I _ (some_nth _ _ _ HI))) Hs). nra. }
  assert (Ec : forall z, total (length ns) (fun I => w I * z) = z).
  { intros z. transitivity (total (length ns) (fun I => z * w I)); [apply total_ext; intros; ring|]. rewrite total_scale. transitivity (z * 1); [f_equal; exact T|ring]. }
  split; [rewrite <- (Ec (lo c))|rewrite <- (Ec (hi c))]; apply total_le; intros I HI; apply Bd; exact HI.
Qed.
Print Assumptions C89_mesh_bounds.

(** ** gradients and conforming meshes *)
(** no vertex is an affine combination of the others *)
Definition independent (D : nat) (vs : list vec) : Prop := forall d, total (length vs) d = 0 -> veq D (mean d vs) (fun _ => 0) -> forall i, (i < length vs)%nat -> d i = 0.
Definition regular_mesh (m : mesh) : Prop := forall e, (e < length (m_cells m))%nat -> independent (kind_dim (m_kind m)) (cell_vertices m e).
(** the common points of two cells belong to the part spanned by their common vertices *)
Definition conforming (m : mesh) : Prop := forall e e' x, (e < length (m_cells m))%nat -> (e' < length (m_cells m))%nat -> in_element m e x -> in_element m e' x ->
  exists w, weights_of 0 m e w x /\ forall I, (I < length (nth e (m_cells m) []))%nat -> w I <> 0 -> nth I (nth e (m_cells m) []) 0%nat ∈ nth e' (m_cells m) [].

Lemma total_sub n f g : total n (fun i => f i - g i) = total n f - total n g.
Proof. induction n as [|n IH]; cbn; [ring|]. rewrite IH. ring. Qed.
Lemma same_weights D vs v w : independent D vs -> total (length vs) v = total (length vs) w -> veq D (mean v vs) (mean w vs) -> forall i, (i < length vs)%nat -> v i = w i.
Proof.
  intros Hi T X i Hl. enough (v i - w i = 0) by lra. apply (Hi (fun i => v i - w i)); [rewrite total_sub; lra| |exact Hl]. intros k Hk. specialize (X k Hk). unfold mean in *.
  rewrite (total_ext _ _ (fun i => v i * nth i vs (fun _ => 0) k - w i * nth i vs (fun _ => 0) k)) by (intros; ring). rewrite total_sub. lra.
Qed.
Lemma total_delta n j f : (j < n)%nat -> total n (fun i => if (i =? j)%nat then f i else 0) = f j.
Proof. intros H. etransitivity; [apply total_summ|]. apply summ_delta. exact H. Qed.
Lemma total_zero' n f : (forall i, (i < n)%nat -> f i = 0) -> total n f = 0.
Proof. intros H. rewrite (total_ext n f (fun _ => 0 * 0)) by (intros; rewrite H by assumption; ring). rewrite total_scale. ring. Qed.
Lemma total_swap n k f : total n (fun i => total k (fun j => f i j)) = total k (fun j => total n (fun i => f i j)).
Proof. induction n as [|n IH]; cbn [total]; [symmetry; apply total_zero'; reflexivity|]. rewrite IH. symmetry. apply total_add. Qed.

Lemma cell_nodup m e : regular_mesh m -> (e < length (m_cells m))%nat -> forall I J, (I < length (nth e (m_cells m) []))%nat -> (J < length (nth e (m_cells m) []))%nat ->
  nth I (nth e (m_cells m) []) 0%nat = nth J (nth e (m_cells m) []) 0%nat -> I = J.
Proof.
  intros Hr He I J HI HJ E. destruct (decide (I = J)) as [|N]; [assumption|exfalso]. set (ns := nth e (m_cells m) []) in *.
  assert (L : length (cell_vertices m e) = length ns) by apply map_length.
  set (d := fun i : nat => (if (i =? I)%nat then 1 else 0) - (if (i =? J)%nat then 1 else 0)).
  assert (Z : d I = 0).
  { apply (Hr e He d); [| |rewrite L; exact HI].
    - rewrite L. unfold d. rewrite total_sub. rewrite (total_delta _ I (fun _ => 1)), (total_delta _ J (fun _ => 1)) by assumption. ring.
    - intros k _. unfold mean. rewrite L. set (g := fun i => nth i (cell_vertices m e) (fun _ => 0) k).
      rewrite (total_ext _ _ (fun i => (if (i =? I)%nat then g i else 0) - (if (i =? J)%nat then g i else 0))) by (intros i _; unfold d; fold (g i); destruct (i =? I)%nat, (i =? J)%nat; ring).
      rewrite total_sub, !total_delta by assumption. unfold g. pose proof (f_equal (fun v => v k) (cell_vertex m e I HI)) as EI. pose proof (f_equal (fun v => v k) (cell_vertex m e J HJ)) as EJ. cbv beta in EI, EJ. fold ns in EI, EJ.
      rewrite E in EI. lra. }
  unfold d in Z. rewrite Nat.eqb_refl, (proj2 (Nat.eqb_neq I J) N) in Z. lra.
Qed.
(** weights of a cell whose vertices are all in another cell, as weights of the other cell *)
Definition transfer (ns ns' : list nat) (w : nat -> R) (J : nat) : R := total (length ns) (fun I => if (nth I ns 0 =? nth J ns' 0)%nat then w I else 0).
Lemma transfer_total ns ns' w f : (forall I J, (I < length ns')%nat -> (J < length ns')%nat -> nth I ns' 0%nat = nth J ns' 0%nat -> I = J) -> (forall I, (I < length ns)%nat -> w I <> 0 -> nth I ns 0%nat ∈ ns') ->
  total (length ns') (fun J => transfer ns ns' w J * f (nth J ns' 0%nat)) = total (length ns) (fun I => w I * f (nth I ns 0%nat)).
Proof.
  intros Inj Sup. unfold transfer. rewrite (total_ext _ _ (fun J => total (length ns) (fun I => if (nth I ns 0 =? nth J ns' 0)%nat then w I * f (nth J ns' 0%nat) else 0))).
  2: { intros J _. rewrite Rmult_comm, <- total_scale. apply total_ext. intros I _. destruct (nth I ns 0 =? nth J ns' 0)%nat; ring. }
  rewrite total_swap. apply total_ext. intros I HI. destruct (Req_EM_T (w I) 0) as [Z|N].
  - rewrite Z. rewrite (total_zero' (length ns')); [ring|]. intros J _. destruct (nth I ns 0 =? nth J ns' 0)%nat; ring.
  - specialize (Sup I HI N). apply elem_of_list_lookup in Sup as (J & HJ). assert (LJ : (J < length ns')%nat) by (apply lookup_lt_Some in HJ; exact HJ).
    assert (EJ : nth J ns' 0%nat = nth I ns 0%nat) by (apply nth_some; exact HJ).
    rewrite (total_ext _ _ (fun J' => if (J' =? J)%nat then w I * f (nth J' ns' 0%nat) else 0)); [rewrite (total_delta _ J (fun J' => w I * f (nth J' ns' 0%nat))) by exact LJ; rewrite EJ; reflexivity|].
    intros J' HJ'. destruct (Nat.eqb_spec J' J) as [->|Nj]; [rewrite EJ, Nat.eqb_refl; reflexivity|]. destruct (Nat.eqb_spec (nth I ns 0%nat) (nth J' ns' 0%nat)) as [E|]; [|reflexivity]. exfalso. apply Nj. apply Inj; [assumption..|]. congruence.
Qed.
Lemma transfer_nonneg ns ns' w J : (forall I, (I < length ns)%nat -> 0 <= w I) -> 0 <= transfer ns ns' w J.
Proof. intros H. apply total_nonneg. intros I HI. destruct (_ =? _)%nat; [apply H, HI|lra]. Qed.

(** C89: on a conforming mesh of nondegenerate cells the interpolated function is well defined: at every point of every cell it is the linear interpolation in that cell, whichever cell the search finds *)
Theorem C89_conforming m neighbors umax s points u results buf : well_formed m -> by_distance (kind_dim (m_kind m)) neighbors -> regular_mesh m -> conforming m ->
  length results = length points -> length u = (s * length (m_vertices m))%nat ->
  exists rs, mesh_interpolate neighbors 0 umax m s points u results buf = Some rs /\
    Forall2 (fun p r => forall e w, (e < length (m_cells m))%nat -> weights_of 0 m e w p -> forall c, (c < s)%nat -> r c = linear m s u e w c) points rs.
Proof.
  intros W By Hr Hc Hl Hu. destruct (C89_mesh 0 m neighbors umax (Rle_refl 0) W By s points u results buf Hl Hu) as (rs & E & _ & F). exists rs. split; [exact E|].
  destruct (decide (m_cells m = [])) as [Z|Ne].
  { rewrite Z in *. apply (Forall2_impl (fun p r => True)).
    - assert (Len : length rs = length points).
      { unfold mesh_interpolate in E. destruct (C89_values origin umax (mesh_fe m) _ s (m_cells m) (mesh_conn m s) (found_range 0 m neighbors (Rle_refl 0) W By) points u results buf) as (_ & V). symmetry. exact (Forall2_length _ _ _ (V rs E)). }
      apply Forall2_same_length_lookup_2; [symmetry; exact Len|]. auto.
    - intros p r _ e w He. cbn in He. lia. }
  eapply Forall2_impl; [exact (F Ne)|]. cbv beta. intros p r (e' & w' & x & He' & (Hw' & Hx) & N & V) e w He ((Wp & T) & X) c Hs. rewrite (V c Hs). clear V F E.
  set (D := kind_dim (m_kind m)) in *. destruct (cell_length m e W He) as (L & Lv & B). destruct (cell_length m e' W He') as (L' & Lv' & B').
  assert (Hp : in_element m e p) by (exists w; split; [rewrite Lv, <- L; split; assumption|exact X]).
  assert (Xp : veq D p x).
  { specialize (N p (ex_intro _ e (conj He Hp))). rewrite (proj2 (dist2_zero D p p)) in N by (intros j _; reflexivity). pose proof (dist2_nonneg D p x). assert (Z : dist2 D p x = 0) by lra. apply dist2_zero in Z. exact Z. }
  destruct Hw' as (Wp' & T'). assert (Hp' : in_element m e' p).
  { exists w'. split; [rewrite Lv', <- L'; split; [intros i Hi; specialize (Wp' i Hi); lra|exact T']|]. intros k Hk. rewrite (Xp k Hk). exact (Hx k Hk). }
  destruct (Hc e e' p He He' Hp Hp') as (v & ((Vp & Tv) & Xv) & Sup).
  assert (Ev : forall I, (I < length (nth e (m_cells m) []))%nat -> v I = w I).
  { intros I HI. apply (same_weights D (cell_vertices m e) v w (Hr e He)); [rewrite Lv, <- L; congruence| |rewrite Lv, <- L; exact HI]. intros k Hk. rewrite <- (X k Hk). symmetry. exact (Xv k Hk). }
  set (ns := nth e (m_cells m) []) in *. set (ns' := nth e' (m_cells m) []) in *. pose proof (cell_nodup m e' Hr He') as Inj. fold ns' in Inj.
  assert (Et : forall J, (J < length ns')%nat -> transfer ns ns' v J = w' J).
  { intros J HJ. apply (same_weights D (cell_vertices m e') (transfer ns ns' v) w' (Hr e' He')); [| |rewrite Lv', <- L'; exact HJ].
    - rewrite Lv', <- L'. transitivity 1; [|symmetry; exact T']. rewrite (total_ext _ _ (fun J => transfer ns ns' v J * (fun _ => 1) (nth J ns' 0%nat))) by (intros; ring). rewrite (transfer_total ns ns' v (fun _ => 1)) by assumption.
      rewrite (total_ext _ _ v) by (intros; ring). exact Tv.
    - intros k Hk. transitivity (p k); [|rewrite (Xp k Hk); exact (Hx k Hk)]. rewrite (Xv k Hk). unfold mean. rewrite (eq_trans Lv (eq_sym L)), (eq_trans Lv' (eq_sym L')).
      set (f := fun i => nth i (m_vertices m) (fun _ => 0) k). transitivity (total (length ns') (fun J => transfer ns ns' v J * f (nth J ns' 0%nat))).
      + apply total_ext. intros J' HJ'. f_equal. exact (f_equal (fun z => z k) (cell_vertex m e' J' HJ')).
      + rewrite transfer_total by assumption. apply total_ext. intros I HI. f_equal. symmetry. exact (f_equal (fun z => z k) (cell_vertex m e I HI)). }
  unfold linear. fold ns ns'. set (f := fun i => nth (s * i + c) u 0). transitivity (total (length ns') (fun J => transfer ns ns' v J * f (nth J ns' 0%nat))); [apply total_ext; intros J HJ; rewrite Et by exact HJ; reflexivity|].
  rewrite transfer_total by assumption. apply total_ext. intros I HI. rewrite Ev by exact HI. reflexivity.
Qed.
Print Assumptions C89_conforming.
(** C89: in particular nodal values are reproduced at the vertices *)
Theorem C89_nodal m neighbors umax s u buf k e : well_formed m -> by_distance (kind_dim (m_kind m)) neighbors -> regular_mesh m -> conforming m -> length u = (s * length (m_vertices m))%nat ->
  (e < length (m_cells m))%nat -> k ∈ nth e (m_cells m) [] ->
  exists r, interpolate_at_point origin umax (mesh_fe m) (find_closest neighbors (mesh_space 0 m)) s (nth k (m_vertices m) (fun _ => 0)) u buf = Some r /\ forall c, (c < s)%nat -> r c = nth (s * k + c) u 0.
Proof.
  intros W By Hr Hc Hu He Hk. set (p := nth k (m_vertices m) (fun _ => 0) : vec). destruct (C89_conforming m neighbors umax s [p] u [fun _ => 0] buf W By Hr Hc eq_refl Hu) as (rs & E & F).
  apply Forall2_cons_inv_l in F as (r & rs' & V & F & ->). apply Forall2_nil_inv_l in F as ->. exists r. unfold interpolate_at_point. unfold mesh_interpolate in E. rewrite E. split; [reflexivity|].
  apply elem_of_list_lookup in Hk as (J & HJ). assert (LJ : (J < length (nth e (m_cells m) []))%nat) by (apply lookup_lt_Some in HJ; exact HJ). assert (EJ := nth_some _ _ 0%nat _ HJ).
  intros c Hs. destruct (cell_length m e W He) as (L & Lv & B). rewrite (V e (fun i => if (i =? J)%nat then 1 else 0) He); [|split|exact Hs].
  - unfold linear. set (g := fun I => nth (s * nth I (nth e (m_cells m) []) 0%nat + c) u 0). rewrite (total_ext _ _ (fun I => if (I =? J)%nat then g I else 0)) by (intros I _; fold (g I); destruct (I =? J)%nat; ring).
    rewrite total_delta by exact LJ. unfold g. rewrite EJ. reflexivity.
  - split; [intros i _; destruct (i =? J)%nat; lra|]. apply (total_delta _ J (fun _ => 1)). exact LJ.
  - intros i Hi. unfold mean. rewrite Lv, <- L. set (g := fun I => nth I (cell_vertices m e) (fun _ => 0) i). rewrite (total_ext _ _ (fun I => if (I =? J)%nat then g I else 0)) by (intros I _; fold (g I); destruct (I =? J)%nat; ring).
    rewrite total_delta by exact LJ. unfold g. rewrite (cell_vertex m e J LJ), EJ. reflexivity.
Qed.
Print Assumptions C89_nodal.

(** ** gradients *)
Lemma regular_jacobian m e xi : well_formed m -> regular_mesh m -> (e < length (m_cells m))%nat -> m_kind m <> Tri3d3 -> determinant (kind_dim (m_kind m)) (ElementModel.el_jacobian (kind_element (m_kind m)) (cell_vertices m e) xi) <> 0.
Proof.
  intros W Hr He Hk. specialize (Hr e He). destruct (cell_length m e W He) as (_ & L & _). destruct (m_kind m); [| contradiction|]; cbn [kind_dim kind_element corners_of] in *; intros Z.
  - destruct (ClosestProofs.kernel2 _ Z) as (a & b & N & K). assert (H := Hr (tdir a b)). rewrite L in H.
    assert (T : total 3 (tdir a b) = 0) by (unfold tdir; cbn [total nth]; field). specialize (H T).
    assert (X : veq 2 (mean (tdir a b) (cell_vertices m e)) (fun _ => 0)) by (intros k Hk'; etransitivity; [apply (tdir_mean (cell_vertices m e) a b k L)|]; exact (K k Hk')).
    specialize (H X). pose proof (H 1%nat ltac:(lia)) as H1. pose proof (H 2%nat ltac:(lia)) as H2. unfold tdir in H1, H2. cbn [nth] in H1, H2. lra.
  - destruct (kernel3 _ Z) as (a & b & z & N & K). assert (H := Hr (tdir4 a b z)). rewrite L in H.
    assert (T : total 4 (tdir4 a b z) = 0) by (unfold tdir4; cbn [total nth]; field). specialize (H T).
    assert (X : veq 3 (mean (tdir4 a b z) (cell_vertices m e)) (fun _ => 0)) by (intros k Hk'; etransitivity; [apply (tdir4_mean (cell_vertices m e) a b z k L)|]; exact (K k Hk')).
    specialize (H X). pose proof (H 1%nat ltac:(lia)) as H1. pose proof (H 2%nat ltac:(lia)) as H2. pose proof (H 3%nat ltac:(lia)) as H3. unfold tdir4 in H1, H2, H3. cbn [nth] in H1, H2, H3. lra.
Qed.
(** [G] is the gradient of the linear function on the cell [e]: row [k] the derivative in direction [k]. Along the direction with weights [d], which sum to zero, the function changes by the change of the linear interpolation *)
Definition linear_gradient (m : mesh) (s : nat) (u : list R) (e : nat) (G : nat -> nat -> R) : Prop :=
  forall d c, total (length (nth e (m_cells m) [])) d = 0 -> (c < s)%nat -> summ (kind_dim (m_kind m)) (fun k => mean d (cell_vertices m e) k * G k c) = linear m s u e d c.
Lemma gradient_linear m s u e xi G : well_formed m -> (e < length (m_cells m))%nat -> m_kind m <> Tri3d3 ->
  gradient_at (kind_fe (m_kind m) (cell_vertices m e)) (nth e (m_cells m) []) (kind_dim (m_kind m)) s u xi G -> linear_gradient m s u e G.
Proof.
  intros W He Hk H d c T Hs. unfold linear. destruct (cell_length m e W He) as (L & Lv & _). set (ns := nth e (m_cells m) []) in *. set (vs := cell_vertices m e : list vec) in *. unfold gradient_at in H.
  destruct (m_kind m); [|contradiction|]; cbn [kind_dim corners_of kind_fe] in *.
  - destruct ns as [|n0 [|n1 [|n2 [|]]]]; try discriminate. destruct vs as [|v0 [|v1 [|v2 [|]]]]; try discriminate. pose proof (H 0%nat c ltac:(lia) Hs) as H0. pose proof (H 1%nat c ltac:(lia) Hs) as H1.
    cbn in H0, H1, T |- *. set (u0 := nth (s * n0 + c) u 0) in *. set (u1 := nth (s * n1 + c) u 0) in *. set (u2 := nth (s * n2 + c) u 0) in *. unfold mean. cbn [length total nth].
    unfold isoparametric_jacobian in H0, H1. cbn in H0, H1. assert (E : d 0%nat = - d 1%nat - d 2%nat) by lra. rewrite E.
    transitivity (2 * d 1%nat * (u1 / 2 - u0 / 2) + 2 * d 2%nat * (u2 / 2 - u0 / 2)); [|field]. rewrite <- (Rmult_1_r (2 * d 1%nat)). 
    assert (H0' : u1 / 2 - u0 / 2 = (v1 0%nat - v0 0%nat) / 2 * G 0%nat c + (v1 1%nat - v0 1%nat) / 2 * G 1%nat c) by lra.
    assert (H1' : u2 / 2 - u0 / 2 = (v2 0%nat - v0 0%nat) / 2 * G 0%nat c + (v2 1%nat - v0 1%nat) / 2 * G 1%nat c) by lra. rewrite H0', H1'. field.
  - destruct ns as [|n0 [|n1 [|n2 [|n3 [|]]]]]; try discriminate. destruct vs as [|v0 [|v1 [|v2 [|v3 [|]]]]]; try discriminate. pose proof (H 0%nat c ltac:(lia) Hs) as H0. pose proof (H 1%nat c ltac:(lia) Hs) as H1. pose proof (H 2%nat c ltac:(lia) Hs) as H2.
    cbn in H0, H1, H2, T |- *. set (u0 := nth (s * n0 + c) u 0) in *. set (u1 := nth (s * n1 + c) u 0) in *. set (u2 := nth (s * n2 + c) u 0) in *. set (u3 := nth (s * n3 + c) u 0) in *. unfold mean. cbn [length total nth].
    unfold isoparametric_jacobian in H0, H1, H2. cbn in H0, H1, H2. assert (E : d 0%nat = - d 1%nat - d 2%nat - d 3%nat) by lra. rewrite E.
    transitivity (2 * d 1%nat * (u1 / 2 - u0 / 2) + 2 * d 2%nat * (u2 / 2 - u0 / 2) + 2 * d 3%nat * (u3 / 2 - u0 / 2)); [|field].
    assert (H0' : u1 / 2 - u0 / 2 = (v1 0%nat - v0 0%nat) / 2 * G 0%nat c + (v1 1%nat - v0 1%nat) / 2 * G 1%nat c + (v1 2%nat - v0 2%nat) / 2 * G 2%nat c) by lra.
    assert (H1' : u2 / 2 - u0 / 2 = (v2 0%nat - v0 0%nat) / 2 * G 0%nat c + (v2 1%nat - v0 1%nat) / 2 * G 1%nat c + (v2 2%nat - v0 2%nat) / 2 * G 2%nat c) by lra.
    assert (H2' : u3 / 2 - u0 / 2 = (v3 0%nat - v0 0%nat) / 2 * G 0%nat c + (v3 1%nat - v0 1%nat) / 2 * G 1%nat c + (v3 2%nat - v0 2%nat) / 2 * G 2%nat c) by lra. rewrite H0', H1', H2'. field.
Qed.
(** every direction is a combination of edges of a nondegenerate cell *)
Lemma directions m e i : well_formed m -> regular_mesh m -> (e < length (m_cells m))%nat -> m_kind m <> Tri3d3 -> (i < kind_dim (m_kind m))%nat ->
  exists d, total (length (nth e (m_cells m) [])) d = 0 /\ forall k, (k < kind_dim (m_kind m))%nat -> mean d (cell_vertices m e) k = if (k =? i)%nat then 1 else 0.
Proof.
  intros W Hr He Hk Hi. pose proof (regular_jacobian m e origin W Hr He Hk) as Z. destruct (cell_length m e W He) as (L & Lv & _). rewrite L. clear Hr. destruct (m_kind m); [|contradiction|]; cbn [kind_dim corners_of kind_element] in *.
  - set (J := ElementModel.el_jacobian tri3 (cell_vertices m e) origin) in *. set (y := fun k : nat => if (k =? i)%nat then 1 else 0). destruct (try_inverse 2 J) as [inv|] eqn:E; [|destruct (Z (singular _ _ E))].
    exists (tdir (mulv 2 inv y 0%nat) (mulv 2 inv y 1%nat)). split; [unfold tdir; cbn [total nth]; field|]. intros k Hk'. etransitivity; [apply (tdir_mean (cell_vertices m e) _ _ k Lv)|]. exact (inverse2 J inv y E k Hk').
  - set (J := ElementModel.el_jacobian tet4 (cell_vertices m e) origin) in *. set (y := fun k : nat => if (k =? i)%nat then 1 else 0). destruct (try_inverse 3 J) as [inv|] eqn:E; [|destruct (Z (singular _ _ E))].
    exists (tdir4 (mulv 3 inv y 0%nat) (mulv 3 inv y 1%nat) (mulv 3 inv y 2%nat)). split; [unfold tdir4; cbn [total nth]; field|]. intros k Hk'. etransitivity; [apply (tdir4_mean (cell_vertices m e) _ _ _ k Lv)|]. exact (inverse3 J inv y E k Hk').
Qed.
Lemma linear_gradient_unique m s u e G G' : well_formed m -> regular_mesh m -> (e < length (m_cells m))%nat -> m_kind m <> Tri3d3 -> linear_gradient m s u e G -> linear_gradient m s u e G' ->
  forall i c, (i < kind_dim (m_kind m))%nat -> (c < s)%nat -> G i c = G' i c.
Proof.
  intros W Hr He Hk H H' i c Hi Hs. destruct (directions m e i W Hr He Hk Hi) as (d & T & X). pose proof (H d c T Hs) as E. pose proof (H' d c T Hs) as E'. rewrite <- E' in E.
  assert (S : forall M : nat -> nat -> R, summ (kind_dim (m_kind m)) (fun k => mean d (cell_vertices m e) k * M k c) = M i c).
  { intros M. transitivity (summ (kind_dim (m_kind m)) (fun k => if (k =? i)%nat then M k c else 0)); [|apply (summ_delta _ i (fun k => M k c)), Hi]. apply summ_ext. intros k Hk'. rewrite (X k Hk'). destruct (k =? i)%nat; ring. }
  rewrite !S in E. exact E.
Qed.

(** C89: gradients of meshes of nondegenerate triangles in the plane or tetrahedra: the gradient of the linear interpolant on a cell with a nearest point; affine functions have their gradient everywhere *)
Theorem C89_mesh_gradient epsilon m neighbors umax s points u results buf : 0 <= epsilon -> well_formed m -> by_distance (kind_dim (m_kind m)) neighbors -> regular_mesh m -> m_kind m <> Tri3d3 -> m_cells m <> [] ->
  length results = length points -> length u = (s * length (m_vertices m))%nat ->
  exists Gs, mesh_interpolate_gradient neighbors epsilon umax m s points u results buf = Some Gs /\
    Forall2 (fun p G => exists e w x, (e < length (m_cells m))%nat /\ weights_of (2 * epsilon) m e w x /\ nearest (kind_dim (m_kind m)) (in_mesh m) p x /\ linear_gradient m s u e G) points Gs /\
    forall A b, (forall k c, (k < length (m_vertices m))%nat -> (c < s)%nat -> nth (s * k + c) u 0 = b c + summ (kind_dim (m_kind m)) (fun i => A c i * nth k (m_vertices m) (fun _ => 0) i)) ->
      List.Forall (fun G => forall i c, (i < kind_dim (m_kind m))%nat -> (c < s)%nat -> G i c = A c i) Gs.
Proof.
  intros Heps W By Hr Hk Ne Hl Hu. set (D := kind_dim (m_kind m)) in *. assert (Hd : small D) by (unfold D, small; destruct (m_kind m); cbn; auto). unfold mesh_interpolate_gradient. set (find := find_closest neighbors (mesh_space epsilon m)).
  destruct (C89_gradients origin umax (mesh_fe m) find s (m_cells m) (mesh_conn m s) (found_range epsilon m neighbors Heps W By) D points u results buf Hd) as (Ex & Val).
  assert (El : forall e, (e < length (m_cells m))%nat -> fs_element (mesh_fe m) e = kind_fe (m_kind m) (cell_vertices m e)) by (intros e He; cbn [mesh_fe fs_element]; rewrite (proj1 (mesh_element_ok m e W He)); reflexivity).
  destruct (proj2 Ex) as (Gs & E).
  { split; [symmetry; exact Hl|]. intros p _. destruct (found epsilon m neighbors Heps W By p Ne) as (e & xi & w & x & Ef & He & _). exists (Some (e, xi)). split; [exact Ef|]. intros e' xi' [= <- <-]. split; [apply mesh_values; assumption|].
    rewrite (El e He). cbn [kind_fe EllipticModel.el_jacobian]. apply regular_jacobian; assumption. }
  exists Gs. split; [exact E|]. specialize (Val Gs E).
  assert (F : Forall2 (fun p G => exists e w x, (e < length (m_cells m))%nat /\ weights_of (2 * epsilon) m e w x /\ nearest D (in_mesh m) p x /\ linear_gradient m s u e G) points Gs).
  { eapply Forall2_impl; [exact Val|]. cbv beta. intros p G (_ & V). destruct (found epsilon m neighbors Heps W By p Ne) as (e & xi & w & x & Ef & He & Hw & N & _). exists e, w, x. split; [exact He|]. split; [exact Hw|]. split; [exact N|].
    specialize (V e xi Ef). rewrite (El e He) in V. exact (gradient_linear m s u e xi G W He Hk V). }
  split; [exact F|]. intros A b HA. clear E Val Hl Ex. induction F as [|p G ps Gs (e & _ & _ & He & _ & _ & HG) _ IH]; constructor; [|exact IH].
  intros i c Hi Hs. apply (linear_gradient_unique m s u e G (fun k c => A c k) W Hr He Hk HG); [|exact Hi|exact Hs]. clear i c Hi Hs. intros d c T Hs. fold D. destruct (cell_length m e W He) as (L & Lv & B).
  unfold linear. set (ns := nth e (m_cells m) []) in *. symmetry. etransitivity; [apply total_summ|].
  rewrite (summ_ext _ _ (fun I => b c * d I + summ D (fun i => A c i * (d I * nth (nth I ns 0%nat) (m_vertices m) (fun _ => 0) i)))).
  2: { intros I HI. rewrite HA; [|apply B; apply (elem_of_list_lookup_2 ns I), some_nth, HI|exact Hs]. rewrite Rmult_plus_distr_l, <- summ_l. f_equal; [ring|]. apply summ_ext. intros. ring. }
  rewrite summ_plus, summ_l. apply (eq_trans (eq_sym (total_summ _ _))) in T. rewrite T, Rmult_0_r, Rplus_0_l, summ_swap. apply summ_ext. intros i Hi. rewrite summ_l, Rmult_comm. f_equal.
  unfold mean. rewrite Lv, <- L. etransitivity; [|symmetry; apply total_summ]. apply summ_ext. intros I HI. f_equal. exact (f_equal (fun v => v i) (eq_sym (cell_vertex m e I HI))).
Qed.
Print Assumptions C89_mesh_gradient.

(** ** the mesh of [C88_example]: two triangles with a common vertex *)
Lemma two_triangles_ok : well_formed two_triangles /\ regular_mesh two_triangles /\ conforming two_triangles.
Proof.
  split; [|split].
  - intros cell [<-|[<-|[]]]; (split; [reflexivity|]); cbn; intros i Hi; lia.
  - intros [|[|e]] He; [| |cbn in He; lia]; intros d T X i Hi; pose proof (X 0%nat ltac:(cbn; lia)) as X0; pose proof (X 1%nat ltac:(cbn; lia)) as X1; unfold mean in X0, X1; cbn in T, X0, X1, Hi; unfold pt in X0, X1; cbn in X0, X1;
      destruct i as [|[|[|i]]]; try lia; lra.
  - intros e e' x He He' (w & (Wp & T) & X) (w' & (Wp' & T') & X'). assert (L : forall e, length (cell_vertices two_triangles e) = length (nth e (m_cells two_triangles) [])) by (intros; apply map_length). rewrite L in Wp, T, Wp', T'. destruct (decide (e = e')) as [<-|N].
    { exists w. split; [split; [split; [|exact T]|exact X]|]; [exact Wp|]. intros I HI _. apply (elem_of_list_lookup_2 _ I), some_nth, HI. }
    cbn in He, He'. exists w. split; [split; [split|]|].
    + exact Wp.
    + exact T.
    + exact X.
    + pose proof (X 0%nat ltac:(cbn; lia)) as X0. pose proof (X' 0%nat ltac:(cbn; lia)) as X0'. unfold mean in X0, X0'.
      assert (P : forall i, (i < 3)%nat -> 0 <= w i /\ 0 <= w' i).
      { intros i Hi. split; [destruct e as [|[|e]]; [specialize (Wp i Hi); lra|specialize (Wp i Hi); lra|lia]|destruct e' as [|[|e']]; [specialize (Wp' i Hi); lra|specialize (Wp' i Hi); lra|lia]]. }
      pose proof (P 0%nat ltac:(lia)). pose proof (P 1%nat ltac:(lia)). pose proof (P 2%nat ltac:(lia)).
      destruct e as [|[|e]]; [| |lia]; (destruct e' as [|[|e']]; [| |lia]); try contradiction; cbn in T, T', X0, X0'; unfold pt in X0, X0'; cbn in X0, X0'; intros [|[|[|I]]] HI Hne; cbn in HI; try lia; cbn; try (exfalso; lra); (repeat (first [left | right])).
Qed.
(** at the common vertex the value of its node, wherever the search finds it; the gradient of 2 x - 3 y + 1 far outside *)
Example C89_example buf : exists r G, interpolate_at_point origin 0 (mesh_fe two_triangles) (find_closest (sorted_neighbors 2) (mesh_space 0 two_triangles)) 1 (pt [1; 0]) [7; 5; 3; 2; 1] buf = Some r /\ r 0%nat = 5 /\
  mesh_interpolate_gradient (sorted_neighbors 2) 0 0 two_triangles 1 [pt [9; -9]] [1; 3; -2; 5; 2] [fun _ _ => 8] buf = Some [G] /\ G 0%nat 0%nat = 2 /\ G 1%nat 0%nat = -3.
Proof.
  destruct two_triangles_ok as (W & Hr & Hc). pose proof (sorted_by_distance 2) as By.
  destruct (C89_nodal two_triangles (sorted_neighbors 2) 0 1 [7; 5; 3; 2; 1] buf 1 0 W By Hr Hc eq_refl ltac:(cbn; lia) ltac:(right; left)) as (r & E & V).
  destruct (C89_mesh_gradient 0 two_triangles (sorted_neighbors 2) 0 1 [pt [9; -9]] [1; 3; -2; 5; 2] [fun _ _ => 8] buf (Rle_refl 0) W By Hr ltac:(discriminate) ltac:(discriminate) eq_refl eq_refl) as (Gs & EG & F & HA).
  apply Forall2_cons_inv_l in F as (G & Gs' & _ & F & ->). apply Forall2_nil_inv_l in F as ->. exists r, G. split; [exact E|]. split; [rewrite (V 0%nat ltac:(lia)); reflexivity|]. split; [exact EG|].
  specialize (HA (fun _ i => nth i [2; -3] 0) (fun _ => 1)). apply Forall_cons_1 in HA as (HA & _).
  - split; [exact (HA 0%nat 0%nat ltac:(cbn; lia) ltac:(lia))|exact (HA 1%nat 0%nat ltac:(cbn; lia) ltac:(lia))].
  - intros k c Hk Hs. cbn in Hk. assert (c = 0%nat) as -> by lia. do 5 (destruct k as [|k]; [cbn; unfold pt; cbn; lra|]). lia.
Qed.

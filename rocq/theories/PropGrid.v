(** C109: the uniform meshes of rectangles and boxes are ready for computations: cells are regular, affine and consistently oriented, the boundary vertices are the nodes on the sides of the box, and few fixed nodes determine everything. *)
From stdpp Require Import base list list_numbers sets relations.
From Coq Require Import Reals Lia Lra Psatz.
From Coquelicot Require Import Coquelicot.
From Verif Require Import Prelude NestedVecModel ParadisModel VectorModel VectorSpec VectorProofs ParadisSpec CsrModel CsrSpec CsrProofs CsrPattern PropVector PropCsr.
From Verif Require Import ReorderModel MaterialModel EllipticModel PropMaterial PropElliptic PropMass GlobalModel PropGlobal PropGlobalForms SolveProofs PropSolve PropBalance.
From Verif Require PropSolveMesh PropUnisolvent CanonicalModel PolyquadModel QuadratureModel PropPolyquadTables PropCanonicalTables.
From Verif Require Import ElementModel ElementSpec PropElement ElementSpaceModel TableModel MeshModel MeshSpec PropMesh PropBalanceMesh PropSolveSpaces ProcModel PropProc VoxelModel PropVoxel PatchCells PatchHex PatchHexCells PropPatch GridProofs GridLinks.
Import ListNotations.
Local Open Scope R_scope.
Local Notation vec := (nat -> R).
Local Notation mat := (nat -> nat -> R).

(** * specification *)
(** a mesh of the box with corners [lo] and [hi] *)
Definition box_mesh (el : ElementModel.element) (kd : conn_kind) (reversals : list (list nat)) (m : mesh point) (lo hi : vec) : Prop :=
  let X a := nth a (ms_vertices m) zero_point in let n := length (ms_vertices m) in let d := ElementModel.el_dim el in
  element_cells el (ms_vertices m) (ms_cells m) /\ placed el (ms_vertices m) (ms_cells m) /\ affine_cells el (ms_vertices m) (ms_cells m) /\
  (** the Jacobian preserves the orientation everywhere *)
  (forall cell x, cell ∈ ms_cells m -> 0 < determinant d (ElementModel.el_jacobian el (map X cell) x)) /\
  oriented kd (ms_cells m) reversals /\
  (** every node belongs to a cell and lies in the box; the boundary vertices are the nodes on its sides *)
  (forall a, (a < n)%nat -> exists cell, cell ∈ ms_cells m /\ a ∈ cell) /\
  (forall a c, (a < n)%nat -> (c < d)%nat -> lo c <= X a c <= hi c) /\
  (exists vs, find_boundary_vertices kd (ms_cells m) = Some vs /\ forall a, (a < n)%nat -> a ∈ vs <-> exists c, (c < d)%nat /\ (X a c = lo c \/ X a c = hi c)) /\
  (** one node is connected to all others, and the nodes of a cell, as many as there are dimensions, pin all others *)
  (forall nodes j k, j ∈ nodes -> (j < n)%nat -> (k < n)%nat -> joined (ms_cells m) nodes k) /\
  (forall nodes cell js k, cell ∈ ms_cells m -> NoDup js -> length js = d -> (forall j, j ∈ js -> j ∈ cell /\ j ∈ nodes) -> (k < n)%nat -> pinned d X (ms_cells m) nodes k).

Lemma on_end o h n i : 0 < h -> o + INR i * h = o + INR n * h <-> i = n.
Proof. intros Hh. split; [|intros ->; reflexivity]. intros E. apply INR_eq. nra. Qed.
Lemma on_start o h i : 0 < h -> o + INR i * h = o <-> i = 0%nat.
Proof. intros Hh. split; [|intros ->; cbn; lra]. intros E. apply INR_eq. cbn. nra. Qed.

(** * rectangles *)
Section rectangle.
Context (nx ny : nat) (h x0 y0 : R) (vs : list point).
Hypotheses (Hnx : (0 < nx)%nat) (Hny : (0 < ny)%nat) (Hh : 0 < h) (Hlen : length vs = ((nx + 1) * (ny + 1))%nat).
Hypothesis Hvs : forall i j, (i <= nx)%nat -> (j <= ny)%nat -> nth (V2 nx i j) vs zero_point = pt [x0 + INR i * h; y0 + - INR j * h].
Local Notation X := (fun a => nth a vs zero_point).
Definition low2 : vec := fun c => match c with 0%nat => x0 | _ => y0 - INR ny * h end.
Definition high2 : vec := fun c => match c with 0%nat => x0 + INR nx * h | _ => y0 end.
Lemma within2 a c : (a < length vs)%nat -> (c < 2)%nat -> low2 c <= nth a vs zero_point c <= high2 c.
Proof using Hnx Hny Hh Hlen Hvs.
  rewrite Hlen. intros Ha Hc. destruct (V2_split _ _ _ Ha) as (i & j & Hi & Hj & ->). rewrite Hvs by assumption. pose proof (le_INR _ _ Hi). pose proof (le_INR _ _ Hj). pose proof (pos_INR i). pose proof (pos_INR j).
  assert (c = 0 \/ c = 1)%nat as [->| ->] by lia; cbn [low2 high2 pt nth]; unfold pt; cbn [nth]; nra.
Qed.
Lemma sides2 i j : (i <= nx)%nat -> (j <= ny)%nat -> (i = 0 \/ i = nx \/ j = 0 \/ j = ny)%nat <-> exists c, (c < 2)%nat /\ (nth (V2 nx i j) vs zero_point c = low2 c \/ nth (V2 nx i j) vs zero_point c = high2 c).
Proof using Hnx Hny Hh Hlen Hvs.
  intros Hi Hj. rewrite Hvs by assumption. pose proof (on_end x0 h nx i Hh) as A. pose proof (on_start x0 h i Hh) as B. pose proof (on_end 0 h ny j Hh) as C. pose proof (on_start 0 h j Hh) as D. split.
  - intros [E|[E|[E|E]]]; [exists 0%nat|exists 0%nat|exists 1%nat|exists 1%nat]; (split; [lia|]); unfold pt; cbn [nth low2 high2].
    + left. apply B, E. + right. apply A, E. + right. apply D in E. lra. + left. apply C in E. lra.
  - intros (c & Hc & E). assert (c = 0 \/ c = 1)%nat as [->| ->] by lia; unfold pt in E; cbn [nth low2 high2] in E; destruct E as [E|E].
    + left. apply B, E. + right; left. apply A, E. + right; right; right. apply C. lra. + right; right; left. apply D. lra.
Qed.
Ltac cell_nodup := unfold V2; repeat (apply NoDup_cons_2; [intros Hdup; repeat (apply elem_of_cons in Hdup as [Hdup|Hdup]; [nia|]); apply elem_of_nil in Hdup; destruct Hdup|]); apply NoDup_nil_2.
Lemma quad_cell_ok i j : (i < nx)%nat -> (j < ny)%nat -> NoDup (quad_cell nx i j) /\ forall a, a ∈ quad_cell nx i j -> (a < length vs)%nat.
Proof using Hnx Hny Hh Hlen Hvs. intros Hi Hj. split; [unfold quad_cell; cell_nodup|]. rewrite Hlen. unfold quad_cell. members; apply V2_range; lia. Qed.
Lemma quad_points i j : (i < nx)%nat -> (j < ny)%nat -> map X (quad_cell nx i j) =
  [pt [x0 + INR i * h; y0 + - (INR j + 1) * h]; pt [x0 + (INR i + 1) * h; y0 + - (INR j + 1) * h]; pt [x0 + (INR i + 1) * h; y0 + - INR j * h]; pt [x0 + INR i * h; y0 + - INR j * h]].
Proof using Hnx Hny Hh Hlen Hvs. intros Hi Hj. unfold quad_cell. cbn [map]. rewrite !Hvs by lia. rewrite !plus_INR. reflexivity. Qed.
Lemma quad_cornered i j : (i < nx)%nat -> (j < ny)%nat -> cornered square_bits 2 X (quad_cell nx i j).
Proof using Hnx Hny Hh Hlen Hvs.
  intros Hi Hj. split; [reflexivity|]. split; [apply quad_cell_ok; assumption|]. exists (fun c => match c with 0%nat => x0 + INR i * h | _ => y0 - INR j * h end), (fun c => match c with 0%nat => h | _ => - h end). split; [intros [|c] _; lra|].
  intros I c HI Hc. cbn [length quad_cell] in HI. assert (c = 0 \/ c = 1)%nat as [->| ->] by lia; do 4 (destruct I as [|I]; [unfold quad_cell; cbn [nth]; rewrite Hvs by lia; rewrite ?plus_INR; unfold pt, zb; cbn; lra|]); lia.
Qed.
Lemma triangle_cornered i j s : (i < nx)%nat -> (j < ny)%nat -> (s < 2)%nat -> cornered (match s with 0%nat => upper_bits | _ => lower_bits end) 2 X (triangle nx i j s).
Proof using Hnx Hny Hh Hlen Hvs.
  intros Hi Hj Hs. split; [destruct s; reflexivity|]. split; [destruct s as [|[|s]]; [unfold triangle; cell_nodup|unfold triangle; cell_nodup|lia]|]. exists (fun c => match c with 0%nat => x0 + INR i * h | _ => y0 - INR j * h end), (fun c => match c with 0%nat => h | _ => - h end). split; [intros [|c] _; lra|].
  intros I c HI Hc. assert (HI' : (I < 3)%nat) by (destruct s; exact HI). assert (c = 0 \/ c = 1)%nat as [->| ->] by lia; (destruct s as [|[|s]]; [do 3 (destruct I as [|I]; [unfold triangle; cbn [nth]; rewrite Hvs by lia; rewrite ?plus_INR; unfold pt, zb; cbn; lra|]); lia|do 3 (destruct I as [|I]; [unfold triangle; cbn [nth]; rewrite Hvs by lia; rewrite ?plus_INR; unfold pt, zb; cbn; lra|]); lia|lia]).
Qed.
(** a node is a corner of a cell *)
Lemma near n i : (0 < n)%nat -> (i <= n)%nat -> exists a, (a < n)%nat /\ (i = a \/ i = a + 1)%nat.
Proof using Hnx Hny Hh Hlen Hvs. intros Hn Hi. destruct (decide (i = n)); [exists (n - 1)%nat|exists i]; lia. Qed.
Lemma quad_cover a : (a < length vs)%nat -> exists i j, (i < nx)%nat /\ (j < ny)%nat /\ a ∈ quad_cell nx i j.
Proof using Hnx Hny Hh Hlen Hvs.
  rewrite Hlen. intros Ha. destruct (V2_split _ _ _ Ha) as (i & j & Hi & Hj & ->). destruct (near nx i Hnx Hi) as (p & Hp & Ep). destruct (near ny j Hny Hj) as (q & Hq & Eq). exists p, q. split; [exact Hp|]. split; [exact Hq|]. unfold quad_cell. destruct Ep as [->| ->], Eq as [->| ->]; member.
Qed.
Lemma pair_touch (cells : list (list nat)) c c' a b : c ∈ cells -> c' ∈ cells -> a <> b -> a ∈ c -> b ∈ c -> a ∈ c' -> b ∈ c' -> rtc (touching 2 cells) c c'.
Proof using Hnx Hny Hh Hlen Hvs.
  intros Hc Hc' N A B A' B'. apply rtc_once. split; [exact Hc|]. split; [exact Hc'|]. exists [a; b]. split; [apply NoDup_cons_2; [set_solver|apply NoDup_singleton]|]. split; [reflexivity|]. intros j Hj. rewrite !elem_of_cons, elem_of_nil in Hj. destruct Hj as [->|[->|[]]]; auto.
Qed.
Lemma quads_linked c c' : c ∈ quads nx ny -> c' ∈ quads nx ny -> rtc (touching 2 (quads nx ny)) c c'.
Proof using Hnx Hny Hh Hlen Hvs.
  assert (M : forall i j, (i < nx)%nat -> (j < ny)%nat -> quad_cell nx i j ∈ quads nx ny) by (intros; apply quads_elem; eauto).
  assert (Z : forall c, c ∈ quads nx ny -> rtc (touching 2 (quads nx ny)) (quad_cell nx 0 0) c).
  { intros e He. apply quads_elem in He as (i & j & Hi & Hj & ->). transitivity (quad_cell nx 0 j).
    - apply (line _ (fun j => quad_cell nx 0 j) ny); [|exact Hj]. intros b Hb. apply (pair_touch _ _ _ (V2 nx 0 (b + 1)) (V2 nx 1 (b + 1))); [apply M; lia|apply M; lia|unfold V2; lia|unfold quad_cell; member..].
    - apply (line _ (fun i => quad_cell nx i j) nx); [|exact Hi]. intros a Ha. apply (pair_touch _ _ _ (V2 nx (a + 1) j) (V2 nx (a + 1) (j + 1))); [apply M; lia|apply M; lia|unfold V2; lia|unfold quad_cell; member..]. }
  intros Hc Hc'. transitivity (quad_cell nx 0 0); [apply touched_sym, Z, Hc|apply Z, Hc'].
Qed.
Lemma triangles_linked c c' : c ∈ triangles nx ny -> c' ∈ triangles nx ny -> rtc (touching 2 (triangles nx ny)) c c'.
Proof using Hnx Hny Hh Hlen Hvs.
  assert (M : forall i j s, (i < nx)%nat -> (j < ny)%nat -> (s < 2)%nat -> triangle nx i j s ∈ triangles nx ny) by (intros; apply triangles_elem; eauto 8).
  assert (H : forall i j, (i < nx)%nat -> (j < ny)%nat -> rtc (touching 2 (triangles nx ny)) (triangle nx i j 1) (triangle nx i j 0)).
  { intros i j Hi Hj. apply (pair_touch _ _ _ (V2 nx i (j + 1)) (V2 nx (i + 1) j)); [apply M; lia|apply M; lia|unfold V2; nia|unfold triangle; member..]. }
  assert (Z : forall c, c ∈ triangles nx ny -> rtc (touching 2 (triangles nx ny)) (triangle nx 0 0 1) c).
  { intros e He. apply triangles_elem in He as (i & j & s & Hi & Hj & Hs & ->). transitivity (triangle nx 0 j 1); [|transitivity (triangle nx i j 1)].
    - apply (line _ (fun j => triangle nx 0 j 1) ny); [|exact Hj]. intros b Hb. transitivity (triangle nx 0 b 0); [apply H; lia|]. apply (pair_touch _ _ _ (V2 nx 0 (b + 1)) (V2 nx 1 (b + 1))); [apply M; lia|apply M; lia|unfold V2; lia|unfold triangle; member..].
    - apply (line _ (fun i => triangle nx i j 1) nx); [|exact Hi]. intros a Ha. transitivity (triangle nx a j 0); [apply H; lia|]. apply (pair_touch _ _ _ (V2 nx (a + 1) j) (V2 nx (a + 1) (j + 1))); [apply M; lia|apply M; lia|unfold V2; lia|unfold triangle; member..].
    - destruct s as [|[|s]]; [apply H; lia|apply rtc_refl|lia]. }
  intros Hc Hc'. transitivity (triangle nx 0 0 1); [apply touched_sym, Z, Hc|apply Z, Hc'].
Qed.

Lemma quad_box : box_mesh quad4 quad4d2_kind edge2_reversals (Mesh vs (quads nx ny)) low2 high2.
Proof using Hnx Hny Hh Hlen Hvs.
  unfold box_mesh. cbn [ms_vertices ms_cells]. cbn zeta. change (ElementModel.el_dim quad4) with 2%nat.
  assert (Hec : element_cells quad4 vs (quads nx ny)).
  { intros cell Hc. apply quads_elem in Hc as (i & j & Hi & Hj & ->). split; [reflexivity|]. apply quad_cell_ok; assumption. }
  assert (Cov : forall a, (a < length vs)%nat -> exists cell, cell ∈ quads nx ny /\ a ∈ cell).
  { intros a Ha. destruct (quad_cover a Ha) as (i & j & Hi & Hj & Hin). exists (quad_cell nx i j). split; [apply quads_elem; eauto|exact Hin]. }
  split; [exact Hec|]. split; [apply (C106_spaces quad4 vs (quads nx ny) ex_centre (fun _ => []) (fun _ => []) (fun _ => []) PropCsr.key_sort (fun _ l => l) 1%nat); [cbn; tauto|exact Hec|reflexivity]|].
  split.
  { intros cell Hc. apply quads_elem in Hc as (i & j & Hi & Hj & ->). rewrite quad_points by assumption. exists (fun a b => if (a =? b)%nat then h / 2 else 0), (fun c => match c with 0%nat => x0 + INR i * h + h / 2 | _ => y0 - INR j * h - h / 2 end).
    intros x c Hc. change (ElementModel.el_dim quad4) with 2%nat in *. cbn [ElementModel.el_map quad4]. unfold isoparametric_map. cbn [quad4_basis ElementModel.combine]. unfold quad4_phi, pt. assert (c = 0 \/ c = 1)%nat as [->| ->] by lia; cbn [nth summ Nat.eqb]; field. }
  split.
  { intros cell x Hc. apply quads_elem in Hc as (i & j & Hi & Hj & ->). rewrite quad_points by assumption. assert (E : determinant 2 (ElementModel.el_jacobian quad4 [pt [x0 + INR i * h; y0 + - (INR j + 1) * h]; pt [x0 + (INR i + 1) * h; y0 + - (INR j + 1) * h]; pt [x0 + (INR i + 1) * h; y0 + - INR j * h]; pt [x0 + INR i * h; y0 + - INR j * h]] x) = h / 2 * (h / 2)).
    { cbn [ElementModel.el_jacobian quad4 determinant]. unfold isoparametric_jacobian. cbn [quad4_grads map ElementModel.combine]. unfold quad4_phi_grad, pt. cbn [nth]. field. }
    rewrite E. nra. }
  split; [apply quads_oriented|]. split; [exact Cov|]. split; [intros a c Ha Hc; exact (within2 a c Ha Hc)|]. split.
  { destruct (quads_rim nx ny Hnx Hny) as (bs & E & Hb). exists bs. split; [exact E|]. intros a Ha. rewrite Hlen in Ha. destruct (V2_split _ _ _ Ha) as (i & j & Hi & Hj & ->). rewrite Hb by assumption. apply sides2; assumption. }
  split.
  { intros nodes j k Hj Lj Lk. destruct (Cov k Lk) as (cell & Hc & Hk). exact (joined_all 2 (quads nx ny) nodes j ltac:(lia) quads_linked Hj (Cov j Lj) cell k Hc Hk). }
  intros nodes cell js k Hc Nj Lj Hj Lk. destruct (Cov k Lk) as (cell' & Hc' & Hk). apply (pinned_all 2 X (quads nx ny) nodes js cell) with (cell := cell'); try assumption; [|exact quads_linked].
  apply filled2. intros e He. apply quads_elem in He as (a & b & Ha & Hb & ->). exists square_bits. split; [exact square_closed|apply quad_cornered; assumption].
Qed.
Lemma tri_box : box_mesh tri3 tri3d2_kind edge2_reversals (Mesh vs (triangles nx ny)) low2 high2.
Proof using Hnx Hny Hh Hlen Hvs.
  unfold box_mesh. cbn [ms_vertices ms_cells]. cbn zeta. change (ElementModel.el_dim tri3) with 2%nat.
  assert (Hec : element_cells tri3 vs (triangles nx ny)).
  { intros cell Hc. apply triangles_elem in Hc as (i & j & s & Hi & Hj & Hs & ->). split; [destruct s; reflexivity|]. split; [destruct (triangle_cornered i j s Hi Hj Hs) as (_ & N & _); exact N|]. intros a Ha. apply (quad_cell_ok i j Hi Hj). unfold quad_cell. destruct s; cbn [triangle] in Ha; set_solver. }
  assert (Cov : forall a, (a < length vs)%nat -> exists cell, cell ∈ triangles nx ny /\ a ∈ cell).
  { intros a Ha. destruct (quad_cover a Ha) as (i & j & Hi & Hj & Hin). assert (S : exists s, (s < 2)%nat /\ a ∈ triangle nx i j s) by (unfold quad_cell in Hin; rewrite !elem_of_cons, elem_of_nil in Hin; destruct Hin as [->|[->|[->|[->|[]]]]]; [exists 0%nat|exists 0%nat|exists 0%nat|exists 1%nat]; (split; [lia|]); unfold triangle; member).
    destruct S as (s & Hs & S). exists (triangle nx i j s). split; [apply triangles_elem; eauto 8|exact S]. }
  split; [exact Hec|]. split; [apply (C106_spaces tri3 vs (triangles nx ny) ex_centre (fun _ => []) (fun _ => []) (fun _ => []) PropCsr.key_sort (fun _ l => l) 1%nat); [cbn; tauto|exact Hec|reflexivity]|].
  split; [apply C107_simplices; [cbn; tauto|exact Hec]|]. split.
  { intros cell x Hc. apply triangles_elem in Hc as (i & j & s & Hi & Hj & Hs & ->). assert (E : determinant 2 (ElementModel.el_jacobian tri3 (map X (triangle nx i j s)) x) = h / 2 * (h / 2)); [|rewrite E; nra].
    destruct s as [|[|s]]; [| |lia]; unfold triangle; cbn [map]; rewrite !Hvs by lia; rewrite !plus_INR; cbn [ElementModel.el_jacobian tri3 determinant]; unfold isoparametric_jacobian; cbn [tri3_grads map ElementModel.combine]; unfold pt; cbn [nth INR]; field. }
  split; [apply triangles_oriented|]. split; [exact Cov|]. split; [intros a c Ha Hc; exact (within2 a c Ha Hc)|]. split.
  { destruct (triangles_rim nx ny Hnx Hny) as (bs & E & Hb). exists bs. split; [exact E|]. intros a Ha. rewrite Hlen in Ha. destruct (V2_split _ _ _ Ha) as (i & j & Hi & Hj & ->). rewrite Hb by assumption. apply sides2; assumption. }
  split.
  { intros nodes j k Hj Lj Lk. destruct (Cov k Lk) as (cell & Hc & Hk). exact (joined_all 2 (triangles nx ny) nodes j ltac:(lia) triangles_linked Hj (Cov j Lj) cell k Hc Hk). }
  intros nodes cell js k Hc Nj Lj Hj Lk. destruct (Cov k Lk) as (cell' & Hc' & Hk). apply (pinned_all 2 X (triangles nx ny) nodes js cell) with (cell := cell'); try assumption; [|exact triangles_linked].
  apply filled2. intros e He. apply triangles_elem in He as (a & b & s & Ha & Hb & Hs & ->). exists (match s with 0%nat => upper_bits | _ => lower_bits end). split; [destruct s; [exact upper_closed|exact lower_closed]|apply triangle_cornered; assumption].
Qed.
End rectangle.

(** * boxes *)
Section box.
Context (nx ny nz : nat) (h : R) (vs : list point).
Hypotheses (Hnx : (0 < nx)%nat) (Hny : (0 < ny)%nat) (Hnz : (0 < nz)%nat) (Hh : 0 < h) (Hlen : length vs = ((nx + 1) * (ny + 1) * (nz + 1))%nat).
Hypothesis Hvs : forall i j k, (i <= nx)%nat -> (j <= ny)%nat -> (k <= nz)%nat -> nth (V3 nx ny i j k) vs zero_point = pt [INR i * h; INR j * h; INR k * h].
Local Notation X := (fun a => nth a vs zero_point).
Definition high3 : vec := fun c => match c with 0%nat => INR nx * h | 1%nat => INR ny * h | _ => INR nz * h end.
Lemma within3 a c : (a < length vs)%nat -> (c < 3)%nat -> 0 <= nth a vs zero_point c <= high3 c.
Proof using Hnx Hny Hnz Hh Hlen Hvs.
  rewrite Hlen. intros Ha Hc. destruct (V3_split _ _ _ _ Ha) as (i & j & k & Hi & Hj & Hk & ->). rewrite Hvs by assumption. pose proof (le_INR _ _ Hi). pose proof (le_INR _ _ Hj). pose proof (le_INR _ _ Hk). pose proof (pos_INR i). pose proof (pos_INR j). pose proof (pos_INR k).
  assert (c = 0 \/ c = 1 \/ c = 2)%nat as [->|[->| ->]] by lia; unfold pt; cbn [high3 nth]; nra.
Qed.
Lemma sides3 i j k : (i <= nx)%nat -> (j <= ny)%nat -> (k <= nz)%nat -> (i = 0 \/ i = nx \/ j = 0 \/ j = ny \/ k = 0 \/ k = nz)%nat <->
  exists c, (c < 3)%nat /\ (nth (V3 nx ny i j k) vs zero_point c = 0 \/ nth (V3 nx ny i j k) vs zero_point c = high3 c).
Proof using Hnx Hny Hnz Hh Hlen Hvs.
  intros Hi Hj Hk. rewrite Hvs by assumption. assert (S : forall i, INR i * h = 0 <-> i = 0%nat) by (intros a; rewrite <- (on_start 0 h a Hh), Rplus_0_l; tauto). assert (T : forall n i, INR i * h = INR n * h <-> i = n) by (intros n a; rewrite <- (on_end 0 h n a Hh), !Rplus_0_l; tauto). split.
  - intros [E|[E|[E|[E|[E|E]]]]]; [exists 0%nat|exists 0%nat|exists 1%nat|exists 1%nat|exists 2%nat|exists 2%nat]; (split; [lia|]); unfold pt; cbn [nth high3]; first [left; apply S; exact E|right; apply T; exact E].
  - intros (c & Hc & E). assert (c = 0 \/ c = 1 \/ c = 2)%nat as [->|[->| ->]] by lia; unfold pt in E; cbn [nth high3] in E; (destruct E as [E|E]; [apply S in E|apply T in E]); tauto.
Qed.
Lemma hex_cell_ok i j k : (i < nx)%nat -> (j < ny)%nat -> (k < nz)%nat -> NoDup (GridProofs.hex_cell nx ny i j k) /\ forall a, a ∈ GridProofs.hex_cell nx ny i j k -> (a < length vs)%nat.
Proof using Hnx Hny Hnz Hh Hlen Hvs.
  intros Hi Hj Hk. split.
  - unfold GridProofs.hex_cell. repeat (apply NoDup_cons_2; [intros Hdup; repeat (apply elem_of_cons in Hdup as [Hdup|Hdup]; [apply V3_inj in Hdup; lia|]); apply elem_of_nil in Hdup; destruct Hdup|]); apply NoDup_nil_2.
  - rewrite Hlen. unfold GridProofs.hex_cell. members; apply V3_range; lia.
Qed.
Lemma hex_points i j k : (i < nx)%nat -> (j < ny)%nat -> (k < nz)%nat -> let a := INR i * h in let b := INR j * h in let c := INR k * h in let a' := (INR i + 1) * h in let b' := (INR j + 1) * h in let c' := (INR k + 1) * h in
  map X (GridProofs.hex_cell nx ny i j k) = [pt [a; b; c]; pt [a'; b; c]; pt [a'; b'; c]; pt [a; b'; c]; pt [a; b; c']; pt [a'; b; c']; pt [a'; b'; c']; pt [a; b'; c']].
Proof using Hnx Hny Hnz Hh Hlen Hvs. intros Hi Hj Hk. unfold GridProofs.hex_cell. cbn [map]. rewrite !Hvs by lia. rewrite !plus_INR. reflexivity. Qed.
Lemma hex_cornered i j k : (i < nx)%nat -> (j < ny)%nat -> (k < nz)%nat -> cornered cube_bits 3 X (GridProofs.hex_cell nx ny i j k).
Proof using Hnx Hny Hnz Hh Hlen Hvs.
  intros Hi Hj Hk. split; [reflexivity|]. split; [apply hex_cell_ok; assumption|]. exists (fun c => match c with 0%nat => INR i * h | 1%nat => INR j * h | _ => INR k * h end), (fun c => h). split; [intros; lra|].
  intros I c HI Hc. cbn [length GridProofs.hex_cell] in HI. assert (c = 0 \/ c = 1 \/ c = 2)%nat as [->|[->| ->]] by lia; do 8 (destruct I as [|I]; [unfold GridProofs.hex_cell; cbn [nth]; rewrite Hvs by lia; rewrite ?plus_INR; unfold pt, zb; cbn; lra|]); lia.
Qed.
Lemma hex_cover a : (a < length vs)%nat -> exists i j k, (i < nx)%nat /\ (j < ny)%nat /\ (k < nz)%nat /\ a ∈ GridProofs.hex_cell nx ny i j k.
Proof using Hnx Hny Hnz Hh Hlen Hvs.
  assert (near : forall n i, (0 < n)%nat -> (i <= n)%nat -> exists a, (a < n)%nat /\ (i = a \/ i = a + 1)%nat) by (clear; intros n i Hn Hi; destruct (decide (i = n)); [exists (n - 1)%nat|exists i]; lia).
  rewrite Hlen. intros Ha. destruct (V3_split _ _ _ _ Ha) as (i & j & k & Hi & Hj & Hk & ->). destruct (near nx i Hnx Hi) as (p & Hp & Ep). destruct (near ny j Hny Hj) as (q & Hq & Eq). destruct (near nz k Hnz Hk) as (r & Hr & Er). exists p, q, r. split; [exact Hp|]. split; [exact Hq|]. split; [exact Hr|].
  unfold GridProofs.hex_cell. destruct Ep as [->| ->], Eq as [->| ->], Er as [->| ->]; member.
Qed.
Lemma triple_touch (cells : list (list nat)) c c' a b e : c ∈ cells -> c' ∈ cells -> (a < b)%nat -> (b < e)%nat -> a ∈ c -> b ∈ c -> e ∈ c -> a ∈ c' -> b ∈ c' -> e ∈ c' -> rtc (touching 3 cells) c c'.
Proof using Hnx Hny Hnz Hh Hlen Hvs.
  intros Hc Hc' N1 N2 A B E A' B' E'. apply rtc_once. split; [exact Hc|]. split; [exact Hc'|]. exists [a; b; e]. split; [apply NoDup_cons_2; [rewrite !elem_of_cons, elem_of_nil; lia|apply NoDup_cons_2; [rewrite !elem_of_cons, elem_of_nil; lia|apply NoDup_singleton]]|]. split; [reflexivity|]. intros j Hj. rewrite !elem_of_cons, elem_of_nil in Hj. destruct Hj as [->|[->|[->|[]]]]; auto.
Qed.
Lemma hexes_linked c c' : c ∈ hexes nx ny nz -> c' ∈ hexes nx ny nz -> rtc (touching 3 (hexes nx ny nz)) c c'.
Proof using Hnx Hny Hnz Hh Hlen Hvs.
  assert (M : forall i j k, (i < nx)%nat -> (j < ny)%nat -> (k < nz)%nat -> GridProofs.hex_cell nx ny i j k ∈ hexes nx ny nz) by (intros; apply hexes_elem; eauto 8).
  assert (Z : forall c, c ∈ hexes nx ny nz -> rtc (touching 3 (hexes nx ny nz)) (GridProofs.hex_cell nx ny 0 0 0) c).
  { intros e He. apply hexes_elem in He as (i & j & k & Hi & Hj & Hk & ->). transitivity (GridProofs.hex_cell nx ny 0 0 k); [|transitivity (GridProofs.hex_cell nx ny 0 j k)].
    - apply (line _ (fun k => GridProofs.hex_cell nx ny 0 0 k) nz); [|exact Hk]. intros b Hb. apply (triple_touch _ _ _ (V3 nx ny 0 0 (b + 1)) (V3 nx ny 1 0 (b + 1)) (V3 nx ny 1 1 (b + 1))); [apply M; lia|apply M; lia|unfold V3; lia|unfold V3; lia|unfold GridProofs.hex_cell; member..].
    - apply (line _ (fun j => GridProofs.hex_cell nx ny 0 j k) ny); [|exact Hj]. intros b Hb. apply (triple_touch _ _ _ (V3 nx ny 0 (b + 1) k) (V3 nx ny 1 (b + 1) k) (V3 nx ny 1 (b + 1) (k + 1))); [apply M; lia|apply M; lia|unfold V3; lia|unfold V3; nia|unfold GridProofs.hex_cell; member..].
    - apply (line _ (fun i => GridProofs.hex_cell nx ny i j k) nx); [|exact Hi]. intros a Ha. apply (triple_touch _ _ _ (V3 nx ny (a + 1) j k) (V3 nx ny (a + 1) (j + 1) k) (V3 nx ny (a + 1) (j + 1) (k + 1))); [apply M; lia|apply M; lia|unfold V3; nia|unfold V3; nia|unfold GridProofs.hex_cell; member..]. }
  intros Hc Hc'. transitivity (GridProofs.hex_cell nx ny 0 0 0); [apply touched_sym, Z, Hc|apply Z, Hc'].
Qed.
Lemma hex_box : box_mesh hex8 hex8_kind quad4_reversals (Mesh vs (hexes nx ny nz)) (fun _ => 0) high3.
Proof using Hnx Hny Hnz Hh Hlen Hvs.
  unfold box_mesh. cbn [ms_vertices ms_cells]. cbn zeta. change (ElementModel.el_dim hex8) with 3%nat.
  assert (Hec : element_cells hex8 vs (hexes nx ny nz)).
  { intros cell Hc. apply hexes_elem in Hc as (i & j & k & Hi & Hj & Hk & ->). split; [reflexivity|]. apply hex_cell_ok; assumption. }
  assert (Cov : forall a, (a < length vs)%nat -> exists cell, cell ∈ hexes nx ny nz /\ a ∈ cell).
  { intros a Ha. destruct (hex_cover a Ha) as (i & j & k & Hi & Hj & Hk & Hin). exists (GridProofs.hex_cell nx ny i j k). split; [apply hexes_elem; eauto 8|exact Hin]. }
  split; [exact Hec|]. split; [apply (C106_spaces hex8 vs (hexes nx ny nz) ex_centre (fun _ => []) (fun _ => []) (fun _ => []) PropCsr.key_sort (fun _ l => l) 1%nat); [cbn; tauto|exact Hec|reflexivity]|].
  split.
  { intros cell Hc. apply hexes_elem in Hc as (i & j & k & Hi & Hj & Hk & ->). rewrite hex_points by assumption. exists (fun a b => if (a =? b)%nat then h / 2 else 0), (fun c => match c with 0%nat => INR i * h + h / 2 | 1%nat => INR j * h + h / 2 | _ => INR k * h + h / 2 end).
    intros x c Hc. change (ElementModel.el_dim hex8) with 3%nat in *. cbn [ElementModel.el_map hex8]. unfold isoparametric_map. cbn [hex8_basis ElementModel.combine]. unfold hex8_phi, phi_linear_1d, pt. assert (c = 0 \/ c = 1 \/ c = 2)%nat as [->|[->| ->]] by lia; cbn [nth summ Nat.eqb]; field. }
  split.
  { intros cell x Hc. apply hexes_elem in Hc as (i & j & k & Hi & Hj & Hk & ->). rewrite hex_points by assumption.
    match goal with |- 0 < determinant 3 (ElementModel.el_jacobian hex8 ?ps x) => assert (J : forall a b, (a < 3)%nat -> (b < 3)%nat -> ElementModel.el_jacobian hex8 ps x a b = if (a =? b)%nat then h / 2 else 0) end.
    { intros a b Ha Hb. cbn [ElementModel.el_jacobian hex8]. unfold isoparametric_jacobian. assert (a = 0 \/ a = 1 \/ a = 2)%nat as [->|[->| ->]] by lia; assert (b = 0 \/ b = 1 \/ b = 2)%nat as [->|[->| ->]] by lia;
        cbn [hex8_grads map ElementModel.combine]; unfold hex8_phi_grad, phi_linear_1d, phi_linear_1d_grad, pt; cbn [nth Nat.eqb]; field. }
    cbn [determinant]. rewrite !J by lia. cbn [Nat.eqb]. replace (h / 2 * (h / 2 * (h / 2) - 0 * 0) - 0 * (0 * (h / 2) - 0 * 0) + 0 * (0 * 0 - 0 * (h / 2))) with (h / 2 * (h / 2) * (h / 2)) by ring. repeat apply Rmult_lt_0_compat; lra. }
  split; [apply hexes_oriented|]. split; [exact Cov|]. split; [intros a c Ha Hc; exact (within3 a c Ha Hc)|]. split.
  { destruct (hexes_rim nx ny nz Hnx Hny Hnz) as (bs & E & Hb). exists bs. split; [exact E|]. intros a Ha. rewrite Hlen in Ha. destruct (V3_split _ _ _ _ Ha) as (i & j & k & Hi & Hj & Hk & ->). rewrite Hb by assumption. apply sides3; assumption. }
  split.
  { intros nodes j k Hj Lj Lk. destruct (Cov k Lk) as (cell & Hc & Hk). exact (joined_all 3 (hexes nx ny nz) nodes j ltac:(lia) hexes_linked Hj (Cov j Lj) cell k Hc Hk). }
  intros nodes cell js k Hc Nj Lj Hj Lk. destruct (Cov k Lk) as (cell' & Hc' & Hk). apply (pinned_all 3 X (hexes nx ny nz) nodes js cell) with (cell := cell'); try assumption; [|exact hexes_linked].
  apply (filled3 cube_bits); [exact cube_closed|]. intros e He. apply hexes_elem in He as (a & b & c & Ha & Hb & Hd & ->). apply hex_cornered; assumption.
Qed.
End box.

(** * the meshes of procedural.rs *)
Lemma step_positive u n : (0 < n)%nat -> 0 < u -> 0 < u / INR n.
Proof. intros Hn Hu. apply Rdiv_lt_0_compat; [exact Hu|apply lt_0_INR, Hn]. Qed.
Lemma step_total u n ux : (0 < n)%nat -> INR (ux * n) * (u / INR n) = INR ux * u.
Proof. intros Hn. rewrite mult_INR. field. apply not_0_INR. lia. Qed.
Lemma box_ext el kd rev m lo hi lo' hi' : (forall c, (c < ElementModel.el_dim el)%nat -> lo c = lo' c /\ hi c = hi' c) -> box_mesh el kd rev m lo hi -> box_mesh el kd rev m lo' hi'.
Proof.
  intros E (H1 & H2 & H3 & H4 & H5 & H6 & H7 & (vs & Ev & H8) & H9). split; [exact H1|]. split; [exact H2|]. split; [exact H3|]. split; [exact H4|]. split; [exact H5|]. split; [exact H6|]. split; [intros a c Ha Hc; destruct (E c Hc) as (<- & <-); apply H7; assumption|]. split; [|exact H9].
  exists vs. split; [exact Ev|]. intros a Ha. rewrite (H8 a Ha). split; intros (c & Hc & H); exists c; (split; [exact Hc|]); destruct (E c Hc) as (E1 & E2); [rewrite <- E1, <- E2|rewrite E1, E2]; exact H.
Qed.
Lemma quad_mesh_parts u ux uy n tl : (0 < n)%nat -> (0 < ux)%nat -> (0 < uy)%nat -> exists vs, quad_mesh u ux uy n tl = Mesh vs (quads (ux * n) (uy * n)) /\ length vs = ((ux * n + 1) * (uy * n + 1))%nat /\
  forall i j, (i <= ux * n)%nat -> (j <= uy * n)%nat -> nth (V2 (ux * n) i j) vs zero_point = pt [tl 0%nat + INR i * (u / INR n); tl 1%nat + - INR j * (u / INR n)].
Proof.
  intros Hn Hx Hy. unfold quad_mesh. rewrite decide_False by lia. eexists. split; [reflexivity|]. split; [apply fr2_length|]. intros i j Hi Hj. apply nth_lookup_Some. unfold V2. set (h := u / INR n).
  exact (fr2_lookup (uy * n + 1) (ux * n + 1) (fun j i => pt [tl 0%nat + INR i * h; tl 1%nat + - INR j * h]) i j ltac:(lia) ltac:(lia)).
Qed.
Lemma hex_mesh_parts u ux uy uz n : (0 < n)%nat -> (0 < ux)%nat -> (0 < uy)%nat -> exists vs, hex_mesh u ux uy uz n = Mesh vs (hexes (ux * n) (uy * n) (uz * n)) /\ length vs = ((ux * n + 1) * (uy * n + 1) * (uz * n + 1))%nat /\
  forall i j k, (i <= ux * n)%nat -> (j <= uy * n)%nat -> (k <= uz * n)%nat -> nth (V3 (ux * n) (uy * n) i j k) vs zero_point = pt [INR i * (u / INR n); INR j * (u / INR n); INR k * (u / INR n)].
Proof.
  intros Hn Hx Hy. unfold hex_mesh. rewrite decide_False by lia. eexists. split; [reflexivity|]. split; [apply fr3_length|]. intros i j k Hi Hj Hk. apply nth_lookup_Some. unfold V3. set (h := u / INR n).
  exact (fr3_lookup (uz * n + 1) (uy * n + 1) (ux * n + 1) (fun k j i => pt [INR i * h; INR j * h; INR k * h]) i j k ltac:(lia) ltac:(lia) ltac:(lia)).
Qed.
(** C109: the quadrilateral mesh of a rectangle with top left corner [tl] *)
Theorem C109_quad_mesh u ux uy n tl : 0 < u -> (0 < ux)%nat -> (0 < uy)%nat -> (0 < n)%nat ->
  box_mesh quad4 quad4d2_kind ([1; 0]%nat :: []) (quad_mesh u ux uy n tl) (pt [tl 0%nat; tl 1%nat - INR uy * u]) (pt [tl 0%nat + INR ux * u; tl 1%nat]).
Proof.
  intros Hu Hx Hy Hn. destruct (quad_mesh_parts u ux uy n tl Hn Hx Hy) as (vs & -> & L & Hv). refine (box_ext _ _ _ _ _ _ _ _ _ (quad_box (ux * n) (uy * n) (u / INR n) (tl 0%nat) (tl 1%nat) vs ltac:(lia) ltac:(lia) (step_positive u n Hn Hu) L Hv)).
  intros [|c] Hc; unfold low2, high2; rewrite step_total by exact Hn; [split; reflexivity|]. assert (c = 0)%nat as -> by (cbn in Hc; lia). split; reflexivity.
Qed.
Print Assumptions C109_quad_mesh.
(** C109: its triangulation *)
Theorem C109_tri_mesh u ux uy n tl : 0 < u -> (0 < ux)%nat -> (0 < uy)%nat -> (0 < n)%nat -> exists m, split_into_triangles (quad_mesh u ux uy n tl) = Some m /\
  box_mesh tri3 tri3d2_kind ([1; 0]%nat :: []) m (pt [tl 0%nat; tl 1%nat - INR uy * u]) (pt [tl 0%nat + INR ux * u; tl 1%nat]).
Proof.
  intros Hu Hx Hy Hn. destruct (quad_mesh_parts u ux uy n tl Hn Hx Hy) as (vs & -> & L & Hv). exists (Mesh vs (triangles (ux * n) (uy * n))). split.
  { apply split_spec; cbn [ms_cells ms_vertices].
    - unfold in_range. cbn [ms_cells ms_vertices]. apply Forall_forall. intros cell Hc. apply quads_elem in Hc as (i & j & Hi & Hj & ->). apply Forall_forall. intros a Ha. rewrite L. unfold quad_cell in Ha. revert a Ha. members; apply V2_range; lia.
    - apply Forall_forall. intros cell Hc. apply quads_elem in Hc as (i & j & Hi & Hj & ->). reflexivity. }
  refine (box_ext _ _ _ _ _ _ _ _ _ (tri_box (ux * n) (uy * n) (u / INR n) (tl 0%nat) (tl 1%nat) vs ltac:(lia) ltac:(lia) (step_positive u n Hn Hu) L Hv)).
  intros [|c] Hc; unfold low2, high2; rewrite step_total by exact Hn; [split; reflexivity|]. assert (c = 0)%nat as -> by (cbn in Hc; lia). split; reflexivity.
Qed.
Print Assumptions C109_tri_mesh.
(** C109: the hexahedral mesh of a box *)
Theorem C109_hex_mesh u ux uy uz n : 0 < u -> (0 < ux)%nat -> (0 < uy)%nat -> (0 < uz)%nat -> (0 < n)%nat ->
  box_mesh hex8 hex8_kind [[0; 3; 2; 1]; [1; 0; 3; 2]; [2; 1; 0; 3]; [3; 2; 1; 0]]%nat (hex_mesh u ux uy uz n) (pt [0; 0; 0]) (pt [INR ux * u; INR uy * u; INR uz * u]).
Proof.
  intros Hu Hx Hy Hz Hn. destruct (hex_mesh_parts u ux uy uz n Hn Hx Hy) as (vs & -> & L & Hv). refine (box_ext _ _ _ _ _ _ _ _ _ (hex_box (ux * n) (uy * n) (uz * n) (u / INR n) vs ltac:(lia) ltac:(lia) ltac:(lia) (step_positive u n Hn Hu) L Hv)).
  intros c Hc. change (ElementModel.el_dim hex8) with 3%nat in Hc. assert (c = 0 \/ c = 1 \/ c = 2)%nat as [->|[->| ->]] by lia; unfold high3; rewrite step_total by exact Hn; split; reflexivity.
Qed.
Print Assumptions C109_hex_mesh.

(** * what follows *)
Lemma box_regular el kd rev m lo hi xs : box_mesh el kd rev m lo hi -> regular_rule el (ms_vertices m) (ms_cells m) xs.
Proof. intros (_ & _ & _ & H & _) cell x Hc _. apply Rgt_not_eq, H, Hc. Qed.
Section canonical.
Variables (fuel : nat) (tri tet : list PolyquadModel.entry).
Hypotheses (Hfuel : (5 <= fuel)%nat) (Htri : PropCanonicalTables.shipped PropPolyquadTables.Tri tri) (Htet : PropCanonicalTables.shipped PropPolyquadTables.Tet tet).
Local Notation root := (QuadratureModel.newton_root fuel).
Local Notation rule_tri := (PropCanonicalTables.table_rule PropPolyquadTables.Tri tri).
Local Notation rule_tet := (PropCanonicalTables.table_rule PropPolyquadTables.Tet tet).
(** C109: on such meshes, with the quadrature that the mesh chooses, the Poisson problem is solvable when the fixed nodes are the boundary vertices, or any other nodes, but not none *)
Theorem C109_poisson el kd rev m lo hi oq : box_mesh el kd rev m lo hi ->
  In (el, oq) (CanonicalModel.canonical_stiffness root rule_tri rule_tet) -> exists q t, oq = Some q /\ uniform_from_quadrature q tt = Ok t /\
  forall Data' (default_data' : Data') umax (table' : q_table point Data') w' p' x' srt ord source nodes is_zero u0 cws ws vws ws',
   hash_order ord -> sorts_by_key srt -> (forall x, is_zero x = true <-> x = 0) -> reads_quadrature table' (length (ms_cells m)) w' p' x' ->
   (nodes <> [] /\ forall k, k ∈ nodes -> (k < length (ms_vertices m))%nat) -> length u0 = length (ms_vertices m) ->
   poisson_solved zero_point default_data' umax (element_space el (ms_vertices m) (ms_cells m)) (uniform_table t) table' (ms_cells m) (fun _ => fst q) (fun _ => snd q) (fun _ => repeat tt (length (fst q))) (ElementModel.el_dim el) w' p' x' srt ord source nodes is_zero u0 cws ws vws ws'.
Proof using Hfuel Htri Htet.
  intros B Hin. destruct (C107_poisson fuel tri tet Hfuel Htri Htet el oq Hin) as (q & t & Eq & Et & H). exists q, t. split; [exact Eq|]. split; [exact Et|]. intros Data' dd umax table' w' p' x' srt ord source nodes is_zero u0 cws ws vws ws' Ho Hs Hz Hq (Hne & Hn) Hu.
  pose proof (box_regular _ _ _ _ _ _ (snd q) B) as Hr. destruct B as (B1 & _ & _ & _ & _ & B6 & _ & _ & B9 & _). destruct nodes as [|j nodes]; [elim Hne; reflexivity|].
  apply H; try assumption; [intros k Hk; apply B6, Hn, Hk|]. intros k Hk. apply (B9 _ j k); [left|apply Hn; left|exact Hk].
Qed.
(** C109: linear elasticity is solvable when the fixed nodes include, in some cell, as many nodes as there are dimensions; all boundary vertices, or those on one side, do *)
Theorem C109_elasticity el kd rev m lo hi oq : box_mesh el kd rev m lo hi ->
  In (el, oq) (CanonicalModel.canonical_stiffness root rule_tri rule_tet) -> exists q, oq = Some q /\ length (fst q) = length (snd q) /\
  forall Data' params (default_data' : Data') umax (table : q_table point (R * R)) x (table' : q_table point Data') w' p' x' srt ord source nodes cell js is_zero u0 cws ws vws ws',
   reads_quadrature table (length (ms_cells m)) (fun _ => fst q) (fun _ => snd q) x ->
   (forall e y, (e < length (ms_cells m))%nat -> In y (x e) -> stable (ElementModel.el_dim el) y) -> hash_order ord -> sorts_by_key srt -> (forall x, is_zero x = true <-> x = 0) -> reads_quadrature table' (length (ms_cells m)) w' p' x' ->
   (forall k, k ∈ nodes -> (k < length (ms_vertices m))%nat) -> cell ∈ ms_cells m -> NoDup js -> length js = ElementModel.el_dim el -> (forall j, j ∈ js -> j ∈ cell /\ j ∈ nodes) -> length u0 = (ElementModel.el_dim el * length (ms_vertices m))%nat ->
   elasticity_solved zero_point params default_data' umax (element_space el (ms_vertices m) (ms_cells m)) table table' (ms_cells m) (fun _ => fst q) (fun _ => snd q) x (ElementModel.el_dim el) w' p' x' srt ord source nodes is_zero u0 cws ws vws ws'.
Proof using Hfuel Htri Htet.
  intros B Hin. destruct (C107_elasticity fuel tri tet Hfuel Htri Htet el oq Hin) as (q & Eq & L & H). exists q. split; [exact Eq|]. split; [exact L|]. intros Data' params dd umax table x table' w' p' x' srt ord source nodes cell js is_zero u0 cws ws vws ws' Hq Hst Ho Hs Hz Hq' Hn Hc Nj Lj Hj Hu.
  pose proof (box_regular _ _ _ _ _ _ (snd q) B) as Hr. destruct B as (B1 & B2 & B3 & _ & _ & B6 & _ & _ & _ & B10).
  apply H; try assumption; [intros k Hk; apply B6, Hn, Hk|]. intros k Hk. apply (B10 nodes cell js k); assumption.
Qed.
(** C109: mass matrices with positive densities are positive definite *)
Theorem C109_mass_matrix el kd rev m lo hi oq : box_mesh el kd rev m lo hi ->
  In (el, oq) (CanonicalModel.canonical_mass root rule_tri rule_tet) -> exists q, oq = Some q /\ length (fst q) = length (snd q) /\
  forall umax (table : q_table point R) rho srt ord s cws ws,
   reads_quadrature table (length (ms_cells m)) (fun _ => fst q) (fun _ => snd q) rho -> hash_order ord -> sorts_by_key srt -> (0 < s)%nat -> (forall e y, (e < length (ms_cells m))%nat -> In y (rho e) -> 0 < y) ->
   exists mass A, (assemble_csr Rplus 0 srt ord umax cws (mass_mat_asm zero_point umax (element_space el (ms_vertices m) (ms_cells m)) table s ws)).2 = Ok mass /\ csr_wf mass /\ entries_of (s * length (ms_vertices m)) mass A /\
    (forall r c, (r < s * length (ms_vertices m))%nat -> (c < s * length (ms_vertices m))%nat -> A r c = A c r) /\ positive_definite (s * length (ms_vertices m)) A.
Proof using Hfuel Htri Htet.
  intros B Hin. destruct (C107_mass_matrix fuel tri tet Hfuel Htri Htet el oq Hin) as (q & Eq & L & H). exists q. split; [exact Eq|]. split; [exact L|]. intros umax table rho srt ord s cws ws Hq Ho Hs Hs0 Hr0.
  pose proof (box_regular _ _ _ _ _ _ (snd q) B) as Hr. destruct B as (B1 & _ & _ & _ & _ & B6 & _). apply (H umax _ _ table rho); assumption.
Qed.
End canonical.
(** C109: at an affine function of the positions no force acts on a node inside the box *)
Theorem C109_patch {Data} (origin : point) (default_data : Data) umax el kd Sp rev m lo hi (table : q_table point Data) s w p x W y0 (A : mat) (b : vec) u operator_transpose vws ws :
  box_mesh el kd rev m lo hi -> In (el, kd, Sp, rev) patch_types -> (0 < s)%nat -> reads_quadrature table (length (ms_cells m)) w p x -> rules_match el Sp W (length (ms_cells m)) w p -> (forall e y, (e < length (ms_cells m))%nat -> In y (x e) -> y = y0) ->
  length u = (s * length (ms_vertices m))%nat -> (forall a c, (a < length (ms_vertices m))%nat -> (c < s)%nat -> value_at s u a c = b c + summ (ElementModel.el_dim el) (fun k => A c k * nth a (ms_vertices m) zero_point k)) ->
  exists f, (assemble_vector Rplus 0 umax vws (elliptic_vec_asm origin default_data umax (element_space el (ms_vertices m) (ms_cells m)) table s operator_transpose u ws)).2 = Ok f /\ length f = (s * length (ms_vertices m))%nat /\
    forall a c, (a < length (ms_vertices m))%nat -> (c < s)%nat -> (forall k, (k < ElementModel.el_dim el)%nat -> lo k < nth a (ms_vertices m) zero_point k < hi k) -> value_at s f a c = 0.
Proof.
  intros B Ht Hs Hq Hr Hy Hu Ha. destruct B as (B1 & B2 & _ & B4 & B5 & _ & _ & (bs & Eb & B8) & _).
  destruct (C108_patch origin default_data umax el kd Sp rev (ms_vertices m) (ms_cells m) table s w p x W y0 A b u operator_transpose vws ws) as (f & vs & Ef & Lf & Ev & Hf); try assumption.
  { intros e cell wt q y He _. apply B4. apply (elem_of_list_lookup_2 _ e), He. }
  exists f. split; [exact Ef|]. split; [exact Lf|]. intros a c La Lc In. apply Hf; [exact La|exact Lc|]. rewrite Ev in Eb. injection Eb as ->. intros Hv. apply (B8 a La) in Hv as (k & Hk & E). specialize (In k Hk). lra.
Qed.
Print Assumptions C109_poisson.
Print Assumptions C109_elasticity.
Print Assumptions C109_mass_matrix.
Print Assumptions C109_patch.
(** C109: in particular the meshes of the unit square and the unit box *)
Theorem C109_unit n : (0 < n)%nat ->
  box_mesh quad4 quad4d2_kind ([1; 0]%nat :: []) (unit_square_quad_mesh n) (pt [0; 0]) (pt [1; 1]) /\
  (exists m, unit_square_tri_mesh n = Some m /\ box_mesh tri3 tri3d2_kind ([1; 0]%nat :: []) m (pt [0; 0]) (pt [1; 1])) /\
  box_mesh hex8 hex8_kind [[0; 3; 2; 1]; [1; 0; 3; 2]; [2; 1; 0; 3]; [3; 2; 1; 0]]%nat (unit_box_hex_mesh n) (pt [0; 0; 0]) (pt [1; 1; 1]).
Proof.
  intros Hn. assert (E2 : forall c, (c < 2)%nat -> pt [pt [0; 1] 0%nat; pt [0; 1] 1%nat - INR 1 * 1] c = pt [0; 0] c /\ pt [pt [0; 1] 0%nat + INR 1 * 1; pt [0; 1] 1%nat] c = pt [1; 1] c) by (intros c Hc; assert (c = 0 \/ c = 1)%nat as [->| ->] by lia; unfold pt; cbn; lra).
  split; [|split].
  - refine (box_ext _ _ _ _ _ _ _ _ _ (C109_quad_mesh 1 1 1 n (pt [0; 1]) Rlt_0_1 Nat.lt_0_1 Nat.lt_0_1 Hn)). exact E2.
  - destruct (C109_tri_mesh 1 1 1 n (pt [0; 1]) Rlt_0_1 Nat.lt_0_1 Nat.lt_0_1 Hn) as (m & E & B). exists m. split; [exact E|]. refine (box_ext _ _ _ _ _ _ _ _ _ B). exact E2.
  - refine (box_ext _ _ _ _ _ _ _ _ _ (C109_hex_mesh 1 1 1 1 n Rlt_0_1 Nat.lt_0_1 Nat.lt_0_1 Nat.lt_0_1 Hn)). intros c Hc. change (ElementModel.el_dim hex8) with 3%nat in Hc. assert (c = 0 \/ c = 1 \/ c = 2)%nat as [->|[->| ->]] by lia; unfold pt; cbn; lra.
Qed.
Print Assumptions C109_unit.

(** the unit square in four cells: the boundary vertices are all nodes but 4, with these fixed the Poisson problem is solvable, and clamping the nodes 0 and 3 is enough for a plate of steel *)
Example C109_example source u0 u1 cws ws ws1 vws ws' : length u0 = 9%nat -> length u1 = 18%nat -> let m := unit_square_quad_mesh 2 in let sp := element_space quad4 (ms_vertices m) (ms_cells m) in let steel := lame_from_young_poisson 210 (3/10) in
  (exists vs, find_boundary_vertices quad4d2_kind (ms_cells m) = Some vs /\ vs ≡ₚ [0; 1; 2; 3; 5; 6; 7; 8]%nat) /\
  exists q t t1, QuadratureModel.quadrilateral_gauss (QuadratureModel.newton_root 5) 2 = Some q /\ uniform_from_quadrature q tt = Ok t /\ uniform_from_quadrature q steel = Ok t1 /\
  poisson_solved zero_point tt 77 sp (uniform_table t) (uniform_table t) (ms_cells m) (fun _ => fst q) (fun _ => snd q) (fun _ => repeat tt (length (fst q))) 2
    (fun _ => fst q) (fun _ => snd q) (fun _ => repeat tt (length (fst q))) PropCsr.key_sort (fun _ l => l) source [0; 1; 2; 3; 5; 6; 7; 8]%nat PropSolveMesh.is_zeroR u0 cws ws vws ws' /\
  elasticity_solved zero_point (0, 0) tt 77 sp (uniform_table t1) (uniform_table t) (ms_cells m) (fun _ => fst q) (fun _ => snd q) (fun _ => repeat steel (length (fst q))) 2
    (fun _ => fst q) (fun _ => snd q) (fun _ => repeat tt (length (fst q))) PropCsr.key_sort (fun _ l => l) (fun _ _ i => nth i [0; -981/100] 0) [0; 3]%nat PropSolveMesh.is_zeroR u1 cws ws1 vws ws'.
Proof.
  intros L0 L1 m sp steel. destruct PropUnisolvent.C107_example as (ST & SE & _). destruct (C109_unit 2 ltac:(lia)) as (B & _). assert (Lv : length (ms_vertices m) = 9%nat) by reflexivity.
  assert (In1 : In (quad4, QuadratureModel.quadrilateral_gauss (QuadratureModel.newton_root 5) 2) (CanonicalModel.canonical_stiffness (QuadratureModel.newton_root 5) (PropCanonicalTables.table_rule PropPolyquadTables.Tri (PropPolyquadTables.files PropPolyquadTables.Tri)) (PropCanonicalTables.table_rule PropPolyquadTables.Tet (PropPolyquadTables.files PropPolyquadTables.Tet)))) by (right; right; left; reflexivity).
  split; [eexists; split; [vm_compute; reflexivity|apply (bool_decide_unpack _); vm_compute; exact I]|].
  destruct (C109_poisson 5 _ _ (Nat.le_refl 5) ST SE quad4 _ _ _ _ _ _ B In1) as (q & t & Eq & Et & HP). destruct (C109_elasticity 5 _ _ (Nat.le_refl 5) ST SE quad4 _ _ _ _ _ _ B In1) as (q' & Eq' & L & HE). rewrite Eq in Eq'. injection Eq' as <-.
  destruct (reads_uniform q tt L) as (t' & Et' & Q). rewrite Et in Et'. injection Et' as <-. destruct (reads_uniform q steel L) as (t1 & Et1 & Q1). exists q, t, t1. split; [exact Eq|]. split; [exact Et|]. split; [exact Et1|].
  assert (Rg : forall k, k ∈ [0; 1; 2; 3; 5; 6; 7; 8]%nat -> (k < 9)%nat) by (intros k Hk; rewrite !elem_of_cons, elem_of_nil in Hk; lia). split.
  - apply HP; [intros k s; reflexivity|exact PropCsr.key_sort_ok|exact PropSolveMesh.is_zeroR_spec|apply Q|split; [discriminate|exact Rg]|exact L0].
  - apply (HE unit (0, 0) tt 77%nat (uniform_table t1) _ (uniform_table t)) with (cell := [3; 4; 1; 0]%nat) (js := [0; 3]%nat); [apply Q1| |intros k s; reflexivity|exact PropCsr.key_sort_ok|exact PropSolveMesh.is_zeroR_spec|apply Q| | | |reflexivity| |exact L1].
    + intros e y _ Hy. apply repeat_spec in Hy as ->. apply PropSolveMesh.C105_young_poisson; [right; left; reflexivity|lra|lra].
    + intros k Hk. apply Rg. rewrite !elem_of_cons, elem_of_nil in Hk. rewrite !elem_of_cons. lia.
    + apply (elem_of_list_lookup_2 _ 0%nat). reflexivity.
    + apply (bool_decide_unpack _). vm_compute. exact I.
    + intros j Hj. rewrite !elem_of_cons, elem_of_nil in Hj. rewrite !elem_of_cons. lia.
Qed.

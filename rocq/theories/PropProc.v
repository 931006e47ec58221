(** Properties C30, C31 (uniform quad, hex and tet meshes). *)
From stdpp Require Import base list list_numbers sets.
From Coq Require Import Reals Lia Lra.
From Verif Require Import Prelude ReorderModel MeshProofs ReorderProofs ParadisProofs VectorProofs ElementModel FacesSpec ConvertModel ConvertSpec ConvertProofs ProcModel ProcSpec.

Lemma fr_single {A} n (f : nat -> A) : for_range n (fun i => [f i]) = map f (seq 0 n).
Proof. unfold for_range. induction (seq 0 n); cbn; [done|by f_equal]. Qed.

Lemma fr_lookup {A} n s (f : nat -> list A) j c : (forall j, j < n -> length (f j) = s) -> j < n -> c < s -> for_range n f !! (s * j + c) = f j !! c.
Proof.
  intros Hl Hj Hc. unfold for_range. apply (concat_block_lookup s); [| |done].
  - apply Forall_forall. intros b Hb. apply elem_of_list_fmap in Hb as (x & -> & Hx). apply elem_of_seq in Hx. apply Hl. lia.
  - rewrite list_lookup_fmap, lookup_seq_lt by done. done.
Qed.

Lemma fr_length {A} n s (f : nat -> list A) : (forall j, j < n -> length (f j) = s) -> length (for_range n f) = s * n.
Proof.
  induction n as [|n IH]; intros Hl; [cbn; lia|]. unfold for_range in *. rewrite seq_S, map_app, concat_app, app_length, IH by (intros; apply Hl; lia).
  cbn. rewrite app_nil_r, Hl by lia. lia.
Qed.

Lemma fr_length1 {A} n (f : nat -> A) : length (for_range n (fun i => [f i])) = n.
Proof. by rewrite fr_single, map_length, seq_length. Qed.
Lemma fr_lookup1 {A} n (f : nat -> A) i : i < n -> for_range n (fun i => [f i]) !! i = Some (f i).
Proof. intros H. rewrite fr_single. rewrite list_lookup_fmap, lookup_seq_lt by done. done. Qed.

Lemma fr2_length {A} ny nx (f : nat -> nat -> A) : length (for_range ny (fun j => for_range nx (fun i => [f j i]))) = nx * ny.
Proof. apply fr_length. intros. apply fr_length1. Qed.
Lemma fr2_lookup {A} ny nx (f : nat -> nat -> A) i j : i < nx -> j < ny -> for_range ny (fun j => for_range nx (fun i => [f j i])) !! (nx * j + i) = Some (f j i).
Proof. intros Hi Hj. rewrite (fr_lookup ny nx); [by apply fr_lookup1|intros; apply fr_length1|done|done]. Qed.

Lemma fr3_length {A} nz ny nx (f : nat -> nat -> nat -> A) :
  length (for_range nz (fun k => for_range ny (fun j => for_range nx (fun i => [f k j i])))) = nx * ny * nz.
Proof. apply fr_length. intros. apply fr2_length. Qed.
Lemma fr3_lookup {A} nz ny nx (f : nat -> nat -> nat -> A) i j k : i < nx -> j < ny -> k < nz ->
  for_range nz (fun k => for_range ny (fun j => for_range nx (fun i => [f k j i]))) !! (nx * ny * k + nx * j + i) = Some (f k j i).
Proof.
  intros Hi Hj Hk. rewrite <- Nat.add_assoc. rewrite (fr_lookup nz (nx * ny)); [by apply fr2_lookup|intros; apply fr2_length|done|]. nia.
Qed.

(** every index below nx * ny is nx * j + i for a unique pair *)
Lemma split2 nx ny x : x < nx * ny -> exists i j, i < nx /\ j < ny /\ x = nx * j + i.
Proof. intros H. assert (nx ≠ 0) by lia. exists (x mod nx), (x / nx). split_and!; [by apply Nat.mod_upper_bound|by apply Nat.div_lt_upper_bound|by apply Nat.div_mod]. Qed.
Lemma split3 nx ny nz x : x < nx * ny * nz -> exists i j k, i < nx /\ j < ny /\ k < nz /\ x = nx * ny * k + nx * j + i.
Proof. intros H. destruct (split2 (nx * ny) nz x H) as (r & k & Hr & Hk & ->). destruct (split2 nx ny r Hr) as (i & j & Hi & Hj & ->). exists i, j, k. split_and!; [done..|lia]. Qed.

Lemma Rsum_const (l : list R) c : Forall (fun x => x = c) l -> Rsum l = (INR (length l) * c)%R.
Proof. unfold Rsum. induction 1 as [|x l -> H IH]; cbn [foldr length]; [cbn; lra|]. rewrite IH, S_INR. lra. Qed.

Lemma Forall_map_lookup {A B} (f : A -> B) (P : B -> Prop) (l : list A) : (forall x, x ∈ l -> P (f x)) -> Forall P (map f l).
Proof. intros H. apply Forall_forall. intros y Hy. apply elem_of_list_fmap in Hy as (x & -> & Hx). by apply H. Qed.

(** C30 (quads): the cells are exactly the grid cells, each an axis-aligned square of side u / n listed counter-clockwise;
    indices are in range, vertices with the same position are the same vertex, and the areas add up to the area of the
    rectangle. *)
Theorem C30_quad_mesh : forall u ux uy n tl, 0 < n -> 0 < ux -> 0 < uy ->
  let m := quad_mesh u ux uy n tl in let nx := ux * n in let ny := uy * n in let h := (u / INR n)%R in
  let X i := (tl 0%nat + INR i * h)%R in let Y j := (tl 1%nat - INR j * h)%R in
  length (ms_vertices m) = (nx + 1) * (ny + 1) /\ length (ms_cells m) = nx * ny /\ cells_of_size 4 m /\
  (forall i j, i < nx -> j < ny -> exists cell, ms_cells m !! (nx * j + i) = Some cell /\
    map (xy (ms_vertices m)) cell = [(X i, Y (j + 1)); (X (i + 1), Y (j + 1)); (X (i + 1), Y j); (X i, Y j)] /\
    quad_area (ms_vertices m) cell = (h * h)%R) /\
  (u ≠ 0%R -> forall a b, a < length (ms_vertices m) -> b < length (ms_vertices m) -> xy (ms_vertices m) a = xy (ms_vertices m) b -> a = b) /\
  Rsum (map (quad_area (ms_vertices m)) (ms_cells m)) = (INR ux * u * (INR uy * u))%R.
Proof.
  intros u ux uy n tl Hn Hx Hy m nx ny h X Y. unfold m, quad_mesh. rewrite decide_False by lia. fold h nx ny. cbn [ms_vertices ms_cells].
  set (vs := for_range (ny + 1) _). set (cells := for_range ny _).
  assert (Hn0 : INR n ≠ 0%R) by (apply not_0_INR; lia).
  assert (Hv : forall i j, i < nx + 1 -> j < ny + 1 -> xy vs ((nx + 1) * j + i) = (X i, Y j)).
  { intros i j Hi Hj. unfold xy. assert (E : vs !! ((nx + 1) * j + i) = Some (pt [tl 0%nat + INR i * h; tl 1%nat + - INR j * h]%R)).
    { unfold vs. by rewrite (fr2_lookup (ny + 1) (nx + 1) (fun j i => pt [tl 0%nat + INR i * h; tl 1%nat + - INR j * h]%R)). }
    rewrite !(coord_lookup _ _ _ _ E). unfold X, Y, pt. cbn. f_equal; lra. }
  assert (Hlv : length vs = (nx + 1) * (ny + 1)) by apply fr2_length.
  assert (Hlc : length cells = nx * ny) by apply fr2_length.
  assert (Hc : forall i j, i < nx -> j < ny -> cells !! (nx * j + i) =
    Some [(nx + 1) * (j + 1) + i; (nx + 1) * (j + 1) + (i + 1); (nx + 1) * j + (i + 1); (nx + 1) * j + i]).
  { intros i j Hi Hj. unfold cells.
    by rewrite (fr2_lookup ny nx (fun j i => [(nx + 1) * (j + 1) + i; (nx + 1) * (j + 1) + (i + 1); (nx + 1) * j + (i + 1); (nx + 1) * j + i])). }
  assert (Hm : forall i j, i < nx -> j < ny -> map (xy vs) [(nx + 1) * (j + 1) + i; (nx + 1) * (j + 1) + (i + 1); (nx + 1) * j + (i + 1); (nx + 1) * j + i]
     = [(X i, Y (j + 1)); (X (i + 1), Y (j + 1)); (X (i + 1), Y j); (X i, Y j)]).
  { intros i j Hi Hj. cbn [map]. rewrite !Hv by lia. done. }
  assert (Ha : forall i j, i < nx -> j < ny -> quad_area vs [(nx + 1) * (j + 1) + i; (nx + 1) * (j + 1) + (i + 1); (nx + 1) * j + (i + 1); (nx + 1) * j + i] = (h * h)%R).
  { intros i j Hi Hj. unfold quad_area. rewrite Hm by done. cbn [fst snd]. unfold X, Y. rewrite !plus_INR. cbn [INR]. field. }
  split_and!.
  - done.
  - done.
  - apply Forall_lookup. cbn [ms_cells ms_vertices]. intros x cell Hxc. assert (x < nx * ny) as Hlt by (rewrite <- Hlc; by apply lookup_lt_Some in Hxc).
    destruct (split2 nx ny x Hlt) as (i & j & Hi & Hj & ->). rewrite Hc in Hxc by done. injection Hxc as <-. split; [done|].
    rewrite Hlv. repeat constructor; nia.
  - intros i j Hi Hj. eexists; split; [by apply Hc|]. split; [by apply Hm|by apply Ha].
  - intros Hu a b Ha' Hb' Heq. rewrite Hlv in Ha', Hb'. destruct (split2 _ _ _ Ha') as (i & j & Hi & Hj & ->).
    destruct (split2 _ _ _ Hb') as (i' & j' & Hi' & Hj' & ->). rewrite !Hv in Heq by done. injection Heq as E1 E2. unfold X, Y in *.
    assert (Hh : h ≠ 0%R). { unfold h. intros Hh. apply Hu. apply (f_equal (fun t => t * INR n)%R) in Hh. field_simplify in Hh; [lra|done]. }
    assert (INR i = INR i') as ->%INR_eq. { apply (Rmult_eq_reg_r h); [lra|done]. }
    assert (INR j = INR j') as ->%INR_eq. { apply (Rmult_eq_reg_r h); [lra|done]. } done.
  - rewrite (Rsum_const _ (h * h)%R).
    + rewrite map_length, Hlc. unfold nx, ny, h. rewrite !mult_INR. field. done.
    + apply Forall_map_lookup. intros cell Hcell. apply elem_of_list_lookup in Hcell as [x Hxc].
      assert (x < nx * ny) as Hlt by (rewrite <- Hlc; by apply lookup_lt_Some in Hxc).
      destruct (split2 nx ny x Hlt) as (i & j & Hi & Hj & ->). rewrite Hc in Hxc by done. injection Hxc as <-. by apply Ha.
Qed.
Print Assumptions C30_quad_mesh.

Lemma xyz_inj_grid nx ny nz h (P : nat -> point3) : h ≠ 0%R ->
  (forall i j k, i < nx -> j < ny -> k < nz -> P (nx * ny * k + nx * j + i) = (INR i * h, INR j * h, INR k * h)%R) ->
  forall a b, a < nx * ny * nz -> b < nx * ny * nz -> P a = P b -> a = b.
Proof.
  intros Hh HP a b Ha Hb Heq. destruct (split3 _ _ _ _ Ha) as (i & j & k & Hi & Hj & Hk & ->). destruct (split3 _ _ _ _ Hb) as (i' & j' & k' & Hi' & Hj' & Hk' & ->).
  rewrite !HP in Heq by done. injection Heq as E1 E2 E3.
  apply Rmult_eq_reg_r, INR_eq in E1 as ->; [|done]. apply Rmult_eq_reg_r, INR_eq in E2 as ->; [|done]. by apply Rmult_eq_reg_r, INR_eq in E3 as ->.
Qed.

Lemma step_nonzero u n : 0 < n -> u ≠ 0%R -> (u / INR n)%R ≠ 0%R.
Proof.
  intros Hn Hu Hh. assert (INR n ≠ 0%R) by (apply not_0_INR; lia). apply Hu. apply (f_equal (fun t => t * INR n)%R) in Hh. field_simplify in Hh; [lra|done].
Qed.

(** C30 (hexes): the cells are exactly the grid cells of the box [0, ux u] x [0, uy u] x [0, uz u], each an axis-aligned cube
    of side u / n with the node order of the reference hexahedron. *)
Theorem C30_hex_mesh : forall u ux uy uz n, 0 < n -> 0 < ux -> 0 < uy -> 0 < uz ->
  let m := hex_mesh u ux uy uz n in let nx := ux * n in let ny := uy * n in let nz := uz * n in let h := (u / INR n)%R in
  let P i j k : point3 := (INR i * h, INR j * h, INR k * h)%R in
  length (ms_vertices m) = (nx + 1) * (ny + 1) * (nz + 1) /\ length (ms_cells m) = nx * ny * nz /\ cells_of_size 8 m /\
  (forall i j k, i < nx -> j < ny -> k < nz -> exists cell, ms_cells m !! (nx * ny * k + nx * j + i) = Some cell /\
    map (xyz (ms_vertices m)) cell =
      [P i j k; P (i + 1) j k; P (i + 1) (j + 1) k; P i (j + 1) k;
       P i j (k + 1); P (i + 1) j (k + 1); P (i + 1) (j + 1) (k + 1); P i (j + 1) (k + 1)] /\
    box_volume (ms_vertices m) cell = (h * h * h)%R) /\
  (u ≠ 0%R -> forall a b, a < length (ms_vertices m) -> b < length (ms_vertices m) -> xyz (ms_vertices m) a = xyz (ms_vertices m) b -> a = b) /\
  Rsum (map (box_volume (ms_vertices m)) (ms_cells m)) = (INR ux * u * (INR uy * u) * (INR uz * u))%R.
Proof.
  intros u ux uy uz n Hn Hx Hy Hz m nx ny nz h P. unfold m, hex_mesh. rewrite decide_False by lia. fold h nx ny nz. cbn [ms_vertices ms_cells].
  set (vs := for_range (nz + 1) _). set (cells := for_range nz _).
  assert (Hn0 : INR n ≠ 0%R) by (apply not_0_INR; lia).
  assert (Hv : forall i j k, i < nx + 1 -> j < ny + 1 -> k < nz + 1 -> xyz vs ((nx + 1) * (ny + 1) * k + (nx + 1) * j + i) = P i j k).
  { intros i j k Hi Hj Hk. unfold xyz. assert (E : vs !! ((nx + 1) * (ny + 1) * k + (nx + 1) * j + i) = Some (pt [INR i * h; INR j * h; INR k * h]%R)).
    { unfold vs. by rewrite (fr3_lookup (nz + 1) (ny + 1) (nx + 1) (fun k j i => pt [INR i * h; INR j * h; INR k * h]%R)). }
    rewrite !(coord_lookup _ _ _ _ E). done. }
  assert (Hlv : length vs = (nx + 1) * (ny + 1) * (nz + 1)) by apply fr3_length.
  assert (Hlc : length cells = nx * ny * nz) by apply fr3_length.
  set (idx i j k := (nx + 1) * (ny + 1) * k + (nx + 1) * j + i).
  set (cell i j k := [idx i j k; idx (i + 1) j k; idx (i + 1) (j + 1) k; idx i (j + 1) k;
        idx i j (k + 1); idx (i + 1) j (k + 1); idx (i + 1) (j + 1) (k + 1); idx i (j + 1) (k + 1)]).
  assert (Hc : forall i j k, i < nx -> j < ny -> k < nz -> cells !! (nx * ny * k + nx * j + i) = Some (cell i j k)).
  { intros i j k Hi Hj Hk. unfold cells. by rewrite (fr3_lookup nz ny nx (fun k j i => cell i j k)). }
  assert (Hm : forall i j k, i < nx -> j < ny -> k < nz -> map (xyz vs) (cell i j k) = 
      [P i j k; P (i + 1) j k; P (i + 1) (j + 1) k; P i (j + 1) k;
       P i j (k + 1); P (i + 1) j (k + 1); P (i + 1) (j + 1) (k + 1); P i (j + 1) (k + 1)]).
  { intros i j k Hi Hj Hk. unfold cell, idx. cbn [map]. rewrite !Hv by lia. done. }
  assert (Ha : forall i j k, i < nx -> j < ny -> k < nz -> box_volume vs (cell i j k) = (h * h * h)%R).
  { intros i j k Hi Hj Hk. unfold box_volume. rewrite Hm by done. unfold P, det3, sub3. cbn [fst snd]. rewrite !plus_INR. cbn [INR]. ring. }
  assert (Hin : forall x c, cells !! x = Some c -> exists i j k, i < nx /\ j < ny /\ k < nz /\ c = cell i j k).
  { intros x c Hxc. assert (x < nx * ny * nz) as Hlt by (rewrite <- Hlc; by apply lookup_lt_Some in Hxc).
    destruct (split3 nx ny nz x Hlt) as (i & j & k & Hi & Hj & Hk & ->). rewrite Hc in Hxc by done. injection Hxc as <-. eauto 8. }
  split_and!.
  - done.
  - done.
  - apply Forall_lookup. cbn [ms_cells ms_vertices]. intros x c Hxc. destruct (Hin x c Hxc) as (i & j & k & Hi & Hj & Hk & ->). split; [done|].
    assert (Hlt : forall i j k, i < nx + 1 -> j < ny + 1 -> k < nz + 1 -> idx i j k < length vs).
    { clear. intros i j k Hi Hj Hk. unfold vs. rewrite fr3_length. unfold idx. nia. }
    unfold cell. repeat (constructor; [apply Hlt; lia|]). constructor.
  - intros i j k Hi Hj Hk. eexists; split; [by apply Hc|]. split; [by apply Hm|by apply Ha].
  - intros Hu. rewrite Hlv. apply (xyz_inj_grid _ _ _ h (xyz vs)); [by apply step_nonzero|done].
  - rewrite (Rsum_const _ (h * h * h)%R).
    + rewrite map_length, Hlc. unfold nx, ny, nz, h. rewrite !mult_INR. field. done.
    + apply Forall_map_lookup. intros c Hcell. apply elem_of_list_lookup in Hcell as [x Hxc].
      destruct (Hin x c Hxc) as (i & j & k & Hi & Hj & Hk & ->). by apply Ha.
Qed.
Print Assumptions C30_hex_mesh.

(** ** Tetrahedra *)
Section TetProofs.
  Context (cx cy cz : nat) (h : R) (vs : list point) (offset : nat).
  Hypothesis Hcorner : forall i j k, i < cx + 1 -> j < cy + 1 -> k < cz + 1 ->
    xyz vs (vertex_idx cx cy [i; j; k]) = (h * INR i, h * INR j, h * INR k)%R /\ vertex_idx cx cy [i; j; k] < length vs.
  Hypothesis Hcentre : forall i j k, i < cx -> j < cy -> k < cz ->
    xyz vs (centre_idx cx cy offset [i; j; k]) = (h * (1 / 2 + INR i), h * (1 / 2 + INR j), h * (1 / 2 + INR k))%R /\
    centre_idx cx cy offset [i; j; k] < length vs.

  Definition good_tet (t : list nat) : Prop := (length t = 4 /\ Forall (fun v => v < length vs) t) /\ tet_volume vs t = (h * h * h / 12)%R.

  Local Ltac tet := split; [split; [reflexivity|repeat (constructor; [first [apply Hcorner; lia|apply Hcentre; lia]|]); constructor]|];
    unfold tet_volume; cbn [map];
    repeat match goal with
    | |- context [xyz vs (vertex_idx cx cy [?i; ?j; ?k])] => rewrite (proj1 (Hcorner i j k ltac:(lia) ltac:(lia) ltac:(lia)))
    | |- context [xyz vs (centre_idx cx cy offset [?i; ?j; ?k])] => rewrite (proj1 (Hcentre i j k ltac:(lia) ltac:(lia) ltac:(lia)))
    end; unfold orient3, det3, sub3; cbn [fst snd]; rewrite ?plus_INR, ?S_INR; cbn [INR]; field.

  Lemma connect_good i j k axis : axis < 3 -> i < cx -> j < cy -> k < cz -> vec_at [i; j; k] axis + 1 < vec_at [cx; cy; cz] axis ->
    Forall good_tet (connect_centers cx cy offset [i; j; k] axis) /\ length (connect_centers cx cy offset [i; j; k] axis) = 4.
  Proof using Hcorner Hcentre.
    intros Haxis Hi Hj Hk Hlt. destruct axis as [|[|[|]]]; [..|lia]; cbn in Hlt; unfold connect_centers;
      cbn -[vertex_idx centre_idx Nat.add]; (split; [|reflexivity]);
      repeat first [rewrite decide_True by lia|rewrite decide_False by lia]; repeat (constructor; [tet|]); constructor.
  Qed.

  Lemma pyramid_good i j k axis dir : axis < 3 -> i < cx -> j < cy -> k < cz -> exists ts,
    make_pyramid cx cy offset [i; j; k] axis dir = Some ts /\ Forall good_tet ts /\ length ts = 2.
  Proof using Hcorner Hcentre.
    intros Haxis Hi Hj Hk. unfold make_pyramid.
    destruct axis as [|[|[|]]]; [..|lia]; destruct dir; cbn -[vertex_idx centre_idx Nat.add Nat.sub Nat.modulo];
      rewrite ?decide_True by lia; cbn -[vertex_idx centre_idx Nat.add Nat.sub Nat.modulo]; rewrite ?Nat.add_sub;
      repeat match goal with |- context [1 + ?x - 1] => replace (1 + x - 1) with x by lia end;
      case_decide; (eexists; split; [reflexivity|]; split; [|reflexivity]); repeat (constructor; [tet|]); constructor.
  Qed.

  Definition cnt (c x : nat) : nat := (if decide (x + 1 < c) then 4 else 0) + ((if decide (x = 0) then 2 else 0) + (if decide (x + 1 = c) then 2 else 0)).

  Lemma axis_good i j k axis : axis < 3 -> i < cx -> j < cy -> k < cz -> exists ts,
    axis_tets cx cy cz offset [i; j; k] axis = Some ts /\ Forall good_tet ts /\ length ts = cnt (vec_at [cx; cy; cz] axis) (vec_at [i; j; k] axis).
  Proof using Hcorner Hcentre.
    intros Haxis Hi Hj Hk. unfold axis_tets, cnt.
    destruct (pyramid_good i j k axis false Haxis Hi Hj Hk) as (t1 & -> & F1 & L1).
    destruct (pyramid_good i j k axis true Haxis Hi Hj Hk) as (t2 & -> & F2 & L2).
    pose proof (connect_good i j k axis Haxis Hi Hj Hk) as Hcg.
    repeat case_decide; try (destruct (Hcg ltac:(lia)) as [F0 L0]); cbn [mbind option_bind]; eexists; (split; [reflexivity|]);
      rewrite !app_length, ?L0, ?L1, ?L2; (split; [rewrite ?Forall_app; repeat split; auto|cbn; lia]).
  Qed.
End TetProofs.

Definition nsum (l : list nat) : nat := foldr Nat.add 0 l.
Lemma nsum_app l l' : nsum (l ++ l') = nsum l + nsum l'.
Proof. induction l; cbn; [done|]. unfold nsum in *. lia. Qed.

Lemma cnt_sum c : 0 < c -> nsum (map (cnt c) (seq 0 c)) = 4 * c.
Proof.
  intros Hc. assert (Hp : forall n, n < c -> nsum (map (cnt c) (seq 0 n)) = if decide (n = 0) then 0 else 4 * n + 2).
  { induction n as [|n IH]; intros Hn; [done|]. rewrite seq_S, map_app, nsum_app, IH by lia. cbn. unfold cnt. repeat case_decide; lia. }
  destruct c as [|c]; [lia|]. rewrite seq_S, map_app, nsum_app, Hp by lia. cbn. unfold cnt. repeat case_decide; lia.
Qed.

Lemma nsum_affine a b (g : nat -> nat) l : nsum (map (fun x => a + b * g x) l) = length l * a + b * nsum (map g l).
Proof. induction l; cbn; [lia|]. unfold nsum in *. rewrite IHl. lia. Qed.
Lemma nsum_ext (f g : nat -> nat) n : (forall x, x < n -> f x = g x) -> nsum (map f (seq 0 n)) = nsum (map g (seq 0 n)).
Proof. intros H. f_equal. apply map_ext_in. intros x Hx. apply in_seq in Hx. apply H. lia. Qed.
Lemma nsum_fr {A} n (f : nat -> list A) (g : A -> nat) : nsum (map g (for_range n f)) = nsum (map (fun j => nsum (map g (f j))) (seq 0 n)).
Proof. unfold for_range. induction (seq 0 n); cbn; [done|]. rewrite map_app, nsum_app, IHl. done. Qed.
Lemma length_concat {A} (ls : list (list A)) : length (concat ls) = nsum (map length ls).
Proof. induction ls; cbn; [done|]. rewrite app_length, IHls. done. Qed.

Definition cell_cnt (cx cy cz : nat) (cell : list nat) : nat := cnt cx (vec_at cell 0) + cnt cy (vec_at cell 1) + cnt cz (vec_at cell 2).

Lemma total_cnt cx cy cz : 0 < cx -> 0 < cy -> 0 < cz ->
  nsum (map (cell_cnt cx cy cz) (for_range cz (fun k => for_range cy (fun j => for_range cx (fun i => [[i; j; k]]))))) = 12 * (cx * cy * cz).
Proof.
  intros Hx Hy Hz. rewrite nsum_fr.
  rewrite (nsum_ext _ (fun k => 8 * cx * cy + (cx * cy) * cnt cz k)).
  - rewrite nsum_affine, cnt_sum, seq_length by done. nia.
  - intros k Hk. rewrite nsum_fr. rewrite (nsum_ext _ (fun j => (4 * cx + cx * cnt cz k) + cx * cnt cy j)).
    + rewrite nsum_affine, cnt_sum, seq_length by done. nia.
    + intros j Hj. rewrite nsum_fr. rewrite (nsum_ext _ (fun i => (cnt cy j + cnt cz k) + 1 * cnt cx i)).
      * rewrite nsum_affine, cnt_sum, seq_length by done. nia.
      * intros i Hi. unfold cell_cnt. cbn. lia.
Qed.

(** C30 (tets): every tetrahedron is positively oriented with volume (u / n)^3 / 12, there are twelve per grid cell, and the
    volumes add up to the volume of the box. The construction never panics. *)
Theorem C30_tet_mesh : forall u ux uy uz n, 0 < n -> 0 < ux -> 0 < uy -> 0 < uz ->
  let cx := ux * n in let cy := uy * n in let cz := uz * n in let h := (u / INR n)%R in
  exists m, tet_mesh u ux uy uz n = Some m /\
  length (ms_vertices m) = (cx + 1) * (cy + 1) * (cz + 1) + cx * cy * cz /\ length (ms_cells m) = 12 * (cx * cy * cz) /\
  cells_of_size 4 m /\ Forall (fun t => tet_volume (ms_vertices m) t = (h * h * h / 12)%R) (ms_cells m) /\
  Rsum (map (tet_volume (ms_vertices m)) (ms_cells m)) = (INR ux * u * (INR uy * u) * (INR uz * u))%R.
Proof.
  intros u ux uy uz n Hn Hx Hy Hz cx cy cz h. unfold tet_mesh. rewrite decide_False by lia. fold h cx cy cz.
  assert (Hcx : 0 < cx) by (unfold cx; nia). assert (Hcy : 0 < cy) by (unfold cy; nia). assert (Hcz : 0 < cz) by (unfold cz; nia).
  set (corners := for_range (cz + 1) _). set (centres := for_range cz (fun k => for_range cy (fun j => for_range cx (fun i => [pt _])))).
  set (cells := for_range cz (fun k => for_range cy (fun j => for_range cx (fun i => [[i; j; k]])))).
  assert (Hlc : length corners = (cx + 1) * (cy + 1) * (cz + 1)) by apply fr3_length.
  assert (Hlm : length centres = cx * cy * cz) by apply fr3_length.
  assert (Hcorner : forall i j k, i < cx + 1 -> j < cy + 1 -> k < cz + 1 ->
    xyz (corners ++ centres) (vertex_idx cx cy [i; j; k]) = (h * INR i, h * INR j, h * INR k)%R /\ vertex_idx cx cy [i; j; k] < length (corners ++ centres)).
  { intros i j k Hi Hj Hk. assert (E : (corners ++ centres) !! vertex_idx cx cy [i; j; k] = Some (pt [h * INR i; h * INR j; h * INR k]%R)).
    { apply lookup_app_l_Some. unfold corners, vertex_idx. change (vec_at [i; j; k] 2) with k. change (vec_at [i; j; k] 1) with j. change (vec_at [i; j; k] 0) with i. by rewrite (fr3_lookup (cz + 1) (cy + 1) (cx + 1) (fun k j i => pt [h * INR i; h * INR j; h * INR k]%R)). }
    split; [|by apply lookup_lt_Some in E]. unfold xyz. rewrite !(coord_lookup _ _ _ _ E). done. }
  assert (Hcentre : forall i j k, i < cx -> j < cy -> k < cz ->
    xyz (corners ++ centres) (centre_idx cx cy (length corners) [i; j; k]) = (h * (1 / 2 + INR i), h * (1 / 2 + INR j), h * (1 / 2 + INR k))%R /\
    centre_idx cx cy (length corners) [i; j; k] < length (corners ++ centres)).
  { intros i j k Hi Hj Hk. assert (E : (corners ++ centres) !! centre_idx cx cy (length corners) [i; j; k] =
      Some (pt [h * (1 / 2 + INR i); h * (1 / 2 + INR j); h * (1 / 2 + INR k)]%R)).
    { unfold centre_idx. change (vec_at [i; j; k] 2) with k. change (vec_at [i; j; k] 1) with j. change (vec_at [i; j; k] 0) with i. rewrite lookup_app_r by lia. rewrite Nat.add_sub. unfold centres.
      by rewrite (fr3_lookup cz cy cx (fun k j i => pt [h * (1 / 2 + INR i); h * (1 / 2 + INR j); h * (1 / 2 + INR k)]%R)). }
    split; [|by apply lookup_lt_Some in E]. unfold xyz. rewrite !(coord_lookup _ _ _ _ E). done. }
  assert (Hcell : forall c, c ∈ cells -> exists tss, mapM (axis_tets cx cy cz (length corners) c) (seq 0 3) = Some tss /\
    Forall (Forall (good_tet h (corners ++ centres))) tss /\ nsum (map length tss) = cell_cnt cx cy cz c).
  { intros c Hc. apply elem_of_list_lookup in Hc as [x Hxc]. assert (Hlt : x < cx * cy * cz) by (apply lookup_lt_Some in Hxc; unfold cells in Hxc; by rewrite fr3_length in Hxc).
    destruct (split3 _ _ _ _ Hlt) as (i & j & k & Hi & Hj & Hk & ->). unfold cells in Hxc.
    rewrite (fr3_lookup cz cy cx (fun k j i => [i; j; k])) in Hxc by done. injection Hxc as <-.
    destruct (axis_good cx cy cz h _ _ Hcorner Hcentre i j k 0 ltac:(lia) Hi Hj Hk) as (t0 & E0 & F0 & L0).
    destruct (axis_good cx cy cz h _ _ Hcorner Hcentre i j k 1 ltac:(lia) Hi Hj Hk) as (t1 & E1 & F1 & L1).
    destruct (axis_good cx cy cz h _ _ Hcorner Hcentre i j k 2 ltac:(lia) Hi Hj Hk) as (t2 & E2 & F2 & L2).
    exists [t0; t1; t2]. cbn [seq mapM]. rewrite E0, E1, E2. cbn [mbind option_bind mret option_ret]. split; [done|]. split; [by repeat constructor|].
    cbn [map nsum foldr]. rewrite L0, L1, L2. unfold cell_cnt. cbn. lia. }
  destruct (Forall2_exists (fun c tss => mapM (axis_tets cx cy cz (length corners) c) (seq 0 3) = Some tss /\
    Forall (Forall (good_tet h (corners ++ centres))) tss /\ nsum (map length tss) = cell_cnt cx cy cz c) cells Hcell) as (tets & HF).
  assert (E : mapM (fun cell => mapM (axis_tets cx cy cz (length corners) cell) (seq 0 3)) cells = Some tets).
  { apply mapM_Forall2. apply (list.Forall2_impl _ _ _ _ HF). by intros c tss [? _]. }
  rewrite E. cbn [mbind option_bind]. eexists; split; [reflexivity|]. cbn [ms_vertices ms_cells].
  assert (Hgood : Forall (good_tet h (corners ++ centres)) (concat (concat tets))).
  { clear E Hcell. clearbody cells. induction HF as [|c tss cs tets (_ & H1 & _) HF IH]; [constructor|]. cbn [concat]. rewrite concat_app. apply Forall_app. split.
    - clear - H1. induction H1; cbn; [constructor|]. by apply Forall_app.
    - exact IH. }
  assert (Hlen : length (concat (concat tets)) = 12 * (cx * cy * cz)).
  { rewrite <- total_cnt by done. fold cells. clear - HF. clearbody cells. induction HF as [|c tss cs tets (_ & _ & H1) HF IH]; [done|].
    cbn [concat map nsum foldr]. rewrite concat_app, app_length, IH, length_concat, H1. done. }
  split_and!.
  - rewrite app_length. lia.
  - done.
  - apply (Forall_impl _ _ _ Hgood). by intros t [? _].
  - apply (Forall_impl _ _ _ Hgood). by intros t [_ ?].
  - rewrite (Rsum_const _ (h * h * h / 12)%R).
    + rewrite map_length, Hlen, !mult_INR. unfold cx, cy, cz, h. rewrite !mult_INR. cbn [INR]. field. apply not_0_INR. lia.
    + apply Forall_map_lookup. intros t Ht. rewrite Forall_forall in Hgood. by apply Hgood.
Qed.
Print Assumptions C30_tet_mesh.

(** Two units by one, two cells per unit. *)
Example C30_example : length (ms_cells (quad_mesh 1 2 1 2 (pt [0; 0]%R))) = 8 /\
  ms_cells (hex_mesh 1 2 1 1 1) = [[0; 1; 4; 3; 6; 7; 10; 9]; [1; 2; 5; 4; 7; 8; 11; 10]] /\
  (length ∘ ms_cells <$> tet_mesh 1 2 1 1 1) = Some 24.
Proof. split_and!; vm_compute; reflexivity. Qed.

(** C31, what does hold: there are no cells exactly if the box is empty; there are no vertices exactly if the number of cells
    per unit or one of the first two sides is zero. The tetrahedral mesh of an empty box is empty for each of the three sides. *)
Theorem C31_empty_box : forall u ux uy uz n,
  (ms_cells (hex_mesh u ux uy uz n) = [] <-> n = 0 \/ ux = 0 \/ uy = 0 \/ uz = 0) /\
  (ms_vertices (hex_mesh u ux uy uz n) = [] <-> n = 0 \/ ux = 0 \/ uy = 0) /\
  (tet_mesh u ux uy uz n = Some (Mesh [] []) <-> n = 0 \/ ux = 0 \/ uy = 0 \/ uz = 0).
Proof.
  intros u ux uy uz n. split; [|split].
  - destruct (decide (n = 0 \/ ux = 0 \/ uy = 0 \/ uz = 0)) as [Hz|Hz].
    + split; [done|]. intros _. unfold hex_mesh. case_decide; [done|]. assert (uz = 0) as -> by lia. done.
    + split; [|done]. intros E. destruct (C30_hex_mesh u ux uy uz n) as (_ & Hl & _); [lia..|]. rewrite E in Hl. cbn in Hl. nia.
  - unfold hex_mesh. case_decide; cbn [ms_vertices]; [tauto|]. split; [|done]. intros E.
    apply (f_equal length) in E. rewrite fr3_length in E. cbn in E. nia.
  - destruct (decide (n = 0 \/ ux = 0 \/ uy = 0 \/ uz = 0)) as [Hz|Hz].
    + split; [done|]. intros _. unfold tet_mesh. rewrite decide_True by tauto. done.
    + split; [|done]. intros E. destruct (C30_tet_mesh u ux uy uz n) as (m & E' & _ & Hl & _); [lia..|]. rewrite E in E'. injection E' as <-. cbn in Hl. nia.
Qed.
Print Assumptions C31_empty_box.

(** C31 is false for the third side: the mesh then has vertices, but no cells. *)
Theorem C31_empty_box_refuted : exists u ux uy uz n, uz = 0 /\
  length (ms_vertices (hex_mesh u ux uy uz n)) = 4 /\ ms_cells (hex_mesh u ux uy uz n) = [].
Proof. exists 1%R, 1, 1, 0, 1. split_and!; vm_compute; reflexivity. Qed.
Print Assumptions C31_empty_box_refuted.

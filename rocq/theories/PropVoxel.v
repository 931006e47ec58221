(** C95: meshes made from signed distance functions. *)
From stdpp Require Import base list list_numbers sets.
From Coq Require Import Reals ZArith Lia Lra.
From Verif Require Import Prelude CgModel ReorderModel ReorderSpec MeshModel MeshSpec MeshProofs PropMesh ElementModel ConvertSpec ProcModel ProcSpec PropProc GeomModel PropQuad
  AabbModel SdfModel PropSdf VoxelModel.
Local Open Scope R_scope.

(** Specification: a cell is a square with lower left corner (x, y) and side h, corners counter-clockwise; its points. *)
Definition square (m : mesh point) (cell : list nat) (h x y : R) : Prop := map (xy (ms_vertices m)) cell = [(x, y); (x + h, y); (x + h, y + h); (x, y + h)].
Definition in_square (h x y : R) (p : point) : Prop := x <= p 0%nat <= x + h /\ y <= p 1%nat <= y + h.
Definition in_range (m : mesh point) : Prop := Forall (Forall (fun v => v < length (ms_vertices m))%nat) (ms_cells m).

Lemma ceiling_spec x : IZR (ceiling x) - 1 < x <= IZR (ceiling x).
Proof. unfold ceiling. destruct (base_Int_part (- x)) as [H1 H2]. rewrite opp_IZR. lra. Qed.
Lemma ceiling_pos x : 0 < x -> (0 < ceiling x)%Z.
Proof. intros H. destruct (ceiling_spec x) as [_ H2]. apply lt_IZR. lra. Qed.
Lemma ceiling_zero x : 0 <= x -> ceiling x = 0%Z -> x = 0.
Proof. intros H E. destruct (ceiling_spec x) as [_ H2]. rewrite E in H2. lra. Qed.
Lemma to_nat_INR z : (0 <= z)%Z -> INR (Z.to_nat z) = IZR z.
Proof. intros H. rewrite INR_IZR_INZ, Z2Nat.id by exact H. reflexivity. Qed.
Lemma aabb_new_2 (lo hi : vec) :
  (lo 0%nat <= hi 0%nat /\ lo 1%nat <= hi 1%nat /\ aabb_new 2 lo hi = Some (Aabb lo hi)) \/ ((hi 0%nat < lo 0%nat \/ hi 1%nat < lo 1%nat) /\ aabb_new 2 lo hi = None).
Proof. unfold aabb_new, rleb. cbn. destruct (Rle_dec (lo 0%nat) (hi 0%nat)), (Rle_dec (lo 1%nat) (hi 1%nat)); cbn; [left; auto | right.. ]; (split; [lra | reflexivity]). Qed.

(** ** The grid *)
Lemma grid u nx ny (tl : point) : (0 < nx)%nat -> (0 < ny)%nat -> let m := quad_mesh u nx ny 1 tl in
  in_range m /\ length (ms_cells m) = (nx * ny)%nat /\
  forall i j, (i < nx)%nat -> (j < ny)%nat -> exists cell, ms_cells m !! (nx * (ny - 1 - j) + i)%nat = Some cell /\ square m cell u (tl 0%nat + INR i * u) (tl 1%nat - INR ny * u + INR j * u).
Proof.
  intros Hx Hy m. destruct (C30_quad_mesh u nx ny 1 tl ltac:(lia) Hx Hy) as (Hv & Hc & Hs & Hq & _). fold m in Hv, Hc, Hs, Hq. split_and!.
  - eapply Forall_impl; [exact Hs|]. intros cell [_ H]. exact H.
  - rewrite Hc. lia.
  - intros i j Hi Hj. destruct (Hq i (ny - 1 - j)%nat ltac:(lia) ltac:(lia)) as (cell & Hcell & Hm & _). exists cell. split; [rewrite <- Hcell; f_equal; lia|]. unfold square. rewrite Hm.
    replace (u / INR 1) with u by (cbn; field). replace (INR (ny - 1 - j + 1)) with (INR ny - INR j) by (rewrite <- minus_INR by lia; f_equal; lia).
    replace (INR (ny - 1 - j)) with (INR ny - INR j - 1) by (rewrite <- minus_INR by lia; change 1 with (INR 1); rewrite <- minus_INR by lia; f_equal; lia).
    rewrite (plus_INR i 1). cbn [INR].
    replace (tl 0%nat + (INR i + 1) * u) with (tl 0%nat + INR i * u + u) by ring. replace (tl 1%nat - (INR ny - INR j) * u) with (tl 1%nat - INR ny * u + INR j * u) by ring.
    replace (tl 1%nat - (INR ny - INR j - 1) * u) with (tl 1%nat - INR ny * u + INR j * u + u) by ring. reflexivity.
Qed.

(** Voxelizing a box panics exactly for a non-positive cell size or an empty box. The cells are the squares of a grid whose side is at most the given size; the
    grid has the same centre as the box and covers the box enlarged by 1% at all sides, by less than one cell in each direction; in one direction it fits
    exactly with the least number of cells. *)
Theorem C95_box b size :
  (voxelize_box b size = None <-> size <= 0 \/ exists i, (i < 2)%nat /\ bmax b i <= bmin b i) /\
  forall m, voxelize_box b size = Some m -> exists h x0 y0 nx ny,
    0 < h <= size /\ in_range m /\ length (ms_cells m) = (nx * ny)%nat /\
    (forall i j, (i < nx)%nat -> (j < ny)%nat -> exists cell, ms_cells m !! (nx * (ny - 1 - j) + i)%nat = Some cell /\ square m cell h (x0 + INR i * h) (y0 + INR j * h)) /\
    x0 + INR nx * h / 2 = (bmin b 0%nat + bmax b 0%nat) / 2 /\ y0 + INR ny * h / 2 = (bmin b 1%nat + bmax b 1%nat) / 2 /\
    let e i := 102 / 100 * (bmax b i - bmin b i) in
    e 0%nat <= INR nx * h < e 0%nat + h /\ e 1%nat <= INR ny * h < e 1%nat + h /\
    exists i k, (i < 2)%nat /\ e i = INR k * h /\ (INR k - 1) * size < e i.
Proof.
  unfold voxelize_box. destruct (Rlt_dec 0 size) as [Hs|Hs]; [|split; [split; [left; lra | reflexivity] | discriminate]].
  unfold extents.
  destruct (aabb_new_2 (fun i => bmin b i - (bmax b i - bmin b i) * (1 / 100)) (fun i => bmax b i + (bmax b i - bmin b i) * (1 / 100))) as [(Hd0 & Hd1 & ->)|[Hd ->]];
    cbn [mbind option_bind]; [|split; [|discriminate]].
  2:{ split; [|reflexivity]. intros _. right. destruct Hd as [Hd|Hd]; [exists 0%nat | exists 1%nat]; (split; [lia|]); lra. }
  cbn [bmin bmax]. set (e := fun i => 102 / 100 * (bmax b i - bmin b i)).
  assert (He : forall i, bmax b i + (bmax b i - bmin b i) * (1 / 100) - (bmin b i - (bmax b i - bmin b i) * (1 / 100)) = e i) by (intros; unfold e; field). rewrite !He.
  assert (He0 : 0 <= e 0%nat) by (unfold e; lra). assert (He1 : 0 <= e 1%nat) by (unfold e; lra).
  case_decide as Hz.
  { split; [|discriminate]. split; [|reflexivity]. intros _. right. destruct Hz as [Hz|Hz]; apply ceiling_zero in Hz.
    - exists 0%nat. split; [lia|]. assert (e 0%nat = 0) by (apply (Rmult_eq_reg_r (/ size)); [rewrite Rmult_0_l; exact Hz | apply Rinv_neq_0_compat; lra]). unfold e in *. lra.
    - apply Rcomplements.Rdiv_le_0_compat; lra.
    - exists 1%nat. split; [lia|]. assert (e 1%nat = 0) by (apply (Rmult_eq_reg_r (/ size)); [rewrite Rmult_0_l; exact Hz | apply Rinv_neq_0_compat; lra]). unfold e in *. lra.
    - apply Rcomplements.Rdiv_le_0_compat; lra. }
  assert (Hp : forall i, (i < 2)%nat -> 0 < e i).
  { intros i Hi. apply Decidable.not_or in Hz as [Hz0 Hz1]. assert (Hc : ceiling (0 / size) = 0%Z).
    { destruct (ceiling_spec (0 / size)) as [c1 c2]. replace (0 / size) with 0 in * by (field; lra). assert (-1 < ceiling 0)%Z by (apply lt_IZR; lra). assert (ceiling 0 < 1)%Z by (apply lt_IZR; lra). lia. }
    destruct i as [|[|]]; [| |lia].
    - destruct (Req_dec (e 0%nat) 0) as [E|E]; [exfalso; apply Hz0; rewrite E; exact Hc | lra].
    - destruct (Req_dec (e 1%nat) 0) as [E|E]; [exfalso; apply Hz1; rewrite E; exact Hc | lra]. }
  pose proof (Hp 0%nat ltac:(lia)) as P0. pose proof (Hp 1%nat ltac:(lia)) as P1.
  set (cx := ceiling (e 0%nat / size)) in *. set (cy := ceiling (e 1%nat / size)) in *.
  assert (Hcx : 1 <= IZR cx) by (apply IZR_le; assert (0 < cx)%Z by (apply ceiling_pos, Rdiv_lt_0_compat; lra); lia).
  assert (Hcy : 1 <= IZR cy) by (apply IZR_le; assert (0 < cy)%Z by (apply ceiling_pos, Rdiv_lt_0_compat; lra); lia).
  set (h := Rmin (e 0%nat / IZR cx) (e 1%nat / IZR cy)).
  assert (Hh : 0 < h) by (apply Rmin_glb_lt; apply Rdiv_lt_0_compat; lra).
  assert (Hhs : h <= size).
  { apply Rle_trans with (1 := Rmin_l _ _). apply (Rmult_le_reg_r (IZR cx)); [lra|]. unfold Rdiv. rewrite Rmult_assoc, Rinv_l, Rmult_1_r by lra.
    destruct (ceiling_spec (e 0%nat / size)) as [_ H]. fold cx in H. apply (Rmult_le_compat_r size) in H; [|lra]. unfold Rdiv in H. rewrite Rmult_assoc, Rinv_l, Rmult_1_r in H by lra. lra. }
  set (nx := ceiling (e 0%nat / h)). set (ny := ceiling (e 1%nat / h)).
  assert (Hn : forall x, 0 < x -> (0 < ceiling (x / h))%Z /\ x <= IZR (ceiling (x / h)) * h < x + h).
  { intros x Hx. split; [apply ceiling_pos, Rdiv_lt_0_compat; lra|]. destruct (ceiling_spec (x / h)) as [H1 H2]. apply (Rmult_lt_compat_r h) in H1; [|lra]. apply (Rmult_le_compat_r h) in H2; [|lra].
    replace (x / h * h) with x in H1, H2 by (field; lra). lra. }
  destruct (Hn _ P0) as [Nx Bx]. destruct (Hn _ P1) as [Ny By]. fold nx in Nx, Bx. fold ny in Ny, By.
  split.
  { split; [discriminate|]. intros [H|[i [Hi H]]]; [lra|]. specialize (Hp i Hi). unfold e in Hp. lra. }
  intros m Em. assert (Em' : quad_mesh h (Z.to_nat nx) (Z.to_nat ny) 1 (pt [center b 0%nat - IZR nx * h / 2; center b 1%nat + IZR ny * h / 2]) = m) by congruence. clear Em. subst m.
  exists h, (center b 0%nat - IZR nx * h / 2), (center b 1%nat + IZR ny * h / 2 - IZR ny * h), (Z.to_nat nx), (Z.to_nat ny).
  destruct (grid h (Z.to_nat nx) (Z.to_nat ny) (pt [center b 0%nat - IZR nx * h / 2; center b 1%nat + IZR ny * h / 2]) ltac:(lia) ltac:(lia)) as (G1 & G2 & G3).
  rewrite !to_nat_INR in * by lia. destruct Bx as [Bx1 Bx2]. destruct By as [By1 By2]. split_and!; try assumption; try lra.
  - unfold center. lra.
  - unfold center. lra.
  - assert (Hcx' : (0 < cx)%Z) by (apply lt_IZR; lra). assert (Hcy' : (0 < cy)%Z) by (apply lt_IZR; lra).
    assert (Hleast : forall x, (IZR (ceiling (x / size)) - 1) * size < x).
    { intros x. destruct (ceiling_spec (x / size)) as [H _]. apply (Rmult_lt_compat_r size) in H; [|lra]. replace (x / size * size) with x in H by (field; lra). exact H. }
    assert (Hor : h = e 0%nat / IZR cx \/ h = e 1%nat / IZR cy) by (unfold h, Rmin; destruct (Rle_dec _ _); auto).
    destruct Hor as [E|E]; [exists 0%nat, (Z.to_nat cx) | exists 1%nat, (Z.to_nat cy)]; rewrite to_nat_INR by lia; (split; [lia|]).
    + split; [fold (e 0%nat); rewrite E; field; lra | exact (Hleast (e 0%nat))].
    + split; [fold (e 1%nat); rewrite E; field; lra | exact (Hleast (e 1%nat))].
Qed.
Print Assumptions C95_box.

(** ** Keeping cells *)
Lemma touching_spec s cells k : k ∈ touching s cells <-> exists vs (p : point), cells !! k = Some vs /\ p ∈ vs /\ eval s p <= 0.
Proof.
  unfold touching. rewrite elem_of_list_omap. split.
  - intros [[k' vs] [Hin H]]. cbn in H. destruct (existsb _ _) eqn:E; [|discriminate]. injection H as <-. apply elem_of_lookup_imap in Hin as (i & vs' & [= -> ->] & Hl).
    apply existsb_exists in E as (p & Hp & Hle). exists vs', p. split; [exact Hl|]. split; [by apply elem_of_list_In|]. unfold rleb in Hle. by destruct (Rle_dec _ _).
  - intros (vs & p & Hl & Hp & Hle). exists (k, vs). split; [apply elem_of_lookup_imap; eauto|]. cbn.
    assert (existsb (fun v => rleb (eval s v) 0) vs = true) as ->; [|reflexivity]. apply existsb_exists. exists p. split; [by apply elem_of_list_In|]. unfold rleb. by destruct (Rle_dec _ _).
Qed.
Lemma touching_nodup s cells : NoDup (touching s cells).
Proof.
  unfold touching. set (f := fun ic : nat * list point => if existsb (fun v => rleb (eval s v) 0) ic.2 then Some ic.1 else None).
  assert (H : forall n : nat, NoDup (omap f (imap (fun i => pair (n + i)%nat) cells)) /\ forall k, k ∈ omap f (imap (fun i => pair (n + i)%nat) cells) -> (n <= k)%nat).
  { induction cells as [|vs cells IH]; intros n; [split; [constructor | intros k Hk; by apply elem_of_nil in Hk]|].
    rewrite imap_cons. replace (imap ((fun i => pair (n + i)%nat) ∘ S) cells) with (imap (fun i => pair (S n + i)%nat) cells) by (apply imap_ext; intros; cbn; f_equal; lia).
    destruct (IH (S n)) as [H1 H2]. rewrite Nat.add_0_r. set (l := imap (fun i => pair (S n + i)%nat) cells) in *.
    assert (Hc : omap f ((n, vs) :: l) = n :: omap f l \/ omap f ((n, vs) :: l) = omap f l).
    { change (omap f ((n, vs) :: l)) with (match f (n, vs) with Some y => y :: omap f l | None => omap f l end). destruct (f (n, vs)) as [y|] eqn:E; [left | right; reflexivity]. unfold f in E. cbn [fst snd] in E. destruct (existsb (fun v => rleb (eval s v) 0) vs); congruence. }
    destruct Hc as [-> | ->].
    - split; [constructor; [intros Hk; apply H2 in Hk; lia | exact H1]|]. intros k Hk. apply elem_of_cons in Hk as [->|Hk]; [lia | apply H2 in Hk; lia].
    - split; [exact H1|]. intros k Hk. apply H2 in Hk. lia. }
  destruct (H 0%nat) as [H0 _]. exact H0.
Qed.
Lemma mapM_lookups {A} (l : list A) idx : Forall (fun v => v < length l)%nat idx -> exists ps, mapM (fun v => l !! v) idx = Some ps /\ map Some ps = map (fun v => l !! v) idx.
Proof.
  induction 1 as [|v idx Hv _ (ps & E & H)]; [by exists []|]. destruct (lookup_lt_is_Some_2 l v Hv) as [p Ep]. exists (p :: ps). cbn. rewrite Ep. cbn. rewrite E. cbn. split; [reflexivity|]. by rewrite H.
Qed.
Lemma cell_iter_spec m : in_range m -> exists cells, cell_iter m = Some cells /\ map (map Some) cells = cell_coords m.
Proof.
  unfold in_range, cell_iter, cell_coords. induction 1 as [|c l Hc _ (cells & E & H)]; [by exists []|]. destruct (mapM_lookups _ _ Hc) as (ps & Ep & Hp). exists (ps :: cells). cbn. rewrite Ep. cbn.
  rewrite E. cbn. split; [reflexivity|]. by rewrite Hp, H.
Qed.

(** The cells with a vertex in the region are kept, each once, with their coordinates; no unused vertices remain. *)
Lemma keep_touching_spec s m : in_range m -> exists m' chosen, keep_touching s m = Some m' /\ in_range m' /\ NoDup chosen /\
  (forall k, k ∈ chosen <-> exists cell v (p : point), ms_cells m !! k = Some cell /\ v ∈ cell /\ ms_vertices m !! v = Some p /\ eval s p <= 0) /\
  length (ms_cells m') = length chosen /\
  (forall i k, chosen !! i = Some k -> cell_coords m' !! i = cell_coords m !! k) /\
  (forall a, (a < length (ms_vertices m'))%nat -> exists cell', cell' ∈ ms_cells m' /\ a ∈ cell').
Proof.
  intros Hm. destruct (cell_iter_spec m Hm) as (cells & Ec & Hc). unfold keep_touching. rewrite Ec. cbn [mbind option_bind].
  assert (Hk : forall k, k ∈ touching s cells <-> exists cell v (p : point), ms_cells m !! k = Some cell /\ v ∈ cell /\ ms_vertices m !! v = Some p /\ eval s p <= 0).
  { intros k. rewrite touching_spec. assert (Hl : map (map Some) cells !! k = cell_coords m !! k) by (by rewrite Hc). unfold cell_coords in Hl. rewrite !list_lookup_fmap in Hl. split.
    - intros (vs & p & Hk & Hp & Hle). rewrite Hk in Hl. destruct (ms_cells m !! k) as [cell|] eqn:E; [|discriminate]. cbn in Hl. injection Hl as Hl. exists cell.
      assert (Hin : Some p ∈ map Some vs) by (apply elem_of_list_fmap; eauto). rewrite Hl in Hin. apply elem_of_list_fmap in Hin as (v & Hv & Hin). exists v, p. auto.
    - intros (cell & v & p & Hk & Hv & Hp & Hle). rewrite Hk in Hl. destruct (cells !! k) as [vs|] eqn:E; [|discriminate]. cbn in Hl. injection Hl as Hl.
      assert (Hin : Some p ∈ map Some vs) by (rewrite Hl; apply elem_of_list_fmap; eauto). apply elem_of_list_fmap in Hin as (p' & [= <-] & Hin). exists vs, p. auto. }
  destruct (C27_keep_cells point m (touching s cells)) as [K _]. destruct K as (kept & m' & Em & _ & _).
  { intros i c Hi. apply elem_of_list_lookup_2 in Hi. apply Hk in Hi as (cell & v & p & Hcell & _). exists cell. split; [exact Hcell|].
    unfold in_range in Hm. rewrite Forall_forall in Hm. apply Hm. by eapply elem_of_list_lookup_2. }
  exists m', (touching s cells). rewrite Em. destruct (C27_keep_cells_coordinates point m m' _ Em) as (H1 & H2 & H3 & H4). split_and!; auto using touching_nodup.
Qed.

(** ** Voxels of a function *)
Lemma eval_ext s x y : x 0%nat = y 0%nat -> x 1%nat = y 1%nat -> eval s x = eval s y.
Proof. intros H0 H1. induction s as [r c|a|l IHl r IHr]; cbn [eval]; [by rewrite H0, H1 | unfold box_eval; by rewrite H0, H1 | by rewrite IHl, IHr]. Qed.
Lemma square_elim m cell h x y : Forall (fun v => v < length (ms_vertices m))%nat cell -> square m cell h x y ->
  forall v, v ∈ cell -> exists (p : point) dx dy, ms_vertices m !! v = Some p /\ (dx = 0 \/ dx = h) /\ (dy = 0 \/ dy = h) /\ p 0%nat = x + dx /\ p 1%nat = y + dy.
Proof.
  intros Hr Hs v Hv. rewrite Forall_forall in Hr. destruct (lookup_lt_is_Some_2 _ _ (Hr v Hv)) as [p Hp]. exists p.
  assert (Hin : xy (ms_vertices m) v ∈ map (xy (ms_vertices m)) cell) by (apply elem_of_list_fmap; eauto). rewrite Hs in Hin. unfold xy, coord in Hin. rewrite Hp in Hin.
  rewrite !elem_of_cons, elem_of_nil in Hin. destruct Hin as [[= -> ->]|[[= -> ->]|[[= -> ->]|[[= -> ->]|[]]]]];
    [exists 0, 0 | exists h, 0 | exists h, h | exists 0, h]; split_and!; auto; ring.
Qed.
Lemma square_corner m cell h x y dx dy : Forall (fun v => v < length (ms_vertices m))%nat cell -> square m cell h x y -> (dx = 0 \/ dx = h) -> (dy = 0 \/ dy = h) ->
  exists v (p : point), v ∈ cell /\ ms_vertices m !! v = Some p /\ p 0%nat = x + dx /\ p 1%nat = y + dy.
Proof.
  intros Hr Hs Hx Hy. assert (Hin : (x + dx, y + dy) ∈ map (xy (ms_vertices m)) cell).
  { rewrite Hs, !elem_of_cons. destruct Hx as [-> | ->], Hy as [-> | ->]; rewrite ?Rplus_0_r; auto. }
  apply elem_of_list_fmap in Hin as (v & E & Hv). rewrite Forall_forall in Hr. destruct (lookup_lt_is_Some_2 _ _ (Hr v Hv)) as [p Hp]. exists v, p. unfold xy, coord in E. rewrite Hp in E.
  injection E as -> ->. auto.
Qed.
Lemma coords_xy (m m' : mesh point) i k : cell_coords m' !! i = cell_coords m !! k ->
  forall cell', ms_cells m' !! i = Some cell' -> exists cell, ms_cells m !! k = Some cell /\ map (xy (ms_vertices m')) cell' = map (xy (ms_vertices m)) cell /\
    map (fun v => ms_vertices m' !! v) cell' = map (fun v => ms_vertices m !! v) cell.
Proof.
  intros H cell' Hc. unfold cell_coords in H. rewrite !list_lookup_fmap, Hc in H. destruct (ms_cells m !! k) as [cell|]; [|discriminate]. cbn in H. injection H as H. exists cell. split; [reflexivity|].
  split; [|exact H]. set (f := fun o : option point => (match o with Some p => p 0%nat | None => 0 end, match o with Some p => p 1%nat | None => 0 end)).
  transitivity (map f (map (fun v => ms_vertices m' !! v) cell')); [by rewrite map_map|]. rewrite H. by rewrite map_map.
Qed.
Lemma square_det m cell h x y x' y' : square m cell h x y -> square m cell h x' y' -> x = x' /\ y = y'.
Proof. unfold square. intros -> H. injection H. auto. Qed.
Lemma in_grid n h t : (0 < n)%nat -> 0 <= t <= INR n * h -> exists i, (i < n)%nat /\ INR i * h <= t <= INR i * h + h.
Proof.
  induction n as [|n IH]; intros Hn Ht; [lia|]. rewrite S_INR in Ht. destruct (Rle_dec (INR n * h) t) as [H|H]; [exists n; split; [lia | lra]|].
  destruct n as [|n]; [cbn in H; lra|]. destruct IH as (i & Hi & B); [lia | lra|]. exists i. split; [lia | exact B].
Qed.
Lemma INR_apart i j h : i <> j -> 0 < h -> h <= Rabs (INR i * h - INR j * h).
Proof.
  intros Hij Hh. replace (INR i * h - INR j * h) with ((INR i - INR j) * h) by ring. rewrite Rabs_mult, (Rabs_pos_eq h) by lra.
  assert (1 <= Rabs (INR i - INR j)); [|nra]. destruct (Nat.lt_ge_cases i j) as [L|L].
  - rewrite Rabs_minus_sym, <- minus_INR by lia. rewrite Rabs_pos_eq by apply pos_INR. apply (le_INR 1). lia.
  - rewrite <- minus_INR by lia. rewrite Rabs_pos_eq by apply pos_INR. apply (le_INR 1). lia.
Qed.

Definition touches (s : sdf) (h x y : R) : Prop := exists dx dy, (dx = 0 \/ dx = h) /\ (dy = 0 \/ dy = h) /\ region s (pt [x + dx; y + dy]).

(** Panics exactly for a non-positive cell size and bounding boxes without interior. *)
Theorem C95_panic s size : valid s -> voxelize_sdf s size = None <-> size <= 0 \/ exists b i, sdf_bounds s = Some b /\ (i < 2)%nat /\ bmax b i <= bmin b i.
Proof.
  intros Hs. destruct (C94_bounds s Hs) as (b & Eb & _). unfold voxelize_sdf. rewrite Eb. cbn [mbind option_bind]. destruct (C95_box b size) as [H1 H2].
  destruct (voxelize_box b size) as [m|] eqn:E; cbn [mbind option_bind].
  - destruct (H2 m eq_refl) as (h & x0 & y0 & nx & ny & _ & Hr & _). destruct (keep_touching_spec s m Hr) as (m' & chosen & -> & _). split; [discriminate|].
    intros [H|(b' & i & [= <-] & Hi & H)]; [assert (Some m = None) as X by (apply H1; auto); discriminate|]. assert (Some m = None) as X by (apply H1; eauto). discriminate.
  - split; [|reflexivity]. intros _. destruct H1 as [H1 _]. destruct (H1 eq_refl) as [H|(i & Hi & H)]; [auto|]. right. exists b, i. auto.
Qed.
Print Assumptions C95_panic.

(** Otherwise the cells are squares with a corner in the region, of one size which is at most the given size, which do not overlap; all points of the region
    farther from its outside than half a diagonal are covered; every vertex belongs to a cell. *)
Theorem C95_voxelize s size m : valid s -> voxelize_sdf s size = Some m -> exists h, 0 < h <= size /\ in_range m /\
  (forall a, (a < length (ms_vertices m))%nat -> exists cell, cell ∈ ms_cells m /\ a ∈ cell) /\
  (forall k cell, ms_cells m !! k = Some cell -> exists x y, square m cell h x y /\ touches s h x y) /\
  (forall k k' cell cell' x y x' y', k <> k' -> ms_cells m !! k = Some cell -> ms_cells m !! k' = Some cell' -> square m cell h x y -> square m cell' h x' y' ->
     h <= Rabs (x - x') \/ h <= Rabs (y - y')) /\
  (forall p, (forall q, distance p q <= h / sqrt 2 -> region s q) -> exists k cell x y, ms_cells m !! k = Some cell /\ square m cell h x y /\ in_square h x y p).
Proof.
  intros Hs E. destruct (C94_bounds s Hs) as (b & Eb & Vb & Hb). unfold voxelize_sdf in E. rewrite Eb in E. cbn [mbind option_bind] in E. destruct (C95_box b size) as [H1 H2].
  destruct (voxelize_box b size) as [g|] eqn:Eg; [|discriminate]. cbn [mbind option_bind] in E.
  destruct (H2 g eq_refl) as (h & x0 & y0 & nx & ny & Hh & Hr & Hl & Hg & Cx & Cy & Bx & By & _). cbv zeta in Bx, By. clear H2.
  destruct (keep_touching_spec s g Hr) as (m' & chosen & Em & Hr' & Hnd & Hk & Hlen & Hco & Hu). assert (m' = m) by congruence. subst m'. clear E Em.
  assert (Hpos : forall i, (i < 2)%nat -> bmin b i < bmax b i).
  { intros i Hi. apply Rnot_le_lt. intros H. assert (Some g = None) as X by (apply H1; eauto). discriminate. }
  pose proof (Hpos 0%nat ltac:(lia)) as Pos0. pose proof (Hpos 1%nat ltac:(lia)) as Pos1.
  assert (Hnx : (0 < nx)%nat) by (destruct nx; [cbn in Bx; lra | lia]). assert (Hny : (0 < ny)%nat) by (destruct ny; [cbn in By; lra | lia]).
  assert (Hrg : forall k cell, ms_cells g !! k = Some cell -> Forall (fun v => v < length (ms_vertices g))%nat cell).
  { intros k cell Hc. unfold in_range in Hr. rewrite Forall_forall in Hr. apply Hr. by eapply elem_of_list_lookup_2. }
  assert (Hsq : forall k, (k < nx * ny)%nat -> exists i j cell, (i < nx)%nat /\ (j < ny)%nat /\ k = (nx * (ny - 1 - j) + i)%nat /\ ms_cells g !! k = Some cell /\ square g cell h (x0 + INR i * h) (y0 + INR j * h)).
  { intros k Hk'. destruct (split2 nx ny k Hk') as (i & j & Hi & Hj & ->). destruct (Hg i (ny - 1 - j)%nat Hi ltac:(lia)) as (cell & Hc & Hq). exists i, (ny - 1 - j)%nat, cell.
    replace (ny - 1 - (ny - 1 - j))%nat with j in * by lia. split_and!; auto; lia. }
  assert (Hcell : forall k cell', ms_cells m !! k = Some cell' -> exists c cell i j, chosen !! k = Some c /\ c = (nx * (ny - 1 - j) + i)%nat /\ (i < nx)%nat /\ (j < ny)%nat /\ ms_cells g !! c = Some cell /\
    square g cell h (x0 + INR i * h) (y0 + INR j * h) /\ square m cell' h (x0 + INR i * h) (y0 + INR j * h)).
  { intros k cell' Hc'. assert (Hlt : (k < length chosen)%nat) by (rewrite <- Hlen; by eapply lookup_lt_Some). destruct (lookup_lt_is_Some_2 _ _ Hlt) as [c Hc].
    destruct (coords_xy g m k c (Hco k c Hc) cell' Hc') as (cell & Hcg & Hxy & _). assert (Hcn : (c < nx * ny)%nat) by (rewrite <- Hl; by eapply lookup_lt_Some).
    destruct (Hsq c Hcn) as (i & j & cell2 & Hi & Hj & Ec & Hc2 & Hq). assert (cell2 = cell) by congruence. subst cell2. exists c, cell, i, j. split_and!; auto. unfold square. rewrite Hxy. exact Hq. }
  exists h. split; [exact Hh|]. split; [exact Hr'|]. split; [exact Hu|]. split_and!.
  - intros k cell' Hc'. destruct (Hcell k cell' Hc') as (c & cell & i & j & Hc & Ec & Hi & Hj & Hcg & Hq & Hq'). exists (x0 + INR i * h), (y0 + INR j * h). split; [exact Hq'|].
    assert (Hin : c ∈ chosen) by (by eapply elem_of_list_lookup_2). apply Hk in Hin as (cell2 & v & p & Hc2 & Hv & Hp & Hle). assert (cell2 = cell) by congruence. subst cell2.
    destruct (square_elim g cell h _ _ (Hrg _ _ Hcg) Hq v Hv) as (p' & dx & dy & Hp' & Hdx & Hdy & E0 & E1). assert (p' = p) by congruence. subst p'. exists dx, dy. split; [exact Hdx|]. split; [exact Hdy|].
    apply C94_region; [exact Hs|]. rewrite (eval_ext s _ p); [exact Hle | by rewrite E0 | by rewrite E1].
  - intros k k' cell cell' x y x' y' Hne Hc Hc' Hq Hq'. destruct (Hcell k cell Hc) as (c & _ & i & j & Hch & Ec & Hi & Hj & _ & _ & Hs1). destruct (Hcell k' cell' Hc') as (c' & _ & i' & j' & Hch' & Ec' & Hi' & Hj' & _ & _ & Hs2).
    destruct (square_det _ _ _ _ _ _ _ Hs1 Hq) as [<- <-]. destruct (square_det _ _ _ _ _ _ _ Hs2 Hq') as [<- <-].
    assert (Hcc : c <> c') by (intros ->; apply Hne; eapply NoDup_lookup; eauto).
    destruct (decide (i = i')) as [<-|Hii].
    + right. assert (j <> j') by (intros <-; lia). replace (y0 + INR j * h - (y0 + INR j' * h)) with (INR j * h - INR j' * h) by ring. apply INR_apart; [assumption | lra].
    + left. replace (x0 + INR i * h - (x0 + INR i' * h)) with (INR i * h - INR i' * h) by ring. apply INR_apart; [assumption | lra].
  - intros p Hp. assert (Hh2 : 0 < h / sqrt 2) by (apply Rdiv_lt_0_compat; [lra | apply sqrt_lt_R0; lra]).
    assert (Hin : region s p) by (apply Hp; unfold distance; replace ((p 0%nat - p 0%nat) ^ 2 + (p 1%nat - p 1%nat) ^ 2) with 0 by ring; rewrite sqrt_0; lra).
    pose proof (Hb p Hin 0%nat ltac:(lia)) as B0. pose proof (Hb p Hin 1%nat ltac:(lia)) as B1.
    destruct (in_grid nx h (p 0%nat - x0) Hnx ltac:(lra)) as (i & Hi & Ii). destruct (in_grid ny h (p 1%nat - y0) Hny ltac:(lra)) as (j & Hj & Ij).
    destruct (Hg i j Hi Hj) as (cell & Hc & Hq). set (x := x0 + INR i * h) in *. set (y := y0 + INR j * h) in *.
    assert (Hnear : forall t, 0 <= t <= h -> exists d, (d = 0 \/ d = h) /\ Rabs (t - d) <= h / 2).
    { intros t Ht. destruct (Rle_dec t (h / 2)); [exists 0 | exists h]; (split; [auto|]); unfold Rabs; destruct (Rcase_abs _); lra. }
    destruct (Hnear (p 0%nat - x) ltac:(unfold x; lra)) as (dx & Hdx & Nx). destruct (Hnear (p 1%nat - y) ltac:(unfold y; lra)) as (dy & Hdy & Ny).
    assert (Hcor : region s (pt [x + dx; y + dy])).
    { apply Hp. unfold distance. cbn [pt nth]. replace (h / sqrt 2) with (sqrt (2 * (h / 2) ^ 2)).
      - apply sqrt_le_1_alt. apply Rcomplements.Rabs_le_between in Nx. apply Rcomplements.Rabs_le_between in Ny. nra.
      - rewrite sqrt_mult by nra. rewrite sqrt_pow2 by lra. assert (0 < sqrt 2) by (apply sqrt_lt_R0; lra). assert (H22 : sqrt 2 * sqrt 2 = 2) by (apply sqrt_sqrt; lra).
        apply (Rmult_eq_reg_r (sqrt 2)); [|lra]. replace (h / sqrt 2 * sqrt 2) with h by (field; lra). transitivity (sqrt 2 * sqrt 2 * (h / 2)); [ring|]. rewrite H22. field. }
    apply C94_region in Hcor; [|exact Hs]. destruct (square_corner g cell h x y dx dy (Hrg _ _ Hc) Hq Hdx Hdy) as (v & q & Hv & Hqv & E0 & E1).
    assert (Hch : (nx * (ny - 1 - j) + i)%nat ∈ chosen).
    { apply Hk. exists cell, v, q. split_and!; auto. rewrite (eval_ext s _ (pt [x + dx; y + dy])); [exact Hcor | by rewrite E0 | by rewrite E1]. }
    apply elem_of_list_lookup in Hch as [k Hch]. assert (Hkl : (k < length (ms_cells m))%nat) by (rewrite Hlen; by eapply lookup_lt_Some). destruct (lookup_lt_is_Some_2 _ _ Hkl) as [cell' Hc'].
    destruct (coords_xy g m k _ (Hco k _ Hch) cell' Hc') as (cell2 & Hc2 & Hxy & _). assert (cell2 = cell) by congruence. subst cell2.
    exists k, cell', x, y. split; [exact Hc'|]. split; [unfold square; rewrite Hxy; exact Hq|]. unfold in_square, x, y. lra.
Qed.
Print Assumptions C95_voxelize.

Lemma in_square_diagonal h x y p q : in_square h x y p -> in_square h x y q -> distance p q <= h * sqrt 2.
Proof.
  intros [P0 P1] [Q0 Q1]. assert (Hh : 0 <= h) by lra. unfold distance. replace (h * sqrt 2) with (sqrt (h ^ 2 * 2)) by (rewrite sqrt_mult, sqrt_pow2 by nra; reflexivity).
  apply sqrt_le_1_alt. assert (Rabs (p 0%nat - q 0%nat) <= h) by (apply Rcomplements.Rabs_le_between; lra). assert (Rabs (p 1%nat - q 1%nat) <= h) by (apply Rcomplements.Rabs_le_between; lra).
  assert (Hsq : forall t, Rabs t <= h -> t ^ 2 <= h ^ 2) by (intros t Ht; rewrite <- (pow2_abs t); apply pow_incr; split; [apply Rabs_pos | exact Ht]).
  pose proof (Hsq _ H). pose proof (Hsq _ H0). lra.
Qed.
(** Points of these cells are within a diagonal of the region. *)
Theorem C95_near s h x y p : 0 < h -> touches s h x y -> in_square h x y p -> exists q, region s q /\ distance p q <= h * sqrt 2.
Proof.
  intros Hh (dx & dy & Hdx & Hdy & Hq) Hp. exists (pt [x + dx; y + dy]). split; [exact Hq|]. apply (in_square_diagonal h x y); [exact Hp|]. unfold in_square. cbn [pt nth]. lra.
Qed.
Print Assumptions C95_near.

(** The region itself need not be covered: no cell at all is made of a circle if the cell size is not less than its enlarged bounding box. *)
Theorem C95_small_circle r c size : 0 < r -> 20604 / 10000 * r <= size -> voxelize_sdf (Circle r c) size = Some (Mesh [] []).
Proof.
  intros Hr Hsz. unfold voxelize_sdf. cbn [sdf_bounds].
  destruct (aabb_new_2 (fun i => c i - (r + r * (1 / 100))) (fun i => c i + (r + r * (1 / 100)))) as [(_ & _ & ->)|[Hd _]]; [|lra]. cbn [mbind option_bind].
  set (b := Aabb _ _). destruct (C95_box b size) as [H1 H2]. destruct (voxelize_box b size) as [g|] eqn:Eg.
  2:{ destruct H1 as [H1 _]. destruct (H1 eq_refl) as [H|(i & Hi & H)]; cbn in *; lra. }
  cbn [mbind option_bind]. destruct (H2 g eq_refl) as (h & x0 & y0 & nx & ny & Hh & Hrg & Hl & Hg & Cx & Cy & Bx & By & i & k & Hi & Hk & Hks). cbn in Cx, Cy, Bx, By. clear H1 H2.
  assert (He : INR k * h = 20604 / 10000 * r) by (rewrite <- Hk; cbn; field). cbn in Hks.
  assert (Hk1 : k = 1%nat).
  { assert (INR k < 2). { apply Rnot_le_lt. intros H. assert (1 * size <= (INR k - 1) * size) by (apply Rmult_le_compat_r; lra). lra. }
    apply (INR_lt k 2) in H. destruct k as [|[|k]]; [cbn in He; lra | reflexivity | lia]. }
  subst k. cbn in He. assert (Hh' : h = 20604 / 10000 * r) by lra. clear He.
  assert (Hone : forall n, 102 / 100 * (c 0%nat + (r + r * (1 / 100)) - (c 0%nat - (r + r * (1 / 100)))) <= INR n * h < 102 / 100 * (c 0%nat + (r + r * (1 / 100)) - (c 0%nat - (r + r * (1 / 100)))) + h -> n = 1%nat).
  { intros n [L U]. assert (INR n < 2) by (apply Rnot_le_lt; intros H; assert (2 * h <= INR n * h) by (apply Rmult_le_compat_r; lra); lra).
    apply (INR_lt n 2) in H. destruct n as [|[|n]]; [cbn in L; lra | reflexivity | lia]. }
  assert (nx = 1%nat) by (apply Hone; lra). assert (ny = 1%nat) by (apply Hone; lra). subst nx ny. cbn in Hl, Cx, Cy.
  destruct (keep_touching_spec (Circle r c) g Hrg) as (m' & chosen & -> & _ & _ & Hch & Hlen & _ & Hu). f_equal.
  assert (Hnil : chosen = []).
  { destruct chosen as [|k l]; [reflexivity|]. exfalso. destruct (Hch k) as [Hc _]. destruct Hc as (cell & v & p & Hcell & Hv & Hp & Hle); [apply elem_of_list_here|].
    assert (Hk0 : k = 0%nat) by (apply lookup_lt_Some in Hcell; lia). subst k. destruct (Hg 0%nat 0%nat ltac:(lia) ltac:(lia)) as (cell2 & Hc2 & Hq). cbn in Hc2. assert (cell2 = cell) by congruence. subst cell2.
    assert (Hcr : Forall (fun v => v < length (ms_vertices g))%nat cell) by (unfold in_range in Hrg; rewrite Forall_forall in Hrg; apply Hrg; by eapply elem_of_list_lookup_2).
    destruct (square_elim g cell h _ _ Hcr Hq v Hv) as (p' & dx & dy & Hp' & Hdx & Hdy & E0 & E1). assert (p' = p) by congruence. subst p'. cbn [eval] in Hle. cbn [INR] in E0, E1.
    assert (H2 : r * r < (p 0%nat - c 0%nat) * (p 0%nat - c 0%nat) + (p 1%nat - c 1%nat) * (p 1%nat - c 1%nat)).
    { assert (Hs : forall t, t = h / 2 \/ t = - (h / 2) -> r * r < t * t) by (intros t [-> | ->]; rewrite Hh'; nra). pose proof (Rle_0_sqr (p 1%nat - c 1%nat)) as Hsq. unfold Rsqr in Hsq.
      specialize (Hs (p 0%nat - c 0%nat)). rewrite E0 in Hs |- *. assert (r * r < (x0 + 0 * h + dx - c 0%nat) * (x0 + 0 * h + dx - c 0%nat)) by (apply Hs; destruct Hdx as [-> | ->]; [right | left]; lra). lra. }
    unfold norm2 in Hle. assert (H3 := sqrt_lt_1_alt _ _ (conj (Rle_0_sqr r) H2)). rewrite sqrt_Rsqr in H3 by lra. lra. }
  subst chosen. cbn in Hlen. destruct m' as [vs cs]. cbn in *. apply nil_length_inv in Hlen. subst cs. f_equal. destruct vs as [|v vs]; [reflexivity|]. destruct (Hu 0%nat ltac:(cbn; lia)) as (cell' & Hin & _).
  by apply elem_of_nil in Hin.
Qed.
Print Assumptions C95_small_circle.
Theorem C95_cover_refuted : exists s size m p, valid s /\ voxelize_sdf s size = Some m /\ region s p /\ ~ exists k cell h x y, ms_cells m !! k = Some cell /\ square m cell h x y /\ in_square h x y p.
Proof.
  exists (Circle 1 (fun _ => 0)), 3, (Mesh [] []), (fun _ => 0). split; [cbn; lra|]. split; [apply C95_small_circle; lra|]. split.
  - cbn. unfold distance. replace ((0 - 0) ^ 2 + (0 - 0) ^ 2) with 0 by ring. rewrite sqrt_0. lra.
  - intros (k & cell & _ & _ & _ & H & _). destruct k; discriminate.
Qed.
Print Assumptions C95_cover_refuted.

(** ** Moving vertices to the boundary *)
Fixpoint round (s : sdf) : Prop := match s with Circle _ _ => True | AlignedBox _ => False | Union l r => round l /\ round r end.
Lemma norm2_nonzero a b : (a <> 0 \/ b <> 0) -> 0 < norm2 a b.
Proof. intros H. apply sqrt_lt_R0. destruct H; nra. Qed.
Lemma norm2_normal a b : 0 < norm2 a b -> norm2 (a / norm2 a b) (b / norm2 a b) = 1.
Proof.
  intros H. assert (E : norm2 a b * norm2 a b = a * a + b * b) by (apply sqrt_sqrt; nra). unfold norm2 at 1. transitivity (sqrt 1); [|apply sqrt_1]. f_equal. set (n := norm2 a b) in *.
  transitivity ((a * a + b * b) / (n * n)); [field; lra|]. rewrite E. field. nra.
Qed.
Definition F (u v : R) : R := norm2 (Rmax u 0) (Rmax v 0) + Rmin 0 (Rmax u v).
Lemma F_sym u v : F u v = F v u.
Proof. unfold F, norm2. rewrite (Rmax_comm u v). f_equal. f_equal. ring. Qed.
Lemma F_mono u v v' : v' < v -> 0 < v -> F u v' < F u v.
Proof.
  intros H Hv. unfold F. rewrite (Rmax_left v 0) by lra. rewrite (Rmin_left 0 (Rmax u v)) by (apply Rle_trans with v; [lra | apply Rmax_r]). rewrite Rplus_0_r.
  assert (Hn : norm2 (Rmax u 0) (Rmax v' 0) < norm2 (Rmax u 0) v).
  { apply sqrt_lt_1_alt. pose proof (Rmax_r v' 0). assert (Rmax v' 0 < v) by (apply Rmax_lub_lt; lra). split; [nra|]. nra. }
  pose proof (Rmin_l 0 (Rmax u v')). lra.
Qed.
Lemma gradient_outside s x : valid s -> 0 < eval s x -> exists g, gradient s x = Gradient g /\ norm2 (g 0%nat) (g 1%nat) = 1.
Proof.
  induction s as [r c|a|l IHl r IHr]; intros Hs Hx.
  - cbn in *. destruct (Req_EM_T _ 0) as [h|h]; [lra|]. eexists. split; [reflexivity|]. apply norm2_normal. pose proof (norm2_pos (x 0%nat - c 0%nat) (x 1%nat - c 1%nat)). lra.
  - cbn [eval gradient valid] in *. unfold box_gradient. assert (Hst : 0 < step) by (unfold step; lra).
    assert (HF : forall y, box_eval a y = F (depth a y 0) (depth a y 1)) by (intros y; apply box_eval_depth).
    assert (Hpos : 0 < depth a x 0 \/ 0 < depth a x 1).
    { destruct (Rlt_dec 0 (depth a x 0)) as [|N0]; [auto|]. destruct (Rlt_dec 0 (depth a x 1)) as [|N1]; [auto|]. exfalso. rewrite HF in Hx. unfold F in Hx.
      rewrite (Rmax_right _ 0), (Rmax_right (depth a x 1) 0), norm2_0, Rabs_R0 in Hx by lra. pose proof (Rmin_l 0 (Rmax (depth a x 0) (depth a x 1))). lra. }
    assert (Hd : forall i, (i < 2)%nat -> 0 < depth a x i -> (depth a (shift x i (- step)) i < depth a (shift x i step) i /\ 0 < depth a (shift x i step) i) \/
      (depth a (shift x i step) i < depth a (shift x i (- step)) i /\ 0 < depth a (shift x i (- step)) i)).
    { intros i Hi H. specialize (Hs i Hi). unfold depth, shift in *. rewrite !Nat.eqb_refl. assert (0 <= extents a i / 2) by (unfold extents; lra).
      unfold Rabs in *. destruct (Rcase_abs (x i - center a i)); [right | left]; repeat destruct (Rcase_abs _); lra. }
    assert (Hsame : forall i j t, i <> j -> depth a (shift x i t) j = depth a x j) by (intros i j t Hij; unfold depth, shift; destruct (Nat.eqb_spec j i); [congruence | reflexivity]).
    assert (Hnz : box_difference a x 0 <> 0 \/ box_difference a x 1 <> 0).
    { assert (Hdiv : forall t, t <> 0 -> t / (2 * step) <> 0) by (intros t Ht E; apply Ht; apply (Rmult_eq_reg_r (/ (2 * step))); [rewrite Rmult_0_l; exact E | apply Rinv_neq_0_compat; lra]).
      destruct Hpos as [H|H]; [left | right]; unfold box_difference; apply Hdiv; rewrite !HF.
      - rewrite !(Hsame 0%nat 1%nat) by lia. rewrite !(F_sym _ (depth a x 1)). destruct (Hd 0%nat ltac:(lia) H) as [[L P]|[L P]]; pose proof (F_mono (depth a x 1) _ _ L P); lra.
      - rewrite !(Hsame 1%nat 0%nat) by lia. destruct (Hd 1%nat ltac:(lia) H) as [[L P]|[L P]]; pose proof (F_mono (depth a x 0) _ _ L P); lra. }
    apply norm2_nonzero in Hnz. destruct (Req_EM_T _ 0) as [E|E]; [lra|]. eexists. split; [reflexivity|]. apply norm2_normal. exact Hnz.
  - destruct Hs as [Hl Hr]. cbn [eval gradient] in *. pose proof (Rmin_l (eval l x) (eval r x)). pose proof (Rmin_r (eval l x) (eval r x)). destruct (Rlt_dec _ _); [apply IHl | apply IHr]; auto; lra.
Qed.
Lemma round_project s x g : valid s -> round s -> 0 < eval s x -> gradient s x = Gradient g -> eval s (project x g (eval s x)) <= 0.
Proof.
  induction s as [r c|a|l IHl r IHr]; intros Hs Hr Hx Hg; [|contradiction|].
  - assert (Hreg : regular (Circle r c) x). { cbn in *. rewrite norm2_distance in Hx. lra. } destruct (C94_project (Circle r c) x Hs Hreg Hx) as (g' & Eg & E). assert (Gradient g' = Gradient g) as X by congruence. injection X as ->. lra.
  - destruct Hs as [Hl Hr']. destruct Hr as [Rl Rr]. cbn [eval gradient] in *. destruct (Rlt_dec _ _).
    + rewrite (Rmin_left (eval l x) (eval r x)) in * by lra. apply Rle_trans with (1 := Rmin_l _ _). auto.
    + rewrite (Rmin_right (eval l x) (eval r x)) in * by lra. apply Rle_trans with (1 := Rmin_r _ _). auto.
Qed.

(** Moving a vertex never panics: a vertex of the region stays; others move by the value of the function; with circles only they reach the region. *)
Definition moved (s : sdf) (v w : point) : Prop := distance v w = Rmax 0 (eval s v) /\ (region s v -> w = v) /\ (round s -> region s w).
Theorem C95_pull_in s v : valid s -> exists w, pull_in s v = Some w /\ moved s v w.
Proof.
  intros Hs. unfold pull_in. destruct (Rlt_dec 0 (eval s v)) as [H|H].
  - destruct (gradient_outside s v Hs H) as (g & Eg & Hg). rewrite Eg. eexists. split; [reflexivity|]. split_and!.
    + rewrite Rmax_right by lra. rewrite <- norm2_distance. replace (v 0%nat - (v 0%nat - g 0%nat * eval s v)) with (eval s v * g 0%nat) by ring.
      replace (v 1%nat - (v 1%nat - g 1%nat * eval s v)) with (eval s v * g 1%nat) by ring. rewrite norm2_scale, Hg by lra. ring.
    + intros Hv. apply C94_region in Hv; [lra | exact Hs].
    + intros Hr. apply C94_region; [exact Hs|]. apply round_project; assumption.
  - eexists. split; [reflexivity|]. split_and!.
    + rewrite Rmax_left by lra. unfold distance. replace ((v 0%nat - v 0%nat) ^ 2 + (v 1%nat - v 1%nat) ^ 2) with 0 by ring. apply sqrt_0.
    + reflexivity.
    + intros _. apply C94_region; [exact Hs | lra].
Qed.
Print Assumptions C95_pull_in.
Lemma transform_spec s m : valid s -> exists m', transform_vertices (pull_in s) m = Some m' /\ ms_cells m' = ms_cells m /\ Forall2 (moved s) (ms_vertices m) (ms_vertices m').
Proof.
  intros Hs. unfold transform_vertices. assert (H : exists ws, mapM (pull_in s) (ms_vertices m) = Some ws /\ Forall2 (moved s) (ms_vertices m) ws).
  { induction (ms_vertices m) as [|v l (ws & E & H)]; [exists []; auto|]. destruct (C95_pull_in s v Hs) as (w & Ew & Hw). exists (w :: ws). cbn. rewrite Ew. cbn. rewrite E. cbn. auto. }
  destruct H as (ws & E & H). rewrite E. cbn. eexists. auto.
Qed.

(** The quadrilateral mesh is the voxelization with its vertices moved, by at most a diagonal of a cell of the given size. *)
Theorem C95_quad s size : valid s ->
  match voxelize_sdf s size with
  | None => approximate_quad_mesh s size = None
  | Some m => exists m', approximate_quad_mesh s size = Some m' /\ ms_cells m' = ms_cells m /\ Forall2 (fun v w => moved s v w /\ distance v w <= size * sqrt 2) (ms_vertices m) (ms_vertices m')
  end.
Proof.
  intros Hs. unfold approximate_quad_mesh. destruct (voxelize_sdf s size) as [m|] eqn:E; [|reflexivity]. cbn [mbind option_bind]. destruct (transform_spec s m Hs) as (m' & Em & Hc & Hv). exists m'. split; [exact Em|]. split; [exact Hc|].
  destruct (C95_voxelize s size m Hs E) as (h & Hh & Hr & Hu & Ht & _). apply Forall2_same_length_lookup. split; [by eapply Forall2_length|]. intros i v w Hi Hw.
  assert (Hm : moved s v w) by (eapply Forall2_lookup_lr; eauto). split; [exact Hm|]. destruct Hm as [-> _]. assert (H2 : 0 < sqrt 2) by (apply sqrt_lt_R0; lra). apply Rmax_lub; [nra|].
  destruct (Hu i) as (cell & Hin & Hi'); [by eapply lookup_lt_Some|]. apply elem_of_list_lookup in Hin as [k Hk]. destruct (Ht k cell Hk) as (x & y & Hq & Htc).
  assert (Hcr : Forall (fun v => v < length (ms_vertices m))%nat cell) by (unfold in_range in Hr; rewrite Forall_forall in Hr; apply Hr; by eapply elem_of_list_lookup_2).
  destruct (square_elim m cell h x y Hcr Hq i Hi') as (p & dx & dy & Hp & Hdx & Hdy & E0 & E1). assert (p = v) by congruence. subst p.
  destruct (C95_near s h x y v ltac:(lra) Htc) as (q & Hq' & Hd); [unfold in_square; lra|]. apply C94_region in Hq'; [|exact Hs].
  pose proof (C94_lipschitz s v q Hs) as HL. apply Rcomplements.Rabs_le_between in HL. assert (h * sqrt 2 <= size * sqrt 2) by (apply Rmult_le_compat_r; lra). lra.
Qed.
Print Assumptions C95_quad.

(** With boxes the vertices need not reach the region: a rectangle twice as high as wide. *)
Definition tall : aabb := Aabb (fun _ => 0) (fun i => match i with O => 1 | _ => 2 end).
Lemma tall_valid : valid (AlignedBox tall).
Proof. cbn. intros [|[|]] Hi; lra. Qed.
Lemma tall_grid : exists g, voxelize_box tall (51 / 100) = Some g /\ in_range g /\
  exists k cell, ms_cells g !! k = Some cell /\ square g cell (51 / 100) (1 / 2) (151 / 100).
Proof.
  destruct (C95_box tall (51 / 100)) as [H1 H2]. destruct (voxelize_box tall (51 / 100)) as [g|] eqn:Eg.
  2:{ destruct H1 as [H1 _]. destruct (H1 eq_refl) as [H|(i & Hi & H)]; [lra|]. destruct i as [|[|]]; cbn in H; lra. }
  exists g. split; [reflexivity|]. destruct (H2 g eq_refl) as (h & x0 & y0 & nx & ny & Hh & Hr & Hl & Hg & Cx & Cy & Bx & By & i & k & Hi & Hk & Hks). split; [exact Hr|]. cbn in Cx, Cy, Bx, By. clear H1 H2.
  assert (Hh' : h = 51 / 100).
  { assert (Hn : forall n : nat, INR k - 1 < INR n -> INR n * h = INR k * h -> h = INR k * h / INR n -> INR n * h <= INR k * h) by (intros; lra). clear Hn.
    assert (Hle : forall n : nat, INR k - 1 < INR n -> INR k <= INR n) by (intros n H; apply le_INR; assert (INR k < INR (n + 1)) by (rewrite plus_INR; cbn; lra); apply INR_lt in H0; lia).
    destruct i as [|[|]]; [| |lia]; cbn in Hk, Hks.
    - assert (INR k <= INR 2) by (apply Hle; cbn; lra). cbn in H. apply Rle_antisym; [lra|]. apply Rnot_lt_le. intros L. assert (INR k * h <= (1 + 1) * h) by (apply Rmult_le_compat_r; lra). lra.
    - assert (INR k <= INR 4) by (apply Hle; cbn; lra). cbn in H. apply Rle_antisym; [lra|]. apply Rnot_lt_le. intros L. assert (INR k * h <= (1 + 1 + 1 + 1) * h) by (apply Rmult_le_compat_r; lra). lra. }
  subst h. assert (Hnx : nx = 2%nat).
  { assert (INR 1 < INR nx) as L by (cbn; lra). assert (INR nx < INR 3) as U by (cbn; lra). apply INR_lt in L. apply INR_lt in U. lia. }
  assert (Hny : ny = 4%nat).
  { assert (INR 3 < INR ny) as L by (cbn; lra). assert (INR ny < INR 5) as U by (cbn; lra). apply INR_lt in L. apply INR_lt in U. lia. }
  subst nx ny. cbn in Cx, Cy. destruct (Hg 1%nat 3%nat ltac:(lia) ltac:(lia)) as (cell & Hc & Hq). eexists _, cell. split; [exact Hc|]. cbn [INR] in Hq.
  replace (1 / 2) with (x0 + 1 * (51 / 100)) by lra. replace (151 / 100) with (y0 + (1 + 1 + 1) * (51 / 100)) by lra. exact Hq.
Qed.
Theorem C95_quad_refuted : exists s size m v w, valid s /\ approximate_quad_mesh s size = Some m /\ ms_vertices m !! v = Some w /\ ~ region s w.
Proof.
  destruct tall_grid as (g & Eg & Hr & k & cell & Hc & Hq). pose proof tall_valid as Ht. set (s := AlignedBox tall) in *.
  assert (Hcr : Forall (fun v => v < length (ms_vertices g))%nat cell) by (unfold in_range in Hr; rewrite Forall_forall in Hr; apply Hr; by eapply elem_of_list_lookup_2).
  destruct (keep_touching_spec s g Hr) as (m & chosen & Em & Hr' & _ & Hk & Hlen & Hco & _).
  assert (Ev : voxelize_sdf s (51 / 100) = Some m) by (unfold voxelize_sdf, s; cbn [sdf_bounds mbind option_bind]; rewrite Eg; exact Em).
  destruct (square_corner g cell _ _ _ 0 0 Hcr Hq ltac:(auto) ltac:(auto)) as (v & p & Hv & Hp & E0 & E1).
  assert (Hin : k ∈ chosen).
  { apply Hk. exists cell, v, p. split_and!; auto. apply C94_region; [exact Ht|]. cbn. intros [|[|]] Hi; [rewrite E0; lra | rewrite E1; lra | lia]. }
  apply elem_of_list_lookup in Hin as [k' Hk']. assert (Hkl : (k' < length (ms_cells m))%nat) by (rewrite Hlen; by eapply lookup_lt_Some). destruct (lookup_lt_is_Some_2 _ _ Hkl) as [cell' Hc'].
  destruct (coords_xy g m k' k (Hco k' k Hk') cell' Hc') as (cell2 & Hc2 & Hxy & _). assert (cell2 = cell) by congruence. subst cell2.
  assert (Hq' : square m cell' (51 / 100) (1 / 2) (151 / 100)) by (unfold square; rewrite Hxy; exact Hq).
  assert (Hcr' : Forall (fun v => v < length (ms_vertices m))%nat cell') by (unfold in_range in Hr'; rewrite Forall_forall in Hr'; apply Hr'; by eapply elem_of_list_lookup_2).
  destruct (square_corner m cell' _ _ _ (51 / 100) (51 / 100) Hcr' Hq' ltac:(auto) ltac:(auto)) as (v' & p' & Hv' & Hp' & F0 & F1).
  destruct (transform_spec s m Ht) as (m' & Em' & _ & _). assert (Eq : approximate_quad_mesh s (51 / 100) = Some m') by (unfold approximate_quad_mesh; rewrite Ev; exact Em').
  unfold transform_vertices in Em'. destruct (mapM (pull_in s) (ms_vertices m)) as [ws|] eqn:Ews; [|discriminate]. cbn in Em'. assert (Hws : ms_vertices m' = ws) by (injection Em' as <-; reflexivity).
  apply mapM_Some in Ews. destruct (Forall2_lookup_l _ _ _ _ _ Ews Hp') as (w & Hw & Epull). exists s, (51 / 100), m', v', w. split; [exact Ht|]. split; [exact Eq|]. split; [by rewrite Hws|].
  destruct (C94_corner tall p' (1 / 100) (2 / 100) Ht) as (gr & Egr & Hgr); [unfold step; lra | lra | rewrite F0; cbn; lra | rewrite F1; cbn; lra|]. fold s in Egr, Hgr.
  unfold pull_in in Epull. rewrite Egr in Epull. destruct (Rlt_dec 0 (eval s p')) as [Hpos|Hneg].
  - injection Epull as <-. intros Hreg. apply C94_region in Hreg; [|exact Ht]. apply (Rlt_irrefl 0). apply Rlt_le_trans with (1 := Hgr). exact Hreg.
  - exfalso. apply Hneg. apply Rnot_le_lt. intros Hle. apply C94_region in Hle; [|exact Ht]. cbn in Hle. specialize (Hle 0%nat ltac:(lia)). rewrite F0 in Hle. lra.
Qed.
Print Assumptions C95_quad_refuted.

(** ** Triangles *)
Definition halves {A} (c : list A) : list (list A) := match c with [a; b; c; d] => [[a; b; c]; [a; c; d]] | _ => [] end.
Lemma mapM_pure {A B} (f : A -> option B) g l : Forall (fun x => f x = Some (g x)) l -> mapM f l = Some (map g l).
Proof. induction 1 as [|x l Hx _ IH]; [reflexivity|]. cbn. rewrite Hx. cbn. rewrite IH. reflexivity. Qed.
Lemma split_spec m : in_range m -> Forall (fun c => length c = 4%nat) (ms_cells m) -> split_into_triangles m = Some (Mesh (ms_vertices m) (concat (map halves (ms_cells m)))).
Proof.
  intros Hr H4. unfold split_into_triangles. match goal with |- context [mapM ?f (ms_cells m)] => assert (E : mapM f (ms_cells m) = Some (map halves (ms_cells m))) end.
  { apply mapM_pure. apply Forall_forall. intros c Hc. unfold in_range in Hr. rewrite Forall_forall in Hr, H4. specialize (Hr c Hc). specialize (H4 c Hc).
    destruct (mapM_lookups _ _ Hr) as (ps & Eps & _). rewrite Eps. cbn [mbind option_bind]. unfold split_connectivities. rewrite never_concave.
    destruct c as [|a [|b [|d [|e [|]]]]]; try discriminate. reflexivity. }
  rewrite E. reflexivity.
Qed.
Lemma voxel_cells4 s size m : valid s -> voxelize_sdf s size = Some m -> in_range m /\ Forall (fun c => length c = 4%nat) (ms_cells m).
Proof.
  intros Hs E. destruct (C95_voxelize s size m Hs E) as (h & _ & Hr & _ & Ht & _). split; [exact Hr|]. apply Forall_forall. intros c Hc. apply elem_of_list_lookup in Hc as [k Hk].
  destruct (Ht k c Hk) as (x & y & Hq & _). unfold square in Hq. apply (f_equal length) in Hq. rewrite map_length in Hq. exact Hq.
Qed.
Lemma halves_map {A B} (f : A -> B) c : halves (map f c) = map (map f) (halves c).
Proof. destruct c as [|a [|b [|d [|e [|]]]]]; reflexivity. Qed.

(** The triangles are those halves of the squares which have a vertex in the region, with their vertices moved; each square gives at least one. *)
Theorem C95_triangles s size : valid s ->
  match voxelize_sdf s size with
  | None => approximate_triangle_mesh s size = None
  | Some m => exists t0 t, approximate_triangle_mesh s size = Some t /\ in_range t0 /\ ms_cells t = ms_cells t0 /\ Forall2 (moved s) (ms_vertices t0) (ms_vertices t) /\
      (forall tri, tri ∈ cell_coords t0 <-> exists a b c d, [a; b; c; d] ∈ cell_coords m /\ (tri = [a; b; c] \/ tri = [a; c; d]) /\ exists p, Some p ∈ tri /\ region s p) /\
      (forall q, q ∈ cell_coords m -> exists a b c d, q = [a; b; c; d] /\ ([a; b; c] ∈ cell_coords t0 \/ [a; c; d] ∈ cell_coords t0))
  end.
Proof.
  intros Hs. unfold approximate_triangle_mesh. destruct (voxelize_sdf s size) as [m|] eqn:E; [|reflexivity]. cbn [mbind option_bind]. destruct (voxel_cells4 s size m Hs E) as [Hr H4].
  rewrite split_spec by assumption. cbn [mbind option_bind]. set (ts := Mesh (ms_vertices m) (concat (map halves (ms_cells m)))).
  assert (Hh : forall tri, tri ∈ ms_cells ts <-> exists a b c d, [a; b; c; d] ∈ ms_cells m /\ (tri = [a; b; c] \/ tri = [a; c; d])).
  { intros tri. cbn [ms_cells ts]. rewrite <- flat_map_concat_map. rewrite elem_of_list_In, in_flat_map. split.
    - intros (c & Hc & Hin). apply elem_of_list_In in Hc. destruct c as [|a [|b [|d [|e [|]]]]]; try contradiction. exists a, b, d, e. split; [exact Hc|]. cbn in Hin. destruct Hin as [<-|[<-|[]]]; auto.
    - intros (a & b & c & d & Hc & Hin). exists [a; b; c; d]. split; [by apply elem_of_list_In|]. cbn. destruct Hin as [-> | ->]; auto. }
  assert (Hrt : in_range ts).
  { apply Forall_forall. intros tri Htri. apply Hh in Htri as (a & b & c & d & Hc & Htri). unfold in_range in Hr. rewrite Forall_forall in Hr. specialize (Hr _ Hc). cbn [ms_vertices ts].
    rewrite !Forall_cons in Hr. destruct Hr as (? & ? & ? & ? & _). destruct Htri as [-> | ->]; repeat constructor; assumption. }
  destruct (keep_touching_spec s ts Hrt) as (t0 & chosen & -> & Hr0 & _ & Hk & Hlen & Hco & _). cbn [mbind option_bind]. destruct (transform_spec s t0 Hs) as (t & -> & Hc & Hv). exists t0, t.
  assert (Hiff : forall tri, tri ∈ cell_coords t0 <-> exists a b c d, [a; b; c; d] ∈ cell_coords m /\ (tri = [a; b; c] \/ tri = [a; c; d]) /\ exists p, Some p ∈ tri /\ region s p).
  { intros tri. split.
    - intros Hin. apply elem_of_list_lookup in Hin as [i Hi]. assert (Hil : (i < length chosen)%nat) by (rewrite <- Hlen; apply lookup_lt_Some in Hi; unfold cell_coords in Hi; by rewrite map_length in Hi).
      destruct (lookup_lt_is_Some_2 _ _ Hil) as [k Hik]. rewrite (Hco i k Hik) in Hi. assert (Hkc : k ∈ chosen) by (by eapply elem_of_list_lookup_2). apply Hk in Hkc as (cell & v & p & Hcell & Hv' & Hp & Hle).
      unfold cell_coords in Hi. rewrite list_lookup_fmap, Hcell in Hi. cbn in Hi. injection Hi as <-. assert (Hct : cell ∈ ms_cells ts) by (by eapply elem_of_list_lookup_2).
      apply Hh in Hct as (a & b & c & d & Hin & Hor). exists (ms_vertices m !! a), (ms_vertices m !! b), (ms_vertices m !! c), (ms_vertices m !! d). split.
      { unfold cell_coords. apply elem_of_list_fmap. exists [a; b; c; d]. auto. }
      split; [destruct Hor as [-> | ->]; auto|]. exists p. split; [|by apply C94_region]. apply elem_of_list_fmap. exists v. auto.
    - intros (a & b & c & d & Hin & Hor & p & Hp & Hreg). unfold cell_coords in Hin. apply elem_of_list_fmap in Hin as (cell & E4 & Hin). destruct cell as [|a' [|b' [|c' [|d' [|]]]]]; try discriminate. injection E4 as -> -> -> ->.
      assert (Htri : exists tr, tr ∈ ms_cells ts /\ tri = map (fun v => ms_vertices m !! v) tr).
      { destruct Hor as [-> | ->]; [exists [a'; b'; c'] | exists [a'; c'; d']]; (split; [apply Hh; eauto 10 | reflexivity]). }
      destruct Htri as (tr & Htr & ->). apply elem_of_list_lookup in Htr as [k Hkt]. apply elem_of_list_fmap in Hp as (v & Hp & Hv').
      assert (Hkc : k ∈ chosen) by (apply Hk; exists tr, v, p; split_and!; auto; by apply C94_region). apply elem_of_list_lookup in Hkc as [i Hi]. specialize (Hco i k Hi).
      unfold cell_coords in Hco at 2. rewrite list_lookup_fmap, Hkt in Hco. cbn in Hco. by eapply elem_of_list_lookup_2. }
  split; [reflexivity|]. split; [exact Hr0|]. split; [exact Hc|]. split; [exact Hv|]. split; [exact Hiff|].
  intros q Hq. destruct (C95_voxelize s size m Hs E) as (h & _ & _ & _ & Ht & _). assert (Hq0 := Hq). unfold cell_coords in Hq. apply elem_of_list_fmap in Hq as (cell & -> & Hcell).
  assert (Hcr : Forall (fun v => v < length (ms_vertices m))%nat cell) by (unfold in_range in Hr; rewrite Forall_forall in Hr; auto). rewrite Forall_forall in H4. pose proof (H4 cell Hcell) as Hl4.
  apply elem_of_list_lookup in Hcell as [k Hkc]. destruct (Ht k cell Hkc) as (x & y & Hsq & dx & dy & Hdx & Hdy & Hreg). destruct (square_corner m cell h x y dx dy Hcr Hsq Hdx Hdy) as (v & p & Hv' & Hp & E0 & E1).
  assert (Hpr : region s p). { apply C94_region in Hreg; [|exact Hs]. apply C94_region; [exact Hs|]. rewrite (eval_ext s p (pt [x + dx; y + dy])); [exact Hreg | by rewrite E0 | by rewrite E1]. }
  destruct cell as [|a [|b [|c [|d [|]]]]]; try discriminate. eexists _, _, _, _. split; [reflexivity|]. rewrite !elem_of_cons, elem_of_nil in Hv'.
  destruct Hv' as [->|[->|[->|[->|[]]]]].
  - left. apply Hiff. eexists _, _, _, _. split; [exact Hq0|]. split; [left; reflexivity|]. exists p. rewrite Hp. split; [rewrite !elem_of_cons; auto | exact Hpr].
  - left. apply Hiff. eexists _, _, _, _. split; [exact Hq0|]. split; [left; reflexivity|]. exists p. rewrite Hp. split; [rewrite !elem_of_cons; auto | exact Hpr].
  - left. apply Hiff. eexists _, _, _, _. split; [exact Hq0|]. split; [left; reflexivity|]. exists p. rewrite Hp. split; [rewrite !elem_of_cons; auto | exact Hpr].
  - right. apply Hiff. eexists _, _, _, _. split; [exact Hq0|]. split; [right; reflexivity|]. exists p. rewrite Hp. split; [rewrite !elem_of_cons; auto | exact Hpr].
Qed.
Print Assumptions C95_triangles.

(** The example: the rectangle is voxelized, and its interior point (1/2, 1) is covered. *)
Example C95_example : exists m h, voxelize_sdf (AlignedBox tall) (51 / 100) = Some m /\ 0 < h <= 51 / 100 /\
  exists k cell x y, ms_cells m !! k = Some cell /\ square m cell h x y /\ in_square h x y (pt [1 / 2; 1]).
Proof.
  destruct (voxelize_sdf (AlignedBox tall) (51 / 100)) as [m|] eqn:E.
  2:{ apply C95_panic in E; [|exact tall_valid]. destruct E as [E|(b & i & [= <-] & Hi & H)]; [lra|]. destruct i as [|[|]]; cbn in H; [lra | lra | lia]. }
  destruct (C95_voxelize _ _ m tall_valid E) as (h & Hh & _ & _ & _ & _ & Hcov). exists m, h. split; [reflexivity|]. split; [exact Hh|]. apply Hcov. intros q Hq.
  assert (Hb : h / sqrt 2 <= 2 / 5).
  { assert (14 / 10 <= sqrt 2) by (rewrite <- (sqrt_pow2 (14 / 10)) by lra; apply sqrt_le_1_alt; lra). apply (Rmult_le_reg_r (sqrt 2)); [lra|]. unfold Rdiv at 1. rewrite Rmult_assoc, Rinv_l, Rmult_1_r by lra. lra. }
  cbn. intros i Hi. pose proof (distance_coord (pt [1 / 2; 1]) q i Hi) as Hd. apply Rcomplements.Rabs_le_between in Hd. destruct i as [|[|]]; [cbn in *; lra | cbn in *; lra | lia].
Qed.

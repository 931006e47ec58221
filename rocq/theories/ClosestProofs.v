(** Lemmas about closest points: leaving a hull, edges of a triangle, affine maps of elements. *)
From Coq Require Import Reals List Bool Arith Lra Lia Psatz.
From Verif Require Import CgModel CgSpec CgProofs AabbModel AabbSpec GeomModel MeshModel MaterialModel ElementModel ClosestModel ClosestSpec PropSeg.
Import ListNotations.
Local Open Scope R_scope.

Lemma dist2_squared D p q : distance_squared D p q = dist2 D p q.
Proof. unfold distance_squared, dist2. apply dot_inner. Qed.
Lemma dist2_ext D p p' q q' : veq D p p' -> veq D q q' -> dist2 D p q = dist2 D p' q'.
Proof. intros H1 H2. unfold dist2. rewrite <- !dot_inner. apply dot_ext; intros i Hi; rewrite (H1 i Hi), (H2 i Hi); reflexivity. Qed.
Lemma dist2_nonneg D p q : 0 <= dist2 D p q.
Proof. unfold dist2. rewrite <- dot_inner. apply dot_nonneg. Qed.
Lemma dist2_sym D p q : dist2 D p q = dist2 D q p.
Proof.
  unfold dist2. rewrite <- !dot_inner. induction D as [|D IH]; cbn; [reflexivity|]. rewrite IH. ring.
Qed.
Lemma dist2_zero D p q : dist2 D p q = 0 <-> veq D p q.
Proof.
  unfold dist2. rewrite <- dot_inner. split.
  - intros H i Hi. pose proof (dot_self_zero _ _ H i Hi) as E. cbn in E. lra.
  - intros H. transitivity (dot D (fun _ => 0) (fun _ => 0)); [apply dot_ext; intros i Hi; rewrite (H i Hi); ring|apply dot_zero].
Qed.

(** * sums *)
Lemma total_ext n f g : (forall i, (i < n)%nat -> f i = g i) -> total n f = total n g.
Proof. induction n as [|n IH]; intros H; cbn; [reflexivity|]. rewrite IH by (intros; apply H; lia). rewrite H by lia. reflexivity. Qed.
Lemma total_add n f g : total n (fun i => f i + g i) = total n f + total n g.
Proof. induction n as [|n IH]; cbn; [ring|rewrite IH; ring]. Qed.
Lemma total_scale n s f : total n (fun i => s * f i) = s * total n f.
Proof. induction n as [|n IH]; cbn; [ring|rewrite IH; ring]. Qed.
Lemma total_nonneg n f : (forall i, (i < n)%nat -> 0 <= f i) -> 0 <= total n f.
Proof. induction n as [|n IH]; intros H; cbn; [lra|]. pose proof (H n ltac:(lia)). specialize (IH (fun i Hi => H i ltac:(lia))). lra. Qed.
Lemma total_le n f g : (forall i, (i < n)%nat -> f i <= g i) -> total n f <= total n g.
Proof. induction n as [|n IH]; intros H; cbn; [lra|]. pose proof (H n ltac:(lia)). specialize (IH (fun i Hi => H i ltac:(lia))). lra. Qed.
Lemma total_zero_terms n f : (forall i, (i < n)%nat -> 0 <= f i) -> total n f = 0 -> forall i, (i < n)%nat -> f i = 0.
Proof.
  induction n as [|n IH]; intros H E i Hi; [lia|]. cbn in E. pose proof (H n ltac:(lia)). pose proof (total_nonneg n f (fun i Hi => H i ltac:(lia))).
  destruct (Nat.eq_dec i n) as [->|]; [lra|]. apply IH; [intros; apply H; lia|lra|lia].
Qed.

(** * leaving a hull *)
(** moving nonnegative weights along a direction with a negative entry, some weight vanishes first *)
Lemma some_negative n (d : nat -> R) : (exists i, (i < n)%nat /\ d i < 0) \/ (forall i, (i < n)%nat -> 0 <= d i).
Proof.
  induction n as [|n [(i & Hi & N)|A]]; [right; intros; lia|left; exists i; split; [lia|exact N]|].
  destruct (Rlt_dec (d n) 0) as [N|N]; [left; exists n; split; [lia|exact N]|]. right. intros i Hi. destruct (Nat.eq_dec i n) as [->|]; [lra|apply A; lia].
Qed.
Lemma first_exit n (w d : nat -> R) : (forall i, (i < n)%nat -> 0 <= w i) -> (exists i, (i < n)%nat /\ d i < 0) ->
  exists s, 0 <= s /\ (forall i, (i < n)%nat -> 0 <= w i + s * d i) /\ exists j, (j < n)%nat /\ d j < 0 /\ w j + s * d j = 0.
Proof.
  induction n as [|n IH]; intros W [i [Hi Ni]]; [lia|].
  assert (Last : d n < 0 -> 0 <= w n / - d n /\ w n + w n / - d n * d n = 0).
  { intros N. split; [apply Rle_mult_inv_pos; [apply W; lia|lra]|field; lra]. }
  pose proof (W n ltac:(lia)) as Wn.
  destruct (some_negative n d) as [E|E].
  - destruct (IH (fun i Hi => W i ltac:(lia)) E) as (s & S0 & Sw & j & Hj & Nj & Ej).
    destruct (Rle_dec 0 (w n + s * d n)) as [P|P].
    + exists s. split; [exact S0|]. split; [intros k Hk; destruct (Nat.eq_dec k n) as [->|]; [exact P|apply Sw; lia]|]. exists j. split; [lia|auto].
    + assert (Nn : d n < 0) by nra. destruct (Last Nn) as [T0 Tn]. set (t := w n / - d n) in *.
      assert (t < s) by nra. exists t. split; [exact T0|]. split.
      * intros k Hk. destruct (Nat.eq_dec k n) as [->|]; [lra|]. pose proof (Sw k ltac:(lia)). pose proof (W k ltac:(lia)).
        destruct (Rle_dec 0 (d k)); nra.
      * exists n. split; [lia|]. split; [exact Nn|exact Tn].
  - assert (i = n) by (destruct (Nat.eq_dec i n); [assumption|specialize (E i ltac:(lia)); lra]). subst i.
    destruct (Last Ni) as [T0 Tn]. set (t := w n / - d n) in *. exists t. split; [exact T0|]. split.
    + intros k Hk. destruct (Nat.eq_dec k n) as [->|]; [lra|]. specialize (E k ltac:(lia)). pose proof (W k ltac:(lia)). nra.
    + exists n. split; [lia|]. split; [exact Ni|exact Tn].
Qed.

Lemma mean_add vs w d s k : mean (fun i => w i + s * d i) vs k = mean w vs k + s * mean d vs k.
Proof.
  unfold mean. rewrite <- total_scale, <- total_add. apply total_ext. intros i _. ring.
Qed.
Lemma mean_ext vs w w' k : (forall i, (i < length vs)%nat -> w i = w' i) -> mean w vs k = mean w' vs k.
Proof. intros H. apply total_ext. intros i Hi. rewrite H by exact Hi. reflexivity. Qed.

Lemma pythagoras D p q x s : dot D (fun i => p i - q i) (fun i => q i - x i) = 0 ->
  dist2 D p (fun i => x i + s * (q i - x i)) = dist2 D p q + (1 - s) * (1 - s) * dist2 D q x.
Proof.
  intros H. unfold dist2. rewrite <- !dot_inner.
  assert (E : veq D (fun i => p i - (x i + s * (q i - x i))) (fun i => (p i - q i) + (1 - s) * (q i - x i))) by (intros i _; ring).
  rewrite (dot_ext D _ _ _ _ E E), dot_add_l, !dot_add_r, (dot_comm D (fun i => q i - x i) (fun i => p i - q i)), H. ring.
Qed.
Lemma pythagoras_le D p q x : dot D (fun i => p i - q i) (fun i => q i - x i) = 0 -> dist2 D p q <= dist2 D p x.
Proof.
  intros H. pose proof (pythagoras D p q x 0 H) as E. rewrite (dist2_ext D p p _ x) in E; [|intros i _; reflexivity|intros i _; ring].
  pose proof (dist2_nonneg D q x). lra.
Qed.

(** going from a point of the hull towards a point of its affine span that is not in it, one leaves through the boundary *)
Lemma leave_toward D vs p q x mu : total (length vs) mu = 1 -> veq D q (mean mu vs) -> (exists i, (i < length vs)%nat /\ mu i < 0) ->
  dot D (fun i => p i - q i) (fun i => q i - x i) = 0 -> hull 0 D vs x -> exists y, hull_boundary D vs y /\ dist2 D p y <= dist2 D p x.
Proof.
  intros M Q (i & Hi & Ni) O (w & [W W1] & X). set (d := fun k => mu k - w k).
  assert (W0 : forall k, (k < length vs)%nat -> 0 <= w k) by (intros k Hk; specialize (W k Hk); lra).
  destruct (first_exit (length vs) w d W0) as (s & S0 & Sw & j & Hj & _ & Ej).
  { exists i. split; [exact Hi|]. unfold d. specialize (W0 i Hi). lra. }
  assert (S1 : s <= 1).
  { specialize (Sw i Hi). specialize (W0 i Hi). unfold d in Sw. destruct (Rle_dec s 1); [assumption|nra]. }
  exists (fun k => x k + s * (q k - x k)). split.
  - exists (fun k => w k + s * d k), j. split; [split|split; [exact Hj|split; [exact Ej|]]].
    + intros k Hk. specialize (Sw k Hk). lra.
    + rewrite total_add, total_scale. unfold d. replace (total (length vs) (fun k => mu k - w k)) with 0; [lra|].
      transitivity (total (length vs) (fun k => mu k + -1 * w k)); [rewrite total_add, total_scale; lra|apply total_ext; intros; ring].
    + intros k Hk. rewrite mean_add. rewrite (X k Hk) at 1. f_equal. f_equal. rewrite (Q k Hk), (X k Hk).
      transitivity (mean (fun i => mu i + -1 * w i) vs k); [rewrite mean_add; ring|apply mean_ext; intros; unfold d; ring].
  - rewrite pythagoras by exact O. pose proof (pythagoras D p q x 0 O) as E. rewrite (dist2_ext D p p _ x) in E; [|intros k _; reflexivity|intros k _; ring].
    pose proof (dist2_nonneg D q x) as N. assert (S2 : (1 - s) * (1 - s) <= 1) by nra. rewrite E. pose proof (Rmult_le_compat_r _ _ _ N S2). lra.
Qed.

(** a hull whose vertices satisfy an affine relation is its boundary *)
Lemma leave_flat D vs x d : total (length vs) d = 0 -> veq D (mean d vs) (fun _ => 0) -> (exists i, (i < length vs)%nat /\ d i <> 0) -> hull 0 D vs x -> hull_boundary D vs x.
Proof.
  intros T Z (i & Hi & Ni) (w & [W W1] & X).
  assert (W0 : forall k, (k < length vs)%nat -> 0 <= w k) by (intros k Hk; specialize (W k Hk); lra).
  destruct (some_negative (length vs) d) as [Neg|Pos].
  - destruct (first_exit (length vs) w d W0 Neg) as (s & S0 & Sw & j & Hj & _ & Ej).
    exists (fun k => w k + s * d k), j. split; [split|split; [exact Hj|split; [exact Ej|]]].
    + intros k Hk. specialize (Sw k Hk). lra.
    + transitivity (total (length vs) w + s * total (length vs) d); [rewrite <- total_scale, <- total_add; reflexivity|rewrite W1, T; ring].
    + intros k Hk. rewrite mean_add, (Z k Hk), (X k Hk). ring.
  - exfalso. apply Ni. exact (total_zero_terms _ _ Pos T i Hi).
Qed.

(** * the first of the smallest *)
Lemma min_fold {A} (key : A -> R) l : forall a, let r := fold_left (fun x y => if Rlt_dec (key y) (key x) then y else x) l a in
  In r (a :: l) /\ forall x, In x (a :: l) -> key r <= key x.
Proof.
  induction l as [|b l IH]; intros a; cbn [fold_left].
  - split; [left; reflexivity|]. intros x [<-|[]]. lra.
  - destruct (IH (if Rlt_dec (key b) (key a) then b else a)) as [I M]. split.
    + destruct I as [E|I]; [|right; right; exact I]. destruct (Rlt_dec (key b) (key a)); [right; left; exact E|left; exact E].
    + intros x [<-|[<-|I']]; [| |apply M; right; exact I'].
      * specialize (M _ (or_introl eq_refl)). destruct (Rlt_dec (key b) (key a)); lra.
      * specialize (M _ (or_introl eq_refl)). destruct (Rlt_dec (key b) (key a)); lra.
Qed.
Lemma min_by_spec {A} (key : A -> R) l : l <> [] -> exists r, min_by key l = Some r /\ In r l /\ forall x, In x l -> key r <= key x.
Proof. destruct l as [|a l]; [congruence|]. intros _. cbn [min_by]. eexists. split; [reflexivity|]. apply min_fold. Qed.

(** * edges *)
Lemma closest_parametric_best D a b p s : 0 <= s <= 1 -> dist2 D p (dseg_at a b (dclosest_parametric D a b p)) <= dist2 D p (dseg_at a b s).
Proof.
  intros Hs. destruct (C42_closest_point D a b p) as [_ M]. specialize (M s Hs). unfold GeomSpec.distd in M.
  assert (E : forall u v : vec, length2 D (fun i => u i - v i) = sqrt (dist2 D u v)) by reflexivity.
  rewrite !E in M. apply sqrt_le_0 in M; [|apply dist2_nonneg|apply dist2_nonneg].
  unfold dclosest in M. rewrite (dist2_ext D p p (GeomSpec.mixd a b s) (dseg_at a b s)) in M; [exact M|intros i _; reflexivity|].
  intros i _. unfold GeomSpec.mixd, dseg_at. ring.
Qed.
Definition corner3 (a b c : vec) (i : nat) : vec := nth (i mod 3) [a; b; c] (fun _ => 0).
Lemma closest_edge_spec D a b c p : exists idx t d2, closest_edge_of D a b c p = Some (idx, t, d2) /\ (idx < 3)%nat /\ 0 <= t <= 1 /\
  d2 = dist2 D p (dseg_at (corner3 a b c idx) (corner3 a b c (idx + 1)) t) /\
  forall k s, (k < 3)%nat -> 0 <= s <= 1 -> d2 <= dist2 D p (dseg_at (corner3 a b c k) (corner3 a b c (k + 1)) s).
Proof.
  unfold closest_edge_of. cbn [List.combine seq map].
  set (cand := fun (i : nat) x1 x2 => (i, dclosest_parametric D x1 x2 p, distance_squared D p (dseg_at x1 x2 (dclosest_parametric D x1 x2 p)))).
  change (exists idx t d2, min_by snd [cand 0%nat a b; cand 1%nat b c; cand 2%nat c a] = Some (idx, t, d2) /\ (idx < 3)%nat /\ 0 <= t <= 1 /\
    d2 = dist2 D p (dseg_at (corner3 a b c idx) (corner3 a b c (idx + 1)) t) /\
    forall k s, (k < 3)%nat -> 0 <= s <= 1 -> d2 <= dist2 D p (dseg_at (corner3 a b c k) (corner3 a b c (k + 1)) s)).
  destruct (min_by_spec snd [cand 0%nat a b; cand 1%nat b c; cand 2%nat c a] ltac:(discriminate)) as ([[idx t] d2] & E & I & M).
  exists idx, t, d2. split; [exact E|].
  assert (Min : forall k s, (k < 3)%nat -> 0 <= s <= 1 -> d2 <= dist2 D p (dseg_at (corner3 a b c k) (corner3 a b c (k + 1)) s)).
  { intros k s Hk Hs. destruct k as [|[|[|k]]]; [| | |lia].
    - specialize (M (cand 0%nat a b) ltac:(cbn; auto)). cbn in M. rewrite dist2_squared in M. pose proof (closest_parametric_best D a b p s Hs). cbn. lra.
    - specialize (M (cand 1%nat b c) ltac:(cbn; auto)). cbn in M. rewrite dist2_squared in M. pose proof (closest_parametric_best D b c p s Hs). cbn. lra.
    - specialize (M (cand 2%nat c a) ltac:(cbn; auto)). cbn in M. rewrite dist2_squared in M. pose proof (closest_parametric_best D c a p s Hs). cbn. lra. }
  assert (T : forall x y, 0 <= dclosest_parametric D x y p <= 1) by (intros x y; apply clamp_range; lra).
  destruct I as [I|[I|[I|[]]]]; unfold cand in I; injection I as <- <- <-; (split; [lia|]); (split; [apply T|]); (split; [rewrite dist2_squared; reflexivity|exact Min]).
Qed.

(** * linear systems *)
Lemma inverse2 M inv y : try_inverse 2 M = Some inv -> forall i, (i < 2)%nat -> M i 0%nat * mulv 2 inv y 0%nat + M i 1%nat * mulv 2 inv y 1%nat = y i.
Proof.
  unfold try_inverse. destruct (Req_EM_T (determinant 2 M) 0) as [|N]; [discriminate|]. intros E i Hi. injection E as <-. revert N.
  destruct i as [|[|i]]; [| |lia]; unfold mulv, summ, adjugate, determinant; cbn [Nat.eqb Nat.sub]; intros N; field; exact N.
Qed.
Lemma inverse3 M inv y : try_inverse 3 M = Some inv -> forall i, (i < 3)%nat ->
  M i 0%nat * mulv 3 inv y 0%nat + M i 1%nat * mulv 3 inv y 1%nat + M i 2%nat * mulv 3 inv y 2%nat = y i.
Proof.
  unfold try_inverse. destruct (Req_EM_T (determinant 3 M) 0) as [|N]; [discriminate|]. intros E i Hi. injection E as <-. revert N.
  destruct i as [|[|[|i]]]; [| | |lia]; cbn; intros N; field; exact N.
Qed.
Lemma singular d M : try_inverse d M = None -> determinant d M = 0.
Proof. unfold try_inverse. destruct (Req_EM_T (determinant d M) 0); [auto|discriminate]. Qed.

Lemma kernel2 (M : nat -> nat -> R) : determinant 2 M = 0 -> exists u v, (u <> 0 \/ v <> 0) /\ forall i, (i < 2)%nat -> M i 0%nat * u + M i 1%nat * v = 0.
Proof.
  unfold determinant. intros Z.
  destruct (Req_EM_T (M 0%nat 0%nat) 0) as [Z1|N1]; [destruct (Req_EM_T (M 0%nat 1%nat) 0) as [Z2|N2]|].
  - destruct (Req_EM_T (M 1%nat 0%nat) 0) as [Z3|N3].
    + exists 1, 0. split; [left; lra|]. intros [|[|i]] Hi; [rewrite Z1; ring|rewrite Z3; ring|lia].
    + exists (M 1%nat 1%nat), (- M 1%nat 0%nat). split; [right; lra|]. intros [|[|i]] Hi; [rewrite Z1, Z2; ring|ring|lia].
  - exists (M 0%nat 1%nat), (- M 0%nat 0%nat). split; [left; exact N2|]. intros [|[|i]] Hi; [ring|lra|lia].
  - exists (M 0%nat 1%nat), (- M 0%nat 0%nat). split; [right; lra|]. intros [|[|i]] Hi; [ring|lra|lia].
Qed.

(** * triangles *)
Definition tw (xi : vec) (i : nat) : R := nth i (tri3_basis xi) 0.
Lemma tri_map_mean (vs : list vec) xi k : length vs = 3%nat -> el_map tri3 vs xi k = mean (tw xi) vs k.
Proof.
  destruct vs as [|a [|b [|c [|]]]]; try discriminate. intros _. unfold mean, tw. cbn [length total nth]. cbn [el_map tri3]. unfold isoparametric_map, tri3_basis. cbn [ElementModel.combine nth]. ring.
Qed.
Lemma tw_total xi : total 3 (tw xi) = 1.
Proof. unfold tw. cbn [total]. unfold tri3_basis. cbn [nth]. field. Qed.
Lemma tri_ref_mean xi : veq 2 xi (mean (tw xi) (map pt tri3_ref)).
Proof. intros [|[|k]] Hk; [| |lia]; unfold mean, tw; cbn [map length tri3_ref total nth]; unfold pt, tri3_basis; cbn [nth]; field. Qed.
Lemma tri_affine (vs : list vec) xi k : length vs = 3%nat ->
  el_map tri3 vs xi k = el_map tri3 vs origin k + (el_jacobian tri3 vs origin k 0%nat * xi 0%nat + el_jacobian tri3 vs origin k 1%nat * xi 1%nat).
Proof.
  destruct vs as [|a [|b [|c [|]]]]; try discriminate. intros _. cbn [el_map el_jacobian tri3]. unfold isoparametric_map, isoparametric_jacobian, tri3_basis, tri3_grads, origin.
  cbn [map ElementModel.combine nth]. field.
Qed.
(** the weights of a direction in reference coordinates *)
Definition tdir (u v : R) (i : nat) : R := nth i [- (u + v) / 2; u / 2; v / 2] 0.
Lemma tdir_mean (vs : list vec) u v k : length vs = 3%nat -> mean (tdir u v) vs k = el_jacobian tri3 vs origin k 0%nat * u + el_jacobian tri3 vs origin k 1%nat * v.
Proof.
  destruct vs as [|a [|b [|c [|]]]]; try discriminate. intros _. unfold mean, tdir. cbn [length total nth]. cbn [el_jacobian tri3]. unfold isoparametric_jacobian, tri3_grads, origin.
  cbn [map ElementModel.combine nth]. field.
Qed.
Lemma tri_flat D (vs : list vec) x u v : length vs = 3%nat -> (u <> 0 \/ v <> 0) -> (forall k, (k < D)%nat -> el_jacobian tri3 vs origin k 0%nat * u + el_jacobian tri3 vs origin k 1%nat * v = 0) ->
  hull 0 D vs x -> hull_boundary D vs x.
Proof.
  intros L N Z. apply leave_flat with (d := tdir u v); rewrite ?L.
  - unfold tdir. cbn [total nth]. field.
  - intros k Hk. rewrite tdir_mean by exact L. auto.
  - destruct N; [exists 1%nat|exists 2%nat]; (split; [lia|]); unfold tdir; cbn [nth]; lra.
Qed.

Lemma edge_map a b c idx t k : (idx < 3)%nat -> el_map tri3 [a; b; c] (edge_ref_coords idx t) k = dseg_at (corner3 a b c idx) (corner3 a b c (idx + 1)) t k.
Proof.
  intros H. destruct idx as [|[|[|idx]]]; [| | |lia]; cbn [el_map tri3]; unfold isoparametric_map, edge_ref_coords, corner3, dseg_at, tri3_basis, tri3_ref; cbn; unfold pt; cbn [nth]; field.
Qed.
Lemma edge_weights idx t : (idx < 3)%nat -> 0 <= t <= 1 -> weighting 0 3 (tw (edge_ref_coords idx t)) /\ exists j, (j < 3)%nat /\ tw (edge_ref_coords idx t) j = 0.
Proof.
  intros H Ht. split; [split; [|apply tw_total]|].
  - intros i Hi. destruct idx as [|[|[|idx]]]; [| | |lia]; destruct i as [|[|[|i]]]; try lia; unfold tw, edge_ref_coords, dseg_at, tri3_basis, tri3_ref; cbn; unfold pt; cbn [nth]; lra.
  - exists ((idx + 2) mod 3)%nat. split; [apply Nat.mod_upper_bound; lia|]. destruct idx as [|[|[|idx]]]; [| | |lia]; unfold tw, edge_ref_coords, dseg_at, tri3_basis, tri3_ref; cbn; unfold pt; cbn [nth]; lra.
Qed.
Lemma tri_boundary_edge D a b c y : hull_boundary D [a; b; c] y -> exists k s, (k < 3)%nat /\ 0 <= s <= 1 /\ veq D y (dseg_at (corner3 a b c k) (corner3 a b c (k + 1)) s).
Proof.
  intros (w & j & [W T] & Hj & Z & Y). cbn [length] in *. cbn [total] in T. pose proof (W 0%nat ltac:(lia)). pose proof (W 1%nat ltac:(lia)). pose proof (W 2%nat ltac:(lia)).
  destruct j as [|[|[|j]]]; [| | |lia].
  - exists 1%nat, (w 2%nat). split; [lia|]. split; [lra|]. intros k Hk. rewrite (Y k Hk). unfold mean, dseg_at, corner3. cbn. rewrite Z. replace (w 1%nat) with (1 - w 2%nat) by lra. ring.
  - exists 2%nat, (w 0%nat). split; [lia|]. split; [lra|]. intros k Hk. rewrite (Y k Hk). unfold mean, dseg_at, corner3. cbn. rewrite Z. replace (w 2%nat) with (1 - w 0%nat) by lra. ring.
  - exists 0%nat, (w 1%nat). split; [lia|]. split; [lra|]. intros k Hk. rewrite (Y k Hk). unfold mean, dseg_at, corner3. cbn. rewrite Z. replace (w 0%nat) with (1 - w 1%nat) by lra. ring.
Qed.
Lemma edge_is_boundary D a b c k s : (k < 3)%nat -> 0 <= s <= 1 -> hull_boundary D [a; b; c] (dseg_at (corner3 a b c k) (corner3 a b c (k + 1)) s).
Proof.
  intros Hk Hs. destruct (edge_weights k s Hk Hs) as [W (j & Hj & Z)]. exists (tw (edge_ref_coords k s)), j. split; [exact W|]. split; [exact Hj|]. split; [exact Z|].
  intros i _. rewrite <- (edge_map a b c k s i Hk). apply tri_map_mean. reflexivity.
Qed.

Section eps.
Variable epsilon : R.
Hypothesis Heps : 0 <= epsilon.

Lemma rleb_spec x y : Bool.reflect (x <= y) (rleb x y).
Proof. unfold rleb. destruct (Rle_dec x y); constructor; assumption. Qed.
Lemma tri_likely xi : is_likely_in_tri_ref_interior epsilon xi = true -> weighting (2 * epsilon) 3 (tw xi).
Proof.
  unfold is_likely_in_tri_ref_interior. intros [[H1 H2]%andb_prop H3]%andb_prop.
  destruct (rleb_spec (-1 - 4 * epsilon) (xi 0%nat)); [|discriminate]. destruct (rleb_spec (-1 - 4 * epsilon) (xi 1%nat)); [|discriminate]. destruct (rleb_spec (xi 0%nat + xi 1%nat) (4 * epsilon)); [|discriminate].
  split; [|apply tw_total]. intros [|[|[|i]]] Hi; [| | |lia]; unfold tw, tri3_basis; cbn [nth]; lra.
Qed.
Lemma tri_unlikely xi : is_likely_in_tri_ref_interior epsilon xi = false -> exists i, (i < 3)%nat /\ tw xi i < 0.
Proof.
  unfold is_likely_in_tri_ref_interior. destruct (rleb_spec (-1 - 4 * epsilon) (xi 0%nat)).
  - destruct (rleb_spec (-1 - 4 * epsilon) (xi 1%nat)).
    + destruct (rleb_spec (xi 0%nat + xi 1%nat) (4 * epsilon)); [discriminate|]. intros _. exists 0%nat. split; [lia|]. unfold tw, tri3_basis; cbn [nth]. lra.
    + intros _. exists 2%nat. split; [lia|]. unfold tw, tri3_basis; cbn [nth]. lra.
  - intros _. exists 1%nat. split; [lia|]. unfold tw, tri3_basis; cbn [nth]. lra.
Qed.
End eps.

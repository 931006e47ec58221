(** C41, C49. *)
From Coq Require Import Reals Lra Lia Arith List Bool.
From Verif Require Import CgModel CgSpec CgProofs AabbModel AabbSpec.
Import ListNotations.
Open Scope R_scope.

Lemma rleb_iff x y : rleb x y = true <-> x <= y.
Proof. unfold rleb. destruct (Rle_dec x y); split; intros; auto; try discriminate; contradiction. Qed.
Lemma all_below D f : forallb f (seq 0 D) = true <-> forall i, (i < D)%nat -> f i = true.
Proof.
  rewrite forallb_forall. split; intros H i Hi; apply H; [apply in_seq; lia|]. apply in_seq in Hi. lia.
Qed.
Lemma aabb_new_spec D min max : aabb_new D min max = Some (Aabb min max) /\ proper D (Aabb min max) \/ aabb_new D min max = None /\ ~ proper D (Aabb min max).
Proof.
  unfold aabb_new. destruct (forallb _ _) eqn:E; [left|right]; (split; [reflexivity|]).
  - intros i Hi. apply rleb_iff. now apply (proj1 (all_below D _) E).
  - intros Hp. assert (H : forallb (fun i => rleb (min i) (max i)) (seq 0 D) = true); [|congruence]. apply all_below. intros i Hi. apply rleb_iff. now apply Hp.
Qed.
Lemma aabb_from_spec D p : aabb_from D p = Some (Aabb p p).
Proof. destruct (aabb_new_spec D p p) as [[H _]|[_ H]]; [exact H|]. exfalso. apply H. intros i Hi. cbn. lra. Qed.

(** ** C41 *)
Theorem C41_enclose : forall D a b, proper D a -> proper D b -> exists c, enclose D a b = Some c /\ proper D c /\
  (forall p, inside D a p \/ inside D b p -> inside D c p) /\
  (forall c', (forall p, inside D a p \/ inside D b p -> inside D c' p) -> forall p, inside D c p -> inside D c' p).
Proof.
  intros D a b Ha Hb. unfold enclose. destruct (aabb_new_spec D (fun i => Rmin (bmin a i) (bmin b i)) (fun i => Rmax (bmax a i) (bmax b i))) as [[-> Hp]|[_ Hn]].
  - eexists. split; [reflexivity|]. split; [exact Hp|]. split.
    + intros p Hin i Hi. cbn. destruct Hin as [H|H]; specialize (H i Hi).
      * pose proof (Rmin_l (bmin a i) (bmin b i)). pose proof (Rmax_l (bmax a i) (bmax b i)). lra.
      * pose proof (Rmin_r (bmin a i) (bmin b i)). pose proof (Rmax_r (bmax a i) (bmax b i)). lra.
    + intros c' Hc p Hin i Hi. specialize (Hin i Hi). cbn in Hin.
      pose proof (Hc (bmin a) (or_introl (fun i Hi => conj (Rle_refl _) (Ha i Hi))) i Hi). pose proof (Hc (bmax a) (or_introl (fun i Hi => conj (Ha i Hi) (Rle_refl _))) i Hi).
      pose proof (Hc (bmin b) (or_intror (fun i Hi => conj (Rle_refl _) (Hb i Hi))) i Hi). pose proof (Hc (bmax b) (or_intror (fun i Hi => conj (Hb i Hi) (Rle_refl _))) i Hi).
      revert Hin. unfold Rmin, Rmax. destruct (Rle_dec _ _), (Rle_dec _ _); lra.
  - exfalso. apply Hn. intros i Hi. cbn. specialize (Ha i Hi). pose proof (Rmin_l (bmin a i) (bmin b i)). pose proof (Rmax_l (bmax a i) (bmax b i)). lra.
Qed.
Print Assumptions C41_enclose.

(** The box of a non-empty set of points contains them and lies in every box that does. *)
Theorem C41_from_points : forall D points, points <> [] -> exists a, from_points D points = Some (Some a) /\ proper D a /\
  (forall p, In p points -> inside D a p) /\
  (forall b, (forall p, In p points -> inside D b p) -> forall p, inside D a p -> inside D b p).
Proof.
  intros D [|p0 rest] Hne; [congruence|]. clear Hne. cbn [from_points]. rewrite aabb_from_spec.
  assert (G : forall rest done a, proper D a -> (forall p, In p done -> inside D a p) -> (forall b, (forall p, In p done -> inside D b p) -> forall p, inside D a p -> inside D b p) ->
    exists a', fold_left (fun acc q => match acc with Some box => match aabb_from D q with Some bq => enclose D box bq | None => None end | None => None end) rest (Some a) = Some a' /\
      proper D a' /\ (forall p, In p (done ++ rest) -> inside D a' p) /\ (forall b, (forall p, In p (done ++ rest) -> inside D b p) -> forall p, inside D a' p -> inside D b p)).
  { clear. induction rest as [|q rest IH]; intros done a Hp Hin Hmin; cbn [fold_left].
    - exists a. rewrite app_nil_r. auto.
    - rewrite aabb_from_spec. assert (Hq : proper D (Aabb q q)) by (intros i Hi; cbn; lra).
      destruct (C41_enclose D a (Aabb q q) Hp Hq) as (c & -> & Hc & Hsub & Hm).
      replace (done ++ q :: rest) with ((done ++ [q]) ++ rest) by (rewrite <- app_assoc; reflexivity). apply IH; [exact Hc| |].
      + intros p [Hd|[->|[]]]%in_app_iff; apply Hsub; [left; now apply Hin|right; intros i Hi; cbn; lra].
      + intros b Hb. apply Hm. intros p [Hpa|Hpq].
        * apply Hmin; [|exact Hpa]. intros p' Hp'. apply Hb, in_app_iff. now left.
        * intros i Hi. specialize (Hpq i Hi). cbn in Hpq. pose proof (Hb q ltac:(apply in_app_iff; right; now left) i Hi). lra. }
  destruct (G rest [p0] (Aabb p0 p0)) as (a & -> & H).
  - intros i Hi. cbn. lra.
  - intros p [->|[]] i Hi. cbn. lra.
  - intros b Hb p Hp i Hi. specialize (Hp i Hi). cbn in Hp. pose proof (Hb p0 (or_introl eq_refl) i Hi). lra.
  - exists a. split; [reflexivity|exact H].
Qed.
Print Assumptions C41_from_points.

Theorem C41_contains : forall D a p, contains_point D a p = true <-> inside D a p.
Proof.
  intros D a p. unfold contains_point. rewrite all_below. unfold inside. split; intros H i Hi; specialize (H i Hi).
  - apply andb_prop in H as [H1 H2]. apply rleb_iff in H1, H2. lra.
  - apply andb_true_intro. split; apply rleb_iff; lra.
Qed.
Print Assumptions C41_contains.

Theorem C41_intersects : forall D a b, proper D a -> proper D b -> intersects D a b = true <-> exists p, inside D a p /\ inside D b p.
Proof.
  intros D a b Ha Hb. unfold intersects. rewrite all_below. split.
  - intros H. exists (fun i => Rmax (bmin a i) (bmin b i)).
    split; intros i Hi; specialize (H i Hi); specialize (Ha i Hi); specialize (Hb i Hi); apply andb_prop in H as [H1 H2]; apply rleb_iff in H1, H2; unfold Rmax; destruct (Rle_dec _ _); lra.
  - intros (p & Hpa & Hpb) i Hi. specialize (Hpa i Hi). specialize (Hpb i Hi). apply andb_true_intro. split; apply rleb_iff; lra.
Qed.
Print Assumptions C41_intersects.

Lemma dot_le n u v : (forall i, (i < n)%nat -> u i * u i <= v i * v i) -> dot n u u <= dot n v v.
Proof. induction n as [|n IH]; intros H; cbn; [lra|]. pose proof (H n ltac:(lia)). specialize (IH (fun i Hi => H i ltac:(lia))). lra. Qed.

(** No point of the box is closer than the closest point, and the distance is the one to it. *)
Theorem C41_closest : forall D a p, proper D a -> inside D a (closest_point_to a p) /\
  (forall q, inside D a q -> dist2 D (closest_point_to a p) p <= dist2 D q p) /\
  dist2_to D a p = dist2 D (closest_point_to a p) p /\ dist_to D a p = length2 D (fun i => closest_point_to a p i - p i) /\
  (inside D a p -> veq D (closest_point_to a p) p).
Proof.
  intros D a p Ha. split; [|split; [|split; [|split]]].
  - intros i Hi. specialize (Ha i Hi). unfold closest_point_to. destruct (Rle_dec _ _); [lra|]. destruct (Rle_dec _ _); lra.
  - intros q Hq. unfold dist2. rewrite <- !dot_inner. apply dot_le. intros i Hi. specialize (Hq i Hi). unfold closest_point_to.
    destruct (Rle_dec _ _); [nra|]. destruct (Rle_dec _ _); [nra|]. pose proof (Rle_0_sqr (q i - p i)) as Hq2. unfold Rsqr in Hq2. rewrite Rminus_diag_eq by reflexivity. lra.
  - unfold dist2. rewrite <- dot_inner. reflexivity.
  - unfold length2. rewrite <- dot_inner. reflexivity.
  - intros Hp i Hi. specialize (Hp i Hi). unfold closest_point_to. destruct (Rle_dec _ _); [lra|]. destruct (Rle_dec _ _); lra.
Qed.
Print Assumptions C41_closest.

(** The furthest point is a corner, and no point of the box is further away. *)
Theorem C41_furthest : forall D a p, proper D a -> is_corner D a (furthest_point_to a p) /\
  (forall q, inside D a q -> dist2 D q p <= dist2 D (furthest_point_to a p) p) /\
  max_dist2_to D a p = dist2 D (furthest_point_to a p) p /\ max_dist_to D a p = length2 D (fun i => furthest_point_to a p i - p i).
Proof.
  intros D a p Ha. split; [|split; [|split]].
  - intros i Hi. unfold furthest_point_to. destruct (Rlt_dec _ _); auto.
  - intros q Hq. unfold dist2. rewrite <- !dot_inner. apply dot_le. intros i Hi. specialize (Hq i Hi). unfold furthest_point_to. destruct (Rlt_dec _ _); nra.
  - unfold dist2. rewrite <- dot_inner. reflexivity.
  - unfold length2. rewrite <- dot_inner. reflexivity.
Qed.
Print Assumptions C41_furthest.

Lemma max_fold (f : nat -> R) l : forall m, let r := fold_left (fun m i => Rmax m (f i)) l m in m <= r /\ (forall i, In i l -> f i <= r) /\ (r = m \/ exists i, In i l /\ r = f i).
Proof.
  induction l as [|j l IH]; intros m; cbn [fold_left].
  - split; [lra|]. split; [intros i []|now left].
  - destruct (IH (Rmax m (f j))) as (H1 & H2 & H3). cbv zeta in *. pose proof (Rmax_l m (f j)). pose proof (Rmax_r m (f j)).
    split; [lra|]. split; [intros i [<-|Hi]; [lra|now apply H2]|]. destruct H3 as [->|(i & Hi & ->)]; [|right; exists i; split; [now right|reflexivity]].
    unfold Rmax. destruct (Rle_dec _ _); [right; exists j; split; [now left|reflexivity]|now left].
Qed.

(** Growing and scaling: the new box consists of the points within the given distance in every coordinate, respectively of the
    scaled points. *)
Theorem C41_grow : forall D a d, proper D a ->
  (0 <= d -> exists b, grow_uniformly D a d = Some b /\ proper D b /\ forall p, inside D b p <-> exists q, inside D a q /\ forall i, (i < D)%nat -> Rabs (p i - q i) <= d) /\
  (forall b, grow_uniformly D a d = Some b -> forall i, (i < D)%nat -> 0 <= bmax a i - bmin a i + 2 * d).
Proof.
  intros D a d Ha. unfold grow_uniformly. split.
  - intros Hd. destruct (aabb_new_spec D (fun i => bmin a i - d) (fun i => bmax a i + d)) as [[-> Hp]|[_ Hn]].
    + eexists. split; [reflexivity|]. split; [exact Hp|]. intros p. split.
      * intros Hin. exists (closest_point_to a p). split; [now apply C41_closest|]. intros i Hi. specialize (Hin i Hi). specialize (Ha i Hi). cbn in Hin.
        unfold closest_point_to. destruct (Rle_dec _ _); [apply Rabs_le; lra|]. destruct (Rle_dec _ _); apply Rabs_le; lra.
      * intros (q & Hq & Hpq) i Hi. specialize (Hq i Hi). specialize (Hpq i Hi). cbn. pose proof (Rle_abs (p i - q i)) as Ha1. pose proof (Rle_abs (- (p i - q i))) as Ha2. rewrite Rabs_Ropp in Ha2. lra.
    + exfalso. apply Hn. intros i Hi. cbn. specialize (Ha i Hi). lra.
  - intros b Hb i Hi. destruct (aabb_new_spec D (fun i => bmin a i - d) (fun i => bmax a i + d)) as [[E Hp]|[E _]]; [|congruence].
    specialize (Hp i Hi). cbn in Hp. lra.
Qed.
Print Assumptions C41_grow.

Theorem C41_scale : forall D a s b, proper D a -> uniformly_scale a s = Some b -> 0 <= s /\ proper D b /\ inside D a (center a) /\
  forall p, inside D b p <-> exists q, inside D a q /\ forall i, (i < D)%nat -> p i = center a i + s * (q i - center a i).
Proof.
  intros D a s b Ha H. unfold uniformly_scale in H. destruct (Rle_dec 0 s) as [Hs|]; [|discriminate]. injection H as <-. split; [exact Hs|].
  split; [intros i Hi; specialize (Ha i Hi); cbn; unfold center; nra|]. split; [intros i Hi; specialize (Ha i Hi); unfold center; lra|]. intros p. split.
  - intros Hp. destruct (Req_EM_T s 0) as [->|Hn].
    + exists (center a). split; [intros i Hi; specialize (Ha i Hi); unfold center; lra|]. intros i Hi. specialize (Hp i Hi). cbn in Hp. lra.
    + exists (fun i => center a i + (p i - center a i) / s). assert (Hs' : 0 < s) by lra. split.
      * intros i Hi. specialize (Hp i Hi). cbn in Hp. assert (Hx : (p i - center a i) / s * s = p i - center a i) by (field; exact Hn). nra.
      * intros i Hi. field. exact Hn.
  - intros (q & Hq & Hpq) i Hi. specialize (Hq i Hi). rewrite (Hpq i Hi). cbn. nra.
Qed.
Print Assumptions C41_scale.

(** ** C49: index sets *)
Fixpoint value (n : nat) (idx : list nat) : nat := match idx with [] => 0 | i :: rest => i + n * value n rest end%nat.

Lemma value_lt n idx : Forall (fun i => (i < n)%nat) idx -> (value n idx < n ^ length idx)%nat.
Proof. induction 1 as [|i idx Hi _ IH]; cbn; [lia|]. nia. Qed.
Lemma value_inj n : forall idx idx', length idx = length idx' -> Forall (fun i => (i < n)%nat) idx -> Forall (fun i => (i < n)%nat) idx' -> value n idx = value n idx' -> idx = idx'.
Proof.
  induction idx as [|i idx IH]; intros [|i' idx'] Hl H H' E; try discriminate; [reflexivity|]. inversion H as [|? ? H1 H2]; subst. inversion H' as [|? ? H1' H2']; subst.
  cbn in E. assert (value n idx = value n idx') by nia. assert (i = i') by nia. subst. f_equal. apply IH; auto.
Qed.
Lemma next_index_length n idx : length (next_index n idx) = length idx.
Proof. induction idx as [|i idx IH]; cbn [next_index length]; [reflexivity|]. destruct (i + 1 <? n)%nat; cbn; [reflexivity|now rewrite IH]. Qed.
Lemma next_index_bound n idx : Forall (fun i => (i < n)%nat) idx -> Forall (fun i => (i < n)%nat) (next_index n idx).
Proof.
  induction 1 as [|i idx Hi Hr IH]; cbn [next_index value length Nat.pow]; [constructor|]. destruct (Nat.ltb_spec (i + 1) n); constructor; auto. lia.
Qed.
Lemma next_index_value n idx : Forall (fun i => (i < n)%nat) idx -> (S (value n idx) < n ^ length idx)%nat -> value n (next_index n idx) = S (value n idx).
Proof.
  induction 1 as [|i idx Hi Hr IH]; cbn [next_index value length Nat.pow]; [lia|]. intros Hv. destruct (Nat.ltb_spec (i + 1) n); cbn [value]; [lia|]. assert (i = n - 1)%nat as -> by lia.
  rewrite IH; [nia|]. nia.
Qed.

Lemma indices_from_spec n count : forall idx, Forall (fun i => (i < n)%nat) idx -> (value n idx + count <= n ^ length idx)%nat ->
  map (value n) (indices_from n count idx) = seq (value n idx) count /\ Forall (fun l => length l = length idx /\ Forall (fun i => (i < n)%nat) l) (indices_from n count idx).
Proof.
  induction count as [|count IH]; intros idx Hb Hv; cbn; [split; [reflexivity|constructor]|]. destruct count as [|count].
  - cbn. split; [reflexivity|]. repeat constructor. exact Hb.
  - destruct (IH (next_index n idx)) as [H1 H2].
    + now apply next_index_bound.
    + rewrite next_index_length, next_index_value; [lia|exact Hb|lia].
    + rewrite H1, next_index_value by (try exact Hb; lia). split; [reflexivity|]. constructor; [now split|]. rewrite next_index_length in H2. exact H2.
Qed.

(** The iterator yields every D-tuple over 0..n once, and there are n^D of them. *)
Theorem C49_index_set : forall D n, length (index_set_power D n) = (n ^ D)%nat /\ NoDup (index_set_power D n) /\
  forall idx, In idx (index_set_power D n) <-> length idx = D /\ Forall (fun i => (i < n)%nat) idx.
Proof.
  intros D n. unfold index_set_power.
  assert (Hz : value n (repeat 0%nat D) = 0%nat) by (induction D as [|D IH]; cbn; [reflexivity|]; rewrite IH; lia).
  destruct (Nat.eq_dec n 0) as [->|Hn].
  { destruct D as [|D]; cbn.
    - split; [reflexivity|]. split; [repeat constructor; intros []|]. intros [|i idx]; split.
      + intros _. split; [reflexivity|constructor].
      + intros _. now left.
      + intros [E|[]]; discriminate.
      + intros [E _]; discriminate.
    - split; [reflexivity|]. split; [constructor|]. intros idx. split; [intros []|]. intros [E H]. destruct H as [|i idx H _]; [discriminate|lia]. }
  assert (Hb : Forall (fun i => (i < n)%nat) (repeat 0%nat D)) by (apply Forall_forall; intros i ->%repeat_spec; lia).
  destruct (indices_from_spec n (n ^ D) (repeat 0%nat D) Hb) as [H1 H2]; [rewrite Hz, repeat_length; lia|]. rewrite Hz in H1. rewrite repeat_length in H2.
  set (L := indices_from n (n ^ D) (repeat 0%nat D)) in *. rewrite Forall_forall in H2.
  split; [rewrite <- (map_length (value n)), H1; apply seq_length|]. split; [apply (NoDup_map_inv (value n)); rewrite H1; apply seq_NoDup|].
  intros idx. split; [apply H2|]. intros [Hl Hf].
  assert (Hin : In (value n idx) (map (value n) L)).
  { rewrite H1. apply in_seq. pose proof (value_lt n idx Hf) as Hlt. rewrite Hl in Hlt. lia. }
  apply in_map_iff in Hin as (idx' & E & Hin). destruct (H2 idx' Hin) as [Hl' Hf'].
  rewrite <- (value_inj n idx' idx); auto. congruence.
Qed.
Print Assumptions C49_index_set.

(** Hence the corners of a box are enumerated, one for each way of choosing between minimum and maximum. *)
Theorem C41_corners : forall D a, length (corners D a) = (2 ^ D)%nat /\ (forall p, In p (corners D a) -> is_corner D a p) /\
  (forall p, is_corner D a p -> exists q, In q (corners D a) /\ veq D q p) /\
  ((forall i, (i < D)%nat -> bmin a i < bmax a i) -> forall j k p q, nth_error (corners D a) j = Some p -> nth_error (corners D a) k = Some q -> veq D p q -> j = k).
Proof.
  intros D a. destruct (C49_index_set D 2) as (Hlen & Hnd & Hin). unfold corners. split; [now rewrite map_length|]. split; [|split].
  - intros p (idx & <- & _)%in_map_iff i Hi. unfold corner. destruct (nth i idx 0%nat); auto.
  - intros p Hp. set (idx := map (fun i => if Req_EM_T (p i) (bmin a i) then 0%nat else 1%nat) (seq 0 D)). exists (corner a idx). split.
    + apply in_map. apply Hin. unfold idx. rewrite map_length, seq_length. split; [reflexivity|]. apply Forall_forall. intros k (i & <- & _)%in_map_iff. destruct (Req_EM_T _ _); lia.
    + intros i Hi. unfold corner, idx. rewrite (nth_indep _ 0%nat ((fun i => if Req_EM_T (p i) (bmin a i) then 0%nat else 1%nat) 0%nat)) by (rewrite map_length, seq_length; exact Hi).
      rewrite (map_nth (fun i => if Req_EM_T (p i) (bmin a i) then 0%nat else 1%nat)), seq_nth by exact Hi. cbn [Nat.add].
      destruct (Req_EM_T _ _) as [->|Hn]; [reflexivity|]. destruct (Hp i Hi) as [E|E]; [contradiction|now rewrite E].
  - intros Hlt j k p q Hj Hk Hpq. rewrite nth_error_map in Hj, Hk.
    destruct (nth_error (index_set_power D 2) j) as [ij|] eqn:Ej; [|discriminate]. destruct (nth_error (index_set_power D 2) k) as [ik|] eqn:Ek; [|discriminate].
    injection Hj as <-. injection Hk as <-. destruct (proj1 (Hin ij) (nth_error_In _ _ Ej)) as [Lj Fj]. destruct (proj1 (Hin ik) (nth_error_In _ _ Ek)) as [Lk Fk].
    assert (E : ij = ik).
    { apply (nth_ext _ _ 0%nat 0%nat); [congruence|]. intros i Hi. rewrite Lj in Hi. specialize (Hpq i Hi). specialize (Hlt i Hi). unfold corner in Hpq.
      rewrite Forall_forall in Fj, Fk. assert (H1 : (nth i ij 0%nat < 2)%nat) by (apply Fj, nth_In; lia). assert (H2 : (nth i ik 0%nat < 2)%nat) by (apply Fk, nth_In; lia).
      destruct (nth i ij 0%nat) as [|[|]], (nth i ik 0%nat) as [|[|]]; try lia; lra. }
    subst ik. apply (proj1 (NoDup_nth_error (index_set_power D 2)) Hnd); [|congruence]. apply nth_error_Some. congruence.
Qed.
Print Assumptions C41_corners.

(** ** C49: cyclic equality *)
Lemma Forall2_nth {A B} (P : A -> B -> Prop) : forall z y, Forall2 P z y <-> length z = length y /\ forall j a b, nth_error z j = Some a -> nth_error y j = Some b -> P a b.
Proof.
  induction z as [|a z IH]; intros [|b y]; split.
  - intros _. split; [reflexivity|]. intros [|j] ? ? H; discriminate.
  - constructor.
  - intros H; inversion H.
  - intros [H _]; discriminate.
  - intros H; inversion H.
  - intros [H _]; discriminate.
  - intros H. inversion H as [|? ? ? ? H1 H2]; subst. apply IH in H2 as [Hl H2]. split; [cbn; lia|]. intros [|j] a' b' Ha Hb; cbn in Ha, Hb; [congruence|eauto].
  - intros [Hl H]. constructor; [now apply (H 0%nat)|]. apply IH. split; [cbn in Hl; lia|]. intros j. apply (H (S j)).
Qed.
Lemma in_enumerate {A} (y : list A) j b : In (j, b) (combine (seq 0 (length y)) y) <-> nth_error y j = Some b.
Proof.
  assert (G : forall (y : list A) s j b, In (j, b) (combine (seq s (length y)) y) <-> (s <= j)%nat /\ nth_error y (j - s) = Some b).
  { clear. induction y as [|a y IH]; intros s j b; cbn [length seq combine].
    - split; [intros []|]. intros [_ H]. destruct (j - s)%nat; discriminate.
    - split.
      + intros [[= <- <-]|H]; [rewrite Nat.sub_diag; split; [lia|reflexivity]|]. apply IH in H as [H1 H2]. split; [lia|]. replace (j - s)%nat with (S (j - S s)) by lia. exact H2.
      + intros [H1 H2]. destruct (Nat.eq_dec s j) as [->|Hne]; [rewrite Nat.sub_diag in H2; injection H2 as ->; now left|right].
        apply IH. split; [lia|]. replace (j - s)%nat with (S (j - S s)) in H2 by lia. exact H2. }
  rewrite G, Nat.sub_0_r. split; [tauto|]. split; [lia|assumption].
Qed.

Lemma shift_matches_spec {T} (cmp : T -> T -> bool) x y k : length y = length x -> (k < length x)%nat ->
  shift_matches cmp x y k = true <-> Forall2 (fun a b => cmp a b = true) (skipn k x ++ firstn k x) y.
Proof.
  intros Hl Hk. unfold shift_matches. rewrite forallb_forall.
  assert (Hrot : forall j, (j < length x)%nat -> nth_error (skipn k x ++ firstn k x) j = nth_error x ((j + k) mod length x)).
  { intros j Hj. destruct (le_lt_dec (length x - k) j) as [Hge|Hlt].
    - rewrite nth_error_app2 by (rewrite skipn_length; lia). rewrite skipn_length. replace ((j + k) mod length x)%nat with (j - (length x - k))%nat.
      + rewrite <- (firstn_skipn k x) at 3. rewrite nth_error_app1; [reflexivity|]. rewrite firstn_length. lia.
      + replace (j + k)%nat with ((j - (length x - k)) + 1 * length x)%nat by lia. rewrite Nat.mod_add by lia. rewrite Nat.mod_small; lia.
    - rewrite nth_error_app1 by (rewrite skipn_length; lia). rewrite Nat.mod_small by lia.
      rewrite <- (firstn_skipn k x) at 2. rewrite nth_error_app2 by (rewrite firstn_length; lia). rewrite firstn_length. f_equal. lia. }
  assert (Hrl : length (skipn k x ++ firstn k x) = length y) by (rewrite app_length, skipn_length, firstn_length; lia).
  set (z := skipn k x ++ firstn k x) in *. clearbody z. split.
  - intros H. apply Forall2_nth. split; [exact Hrl|]. intros j a b Ha Hb. specialize (H (j, b) (proj2 (in_enumerate y j b) Hb)). cbn [fst snd] in H.
    assert (Hj : (j < length y)%nat) by (apply nth_error_Some; congruence). rewrite <- Hrot in H by lia. rewrite Ha in H. exact H.
  - intros H [j b] Hin. apply in_enumerate in Hin as Hb. cbn [fst snd]. assert (Hj : (j < length y)%nat) by (apply nth_error_Some; congruence).
    rewrite <- Hrot by lia. apply Forall2_nth in H as [_ H]. destruct (nth_error z j) as [a|] eqn:Ea; [now apply (H j)|].
    apply nth_error_None in Ea. lia.
Qed.

(** Cyclic equality holds exactly for lists that are rotations of each other. *)
Theorem C49_rotation : forall T (cmp : T -> T -> bool) x y, equal_shift_invariant cmp x y = true <-> rotation_of (fun a b => cmp a b = true) x y.
Proof.
  intros T cmp x y. unfold equal_shift_invariant. destruct (Nat.eqb_spec (length y) (length x)) as [Hl|Hl]; cbn [negb].
  2:{ split; [discriminate|]. intros (l & r & -> & H). apply Forall2_nth in H as [H _]. rewrite app_length in *. lia. }
  destruct (Nat.eqb_spec (length x) 0) as [Hz|Hz].
  { split; [|reflexivity]. intros _. destruct x; [|discriminate]. destruct y; [|discriminate]. exists [], []. split; [reflexivity|constructor]. }
  rewrite existsb_exists. split.
  - intros (k & Hk & H). apply in_seq in Hk. apply shift_matches_spec in H; [|exact Hl|lia]. exists (firstn k x), (skipn k x). split; [symmetry; apply firstn_skipn|exact H].
  - intros (l & r & Hx & H). destruct r as [|a r].
    + exists 0%nat. split; [apply in_seq; lia|]. apply shift_matches_spec; [exact Hl|lia|]. cbn [skipn firstn]. rewrite app_nil_r in *. subst x. exact H.
    + exists (length l). rewrite Hx at 1. split; [apply in_seq; rewrite app_length; cbn; lia|].
      assert (Hk : (length l < length x)%nat) by (rewrite Hx, app_length; cbn; lia). apply shift_matches_spec; [exact Hl|exact Hk|].
      rewrite Hx, skipn_app, skipn_all, firstn_app, firstn_all, Nat.sub_diag. cbn [skipn firstn app]. rewrite app_nil_r. exact H.
Qed.
Print Assumptions C49_rotation.

(** With a comparison that decides equality this is an equivalence relation. *)
Theorem C49_equivalence : forall T (cmp : T -> T -> bool), (forall a b, cmp a b = true <-> a = b) ->
  (forall x, equal_shift_invariant cmp x x = true) /\
  (forall x y, equal_shift_invariant cmp x y = true -> equal_shift_invariant cmp y x = true) /\
  (forall x y z, equal_shift_invariant cmp x y = true -> equal_shift_invariant cmp y z = true -> equal_shift_invariant cmp x z = true).
Proof.
  intros T cmp Hc.
  assert (G : forall x y, equal_shift_invariant cmp x y = true <-> exists l r, x = l ++ r /\ y = r ++ l).
  { intros x y. rewrite C49_rotation. split; intros (l & r & -> & H); exists l, r; (split; [reflexivity|]).
    - clear -H Hc. induction H as [|a b z y Hab _ IH]; [reflexivity|]. apply Hc in Hab. congruence.
    - subst y. induction (r ++ l) as [|a z IH]; constructor; [now apply Hc|exact IH]. }
  split; [|split].
  - intros x. apply G. exists x, []. split; [symmetry; apply app_nil_r|reflexivity].
  - intros x y. rewrite !G. intros (l & r & -> & ->). exists r, l. split; reflexivity.
  - intros x y z. rewrite !G. intros (l & r & -> & Hy) (l' & r' & -> & ->). symmetry in Hy. apply app_eq_app in Hy as (m & [[-> ->]|[-> ->]]).
    + exists (l ++ l'), m. rewrite <- !app_assoc. split; reflexivity.
    + exists m, (r' ++ r). rewrite <- !app_assoc. split; reflexivity.
Qed.
Print Assumptions C49_equivalence.

Example C49_example : index_set_power 2 3 = [[0;0];[1;0];[2;0];[0;1];[1;1];[2;1];[0;2];[1;2];[2;2]]%nat /\
  equal_shift_invariant Nat.eqb [1;2;2;3]%nat [2;3;1;2]%nat = true /\ equal_shift_invariant Nat.eqb [1;2;2;3]%nat [3;2;1;2]%nat = false /\
  (forall a b, Nat.eqb a b = true <-> a = b).
Proof. repeat split; try reflexivity; apply Nat.eqb_eq. Qed.

Example C41_example : let p := fun i : nat => match i with O => 0 | _ => 1 end in let q := fun i : nat => match i with O => 2 | _ => -1 end in
  let c := fun i : nat => match i with O => 5 | _ => 0 end in
  exists a, from_points 2 [p; q] = Some (Some a) /\ proper 2 a /\ bmin a 0%nat = 0 /\ bmin a 1%nat = -1 /\ bmax a 0%nat = 2 /\ bmax a 1%nat = 1 /\
  dist2_to 2 a c = 9 /\ max_dist2_to 2 a c = 26 /\ (exists b, grow_uniformly 2 a 1 = Some b) /\ (exists b, uniformly_scale a 2 = Some b).
Proof.
  cbv zeta. destruct (C41_from_points 2 [fun i : nat => match i with O => 0 | _ => 1 end; fun i : nat => match i with O => 2 | _ => -1 end]) as (a & E & Hp & _); [discriminate|].
  exists a. split; [exact E|]. split; [exact Hp|]. cbn [from_points fold_left] in E. rewrite !aabb_from_spec in E. unfold enclose in E.
  destruct (aabb_new_spec 2 (fun i => Rmin (bmin (Aabb (fun i : nat => match i with O => 0 | _ => 1 end) (fun i : nat => match i with O => 0 | _ => 1 end)) i)
     (bmin (Aabb (fun i : nat => match i with O => 2 | _ => -1 end) (fun i : nat => match i with O => 2 | _ => -1 end)) i))
    (fun i => Rmax (bmax (Aabb (fun i : nat => match i with O => 0 | _ => 1 end) (fun i : nat => match i with O => 0 | _ => 1 end)) i)
     (bmax (Aabb (fun i : nat => match i with O => 2 | _ => -1 end) (fun i : nat => match i with O => 2 | _ => -1 end)) i))) as [[E2 _]|[E2 _]]; rewrite E2 in E; [|discriminate].
  cbn in E. injection E as <-.
  assert (H0 : Rmin 0 2 = 0) by (apply Rmin_left; lra). assert (H1 : Rmin 1 (-1) = -1) by (apply Rmin_right; lra).
  assert (H2 : Rmax 0 2 = 2) by (apply Rmax_right; lra). assert (H3 : Rmax 1 (-1) = 1) by (apply Rmax_left; lra).
  cbn [bmin bmax]. repeat split; try assumption.
  - unfold dist2_to, closest_point_to. cbn [dot bmin bmax]. rewrite H0, H1, H2, H3. repeat (destruct (Rle_dec _ _); try lra).
  - unfold max_dist2_to, furthest_point_to. cbn [dot bmin bmax]. rewrite H0, H1, H2, H3. repeat (destruct (Rlt_dec _ _); try lra).
  - destruct (proj1 (C41_grow 2 _ 1 Hp) ltac:(lra)) as (b & Hb & _). exists b. exact Hb.
  - unfold uniformly_scale. destruct (Rle_dec 0 2); [|lra]. eexists. reflexivity.
Qed.

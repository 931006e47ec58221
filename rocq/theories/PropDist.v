(** C65: the closest edge of a polygon and the signed distance. *)
From Coq Require Import Reals List Lra Lia Psatz Bool Arith.
From Verif Require Import CgModel CgSpec GeomModel GeomSpec PropSeg PropPolygon PropClip PropQuad.
Import ListNotations.
Open Scope R_scope.

Lemma corner_mod vs i : corner vs (i mod length vs) = corner vs i.
Proof. unfold corner. destruct vs as [|v l]; [reflexivity|]. rewrite Nat.mod_mod by (cbn; lia). reflexivity. Qed.
Lemma corner_mod_next vs i : corner vs (i mod length vs + 1) = corner vs (i + 1).
Proof. unfold corner. destruct vs as [|v l]; [reflexivity|]. rewrite Nat.add_mod_idemp_l by (cbn; lia). reflexivity. Qed.
Lemma get_edge_corner vs i : (i < length vs)%nat -> get_edge vs i = Some (Seg (corner vs i) (corner vs (i + 1))).
Proof.
  intros H. unfold get_edge. rewrite (nth_error_nth' vs (0, 0)) by exact H. rewrite (nth_error_nth' vs (0, 0)) by (apply Nat.mod_upper_bound; lia).
  unfold corner. rewrite (Nat.mod_small i) by exact H. reflexivity.
Qed.
Lemma get_edge_mod vs i : (0 < length vs)%nat -> get_edge vs (i mod length vs) = Some (Seg (corner vs i) (corner vs (i + 1))).
Proof. intros H. rewrite get_edge_corner by (apply Nat.mod_upper_bound; lia). rewrite corner_mod, corner_mod_next. reflexivity. Qed.

(** * the closest edge *)
Lemma nearest_inv vs p k : (k <= length vs)%nat ->
  let acc := fold_left (fun acc i =>
    match get_edge vs i with
    | None => acc
    | Some e => if (fun _ : seg => false) e then acc
        else let d := vsub p (closest_point e p) in let dist2 := vdot d d in
             match snd acc with Some best => if Rlt_dec dist2 best then (i, Some dist2) else acc | None => (i, Some dist2) end
    end) (seq 0 k) (0%nat, None) in
  (k = 0%nat /\ acc = (0%nat, None)) \/ exists i best, acc = (i, Some best) /\ (i < k)%nat /\ best = dist2 p (closest_point (Seg (corner vs i) (corner vs (i + 1))) p) /\
    forall j, (j < k)%nat -> best <= dist2 p (closest_point (Seg (corner vs j) (corner vs (j + 1))) p).
Proof.
  induction k as [|k IH]; intros H; [left; split; reflexivity|]. right. specialize (IH ltac:(lia)). cbv zeta in IH |- *. rewrite seq_S, fold_left_app. cbn [fold_left]. rewrite Nat.add_0_l.
  rewrite (get_edge_corner vs k) by lia. rewrite dist2_dot. destruct IH as [[-> ->]|(i & best & -> & Hi & Eb & Hm)].
  - cbn [snd]. exists 0%nat, (dist2 p (closest_point (Seg (corner vs 0) (corner vs (0 + 1))) p)). split; [reflexivity|]. split; [lia|]. split; [reflexivity|]. intros j Hj. replace j with 0%nat by lia. lra.
  - cbn [snd]. destruct (Rlt_dec _ best) as [L|L].
    + eexists k, _. split; [reflexivity|]. split; [lia|]. split; [reflexivity|]. intros j Hj. destruct (Nat.eq_dec j k) as [->|]; [lra|]. specialize (Hm j ltac:(lia)). lra.
    + exists i, best. split; [reflexivity|]. split; [lia|]. split; [exact Eb|]. intros j Hj. destruct (Nat.eq_dec j k) as [->|]; [lra|]. apply Hm. lia.
Qed.

Lemma nearest_spec vs p : vs <> [] -> exists i best, nearest_edge vs p (fun _ => false) = (i, Some best) /\ (i < length vs)%nat /\
  forall k x, (k < length vs)%nat -> between (corner vs k) (corner vs (k + 1)) x -> dist2 p (closest_point (Seg (corner vs i) (corner vs (i + 1))) p) <= dist2 p x.
Proof.
  intros N. destruct (nearest_inv vs p (length vs) (le_n _)) as [[Z _]|(i & best & E & Hi & Eb & Hm)]; [destruct vs; [congruence|discriminate]|].
  exists i, best. split; [exact E|]. split; [exact Hi|]. intros k x Hk Hx. rewrite <- Eb. apply Rle_trans with (1 := Hm k Hk). apply closest_dist2, Hx.
Qed.

Lemma dist2_zero p q : dist2 p q = 0 -> p = q.
Proof.
  destruct p as [p1 p2], q as [q1 q2]. unfold dist2. cbn [fst snd]. intros Z. pose proof (pow2_ge_0 (p1 - q1)) as H1. pose proof (pow2_ge_0 (p2 - q2)) as H2.
  assert (A : (p1 - q1) ^ 2 = 0) by lra. assert (B : (p2 - q2) ^ 2 = 0) by lra. f_equal; [destruct (Req_dec (p1 - q1) 0)|destruct (Req_dec (p2 - q2) 0)]; try lra; exfalso.
  - apply (pow_nonzero _ 2 H). exact A.
  - apply (pow_nonzero _ 2 H). exact B.
Qed.
Lemma some_eq {A} (x y : A) : Some x = Some y -> y = x.
Proof. congruence. Qed.
Lemma rot_nonzero (u v : R * R) : 0 < fst u * snd v - snd u * fst v -> (snd u, - fst u) <> (0, 0) /\ (snd v, - fst v) <> (0, 0).
Proof. intros K. split; intros E; injection E as E1 E2; [assert (E3 : fst u = 0) by lra|assert (E3 : fst v = 0) by lra]; rewrite E1, E3 in K; lra. Qed.
Lemma vnorm_rot (v : R * R) : vnorm (snd v, - fst v) * vnorm (snd v, - fst v) = vdot v v.
Proof. unfold vnorm. rewrite sqrt_sqrt; unfold vdot; cbn [fst snd]; [ring|]. pose proof (Rle_0_sqr (fst v)). pose proof (Rle_0_sqr (snd v)). unfold Rsqr in *. lra. Qed.
Lemma vnorm_dist p q : vnorm (vsub p q) = dist p q.
Proof. unfold vnorm, dist. rewrite dist2_dot. reflexivity. Qed.
Lemma dist_nonneg p q : 0 <= dist p q.
Proof. apply sqrt_pos. Qed.
Lemma signum_abs x y : 0 <= y -> Rabs (signum x * y) = y.
Proof. intros H. unfold signum. destruct (Rlt_dec x 0); [replace (-1 * y) with (- y) by ring; rewrite Rabs_Ropp|rewrite Rmult_1_l]; apply Rabs_pos_eq, H. Qed.

(** unfolding of the whole function *)
Lemma closest_edge_unfold vs p : vs <> [] -> exists i n, let a := corner vs i in let b := corner vs (i + 1) in let t := closest_parametric (Seg a b) p in
  (i < length vs)%nat /\ pseudonormal vs i t = Some n /\
  closest_edge vs p = Some (signum (vdot (vsub p (mix a b t)) n) * dist p (mix a b t), t, mix a b t, i) /\
  (forall k x, (k < length vs)%nat -> between (corner vs k) (corner vs (k + 1)) x -> dist2 p (mix a b t) <= dist2 p x).
Proof.
  intros N. destruct (nearest_spec vs p N) as (i & best & E & Hi & Hm).
  assert (exists n, pseudonormal vs i (closest_parametric (Seg (corner vs i) (corner vs (i + 1))) p) = Some n) as [n Hn].
  { unfold pseudonormal. rewrite get_edge_corner by exact Hi. rewrite !get_edge_mod by lia. cbn [option_map]. destruct (Req_EM_T _ 0); [eexists; reflexivity|]. destruct (Req_EM_T _ 1); eexists; reflexivity. }
  exists i, n. cbv zeta. split; [exact Hi|]. split; [exact Hn|]. split.
  - unfold closest_edge. rewrite E, get_edge_corner by exact Hi. cbv beta iota zeta. rewrite mix_at, Hn. cbn [option_map]. rewrite vnorm_dist. reflexivity.
  - intros k x Hk Hx. rewrite <- mix_at. apply (Hm k x Hk Hx).
Qed.

(** The result is a closest point of the boundary, its edge and parameter; the absolute value of the signed distance is the
    distance to the boundary.  For every nonempty polygon, convex or not. *)
Theorem C65_closest vs p : vs <> [] -> exists sd t q i, closest_edge vs p = Some (sd, t, q, i) /\ (i < length vs)%nat /\ 0 <= t <= 1 /\
  q = mix (corner vs i) (corner vs (i + 1)) t /\ Rabs sd = dist p q /\
  (forall k x, (k < length vs)%nat -> between (corner vs k) (corner vs (k + 1)) x -> dist p q <= dist p x).
Proof.
  intros N. destruct (closest_edge_unfold vs p N) as (i & n & Hi & Hn & E & Hm). cbv zeta in *. do 4 eexists. split; [exact E|]. split; [exact Hi|].
  split; [unfold closest_parametric; apply clamp_range; lra|]. split; [reflexivity|]. split; [apply signum_abs, dist_nonneg|].
  intros k x Hk Hx. apply sqrt_le_1_alt. apply (Hm k x Hk Hx).
Qed.
Print Assumptions C65_closest.

(** * the sign, for strictly convex polygons *)
Lemma min_dir p q r : (forall e, 0 <= e <= 1 -> dist2 p q <= dist2 p (mix q r e)) -> vdot (vsub p q) (vsub r q) <= 0.
Proof.
  intros H. destruct (Rle_lt_dec (vdot (vsub p q) (vsub r q)) 0) as [L|L]; [exact L|exfalso].
  set (x := vdot (vsub p q) (vsub r q)) in *. set (y := dist2 r q).
  assert (Q : forall e, dist2 p (mix q r e) = dist2 p q - 2 * e * x + e * e * y) by (intros; unfold dist2, mix, x, y, vdot, vsub, dist2; cbn; ring).
  assert (Y : 0 <= y) by (unfold y, dist2; apply Rplus_le_le_0_compat; apply pow2_ge_0).
  set (e := x / (x + y)). assert (P : 0 < x + y) by lra.
  assert (Ee : e * (x + y) = x) by (unfold e; field; lra). assert (E0 : 0 < e) by (apply Rmult_lt_reg_r with (x + y); lra). assert (E1 : e <= 1) by (apply Rmult_le_reg_r with (x + y); lra).
  specialize (H e ltac:(lra)). rewrite Q in H. assert (e * e * y <= e * x); [|nra]. replace (e * x) with (e * (e * (x + y))) by (rewrite Ee; ring). nra.
Qed.

Section Convex.
  Variable vs : list (R * R).
  Hypothesis SC : strictly_convex vs.
  Local Notation P := (corner vs).
  Local Notation n := (length vs).
  Hypothesis three : (3 <= n)%nat.
  Lemma strict i j : (j mod n <> i mod n)%nat -> (j mod n <> (i + 1) mod n)%nat -> 0 < left_of (P i) (P (i + 1)) (P j).
  Proof.
    intros H1 H2. pose proof (proj2 SC) as S. specialize (S (i mod n)%nat (j mod n)%nat). rewrite !corner_mod, corner_mod_next in S. apply S; try (apply Nat.mod_upper_bound; lia); [exact H1|].
    rewrite Nat.add_mod_idemp_l by lia. exact H2.
  Qed.
  Lemma mod_shift i a b : (a < b)%nat -> (b - a < n)%nat -> ((i + a) mod n <> (i + b) mod n)%nat.
  Proof.
    intros H1 H2 E. pose proof (Nat.div_mod (i + a) n ltac:(lia)). pose proof (Nat.div_mod (i + b) n ltac:(lia)).
    pose proof (Nat.mod_upper_bound (i + a) n ltac:(lia)). rewrite E in *.
    assert (((i + b) / n - (i + a) / n) * n = b - a)%nat by (rewrite Nat.mul_sub_distr_r; nia).
    destruct ((i + b) / n - (i + a) / n)%nat eqn:D; nia.
  Qed.
  Lemma turn i : 0 < left_of (P i) (P (i + 1)) (P (i + 2)).
  Proof.
    apply strict.
    - replace i with (i + 0)%nat at 2 by lia. apply not_eq_sym, mod_shift; lia.
    - apply not_eq_sym, mod_shift; lia.
  Qed.
  Lemma turn_back i : 0 < left_of (P (i + 1)) (P (i + 2)) (P i).
  Proof. pose proof (turn i). unfold left_of in *. lra. Qed.
  Lemma convex_corner i j : 0 <= left_of (P i) (P (i + 1)) (P j).
  Proof.
    destruct (Nat.eq_dec (j mod n) (i mod n)) as [E|E1].
    - assert (X : P j = P i) by (rewrite <- (corner_mod vs j), E; apply corner_mod). rewrite X. unfold left_of. lra.
    - destruct (Nat.eq_dec (j mod n) ((i + 1) mod n)) as [E|E2]; [|apply Rlt_le, strict; assumption].
      assert (X : P j = P (i + 1)) by (rewrite <- (corner_mod vs j), E; apply corner_mod). rewrite X. unfold left_of. lra.
  Qed.
  Lemma all_sides x : left_of_all vs x <-> forall i, 0 <= left_of (P i) (P (i + 1)) x.
  Proof.
    split; intros H i; [|intros _; apply H]. specialize (H (i mod n)%nat (Nat.mod_upper_bound i n ltac:(lia))). rewrite corner_mod, corner_mod_next in H. exact H.
  Qed.
  Lemma boundary_inside i t : 0 <= t <= 1 -> left_of_all vs (mix (P i) (P (i + 1)) t).
  Proof. intros Ht. apply all_sides. intros j. rewrite left_mix. pose proof (convex_corner j i). pose proof (convex_corner j (i + 1)). nra. Qed.

  (** a point of the polygon on the line of a side is on the side *)
  Lemma on_side_line k z : left_of_all vs z -> left_of (P (k + 1)) (P (k + 2)) z = 0 -> between (P (k + 1)) (P (k + 2)) z.
  Proof.
    intros A Z. rewrite all_sides in A. pose proof (turn k) as T0. pose proof (turn (k + 1)) as T1. rewrite <- !Nat.add_assoc in T1. cbn [Nat.add] in T1.
    pose proof (A k) as A0. pose proof (A (k + 2)%nat) as A2. rewrite <- !Nat.add_assoc in A2. cbn [Nat.add] in A2.
    set (a := P k) in *. set (b := P (k + 1)) in *. set (c := P (k + 2)) in *. set (d := P (k + 3)) in *.
    clearbody a b c d. clear A.
    (* the parameter *)
    set (L := dist2 c b). assert (HL : 0 < L).
    { unfold L, dist2. destruct a as [a1 a2], b as [b1 b2], c as [c1 c2]. unfold left_of in T0. cbn in *. 
      pose proof (pow2_ge_0 (c1 - b1)). pose proof (pow2_ge_0 (c2 - b2)). destruct (Req_dec (c1 - b1) 0) as [E1|E1]; [|pose proof (Rsqr_pos_lt _ E1); unfold Rsqr in *; lra].
      destruct (Req_dec (c2 - b2) 0) as [E2|E2]; [|pose proof (Rsqr_pos_lt _ E2); unfold Rsqr in *; lra]. exfalso. assert (c1 = b1) as -> by lra. assert (c2 = b2) as -> by lra. lra. }
    set (t := vdot (vsub z b) (vsub c b) / L).
    assert (Ez : z = mix b c t).
    { assert (Et : t * L = vdot (vsub z b) (vsub c b)) by (unfold t; field; lra). destruct z as [z1 z2], b as [b1 b2], c as [c1 c2]. unfold mix. cbn [fst snd].
      unfold left_of in Z. unfold L, dist2, vdot, vsub in *. cbn [fst snd] in *.
      f_equal; apply Rmult_eq_reg_r with ((c1 - b1) ^ 2 + (c2 - b2) ^ 2); try lra.
      - transitivity ((b1 * ((c1 - b1) ^ 2 + (c2 - b2) ^ 2) + (c1 - b1) * (t * ((c1 - b1) ^ 2 + (c2 - b2) ^ 2)))); [rewrite Et; apply Rminus_diag_uniq; transitivity (- (c2 - b2) * ((c1 - b1) * (z2 - b2) - (c2 - b2) * (z1 - b1))); [ring|rewrite Z; ring]|ring].
      - transitivity ((b2 * ((c1 - b1) ^ 2 + (c2 - b2) ^ 2) + (c2 - b2) * (t * ((c1 - b1) ^ 2 + (c2 - b2) ^ 2)))); [rewrite Et; apply Rminus_diag_uniq; transitivity ((c1 - b1) * ((c1 - b1) * (z2 - b2) - (c2 - b2) * (z1 - b1))); [ring|rewrite Z; ring]|ring]. }
    exists t. split; [|exact Ez]. rewrite Ez, left_mix in A0, A2.
    assert (B0 : left_of a b b = 0) by (unfold left_of; ring). assert (C0 : left_of c d c = 0) by (unfold left_of; ring). rewrite B0 in A0. rewrite C0 in A2.
    assert (T2 : left_of c d b = left_of b c d) by (unfold left_of; ring). rewrite T2 in A2. split.
    - destruct (Rle_lt_dec 0 t); [assumption|exfalso; nra].
    - destruct (Rle_lt_dec t 1); [assumption|exfalso; nra].
  Qed.
  Lemma on_side_line' k z : left_of_all vs z -> left_of (P k) (P (k + 1)) z = 0 -> between (P k) (P (k + 1)) z.
  Proof.
    intros A Z. pose proof (on_side_line (k + n - 1) z A) as H.
    assert (E1 : P (k + n - 1 + 1) = P k) by (replace (k + n - 1 + 1)%nat with (k + 1 * n)%nat by lia; unfold corner; rewrite Nat.mod_add by lia; reflexivity).
    assert (E2 : P (k + n - 1 + 2) = P (k + 1)) by (replace (k + n - 1 + 2)%nat with (k + 1 + 1 * n)%nat by lia; unfold corner; rewrite Nat.mod_add by lia; reflexivity).
    rewrite E1, E2 in H. apply H, Z.
  Qed.
  (** leaving the polygon: from a point of it to a point outside of it, some side is met *)
  Lemma argmin (f : nat -> R) (Q : nat -> Prop) (dec : forall k, {Q k} + {~ Q k}) m : (exists k, (k < m)%nat /\ Q k) -> exists k, (k < m)%nat /\ Q k /\ forall j, (j < m)%nat -> Q j -> f k <= f j.
  Proof.
    induction m as [|m IH]; intros (k & Hk & Hq); [lia|]. destruct (dec m) as [D|D].
    - destruct (Nat.eq_dec k m) as [->|N].
      + destruct (Exists_dec (fun j => Q j) (seq 0 m) dec) as [X|X].
        * apply Exists_exists in X. destruct X as (j & Hj & Qj). apply in_seq in Hj. destruct IH as (k & Hk' & Qk & Hm); [exists j; split; [lia|exact Qj]|].
          destruct (Rle_lt_dec (f k) (f m)) as [L|L].
          -- exists k. split; [lia|]. split; [exact Qk|]. intros i Hi Qi. destruct (Nat.eq_dec i m) as [->|]; [exact L|apply Hm; [lia|exact Qi]].
          -- exists m. split; [lia|]. split; [exact D|]. intros i Hi Qi. destruct (Nat.eq_dec i m) as [->|]; [lra|]. specialize (Hm i ltac:(lia) Qi). lra.
        * exists m. split; [lia|]. split; [exact D|]. intros i Hi Qi. destruct (Nat.eq_dec i m) as [->|]; [lra|]. exfalso. apply X. apply Exists_exists. exists i. split; [apply in_seq; lia|exact Qi].
      + destruct IH as (k' & Hk' & Qk & Hm); [exists k; split; [lia|exact Hq]|]. destruct (Rle_lt_dec (f k') (f m)) as [L|L].
        -- exists k'. split; [lia|]. split; [exact Qk|]. intros i Hi Qi. destruct (Nat.eq_dec i m) as [->|]; [exact L|apply Hm; [lia|exact Qi]].
        -- exists m. split; [lia|]. split; [exact D|]. intros i Hi Qi. destruct (Nat.eq_dec i m) as [->|]; [lra|]. specialize (Hm i ltac:(lia) Qi). lra.
    - destruct IH as (k' & Hk' & Qk & Hm); [exists k; split; [|exact Hq]; assert (k <> m) by (intros ->; contradiction); lia|].
      exists k'. split; [lia|]. split; [exact Qk|]. intros i Hi Qi. apply Hm; [|exact Qi]. assert (i <> m) by (intros ->; contradiction). lia.
  Qed.
  Lemma leave q p : left_of_all vs q -> ~ left_of_all vs p -> exists k s, (k < n)%nat /\ left_of (P k) (P (k + 1)) p < 0 /\ 0 <= s <= 1 /\
    between (P k) (P (k + 1)) (mix q p s) /\ (s = 0 -> left_of (P k) (P (k + 1)) q = 0).
  Proof.
    intros Hq Hp. pose proof (proj1 (all_sides q) Hq) as Aq. set (f := fun k => left_of (P k) (P (k + 1)) q). set (g := fun k => left_of (P k) (P (k + 1)) p).
    destruct (argmin (fun k => f k / (f k - g k)) (fun k => g k < 0) (fun k => Rlt_dec (g k) 0) n) as (k & Hk & Gk & Hm).
    { destruct (Exists_dec (fun j => g j < 0) (seq 0 n) (fun k => Rlt_dec (g k) 0)) as [X|X].
      - apply Exists_exists in X. destruct X as (j & Hj & Qj). apply in_seq in Hj. exists j. split; [lia|exact Qj].
      - exfalso. apply Hp. intros i Hi. destruct (Rle_lt_dec 0 (g i)) as [L|L]; [exact L|]. exfalso. apply X, Exists_exists. exists i. split; [apply in_seq; lia|exact L]. }
    set (s := f k / (f k - g k)). assert (Fk : 0 <= f k) by apply Aq. assert (Dk : 0 < f k - g k) by lra. assert (Es : s * (f k - g k) = f k) by (unfold s; field; lra).
    assert (S0 : 0 <= s) by (apply Rmult_le_reg_r with (f k - g k); lra). assert (S1 : s <= 1) by (apply Rmult_le_reg_r with (f k - g k); lra).
    exists k, s. split; [exact Hk|]. split; [exact Gk|]. split; [lra|]. split.
    - apply on_side_line'.
      + intros j Hj. rewrite left_mix. change (0 <= (1 - s) * f j + s * g j). pose proof (Aq j : 0 <= f j). destruct (Rle_lt_dec 0 (g j)) as [L|L]; [nra|].
        specialize (Hm j Hj L). cbv beta in Hm. fold s in Hm. assert (Ej : f j / (f j - g j) * (f j - g j) = f j) by (field; lra). nra.
      + rewrite left_mix. change ((1 - s) * f k + s * g k = 0). lra.
    - intros Z. change (f k = 0). rewrite <- Es, Z. ring.
  Qed.

  (** at a corner the average of the two normals points away, with [u] and [v] the directions of the sides before and after it *)
  Lemma corner_normal (d u v : R * R) : 0 < fst u * snd v - snd u * fst v -> 0 <= vdot d u -> vdot d v <= 0 -> d <> (0, 0) ->
    0 < vdot d (snd u, - fst u) / vnorm (snd u, - fst u) + vdot d (snd v, - fst v) / vnorm (snd v, - fst v).
  Proof.
    intros K Hu Hv Nd. set (A := vdot d (snd u, - fst u)). set (B := vdot d (snd v, - fst v)).
    destruct (rot_nonzero u v K) as [Nu Nv].
    pose proof (normalize_dir _ Nu) as U0. pose proof (normalize_dir _ Nv) as V0. set (U := vnorm (snd u, - fst u)) in *. set (V := vnorm (snd v, - fst v)) in *.
    set (c := vdot u v). set (k := fst u * snd v - snd u * fst v) in *.
    assert (U2 : U * U = vdot u u) by (unfold U, vnorm; rewrite sqrt_sqrt; [unfold vdot; cbn; ring|unfold vdot; cbn; nra]).
    assert (V2 : V * V = vdot v v) by (unfold V, vnorm; rewrite sqrt_sqrt; [unfold vdot; cbn; ring|unfold vdot; cbn; nra]).
    assert (I1 : A * c <= B * (U * U)).
    { rewrite U2. assert (B * vdot u u - A * c = k * vdot d u) by (unfold A, B, c, k, vdot; cbn; ring). assert (0 <= k * vdot d u) by (apply Rmult_le_pos; lra). lra. }
    assert (I2 : B * c <= A * (V * V)).
    { rewrite V2. assert (B * c - A * vdot v v = k * vdot d v) by (unfold A, B, c, k, vdot; cbn; ring). assert (0 <= k * (- vdot d v)) by (apply Rmult_le_pos; lra). lra. }
    assert (C2 : c * c < (U * V) * (U * V)).
    { assert ((U * V) * (U * V) - c * c = k * k); [|nra]. transitivity ((U * U) * (V * V) - c * c); [ring|]. rewrite U2, V2. unfold c, k, vdot. ring. }
    set (r := c / (U * V)). set (a := A / U). set (b := B / V).
    assert (UV : 0 < U * V) by nra.
    assert (R2 : -1 < r < 1).
    { assert (Er : r * (U * V) = c) by (unfold r; field; lra). split; apply Rmult_lt_reg_r with (U * V); try lra; rewrite Er; nra. }
    assert (J1 : a * r <= b).
    { unfold a, b, r. apply Rmult_le_reg_r with (U * U * V); [nra|]. replace (A / U * (c / (U * V)) * (U * U * V)) with (A * c) by (field; lra). replace (B / V * (U * U * V)) with (B * (U * U)) by (field; lra). exact I1. }
    assert (J2 : b * r <= a).
    { unfold a, b, r. apply Rmult_le_reg_r with (U * V * V); [nra|]. replace (B / V * (c / (U * V)) * (U * V * V)) with (B * c) by (field; lra). replace (A / U * (U * V * V)) with (A * (V * V)) by (field; lra). exact I2. }
    assert (0 <= a + b) by nra. destruct (Req_dec (a + b) 0) as [Z|]; [exfalso|lra].
    assert (b = - a) as Eb by lra. rewrite Eb in J1, J2. assert (a = 0) as Ea by nra. assert (b = 0) as Eb' by lra.
    assert (A = 0) as EA by (replace A with (a * U) by (unfold a; field; lra); rewrite Ea; ring). assert (B = 0) as EB by (replace B with (b * V) by (unfold b; field; lra); rewrite Eb'; ring).
    apply Nd. destruct d as [d1 d2], u as [u1 u2], v as [v1 v2]. unfold A, B, vdot in EA, EB. cbn in *.
    assert (D1 : k * d1 = 0) by (unfold k; transitivity (u1 * (d1 * v2 + d2 * - v1) - v1 * (d1 * u2 + d2 * - u1)); [ring|rewrite EA, EB; ring]).
    assert (D2 : k * d2 = 0) by (unfold k; transitivity (u2 * (d1 * v2 + d2 * - v1) - v2 * (d1 * u2 + d2 * - u1)); [ring|rewrite EA, EB; ring]).
    apply Rmult_integral in D1. apply Rmult_integral in D2. f_equal; destruct D1, D2; lra.
  Qed.
  Lemma average_dot d m l : vdot d m + vdot d l <> 0 -> exists s, 0 < s /\ vdot d (normalize (fst (vadd m l) / 2, snd (vadd m l) / 2)) = s * (vdot d m + vdot d l).
  Proof.
    intros N. set (w := (fst (vadd m l) / 2, snd (vadd m l) / 2)). assert (W : w <> (0, 0)).
    { intros E. apply N. injection E as E1 E2. unfold vadd in E1, E2. cbn [fst snd] in E1, E2. unfold vdot. assert (fst m + fst l = 0) by lra. assert (snd m + snd l = 0) by lra.
      transitivity (fst d * (fst m + fst l) + snd d * (snd m + snd l)); [ring|]. rewrite H, H0. ring. }
    pose proof (normalize_dir w W) as P0. exists (/ (2 * vnorm w)). split; [apply Rinv_0_lt_compat; lra|]. unfold normalize. set (V := vnorm w) in *. unfold w, vdot, vadd. cbn [fst snd]. field. lra.
  Qed.
  Lemma normalize_dot d m : m <> (0, 0) -> vdot d (normalize m) = vdot d m / vnorm m.
  Proof. intros N. pose proof (normalize_dir m N). unfold normalize, vdot. cbn [fst snd]. field. lra. Qed.

  (** the sign at a corner [k + 1], whichever of its two sides was found *)
  Lemma corner_case k p (e1 e2 : R * R) : let d := vsub p (P (k + 1)) in
    let m1 := normalize (normal_dir (Seg (P k) (P (k + 1)))) in let m2 := normalize (normal_dir (Seg (P (k + 1)) (P (k + 2)))) in
    (e1 = m1 /\ e2 = m2 \/ e1 = m2 /\ e2 = m1) ->
    (forall j x, (j < n)%nat -> between (P j) (P (j + 1)) x -> dist2 p (P (k + 1)) <= dist2 p x) ->
    let sd := signum (vdot d (normalize (fst (vadd e1 e2) / 2, snd (vadd e1 e2) / 2))) * dist p (P (k + 1)) in
    (left_of_all vs p -> sd <= 0) /\ (~ left_of_all vs p -> 0 < sd).
  Proof.
    intros d m1 m2 He Hm sd. destruct (Req_dec (dist2 p (P (k + 1))) 0) as [Z|NZ].
    - pose proof (dist2_zero _ _ Z) as E.
      assert (left_of_all vs p) by (rewrite E; apply all_sides; intros; apply convex_corner).
      assert (sd = 0). { unfold sd, dist. rewrite Z, sqrt_0. ring. } split; [lra|contradiction].
    - set (u := vsub (P (k + 1)) (P k)). set (v := vsub (P (k + 2)) (P (k + 1))).
      assert (Kuv : 0 < fst u * snd v - snd u * fst v). { pose proof (turn k) as T. unfold left_of in T. unfold u, v, vsub. cbn [fst snd]. lra. }
      assert (Dn : d <> (0, 0)). { intros E. apply NZ. injection E as E1 E2. unfold dist2. cbn in E1, E2. rewrite E1, E2. ring. }
      assert (Hmk : forall j x, between (P j) (P (j + 1)) x -> dist2 p (P (k + 1)) <= dist2 p x).
      { intros j x Hx. apply (Hm (j mod n)%nat); [apply Nat.mod_upper_bound; lia|]. rewrite corner_mod, corner_mod_next. exact Hx. }
      assert (Du : 0 <= vdot d u).
      { assert (H : vdot (vsub p (P (k + 1))) (vsub (P k) (P (k + 1))) <= 0); [|unfold d, u, vdot, vsub in *; cbn in *; lra].
        apply min_dir. intros e He'. apply (Hmk k). exists (1 - e). split; [lra|]. unfold mix. f_equal; ring. }
      assert (Dv : vdot d v <= 0).
      { apply min_dir. intros e He'. apply (Hmk (k + 1)%nat). exists e. split; [lra|]. rewrite <- Nat.add_assoc. reflexivity. }
      pose proof (corner_normal d u v Kuv Du Dv Dn) as Pos.
      assert (N1 : normal_dir (Seg (P k) (P (k + 1))) = (snd u, - fst u)) by reflexivity. assert (N2 : normal_dir (Seg (P (k + 1)) (P (k + 2))) = (snd v, - fst v)) by reflexivity.
      destruct (rot_nonzero u v Kuv) as [Nu Nv].
      assert (S : vdot d e1 + vdot d e2 = vdot d (snd u, - fst u) / vnorm (snd u, - fst u) + vdot d (snd v, - fst v) / vnorm (snd v, - fst v)).
      { unfold m1, m2 in He. rewrite N1, N2 in He. destruct He as [[-> ->]|[-> ->]]; rewrite !normalize_dot by assumption; ring. }
      destruct (average_dot d e1 e2) as (s & Hs & Es); [lra|].
      assert (Sd : sd = dist p (P (k + 1))).
      { unfold sd. rewrite Es. unfold signum. destruct (Rlt_dec (s * (vdot d e1 + vdot d e2)) 0) as [L|L]; [exfalso; rewrite S in L; nra|ring]. }
      assert (Dp : 0 < dist p (P (k + 1))).
      { apply sqrt_lt_R0. assert (0 <= dist2 p (P (k + 1))) by (unfold dist2; apply Rplus_le_le_0_compat; apply pow2_ge_0). lra. }
      split; [|lra]. intros A. exfalso. rewrite all_sides in A. pose proof (A k) as A0. pose proof (A (k + 1)%nat) as A1. rewrite <- Nat.add_assoc in A1. cbn [Nat.add] in A1.
      assert (vdot d (snd u, - fst u) <= 0) by (assert (vdot d (snd u, - fst u) = - left_of (P k) (P (k + 1)) p) by (unfold d, u, vdot, vsub, left_of; cbn [fst snd]; ring); lra).
      assert (vdot d (snd v, - fst v) <= 0) by (assert (vdot d (snd v, - fst v) = - left_of (P (k + 1)) (P (k + 2)) p) by (unfold d, v, vdot, vsub, left_of; cbn [fst snd]; ring); lra).
      pose proof (normalize_dir _ Nu) as U0. pose proof (normalize_dir _ Nv) as V0.
      assert (vdot d (snd u, - fst u) / vnorm (snd u, - fst u) <= 0) by (unfold Rdiv; pose proof (Rinv_0_lt_compat _ U0); nra).
      assert (vdot d (snd v, - fst v) / vnorm (snd v, - fst v) <= 0) by (unfold Rdiv; pose proof (Rinv_0_lt_compat _ V0); nra). lra.
  Qed.
  (** the sign inside a side *)
  Lemma side_case i t p : 0 < t < 1 -> let q := mix (P i) (P (i + 1)) t in
    (forall j x, (j < n)%nat -> between (P j) (P (j + 1)) x -> dist2 p q <= dist2 p x) ->
    let sd := signum (vdot (vsub p q) (normalize (normal_dir (Seg (P i) (P (i + 1)))))) * dist p q in
    (left_of_all vs p -> sd <= 0) /\ (~ left_of_all vs p -> 0 < sd).
  Proof.
    intros Ht q Hm sd. set (v := vsub (P (i + 1)) (P i)). set (d := vsub p q).
    assert (Hmk : forall j x, between (P j) (P (j + 1)) x -> dist2 p q <= dist2 p x).
    { intros j x Hx. apply (Hm (j mod n)%nat); [apply Nat.mod_upper_bound; lia|]. rewrite corner_mod, corner_mod_next. exact Hx. }
    assert (Nv : (snd v, - fst v) <> (0, 0)).
    { pose proof (turn i) as T. intros E. injection E as E1 E2. unfold v, vsub in E1, E2. cbn in E1, E2. unfold left_of in T. rewrite E1 in T. assert (E3 : fst (P (i + 1)) - fst (P i) = 0) by lra. rewrite E3 in T. lra. }
    assert (Dv : vdot d v = 0).
    { assert (H1 : vdot d (vsub (P (i + 1)) q) <= 0).
      { apply min_dir. intros e He. apply (Hmk i). exists ((1 - e) * t + e * 1). split; [nra|]. rewrite <- (mix_mix (P i) (P (i + 1)) t 1 e). unfold q. f_equal. unfold mix. destruct (P (i + 1)). cbn. f_equal; ring. }
      assert (H2 : vdot d (vsub (P i) q) <= 0).
      { apply min_dir. intros e He. apply (Hmk i). exists ((1 - e) * t + e * 0). split; [nra|]. rewrite <- (mix_mix (P i) (P (i + 1)) t 0 e). unfold q. f_equal. unfold mix. destruct (P i). cbn. f_equal; ring. }
      assert (Q1 : vdot d (vsub (P (i + 1)) q) = (1 - t) * vdot d v) by (unfold q, v, vdot, vsub, mix; cbn [fst snd]; ring).
      assert (Q2 : vdot d (vsub (P i) q) = - t * vdot d v) by (unfold q, v, vdot, vsub, mix; cbn [fst snd]; ring). rewrite Q1 in H1. rewrite Q2 in H2. nra. }
    pose proof (normalize_dir _ Nv) as V0.
    assert (E : vdot d (normalize (normal_dir (Seg (P i) (P (i + 1))))) = - left_of (P i) (P (i + 1)) p / vnorm (snd v, - fst v)).
    { change (normal_dir (Seg (P i) (P (i + 1)))) with (snd v, - fst v). rewrite normalize_dot by exact Nv. f_equal. unfold d, q, v, vdot, vsub, mix, left_of. cbn [fst snd]. ring. }
    assert (Esd : sd = signum (- left_of (P i) (P (i + 1)) p / vnorm (snd v, - fst v)) * dist p q) by (unfold sd; fold d; rewrite E; reflexivity).
    pose proof (Rinv_0_lt_compat _ V0) as VI. pose proof (dist_nonneg p q) as D0.
    assert (Iq : left_of_all vs q) by (apply boundary_inside; lra).
    split.
    - intros A. pose proof (proj1 (all_sides p) A i) as Ai. rewrite Esd. unfold signum. destruct (Rlt_dec _ 0) as [L|L]; [lra|].
      assert (Z : left_of (P i) (P (i + 1)) p = 0) by (unfold Rdiv in L; nra).
      assert (dist2 p q = 0).
      { assert (Dn : vdot d (snd v, - fst v) = 0) by (transitivity (- left_of (P i) (P (i + 1)) p); [unfold d, q, v, vdot, vsub, mix, left_of; cbn [fst snd]; ring|lra]).
        assert (Vp : 0 < vdot v v). { assert (vdot v v = vnorm (snd v, - fst v) * vnorm (snd v, - fst v)) by (symmetry; apply vnorm_rot). nra. }
        apply Rmult_eq_reg_r with (vdot v v); [|lra]. transitivity (vdot d v * vdot d v + vdot d (snd v, - fst v) * vdot d (snd v, - fst v)); [|rewrite Dv, Dn; ring].
        unfold dist2, d, vdot, vsub. cbn [fst snd]. ring. }
      unfold dist. rewrite H, sqrt_0. lra.
    - intros A. assert (Np : dist2 p q <> 0).
      { intros Z. apply A. rewrite (dist2_zero _ _ Z). exact Iq. }
      assert (P2 : 0 <= dist2 p q) by (unfold dist2; apply Rplus_le_le_0_compat; apply pow2_ge_0).
      assert (Dp : 0 < dist p q) by (apply sqrt_lt_R0; lra).
      assert (Li : left_of (P i) (P (i + 1)) p < 0).
      { destruct (Rlt_le_dec (left_of (P i) (P (i + 1)) p) 0) as [L|L]; [exact L|exfalso].
        destruct (leave q p Iq A) as (k & s & Hk & Gk & Hs & Hb & Hs0).
        assert (S0 : s <> 0).
        { intros Z. specialize (Hs0 Z). unfold q in Hs0. rewrite left_mix in Hs0. pose proof (convex_corner k i) as C0. pose proof (convex_corner k (i + 1)) as C1.
          assert (Z0 : left_of (P k) (P (k + 1)) (P i) = 0) by nra. assert (Z1 : left_of (P k) (P (k + 1)) (P (i + 1)) = 0) by nra.
          assert (NI : (k mod n <> i mod n)%nat). { intros X. assert (P k = P i) by (rewrite <- (corner_mod vs k), X; apply corner_mod). assert (P (k + 1) = P (i + 1)) by (rewrite <- (corner_mod_next vs k), X; apply corner_mod_next). rewrite H, H0 in Gk. lra. }
          destruct (Nat.eq_dec (i mod n) ((k + 1) mod n)) as [X|X].
          - assert (X' : P (i + 1) = P (k + 2)). { rewrite <- (corner_mod_next vs i), X, corner_mod_next. f_equal. lia. } rewrite X' in Z1. pose proof (turn k). lra.
          - pose proof (strict k i (not_eq_sym NI) X). lra. }
        specialize (Hmk k _ Hb). assert (Q : dist2 p (mix q p s) = (1 - s) * (1 - s) * dist2 p q) by (unfold dist2, mix; cbn [fst snd]; ring). rewrite Q in Hmk.
        assert (S1 : 0 < s) by (destruct Hs as [Hs _]; destruct Hs as [Hs|Hs]; [exact Hs|symmetry in Hs; contradiction]). assert (0 < s * (2 - s)) by (apply Rmult_lt_0_compat; lra).
        assert (0 < s * (2 - s) * dist2 p q) by (apply Rmult_lt_0_compat; lra). lra. }
      rewrite Esd. unfold signum. destruct (Rlt_dec _ 0) as [L|L]; [exfalso; unfold Rdiv in L; nra|lra].
  Qed.
End Convex.

(** For strictly convex polygons, whose corners are in counterclockwise order, the signed distance is negative or zero inside and
    positive outside. *)
Theorem C65_sign vs p : strictly_convex vs -> exists sd t q i, closest_edge vs p = Some (sd, t, q, i) /\ (left_of_all vs p -> sd <= 0) /\ (~ left_of_all vs p -> 0 < sd).
Proof.
  intros SC. pose proof (proj1 SC) as three. assert (N : vs <> []) by (intros ->; cbn in three; lia).
  destruct (closest_edge_unfold vs p N) as (i & nn & Hi & Hn & E & Hm). cbv zeta in *. do 4 eexists. split; [exact E|].
  set (t := closest_parametric _ _) in *. assert (Ht : 0 <= t <= 1) by (unfold t, closest_parametric; apply clamp_range; lra). clearbody t.
  unfold pseudonormal in Hn. rewrite get_edge_corner in Hn by exact Hi. rewrite !get_edge_mod in Hn by lia. cbn [option_map] in Hn. destruct (Req_EM_T t 0) as [->|T0].
  - apply some_eq in Hn. rewrite Hn.
    assert (Eq : mix (corner vs i) (corner vs (i + 1)) 0 = corner vs i) by (unfold mix; destruct (corner vs i); cbn; f_equal; ring). rewrite Eq in *.
    assert (E1 : corner vs (i + length vs - 1 + 1) = corner vs i) by (replace (i + length vs - 1 + 1)%nat with (i + 1 * length vs)%nat by lia; unfold corner; rewrite Nat.mod_add by lia; reflexivity).
    assert (E2 : corner vs (i + length vs - 1 + 2) = corner vs (i + 1)) by (replace (i + length vs - 1 + 2)%nat with (i + 1 + 1 * length vs)%nat by lia; unfold corner; rewrite Nat.mod_add by lia; reflexivity).
    pose proof (corner_case vs SC three (i + length vs - 1) p) as C. rewrite E1, E2 in C. rewrite E1. apply C; [left; split; reflexivity|exact Hm].
  - destruct (Req_EM_T t 1) as [->|T1].
    + apply some_eq in Hn. rewrite Hn.
      assert (Eq : mix (corner vs i) (corner vs (i + 1)) 1 = corner vs (i + 1)) by (unfold mix; destruct (corner vs (i + 1)); cbn; f_equal; ring). rewrite Eq in *.
      rewrite <- Nat.add_assoc. cbn [Nat.add]. apply (corner_case vs SC three i p); [right; split; reflexivity|exact Hm].
    + apply some_eq in Hn. rewrite Hn. apply (side_case vs SC three i t p); [lra|exact Hm].
Qed.
Print Assumptions C65_sign.

(** The distance of the plane type: the distance to the polygon with its inside. *)
Theorem C65_distance vs p : strictly_convex vs -> exists D, polygon_distance vs p = Some D /\
  (exists x, left_of_all vs x /\ dist p x = D) /\ (forall x, left_of_all vs x -> D <= dist p x).
Proof.
  intros SC. pose proof (proj1 SC) as three. assert (N : vs <> []) by (intros ->; cbn in three; lia).
  destruct (C65_sign vs p SC) as (sd & t & q & i & E & S1 & S2). destruct (C65_closest vs p N) as (sd' & t' & q' & i' & E' & Hi & Ht & Eq & Ab & Hm).
  rewrite E in E'. injection E' as <- <- <- <-. exists (Rmax sd 0). split; [unfold polygon_distance; rewrite E; reflexivity|].
  assert (Iq : left_of_all vs q) by (rewrite Eq; apply boundary_inside; assumption).
  destruct (Exists_dec (fun k => left_of (corner vs k) (corner vs (k + 1)) p < 0) (seq 0 (length vs)) (fun k => Rlt_dec _ 0)) as [X|X].
  - assert (A : ~ left_of_all vs p). { intros A. apply Exists_exists in X. destruct X as (k & Hk & L). apply in_seq in Hk. specialize (A k ltac:(lia)). lra. }
    specialize (S2 A). rewrite Rabs_pos_eq in Ab by lra. rewrite Rmax_left by lra. split; [exists q; split; [exact Iq|lra]|].
    intros x Hx. destruct (leave vs SC three x p Hx A) as (k & s & Hk & _ & Hs & Hb & _). specialize (Hm k _ Hk Hb). rewrite Ab. apply Rle_trans with (1 := Hm).
    apply sqrt_le_1_alt. replace (dist2 p (mix x p s)) with ((1 - s) * (1 - s) * dist2 p x) by (unfold dist2, mix; cbn [fst snd]; ring).
    assert (P2 : 0 <= dist2 p x) by (unfold dist2; apply Rplus_le_le_0_compat; apply pow2_ge_0). assert ((1 - s) * (1 - s) <= 1) by nra. nra.
  - assert (A : left_of_all vs p). { intros k Hk. destruct (Rle_lt_dec 0 (left_of (corner vs k) (corner vs (k + 1)) p)) as [L|L]; [exact L|]. exfalso. apply X, Exists_exists. exists k. split; [apply in_seq; lia|exact L]. }
    specialize (S1 A). rewrite Rmax_right by lra. split; [|intros; apply dist_nonneg]. exists p. split; [exact A|]. unfold dist, dist2. replace (_ + _) with 0 by ring. apply sqrt_0.
Qed.
Print Assumptions C65_distance.

(** the unit square is strictly convex *)
Definition unit_square : list (R * R) := [(0, 0); (1, 0); (1, 1); (0, 1)].
Example C65_example : strictly_convex unit_square /\ ~ left_of_all unit_square (2, 2) /\ left_of_all unit_square (1 / 2, 1 / 3).
Proof.
  split; [split; [cbn; lia|]|split].
  - intros i j Hi Hj. cbn in Hi, Hj. destruct i as [|[|[|[|]]]], j as [|[|[|[|]]]]; cbn; intros N1 N2; try congruence; try lia; unfold left_of, corner; cbn; lra.
  - intros H. specialize (H 1%nat ltac:(cbn; lia)). unfold left_of, corner in H. cbn in H. lra.
  - intros i Hi. cbn in Hi. destruct i as [|[|[|[|]]]]; try lia; unfold left_of, corner; cbn; lra.
Qed.

(** C54. Tensor products of one-dimensional rules and rules by subdivision. *)
From Coq Require Import Reals List Arith Lia Lra.
From Coquelicot Require Import Coquelicot.
From Verif Require Import ElementModel ElementSpec QuadratureModel QuadPoly QuadPolyN LegendreProofs PropGauss RuleProofs.
Import ListNotations.
Local Open Scope R_scope.

(** ** Tensor products *)
Definition pairs2 (l : list (R * R)) : list (R * point) := flat_map (fun x => map (fun y => (fst x * fst y, pt [snd x; snd y])) l) l.
Definition pairs3 (l : list (R * R)) : list (R * point) :=
  flat_map (fun x => flat_map (fun y => map (fun z => (fst x * fst y * fst z, pt [snd x; snd y; snd z])) l) l) l.

Lemma quadrilateral_pairs q : quadrilateral_tensor q = unz (pairs2 (zipped q)).
Proof.
  unfold quadrilateral_tensor, pairs2. fold (zipped q). generalize (zipped q). intros l.
  change ([], []) with (@unz point []). rewrite (fold_unz _ (fun x => map (fun y => (fst x * fst y, pt [snd x; snd y])) l)); [reflexivity|].
  intros r x _. rewrite (fold_unz _ (fun y => (fst x * fst y, pt [snd x; snd y]) :: [])); [rewrite flat_map_single; reflexivity|].
  intros. apply unz_push.
Qed.
Lemma hexahedron_pairs q : hexahedron_tensor q = unz (pairs3 (zipped q)).
Proof.
  unfold hexahedron_tensor, pairs3. fold (zipped q). generalize (zipped q). intros l.
  change ([], []) with (@unz point []). rewrite (fold_unz _ (fun x => flat_map (fun y => map (fun z => (fst x * fst y * fst z, pt [snd x; snd y; snd z])) l) l)); [reflexivity|].
  intros r x _. apply fold_unz. intros r' y _. rewrite (fold_unz _ (fun z => (fst x * fst y * fst z, pt [snd x; snd y; snd z]) :: [])); [rewrite flat_map_single; reflexivity|].
  intros. apply unz_push.
Qed.

Lemma pairs2_product l (f g : R -> R) : total (pairs2 l) (fun p => f (p 0%nat) * g (p 1%nat)) = total l f * total l g.
Proof.
  unfold pairs2. rewrite total_flat. rewrite (sum_ext' _ _ (fun x => total l g * (fst x * f (snd x)))).
  - rewrite sum_scale. unfold total. ring.
  - intros x _. rewrite total_map. unfold total. rewrite (Rmult_comm _ (fst x * _)), <- sum_scale. apply sum_ext'. intros y _. unfold pt. cbn [nth]. ring.
Qed.
Lemma pairs3_product l (f g h : R -> R) : total (pairs3 l) (fun p => f (p 0%nat) * g (p 1%nat) * h (p 2%nat)) = total l f * total l g * total l h.
Proof.
  unfold pairs3. rewrite total_flat. rewrite (sum_ext' _ _ (fun x => total l g * total l h * (fst x * f (snd x)))).
  - rewrite sum_scale. unfold total. ring.
  - intros x _. rewrite total_flat. rewrite (sum_ext' _ _ (fun y => (fst x * f (snd x) * total l h) * (fst y * g (snd y)))).
    + rewrite sum_scale. unfold total. ring.
    + intros y _. rewrite total_map. unfold total.
      rewrite <- (sum_ext' _ (fun z => (fst x * f (snd x) * (fst y * g (snd y))) * (fst z * h (snd z)))) by (intros z _; unfold pt; cbn [nth]; ring).
      rewrite sum_scale. ring.
Qed.

Lemma flat_map_length' {A B} (f : A -> list B) k n : (forall a, In a k -> length (f a) = n) -> length (flat_map f k) = (length k * n)%nat.
Proof.
  induction k as [|a k IH]; intros H; cbn; [reflexivity|]. rewrite app_length, IH by (intros; apply H; right; assumption). rewrite (H a) by (left; reflexivity). lia.
Qed.
Lemma pairs2_length l : length (pairs2 l) = (length l * length l)%nat.
Proof. apply flat_map_length'. intros. apply map_length. Qed.
Lemma pairs3_length l : length (pairs3 l) = (length l * (length l * length l))%nat.
Proof. apply flat_map_length'. intros. apply flat_map_length'. intros. apply map_length. Qed.

Lemma total_peval l p : total l (peval p) = fold_right (fun m acc => fst m * total l (monomial (snd m)) + acc) 0 p.
Proof.
  induction p as [|m p IH].
  - change (total l (fun _ => 0) = 0). unfold total. rewrite (sum_ext' _ _ (fun wp => 0 * fst wp)) by (intros; ring). rewrite sum_scale. ring.
  - cbn [fold_right]. rewrite <- IH. unfold total. rewrite <- sum_scale, <- sum_plus. apply sum_ext'. intros x _. unfold peval. cbn [fold_right]. ring.
Qed.

Lemma exact1_pow d q k : exact1 d q -> (k < d)%nat -> total (zipped q) (fun t => t ^ k) = integral (fun t => t ^ k) (-1) 1.
Proof. intros X K. rewrite <- integrate_total. apply (exact1_Pol d q _ X). apply (Pol_le (S k)); [lia|]. apply Pol_monomial. Qed.

(** the nodes of the tensor rules *)
Lemma pairs2_in l w p : In (w, p) (pairs2 l) -> exists wx x wy y, In (wx, x) l /\ In (wy, y) l /\ w = wx * wy /\ p = pt [x; y].
Proof.
  unfold pairs2. rewrite in_flat_map. intros ([wx x] & X & H). apply in_map_iff in H. destruct H as ([wy y] & E & Y). cbn in E. injection E as <- <-.
  exists wx, x, wy, y. repeat split; assumption.
Qed.
Lemma pairs3_in l w p : In (w, p) (pairs3 l) -> exists wx x wy y wz z, In (wx, x) l /\ In (wy, y) l /\ In (wz, z) l /\ w = wx * wy * wz /\ p = pt [x; y; z].
Proof.
  unfold pairs3. rewrite in_flat_map. intros ([wx x] & X & H). apply in_flat_map in H. destruct H as ([wy y] & Y & H).
  apply in_map_iff in H. destruct H as ([wz z] & E & Z). cbn in E. injection E as <- <-.
  exists wx, x, wy, y, wz, z. repeat split; assumption.
Qed.

Lemma unz_in_pts {P} (l : list (R * P)) p : In p (snd (unz l)) -> exists w, In (w, p) l.
Proof. cbn. intros H. apply in_map_iff in H. destruct H as ([w x] & <- & H). exists w. exact H. Qed.
Lemma zipped_in {P} (q : rule P) w p : In (w, p) (zipped q) -> In w (fst q) /\ In p (snd q).
Proof. intros H. split; [apply in_combine_l in H|apply in_combine_r in H]; exact H. Qed.

(** C54. The tensor rule on the square has n^2 points in the square, integrates products to products, has the square of the sum of the weights, and is exact for
    polynomials of degree k in each variable if the one-dimensional rule is exact for polynomials of degree k. *)
Theorem C54_quadrilateral (q : rule R) : length (fst q) = length (snd q) ->
  length (fst (quadrilateral_tensor q)) = (length (fst q) * length (fst q))%nat /\ length (snd (quadrilateral_tensor q)) = (length (fst q) * length (fst q))%nat /\
  (forall f g, rule_integrate (quadrilateral_tensor q) (fun p => f (p 0%nat) * g (p 1%nat)) = rule_integrate q f * rule_integrate q g) /\
  fold_right Rplus 0 (fst (quadrilateral_tensor q)) = fold_right Rplus 0 (fst q) ^ 2 /\
  (forall p, In p (snd (quadrilateral_tensor q)) -> exists x y, In x (snd q) /\ In y (snd q) /\ p = pt [x; y]) /\
  (forall k, (forall l, (length l <= k + 1)%nat -> rule_integrate q (horner l) = RInt (horner l) (-1) 1) ->
   forall p, List.Forall (fun m : R * (nat * nat * nat) => each_degree 2 k (snd m)) p ->
   rule_integrate (quadrilateral_tensor q) (peval p) = RInt (fun x => RInt (fun y => peval p (pt [x; y])) (-1) 1) (-1) 1 /\
   quadrature_integrate (quadrilateral_tensor q) (peval p) = RInt (fun x => RInt (fun y => peval p (pt [x; y])) (-1) 1) (-1) 1).
Proof.
  intros Len. rewrite quadrilateral_pairs. split; [|split; [|split; [|split; [|split]]]].
  - cbn. rewrite map_length, pairs2_length, zipped_length by exact Len. reflexivity.
  - cbn. rewrite map_length, pairs2_length, zipped_length by exact Len. reflexivity.
  - intros f g. rewrite integrate_unz, !integrate_total. apply pairs2_product.
  - fold (sum (fst (unz (pairs2 (zipped q))))). fold (sum (fst q)). cbn [fst unz]. rewrite <- total_one. destruct (zipped_weights q Len) as [E _]. rewrite <- E, <- total_one.
    pose proof (pairs2_product (zipped q) (fun _ => 1) (fun _ => 1)) as H. rewrite (total_ext _ _ (fun _ => 1)) in H by (intros; ring). rewrite H. ring.
  - intros p H. apply unz_in_pts in H. destruct H as (w & H). apply pairs2_in in H. destruct H as (wx & x & wy & y & X & Y & _ & ->).
    exists x, y. repeat split; eapply zipped_in; eassumption.
  - intros k X p F. rewrite quadrature_total, integrate_total. enough (total (zipped (unz (pairs2 (zipped q)))) (peval p) = on_square (peval p)) as E by (split; exact E).
    rewrite zipped_unz, total_peval. rewrite on_square_peval.
    + assert (F' : forall m, In m p -> each_degree 2 k (snd m)) by (apply List.Forall_forall; exact F). apply fold_ext. intros m Hm. f_equal.
      destruct (F' m Hm) as ((A & B & _) & Z & _). assert (X' : exact1 (k + 1) q) by (intros l L; exact (X l L)).
      rewrite <- (exact1_pow _ q (fst (fst (snd m))) X') by lia. rewrite <- (exact1_pow _ q (snd (fst (snd m))) X') by lia. rewrite <- pairs2_product.
      apply total_ext. intros x. unfold monomial. rewrite (Z ltac:(lia)). cbn. ring.
    + eapply List.Forall_impl; [|exact F]. cbn. intros m (_ & Z & _). apply Z. lia.
Qed.
Print Assumptions C54_quadrilateral.

(** C54. The tensor rule on the cube. *)
Theorem C54_hexahedron (q : rule R) : length (fst q) = length (snd q) ->
  length (fst (hexahedron_tensor q)) = (length (fst q) ^ 3)%nat /\ length (snd (hexahedron_tensor q)) = (length (fst q) ^ 3)%nat /\
  (forall f g h, rule_integrate (hexahedron_tensor q) (fun p => f (p 0%nat) * g (p 1%nat) * h (p 2%nat)) = rule_integrate q f * rule_integrate q g * rule_integrate q h) /\
  fold_right Rplus 0 (fst (hexahedron_tensor q)) = fold_right Rplus 0 (fst q) ^ 3 /\
  (forall p, In p (snd (hexahedron_tensor q)) -> exists x y z, In x (snd q) /\ In y (snd q) /\ In z (snd q) /\ p = pt [x; y; z]) /\
  (forall k, (forall l, (length l <= k + 1)%nat -> rule_integrate q (horner l) = RInt (horner l) (-1) 1) ->
   forall p, List.Forall (fun m : R * (nat * nat * nat) => each_degree 3 k (snd m)) p ->
   rule_integrate (hexahedron_tensor q) (peval p) = RInt (fun x => RInt (fun y => RInt (fun z => peval p (pt [x; y; z])) (-1) 1) (-1) 1) (-1) 1 /\
   quadrature_integrate (hexahedron_tensor q) (peval p) = RInt (fun x => RInt (fun y => RInt (fun z => peval p (pt [x; y; z])) (-1) 1) (-1) 1) (-1) 1).
Proof.
  intros Len. rewrite hexahedron_pairs. split; [|split; [|split; [|split; [|split]]]].
  - cbn [fst unz]. rewrite map_length, pairs3_length, zipped_length by exact Len. cbn. lia.
  - cbn [snd unz]. rewrite map_length, pairs3_length, zipped_length by exact Len. cbn. lia.
  - intros f g h. rewrite integrate_unz, !integrate_total. apply pairs3_product.
  - fold (sum (fst (unz (pairs3 (zipped q))))). fold (sum (fst q)). cbn [fst unz]. rewrite <- total_one. destruct (zipped_weights q Len) as [E _]. rewrite <- E, <- total_one.
    pose proof (pairs3_product (zipped q) (fun _ => 1) (fun _ => 1) (fun _ => 1)) as H. rewrite (total_ext _ _ (fun _ => 1)) in H by (intros; ring). rewrite H. ring.
  - intros p H. apply unz_in_pts in H. destruct H as (w & H). apply pairs3_in in H. destruct H as (wx & x & wy & y & wz & z & X & Y & Z & _ & ->).
    exists x, y, z. repeat split; eapply zipped_in; eassumption.
  - intros k X p F. rewrite quadrature_total, integrate_total. enough (total (zipped (unz (pairs3 (zipped q)))) (peval p) = on_cube (peval p)) as E by (split; exact E).
    rewrite zipped_unz, total_peval, on_cube_peval.
    assert (F' : forall m, In m p -> each_degree 3 k (snd m)) by (apply List.Forall_forall; exact F). apply fold_ext. intros m Hm. f_equal.
    destruct (F' m Hm) as ((A & B & C) & _). assert (X' : exact1 (k + 1) q) by (intros l L; exact (X l L)).
    rewrite <- (exact1_pow _ q (fst (fst (snd m))) X') by lia. rewrite <- (exact1_pow _ q (snd (fst (snd m))) X') by lia. rewrite <- (exact1_pow _ q (snd (snd m)) X') by lia.
    rewrite <- pairs3_product. apply total_ext. intros x. reflexivity.
Qed.
Print Assumptions C54_hexahedron.

(** ** Subdivided intervals *)
Definition pieces (l : list (R * R)) (n : nat) : list (R * R) :=
  flat_map (fun i => let a := INR i * (2 / INR n) - 1 in let b := a + 2 / INR n in map (fun wp => (fst wp * ((b - a) / 2), ((b - a) * snd wp + (b + a)) / 2)) l) (seq 0 n).
Lemma univariate_pieces q n : subdivide_univariate q n = unz (pieces (zipped q) n).
Proof.
  unfold subdivide_univariate, pieces. fold (zipped q). generalize (zipped q). intros l. change ([], []) with (@unz R []).
  rewrite (fold_unz _ (fun i => let a := INR i * (2 / INR n) - 1 in let b := a + 2 / INR n in map (fun wp => (fst wp * ((b - a) / 2), ((b - a) * snd wp + (b + a)) / 2)) l)); [reflexivity|].
  intros r i _. cbv zeta. rewrite (fold_unz _ (fun wp => (fst wp * ((INR i * (2 / INR n) - 1 + 2 / INR n - (INR i * (2 / INR n) - 1)) / 2),
    ((INR i * (2 / INR n) - 1 + 2 / INR n - (INR i * (2 / INR n) - 1)) * snd wp + (INR i * (2 / INR n) - 1 + 2 / INR n + (INR i * (2 / INR n) - 1))) / 2) :: []));
    [rewrite flat_map_single; reflexivity|]. intros. apply unz_push.
Qed.

Lemma pieces_total l n f : (0 < n)%nat -> total (pieces l n) f = sum (map (fun i => / INR n * total l (fun x => f (/ INR n * x + ((2 * INR i + 1) / INR n - 1)))) (seq 0 n)).
Proof.
  intros N. assert (N' : INR n <> 0) by (apply not_0_INR; lia). unfold pieces. rewrite total_flat. apply sum_ext'. intros i _. cbv zeta. rewrite total_map. unfold total.
  rewrite <- sum_scale. apply sum_ext'. intros [w x] _. cbn [fst snd].
  match goal with |- _ * f ?u = _ * (_ * f ?v) => replace u with v by (field; exact N') end. field. exact N'.
Qed.

Lemma sum_const {A} (k : list A) c : sum (map (fun _ => c) k) = INR (length k) * c.
Proof. unfold sum. induction k as [|a k IH]; [cbn; ring|]. cbn [map fold_right length]. rewrite IH, S_INR. ring. Qed.

Lemma sum_integrals d f (g : nat -> R) n : Pol d f -> sum (map (fun i => integral f (g i) (g (S i))) (seq 0 n)) = integral f (g 0%nat) (g n).
Proof.
  intros F. induction n as [|n IH]; [cbn; symmetry; apply (integral_point d), F|]. rewrite seq_S, map_app, sum_app, IH. cbn [map sum fold_right]. rewrite Rplus_0_r.
  apply (integral_chasles d), F.
Qed.

(** C54. A rule on the interval subdivided into n pieces: n times as many points, the same sum of the weights, points in [-1, 1] if those of the base rule are,
    and exact for polynomials of degree k if the base rule is. No pieces give an empty rule. *)
Theorem C54_univariate (q : rule R) : subdivide_univariate q 0 = ([], []) /\ (length (fst q) = length (snd q) -> forall n, (0 < n)%nat ->
  length (fst (subdivide_univariate q n)) = (n * length (fst q))%nat /\ length (snd (subdivide_univariate q n)) = (n * length (fst q))%nat /\
  fold_right Rplus 0 (fst (subdivide_univariate q n)) = fold_right Rplus 0 (fst q) /\
  ((forall x, In x (snd q) -> -1 <= x <= 1) -> forall x, In x (snd (subdivide_univariate q n)) -> -1 <= x <= 1) /\
  ((forall w, In w (fst q) -> 0 < w) -> forall w, In w (fst (subdivide_univariate q n)) -> 0 < w) /\
  (forall f, rule_integrate (subdivide_univariate q n) f = fold_right Rplus 0 (map (fun i => rule_integrate q (fun x => f (-1 + (2 * INR i + 1 + x) / INR n)) / INR n) (seq 0 n))) /\
  (forall d, (forall l, (length l <= d)%nat -> rule_integrate q (horner l) = RInt (horner l) (-1) 1) ->
   forall l, (length l <= d)%nat -> rule_integrate (subdivide_univariate q n) (horner l) = RInt (horner l) (-1) 1)).
Proof.
  split; [reflexivity|]. intros Len n N. assert (N' : 0 < INR n) by (apply lt_0_INR; lia). rewrite univariate_pieces.
  assert (Ln : length (pieces (zipped q) n) = (n * length (fst q))%nat).
  { unfold pieces. rewrite (flat_map_length' _ _ (length (fst q))); [rewrite seq_length; reflexivity|]. intros i _. cbv zeta. rewrite map_length. apply zipped_length, Len. }
  assert (In' : forall w p, In (w, p) (pieces (zipped q) n) -> exists i w0 x, (i < n)%nat /\ In (w0, x) (zipped q) /\ w = w0 * (/ INR n) /\ p = -1 + (2 * INR i + 1 + x) / INR n).
  { intros w p H. unfold pieces in H. apply in_flat_map in H. destruct H as (i & Hi & H). apply in_seq in Hi. cbv zeta in H. apply in_map_iff in H.
    destruct H as ([w0 x] & E & H). cbn [fst snd] in E. injection E as <- <-. exists i, w0, x. repeat split; [lia|exact H| |]; field; lra. }
  split; [|split; [|split; [|split; [|split; [|split]]]]].
  - cbn [fst unz]. rewrite map_length. exact Ln.
  - cbn [snd unz]. rewrite map_length. exact Ln.
  - fold (sum (fst (unz (pieces (zipped q) n)))). fold (sum (fst q)). cbn [fst unz]. rewrite <- total_one. destruct (zipped_weights q Len) as [E _]. rewrite <- E, <- total_one.
    rewrite pieces_total by exact N. rewrite sum_const, seq_length. field. lra.
  - intros B x H. apply unz_in_pts in H. destruct H as (w & H). apply In' in H. destruct H as (i & w0 & t & I & H & _ & ->). apply zipped_in in H. destruct H as [_ H]. specialize (B t H).
    assert (0 <= INR i) by apply pos_INR. assert (INR i + 1 <= INR n) by (rewrite <- S_INR; apply le_INR; lia).
    assert (0 <= (2 * INR i + 1 + t) / INR n <= 2); [|lra]. split.
    + apply Rmult_le_pos; [lra|]. left. apply Rinv_0_lt_compat. exact N'.
    + apply (Rmult_le_reg_r (INR n)); [exact N'|]. unfold Rdiv. rewrite Rmult_assoc, Rinv_l by lra. lra.
  - intros B w H. cbn in H. apply in_map_iff in H. destruct H as ([w' p] & E & H). cbn in E. subst w'. apply In' in H. destruct H as (i & w0 & t & I & H & -> & _). apply zipped_in in H.
    apply Rmult_lt_0_compat; [apply B, H|]. apply Rinv_0_lt_compat. exact N'.
  - intros f. rewrite integrate_unz, pieces_total by exact N. fold (sum (map (fun i => rule_integrate q (fun x => f (-1 + (2 * INR i + 1 + x) / INR n)) / INR n) (seq 0 n))).
    apply sum_ext'. intros i _. rewrite integrate_total. rewrite (total_ext _ _ (fun x => f (-1 + (2 * INR i + 1 + x) / INR n))).
    + unfold Rdiv. apply Rmult_comm.
    + intros x. f_equal. field. lra.
  - intros d X l Ll. assert (X' : exact1 d q) by exact X. assert (Pl : Pol d (horner l)) by (exists l; split; [exact Ll|reflexivity]).
    rewrite integrate_unz, pieces_total by exact N. change (RInt (horner l) (-1) 1) with (integral (horner l) (-1) 1).
    rewrite (sum_ext' _ _ (fun i => integral (horner l) (INR i * (2 / INR n) - 1) (INR (S i) * (2 / INR n) - 1))).
    + rewrite (sum_integrals d (horner l) (fun i => INR i * (2 / INR n) - 1)) by exact Pl. f_equal; cbn [INR]; field; lra.
    + intros i _. rewrite <- integrate_total. rewrite (exact1_Pol d q _ X') by (apply (Pol_comp d), Pl). rewrite (integral_affine d) by exact Pl. f_equal; rewrite ?S_INR; field; lra.
Qed.
Print Assumptions C54_univariate.

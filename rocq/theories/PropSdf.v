(** C94: signed distance functions. *)
From Coq Require Import Reals Lra Lia List.
From Coquelicot Require Import Coquelicot.
From Verif Require Import CgModel AabbModel SdfModel.
Import ListNotations.
Local Open Scope R_scope.

(** Specification: Euclidean distance, the regions, their boundaries. *)
Definition distance (x y : vec) : R := sqrt ((x 0%nat - y 0%nat) ^ 2 + (x 1%nat - y 1%nat) ^ 2).
Fixpoint region (s : sdf) (x : vec) : Prop :=
  match s with
  | Circle r c => distance x c <= r
  | AlignedBox a => forall i, (i < 2)%nat -> bmin a i <= x i <= bmax a i
  | Union l r => region l x \/ region r x
  end.
Fixpoint valid (s : sdf) : Prop :=
  match s with
  | Circle r c => 0 <= r
  | AlignedBox a => forall i, (i < 2)%nat -> bmin a i <= bmax a i
  | Union l r => valid l /\ valid r
  end.
Definition on_boundary (s : sdf) (x : vec) : Prop :=
  match s with
  | Circle r c => distance x c = r
  | AlignedBox a => region s x /\ exists i, (i < 2)%nat /\ (x i = bmin a i \/ x i = bmax a i)
  | Union _ _ => False
  end.

Lemma distance_euc x y : distance x y = dist_euc (x 0%nat) (x 1%nat) (y 0%nat) (y 1%nat).
Proof. unfold distance, dist_euc, Rsqr. f_equal. ring. Qed.
Lemma distance_triangle x y z : distance x z <= distance x y + distance y z.
Proof. rewrite !distance_euc. apply triangle. Qed.
Lemma distance_sym x y : distance x y = distance y x. Proof. unfold distance. f_equal. ring. Qed.
Lemma distance_pos x y : 0 <= distance x y. Proof. apply sqrt_pos. Qed.
Lemma distance_coord x y i : (i < 2)%nat -> Rabs (x i - y i) <= distance x y.
Proof.
  intros Hi. unfold distance. rewrite <- sqrt_Rsqr_abs. apply sqrt_le_1_alt. unfold Rsqr. pose proof (pow2_ge_0 (x 0%nat - y 0%nat)). pose proof (pow2_ge_0 (x 1%nat - y 1%nat)).
  destruct i as [|[|]]; [nra | nra | lia].
Qed.
Lemma norm2_pos a b : 0 <= norm2 a b. Proof. apply sqrt_pos. Qed.
Lemma norm2_le a b c d : Rabs a <= Rabs c -> Rabs b <= Rabs d -> norm2 a b <= norm2 c d.
Proof. intros H1 H2. apply sqrt_le_1_alt. pose proof (Rsqr_le_abs_1 _ _ H1). pose proof (Rsqr_le_abs_1 _ _ H2). unfold Rsqr in *. lra. Qed.
Lemma norm2_distance x y : norm2 (x 0%nat - y 0%nat) (x 1%nat - y 1%nat) = distance x y.
Proof. unfold norm2, distance. f_equal. ring. Qed.
Lemma norm2_0 a : norm2 a 0 = Rabs a. Proof. unfold norm2. rewrite <- sqrt_Rsqr_abs. unfold Rsqr. f_equal. ring. Qed.
Lemma norm2_0l a : norm2 0 a = Rabs a. Proof. unfold norm2. rewrite <- sqrt_Rsqr_abs. unfold Rsqr. f_equal. ring. Qed.
Lemma largest_max a b : largest a b = Rmax a b.
Proof. unfold largest. destruct (Rlt_dec a b); [rewrite Rmax_right | rewrite Rmax_left]; lra. Qed.
Lemma norm2_scale t a b : 0 <= t -> norm2 (t * a) (t * b) = t * norm2 a b.
Proof. intros Ht. unfold norm2. replace (t * a * (t * a) + t * b * (t * b)) with (t² * (a * a + b * b)) by (unfold Rsqr; ring). rewrite sqrt_mult_alt by apply Rle_0_sqr. rewrite sqrt_Rsqr by exact Ht. reflexivity. Qed.

(** ** The box *)
Section Box.
Variable a : aabb.
Hypothesis Ha : forall i, (i < 2)%nat -> bmin a i <= bmax a i.
Definition depth (x : vec) (i : nat) : R := Rabs (x i - center a i) - extents a i / 2.
Lemma depth_lo x i : depth x i <= 0 <-> bmin a i <= x i <= bmax a i.
Proof. unfold depth, center, extents. unfold Rabs. destruct (Rcase_abs _); split; lra. Qed.
Lemma box_eval_depth x : box_eval a x = norm2 (Rmax (depth x 0) 0) (Rmax (depth x 1) 0) + Rmin 0 (Rmax (depth x 0) (depth x 1)).
Proof. unfold box_eval. fold (depth x 0) (depth x 1). rewrite largest_max. reflexivity. Qed.
Lemma inside_depth x : region (AlignedBox a) x <-> depth x 0 <= 0 /\ depth x 1 <= 0.
Proof. cbn. split; [intros H; split; apply depth_lo, H; lia | intros [H0 H1] [|[|]] Hi; [apply depth_lo, H0 | apply depth_lo, H1 | lia]]. Qed.
Lemma eval_inside x : region (AlignedBox a) x -> box_eval a x = Rmax (depth x 0) (depth x 1).
Proof.
  rewrite inside_depth. intros [H0 H1]. rewrite box_eval_depth, (Rmax_right _ 0 H0), (Rmax_right _ 0 H1), norm2_0, Rabs_R0.
  rewrite Rmin_right; [lra | apply Rmax_lub; assumption].
Qed.
Definition clamp (x : vec) : vec := fun i => Rmax (bmin a i) (Rmin (bmax a i) (x i)).
Lemma clamp_in x : region (AlignedBox a) (clamp x).
Proof. intros i Hi. specialize (Ha i Hi). unfold clamp. split; [apply Rmax_l | apply Rmax_lub; [exact Ha | apply Rmin_l]]. Qed.
Lemma clamp_depth x i : (i < 2)%nat -> Rabs (x i - clamp x i) = Rmax (depth x i) 0.
Proof.
  intros Hi. specialize (Ha i Hi). unfold clamp, depth, center, extents, Rmax, Rmin, Rabs. repeat destruct (Rle_dec _ _); repeat destruct (Rcase_abs _); lra.
Qed.
Lemma eval_outside x : ~ region (AlignedBox a) x -> box_eval a x = distance x (clamp x) /\ 0 < box_eval a x.
Proof.
  intros Hx. rewrite inside_depth in Hx.
  assert (E : box_eval a x = distance x (clamp x)).
  { rewrite box_eval_depth. rewrite Rmin_left.
    - rewrite Rplus_0_r, <- (clamp_depth x 0), <- (clamp_depth x 1) by lia. unfold norm2, distance. f_equal. rewrite <- !Rsqr_pow2. unfold Rsqr. rewrite <- !Rabs_mult, !Rabs_pos_eq; [reflexivity | apply Rle_0_sqr..].
    - destruct (Rle_lt_dec (depth x 0) 0) as [h|h]; [destruct (Rle_lt_dec (depth x 1) 0) as [h'|h']; [tauto|]|]; [apply Rle_trans with (depth x 1); [lra | apply Rmax_r] | apply Rle_trans with (depth x 0); [lra | apply Rmax_l]]. }
  split; [exact E|]. rewrite E. destruct (Rle_lt_or_eq_dec 0 (distance x (clamp x)) (distance_pos _ _)) as [h|h]; [exact h|]. exfalso. apply Hx.
  assert (H : forall i, (i < 2)%nat -> depth x i <= 0).
  { intros i Hi. pose proof (distance_coord x (clamp x) i Hi) as Hc. rewrite <- h, clamp_depth in Hc by exact Hi. pose proof (Rmax_l (depth x i) 0). lra. }
  split; apply H; lia.
Qed.
Lemma clamp_closest x y : region (AlignedBox a) y -> distance x (clamp x) <= distance x y.
Proof.
  intros Hy. unfold distance. apply sqrt_le_1_alt.
  assert (H : forall i, (i < 2)%nat -> (x i - clamp x i) ^ 2 <= (x i - y i) ^ 2).
  { intros i Hi. rewrite <- !Rsqr_pow2. apply Rsqr_le_abs_1. specialize (Hy i Hi). unfold clamp, Rmax, Rmin, Rabs. repeat destruct (Rle_dec _ _); repeat destruct (Rcase_abs _); lra. }
  pose proof (H 0%nat ltac:(lia)). pose proof (H 1%nat ltac:(lia)). lra.
Qed.
Lemma box_decide x : {region (AlignedBox a) x} + {~ region (AlignedBox a) x}.
Proof.
  destruct (Rle_dec (depth x 0) 0) as [h|h]; [destruct (Rle_dec (depth x 1) 0) as [h'|h']|]; [left | right | right]; rewrite inside_depth; tauto.
Qed.
Lemma box_le_distance x y : region (AlignedBox a) y -> box_eval a x <= distance x y.
Proof.
  intros Hy. destruct (box_decide x) as [h|h].
  - rewrite eval_inside by exact h. apply inside_depth in h as [h0 h1]. apply Rle_trans with 0; [apply Rmax_lub; assumption | apply distance_pos].
  - destruct (eval_outside x h) as [-> _]. apply clamp_closest, Hy.
Qed.
(** a ball around an inner point is in the box *)
Lemma box_ball y z : region (AlignedBox a) y -> distance y z <= - box_eval a y -> region (AlignedBox a) z.
Proof.
  intros Hy Hd. rewrite eval_inside in Hd by exact Hy. apply inside_depth.
  assert (H : forall i, (i < 2)%nat -> depth z i <= 0).
  { intros i Hi. assert (Hm : depth y i <= Rmax (depth y 0) (depth y 1)) by (destruct i as [|[|]]; [apply Rmax_l | apply Rmax_r | lia]).
    pose proof (distance_coord y z i Hi) as Hc. unfold depth in *. pose proof (Rabs_triang (y i - center a i) (z i - y i)) as Ht.
    replace (y i - center a i + (z i - y i)) with (z i - center a i) in Ht by ring. rewrite (Rabs_minus_sym (z i) (y i)) in Ht. lra. }
  split; apply H; lia.
Qed.
Lemma box_lipschitz x y : box_eval a x - box_eval a y <= distance x y.
Proof.
  destruct (box_decide y) as [hy|hy].
  - destruct (box_decide x) as [hx|hx].
    + rewrite !eval_inside by assumption.
      assert (H : forall i, (i < 2)%nat -> depth x i - depth y i <= distance x y).
      { intros i Hi. pose proof (distance_coord x y i Hi). unfold depth. pose proof (Rabs_triang (y i - center a i) (x i - y i)) as Ht.
        replace (y i - center a i + (x i - y i)) with (x i - center a i) in Ht by ring. lra. }
      pose proof (H 0%nat ltac:(lia)). pose proof (H 1%nat ltac:(lia)). pose proof (Rmax_l (depth y 0) (depth y 1)). pose proof (Rmax_r (depth y 0) (depth y 1)).
      apply Rle_minus_l. apply Rmax_lub; lra.
    + (* the point of the segment at the depth of y is in the box *)
      set (m := - box_eval a y). assert (Hm : 0 <= m) by (unfold m; rewrite eval_inside by exact hy; apply inside_depth in hy as [? ?]; assert (Rmax (depth y 0) (depth y 1) <= 0) by (apply Rmax_lub; assumption); lra).
      set (d := distance x y). destruct (Rle_lt_dec d m) as [Hdm|Hdm].
      { exfalso. apply hx. apply (box_ball y x hy). rewrite distance_sym. exact Hdm. }
      assert (Hd : 0 < d) by lra. set (z := fun i => y i + m / d * (x i - y i)).
      assert (Hyz : distance y z = m).
      { unfold z. rewrite <- norm2_distance. replace (y 0%nat - (y 0%nat + m / d * (x 0%nat - y 0%nat))) with (m / d * (y 0%nat - x 0%nat)) by ring.
        replace (y 1%nat - (y 1%nat + m / d * (x 1%nat - y 1%nat))) with (m / d * (y 1%nat - x 1%nat)) by ring.
        rewrite norm2_scale by (apply Rdiv_le_0_compat; lra). rewrite norm2_distance, distance_sym. fold d. field. lra. }
      assert (Hxz : distance x z = d - m).
      { unfold z. rewrite <- norm2_distance. replace (x 0%nat - (y 0%nat + m / d * (x 0%nat - y 0%nat))) with ((d - m) / d * (x 0%nat - y 0%nat)) by (field; lra).
        replace (x 1%nat - (y 1%nat + m / d * (x 1%nat - y 1%nat))) with ((d - m) / d * (x 1%nat - y 1%nat)) by (field; lra).
        rewrite norm2_scale by (apply Rdiv_le_0_compat; lra). rewrite norm2_distance. fold d. field. lra. }
      pose proof (box_le_distance x z (box_ball y z hy ltac:(rewrite Hyz; unfold m; lra))). rewrite Hxz in H. unfold m in *. lra.
  - destruct (eval_outside y hy) as [Ey _]. rewrite Ey. pose proof (box_le_distance x (clamp y) (clamp_in y)). pose proof (distance_triangle x y (clamp y)). lra.
Qed.
End Box.

(** ** Signs and distances *)
Lemma circle_eval r c x : eval (Circle r c) x = distance x c - r.
Proof. cbn [eval]. rewrite norm2_distance. reflexivity. Qed.

(** The value is at most zero exactly in the region. *)
Theorem C94_region s x : valid s -> eval s x <= 0 <-> region s x.
Proof.
  revert x. induction s as [r c|a|l IHl r IHr]; intros x Hs.
  - rewrite circle_eval. cbn. lra.
  - cbn [eval]. cbn in Hs. destruct (box_decide a x) as [h|h].
    + split; [intros _; exact h|intros _]. rewrite eval_inside by exact h. apply inside_depth in h as [? ?]. apply Rmax_lub; assumption.
    + split; [intros H | contradiction]. destruct (eval_outside a Hs x h). lra.
  - destruct Hs as [Hl Hr]. cbn. rewrite <- (IHl x Hl), <- (IHr x Hr). unfold Rmin. destruct (Rle_dec _ _); split; intros; try tauto; lra.
Qed.
Print Assumptions C94_region.

(** The value changes by at most the distance of the points. *)
Theorem C94_lipschitz s x y : valid s -> Rabs (eval s x - eval s y) <= distance x y.
Proof.
  assert (H : forall s, valid s -> forall x y, eval s x - eval s y <= distance x y).
  { clear. induction s as [r c|a|l IHl r IHr]; intros Hs x y.
    - rewrite !circle_eval. pose proof (distance_triangle x y c). lra.
    - apply box_lipschitz. exact Hs.
    - destruct Hs as [Hl Hr]. specialize (IHl Hl x y). specialize (IHr Hr x y). cbn. unfold Rmin. repeat destruct (Rle_dec _ _); lra. }
  intros Hs. apply Rabs_le. pose proof (H s Hs x y). pose proof (H s Hs y x). rewrite (distance_sym y x) in *. lra.
Qed.
Print Assumptions C94_lipschitz.

(** Outside of the region the value is the distance to it. *)
Theorem C94_outside s x : valid s -> ~ region s x -> (forall y, region s y -> eval s x <= distance x y) /\ exists y, region s y /\ distance x y = eval s x.
Proof.
  intros Hs Hx. split.
  { intros y Hy. pose proof (C94_lipschitz s x y Hs) as H. apply C94_region in Hy; [|exact Hs]. apply Rabs_le_between in H. lra. }
  induction s as [r c|a|l IHl r IHr].
  - rewrite circle_eval. cbn [region valid] in *. set (d := distance x c) in *. assert (Hd : 0 < d) by lra.
    exists (fun i => c i + r / d * (x i - c i)). rewrite <- !norm2_distance. split.
    + replace (c 0%nat + r / d * (x 0%nat - c 0%nat) - c 0%nat) with (r / d * (x 0%nat - c 0%nat)) by ring.
      replace (c 1%nat + r / d * (x 1%nat - c 1%nat) - c 1%nat) with (r / d * (x 1%nat - c 1%nat)) by ring.
      rewrite norm2_scale by (apply Rdiv_le_0_compat; lra). rewrite norm2_distance. fold d. right. field. lra.
    + replace (x 0%nat - (c 0%nat + r / d * (x 0%nat - c 0%nat))) with ((d - r) / d * (x 0%nat - c 0%nat)) by (field; lra).
      replace (x 1%nat - (c 1%nat + r / d * (x 1%nat - c 1%nat))) with ((d - r) / d * (x 1%nat - c 1%nat)) by (field; lra).
      rewrite norm2_scale by (apply Rdiv_le_0_compat; lra). rewrite norm2_distance. fold d. field. lra.
  - exists (clamp a x). split; [apply clamp_in; exact Hs|]. symmetry. apply eval_outside; assumption.
  - destruct Hs as [Hl Hr]. cbn in Hx. destruct (IHl Hl) as [y [Hy Ey]]; [tauto|]. destruct (IHr Hr) as [z [Hz Ez]]; [tauto|]. cbn [eval].
    unfold Rmin. destruct (Rle_dec _ _); [exists y | exists z]; cbn; tauto.
Qed.
Print Assumptions C94_outside.

(** In a circle or box the value is minus the distance to the boundary; the absolute value is that distance everywhere. *)
Theorem C94_boundary s x : valid s -> match s with Union _ _ => False | _ => True end ->
  (forall y, on_boundary s y -> Rabs (eval s x) <= distance x y) /\ exists y, on_boundary s y /\ distance x y = Rabs (eval s x).
Proof.
  intros Hs Hk. split.
  - intros y Hy. destruct s as [r c|a|]; [| |contradiction].
    + rewrite circle_eval. cbn in Hy. rewrite <- Hy. apply Rabs_le. pose proof (distance_triangle x y c). pose proof (distance_triangle y x c). rewrite (distance_sym y x) in *. lra.
    + cbn [on_boundary] in Hy. destruct Hy as [Hy [i [Hi Hb]]]. cbn [eval]. destruct (box_decide a x) as [h|h].
      * rewrite eval_inside by exact h. rewrite Rabs_left1 by (apply inside_depth in h as [? ?]; apply Rmax_lub; assumption).
        apply Rle_trans with (Rabs (x i - y i)); [|apply distance_coord, Hi]. apply Rle_trans with (- depth a x i).
        { apply Ropp_le_contravar. destruct i as [|[|]]; [apply Rmax_l | apply Rmax_r | lia]. }
        specialize (h i Hi). unfold depth, center, extents. unfold Rabs. repeat destruct (Rcase_abs _); lra.
      * destruct (eval_outside a Hs x h) as [_ Hp]. rewrite Rabs_pos_eq by lra. apply box_le_distance; assumption.
  - destruct s as [r c|a|]; [| |contradiction].
    + rewrite circle_eval. cbn [on_boundary]. set (d := distance x c). cbn in Hs. assert (Hd0 : 0 <= d) by apply distance_pos. destruct (Req_dec d 0) as [E|E].
      * exists (fun i => match i with O => c 0%nat + r | _ => c i end). rewrite <- !norm2_distance. cbn [Nat.eqb].
        assert (Ex : forall i, (i < 2)%nat -> x i = c i) by (intros i Hi; pose proof (distance_coord x c i Hi) as H; fold d in H; rewrite E in H; unfold Rabs in H; destruct (Rcase_abs _); lra).
        rewrite (Ex 0%nat), (Ex 1%nat) by lia. split.
        -- replace (c 0%nat + r - c 0%nat) with r by ring. replace (c 1%nat - c 1%nat) with 0 by ring. rewrite norm2_0. apply Rabs_pos_eq, Hs.
        -- replace (c 0%nat - (c 0%nat + r)) with (0 - r) by ring. replace (c 1%nat - c 1%nat) with 0 by ring. rewrite norm2_0, E. reflexivity.
      * exists (fun i => c i + r / d * (x i - c i)). rewrite <- !norm2_distance. split.
        -- replace (c 0%nat + r / d * (x 0%nat - c 0%nat) - c 0%nat) with (r / d * (x 0%nat - c 0%nat)) by ring.
           replace (c 1%nat + r / d * (x 1%nat - c 1%nat) - c 1%nat) with (r / d * (x 1%nat - c 1%nat)) by ring.
           rewrite norm2_scale by (apply Rdiv_le_0_compat; lra). rewrite norm2_distance. fold d. field. lra.
        -- assert (H : forall t, norm2 (t * (x 0%nat - c 0%nat)) (t * (x 1%nat - c 1%nat)) = Rabs t * d).
           { intros t. unfold d. rewrite <- norm2_distance, <- norm2_scale by apply Rabs_pos. unfold norm2. f_equal.
             assert (Et : Rabs t * Rabs t = t * t) by (rewrite <- Rabs_mult; apply Rabs_pos_eq, Rle_0_sqr).
             transitivity (Rabs t * Rabs t * ((x 0%nat - c 0%nat) * (x 0%nat - c 0%nat) + (x 1%nat - c 1%nat) * (x 1%nat - c 1%nat))); [rewrite Et|]; ring. }
           replace (x 0%nat - (c 0%nat + r / d * (x 0%nat - c 0%nat))) with ((d - r) / d * (x 0%nat - c 0%nat)) by (field; lra).
           replace (x 1%nat - (c 1%nat + r / d * (x 1%nat - c 1%nat))) with ((d - r) / d * (x 1%nat - c 1%nat)) by (field; lra).
           rewrite H. unfold Rdiv. rewrite Rabs_mult, (Rabs_pos_eq (/ d)) by (left; apply Rinv_0_lt_compat; lra). field. lra.
    + cbn [eval on_boundary]. destruct (box_decide a x) as [h|h].
      * assert (Hm : forall i, (i < 2)%nat -> box_eval a x = depth a x i -> exists y, (region (AlignedBox a) y /\ exists i, (i < 2)%nat /\ (y i = bmin a i \/ y i = bmax a i)) /\ distance x y = Rabs (box_eval a x)).
        { intros i Hi E. exists (fun k => if Nat.eqb k i then if Rle_dec (x i) (center a i) then bmin a i else bmax a i else x k). split; [split|].
          - intros k Hk'. destruct (Nat.eqb_spec k i) as [->|]; [|apply h, Hk']. specialize (Hs i Hi). destruct (Rle_dec _ _); lra.
          - exists i. split; [exact Hi|]. rewrite Nat.eqb_refl. destruct (Rle_dec _ _); tauto.
          - rewrite E. assert (Hd : Rabs (depth a x i) = Rabs (x i - (if Rle_dec (x i) (center a i) then bmin a i else bmax a i))).
            { specialize (h i Hi). unfold depth, center, extents in *. unfold Rabs. destruct (Rle_dec _ _); repeat destruct (Rcase_abs _); lra. }
            rewrite Hd. rewrite <- norm2_distance. destruct i as [|[|]]; [| |lia]; cbn [Nat.eqb];
              [replace (x 1%nat - x 1%nat) with 0 by ring; apply norm2_0 | replace (x 0%nat - x 0%nat) with 0 by ring; apply norm2_0l]. }
        pose proof (eval_inside a x h) as E. unfold Rmax in E. destruct (Rle_dec _ _); [apply (Hm 1%nat) | apply (Hm 0%nat)]; (lia || exact E).
      * destruct (eval_outside a Hs x h) as [E Hp]. exists (clamp a x). split; [|rewrite Rabs_pos_eq by lra; symmetry; exact E]. split; [apply clamp_in, Hs|].
        rewrite inside_depth in h. assert (Hex : exists i, (i < 2)%nat /\ 0 < depth a x i).
        { destruct (Rlt_dec 0 (depth a x 0)); [exists 0%nat; split; [lia | assumption]|]. destruct (Rlt_dec 0 (depth a x 1)); [exists 1%nat; split; [lia | assumption]|]. exfalso. apply h. lra. }
        destruct Hex as [i [Hi Hdi]]. exists i. split; [exact Hi|]. specialize (Hs i Hi). unfold depth, center, extents in Hdi. unfold clamp, Rmax, Rmin.
        unfold Rabs in Hdi. destruct (Rcase_abs _); repeat destruct (Rle_dec _ _); lra.
Qed.
Print Assumptions C94_boundary.

(** In a union the value is only a bound of the distance to the boundary: no point outside is closer. *)
Theorem C94_inside s x y : valid s -> region s x -> ~ region s y -> - eval s x <= distance x y.
Proof.
  intros Hs Hx Hy. pose proof (C94_lipschitz s x y Hs) as H. apply Rabs_le_between in H. rewrite <- C94_region in Hy by exact Hs. lra.
Qed.
Print Assumptions C94_inside.
(** It is not the distance: in the middle of two overlapping circles it is smaller. *)
Definition two_circles : sdf := Union (Circle 1 (fun _ => 0)) (Circle 1 (fun i => match i with O => 1 | _ => 0 end)).
Definition middle : vec := fun i => match i with O => 1 / 2 | _ => 0 end.
Theorem C94_union_refuted : exists s x, valid s /\ region s x /\ forall y, ~ region s y -> - eval s x + 3 / 10 <= distance x y.
Proof.
  exists two_circles, middle.
  assert (E : eval two_circles middle = - (1 / 2)).
  { cbn. rewrite Rminus_0_r, Rminus_0_r, norm2_0. replace (1 / 2 - 1) with (- (1 / 2)) by lra. rewrite norm2_0, Rabs_Ropp, Rabs_pos_eq by lra. rewrite Rmin_left; lra. }
  split; [cbn; lra|]. split; [apply C94_region; [cbn; lra | rewrite E; lra]|]. intros y Hy. rewrite E. cbn [two_circles region] in Hy.
  apply Decidable.not_or in Hy as [H1 H2]. apply Rnot_le_lt in H1. apply Rnot_le_lt in H2. unfold distance in *.
  assert (Hsq : forall z, 1 < sqrt z -> 1 < z).
  { intros z Hz. destruct (Rle_lt_dec z 1) as [h|h]; [|exact h]. exfalso. apply sqrt_le_1_alt in h. rewrite sqrt_1 in h. lra. }
  apply Hsq in H1. apply Hsq in H2. cbn [middle] in *. replace (- - (1 / 2) + 3 / 10) with (sqrt ((8 / 10) ^ 2)) by (rewrite sqrt_pow2; lra). apply sqrt_le_1_alt. nra.
Qed.
Print Assumptions C94_union_refuted.

(** ** Bounding boxes *)
(** Bounding boxes of valid functions exist and contain the region. *)
Theorem C94_bounds s : valid s -> exists b, sdf_bounds s = Some b /\ (forall i, (i < 2)%nat -> bmin b i <= bmax b i) /\ forall x, region s x -> forall i, (i < 2)%nat -> bmin b i <= x i <= bmax b i.
Proof.
  assert (Hnew : forall lo hi : vec, (forall i, (i < 2)%nat -> lo i <= hi i) -> aabb_new 2 lo hi = Some (Aabb lo hi)).
  { intros lo hi H. unfold aabb_new, rleb. cbn. destruct (Rle_dec (lo 0%nat) (hi 0%nat)) as [_|h]; [|exfalso; apply h, H; lia]. destruct (Rle_dec (lo 1%nat) (hi 1%nat)) as [_|h]; [reflexivity | exfalso; apply h, H; lia]. }
  induction s as [r c|a|l IHl r IHr]; intros Hs.
  - cbn in Hs. cbn [sdf_bounds]. rewrite Hnew by (intros; lra). eexists. split; [reflexivity|]. cbn [bmin bmax]. split; [intros; lra|]. intros x Hx i Hi. cbn in Hx.
    pose proof (distance_coord x c i Hi) as H. apply Rabs_le_between in H. lra.
  - exists a. split; [reflexivity|]. split; [exact Hs | intros x Hx; exact Hx].
  - destruct Hs as [Hl Hr]. destruct (IHl Hl) as [bl [El [Vl Bl]]]. destruct (IHr Hr) as [br [Er [Vr Br]]]. cbn [sdf_bounds]. rewrite El, Er. unfold enclose.
    assert (Hle : forall i, (i < 2)%nat -> Rmin (bmin bl i) (bmin br i) <= Rmax (bmax bl i) (bmax br i)).
    { intros i Hi. specialize (Vl i Hi). pose proof (Rmin_l (bmin bl i) (bmin br i)). pose proof (Rmax_l (bmax bl i) (bmax br i)). lra. }
    rewrite Hnew by exact Hle. eexists. split; [reflexivity|]. cbn [bmin bmax]. split; [exact Hle|]. intros x [Hx|Hx] i Hi.
    + specialize (Bl x Hx i Hi). pose proof (Rmin_l (bmin bl i) (bmin br i)). pose proof (Rmax_l (bmax bl i) (bmax br i)). lra.
    + specialize (Br x Hx i Hi). pose proof (Rmin_r (bmin bl i) (bmin br i)). pose proof (Rmax_r (bmax bl i) (bmax br i)). lra.
Qed.
Print Assumptions C94_bounds.

(** ** Gradients *)
Definition along (x v : vec) (t : R) : vec := fun i => x i + t * v i.
(** points where the gradient should be right: off the centre of a circle; in the strip beside a side of a box, with a margin of the step of the differences;
    where the functions of a union differ *)
Fixpoint regular (s : sdf) (x : vec) : Prop :=
  match s with
  | Circle r c => 0 < distance x c
  | AlignedBox a => exists i j, ((i = 0 /\ j = 1) \/ (i = 1 /\ j = 0))%nat /\ depth a x j <= - step /\ depth a x j + 2 * step < depth a x i /\ step < Rabs (x i - center a i)
  | Union l r => (eval l x < eval r x /\ regular l x) \/ (eval r x < eval l x /\ regular r x)
  end.
Lemma box_strip a x i j : ((i = 0 /\ j = 1) \/ (i = 1 /\ j = 0))%nat -> depth a x j <= 0 -> depth a x j <= depth a x i -> box_eval a x = depth a x i.
Proof.
  intros Hij Hj H. rewrite box_eval_depth. destruct Hij as [[-> ->]|[-> ->]].
  - rewrite (Rmax_right (depth a x 1) 0), norm2_0, (Rmax_left (depth a x 0) (depth a x 1)) by assumption. unfold Rmax, Rmin, Rabs. repeat destruct (Rle_dec _ _); repeat destruct (Rcase_abs _); lra.
  - rewrite (Rmax_right (depth a x 0) 0), norm2_0l, (Rmax_right (depth a x 0) (depth a x 1)) by assumption. unfold Rmax, Rmin, Rabs. repeat destruct (Rle_dec _ _); repeat destruct (Rcase_abs _); lra.
Qed.
Definition side (t : R) : R := if Rle_dec 0 t then 1 else -1.
Lemma box_gradient_strip a x i j : ((i = 0 /\ j = 1) \/ (i = 1 /\ j = 0))%nat -> depth a x j <= - step -> depth a x j + 2 * step < depth a x i -> step < Rabs (x i - center a i) ->
  exists g, box_gradient a x = Gradient g /\ g i = side (x i - center a i) /\ g j = 0.
Proof.
  intros Hij Hj Hij' Hi. assert (Hst : 0 < step) by (unfold step; lra).
  assert (Hne : i <> j) by (destruct Hij as [[-> ->]|[-> ->]]; lia).
  assert (Hsh : forall k h, Rabs h <= step -> box_eval a (shift x k h) = depth a (shift x k h) i).
  { intros k h Hh. assert (Hd : forall m, Rabs (depth a (shift x k h) m - depth a x m) <= step).
    { intros m. unfold depth, shift. destruct (Nat.eqb_spec m k); [|replace (_ - _) with 0 by ring; rewrite Rabs_R0; lra].
      pose proof (Rabs_triang_inv2 (x m + h - center a m) (x m - center a m)) as H. replace (x m + h - center a m - (x m - center a m)) with h in H by ring.
      replace (Rabs (x m + h - center a m) - extents a m / 2 - (Rabs (x m - center a m) - extents a m / 2)) with (Rabs (x m + h - center a m) - Rabs (x m - center a m)) by ring. lra. }
    pose proof (Hd i) as H1. pose proof (Hd j) as H2. apply Rabs_le_between in H1. apply Rabs_le_between in H2. apply (box_strip a _ i j Hij); lra. }
  assert (Hs1 : Rabs step <= step) by (rewrite Rabs_pos_eq; lra). assert (Hs2 : Rabs (- step) <= step) by (rewrite Rabs_Ropp; exact Hs1).
  assert (Hgi : box_difference a x i = side (x i - center a i)).
  { unfold box_difference. rewrite !Hsh by assumption. unfold depth, shift, side. rewrite Nat.eqb_refl. unfold Rabs in *. destruct (Rle_dec _ _); repeat destruct (Rcase_abs _); try lra; field; lra. }
  assert (Hgj : box_difference a x j = 0).
  { unfold box_difference. rewrite !Hsh by assumption. unfold depth, shift. destruct (Nat.eqb_spec i j); [contradiction|]. field. lra. }
  assert (Hn : norm2 (box_difference a x 0) (box_difference a x 1) = 1).
  { assert (Hs : Rabs (side (x i - center a i)) = 1) by (unfold side; destruct (Rle_dec _ _); [apply Rabs_R1 | rewrite Rabs_left; lra]).
    destruct Hij as [[-> ->]|[-> ->]]; rewrite Hgi, Hgj; [rewrite norm2_0 | rewrite norm2_0l]; exact Hs. }
  unfold box_gradient. rewrite Hn. destruct (Req_EM_T 1 0); [lra|]. exists (fun k => box_difference a x k / 1). split; [reflexivity|]. rewrite Hgi, Hgj. split; field.
Qed.

Lemma near_zero (e : posreal) t : ball 0 e t -> Rabs t < pos e.
Proof. intros H. change (Rabs (t + - 0) < pos e) in H. rewrite Ropp_0, Rplus_0_r in H. exact H. Qed.

(** At these points the gradient is a unit vector whose products with all directions are the derivatives along them. *)
Theorem C94_gradient s x : valid s -> regular s x ->
  exists g, gradient s x = Gradient g /\ norm2 (g 0%nat) (g 1%nat) = 1 /\
  forall v, is_derive (fun t => eval s (along x v t)) 0 (g 0%nat * v 0%nat + g 1%nat * v 1%nat).
Proof.
  assert (Hmove : forall s x v t, valid s -> Rabs (eval s (along x v t) - eval s x) <= Rabs t * norm2 (v 0%nat) (v 1%nat)).
  { clear. intros s x v t Hs. apply Rle_trans with (1 := C94_lipschitz s _ x Hs). right. rewrite <- norm2_distance. unfold along.
    replace (x 0%nat + t * v 0%nat - x 0%nat) with (t * v 0%nat) by ring. replace (x 1%nat + t * v 1%nat - x 1%nat) with (t * v 1%nat) by ring.
    rewrite <- norm2_scale by apply Rabs_pos. unfold norm2. f_equal. assert (Et : Rabs t * Rabs t = t * t) by (rewrite <- Rabs_mult; apply Rabs_pos_eq, Rle_0_sqr).
    transitivity (Rabs t * Rabs t * (v 0%nat * v 0%nat + v 1%nat * v 1%nat)); [rewrite Et|]; ring. }
  assert (Hlt : forall s s' x v, valid s -> valid s' -> eval s x < eval s' x -> locally 0 (fun t => eval s (along x v t) < eval s' (along x v t))).
  { clear -Hmove. intros s s' x v Hs Hs' H. set (n := norm2 (v 0%nat) (v 1%nat)). assert (Hn : 0 <= n) by apply norm2_pos.
    assert (He : 0 < (eval s' x - eval s x) / (2 * (n + 1))) by (apply Rdiv_lt_0_compat; lra).
    exists (mkposreal _ He). intros t Ht. apply near_zero in Ht. cbn [pos] in Ht.
    pose proof (Hmove s x v t Hs) as H1. pose proof (Hmove s' x v t Hs') as H2. fold n in H1, H2. apply Rabs_le_between in H1. apply Rabs_le_between in H2.
    assert (Htn : Rabs t * n <= (eval s' x - eval s x) / (2 * (n + 1)) * n) by (apply Rmult_le_compat_r; [exact Hn | left; exact Ht]).
    assert (Hq : (eval s' x - eval s x) / (2 * (n + 1)) * n < (eval s' x - eval s x) / 2).
    { replace ((eval s' x - eval s x) / 2) with ((eval s' x - eval s x) / (2 * (n + 1)) * (n + 1)) by (field; lra). apply Rmult_lt_compat_l; lra. }
    lra. }
  revert x. induction s as [r c|a|l IHl r IHr]; intros x Hs Hx.
  - cbn [regular] in Hx. cbn [gradient]. rewrite norm2_distance. destruct (Req_EM_T _ 0) as [h|_]; [lra|]. set (d := distance x c) in *. eexists. split; [reflexivity|]. cbn beta.
    assert (Hd2 : (x 0%nat - c 0%nat) * (x 0%nat - c 0%nat) + (x 1%nat - c 1%nat) * (x 1%nat - c 1%nat) = d * d).
    { unfold d, distance. rewrite sqrt_sqrt by (pose proof (pow2_ge_0 (x 0%nat - c 0%nat)); pose proof (pow2_ge_0 (x 1%nat - c 1%nat)); lra). ring. }
    split.
    + unfold norm2. replace ((x 0%nat - c 0%nat) / d * ((x 0%nat - c 0%nat) / d) + (x 1%nat - c 1%nat) / d * ((x 1%nat - c 1%nat) / d)) with 1; [apply sqrt_1|].
      transitivity (((x 0%nat - c 0%nat) * (x 0%nat - c 0%nat) + (x 1%nat - c 1%nat) * (x 1%nat - c 1%nat)) / (d * d)); [rewrite Hd2; field; lra | field; lra].
    + intros v. cbn [eval]. unfold norm2, along. set (p0 := x 0%nat - c 0%nat) in *. set (p1 := x 1%nat - c 1%nat) in *.
      apply (is_derive_ext (fun t => sqrt ((p0 + t * v 0%nat) * (p0 + t * v 0%nat) + (p1 + t * v 1%nat) * (p1 + t * v 1%nat)) - r)).
      { intros t. unfold p0, p1. f_equal. f_equal. ring. }
      assert (Hs0 : sqrt ((p0 + 0 * v 0%nat) * (p0 + 0 * v 0%nat) + (p1 + 0 * v 1%nat) * (p1 + 0 * v 1%nat)) = d).
      { replace ((p0 + 0 * v 0%nat) * (p0 + 0 * v 0%nat) + (p1 + 0 * v 1%nat) * (p1 + 0 * v 1%nat)) with (d * d) by (rewrite <- Hd2; ring). apply sqrt_square. lra. }
      auto_derive.
      * replace ((p0 + 0 * v 0%nat) * (p0 + 0 * v 0%nat) + (p1 + 0 * v 1%nat) * (p1 + 0 * v 1%nat)) with (d * d) by (rewrite <- Hd2; ring). nra.
      * rewrite Hs0. field. lra.
  - cbn [regular] in Hx. destruct Hx as [i [j [Hij [Hj [Hij' Hi]]]]]. destruct (box_gradient_strip a x i j Hij Hj Hij' Hi) as [g [Eg [Hgi Hgj]]].
    exists g. split; [exact Eg|]. assert (Hst : 0 < step) by (unfold step; lra).
    assert (Hs1 : side (x i - center a i) * side (x i - center a i) = 1) by (unfold side; destruct (Rle_dec _ _); ring). split.
    { unfold norm2. destruct Hij as [[-> ->]|[-> ->]]; rewrite Hgi, Hgj; [rewrite Rmult_0_r, Rplus_0_r | rewrite Rmult_0_r, Rplus_0_l]; rewrite Hs1; apply sqrt_1. }
    intros v. replace (g 0%nat * v 0%nat + g 1%nat * v 1%nat) with (side (x i - center a i) * v i) by (destruct Hij as [[-> ->]|[-> ->]]; rewrite Hgi, Hgj; ring).
    cbn [eval]. apply (is_derive_ext_loc (fun t => side (x i - center a i) * (x i + t * v i - center a i) - extents a i / 2)).
    + set (n := Rabs (v 0%nat) + Rabs (v 1%nat)). assert (Hn : 0 <= n) by (unfold n; pose proof (Rabs_pos (v 0%nat)); pose proof (Rabs_pos (v 1%nat)); lra).
      assert (He : 0 < step / (n + 1)) by (apply Rdiv_lt_0_compat; lra). exists (mkposreal _ He). intros t Ht. apply near_zero in Ht. cbn [pos] in Ht.
      assert (Hm : forall m, (m < 2)%nat -> Rabs (t * v m) <= step).
      { intros m Hm. rewrite Rabs_mult. assert (Hv : Rabs (v m) <= n) by (unfold n; pose proof (Rabs_pos (v 0%nat)); pose proof (Rabs_pos (v 1%nat)); destruct m as [|[|]]; [lra | lra | lia]).
        apply Rle_trans with (step / (n + 1) * (n + 1)); [|right; field; lra]. apply Rmult_le_compat; try apply Rabs_pos; lra. }
      assert (Hd : forall m, (m < 2)%nat -> Rabs (depth a (along x v t) m - depth a x m) <= step).
      { intros m Hm'. apply Rle_trans with (2 := Hm m Hm'). unfold depth, along. pose proof (Rabs_triang_inv2 (x m + t * v m - center a m) (x m - center a m)) as H.
        replace (x m + t * v m - center a m - (x m - center a m)) with (t * v m) in H by ring.
        replace (Rabs (x m + t * v m - center a m) - extents a m / 2 - (Rabs (x m - center a m) - extents a m / 2)) with (Rabs (x m + t * v m - center a m) - Rabs (x m - center a m)) by ring. exact H. }
      assert (Hi2 : (i < 2)%nat) by (destruct Hij as [[-> ->]|[-> ->]]; lia). assert (Hj2 : (j < 2)%nat) by (destruct Hij as [[-> ->]|[-> ->]]; lia).
      pose proof (Hd i Hi2) as H1. pose proof (Hd j Hj2) as H2. apply Rabs_le_between in H1. apply Rabs_le_between in H2. rewrite (box_strip a _ i j Hij) by lra.
      pose proof (Hm i Hi2) as H3. apply Rabs_le_between in H3. unfold depth, along, side. unfold Rabs in Hi |- *. destruct (Rle_dec _ _); repeat destruct (Rcase_abs _); lra.
    + auto_derive; [exact I | ring].
  - destruct Hs as [Hl Hr]. cbn [regular] in Hx. cbn [gradient eval]. destruct Hx as [[H Hx]|[H Hx]].
    + destruct (Rlt_dec _ _); [|contradiction]. destruct (IHl x Hl Hx) as [g [Eg [Hg Hd]]]. exists g. split; [exact Eg|]. split; [exact Hg|]. intros v.
      apply (is_derive_ext_loc (fun t => eval l (along x v t))); [|apply Hd]. generalize (Hlt l r x v Hl Hr H). apply filter_imp. intros t Ht. symmetry. apply Rmin_left. lra.
    + destruct (Rlt_dec _ _); [lra|]. destruct (IHr x Hr Hx) as [g [Eg [Hg Hd]]]. exists g. split; [exact Eg|]. split; [exact Hg|]. intros v.
      apply (is_derive_ext_loc (fun t => eval r (along x v t))); [|apply Hd]. generalize (Hlt r l x v Hr Hl H). apply filter_imp. intros t Ht. symmetry. apply Rmin_right. lra.
Qed.
Print Assumptions C94_gradient.

(** Moving such a point outside of the region against the gradient by the value brings it onto the boundary, where the value is zero. *)
Definition project (x g : vec) (phi : R) : vec := fun i => x i - g i * phi.
Theorem C94_project s x : valid s -> regular s x -> 0 < eval s x -> exists g, gradient s x = Gradient g /\ eval s (project x g (eval s x)) = 0.
Proof.
  intros Hs Hx Hp. destruct (C94_gradient s x Hs Hx) as [g [Eg [Hg _]]]. exists g. split; [exact Eg|]. apply Rle_antisym.
  - clear Hg. revert g Eg Hx Hp. induction s as [r c|a|l IHl r IHr]; intros g Eg Hx Hp.
    + cbn [gradient] in Eg. rewrite norm2_distance in Eg. destruct (Req_EM_T _ 0) as [h|h]; [discriminate|]. injection Eg as <-. rewrite circle_eval in Hp. rewrite !circle_eval.
      set (d := distance x c) in *. cbn in Hs. right. rewrite <- norm2_distance. unfold project.
      replace (x 0%nat - (x 0%nat - c 0%nat) / d * (d - r) - c 0%nat) with (r / d * (x 0%nat - c 0%nat)) by (field; lra).
      replace (x 1%nat - (x 1%nat - c 1%nat) / d * (d - r) - c 1%nat) with (r / d * (x 1%nat - c 1%nat)) by (field; lra).
      rewrite norm2_scale by (apply Rdiv_le_0_compat; lra). rewrite norm2_distance. fold d. field. lra.
    + destruct Hx as [i [j [Hij [Hj [Hij' Hi]]]]]. destruct (box_gradient_strip a x i j Hij Hj Hij' Hi) as [g' [Eg' [Hgi Hgj]]]. cbn [gradient] in Eg. rewrite Eg in Eg'. injection Eg' as <-.
      assert (Hst : 0 < step) by (unfold step; lra). cbn [eval] in *. pose proof (box_strip a x i j Hij ltac:(lra) ltac:(lra)) as Ex. rewrite Ex in *.
      assert (Hdi : depth a (project x g (depth a x i)) i = 0).
      { unfold project. unfold depth at 1. rewrite Hgi. assert (Hext : 0 <= extents a i / 2) by (cbn in Hs; unfold extents; specialize (Hs i ltac:(destruct Hij as [[-> ->]|[-> ->]]; lia)); lra).
        unfold depth, side in *. unfold Rabs in *. destruct (Rle_dec _ _); repeat destruct (Rcase_abs _); lra. }
      assert (Hdj : depth a (project x g (depth a x i)) j = depth a x j) by (unfold project; unfold depth at 1; rewrite Hgj, Rmult_0_l, Rminus_0_r; reflexivity).
      rewrite (box_strip a _ i j Hij); lra.
    + destruct Hs as [Hl Hr]. cbn [gradient eval] in *. destruct Hx as [[H Hx]|[H Hx]].
      * destruct (Rlt_dec _ _); [|contradiction]. rewrite (Rmin_left (eval l x) (eval r x)) in * by lra. apply Rle_trans with (1 := Rmin_l _ _). apply IHl; assumption.
      * destruct (Rlt_dec _ _); [lra|]. rewrite (Rmin_right (eval l x) (eval r x)) in * by lra. apply Rle_trans with (1 := Rmin_r _ _). apply IHr; assumption.
  - pose proof (C94_lipschitz s x (project x g (eval s x)) Hs) as H. apply Rabs_le_between in H.
    assert (Hd : distance x (project x g (eval s x)) = eval s x).
    { rewrite <- norm2_distance. unfold project.
      replace (x 0%nat - (x 0%nat - g 0%nat * eval s x)) with (eval s x * g 0%nat) by ring. replace (x 1%nat - (x 1%nat - g 1%nat * eval s x)) with (eval s x * g 1%nat) by ring.
      rewrite norm2_scale, Hg by lra. ring. }
    lra.
Qed.
Print Assumptions C94_project.

(** The gradient of a box is computed as a quotient of differences; at its centre all differences vanish, and normalising gives no number. *)
Theorem C94_box_centre a : box_gradient a (center a) = NotANumber.
Proof.
  assert (H : forall k, box_difference a (center a) k = 0).
  { intros k. unfold box_difference. replace (box_eval a (shift (center a) k (- step))) with (box_eval a (shift (center a) k step)); [field; unfold step; lra|].
    assert (Hd : forall m, depth a (shift (center a) k step) m = depth a (shift (center a) k (- step)) m).
    { intros m. unfold depth, shift. destruct (m =? k)%nat; [|reflexivity]. replace (center a m + - step - center a m) with (- (center a m + step - center a m)) by ring. rewrite Rabs_Ropp. reflexivity. }
    rewrite !box_eval_depth, !Hd. reflexivity. }
  unfold box_gradient. rewrite !H, norm2_0, Rabs_R0. destruct (Req_EM_T 0 0); [reflexivity | contradiction].
Qed.
Print Assumptions C94_box_centre.
Theorem C94_gradient_refuted : exists s x, valid s /\ region s x /\ gradient s x = NotANumber.
Proof.
  exists (AlignedBox (Aabb (fun _ => 0) (fun _ => 1))), (center (Aabb (fun _ => 0) (fun _ => 1))). split; [cbn; intros; lra|]. split; [|apply C94_box_centre].
  cbn. intros i Hi. unfold center. cbn. lra.
Qed.
Print Assumptions C94_gradient_refuted.

Lemma quotients p q h : 0 < h -> h < p -> p < q ->
  (norm2 (p + h) q - norm2 (p - h) q) * q < p * (norm2 p (q + h) - norm2 p (q - h)) /\ 0 < norm2 (p + h) q - norm2 (p - h) q.
Proof.
  intros Hh Hp Hq. set (u := norm2 (p + h) q). set (v := norm2 (p - h) q). set (w := norm2 p (q + h)). set (z := norm2 p (q - h)).
  assert (Hu : u * u = (p + h) * (p + h) + q * q) by (apply sqrt_sqrt; nra). assert (Hv : v * v = (p - h) * (p - h) + q * q) by (apply sqrt_sqrt; nra).
  assert (Hw : w * w = p * p + (q + h) * (q + h)) by (apply sqrt_sqrt; nra). assert (Hz : z * z = p * p + (q - h) * (q - h)) by (apply sqrt_sqrt; nra).
  assert (Pu : 0 < u) by (apply sqrt_lt_R0; nra). assert (Pv : 0 < v) by (apply sqrt_lt_R0; nra). assert (Pw : 0 < w) by (apply sqrt_lt_R0; nra). assert (Pz : 0 < z) by (apply sqrt_lt_R0; nra).
  clearbody u v w z.
  assert (H1 : w * z < u * v).
  { apply Rsqr_incrst_0; [|nra|nra]. unfold Rsqr. replace (w * z * (w * z)) with ((w * w) * (z * z)) by ring. replace (u * v * (u * v)) with ((u * u) * (v * v)) by ring.
    rewrite Hu, Hv, Hw, Hz. apply Rminus_gt_0_lt. replace (_ - _) with (4 * (h * h) * (q * q - p * p)) by ring. apply Rmult_lt_0_compat; nra. }
  assert (H2 : w + z < u + v) by (apply Rsqr_incrst_0; [unfold Rsqr; nra | lra | lra]).
  assert (E1 : (u - v) * (u + v) = 4 * p * h) by (replace ((u - v) * (u + v)) with (u * u - v * v) by ring; rewrite Hu, Hv; ring).
  assert (E2 : (w - z) * (w + z) = 4 * q * h) by (replace ((w - z) * (w + z)) with (w * w - z * z) by ring; rewrite Hw, Hz; ring).
  assert (F1 : u - v = 4 * p * h / (u + v)) by (rewrite <- E1; field; lra). assert (F2 : w - z = 4 * q * h / (w + z)) by (rewrite <- E2; field; lra).
  split.
  - rewrite F1, F2. replace (4 * p * h / (u + v) * q) with (4 * p * q * h * / (u + v)) by (field; lra). replace (p * (4 * q * h / (w + z))) with (4 * p * q * h * / (w + z)) by (field; lra).
    apply Rmult_lt_compat_l; [|apply Rinv_lt_contravar; [apply Rmult_lt_0_compat; lra | exact H2]]. repeat apply Rmult_lt_0_compat; lra.
  - rewrite F1. apply Rdiv_lt_0_compat; [|lra]. repeat apply Rmult_lt_0_compat; lra.
Qed.
(** The quotients are not the derivatives either: moving a point beyond a corner of a box by the value against the gradient leaves it outside of the box,
    off the diagonals. *)
Theorem C94_corner a x p q : valid (AlignedBox a) -> step < p -> p < q -> x 0%nat = bmax a 0%nat + p -> x 1%nat = bmax a 1%nat + q ->
  exists g, gradient (AlignedBox a) x = Gradient g /\ 0 < eval (AlignedBox a) (project x g (eval (AlignedBox a) x)).
Proof.
  intros Ha Hp Hq H0 H1. assert (Hst : 0 < step) by (unfold step; lra). set (h := step) in *. cbn in Ha.
  assert (Hd : forall y i, (i < 2)%nat -> bmax a i <= y i -> depth a y i = y i - bmax a i).
  { intros y i Hi Hy. unfold depth, center, extents. specialize (Ha i Hi). rewrite Rabs_pos_eq; lra. }
  assert (He : forall y, bmax a 0%nat <= y 0%nat -> bmax a 1%nat <= y 1%nat -> box_eval a y = norm2 (y 0%nat - bmax a 0%nat) (y 1%nat - bmax a 1%nat)).
  { intros y Y0 Y1. rewrite box_eval_depth, !Hd by (try lia; assumption). rewrite (Rmax_left _ 0), (Rmax_left (y 1%nat - _) 0) by lra. rewrite Rmin_left; [ring|].
    apply Rle_trans with (2 := Rmax_l _ _). lra. }
  assert (D0 : box_difference a x 0 = (norm2 (p + h) q - norm2 (p - h) q) / (2 * h)).
  { unfold box_difference. fold h. rewrite !He by (unfold shift; cbn; lra). unfold shift. cbn. rewrite H0, H1. do 3 f_equal; ring. }
  assert (D1 : box_difference a x 1 = (norm2 p (q + h) - norm2 p (q - h)) / (2 * h)).
  { unfold box_difference. fold h. rewrite !He by (unfold shift; cbn; lra). unfold shift. cbn. rewrite H0, H1. do 3 f_equal; ring. }
  destruct (quotients p q h Hst Hp Hq) as [Q1 Q2]. set (A := box_difference a x 0) in *. set (B := box_difference a x 1) in *.
  assert (PA : 0 < A) by (rewrite D0; apply Rdiv_lt_0_compat; lra).
  assert (PAB : A * q < p * B).
  { rewrite D0, D1. replace (_ / (2 * h) * q) with ((norm2 (p + h) q - norm2 (p - h) q) * q * / (2 * h)) by (field; lra).
    replace (p * (_ / (2 * h))) with (p * (norm2 p (q + h) - norm2 p (q - h)) * / (2 * h)) by (field; lra). apply Rmult_lt_compat_r; [apply Rinv_0_lt_compat; lra | exact Q1]. }
  assert (PB : 0 < B) by nra. set (n := norm2 A B). assert (Pn : 0 < n) by (apply sqrt_lt_R0; nra). assert (En : n * n = A * A + B * B) by (apply sqrt_sqrt; nra).
  cbn [gradient]. unfold box_gradient. fold A B n. destruct (Req_EM_T n 0); [lra|]. eexists. split; [reflexivity|]. cbn [eval]. rewrite (He x) by lra. rewrite H0, H1.
  replace (bmax a 0%nat + p - bmax a 0%nat) with p by ring. replace (bmax a 1%nat + q - bmax a 1%nat) with q by ring.
  set (r := norm2 p q). assert (Er : r * r = p * p + q * q) by (apply sqrt_sqrt; nra). assert (Pr : 0 < r) by (apply sqrt_lt_R0; nra). clearbody r n.
  assert (Hlt : A / n * r < p).
  { apply (Rmult_lt_reg_r n); [exact Pn|]. replace (A / n * r * n) with (A * r) by (field; lra). apply Rsqr_incrst_0; [|apply Rlt_le, Rmult_lt_0_compat; lra | apply Rlt_le, Rmult_lt_0_compat; lra]. unfold Rsqr.
    replace (A * r * (A * r)) with (A * A * (r * r)) by ring. replace (p * n * (p * n)) with (p * p * (n * n)) by ring. rewrite Er, En.
    assert (A * q * (A * q) < p * B * (p * B)) by (apply Rmult_le_0_lt_compat; try lra; apply Rlt_le, Rmult_lt_0_compat; lra). lra. }
  apply Rnot_le_lt. intros Hle. apply (C94_region (AlignedBox a) _ Ha) in Hle. cbn in Hle. specialize (Hle 0%nat ltac:(lia)). unfold project in Hle. rewrite H0 in Hle. fold A in Hle. lra.
Qed.
Print Assumptions C94_corner.
Theorem C94_project_refuted : exists s x g, valid s /\ gradient s x = Gradient g /\ 0 < eval s (project x g (eval s x)).
Proof.
  set (a := Aabb (fun _ => 0) (fun _ => 1)). assert (Ha : valid (AlignedBox a)) by (cbn; intros; lra).
  destruct (C94_corner a (fun i => match i with O => 2 | _ => 3 end) 1 2 Ha) as [g [Eg H]]; [unfold step; lra | lra | cbn; lra | cbn; lra|].
  exists (AlignedBox a), (fun i => match i with O => 2 | _ => 3 end), g. auto.
Qed.
Print Assumptions C94_project_refuted.

(** ** An example: a circle beside a box *)
Definition unit_box : aabb := Aabb (fun _ => 0) (fun _ => 1).
Definition lollipop : sdf := Union (AlignedBox unit_box) (Circle 2 (fun i => match i with O => 5 | _ => 0 end)).
Definition beside : vec := fun i => match i with O => 3 / 2 | _ => 1 / 2 end.
Example C94_example : valid lollipop /\ regular lollipop beside /\ eval lollipop beside = 1 / 2.
Proof.
  assert (Hb : box_eval unit_box beside = 1 / 2).
  { rewrite (box_strip unit_box beside 0 1); unfold depth, center, extents, unit_box, beside; cbn [bmin bmax]; [|left; split; reflexivity| |]; unfold Rabs; repeat destruct (Rcase_abs _); lra. }
  assert (Hc : 1 < eval (Circle 2 (fun i => match i with O => 5 | _ => 0 end)) beside).
  { cbn. unfold norm2. assert (3 < sqrt ((3 / 2 - 5) * (3 / 2 - 5) + (1 / 2 - 0) * (1 / 2 - 0))); [|lra]. rewrite <- (sqrt_square 3) at 1 by lra. apply sqrt_lt_1; lra. }
  split; [|split].
  - split; [|cbn; lra]. cbn. intros; lra.
  - left. split; [cbn [eval] in Hc |- *; rewrite Hb; lra|]. exists 0%nat, 1%nat. split; [left; split; reflexivity|]. unfold depth, center, extents, unit_box, beside, step; cbn [bmin bmax].
    unfold Rabs; repeat destruct (Rcase_abs _); lra.
  - cbn [eval lollipop] in *. rewrite Hb. apply Rmin_left. lra.
Qed.

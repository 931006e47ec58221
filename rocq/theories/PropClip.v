(** C44, convex polygons: clipping gives exactly the common part and keeps polygons convex. *)
From Coq Require Import Reals List Lra Lia Psatz Bool Arith.
From Verif Require Import CgModel CgSpec GeomModel GeomSpec PropSeg PropPolygon.
Import ListNotations.
Open Scope R_scope.

Lemma hull_mono vs ws x : (forall v, In v vs -> hull ws v) -> hull vs x -> hull ws x.
Proof. intros H Hx. induction Hx; [apply H; assumption|apply hull_mix; assumption]. Qed.
Lemma left_mix a b x y t : left_of a b (mix x y t) = (1 - t) * left_of a b x + t * left_of a b y.
Proof. unfold left_of, mix; cbn. ring. Qed.
Lemma hull_left vs a b x : (forall v, In v vs -> 0 <= left_of a b v) -> hull vs x -> 0 <= left_of a b x.
Proof. intros H Hx. induction Hx as [|x y t ? IHx ? IHy Ht]; [apply H; assumption|]. rewrite left_mix. nra. Qed.
Lemma hull_side h vs x : (forall v, In v vs -> signed_dist h v <= 0) -> hull vs x -> signed_dist h x <= 0.
Proof. intros H Hx. induction Hx as [|x y t ? IHx ? IHy Ht]; [apply H; assumption|]. rewrite dist_mix. nra. Qed.
Lemma hull_out h vs x : (forall v, In v vs -> 0 < signed_dist h v) -> hull vs x -> 0 < signed_dist h x.
Proof.
  intros H Hx. induction Hx as [|x y t ? IHx ? IHy Ht]; [apply H; assumption|]. rewrite dist_mix.
  destruct (Req_dec t 0) as [->|]; [lra|]. assert (0 <= (1 - t) * signed_dist h x) by (apply Rmult_le_pos; lra). assert (0 < t * signed_dist h y) by (apply Rmult_lt_0_compat; lra). lra.
Qed.
Lemma hull_between vs a b x : hull vs a -> hull vs b -> between a b x -> hull vs x.
Proof. intros A B (t & Ht & ->). apply hull_mix; assumption. Qed.

Definition convex (vs : list (R * R)) : Prop := forall e v, In e (edges vs) -> In v vs -> 0 <= left_of (fst e) (snd e) v.
Lemma convex_iff vs : convex_polygon vs <-> convex vs.
Proof.
  split.
  - intros H e v He Hv. rewrite edges_corner in He. apply in_map_iff in He. destruct He as (i & <- & Hi). apply in_seq in Hi.
    destruct (In_nth vs v (0, 0) Hv) as (j & Hj & Ej). specialize (H i j ltac:(lia) Hj).
    assert (corner vs j = v) as E by (unfold corner; rewrite Nat.mod_small by exact Hj; exact Ej). rewrite E in H. exact H.
  - intros H i j Hi Hj. apply (H (corner vs i, corner vs (i + 1))).
    + rewrite edges_corner. apply in_map_iff. exists i. split; [reflexivity|]. apply in_seq. lia.
    + unfold corner. apply nth_In, Nat.mod_upper_bound. lia.
Qed.

Lemma edges_in (vs : list (R * R)) e : In e (edges vs) -> In (fst e) vs /\ In (snd e) vs.
Proof.
  rewrite edges_corner. intros He. apply in_map_iff in He. destruct He as (i & <- & Hi). apply in_seq in Hi.
  split; unfold corner; cbn [fst snd]; apply nth_In, Nat.mod_upper_bound; lia.
Qed.

Section Convex.
  Variable h : half_plane.
  Hypothesis normal : hp_normal h <> (0, 0).
  Let d := signed_dist h.
  (** direction of the border with the half plane on its left *)
  Let u : R * R := (- snd (hp_normal h), fst (hp_normal h)).

  (** the point of the border at parameter [s] from [p] *)
  Lemma border_param p q : d p = 0 -> d q = 0 -> exists s, q = (fst p + s * fst u, snd p + s * snd u).
  Proof.
    unfold d, signed_dist, vdot, vsub, u. destruct (hp_normal h) as [nx ny] eqn:E. cbn [fst snd]. intros Hp Hq.
    assert (N : 0 < nx * nx + ny * ny).
    { destruct (Req_dec nx 0) as [->|]; [destruct (Req_dec ny 0) as [->|]; [congruence|nra]|nra]. }
    exists ((nx * (snd q - snd p) - ny * (fst q - fst p)) / (nx * nx + ny * ny)).
    assert (K : nx * (fst q - fst p) + ny * (snd q - snd p) = 0) by lra.
    destruct p as [px py], q as [qx qy]. cbn [fst snd] in *. f_equal; apply Rmult_eq_reg_r with (nx * nx + ny * ny); try lra; field_simplify; try lra.
    - replace (qx * nx ^ 2 + qx * ny ^ 2) with (qx * nx ^ 2 + qx * ny ^ 2 - nx * (nx * (qx - px) + ny * (qy - py))) by (rewrite K; ring). ring.
    - replace (qy * nx ^ 2 + qy * ny ^ 2) with (qy * nx ^ 2 + qy * ny ^ 2 - ny * (nx * (qx - px) + ny * (qy - py))) by (rewrite K; ring). ring.
  Qed.

  (** how far along the border a point is, compared with the cut of an edge *)
  Lemma left_cut a b s : d a <> d b -> left_of a b (fst (cut h a b) + s * fst u, snd (cut h a b) + s * snd u) = s * (d b - d a).
  Proof.
    intros N. unfold cut. set (t := _ / _). unfold left_of, mix, u, d, signed_dist, vdot, vsub; cbn [fst snd]. ring.
  Qed.

  Lemma exit_before a b c : d a <= 0 < d b -> d c = 0 -> 0 <= left_of a b c -> exists s, 0 <= s /\ c = (fst (cut h a b) + s * fst u, snd (cut h a b) + s * snd u).
  Proof.
    intros Hab Hc L. destruct (border_param (cut h a b) c) as (s & E); [apply cut_border; unfold d in *; lra|exact Hc|]. exists s. split; [|exact E].
    rewrite E, left_cut in L by lra. destruct (Rle_lt_dec 0 s); [assumption|]. assert (0 < (- s) * (d b - d a)) by (apply Rmult_lt_0_compat; lra). lra.
  Qed.
  Lemma entry_after a b c : d b <= 0 < d a -> d c = 0 -> 0 <= left_of a b c -> exists s, s <= 0 /\ c = (fst (cut h a b) + s * fst u, snd (cut h a b) + s * snd u).
  Proof.
    intros Hab Hc L. destruct (border_param (cut h a b) c) as (s & E); [apply cut_border; unfold d in *; lra|exact Hc|]. exists s. split; [|exact E].
    rewrite E, left_cut in L by lra. destruct (Rle_lt_dec s 0); [assumption|]. assert (0 < s * (d a - d b)) by (apply Rmult_lt_0_compat; lra). lra.
  Qed.

  (** a point between an exit and an entry *)
  Lemma between_cuts a b a' b' c : d a <= 0 < d b -> d b' <= 0 < d a' -> d c = 0 -> 0 <= left_of a b c -> 0 <= left_of a' b' c ->
    between (cut h a b) (cut h a' b') c.
  Proof.
    intros H1 H2 Hc L1 L2. destruct (exit_before a b c H1 Hc L1) as (s1 & P1 & E1). destruct (entry_after a' b' c H2 Hc L2) as (s2 & P2 & E2).
    set (c1 := cut h a b) in *. set (c2 := cut h a' b') in *.
    assert (X : fst c1 + s1 * fst u = fst c2 + s2 * fst u) by (rewrite E1 in E2; injection E2; auto).
    assert (Y : snd c1 + s1 * snd u = snd c2 + s2 * snd u) by (rewrite E1 in E2; injection E2; auto).
    assert (X2 : fst c2 = fst c1 + (s1 - s2) * fst u) by lra. assert (Y2 : snd c2 = snd c1 + (s1 - s2) * snd u) by lra.
    destruct (Req_dec (s1 - s2) 0) as [Z|N].
    - exists 0. split; [lra|]. assert (s1 = 0) by lra. subst s1. rewrite E1. unfold mix; cbn [fst snd]. f_equal; ring.
    - assert (0 < s1 - s2) by lra. exists (s1 / (s1 - s2)). split.
      + unfold Rdiv. assert (0 < / (s1 - s2)) by (apply Rinv_0_lt_compat; lra). split; [apply Rmult_le_pos; lra|].
        apply Rmult_le_reg_r with (s1 - s2); [lra|]. rewrite Rmult_assoc, Rinv_l by lra. lra.
      + rewrite E1. unfold mix; cbn [fst snd]. rewrite X2, Y2. f_equal; field; lra.
  Qed.

  (** along a path from an inside to an outside vertex there is an exit, and the other way round *)
  Lemma path_exit l : forall a z, d a <= 0 -> 0 < d z -> In z l -> exists p q, In (p, q) (windows (a :: l)) /\ d p <= 0 < d q.
  Proof.
    induction l as [|b l IH]; intros a z Ha Hz Hin; [destruct Hin|]. change (windows (a :: b :: l)) with ((a, b) :: windows (b :: l)).
    destruct (Rle_lt_dec (d b) 0) as [B|B].
    - destruct Hin as [<-|Hin]; [lra|]. destruct (IH b z B Hz Hin) as (p & q & H1 & H2). exists p, q. split; [right; exact H1|exact H2].
    - exists a, b. split; [left; reflexivity|lra].
  Qed.
  Lemma path_entry l : forall a z, 0 < d a -> d z <= 0 -> In z l -> exists p q, In (p, q) (windows (a :: l)) /\ d q <= 0 < d p.
  Proof.
    induction l as [|b l IH]; intros a z Ha Hz Hin; [destruct Hin|]. change (windows (a :: b :: l)) with ((a, b) :: windows (b :: l)).
    destruct (Rle_lt_dec (d b) 0) as [B|B].
    - exists a, b. split; [left; reflexivity|lra].
    - destruct Hin as [<-|Hin]; [lra|]. destruct (IH b z B Hz Hin) as (p & q & H1 & H2). exists p, q. split; [right; exact H1|exact H2].
  Qed.
  Lemma windows_app {A} (l : list A) x m : windows (l ++ x :: m) = windows (l ++ [x]) ++ windows (x :: m).
  Proof.
    induction l as [|a l IH]; [reflexivity|]. destruct l as [|b l]; [reflexivity|].
    change (windows ((a :: b :: l) ++ x :: m)) with ((a, b) :: windows ((b :: l) ++ x :: m)). rewrite IH. reflexivity.
  Qed.
  Lemma edges_rotate {A} (l m : list A) e : In e (edges (l ++ m)) -> In e (edges (m ++ l)).
  Proof.
    destruct l as [|a l]; [rewrite app_nil_r; auto|]. destruct m as [|b m]; [rewrite app_nil_r; auto|].
    unfold edges. cbn [app]. 
    replace (a :: (l ++ b :: m) ++ [a]) with ((a :: l) ++ b :: (m ++ [a])) by (cbn; rewrite <- app_assoc; reflexivity).
    replace (b :: (m ++ a :: l) ++ [b]) with ((b :: m) ++ a :: (l ++ [b])) by (cbn; rewrite <- app_assoc; reflexivity).
    rewrite (windows_app (a :: l) b), (windows_app (b :: m) a). rewrite !in_app_iff. cbn [app]. tauto.
  Qed.
  Lemma crossing vs a z : In a vs -> In z vs -> d a <= 0 < d z ->
    (exists p q, In (p, q) (edges vs) /\ d p <= 0 < d q) /\ (exists p q, In (p, q) (edges vs) /\ d q <= 0 < d p).
  Proof.
    intros Ha Hz H. split.
    - destruct (in_split _ _ Ha) as (l1 & l2 & ->). destruct (path_exit (l2 ++ l1 ++ [a]) a z) as (p & q & Hin & Hd); [lra|lra| |].
      + rewrite !in_app_iff in *. cbn in *. destruct Hz as [Hz|[Hz|Hz]]; auto.
      + exists p, q. split; [|exact Hd]. apply (edges_rotate (a :: l2) l1). unfold edges. cbn [app]. rewrite <- app_assoc. exact Hin.
    - destruct (in_split _ _ Hz) as (l1 & l2 & ->). destruct (path_entry (l2 ++ l1 ++ [z]) z a) as (p & q & Hin & Hd); [lra|lra| |].
      + rewrite !in_app_iff in *. cbn in *. destruct Ha as [Ha|[Ha|Ha]]; auto.
      + exists p, q. split; [|exact Hd]. apply (edges_rotate (z :: l2) l1). unfold edges. cbn [app]. rewrite <- app_assoc. exact Hin.
  Qed.

  Lemma emit_exit vs p q : In (p, q) (edges vs) -> d p <= 0 < d q -> In (cut h p q) (flat_map (emit h) (edges vs)).
  Proof.
    intros Hin [Hp Hq]. apply in_flat_map. exists (p, q). split; [exact Hin|]. cbn. apply contains_d in Hp. apply contains_not_d in Hq. rewrite Hp, Hq. right. left. reflexivity.
  Qed.
  Lemma emit_entry vs p q : In (p, q) (edges vs) -> d q <= 0 < d p -> In (cut h p q) (flat_map (emit h) (edges vs)).
  Proof.
    intros Hin [Hq Hp]. apply in_flat_map. exists (p, q). split; [exact Hin|]. cbn. apply contains_d in Hq. apply contains_not_d in Hp. rewrite Hp, Hq. left. reflexivity.
  Qed.
  Lemma emit_vertex vs v : In v vs -> d v <= 0 -> In v (flat_map (emit h) (edges vs)).
  Proof.
    intros Hv Hd. apply in_flat_map. destruct (In_nth vs v (0, 0) Hv) as (i & Hi & Ei).
    exists (corner vs i, corner vs (i + 1)). split; [rewrite edges_corner; apply in_map_iff; exists i; split; [reflexivity|apply in_seq; lia]|].
    assert (corner vs i = v) as -> by (unfold corner; rewrite Nat.mod_small by exact Hi; exact Ei).
    cbn [emit]. apply contains_d in Hd. rewrite Hd. destruct (hp_contains h (corner vs (i + 1))); left; reflexivity.
  Qed.
  Lemma cut_between a b : d a <= 0 < d b \/ d b <= 0 < d a -> between a b (cut h a b).
  Proof.
    intros Hc. exists (d a / (d a - d b)). split; [|reflexivity]. destruct Hc.
    - replace (d a / (d a - d b)) with ((- d a) * / (d b - d a)) by (field; lra). assert (0 < / (d b - d a)) by (apply Rinv_0_lt_compat; lra).
      split; [apply Rmult_le_pos; lra|]. apply Rmult_le_reg_r with (d b - d a); [lra|]. rewrite Rmult_assoc, Rinv_l by lra. lra.
    - unfold Rdiv. assert (0 < / (d a - d b)) by (apply Rinv_0_lt_compat; lra).
      split; [apply Rmult_le_pos; lra|]. apply Rmult_le_reg_r with (d a - d b); [lra|]. rewrite Rmult_assoc, Rinv_l by lra. lra.
  Qed.
  Lemma emit_hull vs x : In x (flat_map (emit h) (edges vs)) -> hull vs x /\ d x <= 0.
  Proof.
    intros Hx. apply in_flat_map in Hx. destruct Hx as ([a b] & He & Hx). destruct (edges_in _ _ He) as [Ia Ib]. cbn [fst snd] in Ia, Ib. cbn [emit] in Hx.
    destruct (hp_contains h a) eqn:A, (hp_contains h b) eqn:B.
    - destruct Hx as [<-|[]]. split; [apply hull_point, Ia|apply contains_d, A].
    - apply contains_d in A. apply contains_not_d in B. destruct Hx as [<-|[<-|[]]]; [split; [apply hull_point, Ia|exact A]|].
      split; [|rewrite (cut_border h a b : d a <> d b -> d (cut h a b) = 0) by (unfold d; lra); lra].
      apply (hull_between vs a b); [apply hull_point, Ia|apply hull_point, Ib|apply cut_between; unfold d; lra].
    - apply contains_not_d in A. apply contains_d in B. destruct Hx as [<-|[]].
      split; [|rewrite (cut_border h a b : d a <> d b -> d (cut h a b) = 0) by (unfold d; lra); lra].
      apply (hull_between vs a b); [apply hull_point, Ia|apply hull_point, Ib|apply cut_between; unfold d; lra].
    - destruct Hx.
  Qed.

  (** exactly the inside part *)
  Lemma clip_hull vs x : convex vs -> hull (flat_map (emit h) (edges vs)) x <-> hull vs x /\ d x <= 0.
  Proof.
    intros C. set (ws := flat_map (emit h) (edges vs)). split.
    - intros H. split.
      + revert H. apply hull_mono. intros v Hv. apply (emit_hull vs v Hv).
      + revert H. apply hull_side. intros v Hv. apply (emit_hull vs v Hv).
    - assert (Bd : forall c, hull vs c -> d c = 0 -> (exists z, In z vs /\ 0 < d z) -> hull ws c).
      { intros c Hc Dc (z & Hz & Dz).
        assert (exists a, In a vs /\ d a <= 0) as (a & Ha & Da).
        { destruct (Exists_dec (fun a => d a <= 0) vs (fun a => Rle_dec (d a) 0)) as [E|E]; [apply Exists_exists in E; exact E|]. exfalso.
          assert (0 < d c); [|lra]. apply (hull_out h vs c); [|exact Hc]. intros v Hv. destruct (Rle_lt_dec (d v) 0) as [L|L]; [|exact L].
          exfalso. apply E, Exists_exists. exists v. auto. }
        destruct (crossing vs a z Ha Hz ltac:(lra)) as [(p & q & He & Hd) (p' & q' & He' & Hd')].
        apply (hull_between ws (cut h p q) (cut h p' q')); [apply hull_point, emit_exit; assumption|apply hull_point, emit_entry; assumption|].
        apply between_cuts; try assumption; eapply hull_left; try exact Hc; intros v Hv; [apply (C (p, q))|apply (C (p', q'))]; assumption. }
      intros [Hx Dx]. induction Hx as [v Hv|y z t Hy IHy Hz IHz Ht].
      + apply hull_point, emit_vertex; assumption.
      + destruct (Rle_lt_dec (d y) 0) as [Y|Y], (Rle_lt_dec (d z) 0) as [Z|Z].
        * apply hull_mix; auto.
        * assert (exists v, In v vs /\ 0 < d v) as Ex.
          { destruct (Exists_dec (fun a => 0 < d a) vs (fun a => Rlt_dec 0 (d a))) as [E|E]; [apply Exists_exists in E; exact E|]. exfalso.
            assert (d z <= 0); [|lra]. apply (hull_side h vs z); [|exact Hz]. intros v Hv. destruct (Rle_lt_dec (d v) 0) as [L|L]; [exact L|].
            exfalso. apply E, Exists_exists. exists v. auto. }
          set (c := cut h y z). assert (Dc : d c = 0) by (apply cut_border; unfold d in *; lra).
          assert (Hc : hull vs c) by (apply (hull_between vs y z); [assumption|assumption|apply cut_between; lra]).
          apply (hull_between ws y c); [apply IHy; exact Y|apply Bd; assumption|].
          assert (t <= d y / (d y - d z)) as T.
          { unfold d in Dx. rewrite dist_mix in Dx. fold d in Dx. apply Rmult_le_reg_r with (d z - d y); [lra|].
            replace (d y / (d y - d z) * (d z - d y)) with (- d y) by (field; lra). lra. }
          set (r := d y / (d y - d z)) in *. destruct (Req_dec r 0) as [R0|R0].
          -- exists 0. split; [lra|]. assert (t = 0) as -> by lra. unfold mix; cbn [fst snd]. f_equal; ring.
          -- assert (0 < r) by lra. exists (t / r). split.
             ++ unfold Rdiv. assert (0 < / r) by (apply Rinv_0_lt_compat; lra). split; [apply Rmult_le_pos; lra|]. apply Rmult_le_reg_r with r; [lra|]. rewrite Rmult_assoc, Rinv_l by lra. lra.
             ++ unfold c, cut. fold d. fold r. unfold mix; cbn [fst snd]. f_equal; field; lra.
        * assert (exists v, In v vs /\ 0 < d v) as Ex.
          { destruct (Exists_dec (fun a => 0 < d a) vs (fun a => Rlt_dec 0 (d a))) as [E|E]; [apply Exists_exists in E; exact E|]. exfalso.
            assert (d y <= 0); [|lra]. apply (hull_side h vs y); [|exact Hy]. intros v Hv. destruct (Rle_lt_dec (d v) 0) as [L|L]; [exact L|].
            exfalso. apply E, Exists_exists. exists v. auto. }
          set (c := cut h y z). assert (Dc : d c = 0) by (apply cut_border; unfold d in *; lra).
          assert (Hc : hull vs c) by (apply (hull_between vs y z); [assumption|assumption|apply cut_between; lra]).
          apply (hull_between ws c z); [apply Bd; assumption|apply IHz; exact Z|].
          set (r := d y / (d y - d z)). assert (Rr : r * (d y - d z) = d y) by (unfold r; field; lra).
          assert (r <= t) as T.
          { unfold d in Dx. rewrite dist_mix in Dx. fold d in Dx. apply Rmult_le_reg_r with (d y - d z); lra. }
          assert (r < 1 \/ r = 1) as [R1|R1] by lra.
          -- exists ((t - r) / (1 - r)). split.
             ++ unfold Rdiv. assert (0 < / (1 - r)) by (apply Rinv_0_lt_compat; lra). split; [apply Rmult_le_pos; lra|]. apply Rmult_le_reg_r with (1 - r); [lra|]. rewrite Rmult_assoc, Rinv_l by lra. lra.
             ++ unfold c, cut. fold d. fold r. unfold mix; cbn [fst snd]. f_equal; field; lra.
          -- exists 1. split; [lra|]. assert (t = 1) as -> by lra. unfold mix; cbn [fst snd]. f_equal; ring.
        * exfalso. unfold d in Dx. rewrite dist_mix in Dx. fold d in Dx.
          destruct (Req_dec t 0) as [T0|T0]; [rewrite T0 in Dx; lra|]. assert (0 <= (1 - t) * d y) by (apply Rmult_le_pos; lra). assert (0 < t * d z) by (apply Rmult_lt_0_compat; lra). lra.
  Qed.

  (** ** the result is convex again *)
  (** a side of the result is part of a side of the polygon, or a chord along the border *)
  Definition side_ok (es : list ((R * R) * (R * R))) (e : (R * R) * (R * R)) : Prop :=
    (exists a b s t, In (a, b) es /\ 0 <= s <= t /\ t <= 1 /\ fst e = mix a b s /\ snd e = mix a b t) \/
    (exists a b a' b', In (a, b) es /\ In (a', b') es /\ d a <= 0 < d b /\ d b' <= 0 < d a' /\ fst e = cut h a b /\ snd e = cut h a' b').
  Definition entry_cut (es : list ((R * R) * (R * R))) (x : R * R) : Prop := exists a b, In (a, b) es /\ d b <= 0 < d a /\ x = cut h a b.
  Definition exit_cut (es : list ((R * R) * (R * R))) (x : R * R) : Prop := exists a b, In (a, b) es /\ d a <= 0 < d b /\ x = cut h a b.

  Lemma first_entry es l : forall a, (forall e, In e (windows (a :: l)) -> In e es) -> hp_contains h a = false -> starts (entry_cut es) (emission h a l).
  Proof.
    induction l as [|b l IH]; intros a Hes A.
    - unfold emission, keep; cbn. rewrite A. exact I.
    - rewrite emission_cons. cbn [emit]. rewrite A. change (windows (a :: b :: l)) with ((a, b) :: windows (b :: l)) in Hes. destruct (hp_contains h b) eqn:B; cbn [app].
      + cbn. exists a, b. apply contains_not_d in A. apply contains_d in B. split; [apply Hes; left; reflexivity|]. split; [unfold d; lra|reflexivity].
      + apply IH; [intros e He; apply Hes; right; exact He|exact B].
  Qed.
  Lemma last_exit es l : forall a, (forall e, In e (windows (a :: l)) -> In e es) -> hp_contains h (last_of l a) = false -> ends (exit_cut es) (emission h a l).
  Proof.
    induction l as [|b l IH]; intros a Hes Z.
    - unfold emission, keep. cbn in *. rewrite Z. intros [|? m] x H; discriminate.
    - rewrite emission_cons. cbn [last_of] in Z. change (windows (a :: b :: l)) with ((a, b) :: windows (b :: l)) in Hes.
      specialize (IH b (fun e He => Hes e (or_intror He)) Z). destruct (emission h b l) as [|y m] eqn:E; [|apply ends_app; [discriminate|exact IH]].
      rewrite app_nil_r. destruct (hp_contains h b) eqn:B.
      + destruct (emission_first h l b) as [I1 _]. destruct (I1 B) as [k Hk]. rewrite Hk in E. discriminate.
      + cbn. rewrite B. destruct (hp_contains h a) eqn:A.
        * intros k x H. change [a; cut h a b] with ([a] ++ [cut h a b]) in H. apply app_inj_tail in H. destruct H as [_ <-].
          apply contains_d in A. apply contains_not_d in B. exists a, b. split; [apply Hes; left; reflexivity|]. split; [unfold d; lra|reflexivity].
        * intros [|? k] x H; discriminate.
  Qed.
  Lemma sides_path es l : forall a, (forall e, In e (windows (a :: l)) -> In e es) -> forall e, In e (windows (emission h a l)) -> side_ok es e.
  Proof.
    induction l as [|b l IH]; intros a Hes e He.
    - unfold emission, keep in He; cbn in He. destruct (hp_contains h a); destruct He.
    - rewrite emission_cons in He. change (windows (a :: b :: l)) with ((a, b) :: windows (b :: l)) in Hes.
      assert (Hab : In (a, b) es) by (apply Hes; left; reflexivity).
      specialize (IH b (fun e He => Hes e (or_intror He))). pose proof (first_entry es l b (fun e He => Hes e (or_intror He))) as F. destruct (emission_first h l b) as [I1 _].
      assert (M0 : a = mix a b 0) by (unfold mix; destruct a; cbn; f_equal; ring). assert (M1 : b = mix a b 1) by (unfold mix; destruct b; cbn; f_equal; ring).
      cbn [emit] in He. destruct (hp_contains h a) eqn:A, (hp_contains h b) eqn:B.
      + destruct (I1 eq_refl) as [m Hm]. rewrite Hm in *. cbn [app] in He. change (windows (a :: b :: m)) with ((a, b) :: windows (b :: m)) in He.
        destruct He as [<-|He]; [|apply IH, He]. left. exists a, b, 0, 1. cbn [fst snd]. repeat split; try lra; auto.
      + apply contains_d in A. apply contains_not_d in B. destruct (cut_between a b) as (t & Ht & Et); [unfold d in *; lra|].
        assert (S1 : side_ok es (a, cut h a b)) by (left; exists a, b, 0, t; cbn [fst snd]; repeat split; try lra; auto).
        specialize (F eq_refl). destruct (emission h b l) as [|y m]; cbn [app] in He.
        * destruct He as [<-|[]]. exact S1.
        * change (windows (a :: cut h a b :: y :: m)) with ((a, cut h a b) :: (cut h a b, y) :: windows (y :: m)) in He.
          destruct He as [<-|[<-|He]]; [exact S1| |apply IH, He]. right. destruct F as (a' & b' & Hin & Hd & ->). exists a, b, a', b'. cbn [fst snd]. repeat split; auto; unfold d in *; lra.
      + apply contains_not_d in A. apply contains_d in B. destruct (cut_between a b) as (t & Ht & Et); [unfold d in *; lra|].
        destruct (I1 eq_refl) as [m Hm]. rewrite Hm in *. cbn [app] in He. change (windows (cut h a b :: b :: m)) with ((cut h a b, b) :: windows (b :: m)) in He.
        destruct He as [<-|He]; [|apply IH, He]. left. exists a, b, t, 1. cbn [fst snd]. repeat split; try lra; auto.
      + cbn [app] in He. apply IH, He.
  Qed.
  Lemma sides_closed vs e : In e (edges (flat_map (emit h) (edges vs))) -> side_ok (edges vs) e.
  Proof.
    destruct vs as [|v l]; [intros []|]. set (es := edges (v :: l)). set (ws := flat_map (emit h) es).
    assert (Hes : forall e, In e (windows (v :: l ++ [v])) -> In e es) by (intros e0 H0; exact H0).
    pose proof (sides_path es (l ++ [v]) v Hes) as S.
    assert (Em : emission h v (l ++ [v]) = ws ++ keep h v) by (unfold emission; rewrite last_of_snoc; reflexivity). rewrite Em in S.
    unfold keep in S, Em. destruct (hp_contains h v) eqn:V.
    - destruct (emission_first h (l ++ [v]) v) as [I1 _]. destruct (I1 V) as [m Hm]. rewrite Em in Hm.
      destruct ws as [|y ws'] eqn:W; [intros []|]. cbn [app] in Hm. injection Hm. intros _ ->. exact (S e).
    - rewrite app_nil_r in S, Em. pose proof (first_entry es (l ++ [v]) v Hes V) as F. pose proof (last_exit es (l ++ [v]) v Hes) as L.
      rewrite last_of_snoc in L. specialize (L V). rewrite Em in F, L.
      destruct ws as [|y ws'] eqn:W; [intros []|]. unfold edges. destruct (exists_last (l := y :: ws')) as (m & z & E); [discriminate|].
      rewrite E, <- app_assoc. cbn [app]. rewrite windows_app, in_app_iff. intros [He|[<-|[]]].
      + apply S. rewrite E. exact He.
      + destruct F as (a' & b' & Hin' & Hd' & ->). destruct (L m z E) as (a & b & Hin & Hd & ->). right. exists a, b, a', b'. cbn [fst snd]. repeat split; auto; lra.
  Qed.

  Lemma clip_convex vs : convex vs -> convex (flat_map (emit h) (edges vs)).
  Proof.
    intros C e v He Hv. destruct (emit_hull _ _ Hv) as [Hh Hd]. destruct (sides_closed vs e He) as [(a & b & s & t & Hin & Hs & Ht & E1 & E2)|(a & b & a' & b' & Hin & Hin' & Ha & Ha' & E1 & E2)].
    - rewrite E1, E2. assert (L : 0 <= left_of a b v) by (apply (hull_left vs); [intros; apply (C (a, b)); assumption|exact Hh]).
      replace (left_of (mix a b s) (mix a b t) v) with ((t - s) * left_of a b v) by (unfold left_of, mix; cbn; ring). apply Rmult_le_pos; lra.
    - rewrite E1, E2. assert (Hc : hull vs (cut h a' b')).
      { destruct (edges_in _ _ Hin') as [I1 I2]. apply (hull_between vs a' b'); [apply hull_point, I1|apply hull_point, I2|apply cut_between; lra]. }
      destruct (exit_before a b (cut h a' b')) as (s & Hs & Es); [exact Ha|apply cut_border; unfold d in *; lra|apply (hull_left vs); [intros; apply (C (a, b)); assumption|exact Hc]|].
      rewrite Es. set (c := cut h a b). assert (Dc : d c = 0) by (apply cut_border; unfold d in *; lra).
      replace (left_of c (fst c + s * fst u, snd c + s * snd u) v) with (s * (d c - d v)).
      + apply Rmult_le_pos; lra.
      + unfold left_of, u, d, signed_dist, vdot, vsub; cbn [fst snd]. ring.
  Qed.
End Convex.

Lemma clip_any vs h : hp_normal h <> (0, 0) -> convex vs -> exists ws, clip vs h = Some ws /\ convex ws /\
  forall x, hull ws x <-> hull vs x /\ on_side (hp_point h) (hp_normal h) x.
Proof.
  intros Hn C. destruct (clip_list vs h Hn) as (ws & E & G & S1). exists ws. split; [exact E|].
  assert (Sd : forall p, on_side (hp_point h) (hp_normal h) p <-> signed_dist h p <= 0) by (intros p; rewrite <- contains_iff; apply contains_d).
  destruct (Nat.eq_dec (length vs) 1) as [L|L].
  - destruct vs as [|v [|v' l]]; try discriminate. rewrite (S1 v eq_refl).
    assert (Hv : forall x, hull [v] x -> x = v).
    { intros x Hx. induction Hx as [y [<-|[]]|y z t Hy -> Hz -> Ht]; [reflexivity|]. unfold mix; destruct v; cbn; f_equal; ring. }
    assert (Cv : convex [v]) by exact C.
    destruct (hp_contains h v) eqn:V.
    + split; [exact Cv|]. intros x. split; [intros Hx; split; [exact Hx|rewrite (Hv x Hx); apply contains_iff, V]|intros [Hx _]; exact Hx].
    + split; [intros e z []|]. intros x. split.
      * intros Hx. exfalso. induction Hx as [y []|]; assumption.
      * intros [Hx Hs]. rewrite (Hv x Hx) in Hs. apply contains_iff in Hs. congruence.
  - rewrite (G L). split; [apply clip_convex; assumption|]. intros x. rewrite (clip_hull h Hn vs x C), Sd. reflexivity.
Qed.

(** clipping a convex polygon gives a convex polygon, which is exactly the part in the half plane *)
Theorem C44_convex vs x0 n : n <> (0, 0) -> convex_polygon vs -> exists ws, clip vs (HalfPlane x0 n) = Some ws /\ convex_polygon ws /\
  forall x, hull ws x <-> hull vs x /\ on_side x0 n x.
Proof.
  intros Hn C. apply convex_iff in C. destruct (clip_any vs (HalfPlane x0 n) Hn C) as (ws & E & Cw & H). exists ws.
  split; [exact E|]. split; [apply convex_iff, Cw|exact H].
Qed.
Print Assumptions C44_convex.

(** clipping by a polygon with at least three vertices keeps exactly the points to the left of all its sides *)
Theorem C44_polygon vs other : convex_polygon vs -> (3 <= length vs)%nat -> (3 <= length other)%nat -> exists ws, clip_polygon vs other = Some ws /\ convex_polygon ws /\
  forall x, hull ws x <-> hull vs x /\ left_of_all other x.
Proof.
  intros C L1 L2. apply convex_iff in C.
  assert (E : clip_polygon vs other = fold_left (fun acc h => match acc with Some vs => clip vs h | None => None end) (half_planes other) (Some vs)).
  { destruct vs as [|a [|b [|c vs]]]; cbn in L1; try lia. destruct other as [|a' [|b' [|c' other]]]; cbn in L2; try lia. reflexivity. }
  rewrite E. clear E L1 L2.
  assert (G : forall hs vs, (forall h, In h hs -> hp_normal h <> (0, 0)) -> convex vs -> exists ws,
    fold_left (fun acc h => match acc with Some vs => clip vs h | None => None end) hs (Some vs) = Some ws /\ convex ws /\
    forall x, hull ws x <-> hull vs x /\ (forall h, In h hs -> on_side (hp_point h) (hp_normal h) x)).
  { induction hs as [|h hs IH]; intros us Hn Cu.
    - exists us. split; [reflexivity|]. split; [exact Cu|]. intros x. split; [intros H; split; [exact H|intros ? []]|intros [H _]; exact H].
    - destruct (clip_any us h (Hn h (or_introl eq_refl)) Cu) as (us' & E & C' & H'). cbn [fold_left]. rewrite E.
      destruct (IH us' (fun h' Hin => Hn h' (or_intror Hin)) C') as (ws & E2 & C2 & H2). exists ws. split; [exact E2|]. split; [exact C2|]. intros x. rewrite H2, H'. split.
      + intros [[A B] D]. split; [exact A|]. intros h' [<-|Hin]; [exact B|apply D, Hin].
      + intros [A B]. split; [split; [exact A|apply B; left; reflexivity]|]. intros h' Hin. apply B. right. exact Hin. }
  destruct (G (half_planes other) vs (half_planes_normal other) C) as (ws & E & Cw & H). exists ws. split; [exact E|]. split; [apply convex_iff, Cw|].
  intros x. rewrite H, half_planes_all. reflexivity.
Qed.
Print Assumptions C44_polygon.

Example C44_convex_example : convex_polygon [(0, 0); (2, 0); (2, 2); (0, 2)] /\ ~ convex_polygon [(0, 0); (2, 1); (4, 0); (2, 4)].
Proof.
  split.
  - intros i j Hi Hj. cbn in Hi, Hj. destruct i as [|[|[|[|i]]]]; try lia; destruct j as [|[|[|[|j]]]]; try lia; unfold left_of, corner; cbn; lra.
  - intros H. specialize (H 0%nat 2%nat ltac:(cbn; lia) ltac:(cbn; lia)). unfold left_of, corner in H; cbn in H. lra.
Qed.

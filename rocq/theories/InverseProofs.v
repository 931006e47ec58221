(** Lemmas about diameters, simplices and linear systems. *)
From Coq Require Import Reals List Lia Lra Arith.
From Verif Require Import CgModel CgSpec CgProofs AabbSpec MaterialModel ElementModel OptModel OptSpec PropNewton ClosestSpec ClosestModel ClosestProofs PropClosestTet InverseSpec InverseModel.
Import ListNotations.
Local Open Scope R_scope.

Lemma distance_dist D x y : distance D x y = dist D x y.
Proof. unfold distance, dist, norm. f_equal. rewrite dot_inner. rewrite dist2_sym. reflexivity. Qed.
Lemma dist_sym D x y : dist D x y = dist D y x.
Proof. unfold dist. now rewrite dist2_sym. Qed.
Lemma dist_nonneg D x y : 0 <= dist D x y.
Proof. apply sqrt_pos. Qed.
Lemma dist_zero D x : dist D x x = 0.
Proof. unfold dist. rewrite (proj2 (dist2_zero D x x)); [apply sqrt_0|intros i _; reflexivity]. Qed.
Lemma dist_ext D p p' q q' : veq D p p' -> veq D q q' -> dist D p q = dist D p' q'.
Proof. intros A B. unfold dist. now rewrite (dist2_ext D p p' q q' A B). Qed.

(** * the largest of finitely many numbers *)
Lemma fold_max_ge l : forall a, a <= fold_left Rmax l a /\ forall x, In x l -> x <= fold_left Rmax l a.
Proof.
  induction l as [|y l IH]; intros a; cbn; [split; [lra|intros x []]|]. destruct (IH (Rmax a y)) as [A B]. pose proof (Rmax_l a y). pose proof (Rmax_r a y).
  split; [lra|]. intros x [<-|Hx]; [lra|now apply B].
Qed.
Lemma fold_max_in l : forall a, fold_left Rmax l a = a \/ In (fold_left Rmax l a) l.
Proof.
  induction l as [|y l IH]; intros a; cbn; [now left|]. destruct (IH (Rmax a y)) as [E|I]; [|auto]. rewrite E. unfold Rmax. destruct (Rle_dec a y); auto.
Qed.
Lemma pairs_nth {A} (d : A) l : forall i j, (i < j < length l)%nat -> In (nth i l d, nth j l d) (tuple_combinations l).
Proof.
  induction l as [|x l IH]; intros i j H; cbn in H; [lia|]. cbn [tuple_combinations]. apply in_or_app. destruct j as [|j]; [lia|]. destruct i as [|i]; cbn [nth].
  - left. apply in_map. apply nth_In. lia.
  - right. apply IH. lia.
Qed.
Lemma pairs_only {A} (d : A) l : forall p, In p (tuple_combinations l) -> exists i j, (i < j < length l)%nat /\ p = (nth i l d, nth j l d).
Proof.
  induction l as [|x l IH]; intros p H; cbn in H; [contradiction|]. apply in_app_or in H. destruct H as [H|H].
  - apply in_map_iff in H. destruct H as (y & <- & Hy). destruct (In_nth l y d Hy) as (j & Hj & <-). exists 0%nat, (S j). cbn. split; [lia|reflexivity].
  - destruct (IH p H) as (i & j & Hij & ->). exists (S i), (S j). cbn. split; [lia|reflexivity].
Qed.
Lemma vertices_diameter_max D vs : (forall i j, (i < length vs)%nat -> (j < length vs)%nat -> dist D (nth i vs zero_vec) (nth j vs zero_vec) <= vertices_diameter D vs) /\
  ((1 < length vs)%nat -> exists i j, (i < length vs)%nat /\ (j < length vs)%nat /\ vertices_diameter D vs = dist D (nth i vs zero_vec) (nth j vs zero_vec)).
Proof.
  unfold vertices_diameter. set (l := map _ _). destruct (fold_max_ge l 0) as [Z G].
  assert (P : forall i j, (i < j < length vs)%nat -> dist D (nth i vs zero_vec) (nth j vs zero_vec) <= fold_left Rmax l 0).
  { intros i j H. apply G. unfold l. rewrite <- distance_dist. apply (in_map (fun '(x, y) => distance D x y) _ (nth i vs zero_vec, nth j vs zero_vec)). now apply pairs_nth. }
  split.
  - intros i j Hi Hj. destruct (Nat.lt_trichotomy i j) as [L|[<-|L]]; [apply P; lia|rewrite dist_zero; exact Z|rewrite dist_sym; apply P; lia].
  - intros H1. destruct (fold_max_in l 0) as [E|I].
    + exists 0%nat, 0%nat. repeat split; try lia. rewrite dist_zero. exact E.
    + unfold l in I. apply in_map_iff in I. destruct I as ([x y] & E & I). destruct (pairs_only zero_vec vs _ I) as (i & j & Hij & Exy). injection Exy as -> ->.
      exists i, j. repeat split; try lia. unfold l. rewrite <- E. apply distance_dist.
Qed.

(** * distances in a hull *)
Lemma jensen n w f : (forall i, (i < n)%nat -> 0 <= w i) -> total n w = 1 -> total n (fun i => w i * f i) * total n (fun i => w i * f i) <= total n (fun i => w i * (f i * f i)).
Proof.
  intros Hw H1. set (m := total n (fun i => w i * f i)).
  assert (Z : 0 <= total n (fun i => w i * ((f i - m) * (f i - m)))).
  { apply total_nonneg. intros i Hi. apply Rmult_le_pos; [now apply Hw|apply Rle_0_sqr]. }
  assert (E : total n (fun i => w i * ((f i - m) * (f i - m))) = total n (fun i => w i * (f i * f i)) + -2 * m * m + m * m * total n w).
  { rewrite (total_ext n _ (fun i => w i * (f i * f i) + (-2 * m * (w i * f i) + m * m * w i))) by (intros; ring).
    rewrite total_add, total_add, !total_scale. fold m. ring. }
  rewrite E, H1 in Z. lra.
Qed.
Lemma dist2_dot D p q : dist2 D p q = dot D (fun i => p i - q i) (fun i => p i - q i).
Proof. symmetry. apply dot_inner. Qed.
Lemma total_swap n D (f : nat -> nat -> R) : total n (fun i => total D (f i)) = total D (fun k => total n (fun i => f i k)).
Proof.
  induction n as [|n IH]; cbn [total].
  - induction D as [|D IHD]; cbn [total]; [reflexivity|]. rewrite <- IHD. ring.
  - rewrite IH, <- total_add. reflexivity.
Qed.
Lemma dot_total D x y : dot D x y = total D (fun k => x k * y k).
Proof. induction D as [|D IH]; cbn; [reflexivity|]. now rewrite IH. Qed.
Lemma mean_dist2 D vs w q : (forall i, (i < length vs)%nat -> 0 <= w i) -> total (length vs) w = 1 ->
  dist2 D (mean w vs) q <= total (length vs) (fun i => w i * dist2 D (nth i vs zero_vec) q).
Proof.
  intros Hw H1. rewrite dist2_dot, dot_total.
  rewrite (total_ext (length vs) _ (fun i => total D (fun k => w i * ((nth i vs zero_vec k - q k) * (nth i vs zero_vec k - q k))))).
  2:{ intros i _. rewrite dist2_dot, dot_total, <- total_scale. reflexivity. }
  rewrite total_swap. apply total_le. intros k _.
  assert (E : mean w vs k - q k = total (length vs) (fun i => w i * (nth i vs zero_vec k - q k))).
  { rewrite (total_ext _ _ (fun i => w i * nth i vs zero_vec k + - q k * w i)) by (intros; ring). rewrite total_add, total_scale, H1. unfold mean, zero_vec. ring. }
  rewrite E. now apply jensen.
Qed.
Lemma hull_dist2 D vs M p q : (forall i j, (i < length vs)%nat -> (j < length vs)%nat -> dist2 D (nth i vs zero_vec) (nth j vs zero_vec) <= M) ->
  hull 0 D vs p -> hull 0 D vs q -> dist2 D p q <= M.
Proof.
  intros HM (w & (Hw & Hw1) & Ep) (u & (Hu & Hu1) & Eq). rewrite (dist2_ext D p _ q _ Ep Eq).
  assert (W : forall i, (i < length vs)%nat -> 0 <= w i) by (intros i Hi; specialize (Hw i Hi); lra).
  assert (U : forall i, (i < length vs)%nat -> 0 <= u i) by (intros i Hi; specialize (Hu i Hi); lra).
  eapply Rle_trans; [apply mean_dist2; assumption|]. rewrite <- (Rmult_1_r M), <- Hw1, <- total_scale. apply total_le. intros i Hi.
  rewrite (Rmult_comm M). apply Rmult_le_compat_l; [now apply W|]. rewrite dist2_sym.
  eapply Rle_trans; [apply mean_dist2; assumption|]. rewrite <- (Rmult_1_r M), <- Hu1, <- total_scale. apply total_le. intros j Hj.
  rewrite (Rmult_comm M). apply Rmult_le_compat_l; [now apply U|]. now apply HM.
Qed.

(** * linear systems *)
Lemma lu_ok n M b d : (1 <= n <= 3)%nat -> lu_solve n M b = Some d -> veq n (mulv n M d) b.
Proof.
  intros Hn. unfold lu_solve, try_inverse. destruct (Req_EM_T (determinant n M) 0) as [|N]; [discriminate|]. cbn [option_map]. intros E. injection E as <-. revert N.
  destruct n as [|[|[|[|]]]]; try lia; intros N i Hi; destruct i as [|[|[|i]]]; try lia; cbn in *; field; exact N.
Qed.
Lemma lu_none n M b : lu_solve n M b = None <-> determinant n M = 0.
Proof. unfold lu_solve, try_inverse. destruct (Req_EM_T (determinant n M) 0) as [Z|N]; cbn [option_map]; (split; [|]); auto; [discriminate|contradiction]. Qed.
Lemma kernel n (M : nat -> nat -> R) : (1 <= n <= 3)%nat -> determinant n M = 0 -> exists u, ~ veq n u (fun _ => 0) /\ veq n (mulv n M u) (fun _ => 0).
Proof.
  intros Hn Z. destruct n as [|[|[|[|]]]]; try lia.
  - exists (fun _ => 1). split; [intros H; specialize (H 0%nat ltac:(lia)); lra|]. intros [|i] Hi; [|lia]. unfold mulv, summ. cbn in *. rewrite Z. ring.
  - destruct (kernel2 M Z) as (u & v & N & K). exists (fun i => if (i =? 0)%nat then u else v). split.
    + intros H. pose proof (H 0%nat ltac:(lia)) as H0. pose proof (H 1%nat ltac:(lia)) as H1. cbn in H0, H1. destruct N; contradiction.
    + intros i Hi. specialize (K i Hi). unfold mulv, summ. cbn. lra.
  - destruct (kernel3 M Z) as (u & v & z & N & K). exists (fun i => if (i =? 0)%nat then u else if (i =? 1)%nat then v else z). split.
    + intros H. pose proof (H 0%nat ltac:(lia)) as H0. pose proof (H 1%nat ltac:(lia)) as H1. pose proof (H 2%nat ltac:(lia)) as H2. cbn in H0, H1, H2. destruct N as [N|[N|N]]; contradiction.
    + intros i Hi. specialize (K i Hi). unfold mulv, summ. cbn. lra.
Qed.
Lemma lu_unique n M b d u : (1 <= n <= 3)%nat -> lu_solve n M b = Some d -> veq n (mulv n M u) b -> veq n d u.
Proof.
  intros Hn. unfold lu_solve, try_inverse. destruct (Req_EM_T (determinant n M) 0) as [|N]; [discriminate|]. cbn [option_map]. intros E H. injection E as <-. revert N.
  destruct n as [|[|[|[|]]]]; try lia; intros N i Hi.
  - destruct i; [|lia]. cbn. rewrite <- (H 0%nat) by lia. unfold mulv, summ. cbn in *. field. exact N.
  - unfold mulv at 1, summ. rewrite <- (H 0%nat), <- (H 1%nat) by lia. destruct i as [|[|]]; try lia; cbn in *; field; exact N.
  - unfold mulv at 1, summ. rewrite <- (H 0%nat), <- (H 1%nat), <- (H 2%nat) by lia. destruct i as [|[|[|]]]; try lia; cbn in *; field; exact N.
Qed.

(** C54. Rules on the triangle by subdivision, and tensor products of Gauss rules. *)
From Coq Require Import Reals List Arith Lia Lra.
From Coquelicot Require Import Coquelicot.
From Verif Require Import ElementModel ElementSpec QuadratureModel QuadPoly QuadPolyN LegendreProofs PropGauss RuleProofs TriangleCells PropTensor.
Import ListNotations.
Local Open Scope R_scope.

Definition tri_list (vs : list point) (l : list (R * point)) : list (R * point) :=
  map (fun wx => (volume_form2 (el_jacobian tri3 vs (snd wx)) * fst wx, el_map tri3 vs (snd wx))) l.
Lemma add_triangle_unz r vs q : add_triangle (unz r) vs q = unz (r ++ tri_list vs (zipped q)).
Proof.
  unfold add_triangle, tri_list. fold (zipped q). rewrite (fold_unz _ (fun wx => (volume_form2 (el_jacobian tri3 vs (snd wx)) * fst wx, el_map tri3 vs (snd wx)) :: [])).
  - rewrite flat_map_single. reflexivity.
  - intros. apply unz_push.
Qed.

(** the corners of a cell with lower left corner (a, b) and size h *)
Definition cell_corner (h : R) (i j : nat) (a b : R) : point :=
  vec_plus (pt [-1 + h * (INR j + 1 / 2); 1 - h * (INR i + 1 / 2)]) (vec_scale (vec_scale (pt [a; b]) (1 / 2)) h).
Definition lower_list h i j l := tri_list [cell_corner h i j (-1) (-1); cell_corner h i j 1 (-1); cell_corner h i j (-1) 1] l.
Definition upper_list h i j l := tri_list [cell_corner h i j 1 (-1); cell_corner h i j 1 1; cell_corner h i j (-1) 1] l.
Definition cell_list h l i j := lower_list h i j l ++ if (i =? j)%nat then [] else upper_list h i j l.
Definition row_list h l i := flat_map (cell_list h l i) (seq 0 (i + 1)).

Lemma subdivide_list q n : (0 < n)%nat -> subdivide_triangle q n = Some (unz (flat_map (row_list (2 / INR n) (zipped q)) (seq 0 n))).
Proof.
  intros N. unfold subdivide_triangle. destruct (Nat.eqb_spec n 0) as [->|_]; [lia|]. cbv zeta. f_equal. change ([], []) with (@unz point []).
  rewrite (fold_unz _ (row_list (2 / INR n) (zipped q))); [reflexivity|]. intros r i _. unfold row_list. apply fold_unz. intros r' j _. unfold cell_list.
  rewrite !add_triangle_unz. destruct (i =? j)%nat; cbn [negb]; [rewrite app_nil_r; reflexivity|]. rewrite app_assoc. reflexivity.
Qed.

Local Notation ax h j := (-1 + h * INR j).
Local Notation by_ h i := (1 - h * INR (S i)).

Lemma lower_point h i j x k : (k < 2)%nat -> el_map tri3 [cell_corner h i j (-1) (-1); cell_corner h i j 1 (-1); cell_corner h i j (-1) 1] x k =
  pt [ax h j + h / 2 * (x 0%nat + 1); by_ h i + h / 2 * (x 1%nat + 1)] k.
Proof. intros K. rewrite S_INR. destruct k as [|[|k]]; [| |lia]; cbn; unfold cell_corner, vec_plus, vec_scale, pt; cbn; field. Qed.
Lemma upper_point h i j x k : (k < 2)%nat -> el_map tri3 [cell_corner h i j 1 (-1); cell_corner h i j 1 1; cell_corner h i j (-1) 1] x k =
  pt [ax h j + h - h / 2 * (x 1%nat + 1); by_ h i + h + h / 2 * (x 0%nat + x 1%nat)] k.
Proof. intros K. rewrite S_INR. destruct k as [|[|k]]; [| |lia]; cbn; unfold cell_corner, vec_plus, vec_scale, pt; cbn; field. Qed.
Lemma lower_volume h i j x : volume_form2 (el_jacobian tri3 [cell_corner h i j (-1) (-1); cell_corner h i j 1 (-1); cell_corner h i j (-1) 1] x) = h / 2 * (h / 2).
Proof.
  unfold volume_form2. rewrite <- (Rabs_pos_eq (h / 2 * (h / 2))); [|apply (Rle_0_sqr (h / 2))]. f_equal. cbn; unfold cell_corner, vec_plus, vec_scale, pt; cbn; field.
Qed.
Lemma upper_volume h i j x : volume_form2 (el_jacobian tri3 [cell_corner h i j 1 (-1); cell_corner h i j 1 1; cell_corner h i j (-1) 1] x) = h / 2 * (h / 2).
Proof.
  unfold volume_form2. rewrite <- (Rabs_pos_eq (h / 2 * (h / 2))); [|apply (Rle_0_sqr (h / 2))]. f_equal. cbn; unfold cell_corner, vec_plus, vec_scale, pt; cbn; field.
Qed.

Definition two_coords (f : point -> R) : Prop := forall x y, x 0%nat = y 0%nat -> x 1%nat = y 1%nat -> f x = f y.

Lemma lower_total h i j l f : two_coords f ->
  total (lower_list h i j l) f = h / 2 * (h / 2) * total l (fun x => f (pt [ax h j + h / 2 * (x 0%nat + 1); by_ h i + h / 2 * (x 1%nat + 1)])).
Proof.
  intros F. unfold lower_list, tri_list. rewrite total_map. unfold total. rewrite <- sum_scale. apply sum_ext'. intros [w x] _. cbn [fst snd]. rewrite lower_volume.
  rewrite Rmult_assoc. f_equal. f_equal. apply F; apply lower_point; lia.
Qed.
Lemma upper_total h i j l f : two_coords f ->
  total (upper_list h i j l) f = h / 2 * (h / 2) * total l (fun x => f (pt [ax h j + h - h / 2 * (x 1%nat + 1); by_ h i + h + h / 2 * (x 0%nat + x 1%nat)])).
Proof.
  intros F. unfold upper_list, tri_list. rewrite total_map. unfold total. rewrite <- sum_scale. apply sum_ext'. intros [w x] _. cbn [fst snd]. rewrite upper_volume.
  rewrite Rmult_assoc. f_equal. f_equal. apply F; apply upper_point; lia.
Qed.

(** all rows before row m, for a constant function *)
Lemma row_constant h l i c : total (row_list h l i) (fun _ => c) = (2 * INR i + 1) * (h / 2 * (h / 2) * total l (fun _ => c)).
Proof.
  assert (K : two_coords (fun _ => c)) by (intros x y _ _; reflexivity). unfold row_list. rewrite total_flat. rewrite seq_app, map_app, sum_app. cbn [seq map sum fold_right].
  rewrite (sum_ext' _ _ (fun _ => 2 * (h / 2 * (h / 2) * total l (fun _ => c)))).
  - rewrite sum_const, seq_length. unfold cell_list at 1. rewrite Nat.eqb_refl, app_nil_r, (lower_total h _ _ l _ K). ring.
  - intros j J. apply in_seq in J. unfold cell_list. destruct (Nat.eqb_spec i j); [lia|]. rewrite total_app, (lower_total h _ _ l _ K), (upper_total h _ _ l _ K). ring.
Qed.
Lemma rows_constant h l m c : total (flat_map (row_list h l) (seq 0 m)) (fun _ => c) = INR m * INR m * (h / 2 * (h / 2) * total l (fun _ => c)).
Proof.
  induction m as [|m IH]; [cbn; ring|]. rewrite seq_S, flat_map_app, total_app, IH. cbn [flat_map Nat.add]. rewrite app_nil_r, row_constant, S_INR. ring.
Qed.

Lemma rows_length h l m : length (flat_map (row_list h l) (seq 0 m)) = (m * m * length l)%nat.
Proof.
  assert (R : forall i, length (row_list h l i) = ((2 * i + 1) * length l)%nat).
  { intros i. unfold row_list. rewrite seq_app, flat_map_app, app_length. rewrite (flat_map_length' _ _ (2 * length l)).
    - cbn [seq flat_map Nat.add]. rewrite app_nil_r. unfold cell_list. rewrite Nat.eqb_refl, app_nil_r. unfold lower_list, tri_list. rewrite map_length, seq_length. lia.
    - intros j J. apply in_seq in J. unfold cell_list. destruct (Nat.eqb_spec i j); [lia|]. unfold lower_list, upper_list, tri_list. rewrite app_length, !map_length. lia. }
  induction m as [|m IH]; [reflexivity|]. rewrite seq_S, flat_map_app, app_length, IH. cbn [flat_map Nat.add]. rewrite app_nil_r, R. lia.
Qed.

(** the integral over the rows before row m: everything above the line y = 1 - h m *)
Section Rows.
Variables (p : poly) (k : nat) (h : R) (l : list (R * point)).
Hypothesis D : List.Forall (fun m : R * (nat * nat * nat) => total_degree 2 k (snd m)) p.
Hypothesis H : h <> 0.
Hypothesis X : forall p', List.Forall (fun m : R * (nat * nat * nat) => total_degree 2 k (snd m)) p' -> total l (peval p') = on_triangle (peval p').

Lemma p_planar : planar p.
Proof. eapply List.Forall_impl; [|exact D]. cbn. intros m (_ & Z & _). apply Z. lia. Qed.
Lemma p_two : two_coords (peval p).
Proof. intros x y A B. rewrite (peval_two p x p_planar), (peval_two p y p_planar), A, B. reflexivity. Qed.

Lemma total_affine A B : Poly (total_degree 2 1) A -> Poly (total_degree 2 1) B ->
  total l (fun x => peval p (pt [A x; B x])) = on_triangle (fun x => peval p (pt [A x; B x])).
Proof.
  intros HA HB. destruct (total_substitute k _ _ p HA HB D) as (p' & D' & E). cbv beta in E.
  transitivity (on_triangle (peval p')); [|apply on_triangle_ext; intros; symmetry; apply E]. rewrite <- (X p' D'). apply total_ext. exact E.
Qed.

Lemma lower_integral i j : total (lower_list h i j l) (peval p) = integral (fun x => upto p x (ax h j + by_ h i + h - x) - upto p x (by_ h i)) (ax h j) (ax h j + h).
Proof.
  rewrite (lower_total _ _ _ _ _ p_two). rewrite <- (lower_cell p) by (exact H || exact p_planar). f_equal. apply total_affine.
  - apply (Poly_ext _ (fun x => h / 2 * x 0%nat + (ax h j + h / 2))); [intros; field|]. apply Poly_add; [apply Poly_scale, total_x; lia|apply total_const].
  - apply (Poly_ext _ (fun x => h / 2 * x 1%nat + (by_ h i + h / 2))); [intros; field|]. apply Poly_add; [apply Poly_scale, total_y; lia|apply total_const].
Qed.
Lemma upper_integral i j : total (upper_list h i j l) (peval p) = integral (fun x => upto p x (by_ h i + h) - upto p x (ax h j + by_ h i + h - x)) (ax h j) (ax h j + h).
Proof.
  rewrite (upper_total _ _ _ _ _ p_two). rewrite <- (upper_cell p k) by (exact H || exact D). f_equal. apply total_affine.
  - apply (Poly_ext _ (fun x => (- (h / 2)) * x 1%nat + (ax h j + h / 2))); [intros; field|]. apply Poly_add; [apply Poly_scale, total_y; lia|apply total_const].
  - apply (Poly_ext _ (fun x => h / 2 * x 0%nat + (h / 2 * x 1%nat + (by_ h i + h)))); [intros; field|].
    apply Poly_add; [apply Poly_scale, total_x; lia|]. apply Poly_add; [apply Poly_scale, total_y; lia|apply total_const].
Qed.

Local Notation d := (S (S (max_exp p))).
Lemma strip_Pol s t : Pol d (fun x => upto p x s - upto p x t).
Proof. apply Pol_sub; apply upto_const_Pol. Qed.
Lemma above_Pol t : Pol d (fun x => upto p x (0 - x) - upto p x t).
Proof. apply Pol_sub; [apply upto_diag_Pol|apply upto_const_Pol]. Qed.

Lemma integral_plus f g a b : Pol d f -> Pol d g -> integral (fun x => f x + g x) a b = integral f a b + integral g a b.
Proof. apply Pol_RInt_plus. Qed.

Lemma cell_strip i j : (i <> j)%nat -> total (cell_list h l i j) (peval p) = integral (fun x => upto p x (1 - h * INR i) - upto p x (by_ h i)) (ax h j) (ax h (S j)).
Proof.
  intros N. unfold cell_list. destruct (Nat.eqb_spec i j); [contradiction|]. rewrite total_app, lower_integral, upper_integral.
  rewrite <- integral_plus.
  - replace (ax h j + h) with (ax h (S j)) by (rewrite S_INR; ring). apply Pol_RInt_ext. intros x. replace (by_ h i + h) with (1 - h * INR i) by (rewrite S_INR; ring). ring.
  - apply Pol_sub; [apply upto_diag_Pol|apply upto_const_Pol].
  - apply Pol_sub; [apply upto_const_Pol|apply upto_diag_Pol].
Qed.

Lemma row_integral i : total (row_list h l i) (peval p) =
  integral (fun x => upto p x (1 - h * INR i) - upto p x (by_ h i)) (-1) (ax h i) + integral (fun x => upto p x (0 - x) - upto p x (by_ h i)) (ax h i) (ax h (S i)).
Proof.
  unfold row_list. rewrite total_flat, seq_app, map_app, sum_app. cbn [seq map sum fold_right Nat.add]. f_equal.
  - rewrite (sum_ext' _ _ (fun j => integral (fun x => upto p x (1 - h * INR i) - upto p x (by_ h i)) (ax h j) (ax h (S j)))).
    + rewrite (sum_integrals d _ (fun j => ax h j)) by apply strip_Pol. f_equal. cbn. ring.
    + intros j J. apply in_seq in J. apply cell_strip. lia.
  - unfold cell_list. rewrite Nat.eqb_refl, app_nil_r, lower_integral, Rplus_0_r. replace (ax h i + h) with (ax h (S i)) by (rewrite S_INR; ring).
    replace (ax h i + by_ h i + h) with 0 by (rewrite S_INR; ring). reflexivity.
Qed.

Lemma rows_integral m : total (flat_map (row_list h l) (seq 0 m)) (peval p) = integral (fun x => upto p x (0 - x) - upto p x (1 - h * INR m)) (-1) (ax h m).
Proof.
  induction m as [|m IH].
  - cbn. replace (-1 + h * 0) with (-1) by ring. symmetry. apply (integral_point d), above_Pol.
  - rewrite seq_S, flat_map_app, total_app, IH. cbn [flat_map Nat.add]. rewrite app_nil_r, row_integral. rewrite <- Rplus_assoc, <- integral_plus by (apply above_Pol || apply strip_Pol).
    rewrite (Pol_RInt_ext _ (fun x => upto p x (0 - x) - upto p x (by_ h m))) by (intros; ring). apply (integral_chasles d), above_Pol.
Qed.
End Rows.

(** C54. A rule on the triangle with n subdivisions: zero subdivisions panic; otherwise n^2 times as many points, the same sum of the weights, points inside the
    triangle and positive weights if those of the base rule are, and exact for polynomials of total degree k if the base rule is. *)
Theorem C54_triangle (q : rule point) : subdivide_triangle q 0 = None /\ (length (fst q) = length (snd q) -> forall n, (0 < n)%nat -> exists r, subdivide_triangle q n = Some r /\
  length (fst r) = (n * n * length (fst q))%nat /\ length (snd r) = (n * n * length (fst q))%nat /\
  fold_right Rplus 0 (fst r) = fold_right Rplus 0 (fst q) /\
  ((forall x, In x (snd q) -> -1 <= x 0%nat /\ -1 <= x 1%nat /\ x 0%nat + x 1%nat <= 0) -> forall x, In x (snd r) -> -1 <= x 0%nat /\ -1 <= x 1%nat /\ x 0%nat + x 1%nat <= 0) /\
  ((forall w, In w (fst q) -> 0 < w) -> forall w, In w (fst r) -> 0 < w) /\
  (forall k, (forall p, List.Forall (fun m : R * (nat * nat * nat) => total_degree 2 k (snd m)) p ->
      rule_integrate q (peval p) = RInt (fun x => RInt (fun y => peval p (pt [x; y])) (-1) (- x)) (-1) 1) ->
   forall p, List.Forall (fun m : R * (nat * nat * nat) => total_degree 2 k (snd m)) p ->
      rule_integrate r (peval p) = RInt (fun x => RInt (fun y => peval p (pt [x; y])) (-1) (- x)) (-1) 1)).
Proof.
  split; [reflexivity|]. intros Len n N. assert (N' : 0 < INR n) by (apply lt_0_INR; lia). set (h := 2 / INR n). assert (Hp : 0 < h) by (apply Rdiv_lt_0_compat; lra).
  assert (Hn : h * INR n = 2) by (unfold h; field; lra). rewrite subdivide_list by exact N. fold h. eexists. split; [reflexivity|].
  assert (In' : forall w x, In (w, x) (flat_map (row_list h (zipped q)) (seq 0 n)) -> exists i j w0 y, (j <= i < n)%nat /\ In (w0, y) (zipped q) /\ w = h / 2 * (h / 2) * w0 /\
    ((x 0%nat = ax h j + h / 2 * (y 0%nat + 1) /\ x 1%nat = by_ h i + h / 2 * (y 1%nat + 1)) \/
     ((j < i)%nat /\ x 0%nat = ax h j + h - h / 2 * (y 1%nat + 1) /\ x 1%nat = by_ h i + h + h / 2 * (y 0%nat + y 1%nat)))).
  { intros w x I. apply in_flat_map in I. destruct I as (i & Hi & I). apply in_seq in Hi. unfold row_list in I. apply in_flat_map in I. destruct I as (j & Hj & I). apply in_seq in Hj.
    unfold cell_list in I. apply in_app_iff in I. destruct I as [I|I].
    - unfold lower_list, tri_list in I. apply in_map_iff in I. destruct I as ([w0 y] & E & I). pose proof (f_equal fst E) as E1. pose proof (f_equal snd E) as E2. cbn [fst snd] in E1, E2. subst w x. exists i, j, w0, y.
      split; [lia|]. split; [exact I|]. rewrite lower_volume. split; [reflexivity|]. left. split; [exact (lower_point h i j y 0 ltac:(lia))|exact (lower_point h i j y 1 ltac:(lia))].
    - destruct (Nat.eqb_spec i j) as [|Ne]; [destruct I|].
      unfold upper_list, tri_list in I. apply in_map_iff in I. destruct I as ([w0 y] & E & I). pose proof (f_equal fst E) as E1. pose proof (f_equal snd E) as E2. cbn [fst snd] in E1, E2. subst w x. exists i, j, w0, y.
      split; [lia|]. split; [exact I|]. rewrite upper_volume. split; [reflexivity|]. right. split; [lia|]. split; [exact (upper_point h i j y 0 ltac:(lia))|exact (upper_point h i j y 1 ltac:(lia))]. }
  split; [|split; [|split; [|split; [|split]]]].
  - cbn [fst unz]. rewrite map_length, rows_length, zipped_length by exact Len. reflexivity.
  - cbn [snd unz]. rewrite map_length, rows_length, zipped_length by exact Len. reflexivity.
  - match goal with |- fold_right _ _ (fst (unz ?L)) = _ => change (sum (map fst L) = sum (fst q)) end. destruct (zipped_weights q Len) as [E _]. rewrite <- E, <- !total_one.
    rewrite rows_constant. replace (INR n * INR n * (h / 2 * (h / 2) * total (zipped q) (fun _ => 1))) with ((h * INR n) * (h * INR n) / 4 * total (zipped q) (fun _ => 1)) by field. rewrite Hn. field.
  - intros B x I. apply unz_in_pts in I. destruct I as (w & I). apply In' in I. destruct I as (i & j & w0 & y & J & I & _ & C). apply zipped_in in I. destruct I as [_ I].
    specialize (B y I). rewrite S_INR in C. assert (J0 : 0 <= INR j) by apply pos_INR. assert (J1 : INR j <= INR i) by (apply le_INR; lia). assert (J2 : INR i + 1 <= INR n) by (rewrite <- S_INR; apply le_INR; lia).
    assert (0 <= h * INR j) by (apply Rmult_le_pos; lra). assert (h * INR j <= h * INR i) by (apply Rmult_le_compat_l; lra). assert (h * (INR i + 1) <= 2) by (rewrite <- Hn; apply Rmult_le_compat_l; lra).
    destruct B as (B0 & B1 & B2).
    assert (0 <= h / 2 * (y 0%nat + 1)) by (apply Rmult_le_pos; lra). assert (0 <= h / 2 * (y 1%nat + 1)) by (apply Rmult_le_pos; lra).
    assert (h / 2 * (y 0%nat + 1) + h / 2 * (y 1%nat + 1) <= h) by (replace h with (h / 2 * 2) at 3 by field; rewrite <- Rmult_plus_distr_l; apply Rmult_le_compat_l; lra).
    destruct C as [[-> ->]|(J3 & -> & ->)]; [lra|].
    assert (J4 : INR j + 1 <= INR i) by (rewrite <- S_INR; apply le_INR; lia). assert (h * (INR j + 1) <= h * INR i) by (apply Rmult_le_compat_l; lra). lra.
  - intros B w I. cbn in I. apply in_map_iff in I. destruct I as ([w' x] & E & I). cbn in E. subst w'. apply In' in I. destruct I as (i & j & w0 & y & J & I & -> & _). apply zipped_in in I.
    apply Rmult_lt_0_compat; [|apply B, I]. apply Rmult_lt_0_compat; lra.
  - intros k X p D. rewrite integrate_unz. rewrite (rows_integral p k h (zipped q)); [|exact D|lra|].
    + rewrite Rmult_comm in Hn. replace (-1 + h * INR n) with 1 by lra. replace (1 - h * INR n) with (-1) by lra. symmetry. apply on_triangle_upto. apply (p_planar p k D).
    + intros p' D'. rewrite <- integrate_total. apply X, D'.
Qed.
Print Assumptions C54_triangle.

(** C54. The Gauss rules on the square and the cube, with exact zeros of the Legendre polynomial. *)
Theorem C54_gauss root n : (0 < n)%nat -> exact_search root n -> exists q2 q3,
  quadrilateral_gauss root n = Some q2 /\ hexahedron_gauss root n = Some q3 /\ length (fst q2) = (n * n)%nat /\ length (fst q3) = (n ^ 3)%nat /\
  (forall x, In x (snd q2) -> -1 < x 0%nat < 1 /\ -1 < x 1%nat < 1) /\ (forall x, In x (snd q3) -> -1 < x 0%nat < 1 /\ -1 < x 1%nat < 1 /\ -1 < x 2%nat < 1) /\
  (forall p, List.Forall (fun m : R * (nat * nat * nat) => each_degree 2 (2 * n - 1) (snd m)) p ->
     rule_integrate q2 (peval p) = RInt (fun x => RInt (fun y => peval p (pt [x; y])) (-1) 1) (-1) 1) /\
  (forall p, List.Forall (fun m : R * (nat * nat * nat) => each_degree 3 (2 * n - 1) (snd m)) p ->
     rule_integrate q3 (peval p) = RInt (fun x => RInt (fun y => RInt (fun z => peval p (pt [x; y; z])) (-1) 1) (-1) 1) (-1) 1).
Proof.
  intros N S. destruct (C80_exact root n N S) as (ws & xs & E & L1 & L2 & _ & B & _ & X). unfold quadrilateral_gauss, hexahedron_gauss. rewrite E. cbn [option_map].
  assert (Len : length (fst (ws, xs)) = length (snd (ws, xs))) by (cbn; lia). exists (quadrilateral_tensor (ws, xs)), (hexahedron_tensor (ws, xs)).
  split; [reflexivity|]. split; [reflexivity|]. destruct (C54_quadrilateral (ws, xs) Len) as (Q1 & _ & _ & _ & Q2 & Q3). destruct (C54_hexahedron (ws, xs) Len) as (H1 & _ & _ & _ & H2 & H3).
  cbn [fst snd] in *. rewrite L1 in Q1, H1. split; [exact Q1|]. split; [exact H1|].
  split; [intros x I; apply Q2 in I; destruct I as (a & b & Ia & Ib & ->); unfold pt; cbn [nth]; split; apply B; assumption|].
  split; [intros x I; apply H2 in I; destruct I as (a & b & c & Ia & Ib & Ic & ->); unfold pt; cbn [nth]; repeat split; apply B; assumption|].
  split; intros p D; [apply (Q3 (2 * n - 1)%nat)|apply (H3 (2 * n - 1)%nat)]; try exact D; intros l Ll; apply X; lia.
Qed.
Print Assumptions C54_gauss.

(** The midpoint rule meets the hypotheses for two coefficients, the centroid rule those for total degree one. *)
Example C54_example : let mid : rule R := ([2], [0]) in let centroid : rule point := ([2], [pt [- (1 / 3); - (1 / 3)]]) in
  (forall l, (length l <= 2)%nat -> rule_integrate mid (horner l) = RInt (horner l) (-1) 1) /\
  subdivide_univariate mid 2 = ([1; 1], [- (1 / 2); 1 / 2]) /\
  (forall p, List.Forall (fun m : R * (nat * nat * nat) => total_degree 2 1 (snd m)) p ->
    rule_integrate centroid (peval p) = RInt (fun x => RInt (fun y => peval p (pt [x; y])) (-1) (- x)) (-1) 1) /\
  exists r, subdivide_triangle centroid 3 = Some r /\ length (fst r) = 9%nat /\ rule_integrate r (fun x => x 0%nat) = RInt (fun x => RInt (fun y => x) (-1) (- x)) (-1) 1.
Proof.
  cbv zeta.
  assert (C : forall p, List.Forall (fun m : R * (nat * nat * nat) => total_degree 2 1 (snd m)) p ->
    rule_integrate ([2], [pt [- (1 / 3); - (1 / 3)]]) (peval p) = RInt (fun x => RInt (fun y => peval p (pt [x; y])) (-1) (- x)) (-1) 1).
  { intros p D. assert (D' : forall m, In m p -> total_degree 2 1 (snd m)) by (apply List.Forall_forall; exact D).
    rewrite integrate_total, total_peval. change (RInt _ (-1) 1) with (on_triangle (peval p)). rewrite on_triangle_moments by (apply (p_planar p 1 D)).
    apply fold_ext. intros m Hm. f_equal. specialize (D' m Hm). destruct (snd m) as [[i j] l]. destruct D' as (T & Z & _). cbn [fst snd] in *. rewrite (Z ltac:(lia)). rewrite corner_moment_value.
    destruct i as [|[|i]]; destruct j as [|[|j]]; try lia; unfold total, zipped, monomial, pt; cbn; field. }
  split; [|split; [unfold subdivide_univariate; cbn; repeat f_equal; field|split; [exact C|]]].
  - intros l Ll. change (RInt (horner l) (-1) 1) with (integral (horner l) (-1) 1). destruct l as [|a [|b [|c l]]]; [| | |cbn in Ll; lia].
    + rewrite (Pol_RInt_ext _ (fun t => 0 * t ^ 0)) by (intros; cbn; ring). rewrite integral_mono. unfold rule_integrate. cbn. ring.
    + rewrite (Pol_RInt_ext _ (fun t => a * t ^ 0)) by (intros; cbn; ring). rewrite integral_mono, integral_pow. unfold rule_integrate. cbn. field.
    + rewrite (Pol_RInt_ext _ (fun t => a * t ^ 0 + b * t ^ 1)) by (intros; cbn; ring). rewrite (Pol_RInt_plus 2); [|apply Pol_const_mul_pow; lia|apply Pol_const_mul_pow; lia].
      rewrite !integral_mono, !integral_pow. unfold rule_integrate. cbn. field.
  - destruct (C54_triangle ([2], [pt [- (1 / 3); - (1 / 3)]])) as (_ & H). destruct (H eq_refl 3%nat ltac:(lia)) as (r & E & L & _ & _ & _ & _ & X). exists r. split; [exact E|]. split; [exact L|].
    specialize (X 1%nat C ((1, (1, 0, 0)%nat) :: [])).
    rewrite (integrate_total r), (total_ext _ _ (peval ((1, (1, 0, 0)%nat) :: []))), <- integrate_total by (intros; unfold peval, monomial; cbn; ring). rewrite X.
    + apply Pol_RInt_ext. intros x. apply Pol_RInt_ext. intros y. unfold peval, monomial, pt. cbn. ring.
    + constructor; [|constructor]. cbn. unfold total_degree. cbn. repeat split; lia.
Qed.

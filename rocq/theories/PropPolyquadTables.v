(** C84: the tabulated rules have positive weights, points in the reference domain, and integrate polynomials up to the requested degree to double precision. *)
From Coq Require Import Reals QArith Qreals ZArith NArith Arith Lia Lra Bool String List Permutation.
From Flocq Require Import Core.
From Verif Require Import ElementModel ElementSpec QuadratureModel QuadPolyN RuleProofs TableMoments TableCheck PolyquadModel PolyquadData PropPolyquadText PropPolyquadSelect PropPolyquadDecimal.
Import ListNotations.
Local Open Scope list_scope.

(** ** Specification *)
(** The functions of polyquad.rs:27-95 *)
Inductive domain := Tri | Quad | Tet | Hex | Pri | Pyr.
Definition dimension (d : domain) : nat := match d with Tri | Quad => 2 | Tet | Hex | Pri | Pyr => 3 end%nat.
Definition parser (d : domain) : string -> (@table (Z * Z)) + parse_error := match d with Tri | Quad => parse2d decimal_f64 | Tet | Hex | Pri | Pyr => parse3d decimal_f64 end.
(** the files of low strength, and the largest of their strengths *)
Definition files (d : domain) : list entry := match d with Tri => tri_files | Quad => quad_files | Tet => tet_files | Hex => hex_files | Pri => pri_files | Pyr => pyr_files end.
Definition limit (d : domain) : N := match d with Tri => 10 | Quad => 11 | Tet => 8 | Hex => 7 | Pri => 7 | Pyr => 7 end%N.

Section Spec.
Local Open Scope R_scope.
(** the reference domains *)
Definition inside (d : domain) (x : point) : Prop :=
  match d with
  | Tri => -1 <= x 0%nat /\ -1 <= x 1%nat /\ x 0%nat + x 1%nat <= 0
  | Quad => -1 <= x 0%nat <= 1 /\ -1 <= x 1%nat <= 1
  | Tet => -1 <= x 0%nat /\ -1 <= x 1%nat /\ -1 <= x 2%nat /\ x 0%nat + x 1%nat + x 2%nat <= -1
  | Hex => -1 <= x 0%nat <= 1 /\ -1 <= x 1%nat <= 1 /\ -1 <= x 2%nat <= 1
  | Pri => (-1 <= x 0%nat /\ -1 <= x 1%nat /\ x 0%nat + x 1%nat <= 0) /\ -1 <= x 2%nat <= 1
  | Pyr => -1 <= x 2%nat <= 1 /\ Rabs (x 0%nat) <= (1 - x 2%nat) / 2 /\ Rabs (x 1%nat) <= (1 - x 2%nat) / 2
  end.
(** the integrals over them, as iterated integrals *)
Definition over (d : domain) : (point -> R) -> R := match d with Tri => on_triangle | Quad => on_square | Tet => on_tetrahedron | Hex => on_cube | Pri => on_prism | Pyr => on_pyramid end.
(** the rule of a table of doubles *)
Definition f64_value (f : Z * Z) : R := IZR (fst f) * bpow radix2 (snd f).
Definition real_rule (t : @table (Z * Z)) : rule point := (map f64_value (fst t), map (fun p => pt (map f64_value p)) (snd t)).
End Spec.

(** ** The check of a file *)
Definition momentQ (d : domain) (i j k : nat) : Q :=
  match d with
  | Tri => cutQ i j 0
  | Quad => momQ i * momQ j
  | Tet => signQ (S k) * (1 # Pos.of_succ_nat k) * (cutQ i j (S k) - cutQ i j 0)
  | Hex => momQ i * momQ j * momQ k
  | Pri => cutQ i j 0 * momQ k
  | Pyr => momQ i * momQ j * taperQ k (S i + S j)
  end%Q.
Definition scale64 (f : Z * Z) : option Z :=
  let s := (snd f + 64)%Z in
  if (0 <=? s)%Z then Some (fst f * 2 ^ s)%Z else if (fst f mod 2 ^ (- s) =? 0)%Z then Some (fst f / 2 ^ (- s))%Z else None.
Fixpoint points2 (ws : list (Z * Z)) (ps : list (list (Z * Z))) : option (list (Z * (Z * Z))) :=
  match ws, ps with
  | [], [] => Some []
  | w :: ws, [x; y] :: ps =>
      match scale64 w, scale64 x, scale64 y, points2 ws ps with Some w, Some x, Some y, Some l => Some ((w, (x, y)) :: l) | _, _, _, _ => None end
  | _, _ => None
  end.
Fixpoint points3 (ws : list (Z * Z)) (ps : list (list (Z * Z))) : option (list (Z * (Z * Z * Z))) :=
  match ws, ps with
  | [], [] => Some []
  | w :: ws, [x; y; z] :: ps =>
      match scale64 w, scale64 x, scale64 y, scale64 z, points3 ws ps with Some w, Some x, Some y, Some z, Some l => Some ((w, (x, y, z)) :: l) | _, _, _, _, _ => None end
  | _, _ => None
  end.
Definition range (x : Z) : bool := ((- unit64 <=? x) && (x <=? unit64))%Z.
Definition inside64 (d : domain) (x y z : Z) : bool :=
  (range x && range y && range z &&
  match d with
  | Tri | Pri => x + y <=? 0
  | Quad | Hex => true
  | Tet => x + y + z <=? - unit64
  | Pyr => (2 * Z.abs x <=? unit64 - z) && (2 * Z.abs y <=? unit64 - z)
  end)%Z.
(** all moments up to the strength with an error of less than 18446 units of 2^-64, that is 10^-15 *)
Definition check_table (d : domain) (s : nat) (t : @table (Z * Z)) : bool :=
  let tol := (18446 - Z.of_nat (length (fst t)) * Z.of_nat s)%Z in
  if (dimension d =? 2)%nat then
    match points2 (fst t) (snd t) with
    | Some pts => forallb (fun p => (0 <? fst p)%Z && inside64 d (fst (snd p)) (snd (snd p)) 0) pts && check2 tol s (fun i j => momentQ d i j 0) (sums2 s pts)
    | None => false
    end
  else
    match points3 (fst t) (snd t) with
    | Some pts => forallb (fun p => (0 <? fst p)%Z && inside64 d (fst (fst (snd p))) (snd (fst (snd p))) (snd (snd p))) pts && check3 tol s (momentQ d) (sums3 s pts)
    | None => false
    end.
Definition check_file (d : domain) (e : entry) : bool :=
  match rule_file e, parser d (en_text e) with Some (s, _), inl t => (s <=? limit d)%N && check_table d (N.to_nat s) t | _, _ => false end.

Lemma check_tri : forallb (check_file Tri) (files Tri) = true.
Proof. vm_compute. reflexivity. Qed.
Lemma check_quad : forallb (check_file Quad) (files Quad) = true.
Proof. vm_compute. reflexivity. Qed.
Lemma check_tet : forallb (check_file Tet) (files Tet) = true.
Proof. vm_compute. reflexivity. Qed.
Lemma check_hex : forallb (check_file Hex) (files Hex) = true.
Proof. vm_compute. reflexivity. Qed.
Lemma check_pri : forallb (check_file Pri) (files Pri) = true.
Proof. vm_compute. reflexivity. Qed.
Lemma check_pyr : forallb (check_file Pyr) (files Pyr) = true.
Proof. vm_compute. reflexivity. Qed.

(** ** Soundness *)
Section Sound.
Local Open Scope R_scope.
Lemma scale64_ok f v : scale64 f = Some v -> value64 v = f64_value f.
Proof.
  destruct f as [m e]. unfold scale64, f64_value, value64. cbn [fst snd]. assert (U : IZR unit64 = bpow radix2 64) by reflexivity. rewrite U. pose proof (bpow_gt_0 radix2 64) as P.
  destruct (Z.leb_spec 0 (e + 64)) as [L|L].
  - intros [= <-]. rewrite mult_IZR. change 2%Z with (radix_val radix2). rewrite IZR_Zpower by exact L. rewrite bpow_plus. field. lra.
  - destruct (Z.eqb_spec (m mod 2 ^ (- (e + 64))) 0) as [D|D]; [|discriminate]. intros [= <-]. apply Z.div_exact in D; [|apply Z.pow_nonzero; lia]. rewrite D at 2.
    rewrite mult_IZR. change 2%Z with (radix_val radix2). rewrite IZR_Zpower by lia. replace e with (- (- (e + 64)) + - (64))%Z at 4 by lia. rewrite bpow_plus, !bpow_opp. pose proof (bpow_gt_0 radix2 (e + 64)). field. split; lra.
Qed.
Lemma points2_ok ws ps l : points2 ws ps = Some l -> zipped (real_rule (ws, ps)) = map point2 l /\ length l = length ws /\ length ws = length ps.
Proof.
  revert ps l. induction ws as [|w ws IH]; intros ps l E; destruct ps as [|[|x [|y [|? ?]]] ps]; cbn [points2] in E; try discriminate.
  - injection E as <-. repeat split.
  - destruct (scale64 w) as [w'|] eqn:Ew; [|discriminate]. destruct (scale64 x) as [x'|] eqn:Ex; [|discriminate]. destruct (scale64 y) as [y'|] eqn:Ey; [|discriminate].
    destruct (points2 ws ps) as [l'|] eqn:El; [|discriminate]. injection E as <-. destruct (IH ps l' El) as (H & N & N'). cbn [length map]. split; [|split; congruence].
    change (zipped (real_rule (w :: ws, [x; y] :: ps))) with ((f64_value w, pt (map f64_value [x; y])) :: zipped (real_rule (ws, ps))). rewrite H. f_equal.
    unfold point2. cbn [fst snd map]. rewrite (scale64_ok _ _ Ew), (scale64_ok _ _ Ex), (scale64_ok _ _ Ey). reflexivity.
Qed.
Lemma points3_ok ws ps l : points3 ws ps = Some l -> zipped (real_rule (ws, ps)) = map point3 l /\ length l = length ws /\ length ws = length ps.
Proof.
  revert ps l. induction ws as [|w ws IH]; intros ps l E; destruct ps as [|[|x [|y [|z [|? ?]]]] ps]; cbn [points3] in E; try discriminate.
  - injection E as <-. repeat split.
  - destruct (scale64 w) as [w'|] eqn:Ew; [|discriminate]. destruct (scale64 x) as [x'|] eqn:Ex; [|discriminate]. destruct (scale64 y) as [y'|] eqn:Ey; [|discriminate]. destruct (scale64 z) as [z'|] eqn:Ez; [|discriminate].
    destruct (points3 ws ps) as [l'|] eqn:El; [|discriminate]. injection E as <-. destruct (IH ps l' El) as (H & N & N'). cbn [length map]. split; [|split; congruence].
    change (zipped (real_rule (w :: ws, [x; y; z] :: ps))) with ((f64_value w, pt (map f64_value [x; y; z])) :: zipped (real_rule (ws, ps))). rewrite H. f_equal.
    unfold point3. cbn [fst snd map]. rewrite (scale64_ok _ _ Ew), (scale64_ok _ _ Ex), (scale64_ok _ _ Ey), (scale64_ok _ _ Ez). reflexivity.
Qed.
Lemma value64_le a b : (a <= b)%Z -> value64 a <= value64 b.
Proof. intros L. unfold value64, Rdiv. apply Rmult_le_compat_r; [left; apply Rinv_0_lt_compat, unit64_pos|apply IZR_le, L]. Qed.
Lemma value64_add a b : value64 (a + b) = value64 a + value64 b.
Proof. unfold value64. rewrite plus_IZR. unfold Rdiv. ring. Qed.
Lemma value64_opp a : value64 (- a) = - value64 a.
Proof. unfold value64. rewrite opp_IZR. unfold Rdiv. ring. Qed.
Lemma value64_unit : value64 unit64 = 1.
Proof. unfold value64. pose proof unit64_pos. field. lra. Qed.
Lemma value64_0 : value64 0 = 0.
Proof. unfold value64. pose proof unit64_pos. field. lra. Qed.
Lemma value64_pos a : (0 < a)%Z -> 0 < value64 a.
Proof. intros L. unfold value64, Rdiv. apply Rmult_lt_0_compat; [apply IZR_lt, L|apply Rinv_0_lt_compat, unit64_pos]. Qed.
Lemma range_ok x : range x = true -> small x /\ -1 <= value64 x <= 1.
Proof.
  intros H. apply andb_prop in H. destruct H as [H1 H2]. apply Z.leb_le in H1, H2. split; [split; assumption|]. apply value64_le in H1, H2. rewrite value64_opp, value64_unit in H1. rewrite value64_unit in H2. lra.
Qed.
Lemma abs_bound x z : (2 * Z.abs x <= unit64 - z)%Z -> Rabs (value64 x) <= (1 - value64 z) / 2.
Proof.
  intros H. rewrite <- value64_unit. assert (A : value64 x <= (value64 unit64 - value64 z) / 2).
  { assert (B : value64 (x + x) <= value64 (unit64 + - z)) by (apply value64_le; lia). rewrite !value64_add, value64_opp in B. lra. }
  assert (A' : - value64 x <= (value64 unit64 - value64 z) / 2).
  { assert (B : value64 (- x + - x) <= value64 (unit64 + - z)) by (apply value64_le; lia). rewrite !value64_add, !value64_opp in B. lra. }
  unfold Rabs. destruct (Rcase_abs (value64 x)); assumption.
Qed.
Lemma inside64_ok d x y z : inside64 d x y z = true -> (small x /\ small y /\ small z) /\ inside d (pt [value64 x; value64 y; value64 z]) /\ (dimension d = 2%nat -> inside d (pt [value64 x; value64 y])).
Proof.
  intros H. apply andb_prop in H. destruct H as [H C]. apply andb_prop in H. destruct H as [H Rz]. apply andb_prop in H. destruct H as [Rx Ry].
  apply range_ok in Rx, Ry, Rz. destruct Rx as (Sx & Rx). destruct Ry as (Sy & Ry). destruct Rz as (Sz & Rz). split; [exact (conj Sx (conj Sy Sz))|].
  assert (T : (x + y <= 0)%Z -> value64 x + value64 y <= 0) by (intros L; apply value64_le in L; rewrite value64_add, value64_0 in L; exact L).
  unfold inside, pt; destruct d; cbn [nth dimension]; (split; [|intros D; try discriminate D]).
  - apply Z.leb_le, T in C. lra.
  - apply Z.leb_le, T in C. lra.
  - lra.
  - lra.
  - apply Z.leb_le, value64_le in C. rewrite !value64_add, value64_opp, value64_unit in C. lra.
  - lra.
  - apply Z.leb_le, T in C. lra.
  - apply andb_prop in C. destruct C as [C1 C2]. apply Z.leb_le, abs_bound in C1, C2. repeat split; try assumption; lra.
Qed.
Lemma moments_ok d : moments (dimension d) (over d) (fun e => Q2R (momentQ d (fst (fst e)) (snd (fst e)) (snd e))).
Proof.
  intros p F. destruct d; cbn [over dimension momentQ] in *.
  - rewrite (triangle_moments p F). apply fold_ext. intros m _. rewrite cutQ_ok. reflexivity.
  - rewrite (square_moments p F). apply fold_ext. intros m _. rewrite Q2R_mult, !momQ_ok. reflexivity.
  - rewrite (tetrahedron_moments p F). apply fold_ext. intros m _. rewrite !Q2R_mult, Q2R_minus, !cutQ_ok, signQ_ok, Q2R_succ. unfold Rdiv. ring.
  - rewrite (cube_moments p F). apply fold_ext. intros m _. rewrite !Q2R_mult, !momQ_ok. reflexivity.
  - rewrite (prism_moments p F). apply fold_ext. intros m _. rewrite !Q2R_mult, !momQ_ok, cutQ_ok. reflexivity.
  - rewrite (pyramid_moments p F). apply fold_ext. intros m _. rewrite !Q2R_mult, !momQ_ok, taperQ_ok. reflexivity.
Qed.
Lemma tolerance n s : (IZR (18446 - Z.of_nat n * Z.of_nat s) + INR n * INR s) / IZR unit64 <= / 10 ^ 15.
Proof.
  rewrite minus_IZR, mult_IZR, <- !INR_IZR_INZ. replace (18446 - INR n * INR s + INR n * INR s) with 18446 by ring. unfold unit64. lra.
Qed.
Lemma check_table_ok d s t : check_table d s t = true ->
  length (fst t) = length (snd t) /\ List.Forall (fun w => 0 < w) (fst (real_rule t)) /\ List.Forall (inside d) (snd (real_rule t)) /\
  forall p, List.Forall (fun m : R * (nat * nat * nat) => total_degree (dimension d) s (snd m)) p -> Rabs (rule_integrate (real_rule t) (peval p) - over d (peval p)) <= / 10 ^ 15 * size_of p.
Proof.
  destruct t as [ws ps]. unfold check_table. cbn [fst snd]. intros C.
  assert (Z0 : forall n, length ws = length ps -> (forall w x, In (w, x) (zipped (real_rule (ws, ps))) -> 0 < w /\ inside d x) -> n = length ws ->
    (forall i j k, total_degree (dimension d) s (i, j, k) -> Rabs (total (zipped (real_rule (ws, ps))) (monomial (i, j, k)) - Q2R (momentQ d i j k)) <= (IZR (18446 - Z.of_nat n * Z.of_nat s) + INR n * INR s) / IZR unit64) ->
    length ws = length ps /\ List.Forall (fun w => 0 < w) (fst (real_rule (ws, ps))) /\ List.Forall (inside d) (snd (real_rule (ws, ps))) /\
    forall p, List.Forall (fun m : R * (nat * nat * nat) => total_degree (dimension d) s (snd m)) p -> Rabs (rule_integrate (real_rule (ws, ps)) (peval p) - over d (peval p)) <= / 10 ^ 15 * size_of p).
  { intros n N H -> M. destruct (zipped_weights (real_rule (ws, ps))) as (W1 & W2); [cbn; rewrite !map_length; exact N|]. split; [exact N|]. split; [|split].
    - rewrite <- W1. apply List.Forall_forall. intros w Hw. apply in_map_iff in Hw. destruct Hw as ((w', x) & <- & Hw). apply (H w' x Hw).
    - rewrite <- W2. apply List.Forall_forall. intros x Hx. apply in_map_iff in Hx. destruct Hx as ((w', x') & <- & Hx). apply (H w' x' Hx).
    - intros p Hp. rewrite integrate_total. eapply (poly_error _ _ _ _ _ _ (moments_ok d)).
      + eapply List.Forall_impl; [|exact Hp]. intros c (_ & Hc & _) D. apply Hc. lia.
      + eapply List.Forall_impl; [|exact Hp]. intros [c [[i j] k]] Hc. cbn [fst snd] in *. eapply Rle_trans; [apply M, Hc|apply tolerance]. }
  assert (Dd : (dimension d = 2 \/ dimension d = 3)%nat) by (destruct d; cbn; lia).
  destruct (dimension d =? 2)%nat eqn:D.
  - apply Nat.eqb_eq in D. destruct (points2 ws ps) as [l|] eqn:El; [|discriminate]. apply andb_prop in C. destruct C as [C1 C2]. rewrite forallb_forall in C1. destruct (points2_ok ws ps l El) as (Zp & N1 & N2).
    assert (Sm : forall q, In q l -> small (fst (snd q)) /\ small (snd (snd q))).
    { intros q Hq. specialize (C1 q Hq). apply andb_prop in C1. destruct C1 as [_ C1]. apply inside64_ok in C1. split; apply C1. }
    apply (Z0 (length l) N2); [|exact N1|].
    + intros w x Hw. rewrite Zp in Hw. apply in_map_iff in Hw. destruct Hw as (q & Eq & Hq). specialize (C1 q Hq). apply andb_prop in C1. destruct C1 as [C0 C1].
      pose proof (f_equal fst Eq) as E1. pose proof (f_equal snd Eq) as E2. cbn [fst snd point2] in E1, E2. subst w x. split; [apply value64_pos, Z.ltb_lt, C0|]. apply inside64_ok in C1. apply C1, D.
    + intros i j k (T1 & T2 & _). cbn [fst snd] in T1, T2. assert (k = 0%nat) as -> by (apply T2; lia). rewrite Zp, <- N1 in *. apply (check2_ok _ s (fun i j => momentQ d i j 0) l Sm); [exact C2|lia].
  - apply Nat.eqb_neq in D. destruct (points3 ws ps) as [l|] eqn:El; [|discriminate]. apply andb_prop in C. destruct C as [C1 C2]. rewrite forallb_forall in C1. destruct (points3_ok ws ps l El) as (Zp & N1 & N2).
    assert (Sm : forall q, In q l -> small (fst (fst (snd q))) /\ small (snd (fst (snd q))) /\ small (snd (snd q))).
    { intros q Hq. specialize (C1 q Hq). apply andb_prop in C1. destruct C1 as [_ C1]. apply inside64_ok in C1. apply C1. }
    apply (Z0 (length l) N2); [|exact N1|].
    + intros w x Hw. rewrite Zp in Hw. apply in_map_iff in Hw. destruct Hw as (q & Eq & Hq). specialize (C1 q Hq). apply andb_prop in C1. destruct C1 as [C0 C1].
      pose proof (f_equal fst Eq) as E1. pose proof (f_equal snd Eq) as E2. cbn [fst snd point3] in E1, E2. subst w x. split; [apply value64_pos, Z.ltb_lt, C0|]. apply inside64_ok in C1. apply C1.
    + intros i j k (T1 & _). cbn [fst snd] in T1. rewrite Zp, <- N1 in *. apply (check3_ok _ s (momentQ d) l Sm); [exact C2|lia].
Qed.
Lemma check_all d : forallb (check_file d) (files d) = true.
Proof. destruct d; [exact check_tri|exact check_quad|exact check_tet|exact check_hex|exact check_pri|exact check_pyr]. Qed.
Lemma limit_reached d : exists e n, In e (files d) /\ rule_file e = Some (limit d, n).
Proof.
  destruct d; cbn [files limit].
  - exists tri_10_25, 25%N. split; [cbn; tauto|reflexivity].
  - exists quad_11_28, 28%N. split; [cbn; tauto|reflexivity].
  - exists tet_8_46, 46%N. split; [cbn; tauto|reflexivity].
  - exists hex_7_34, 34%N. split; [cbn; tauto|reflexivity].
  - exists pri_7_35, 35%N. split; [cbn; tauto|reflexivity].
  - exists pyr_7_31, 31%N. split; [cbn; tauto|reflexivity].
Qed.

(** ** C84 *)
Theorem C84_tables d dir rest k : Permutation dir (files d ++ rest) -> well_formed (parser d) dir -> (forall e s n, In e rest -> is_rule_file e s n -> (limit d < s)%N) -> (k <= limit d)%N ->
  exists t, select_minimum (parser d) dir k = Some (Some t) /\ length (fst t) = length (snd t) /\
    List.Forall (fun w => 0 < w) (fst (real_rule t)) /\ List.Forall (inside d) (snd (real_rule t)) /\
    forall p, List.Forall (fun m : R * (nat * nat * nat) => total_degree (dimension d) (N.to_nat k) (snd m)) p ->
      Rabs (rule_integrate (real_rule t) (peval p) - over d (peval p)) <= / 10 ^ 15 * fold_right (fun c acc => Rabs (fst c) + acc) 0 p.
Proof.
  intros P W B K. destruct (C82_select (parser d) dir k) as (A & S). destruct (select_minimum (parser d) dir k) as [res|] eqn:E; [|destruct (proj2 A W); reflexivity].
  specialize (S res eq_refl). destruct (limit_reached d) as (e0 & n0 & I0 & R0). apply rule_file_spec in R0. assert (I0' : In e0 dir) by (apply (Permutation_in _ (Permutation_sym P)), in_or_app; left; exact I0).
  destruct res as [t|]; [|specialize (S e0 (limit d) n0 I0' R0); lia]. destruct S as (e & s & n & I & Rf & Ep & N1 & N2 & L & M). exists t. split; [reflexivity|].
  specialize (M e0 (limit d) n0 I0' R0 K). assert (If : In e (files d)).
  { apply (Permutation_in _ P), in_app_or in I. destruct I as [I|I]; [exact I|]. specialize (B e s n I Rf). lia. }
  pose proof (check_all d) as C. rewrite forallb_forall in C. specialize (C e If). unfold check_file in C. apply rule_file_spec in Rf. rewrite Rf, Ep in C. apply andb_prop in C. destruct C as [_ C].
  destruct (check_table_ok d (N.to_nat s) t C) as (H1 & H2 & H3 & H4). split; [exact H1|]. split; [exact H2|]. split; [exact H3|]. intros p Hp. apply (H4 p).
  eapply List.Forall_impl; [|exact Hp]. intros c (T1 & T2 & T3). split; [lia|]. split; assumption.
Qed.
Print Assumptions C84_tables.
(** the files of low strength alone, and the polynomial x^3 y - 2 *)
Example C84_example d : Permutation (files d) (files d ++ []) /\ well_formed (parser d) (files d) /\ (forall e s n, In e [] -> is_rule_file e s n -> (limit d < s)%N) /\
  List.Forall (fun m : R * (nat * nat * nat) => total_degree (dimension d) 4 (snd m)) [(1, (3, 1, 0)%nat); (-2, (0, 0, 0)%nat)].
Proof.
  split; [rewrite app_nil_r; reflexivity|]. split; [|split; [intros e s n []|]].
  - apply (proj1 (C82_select (parser d) (files d) 0%N)). destruct d; vm_compute; discriminate.
  - constructor; [|constructor; [|constructor]]; (split; [cbn; lia|split; [reflexivity|intros D; destruct d; cbn in D; lia]]).
Qed.
End Sound.

(** A check, by fixed-point arithmetic with proved error bounds, that a quadrature rule integrates monomials accurately (for C84). *)
From Coq Require Import Reals QArith Qreals ZArith List Arith Lia Lra Bool.
From Verif Require Import ElementModel ElementSpec QuadratureModel QuadPolyN RuleProofs TableMoments.
Import ListNotations.

(** Numbers are integers in units of 2^-64. *)
Definition unit64 : Z := 18446744073709551616.
Definition value64 (x : Z) : R := (IZR x / IZR unit64)%R.
Local Open Scope Z_scope.
(** p x^j for j = 0, ..., n; each step rounds down *)
Fixpoint row (n : nat) (p x : Z) : list Z := p :: match n with O => [] | S n => row n (Z.shiftr (p * x) 64) x end.
(** p x^i y^j for i + j <= n *)
Fixpoint plane (n : nat) (p x y : Z) : list (list Z) := row n p y :: match n with O => [] | S n => plane n (Z.shiftr (p * x) 64) x y end.
(** p x^i y^j z^k for i + j + k <= n *)
Fixpoint cube (n : nat) (p x y z : Z) : list (list (list Z)) := plane n p y z :: match n with O => [] | S n => cube n (Z.shiftr (p * x) 64) x y z end.

Fixpoint add_with {A} (add : A -> A -> A) (u v : list A) : list A :=
  match u, v with [], v => v | u, [] => u | a :: u, b :: v => add a b :: add_with add u v end.
Definition add1 := add_with Z.add.
Definition add2 := add_with add1.
Definition add3 := add_with add2.

(** |v 2^-64 - q| <= tol 2^-64 *)
Definition close (tol : Z) (v : Z) (q : Q) : bool := (Z.abs (v * Zpos (Qden q) - Qnum q * unit64) <=? tol * Zpos (Qden q))%Z.

(** a weighted point: weight and coordinates *)
Definition sums2 (s : nat) (pts : list (Z * (Z * Z))) : list (list Z) := fold_right (fun p acc => add2 (plane s (fst p) (fst (snd p)) (snd (snd p))) acc) [] pts.
Definition sums3 (s : nat) (pts : list (Z * (Z * Z * Z))) : list (list (list Z)) :=
  fold_right (fun p acc => add3 (cube s (fst p) (fst (fst (snd p))) (snd (fst (snd p))) (snd (snd p))) acc) [] pts.
Definition check2 (tol : Z) (s : nat) (m : nat -> nat -> Q) (sums : list (list Z)) : bool :=
  forallb (fun i => forallb (fun j => close tol (nth j (nth i sums []) 0) (m i j)) (seq 0 (S (s - i)))) (seq 0 (S s)).
Definition check3 (tol : Z) (s : nat) (m : nat -> nat -> nat -> Q) (sums : list (list (list Z))) : bool :=
  forallb (fun i => forallb (fun j => forallb (fun k => close tol (nth k (nth j (nth i sums []) []) 0) (m i j k)) (seq 0 (S (s - i - j)))) (seq 0 (S (s - i)))) (seq 0 (S s)).

(** ** Soundness *)
Local Open Scope R_scope.
Lemma unit64_pos : 0 < IZR unit64.
Proof. apply IZR_lt. reflexivity. Qed.
Definition small (x : Z) : Prop := (- unit64 <= x <= unit64)%Z.
Lemma value64_abs x : small x -> Rabs (value64 x) <= 1.
Proof.
  intros (L & U). unfold value64. pose proof unit64_pos. unfold Rdiv. rewrite Rabs_mult, (Rabs_pos_eq (/ IZR unit64)) by (left; apply Rinv_0_lt_compat; assumption).
  apply Rmult_le_reg_r with (IZR unit64); [assumption|]. rewrite Rmult_assoc, Rinv_l by lra. rewrite Rmult_1_r, Rmult_1_l, <- abs_IZR. apply IZR_le. lia.
Qed.
(** [v] approximates the real number [r] up to [n] units *)
Definition approx (v : Z) (r : R) (n : R) : Prop := Rabs (IZR v - r * IZR unit64) <= n.
Lemma approx_mul p r n x : small x -> 0 <= n -> approx p r n -> approx (Z.shiftr (p * x) 64) (r * value64 x) (n + 1).
Proof.
  intros Sx N A. unfold approx in *. rewrite Z.shiftr_div_pow2 by lia. change (2 ^ 64)%Z with unit64. pose proof unit64_pos as U.
  assert (F : Rabs (IZR ((p * x) / unit64) - IZR p * value64 x) <= 1).
  { pose proof (Z.div_mod (p * x) unit64 ltac:(discriminate)) as D. pose proof (Z.mod_pos_bound (p * x) unit64 ltac:(reflexivity)) as M. apply (f_equal IZR) in D. rewrite plus_IZR, !mult_IZR in D.
    assert (M1 : 0 <= IZR ((p * x) mod unit64)) by (apply IZR_le; lia). assert (M2 : IZR ((p * x) mod unit64) < IZR unit64) by (apply IZR_lt; lia).
    assert (E : IZR ((p * x) / unit64) - IZR p * value64 x = - (IZR ((p * x) mod unit64) / IZR unit64)).
    { unfold value64. apply Rmult_eq_reg_r with (IZR unit64); [|lra]. field_simplify; [|lra..]. lra. }
    rewrite E, Rabs_Ropp, Rabs_pos_eq.
    - apply Rmult_le_reg_r with (IZR unit64); [exact U|]. unfold Rdiv. rewrite Rmult_assoc, Rinv_l by lra. lra.
    - unfold Rdiv. apply Rmult_le_pos; [exact M1|]. left. apply Rinv_0_lt_compat, U. }
  replace (IZR ((p * x) / unit64) - r * value64 x * IZR unit64) with ((IZR ((p * x) / unit64) - IZR p * value64 x) + (IZR p - r * IZR unit64) * value64 x) by ring.
  eapply Rle_trans; [apply Rabs_triang|]. rewrite Rabs_mult. pose proof (value64_abs x Sx) as V. pose proof (Rabs_pos (IZR p - r * IZR unit64)). pose proof (Rabs_pos (value64 x)).
  assert (Rabs (IZR p - r * IZR unit64) * Rabs (value64 x) <= n * 1) by (apply Rmult_le_compat; assumption). lra.
Qed.
Lemma row_approx n p x r e j : small x -> 0 <= e -> approx p r e -> (j <= n)%nat -> approx (nth j (row n p x) 0%Z) (r * value64 x ^ j) (e + INR j).
Proof.
  intros Sx. revert p r e j. induction n as [|n IH]; intros p r e j E A L; cbn [row].
  - assert (j = 0%nat) as -> by lia. cbn [nth pow INR]. rewrite Rmult_1_r, Rplus_0_r. exact A.
  - destruct j as [|j]; cbn [nth]; [cbn [pow INR]; rewrite Rmult_1_r, Rplus_0_r; exact A|]. rewrite S_INR. replace (r * value64 x ^ S j) with (r * value64 x * value64 x ^ j) by (cbn [pow]; ring).
    replace (e + (INR j + 1)) with (e + 1 + INR j) by ring. apply IH; [lra|apply approx_mul; assumption|lia].
Qed.
Lemma plane_approx n p x y r e i j : small x -> small y -> 0 <= e -> approx p r e -> (i + j <= n)%nat ->
  approx (nth j (nth i (plane n p x y) []) 0%Z) (r * value64 x ^ i * value64 y ^ j) (e + INR i + INR j).
Proof.
  intros Sx Sy. revert p r e i. induction n as [|n IH]; intros p r e i E A L; cbn [plane].
  - assert (i = 0%nat) as -> by lia. cbn [nth pow]. rewrite Rmult_1_r. replace (e + INR 0 + INR j) with (e + INR j) by (cbn; ring). apply row_approx; try assumption; lia.
  - destruct i as [|i]; cbn [nth].
    + cbn [pow]. rewrite Rmult_1_r. replace (e + INR 0 + INR j) with (e + INR j) by (cbn; ring). apply row_approx; try assumption; lia.
    + rewrite S_INR. replace (r * value64 x ^ S i * value64 y ^ j) with (r * value64 x * value64 x ^ i * value64 y ^ j) by (cbn [pow]; ring).
      replace (e + (INR i + 1) + INR j) with (e + 1 + INR i + INR j) by ring. apply IH; [lra|apply approx_mul; assumption|lia].
Qed.
Lemma cube_approx n p x y z r e i j k : small x -> small y -> small z -> 0 <= e -> approx p r e -> (i + j + k <= n)%nat ->
  approx (nth k (nth j (nth i (cube n p x y z) []) []) 0%Z) (r * value64 x ^ i * value64 y ^ j * value64 z ^ k) (e + INR i + INR j + INR k).
Proof.
  intros Sx Sy Sz. revert p r e i. induction n as [|n IH]; intros p r e i E A L; cbn [cube].
  - assert (i = 0%nat) as -> by lia. cbn [nth pow]. rewrite Rmult_1_r. replace (e + INR 0 + INR j + INR k) with (e + INR j + INR k) by (cbn; ring). apply plane_approx; try assumption; lia.
  - destruct i as [|i]; cbn [nth].
    + cbn [pow]. rewrite Rmult_1_r. replace (e + INR 0 + INR j + INR k) with (e + INR j + INR k) by (cbn; ring). apply plane_approx; try assumption; lia.
    + rewrite S_INR. replace (r * value64 x ^ S i * value64 y ^ j * value64 z ^ k) with (r * value64 x * value64 x ^ i * value64 y ^ j * value64 z ^ k) by (cbn [pow]; ring).
      replace (e + (INR i + 1) + INR j + INR k) with (e + 1 + INR i + INR j + INR k) by ring. apply IH; [lra|apply approx_mul; assumption|lia].
Qed.
Lemma add_with_nth {A} (add : A -> A -> A) d u v i : (forall a, add a d = a) -> (forall a, add d a = a) -> nth i (add_with add u v) d = add (nth i u d) (nth i v d).
Proof.
  intros R L. revert v i. induction u as [|a u IH]; intros [|b v] [|i]; cbn; rewrite ?R, ?L; try reflexivity. apply IH.
Qed.
Lemma add_with_nil {A} (add : A -> A -> A) u : add_with add u [] = u.
Proof. destruct u; reflexivity. Qed.
Lemma add1_nth u v i : nth i (add1 u v) 0%Z = (nth i u 0 + nth i v 0)%Z.
Proof. apply add_with_nth; intros; lia. Qed.
Lemma add2_nth u v i j : nth j (nth i (add2 u v) []) 0%Z = (nth j (nth i u []) 0 + nth j (nth i v []) 0)%Z.
Proof. unfold add2. rewrite (add_with_nth add1 []), add1_nth; [reflexivity|apply add_with_nil|reflexivity]. Qed.
Lemma add3_nth u v i j k : nth k (nth j (nth i (add3 u v) []) []) 0%Z = (nth k (nth j (nth i u []) []) 0 + nth k (nth j (nth i v []) []) 0)%Z.
Proof. unfold add3. rewrite (add_with_nth add2 []), add2_nth; [reflexivity|apply add_with_nil|reflexivity]. Qed.

Lemma approx_exact p : approx p (value64 p) 0.
Proof. unfold approx, value64. pose proof unit64_pos. replace (IZR p - IZR p / IZR unit64 * IZR unit64) with 0 by (field; lra). rewrite Rabs_R0. lra. Qed.
Lemma approx_add u v r t n m : approx u r n -> approx v t m -> approx (u + v) (r + t) (n + m).
Proof.
  unfold approx. intros A B. rewrite plus_IZR. replace (IZR u + IZR v - (r + t) * IZR unit64) with ((IZR u - r * IZR unit64) + (IZR v - t * IZR unit64)) by ring.
  eapply Rle_trans; [apply Rabs_triang|]. lra.
Qed.
(** the real points *)
Definition point2 (p : Z * (Z * Z)) : R * point := (value64 (fst p), pt [value64 (fst (snd p)); value64 (snd (snd p))]).
Definition point3 (p : Z * (Z * Z * Z)) : R * point := (value64 (fst p), pt [value64 (fst (fst (snd p))); value64 (snd (fst (snd p))); value64 (snd (snd p))]).
Lemma sums2_approx s pts i j : (forall p, In p pts -> small (fst (snd p)) /\ small (snd (snd p))) -> (i + j <= s)%nat ->
  approx (nth j (nth i (sums2 s pts) []) 0%Z) (total (map point2 pts) (monomial (i, j, 0%nat))) (INR (length pts) * INR s).
Proof.
  intros H L. induction pts as [|p pts IH].
  - cbn [sums2 fold_right map length]. destruct i; destruct j; unfold total, approx; cbn; rewrite Rmult_0_l, Rminus_0_r, Rabs_R0; lra.
  - change (sums2 s (p :: pts)) with (add2 (plane s (fst p) (fst (snd p)) (snd (snd p))) (sums2 s pts)). rewrite add2_nth. cbn [length map]. rewrite S_INR.
    replace ((INR (length pts) + 1) * INR s) with (INR s + INR (length pts) * INR s) by ring.
    change (total (point2 p :: map point2 pts) (monomial (i, j, 0%nat))) with (fst (point2 p) * monomial (i, j, 0%nat) (snd (point2 p)) + total (map point2 pts) (monomial (i, j, 0%nat))).
    apply approx_add; [|apply IH; intros q Q; apply H; right; exact Q]. destruct (H p (or_introl eq_refl)) as (Sx & Sy).
    pose proof (plane_approx s (fst p) (fst (snd p)) (snd (snd p)) (value64 (fst p)) 0 i j Sx Sy (Rle_refl 0) (approx_exact _) L) as A. unfold approx in *.
    replace (fst (point2 p) * monomial (i, j, 0%nat) (snd (point2 p))) with (value64 (fst p) * value64 (fst (snd p)) ^ i * value64 (snd (snd p)) ^ j) by (unfold monomial, point2, pt; cbn [fst snd nth pow]; ring).
    eapply Rle_trans; [exact A|]. rewrite Rplus_0_l, <- plus_INR. apply le_INR. exact L.
Qed.
Lemma sums3_approx s pts i j k : (forall p, In p pts -> small (fst (fst (snd p))) /\ small (snd (fst (snd p))) /\ small (snd (snd p))) -> (i + j + k <= s)%nat ->
  approx (nth k (nth j (nth i (sums3 s pts) []) []) 0%Z) (total (map point3 pts) (monomial (i, j, k))) (INR (length pts) * INR s).
Proof.
  intros H L. induction pts as [|p pts IH].
  - cbn [sums3 fold_right map length]. destruct i; destruct j; destruct k; unfold total, approx; cbn; rewrite Rmult_0_l, Rminus_0_r, Rabs_R0; lra.
  - change (sums3 s (p :: pts)) with (add3 (cube s (fst p) (fst (fst (snd p))) (snd (fst (snd p))) (snd (snd p))) (sums3 s pts)). rewrite add3_nth. cbn [length map]. rewrite S_INR.
    replace ((INR (length pts) + 1) * INR s) with (INR s + INR (length pts) * INR s) by ring.
    change (total (point3 p :: map point3 pts) (monomial (i, j, k))) with (fst (point3 p) * monomial (i, j, k) (snd (point3 p)) + total (map point3 pts) (monomial (i, j, k))).
    apply approx_add; [|apply IH; intros q Q; apply H; right; exact Q]. destruct (H p (or_introl eq_refl)) as (Sx & Sy & Sz).
    pose proof (cube_approx s (fst p) (fst (fst (snd p))) (snd (fst (snd p))) (snd (snd p)) (value64 (fst p)) 0 i j k Sx Sy Sz (Rle_refl 0) (approx_exact _) L) as A. unfold approx in *.
    replace (fst (point3 p) * monomial (i, j, k) (snd (point3 p))) with (value64 (fst p) * value64 (fst (fst (snd p))) ^ i * value64 (snd (fst (snd p))) ^ j * value64 (snd (snd p)) ^ k) by (unfold monomial, point3, pt; cbn [fst snd nth pow]; ring).
    eapply Rle_trans; [exact A|]. rewrite Rplus_0_l, <- !plus_INR. apply le_INR. exact L.
Qed.
Lemma abs_scale a d : 0 < d -> Rabs a * d = Rabs (a * d).
Proof. intros D. rewrite Rabs_mult, (Rabs_pos_eq d) by lra. reflexivity. Qed.
Lemma close_ok tol v q : close tol v q = true -> Rabs (IZR v - Q2R q * IZR unit64) <= IZR tol.
Proof.
  unfold close. intros H. apply Z.leb_le, IZR_le in H. rewrite abs_IZR, minus_IZR, !mult_IZR in H. unfold Q2R. assert (D : 0 < IZR (Zpos (Qden q))) by (apply IZR_lt; reflexivity).
  apply Rmult_le_reg_r with (IZR (Zpos (Qden q))); [exact D|]. rewrite (abs_scale _ _ D).
  replace ((IZR v - IZR (Qnum q) * / IZR (Zpos (Qden q)) * IZR unit64) * IZR (Zpos (Qden q))) with (IZR v * IZR (Zpos (Qden q)) - IZR (Qnum q) * IZR unit64) by (field; lra). exact H.
Qed.
(** the errors of the moments *)
Lemma check_error tol v q r n : close tol v q = true -> approx v r n -> Rabs (r - Q2R q) <= (IZR tol + n) / IZR unit64.
Proof.
  intros C A. apply close_ok in C. unfold approx in A. pose proof unit64_pos as U. apply Rmult_le_reg_r with (IZR unit64); [exact U|]. rewrite (abs_scale _ _ U).
  replace ((IZR tol + n) / IZR unit64 * IZR unit64) with (IZR tol + n) by (field; lra).
  replace ((r - Q2R q) * IZR unit64) with ((IZR v - Q2R q * IZR unit64) + - (IZR v - r * IZR unit64)) by ring. eapply Rle_trans; [apply Rabs_triang|]. rewrite Rabs_Ropp. lra.
Qed.
Lemma check2_ok tol s m pts : (forall p, In p pts -> small (fst (snd p)) /\ small (snd (snd p))) -> check2 tol s m (sums2 s pts) = true ->
  forall i j, (i + j <= s)%nat -> Rabs (total (map point2 pts) (monomial (i, j, 0%nat)) - Q2R (m i j)) <= (IZR tol + INR (length pts) * INR s) / IZR unit64.
Proof.
  intros H C i j L. unfold check2 in C. rewrite forallb_forall in C. specialize (C i ltac:(apply in_seq; lia)). rewrite forallb_forall in C. specialize (C j ltac:(apply in_seq; lia)).
  apply (check_error _ _ _ _ _ C). apply sums2_approx; assumption.
Qed.
Lemma check3_ok tol s m pts : (forall p, In p pts -> small (fst (fst (snd p))) /\ small (snd (fst (snd p))) /\ small (snd (snd p))) -> check3 tol s m (sums3 s pts) = true ->
  forall i j k, (i + j + k <= s)%nat -> Rabs (total (map point3 pts) (monomial (i, j, k)) - Q2R (m i j k)) <= (IZR tol + INR (length pts) * INR s) / IZR unit64.
Proof.
  intros H C i j k L. unfold check3 in C. rewrite forallb_forall in C. specialize (C i ltac:(apply in_seq; lia)). rewrite forallb_forall in C. specialize (C j ltac:(apply in_seq; lia)).
  rewrite forallb_forall in C. specialize (C k ltac:(apply in_seq; lia)). apply (check_error _ _ _ _ _ C). apply sums3_approx; assumption.
Qed.

(** from monomials to polynomials *)
Definition size_of (p : poly) : R := fold_right (fun c acc => Rabs (fst c) + acc) 0 p.
Lemma total_peval l p : total l (peval p) = fold_right (fun c acc => fst c * total l (monomial (snd c)) + acc) 0 p.
Proof.
  induction p as [|c p IH]; cbn [fold_right].
  - transitivity (sum (map (fun _ : R * point => 0 * 1) l)); [apply sum_ext'; intros; cbn; rewrite Rmult_0_r, Rmult_0_l; reflexivity|]. rewrite sum_scale. apply Rmult_0_l.
  - rewrite <- IH. unfold total. rewrite <- sum_scale, <- sum_plus. apply sum_ext'. intros x _. unfold peval. cbn [fold_right]. ring.
Qed.
Lemma poly_error l dim over m p eps : moments dim over m -> List.Forall (fun c : R * (nat * nat * nat) => dim = 2%nat -> snd (snd c) = 0%nat) p ->
  List.Forall (fun c : R * (nat * nat * nat) => Rabs (total l (monomial (snd c)) - m (snd c)) <= eps) p -> Rabs (total l (peval p) - over (peval p)) <= eps * size_of p.
Proof.
  intros M D H. rewrite (M p D), total_peval. clear M D. induction H as [|c p Hc H IH]; cbn [fold_right size_of].
  - rewrite Rminus_0_r, Rabs_R0. lra.
  - match goal with |- Rabs (?a * ?b + ?t - (?a * ?q + ?u)) <= _ => replace (a * b + t - (a * q + u)) with (a * (b - q) + (t - u)) by ring end.
    eapply Rle_trans; [apply Rabs_triang|]. rewrite Rabs_mult, Rmult_plus_distr_l. apply Rplus_le_compat; [|exact IH]. rewrite Rmult_comm. apply Rmult_le_compat_r; [apply Rabs_pos|exact Hc].
Qed.

(** C80. Gauss rules: the recurrence gives the Legendre polynomials and their derivatives, and the rule of n zeros integrates polynomials of degree 2 n - 1 exactly. *)
From Coq Require Import Reals List Arith Lia Lra FinFun.
From Coquelicot Require Import Coquelicot.
From Verif Require Import ElementModel QuadratureModel QuadPoly LegendreProofs LegendreZeros.
Import ListNotations.
Local Open Scope R_scope.

(** C80. The value of the recurrence is the Legendre polynomial: n + 1 coefficients, one at one, orthogonal to everything of lower degree,
    with n zeros in the open interval; the derivative is its derivative away from -1 and 1. *)
Theorem C80_legendre n :
  (exists l, (length l <= n + 1)%nat /\ forall x, legendre_value n x = horner l x) /\ legendre_value n 1 = 1 /\
  (forall l, (length l <= n)%nat -> RInt (fun x => legendre_value n x * horner l x) (-1) 1 = 0) /\
  (exists z : nat -> R, (forall i, (i < n)%nat -> -1 < z i < 1) /\ (forall i j, (i < j < n)%nat -> z i < z j) /\
     forall x, legendre_value n x = 0 <-> exists i, (i < n)%nat /\ x = z i) /\
  (forall x, x <> 1 -> x <> -1 -> is_derive (legendre_value n) x (legendre_derivative n x)).
Proof.
  split; [destruct (L_Pol n) as (l & Hl & E); exists l; split; [lia|exact E]|]. split; [apply L_one|]. split; [|split].
  - intros l Hl. apply (orthogonal_Pol n (horner l) n); [exists l; split; [exact Hl|reflexivity]|lia].
  - destruct (zeros_exist n) as (z & Z). exists z. split; [intros i Hi; apply Z, Hi|]. split; [apply increasing_lt, Z|]. intros x. split.
    + apply zeros_complete, Z.
    + intros (i & Hi & ->). apply Z, Hi.
  - intros x N1 N2. rewrite derivative_D; [apply D_spec|]. intros E. assert ((x - 1) * (x + 1) = 0) as F by lra. apply Rmult_integral in F. destruct F; [apply N1|apply N2]; lra.
Qed.
Print Assumptions C80_legendre.

(** what the loops of [gauss] produce *)
Definition node_weight (n : nat) (x : R) : R := 2 / ((1 - x * x) * legendre_derivative n x * legendre_derivative n x).

Lemma gauss_first root n z m : (forall i, (i < m)%nat -> root n i = Some (z i)) ->
  fold_left (fun acc i =>
        match acc, root n i with
        | Some r, Some x => let dp := legendre_derivative n x in Some (fst r ++ [2 / ((1 - x * x) * dp * dp)], snd r ++ [x])
        | _, _ => None
        end) (seq 0 m) (Some (([], []) : rule R)) = Some (map (fun i => node_weight n (z i)) (seq 0 m), map z (seq 0 m)).
Proof.
  induction m as [|m IH]; intros H; [reflexivity|]. rewrite seq_S, fold_left_app, IH by (intros; apply H; lia). cbn. rewrite (H m) by lia. rewrite !map_app. reflexivity.
Qed.

Lemma gauss_first_some root n m r :
  fold_left (fun acc i =>
        match acc, root n i with
        | Some r, Some x => let dp := legendre_derivative n x in Some (fst r ++ [2 / ((1 - x * x) * dp * dp)], snd r ++ [x])
        | _, _ => None
        end) (seq 0 m) (Some (([], []) : rule R)) = Some r -> exists z, forall i, (i < m)%nat -> root n i = Some (z i).
Proof.
  revert r. induction m as [|m IH]; intros r H; [exists (fun _ => 0); intros; lia|].
  rewrite seq_S, fold_left_app in H. cbn [fold_left] in H. match type of H with match ?A with _ => _ end = _ => destruct A as [r'|] eqn:E; [|discriminate] end.
  destruct (IH r' eq_refl) as (z & Z). cbn [Nat.add] in H. destruct (root n m) as [x|] eqn:X; [|discriminate].
  exists (fun i => if Nat.eq_dec i m then x else z i). intros i Hi. destruct (Nat.eq_dec i m) as [->|Ne]; [exact X|apply Z; lia].
Qed.

Lemma gauss_none n k (l : list nat) :
  fold_left (fun (acc : option (rule R)) i =>
        match acc with
        | Some r =>
            match nth_error (snd r) (n - i - 1), nth_error (fst r) (n - i - 1) with
            | Some x, Some w => Some (fst r ++ [w], snd r ++ [- x])
            | _, _ => None
            end
        | None => None
        end) l None = Some k -> False.
Proof. induction l; cbn; [discriminate|assumption]. Qed.

Lemma nth_error_map_seq {A} (f : nat -> A) m k : (k < m)%nat -> nth_error (map f (seq 0 m)) k = Some (f k).
Proof. intros H. erewrite map_nth_error; [reflexivity|]. rewrite (nth_error_nth' _ 0%nat) by (rewrite seq_length; exact H). rewrite seq_nth by exact H. reflexivity. Qed.

Lemma gauss_second n m z : (n <= 2 * m)%nat -> (m <= n)%nat -> forall k, (m + k <= n)%nat ->
  fold_left (fun (acc : option (rule R)) i =>
        match acc with
        | Some r =>
            match nth_error (snd r) (n - i - 1), nth_error (fst r) (n - i - 1) with
            | Some x, Some w => Some (fst r ++ [w], snd r ++ [- x])
            | _, _ => None
            end
        | None => None
        end) (seq m k) (Some (map (fun i => node_weight n (z i)) (seq 0 m), map z (seq 0 m))) =
  Some (map (fun i => node_weight n (z i)) (seq 0 m) ++ map (fun i => node_weight n (z (n - i - 1)%nat)) (seq m k),
        map z (seq 0 m) ++ map (fun i => - z (n - i - 1)%nat) (seq m k)).
Proof.
  intros A B. induction k as [|k IH]; intros K; [cbn; rewrite !app_nil_r; reflexivity|].
  rewrite seq_S, fold_left_app, IH by lia. cbn [fold_left fst snd].
  rewrite !nth_error_app1 by (rewrite map_length, seq_length; lia). rewrite !nth_error_map_seq by lia. rewrite !map_app, !app_assoc. reflexivity.
Qed.

Lemma half_bounds n : (n <= 2 * ((n + 1) / 2))%nat /\ ((n + 1) / 2 <= n)%nat /\ (2 * ((n + 1) / 2) <= n + 1)%nat.
Proof. pose proof (Nat.div_mod (n + 1) 2 ltac:(lia)). pose proof (Nat.mod_upper_bound (n + 1) 2 ltac:(lia)). lia. Qed.

Lemma gauss_value root n z : (0 < n)%nat -> (forall i, (i < (n + 1) / 2)%nat -> root n i = Some (z i)) ->
  let m := ((n + 1) / 2)%nat in
  gauss root n = Some (map (fun i => node_weight n (z i)) (seq 0 m) ++ map (fun i => node_weight n (z (n - i - 1)%nat)) (seq m (n - m)),
                       map z (seq 0 m) ++ map (fun i => - z (n - i - 1)%nat) (seq m (n - m))).
Proof.
  intros N Z m. unfold gauss. destruct (Nat.eqb_spec n 0) as [|_]; [lia|]. fold m. cbn zeta. destruct (half_bounds n) as (A & B & C). fold m in A, B, C.
  etransitivity; [apply (f_equal (fold_left _ _)); exact (gauss_first root n z m Z)|apply gauss_second; lia].
Qed.

Lemma gauss_inv root n r : gauss root n = Some r -> (0 < n)%nat /\ exists z, forall i, (i < (n + 1) / 2)%nat -> root n i = Some (z i).
Proof.
  unfold gauss. destruct (Nat.eqb_spec n 0) as [|N]; [discriminate|]. intros H. split; [lia|]. cbn zeta in H.
  match type of H with fold_left _ _ ?A = _ => destruct A as [r'|] eqn:E end.
  - exact (gauss_first_some root n _ r' E).
  - exfalso. exact (gauss_none n r _ H).
Qed.

Lemma nth_two {A} (f g : nat -> A) m k i d : (i < m + k)%nat -> nth i (map f (seq 0 m) ++ map g (seq m k)) d = if lt_dec i m then f i else g i.
Proof.
  intros I. destruct (lt_dec i m) as [Lt|Ge].
  - rewrite app_nth1 by (rewrite map_length, seq_length; exact Lt). rewrite (nth_indep _ d (f 0%nat)) by (rewrite map_length, seq_length; exact Lt). rewrite map_nth, seq_nth by exact Lt. reflexivity.
  - rewrite app_nth2 by (rewrite map_length, seq_length; lia). rewrite map_length, seq_length.
    rewrite (nth_indep _ d (g 0%nat)) by (rewrite map_length, seq_length; lia). rewrite map_nth, seq_nth by lia. f_equal. lia.
Qed.

(** C80. Whatever the search for roots returns, there are n weights and n points, and the rule is symmetric; the rule of no points is a panic. *)
Theorem C80_shape root : gauss root 0 = None /\ forall n ws xs, gauss root n = Some (ws, xs) ->
  length ws = n /\ length xs = n /\
  (forall i, (i < (n + 1) / 2)%nat -> root n i = Some (nth i xs 0)) /\
  (forall i, (i < n)%nat -> nth (n - 1 - i) ws 0 = nth i ws 0 /\ ((2 * i + 1 <> n)%nat -> nth (n - 1 - i) xs 0 = - nth i xs 0)).
Proof.
  split; [reflexivity|]. intros n ws xs G. destruct (gauss_inv root n _ G) as (N & z & Z). pose proof (gauss_value root n z N Z) as V. cbn zeta in V.
  destruct (half_bounds n) as (A & B & C). set (m := ((n + 1) / 2)%nat) in *. clearbody m. rewrite V in G. injection G as <- <-.
  split; [rewrite app_length, !map_length, !seq_length; lia|]. split; [rewrite app_length, !map_length, !seq_length; lia|]. split.
  - intros i Hi. rewrite nth_two by lia. destruct (lt_dec i m); [apply Z; exact Hi|lia].
  - intros i Hi. rewrite !nth_two by lia. split.
    + destruct (lt_dec (n - 1 - i) m), (lt_dec i m); try lia; f_equal; f_equal; lia.
    + intros Mid. destruct (lt_dec (n - 1 - i) m), (lt_dec i m); try lia.
      * rewrite Ropp_involutive. f_equal. lia.
      * f_equal. f_equal. lia.
Qed.
Print Assumptions C80_shape.

(** a search that finds the zeros exactly: the non-negative zeros of the polynomial, in decreasing order *)
Definition exact_search (root : nat -> nat -> option R) (n : nat) : Prop :=
  exists z : nat -> R, (forall i, (i < (n + 1) / 2)%nat -> root n i = Some (z i) /\ 0 <= z i /\ legendre_value n (z i) = 0) /\
  forall i j, (i < j < (n + 1) / 2)%nat -> z j < z i.

Lemma derivative_opp n x : legendre_derivative n (- x) * legendre_derivative n (- x) = legendre_derivative n x * legendre_derivative n x.
Proof.
  destruct (Req_EM_T (x * x) 1) as [E|Ne].
  - unfold legendre_derivative. replace (- x * - x) with (x * x) by ring. rewrite E. replace (1 - 1) with 0 by ring. unfold Rdiv. rewrite Rinv_0. ring.
  - rewrite !derivative_D by (try exact Ne; replace (- x * - x) with (x * x) by ring; exact Ne). destruct n as [|n]; [rewrite !D_0; ring|].
    pose proof (D_closed n x) as A. pose proof (D_closed n (- x)) as B. rewrite !L_opp in B. cbn [pow] in B.
    assert (C : D (S n) (- x) = (-1) ^ n * D (S n) x).
    { apply (Rmult_eq_reg_l (x * x - 1)); [|lra]. transitivity ((- x * - x - 1) * D (S n) (- x)); [ring|]. rewrite B.
      transitivity ((-1) ^ n * ((x * x - 1) * D (S n) x)); [rewrite A; ring|ring]. }
    rewrite C. transitivity ((-1) ^ n * (-1) ^ n * (D (S n) x * D (S n) x)); [ring|]. rewrite sign_sq. ring.
Qed.

Lemma node_weight_opp n x : node_weight n (- x) = node_weight n x.
Proof. unfold node_weight. rewrite !Rmult_assoc, derivative_opp. f_equal. f_equal. ring. Qed.

Lemma rule_integrate_map {A} (f : A -> R) (g : A -> R) (q : R -> R) (l : list A) : rule_integrate (map f l, map g l) q = sum (map (fun a => f a * q (g a)) l).
Proof.
  unfold rule_integrate. cbn [fst snd].
  assert (G : forall acc, fold_left (fun acc (wp : R * R) => acc + fst wp * q (snd wp)) (List.combine (map f l) (map g l)) acc = acc + sum (map (fun a => f a * q (g a)) l)).
  { induction l as [|a l IH]; intros acc; cbn; [ring|]. rewrite IH. unfold sum. ring. }
  rewrite G. ring.
Qed.

Lemma gauss_nodes root n ws xs : gauss root n = Some (ws, xs) -> ws = map (node_weight n) xs.
Proof.
  intros G. destruct (gauss_inv root n _ G) as (N & z & Z). pose proof (gauss_value root n z N Z) as V. cbn zeta in V. rewrite V in G. injection G as <- <-.
  rewrite map_app, !map_map. f_equal. apply map_ext. intros i. symmetry. apply node_weight_opp.
Qed.

Local Notation L := legendre_value.

Lemma NoDup_app' {A} (l k : list A) : NoDup l -> NoDup k -> (forall x, In x l -> In x k -> False) -> NoDup (l ++ k).
Proof.
  induction l as [|a l IH]; intros Nl Nk H; [exact Nk|]. inversion Nl; subst. cbn. constructor.
  - rewrite in_app_iff. intros [?|K]; [contradiction|]. exact (H a (or_introl eq_refl) K).
  - apply IH; [assumption|exact Nk|]. intros x X. apply H. right. exact X.
Qed.

Lemma NoDup_pairs (f : nat -> R) a k : (forall i j, (a <= i < j /\ j < a + k)%nat -> f i <> f j) -> NoDup (map f (seq a k)).
Proof.
  revert a. induction k as [|k IH]; intros a H; cbn; [constructor|]. constructor; [|apply IH; intros; apply H; lia].
  intros I. apply in_map_iff in I. destruct I as (j & E & J). apply in_seq in J. apply (H a j); [lia|]. symmetry. exact E.
Qed.

(** the nodes of an exact search *)
Lemma exact_nodes root n ws xs : exact_search root n -> gauss root n = Some (ws, xs) ->
  NoDup xs /\ length xs = n /\ (forall x, In x xs -> legendre_value n x = 0 /\ -1 < x < 1).
Proof.
  intros (z & Z & Dec) G. destruct (gauss_inv root n _ G) as (N & _). pose proof (gauss_value root n z N (fun i Hi => proj1 (Z i Hi))) as V. cbn zeta in V.
  destruct (half_bounds n) as (A & B & C). set (m := ((n + 1) / 2)%nat) in *. clearbody m. rewrite V in G. injection G as _ <-.
  assert (Zero : forall x, In x (map z (seq 0 m) ++ map (fun i => - z (n - i - 1)%nat) (seq m (n - m))) -> legendre_value n x = 0).
  { intros x Hx. apply in_app_iff in Hx. destruct Hx as [Hx|Hx]; apply in_map_iff in Hx; destruct Hx as (i & <- & Hi); apply in_seq in Hi.
    - apply Z. lia.
    - rewrite L_opp, (proj2 (proj2 (Z (n - i - 1)%nat ltac:(lia)))). ring. }
  split; [|split].
  - assert (Pos : forall i, (i < n - m)%nat -> 0 < z i).
    { intros i Hi. destruct (Nat.eq_dec i (m - 1)) as [E|Ne].
      2: { apply Rle_lt_trans with (z (m - 1)%nat); [apply Z; lia|apply Dec; lia]. }
      destruct (Z i ltac:(lia)) as (_ & [P|P] & Zi); [exact P|exfalso]. rewrite <- P in Zi.
      (* an even polynomial with a zero at 0 has a double zero *)
      assert (D0 : D n 0 = 0).
      { assert (E0 : D n 0 = - D n 0); [|lra]. apply D_unique. apply (is_derive_ext (fun x => L n (- x))).
        - intros t. rewrite L_opp. replace n with (2 * m)%nat at 1 by lia. rewrite pow_1_even. apply Rmult_1_l.
        - replace (- D n 0) with ((-1) * D n (- 0)) by (rewrite Ropp_0; ring). apply (is_derive_comp (L n) Ropp 0 (D n (- 0)) (-1)); [apply D_spec|].
          replace (-1) with (- (1)) by ring. apply (is_derive_opp (fun t : R => t) 0 1). exact (is_derive_id (0 : R)). }
      exact (D_simple n 0 Zi D0). }
    rewrite <- (map_map (fun i => z (n - i - 1)%nat) Ropp). apply NoDup_app'.
    + apply NoDup_pairs. intros i j Hij. apply Rgt_not_eq. apply Dec. lia.
    + apply Injective_map_NoDup; [intros a b E; lra|]. apply NoDup_pairs. intros i j Hij. apply Rlt_not_eq. apply Dec. lia.
    + intros x H1 H2. apply in_map_iff in H1, H2. destruct H1 as (i & <- & Hi), H2 as (y & E & Hy). apply in_map_iff in Hy. destruct Hy as (j & <- & Hj).
      apply in_seq in Hi, Hj. pose proof (Pos (n - j - 1)%nat ltac:(lia)). pose proof (proj1 (proj2 (Z i ltac:(lia)))). lra.
  - rewrite app_length, !map_length, !seq_length. lia.
  - intros x Hx. split; [apply Zero, Hx|]. destruct (zeros_exist n) as (u & U). destruct (zeros_complete n u x U (Zero x Hx)) as (i & Hi & ->). apply U, Hi.
Qed.

(** C80. With exact zeros, the Gauss rule of n points has positive weights, distinct points in the open interval, and integrates every polynomial of degree
    2 n - 1 exactly. *)
Theorem C80_exact root n : (0 < n)%nat -> exact_search root n -> exists ws xs, gauss root n = Some (ws, xs) /\ length ws = n /\ length xs = n /\ NoDup xs /\
  (forall x, In x xs -> -1 < x < 1) /\ (forall w, In w ws -> 0 < w) /\
  forall l, (length l <= 2 * n)%nat -> rule_integrate (ws, xs) (horner l) = RInt (horner l) (-1) 1 /\ quadrature_integrate (ws, xs) (horner l) = RInt (horner l) (-1) 1.
Proof.
  intros N S. destruct S as (z & Z & Dec). pose proof (gauss_value root n z N (fun i Hi => proj1 (Z i Hi))) as V. cbn zeta in V.
  match type of V with _ = Some (?a, ?b) => set (ws := a) in *; set (xs := b) in * end. clearbody ws xs.
  destruct (exact_nodes root n ws xs (ex_intro _ z (conj Z Dec)) V) as (Nx & Lx & Zx). pose proof (gauss_nodes root n ws xs V) as Ws.
  exists ws, xs. split; [exact V|]. split; [rewrite Ws, map_length; exact Lx|]. split; [exact Lx|]. split; [exact Nx|]. split; [intros x Hx; apply Zx, Hx|]. split.
  - intros w Hw. rewrite Ws in Hw. apply in_map_iff in Hw. destruct Hw as (x & <- & Hx). destruct (Zx x Hx) as [Zero In1]. unfold node_weight.
    rewrite derivative_D by (apply L_zero_neq with n; exact Zero). pose proof (D_simple n x Zero) as Dn.
    apply Rdiv_lt_0_compat; [lra|]. rewrite Rmult_assoc. apply Rmult_lt_0_compat; [nra|]. destruct (Rtotal_order (D n x) 0) as [|[|]]; nra.
  - intros l Hl.
    assert (E : rule_integrate (ws, xs) (horner l) = RInt (horner l) (-1) 1).
    { rewrite Ws. rewrite <- (map_id xs) at 2. rewrite (rule_integrate_map (node_weight n) (fun x => x)).
      etransitivity; [|symmetry; apply (gauss_exact n xs Nx Lx (fun x Hx => proj1 (Zx x Hx)) (horner l)); exists l; split; [lia|reflexivity]].
      apply sum_ext. intros a A. unfold node_weight. rewrite derivative_D by (apply L_zero_neq with n; apply Zx, A). reflexivity. }
    split; [exact E|]. rewrite <- E. unfold quadrature_integrate, rule_integrate. cbn [fst snd]. clear. generalize 0 as acc. generalize (List.combine ws xs) as c. clear.
    induction c as [|a c IH]; intros acc; [reflexivity|]. cbn [fold_left]. rewrite (Rmult_comm (horner l (snd a))). apply IH.
Qed.
Print Assumptions C80_exact.

(** C80. The Legendre polynomial of every degree has the zeros that an exact search has to find. *)
Theorem C80_zeros n : exists root, exact_search root n.
Proof.
  destruct (zeros_exist n) as (z & Z). exists (fun _ i => Some (z (n - 1 - i)%nat)), (fun i => z (n - 1 - i)%nat). destruct (half_bounds n) as (A & B & C). split.
  - intros i Hi. split; [reflexivity|]. split; [apply zeros_upper; [exact Z|exact Hi]|]. apply Z. lia.
  - intros i j Hij. apply (increasing_lt z n (proj2 Z)). lia.
Qed.
Print Assumptions C80_zeros.

(** C80. The search of the code starts the middle point of an odd rule at zero and stays there. *)
Theorem C80_middle k fuel : newton_root (S fuel) (2 * k + 1) k = Some 0.
Proof.
  assert (G : gauss_guess (2 * k + 1) k = 0).
  { unfold gauss_guess. rewrite plus_INR, mult_INR. cbn [INR]. replace (PI * (INR k + 3 / 4) / ((1 + 1) * INR k + 1 + 1 / 2)) with (PI / 2); [apply cos_PI2|].
    pose proof (pos_INR k). field. lra. }
  assert (Z : legendre_value (2 * k + 1) 0 = 0).
  { pose proof (L_opp (2 * k + 1) 0) as H. rewrite Ropp_0 in H. replace (2 * k + 1)%nat with (S (2 * k)) in * by lia. cbn [pow] in H. rewrite pow_1_even in H. lra. }
  unfold newton_root. rewrite G. cbn [gauss_newton]. rewrite Z. replace (- 0 / legendre_derivative (2 * k + 1) 0) with 0 by (unfold Rdiv; ring). rewrite Rplus_0_r, Rabs_R0.
  destruct (Rle_dec 0 (/ 10 ^ 15)) as [|No]; [reflexivity|]. exfalso. apply No. left. apply Rinv_0_lt_compat, pow_lt. lra.
Qed.
Print Assumptions C80_middle.

Lemma Pol_continuity d f x : Pol d f -> continuity_pt f x.
Proof.
  intros F. destruct (Pol_derive d f (Pol_le _ _ _ (Nat.le_succ_diag_r d) F)) as (g & _ & Dg). apply derivable_continuous_pt. exists (g x). apply is_derive_Reals, Dg.
Qed.

Lemma snd_Pol n : Pol n (fun x => snd (legendre_evaluate n x)).
Proof.
  destruct n as [|n]; [apply Pol_zero|]. apply (Pol_ext _ (L n)); [intros x; symmetry; apply snd_S|apply L_Pol].
Qed.

Lemma node_weight_closed n x : node_weight n x = 2 * (1 - x * x) / (INR n * (x * L n x - snd (legendre_evaluate n x)) * (INR n * (x * L n x - snd (legendre_evaluate n x)))).
Proof.
  unfold node_weight, legendre_derivative. fold (L n x). set (a := INR n * (x * L n x - snd (legendre_evaluate n x))).
  destruct (Req_EM_T (x * x) 1) as [E|Ne].
  - rewrite E. replace (1 - 1) with 0 by ring. unfold Rdiv. rewrite !Rmult_0_l, Rinv_0. ring.
  - destruct (Req_EM_T a 0) as [->|Na]; [unfold Rdiv; rewrite !Rmult_0_l, !Rmult_0_r, Rinv_0; ring|]. field. repeat split; try exact Na; lra.
Qed.

Lemma node_continuous n x q d : (0 < n)%nat -> legendre_value n x = 0 -> Pol d q -> continuity_pt (fun x => node_weight n x * q x) x.
Proof.
  intros N Z Q. apply continuity_pt_mult; [|exact (Pol_continuity d q x Q)].
  set (b := fun x => INR n * (x * L n x - snd (legendre_evaluate n x))).
  assert (Pb : Pol (S (S n)) b).
  { unfold b. apply Pol_scale, Pol_sub; [apply Pol_mulx, L_Pol|]. apply (Pol_le n); [lia|apply snd_Pol]. }
  assert (Hb : b x <> 0).
  { unfold b. rewrite Z. pose proof (D_simple n x Z) as Dn. destruct n as [|n]; [lia|]. pose proof (D_closed n x) as C. rewrite snd_S, S_INR. rewrite Z in C. rewrite <- C.
    apply Rmult_integral_contrapositive. split; [|exact Dn]. pose proof (L_zero_neq (S n) x Z). lra. }
  apply (continuity_pt_ext (fun x => 2 * (1 - x * x) / (b x * b x))); [intros t; symmetry; apply node_weight_closed|].
  apply continuity_pt_div.
  - apply (Pol_continuity 3). apply (Pol_ext _ (fun x => 2 - 2 * (x * (x * 1)))); [intros; ring|]. apply Pol_sub; [apply Pol_const|]. apply Pol_scale, Pol_mulx, Pol_mulx, Pol_const.
  - apply continuity_pt_mult; exact (Pol_continuity _ _ x Pb).
  - apply Rmult_integral_contrapositive. split; exact Hb.
Qed.

Lemma Forall2_weaken {A B} (P Q : A -> B -> Prop) l k : (forall a b, P a b -> Q a b) -> Forall2 P l k -> Forall2 Q l k.
Proof. intros H F. induction F; constructor; auto. Qed.

Lemma sum_close (G : R -> R) xs : (forall x, In x xs -> continuity_pt G x) -> forall eps, 0 < eps -> exists delta, 0 < delta /\
  forall ys, Forall2 (fun y x => Rabs (y - x) < delta) ys xs -> Rabs (sum (map G ys) - sum (map G xs)) < eps.
Proof.
  induction xs as [|x xs IH]; intros C eps E.
  - exists 1. split; [lra|]. intros ys F. inversion F; subst. cbn. replace (0 - 0) with 0 by ring. rewrite Rabs_R0. exact E.
  - destruct (IH (fun y H => C y (or_intror H)) (eps / 2) ltac:(lra)) as (d1 & D1 & H1).
    destruct (C x (or_introl eq_refl) (eps / 2) ltac:(lra)) as (d2 & D2 & H2).
    exists (Rmin d1 d2). split; [apply Rmin_pos; assumption|]. intros ys F. inversion F as [|y ? ys' ? Hy F']; subst.
    assert (A : Rabs (G y - G x) < eps / 2).
    { destruct (Req_EM_T y x) as [->|Ne]; [replace (G x - G x) with 0 by ring; rewrite Rabs_R0; lra|]. apply (H2 y). split; [split; [exact I|intros E'; apply Ne; symmetry; exact E']|].
      pose proof (Rmin_r d1 d2). cbn. unfold R_dist. lra. }
    assert (B : Rabs (sum (map G ys') - sum (map G xs)) < eps / 2).
    { apply H1. eapply Forall2_weaken; [|exact F']. cbn. intros a b Hab. pose proof (Rmin_l d1 d2). lra. }
    cbn. fold (sum (map G ys')) (sum (map G xs)). replace (G y + sum (map G ys') - (G x + sum (map G xs))) with ((G y - G x) + (sum (map G ys') - sum (map G xs))) by ring.
    eapply Rle_lt_trans; [apply Rabs_triang|lra].
Qed.

Lemma Forall2_maps {A} (P : R -> R -> Prop) (f g : A -> R) l : (forall a, In a l -> P (f a) (g a)) -> Forall2 P (map f l) (map g l).
Proof. induction l as [|a l IH]; intros H; cbn; constructor; [apply H; left; reflexivity|apply IH; intros; apply H; right; assumption]. Qed.

(** C80. With zeros that are only approximate, the error of the rule is as small as wanted if the zeros are close enough. *)
Theorem C80_close n l eps : (0 < n)%nat -> (length l <= 2 * n)%nat -> 0 < eps -> exists (z : nat -> R) (delta : R), 0 < delta /\
  (forall i, (i < (n + 1) / 2)%nat -> 0 <= z i < 1 /\ legendre_value n (z i) = 0) /\ (forall i j, (i < j < (n + 1) / 2)%nat -> z j < z i) /\
  forall root, (forall i, (i < (n + 1) / 2)%nat -> exists x, root n i = Some x /\ Rabs (x - z i) < delta) ->
    exists ws xs, gauss root n = Some (ws, xs) /\ Rabs (rule_integrate (ws, xs) (horner l) - RInt (horner l) (-1) 1) < eps.
Proof.
  intros N Hl E. destruct (C80_zeros n) as (root0 & S0). pose proof S0 as (z & Z & Dec). exists z.
  pose proof (gauss_value root0 n z N (fun i Hi => proj1 (Z i Hi))) as V. cbn zeta in V.
  destruct (C80_exact root0 n N S0) as (ws0 & xs0 & G0 & _ & _ & _ & In0 & _ & Ex0). specialize (Ex0 l Hl) as [Ex0 _].
  destruct (exact_nodes root0 n ws0 xs0 S0 G0) as (Nx & Lx & Zx). pose proof (gauss_nodes root0 n ws0 xs0 G0) as Ws0.
  destruct (half_bounds n) as (A & B & C). set (m := ((n + 1) / 2)%nat) in *. assert (Em : m = ((n + 1) / 2)%nat) by reflexivity. clearbody m.
  assert (X0 : xs0 = map z (seq 0 m) ++ map (fun i => - z (n - i - 1)%nat) (seq m (n - m))) by (rewrite V in G0; injection G0; congruence).
  destruct (sum_close (fun x => node_weight n x * horner l x) xs0) with (eps := eps) as (delta & Dp & Close).
  { intros x Hx. apply (node_continuous n x (horner l) (length l) N); [apply Zx, Hx|]. exists l. split; [lia|reflexivity]. }
  { exact E. }
  exists delta. split; [exact Dp|]. split; [|split; [exact Dec|]].
  - intros i Hi. destruct (Z i Hi) as (_ & P & Zi). split; [|exact Zi]. split; [exact P|]. apply In0. rewrite X0. apply in_app_iff. left. apply in_map, in_seq. lia.
  - intros root Hr. destruct (finite_choice (fun i x => root n i = Some x /\ Rabs (x - z i) < delta) m Hr) as (y & Y).
    pose proof (gauss_value root n y N) as Vy. rewrite <- Em in Vy. specialize (Vy (fun i Hi => proj1 (Y i Hi))). cbn zeta in Vy.
    match type of Vy with _ = Some (?a, ?b) => exists a, b; assert (Wy := gauss_nodes root n a b Vy) end.
    split; [exact Vy|]. rewrite Wy. clear Wy. rewrite <- Ex0, Ws0. rewrite <- (map_id xs0) at 2.
    match goal with |- context [rule_integrate (map _ ?ys, ?ys)] => rewrite <- (map_id ys) at 2 end.
    rewrite !(rule_integrate_map (node_weight n) (fun x => x)). apply Close. rewrite X0. apply Forall2_app; apply Forall2_maps.
    + intros i Hi. apply in_seq in Hi. apply Y. lia.
    + intros i Hi. apply in_seq in Hi. destruct (Y (n - i - 1)%nat ltac:(lia)) as [_ H]. replace (- y (n - i - 1)%nat - - z (n - i - 1)%nat) with (- (y (n - i - 1)%nat - z (n - i - 1)%nat)) by ring. rewrite Rabs_Ropp. exact H.
Qed.
Print Assumptions C80_close.

(** The rule of two points, at the zeros of (3 x^2 - 1) / 2. *)
Definition search2 (n i : nat) : option R := Some (sqrt (1 / 3)).
Example C80_example : exact_search search2 2 /\ gauss search2 2 = Some ([1; 1], [sqrt (1 / 3); - sqrt (1 / 3)]).
Proof.
  assert (Sq : sqrt (1 / 3) * sqrt (1 / 3) = 1 / 3) by (apply sqrt_sqrt; lra).
  assert (Z : legendre_value 2 (sqrt (1 / 3)) = 0).
  { rewrite L_SS, L_1, L_0. cbn [INR]. replace ((2 * 0 + 3) * sqrt (1 / 3) * sqrt (1 / 3) - (0 + 1) * 1) with (3 * (sqrt (1 / 3) * sqrt (1 / 3)) - 1) by ring. rewrite Sq. field. }
  split.
  - exists (fun _ => sqrt (1 / 3)). split.
    + intros i Hi. split; [reflexivity|]. split; [apply sqrt_pos|exact Z].
    + intros i j Hij. cbn in Hij. lia.
  - assert (W : 2 / ((1 - sqrt (1 / 3) * sqrt (1 / 3)) * legendre_derivative 2 (sqrt (1 / 3)) * legendre_derivative 2 (sqrt (1 / 3))) = 1).
    { unfold legendre_derivative. rewrite snd_S. fold (L 2 (sqrt (1 / 3))). rewrite Z, L_1. cbn [INR].
      replace ((1 + 1) * (sqrt (1 / 3) * 0 - sqrt (1 / 3)) / (sqrt (1 / 3) * sqrt (1 / 3) - 1)) with (3 * sqrt (1 / 3)).
      - replace ((1 - sqrt (1 / 3) * sqrt (1 / 3)) * (3 * sqrt (1 / 3)) * (3 * sqrt (1 / 3))) with ((1 - sqrt (1 / 3) * sqrt (1 / 3)) * 9 * (sqrt (1 / 3) * sqrt (1 / 3))) by ring. rewrite Sq. field.
      - rewrite Sq. field. }
    cbn -[legendre_derivative]. rewrite W. reflexivity.
Qed.

(** C103. The search for the Gauss points ends after at most five steps for every number of points, and the rules it gives are almost exact. *)
From Coq Require Import Reals List Arith Lia Lra.
From Coquelicot Require Import Coquelicot.
From Verif Require Import ElementModel ElementSpec QuadratureModel QuadPoly QuadPolyN LegendreProofs LegendreZeros PropGauss RuleProofs TriangleCells PropTensor PropSubdivide LegendreSturm LegendreAngles GaussNewton.
Import ListNotations.
Local Open Scope R_scope.
Local Notation L := legendre_value.

Lemma node_weight_pos n x : L n x = 0 -> -1 < x < 1 -> 0 < node_weight n x.
Proof.
  intros Zero In1. unfold node_weight. rewrite derivative_D by nra. pose proof (D_simple n x Zero) as Dn.
  apply Rdiv_lt_0_compat; [lra|]. rewrite Rmult_assoc. apply Rmult_lt_0_compat; [nra|]. destruct (Rtotal_order (D n x) 0) as [|[|]]; nra.
Qed.
Lemma sign_square i : (-1) ^ i * (-1) ^ i = 1.
Proof. rewrite <- Rpow_mult_distr. replace (-1 * -1) with 1 by ring. apply pow1. Qed.

(** what the search finds *)
Definition found (n : nat) (q x : R) : Prop :=
  0 <= q /\ q <= x /\ x < 1 /\ x - q <= NN n * NN n / 10 ^ 30 /\ x - q <= q / (4 * (NN n * NN n)) /\ 0 < node_weight n q /\ 0 < node_weight n x /\
  Rabs (node_weight n x - node_weight n q) <= 8 / 9 * (NN n * NN n) * (x - q) * node_weight n q /\ Rabs (node_weight n x - node_weight n q) <= 2 / 9 * node_weight n q.
Lemma search_found fuel n z i : (5 <= fuel)%nat -> (2 * i < n)%nat -> zeros n z -> exists x, newton_root fuel n i = Some x /\ x <= gauss_guess n i /\ found n (z (n - 1 - i)%nat) x.
Proof.
  intros Hf Hi Hz. destruct (start_near n z i Hz Hi) as (Q0 & Qx & Near & Edge & X1 & Pos). destruct (proj1 Hz (n - 1 - i)%nat ltac:(lia)) as (Bq & Zero). set (q := z (n - 1 - i)%nat) in *. set (x := gauss_guess n i) in *.
  pose proof (node_weight_pos n q Zero Bq) as Wq. pose proof (NN_pos n) as Np. assert (N2 : 0 < NN n * NN n) by nra.
  destruct (Req_dec q x) as [E|Ne].
  - exists x. unfold newton_root. fold x. destruct fuel as [|fuel]; [lia|]. assert (Zx : L n x = 0) by (rewrite <- E; exact Zero). cbn [gauss_newton]. rewrite Zx. unfold Rdiv. rewrite Ropp_0, Rmult_0_l, Rabs_R0, Rplus_0_r.
    destruct (Rle_dec 0 (/ 10 ^ 15)) as [_|C]; [|exfalso; apply C; left; apply Rinv_0_lt_compat; lra]. split; [reflexivity|]. split; [lra|]. clear Zx. rewrite E in *. unfold found.
    replace (x - x) with 0 by ring. replace (node_weight n x - node_weight n x) with 0 by ring. rewrite Rabs_R0. assert (0 <= x / (4 * (NN n * NN n))) by (apply Rmult_le_pos; [lra|left; apply Rinv_0_lt_compat; lra]). repeat split; lra.
  - assert (Lt : q < x) by lra. assert (Qp : 0 < q). { destruct Q0 as [?|E]; [assumption|]. rewrite <- E in Near. unfold Rdiv in Near. rewrite Rmult_0_l in Near. lra. }
    pose proof (C_near n q x ((-1) ^ i) Qp Lt X1 (sign_square i) Near Edge x ltac:(lra)) as C9. pose proof (C_bounds n q x ((-1) ^ i) Qp Lt X1 (sign_square i) Edge) as (C1 & C2).
    destruct (search n q x ((-1) ^ i) Qp Lt X1 Zero (sign_square i) Near Edge Pos fuel 0 x ltac:(lia) ltac:(lia) ltac:(lra)) as (y & Ey & Y1 & Y2 & Y3); [change (2 ^ 0)%nat with 1%nat; rewrite pow_1; lra|].
    exists y. split; [exact Ey|]. split; [exact Y2|].
    destruct (weight_close n q x ((-1) ^ i) Qp Lt X1 Zero (sign_square i) Near Edge Pos y ltac:(lra)) as (Vy & Vq & Vd).
    assert (WV : forall t, q <= t <= x -> node_weight n t = 2 * (1 - t * t) / ((1 - t * t) * ((-1) ^ i * D n t) * ((1 - t * t) * ((-1) ^ i * D n t)))) by (exact (weight_value n q x ((-1) ^ i) Qp Lt X1 Zero (sign_square i) Near Edge Pos)).
    rewrite <- (WV y) in Vd, Vy by lra. rewrite <- (WV q) in Vd by lra. clear Vq WV.
    unfold found. repeat split; try lra.
    + eapply Rle_trans; [exact Vd|]. apply Rmult_le_compat_r; [lra|]. apply Rmult_le_compat_r; lra.
    + eapply Rle_trans; [exact Vd|]. apply Rmult_le_compat_r; [lra|]. pose proof (C_near n q x ((-1) ^ i) Qp Lt X1 (sign_square i) Near Edge y ltac:(lra)). lra.
Qed.

(** C103. From every starting point of the code Newton's method ends after at most five steps, at a point beside the zero that belongs to it, with 1e-30 (n + 1/2)^2 as bound for
    the distance. [z] are the zeros in increasing order; the search number i is for the (i + 1)-th largest. *)
Theorem C103_search fuel n z i : (5 <= fuel)%nat -> (i < (n + 1) / 2)%nat ->
  (forall k, (k < n)%nat -> -1 < z k < 1 /\ legendre_value n (z k) = 0) /\ (forall k, (S k < n)%nat -> z k < z (S k)) ->
  exists x, newton_root fuel n i = Some x /\ 0 <= x - z (n - 1 - i)%nat /\ x - z (n - 1 - i)%nat <= (INR n + 1 / 2) ^ 2 / 10 ^ 30 /\ x - z (n - 1 - i)%nat <= z (n - 1 - i)%nat / (4 * (INR n + 1 / 2) ^ 2).
Proof.
  intros Hf Hi Hz. destruct (half_bounds n) as (A & B & C). destruct (search_found fuel n z i Hf ltac:(lia) Hz) as (x & E & _ & F). destruct F as (F0 & F1 & _ & F2 & F3 & _). exists x. split; [exact E|].
  fold (NN n). replace (NN n ^ 2) with (NN n * NN n) by ring. split; [lra|]. split; assumption.
Qed.
Print Assumptions C103_search.

(** ** the rule *)
Definition mirrored (n : nat) (y : nat -> R) (j : nat) : R := if (j <? (n + 1) / 2)%nat then y j else - y (n - 1 - j)%nat.
Lemma gauss_mirrored root n y : (0 < n)%nat -> (forall i, (i < (n + 1) / 2)%nat -> root n i = Some (y i)) ->
  gauss root n = Some (map (fun j => node_weight n (mirrored n y j)) (seq 0 n), map (mirrored n y) (seq 0 n)).
Proof.
  intros N Y. rewrite (gauss_value root n y N Y). destruct (half_bounds n) as (A & B & C). set (m := ((n + 1) / 2)%nat) in *.
  replace (seq 0 n) with (seq 0 m ++ seq m (n - m)) by (rewrite <- seq_app; f_equal; lia). rewrite !map_app.
  assert (E1 : forall j, In j (seq 0 m) -> mirrored n y j = y j) by (intros j Hj; apply in_seq in Hj; unfold mirrored; fold m; destruct (Nat.ltb_spec j m); [reflexivity|lia]).
  assert (E2 : forall j, In j (seq m (n - m)) -> mirrored n y j = - y (n - j - 1)%nat) by (intros j Hj; apply in_seq in Hj; unfold mirrored; fold m; destruct (Nat.ltb_spec j m); [lia|f_equal; f_equal; lia]).
  f_equal. f_equal; f_equal; apply map_ext_in; intros j Hj; try rewrite (E1 j Hj); try rewrite (E2 j Hj); try reflexivity. symmetry. apply node_weight_opp.
Qed.

Lemma sum_diff {A} (f g h : A -> R) c l : (forall a, In a l -> Rabs (f a - g a) <= c * h a) -> Rabs (sum (map f l) - sum (map g l)) <= c * sum (map h l).
Proof.
  induction l as [|a l IH]; intros H; cbn.
  - replace (0 - 0) with 0 by ring. rewrite Rabs_R0. lra.
  - fold (sum (map f l)) (sum (map g l)) (sum (map h l)). replace (f a + sum (map f l) - (g a + sum (map g l))) with ((f a - g a) + (sum (map f l) - sum (map g l))) by ring.
    eapply Rle_trans; [apply Rabs_triang|]. pose proof (H a (or_introl eq_refl)). pose proof (IH (fun b Hb => H b (or_intror Hb))). lra.
Qed.

Definition sizes (l : list R) : R := fold_right Rplus 0 (map Rabs l).
Lemma sizes_pos l : 0 <= sizes l.
Proof. unfold sizes. induction l as [|a l IH]; cbn; [lra|]. pose proof (Rabs_pos a). lra. Qed.
Lemma horner_bound l x : Rabs x <= 1 -> Rabs (horner l x) <= sizes l.
Proof.
  intros Hx. induction l as [|a l IH]; cbn [horner]; [unfold sizes; cbn; rewrite Rabs_R0; lra|]. change (sizes (a :: l)) with (Rabs a + sizes l). eapply Rle_trans; [apply Rabs_triang|].
  rewrite Rabs_mult. assert (Rabs x * Rabs (horner l x) <= 1 * sizes l) by (apply Rmult_le_compat; try apply Rabs_pos; assumption). lra.
Qed.
Lemma horner_close l x z t : Rabs x <= 1 -> Rabs z <= 1 -> Rabs (x - z) <= t -> Rabs (horner l x - horner l z) <= INR (length l) * t * sizes l.
Proof.
  intros Hx Hz Ht. assert (T : 0 <= t) by (pose proof (Rabs_pos (x - z)); lra). induction l as [|a l IH]; cbn [horner length].
  - unfold sizes; cbn. replace (0 - 0) with 0 by ring. rewrite Rabs_R0. lra.
  - change (sizes (a :: l)) with (Rabs a + sizes l). replace (a + x * horner l x - (a + z * horner l z)) with ((x - z) * horner l x + z * (horner l x - horner l z)) by ring.
    eapply Rle_trans; [apply Rabs_triang|]. rewrite !Rabs_mult, S_INR.
    assert (A : Rabs (x - z) * Rabs (horner l x) <= t * sizes l) by (apply Rmult_le_compat; try apply Rabs_pos; [exact Ht|apply horner_bound; exact Hx]).
    assert (B : Rabs z * Rabs (horner l x - horner l z) <= 1 * (INR (length l) * t * sizes l)) by (apply Rmult_le_compat; try apply Rabs_pos; assumption).
    assert (0 <= (INR (length l) + 1) * t * Rabs a). { pose proof (pos_INR (length l)). repeat apply Rmult_le_pos; try apply Rabs_pos; lra. } lra.
Qed.

(** the rule of the code beside the exact one *)
Section rule.
Variables (fuel n : nat).
Hypotheses (Hf : (5 <= fuel)%nat) (Hn : (0 < n)%nat).
Let N2 := NN n * NN n.
Lemma beside : exists z y, zeros n z /\ exact_search (fun _ i => Some (z (n - 1 - i)%nat)) n /\
  (forall i, (i < (n + 1) / 2)%nat -> newton_root fuel n i = Some (y i) /\ y i <= gauss_guess n i /\ found n (z (n - 1 - i)%nat) (y i)).
Proof.
  destruct (zeros_exist n) as (z & Hz). exists z. destruct (half_bounds n) as (A & B & C).
  destruct (finite_choice (fun i x => newton_root fuel n i = Some x /\ x <= gauss_guess n i /\ found n (z (n - 1 - i)%nat) x) ((n + 1) / 2)) as (y & Y).
  { intros i Hi. apply search_found; [exact Hf|lia|exact Hz]. }
  exists y. split; [exact Hz|]. split; [|exact Y]. exists (fun i => z (n - 1 - i)%nat). split.
  - intros i Hi. split; [reflexivity|]. split; [apply zeros_upper; [exact Hz|exact Hi]|]. apply Hz. lia.
  - intros i j Hij. apply (increasing_lt z n (proj2 Hz)). lia.
Qed.
Variables (z y : nat -> R).
Hypothesis Hz : zeros n z.
Hypothesis He : exact_search (fun _ i => Some (z (n - 1 - i)%nat)) n.
Hypothesis Hy : forall i, (i < (n + 1) / 2)%nat -> newton_root fuel n i = Some (y i) /\ y i <= gauss_guess n i /\ found n (z (n - 1 - i)%nat) (y i).
Let X := mirrored n y.
Let Z := mirrored n (fun i => z (n - 1 - i)%nat).
Lemma code_rule : gauss (newton_root fuel) n = Some (map (fun j => node_weight n (X j)) (seq 0 n), map X (seq 0 n)).
Proof. apply gauss_mirrored; [exact Hn|]. intros i Hi. apply Hy, Hi. Qed.
Lemma exact_rule : gauss (fun _ i => Some (z (n - 1 - i)%nat)) n = Some (map (fun j => node_weight n (Z j)) (seq 0 n), map Z (seq 0 n)).
Proof. apply (gauss_mirrored (fun _ i => Some (z (n - 1 - i)%nat))); [exact Hn|]. reflexivity. Qed.
Lemma node_facts j : (j < n)%nat -> Rabs (X j) < 1 /\ Rabs (Z j) < 1 /\ Rabs (X j - Z j) <= N2 / 10 ^ 30 /\ 0 < node_weight n (X j) /\ 0 < node_weight n (Z j) /\
  Rabs (node_weight n (X j) - node_weight n (Z j)) <= 8 / 9 * N2 * (N2 / 10 ^ 30) * node_weight n (Z j) /\ Rabs (node_weight n (X j) - node_weight n (Z j)) <= 2 / 9 * node_weight n (Z j).
Proof.
  intros Hj. destruct (half_bounds n) as (A & B & C). assert (Np : 0 < N2) by (unfold N2; pose proof (NN_pos n); nra).
  assert (G : forall i, (i < (n + 1) / 2)%nat -> Rabs (y i) < 1 /\ Rabs (z (n - 1 - i)%nat) < 1 /\ Rabs (y i - z (n - 1 - i)%nat) <= N2 / 10 ^ 30 /\ 0 < node_weight n (y i) /\ 0 < node_weight n (z (n - 1 - i)%nat) /\
    Rabs (node_weight n (y i) - node_weight n (z (n - 1 - i)%nat)) <= 8 / 9 * N2 * (N2 / 10 ^ 30) * node_weight n (z (n - 1 - i)%nat) /\ Rabs (node_weight n (y i) - node_weight n (z (n - 1 - i)%nat)) <= 2 / 9 * node_weight n (z (n - 1 - i)%nat)).
  { intros i Hi. destruct (Hy i Hi) as (_ & _ & F0 & F1 & F2 & F3 & F4 & F5 & F6 & F7 & F8). set (q := z (n - 1 - i)%nat) in *. repeat split; try assumption.
    - rewrite Rabs_pos_eq; lra.
    - rewrite Rabs_pos_eq; lra.
    - rewrite Rabs_pos_eq; [exact F3|lra].
    - eapply Rle_trans; [exact F7|]. apply Rmult_le_compat_r; [lra|]. apply Rmult_le_compat_l; [fold N2; lra|exact F3]. }
  unfold X, Z, mirrored. destruct (Nat.ltb_spec j ((n + 1) / 2)) as [Lt|Ge]; [apply G, Lt|]. rewrite !node_weight_opp, !Rabs_Ropp.
  replace (- y (n - 1 - j)%nat - - z (n - 1 - (n - 1 - j))%nat) with (- (y (n - 1 - j)%nat - z (n - 1 - (n - 1 - j))%nat)) by ring. rewrite Rabs_Ropp. apply (G (n - 1 - j)%nat). lia.
Qed.
Lemma weights_two : sum (map (fun j => node_weight n (Z j)) (seq 0 n)) = 2.
Proof.
  destruct (C80_exact _ n Hn He) as (ws & xs & E & _ & _ & _ & _ & _ & Ex). rewrite exact_rule in E. injection E as <- <-. destruct (Ex [1] ltac:(cbn; lia)) as (Ex1 & _). rewrite (rule_integrate_map (fun j => node_weight n (Z j)) Z) in Ex1.
  transitivity (RInt (horner [1]) (-1) 1).
  - rewrite <- Ex1. f_equal. apply map_ext. intros j. cbn [horner]. ring.
  - rewrite (RInt_ext _ (fun _ => 1)) by (intros; cbn; ring). rewrite RInt_const. unfold scal; cbn; unfold mult; cbn. ring.
Qed.
Lemma rules_close l : (length l <= 2 * n)%nat -> Rabs (rule_integrate (map (fun j => node_weight n (X j)) (seq 0 n), map X (seq 0 n)) (horner l) - rule_integrate (map (fun j => node_weight n (Z j)) (seq 0 n), map Z (seq 0 n)) (horner l))
  <= 5 * NN n ^ 4 / 10 ^ 30 * sizes l.
Proof.
  intros Hl. rewrite !rule_integrate_map. assert (Np : 3 / 2 <= NN n) by (unfold NN; pose proof (le_INR 1 n ltac:(lia)) as H; cbn [INR] in H; lra). set (t := N2 / 10 ^ 30). assert (N2p : 0 < N2) by (unfold N2; nra).
  assert (Tp : 0 < t) by (apply Rdiv_lt_0_compat; [exact N2p|lra]). pose proof (sizes_pos l) as Sp.
  eapply Rle_trans; [apply (sum_diff _ _ (fun j => node_weight n (Z j)) (8 / 9 * N2 * t * sizes l + INR (length l) * t * sizes l))|].
  - intros j Hj. apply in_seq in Hj. destruct (node_facts j ltac:(lia)) as (F1 & F2 & F3 & F4 & F5 & F6 & _). fold t in F3, F6.
    replace (node_weight n (X j) * horner l (X j) - node_weight n (Z j) * horner l (Z j)) with ((node_weight n (X j) - node_weight n (Z j)) * horner l (X j) + node_weight n (Z j) * (horner l (X j) - horner l (Z j))) by ring.
    eapply Rle_trans; [apply Rabs_triang|]. rewrite !Rabs_mult, (Rabs_pos_eq (node_weight n (Z j))) by lra. rewrite Rmult_plus_distr_r. apply Rplus_le_compat.
    + replace (8 / 9 * N2 * t * sizes l * node_weight n (Z j)) with (8 / 9 * N2 * t * node_weight n (Z j) * sizes l) by ring. apply Rmult_le_compat; try apply Rabs_pos; [exact F6|apply horner_bound; lra].
    + rewrite Rmult_comm. apply Rmult_le_compat_r; [lra|]. apply horner_close; lra.
  - rewrite weights_two. replace (5 * NN n ^ 4 / 10 ^ 30 * sizes l) with (5 * N2 * (t * sizes l)) by (unfold t, N2; field). replace ((8 / 9 * N2 * t * sizes l + INR (length l) * t * sizes l) * 2) with ((16 / 9 * N2 + 2 * INR (length l)) * (t * sizes l)) by field.
    apply Rmult_le_compat_r; [apply Rmult_le_pos; lra|]. assert (INR (length l) <= 2 * NN n) by (apply Rle_trans with (INR (2 * n)); [apply le_INR, Hl|rewrite mult_INR; unfold NN; cbn [INR]; lra]). unfold N2. nra.
Qed.
Lemma moment_code k : Rabs (rule_integrate (map (fun j => node_weight n (X j)) (seq 0 n), map X (seq 0 n)) (fun x => x ^ k)) <= 5 / 2.
Proof.
  rewrite rule_integrate_map. replace (sum (map (fun a => node_weight n (X a) * X a ^ k) (seq 0 n))) with (sum (map (fun a => node_weight n (X a) * X a ^ k) (seq 0 n)) - sum (map (fun _ : nat => 0) (seq 0 n))).
  - eapply Rle_trans; [apply (sum_diff _ _ (fun j => node_weight n (Z j)) (11 / 9))|rewrite weights_two; lra]. intros j Hj. apply in_seq in Hj. destruct (node_facts j ltac:(lia)) as (F1 & _ & _ & F4 & F5 & _ & F7).
    rewrite Rminus_0_r, Rabs_mult, (Rabs_pos_eq (node_weight n (X j))) by lra. rewrite <- RPow_abs. assert (Rabs (X j) ^ k <= 1) by (rewrite <- (pow1 k); apply pow_incr; split; [apply Rabs_pos|lra]).
    pose proof (pow_le (Rabs (X j)) k (Rabs_pos _)). apply Rabs_le_between in F7. assert (node_weight n (X j) * Rabs (X j) ^ k <= node_weight n (X j) * 1) by (apply Rmult_le_compat_l; lra). lra.
  - replace (sum (map (fun _ : nat => 0) (seq 0 n))) with 0; [ring|]. generalize (seq 0 n). intros l. induction l as [|a l IH]; cbn; [reflexivity|]. fold (sum (map (fun _ : nat => 0) l)). rewrite <- IH. ring.
Qed.
Lemma nodes_decreasing i j : (i < j < n)%nat -> X j < X i.
Proof.
  intros Hij. destruct (half_bounds n) as (A & B & C). set (m := ((n + 1) / 2)%nat) in *.
  assert (Dec : forall i j, (i < j < m)%nat -> y j < y i).
  { intros i' j' H. destruct (Hy i' ltac:(lia)) as (_ & _ & _ & F1 & _). destruct (Hy j' ltac:(lia)) as (_ & G & _). apply Rle_lt_trans with (gauss_guess n j'); [exact G|]. apply Rlt_le_trans with (z (n - 1 - i')%nat); [|exact F1].
    destruct (start_near n z j' Hz ltac:(lia)) as (_ & _ & _ & _ & _ & P). apply Rnot_le_lt. intros Le. specialize (P (z (n - 1 - i')%nat)). rewrite (proj2 (proj1 Hz (n - 1 - i')%nat ltac:(lia))), Rmult_0_r in P.
    assert (z (n - 1 - j')%nat < z (n - 1 - i')%nat) by (apply (increasing_lt z n (proj2 Hz)); lia). lra. }
  assert (Nn : forall i, (i < m)%nat -> 0 <= y i) by (intros i' H; destruct (Hy i' H) as (_ & _ & F0 & F1 & _); lra).
  assert (Ps : forall i, (i < n - m)%nat -> 0 < y i).
  { intros i' H. destruct (Hy i' ltac:(lia)) as (_ & _ & F0 & F1 & _). pose proof (zeros_symmetric n z Hz i' ltac:(lia)) as S. pose proof (increasing_lt z n (proj2 Hz) i' (n - 1 - i') ltac:(lia)). lra. }
  unfold X, mirrored. fold m. destruct (Nat.ltb_spec i m), (Nat.ltb_spec j m); try lia.
  - apply Dec. lia.
  - pose proof (Nn i ltac:(lia)). pose proof (Ps (n - 1 - j)%nat ltac:(lia)). lra.
  - pose proof (Dec (n - 1 - j)%nat (n - 1 - i)%nat ltac:(lia)). lra.
Qed.
End rule.

(** C103. The rule of the code, with at least five steps allowed, exists for every positive number of points; its points are in decreasing order in the open interval, its weights are
    positive, and polynomials with 2 n coefficients are integrated up to 5 (n + 1/2)^4 1e-30 times the sum of the absolute values of the coefficients. *)
Theorem C103_rule fuel n : (5 <= fuel)%nat -> (0 < n)%nat -> exists ws xs, gauss (newton_root fuel) n = Some (ws, xs) /\ length ws = n /\ length xs = n /\
  (forall i j, (i < j < n)%nat -> nth j xs 0 < nth i xs 0) /\ (forall x, In x xs -> -1 < x < 1) /\ (forall w, In w ws -> 0 < w) /\
  forall l, (length l <= 2 * n)%nat -> Rabs (rule_integrate (ws, xs) (horner l) - RInt (horner l) (-1) 1) <= 5 * (INR n + 1 / 2) ^ 4 / 10 ^ 30 * fold_right Rplus 0 (map Rabs l).
Proof.
  intros Hf Hn. destruct (beside fuel n Hf Hn) as (z & y & Hz & He & Hy). pose proof (code_rule fuel n Hn z y Hy) as E. eexists. eexists. split; [exact E|]. split; [rewrite map_length; apply seq_length|]. split; [rewrite map_length; apply seq_length|]. split; [|split; [|split]].
  - intros i j Hij. rewrite !(nth_indep _ 0 (mirrored n y 0%nat)) by (rewrite map_length, seq_length; lia). rewrite !map_nth, !seq_nth by lia. eapply nodes_decreasing; try eassumption; lia.
  - intros x Hx. apply in_map_iff in Hx. destruct Hx as (j & <- & Hj). apply in_seq in Hj. assert (F : Rabs (mirrored n y j) < 1) by (eapply node_facts; try eassumption; lia). apply Rabs_def2 in F. lra.
  - intros w Hw. apply in_map_iff in Hw. destruct Hw as (j & <- & Hj). apply in_seq in Hj. eapply node_facts; try eassumption; lia.
  - intros l Hl. pose proof (rules_close fuel n Hf Hn z y He Hy l Hl) as R. destruct (C80_exact _ n Hn He) as (ws & xs & E' & _ & _ & _ & _ & _ & Ex). rewrite (exact_rule n Hn z) in E'. injection E' as <- <-. destruct (Ex l Hl) as (Ex1 & _). rewrite Ex1 in R. exact R.
Qed.
Print Assumptions C103_rule.

(** ** tensor rules *)
Lemma integrate_zipped {P} (q : rule P) f : rule_integrate q f = total (zipped q) f.
Proof. apply integrate_total. Qed.
Section two_rules.
Variables (l k : list (R * R)) (eps : R) (d : nat).
Hypothesis Close : forall a, (a <= d)%nat -> Rabs (total l (fun t => t ^ a) - total k (fun t => t ^ a)) <= eps /\ Rabs (total l (fun t => t ^ a)) <= 5 / 2 /\ Rabs (total k (fun t => t ^ a)) <= 2.
Definition coefficients (p : poly) : R := fold_right Rplus 0 (map (fun m : R * (nat * nat * nat) => Rabs (fst m)) p).
Lemma eps_pos : 0 <= eps.
Proof. destruct (Close 0 ltac:(lia)) as (A & _). pose proof (Rabs_pos (total l (fun t => t ^ 0) - total k (fun t => t ^ 0))). lra. Qed.
Lemma poly_close (u v : list (R * point)) c (p : poly) : (forall m, In m p -> Rabs (total u (monomial (snd m)) - total v (monomial (snd m))) <= c) -> Rabs (total u (peval p) - total v (peval p)) <= c * coefficients p.
Proof.
  rewrite !total_peval. induction p as [|m p IH]; intros H; cbn [fold_right].
  - replace (0 - 0) with 0 by ring. unfold coefficients. cbn. rewrite Rabs_R0. lra.
  - change (coefficients (m :: p)) with (Rabs (fst m) + coefficients p). specialize (IH (fun m' H' => H m' (or_intror H'))). pose proof (H m (or_introl eq_refl)) as Hm.
    match goal with |- Rabs (fst m * ?a + ?b - (fst m * ?c' + ?d')) <= _ => replace (fst m * a + b - (fst m * c' + d')) with (fst m * (a - c') + (b - d')) by ring; assert (K : Rabs (fst m) * Rabs (a - c') <= Rabs (fst m) * c) by (apply Rmult_le_compat_l; [apply Rabs_pos|exact Hm]) end.
    eapply Rle_trans; [apply Rabs_triang|]. rewrite Rabs_mult. lra.
Qed.
Lemma product_close a b a' b' ea eb ka kb : Rabs (a - a') <= ea -> Rabs (b - b') <= eb -> Rabs a <= ka -> Rabs b' <= kb -> Rabs (a * b - a' * b') <= ka * eb + ea * kb.
Proof.
  intros A B C D. replace (a * b - a' * b') with (a * (b - b') + (a - a') * b') by ring. eapply Rle_trans; [apply Rabs_triang|]. rewrite !Rabs_mult. apply Rplus_le_compat; apply Rmult_le_compat; try apply Rabs_pos; assumption.
Qed.
Lemma square_close p : List.Forall (fun m : R * (nat * nat * nat) => each_degree 2 d (snd m)) p -> Rabs (total (pairs2 l) (peval p) - total (pairs2 k) (peval p)) <= 5 * eps * coefficients p.
Proof.
  intros F. assert (F' : forall m, In m p -> each_degree 2 d (snd m)) by (apply List.Forall_forall; exact F). apply poly_close. intros m Hm. destruct (F' m Hm) as ((A & B & _) & Z & _). specialize (Z ltac:(lia)).
  assert (E : forall u, total (pairs2 u) (monomial (snd m)) = total u (fun t => t ^ fst (fst (snd m))) * total u (fun t => t ^ snd (fst (snd m)))).
  { intros u. rewrite <- pairs2_product. apply total_ext. intros x. unfold monomial. rewrite Z. cbn. ring. }
  rewrite !E. destruct (Close _ A) as (A1 & A2 & A3). destruct (Close _ B) as (B1 & B2 & B3). eapply Rle_trans; [exact (product_close _ _ _ _ _ _ _ _ A1 B1 A2 B3)|]. pose proof eps_pos. lra.
Qed.
Lemma cube_close p : List.Forall (fun m : R * (nat * nat * nat) => each_degree 3 d (snd m)) p -> Rabs (total (pairs3 l) (peval p) - total (pairs3 k) (peval p)) <= 16 * eps * coefficients p.
Proof.
  intros F. assert (F' : forall m, In m p -> each_degree 3 d (snd m)) by (apply List.Forall_forall; exact F). apply poly_close. intros m Hm. destruct (F' m Hm) as ((A & B & C) & _).
  assert (E : forall u, total (pairs3 u) (monomial (snd m)) = total u (fun t => t ^ fst (fst (snd m))) * total u (fun t => t ^ snd (fst (snd m))) * total u (fun t => t ^ snd (snd m))).
  { intros u. rewrite <- pairs3_product. apply total_ext. intros x. reflexivity. }
  rewrite !E. destruct (Close _ A) as (A1 & A2 & A3). destruct (Close _ B) as (B1 & B2 & B3). destruct (Close _ C) as (C1 & C2 & C3). pose proof (product_close _ _ _ _ _ _ _ _ A1 B1 A2 B3) as AB.
  assert (K : Rabs (total l (fun t => t ^ fst (fst (snd m))) * total l (fun t => t ^ snd (fst (snd m)))) <= 5 / 2 * (5 / 2)) by (rewrite Rabs_mult; apply Rmult_le_compat; try apply Rabs_pos; assumption).
  eapply Rle_trans; [exact (product_close _ _ _ _ _ _ _ _ AB C1 K C3)|]. pose proof eps_pos. lra.
Qed.
End two_rules.

Lemma horner_power a x : horner (repeat 0 a ++ [1]) x = x ^ a.
Proof. induction a as [|a IH]; cbn [repeat app horner pow]; [ring|]. rewrite IH. ring. Qed.
Lemma power_sizes a : sizes (repeat 0 a ++ [1]) = 1.
Proof. unfold sizes. induction a as [|a IH]; cbn; [rewrite Rabs_R1; ring|]. rewrite Rabs_R0. unfold sizes in IH. rewrite IH. ring. Qed.

(** C103. The tensor rules of the code on the square and the cube exist too, and integrate polynomials of degree 2 n - 1 in each variable up to 25 (n + 1/2)^4 1e-30
    (square) and 80 (n + 1/2)^4 1e-30 (cube) times the sum of the absolute values of the coefficients. *)
Theorem C103_tensor fuel n : (5 <= fuel)%nat -> (0 < n)%nat -> exists q2 q3,
  quadrilateral_gauss (newton_root fuel) n = Some q2 /\ hexahedron_gauss (newton_root fuel) n = Some q3 /\
  length (fst q2) = (n * n)%nat /\ length (snd q2) = (n * n)%nat /\ length (fst q3) = (n ^ 3)%nat /\ length (snd q3) = (n ^ 3)%nat /\
  (forall x, In x (snd q2) -> -1 < x 0%nat < 1 /\ -1 < x 1%nat < 1) /\ (forall x, In x (snd q3) -> -1 < x 0%nat < 1 /\ -1 < x 1%nat < 1 /\ -1 < x 2%nat < 1) /\
  (forall p, List.Forall (fun m : R * (nat * nat * nat) => each_degree 2 (2 * n - 1) (snd m)) p ->
     Rabs (rule_integrate q2 (peval p) - RInt (fun x => RInt (fun y => peval p (pt [x; y])) (-1) 1) (-1) 1)
     <= 25 * (INR n + 1 / 2) ^ 4 / 10 ^ 30 * fold_right Rplus 0 (map (fun m => Rabs (fst m)) p)) /\
  (forall p, List.Forall (fun m : R * (nat * nat * nat) => each_degree 3 (2 * n - 1) (snd m)) p ->
     Rabs (rule_integrate q3 (peval p) - RInt (fun x => RInt (fun y => RInt (fun z => peval p (pt [x; y; z])) (-1) 1) (-1) 1) (-1) 1)
     <= 80 * (INR n + 1 / 2) ^ 4 / 10 ^ 30 * fold_right Rplus 0 (map (fun m => Rabs (fst m)) p)).
Proof.
  intros Hf Hn. destruct (C103_rule fuel n Hf Hn) as (ws & xs & E & Lw & Lx & _ & In1 & _ & _). destruct (beside fuel n Hf Hn) as (z & y & Hz & He & Hy). pose proof (code_rule fuel n Hn z y Hy) as E'. pose proof (exact_rule n Hn z) as Ez.
  set (qx := (map (fun j => node_weight n (mirrored n y j)) (seq 0 n), map (mirrored n y) (seq 0 n))) in *.
  set (qz := (map (fun j => node_weight n (mirrored n (fun i => z (n - 1 - i)%nat) j)) (seq 0 n), map (mirrored n (fun i => z (n - 1 - i)%nat)) (seq 0 n))) in *.
  assert (Eq : (ws, xs) = qx) by congruence. destruct (C54_gauss _ n Hn He) as (z2 & z3 & G2 & G3 & _ & _ & _ & _ & X2 & X3). unfold quadrilateral_gauss in G2. unfold hexahedron_gauss in G3. rewrite Ez in G2, G3. cbn [option_map] in G2, G3. injection G2 as <-. injection G3 as <-.
  exists (quadrilateral_tensor (ws, xs)), (hexahedron_tensor (ws, xs)). unfold quadrilateral_gauss, hexahedron_gauss. rewrite E. cbn [option_map].
  assert (Len : length (fst (ws, xs)) = length (snd (ws, xs))) by (cbn; lia). destruct (C54_quadrilateral (ws, xs) Len) as (Q1 & Q1' & _ & _ & Q2 & _). destruct (C54_hexahedron (ws, xs) Len) as (H1 & H1' & _ & _ & H2 & _).
  cbn [fst snd] in Q1, Q1', Q2, H1, H1', H2. rewrite Lw in Q1, Q1', H1, H1'.
  assert (Close : forall a, (a <= 2 * n - 1)%nat -> Rabs (total (zipped (ws, xs)) (fun t => t ^ a) - total (zipped qz) (fun t => t ^ a)) <= 5 * NN n ^ 4 / 10 ^ 30 /\ Rabs (total (zipped (ws, xs)) (fun t => t ^ a)) <= 5 / 2 /\ Rabs (total (zipped qz) (fun t => t ^ a)) <= 2).
  { intros a Ha. rewrite Eq, <- !integrate_total. split; [|split].
    - pose proof (rules_close fuel n Hf Hn z y He Hy (repeat 0 a ++ [1])) as R. rewrite power_sizes, Rmult_1_r in R. rewrite app_length, repeat_length in R. specialize (R ltac:(cbn; lia)).
      fold qx qz in R. rewrite !integrate_total in R |- *. rewrite !(total_ext _ (horner (repeat 0 a ++ [1])) (fun t => t ^ a)) in R by (intros; apply horner_power). exact R.
    - exact (moment_code fuel n Hf Hn z y He Hy a).
    - unfold qz. rewrite rule_integrate_map. replace (sum (map (fun j => node_weight n (mirrored n (fun i => z (n - 1 - i)%nat) j) * mirrored n (fun i => z (n - 1 - i)%nat) j ^ a) (seq 0 n)))
        with (sum (map (fun j => node_weight n (mirrored n (fun i => z (n - 1 - i)%nat) j) * mirrored n (fun i => z (n - 1 - i)%nat) j ^ a) (seq 0 n)) - sum (map (fun _ : nat => 0) (seq 0 n))).
      2: { replace (sum (map (fun _ : nat => 0) (seq 0 n))) with 0; [ring|]. generalize (seq 0 n). intros l. induction l as [|b l IH]; cbn; [reflexivity|]. fold (sum (map (fun _ : nat => 0) l)). rewrite <- IH. ring. }
      eapply Rle_trans; [apply (sum_diff _ _ (fun j => node_weight n (mirrored n (fun i => z (n - 1 - i)%nat) j)) 1)|erewrite weights_two by eassumption; lra]. intros j Hj. apply in_seq in Hj.
      destruct (node_facts fuel n Hf Hn z y Hy j ltac:(lia)) as (_ & F2 & _ & _ & F5 & _). rewrite Rminus_0_r, Rabs_mult, Rabs_pos_eq by lra. rewrite <- RPow_abs.
      rewrite Rmult_1_l. rewrite <- (Rmult_1_r (node_weight n _)) at 2. apply Rmult_le_compat_l; [lra|]. rewrite <- (pow1 a). apply pow_incr. split; [apply Rabs_pos|lra]. }
  split; [reflexivity|]. split; [reflexivity|]. split; [exact Q1|]. split; [exact Q1'|]. split; [exact H1|]. split; [exact H1'|].
  split; [intros x I; apply Q2 in I; destruct I as (a & b & Ia & Ib & ->); unfold pt; cbn [nth]; split; apply In1; assumption|].
  split; [intros x I; apply H2 in I; destruct I as (a & b & c & Ia & Ib & Ic & ->); unfold pt; cbn [nth]; repeat split; apply In1; assumption|].
  split; intros p Hp.
  - rewrite <- (X2 p Hp), !quadrilateral_pairs, !integrate_unz. pose proof (square_close _ _ _ _ Close p Hp) as S. replace (25 * (INR n + 1 / 2) ^ 4 / 10 ^ 30) with (5 * (5 * NN n ^ 4 / 10 ^ 30)) by (unfold NN; field). exact S.
  - rewrite <- (X3 p Hp), !hexahedron_pairs, !integrate_unz. pose proof (cube_close _ _ _ _ Close p Hp) as S. replace (80 * (INR n + 1 / 2) ^ 4 / 10 ^ 30) with (16 * (5 * NN n ^ 4 / 10 ^ 30)) by (unfold NN; field). exact S.
Qed.
Print Assumptions C103_tensor.

(** The zeros of the polynomial of degree two; the search of the code finds the positive one up to 1e-29. *)
Example C103_example : zeros 2 (fun k => match k with O => - sqrt (1 / 3) | _ => sqrt (1 / 3) end) /\ exists x, newton_root 5 2 0 = Some x /\ Rabs (x - sqrt (1 / 3)) <= / 10 ^ 29.
Proof.
  assert (Sq : sqrt (1 / 3) * sqrt (1 / 3) = 1 / 3) by (apply sqrt_sqrt; lra). assert (Sp : 0 < sqrt (1 / 3)) by (apply sqrt_lt_R0; lra).
  assert (Z : legendre_value 2 (sqrt (1 / 3)) = 0) by (destruct C80_example as ((z & H & _) & _); destruct (H 0%nat ltac:(cbn; lia)) as (E & _ & Hz); injection E as E; rewrite E; exact Hz).
  assert (Zs : zeros 2 (fun k => match k with O => - sqrt (1 / 3) | _ => sqrt (1 / 3) end)).
  { split.
    - intros [|[|k]] Hk; [|split; [nra|exact Z]|lia]. split; [nra|]. rewrite L_opp, Z. ring.
    - intros [|k] Hk; [lra|lia]. }
  split; [exact Zs|]. destruct (C103_search 5 2 _ 0 (le_n 5) ltac:(cbn; lia) Zs) as (x & E & A & B & _). exists x. split; [exact E|]. cbn [INR Nat.sub] in A, B. rewrite Rabs_pos_eq by exact A. eapply Rle_trans; [exact B|]. lra.
Qed.

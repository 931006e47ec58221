(** C100: integration with a rule in doubles, and with the tabulated rules. *)
From Coq Require Import Reals QArith Qreals ZArith NArith Arith Lia Lra Bool String List Permutation.
From Flocq Require Import Core.
From Flocq.IEEE754 Require Import BinarySingleNaN.
From Verif Require Import ElementModel ElementSpec QuadratureModel QuadPolyN RuleProofs TableMoments TableCheck PolyquadModel PolyquadData PropPolyquadText PropPolyquadSelect PropPolyquadDecimal PropPolyquadTables
  LayoutModel FloatModel FloatProofs.
Import ListNotations.
Local Open Scope list_scope.
Local Open Scope R_scope.

(** ** Specification *)
(** sums over the points of a rule *)
Definition over_rule {P} (ws : list f64) (ps : list P) (h : R -> P -> R) : R := fold_right Rplus 0 (map (fun wp : f64 * P => h (B2R (fst wp)) (snd wp)) (List.combine ws ps)).
(** the error of a sum of [n] products whose terms have moduli [a] and errors [e] in total *)
Definition rounding (n : nat) (a e : R) : R := (1 + / 2 ^ 53) ^ n * (a + e) - a.

Lemma term_le {A} (h : A -> R) l i : (forall j, In j l -> 0 <= h j) -> In i l -> h i <= rsum (map h l).
Proof.
  unfold rsum. induction l as [|j l IH]; intros Hp Hi; [destruct Hi|]. cbn [map fold_right].
  assert (0 <= fold_right Rplus 0 (map h l)).
  { clear -Hp. induction l as [|k l IH]; cbn [map fold_right]; [lra|]. pose proof (Hp k (or_intror (or_introl eq_refl))). enough (0 <= fold_right Rplus 0 (map h l)) by lra. apply IH. intros m [->|Hm]; apply Hp; cbn; tauto. }
  destruct Hi as [->|Hi]; [lra|]. pose proof (Hp j (or_introl eq_refl)). enough (h i <= fold_right Rplus 0 (map h l)) by lra. apply IH; [|exact Hi]. intros k Hk. apply Hp. right. exact Hk.
Qed.
Lemma rsum_plus {A} (h k : A -> R) l : rsum (map (fun i => h i + k i) l) = rsum (map h l) + rsum (map k l).
Proof. unfold rsum. induction l as [|i l IH]; cbn [map fold_right]; [ring|]. rewrite IH. ring. Qed.

Lemma integrate_approx P (ws : list f64) (ps : list P) (f : P -> f64) (g : P -> R) (c : P -> R) d :
  List.Forall (fun w : f64 => is_finite w = true) ws -> (forall p, In p ps -> is_finite (f p) = true /\ Rabs (value (f p) - g p) <= d /\ Rabs (g p) <= c p) ->
  let l := List.combine ws ps in
  let s := fun wp : f64 * P => value (fst wp) * g (snd wp) in let a := fun wp : f64 * P => Rabs (value (fst wp)) * c (snd wp) in
  let e := fun wp : f64 * P => Rabs (value (fst wp)) * d + half_tiny in
  (1 + unit_roundoff) ^ length l * (rsum (map a l) + rsum (map e l)) < overflow_bound ->
  approx (length l) (quadrature_integrate f64_zero f64_add f64_mul ws ps f) (rsum (map s l)) (rsum (map a l)) (rsum (map e l)) /\
  approx (length l) (LayoutModel.rule_integrate f64_zero f64_add f64_mul (ws, ps) f) (rsum (map s l)) (rsum (map a l)) (rsum (map e l)).
Proof.
  intros Hw Hp l s a e Hb.
  assert (Hin : forall wp, In wp l -> is_finite (fst wp) = true /\ is_finite (f (snd wp)) = true /\ Rabs (value (f (snd wp)) - g (snd wp)) <= d /\ Rabs (g (snd wp)) <= c (snd wp)).
  { intros [w p] Hi. split; [|apply Hp; exact (in_combine_r _ _ _ _ Hi)]. rewrite List.Forall_forall in Hw. apply Hw. exact (in_combine_l _ _ _ _ Hi). }
  assert (Hpos : forall wp, In wp l -> 0 <= a wp + e wp).
  { intros wp Hi. destruct (Hin wp Hi) as (_ & _ & H1 & H2). pose proof (Rabs_pos (value (fst wp))). pose proof (Rabs_pos (g (snd wp))). pose proof (Rabs_pos (value (f (snd wp)) - g (snd wp))). pose proof tiny_pos.
    unfold a, e. assert (Pc : 0 <= c (snd wp)) by lra. assert (Pd : 0 <= d) by lra. pose proof (Rmult_le_pos _ _ H Pc). pose proof (Rmult_le_pos _ _ H Pd). lra. }
  assert (T : forall wp, In wp l -> approx 1 (f64_mul (fst wp) (f (snd wp))) (s wp) (a wp) (e wp) /\ approx 1 (f64_mul (f (snd wp)) (fst wp)) (s wp) (a wp) (e wp)).
  { intros wp Hi. destruct (Hin wp Hi) as (H1 & H2 & H3 & H4). apply approx_mul; try assumption. change (Rabs (value (fst wp)) * c (snd wp)) with (a wp). change (Rabs (value (fst wp)) * d + half_tiny) with (e wp).
    assert (Hl : (1 <= length l)%nat) by (destruct l; [destruct Hi|cbn; lia]). rewrite <- (pow_1 (1 + unit_roundoff)). eapply bound_part; [exact Hl|apply Hpos, Hi| |exact Hb].
    rewrite <- rsum_plus. apply (term_le (fun i => a i + e i)); assumption. }
  assert (En : l <> [] -> (1 + Nat.pred (length l))%nat = length l) by (destruct l; [congruence|reflexivity]).
  assert (Enil : l = [] -> approx (length l) f64_zero (rsum (map s l)) (rsum (map a l)) (rsum (map e l))).
  { intros ->. cbn. split; [reflexivity|]. rewrite value_zero, Rminus_0_r, Rabs_R0. lra. }
  assert (D : l = [] \/ l <> []) by (destruct l; [left; reflexivity|right; discriminate]). split.
  - unfold quadrature_integrate. fold l. destruct D as [D|D]; [specialize (Enil D); rewrite D in *; exact Enil|]. rewrite <- (En D) at 1. apply (approx_sums (fun wp => f64_mul (f (snd wp)) (fst wp)) s a e 1 l).
    + apply List.Forall_forall. intros wp Hi. apply T, Hi.
    + rewrite (En D). exact Hb.
  - unfold LayoutModel.rule_integrate. cbn [fst snd]. fold l.
    assert (Ef : forall (h : f64 * P -> f64) z l, fold_left f64_add (map h l) z = fold_left (fun acc i => f64_add acc (h i)) l z) by (clear; intros h z l; revert z; induction l as [|i l IH]; intros z; cbn; [reflexivity|apply IH]).
    rewrite Ef. destruct D as [D|D]; [specialize (Enil D); rewrite D in *; exact Enil|]. rewrite <- (En D) at 1. apply (approx_sums (fun wp => f64_mul (fst wp) (f (snd wp))) s a e 1 l).
    + apply List.Forall_forall. intros wp Hi. apply T, Hi.
    + rewrite (En D). exact Hb.
Qed.

(** C100: integration of a function that is computed with an error of at most [d], in both implementations. *)
Theorem C100_integrate : forall P (ws : list f64) (ps : list P) (f : P -> f64) (g : P -> R) d,
  List.Forall (fun w : f64 => is_finite w = true) ws -> (forall p, In p ps -> is_finite (f p) = true /\ Rabs (B2R (f p) - g p) <= d) ->
  let n := length (List.combine ws ps) in
  let a := over_rule ws ps (fun w p => Rabs (w * g p)) in
  let e := over_rule ws ps (fun w p => Rabs w * d + / 2 ^ 1075) in
  (1 + / 2 ^ 53) ^ n * (a + e) < 2 ^ 1024 ->
  (forall r, r = quadrature_integrate f64_zero f64_add f64_mul ws ps f \/ r = LayoutModel.rule_integrate f64_zero f64_add f64_mul (ws, ps) f ->
     is_finite r = true /\ Rabs (B2R r - over_rule ws ps (fun w p => w * g p)) <= rounding n a e).
Proof.
  intros P ws ps f g d Hw Hp n a e Hb.
  assert (Ea : a = rsum (map (fun wp : f64 * P => Rabs (value (fst wp)) * Rabs (g (snd wp))) (List.combine ws ps))).
  { unfold a, over_rule, rsum. f_equal. apply map_ext. intros wp. apply Rabs_mult. }
  destruct (integrate_approx P ws ps f g (fun p => Rabs (g p)) d Hw) as [A1 A2].
  - intros p Hi. destruct (Hp p Hi) as [H1 H2]. split; [exact H1|]. split; [exact H2|lra].
  - cbn beta. rewrite <- Ea. exact Hb.
  - cbn beta in A1, A2. rewrite <- Ea in A1, A2. intros r [-> | ->]; [destruct A1 as (F & V & _)|destruct A2 as (F & V & _)]; (split; [exact F|exact V]).
Qed.
Print Assumptions C100_integrate.

(** ** Tabulated rules *)
Lemma peval_bound p x : Rabs (x 0%nat) <= 1 -> Rabs (x 1%nat) <= 1 -> List.Forall (fun m : R * (nat * nat * nat) => snd (snd m) = 0%nat \/ Rabs (x 2%nat) <= 1) p ->
  Rabs (peval p x) <= fold_right (fun c acc => Rabs (fst c) + acc) 0 p.
Proof.
  intros H0 H1 H2. unfold peval. induction H2 as [|[c [[i j] k]] p H2 _ IH]; cbn [fold_right fst snd] in *; [rewrite Rabs_R0; lra|]. eapply Rle_trans; [apply Rabs_triang|]. apply Rplus_le_compat; [|exact IH].
  assert (Q : forall y n, Rabs y <= 1 -> Rabs (y ^ n) <= 1) by (intros y n Hy; rewrite <- RPow_abs, <- (pow1 n); apply pow_incr; split; [apply Rabs_pos|exact Hy]).
  assert (M : Rabs (monomial (i, j, k) x) <= 1).
  { unfold monomial. cbn [fst snd]. rewrite !Rabs_mult. pose proof (Q _ i H0) as Q0. pose proof (Q _ j H1) as Q1. assert (Q2 : Rabs (x 2%nat ^ k) <= 1) by (destruct H2 as [->|H2]; [cbn; rewrite Rabs_R1; lra|apply Q, H2]).
    pose proof (Rabs_pos (x 0%nat ^ i)). pose proof (Rabs_pos (x 1%nat ^ j)). pose proof (Rabs_pos (x 2%nat ^ k)).
    assert (Rabs (x 0%nat ^ i) * Rabs (x 1%nat ^ j) <= 1) by nra. assert (0 <= Rabs (x 0%nat ^ i) * Rabs (x 1%nat ^ j)) by nra. nra. }
  rewrite Rabs_mult. pose proof (Rabs_pos c). nra.
Qed.
Lemma volume_bound d : over d (peval [(1, (0, 0, 0)%nat)]) <= 8.
Proof.
  rewrite (moments_ok d); [|repeat constructor]. cbn [fold_right fst snd]. rewrite Rplus_0_r, Rmult_1_l. replace 8 with (Q2R 8) by (unfold Q2R; cbn; lra). apply Qle_Rle. destruct d; vm_compute; discriminate.
Qed.
Lemma inside_bound d ds : inside d (pt (map f64_value ds)) -> Rabs (pt (map f64_value ds) 0%nat) <= 1 /\ Rabs (pt (map f64_value ds) 1%nat) <= 1 /\ (dimension d = 3%nat -> Rabs (pt (map f64_value ds) 2%nat) <= 1).
Proof.
  set (x := pt (map f64_value ds)). intros H. destruct d; cbn [inside dimension] in *.
  - split; [apply Rabs_le; lra|]. split; [apply Rabs_le; lra|discriminate].
  - split; [apply Rabs_le; lra|]. split; [apply Rabs_le; lra|discriminate].
  - split; [apply Rabs_le; lra|]. split; [apply Rabs_le; lra|intros _; apply Rabs_le; lra].
  - split; [apply Rabs_le; lra|]. split; [apply Rabs_le; lra|intros _; apply Rabs_le; lra].
  - split; [apply Rabs_le; lra|]. split; [apply Rabs_le; lra|intros _; apply Rabs_le; lra].
  - split; [lra|]. split; [lra|intros _; apply Rabs_le; lra].
Qed.

Lemma weights_value ws t : Forall2 (fun (w : f64) f => is_finite w = true /\ B2R w = f64_value f) ws (fst t) -> map (fun w : f64 => value w) ws = fst (real_rule t) /\ length ws = length (fst t) /\ List.Forall (fun w : f64 => is_finite w = true) ws.
Proof.
  unfold real_rule. cbn [fst]. induction 1 as [|w f ws fs [H1 H2] _ (E & L & F)]; [repeat split; constructor|]. cbn [map length]. rewrite E, L. unfold value at 1. rewrite H2. repeat split. constructor; assumption.
Qed.

(** C100: integration with a tabulated rule of a function that is computed with an error of at most [del], compared with the integral of a polynomial: the error of the table and
    the error of the arithmetic. *)
Theorem C100_tables : forall d dir rest k, Permutation dir (files d ++ rest) -> well_formed (parser d) dir -> (forall e s n, In e rest -> is_rule_file e s n -> (limit d < s)%N) -> (k <= limit d)%N ->
  exists t, select_minimum (parser d) dir k = Some (Some t) /\
    forall (ws : list f64) (f : list (Z * Z) -> f64) p del,
      Forall2 (fun (w : f64) v => is_finite w = true /\ B2R w = f64_value v) ws (fst t) ->
      List.Forall (fun m : R * (nat * nat * nat) => total_degree (dimension d) (N.to_nat k) (snd m)) p ->
      (forall x, In x (snd t) -> is_finite (f x) = true /\ Rabs (B2R (f x) - peval p (pt (map f64_value x))) <= del) -> 0 <= del ->
      let n := length ws in let c := fold_right (fun c acc => Rabs (fst c) + acc) 0 p in
      (1 + / 2 ^ 53) ^ n * (9 * (c + del) + INR n / 2 ^ 1075) < 2 ^ 1024 ->
      forall r, r = quadrature_integrate f64_zero f64_add f64_mul ws (snd t) f \/ r = LayoutModel.rule_integrate f64_zero f64_add f64_mul (ws, snd t) f ->
        is_finite r = true /\ Rabs (B2R r - over d (peval p)) <= / 10 ^ 15 * c + rounding n (9 * c) (9 * del + INR n / 2 ^ 1075).
Proof.
  intros d dir rest k HP HW HB HK. destruct (C84_tables d dir rest k HP HW HB HK) as (t & E & Hl & Hpos & Hin & Hex). exists t. split; [exact E|].
  intros ws f p del Hws Hp Hf Hdel n c Hb. destruct (weights_value ws t Hws) as (Ew & Lw & Fw). destruct t as [tw tp]. cbn [fst snd] in *.
  set (g := fun x : list (Z * Z) => peval p (pt (map f64_value x))). set (l := List.combine ws tp). assert (Ln : length l = n) by (unfold l, n; rewrite combine_length; lia).
  assert (Pc : 0 <= c) by (unfold c; clear; induction p as [|m p IH]; cbn [fold_right]; [lra|]; pose proof (Rabs_pos (fst m)); lra).
  assert (Hg : forall x, In x tp -> Rabs (g x) <= c).
  { intros x Hx. rewrite List.Forall_forall in Hin. specialize (Hin (pt (map f64_value x)) ltac:(unfold real_rule; cbn [snd]; apply (in_map (fun p => pt (map f64_value p))); exact Hx)).
    destruct (inside_bound d x Hin) as (B0 & B1 & B2). apply peval_bound; [exact B0|exact B1|]. eapply List.Forall_impl; [|exact Hp]. intros m (_ & H2 & _).
    assert (dimension d = 2 \/ dimension d = 3)%nat as [D|D] by (destruct d; cbn; lia); [left; apply H2; lia|right; exact (B2 D)]. }
  (* the weights sum to the volume, about *)
  assert (Wp : forall w : f64, In w ws -> 0 < value w).
  { intros w Hw. apply (in_map (fun w : f64 => value w)) in Hw. rewrite Ew in Hw. rewrite List.Forall_forall in Hpos. apply Hpos. exact Hw. }
  assert (Etot : forall h : list (Z * Z) -> R, forall hr : point -> R, (forall x, h x = hr (pt (map f64_value x))) -> QuadratureModel.rule_integrate (real_rule (tw, tp)) hr = rsum (map (fun wp : f64 * list (Z * Z) => value (fst wp) * h (snd wp)) l)).
  { intros h hr Hh. rewrite integrate_total. unfold total, zipped, l. unfold real_rule in *. cbn [fst snd] in *. rewrite <- Ew. clear -Hh. revert tp. unfold rsum. induction ws as [|w ws IH]; intros [|x tp]; try reflexivity. cbn. rewrite <- Hh. f_equal. apply IH. }
  assert (Wb : rsum (map (fun wp : f64 * list (Z * Z) => Rabs (value (fst wp))) l) <= 9).
  { specialize (Hex [(1, (0, 0, 0)%nat)]). rewrite (Etot (fun _ => 1) (peval [(1, (0, 0, 0)%nat)]) ltac:(intros; unfold peval, monomial; cbn; ring)) in Hex. cbn [fold_right fst snd] in Hex. pose proof (volume_bound d) as V.
    assert (Ea : rsum (map (fun wp : f64 * list (Z * Z) => Rabs (value (fst wp))) l) = rsum (map (fun wp : f64 * list (Z * Z) => value (fst wp) * 1) l)).
    { unfold rsum. f_equal. apply map_ext_in. intros [w x] Hi. cbn [fst]. rewrite Rabs_pos_eq, Rmult_1_r; [reflexivity|]. left. apply Wp. exact (in_combine_l _ _ _ _ Hi). }
    rewrite Ea. specialize (Hex ltac:(repeat constructor; cbn; lia)). rewrite Rabs_R1, Rplus_0_r, Rmult_1_r in Hex. apply Rabs_le_inv in Hex. lra. }
  assert (Sa : rsum (map (fun wp : f64 * list (Z * Z) => Rabs (value (fst wp)) * c) l) <= 9 * c).
  { replace (rsum _) with (rsum (map (fun wp : f64 * list (Z * Z) => Rabs (value (fst wp))) l) * c) by (clear; unfold rsum; induction l as [|i l IH]; cbn [map fold_right]; [ring|rewrite <- IH; ring]). nra. }
  assert (Se : rsum (map (fun wp : f64 * list (Z * Z) => Rabs (value (fst wp)) * del + half_tiny) l) <= 9 * del + INR n / 2 ^ 1075).
  { replace (rsum _) with (rsum (map (fun wp : f64 * list (Z * Z) => Rabs (value (fst wp))) l) * del + INR (length l) * half_tiny).
    - rewrite Ln. unfold half_tiny, Rdiv. nra.
    - clear. unfold rsum. induction l as [|i l IH]; [cbn; ring|]. cbn [map fold_right length]. rewrite <- IH, S_INR. ring. }
  destruct (integrate_approx (list (Z * Z)) ws tp f g (fun _ => c) del Fw) as [A1 A2].
  - intros x Hx. destruct (Hf x Hx) as [F1 F2]. split; [exact F1|]. split; [exact F2|]. apply Hg, Hx.
  - cbn beta. fold l. rewrite Ln. eapply Rle_lt_trans; [|exact Hb]. apply Rmult_le_compat_l; [pose proof (pow_u_ge n) as G; unfold unit_roundoff in *; lra|]. cbn beta in *. lra.
  - cbn beta in A1, A2. fold l in A1, A2. rewrite Ln in A1, A2. assert (Es : rsum (map (fun wp : f64 * list (Z * Z) => value (fst wp) * g (snd wp)) l) = QuadratureModel.rule_integrate (real_rule (tw, tp)) (peval p)) by (symmetry; apply Etot; reflexivity).
    rewrite Es in A1, A2. specialize (Hex p Hp). fold c in Hex.
    apply (approx_wider _ _ _ _ _ (9 * c) (9 * del + INR n / 2 ^ 1075)) in A1; [|exact Sa|exact Se]. apply (approx_wider _ _ _ _ _ (9 * c) (9 * del + INR n / 2 ^ 1075)) in A2; [|exact Sa|exact Se].
    assert (G : forall r, approx n r (QuadratureModel.rule_integrate (real_rule (tw, tp)) (peval p)) (9 * c) (9 * del + INR n / 2 ^ 1075) ->
      is_finite r = true /\ Rabs (B2R r - over d (peval p)) <= / 10 ^ 15 * c + rounding n (9 * c) (9 * del + INR n / 2 ^ 1075)).
    { intros r (F & V & _). split; [exact F|]. set (q := QuadratureModel.rule_integrate _ _) in *. replace (B2R r - over d (peval p)) with ((q - over d (peval p)) + (B2R r - q)) by ring.
      eapply Rle_trans; [apply Rabs_triang|]. apply Rplus_le_compat; [exact Hex|exact V]. }
    intros r [-> | ->]; apply G; assumption.
Qed.
Print Assumptions C100_tables.

(** the rule with one point of the square, for the constant 3 *)
Definition double (m e : Z) : f64 := binary_normalize 53 1024 f64_prec f64_emax mode_NE m e false.
Lemma double_values : (is_finite (double 4 0) = true /\ B2R (double 4 0) = 4) /\ (is_finite (double 3 0) = true /\ B2R (double 3 0) = 3).
Proof.
  split; (split; [reflexivity|]); rewrite <- SF2R_B2SF.
  - change (B2SF (double 4 0)) with (SpecFloat.S754_finite false 4503599627370496 (-50)). unfold SF2R, F2R. cbn [Fnum Fexp SpecFloat.cond_Zopp]. change (bpow radix2 (-50)) with (/ IZR 1125899906842624). lra.
  - change (B2SF (double 3 0)) with (SpecFloat.S754_finite false 6755399441055744 (-51)). unfold SF2R, F2R. cbn [Fnum Fexp SpecFloat.cond_Zopp]. change (bpow radix2 (-51)) with (/ IZR 2251799813685248). lra.
Qed.
Example C100_tables_example : let f := fun _ : list (Z * Z) => double 3 0 in let p : list (R * (nat * nat * nat)) := [(3, (0, 0, 0)%nat)] in
  exists t, select_minimum (parser Quad) (files Quad) 1 = Some (Some t) /\ Forall2 (fun (w : f64) v => is_finite w = true /\ B2R w = f64_value v) [double 4 0] (fst t) /\
    (forall x, In x (snd t) -> is_finite (f x) = true /\ Rabs (B2R (f x) - peval p (pt (map f64_value x))) <= 0) /\
    (1 + / 2 ^ 53) ^ 1 * (9 * (3 + 0) + INR 1 / 2 ^ 1075) < 2 ^ 1024.
Proof.
  destruct double_values as [[F4 V4] [F3 V3]]. exists ([(4503599627370496, -50)%Z], [[(0, 0)%Z; (0, 0)%Z]]). split; [vm_compute; reflexivity|]. split; [|split].
  - constructor; [|constructor]. split; [exact F4|]. rewrite V4. unfold f64_value. cbn [fst snd]. change (bpow radix2 (-50)) with (/ IZR 1125899906842624). lra.
  - intros x _. split; [exact F3|]. rewrite V3. unfold peval, monomial. cbn. replace (3 - _) with 0 by ring. rewrite Rabs_R0. lra.
  - rewrite pow_1. apply (Rle_lt_trans _ (2 * (27 + 1))).
    + pose proof u_pos as U. unfold unit_roundoff in U. pose proof tiny_pos as T. assert (/ 2 ^ 1075 <= 1) by (rewrite <- Rinv_1; apply Rinv_le_contravar; [lra|apply pow_R1_Rle; lra]). unfold half_tiny in T. cbn [INR]. unfold Rdiv. rewrite Rmult_1_l. generalize dependent (/ 2 ^ 1075). generalize dependent (/ 2 ^ 53). intros. nra.
    + apply (Rlt_le_trans _ (2 ^ 10)); [lra|]. apply Rle_pow; [lra|lia].
Qed.

(** C83 (numbers): plain decimals are read as the nearest double, ties to even. *)
From Coq Require Import ZArith NArith Reals Lia Lra String Ascii Bool List.
From Flocq Require Import Core.
From Verif Require Import PolyquadModel PropPolyquadText PropPolyquadSelect.
Import ListNotations.
Local Open Scope R_scope.

(** the nearest double to a real number (if it is not too large) *)
Definition nearest_f64 (x : R) : R := round radix2 (FLT_exp (-1074) 53) ZnearestE x.
(** the number a plain decimal denotes: an optional sign, digits, and optionally a point and more digits *)
Definition digit_chars (ds : list N) : list ascii := map (fun d => ascii_of_N (48 + d)) ds.
Definition digits_value (ds : list N) : Z := fold_left (fun a d => 10 * a + Z.of_N d)%Z ds 0%Z.
Definition plain_decimal (s : string) (x : R) : Prop :=
  exists sign a b, Forall (fun d => (d < 10)%N) (a ++ b) /\ a ++ b <> [] /\
    (chars s = sign ++ digit_chars a ++ "."%char :: digit_chars b \/ b = [] /\ chars s = sign ++ digit_chars a) /\
    (In sign [[]; ["+"%char]] /\ x = IZR (digits_value (a ++ b)) / 10 ^ length b \/ sign = ["-"%char] /\ x = - (IZR (digits_value (a ++ b)) / 10 ^ length b)).

Lemma Rcompare_half (a b q : Z) : (0 < b)%Z -> Rcompare (IZR a / IZR b - IZR q) (/ 2) = (2 * (a - q * b) ?= b)%Z.
Proof.
  intros B. assert (B' : 0 < IZR b) by (apply IZR_lt, B). assert (E : IZR a / IZR b - IZR q = (2 * (IZR a - IZR q * IZR b)) * (/ 2 * / IZR b)) by (field; lra).
  assert (E' : / 2 = IZR b * (/ 2 * / IZR b)) by (field; lra). rewrite E. rewrite E' at 2. rewrite Rcompare_mult_r by (apply Rmult_lt_0_compat; [lra|apply Rinv_0_lt_compat, B']).
  rewrite <- mult_IZR, <- minus_IZR, <- mult_IZR. apply Rcompare_IZR.
Qed.
Lemma scaled_ratio n d e : (0 < n)%Z -> (0 < d)%Z -> let '(a, b) := if (0 <=? e)%Z then (n, d * 2 ^ e)%Z else (n * 2 ^ (- e), d)%Z in
  (0 < a)%Z /\ (0 < b)%Z /\ IZR a / IZR b = IZR n / IZR d * bpow radix2 (- e).
Proof.
  intros N D. assert (N' : 0 < IZR n) by (apply IZR_lt, N). assert (D' : 0 < IZR d) by (apply IZR_lt, D). destruct (Z.leb_spec 0 e) as [E|E].
  - pose proof (Z.pow_pos_nonneg 2 e ltac:(lia) E). split; [exact N|]. split; [nia|]. rewrite bpow_opp, <- IZR_Zpower by exact E. change (radix2 ^ e)%Z with (2 ^ e)%Z.
    rewrite mult_IZR. assert (0 < IZR (2 ^ e)) by (apply IZR_lt; lia). field. lra.
  - pose proof (Z.pow_pos_nonneg 2 (- e) ltac:(lia) ltac:(lia)). split; [nia|]. split; [exact D|]. rewrite <- IZR_Zpower by lia. change (radix2 ^ (- e))%Z with (2 ^ (- e))%Z.
    rewrite mult_IZR. field. lra.
Qed.
Lemma log2_bounds n : (0 < n)%Z -> bpow radix2 (Z.log2 n) <= IZR n < bpow radix2 (Z.log2 n + 1).
Proof.
  intros N. pose proof (Z.log2_spec n N) as (L & U). pose proof (Z.log2_nonneg n). rewrite <- !IZR_Zpower by lia. split; [apply IZR_le, L|apply IZR_lt, U].
Qed.
Lemma round_positive_mag n d : (0 < n)%Z -> (0 < d)%Z -> let e0 := (Z.log2 n - Z.log2 d - 53)%Z in
  let e1 := let (a, b) := (if (0 <=? e0)%Z then (n, d * 2 ^ e0)%Z else (n * 2 ^ (- e0), d)%Z) in if (b * 2 ^ 53 <=? a)%Z then (e0 + 1)%Z else e0 in
  bpow radix2 (e1 + 52) <= IZR n / IZR d < bpow radix2 (e1 + 53).
Proof.
  intros N D e0. pose proof (scaled_ratio n d e0 N D) as S. destruct (if (0 <=? e0)%Z then (n, d * 2 ^ e0)%Z else (n * 2 ^ (- e0), d)%Z) as [a b]. destruct S as (A & B & E). intros e1.
  assert (D' : 0 < IZR d) by (apply IZR_lt, D). assert (B' : 0 < IZR b) by (apply IZR_lt, B).
  destruct (log2_bounds n N) as (Ln & Un). destruct (log2_bounds d D) as (Ld & Ud).
  assert (Lo : bpow radix2 (e0 + 52) <= IZR n / IZR d).
  { apply Rmult_le_reg_r with (IZR d); [exact D'|]. replace (IZR n / IZR d * IZR d) with (IZR n) by (field; lra). apply Rle_trans with (bpow radix2 (e0 + 52) * bpow radix2 (Z.log2 d + 1)).
    - apply Rmult_le_compat_l; [apply bpow_ge_0|lra].
    - rewrite <- bpow_plus. replace (e0 + 52 + (Z.log2 d + 1))%Z with (Z.log2 n) by (unfold e0; lia). exact Ln. }
  assert (Hi : IZR n / IZR d < bpow radix2 (e0 + 54)).
  { apply Rmult_lt_reg_r with (IZR d); [exact D'|]. replace (IZR n / IZR d * IZR d) with (IZR n) by (field; lra). apply Rlt_le_trans with (bpow radix2 (e0 + 54) * bpow radix2 (Z.log2 d)).
    - rewrite <- bpow_plus. replace (e0 + 54 + Z.log2 d)%Z with (Z.log2 n + 1)%Z by (unfold e0; lia). exact Un.
    - apply Rmult_le_compat_l; [apply bpow_ge_0|exact Ld]. }
  assert (T : IZR n / IZR d = IZR a / IZR b * bpow radix2 e0) by (rewrite E, Rmult_assoc, <- bpow_plus; replace (- e0 + e0)%Z with 0%Z by lia; cbn; ring).
  assert (P53 : bpow radix2 53 = IZR (2 ^ 53)) by reflexivity.
  unfold e1. destruct (Z.leb_spec (b * 2 ^ 53) a) as [C|C].
  - replace (e0 + 1 + 52)%Z with (53 + e0)%Z by lia. replace (e0 + 1 + 53)%Z with (e0 + 54)%Z by lia. split; [|exact Hi]. rewrite T, bpow_plus, P53. apply Rmult_le_compat_r; [apply bpow_ge_0|].
    apply Rmult_le_reg_r with (IZR b); [exact B'|]. replace (IZR a / IZR b * IZR b) with (IZR a) by (field; lra). rewrite <- mult_IZR. apply IZR_le. lia.
  - split; [exact Lo|]. replace (e0 + 53)%Z with (53 + e0)%Z by lia. rewrite T, bpow_plus, P53. apply Rmult_lt_compat_r; [apply bpow_gt_0|].
    apply Rmult_lt_reg_r with (IZR b); [exact B'|]. replace (IZR a / IZR b * IZR b) with (IZR a) by (field; lra). rewrite <- mult_IZR. apply IZR_lt. lia.
Qed.
Lemma round_positive_ok n d m e : (0 < n)%Z -> (0 < d)%Z -> round_positive n d = (m, e) ->
  IZR m * bpow radix2 e = nearest_f64 (IZR n / IZR d) /\ (0 <= m <= 2 ^ 53)%Z /\ (-1074 <= e)%Z /\ ((-1074 < e)%Z -> (2 ^ 52 <= m)%Z).
Proof.
  intros N D. unfold round_positive. pose proof (round_positive_mag n d N D) as M. cbv zeta in M. cbv zeta.
  set (e0 := (Z.log2 n - Z.log2 d - 53)%Z) in *. set (e1 := let (a, b) := (if (0 <=? e0)%Z then (n, d * 2 ^ e0)%Z else (n * 2 ^ (- e0), d)%Z) in if (b * 2 ^ 53 <=? a)%Z then (e0 + 1)%Z else e0) in *.
  set (e' := Z.max e1 (-1074)). pose proof (scaled_ratio n d e' N D) as S. destruct (if (0 <=? e')%Z then (n, d * 2 ^ e')%Z else (n * 2 ^ (- e'), d)%Z) as [a b]. destruct S as (A & B & E).
  assert (B' : 0 < IZR b) by (apply IZR_lt, B).
  assert (X : 0 < IZR n / IZR d) by (pose proof (bpow_gt_0 radix2 (e1 + 52)); lra).
  assert (Mg : mag radix2 (IZR n / IZR d) = (e1 + 53)%Z :> Z).
  { apply mag_unique_pos. replace (e1 + 53 - 1)%Z with (e1 + 52)%Z by lia. exact M. }
  assert (Ce : cexp radix2 (FLT_exp (-1074) 53) (IZR n / IZR d) = e') by (unfold cexp; rewrite Mg; unfold FLT_exp, e'; lia).
  assert (Sm : scaled_mantissa radix2 (FLT_exp (-1074) 53) (IZR n / IZR d) = IZR a / IZR b) by (unfold scaled_mantissa; rewrite Ce; symmetry; exact E).
  assert (Fl : Zfloor (IZR a / IZR b) = (a / b)%Z) by (apply Zfloor_div; lia).
  assert (Rg : IZR a / IZR b < bpow radix2 53).
  { rewrite E. apply Rlt_le_trans with (bpow radix2 (e1 + 53) * bpow radix2 (- e')); [apply Rmult_lt_compat_r; [apply bpow_gt_0|apply M]|]. rewrite <- bpow_plus. apply bpow_le. lia. }
  assert (Q0 : (0 <= a / b)%Z) by (apply Z.div_pos; lia).
  assert (Q1 : (a / b < 2 ^ 53)%Z).
  { apply Z.div_lt_upper_bound; [exact B|]. apply lt_IZR. rewrite mult_IZR. change (IZR (2 ^ 53)) with (bpow radix2 53). apply Rmult_lt_reg_r with (/ IZR b); [apply Rinv_0_lt_compat, B'|].
    replace (IZR b * bpow radix2 53 * / IZR b) with (bpow radix2 53) by (field; lra). exact Rg. }
  assert (Q2 : (-1074 < e')%Z -> (2 ^ 52 <= a / b)%Z).
  { intros L. assert (e' = e1) by lia. apply Z.div_le_lower_bound; [exact B|]. apply le_IZR. rewrite mult_IZR. change (IZR (2 ^ 52)) with (bpow radix2 52). apply Rmult_le_reg_r with (/ IZR b); [apply Rinv_0_lt_compat, B'|].
    replace (IZR b * bpow radix2 52 * / IZR b) with (bpow radix2 52) by (field; lra). change (IZR a * / IZR b) with (IZR a / IZR b). rewrite E. replace 52%Z with (e1 + 52 + - e')%Z by lia. rewrite bpow_plus.
    apply Rmult_le_compat_r; [apply bpow_ge_0|apply M]. }
  assert (Up : IZR (a / b) <> IZR a / IZR b -> Zceil (IZR a / IZR b) = (a / b + 1)%Z) by (intros H; rewrite Zceil_floor_neq; rewrite Fl; [reflexivity|exact H]).
  assert (Nz : forall k : Z, (0 < 2 * (a - a / b * b))%Z -> IZR (a / b) <> IZR a / IZR b).
  { intros _ P H. assert (H' : IZR (a / b) * IZR b = IZR a) by (rewrite H; field; lra). rewrite <- mult_IZR in H'. apply eq_IZR in H'. lia. }
  assert (G : forall q, q = ZnearestE (IZR a / IZR b) -> IZR q * bpow radix2 e' = nearest_f64 (IZR n / IZR d)).
  { intros q ->. unfold nearest_f64, round, F2R. rewrite Sm, Ce. reflexivity. }
  unfold ZnearestE, Znearest in G. rewrite Fl, Rcompare_half in G by exact B.
  destruct (2 * (a - a / b * b) ?= b)%Z eqn:C; intros H.
  - apply Z.compare_eq in C. assert (NE := Up (Nz 0%Z ltac:(lia))). rewrite NE in G. rewrite <- (G m).
    + injection H as H1 <-. split; [reflexivity|]. destruct (Z.even (a / b)); subst m; split; try lia; split; try lia; intros L; specialize (Q2 L); lia.
    + injection H as <- _. destruct (Z.even (a / b)); reflexivity.
  - injection H as <- <-. split; [apply G; reflexivity|]. split; [lia|]. split; [lia|]. intros L. specialize (Q2 L). lia.
  - apply Z.compare_gt_iff in C. assert (NE := Up (Nz 0%Z ltac:(lia))). rewrite NE in G. injection H as <- <-. split; [apply G; reflexivity|]. split; [lia|]. split; [lia|]. intros L. specialize (Q2 L). lia.
Qed.

(** ** Reading digits *)
Lemma digits_fold ds acc : fold_left (fun a d => 10 * a + Z.of_N d)%Z ds acc = (acc * 10 ^ Z.of_nat (length ds) + digits_value ds)%Z.
Proof.
  unfold digits_value. revert acc. induction ds as [|d ds IH]; intros acc; [cbn; lia|]. cbn [fold_left length]. rewrite (IH (10 * acc + Z.of_N d)%Z), (IH (10 * 0 + Z.of_N d)%Z).
  rewrite Nat2Z.inj_succ, Z.pow_succ_r by lia. lia.
Qed.
Lemma digits_value_pos ds : (0 <= digits_value ds)%Z.
Proof.
  induction ds as [|d ds IH] using rev_ind; [cbn; lia|]. unfold digits_value in *. rewrite fold_left_app. cbn [fold_left]. lia.
Qed.
Lemma decimal_digits_after ds acc scale seen s : Forall (fun d => (d < 10)%N) ds -> chars s = digit_chars ds -> seen = true \/ ds <> [] ->
  decimal_digits acc scale true seen s = Some (fold_left (fun a d => 10 * a + Z.of_N d)%Z ds acc, (scale + N.of_nat (length ds))%N).
Proof.
  revert acc scale seen s. induction ds as [|d ds IH]; intros acc scale seen s B E S.
  - destruct s; [|discriminate]. cbn. destruct S as [-> | []]; [|reflexivity]. rewrite N.add_0_r. reflexivity.
  - destruct s as [|c s]; [discriminate|]. cbn in E. injection E as -> E. inversion B; subst. cbn [decimal_digits]. rewrite (proj2 (digit_spec _ d)) by (split; [assumption|reflexivity]).
    rewrite (IH _ _ true s) by (try assumption; left; reflexivity). cbn [fold_left length]. f_equal. f_equal. lia.
Qed.
Lemma decimal_digits_ok a b acc seen s : Forall (fun d => (d < 10)%N) (a ++ b) -> seen = true \/ a ++ b <> [] ->
  (chars s = digit_chars a ++ "."%char :: digit_chars b \/ b = [] /\ chars s = digit_chars a) ->
  decimal_digits acc 0 false seen s = Some (fold_left (fun a d => 10 * a + Z.of_N d)%Z (a ++ b) acc, N.of_nat (length b)).
Proof.
  revert acc seen s. induction a as [|d a IH]; intros acc seen s B S E.
  - destruct E as [E|(-> & E)].
    + destruct s as [|c s]; [discriminate|]. cbn in E. injection E as -> E. cbn [decimal_digits]. change (digit ".") with (@None N). cbn [Ascii.eqb negb andb].
      change (Ascii.eqb "." ".") with true. cbn [andb]. cbn [app] in *. rewrite (decimal_digits_after b) by assumption. rewrite N.add_0_l. reflexivity.
    + destruct s; [|discriminate]. cbn. destruct S as [-> | []]; reflexivity.
  - destruct s as [|c s]; [destruct E as [E|(_ & E)]; discriminate|].
    assert (E' : c = ascii_of_N (48 + d) /\ (chars s = digit_chars a ++ "."%char :: digit_chars b \/ b = [] /\ chars s = digit_chars a)).
    { destruct E as [E|(Eb & E)]; cbn in E; injection E as E1 E2; split; auto. }
    destruct E' as (-> & E'). cbn [app] in B. inversion B; subst. cbn [decimal_digits]. rewrite (proj2 (digit_spec _ d)) by (split; [assumption|reflexivity]).
    rewrite (IH _ true s) by (try assumption; left; reflexivity). reflexivity.
Qed.
Lemma no_sign_digit c ds l : Forall (fun d => (d < 10)%N) ds -> ds <> [] -> digit_chars ds = c :: l -> c <> "+"%char /\ c <> "-"%char.
Proof.
  intros B N E. destruct ds as [|d ds]; [destruct N; reflexivity|]. cbn in E. injection E as E _. pose proof (Forall_inv B) as Bd. cbv beta in Bd.
  assert (A : digit c = Some d) by (apply digit_spec; split; [assumption|symmetry; exact E]). split; intros ->; discriminate A.
Qed.
Lemma decimal_other s : (forall r, s <> String "+" r /\ s <> String "-" r) -> decimal s = decimal_digits 0 0 false false s.
Proof.
  intros H. destruct s as [|c s]; [reflexivity|]. unfold decimal. destruct (H s) as (P & M). destruct c as [[] [] [] [] [] [] [] []]; try reflexivity; [destruct P|destruct M]; reflexivity.
Qed.
Lemma decimal_ok s x : plain_decimal s x -> exists n k, decimal s = Some (n, k) /\ x = IZR n / IZR (10 ^ Z.of_N k).
Proof.
  intros (sign & a & b & B & N & E & X). assert (P : forall k, 10 ^ k = IZR (10 ^ Z.of_N (N.of_nat k))) by (intros k; rewrite nat_N_Z, <- pow_IZR; reflexivity).
  destruct X as [(Sg & X)|(-> & X)].
  - exists (digits_value (a ++ b)), (N.of_nat (length b)). rewrite <- P. split; [|exact X]. destruct Sg as [<-|[<-|[]]].
    + rewrite decimal_other; [apply decimal_digits_ok; [exact B|right; exact N|exact E]|]. cbn [app] in E. intros r.
      assert (H : forall c, (c = "+" \/ c = "-")%char -> s <> String c r).
      { intros c Hc ->. cbn [chars] in E. destruct a as [|d a].
        - cbn [app digit_chars map] in *. destruct E as [E|(-> & E)]; [|destruct N; reflexivity]. injection E as -> _. destruct Hc; discriminate.
        - assert (Ba : Forall (fun d => (d < 10)%N) (d :: a)) by (apply Forall_app in B; apply B).
          assert (H : exists l, digit_chars (d :: a) = c :: l) by (destruct E as [E|(_ & E)]; cbn in E; injection E as -> _; eexists; reflexivity).
          destruct H as (l & H). destruct (no_sign_digit c (d :: a) l Ba ltac:(discriminate) H) as (P1 & P2). destruct Hc; contradiction. }
      split; apply H; [left|right]; reflexivity.
    + destruct s as [|c s]; [destruct E as [E|(_ & E)]; discriminate|]. assert (E' : c = "+"%char /\ (chars s = digit_chars a ++ "."%char :: digit_chars b \/ b = [] /\ chars s = digit_chars a)).
      { destruct E as [E|(Eb & E)]; cbn in E; injection E as E1 E2; split; auto. }
      destruct E' as (-> & E'). exact (decimal_digits_ok a b 0 false s B (or_intror N) E').
  - exists (- digits_value (a ++ b))%Z, (N.of_nat (length b)). rewrite <- P. split; [|rewrite X, opp_IZR; unfold Rdiv; ring].
    destruct s as [|c s]; [destruct E as [E|(_ & E)]; discriminate|]. assert (E' : c = "-"%char /\ (chars s = digit_chars a ++ "."%char :: digit_chars b \/ b = [] /\ chars s = digit_chars a)).
    { destruct E as [E|(Eb & E)]; cbn in E; injection E as E1 E2; split; auto. }
    destruct E' as (-> & E'). unfold decimal. rewrite (decimal_digits_ok a b 0 false s B (or_intror N) E'). reflexivity.
Qed.

(** C83. A plain decimal is read as the nearest double, ties to even, and rejected exactly if that rounds to 2^1024 or more. *)
Theorem C83_decimal s x : plain_decimal s x ->
  (forall m e, decimal_f64 s = Some (m, e) -> IZR m * bpow radix2 e = nearest_f64 x) /\ (decimal_f64 s = None <-> bpow radix2 1024 <= Rabs (nearest_f64 x)).
Proof.
  intros P. destruct (decimal_ok s x P) as (n & k & E & ->). unfold decimal_f64. rewrite E. assert (D : (0 < 10 ^ Z.of_N k)%Z) by (apply Z.pow_pos_nonneg; lia).
  destruct (Z.eqb_spec n 0) as [->|N].
  - assert (Z0 : nearest_f64 (0 / IZR (10 ^ Z.of_N k)) = 0) by (unfold Rdiv; rewrite Rmult_0_l; apply round_0; apply valid_rnd_N). rewrite Z0. split.
    + intros m e [= <- <-]. cbn. ring.
    + split; [discriminate|]. rewrite Rabs_R0. intros H. pose proof (bpow_gt_0 radix2 1024). lra.
  - destruct (round_positive (Z.abs n) (10 ^ Z.of_N k)) as [m e] eqn:R. destruct (round_positive_ok (Z.abs n) (10 ^ Z.of_N k) m e ltac:(lia) D R) as (V & Mb & Eb & Mn).
    assert (V' : IZR (Z.sgn n * m) * bpow radix2 e = nearest_f64 (IZR n / IZR (10 ^ Z.of_N k))).
    { rewrite mult_IZR, Rmult_assoc, V. destruct (Z.lt_total n 0) as [L|[L|L]]; [|lia|].
      - rewrite Z.sgn_neg, Z.abs_neq by lia. unfold nearest_f64. rewrite opp_IZR. replace (- IZR n / IZR (10 ^ Z.of_N k)) with (- (IZR n / IZR (10 ^ Z.of_N k))) by (unfold Rdiv; ring). rewrite round_NE_opp. ring.
      - rewrite Z.sgn_pos, Z.abs_eq by lia. ring. }
    rewrite <- V'. assert (A : Rabs (IZR (Z.sgn n * m) * bpow radix2 e) = IZR m * bpow radix2 e).
    { rewrite mult_IZR, !Rabs_mult, (Rabs_pos_eq (bpow radix2 e)) by apply bpow_ge_0. rewrite (Rabs_pos_eq (IZR m)) by (apply IZR_le; lia). rewrite <- abs_IZR.
      replace (Z.abs (Z.sgn n)) with 1%Z by (destruct n; try reflexivity; lia). ring. }
    rewrite A. assert (M0 : IZR (2 ^ 53) = bpow radix2 53) by reflexivity. assert (M1 : IZR (2 ^ 52) = bpow radix2 52) by reflexivity. assert (Mp : 0 <= IZR m) by (apply IZR_le; lia).
    destruct (Z.ltb_spec e 971) as [L|L]; cbn [orb].
    + split; [intros m' e' [= <- <-]; reflexivity|]. split; [discriminate|]. intros H. exfalso. assert (H' : IZR m * bpow radix2 e <= bpow radix2 53 * bpow radix2 970).
      { apply Rmult_le_compat; [exact Mp|apply bpow_ge_0|rewrite <- M0; apply IZR_le; lia|apply bpow_le; lia]. }
      rewrite <- bpow_plus in H'. pose proof (bpow_lt radix2 (53 + 970) 1024 ltac:(lia)). lra.
    + destruct (Z.eqb_spec e 971) as [->|Ne]; cbn [andb].
      * destruct (Z.ltb_spec m (2 ^ 53)) as [L'|L'].
        -- split; [intros m' e' [= <- <-]; reflexivity|]. split; [discriminate|]. intros H. exfalso. assert (H' : IZR m * bpow radix2 971 < bpow radix2 53 * bpow radix2 971).
           { apply Rmult_lt_compat_r; [apply bpow_gt_0|]. rewrite <- M0. apply IZR_lt, L'. }
           rewrite <- bpow_plus in H'. change (53 + 971)%Z with 1024%Z in H'. lra.
        -- split; [discriminate|]. split; [intros _|reflexivity]. replace 1024%Z with (53 + 971)%Z by reflexivity. rewrite bpow_plus, <- M0. apply Rmult_le_compat_r; [apply bpow_ge_0|apply IZR_le, L'].
      * split; [discriminate|]. split; [intros _|reflexivity]. apply Rle_trans with (bpow radix2 52 * bpow radix2 e).
        -- rewrite <- bpow_plus. apply bpow_le. lia.
        -- apply Rmult_le_compat_r; [apply bpow_ge_0|]. rewrite <- M1. apply IZR_le, Mn. lia.
Qed.
Print Assumptions C83_decimal.
(** minus two thirds, to 20 digits *)
Example C83_decimal_example : plain_decimal "-0.66666666666666666667" (- (66666666666666666667 / 10 ^ 20)) /\ decimal_f64 "-0.66666666666666666667" = Some (-6004799503160661, -53)%Z.
Proof.
  split; [|reflexivity]. exists ["-"%char], [0%N], (repeat 6%N 19 ++ [7%N]). split; [repeat constructor; reflexivity|]. split; [discriminate|]. split; [left; reflexivity|].
  right. split; reflexivity.
Qed.

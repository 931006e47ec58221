(** Legendre polynomials have as many zeros as their degree says, all of them between -1 and 1. *)
From Coq Require Import Reals List Arith Lia Lra FinFun.
From Coquelicot Require Import Coquelicot.
From Verif Require Import ElementModel QuadratureModel QuadPoly LegendreProofs.
Import ListNotations.
Local Open Scope R_scope.

Local Notation L := legendre_value.

Fixpoint roots_product (z : nat -> R) (n : nat) (x : R) : R := match n with O => 1 | S n => roots_product z n x * (x - z n) end.

Lemma roots_product_zero z n i : (i < n)%nat -> roots_product z n (z i) = 0.
Proof. intros I. induction n as [|n IH]; [lia|]. cbn. destruct (Nat.eq_dec i n) as [->|Ne]; [ring|]. rewrite IH by lia. ring. Qed.

Lemma roots_product_Pol z n : exists g, Pol n g /\ forall x, roots_product z n x = x ^ n + g x.
Proof.
  induction n as [|n (g & G & E)]; [exists (fun _ => 0); split; [apply Pol_zero|intros; cbn; ring]|].
  exists (fun x => (x * g x - z n * x ^ n) - z n * g x). split.
  - apply Pol_sub; [apply Pol_sub; [apply Pol_mulx, G|apply Pol_scale, Pol_monomial]|apply Pol_scale; apply (Pol_le n); [lia|exact G]].
  - intros x. cbn. rewrite E. ring.
Qed.

Lemma roots_product_sign z n x i : (i <= n)%nat -> (forall j, (j < i)%nat -> z j < x) -> (forall j, (i <= j < n)%nat -> x < z j) -> 0 < (-1) ^ (n - i) * roots_product z n x.
Proof.
  revert i. induction n as [|n IH]; intros i I B A.
  - replace i with 0%nat by lia. cbn. lra.
  - destruct (Nat.eq_dec i (S n)) as [->|Ne].
    + rewrite Nat.sub_diag. cbn [pow roots_product]. rewrite Rmult_1_l.
      specialize (IH n (Nat.le_refl n)). rewrite Nat.sub_diag in IH. cbn [pow] in IH. rewrite Rmult_1_l in IH.
      apply Rmult_lt_0_compat; [apply IH; [intros j J; apply B; lia|intros j J; lia]|]. specialize (B n (Nat.lt_succ_diag_r n)). lra.
    + replace (S n - i)%nat with (S (n - i)) by lia. cbn [pow roots_product].
      assert (0 < (-1) ^ (n - i) * roots_product z n x) by (apply IH; [lia|exact B|intros j J; apply A; lia]).
      assert (x < z n) by (apply A; lia). nra.
Qed.

Lemma increasing_lt (z : nat -> R) n : (forall i, (S i < n)%nat -> z i < z (S i)) -> forall i j, (i < j < n)%nat -> z i < z j.
Proof.
  intros I i j. induction j as [|j IH]; intros H; [lia|]. destruct (Nat.eq_dec i j) as [->|Ne]; [apply I; lia|].
  apply Rlt_trans with (z j); [apply IH; lia|apply I; lia].
Qed.

Lemma finite_choice (P : nat -> R -> Prop) n : (forall i, (i < n)%nat -> exists x, P i x) -> exists f, forall i, (i < n)%nat -> P i (f i).
Proof.
  induction n as [|n IH]; intros H; [exists (fun _ => 0); intros; lia|].
  destruct IH as (f & F); [intros; apply H; lia|]. destruct (H n (Nat.lt_succ_diag_r n)) as (x & X).
  exists (fun i => if Nat.eq_dec i n then x else f i). intros i I. destruct (Nat.eq_dec i n) as [->|Ne]; [exact X|apply F; lia].
Qed.

Lemma L_continuity n : continuity (L n).
Proof. intros x. apply derivable_continuous_pt. exists (D n x). apply is_derive_Reals, D_spec. Qed.

(** increasing zeros inside the interval *)
Definition zeros (n : nat) (z : nat -> R) : Prop :=
  (forall i, (i < n)%nat -> -1 < z i < 1 /\ L n (z i) = 0) /\ (forall i, (S i < n)%nat -> z i < z (S i)).

Lemma NoDup_map_inj (z : nat -> R) n : (forall i j, (i < j < n)%nat -> z i < z j) -> NoDup (map z (seq 0 n)).
Proof.
  intros I. assert (G : forall k a, (a + k <= n)%nat -> NoDup (map z (seq a k))).
  { induction k as [|k IH]; intros a A; cbn; [constructor|]. constructor; [|apply IH; lia]. intros H. apply in_map_iff in H.
    destruct H as (j & E & J). apply in_seq in J. assert (z a < z j) by (apply I; lia). lra. }
  apply G. lia.
Qed.

Lemma zeros_product n z : zeros n z -> exists k, 0 < k /\ forall x, L n x = k * roots_product z n x.
Proof.
  intros [Z I]. destruct (L_lead n) as (k & g & K & G & E). destruct (roots_product_Pol z n) as (h & H & F). exists k. split; [exact K|]. intros x.
  pose proof (Pol_roots n (fun x => g x - k * h x) (map z (seq 0 n)) (Pol_sub _ _ _ G (Pol_scale _ _ _ H)) (NoDup_map_inj z n (increasing_lt z n I))) as P.
  rewrite map_length, seq_length in P. specialize (P (Nat.le_refl n)).
  assert (Q : g x - k * h x = 0).
  { apply P. intros y Y. apply in_map_iff in Y. destruct Y as (i & <- & Hi). apply in_seq in Hi.
    pose proof (E (z i)) as Ei. pose proof (F (z i)) as Fi. rewrite (proj2 (Z i ltac:(lia))) in Ei. rewrite (roots_product_zero z n i) in Fi by lia.
    assert (h (z i) = - z i ^ n) by lra. rewrite H0. lra. }
  rewrite E, F. lra.
Qed.

Lemma interlacing_step n z : zeros (S n) z -> (forall i, (i < S n)%nat -> 0 < (-1) ^ (n - i) * L n (z i)) ->
  exists w, zeros (S (S n)) w /\ (forall i, (i < S (S n))%nat -> 0 < (-1) ^ (S n - i) * L (S n) (w i)).
Proof.
  intros [Z I] Sg.
  (* the bounds of the intervals *)
  pose (t := fun i => match i with O => -1 | S i => if Nat.eq_dec i (S n) then 1 else z i end).
  assert (T : forall i, (i < S (S (S n)))%nat -> 0 < (-1) ^ (S (S n) - i) * L (S (S n)) (t i)).
  { intros [|i] Hi; unfold t.
    - rewrite L_m1, Nat.sub_0_r, sign_sq. lra.
    - destruct (Nat.eq_dec i (S n)) as [->|Ne].
      + rewrite L_one, Nat.sub_diag. cbn. lra.
      + rewrite L_SS, (proj2 (Z i ltac:(lia))). pose proof (Sg i ltac:(lia)) as S'. pose proof (pos_INR n).
        replace (S (S n) - S i)%nat with (S (n - i)) by lia. cbn [pow].
        replace (-1 * (-1) ^ (n - i) * (((2 * INR n + 3) * z i * 0 - (INR n + 1) * L n (z i)) / (INR n + 2))) with ((INR n + 1) / (INR n + 2) * ((-1) ^ (n - i) * L n (z i))) by (field; lra).
        apply Rmult_lt_0_compat; [apply Rdiv_lt_0_compat; lra|exact S']. }
  assert (Tinc : forall i, (i < S (S n))%nat -> t i < t (S i)).
  { intros [|i] Hi; unfold t; cbn [Nat.add].
    - destruct (Nat.eq_dec 0 (S n)); [lia|]. apply (Z 0%nat). lia.
    - destruct (Nat.eq_dec i (S n)); [lia|]. destruct (Nat.eq_dec (S i) (S n)) as [E|Ne]; [apply (Z i); lia|apply I; lia]. }
  assert (Ex : forall i, (i < S (S n))%nat -> exists x, t i < x < t (S i) /\ L (S (S n)) x = 0).
  { intros i Hi. pose proof (T i ltac:(lia)) as Ti. pose proof (T (S i) ltac:(lia)) as Ts. pose proof (Tinc i Hi) as Lt.
    replace (S (S n) - i)%nat with (S (S (S n) - S i)) in Ti by lia. cbn [pow] in Ti. set (s := (-1) ^ (S (S n) - S i)) in *.
    assert (Sq : s * s = 1) by apply sign_sq.
    assert (Opp : L (S (S n)) (t i) * L (S (S n)) (t (S i)) < 0) by nra.
    destruct (IVT_cor (L (S (S n))) (t i) (t (S i)) (L_continuity _) (Rlt_le _ _ Lt) (Rlt_le _ _ Opp)) as (x & Hx & Zx).
    exists x. split; [|exact Zx]. destruct Hx as [[A|A] [B|B]]; [lra|subst x; rewrite Zx in Opp; lra|subst x; rewrite Zx in Opp; lra|lra]. }
  destruct (finite_choice (fun i x => t i < x < t (S i) /\ L (S (S n)) x = 0) (S (S n)) Ex) as (w & W). exists w.
  assert (Tb : forall i, (i < S (S n))%nat -> -1 <= t i /\ t (S i) <= 1).
  { intros i Hi. split.
    - destruct i as [|i]; [cbn; lra|]. unfold t. destruct (Nat.eq_dec i (S n)); [lia|]. destruct (Z i ltac:(lia)). lra.
    - unfold t. destruct (Nat.eq_dec i (S n)); [lra|]. destruct (Z i ltac:(lia)). lra. }
  split; [split|].
  - intros i Hi. destruct (W i Hi) as [Wi Zi]. destruct (Tb i Hi). split; [lra|exact Zi].
  - intros i Hi. destruct (W i ltac:(lia)), (W (S i) ltac:(lia)). lra.
  - intros i Hi. destruct (W i Hi) as [Wi _]. destruct (zeros_product (S n) z (conj Z I)) as (k & K & E). rewrite E.
    replace ((-1) ^ (S n - i) * (k * roots_product z (S n) (w i))) with (k * ((-1) ^ (S n - i) * roots_product z (S n) (w i))) by ring.
    apply Rmult_lt_0_compat; [exact K|]. pose proof (increasing_lt z (S n) I) as Inc. apply roots_product_sign; [lia| |].
    + intros j Hj. destruct i as [|i]; [lia|]. destruct Wi as [Wi _]. unfold t in Wi. destruct (Nat.eq_dec i (S n)); [lia|].
      destruct (Nat.eq_dec j i) as [->|Ne]; [exact Wi|]. apply Rlt_trans with (z i); [apply Inc; lia|exact Wi].
    + intros j Hj. destruct Wi as [_ Wi]. unfold t in Wi. destruct (Nat.eq_dec i (S n)); [lia|].
      destruct (Nat.eq_dec j i) as [->|Ne]; [exact Wi|]. apply Rlt_trans with (z i); [exact Wi|apply Inc; lia].
Qed.

Lemma zeros_exist n : exists z, zeros n z.
Proof.
  destruct n as [|n]; [exists (fun _ => 0); split; intros; lia|].
  enough (exists z, zeros (S n) z /\ (forall i, (i < S n)%nat -> 0 < (-1) ^ (n - i) * L n (z i))) as (z & Z & _) by (exists z; exact Z).
  induction n as [|n (z & Z & Sg)].
  - exists (fun _ => 0). split; [split|].
    + intros i Hi. rewrite L_1. lra.
    + intros; lia.
    + intros i Hi. replace i with 0%nat by lia. rewrite L_0. cbn. lra.
  - exact (interlacing_step n z Z Sg).
Qed.

Lemma L_nonzero n : ~ (forall x, L n x = 0).
Proof. intros H. specialize (H 1). rewrite L_one in H. lra. Qed.

(** at most [n] zeros *)
Lemma zeros_complete n z x : zeros n z -> L n x = 0 -> exists i, (i < n)%nat /\ x = z i.
Proof.
  intros Zz Zx. destruct (zeros_product n z Zz) as (k & K & E). rewrite E in Zx. apply Rmult_integral in Zx. destruct Zx as [?|Zx]; [lra|]. clear - Zx.
  induction n as [|n IH]; cbn in Zx; [lra|]. apply Rmult_integral in Zx. destruct Zx as [Zx|Zx].
  - destruct (IH Zx) as (i & Hi & Ei). exists i. split; [lia|exact Ei].
  - exists n. split; [lia|lra].
Qed.

(** the zeros of the larger half are not negative *)
Lemma zeros_upper n z i : zeros n z -> (i < (n + 1) / 2)%nat -> 0 <= z (n - 1 - i)%nat.
Proof.
  intros Zz Hi. assert (Two : (2 * i < n)%nat). { pose proof (Nat.mul_div_le (n + 1) 2 ltac:(lia)). lia. }
  destruct Zz as [Z I]. pose proof (increasing_lt z n I) as Inc. destruct (Rle_lt_dec 0 (z (n - 1 - i)%nat)) as [|Neg]; [assumption|exfalso].
  assert (Small : forall j, (j <= n - 1 - i)%nat -> z j < 0).
  { intros j J. destruct (Nat.eq_dec j (n - 1 - i)) as [->|Ne]; [exact Neg|]. apply Rlt_trans with (z (n - 1 - i)%nat); [apply Inc; lia|exact Neg]. }
  pose (l := map z (seq 0 (n - i))). pose (xs := l ++ map Ropp l).
  assert (Nl : NoDup l) by (apply NoDup_map_inj; intros a b Hab; apply Inc; lia).
  assert (Neg' : forall x, In x l -> x < 0 /\ L n x = 0).
  { intros x Hx. apply in_map_iff in Hx. destruct Hx as (j & <- & Hj). apply in_seq in Hj. split; [apply Small; lia|apply Z; lia]. }
  apply (L_nonzero n). apply (Pol_roots (S n) (L n) xs (L_Pol n)).
  - unfold xs. clear - Nl Neg'.
    assert (G : forall m, NoDup m -> (forall x, In x m -> 0 < x) -> forall k, NoDup k -> (forall x, In x k -> x < 0) -> NoDup (k ++ m)).
    { intros m Nm Pm k. induction k as [|a k IH]; intros Nk Pk; [exact Nm|]. cbn. inversion Nk; subst. constructor.
      - rewrite in_app_iff. intros [?|Hm]; [contradiction|]. pose proof (Pm a Hm). pose proof (Pk a (or_introl eq_refl)). lra.
      - apply IH; [assumption|]. intros x Hx. apply Pk. right. exact Hx. }
    apply G.
    + apply FinFun.Injective_map_NoDup; [|exact Nl]. intros a b E. lra.
    + intros x Hx. apply in_map_iff in Hx. destruct Hx as (y & <- & Hy). pose proof (proj1 (Neg' y Hy)). lra.
    + exact Nl.
    + intros x Hx. exact (proj1 (Neg' x Hx)).
  - unfold xs, l. rewrite app_length, !map_length, seq_length. lia.
  - intros x Hx. unfold xs in Hx. apply in_app_iff in Hx. destruct Hx as [Hx|Hx]; [exact (proj2 (Neg' x Hx))|].
    apply in_map_iff in Hx. destruct Hx as (y & <- & Hy). rewrite L_opp, (proj2 (Neg' y Hy)). ring.
Qed.

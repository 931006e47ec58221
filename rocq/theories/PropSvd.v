(** Property C97: decomposition with rotations and condition numbers. *)
From Coq Require Import List Reals Lia Lra.
From Verif Require Import SvdModel.
Import ListNotations.
Local Open Scope R_scope.

(** ** Specification *)
Definition orthogonal (n : nat) (a : matrix) : Prop :=
  forall i j, (i < n)%nat -> (j < n)%nat -> rsum n (fun k => a k i * a k j) = (if Nat.eqb i j then 1 else 0).
(** [a] is the product of [u], the diagonal matrix of [s], and [v_t]. *)
Definition factors (n : nat) (a u : matrix) (s : nat -> R) (v_t : matrix) : Prop :=
  forall i j, (i < n)%nat -> (j < n)%nat -> rsum n (fun k => u i k * s k * v_t k j) = a i j.
Definition transposed (a : matrix) : matrix := fun r c => a c r.

(** ** Signs of determinants *)
Lemma rsum_ext n f g : (forall i, (i < n)%nat -> f i = g i) -> rsum n f = rsum n g.
Proof. induction n as [|n IH]; intros H; cbn; [reflexivity|]. rewrite IH by (intros; apply H; lia). rewrite H by lia. reflexivity. Qed.
Lemma rsum_opp n f : rsum n (fun i => - f i) = - rsum n f.
Proof. induction n as [|n IH]; cbn; [ring|]. rewrite IH. ring. Qed.
Lemma determinant_ext n a b : (forall i j, (i < n)%nat -> (j < n)%nat -> a i j = b i j) -> determinant n a = determinant n b.
Proof.
  revert a b. induction n as [|n IH]; intros a b H; [reflexivity|]. cbn [determinant]. apply rsum_ext. intros j Hj. rewrite H by lia.
  rewrite (IH (minor a j) (minor b j)); [reflexivity|]. intros r c Hr Hc. unfold minor, skip. apply H; [lia|]. destruct (Nat.ltb c j); lia.
Qed.
Lemma determinant_row n k a : (k < n)%nat -> determinant n (negate_row k a) = - determinant n a.
Proof.
  revert k a. induction n as [|n IH]; intros k a Hk; [lia|]. cbn [determinant]. rewrite <- rsum_opp. apply rsum_ext. intros j Hj.
  destruct k as [|k].
  - unfold negate_row at 1. cbn [Nat.eqb]. rewrite (determinant_ext n (minor (negate_row 0 a) j) (minor a j)) by (intros; reflexivity). ring.
  - unfold negate_row at 1. cbn [Nat.eqb]. rewrite (determinant_ext n (minor (negate_row (S k) a) j) (negate_row k (minor a j))) by (intros; reflexivity).
    rewrite IH by lia. ring.
Qed.
Lemma determinant_column n k a : (k < n)%nat -> determinant n (negate_column k a) = - determinant n a.
Proof.
  revert k a. induction n as [|n IH]; intros k a Hk; [lia|]. cbn [determinant]. rewrite <- rsum_opp. apply rsum_ext. intros j Hj.
  unfold negate_column at 1. destruct (Nat.eqb_spec j k) as [->|Hne].
  - rewrite (determinant_ext n (minor (negate_column k a) k) (minor a k)); [ring|]. intros r c Hr Hc. unfold minor, negate_column, skip.
    destruct (Nat.ltb_spec c k); [destruct (Nat.eqb_spec c k); [lia|reflexivity]|destruct (Nat.eqb_spec (S c) k); [lia|reflexivity]].
  - destruct (Nat.lt_ge_cases k j) as [H|H].
    + rewrite (determinant_ext n (minor (negate_column k a) j) (negate_column k (minor a j))).
      * rewrite IH by lia. ring.
      * intros r c Hr Hc. unfold minor, negate_column, skip. destruct (Nat.ltb_spec c j); [reflexivity|].
        destruct (Nat.eqb_spec (S c) k), (Nat.eqb_spec c k); try lia; reflexivity.
    + rewrite (determinant_ext n (minor (negate_column k a) j) (negate_column (k - 1) (minor a j))).
      * rewrite IH by lia. ring.
      * intros r c Hr Hc. unfold minor, negate_column, skip. destruct (Nat.ltb_spec c j).
        -- destruct (Nat.eqb_spec c k), (Nat.eqb_spec c (k - 1)); try lia; reflexivity.
        -- destruct (Nat.eqb_spec (S c) k), (Nat.eqb_spec c (k - 1)); try lia; reflexivity.
Qed.

(** ** Orthogonality and product *)
Lemma orthogonal_column n k a : orthogonal n a -> orthogonal n (negate_column k a).
Proof.
  intros H i j Hi Hj. rewrite <- (H i j Hi Hj). unfold negate_column. destruct (Nat.eqb_spec i k) as [Ei|Ei], (Nat.eqb_spec j k) as [Ej|Ej].
  - apply rsum_ext. intros; ring.
  - transitivity (- rsum n (fun r => a r i * a r j)); [rewrite <- rsum_opp; apply rsum_ext; intros; ring|]. rewrite (H i j Hi Hj). destruct (Nat.eqb_spec i j); [lia|ring].
  - transitivity (- rsum n (fun r => a r i * a r j)); [rewrite <- rsum_opp; apply rsum_ext; intros; ring|]. rewrite (H i j Hi Hj). destruct (Nat.eqb_spec i j); [lia|ring].
  - reflexivity.
Qed.

Lemma imin_from_spec l : forall i best v, (best < i)%nat -> (forall x, In x l -> True) ->
  let b := imin_from l i best v in ((b = best /\ Forall (fun x => v <= x) l) \/ (exists p x, b = (i + p)%nat /\ nth_error l p = Some x /\ x < v /\ Forall (fun y => x <= y) l)).
Proof.
  induction l as [|x l IH]; intros i best v Hb _; cbn [imin_from]; [left; split; [reflexivity|constructor]|].
  destruct (Rlt_dec x v) as [H|H].
  - destruct (IH (S i) i x ltac:(lia) (fun _ _ => I)) as [(-> & Hf)|(p & y & -> & Hp & Hy & Hf)]; right.
    + exists 0%nat, x. repeat split; [lia|lra|]. constructor; [lra|exact Hf].
    + exists (S p), y. repeat split; [lia|exact Hp|lra|]. constructor; [lra|exact Hf].
  - destruct (IH (S i) best v ltac:(lia) (fun _ _ => I)) as [(-> & Hf)|(p & y & -> & Hp & Hy & Hf)].
    + left. split; [reflexivity|]. constructor; [lra|exact Hf].
    + right. exists (S p), y. repeat split; [lia|exact Hp|lra|]. constructor; [lra|exact Hf].
Qed.
Lemma imin_some s n : (0 < n)%nat -> exists k, imin (map s (seq 0 n)) = Some k /\ (k < n)%nat /\ forall i, (i < n)%nat -> s k <= s i.
Proof.
  intros Hn. destruct n as [|n]; [lia|]. cbn [seq map imin].
  destruct (imin_from_spec (map s (seq 1 n)) 1 0 (s 0%nat) ltac:(lia) (fun _ _ => I)) as [(Hb & Hf)|(p & x & Hb & Hp & Hx & Hf)]; eexists; (split; [reflexivity|]); rewrite Hb.
  - split; [lia|]. intros i Hi. destruct i as [|i]; [lra|]. rewrite Forall_forall in Hf. apply Hf, in_map, in_seq. lia.
  - assert (p < n)%nat as Hpn. { assert (nth_error (map s (seq 1 n)) p <> None) as H by congruence. apply nth_error_Some in H. rewrite map_length, seq_length in H. exact H. }
    assert (x = s (1 + p)%nat) as ->. { erewrite map_nth_error in Hp by (rewrite nth_error_nth' with (d := 0%nat); [rewrite seq_nth by exact Hpn; reflexivity|rewrite seq_length; exact Hpn]). congruence. }
    split; [lia|]. intros i Hi. destruct i as [|i]; [lra|]. rewrite Forall_forall in Hf. apply Hf, in_map, in_seq. lia.
Qed.

(** C97: for every dimension, the factors stay factors of the matrix and orthogonal, their determinants become their absolute values,
    and the diagonal changes at most in the sign of one smallest entry, namely if the determinants of the given factors have
    opposite signs. *)
Theorem C97_rotation_svd : forall n a u s v_t, (0 < n)%nat -> factors n a u s v_t -> orthogonal n u -> orthogonal n (transposed v_t) ->
  exists u' s' v_t', rotation_svd n u s v_t = Some (u', s', v_t') /\
    factors n a u' s' v_t' /\ orthogonal n u' /\ orthogonal n (transposed v_t') /\
    determinant n u' = Rabs (determinant n u) /\ determinant n v_t' = Rabs (determinant n v_t) /\
    (forall i, s' i * s' i = s i * s i) /\
    exists k, (k < n)%nat /\ (forall i, (i < n)%nat -> s k <= s i) /\ (forall i, i <> k -> s' i = s i) /\
      (determinant n u <> 0 -> determinant n v_t <> 0 -> s' k = if Rlt_dec (determinant n u * determinant n v_t) 0 then - s k else s k).
Proof.
  intros n a u s v_t Hn Hf Hu Hv. destruct (imin_some s n Hn) as (k & Hk & Hkn & Hmin). unfold rotation_svd. rewrite Hk.
  assert (Habs : forall x, ~ x < 0 -> Rabs x = x) by (intros x Hx; apply Rabs_right; lra).
  assert (Hneg : forall x, x < 0 -> Rabs x = - x) by (intros x Hx; apply Rabs_left; lra).
  assert (Hfc : forall u0 s0 w0, factors n a u0 s0 w0 -> factors n a (negate_column k u0) (negate_entry k s0) w0).
  { intros u0 s0 w0 H i j Hi Hj. rewrite <- (H i j Hi Hj). apply rsum_ext. intros c Hc. unfold negate_column, negate_entry. destruct (Nat.eqb c k); ring. }
  assert (Hfr : forall u0 s0 w0, factors n a u0 s0 w0 -> factors n a u0 (negate_entry k s0) (negate_row k w0)).
  { intros u0 s0 w0 H i j Hi Hj. rewrite <- (H i j Hi Hj). apply rsum_ext. intros c Hc. unfold negate_row, negate_entry. destruct (Nat.eqb c k); ring. }
  assert (Hor : orthogonal n (transposed (negate_row k v_t))) by (apply (orthogonal_column n k _ Hv)).
  assert (Hsq : forall s0 i, negate_entry k s0 i * negate_entry k s0 i = s0 i * s0 i) by (intros s0 i; unfold negate_entry; destruct (Nat.eqb i k); ring).
  assert (Hoff : forall s0 i, i <> k -> negate_entry k s0 i = s0 i) by (intros s0 i Hi; unfold negate_entry; destruct (Nat.eqb_spec i k); [lia|reflexivity]).
  assert (Hon : forall s0, negate_entry k s0 k = - s0 k) by (intros s0; unfold negate_entry; rewrite Nat.eqb_refl; ring).
  destruct (Rlt_dec (determinant n u) 0) as [Du|Du], (Rlt_dec (determinant n v_t) 0) as [Dv|Dv]; do 3 eexists; (split; [reflexivity|]).
  - split; [auto|]. split; [apply orthogonal_column, Hu|]. split; [exact Hor|]. split; [rewrite determinant_column, Hneg by assumption; reflexivity|].
    split; [rewrite determinant_row, Hneg by assumption; reflexivity|]. split; [intros i; rewrite !Hsq; reflexivity|]. exists k. split; [exact Hkn|]. split; [exact Hmin|].
    split; [intros i Hi; rewrite !Hoff by exact Hi; reflexivity|]. intros _ _. rewrite !Hon. destruct (Rlt_dec _ 0); [nra|ring].
  - split; [auto|]. split; [apply orthogonal_column, Hu|]. split; [exact Hv|]. split; [rewrite determinant_column, Hneg by assumption; reflexivity|].
    split; [rewrite Habs by assumption; reflexivity|]. split; [intros i; rewrite !Hsq; reflexivity|]. exists k. split; [exact Hkn|]. split; [exact Hmin|].
    split; [intros i Hi; rewrite !Hoff by exact Hi; reflexivity|]. intros _ Hz. rewrite !Hon. destruct (Rlt_dec _ 0); [ring|exfalso; nra].
  - split; [auto|]. split; [exact Hu|]. split; [exact Hor|]. split; [rewrite Habs by assumption; reflexivity|].
    split; [rewrite determinant_row, Hneg by assumption; reflexivity|]. split; [intros i; rewrite !Hsq; reflexivity|]. exists k. split; [exact Hkn|]. split; [exact Hmin|].
    split; [intros i Hi; rewrite !Hoff by exact Hi; reflexivity|]. intros Hz _. rewrite !Hon. destruct (Rlt_dec _ 0); [ring|exfalso; nra].
  - split; [auto|]. split; [exact Hu|]. split; [exact Hv|]. split; [rewrite Habs by assumption; reflexivity|].
    split; [rewrite Habs by assumption; reflexivity|]. split; [reflexivity|]. exists k. split; [exact Hkn|]. split; [exact Hmin|].
    split; [reflexivity|]. intros _ _. destruct (Rlt_dec _ 0); [exfalso; nra|reflexivity].
Qed.
Print Assumptions C97_rotation_svd.

Lemma orthogonal_det n a : (n <= 3)%nat -> orthogonal n a -> Rabs (determinant n a) = 1.
Proof.
  intros Hn Ho. assert (determinant n a * determinant n a = 1) as Hd.
  { destruct n as [|[|[|[|n]]]]; [cbn; ring| | | |lia].
    - pose proof (Ho 0%nat 0%nat ltac:(lia) ltac:(lia)) as H. cbn in H |- *. unfold minor. lra.
    - pose proof (Ho 0%nat 0%nat ltac:(lia) ltac:(lia)) as H00. pose proof (Ho 0%nat 1%nat ltac:(lia) ltac:(lia)) as H01. pose proof (Ho 1%nat 1%nat ltac:(lia) ltac:(lia)) as H11.
      cbn in H00, H01, H11. unfold determinant, minor, skip. cbn.
      match type of H00 with ?x = 1 => match type of H01 with ?y = 0 => match type of H11 with ?z = 1 => transitivity (x * z - y * y); [ring|rewrite H00, H01, H11; ring] end end end.
    - pose proof (Ho 0%nat 0%nat ltac:(lia) ltac:(lia)) as H00. pose proof (Ho 0%nat 1%nat ltac:(lia) ltac:(lia)) as H01. pose proof (Ho 1%nat 1%nat ltac:(lia) ltac:(lia)) as H11.
      pose proof (Ho 0%nat 2%nat ltac:(lia) ltac:(lia)) as H02. pose proof (Ho 1%nat 2%nat ltac:(lia) ltac:(lia)) as H12. pose proof (Ho 2%nat 2%nat ltac:(lia) ltac:(lia)) as H22.
      cbn in H00, H01, H11, H02, H12, H22. unfold determinant, minor, skip. cbn.
      match type of H00 with ?x = 1 => match type of H01 with ?y = 0 => match type of H11 with ?z = 1 =>
      match type of H02 with ?p = 0 => match type of H12 with ?q = 0 => match type of H22 with ?r = 1 =>
        transitivity (x * (z * r - q * q) - y * (y * r - q * p) + p * (y * q - z * p)); [ring|rewrite H00, H01, H11, H02, H12, H22; ring] end end end end end end. }
  destruct (Rle_dec 0 (determinant n a)); [rewrite Rabs_right by lra|rewrite Rabs_left by lra]; nra.
Qed.

Lemma transposed_det n a : (n <= 3)%nat -> determinant n (transposed a) = determinant n a.
Proof. intros Hn. destruct n as [|[|[|[|n]]]]; [reflexivity| | | |lia]; unfold determinant, minor, skip, transposed; cbn; ring. Qed.

(** C97: in one, two and three dimensions the factors become rotations. An empty matrix panics. *)
Theorem C97_rotations : (forall n a u s v_t, (0 < n <= 3)%nat -> factors n a u s v_t -> orthogonal n u -> orthogonal n (transposed v_t) ->
  exists u' s' v_t', rotation_svd n u s v_t = Some (u', s', v_t') /\ factors n a u' s' v_t' /\
    orthogonal n u' /\ determinant n u' = 1 /\ orthogonal n (transposed v_t') /\ determinant n v_t' = 1) /\
  (forall u s v_t, rotation_svd 0 u s v_t = None).
Proof.
  split; [|reflexivity]. intros n a u s v_t Hn Hf Hu Hv.
  destruct (C97_rotation_svd n a u s v_t ltac:(lia) Hf Hu Hv) as (u' & s' & v' & H1 & H2 & H3 & H4 & H5 & H6 & _).
  exists u', s', v'. split; [exact H1|]. split; [exact H2|]. split; [exact H3|]. split; [rewrite H5; apply orthogonal_det; [lia|exact Hu]|]. split; [exact H4|].
  rewrite H6, <- transposed_det by lia. apply orthogonal_det; [lia|exact Hv].
Qed.
Print Assumptions C97_rotations.

(** C97: scaling the rows is the product with the diagonal matrix. *)
Theorem C97_diag_left_mul : forall n d a r c, (r < n)%nat ->
  diag_left_mul d a r c = rsum n (fun k => (if Nat.eqb r k then d r else 0) * a k c).
Proof.
  intros n d a r c Hr. unfold diag_left_mul. induction n as [|n IH]; [lia|]. cbn [rsum]. destruct (Nat.eqb_spec r n) as [->|Hne].
  - replace (rsum n _) with 0; [ring|]. symmetry. clear IH Hr.
    assert (forall m, (m <= n)%nat -> rsum m (fun k => (if Nat.eqb n k then d n else 0) * a k c) = 0) as H; [|apply H; lia].
    intros m. induction m as [|m IHm]; intros Hm; cbn [rsum]; [reflexivity|]. rewrite IHm by lia. destruct (Nat.eqb_spec n m); [lia|ring].
  - rewrite <- IH by lia. ring.
Qed.
Print Assumptions C97_diag_left_mul.

(** ** Eigenvalues *)
Lemma fold_min l : forall x, let m := fold_left (fun m y => if Rlt_dec y m then y else m) l x in (m = x \/ In m l) /\ m <= x /\ Forall (fun y => m <= y) l.
Proof.
  induction l as [|y l IH]; intros x; cbn; [split; [left; reflexivity|split; [lra|constructor]]|].
  destruct (Rlt_dec y x) as [H|H].
  - destruct (IH y) as (H1 & H2 & H3). split; [destruct H1 as [->|H1]; [right; left; reflexivity|right; right; exact H1]|]. split; [lra|]. constructor; [lra|exact H3].
  - destruct (IH x) as (H1 & H2 & H3). split; [destruct H1 as [->|H1]; [left; reflexivity|right; right; exact H1]|]. split; [lra|]. constructor; [lra|exact H3].
Qed.
Lemma fold_max l : forall x, let m := fold_left (fun m y => if Rlt_dec y m then m else y) l x in (m = x \/ In m l) /\ x <= m /\ Forall (fun y => y <= m) l.
Proof.
  induction l as [|y l IH]; intros x; cbn; [split; [left; reflexivity|split; [lra|constructor]]|].
  destruct (Rlt_dec y x) as [H|H].
  - destruct (IH x) as (H1 & H2 & H3). split; [destruct H1 as [->|H1]; [left; reflexivity|right; right; exact H1]|]. split; [lra|]. constructor; [lra|exact H3].
  - destruct (IH y) as (H1 & H2 & H3). split; [destruct H1 as [->|H1]; [right; left; reflexivity|right; right; exact H1]|]. split; [lra|]. constructor; [lra|exact H3].
Qed.

(** C97: the smallest and the largest eigenvalue are found; no eigenvalues (an empty matrix) panic. *)
Theorem C97_min_max : forall l,
  (l = [] -> min_eigenvalue l = None /\ min_max_eigenvalues l = None /\ condition_number l = None) /\
  (l <> [] -> exists a b, min_eigenvalue l = Some a /\ min_max_eigenvalues l = Some (a, b) /\ In a l /\ In b l /\ forall x, In x l -> a <= x <= b).
Proof.
  intros l. split; [intros ->; repeat split|]. intros Hne. destruct l as [|x l]; [congruence|].
  destruct (fold_min l x) as (H1 & H2 & H3). destruct (fold_max l x) as (G1 & G2 & G3).
  exists (fold_left (fun m y => if Rlt_dec y m then y else m) l x), (fold_left (fun m y => if Rlt_dec y m then m else y) l x).
  split; [reflexivity|]. split; [reflexivity|]. split; [destruct H1 as [->|H1]; [left; reflexivity|right; exact H1]|].
  split; [destruct G1 as [->|G1]; [left; reflexivity|right; exact G1]|]. rewrite Forall_forall in H3, G3. intros y [->|Hy]; [lra|]. split; [apply H3, Hy|apply G3, Hy].
Qed.
Print Assumptions C97_min_max.

(** The condition number in the Euclidean norm: greatest over least modulus of the eigenvalues. *)
Definition is_condition (l : list R) (c : R) : Prop :=
  exists a b, In a l /\ In b l /\ (forall x, In x l -> Rabs a <= Rabs x <= Rabs b) /\ c = Rabs b / Rabs a.

(** C97: the condition number is right for positive eigenvalues and inverted for negative ones; *)
Theorem C97_condition : forall l, l <> [] ->
  ((forall x, In x l -> 0 < x) -> exists c, condition_number l = Some c /\ is_condition l c) /\
  ((forall x, In x l -> x < 0) -> exists c, condition_number l = Some (/ c) /\ is_condition l c).
Proof.
  intros l Hne. destruct (proj2 (C97_min_max l) Hne) as (a & b & _ & Hmm & Ha & Hb & Hx). unfold condition_number. rewrite Hmm. split; intros Hs.
  - eexists. split; [reflexivity|]. exists a, b. split; [exact Ha|]. split; [exact Hb|]. split; [|reflexivity]. intros x Hin.
    pose proof (Hs a Ha). pose proof (Hs b Hb). pose proof (Hs x Hin). specialize (Hx x Hin). rewrite !Rabs_right by lra. lra.
  - exists (Rabs a / Rabs b). pose proof (Hs a Ha). pose proof (Hs b Hb). split; [f_equal; rewrite !Rabs_left by lra; field; lra|].
    exists b, a. split; [exact Hb|]. split; [exact Ha|]. split; [|reflexivity]. intros x Hin. pose proof (Hs x Hin). specialize (Hx x Hin). rewrite !Rabs_left by lra. lra.
Qed.
Print Assumptions C97_condition.

(** with eigenvalues of both signs it is wrong, and may be less than one, which no condition number is. *)
Theorem C97_condition_refuted : exists l c, l <> [] /\ (forall x, In x l -> x <> 0) /\ condition_number l = Some c /\ c < 1 /\
  (forall c', is_condition l c' -> 1 <= c') /\ exists c', is_condition l c' /\ c' = 2.
Proof.
  exists [-2; 1], (1 / 2). split; [discriminate|]. split; [intros x [<-|[<-|[]]]; lra|]. split.
  - unfold condition_number, min_max_eigenvalues, min_eigenvalue, max_eigenvalue. cbn. repeat (destruct (Rlt_dec _ _); try lra).
    f_equal. rewrite (Rabs_right 1), (Rabs_left (-2)) by lra. field.
  - split; [lra|]. split.
    + intros c' (a & b & Ha & Hb & Hx & ->). specialize (Hx b Hb). assert (0 < Rabs a) as Hp by (apply Rabs_pos_lt; destruct Ha as [<-|[<-|[]]]; lra).
      apply (Rmult_le_reg_r (Rabs a)); [exact Hp|]. unfold Rdiv. rewrite Rmult_assoc, Rinv_l by lra. lra.
    + eexists. split; [|reflexivity]. exists 1, (-2). split; [right; left; reflexivity|]. split; [left; reflexivity|].
      rewrite (Rabs_right 1), (Rabs_left (-2)) by lra. split; [|lra]. intros x [<-|[<-|[]]]; [rewrite Rabs_left by lra; lra|rewrite Rabs_right by lra; lra].
Qed.
Print Assumptions C97_condition_refuted.

(** ** Example: the reflection diag(3, -2) with factors diag(1, -1), (3, 2) and the identity *)
Definition ex_a : matrix := fun i j => nth j (nth i [[3; 0]; [0; -2]] []) 0.
Definition ex_u : matrix := fun i j => nth j (nth i [[1; 0]; [0; -1]] []) 0.
Definition ex_s : nat -> R := fun i => nth i [3; 2] 0.
Definition ex_v : matrix := fun i j => nth j (nth i [[1; 0]; [0; 1]] []) 0.
Example C97_example : factors 2 ex_a ex_u ex_s ex_v /\ orthogonal 2 ex_u /\ orthogonal 2 (transposed ex_v) /\
  (exists u' s' v', rotation_svd 2 ex_u ex_s ex_v = Some (u', s', v') /\ s' 0%nat = 3 /\ s' 1%nat = -2 /\ u' 1%nat 1%nat = 1) /\
  (forall x, In x [1; 2] -> 0 < x) /\ (forall x, In x [-1; -2] -> x < 0).
Proof.
  split; [intros [|[|i]] [|[|j]] Hi Hj; try lia; cbn; lra|]. split; [intros [|[|i]] [|[|j]] Hi Hj; try lia; cbn; lra|].
  split; [intros [|[|i]] [|[|j]] Hi Hj; try lia; unfold transposed; cbn; lra|]. split.
  - unfold rotation_svd, imin. cbn [seq map ex_s nth imin_from]. destruct (Rlt_dec 2 3) as [_|H]; [|exfalso; lra].
    assert (determinant 2 ex_u = -1) as -> by (unfold determinant, minor, skip, ex_u; cbn; ring).
    assert (determinant 2 ex_v = 1) as -> by (unfold determinant, minor, skip, ex_v; cbn; ring).
    destruct (Rlt_dec (-1) 0); [|exfalso; lra]. destruct (Rlt_dec 1 0); [exfalso; lra|]. do 3 eexists. split; [reflexivity|].
    unfold negate_entry, negate_column, ex_s, ex_u. cbn. repeat split; lra.
  - split; intros x [<-|[<-|[]]]; lra.
Qed.

(** C91: the tabulated Gauss-Lobatto rules. *)
From Coq Require Import Reals ZArith NArith List Arith Lia Lra Bool Sorting.Sorted Sorting.Permutation.
From Coquelicot Require Import Coquelicot.
From Verif Require Import ElementModel QuadratureModel QuadPoly RuleProofs GaussSharp LobattoModel LobattoCheck.
Import ListNotations.
Local Open Scope R_scope.

(** ** The check of the tables *)
Definition check_size (s : nat -> nat) (n : nat) : bool := match try_gauss_lobatto (N.of_nat n) with Some (Some r) => check_rule n (s n) r | _ => false end.
Lemma check_small : forallb (check_size (fun n => 2 * n - 3)%nat) (seq 2 31 ++ [64%nat]) = true.
Proof. vm_compute. reflexivity. Qed.
Lemma check_large : forallb (check_size (fun _ => 31%nat)) [128%nat; 256%nat; 512%nat] = true.
Proof. vm_compute. reflexivity. Qed.

(** ** Specification *)
(** the sizes for which there are rules *)
Definition available (n : N) : Prop := (2 <= n <= 32 \/ n = 64 \/ n = 128 \/ n = 256 \/ n = 512)%N.

(** ** C91 *)
Lemma codegen_available n r : codegen_gauss_lobatto n = Some r -> available n.
Proof.
  unfold available. intros H. destruct n as [|p]; [discriminate H|].
  do 10 (try (destruct p as [p|p|]; cbn in H; try discriminate H; try (clear H; lia))).
Qed.
Lemma available_nat n : available n -> (In (N.to_nat n) (seq 2 31 ++ [64%nat]) \/ In (N.to_nat n) [128%nat; 256%nat; 512%nat]).
Proof.
  intros H. destruct H as [H|[-> |[-> |[-> | ->]]]]; [|left; vm_compute; tauto|right; vm_compute; tauto..]. left. apply in_or_app. left. apply in_seq. lia.
Qed.
(** C91: there are rules for these sizes only, and no panic. *)
Theorem C91_available n : (available n -> exists r, try_gauss_lobatto n = Some (Some r)) /\ (~ available n -> try_gauss_lobatto n = Some None).
Proof.
  split.
  - intros A. assert (C : exists s, check_size s (N.to_nat n) = true).
    { pose proof check_small as S. pose proof check_large as L. rewrite forallb_forall in S, L. destruct (available_nat n A) as [I|I]; [eexists; exact (S _ I)|eexists; exact (L _ I)]. }
    destruct C as (s & C). unfold check_size in C. rewrite N2Nat.id in C. destruct (try_gauss_lobatto n) as [[r|]|]; [now exists r|discriminate|discriminate].
  - intros A. unfold try_gauss_lobatto. destruct (codegen_gauss_lobatto n) as [r|] eqn:E; [|reflexivity]. destruct (A (codegen_available n r E)).
Qed.
Print Assumptions C91_available.

(** C91: the rules have n points from -1 to 1 and positive weights; they integrate polynomials of degree 2 n - 3 (for the three largest rules: 31) to double precision. *)
Theorem C91_accuracy n r : try_gauss_lobatto n = Some (Some r) -> let (ws, xs) := real_rule1 r in
  length ws = N.to_nat n /\ length xs = N.to_nat n /\ hd 0 xs = -1 /\ last xs 0 = 1 /\ StronglySorted Rlt xs /\ (forall w, In w ws -> 0 < w) /\
  forall c, (length c <= 2 * N.to_nat n - 2)%nat -> (n <= 64)%N \/ (length c <= 32)%nat ->
    Rabs (rule_integrate (ws, xs) (horner c) - RInt (horner c) (-1) 1) <= / 10 ^ 14 * fold_right (fun a acc => Rabs a + acc) 0 c.
Proof.
  intros E. assert (A : available n).
  { unfold try_gauss_lobatto in E. destruct (codegen_gauss_lobatto n) as [q|] eqn:Q; [exact (codegen_available n q Q)|discriminate]. }
  pose proof check_small as S. pose proof check_large as L. rewrite forallb_forall in S, L. destruct (available_nat n A) as [I|I].
  - specialize (S _ I). unfold check_size in S. rewrite N2Nat.id, E in S. apply check_rule_ok in S. destruct (real_rule1 r) as [ws xs]. destruct S as (H1 & H2 & H3 & H4 & H5 & H6 & H7).
    repeat (split; [assumption|]). split; [intros w Hw; rewrite List.Forall_forall in H6; apply H6, Hw|]. intros c Hc _. apply H7. assert (2 <= N.to_nat n)%nat by (apply in_app_or in I; destruct I as [I|[<-|[]]]; [apply in_seq in I|]; lia). lia.
  - specialize (L _ I). unfold check_size in L. rewrite N2Nat.id, E in L. apply check_rule_ok in L. destruct (real_rule1 r) as [ws xs]. destruct L as (H1 & H2 & H3 & H4 & H5 & H6 & H7).
    repeat (split; [assumption|]). split; [intros w Hw; rewrite List.Forall_forall in H6; apply H6, Hw|]. intros c _ [Hn|Hc]; [|apply H7; lia].
    exfalso. destruct I as [I|[I|[I|[]]]]; lia.
Qed.
Print Assumptions C91_accuracy.
(** for example the rule with five points and the polynomial 1 - 3 x^7 *)
Example C91_example : exists r, try_gauss_lobatto 5 = Some (Some r) /\
  Rabs (rule_integrate (real_rule1 r) (fun x => 1 - 3 * x ^ 7) - 2) <= / 10 ^ 13.
Proof.
  destruct (proj1 (C91_available 5%N)) as (r & E); [left; lia|]. exists r. split; [exact E|]. pose proof (C91_accuracy 5%N r E) as A. destruct (real_rule1 r) as [ws xs]. destruct A as (_ & _ & _ & _ & _ & _ & A).
  specialize (A [1; 0; 0; 0; 0; 0; 0; -3] ltac:(cbn; lia) ltac:(left; lia)).
  assert (P : forall x, horner [1; 0; 0; 0; 0; 0; 0; -3] x = 1 - 3 * x ^ 7) by (intros x; cbn; ring).
  rewrite (rule_ext _ _ (fun x => 1 - 3 * x ^ 7)) in A by (intros; apply P).
  assert (I : RInt (horner [1; 0; 0; 0; 0; 0; 0; -3]) (-1) 1 = 2).
  { change (RInt (horner [1; 0; 0; 0; 0; 0; 0; -3]) (-1) 1) with (integral (horner [1; 0; 0; 0; 0; 0; 0; -3]) (-1) 1).
    rewrite (Pol_RInt_derive 8 (fun x => x - 3 / 8 * x ^ 8)); [cbn; lra|exists [1; 0; 0; 0; 0; 0; 0; -3]; split; [cbn; lia|reflexivity]|].
    intros x. rewrite P. auto_derive; [trivial|]. field_simplify. ring. }
  rewrite I in A. eapply Rle_trans; [exact A|]. cbn [fold_right]. rewrite !Rabs_R0, Rabs_R1, (Rabs_left (-3)) by lra. lra.
Qed.

(** ** No rule does better *)
Lemma square_product (ys : list R) : exists g, Pol (S (2 * length ys)) g /\ (forall x, 0 <= g x) /\ (forall x, g x = 0 <-> In x ys).
Proof.
  induction ys as [|y ys (g & P & G0 & Gz)].
  - exists (fun _ => 1). split; [apply Pol_const|]. split; [intros; lra|]. intros x. split; [lra|intros []].
  - exists (fun x => ((x - y) * (x - y)) * g x). split; [|split].
    + replace (S (2 * length (y :: ys))) with (S (2 + 2 * length ys)) by (cbn [length]; lia). apply Pol_mul; [|exact P]. exists [y * y; - 2 * y; 1]. split; [cbn; lia|]. intros x. cbn. ring.
    + intros x. apply Rmult_le_pos; [apply Rle_0_sqr|apply G0].
    + intros x. split.
      * intros Z. apply Rmult_integral in Z. destruct Z as [Z|Z]; [left; apply Rmult_integral in Z; lra|right; now apply Gz].
      * intros [-> |I]; [ring|]. apply Gz in I. rewrite I. ring.
Qed.
Lemma gap (ys : list R) : exists c, -1 <= c < 1 /\ forall y, In y ys -> y <= c \/ 1 <= y.
Proof.
  induction ys as [|y ys (c & C & H)]; [exists (-1); split; [lra|intros y []]|]. destruct (Rle_lt_dec 1 y) as [L|L].
  - exists c. split; [exact C|]. intros z [<-|I]; [now right|now apply H].
  - exists (Rmax c y). pose proof (Rmax_l c y). pose proof (Rmax_r c y). split; [split; [lra|apply Rmax_lub_lt; lra]|]. intros z [<-|I]; [left; assumption|]. destruct (H z I); [left; lra|now right].
Qed.
(** C91: no rule with n points, among them -1 and 1, is exact for all polynomials of degree 2 n - 2. *)
Theorem C91_sharp (ws xs : list R) : In (-1) xs -> In 1 xs -> exists c, (length c <= 2 * length xs - 1)%nat /\ rule_integrate (ws, xs) (horner c) <> RInt (horner c) (-1) 1.
Proof.
  intros I1 I2. destruct (in_split _ _ I1) as (l1 & l2 & E). assert (I3 : In 1 (l1 ++ l2)).
  { rewrite E in I2. apply in_app_or in I2. apply in_or_app. destruct I2 as [I2|[I2|I2]]; [now left|lra|now right]. }
  destruct (in_split _ _ I3) as (m1 & m2 & E'). set (ys := m1 ++ m2).
  assert (Len : length xs = S (S (length ys))).
  { rewrite E, app_length. cbn [length]. assert (length (l1 ++ l2) = length (m1 ++ 1 :: m2)) by now rewrite E'. rewrite !app_length in H. cbn [length] in H. unfold ys. rewrite app_length. lia. }
  assert (Mem : forall x, In x xs -> x = -1 \/ x = 1 \/ In x ys).
  { intros x Hx. rewrite E in Hx. apply in_app_or in Hx. assert (Hx' : x = -1 \/ In x (l1 ++ l2)) by (destruct Hx as [Hx|[Hx|Hx]]; [right; apply in_or_app; tauto|left; congruence|right; apply in_or_app; tauto]).
    destruct Hx' as [Hx'|Hx']; [now left|]. rewrite E' in Hx'. apply in_app_or in Hx'. right. unfold ys. destruct Hx' as [H|[H|H]]; [right; apply in_or_app; tauto|left; congruence|right; apply in_or_app; tauto]. }
  destruct (square_product ys) as (g & P & G0 & Gz). set (h := fun x => (1 - x * x) * g x).
  assert (Ph : Pol (S (2 + 2 * length ys)) h). { apply Pol_mul; [|exact P]. exists [1; 0; -1]. split; [cbn; lia|]. intros x. cbn. ring. }
  pose proof Ph as (c & Lc & Ec). exists c. split; [lia|]. rewrite (rule_zero (ws, xs) (horner c)).
  2:{ intros x Hx. cbn [snd] in Hx. rewrite <- Ec. unfold h. destruct (Mem x Hx) as [-> |[-> |H]]; [ring|ring|]. apply Gz in H. rewrite H. ring. }
  apply Rlt_not_eq. change (RInt (horner c) (-1) 1) with (integral (horner c) (-1) 1). rewrite <- (Pol_RInt_ext h (horner c)) by exact Ec.
  destruct (gap ys) as (z & Z & Gap). rewrite <- (integral_chasles _ _ _ z _ Ph).
  assert (0 <= integral h (-1) z).
  { destruct (Req_dec z (-1)) as [-> |Nz]; [unfold integral; rewrite RInt_point; apply Rle_refl|]. apply RInt_ge_0; [lra|apply (Pol_ex_RInt _ _ _ _ Ph)|]. intros x Hx. unfold h. apply Rmult_le_pos; [nra|apply G0]. }
  assert (0 < integral h z 1); [|lra]. apply RInt_gt_0; [lra| |].
  - intros x Hx. unfold h. apply Rmult_lt_0_compat; [nra|]. destruct (G0 x) as [H0|H0]; [exact H0|]. symmetry in H0. apply Gz in H0. destruct (Gap x H0); lra.
  - intros x _. apply (Pol_continuous _ _ _ Ph).
Qed.
Print Assumptions C91_sharp.
(** Simpson's rule is exact for cubic polynomials only *)
Example C91_sharp_example : exists c, (length c <= 5)%nat /\ rule_integrate ([1 / 3; 4 / 3; 1 / 3], [-1; 0; 1]) (horner c) <> RInt (horner c) (-1) 1.
Proof. apply (C91_sharp [1 / 3; 4 / 3; 1 / 3] [-1; 0; 1]); cbn; tauto. Qed.

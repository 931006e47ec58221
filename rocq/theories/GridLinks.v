(** Cells that share enough nodes, and boxes of equal cells. Auxiliary to C109. *)
From stdpp Require Import base list list_numbers sets relations.
From Coq Require Import Reals Lia Lra Psatz.
From Coquelicot Require Import Coquelicot.
From Verif Require Import Prelude ReorderModel MaterialModel PropMaterial ElementModel MeshModel MeshSpec PropMesh PropBalanceMesh PropSolveSpaces ProcModel PropProc PatchCells PatchHex PatchHexCells PropPatch GridProofs.
Import ListNotations.
Local Open Scope R_scope.
Local Notation vec := (nat -> R).

(** [c] and [c'] have [d] nodes in common *)
Definition touching (d : nat) (cells : list (list nat)) (c c' : list nat) : Prop :=
  c ∈ cells /\ c' ∈ cells /\ exists js, NoDup js /\ length js = d /\ forall j, j ∈ js -> j ∈ c /\ j ∈ c'.
(** nodes of a cell that are the only ones needed to pin all of it *)
Definition filled (d : nat) (X : nat -> point) (cells : list (list nat)) : Prop :=
  forall cell js nodes, cell ∈ cells -> NoDup js -> length js = d -> (forall j, j ∈ js -> j ∈ cell /\ pinned d X cells nodes j) -> forall k, k ∈ cell -> pinned d X cells nodes k.
Lemma touching_sym d cells c c' : touching d cells c c' -> touching d cells c' c.
Proof. intros (A & B & js & N & L & H). split; [exact B|]. split; [exact A|]. exists js. split; [exact N|]. split; [exact L|]. intros j Hj. destruct (H j Hj). split; assumption. Qed.
Lemma touched_sym d cells c c' : rtc (touching d cells) c c' -> rtc (touching d cells) c' c.
Proof. induction 1 as [|x y z H H' IH]; [apply rtc_refl|]. eapply rtc_r; [exact IH|apply touching_sym, H]. Qed.
Lemma joined_all d cells nodes j : (0 < d)%nat -> (forall c c', c ∈ cells -> c' ∈ cells -> rtc (touching d cells) c c') -> j ∈ nodes -> (exists cell, cell ∈ cells /\ j ∈ cell) -> forall cell k, cell ∈ cells -> k ∈ cell -> joined cells nodes k.
Proof.
  intros Hd Hr Hj (c0 & H0 & J0) cell k Hc Hk. assert (A : forall v, v ∈ c0 -> joined cells nodes v) by (intros v Hv; apply (joined_cell cells nodes c0 j v H0 J0 Hv), joined_fixed, Hj).
  pose proof (Hr c0 cell H0 Hc) as P. clear Hr H0 J0 Hc. revert k Hk. induction P as [x|x y z H H' IH]; [exact A|]. apply IH. intros v Hv. destruct H as (Hx & Hy & js & _ & L & Hs). destruct js as [|a js]; [cbn in L; lia|]. destruct (Hs a (elem_of_list_here _ _)) as (Ax & Ay).
  exact (joined_cell cells nodes y a v Hy Ay Hv (A a Ax)).
Qed.
Lemma pinned_all d X cells nodes js cell0 : filled d X cells -> (forall c c', c ∈ cells -> c' ∈ cells -> rtc (touching d cells) c c') -> cell0 ∈ cells -> NoDup js -> length js = d -> (forall j, j ∈ js -> j ∈ cell0 /\ j ∈ nodes) ->
  forall cell k, cell ∈ cells -> k ∈ cell -> pinned d X cells nodes k.
Proof.
  intros Hf Hr H0 N L Hj cell k Hc Hk. assert (A : forall v, v ∈ cell0 -> pinned d X cells nodes v) by (apply (Hf cell0 js nodes H0 N L); intros j J; destruct (Hj j J) as (J1 & J2); split; [exact J1|apply pinned_fixed, J2]).
  pose proof (Hr cell0 cell H0 Hc) as P. clear Hr H0 Hc N L Hj. revert k Hk. induction P as [x|x y z H H' IH]; [exact A|]. apply IH. destruct H as (Hx & Hy & js' & N & L & Hs). apply (Hf y js' nodes Hy N L). intros j J. destruct (Hs j J) as (Jx & Jy). split; [exact Jy|exact (A j Jx)].
Qed.
Lemma line {A} (Rel : A -> A -> Prop) (f : nat -> A) n : (forall i, (i + 1 < n)%nat -> rtc Rel (f i) (f (i + 1)%nat)) -> forall i, (i < n)%nat -> rtc Rel (f 0%nat) (f i).
Proof. intros H i. induction i as [|i IH]; intros Hi; [apply rtc_refl|]. etransitivity; [apply IH; lia|]. specialize (H i ltac:(lia)). rewrite Nat.add_1_r in H. exact H. Qed.

(** * corners with integer coordinates *)
Section bits.
Context (bits : list (list Z)).
Definition zb (I c : nat) : Z := nth c (nth I bits []) 0%Z.
Definition zdet2 (I J K : nat) : Z := ((zb I 0 - zb J 0) * (zb I 1 - zb K 1) - (zb I 1 - zb J 1) * (zb I 0 - zb K 0))%Z.
Definition zdet3 (I J K L : nat) : Z :=
  ((zb I 0 - zb J 0) * ((zb I 1 - zb K 1) * (zb I 2 - zb L 2) - (zb I 2 - zb K 2) * (zb I 1 - zb L 1))
   - (zb I 1 - zb J 1) * ((zb I 0 - zb K 0) * (zb I 2 - zb L 2) - (zb I 2 - zb K 2) * (zb I 0 - zb L 0))
   + (zb I 2 - zb J 2) * ((zb I 0 - zb K 0) * (zb I 1 - zb L 1) - (zb I 1 - zb K 1) * (zb I 0 - zb L 0)))%Z.
Definition nz (z : Z) : bool := negb (Z.eqb z 0).
Definition closed2 : bool := let n := length bits in
  forallb (fun I => forallb (fun J => forallb (fun K => (J =? K)%nat || (I =? J)%nat || (I =? K)%nat || nz (zdet2 I J K)) (seq 0 n)) (seq 0 n)) (seq 0 n).
Definition closed3 : bool := let n := length bits in
  forallb (fun J => forallb (fun K => forallb (fun L => (J =? K)%nat || (J =? L)%nat || (K =? L)%nat ||
    existsb (fun M => nz (zdet3 M J K L) && forallb (fun I => nz (zdet3 I J K L) || nz (zdet3 I J K M) || nz (zdet3 I J L M) || nz (zdet3 I K L M)) (seq 0 n)) (seq 0 n)) (seq 0 n)) (seq 0 n)) (seq 0 n).
(** the positions of the nodes of a cell are affine images of the integer coordinates *)
Definition cornered (d : nat) (X : nat -> point) (cell : list nat) : Prop :=
  length cell = length bits /\ NoDup cell /\ exists (o h : vec), (forall c, (c < d)%nat -> h c <> 0) /\ forall I c, (I < length cell)%nat -> (c < d)%nat -> X (nth I cell 0%nat) c = o c + h c * IZR (zb I c).
End bits.
Lemma nz_ok z : nz z = true -> IZR z <> 0.
Proof. unfold nz. intros H E. apply eq_IZR in E. subst. discriminate H. Qed.
Lemma at_nth (cell : list nat) j : j ∈ cell -> exists I, (I < length cell)%nat /\ nth I cell 0%nat = j.
Proof. intros H. apply elem_of_list_lookup in H as (I & H). exists I. split; [exact (lookup_lt_Some _ _ _ H)|exact (nth_lookup_Some _ _ _ _ H)]. Qed.
Lemma nth_in (cell : list nat) I : (I < length cell)%nat -> nth I cell 0%nat ∈ cell.
Proof. intros H. apply elem_of_list_In, nth_In, H. Qed.
Lemma forallb_seq f n i : forallb f (seq 0 n) = true -> (i < n)%nat -> f i = true.
Proof. intros H Hi. rewrite forallb_forall in H. apply H, in_seq. lia. Qed.

Lemma cramer2 a0 a1 b0 b1 x y : a0 * x + a1 * y = 0 -> b0 * x + b1 * y = 0 -> a0 * b1 - a1 * b0 <> 0 -> x = 0 /\ y = 0.
Proof.
  intros A B D. set (det := a0 * b1 - a1 * b0) in *. assert (X : det * x = b1 * (a0 * x + a1 * y) - a1 * (b0 * x + b1 * y)) by (unfold det; ring). assert (Y : det * y = a0 * (b0 * x + b1 * y) - b0 * (a0 * x + a1 * y)) by (unfold det; ring).
  rewrite A, B in X, Y. rewrite !Rmult_0_r in X, Y. split; [destruct (Rmult_integral det x) as [E|E]; [lra|elim (D E)|exact E]|destruct (Rmult_integral det y) as [E|E]; [lra|elim (D E)|exact E]].
Qed.
Lemma pin2 bits X cells nodes cell I J K : cell ∈ cells -> cornered bits 2 X cell -> (I < length cell)%nat -> (J < length cell)%nat -> (K < length cell)%nat -> nz (zdet2 bits I J K) = true ->
  pinned 2 X cells nodes (nth J cell 0%nat) -> pinned 2 X cells nodes (nth K cell 0%nat) -> pinned 2 X cells nodes (nth I cell 0%nat).
Proof.
  intros Hc (L & N & o & h & Hh & HX) HI HJ HK D PJ PK. apply nz_ok in D. apply (pinned_links 2 X cells nodes _ [nth J cell 0%nat; nth K cell 0%nat]).
  - intros j Hj. rewrite !elem_of_cons, elem_of_nil in Hj. destruct Hj as [->|[->|[]]]; assumption.
  - intros j Hj. exists cell. split; [exact Hc|]. rewrite !elem_of_cons, elem_of_nil in Hj. destruct Hj as [->|[->|[]]]; split; apply nth_in; assumption.
  - intros a Ha. pose proof (Ha (nth J cell 0%nat) ltac:(member)) as EJ. pose proof (Ha (nth K cell 0%nat) ltac:(member)) as EK. clear Ha. cbn [summ] in EJ, EK. rewrite !HX in EJ, EK by lia.
    unfold zdet2 in D. rewrite minus_IZR, !mult_IZR, !minus_IZR in D.
    assert (B : h 0%nat * a 0%nat = 0 /\ h 1%nat * a 1%nat = 0) by (eapply cramer2; [..|exact D]; lra). destruct B as (B0 & B1).
    intros c Hc2. assert (c = 0 \/ c = 1)%nat as [->| ->] by lia; [apply Rmult_integral in B0 as [B0|B0]; [elim (Hh 0%nat ltac:(lia) B0)|exact B0]|apply Rmult_integral in B1 as [B1|B1]; [elim (Hh 1%nat ltac:(lia) B1)|exact B1]].
Qed.
Lemma filled2 X cells : (forall cell, cell ∈ cells -> exists bits, closed2 bits = true /\ cornered bits 2 X cell) -> filled 2 X cells.
Proof.
  intros Hb cell js nodes Hc N L Hj k Hk. destruct js as [|a [|b [|? ?]]]; try (cbn in L; lia). destruct (Hb cell Hc) as (bits & Hcl & Cn). pose proof Cn as Cn'. destruct Cn as (Lb & Nc & _).
  destruct (Hj a ltac:(member)) as (Ja & Pa). destruct (Hj b ltac:(member)) as (Jb & Pb). destruct (at_nth cell a Ja) as (J & HJ & EJ). destruct (at_nth cell b Jb) as (K & HK & EK). destruct (at_nth cell k Hk) as (I & HI & EI).
  assert (JK : J <> K) by (intros ->; rewrite EJ in EK; subst b; inversion N; subst; set_solver).
  unfold closed2 in Hcl. pose proof (forallb_seq _ _ I Hcl ltac:(lia)) as H1. pose proof (forallb_seq _ _ J H1 ltac:(lia)) as H2. pose proof (forallb_seq _ _ K H2 ltac:(lia)) as H3. cbv beta in H3.
  apply orb_true_iff in H3 as [H3|H3]; [apply orb_true_iff in H3 as [H3|H3]; [apply orb_true_iff in H3 as [H3|H3]|]|].
  - apply Nat.eqb_eq in H3. lia.
  - apply Nat.eqb_eq in H3 as ->. rewrite EJ in EI. subst k. exact Pa.
  - apply Nat.eqb_eq in H3 as ->. rewrite EK in EI. subst k. exact Pb.
  - rewrite <- EI. rewrite <- EJ in Pa. rewrite <- EK in Pb. exact (pin2 bits X cells nodes cell I J K Hc Cn' HI HJ HK H3 Pa Pb).
Qed.
Lemma cramer3 a0 a1 a2 b0 b1 b2 c0 c1 c2 x y z : a0 * x + a1 * y + a2 * z = 0 -> b0 * x + b1 * y + b2 * z = 0 -> c0 * x + c1 * y + c2 * z = 0 ->
  a0 * (b1 * c2 - b2 * c1) - a1 * (b0 * c2 - b2 * c0) + a2 * (b0 * c1 - b1 * c0) <> 0 -> x = 0 /\ y = 0 /\ z = 0.
Proof.
  intros A B C D. set (det := a0 * (b1 * c2 - b2 * c1) - a1 * (b0 * c2 - b2 * c0) + a2 * (b0 * c1 - b1 * c0)) in *.
  assert (X : det * x = (b1 * c2 - b2 * c1) * (a0 * x + a1 * y + a2 * z) - (a1 * c2 - a2 * c1) * (b0 * x + b1 * y + b2 * z) + (a1 * b2 - a2 * b1) * (c0 * x + c1 * y + c2 * z)) by (unfold det; ring).
  assert (Y : det * y = - (b0 * c2 - b2 * c0) * (a0 * x + a1 * y + a2 * z) + (a0 * c2 - a2 * c0) * (b0 * x + b1 * y + b2 * z) - (a0 * b2 - a2 * b0) * (c0 * x + c1 * y + c2 * z)) by (unfold det; ring).
  assert (Z : det * z = (b0 * c1 - b1 * c0) * (a0 * x + a1 * y + a2 * z) - (a0 * c1 - a1 * c0) * (b0 * x + b1 * y + b2 * z) + (a0 * b1 - a1 * b0) * (c0 * x + c1 * y + c2 * z)) by (unfold det; ring).
  rewrite A, B, C in X, Y, Z. rewrite !Rmult_0_r in X, Y, Z.
  split; [|split]; [destruct (Rmult_integral det x) as [E|E]; [lra|elim (D E)|exact E]|destruct (Rmult_integral det y) as [E|E]; [lra|elim (D E)|exact E]|destruct (Rmult_integral det z) as [E|E]; [lra|elim (D E)|exact E]].
Qed.
Lemma pin3 bits X cells nodes cell I J K L : cell ∈ cells -> cornered bits 3 X cell -> (I < length cell)%nat -> (J < length cell)%nat -> (K < length cell)%nat -> (L < length cell)%nat -> nz (zdet3 bits I J K L) = true ->
  pinned 3 X cells nodes (nth J cell 0%nat) -> pinned 3 X cells nodes (nth K cell 0%nat) -> pinned 3 X cells nodes (nth L cell 0%nat) -> pinned 3 X cells nodes (nth I cell 0%nat).
Proof.
  intros Hc (Ln & N & o & h & Hh & HX) HI HJ HK HL D PJ PK PL. apply nz_ok in D. apply (pinned_links 3 X cells nodes _ [nth J cell 0%nat; nth K cell 0%nat; nth L cell 0%nat]).
  - intros j Hj. rewrite !elem_of_cons, elem_of_nil in Hj. destruct Hj as [->|[->|[->|[]]]]; assumption.
  - intros j Hj. exists cell. split; [exact Hc|]. rewrite !elem_of_cons, elem_of_nil in Hj. destruct Hj as [->|[->|[->|[]]]]; split; apply nth_in; assumption.
  - intros a Ha. pose proof (Ha (nth J cell 0%nat) ltac:(member)) as EJ. pose proof (Ha (nth K cell 0%nat) ltac:(member)) as EK. pose proof (Ha (nth L cell 0%nat) ltac:(member)) as EL. clear Ha. cbn [summ] in EJ, EK, EL. rewrite !HX in EJ, EK, EL by lia.
    unfold zdet3 in D. repeat (rewrite ?plus_IZR, ?minus_IZR, ?mult_IZR in D).
    assert (B : h 0%nat * a 0%nat = 0 /\ h 1%nat * a 1%nat = 0 /\ h 2%nat * a 2%nat = 0) by (eapply cramer3; [..|exact D]; lra).
    destruct B as (B0 & B1 & B2). intros c Hc3. assert (c = 0 \/ c = 1 \/ c = 2)%nat as [->|[->| ->]] by lia;
      [apply Rmult_integral in B0 as [B|B]|apply Rmult_integral in B1 as [B|B]|apply Rmult_integral in B2 as [B|B]]; first [exact B|elim (Hh _ Hc3 B)].
Qed.
Lemma filled3_each X cells : (forall cell, cell ∈ cells -> exists bits, closed3 bits = true /\ cornered bits 3 X cell) -> filled 3 X cells.
Proof.
  intros Hb cell js nodes Hc N Ls Hj k Hk. destruct (Hb cell Hc) as (bits & Hcl & Cb). clear Hb. destruct js as [|a [|b [|c [|? ?]]]]; try (cbn in Ls; lia). pose proof Cb as Cn. destruct Cn as (Lb & Nc & _).
  destruct (Hj a ltac:(member)) as (Ja & Pa). destruct (Hj b ltac:(member)) as (Jb & Pb). destruct (Hj c ltac:(member)) as (Jc & Pc). destruct (at_nth cell a Ja) as (J & HJ & EJ). destruct (at_nth cell b Jb) as (K & HK & EK). destruct (at_nth cell c Jc) as (L & HL & EL). destruct (at_nth cell k Hk) as (I & HI & EI).
  apply NoDup_cons in N as (N1 & N). apply NoDup_cons in N as (N2 & _).
  assert (JK : J <> K) by (intros ->; apply N1; rewrite EJ in EK; subst b; member). assert (JL : J <> L) by (intros ->; apply N1; rewrite EJ in EL; subst c; member). assert (KL : K <> L) by (intros ->; apply N2; rewrite EK in EL; subst c; member).
  unfold closed3 in Hcl. pose proof (forallb_seq _ _ J Hcl ltac:(lia)) as H1. pose proof (forallb_seq _ _ K H1 ltac:(lia)) as H2. pose proof (forallb_seq _ _ L H2 ltac:(lia)) as H3. clear Hcl H1 H2. cbv beta in H3.
  apply orb_true_iff in H3 as [H3|H3]. { exfalso. apply orb_true_iff in H3 as [H3|H3]; [apply orb_true_iff in H3 as [H3|H3]|]; apply Nat.eqb_eq in H3; lia. }
  apply existsb_exists in H3 as (M & HM & H3). apply in_seq in HM. apply andb_true_iff in H3 as (D & H3). pose proof (forallb_seq _ _ I H3 ltac:(lia)) as H4. clear H3. cbv beta in H4.
  rewrite <- EI. rewrite <- EJ in Pa. rewrite <- EK in Pb. rewrite <- EL in Pc. pose proof (pin3 bits X cells nodes cell M J K L Hc Cb ltac:(lia) HJ HK HL D Pa Pb Pc) as Pd. assert (HM' : (M < length cell)%nat) by lia.
  apply orb_true_iff in H4 as [H4|H4]; [apply orb_true_iff in H4 as [H4|H4]; [apply orb_true_iff in H4 as [H4|H4]|]|].
  - exact (pin3 bits X cells nodes cell I J K L Hc Cb HI HJ HK HL H4 Pa Pb Pc).
  - exact (pin3 bits X cells nodes cell I J K M Hc Cb HI HJ HK HM' H4 Pa Pb Pd).
  - exact (pin3 bits X cells nodes cell I J L M Hc Cb HI HJ HL HM' H4 Pa Pc Pd).
  - exact (pin3 bits X cells nodes cell I K L M Hc Cb HI HK HL HM' H4 Pb Pc Pd).
Qed.
Lemma filled3 bits X cells : closed3 bits = true -> (forall cell, cell ∈ cells -> cornered bits 3 X cell) -> filled 3 X cells.
Proof. intros Hcl Hb. apply filled3_each. intros cell Hc. exists bits. split; [exact Hcl|apply Hb, Hc]. Qed.
Definition cube_bits : list (list Z) := [[0; 0; 0]; [1; 0; 0]; [1; 1; 0]; [0; 1; 0]; [0; 0; 1]; [1; 0; 1]; [1; 1; 1]; [0; 1; 1]]%Z.
Definition square_bits : list (list Z) := [[0; 1]; [1; 1]; [1; 0]; [0; 0]]%Z.
Definition upper_bits : list (list Z) := [[0; 1]; [1; 1]; [1; 0]]%Z.
Definition lower_bits : list (list Z) := [[0; 1]; [1; 0]; [0; 0]]%Z.
Lemma cube_closed : closed3 cube_bits = true. Proof. vm_compute. reflexivity. Qed.
Lemma square_closed : closed2 square_bits = true. Proof. vm_compute. reflexivity. Qed.
Lemma upper_closed : closed2 upper_bits = true. Proof. vm_compute. reflexivity. Qed.
Lemma lower_closed : closed2 lower_bits = true. Proof. vm_compute. reflexivity. Qed.

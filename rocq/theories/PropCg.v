(** C36, C37. *)
From Coq Require Import Reals Lra Lia Arith.
From Verif Require Import CgModel CgSpec CgProofs.
Open Scope R_scope.

(** C36: a successful return means that the criterion holds for the true residual of the returned vector (for a zero right-hand
    side, that the returned vector solves the system exactly). *)
Theorem C36_success : forall n A P criterion max_iter b x fuel res LA LP, linear_map n LA -> computes n A LA -> computes n P LP ->
  cg_solve n A P criterion max_iter b x fuel = Some res -> res_error res = None ->
  (veq n b (fun _ => 0) /\ veq n (LA (res_x res)) b /\ res_iterations res = 0%nat) \/
  exists r, veq n r (residual LA b (res_x res)) /\ criterion (res_x res) b (length2 n b) (res_iterations res) r = inl true.
Proof.
  intros n A P crit max b x fuel res LA LP HL HA HP H He. unfold cg_solve in H. destruct (cg_init n A P b x) as [res'|st] eqn:Ei.
  - injection H as ->. unfold cg_init in Ei. destruct (A x); [|injection Ei as <-; discriminate]. destruct (P _); [discriminate|]. injection Ei as <-; discriminate.
  - destruct (Req_EM_T (norm n b) 0) as [Hb|Hb].
    + left. injection H as <-. cbn. pose proof (norm_zero n b Hb) as Hz. repeat split; [exact Hz|].
      intros i Hi. rewrite (Hz i Hi). apply (linear_zero n LA HL (fun _ => 0) (fun _ _ => eq_refl) i Hi).
    + right. destruct (loop_reaches n A P crit max b (norm n b) fuel st st res (reaches_refl _ _ _ _ _ _ _ _) H) as (st' & Hr & Hp).
      destruct (init_ok n A P max b LA LP HA HP x st Ei) as (Hok & _ & _ & _).
      pose proof (reaches_ok n A P crit max b (norm n b) LA LP HA HP st st' HL Hok Hr) as Hok'.
      destruct (pass_stops n A P crit max b (norm n b) LA LP HA HP st' res Hp) as [[-> Hc]|(e & He' & _)]; [|congruence].
      cbn. exists (cg_r st'). split; [exact (ok_r _ _ _ _ _ _ Hok')|]. rewrite <- norm_length2. exact Hc.
Qed.
Print Assumptions C36_success.

(** C36 for the criterion that comes with the solver. *)
Theorem C36_relative_residual : forall n A P tol max_iter b x fuel res LA LP, linear_map n LA -> computes n A LA -> computes n P LP ->
  cg_solve n A P (relative_residual n tol) max_iter b x fuel = Some res -> res_error res = None ->
  length2 n (residual LA b (res_x res)) <= tol * length2 n b.
Proof.
  intros n A P tol max b x fuel res LA LP HL HA HP H He.
  destruct (C36_success _ _ _ _ _ _ _ _ _ _ _ HL HA HP H He) as [(Hb & Hx & _)|(r & Hr & Hc)].
  - rewrite <- !norm_length2. rewrite (zero_norm n b Hb). rewrite zero_norm; [lra|]. intros i Hi. unfold residual. rewrite (Hx i Hi), (Hb i Hi). ring.
  - unfold relative_residual in Hc. destruct (Rle_dec _ _) as [Hle|]; [|discriminate]. rewrite <- (norm_length2 n (residual _ _ _)).
    unfold norm in Hle |- *. rewrite <- (dot_ext n r _ r _ Hr Hr). exact Hle.
Qed.
Print Assumptions C36_relative_residual.

(** C36: the iteration limit is respected, however the solver returns. *)
Theorem C36_limit : forall n A P criterion m b x fuel res, cg_solve n A P criterion (Some m) b x fuel = Some res -> (res_iterations res <= m)%nat.
Proof.
  intros n A P crit m b x fuel res H.
  set (LA := fun v => match A v with Some y => y | None => v end). set (LP := fun v => match P v with Some y => y | None => v end).
  assert (HA : computes n A LA) by (intros v y E i Hi; unfold LA; now rewrite E). assert (HP : computes n P LP) by (intros v y E i Hi; unfold LP; now rewrite E).
  unfold cg_solve in H. destruct (cg_init n A P b x) as [res'|st] eqn:Ei.
  - injection H as ->. unfold cg_init in Ei. destruct (A x); [|injection Ei as <-; cbn; lia]. destruct (P _); [discriminate|]. injection Ei as <-; cbn; lia.
  - destruct (Req_EM_T (norm n b) 0) as [Hb|Hb]; [injection H as <-; cbn; lia|].
    destruct (loop_reaches n A P crit (Some m) b (norm n b) fuel st st res (reaches_refl _ _ _ _ _ _ _ _) H) as (st' & Hr & Hp).
    destruct (init_ok n A P (Some m) b LA LP HA HP x st Ei) as (_ & _ & Hk & _).
    assert (Hk' : (cg_k st' <= m)%nat).
    { clear Hp H. induction Hr as [|st1 st2 Hr IH E]; [lia|]. pose proof (pass_continues n A P crit (Some m) b (norm n b) LA LP HA HP _ _ E) as C.
      rewrite (ct_k _ _ _ _ _ _ _ _ _ C). pose proof (ct_below _ _ _ _ _ _ _ _ _ C) as Hb'. cbn in Hb'. lia. }
    destruct (pass_stops n A P crit (Some m) b (norm n b) LA LP HA HP st' res Hp) as [[-> _]|(e & _ & Hs)]; [exact Hk'|].
    destruct Hs as [[_ ->]|[(m' & _ & _ & _ & -> & _)|(Hb' & _ & Hs)]]; [exact Hk'..|]. cbn in Hb'.
    destruct Hs as [(_ & _ & ->)|[(_ & _ & ->)|[(_ & _ & _ & ->)|(_ & _ & ->)]]]; lia.
Qed.
Print Assumptions C36_limit.

(** C36: with an iteration limit the solver returns. *)
Theorem C36_terminates : forall n A P criterion m b x fuel, (m < fuel)%nat -> exists res, cg_solve n A P criterion (Some m) b x fuel = Some res.
Proof.
  intros n A P crit m b x fuel Hf. unfold cg_solve. destruct (cg_init n A P b x) as [res'|st] eqn:Ei; [now exists res'|].
  destruct (Req_EM_T (norm n b) 0) as [Hb|Hb]; [now eexists|].
  destruct (cg_loop n A P crit (Some m) b (norm n b) fuel st) as [res|] eqn:E; [now exists res|exfalso].
  set (LA := fun v => match A v with Some y => y | None => v end). set (LP := fun v => match P v with Some y => y | None => v end).
  assert (HA : computes n A LA) by (intros v y Ev i Hi; unfold LA; now rewrite Ev). assert (HP : computes n P LP) by (intros v y Ev i Hi; unfold LP; now rewrite Ev).
  destruct (loop_fuel n A P crit (Some m) b (norm n b) LA LP HA HP fuel st E) as (st' & Hr & Hk).
  destruct (init_ok n A P (Some m) b LA LP HA HP x st Ei) as (_ & _ & Hk0 & _).
  assert (Hk' : (cg_k st' <= m)%nat).
  { clear Hk E. induction Hr as [|st1 st2 Hr IH E]; [lia|]. pose proof (pass_continues n A P crit (Some m) b (norm n b) LA LP HA HP _ _ E) as C.
    rewrite (ct_k _ _ _ _ _ _ _ _ _ C). pose proof (ct_below _ _ _ _ _ _ _ _ _ C) as Hb'. cbn in Hb'. lia. }
  lia.
Qed.
Print Assumptions C36_terminates.

(** C36: what each kind of error says. *)
Theorem C36_errors : forall n A P criterion max_iter b x fuel res e LA LP, linear_map n LA -> computes n A LA -> computes n P LP ->
  cg_solve n A P criterion max_iter b x fuel = Some res -> res_error res = Some e ->
  (exists x' k r, criterion x' b (length2 n b) k r = inr e) \/
  match e with
  | OperatorError => exists v, A v = None
  | PreconditionerError => exists v, P v = None
  | StoppingCriterionError => False
  | IndefiniteOperator => exists v, inner n v (LA v) <= 0
  | IndefinitePreconditioner => exists v, inner n v (LP v) <= 0
  | MaxIterationsReached m => max_iter = Some m /\ res_iterations res = m /\
      exists r, veq n r (residual LA b (res_x res)) /\ criterion (res_x res) b (length2 n b) m r = inl false
  end.
Proof.
  intros n A P crit max b x fuel res e LA LP HL HA HP H He. unfold cg_solve in H. destruct (cg_init n A P b x) as [res'|st] eqn:Ei.
  - injection H as ->. right. unfold cg_init in Ei. destruct (A x) eqn:EA; [destruct (P _) eqn:EP; [discriminate|]|];
      injection Ei as <-; cbn in He; injection He as <-; eexists; eassumption.
  - destruct (Req_EM_T (norm n b) 0) as [Hb|Hb]; [injection H as <-; discriminate|].
    destruct (loop_reaches n A P crit max b (norm n b) fuel st st res (reaches_refl _ _ _ _ _ _ _ _) H) as (st' & Hr & Hp).
    destruct (init_ok n A P max b LA LP HA HP x st Ei) as (Hok & _ & _ & _).
    pose proof (reaches_ok n A P crit max b (norm n b) LA LP HA HP st st' HL Hok Hr) as Hok'.
    destruct (pass_stops n A P crit max b (norm n b) LA LP HA HP st' res Hp) as [[-> Hc]|(e' & He' & Hs)]; [discriminate|].
    rewrite He' in He. injection He as ->. rewrite norm_length2 in Hs. destruct Hs as [[Hc _]|[(m & -> & Hm & Hle & Hk & Hx & Hc)|(_ & _ & Hs)]].
    + left. eexists _, _, _. exact Hc.
    + right. pose proof (ok_k _ _ _ _ _ _ Hok') as Hkm. rewrite Hm in Hkm. assert (cg_k st' = m) by lia. split; [exact Hm|]. split; [lia|].
      exists (cg_r st'). rewrite Hx. split; [exact (ok_r _ _ _ _ _ _ Hok')|]. replace m with (cg_k st'). exact Hc.
    + right. destruct Hs as [(-> & Ha & _)|[(-> & Ha & _)|[(-> & _ & Ha & _)|(-> & Ha & _)]]].
      * eexists; exact Ha.
      * exists (cg_p st'). now rewrite <- dot_inner.
      * exists (cg_r st'). rewrite <- dot_inner, dot_comm, <- (ok_zTr _ _ _ _ _ _ Hok'). exact Ha.
      * exact Ha.
Qed.
Print Assumptions C36_errors.

(** C36: the error "indefinite operator" does not mean that the operator is not positive definite. With a positive definite
    operator and a preconditioner that maps the residual to zero it is the operator that gets the blame. *)
Theorem C36_indefinite_operator_refuted : exists n A P LA tol max_iter b x fuel res, linear_map n LA /\ computes n A LA /\ never_fails A /\ never_fails P /\
  symmetric_map n LA /\ positive_map n LA /\ 0 <= tol /\
  cg_solve n A P (relative_residual n tol) max_iter b x fuel = Some res /\ res_error res = Some IndefiniteOperator.
Proof.
  exists 1%nat, (fun v => Some v), (fun _ => Some (fun _ => 0)), (fun v => v), 0, None, (fun _ => 1), (fun _ => 0), 1%nat.
  eexists. repeat split.
  - intros x y H. exact H.
  - intros x y E i Hi. injection E as ->. reflexivity.
  - intros v; discriminate.
  - intros v; discriminate.
  - intros v Hv. cbn. assert (Hn : v 0%nat <> 0) by (intros H0; apply Hv; intros i Hi; now replace i with 0%nat by lia). pose proof (Rsqr_pos_lt _ Hn) as Hs. exact Hs.
  - lra.
  - unfold cg_solve. cbn [cg_init]. unfold cg_init, norm. cbn [dot]. rewrite Rplus_0_l, Rmult_1_r, sqrt_1. destruct (Req_EM_T 1 0); [lra|].
    cbn [cg_loop]. unfold cg_pass, relative_residual, norm. cbn [dot cg_r cg_x cg_k cg_p cg_zTr].
    replace (0 + (1 - 0) * (1 - 0)) with 1 by ring. rewrite sqrt_1. destruct (Rle_dec 1 (0 * 1)); [lra|]. destruct (Rle_dec (0 + 0 * 0) 0); [|lra]. reflexivity.
  - reflexivity.
Qed.
Print Assumptions C36_indefinite_operator_refuted.

(** * C37 *)
Section Conjugacy.
  Context (n : nat) (LA LP : vec -> vec) (HsA : symmetric_map n LA) (HsP : symmetric_map n LP).
  Context (r p : nat -> vec) (alpha beta zt : nat -> R) (k : nat).
  Context (HLA : linear_map n LA).
  Context (Hr : forall j, (j < k)%nat -> veq n (r (S j)) (fun i => r j i + - alpha j * LA (p j) i)).
  Context (Hp0 : veq n (p O) (LP (r O))).
  Context (Hp : forall j, (j < k)%nat -> veq n (p (S j)) (fun i => LP (r (S j)) i + beta j * p j i)).
  Context (Hzt : forall j, (j <= k)%nat -> zt j = dot n (LP (r j)) (r j)).
  Context (Hz : forall j, (j < k)%nat -> 0 < zt j) (Hq : forall j, (j < k)%nat -> 0 < dot n (p j) (LA (p j))).
  Context (Ha : forall j, (j < k)%nat -> alpha j = zt j / dot n (p j) (LA (p j))) (Hb : forall j, (j < k)%nat -> beta j = zt (S j) / zt j).

  Lemma symA x y : dot n (LA x) y = dot n x (LA y).
  Proof using HsA. rewrite !dot_inner. apply HsA. Qed.
  Lemma symP x y : dot n (LP x) y = dot n x (LP y).
  Proof using HsP. rewrite !dot_inner. apply HsP. Qed.

  Lemma dot_r j w : (j < k)%nat -> dot n w (r (S j)) = dot n w (r j) + - alpha j * dot n w (LA (p j)).
  Proof using Hr. intros Hj. rewrite (dot_ext n w w _ _ (fun _ _ => eq_refl) (Hr j Hj)). apply dot_add_r. Qed.
  Lemma dot_p j w : (j < k)%nat -> dot n (p (S j)) w = dot n (LP (r (S j))) w + beta j * dot n (p j) w.
  Proof using Hp. intros Hj. rewrite (dot_ext n _ _ w w (Hp j Hj) (fun _ _ => eq_refl)). apply dot_add_l. Qed.

  Lemma conjugate m : (m <= k)%nat -> forall j, (j <= m)%nat -> forall i, (i < j)%nat -> dot n (LP (r i)) (r j) = 0 /\ dot n (p i) (LA (p j)) = 0.
  Proof using HsA HsP Hr Hp0 Hp Hzt Hz Hq Ha Hb.
    induction m as [|m IH]; intros Hm j Hj i Hi; [lia|]. destruct (Nat.eq_dec j (S m)) as [->|Hne]; [|apply IH; lia].
    assert (Hmk : (m < k)%nat) by lia. specialize (IH ltac:(lia)).
    (* A-products of preconditioned residuals with the last direction *)
    assert (Hza : forall i, (i <= m)%nat -> dot n (LP (r i)) (LA (p m)) = if Nat.eq_dec i m then dot n (p m) (LA (p m)) else 0).
    { intros q Hqm. destruct q as [|q].
      - rewrite <- (dot_ext n _ _ (LA (p m)) _ Hp0 (fun _ _ => eq_refl)). destruct (Nat.eq_dec 0 m) as [->|]; [reflexivity|]. apply (IH m); lia.
      - assert (Hqk : (q < k)%nat) by lia. pose proof (dot_p q (LA (p m)) Hqk) as E.
        rewrite (proj2 (IH m ltac:(lia) q ltac:(lia))) in E. destruct (Nat.eq_dec (S q) m) as [<-|Hn]; [lra|].
        rewrite (proj2 (IH m ltac:(lia) (S q) ltac:(lia))) in E. lra. }
    assert (Hzr : forall i, (i <= m)%nat -> dot n (LP (r i)) (r (S m)) = 0).
    { intros q Hqm. rewrite dot_r by exact Hmk. rewrite Hza by exact Hqm. destruct (Nat.eq_dec q m) as [->|Hn].
      - rewrite <- Hzt by lia. rewrite Ha by exact Hmk. pose proof (Hq m Hmk). field. lra.
      - rewrite (proj1 (IH m ltac:(lia) q ltac:(lia))). ring. }
    split; [apply Hzr; lia|].
    rewrite <- symA, (dot_comm n (LA (p i))), dot_p by exact Hmk. rewrite (dot_comm n (LP (r (S m)))), (dot_comm n (p m)).
    (* alpha_i A p_i = r_i - r_(i+1) *)
    assert (Hik : (i < k)%nat) by lia. pose proof (dot_r i (LP (r (S m))) Hik) as E. rewrite (dot_comm n _ (LA (p i))) in E.
    rewrite !(symP (r (S m))) in E. rewrite (dot_comm n (r (S m)) (LP (r i))), (dot_comm n (r (S m)) (LP (r (S i)))) in E. rewrite (Hzr i) in E by lia.
    pose proof (Hz i Hik) as H1. pose proof (Hq i Hik) as H2.
    assert (Hal : alpha i <> 0).
    { rewrite Ha by exact Hik. apply Rgt_not_eq. now apply Rdiv_lt_0_compat. }
    destruct (Nat.eq_dec i m) as [->|Hn].
    - rewrite <- Hzt in E by lia. rewrite (dot_comm n (LA (p m)) (p m)). rewrite Hb by exact Hmk. rewrite Ha in E by exact Hmk.
      assert (E' : dot n (LA (p m)) (LP (r (S m))) = - zt (S m) * dot n (p m) (LA (p m)) / zt m).
      { apply (Rmult_eq_reg_l (zt m / dot n (p m) (LA (p m)))); [|rewrite <- Ha by exact Hmk; exact Hal].
        transitivity (- zt (S m)); [lra|]. field. lra. }
      rewrite E'. field. lra.
    - rewrite Hzr in E by lia. rewrite (symA (p i) (p m)), (proj2 (IH m ltac:(lia) i ltac:(lia))).
      assert (E' : dot n (LA (p i)) (LP (r (S m))) = 0); [|rewrite E'; ring].
      apply (Rmult_eq_reg_l (alpha i)); [lra|exact Hal].
  Qed.

  (** n + 1 residuals that are all non-zero are too many *)
  Lemma residual_vanishes : positive_map n LP -> k = n -> veq n (r n) (fun _ => 0).
  Proof using HsA HsP Hr Hp0 Hp Hzt Hz Hq Ha Hb.
    intros Hpos Hkn. destruct (veq_dec0 n (r n)) as [H|H]; [exact H|exfalso].
    assert (Hself : forall j, (j <= n)%nat -> dot n (LP (r j)) (r j) <> 0).
    { intros j Hj. destruct (Nat.eq_dec j n) as [->|Hne].
      - rewrite dot_comm, dot_inner. apply Rgt_not_eq. now apply Hpos.
      - rewrite <- Hzt by lia. apply Rgt_not_eq. apply Hz. lia. }
    assert (Hoth : forall i j, (i <= n)%nat -> (j <= n)%nat -> i <> j -> dot n (r i) (LP (r j)) = 0).
    { intros i j Hi Hj Hne. destruct (Nat.lt_total i j) as [Hlt|[|Hlt]]; [|contradiction|].
      - rewrite <- symP. apply (conjugate n ltac:(lia) j Hj i Hlt).
      - rewrite dot_comm. apply (conjugate n ltac:(lia) i Hi j Hlt). }
    destruct (dependent n r) as (c & (m & Hm & Hc) & Hcomb).
    assert (E : dot n (fun i => comb (S n) c r i) (LP (r m)) = 0).
    { etransitivity; [apply (dot_ext n _ (fun _ => 0) _ (LP (r m))); [intros i Hi; exact (Hcomb i Hi)|intros ? ?; reflexivity]|apply dot_zero]. }
    rewrite dot_comb in E. rewrite (comb_one (S n) m) in E; [|lia|].
    - apply Rmult_integral in E as [E|E]; [now apply Hc|]. apply (Hself m Hm). now rewrite dot_comm.
    - intros j Hj Hne. cbv beta. rewrite Hoth by lia. ring.
  Qed.
End Conjugacy.

(** A run of the solver: the states at the beginning of each of the first [k] passes, and after them. *)
Definition cg_run (n : nat) (A P : vec -> option vec) criterion max_iter (b x : vec) (k : nat) (s : nat -> cg_state) : Prop :=
  cg_init n A P b x = inr (s O) /\ forall j, (j < k)%nat -> cg_pass n A P criterion max_iter b (length2 n b) (s j) = inr (s (S j)).

Section RunFacts.
  Context (n : nat) (A P : vec -> option vec) (criterion : vec -> vec -> R -> nat -> vec -> bool + cg_error) (max_iter : option nat) (b x : vec).
  Context (LA LP : vec -> vec) (HLA : linear_map n LA) (HA : computes n A LA) (HP : computes n P LP).
  Context (k : nat) (s : nat -> cg_state) (Hrun : cg_run n A P criterion max_iter b x k s).

  Lemma run_continues j : (j < k)%nat -> continues n criterion max_iter b (length2 n b) LA LP (s j) (s (S j)).
  Proof using HA HP Hrun. intros Hj. apply (pass_continues n A P); auto. now apply Hrun. Qed.
  Lemma run_ok j : (j <= k)%nat -> ok_state n max_iter b LA LP (s j).
  Proof using HLA HA HP Hrun.
    induction j as [|j IH]; intros Hj.
    - apply (init_ok n A P max_iter b LA LP HA HP x (s O)). apply Hrun.
    - apply (continues_ok n criterion max_iter b (length2 n b) LA LP (s j)); auto; [apply IH; lia|apply run_continues; lia].
  Qed.
  Lemma run_p0 : veq n (cg_p (s O)) (LP (cg_r (s O))).
  Proof using HA HP Hrun. apply (init_ok n A P max_iter b LA LP HA HP x (s O)). apply Hrun. Qed.

  Definition al j := cg_zTr (s j) / dot n (cg_p (s j)) (LA (cg_p (s j))).
  Definition be j := cg_zTr (s (S j)) / cg_zTr (s j).
  Lemma run_r j : (j < k)%nat -> veq n (cg_r (s (S j))) (fun i => cg_r (s j) i + - al j * LA (cg_p (s j)) i).
  Proof using HA HP Hrun. intros Hj i Hi. rewrite (ct_r _ _ _ _ _ _ _ _ _ (run_continues j Hj) i Hi). unfold al. ring. Qed.
  Lemma run_p j : (j < k)%nat -> veq n (cg_p (s (S j))) (fun i => LP (cg_r (s (S j))) i + be j * cg_p (s j) i).
  Proof using HA HP Hrun. intros Hj i Hi. rewrite (ct_p _ _ _ _ _ _ _ _ _ (run_continues j Hj) i Hi). unfold be. ring. Qed.
End RunFacts.

(** C37: as long as the solver has not returned, residuals of different iterations are orthogonal with respect to the
    preconditioner, and search directions are conjugate. *)
Theorem C37_conjugate : forall n A P criterion max_iter b x LA LP k s, linear_map n LA -> computes n A LA -> computes n P LP ->
  symmetric_map n LA -> symmetric_map n LP -> cg_run n A P criterion max_iter b x k s ->
  forall i j, (i <= k)%nat -> (j <= k)%nat -> i <> j ->
  inner n (cg_r (s i)) (LP (cg_r (s j))) = 0 /\ inner n (cg_p (s i)) (LA (cg_p (s j))) = 0.
Proof.
  intros n A P crit max b x LA LP k s HL HA HP HsA HsP Hrun.
  pose proof (conjugate n LA LP HsA HsP (fun j => cg_r (s j)) (fun j => cg_p (s j)) (al n LA s) (be s) (fun j => cg_zTr (s j)) k
    (run_r n A P crit max b x LA LP HA HP k s Hrun) (run_p0 n A P crit max b x LA LP HA HP k s Hrun) (run_p n A P crit max b x LA LP HA HP k s Hrun)
    (fun j Hj => ok_zTr _ _ _ _ _ _ (run_ok n A P crit max b x LA LP HL HA HP k s Hrun j Hj))
    (fun j Hj => ct_zTr _ _ _ _ _ _ _ _ _ (run_continues n A P crit max b x LA LP HA HP k s Hrun j Hj))
    (fun j Hj => ct_pAp _ _ _ _ _ _ _ _ _ (run_continues n A P crit max b x LA LP HA HP k s Hrun j Hj))
    (fun _ _ => eq_refl) (fun _ _ => eq_refl) k (le_n _)) as C. cbv beta in C.
  intros i j Hi Hj Hne. rewrite <- !dot_inner. destruct (Nat.lt_total i j) as [Hlt|[|Hlt]]; [|contradiction|].
  - destruct (C j Hj i Hlt) as [C1 C2]. split; [|exact C2]. rewrite <- symP by exact HsP. exact C1.
  - destruct (C i Hi j Hlt) as [C1 C2]. split; [rewrite dot_comm; exact C1|]. rewrite <- symA by exact HsA. rewrite dot_comm. exact C2.
Qed.
Print Assumptions C37_conjugate.

(** C37: on an n-dimensional system with a positive definite preconditioner the residual after n iterations is zero. *)
Theorem C37_finite : forall n A P criterion max_iter b x LA LP s, linear_map n LA -> computes n A LA -> computes n P LP ->
  symmetric_map n LA -> symmetric_map n LP -> positive_map n LP -> cg_run n A P criterion max_iter b x n s ->
  veq n (LA (cg_x (s n))) b.
Proof.
  intros n A P crit max b x LA LP s HL HA HP HsA HsP Hpos Hrun.
  pose proof (residual_vanishes n LA LP HsA HsP (fun j => cg_r (s j)) (fun j => cg_p (s j)) (al n LA s) (be s) (fun j => cg_zTr (s j)) n
    (run_r n A P crit max b x LA LP HA HP n s Hrun) (run_p0 n A P crit max b x LA LP HA HP n s Hrun) (run_p n A P crit max b x LA LP HA HP n s Hrun)
    (fun j Hj => ok_zTr _ _ _ _ _ _ (run_ok n A P crit max b x LA LP HL HA HP n s Hrun j Hj))
    (fun j Hj => ct_zTr _ _ _ _ _ _ _ _ _ (run_continues n A P crit max b x LA LP HA HP n s Hrun j Hj))
    (fun j Hj => ct_pAp _ _ _ _ _ _ _ _ _ (run_continues n A P crit max b x LA LP HA HP n s Hrun j Hj))
    (fun _ _ => eq_refl) (fun _ _ => eq_refl) Hpos eq_refl) as Hz.
  intros i Hi. pose proof (ok_r _ _ _ _ _ _ (run_ok n A P crit max b x LA LP HL HA HP n s Hrun n (le_n _)) i Hi) as Hr. rewrite (Hz i Hi) in Hr.
  unfold residual in Hr. lra.
Qed.
Print Assumptions C37_finite.

Lemma reaches_run n A P criterion max_iter b st0 st : reaches n A P criterion max_iter b (length2 n b) st0 st ->
  forall LA LP, computes n A LA -> computes n P LP -> cg_k st0 = 0%nat ->
  exists s, s O = st0 /\ s (cg_k st) = st /\ forall j, (j < cg_k st)%nat -> cg_pass n A P criterion max_iter b (length2 n b) (s j) = inr (s (S j)).
Proof.
  intros Hr LA LP HA HP H0. induction Hr as [|st st' Hr (s & Hs0 & Hsk & Hs) E].
  - exists (fun _ => st0). rewrite H0. repeat split. intros j Hj. lia.
  - pose proof (ct_k _ _ _ _ _ _ _ _ _ (pass_continues n A P criterion max_iter b (length2 n b) LA LP HA HP _ _ E)) as Hk.
    exists (fun j => if Nat.eq_dec j (cg_k st') then st' else s j). rewrite Hk. destruct (Nat.eq_dec 0 (S (cg_k st))); [lia|].
    destruct (Nat.eq_dec (S (cg_k st)) (S (cg_k st))); [|congruence]. repeat split; [exact Hs0|].
    intros j Hj. destruct (Nat.eq_dec j (S (cg_k st))); [lia|]. destruct (Nat.eq_dec (S j) (S (cg_k st))) as [Hjk|].
    + injection Hjk as ->. rewrite Hsk. exact E.
    + apply Hs. lia.
Qed.

(** C36: the reported number of iterations is the number of passes that updated the solution. *)
Theorem C36_iterations : forall n A P criterion max_iter b x fuel res LA LP, computes n A LA -> computes n P LP ->
  cg_solve n A P criterion max_iter b x fuel = Some res -> res_error res = None -> ~ veq n b (fun _ => 0) ->
  exists s, cg_run n A P criterion max_iter b x (res_iterations res) s /\ res_x res = cg_x (s (res_iterations res)).
Proof.
  intros n A P crit max b x fuel res LA LP HA HP H He Hnz. unfold cg_solve in H. destruct (cg_init n A P b x) as [res'|st] eqn:Ei.
  - injection H as ->. unfold cg_init in Ei. destruct (A x); [|injection Ei as <-; discriminate]. destruct (P _); [discriminate|]. injection Ei as <-; discriminate.
  - destruct (Req_EM_T (norm n b) 0) as [Hb|Hb]; [exfalso; now apply Hnz, norm_zero|]. rewrite norm_length2 in H.
    destruct (loop_reaches n A P crit max b (length2 n b) fuel st st res (reaches_refl _ _ _ _ _ _ _ _) H) as (st' & Hr & Hp).
    destruct (init_ok n A P max b LA LP HA HP x st Ei) as (_ & _ & Hk & _).
    destruct (pass_stops n A P crit max b (length2 n b) LA LP HA HP st' res Hp) as [[-> Hc]|(e & He' & _)]; [|congruence].
    destruct (reaches_run n A P crit max b st st' Hr LA LP HA HP Hk) as (s & Hs0 & Hsk & Hs). cbn. exists s. split; [|now rewrite Hsk].
    split; [now rewrite Hs0|exact Hs].
Qed.
Print Assumptions C36_iterations.

(** C37: with symmetric positive definite operator and preconditioner that never fail, a non-negative tolerance and no iteration
    limit below the dimension, the solver succeeds after at most n iterations. *)
Theorem C37_solves : forall n A P tol max_iter b x LA LP fuel, linear_map n LA -> computes n A LA -> computes n P LP ->
  never_fails A -> never_fails P -> symmetric_map n LA -> symmetric_map n LP -> positive_map n LA -> positive_map n LP -> 0 <= tol ->
  match max_iter with Some m => (n <= m)%nat | None => True end -> (n < fuel)%nat ->
  exists res, cg_solve n A P (relative_residual n tol) max_iter b x fuel = Some res /\ res_error res = None /\ (res_iterations res <= n)%nat /\
    length2 n (residual LA b (res_x res)) <= tol * length2 n b.
Proof.
  intros n A P tol max b x LA LP fuel HL HA HP HfA HfP HsA HsP HpA HpP Htol Hmax Hfuel.
  set (crit := relative_residual n tol).
  assert (Hgoal : exists res, cg_solve n A P crit max b x fuel = Some res /\ res_error res = None /\ (res_iterations res <= n)%nat).
  2:{ destruct Hgoal as (res & H1 & H2 & H3). exists res. repeat split; auto. now apply (C36_relative_residual n A P tol max b x fuel res LA LP). }
  unfold cg_solve. destruct (cg_init n A P b x) as [res'|st0] eqn:Ei.
  { exfalso. unfold cg_init in Ei. destruct (A x) eqn:EA; [|now apply (HfA x)]. destruct (P _) eqn:EP; [discriminate|]. now apply HfP in EP. }
  destruct (Req_EM_T (norm n b) 0) as [Hb|Hb]; [eexists; repeat split; cbn; lia|].
  destruct (init_ok n A P max b LA LP HA HP x st0 Ei) as (Hok0 & _ & Hk0 & _). rewrite norm_length2 in *.
  (* no pass starts after n iterations with an unconverged residual *)
  assert (Hconv : forall st, (forall i, (i < n)%nat -> cg_r st i = 0) -> crit (cg_x st) b (length2 n b) (cg_k st) (cg_r st) = inl true).
  { intros st Hz. unfold crit, relative_residual. rewrite (zero_norm n (cg_r st) Hz). destruct (Rle_dec _ _) as [|Hn]; [reflexivity|exfalso]. apply Hn.
    apply Rmult_le_pos; [exact Htol|apply sqrt_pos]. }
  assert (Hbound : forall st, reaches n A P crit max b (length2 n b) st0 st -> (cg_k st <= n)%nat /\ (cg_k st = n -> crit (cg_x st) b (length2 n b) (cg_k st) (cg_r st) = inl true)).
  { intros st Hr. destruct (reaches_run n A P crit max b st0 st Hr LA LP HA HP Hk0) as (s & Hs0 & Hsk & Hs).
    assert (Hn : forall m, (m <= cg_k st)%nat -> m = n -> crit (cg_x (s m)) b (length2 n b) (cg_k (s m)) (cg_r (s m)) = inl true).
    { intros m Hm ->. assert (Hrun : cg_run n A P crit max b x n s) by (split; [now rewrite Hs0|intros j Hj; apply Hs; lia]). apply Hconv.
      pose proof (C37_finite n A P crit max b x LA LP s HL HA HP HsA HsP HpP Hrun) as Hf. intros i Hi.
      rewrite (ok_r _ _ _ _ _ _ (run_ok n A P crit max b x LA LP HL HA HP n s Hrun n (le_n _)) i Hi). unfold residual. rewrite (Hf i Hi). ring. }
    split; [|intros Hkn; rewrite <- Hsk; apply Hn; lia]. destruct (le_lt_dec (cg_k st) n) as [Hle|Hlt]; [exact Hle|exfalso].
    pose proof (Hn n ltac:(lia) eq_refl) as Hc. pose proof (Hs n Hlt) as E. apply (pass_continues n A P crit max b (length2 n b) LA LP HA HP) in E.
    rewrite (ct_crit _ _ _ _ _ _ _ _ _ E) in Hc. discriminate. }
  destruct (cg_loop n A P crit max b (length2 n b) fuel st0) as [res|] eqn:El.
  - exists res. split; [reflexivity|].
    destruct (loop_reaches n A P crit max b (length2 n b) fuel st0 st0 res (reaches_refl _ _ _ _ _ _ _ _) El) as (st' & Hr & Hp).
    destruct (Hbound st' Hr) as [Hkn Hcn].
    pose proof (reaches_ok n A P crit max b (length2 n b) LA LP HA HP st0 st' HL Hok0 Hr) as Hok'.
    destruct (pass_stops n A P crit max b (length2 n b) LA LP HA HP st' res Hp) as [[-> Hc]|(e & He & Hs)]; [cbn; auto|exfalso].
    assert (Hnz : crit (cg_x st') b (length2 n b) (cg_k st') (cg_r st') = inl false -> ~ veq n (cg_r st') (fun _ => 0)).
    { intros Hc Hz. rewrite (Hconv st' Hz) in Hc. discriminate. }
    destruct Hs as [[Hc _]|[(m & _ & Hm & Hle & _ & _ & Hc)|(_ & Hc & Hs)]].
    + unfold crit, relative_residual in Hc. discriminate.
    + rewrite Hm in Hmax. assert (cg_k st' = n) by lia. rewrite Hcn in Hc by assumption. discriminate.
    + specialize (Hnz Hc).
      assert (Hzr : 0 < cg_zTr st') by (rewrite (ok_zTr _ _ _ _ _ _ Hok'), dot_comm, dot_inner; now apply HpP).
      assert (Hpz : ~ veq n (cg_p st') (fun _ => 0)).
      { intros Hz. pose proof (ok_pr _ _ _ _ _ _ Hok') as E. rewrite (dot_ext n _ _ _ (cg_r st') Hz (fun _ _ => eq_refl)), dot_zero in E. lra. }
      pose proof (HpA _ Hpz) as Hpp. rewrite <- dot_inner in Hpp.
      destruct Hs as [(_ & Ha & _)|[(_ & Ha & _)|[(_ & _ & Ha & _)|(_ & (v & Ha) & _)]]]; [now apply HfA in Ha|lra|lra|now apply HfP in Ha].
  - exfalso. destruct (loop_fuel n A P crit max b (length2 n b) LA LP HA HP fuel st0 El) as (st' & Hr & Hk). destruct (Hbound st' Hr) as [Hkn _]. lia.
Qed.
Print Assumptions C37_solves.

(** The hypotheses of the theorems above are met by a 2 x 2 system with its Jacobi preconditioner, for which the solver goes
    through two passes. *)
Definition ex_A (v : vec) : vec := fun i => match i with O => 2 * v O + v 1%nat | S _ => v O + 3 * v 1%nat end.
Definition ex_P (v : vec) : vec := fun i => match i with O => v O / 2 | S _ => v 1%nat / 3 end.
Definition ex_b : vec := fun i => match i with O => 1 | S _ => 0 end.
Definition ex_next (st : cg_state) : cg_state :=
  match cg_pass 2 (fun v => Some (ex_A v)) (fun v => Some (ex_P v)) (fun _ _ _ _ _ => inl false) None ex_b (length2 2 ex_b) st with inr st' => st' | inl _ => st end.
Definition ex_states (j : nat) : cg_state :=
  Nat.iter j ex_next match cg_init 2 (fun v => Some (ex_A v)) (fun v => Some (ex_P v)) ex_b (fun _ => 0) with inr st => st | inl _ => CgState ex_b ex_b ex_b 0 0 end.

Lemma ex_pass st : 0 < dot 2 (cg_p st) (ex_A (cg_p st)) -> 0 < cg_zTr st ->
  cg_pass 2 (fun v => Some (ex_A v)) (fun v => Some (ex_P v)) (fun _ _ _ _ _ => inl false) None ex_b (length2 2 ex_b) st = inr (ex_next st).
Proof. intros H1 H2. unfold ex_next, cg_pass. destruct (Rle_dec (dot _ _ _) 0); [lra|]. destruct (Rle_dec (cg_zTr st) 0); [lra|]. reflexivity. Qed.

Example C36_C37_example :
  linear_map 2 ex_A /\ computes 2 (fun v => Some (ex_A v)) ex_A /\ computes 2 (fun v => Some (ex_P v)) ex_P /\
  never_fails (fun v => Some (ex_A v)) /\ never_fails (fun v => Some (ex_P v)) /\
  symmetric_map 2 ex_A /\ symmetric_map 2 ex_P /\ positive_map 2 ex_A /\ positive_map 2 ex_P /\
  cg_run 2 (fun v => Some (ex_A v)) (fun v => Some (ex_P v)) (fun _ _ _ _ _ => inl false) None ex_b (fun _ => 0) 2 ex_states.
Proof.
  assert (Hnz : forall v : vec, ~ veq 2 v (fun _ => 0) -> v O <> 0 \/ v 1%nat <> 0).
  { intros v Hv. destruct (Req_EM_T (v O) 0) as [H0|]; [|now left]. destruct (Req_EM_T (v 1%nat) 0) as [H1|]; [|now right].
    exfalso. apply Hv. intros i Hi. destruct i as [|[|i]]; [exact H0|exact H1|lia]. }
  repeat split.
  - intros x y H i Hi. pose proof (H O ltac:(lia)) as H0. pose proof (H 1%nat ltac:(lia)) as H1. destruct i as [|i]; cbn; lra.
  - intros x y a i Hi. destruct i as [|i]; cbn; ring.
  - intros x y E i Hi. now injection E as <-.
  - intros x y E i Hi. now injection E as <-.
  - intros v; discriminate.
  - intros v; discriminate.
  - intros x y. cbn. ring.
  - intros x y. cbn. field.
  - intros v Hv. cbn. destruct (Hnz v Hv) as [H|H]; apply Rsqr_pos_lt in H; unfold Rsqr in H; pose proof (Rle_0_sqr (v O + v 1%nat)) as Hs; unfold Rsqr in Hs; nra.
  - intros v Hv. cbn. destruct (Hnz v Hv) as [H|H]; apply Rsqr_pos_lt in H; unfold Rsqr in H; nra.
  - intros j Hj. destruct j as [|[|j]]; [| |lia].
    + apply ex_pass; cbn; lra.
    + assert (E0 : cg_p (ex_states 0) O = 1/2 /\ cg_p (ex_states 0) 1%nat = 0 /\ cg_r (ex_states 0) O = 1 /\ cg_r (ex_states 0) 1%nat = 0 /\ cg_zTr (ex_states 0) = 1/2) by (cbn; repeat split; lra).
      destruct E0 as (E1 & E2 & E3 & E4 & E5). change (ex_states 2) with (ex_next (ex_next (ex_states 0))). change (ex_states 1) with (ex_next (ex_states 0)).
      set (st := ex_states 0) in *. clearbody st.
      assert (Hp := ex_pass st ltac:(cbn; rewrite E1, E2; lra) ltac:(rewrite E5; lra)). unfold cg_pass in Hp. cbn [dot ex_A] in Hp.
      rewrite E1, E2, E5 in Hp. repeat (destruct (Rle_dec _ _) in Hp; [lra|]). injection Hp as Hp.
      apply ex_pass; rewrite <- Hp; cbn [cg_p cg_zTr dot ex_A ex_P]; rewrite ?E1, ?E2, ?E3, ?E4; lra.
Qed.

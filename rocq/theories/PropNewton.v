(** C38, C39. *)
From Coq Require Import Reals Lra Lia Arith.
From Verif Require Import CgModel CgSpec CgProofs OptModel OptSpec.
Open Scope R_scope.

Lemma norm_ext n x y : veq n x y -> norm n x = norm n y.
Proof. intros H. unfold norm. now rewrite (dot_ext n x y x y H H). Qed.
Lemma veq_refl n x : veq n x x. Proof. intros i _. reflexivity. Qed.
Lemma veq_trans n x y z : veq n x y -> veq n y z -> veq n x z.
Proof. intros H1 H2 i Hi. now rewrite (H1 i Hi), (H2 i Hi). Qed.
Lemma veq_sym n x y : veq n x y -> veq n y x.
Proof. intros H i Hi. now rewrite (H i Hi). Qed.

Section Newton.
  Context (n : nat) (F : vec -> vec) (jsolve : vec -> vec -> option vec) (step : line_search) (tol : R) (max_iter : option nat) (x0 : vec).
  Context (HF : respects n F) (Hstep : keeps_value n step).

  Definition newton_inv (st : newton_state) : Prop :=
    veq n (ns_f st) (F (ns_x st)) /\ steps (search_step n F jsolve step tol) (ns_iter st) x0 (ns_x st) /\
    match max_iter with Some m => (ns_iter st <= m)%nat | None => True end.

  Definition newton_post (res : newton_result) : Prop :=
    veq n (nr_f res) (F (nr_x res)) /\
    match nr_status res with
    | inl k => length2 n (F (nr_x res)) <= tol /\ steps (search_step n F jsolve step tol) k x0 (nr_x res) /\ match max_iter with Some m => (k <= m)%nat | None => True end
    | inr (MaximumIterationsReached m) => max_iter = Some m /\ tol < length2 n (F (nr_x res)) /\ steps (search_step n F jsolve step tol) m x0 (nr_x res)
    | inr JacobianError => exists k f, steps (search_step n F jsolve step tol) k x0 (nr_x res) /\ veq n f (F (nr_x res)) /\ jsolve (nr_x res) f = None
    | inr LineSearchError => exists k x f d p f', steps (search_step n F jsolve step tol) k x0 x /\ veq n f (F x) /\ jsolve x f = Some d /\
        (forall i, p i = - d i) /\ step F f x p = ((f', nr_x res), None)
    end.

  Lemma newton_pass_inv st : newton_inv st ->
    match newton_pass n F jsolve step tol max_iter st with inl res => newton_post res | inr st' => newton_inv st' /\ ns_iter st' = S (ns_iter st) end.
  Proof using HF Hstep.
    intros (Hf & Hs & Hm). unfold newton_pass. destruct (Rlt_dec tol (norm n (ns_f st))) as [Ht|Ht].
    2:{ split; [exact Hf|]. cbn. rewrite <- norm_length2, <- (norm_ext n _ _ Hf). repeat split; [lra|exact Hs|exact Hm]. }
    assert (Ht' : tol < length2 n (F (ns_x st))) by (rewrite <- norm_length2, <- (norm_ext n _ _ Hf); exact Ht).
    destruct (match max_iter with Some m => _ | None => _ end) eqn:El.
    { split; [exact Hf|]. cbn. destruct max_iter as [m|]; [|discriminate]. destruct (Nat.eq_dec _ _) as [Em|]; [|discriminate]. rewrite <- Em. split; [reflexivity|]. split; [exact Ht'|exact Hs]. }
    destruct (jsolve (ns_x st) (ns_f st)) as [d|] eqn:Ej.
    2:{ split; [exact Hf|]. cbn. exists (ns_iter st), (ns_f st). auto. }
    assert (Hd : forall i, (fun i => d i * -1) i = - d i) by (intros i; cbv beta; ring).
    destruct (step F (ns_f st) (ns_x st) (fun i => d i * -1)) as [[f' x'] [a|]] eqn:Es.
    - split; [|reflexivity]. split; [exact (Hstep _ _ _ _ _ _ _ HF Es)|]. split.
      + apply (steps_more _ _ _ (ns_x st)); [exact Hs|]. split; [exact Ht'|]. exists (ns_f st), d, (fun i => d i * -1), f', a. auto.
      + cbn. destruct max_iter as [m|]; [|exact I]. destruct (Nat.eq_dec _ _); [discriminate|]. lia.
    - split; [exact (Hstep _ _ _ _ _ _ _ HF Es)|]. cbn. exists (ns_iter st), (ns_x st), (ns_f st), d, (fun i => d i * -1), f'. auto.
  Qed.

  Lemma newton_loop_post fuel : forall st res, newton_inv st -> newton_loop n fuel F jsolve step tol max_iter st = Some res -> newton_post res.
  Proof using HF Hstep.
    induction fuel as [|fuel IH]; intros st res Hi H; [discriminate|]. cbn in H. pose proof (newton_pass_inv st Hi) as Hp.
    destruct (newton_pass _ _ _ _ _ _ _) as [r|st']; [now injection H as <-|]. apply (IH st'); [apply Hp|exact H].
  Qed.
  Lemma newton_loop_fuel m fuel : max_iter = Some m -> forall st, newton_inv st -> (m < ns_iter st + fuel)%nat -> exists res, newton_loop n fuel F jsolve step tol max_iter st = Some res.
  Proof using HF Hstep.
    intros Hm. induction fuel as [|fuel IH]; intros st Hi Hf.
    - destruct Hi as (_ & _ & Hi). rewrite Hm in Hi. lia.
    - cbn. pose proof (newton_pass_inv st Hi) as Hp. destruct (newton_pass _ _ _ _ _ _ _) as [r|st']; [now exists r|]. apply IH; [apply Hp|]. destruct Hp as [_ ->]. lia.
  Qed.
  Lemma newton_init : newton_inv (NewtonState x0 (F x0) 0).
  Proof using. repeat split; [constructor|]. cbn. destruct max_iter; [lia|exact I]. Qed.
End Newton.

(** C38: success means that the function value at the returned point is within tolerance, and as many steps were taken as reported. *)
Theorem C38_ok : forall n F jsolve step tol max_iter fuel x res k, respects n F -> keeps_value n step ->
  newton_line_search n fuel F jsolve step tol max_iter x = Some res -> nr_status res = inl k ->
  length2 n (F (nr_x res)) <= tol /\ steps (search_step n F jsolve step tol) k x (nr_x res) /\ veq n (nr_f res) (F (nr_x res)) /\
  match max_iter with Some m => (k <= m)%nat | None => True end.
Proof.
  intros n F js step tol max fuel x res k HF Hs H Hk.
  destruct (newton_loop_post n F js step tol max x HF Hs fuel _ _ (newton_init n F js step tol max x) H) as [Hf Hp]. rewrite Hk in Hp. tauto.
Qed.
Print Assumptions C38_ok.

(** C38: what the errors mean. *)
Theorem C38_errors : forall n F jsolve step tol max_iter fuel x res e, respects n F -> keeps_value n step ->
  newton_line_search n fuel F jsolve step tol max_iter x = Some res -> nr_status res = inr e ->
  veq n (nr_f res) (F (nr_x res)) /\
  match e with
  | MaximumIterationsReached m => max_iter = Some m /\ tol < length2 n (F (nr_x res)) /\ steps (search_step n F jsolve step tol) m x (nr_x res)
  | JacobianError => exists k f, steps (search_step n F jsolve step tol) k x (nr_x res) /\ veq n f (F (nr_x res)) /\ jsolve (nr_x res) f = None
  | LineSearchError => exists k y f d p f', steps (search_step n F jsolve step tol) k x y /\ veq n f (F y) /\ jsolve y f = Some d /\
      (forall i, p i = - d i) /\ step F f y p = ((f', nr_x res), None)
  end.
Proof.
  intros n F js step tol max fuel x res e HF Hs H He.
  destruct (newton_loop_post n F js step tol max x HF Hs fuel _ _ (newton_init n F js step tol max x) H) as [Hf Hp]. rewrite He in Hp. auto.
Qed.
Print Assumptions C38_errors.

(** C38: a limit on the number of iterations makes the method return. *)
Theorem C38_terminates : forall n F jsolve step tol m fuel x, respects n F -> keeps_value n step -> (m < fuel)%nat ->
  exists res, newton_line_search n fuel F jsolve step tol (Some m) x = Some res.
Proof.
  intros n F js step tol m fuel x HF Hs Hf. apply (newton_loop_fuel n F js step tol (Some m) x HF Hs m fuel eq_refl); [apply newton_init|cbn; lia].
Qed.
Print Assumptions C38_terminates.

Lemma no_line_search_keeps n : keeps_value n no_line_search.
Proof. intros F f x p f' x' r HF [= <- <- _]. apply veq_refl. Qed.

Lemma steps_impl (P Q : vec -> vec -> Prop) k x y : (forall a b, P a b -> Q a b) -> steps P k x y -> steps Q k x y.
Proof. intros H. induction 1 as [|k x y z H1 IH H2]; econstructor; [exact IH|now apply H]. Qed.

(** C38: without a line search each step is a Newton step. *)
Theorem C38_newton : forall n F jsolve tol max_iter fuel x res k, respects n F ->
  newton n fuel F jsolve tol max_iter x = Some res -> nr_status res = inl k ->
  length2 n (F (nr_x res)) <= tol /\ steps (newton_step n F jsolve tol) k x (nr_x res).
Proof.
  intros n F js tol max fuel x res k HF H Hk.
  destruct (C38_ok n F js no_line_search tol max fuel x res k HF (no_line_search_keeps n) H Hk) as (H1 & H2 & _). split; [exact H1|].
  apply (steps_impl _ _ _ _ _ (fun a b H => H)). revert H2. apply steps_impl. intros a b (Ht & f & d & p & f' & al & Hf & Hj & Hp & Hs).
  split; [exact Ht|]. exists f, d. repeat split; auto. injection Hs as _ <- _. intros i Hi. unfold axpy. rewrite Hp. ring.
Qed.
Print Assumptions C38_newton.

(** C38: on an affine problem with exact linear solves the method succeeds after at most one step. *)
Theorem C38_affine : forall n L b jsolve tol max_iter fuel x, linear_map n L ->
  (forall x f, exists d, jsolve x f = Some d /\ veq n (L d) f) -> 0 <= tol -> match max_iter with Some m => (1 <= m)%nat | None => True end -> (2 <= fuel)%nat ->
  exists res k, newton n fuel (fun x i => L x i - b i) jsolve tol max_iter x = Some res /\ nr_status res = inl k /\ (k <= 1)%nat /\
    length2 n (fun i => L (nr_x res) i - b i) <= tol.
Proof.
  intros n L b js tol max fuel x HL Hj Ht Hm Hf. set (F := fun (x : vec) i => L x i - b i).
  assert (HF : respects n F). { intros y z H i Hi. unfold F. now rewrite (lin_ext n L HL y z H i Hi). }
  assert (G : exists res k, newton n fuel F js tol max x = Some res /\ nr_status res = inl k /\ (k <= 1)%nat).
  2:{ destruct G as (res & k & H1 & H2 & H3). exists res, k. repeat split; auto. apply (C38_newton n F js tol max fuel x res k HF H1 H2). }
  destruct fuel as [|[|fuel]]; [lia..|]. unfold newton, newton_line_search. cbn [newton_loop]. unfold newton_pass at 1. cbn [ns_f ns_x ns_iter].
  destruct (Rlt_dec tol (norm n (F x))) as [_|_].
  2:{ exists (NewtonResult x (F x) (inl 0%nat)), 0%nat. repeat split. lia. }
  replace (match max with Some m => if Nat.eq_dec 0 m then true else false | None => false end) with false by (destruct max; [destruct (Nat.eq_dec _ _); [lia|]|]; reflexivity).
  destruct (Hj x (F x)) as (d & -> & Hd). unfold no_line_search. cbn [newton_loop]. unfold newton_pass at 1. cbn [ns_f ns_x ns_iter].
  set (x' := axpy 1 _ x). assert (Hz : veq n (F x') (fun _ => 0)).
  { intros i Hi. unfold F, x'.
    assert (E : veq n (axpy 1 (fun i => d i * -1) x) (fun i => x i + -1 * d i)) by (intros j Hj'; unfold axpy; ring).
    rewrite (lin_ext n L HL _ _ E i Hi), (lin_add n L HL x d (-1) i Hi), (Hd i Hi). unfold F. ring. }
  rewrite (zero_norm n _ Hz). destruct (Rlt_dec tol 0); [lra|]. eexists _, 1%nat. repeat split. lia.
Qed.
Print Assumptions C38_affine.

(** * C39 *)
Lemma alpha_trial k : alpha (S k) = trial k.
Proof.
  destruct k as [|[|[|k]]]; [reflexivity..|]. cbn [alpha trial]. induction k as [|k IH]; [cbn; lra|].
  change (Nat.iter (S k) (fun a => 1/4 * a) (1/4)) with (1/4 * Nat.iter k (fun a => 1/4 * a) (1/4)). rewrite IH. reflexivity.
Qed.
Lemma quarter_pow k : (k <= 9)%nat -> ~ (1/4) ^ k < 1/1000000.
Proof. intros H. do 10 (destruct k as [|k]; [cbn; lra|]). lia. Qed.
Lemma trial_large k : (k <= 11)%nat -> ~ trial k < 1/1000000.
Proof. intros H. destruct k as [|[|[|k]]]; [cbn; lra..|]. cbn [trial]. apply quarter_pow. lia. Qed.
Lemma trial_last : trial 12 = (1/4) ^ 10 /\ trial 12 < 1/1000000.
Proof. cbn. split; [reflexivity|lra]. Qed.

Section Backtracking.
  Context (n : nat) (F : vec -> vec) (HF : respects n F) (x0 p f0 : vec) (Hf0 : veq n f0 (F x0)).

  Lemma accept_iff x a : veq n x (fun i => x0 i + a * p i) ->
    1/2 * dot n (F x) (F x) <= (1 - armijo_c * a) * (1/2 * dot n f0 f0) <-> decreases n F x0 p a.
  Proof using HF Hf0.
    intros Hx. unfold decreases. rewrite <- !dot_inner. rewrite (dot_ext n _ _ _ _ (HF _ _ Hx) (HF _ _ Hx)), (dot_ext n _ _ _ _ Hf0 Hf0).
    unfold armijo_c. replace (1 - 1/10000 * a) with (1 - a / 10000) by field.
    replace (1/2 * dot n (F x0) (F x0)) with (dot n (F x0) (F x0) / 2) by field.
    match goal with |- 1/2 * ?D <= _ <-> _ => replace (1/2 * D) with (D / 2) by field end. reflexivity.
  Qed.

  Definition bt_post (r : (vec * vec) * option R) : Prop :=
    let '((f, x), o) := r in
    veq n f (F x) /\
    match o with
    | Some a => exists k, (k <= 12)%nat /\ a = trial k /\ veq n x (fun i => x0 i + a * p i) /\ decreases n F x0 p a /\ forall j, (j < k)%nat -> ~ decreases n F x0 p (trial j)
    | None => veq n x (fun i => x0 i + (1/4) ^ 10 * p i) /\ forall j, (j <= 12)%nat -> ~ decreases n F x0 p (trial j)
    end.

  Lemma backtrack_spec fuel : forall k x, (k <= 12)%nat -> (forall j, (j < k)%nat -> ~ decreases n F x0 p (trial j)) -> veq n x (fun i => x0 i + alpha k * p i) ->
    match backtrack n fuel F (1/2 * dot n f0 f0) p (S k) x with Some r => bt_post r | None => (fuel < 13 - k)%nat end.
  Proof using HF Hf0.
    induction fuel as [|fuel IH]; intros k x Hk Hj Hx; [cbn [backtrack]; lia|]. cbn [backtrack pred]. set (x' := axpy _ p x).
    assert (Hx' : veq n x' (fun i => x0 i + trial k * p i)).
    { intros i Hi. unfold x', axpy. rewrite (Hx i Hi), alpha_trial. ring. }
    rewrite alpha_trial. destruct (Rle_dec _ _) as [Ha|Ha].
    - cbn. split; [apply veq_refl|]. exists k. repeat split; auto. now apply (accept_iff x').
    - assert (Hn : ~ decreases n F x0 p (trial k)) by (intros Hd; apply Ha; now apply (accept_iff x')).
      assert (Hj' : forall j, (j < S k)%nat -> ~ decreases n F x0 p (trial j)).
      { intros j Hjk. destruct (Nat.eq_dec j k) as [->|]; [exact Hn|apply Hj; lia]. }
      destruct (Rlt_dec (trial k) alpha_min) as [Hs|Hs]; unfold alpha_min in Hs.
      + assert (k = 12)%nat as -> by (destruct (le_lt_dec k 11) as [Hle|]; [now apply trial_large in Hs|lia]).
        cbn [bt_post]. split; [apply veq_refl|]. split; [exact Hx'|]. intros j Hjk. apply Hj'. lia.
      + assert (Hk' : (S k <= 12)%nat) by (destruct (Nat.eq_dec k 12) as [->|]; [exfalso; now apply Hs, trial_last|lia]).
        specialize (IH (S k) x' Hk' Hj'). rewrite alpha_trial in IH. specialize (IH Hx'). destruct (backtrack _ _ _ _ _ _ _); [exact IH|lia].
  Qed.
  Lemma backtracking_spec fuel : match backtracking n fuel F f0 x0 p with Some r => bt_post r | None => (fuel < 13)%nat end.
  Proof using HF Hf0.
    apply (backtrack_spec fuel 0 x0); [lia|intros j Hj; lia|]. intros i Hi. cbn. ring.
  Qed.
End Backtracking.

(** C39: on success the point is moved by the returned length along the direction, the function value is the one there, it decreased
    sufficiently, and none of the longer trial lengths would have done. *)
Theorem C39_accepts : forall n F fuel f x p f' x' a, respects n F -> veq n f (F x) -> backtracking n fuel F f x p = Some ((f', x'), Some a) ->
  veq n x' (fun i => x i + a * p i) /\ veq n f' (F x') /\ decreases n F x p a /\
  exists k, (k <= 12)%nat /\ a = trial k /\ forall j, (j < k)%nat -> ~ decreases n F x p (trial j).
Proof.
  intros n F fuel f x p f' x' a HF Hf H. pose proof (backtracking_spec n F HF x p f Hf fuel) as Hp. rewrite H in Hp.
  destruct Hp as (H1 & k & H2 & H3 & H4 & H5 & H6). repeat split; auto. exists k. auto.
Qed.
Print Assumptions C39_accepts.

(** C39: on failure no trial length gives a sufficient decrease, and the point is left at the last trial. *)
Theorem C39_fails : forall n F fuel f x p f' x', respects n F -> veq n f (F x) -> backtracking n fuel F f x p = Some ((f', x'), None) ->
  (forall j, (j <= 12)%nat -> ~ decreases n F x p (trial j)) /\ veq n x' (fun i => x i + (1/4) ^ 10 * p i) /\ veq n f' (F x').
Proof.
  intros n F fuel f x p f' x' HF Hf H. pose proof (backtracking_spec n F HF x p f Hf fuel) as Hp. rewrite H in Hp. destruct Hp as (H1 & H2 & H3). auto.
Qed.
Print Assumptions C39_fails.

(** C39: at most 13 evaluations are made. *)
Theorem C39_terminates : forall n F fuel f x p, respects n F -> veq n f (F x) -> (13 <= fuel)%nat -> exists r, backtracking n fuel F f x p = Some r.
Proof.
  intros n F fuel f x p HF Hf Hfu. pose proof (backtracking_spec n F HF x p f Hf fuel) as Hp. destruct (backtracking _ _ _ _ _ _) as [r|]; [now exists r|lia].
Qed.
Print Assumptions C39_terminates.

(** C39: a step is found exactly when one of the trial lengths gives a sufficient decrease. *)
Theorem C39_complete : forall n F f x p, respects n F -> veq n f (F x) ->
  (exists f' x' a, backtracking_search n F f x p = ((f', x'), Some a)) <-> exists j, (j <= 12)%nat /\ decreases n F x p (trial j).
Proof.
  intros n F f x p HF Hf. unfold backtracking_search. pose proof (backtracking_spec n F HF x p f Hf 13) as Hp.
  destruct (backtracking _ _ _ _ _ _) as [[[f' x'] [a|]]|]; [| |lia]; split.
  - intros _. destruct Hp as (_ & k & H1 & -> & _ & H2 & _). eauto.
  - intros _. eauto.
  - intros (? & ? & ? & H). discriminate.
  - intros (j & Hj & Hd). destruct Hp as (_ & _ & Hp). now apply Hp in Hd.
Qed.
Print Assumptions C39_complete.

(** The restriction to functions values that belong to the point is what Newton's method guarantees; for the line search to be usable
    with C38 it must leave the value at the new point, whatever it was given. *)
Lemma backtracking_keeps n : keeps_value n (backtracking_search n).
Proof.
  intros F f x p f' x' r HF H. unfold backtracking_search in H.
  assert (G : forall fuel g k y, match backtrack n fuel F g p k y with Some ((f', x'), _) => veq n f' (F x') | None => True end).
  { induction fuel as [|fuel IH]; intros g k y; [exact I|]. cbn. destruct (Rle_dec _ _); [apply veq_refl|]. destruct (Rlt_dec _ _); [apply veq_refl|]. apply IH. }
  assert (T : forall fuel g k y, (1 <= k <= 13)%nat -> (14 <= k + fuel)%nat -> backtrack n fuel F g p k y <> None).
  { induction fuel as [|fuel IH]; intros g k y Hk Hf; [lia|]. cbn. destruct (Rle_dec _ _); [discriminate|]. destruct (Rlt_dec _ _) as [|Hn]; [discriminate|].
    destruct k as [|k]; [lia|]. apply IH; [|lia]. rewrite alpha_trial in Hn. destruct (Nat.eq_dec k 12) as [->|]; [exfalso; apply Hn, trial_last|lia]. }
  unfold backtracking in H. specialize (G 13%nat (1/2 * dot n f f) 1%nat x). specialize (T 13%nat (1/2 * dot n f f) 1%nat x ltac:(lia) ltac:(lia)).
  destruct (backtrack _ _ _ _ _ _ _) as [[[f2 x2] r2]|]; [|contradiction]. injection H as <- <- <-. exact G.
Qed.

(** C38 with backtracking: every Newton step taken decreases the function sufficiently. *)
Theorem C39_newton : forall n F jsolve tol max_iter fuel x res k, respects n F ->
  newton_line_search n fuel F jsolve (backtracking_search n) tol max_iter x = Some res -> nr_status res = inl k ->
  length2 n (F (nr_x res)) <= tol /\
  steps (fun y z => tol < length2 n (F y) /\ exists f d p a, veq n f (F y) /\ jsolve y f = Some d /\ (forall i, p i = - d i) /\
    veq n z (fun i => y i + a * p i) /\ decreases n F y p a) k x (nr_x res).
Proof.
  intros n F js tol max fuel x res k HF H Hk.
  destruct (C38_ok n F js _ tol max fuel x res k HF (backtracking_keeps n) H Hk) as (H1 & H2 & _). split; [exact H1|].
  revert H2. apply steps_impl. intros y z (Ht & f & d & p & f' & a & Hf & Hj & Hp & Hs). split; [exact Ht|]. exists f, d, p, a.
  unfold backtracking_search in Hs. destruct (C39_terminates n F 13 f y p HF Hf (le_n _)) as (r & Hr). rewrite Hr in Hs. subst r.
  destruct (C39_accepts n F 13 f y p f' z a HF Hf Hr) as (H3 & _ & H4 & _). auto.
Qed.
Print Assumptions C39_newton.

Lemma norm1 f : norm 1 f = Rabs (f O).
Proof. unfold norm. cbn [dot]. rewrite Rplus_0_l. apply sqrt_Rsqr_abs. Qed.
Lemma trial_pos k : 0 < trial k.
Proof. destruct k as [|[|[|k]]]; [cbn; lra..|]. cbn [trial]. apply pow_lt. lra. Qed.

(** Example: for x^2 = 4 the Newton step from 1 leads to 5/2, where the iteration limit applies; a step of twice that length along a
    direction that is too long is shortened to three quarters; no step is found in a direction of increase. *)
Definition ex_F : vec -> vec := fun x _ => x O * x O - 4.
Example C38_C39_example : respects 1 ex_F /\ keeps_value 1 (backtracking_search 1) /\
  (exists res, newton 1 2 ex_F (fun x f => Some (fun _ => f O / (2 * x O))) (1/10) (Some 1%nat) (fun _ => 1) = Some res /\ nr_status res = inr (MaximumIterationsReached 1)) /\
  (exists res, newton 1 2 ex_F (fun x f => Some (fun _ => f O / (2 * x O))) 3 (Some 1%nat) (fun _ => 1/2) = Some res /\ nr_status res = inr (MaximumIterationsReached 1)) /\
  (exists res, newton 1 2 ex_F (fun x f => Some (fun _ => f O / (2 * x O))) (5/2) (Some 1%nat) (fun _ => 1) = Some res /\ nr_status res = inl 1%nat) /\
  (exists f' x', backtracking 1 13 ex_F (ex_F (fun _ => 1)) (fun _ => 1) (fun _ => 2) = Some ((f', x'), Some (3/4))) /\
  (exists f' x', backtracking 1 13 ex_F (ex_F (fun _ => 1)) (fun _ => 1) (fun _ => -1/10) = Some ((f', x'), None)).
Proof.
  assert (HF : respects 1 ex_F) by (intros x y H i Hi; unfold ex_F; rewrite (H O); [reflexivity|lia]).
  split; [exact HF|]. split; [apply backtracking_keeps|].
  assert (Hneg : forall x, x < 0 -> Rabs x = - x) by (intros; now apply Rabs_left). assert (Hpos : forall x, 0 <= x -> Rabs x = x) by (intros; apply Rabs_pos_eq; lra).
  split; [|split; [|split; [|split]]].
  1-3: unfold newton, newton_line_search; cbn [newton_loop]; unfold newton_pass at 1; cbn [ns_f ns_x ns_iter Nat.eq_dec nat_rec nat_rect sumbool_rec sumbool_rect];
    rewrite norm1; destruct (Rlt_dec _ _) as [_|H]; [|exfalso; apply H; unfold ex_F; rewrite Hneg; lra];
    unfold no_line_search; cbn [newton_loop]; unfold newton_pass at 1; cbn [ns_f ns_x ns_iter Nat.eq_dec nat_rec nat_rect sumbool_rec sumbool_rect];
    rewrite norm1.
  - destruct (Rlt_dec _ _) as [_|H]; [eexists; split; reflexivity|]. exfalso. apply H. unfold ex_F, axpy. rewrite Hpos; lra.
  - destruct (Rlt_dec _ _) as [_|H]; [eexists; split; reflexivity|]. exfalso. apply H. unfold ex_F, axpy. rewrite Hpos; lra.
  - destruct (Rlt_dec _ _) as [H|_]; [|eexists; split; reflexivity]. exfalso. revert H. unfold ex_F, axpy. rewrite Hpos; lra.
  - unfold backtracking. cbn [backtrack]. destruct (Rle_dec _ _) as [H|_].
    { exfalso. revert H. unfold armijo_c, ex_F, axpy. cbn [dot alpha pred]. lra. }
    destruct (Rlt_dec _ _) as [H|_]; [exfalso; revert H; unfold alpha_min; cbn [alpha]; lra|].
    destruct (Rle_dec _ _) as [_|H]; [eexists _, _; reflexivity|].
    exfalso. apply H. unfold armijo_c, ex_F, axpy. cbn [dot alpha pred]. lra.
  - destruct (C39_terminates 1 ex_F 13 (ex_F (fun _ => 1)) (fun _ => 1) (fun _ => -1/10) HF (veq_refl _ _) (le_n _)) as ([[f' x'] [a|]] & Hr); [exfalso|eauto].
    destruct (C39_accepts 1 ex_F 13 _ _ _ _ _ _ HF (veq_refl _ _) Hr) as (_ & _ & Hd & k & Hk & -> & _). pose proof (trial_pos k) as Hp.
    assert (Hle : trial k <= 1).
    { destruct k as [|[|[|k]]]; [cbn; lra..|]. cbn [trial]. apply (Rle_trans _ (1 ^ (S k))); [apply pow_incr; lra|rewrite pow1; lra]. }
    revert Hd Hp Hle. generalize (trial k). intros a Hd Hp Hle. unfold decreases, ex_F in Hd. cbn in Hd.
    set (u := 1 + a * (-1/10)) in Hd. assert (Hu : 0 < u < 1) by (unfold u; lra). assert (Hw : u * u < 1) by nra.
    set (w := u * u) in *. clearbody w. assert (9 < (w - 4) * (w - 4)) by nra. nra.
Qed.

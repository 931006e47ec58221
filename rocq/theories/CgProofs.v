(** Lemmas for C36 and C37. *)
From Coq Require Import Reals Lra Lia Arith List.
From Verif Require Import CgModel CgSpec.
Open Scope R_scope.

(** * inner products *)
Lemma dot_inner n x y : dot n x y = inner n x y.
Proof. destruct n as [|n]; [reflexivity|]. cbn [inner]. induction n as [|n IH]; cbn [dot sum_f_R0] in *; [lra|]. rewrite <- IH. reflexivity. Qed.
Lemma norm_length2 n x : norm n x = length2 n x.
Proof. unfold norm, length2. now rewrite dot_inner. Qed.
Lemma dot_ext n x x' y y' : veq n x x' -> veq n y y' -> dot n x y = dot n x' y'.
Proof.
  induction n as [|n IH]; intros Hx Hy; cbn; [reflexivity|]. rewrite IH; [|intros i Hi; apply Hx; lia|intros i Hi; apply Hy; lia].
  rewrite (Hx n), (Hy n) by lia. reflexivity.
Qed.
Lemma dot_comm n x y : dot n x y = dot n y x.
Proof. induction n as [|n IH]; cbn; [reflexivity|]. rewrite IH. ring. Qed.
Lemma dot_add_l n x y a w : dot n (fun i => x i + a * y i) w = dot n x w + a * dot n y w.
Proof. induction n as [|n IH]; cbn; [ring|]. rewrite IH. ring. Qed.
Lemma dot_add_r n x y a w : dot n w (fun i => x i + a * y i) = dot n w x + a * dot n w y.
Proof. rewrite dot_comm, dot_add_l. now rewrite (dot_comm n x), (dot_comm n y). Qed.
Lemma dot_zero n w : dot n (fun _ => 0) w = 0.
Proof. induction n as [|n IH]; cbn; [reflexivity|]. rewrite IH. ring. Qed.
Lemma dot_nonneg n x : 0 <= dot n x x.
Proof. induction n as [|n IH]; cbn; [lra|]. pose proof (Rle_0_sqr (x n)). unfold Rsqr in *. lra. Qed.
Lemma dot_self_zero n x : dot n x x = 0 -> veq n x (fun _ => 0).
Proof.
  induction n as [|n IH]; cbn; intros H i Hi; [lia|]. pose proof (dot_nonneg n x). pose proof (Rle_0_sqr (x n)) as Hs. unfold Rsqr in Hs.
  destruct (Nat.eq_dec i n) as [->|Hne].
  - assert (x n * x n = 0) as Hsq by lra. apply Rmult_integral in Hsq. tauto.
  - apply IH; [lra|lia].
Qed.
Lemma norm_zero n x : norm n x = 0 -> veq n x (fun _ => 0).
Proof. intros H. apply dot_self_zero. apply sqrt_eq_0; [apply dot_nonneg|exact H]. Qed.
Lemma zero_norm n x : veq n x (fun _ => 0) -> norm n x = 0.
Proof. intros H. unfold norm. rewrite (dot_ext n x (fun _ => 0) x x H (fun _ _ => eq_refl)), dot_zero. apply sqrt_0. Qed.

Lemma veq_dec0 n x : veq n x (fun _ => 0) \/ ~ veq n x (fun _ => 0).
Proof.
  destruct (Req_EM_T (dot n x x) 0) as [H|H]; [left; now apply dot_self_zero|]. right. intros Hz. apply H.
  rewrite (dot_ext n x (fun _ => 0) x x Hz (fun _ _ => eq_refl)). apply dot_zero.
Qed.

Lemma linear_zero n L : linear_map n L -> forall x, veq n x (fun _ => 0) -> veq n (L x) (fun _ => 0).
Proof.
  intros [He Ha] x Hx i Hi.
  pose proof (Ha x x (-1) i Hi) as H. cbn in H.
  assert (Hz : veq n (fun i => x i + -1 * x i) x) by (intros j Hj; cbn; rewrite (Hx j Hj); ring).
  rewrite (He _ _ Hz i Hi) in H. lra.
Qed.

(** * more vectors than dimensions are linearly dependent *)
Fixpoint comb (m : nat) (c : nat -> R) (v : nat -> vec) (i : nat) : R := match m with O => 0 | S m => comb m c v i + c m * v m i end.

Lemma comb_ext m c c' v v' i : (forall j, (j < m)%nat -> c j = c' j /\ v j i = v' j i) -> comb m c v i = comb m c' v' i.
Proof. induction m as [|m IH]; intros H; cbn; [reflexivity|]. rewrite IH by (intros; apply H; lia). destruct (H m) as [-> ->]; [lia|]. reflexivity. Qed.
Lemma comb_sub m c v (a : nat -> R) w i : comb m c (fun j i => v j i - a j * w i) i = comb m c v i - comb m c (fun j _ => a j) 0%nat * w i.
Proof. induction m as [|m IH]; cbn; [ring|]. rewrite IH. ring. Qed.

Definition swapf (a b : nat) (j : nat) : nat := if Nat.eq_dec j a then b else if Nat.eq_dec j b then a else j.
Lemma swapf_invol a b j : swapf a b (swapf a b j) = j.
Proof. unfold swapf. repeat destruct (Nat.eq_dec _ _); subst; congruence. Qed.

Lemma comb_one m k v c i : (k < m)%nat -> (forall j, (j < m)%nat -> j <> k -> c j * v j i = 0) -> comb m c v i = c k * v k i.
Proof.
  induction m as [|m IH]; intros Hk H; [lia|]. cbn. destruct (Nat.eq_dec k m) as [->|Hne].
  - assert (E : comb m c v i = 0); [|rewrite E; ring]. clear IH Hk. assert (H' : forall j, (j < m)%nat -> c j * v j i = 0) by (intros; apply H; lia). clear H.
    induction m as [|m IH]; cbn; [reflexivity|]. rewrite IH by (intros; apply H'; lia). rewrite H' by lia. ring.
  - rewrite IH; [|lia|intros; apply H; lia]. rewrite (H m) by lia. ring.
Qed.

(** exchanging two vectors (and their coefficients) does not change the combination *)
Lemma comb_swap m k c v i : (k < m)%nat -> comb (S m) (fun j => c (swapf k m j)) (fun j => v (swapf k m j)) i = comb (S m) c v i.
Proof.
  intros Hk. cbn. assert (E : forall q, (k < q)%nat -> (q <= m)%nat ->
    comb q (fun j => c (swapf k m j)) (fun j => v (swapf k m j)) i = comb q c v i - c k * v k i + c m * v m i).
  { induction q as [|q IH]; intros H1 H2; [lia|]. cbn. destruct (Nat.eq_dec k q) as [->|Hne].
    - rewrite (comb_ext q _ c _ v).
      + unfold swapf. destruct (Nat.eq_dec q q); [ring|congruence].
      + intros j Hj. unfold swapf. destruct (Nat.eq_dec j q); [lia|]. destruct (Nat.eq_dec j m); [lia|]. split; reflexivity.
    - rewrite IH by lia. unfold swapf at 1 2. destruct (Nat.eq_dec q k); [lia|]. destruct (Nat.eq_dec q m); [lia|]. ring. }
  rewrite E by lia. unfold swapf at 1 2. destruct (Nat.eq_dec m k); [lia|]. destruct (Nat.eq_dec m m); [ring|congruence].
Qed.

Lemma dependent n : forall v : nat -> vec, exists c : nat -> R,
  (exists j, (j <= n)%nat /\ c j <> 0) /\ forall i, (i < n)%nat -> comb (S n) c v i = 0.
Proof.
  induction n as [|n IH]; intros v.
  - exists (fun _ => 1). split; [exists 0%nat; split; [lia|lra]|]. intros i Hi. lia.
  - assert (Hdec : (forall j, (j <= S n)%nat -> v j n = 0) \/ exists j, (j <= S n)%nat /\ v j n <> 0).
    { generalize (S n) as q. induction q as [|q [H|(j & Hj & H)]].
      - destruct (Req_EM_T (v 0%nat n) 0) as [H|H]; [left; intros j Hj; now replace j with 0%nat by lia|right; exists 0%nat; split; [lia|exact H]].
      - destruct (Req_EM_T (v (S q) n) 0) as [H0|H0].
        + left. intros j Hj. destruct (Nat.eq_dec j (S q)) as [->|]; [exact H0|apply H; lia].
        + right. exists (S q). split; [lia|exact H0].
      - right. exists j. split; [lia|exact H]. }
    destruct Hdec as [Hz|(m & Hm & Hnz)].
    + destruct (IH v) as (c & (j & Hj & Hcj) & Hc). exists (fun q => if Nat.eq_dec q (S n) then 0 else c q). split.
      * exists j. split; [lia|]. destruct (Nat.eq_dec j (S n)); [lia|exact Hcj].
      * intros i Hi. change (comb (S (S n)) ?c v i) with (comb (S n) c v i + c (S n) * v (S n) i). cbv beta.
        destruct (Nat.eq_dec (S n) (S n)) as [_|]; [|congruence]. rewrite Rmult_0_l, Rplus_0_r.
        rewrite (comb_ext (S n) _ c _ v).
        -- destruct (Nat.eq_dec i n) as [->|Hne]; [|apply Hc; lia]. assert (E : forall q c, (q <= S n)%nat -> comb q c v n = 0); [|now apply E].
           induction q as [|q IHq]; intros c0 Hq; cbn; [reflexivity|]. rewrite IHq by lia. rewrite Hz by lia. ring.
        -- intros q Hq. destruct (Nat.eq_dec q (S n)); [lia|]. split; reflexivity.
    + (* move vector m to the end and eliminate entry n *)
      set (w := fun j => v (swapf m (S n) j)).
      assert (Hw : w (S n) n <> 0).
      { unfold w, swapf. destruct (Nat.eq_dec (S n) m) as [e|]; [|destruct (Nat.eq_dec (S n) (S n)); [exact Hnz|congruence]]. rewrite e. exact Hnz. }
      set (a := fun j => w j n / w (S n) n).
      destruct (IH (fun j i => w j i - a j * w (S n) i)) as (c & (j & Hj & Hcj) & Hc).
      set (c' := fun q => if Nat.eq_dec q (S n) then - comb (S n) c (fun j _ => a j) 0%nat else c q).
      assert (Hcomb : forall i, (i < S n)%nat -> comb (S (S n)) c' w i = 0).
      { intros i Hi. change (comb (S (S n)) c' w i) with (comb (S n) c' w i + c' (S n) * w (S n) i).
        rewrite (comb_ext (S n) c' c w w) by (intros q Hq; unfold c'; destruct (Nat.eq_dec q (S n)); [lia|split; reflexivity]).
        unfold c'. destruct (Nat.eq_dec (S n) (S n)) as [_|]; [|congruence].
        replace (comb (S n) c w i + - comb (S n) c (fun j _ => a j) 0%nat * w (S n) i) with (comb (S n) c (fun j i => w j i - a j * w (S n) i) i)
          by (rewrite comb_sub; ring).
        destruct (Nat.eq_dec i n) as [->|Hne]; [|apply Hc; lia].
        assert (E : forall q, comb q c (fun j i => w j i - a j * w (S n) i) n = 0); [|apply E].
        induction q as [|q IHq]; cbn; [reflexivity|]. rewrite IHq. unfold a. field. exact Hw. }
      exists (fun q => c' (swapf m (S n) q)). split.
      * exists (swapf m (S n) j). split.
        -- unfold swapf. destruct (Nat.eq_dec j m); [lia|]. destruct (Nat.eq_dec j (S n)); lia.
        -- rewrite swapf_invol. unfold c'. destruct (Nat.eq_dec j (S n)); [lia|exact Hcj].
      * intros i Hi. destruct (Nat.eq_dec m (S n)) as [Hms|Hms].
        -- rewrite <- (Hcomb i Hi). apply comb_ext. intros q Hq. unfold w, swapf. rewrite Hms.
           destruct (Nat.eq_dec q (S n)); [subst; split; [|reflexivity]|split; reflexivity]. reflexivity.
        -- rewrite <- (Hcomb i Hi). rewrite <- (comb_swap (S n) m c' w i) by lia. apply comb_ext. intros q Hq. split; [reflexivity|].
           unfold w. now rewrite swapf_invol.
Qed.

Lemma dot_comb n m c v w : dot n (fun i => comb m c v i) w = comb m c (fun j _ => dot n (v j) w) 0%nat.
Proof.
  induction m as [|m IH]; cbn; [apply dot_zero|]. rewrite <- IH. rewrite <- dot_add_l. reflexivity.
Qed.

(** * the solver *)
Section Run.
  Context (n : nat) (A P : vec -> option vec) (criterion : vec -> vec -> R -> nat -> vec -> bool + cg_error) (max_iter : option nat).
  Context (b : vec) (b_norm : R) (LA LP : vec -> vec).
  Context (HA : computes n A LA) (HP : computes n P LP).

  Notation pass := (cg_pass n A P criterion max_iter b b_norm).

  Definition below (k : nat) : Prop := match max_iter with Some m => (k < m)%nat | None => True end.

  Record continues (st st' : cg_state) : Prop := {
    ct_crit : criterion (cg_x st) b b_norm (cg_k st) (cg_r st) = inl false;
    ct_below : below (cg_k st);
    ct_pAp : 0 < dot n (cg_p st) (LA (cg_p st));
    ct_zTr : 0 < cg_zTr st;
    ct_x : cg_x st' = fun i => cg_x st i + cg_zTr st / dot n (cg_p st) (LA (cg_p st)) * cg_p st i;
    ct_r : veq n (cg_r st') (fun i => cg_r st i - cg_zTr st / dot n (cg_p st) (LA (cg_p st)) * LA (cg_p st) i);
    ct_zTr' : cg_zTr st' = dot n (LP (cg_r st')) (cg_r st');
    ct_p : veq n (cg_p st') (fun i => cg_p st i * (cg_zTr st' / cg_zTr st) + LP (cg_r st') i);
    ct_k : cg_k st' = S (cg_k st);
  }.

  Lemma pass_continues st st' : pass st = inr st' -> continues st st'.
  Proof using HA HP.
    unfold cg_pass. destruct (criterion _ _ _ _ _) as [[]|] eqn:Ec; [discriminate| |discriminate].
    destruct (match max_iter with Some m => if le_dec m (cg_k st) then Some m else None | None => None end) eqn:El; [discriminate|].
    destruct (A (cg_p st)) as [Ap|] eqn:EA; [|discriminate]. pose proof (HA _ _ EA) as HAp.
    rewrite (dot_ext n (cg_p st) (cg_p st) Ap (LA (cg_p st)) (fun _ _ => eq_refl) HAp).
    destruct (Rle_dec _ 0) as [|H1]; [discriminate|]. destruct (Rle_dec (cg_zTr st) 0) as [|H2]; [discriminate|].
    destruct (P _) as [z|] eqn:EP; [|discriminate]. intros [= <-]. pose proof (HP _ _ EP) as Hz. constructor; cbn [cg_x cg_r cg_p cg_zTr cg_k].
    - exact Ec.
    - unfold below. destruct max_iter; [|exact I]. destruct (le_dec _ _); [discriminate|lia].
    - lra.
    - lra.
    - reflexivity.
    - intros i Hi. cbn. now rewrite (HAp i Hi).
    - apply dot_ext; [exact Hz|intros i Hi; reflexivity].
    - intros i Hi. now rewrite (Hz i Hi).
    - reflexivity.
  Qed.

  (** the conditions under which a pass returns *)
  Definition stops (st : cg_state) (res : cg_result) : Prop :=
    (res = CgResult (cg_x st) (cg_k st) None /\ criterion (cg_x st) b b_norm (cg_k st) (cg_r st) = inl true) \/
    (exists e, res_error res = Some e /\
      (criterion (cg_x st) b b_norm (cg_k st) (cg_r st) = inr e /\ res_iterations res = cg_k st \/
       (exists m, e = MaxIterationsReached m /\ max_iter = Some m /\ (m <= cg_k st)%nat /\ res_iterations res = cg_k st /\
          res_x res = cg_x st /\ criterion (cg_x st) b b_norm (cg_k st) (cg_r st) = inl false) \/
       (below (cg_k st) /\ criterion (cg_x st) b b_norm (cg_k st) (cg_r st) = inl false /\
         ((e = OperatorError /\ A (cg_p st) = None /\ res_iterations res = cg_k st) \/
          (e = IndefiniteOperator /\ dot n (cg_p st) (LA (cg_p st)) <= 0 /\ res_iterations res = cg_k st) \/
          (e = IndefinitePreconditioner /\ 0 < dot n (cg_p st) (LA (cg_p st)) /\ cg_zTr st <= 0 /\ res_iterations res = cg_k st) \/
          (e = PreconditionerError /\ (exists r, P r = None) /\ res_iterations res = S (cg_k st)))))).

  Lemma pass_stops st res : pass st = inl res -> stops st res.
  Proof using HA HP.
    unfold cg_pass, stops. destruct (criterion _ _ _ _ _) as [[]|e] eqn:Ec.
    - intros [= <-]. left. split; reflexivity.
    - destruct (match max_iter with Some m => if le_dec m (cg_k st) then Some m else None | None => None end) as [m|] eqn:El.
      + intros [= <-]. right. exists (MaxIterationsReached m). split; [reflexivity|]. right; left. exists m. destruct max_iter as [m'|]; [|discriminate].
        destruct (le_dec _ _) as [Hle|]; [|discriminate]. injection El as ->. repeat split; auto.
      + assert (Hb : below (cg_k st)) by (unfold below; destruct max_iter; [destruct (le_dec _ _); [discriminate|lia]|exact I]).
        destruct (A (cg_p st)) as [Ap|] eqn:EA.
        * pose proof (HA _ _ EA) as HAp. rewrite (dot_ext n (cg_p st) (cg_p st) Ap (LA (cg_p st)) (fun _ _ => eq_refl) HAp).
          destruct (Rle_dec _ 0) as [H1|H1].
          { intros [= <-]. right. exists IndefiniteOperator. split; [reflexivity|]. right; right. repeat split; auto. }
          destruct (Rle_dec (cg_zTr st) 0) as [H2|H2].
          { intros [= <-]. right. exists IndefinitePreconditioner. split; [reflexivity|]. right; right. repeat split; auto. right; right; left. repeat split; auto. lra. }
          destruct (P _) as [z|] eqn:EP; [discriminate|]. intros [= <-]. right. exists PreconditionerError. split; [reflexivity|]. right; right. repeat split; auto.
          right; right; right. repeat split; auto. eexists; exact EP.
        * intros [= <-]. right. exists OperatorError. split; [reflexivity|]. right; right. repeat split; auto.
    - intros [= <-]. right. exists e. split; [reflexivity|]. left. split; reflexivity.
  Qed.

  (** states that the loop goes through *)
  Inductive reaches (st0 : cg_state) : cg_state -> Prop :=
  | reaches_refl : reaches st0 st0
  | reaches_step st st' : reaches st0 st -> pass st = inr st' -> reaches st0 st'.

  Lemma loop_reaches fuel : forall st0 st res, reaches st0 st -> cg_loop n A P criterion max_iter b b_norm fuel st = Some res ->
    exists st', reaches st0 st' /\ pass st' = inl res.
  Proof using.
    induction fuel as [|fuel IH]; intros st0 st res Hr H; [discriminate|]. cbn in H. destruct (pass st) as [res'|st'] eqn:E.
    - injection H as <-. exists st. split; [exact Hr|exact E].
    - apply (IH st0 st' res); [|exact H]. now apply (reaches_step _ st).
  Qed.
  Lemma loop_fuel fuel : forall st, cg_loop n A P criterion max_iter b b_norm fuel st = None ->
    exists st', reaches st st' /\ cg_k st' = (cg_k st + fuel)%nat.
  Proof using HA HP.
    assert (G : forall fuel st0 st, reaches st0 st -> cg_loop n A P criterion max_iter b b_norm fuel st = None ->
      exists st', reaches st0 st' /\ cg_k st' = (cg_k st + fuel)%nat).
    { induction fuel0 as [|f IH]; intros st0 st Hr H; [exists st; split; [exact Hr|lia]|]. cbn in H. destruct (pass st) as [res'|st'] eqn:E; [discriminate|].
      destruct (IH st0 st' (reaches_step _ _ _ Hr E) H) as (st2 & Hr2 & Hk). exists st2. split; [exact Hr2|]. rewrite Hk, (ct_k _ _ (pass_continues _ _ E)). lia. }
    intros st. apply G. constructor.
  Qed.

  Record ok_state (st : cg_state) : Prop := {
    ok_r : veq n (cg_r st) (residual LA b (cg_x st));
    ok_zTr : cg_zTr st = dot n (LP (cg_r st)) (cg_r st);
    ok_pr : dot n (cg_p st) (cg_r st) = cg_zTr st;
    ok_k : match max_iter with Some m => (cg_k st <= m)%nat | None => True end;
  }.

  Lemma continues_ok st st' : linear_map n LA -> ok_state st -> continues st st' -> ok_state st'.
  Proof using.
    intros HL [Hr Hz Hp Hk] C. set (alpha := cg_zTr st / dot n (cg_p st) (LA (cg_p st))).
    pose proof (ct_pAp _ _ C) as H1. pose proof (ct_zTr _ _ C) as H2. constructor.
    - intros i Hi. rewrite (ct_r _ _ C i Hi). unfold residual. rewrite (ct_x _ _ C). fold alpha.
      rewrite (lin_add n LA HL (cg_x st) (cg_p st) alpha i Hi). rewrite (Hr i Hi). unfold residual. ring.
    - exact (ct_zTr' _ _ C).
    - rewrite (dot_ext n _ _ _ _ (ct_p _ _ C) (fun _ _ => eq_refl)).
      assert (E : dot n (cg_p st) (cg_r st') = 0).
      { rewrite (dot_ext n (cg_p st) (cg_p st) _ _ (fun _ _ => eq_refl) (ct_r _ _ C)).
        rewrite (dot_ext n (cg_p st) (cg_p st) _ (fun i => cg_r st i + (- alpha) * LA (cg_p st) i)); [|intros i Hi; reflexivity|intros i Hi; unfold alpha; ring].
        rewrite dot_add_r, Hp. unfold alpha. field. lra. }
      rewrite (dot_ext n _ (fun i => LP (cg_r st') i + cg_zTr st' / cg_zTr st * cg_p st i) _ (cg_r st')); [|intros i Hi; cbn; ring|intros i Hi; reflexivity].
      rewrite dot_add_l, E, <- (ct_zTr' _ _ C). ring.
    - rewrite (ct_k _ _ C). pose proof (ct_below _ _ C) as Hb. unfold below in Hb. destruct max_iter; [lia|exact I].
  Qed.

  Lemma reaches_ok st0 st : linear_map n LA -> ok_state st0 -> reaches st0 st -> ok_state st.
  Proof using HA HP. intros HL H0 Hr. induction Hr as [|st st' Hr IH E]; [exact H0|]. apply (continues_ok st); auto. now apply pass_continues. Qed.

  Lemma init_ok x st : cg_init n A P b x = inr st -> ok_state st /\ cg_x st = x /\ cg_k st = 0%nat /\ veq n (cg_p st) (LP (cg_r st)).
  Proof using HA HP.
    unfold cg_init. destruct (A x) as [Ax|] eqn:EA; [|discriminate]. destruct (P _) as [z|] eqn:EP; [|discriminate]. intros [= <-].
    pose proof (HA _ _ EA) as H1. pose proof (HP _ _ EP) as H2. cbn. split; [constructor; cbn|].
    - intros i Hi. cbn. unfold residual. now rewrite (H1 i Hi).
    - apply dot_ext; [exact H2|intros i Hi; reflexivity].
    - reflexivity.
    - destruct max_iter; [lia|exact I].
    - repeat split. exact H2.
  Qed.
End Run.

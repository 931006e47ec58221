(** Polynomials of bounded degree and bounded sum of absolute coefficients: basis functions and gradients of the simplices. *)
From Coq Require Import Reals List Arith Lia Lra.
From Verif Require Import MaterialModel ElementModel ElementSpec QuadPolyN TableCheck.
Import ListNotations.
Local Open Scope R_scope.

(** total degree at most [t] in [dim] variables, sum of the absolute values of the coefficients at most [s] *)
Definition Sz (dim t : nat) (s : R) (f : point -> R) : Prop :=
  exists p : poly, List.Forall (fun m : R * (nat * nat * nat) => total_degree dim t (snd m)) p /\ size_of p <= s /\ forall x, f x = peval p x.

Lemma size_pos p : 0 <= size_of p.
Proof. induction p as [|c p IH]; cbn [size_of fold_right]; [lra|]. fold (size_of p). pose proof (Rabs_pos (fst c)). lra. Qed.
Lemma size_app p q : size_of (p ++ q) = size_of p + size_of q.
Proof. unfold size_of. induction p as [|c p IH]; cbn [app fold_right]; [ring|]. rewrite IH. ring. Qed.
Lemma size_scale k p : size_of (map (fun m : R * (nat * nat * nat) => (k * fst m, snd m)) p) = Rabs k * size_of p.
Proof. unfold size_of. induction p as [|c p IH]; cbn [map fold_right fst]; [ring|]. rewrite IH, Rabs_mult. ring. Qed.

Lemma Sz_ext dim t s f g : (forall x, g x = f x) -> Sz dim t s f -> Sz dim t s g.
Proof. intros E (p & D & B & H). exists p. split; [exact D|]. split; [exact B|]. intros x. rewrite E. apply H. Qed.
Lemma Sz_weaken dim t s t' s' f : (t <= t')%nat -> s <= s' -> Sz dim t s f -> Sz dim t' s' f.
Proof.
  intros T L (p & D & B & H). exists p. split; [|split; [lra|exact H]]. eapply List.Forall_impl; [|exact D]. intros m (A & A2 & A3). split; [lia|]. split; assumption.
Qed.
Lemma Sz_zero dim t s : 0 <= s -> Sz dim t s (fun _ => 0).
Proof. intros L. exists []. split; [constructor|]. split; [exact L|reflexivity]. Qed.
Lemma Sz_one dim s e t : total_degree dim t e -> 1 <= s -> Sz dim t s (monomial e).
Proof.
  intros D L. exists [(1, e)]. split; [constructor; [exact D|constructor]|]. split; [unfold size_of; cbn; rewrite Rabs_R1; lra|]. intros x. unfold peval. cbn [fold_right fst snd]. ring.
Qed.
Lemma Sz_add dim t s t' s' f g : Sz dim t s f -> Sz dim t' s' g -> Sz dim (Nat.max t t') (s + s') (fun x => f x + g x).
Proof.
  intros F G. apply (Sz_weaken dim _ s (Nat.max t t') s) in F; [|lia|lra]. apply (Sz_weaken dim _ s' (Nat.max t t') s') in G; [|lia|lra].
  destruct F as (p & D & B & H). destruct G as (q & D' & B' & H'). exists (p ++ q). split; [apply List.Forall_app; split; assumption|]. split; [rewrite size_app; lra|]. intros x. rewrite peval_app, H, H'. reflexivity.
Qed.
Lemma Sz_scale dim t s k f : Sz dim t s f -> Sz dim t (Rabs k * s) (fun x => k * f x).
Proof.
  intros (p & D & B & H). exists (map (fun m : R * (nat * nat * nat) => (k * fst m, snd m)) p). split; [apply List.Forall_map; cbn; exact D|]. split.
  - rewrite size_scale. apply Rmult_le_compat_l; [apply Rabs_pos|exact B].
  - intros x. rewrite H. clear. unfold peval. induction p as [|m p IH]; cbn [fold_right map fst snd]; [ring|]. rewrite <- IH, Rmult_assoc. apply Rmult_plus_distr_l.
Qed.
Lemma Sz_mul dim t s t' s' f g : Sz dim t s f -> Sz dim t' s' g -> Sz dim (t + t') (s * s') (fun x => f x * g x).
Proof.
  intros (p & D & B & H) (q & D' & B' & H').
  assert (A : exists r : poly, List.Forall (fun m : R * (nat * nat * nat) => total_degree dim (t + t') (snd m)) r /\ size_of r = size_of p * size_of q /\ forall x, peval p x * peval q x = peval r x).
  { clear H H' B B'. induction D as [|m p Dm _ (r & R1 & R2 & R3)].
    - exists []. split; [constructor|]. split; [unfold size_of; cbn; ring|]. intros x. unfold peval. cbn. ring.
    - exists (map (fun k : R * (nat * nat * nat) => (fst m * fst k, add_exps (snd m) (snd k))) q ++ r). split; [|split].
      + apply List.Forall_app. split; [|exact R1]. apply List.Forall_map. cbn. eapply List.Forall_impl; [|exact D']. cbn. intros a Da. apply total_add; assumption.
      + rewrite size_app, R2. assert (E : size_of (map (fun k : R * (nat * nat * nat) => (fst m * fst k, add_exps (snd m) (snd k))) q) = Rabs (fst m) * size_of q).
        { clear. unfold size_of. induction q as [|c q IH]; cbn [map fold_right fst]; [ring|]. rewrite IH, Rabs_mult. ring. }
        rewrite E. change (size_of (m :: p)) with (Rabs (fst m) + size_of p). ring.
      + intros x. rewrite peval_app, <- R3. assert (E : peval (map (fun k : R * (nat * nat * nat) => (fst m * fst k, add_exps (snd m) (snd k))) q) x = fst m * monomial (snd m) x * peval q x).
        { clear. unfold peval. induction q as [|k q IH]; cbn [fold_right map fst snd]; [ring|]. rewrite IH, monomial_mul. unfold exps. ring. }
        rewrite E. unfold peval. cbn [fold_right]. ring. }
  destruct A as (r & R1 & R2 & R3). exists r. split; [exact R1|]. split; [|intros x; rewrite H, H'; apply R3].
  rewrite R2. apply Rmult_le_compat; [apply size_pos|apply size_pos|exact B|exact B'].
Qed.
Lemma Sz_const_pos dim k : 0 <= k -> Sz dim 0 k (fun _ => k).
Proof.
  intros L. apply (Sz_ext _ _ _ (fun x => k * monomial (0, 0, 0)%nat x)); [intros; unfold monomial; cbn; ring|]. apply (Sz_weaken dim 0 (Rabs k * 1)); [lia|rewrite Rabs_pos_eq by exact L; lra|].
  apply Sz_scale, Sz_one; [|lra]. split; [cbn; lia|split; reflexivity].
Qed.
Lemma Sz_opp dim t s f : Sz dim t s f -> Sz dim t s (fun x => - f x).
Proof. intros F. apply (Sz_ext _ _ _ (fun x => -1 * f x)); [intros; ring|]. apply (Sz_weaken dim t (Rabs (-1) * s)); [lia|rewrite Rabs_left by lra; lra|]. apply Sz_scale, F. Qed.
Lemma Sz_const_neg dim k : k <= 0 -> Sz dim 0 (- k) (fun _ => k).
Proof. intros L. apply (Sz_ext _ _ _ (fun x => - (- k))); [intros; ring|]. apply (Sz_opp dim 0 (- k) (fun _ => - k)), Sz_const_pos. lra. Qed.
Lemma Sz_sub dim t s t' s' f g : Sz dim t s f -> Sz dim t' s' g -> Sz dim (Nat.max t t') (s + s') (fun x => f x - g x).
Proof. intros F G. exact (Sz_add _ _ _ _ _ f (fun x => - g x) F (Sz_opp _ _ _ _ G)). Qed.
Lemma Sz_x dim : Sz dim 1 1 (fun x => x 0%nat).
Proof. apply (Sz_ext _ _ _ (monomial (1, 0, 0)%nat)); [intros; unfold monomial; cbn; ring|]. apply Sz_one; [|lra]. split; [cbn; lia|split; reflexivity]. Qed.
Lemma Sz_y dim : (2 <= dim)%nat -> Sz dim 1 1 (fun x => x 1%nat).
Proof. intros L. apply (Sz_ext _ _ _ (monomial (0, 1, 0)%nat)); [intros; unfold monomial; cbn; ring|]. apply Sz_one; [|lra]. split; [cbn; lia|split; [reflexivity|lia]]. Qed.
Lemma Sz_z dim : (3 <= dim)%nat -> Sz dim 1 1 (fun x => x 2%nat).
Proof. intros L. apply (Sz_ext _ _ _ (monomial (0, 0, 1)%nat)); [intros; unfold monomial; cbn; ring|]. apply Sz_one; [|lra]. split; [cbn; lia|split; [lia|lia]]. Qed.
Lemma Sz_summ dim t n (s : nat -> R) (f : nat -> point -> R) : (forall k, (k < n)%nat -> Sz dim t (s k) (f k)) -> Sz dim t (summ n s) (fun x => summ n (fun k => f k x)).
Proof.
  induction n as [|n IH]; intros F; cbn [summ]; [apply Sz_zero; lra|].
  apply (Sz_weaken dim (Nat.max t t) (summ n s + s n)); [lia|lra|]. exact (Sz_add _ _ _ _ _ _ _ (IH (fun k Hk => F k (Nat.lt_lt_succ_r _ _ Hk))) (F n (Nat.lt_succ_diag_r n))).
Qed.

Ltac sz := lazymatch goal with
  | |- Sz _ _ _ (fun x => x 0%nat) => apply Sz_x
  | |- Sz _ _ _ (fun x => x 1%nat) => apply Sz_y; lia
  | |- Sz _ _ _ (fun x => x 2%nat) => apply Sz_z; lia
  | |- Sz _ _ _ (fun _ => ?k) => first [apply Sz_const_pos; lra|apply Sz_const_neg; lra]
  | |- Sz _ _ _ (fun x => _ + _) => eapply Sz_add; sz
  | |- Sz _ _ _ (fun x => _ - _) => eapply Sz_sub; sz
  | |- Sz _ _ _ (fun x => - _) => eapply Sz_opp; sz
  | |- Sz _ _ _ (fun x => _ * _) => eapply Sz_mul; sz
  end.
Ltac size := eapply Sz_weaken; cycle 2; [sz|cbn; lia|lra].

(** basis functions *)
Lemma tri3_basis_size i : Sz 2 1 1 (fun x => nth i (el_basis tri3 x) 0).
Proof. cbn [el_basis tri3]. do 3 (destruct i as [|i]; [cbn; size|]). destruct i; cbn; size. Qed.
Lemma tri6_basis_size i : Sz 2 2 4 (fun x => nth i (el_basis tri6 x) 0).
Proof. cbn [el_basis tri6]. do 6 (destruct i as [|i]; [cbn; size|]). destruct i; cbn; size. Qed.
Lemma tet4_basis_size i : Sz 3 1 2 (fun x => nth i (el_basis tet4 x) 0).
Proof. cbn [el_basis tet4]. do 4 (destruct i as [|i]; [cbn; size|]). destruct i; cbn; size. Qed.
Lemma tet10_basis_size i : Sz 3 2 10 (fun x => nth i (el_basis tet10 x) 0).
Proof. cbn [el_basis tet10]. do 10 (destruct i as [|i]; [cbn; size|]). destruct i; cbn; size. Qed.
Lemma tet20_basis_size i : Sz 3 3 63 (fun x => nth i (el_basis tet20 x) 0).
Proof. cbn [el_basis tet20]. do 20 (destruct i as [|i]; [cbn; unfold tet20_phi_vertex, tet20_phi_edge, tet20_phi_face; cbn; size|]). destruct i; cbn; size. Qed.

(** gradients *)
Ltac sizes k := do 3 (destruct k as [|k]; [cbn [nth vscale vadd map]; size|]); destruct k; cbn [nth vscale vadd map]; size.
Lemma tri3_grads_size i k : Sz 2 0 (1 / 2) (fun x => nth k (nth i (el_grads tri3 x) []) 0).
Proof. cbn [el_grads tri3]. do 3 (destruct i as [|i]; [cbn; sizes k|]). destruct i; cbn; sizes k. Qed.
Lemma tet4_grads_size i k : Sz 3 0 (1 / 2) (fun x => nth k (nth i (el_grads tet4 x) []) 0).
Proof. cbn [el_grads tet4]. do 4 (destruct i as [|i]; [cbn; sizes k|]). destruct i; cbn; sizes k. Qed.
Lemma tri6_grads_size i k : Sz 2 1 4 (fun x => nth k (nth i (el_grads tri6 x) []) 0).
Proof. cbn [el_grads tri6]. do 6 (destruct i as [|i]; [cbn; sizes k|]). destruct i; cbn; sizes k. Qed.
Lemma tet10_grads_size i k : Sz 3 1 6 (fun x => nth k (nth i (el_grads tet10 x) []) 0).
Proof. cbn [el_grads tet10]. do 10 (destruct i as [|i]; [cbn; sizes k|]). destruct i; cbn; sizes k. Qed.
Lemma tet20_grads_size i k : Sz 3 2 68 (fun x => nth k (nth i (el_grads tet20 x) []) 0).
Proof. cbn [el_grads tet20]. do 20 (destruct i as [|i]; [cbn; sizes k|]). destruct i; cbn; sizes k. Qed.

(** C40. *)
From Coq Require Import Reals Lra Lia Arith List.
From Coquelicot Require Import Coquelicot.
From Verif Require Import CgModel CgSpec OptModel OptSpec.
Open Scope R_scope.

Lemma set_entry_at x i v : set_entry x i v i = v.
Proof. unfold set_entry. now destruct (Nat.eq_dec i i). Qed.
Lemma set_entry_other x i v j : j <> i -> set_entry x i v j = x j.
Proof. intros H. unfold set_entry. now destruct (Nat.eq_dec j i). Qed.

(** The central difference quotient. *)
Definition quotient (g : R -> R) (t h : R) : R := (g (t + h) - g (t - h)) / (2 * h).

Lemma gradient_fd_spec n f h df x : depends n f -> let '(df', x') := gradient_fd n f h df x in
  (forall j, x' j = x j) /\ (forall i, (i < n)%nat -> df' i = quotient (along f x i) (x i) h) /\ (forall i, (n <= i)%nat -> df' i = df i).
Proof.
  intros Hf. unfold gradient_fd.
  assert (G : forall k, (k <= n)%nat -> let '(df', x') := fold_left (fun acc i => let '(df, x) := acc in let x_i := x i in
      let x := set_entry x i (x_i + h) in let f_plus := f x in let x := set_entry x i (x_i - h) in let f_minus := f x in
      (set_entry df i ((f_plus - f_minus) / (2 * h)), set_entry x i x_i)) (seq 0 k) (df, x) in
    (forall j, x' j = x j) /\ (forall i, (i < k)%nat -> df' i = quotient (along f x i) (x i) h) /\ (forall i, (k <= i)%nat -> df' i = df i)).
  2:{ apply (G n). lia. }
  induction k as [|k IH]; intros Hk; [cbn; repeat split; intros; lia|]. rewrite seq_S, fold_left_app. cbn [fold_left]. specialize (IH ltac:(lia)).
  destruct (fold_left _ _ _) as [df' x']. destruct IH as (Hx & Hd & Hr). cbv zeta. repeat split.
  - intros j. rewrite Nat.add_0_l. unfold set_entry. destruct (Nat.eq_dec j k) as [->|]; apply Hx.
  - intros i Hi. rewrite Nat.add_0_l. destruct (Nat.eq_dec i k) as [->|Hne].
    + rewrite set_entry_at. unfold quotient, along. rewrite (Hx k). f_equal. f_equal; apply Hf; intros j Hj; unfold set_entry; destruct (Nat.eq_dec j k); auto.
    + rewrite set_entry_other by exact Hne. apply Hd. lia.
  - intros i Hi. rewrite Nat.add_0_l. rewrite set_entry_other by lia. apply Hr. lia.
Qed.

Lemma jacobian_fd_spec n m f h J x : overwrites n m f -> exists J' x', jacobian_fd n n f h J x = Some (J', x') /\
  (forall j, x' j = x j) /\
  (forall r c, (r < m)%nat -> (c < n)%nat -> J' r c = quotient (along (fun y => f y (fun _ => 0) r) x c) (x c) h) /\ (forall r c, (n <= c)%nat -> J' r c = J r c).
Proof.
  intros Hf. unfold jacobian_fd. destruct (Nat.eq_dec n n) as [_|]; [|congruence].
  assert (G : forall k, (k <= n)%nat -> let '(J', x', _, _) := fold_left (fun acc i => let '(J, x, f_plus, f_minus) := acc in
      let xi := x i in let x := set_entry x i (xi + h) in let f_plus := f x f_plus in let x := set_entry x i (xi - h) in let f_minus := f x f_minus in
      let x := set_entry x i xi in ((fun r c => if Nat.eq_dec c i then (f_plus r - f_minus r) / (2 * h) else J r c), x, f_plus, f_minus))
      (seq 0 k) (J, x, (fun _ => 0), (fun _ => 0)) in
    (forall j, x' j = x j) /\
    (forall r c, (r < m)%nat -> (c < k)%nat -> J' r c = quotient (along (fun y => f y (fun _ => 0) r) x c) (x c) h) /\ (forall r c, (k <= c)%nat -> J' r c = J r c)).
  2:{ specialize (G n (le_n _)). destruct (fold_left _ _ _) as [[[J' x'] fp] fm]. exists J', x'. split; [reflexivity|exact G]. }
  induction k as [|k IH]; intros Hk; [cbn; repeat split; intros; lia|]. rewrite seq_S, fold_left_app. cbn [fold_left]. specialize (IH ltac:(lia)).
  destruct (fold_left _ _ _) as [[[J' x'] fp] fm]. destruct IH as (Hx & Hd & Hr). cbv zeta. rewrite Nat.add_0_l. repeat split.
  - intros j. unfold set_entry. destruct (Nat.eq_dec j k) as [->|]; apply Hx.
  - intros r c Hrm Hc. destruct (Nat.eq_dec c k) as [->|Hne]; [|apply Hd; lia].
    unfold quotient, along. rewrite (Hx k). f_equal.
    f_equal; apply Hf; try exact Hrm; intros j Hj; unfold set_entry; destruct (Nat.eq_dec j k); auto.
  - intros r c Hc. destruct (Nat.eq_dec c k); [lia|]. apply Hr. lia.
Qed.

Lemma jacobian_central_spec n m f h x : overwrites n m f ->
  forall r c, (r < m)%nat -> (c < n)%nat -> jacobian_central n f h x r c = quotient (along (fun y => f y (fun _ => 0) r) x c) (x c) h.
Proof.
  intros Hf. unfold jacobian_central.
  assert (G : forall k, (k <= n)%nat -> let '(J', _, _, _, _) := fold_left (fun acc j => let '(J, x_plus, x_minus, f_plus, f_minus) := acc in
      let x_plus := set_entry x j (x j + h) in let x_minus := set_entry x j (x j - h) in let f_plus := f x_plus f_plus in let f_minus := f x_minus f_minus in
      ((fun r c => if Nat.eq_dec c j then (J r c + f_plus r - f_minus r) / (2 * h) else J r c), x_plus, x_minus, f_plus, f_minus))
      (seq 0 k) ((fun _ _ => 0), x, x, (fun _ => 0), (fun _ => 0)) in
    (forall r c, (r < m)%nat -> (c < k)%nat -> J' r c = quotient (along (fun y => f y (fun _ => 0) r) x c) (x c) h) /\ (forall r c, (k <= c)%nat -> J' r c = 0)).
  2:{ specialize (G n (le_n _)). destruct (fold_left _ _ _) as [[[[J' xp] xm] fp] fm]. intros r c Hr Hc. now apply G. }
  induction k as [|k IH]; intros Hk; [cbn; repeat split; intros; lia|]. rewrite seq_S, fold_left_app. cbn [fold_left]. specialize (IH ltac:(lia)).
  destruct (fold_left _ _ _) as [[[[J' xp] xm] fp] fm]. destruct IH as (Hd & Hr). cbv zeta. rewrite Nat.add_0_l. split.
  - intros r c Hrm Hc. destruct (Nat.eq_dec c k) as [->|Hne]; [|apply Hd; lia].
    rewrite Hr by lia. rewrite Rplus_0_l. unfold quotient, along. f_equal. f_equal; apply Hf; try exact Hrm; intros j Hj; reflexivity.
  - intros r c Hc. destruct (Nat.eq_dec c k); [lia|]. apply Hr. lia.
Qed.

Definition quadratic (g : R -> R) : Prop := exists a b c, forall t, g t = a * t * t + b * t + c.

Lemma quotient_quadratic g t h : h <> 0 -> quadratic g -> is_derive g t (quotient g t h).
Proof.
  intros Hh (a & b & c & Hg). apply (is_derive_ext (fun t => a * t * t + b * t + c)); [intros s; now rewrite Hg|].
  replace (quotient g t h) with (2 * a * t + b); [auto_derive; [exact I|ring]|]. unfold quotient. rewrite !Hg. field. exact Hh.
Qed.

(** Three times differentiable within distance [d] of [x], with third derivative bounded by [M]. *)
Definition smooth_near (g : R -> R) (x d M : R) : Prop :=
  forall t, Rabs (t - x) < d -> (forall k, (k <= 3)%nat -> ex_derive_n g k t) /\ Rabs (Derive_n g 3 t) <= M.

(** Taylor expansion to the right *)
Lemma taylor_right g t h d M : 0 < h < d -> smooth_near g t d M -> exists e, Rabs e <= M /\ g (t + h) = g t + h * Derive g t + h ^ 2 / 2 * Derive_n g 2 t + h ^ 3 / 6 * e.
Proof.
  intros Hh Hs. assert (Hi : forall s, t <= s <= t + h -> Rabs (s - t) < d) by (intros s Hs'; rewrite Rabs_pos_eq; lra).
  destruct (Taylor_Lagrange g 2 t (t + h)) as (z & Hz & E); [lra|intros s Hs' k Hk; apply (Hs s (Hi s Hs')); exact Hk|].
  exists (Derive_n g 3 z). split; [apply Hs, Hi; lra|].
  rewrite E. cbn [sum_f_R0]. replace (t + h - t) with h by ring. cbn [Derive_n]. change (Derive (fun x => g x) t) with (Derive g t).
  replace (INR (Factorial.fact 0)) with 1 by (cbn; lra). replace (INR (Factorial.fact 1)) with 1 by (cbn; lra).
  replace (INR (Factorial.fact 2)) with 2 by (cbn; lra). replace (INR (Factorial.fact 3)) with 6 by (cbn; lra). field.
Qed.

Lemma near_locally g x d M y : smooth_near g x d M -> Rabs (y - x) < d -> locally y (fun s => forall k, (k <= 3)%nat -> ex_derive_n g k s).
Proof.
  intros Hs Hy. assert (Hp : 0 < d - Rabs (y - x)) by lra. exists (mkposreal _ Hp). intros s Hb k Hk. apply (Hs s); [|exact Hk].
  change (Rabs (s - y) < d - Rabs (y - x)) in Hb. replace (s - x) with ((s - y) + (y - x)) by ring.
  eapply Rle_lt_trans; [apply Rabs_triang|]. lra.
Qed.
Lemma derive_n_opp g x d M y k : smooth_near g x d M -> Rabs (- y - x) < d -> (k <= 3)%nat ->
  ex_derive_n (fun s => g (- s)) k y /\ Derive_n (fun s => g (- s)) k y = (-1) ^ k * Derive_n g k (- y).
Proof.
  intros Hs Hy Hk.
  assert (Hl : locally (- y) (fun s => forall j, (j <= k)%nat -> ex_derive_n g j s)).
  { pose proof (near_locally g x d M (- y) Hs Hy) as Hl. revert Hl. apply filter_imp. intros s H j Hj. apply H. lia. }
  split; [exact (ex_derive_n_comp_opp g k y Hl)|exact (Derive_n_comp_opp g k y Hl)].
Qed.
Lemma smooth_opp g x d M : smooth_near g x d M -> smooth_near (fun s => g (- s)) (- x) d M.
Proof.
  intros Hs t Ht. assert (Ht' : Rabs (- t - x) < d) by (rewrite <- Rabs_Ropp; replace (- (- t - x)) with (t - - x) by ring; exact Ht).
  split; [intros k Hk; now apply (derive_n_opp g x d M t k)|]. destruct (derive_n_opp g x d M t 3 Hs Ht' (le_n _)) as [_ ->].
  replace ((-1) ^ 3) with (-1) by ring. replace (-1 * Derive_n g 3 (- t)) with (- Derive_n g 3 (- t)) by ring. rewrite Rabs_Ropp. now apply Hs.
Qed.
Lemma taylor_left g t h d M : 0 < h < d -> smooth_near g t d M -> exists e, Rabs e <= M /\ g (t - h) = g t - h * Derive g t + h ^ 2 / 2 * Derive_n g 2 t + h ^ 3 / 6 * e.
Proof.
  intros Hh Hs. destruct (taylor_right (fun s => g (- s)) (- t) h d M Hh (smooth_opp g t d M Hs)) as (e & He & E). exists e. split; [exact He|].
  assert (Ht : Rabs (- - t - t) < d) by (replace (- - t - t) with 0 by ring; rewrite Rabs_R0; lra).
  destruct (derive_n_opp g t d M (- t) 1 Hs Ht ltac:(lia)) as [_ E1]. destruct (derive_n_opp g t d M (- t) 2 Hs Ht ltac:(lia)) as [_ E2].
  replace (- (- t + h)) with (t - h) in E by ring. rewrite Ropp_involutive in *. rewrite E, E2.
  change (Derive (fun s => g (- s)) (- t)) with (Derive_n (fun s => g (- s)) 1 (- t)). rewrite E1. cbn [Derive_n]. change (Derive (fun x => g x) t) with (Derive g t). ring.
Qed.

Lemma quotient_error g t h d M : h <> 0 -> Rabs h < d -> smooth_near g t d M -> Rabs (quotient g t h - Derive g t) <= M * h ^ 2 / 6.
Proof.
  assert (G : forall h, 0 < h < d -> smooth_near g t d M -> Rabs (quotient g t h - Derive g t) <= M * h ^ 2 / 6).
  { clear h. intros h Hh Hs. destruct (taylor_right g t h d M Hh Hs) as (e & He & E). destruct (taylor_left g t h d M Hh Hs) as (e' & He' & E').
    unfold quotient. rewrite E, E'. match goal with |- Rabs ?X <= _ => replace X with (h ^ 2 / 12 * (e - e')) by (field; lra) end.
    assert (Hq : 0 <= h ^ 2) by (apply pow_le; lra). rewrite Rabs_mult, (Rabs_pos_eq (h ^ 2 / 12)) by lra.
    assert (Hee : Rabs (e - e') <= 2 * M) by (unfold Rminus; eapply Rle_trans; [apply Rabs_triang|]; rewrite Rabs_Ropp; lra).
    apply (Rle_trans _ (h ^ 2 / 12 * (2 * M))); [apply Rmult_le_compat_l; lra|lra]. }
  intros Hh Hd Hs. destruct (Rlt_le_dec 0 h) as [Hp|Hn].
  - apply G; [|exact Hs]. rewrite Rabs_pos_eq in Hd by lra. lra.
  - rewrite Rabs_left in Hd by lra. specialize (G (- h) ltac:(lra) Hs). replace ((- h) ^ 2) with (h ^ 2) in G by ring.
    replace (quotient g t h) with (quotient g t (- h)); [exact G|]. unfold quotient. replace (t + - h) with (t - h) by ring. replace (t - - h) with (t + h) by ring. field. exact Hh.
Qed.

(** C40: the approximate gradient of a function that is quadratic in each coordinate is exact and the point is restored. *)
Theorem C40_gradient : forall n f h df x df' x', depends n f -> h <> 0 -> gradient_fd n f h df x = (df', x') ->
  (forall j, x' j = x j) /\
  (forall i, (i < n)%nat -> quadratic (along f x i) -> is_derive (along f x i) (x i) (df' i)).
Proof.
  intros n f h df x df' x' Hf Hh E. pose proof (gradient_fd_spec n f h df x Hf) as G. rewrite E in G. destruct G as (H1 & H2 & _). split; [exact H1|].
  intros i Hi Hq. rewrite (H2 i Hi). now apply quotient_quadratic.
Qed.
Print Assumptions C40_gradient.

(** C40: for functions that are three times differentiable the error is of second order in the step. *)
Theorem C40_gradient_error : forall n f h df x df' x' i d M, depends n f -> h <> 0 -> gradient_fd n f h df x = (df', x') -> (i < n)%nat ->
  Rabs h < d -> smooth_near (along f x i) (x i) d M -> Rabs (df' i - Derive (along f x i) (x i)) <= M * h ^ 2 / 6.
Proof.
  intros n f h df x df' x' i d M Hf Hh E Hi Hd Hs. pose proof (gradient_fd_spec n f h df x Hf) as G. rewrite E in G. destruct G as (_ & H2 & _).
  rewrite (H2 i Hi). now apply (quotient_error _ _ _ d).
Qed.
Print Assumptions C40_gradient_error.

(** C40: the same for Jacobians, for both implementations. *)
Theorem C40_jacobian : forall n m f h J x J' x', overwrites n m f -> h <> 0 -> jacobian_fd n n f h J x = Some (J', x') ->
  (forall j, x' j = x j) /\
  forall r c, (r < m)%nat -> (c < n)%nat -> let g := along (fun y => f y (fun _ => 0) r) x c in
    J' r c = jacobian_central n f h x r c /\
    (quadratic g -> is_derive g (x c) (J' r c)) /\
    (forall d M, Rabs h < d -> smooth_near g (x c) d M -> Rabs (J' r c - Derive g (x c)) <= M * h ^ 2 / 6).
Proof.
  intros n m f h J x J' x' Hf Hh E. destruct (jacobian_fd_spec n m f h J x Hf) as (J2 & x2 & E2 & H1 & H2 & _). rewrite E in E2. injection E2 as <- <-.
  split; [exact H1|]. intros r c Hr Hc g. split; [|split].
  - rewrite (H2 r c Hr Hc). now rewrite (jacobian_central_spec n m f h x Hf r c Hr Hc).
  - intros Hq. rewrite (H2 r c Hr Hc). now apply quotient_quadratic.
  - intros d M Hd Hs. rewrite (H2 r c Hr Hc). now apply (quotient_error _ _ _ d).
Qed.
Print Assumptions C40_jacobian.

(** The Jacobian is computed whenever the matrix has as many columns as the point has entries, and only then. *)
Theorem C40_jacobian_total : forall ncols n m f h J x, overwrites n m f -> (exists r, jacobian_fd ncols n f h J x = Some r) <-> n = ncols.
Proof.
  intros ncols n m f h J x Hf. split.
  - intros (r & H). unfold jacobian_fd in H. destruct (Nat.eq_dec n ncols) as [->|]; [reflexivity|discriminate].
  - intros <-. destruct (jacobian_fd_spec n m f h J x Hf) as (J2 & x2 & E2 & _). eauto.
Qed.
Print Assumptions C40_jacobian_total.

(** Example: x0^2 x1 is quadratic in each coordinate; x0^3 is not, but smooth. *)
Definition ex_f (x : vec) : R := x O * x O * x 1%nat.
Example C40_example : depends 2 ex_f /\ overwrites 2 1 (fun x _ _ => ex_f x) /\
  quadratic (along ex_f (fun _ => 3) 0) /\ quadratic (along ex_f (fun _ => 3) 1) /\
  depends 1 (fun x => x O * x O * x O) /\ smooth_near (along (fun x => x O * x O * x O) (fun _ => 3) 0) 3 1 6.
Proof.
  assert (Hd : depends 2 ex_f) by (intros x y H; unfold ex_f; rewrite (H O), (H 1%nat) by lia; reflexivity).
  split; [exact Hd|]. split; [intros x y b b' H i Hi; now apply Hd|].
  split; [exists 3, 0, 0; intros t; unfold along, ex_f; cbn; ring|]. split; [exists 0, 9, 0; intros t; unfold along, ex_f; cbn; ring|].
  split; [intros x y H; rewrite (H O) by lia; reflexivity|].
  assert (E1 : forall t, is_derive (along (fun x => x O * x O * x O) (fun _ => 3) 0) t (3 * t * t)).
  { intros t. apply (is_derive_ext (fun t => t * t * t)); [reflexivity|]. auto_derive; [exact I|ring]. }
  assert (E2 : forall t, is_derive (fun t => 3 * t * t) t (6 * t)) by (intros t; auto_derive; [exact I|ring]).
  assert (E3 : forall t, is_derive (fun t => 6 * t) t 6) by (intros t; auto_derive; [exact I|ring]).
  assert (D1 : forall t, Derive_n (along (fun x => x O * x O * x O) (fun _ => 3) 0) 1 t = 3 * t * t) by (intros t; apply is_derive_unique, E1).
  assert (D2 : forall t, Derive_n (along (fun x => x O * x O * x O) (fun _ => 3) 0) 2 t = 6 * t).
  { intros t. cbn [Derive_n]. apply is_derive_unique. apply (is_derive_ext (fun t => 3 * t * t)); [intros s; symmetry; apply D1|apply E2]. }
  assert (D3 : forall t, is_derive (Derive_n (along (fun x => x O * x O * x O) (fun _ => 3) 0) 2) t 6).
  { intros t. apply (is_derive_ext (fun t => 6 * t)); [intros s; symmetry; apply D2|apply E3]. }
  intros t Ht. split.
  - intros k Hk. destruct k as [|[|[|[|k]]]]; [exact I| | | |lia].
    + eexists. apply E1.
    + exists (6 * t). apply (is_derive_ext (fun t => 3 * t * t)); [intros s; symmetry; apply D1|apply E2].
    + eexists. apply D3.
  - replace (Derive_n _ 3 t) with 6; [rewrite Rabs_pos_eq; lra|]. symmetry. apply is_derive_unique, D3.
Qed.

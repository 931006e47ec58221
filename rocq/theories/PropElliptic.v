(** C76: element vectors are derivatives of element energies, element matrices are derivatives of element vectors. *)
From Coq Require Import Reals List Arith Lia Lra Psatz Bool FunctionalExtensionality.
From Coquelicot Require Import Coquelicot.
From Verif Require Import MaterialModel EllipticModel PropMaterial PropObjective.
Import ListNotations.
Open Scope R_scope.
Local Notation vec := (nat -> R).
Local Notation mat := (nat -> nat -> R).

(** * specification *)
(** a sum over the quadrature points *)
Definition qsum {Pt Data} (q : list (R * (Pt * Data))) (f : R -> Pt -> Data -> R) : R := fold_right (fun wpx acc => f (fst wpx) (fst (snd wpx)) (snd (snd wpx)) + acc) 0 q.
(** [P I] is the gradient of the [I]th basis function in physical space: the chain rule with the Jacobian of the element gives the reference gradient *)
Definition physical_gradients {Pt} (el : element Pt) (p : Pt) (P : nat -> vec) : Prop :=
  forall I, (I < el_nodes el)%nat -> (forall i, (i < el_dim el)%nat -> summ (el_dim el) (fun k => el_jacobian el p k i * P I k) = el_gradients el p I i) /\ (forall k, (el_dim el <= k)%nat -> P I k = 0).
(** [G] is the gradient of the function with the nodal values [u] (the values of node [I] are the entries [s * I], ..., [s * I + s - 1]) *)
Definition interpolation_gradient {Pt} (el : element Pt) (s : nat) (u : list R) (p : Pt) (G : mat) : Prop :=
  exists P, physical_gradients el p P /\ forall i j, G i j = if ((i <? el_dim el) && (j <? s))%nat then summ (el_nodes el) (fun I => P I i * nth (s * I + j) u 0) else 0.
(** the element is not degenerate at the quadrature points *)
Definition regular_at {Pt Data} (el : element Pt) (q : list (R * (Pt * Data))) : Prop := forall w p x, In (w, (p, x)) q -> determinant (el_dim el) (el_jacobian el p) <> 0.
Definition line (u v : list R) (t : R) : list R := map (fun ab => fst ab + t * snd ab) (combine u v).
Definition unit_vector (n c : nat) : list R := map (fun r => if (r =? c)%nat then 1 else 0) (seq 0 n).
(** [g] is the derivative of [f], a function of [d] by [s] matrices, at [G] *)
Definition derivative_at (d s : nat) (f : mat -> R) (G g : mat) : Prop := forall H, is_derive (fun t => f (along G H t)) 0 (summ d (fun i => summ s (fun j => g i j * H i j))).
(** C_ij = a_k dg_ki/dG_mj b_m *)
Definition operator_contraction_at (d s : nat) (g : mat -> mat) (G : mat) (a b : vec) (C : mat) : Prop :=
  forall i j, (i < s)%nat -> (j < s)%nat -> is_derive (fun t => summ d (fun k => a k * g (along G (fun m q => if (q =? j)%nat then b m else 0) t) k i)) 0 (C i j).
(** the operator accumulates its contractions, at least in the upper triangle of blocks if it declares itself symmetric *)
Definition accumulates (d s : nat) (symmetric : bool) (contract : vec -> vec -> mat) (acc : nat -> nat -> mat -> R -> list R -> list R -> option mat) : Prop :=
  forall n out alpha a, length a = (d * n)%nat -> exists out', acc (s * n)%nat (s * n)%nat out alpha a a = Some out' /\
    forall I J i j, (I < n)%nat -> (J < n)%nat -> (i < s)%nat -> (j < s)%nat -> (symmetric = true -> (I <= J)%nat) ->
      out' (s * I + i)%nat (s * J + j)%nat = out (s * I + i)%nat (s * J + j)%nat +
        alpha * contract (fun k => if (k <? d)%nat then nth (d * I + k) a 0 else 0) (fun k => if (k <? d)%nat then nth (d * J + k) a 0 else 0) i j.
(** sizes match *)
Definition quadrature_sizes {Pt Data} (weights : list R) (points : list Pt) (data : list Data) : Prop := length weights = length points /\ length points = length data.

(** * sums *)
Lemma qsum_ext {Pt Data} (q : list (R * (Pt * Data))) f g : (forall w p x, In (w, (p, x)) q -> f w p x = g w p x) -> qsum q f = qsum q g.
Proof. unfold qsum in *. induction q as [|(w & p & x) q IH]; intros H; [reflexivity|]. cbn. rewrite IH by (intros; apply H; right; assumption). rewrite (H w p x) by (left; reflexivity). reflexivity. Qed.
Lemma qsum_derive {Pt Data} (q : list (R * (Pt * Data))) (f : R -> R -> Pt -> Data -> R) g t0 : (forall w p x, In (w, (p, x)) q -> is_derive (fun t => f t w p x) t0 (g w p x)) -> is_derive (fun t => qsum q (f t)) t0 (qsum q g).
Proof.
  induction q as [|(w & p & x) q IH]; intros H; cbn; [apply dconst|]. apply dplus; [apply H; left; reflexivity|apply IH; intros; apply H; right; assumption].
Qed.
Lemma qsum_l {Pt Data} (q : list (R * (Pt * Data))) c f : qsum q (fun w p x => c * f w p x) = c * qsum q f.
Proof. unfold qsum in *. induction q as [|(w & p & x) q IH]; cbn; [ring|]. rewrite IH. ring. Qed.
Lemma qsum_plus {Pt Data} (q : list (R * (Pt * Data))) f g : qsum q (fun w p x => f w p x + g w p x) = qsum q f + qsum q g.
Proof. unfold qsum in *. induction q as [|(w & p & x) q IH]; cbn; [ring|]. rewrite IH. ring. Qed.
Lemma qsum_summ {Pt Data} n (q : list (R * (Pt * Data))) f : qsum q (fun w p x => summ n (fun k => f k w p x)) = summ n (fun k => qsum q (f k)).
Proof.
  induction n as [|n IH]; cbn [summ]; [unfold qsum; induction q as [|z q IHq]; cbn; [reflexivity|rewrite IHq; ring]|]. rewrite (qsum_plus q (fun w p x => summ n (fun k => f k w p x)) (f n)). rewrite IH. reflexivity.
Qed.
Lemma fold_add n (f : nat -> R) x : fold_left (fun acc k => acc + f k) (seq 0 n) x = x + summ n f.
Proof. induction n as [|n IH]; [cbn; ring|]. rewrite seq_S, fold_left_app. cbn. rewrite IH. ring. Qed.

(** * gradients *)
Lemma adjugate_left d Q p j : physical d -> (p < d)%nat -> (j < d)%nat -> summ d (fun k => adjugate d Q p k * Q k j) = if (p =? j)%nat then determinant d Q else 0.
Proof. intros [-> | [-> | ->]] Hp Hj; destruct p as [|[|[|?]]]; try lia; destruct j as [|[|[|?]]]; try lia; unfold determinant, adjugate; cbn; ring. Qed.
(** the gradients the code computes *)
Definition grads {Pt} (el : element Pt) (p : Pt) (I : nat) : vec := fun k =>
  if (k <? el_dim el)%nat then summ (el_dim el) (fun m => adjugate (el_dim el) (el_jacobian el p) m k / determinant (el_dim el) (el_jacobian el p) * el_gradients el p I m) else 0.
Definition ugrad {Pt} (el : element Pt) (s : nat) (u : list R) (p : Pt) : mat := fun i j =>
  if ((i <? el_dim el) && (j <? s))%nat then summ (el_nodes el) (fun I => grads el p I i * nth (s * I + j) u 0) else 0.
Lemma grads_physical {Pt} (el : element Pt) p : physical (el_dim el) -> determinant (el_dim el) (el_jacobian el p) <> 0 -> physical_gradients el p (grads el p).
Proof.
  intros Hd Hp I _. set (d := el_dim el) in *. set (J := el_jacobian el p) in *. split.
  - intros i Hi. rewrite (summ_ext d _ (fun k => summ d (fun m => el_gradients el p I m / determinant d J * (adjugate d J m k * J k i)))).
    2: { intros k Hk. unfold grads. fold d J. rewrite (proj2 (Nat.ltb_lt k d) Hk). rewrite <- summ_l. apply summ_ext. intros m _. field. exact Hp. }
    rewrite summ_swap. rewrite (summ_ext d _ (fun m => if (m =? i)%nat then el_gradients el p I m else 0)); [apply (summ_delta d i (el_gradients el p I)), Hi|].
    intros m Hm. rewrite summ_l, adjugate_left by assumption. destruct (m =? i)%nat; [field; exact Hp|ring].
  - intros k Hk. unfold grads. fold d. rewrite (proj2 (Nat.ltb_ge k d) Hk). reflexivity.
Qed.
(** physical gradients are unique *)
Lemma grads_unique {Pt} (el : element Pt) p P I : physical (el_dim el) -> determinant (el_dim el) (el_jacobian el p) <> 0 -> physical_gradients el p P -> (I < el_nodes el)%nat -> P I = grads el p I.
Proof.
  intros Hd Hp HP HI. apply functional_extensionality. intros k. destruct (HP I HI) as (H1 & H2). unfold grads. set (d := el_dim el) in *. set (J := el_jacobian el p) in *.
  destruct (Nat.ltb_spec k d) as [L|L]; [|apply H2, L].
  rewrite (summ_ext d _ (fun m => summ d (fun q => P I q / determinant d J * (J q m * adjugate d J m k)))).
  2: { intros m Hm. rewrite <- (H1 m Hm). rewrite <- summ_l. apply summ_ext. intros q _. field. exact Hp. }
  rewrite summ_swap. rewrite (summ_ext d _ (fun q => if (q =? k)%nat then P I q else 0)); [symmetry; apply (summ_delta d k (P I)), L|].
  intros q Hq. rewrite summ_l, adjugate_inverse by assumption. destruct (q =? k)%nat; [field; exact Hp|ring].
Qed.
Lemma ugrad_spec {Pt} (el : element Pt) s u p : physical (el_dim el) -> determinant (el_dim el) (el_jacobian el p) <> 0 -> interpolation_gradient el s u p (ugrad el s u p).
Proof. intros Hd Hp. exists (grads el p). split; [apply grads_physical; assumption|reflexivity]. Qed.
Lemma ugrad_unique {Pt} (el : element Pt) s u p G : physical (el_dim el) -> determinant (el_dim el) (el_jacobian el p) <> 0 -> interpolation_gradient el s u p G -> G = ugrad el s u p.
Proof.
  intros Hd Hp (P & HP & HG). apply functional_extensionality. intros i. apply functional_extensionality. intros j. rewrite HG. unfold ugrad. destruct (_ && _); [|reflexivity].
  apply summ_ext. intros I HI. rewrite (grads_unique el p P I) by assumption. reflexivity.
Qed.
Lemma fold_outer n (P : nat -> vec) s u A i j : fold_left (fun (u_grad : mat) I => fun i j => u_grad i j + P I i * nth (s * I + j) u 0) (seq 0 n) A i j = A i j + summ n (fun I => P I i * nth (s * I + j) u 0).
Proof. induction n as [|n IH]; [cbn; ring|]. rewrite seq_S, fold_left_app. cbn. rewrite IH. ring. Qed.
Lemma volume_ugrad {Pt} (el : element Pt) s u p : 
  volume_u_grad (el_dim el) s (el_nodes el) (transpose (fun i j => adjugate (el_dim el) (el_jacobian el p) i j / determinant (el_dim el) (el_jacobian el p))) (el_gradients el p) u = ugrad el s u p.
Proof.
  apply functional_extensionality. intros i. apply functional_extensionality. intros j. unfold volume_u_grad, within, ugrad, grads. set (d := el_dim el). set (J := el_jacobian el p).
  destruct (i <? d)%nat; [|reflexivity]. destruct (j <? s)%nat; [|reflexivity]. cbn [andb]. unfold mmul, transpose.
  rewrite (summ_ext d _ (fun k => summ (el_nodes el) (fun I => adjugate d J k i / determinant d J * el_gradients el p I k * nth (s * I + j) u 0))).
  2: { intros k _. rewrite fold_outer. unfold zeros. rewrite Rplus_0_l, <- summ_l. apply summ_ext. intros I _. ring. }
  rewrite summ_swap. apply summ_ext. intros I _. rewrite summ_r. reflexivity.
Qed.

(** * the loops *)
Lemma loop_plus {Pt Data} (el : element Pt) (q : list (R * (Pt * Data))) (f : R -> Pt -> Data -> mat -> R) x :
  let step := fun w p (z : Data) integral => match try_inverse (el_dim el) (el_jacobian el p) with None => Singular | Some j_inv => Done (integral + f w p z j_inv) end in
  (quadrature_loop step q x = Singular <-> ~ regular_at el q) /\
  (regular_at el q -> quadrature_loop step q x = Done (x + qsum q (fun w p z => f w p z (fun i j => adjugate (el_dim el) (el_jacobian el p) i j / determinant (el_dim el) (el_jacobian el p))))).
Proof.
  cbv zeta. revert x. induction q as [|(w & p & z) q IH]; intros x.
  - split; [split; [discriminate|]; intros N; exfalso; apply N; intros ? ? ? []|]. intros _. cbn. rewrite Rplus_0_r. reflexivity.
  - cbn. unfold try_inverse at 1 3. destruct (Req_EM_T _ 0) as [E|E].
    + split; [split; [|reflexivity]; intros _ Hr; exact (Hr w p z (or_introl eq_refl) E)|]. intros Hr. destruct (Hr w p z (or_introl eq_refl) E).
    + set (A := fun i j => adjugate _ _ i j / _). destruct (IH (x + f w p z A)) as (I1 & I2). split.
      * rewrite I1. split; [intros N Hr; apply N; intros w' p' z' Hin; apply (Hr w' p' z'); right; exact Hin|]. intros N Hr. apply N. intros w' p' z' [[= <- <- <-]|Hin]; [exact E|exact (Hr w' p' z' Hin)].
      * intros Hr. rewrite I2 by (intros w' p' z' Hin; apply (Hr w' p' z'); right; exact Hin). rewrite Rplus_assoc. reflexivity.
Qed.
Lemma loop_plus_v {Pt Data} (el : element Pt) (q : list (R * (Pt * Data))) (f : R -> Pt -> Data -> mat -> vec) (x : vec) :
  let step := fun w p (z : Data) (out : vec) => match try_inverse (el_dim el) (el_jacobian el p) with None => Singular | Some j_inv => Done (fun r => out r + f w p z j_inv r) end in
  (quadrature_loop step q x = Singular <-> ~ regular_at el q) /\
  (regular_at el q -> exists y, quadrature_loop step q x = Done y /\ forall r, y r = x r + qsum q (fun w p z => f w p z (fun i j => adjugate (el_dim el) (el_jacobian el p) i j / determinant (el_dim el) (el_jacobian el p)) r)).
Proof.
  cbv zeta. revert x. induction q as [|(w & p & z) q IH]; intros x.
  - split; [split; [discriminate|]; intros N; exfalso; apply N; intros ? ? ? []|]. intros _. exists x. split; [reflexivity|]. intros r. cbn. rewrite Rplus_0_r. reflexivity.
  - cbn. unfold try_inverse at 1 3. destruct (Req_EM_T _ 0) as [E|E].
    + split; [split; [|reflexivity]; intros _ Hr; exact (Hr w p z (or_introl eq_refl) E)|]. intros Hr. destruct (Hr w p z (or_introl eq_refl) E).
    + set (A := fun i j => adjugate _ _ i j / _). destruct (IH (fun r => x r + f w p z A r)) as (I1 & I2). split.
      * rewrite I1. split; [intros N Hr; apply N; intros w' p' z' Hin; apply (Hr w' p' z'); right; exact Hin|]. intros N Hr. apply N. intros w' p' z' [[= <- <- <-]|Hin]; [exact E|exact (Hr w' p' z' Hin)].
      * intros Hr. destruct I2 as (y & Ey & Hy); [intros w' p' z' Hin; apply (Hr w' p' z'); right; exact Hin|]. exists y. split; [exact Ey|]. intros r. rewrite Hy. rewrite Rplus_assoc. reflexivity.
Qed.

(** * the functions *)
Section functions.
Context {Pt Data : Type} (el : element Pt) (s : nat).
Hypothesis Hd : physical (el_dim el).
Let d := el_dim el.
Let n := el_nodes el.

Lemma energy_value energy u weights points (data : list Data) : quadrature_sizes weights points data -> length u = (s * n)%nat ->
  let q := combine weights (combine points data) in
  (element_energy el s energy u weights points data n = Singular <-> ~ regular_at el q) /\
  (regular_at el q -> element_energy el s energy u weights points data n = Done (qsum q (fun w p x => w * Rabs (determinant d (el_jacobian el p)) * energy (ugrad el s u p) x))).
Proof.
  intros (E1 & E2) Hu q. unfold element_energy. cbv zeta. rewrite E1, E2, Hu, !Nat.eqb_refl. cbn [negb]. fold n. rewrite ?Nat.eqb_refl. cbn [negb]. fold q.
  pose proof (loop_plus el q (fun w p (x : Data) j_inv => w * Rabs (determinant d (el_jacobian el p)) * energy (volume_u_grad d s n (transpose j_inv) (el_gradients el p) u) x) 0) as L. cbv zeta in L.
  destruct L as (L1 & L2). split; [exact L1|]. intros Hr. etransitivity; [exact (L2 Hr)|]. f_equal. rewrite Rplus_0_l. apply qsum_ext. intros w p x _. unfold d, n. rewrite volume_ugrad. reflexivity.
Qed.

Lemma vector_value operator_transpose u weights points (data : list Data) : quadrature_sizes weights points data -> length u = (s * n)%nat ->
  let q := combine weights (combine points data) in
  (element_vector el s operator_transpose u weights points data n (s * n) = Singular <-> ~ regular_at el q) /\
  (regular_at el q -> exists f, element_vector el s operator_transpose u weights points data n (s * n) = Done f /\
    forall I i, (i < s)%nat -> f (s * I + i)%nat = qsum q (fun w p x => w * Rabs (determinant d (el_jacobian el p)) * summ d (fun k => grads el p I k * operator_transpose (ugrad el s u p) x i k))).
Proof.
  intros (E1 & E2) Hu q. unfold element_vector. cbv zeta. rewrite E1, E2, Hu, !Nat.eqb_refl. cbn [negb]. fold n. rewrite ?Nat.eqb_refl. cbn [negb]. fold q.
  pose proof (loop_plus_v el q (fun w p (x : Data) j_inv r => w * Rabs (determinant d (el_jacobian el p)) * summ d (fun k => mmul d (operator_transpose (volume_u_grad d s n (transpose j_inv) (el_gradients el p) u) x) (transpose j_inv) (r mod s)%nat k * el_gradients el p (r / s)%nat k)) (fun _ => 0)) as L. cbv zeta in L.
  destruct L as (L1 & L2). split; [exact L1|]. intros Hr. destruct (L2 Hr) as (f & Ef & Hf). exists f. split; [exact Ef|]. intros I i Hi. rewrite Hf, Rplus_0_l. apply qsum_ext. intros w p x _. unfold d, n. rewrite volume_ugrad. f_equal.
  assert (DI : ((s * I + i) / s = I)%nat) by (rewrite Nat.mul_comm, Nat.div_add_l by lia; rewrite Nat.div_small by lia; lia).
  assert (MI : ((s * I + i) mod s = i)%nat) by (rewrite Nat.mul_comm, Nat.add_comm, Nat.mod_add by lia; apply Nat.mod_small; lia).
  rewrite DI, MI. unfold mmul, transpose. fold d. set (A := operator_transpose _ _).
  rewrite (summ_ext d _ (fun k => summ d (fun m => A i m * (adjugate d (el_jacobian el p) k m / determinant d (el_jacobian el p) * el_gradients el p I k)))) by (intros k _; rewrite <- summ_r; apply summ_ext; intros; fold d; ring).
  rewrite summ_swap. apply summ_ext. intros m Hm. rewrite summ_l. unfold grads. fold d. rewrite (proj2 (Nat.ltb_lt m d) Hm). ring.
Qed.
End functions.

(** * copying the upper triangle *)
Lemma clone_column n j (A : mat) : forall m p q, (m <= n - (j + 1))%nat ->
  fold_left (fun (A : mat) i => fun p q => if ((p =? i) && (q =? j))%bool%nat then A j i else A p q) (seq (j + 1) m) A p q = if ((q =? j) && (j <? p) && (p <? j + 1 + m))%nat then A j p else A p q.
Proof.
  induction m as [|m IH]; intros p q Hm.
  - cbn [seq fold_left]. destruct (Nat.eqb_spec q j) as [->|]; [|reflexivity]. destruct (Nat.ltb_spec j p) as [L|L]; [|reflexivity]. cbn [andb]. destruct (Nat.ltb_spec p (j + 1 + 0)); [lia|reflexivity].
  - rewrite seq_S, fold_left_app. cbn [fold_left]. rewrite !IH by lia.
    destruct (Nat.eqb_spec p (j + 1 + m)) as [->|Np].
    + cbn [andb]. destruct (Nat.eqb_spec q j) as [->|Nq].
      * rewrite (proj2 (Nat.eqb_neq (j + 1 + m) j)) by lia. cbn [andb]. rewrite (proj2 (Nat.ltb_lt j _)) by lia. rewrite (proj2 (Nat.ltb_lt (j + 1 + m) (j + 1 + S m))) by lia. reflexivity.
      * reflexivity.
    + cbn [andb]. destruct (Nat.eqb_spec q j) as [->|]; [|reflexivity]. destruct (Nat.ltb_spec j p); [|reflexivity]. cbn [andb].
      destruct (Nat.ltb_spec p (j + 1 + m)), (Nat.ltb_spec p (j + 1 + S m)); try lia; reflexivity.
Qed.
Lemma clone_all n (A : mat) p q : (p < n)%nat -> (q < n)%nat -> clone_upper_to_lower n n A p q = if (q <? p)%nat then A q p else A p q.
Proof.
  intros Hp Hq. unfold clone_upper_to_lower.
  assert (K : forall k p q, (p < n)%nat -> fold_left (fun A j => fold_left (fun (A : mat) i => fun p q => if ((p =? i) && (q =? j))%bool%nat then A j i else A p q) (seq (j + 1) (n - (j + 1))) A) (seq 0 k) A p q = if ((q <? p) && (q <? k))%nat then A q p else A p q).
  { clear p q Hp Hq. induction k as [|k IH]; intros p q Hp; [cbn; rewrite andb_false_r; reflexivity|]. rewrite seq_S, fold_left_app. cbn [fold_left]. rewrite Nat.add_0_l. rewrite (clone_column n) by lia.
    destruct (Nat.eqb_spec q k) as [->|Nq].
    - destruct (Nat.ltb_spec k p) as [L|L]; cbn [andb]; [|rewrite IH by exact Hp; destruct (Nat.ltb_spec k p); [lia|reflexivity]].
      rewrite (proj2 (Nat.ltb_lt p _)) by lia. rewrite (proj2 (Nat.ltb_lt k (S k))) by lia. rewrite IH by lia. rewrite (proj2 (Nat.ltb_ge p k)) by lia. reflexivity.
    - cbn [andb]. rewrite IH by exact Hp. destruct (Nat.ltb_spec q p); [|reflexivity]. cbn [andb]. destruct (Nat.ltb_spec q k), (Nat.ltb_spec q (S k)); try lia; reflexivity. }
  rewrite K by exact Hp. rewrite (proj2 (Nat.ltb_lt q n) Hq), andb_true_r. reflexivity.
Qed.

(** * the default accumulation *)
Lemma block_column_rows d s J alpha (a b : list R) (f : vec -> vec -> mat) (r c : nat) : (0 < s)%nat -> forall m out,
  fold_left (fun out I => add_block s (s * I) (s * J) alpha (f (rows d (d * I) a) (rows d (d * J) b)) out) (seq 0 m) out r c =
  if ((r / s <? m) && (c / s =? J))%nat then out r c + alpha * f (rows d (d * (r / s)) a) (rows d (d * (c / s)) b) (r mod s)%nat (c mod s)%nat else out r c.
Proof.
  intros Hd m out. induction m as [|m IH]; [reflexivity|]. rewrite seq_S, fold_left_app. cbn [fold_left]. rewrite Nat.add_0_l. rewrite add_block_at by exact Hd. rewrite IH.
  destruct (Nat.eqb_spec (c / s) J) as [E|N]; [|rewrite !andb_false_r; reflexivity]. rewrite !andb_true_r.
  destruct (Nat.eqb_spec (r / s) m) as [E2|N2].
  - rewrite (proj2 (Nat.ltb_ge (r / s) m)) by lia. rewrite (proj2 (Nat.ltb_lt (r / s) (S m))) by lia. subst J. subst m. cbn [andb]. reflexivity.
  - destruct (Nat.ltb_spec (r / s) m), (Nat.ltb_spec (r / s) (S m)); try lia; reflexivity.
Qed.
(** C76: the default accumulation adds alpha times the contractions to all blocks, or to those on and above the diagonal if the operator is symmetric, and to
    nothing else; it succeeds exactly if the sizes match *)
Theorem C76_accumulate d s symmetric contract nrows ncols (out : mat) alpha (a b : list R) : (0 < d)%nat ->
  (accumulate_contractions d s symmetric contract nrows ncols out alpha a b <> None <-> exists M N, length a = (d * M)%nat /\ length b = (d * N)%nat /\ nrows = (s * M)%nat /\ ncols = (s * N)%nat) /\
  forall M N out', length a = (d * M)%nat -> length b = (d * N)%nat -> accumulate_contractions d s symmetric contract nrows ncols out alpha a b = Some out' ->
    forall I J i j, (I < M)%nat -> (J < N)%nat -> (i < s)%nat -> (j < s)%nat ->
    out' (s * I + i)%nat (s * J + j)%nat = out (s * I + i)%nat (s * J + j)%nat +
      (if negb symmetric || (I <=? J)%nat then alpha * contract (fun k => if (k <? d)%nat then nth (d * I + k) a 0 else 0) (fun k => if (k <? d)%nat then nth (d * J + k) b 0 else 0) i j else 0).
Proof.
  intros Hd. unfold accumulate_contractions. rewrite (proj2 (Nat.eqb_neq d 0)) by lia.
  destruct (Nat.eqb_spec (length a mod d) 0) as [Ea|Na]; cbn [negb].
  2: { split; [|discriminate]. split; [intros []; reflexivity|]. intros (M & N & Ha & _). exfalso. apply Na. rewrite Ha, Nat.mul_comm. apply Nat.mod_mul. lia. }
  destruct (Nat.eqb_spec (length b mod d) 0) as [Eb|Nb]; cbn [negb].
  2: { split; [|discriminate]. split; [intros []; reflexivity|]. intros (M & N & _ & Hb & _). exfalso. apply Nb. rewrite Hb, Nat.mul_comm. apply Nat.mod_mul. lia. }
  assert (La : length a = (d * (length a / d))%nat) by (apply Nat.div_exact; [lia|exact Ea]). assert (Lb : length b = (d * (length b / d))%nat) by (apply Nat.div_exact; [lia|exact Eb]).
  set (M := (length a / d)%nat) in *. set (N := (length b / d)%nat) in *.
  destruct (Nat.eqb_spec nrows (s * M)) as [Er|Nr]; cbn [negb].
  2: { split; [|discriminate]. split; [intros []; reflexivity|]. intros (M' & N' & Ha & _ & Hr & _). assert (M = M') by nia. subst M'. lia. }
  destruct (Nat.eqb_spec ncols (s * N)) as [Ec|Nc]; cbn [negb].
  2: { split; [|discriminate]. split; [intros []; reflexivity|]. intros (M' & N' & _ & Hb & _ & Hc). assert (N = N') by nia. subst N'. lia. }
  split; [split; [intros _; exists M, N; auto|discriminate]|]. intros M' N' out' HM HN [= <-] I J i j HI HJ Hi Hj. assert (M = M') by nia. subst M'. assert (N = N') by nia. subst N'.
  assert (Hs : (0 < s)%nat) by lia.
  assert (K : forall n out r c, fold_left (fun out J => fold_left (fun out I => add_block s (s * I) (s * J) alpha (contract (rows d (d * I) a) (rows d (d * J) b)) out) (seq 0 (if symmetric then min (J + 1) M else M)) out) (seq 0 n) out r c =
    if ((c / s <? n) && (r / s <? if symmetric then min (c / s + 1) M else M))%nat then out r c + alpha * contract (rows d (d * (r / s)) a) (rows d (d * (c / s)) b) (r mod s)%nat (c mod s)%nat else out r c).
  { intros n out0 r c. induction n as [|n IH]; [reflexivity|]. rewrite seq_S, fold_left_app. cbn [fold_left]. rewrite Nat.add_0_l. rewrite block_column_rows by exact Hs. rewrite IH.
    destruct (Nat.eqb_spec (c / s) n) as [E|Ne].
    - rewrite E, andb_true_r. rewrite (proj2 (Nat.ltb_ge n n)) by lia. rewrite (proj2 (Nat.ltb_lt n (S n))) by lia. cbn [andb]. reflexivity.
    - rewrite andb_false_r. destruct (Nat.ltb_spec (c / s) n), (Nat.ltb_spec (c / s) (S n)); try lia; reflexivity. }
  rewrite K. assert (DI : ((s * I + i) / s = I)%nat) by (rewrite Nat.mul_comm, Nat.div_add_l by lia; rewrite Nat.div_small by lia; lia). assert (DJ : ((s * J + j) / s = J)%nat) by (rewrite Nat.mul_comm, Nat.div_add_l by lia; rewrite Nat.div_small by lia; lia).
  assert (MI : ((s * I + i) mod s = i)%nat) by (rewrite Nat.mul_comm, Nat.add_comm, Nat.mod_add by lia; apply Nat.mod_small; lia). assert (MJ : ((s * J + j) mod s = j)%nat) by (rewrite Nat.mul_comm, Nat.add_comm, Nat.mod_add by lia; apply Nat.mod_small; lia).
  rewrite DI, DJ, MI, MJ. rewrite (proj2 (Nat.ltb_lt J N)) by exact HJ. cbn [andb]. unfold rows. destruct symmetric; cbn [negb orb].
  - destruct (Nat.leb_spec I J) as [L|L]; [rewrite (proj2 (Nat.ltb_lt I _)) by lia; reflexivity|rewrite (proj2 (Nat.ltb_ge I _)) by lia; ring].
  - rewrite (proj2 (Nat.ltb_lt I M)) by lia. reflexivity.
Qed.
Print Assumptions C76_accumulate.
Lemma default_accumulates d s symmetric contract : (0 < d)%nat -> accumulates d s symmetric contract (accumulate_contractions d s symmetric contract).
Proof.
  intros Hd n out alpha a Ha. destruct (C76_accumulate d s symmetric contract (s * n) (s * n) out alpha a a Hd) as (K1 & K2).
  destruct (accumulate_contractions d s symmetric contract (s * n) (s * n) out alpha a a) as [out'|] eqn:E; [|exfalso; apply (proj2 K1); [exists n, n; auto|reflexivity]].
  exists out'. split; [reflexivity|]. intros I J i j HI HJ Hi Hj HS. rewrite (K2 n n out' Ha Ha eq_refl I J i j) by assumption. destruct symmetric; cbn [negb orb]; [|reflexivity].
  rewrite (proj2 (Nat.leb_le I J) (HS eq_refl)). reflexivity.
Qed.
Lemma batch_accumulates d contract : (0 < d)%nat -> accumulates d d true contract (fun nrows ncols out alpha a b => batch_contraction d nrows ncols out alpha a b contract).
Proof.
  intros Hd n out alpha a Ha. destruct (C56_batch d (d * n) (d * n) out alpha a a contract Hd) as (K1 & K2).
  destruct (batch_contraction d (d * n) (d * n) out alpha a a contract) as [out'|] eqn:E; [|exfalso; apply (proj2 K1); [exists n, n; auto|reflexivity]].
  exists out'. split; [reflexivity|]. intros I J i j HI HJ Hi Hj HS. rewrite (K2 out' eq_refl I J i j) by (try assumption; nia). rewrite (proj2 (Nat.leb_le I J) (HS eq_refl)). reflexivity.
Qed.

(** * the matrix *)
Lemma loop_matrix {Pt Data} (el : element Pt) s symmetric (contract : mat -> Data -> vec -> vec -> mat) (acc : mat -> Data -> nat -> nat -> mat -> R -> list R -> list R -> option mat) u (q : list (R * (Pt * Data))) :
  let n := el_nodes el in let d := el_dim el in physical d -> regular_at el q ->
  (forall w p x, In (w, (p, x)) q -> accumulates d s symmetric (contract (ugrad el s u p) x) (acc (ugrad el s u p) x)) ->
  forall out, exists out', quadrature_loop (fun weight point data (output : mat) =>
      match try_inverse d (el_jacobian el point) with
      | None => Singular
      | Some j_inv =>
          match acc (volume_u_grad d s n (transpose j_inv) (el_gradients el point) u) data (s * n)%nat (s * n)%nat output (weight * Rabs (determinant d (el_jacobian el point)))
             (map (fun r => mulv d (transpose j_inv) (el_gradients el point (r / d)%nat) (r mod d)%nat) (seq 0 (d * n))) (map (fun r => mulv d (transpose j_inv) (el_gradients el point (r / d)%nat) (r mod d)%nat) (seq 0 (d * n))) with
          | Some output => Done output
          | None => Mismatch
          end
      end) q out = Done out' /\
    forall I J i j, (I < n)%nat -> (J < n)%nat -> (i < s)%nat -> (j < s)%nat -> (symmetric = true -> (I <= J)%nat) ->
      out' (s * I + i)%nat (s * J + j)%nat = out (s * I + i)%nat (s * J + j)%nat + qsum q (fun w p x => w * Rabs (determinant d (el_jacobian el p)) * contract (ugrad el s u p) x (grads el p I) (grads el p J) i j).
Proof.
  intros n d Hd. induction q as [|(w & p & x) q IH]; intros Hr Ha out.
  - exists out. split; [reflexivity|]. intros. cbn. ring.
  - cbn [quadrature_loop]. assert (Hp : determinant d (el_jacobian el p) <> 0) by (apply (Hr w p x); left; reflexivity).
    unfold try_inverse at 1. destruct (Req_EM_T (determinant d (el_jacobian el p)) 0) as [E|_]; [contradiction|].
    assert (EG : forall I k, (I < n)%nat -> (if (k <? d)%nat then nth (d * I + k) (map (fun r => mulv d (transpose (fun i j => adjugate d (el_jacobian el p) i j / determinant d (el_jacobian el p))) (el_gradients el p (r / d)%nat) (r mod d)%nat) (seq 0 (d * n))) 0 else 0) = grads el p I k).
    { intros I k HI. unfold grads. fold d. destruct (Nat.ltb_spec k d) as [L|L]; [|reflexivity].
      rewrite (nth_indep _ 0 ((fun r => mulv d (transpose (fun i j => adjugate d (el_jacobian el p) i j / determinant d (el_jacobian el p))) (el_gradients el p (r / d)%nat) (r mod d)%nat) 0%nat)) by (rewrite map_length, seq_length; nia).
      rewrite (map_nth (fun r => mulv d (transpose (fun i j => adjugate d (el_jacobian el p) i j / determinant d (el_jacobian el p))) (el_gradients el p (r / d)%nat) (r mod d)%nat)). rewrite seq_nth by nia. rewrite Nat.add_0_l.
      assert (DI : ((d * I + k) / d = I)%nat) by (rewrite Nat.mul_comm, Nat.div_add_l by lia; rewrite Nat.div_small by lia; lia).
      assert (MI : ((d * I + k) mod d = k)%nat) by (rewrite Nat.mul_comm, Nat.add_comm, Nat.mod_add by lia; apply Nat.mod_small; lia).
      rewrite DI, MI. reflexivity. }
    set (st := map _ _) in *. unfold n, d in |- *. rewrite volume_ugrad. fold n d.
    destruct (Ha w p x (or_introl eq_refl) n out (w * Rabs (determinant d (el_jacobian el p))) st) as (out1 & E1 & H1); [unfold st; rewrite map_length, seq_length; reflexivity|].
    rewrite E1. destruct (IH (fun w' p' x' Hin => Hr w' p' x' (or_intror Hin)) (fun w' p' x' Hin => Ha w' p' x' (or_intror Hin)) out1) as (out2 & E2 & H2). exists out2. split; [exact E2|].
    intros I J i j HI HJ Hi Hj HS. rewrite H2 by assumption. rewrite H1 by assumption.
    rewrite (functional_extensionality _ _ (fun k => EG I k HI)), (functional_extensionality _ _ (fun k => EG J k HJ)).
    unfold qsum at 2. cbn [fold_right fst snd]. fold (qsum q (fun w p x => w * Rabs (determinant d (el_jacobian el p)) * contract (ugrad el s u p) x (grads el p I) (grads el p J) i j)). rewrite Rplus_assoc. reflexivity.
Qed.
Lemma matrix_value {Pt Data} (el : element Pt) s symmetric (contract : mat -> Data -> vec -> vec -> mat) acc u weights points (data : list Data) :
  let n := el_nodes el in let d := el_dim el in let q := combine weights (combine points data) in
  physical d -> quadrature_sizes weights points data -> length u = (s * n)%nat -> regular_at el q ->
  (forall w p x, In (w, (p, x)) q -> accumulates d s symmetric (contract (ugrad el s u p) x) (acc (ugrad el s u p) x)) ->
  (symmetric = true -> forall w p x, In (w, (p, x)) q -> forall a b i j, (i < s)%nat -> (j < s)%nat -> contract (ugrad el s u p) x a b i j = contract (ugrad el s u p) x b a j i) ->
  exists K, element_matrix el s symmetric acc u weights points data n (s * n) (s * n) = Done K /\
    forall I J i j, (I < n)%nat -> (J < n)%nat -> (i < s)%nat -> (j < s)%nat ->
      K (s * I + i)%nat (s * J + j)%nat = qsum q (fun w p x => w * Rabs (determinant d (el_jacobian el p)) * contract (ugrad el s u p) x (grads el p I) (grads el p J) i j).
Proof.
  intros n d q Hd (E1 & E2) Hu Hr Ha Hs. unfold element_matrix. cbv zeta. rewrite E1, E2, Hu, !Nat.eqb_refl. cbn [negb]. fold n. rewrite ?Nat.eqb_refl. cbn [negb]. fold q d.
  destruct (loop_matrix el s symmetric contract acc u q Hd Hr Ha zeros) as (K & EK & HK). fold n d in EK. 
  match type of EK with ?l = _ => match goal with |- exists K0, match ?r with _ => _ end = _ /\ _ => change r with l end end. rewrite EK. eexists. split; [reflexivity|]. intros I J i j HI HJ Hi Hj.
  assert (Z : forall x, zeros (s * I + i)%nat (s * J + j)%nat + x = x) by (intros; unfold zeros; ring). assert (Z' : forall x, zeros (s * J + j)%nat (s * I + i)%nat + x = x) by (intros; unfold zeros; ring).
  destruct symmetric; [|rewrite HK by (assumption || discriminate); apply Z].
  rewrite clone_all by nia. destruct (Nat.ltb_spec (s * J + j) (s * I + i)) as [L|L].
  - rewrite HK by (try assumption; intros _; nia). rewrite Z'. apply qsum_ext. intros w p x Hin. f_equal. symmetry. apply (Hs eq_refl w p x Hin); assumption.
  - rewrite HK by (try assumption; intros _; nia). apply Z.
Qed.

(** * derivatives *)
Lemma nth_line u v t r : length u = length v -> nth r (line u v t) 0 = nth r u 0 + t * nth r v 0.
Proof.
  unfold line. revert v r. induction u as [|a u IH]; intros [|b v] r H; try discriminate H; destruct r as [|r]; cbn; try ring. apply IH. cbn in H. lia.
Qed.
Lemma length_line u v t : length u = length v -> length (line u v t) = length u.
Proof. intros H. unfold line. rewrite map_length, combine_length. lia. Qed.
Lemma ugrad_line {Pt} (el : element Pt) s u v t p : length u = length v -> ugrad el s (line u v t) p = along (ugrad el s u p) (ugrad el s v p) t.
Proof.
  intros H. apply functional_extensionality. intros i. apply functional_extensionality. intros j. unfold ugrad, along. destruct (_ && _); [|ring].
  rewrite <- summ_l, <- summ_plus. apply summ_ext. intros I _. rewrite nth_line by exact H. ring.
Qed.
Lemma nth_unit n c r : nth r (unit_vector n c) 0 = if ((r =? c) && (r <? n))%nat then 1 else 0.
Proof.
  unfold unit_vector. destruct (Nat.ltb_spec r n) as [L|L].
  - rewrite (nth_indep _ 0 ((fun r => if (r =? c)%nat then 1 else 0) 0%nat)) by (rewrite map_length, seq_length; exact L). rewrite (map_nth (fun r => if (r =? c)%nat then 1 else 0)). rewrite seq_nth by exact L. rewrite andb_true_r. reflexivity.
  - rewrite nth_overflow by (rewrite map_length, seq_length; exact L). rewrite andb_false_r. reflexivity.
Qed.
Lemma length_unit n c : length (unit_vector n c) = n.
Proof. unfold unit_vector. rewrite map_length, seq_length. reflexivity. Qed.
Lemma ugrad_unit {Pt} (el : element Pt) s p J j : (J < el_nodes el)%nat -> (j < s)%nat -> ugrad el s (unit_vector (s * el_nodes el) (s * J + j)) p = fun m q => if (q =? j)%nat then grads el p J m else 0.
Proof.
  intros HJ Hj. apply functional_extensionality. intros m. apply functional_extensionality. intros q. unfold ugrad. destruct (Nat.ltb_spec m (el_dim el)) as [Lm|Lm].
  2: { cbn [andb]. unfold grads. rewrite (proj2 (Nat.ltb_ge m (el_dim el)) Lm). destruct (q =? j)%nat; reflexivity. }
  cbn [andb]. destruct (Nat.ltb_spec q s) as [Lq|Lq]; [|destruct (Nat.eqb_spec q j); [lia|reflexivity]].
  rewrite (summ_ext (el_nodes el) _ (fun I => if (I =? J)%nat then (if (q =? j)%nat then grads el p I m else 0) else 0)).
  - rewrite (summ_delta (el_nodes el) J (fun I => if (q =? j)%nat then grads el p I m else 0)) by exact HJ. reflexivity.
  - intros I HI. rewrite nth_unit. destruct (Nat.eqb_spec I J) as [->|NI].
    + destruct (Nat.eqb_spec q j) as [->|Nq]; [rewrite Nat.eqb_refl, (proj2 (Nat.ltb_lt (s * J + j) (s * el_nodes el))) by nia; cbn [andb]; ring|].
      rewrite (proj2 (Nat.eqb_neq (s * J + q) (s * J + j))) by lia. cbn [andb]. ring.
    + rewrite (proj2 (Nat.eqb_neq (s * I + q) (s * J + j))) by nia. cbn [andb]. ring.
Qed.
Definition result_value (x : result R) : R := match x with Done e => e | _ => 0 end.
Definition result_entry (x : result vec) (r : nat) : R := match x with Done f => f r | _ => 0 end.

(** * C76 *)
Section theorems.
Context {Pt Data : Type} (el : element Pt) (s : nat) (weights : list R) (points : list Pt) (data : list Data).
Hypothesis Hd : el_dim el = 1%nat \/ el_dim el = 2%nat \/ el_dim el = 3%nat.
Hypothesis Hq : quadrature_sizes weights points data.
Let d := el_dim el.
Let n := el_nodes el.
Let q := combine weights (combine points data).

(** C76: the element energy is the quadrature of the energy density of the gradient of the interpolated function; degenerate elements, and only those, are refused *)
Theorem C76_energy energy u : length u = (s * n)%nat ->
  (element_energy el s energy u weights points data n = Singular <-> ~ regular_at el q) /\
  (regular_at el q -> exists G, (forall w p x, In (w, (p, x)) q -> interpolation_gradient el s u p (G p) /\ forall G', interpolation_gradient el s u p G' -> G' = G p) /\
    element_energy el s energy u weights points data n = Done (qsum q (fun w p x => w * Rabs (determinant d (el_jacobian el p)) * energy (G p) x))).
Proof.
  intros Hu. destruct (energy_value el s energy u weights points data Hq Hu) as (H1 & H2). split; [exact H1|]. intros Hr. exists (ugrad el s u). split; [|exact (H2 Hr)].
  intros w p x Hin. split; [apply ugrad_spec; [exact Hd|exact (Hr w p x Hin)]|]. intros G' HG. apply ugrad_unique; [exact Hd|exact (Hr w p x Hin)|exact HG].
Qed.

(** C76: if the operator is the derivative of the energy density then the element vector is the derivative of the element energy with respect to the nodal values *)
Theorem C76_vector_is_gradient (energy : mat -> Data -> R) (operator operator_transpose : mat -> Data -> mat) u f :
  length u = (s * n)%nat ->
  (forall G x i j, operator_transpose G x i j = operator G x j i) ->
  (forall w p x G, In (w, (p, x)) q -> interpolation_gradient el s u p G -> derivative_at d s (fun G => energy G x) G (operator G x)) ->
  element_vector el s operator_transpose u weights points data n (s * n) = Done f ->
  forall v, length v = (s * n)%nat ->
    (forall t, exists e, element_energy el s energy (line u v t) weights points data n = Done e) /\
    is_derive (fun t => result_value (element_energy el s energy (line u v t) weights points data n)) 0 (summ n (fun I => summ s (fun i => f (s * I + i)%nat * nth (s * I + i) v 0))).
Proof.
  intros Hu Ht Hg Ef v Hv. destruct (vector_value el s operator_transpose u weights points data Hq Hu) as (S1 & S2). fold n q in S1, S2.
  assert (Hr : regular_at el q).
  { assert (Dec : regular_at el q \/ ~ regular_at el q) by apply Classical_Prop.classic. destruct Dec as [|N]; [assumption|]. apply S1 in N. rewrite N in Ef. discriminate. }
  destruct (S2 Hr) as (f' & Ef' & Hf). rewrite Ef in Ef'. injection Ef' as <-.
  assert (EE : forall t, element_energy el s energy (line u v t) weights points data n = Done (qsum q (fun w p x => w * Rabs (determinant d (el_jacobian el p)) * energy (along (ugrad el s u p) (ugrad el s v p) t) x))).
  { intros t. destruct (energy_value el s energy (line u v t) weights points data Hq) as (_ & V); [rewrite length_line by lia; exact Hu|]. etransitivity; [exact (V Hr)|]. f_equal. apply qsum_ext. intros w p x _. rewrite ugrad_line by lia. reflexivity. }
  split; [intros t; eexists; apply EE|].
  apply (is_derive_pext (fun t => qsum q (fun w p x => w * Rabs (determinant d (el_jacobian el p)) * energy (along (ugrad el s u p) (ugrad el s v p) t) x))); [intros t; rewrite EE; reflexivity|].
  eapply is_derive_eq.
  - apply (qsum_derive q (fun t w p x => w * Rabs (determinant d (el_jacobian el p)) * energy (along (ugrad el s u p) (ugrad el s v p) t) x)
      (fun w p x => w * Rabs (determinant d (el_jacobian el p)) * summ d (fun i => summ s (fun j => operator (ugrad el s u p) x i j * ugrad el s v p i j))) 0).
    intros w p x Hin. apply dscal. apply (Hg w p x (ugrad el s u p) Hin). apply ugrad_spec; [exact Hd|exact (Hr w p x Hin)].
  - rewrite (summ_ext n _ (fun I => summ s (fun i => qsum q (fun w p x => w * Rabs (determinant d (el_jacobian el p)) * summ d (fun k => grads el p I k * operator (ugrad el s u p) x k i) * nth (s * I + i) v 0)))).
    2: { intros I HI. apply summ_ext. intros i Hi. rewrite Hf by exact Hi. rewrite Rmult_comm, <- qsum_l. apply qsum_ext. intros w p x _. rewrite Rmult_comm. f_equal. f_equal. apply summ_ext. intros k _. rewrite Ht. reflexivity. }
    rewrite (summ_ext n _ (fun I => qsum q (fun w p x => summ s (fun i => w * Rabs (determinant d (el_jacobian el p)) * summ d (fun k => grads el p I k * operator (ugrad el s u p) x k i) * nth (s * I + i) v 0)))) by (intros I _; rewrite <- (qsum_summ s q); reflexivity).
    rewrite <- (qsum_summ n q (fun I w p x => summ s (fun i => w * Rabs (determinant d (el_jacobian el p)) * summ d (fun k => grads el p I k * operator (ugrad el s u p) x k i) * nth (s * I + i) v 0))).
    apply qsum_ext. intros w p x _. set (c := w * _). rewrite <- (summ_l d c).
    rewrite (summ_ext n _ (fun I => summ s (fun i => summ d (fun k => c * (grads el p I k * operator (ugrad el s u p) x k i * nth (s * I + i) v 0))))).
    2: { intros I _. apply summ_ext. intros i _. rewrite (summ_l d c). rewrite summ_r. ring. }
    rewrite (summ_ext n _ (fun I => summ d (fun k => summ s (fun i => c * (grads el p I k * operator (ugrad el s u p) x k i * nth (s * I + i) v 0))))) by (intros; apply summ_swap).
    rewrite summ_swap. apply summ_ext. intros k Hk. rewrite summ_swap. rewrite <- (summ_l s c). apply summ_ext. intros i Hi.
    unfold ugrad at 2. fold d n. rewrite (proj2 (Nat.ltb_lt k d) Hk), (proj2 (Nat.ltb_lt i s) Hi). cbn [andb]. rewrite <- summ_l, <- summ_l. apply summ_ext. intros I _. ring.
Qed.

(** C76: if the contraction is the derivative of the operator then the element matrix is the Jacobian of the element vector: its entry in row [s * I + i] and
    column [s * J + j] is the derivative of entry [s * I + i] of the element vector with respect to the nodal value [s * J + j]. For an operator that declares
    itself symmetric the contraction has to be so. *)
Theorem C76_matrix_is_jacobian (operator operator_transpose : mat -> Data -> mat) (symmetric : bool) (contract : mat -> Data -> vec -> vec -> mat) accumulate u :
  length u = (s * n)%nat -> regular_at el q ->
  (forall G x i j, operator_transpose G x i j = operator G x j i) ->
  (forall w p x G, In (w, (p, x)) q -> interpolation_gradient el s u p G ->
    (forall a b, operator_contraction_at d s (fun G => operator G x) G a b (contract G x a b)) /\
    accumulates d s symmetric (contract G x) (accumulate G x) /\
    (symmetric = true -> forall a b i j, (i < s)%nat -> (j < s)%nat -> contract G x a b i j = contract G x b a j i)) ->
  exists K, element_matrix el s symmetric accumulate u weights points data n (s * n) (s * n) = Done K /\
    (symmetric = true -> forall r c, (r < s * n)%nat -> (c < s * n)%nat -> K r c = K c r) /\
    forall I J i j, (I < n)%nat -> (J < n)%nat -> (i < s)%nat -> (j < s)%nat ->
      is_derive (fun t => result_entry (element_vector el s operator_transpose (line u (unit_vector (s * n) (s * J + j)) t) weights points data n (s * n)) (s * I + i)) 0
        (K (s * I + i)%nat (s * J + j)%nat).
Proof.
  intros Hu Hr Ht Hc.
  assert (HG : forall w p x, In (w, (p, x)) q -> interpolation_gradient el s u p (ugrad el s u p)) by (intros w p x Hin; apply ugrad_spec; [exact Hd|exact (Hr w p x Hin)]).
  destruct (matrix_value el s symmetric contract accumulate u weights points data Hd Hq Hu Hr) as (K & EK & HK).
  { intros w p x Hin. apply (Hc w p x _ Hin (HG w p x Hin)). }
  { intros Hs w p x Hin. apply (Hc w p x _ Hin (HG w p x Hin)). exact Hs. }
  exists K. split; [exact EK|]. fold n q d in HK. split.
  - intros Hs r c Hr' Hc'. assert (s0 : (0 < s)%nat) by nia. rewrite (Nat.div_mod r s), (Nat.div_mod c s) by lia.
    assert (r / s < n)%nat by (apply Nat.div_lt_upper_bound; lia). assert (c / s < n)%nat by (apply Nat.div_lt_upper_bound; lia).
    pose proof (Nat.mod_upper_bound r s ltac:(lia)). pose proof (Nat.mod_upper_bound c s ltac:(lia)).
    rewrite !HK by assumption. apply qsum_ext. intros w p x Hin. f_equal. apply (Hc w p x _ Hin (HG w p x Hin)); assumption.
  - intros I J i j HI HJ Hi Hj. rewrite HK by assumption.
    apply (is_derive_pext (fun t => qsum q (fun w p x => w * Rabs (determinant d (el_jacobian el p)) * summ d (fun k => grads el p I k * operator (along (ugrad el s u p) (fun m q => if (q =? j)%nat then grads el p J m else 0) t) x k i)))).
    + intros t. destruct (vector_value el s operator_transpose (line u (unit_vector (s * n) (s * J + j)) t) weights points data Hq) as (_ & V); [rewrite length_line; [exact Hu|rewrite length_unit; exact Hu]|].
      destruct (V Hr) as (f & Ef & Hf). etransitivity; [|symmetry; exact (f_equal (fun r => result_entry r (s * I + i)) Ef)]. cbn [result_entry]. rewrite Hf by exact Hi. apply qsum_ext. intros w p x _. f_equal.
      apply summ_ext. intros k _. rewrite Ht. rewrite ugrad_line by (rewrite length_unit; exact Hu). unfold n. rewrite ugrad_unit by assumption. reflexivity.
    + apply (qsum_derive q (fun t w p x => w * Rabs (determinant d (el_jacobian el p)) * summ d (fun k => grads el p I k * operator (along (ugrad el s u p) (fun m q => if (q =? j)%nat then grads el p J m else 0) t) x k i))
        (fun w p x => w * Rabs (determinant d (el_jacobian el p)) * contract (ugrad el s u p) x (grads el p I) (grads el p J) i j) 0).
      intros w p x Hin. apply dscal. apply (Hc w p x _ Hin (HG w p x Hin)); assumption.
Qed.
End theorems.
Print Assumptions C76_energy.
Print Assumptions C76_vector_is_gradient.
Print Assumptions C76_matrix_is_jacobian.

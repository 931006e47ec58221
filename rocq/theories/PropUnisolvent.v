(** C107: the quadrature rules that the code chooses for mass and stiffness matrices determine the functions of the element: a function that is zero at the points of the mass rule is zero, and one whose
    gradient is zero at the points of the stiffness rule is constant. *)
From Coq Require Import Reals QArith Qreals ZArith NArith Arith Lia Lra Bool String List Permutation.
From Flocq Require Import Core.
From Coquelicot Require Import Coquelicot.
From Verif Require Import MaterialModel EllipticModel PropMaterial PropObjective PropElliptic PropEllipticOps PropMass.
From Verif Require Import ElementModel ElementSpec ElementNodal ElementGrads PropElement QuadratureModel CanonicalModel QuadPolyN RuleProofs GaussSharp ElementDegrees TriangleCells CanonicalProofs PropCanonical PropCanonicalMatrices
  TableMoments TableCheck PolyquadModel PolyquadData PropPolyquadText PropPolyquadSelect PropPolyquadDecimal PropPolyquadTables SizedPoly SizedTensor PropCanonicalTables PropGaussNewton PropCanonicalGauss PropTensor PropCanonicalLimits UnisolventRules.
Import ListNotations.
Local Open Scope list_scope.
Local Open Scope R_scope.

(** ** Specification *)
(** the function with nodal values [u] on the reference element, and its derivatives *)
Definition value_of (e : element) (u : nat -> R) (x : point) : R := summ (length (el_ref e)) (fun I => u I * nth I (el_basis e x) 0).
Definition slope_of (e : element) (u : nat -> R) (k : nat) (x : point) : R := summ (length (el_ref e)) (fun I => u I * nth k (nth I (el_grads e x) []) 0).
(** only the zero function is zero at the points *)
Definition determines_values (e : element) (xs : list point) : Prop := forall u, (forall x, In x xs -> value_of e u x = 0) -> forall I, (I < length (el_ref e))%nat -> u I = 0.
(** only constants have no gradient at the points *)
Definition determines_slopes (e : element) (xs : list point) : Prop :=
  forall u, (forall x k, In x xs -> (k < el_dim e)%nat -> slope_of e u k x = 0) -> forall I J, (I < length (el_ref e))%nat -> (J < length (el_ref e))%nat -> u I = u J.

(** ** Rules that determine polynomials *)
Definition determines (xs : list point) (C : (point -> R) -> Prop) : Prop := forall f, C f -> (forall x, In x xs -> f x = 0) -> forall x, f x = 0.
Definition found_rule (oq : option (rule point)) (C : (point -> R) -> Prop) : Prop := exists q, oq = Some q /\ length (fst q) = length (snd q) /\ determines (snd q) C.

Lemma simplex_determines e d x k k' oq : dual_ok d x = true -> (forall f, over_reference e f = over d f) -> dimension d = el_dim e ->
  (forall m, In m (du_monomials x) <-> total_degree (el_dim e) k m) -> (k + k <= k')%nat -> good e k' oq -> found_rule oq (fun f => exists s, Sz (el_dim e) k s f).
Proof.
  intros Ok Ho Hd HM Hk (q & E & L & G). exists q. split; [exact E|]. split; [exact L|]. intros f (s & p & D & _ & Hf) Hz y. rewrite Hf.
  apply (rule_unisolvent d x q p Ok); [|exact L| |intros z Iz; rewrite <- Hf; exact (Hz z Iz)].
  - intros m m' Hm Hm'. apply HM in Hm, Hm'. pose proof (total_add _ _ _ _ _ Hm Hm') as T.
    assert (F : List.Forall (fun c : R * (nat * nat * nat) => total_degree (dimension d) k' (snd c)) [(1, add_exps m m')]).
    { constructor; [|constructor]. cbn [snd]. rewrite Hd. destruct T as (T1 & T2). split; [lia|exact T2]. }
    specialize (G 1 (peval [(1, add_exps m m')])). rewrite <- Hd in G. rewrite Ho, (moments_ok d) in G.
    + cbn [fold_right fst snd] in G. rewrite (rule_ext q (monomial (add_exps m m')) (peval [(1, add_exps m m')])) by (intros; cbn; ring). unfold moment_at. 
      assert (S1 : Sz (dimension d) k' 1 (peval [(1, add_exps m m')])) by (exists [(1, add_exps m m')]; split; [exact F|split; [cbn; rewrite Rabs_R1; lra|reflexivity]]).
      specialize (G S1). rewrite Rmult_1_l, Rplus_0_r in G. unfold Rdiv in G. rewrite Rmult_1_l in G. exact G.
    + eapply List.Forall_impl; [|exact F]. intros c (_ & T2 & _) D2. apply T2. lia.
  - eapply List.Forall_impl; [|exact D]. intros c Hc. apply HM, Hc.
Qed.
Lemma tensor_determines e d x c n K oq : dual_ok d x = true -> (forall f, over_reference e f = over d f) -> (dimension d = 2%nat -> c = 0%nat) -> (0 < n)%nat -> (0 <= K <= 10 ^ 15) ->
  (forall m, In m (du_monomials x) <-> within (n - 1) (n - 1) (c * (n - 1)) m) -> accurate e c K n oq -> found_rule oq (fun f => exists s, Se (n - 1) (n - 1) (c * (n - 1)) s f).
Proof.
  intros Ok Ho Hd Hn HK HM (q & E & L & _ & _ & G). exists q. split; [exact E|]. split; [exact L|]. intros f (s & p & D & _ & Hf) Hz y. rewrite Hf.
  apply (rule_unisolvent d x q p Ok); [|exact L| |intros z Iz; rewrite <- Hf; exact (Hz z Iz)].
  - intros m m' Hm Hm'. apply HM in Hm, Hm'. pose proof (within_add _ _ _ _ _ _ _ _ Hm Hm') as T.
    assert (F : List.Forall (fun c0 : R * (nat * nat * nat) => within (2 * n - 1) (2 * n - 1) (c * (2 * n - 1)) (snd c0)) [(1, add_exps m m')]).
    { constructor; [|constructor]. cbn [snd]. unfold within in *. nia. }
    assert (S1 : Se (2 * n - 1) (2 * n - 1) (c * (2 * n - 1)) 1 (peval [(1, add_exps m m')])) by (exists [(1, add_exps m m')]; split; [exact F|split; [cbn; rewrite Rabs_R1; lra|reflexivity]]).
    specialize (G 1 _ S1). rewrite Ho, (moments_ok d) in G.
    + cbn [fold_right fst snd] in G. rewrite (rule_ext q (monomial (add_exps m m')) (peval [(1, add_exps m m')])) by (intros; cbn; ring). unfold moment_at.
      rewrite Rmult_1_l, Rplus_0_r, Rmult_1_r in G. eapply Rle_trans; [exact G|]. lra.
    + constructor; [|constructor]. intros D2. cbn [snd]. rewrite (Hd D2) in T. unfold within in T. lia.
  - eapply List.Forall_impl; [|exact D]. intros c0 Hc. apply HM, Hc.
Qed.

(** the monomials *)
Ltac listed := unfold total_degree, within; cbn; split; [
  let H := fresh in intros H; repeat (destruct H as [<-|H]; [cbn; lia|]); destruct H |
  let m := fresh in let i := fresh "i" in let j := fresh "j" in let k := fresh "k" in
  match goal with |- context [fst (fst ?v)] => destruct v as [[i j] k] end; cbn [fst snd]; intros;
  destruct i as [|[|[|[|i]]]]; try lia; destruct j as [|[|[|[|j]]]]; try lia; destruct k as [|[|[|[|k]]]]; try lia; repeat (first [left; reflexivity | right]) ].
Lemma tri0_monomials m : In m (du_monomials dual_tri0) <-> total_degree 2 0 m. Proof. listed. Qed.
Lemma tri1_monomials m : In m (du_monomials dual_tri1) <-> total_degree 2 1 m. Proof. listed. Qed.
Lemma tri2_monomials m : In m (du_monomials dual_tri2) <-> total_degree 2 2 m. Proof. listed. Qed.
Lemma tet0_monomials m : In m (du_monomials dual_tet0) <-> total_degree 3 0 m. Proof. listed. Qed.
Lemma tet1_monomials m : In m (du_monomials dual_tet1) <-> total_degree 3 1 m. Proof. listed. Qed.
Lemma tet2_monomials m : In m (du_monomials dual_tet2) <-> total_degree 3 2 m. Proof. listed. Qed.
Lemma tet3_monomials m : In m (du_monomials dual_tet3) <-> total_degree 3 3 m. Proof. listed. Qed.
Lemma quad1_monomials m : In m (du_monomials dual_quad1) <-> within (2 - 1) (2 - 1) (0 * (2 - 1)) m. Proof. listed. Qed.
Lemma quad2_monomials m : In m (du_monomials dual_quad2) <-> within (3 - 1) (3 - 1) (0 * (3 - 1)) m. Proof. listed. Qed.
Lemma hex1_monomials m : In m (du_monomials dual_hex1) <-> within (2 - 1) (2 - 1) (1 * (2 - 1)) m. Proof. listed. Qed.
Lemma hex2_monomials m : In m (du_monomials dual_hex2) <-> within (3 - 1) (3 - 1) (1 * (3 - 1)) m. Proof. listed. Qed.

(** ** Elements *)
(** a class of functions that is closed under linear combinations *)
Definition linear_class (C : (point -> R) -> Prop) : Prop :=
  (forall f g, (forall x, f x = g x) -> C f -> C g) /\ C (fun _ => 0) /\ (forall f g, C f -> C g -> C (fun x => f x + g x)) /\ (forall c f, C f -> C (fun x => c * f x)).
Lemma linear_summ C n (f : nat -> point -> R) : linear_class C -> (forall i, (i < n)%nat -> C (f i)) -> C (fun x => summ n (fun i => f i x)).
Proof. intros (_ & C0 & Ca & _). induction n as [|n IH]; intros H; cbn [summ]; [exact C0|]. apply Ca; [apply IH; intros; apply H; lia|apply H; lia]. Qed.
Lemma Sz_linear dim k : linear_class (fun f => exists s, Sz dim k s f).
Proof.
  split; [|split; [|split]].
  - intros f g E (s & H). exists s. exact (Sz_ext dim k s f g (fun x => eq_sym (E x)) H).
  - exists 0. apply Sz_zero. lra.
  - intros f g (s & F) (t & G). exists (s + t). apply (Sz_weaken dim (Nat.max k k) (s + t)); [lia|lra|]. exact (Sz_add _ _ _ _ _ _ _ F G).
  - intros c f (s & F). exists (Rabs c * s). exact (Sz_scale _ _ _ _ _ F).
Qed.
Lemma Se_linear a b c : linear_class (fun f => exists s, Se a b c s f).
Proof.
  split; [|split; [|split]].
  - intros f g E (s & H). exists s. exact (Se_ext a b c s f g (fun x => eq_sym (E x)) H).
  - exists 0. apply Se_zero. lra.
  - intros f g (s & F) (t & G). exists (s + t). apply (Se_weaken (Nat.max a a) (Nat.max b b) (Nat.max c c) (s + t)); [lia|lia|lia|lra|]. exact (Se_add _ _ _ _ _ _ _ _ _ _ F G).
  - intros k f (s & F). exists (Rabs k * s). exact (Se_scale _ _ _ _ _ _ F).
Qed.

Definition canonical_elements : list element := [tri3; tri6; quad4; quad9; tet4; tet10; tet20; hex8; hex20; hex27].
Lemma basis_polynomial e I : In e canonical_elements -> exists p, forall x, nth I (el_basis e x) 0 = peval p x.
Proof.
  unfold canonical_elements. cbn [In]. intros [<-|[<-|[<-|[<-|[<-|[<-|[<-|[<-|[<-|[<-|[]]]]]]]]]]].
  - destruct (tri3_basis_size I) as (p & _ & _ & H). exists p. exact H.
  - destruct (tri6_basis_size I) as (p & _ & _ & H). exists p. exact H.
  - destruct (quad4_basis_size I) as (p & _ & _ & H). exists p. exact H.
  - destruct (quad9_basis_size I) as (p & _ & _ & H). exists p. exact H.
  - destruct (tet4_basis_size I) as (p & _ & _ & H). exists p. exact H.
  - destruct (tet10_basis_size I) as (p & _ & _ & H). exists p. exact H.
  - destruct (tet20_basis_size I) as (p & _ & _ & H). exists p. exact H.
  - destruct (hex8_basis_size I) as (p & _ & _ & H). exists p. exact H.
  - destruct (hex20_basis_size I) as (p & _ & _ & H). exists p. exact H.
  - destruct (hex27_basis_size I) as (p & _ & _ & H). exists p. exact H.
Qed.
Lemma value_ext e u x y : In e canonical_elements -> (forall k, (k < 3)%nat -> x k = y k) -> value_of e u x = value_of e u y.
Proof.
  intros He E. apply PropMaterial.summ_ext. intros I _. destruct (basis_polynomial e I He) as (p & H). rewrite !H. f_equal. unfold peval, monomial. rewrite !E by lia. reflexivity.
Qed.
Lemma canonical_all e : In e canonical_elements -> In e all_elements.
Proof. unfold canonical_elements, all_elements. cbn [In]. tauto. Qed.
Lemma canonical_dim e : In e canonical_elements -> (2 <= el_dim e <= 3)%nat /\ forall I, length (nth I (el_ref e) []) = el_dim e \/ length (nth I (el_ref e) []) = 0%nat.
Proof.
  unfold canonical_elements. cbn [In]. intros [<-|[<-|[<-|[<-|[<-|[<-|[<-|[<-|[<-|[<-|[]]]]]]]]]]]; (split; [cbn; lia|]); intros I; cbn [el_ref el_dim tri3 tri6 quad4 quad9 tet4 tet10 tet20 hex8 hex20 hex27];
    repeat (destruct I as [|I]; [left; reflexivity|]); right; destruct I; reflexivity.
Qed.
Lemma value_slope e u x k : In e all_elements -> (k < el_dim e)%nat -> is_derive (fun t => value_of e u (upd x k t)) (x k) (slope_of e u k x).
Proof.
  intros He Hk. unfold value_of, slope_of. assert (H : forall n, (n <= length (el_ref e))%nat ->
    is_derive (fun t => summ n (fun I => u I * nth I (el_basis e (upd x k t)) 0)) (x k) (summ n (fun I => u I * nth k (nth I (el_grads e x) []) 0))); [|apply H; lia].
  induction n as [|n IH]; intros Hn; cbn [summ]; [apply (is_derive_const (0 : R))|]. apply (is_derive_plus (V := R_NormedModule)); [apply IH; lia|]. apply is_derive_scal. apply C52_gradients; [exact He|lia|exact Hk].
Qed.
Lemma derive_zero_eq (f : R -> R) a b : (forall t, is_derive f t 0) -> f a = f b.
Proof.
  intros H. destruct (Rtotal_order a b) as [L|[->|L]]; [|reflexivity|symmetry]; apply (eq_is_derive f); try assumption; intros t _; exact (H t).
Qed.
Lemma value_upd e u x k t : In e canonical_elements -> (k < el_dim e)%nat -> (forall y, slope_of e u k y = 0) -> value_of e u (upd x k t) = value_of e u x.
Proof.
  intros He Hk H. rewrite (value_ext e u x (upd x k (x k)) He) by (intros j _; unfold upd; destruct (Nat.eqb_spec j k) as [->|]; reflexivity).
  apply (derive_zero_eq (fun t => value_of e u (upd x k t))). intros s.
  pose proof (value_slope e u (upd x k s) k (canonical_all e He) Hk) as D. rewrite H in D. assert (Eu : upd x k s k = s) by (unfold upd; rewrite Nat.eqb_refl; reflexivity). rewrite Eu in D.
  eapply is_derive_ext; [|exact D]. intros r. apply value_ext; [exact He|]. intros j _. unfold upd. destruct (j =? k)%nat; reflexivity.
Qed.
Lemma pt_beyond l k : (length l <= k)%nat -> pt l k = 0.
Proof. intros H. unfold pt. apply nth_overflow, H. Qed.
Lemma constant_values e u : In e canonical_elements -> (forall k x, (k < el_dim e)%nat -> slope_of e u k x = 0) -> forall I J, (I < length (el_ref e))%nat -> (J < length (el_ref e))%nat ->
  value_of e u (pt (nth I (el_ref e) [])) = value_of e u (pt (nth J (el_ref e) [])).
Proof.
  intros He H I J HI HJ. destruct (canonical_dim e He) as [D L]. set (x := pt (nth I (el_ref e) [])). set (y := pt (nth J (el_ref e) [])).
  assert (Beyond : forall k, (el_dim e <= k)%nat -> x k = y k).
  { intros k Hk. unfold x, y. rewrite !pt_beyond; [reflexivity| |]; [destruct (L J) as [E|E]|destruct (L I) as [E|E]]; rewrite E; lia. }
  transitivity (value_of e u (upd (upd x 0 (y 0%nat)) 1 (y 1%nat))).
  - rewrite !value_upd; [reflexivity|exact He|lia|intros; apply H; lia|exact He|lia|intros; apply H; lia].
  - destruct (le_lt_dec (el_dim e) 2) as [D2|D3].
    + apply value_ext; [exact He|]. intros k Hk. unfold upd. destruct k as [|[|[|k]]]; cbn [Nat.eqb]; [reflexivity|reflexivity|apply Beyond; lia|lia].
    + transitivity (value_of e u (upd (upd (upd x 0 (y 0%nat)) 1 (y 1%nat)) 2 (y 2%nat))); [symmetry; apply value_upd; [exact He|lia|intros; apply H; lia]|].
      apply value_ext; [exact He|]. intros k Hk. unfold upd. destruct k as [|[|[|k]]]; cbn [Nat.eqb]; [reflexivity|reflexivity|reflexivity|lia].
Qed.
Lemma value_node e u J : In e all_elements -> (J < length (el_ref e))%nat -> value_of e u (pt (nth J (el_ref e) [])) = u J.
Proof.
  intros He HJ. unfold value_of. rewrite (PropMaterial.summ_ext _ _ (fun I => if (I =? J)%nat then u I else 0)); [apply summ_delta, HJ|]. intros I HI.
  rewrite (proj2 (C51_nodal e He) I J HI HJ). destruct (I =? J)%nat; ring.
Qed.

(** ** Derivatives along lines *)
Definition on_line (x h : point) (t : R) : point := fun k => x k + t * h k.
Definition dmono (k : nat) (e : exps) (x : point) : R :=
  let a := fst (fst e) in let b := snd (fst e) in let c := snd e in
  match k with
  | 0%nat => INR a * x 0%nat ^ Init.Nat.pred a * x 1%nat ^ b * x 2%nat ^ c
  | 1%nat => x 0%nat ^ a * (INR b * x 1%nat ^ Init.Nat.pred b) * x 2%nat ^ c
  | _ => x 0%nat ^ a * x 1%nat ^ b * (INR c * x 2%nat ^ Init.Nat.pred c)
  end.
Definition dpeval (k : nat) (p : poly) (x : point) : R := fold_right (fun m acc => fst m * dmono k (snd m) x + acc) 0 p.
Lemma derive_pow (f : R -> R) n t l : is_derive f t l -> is_derive (fun s => f s ^ n) t (INR n * f t ^ Init.Nat.pred n * l).
Proof. intros H. replace (INR n * f t ^ Init.Nat.pred n * l) with (INR n * l * f t ^ Init.Nat.pred n) by ring. exact (is_derive_pow f n t l H). Qed.
Lemma derive_mult3 (f g h : R -> R) t a b c : is_derive f t a -> is_derive g t b -> is_derive h t c -> is_derive (fun s => f s * g s * h s) t (a * g t * h t + f t * b * h t + f t * g t * c).
Proof.
  intros F G H. replace (a * g t * h t + f t * b * h t + f t * g t * c) with ((a * g t + f t * b) * h t + (f t * g t) * c) by ring.
  apply (is_derive_mult (fun s => f s * g s) h t _ _ (is_derive_mult f g t a b F G (fun n m => Rmult_comm n m)) H (fun n m => Rmult_comm n m)).
Qed.
Lemma dmono_curve (z : R -> point) e t (l : nat -> R) : (forall k, (k < 3)%nat -> is_derive (fun s => z s k) t (l k)) -> is_derive (fun s => monomial e (z s)) t (summ 3 (fun k => l k * dmono k e (z t))).
Proof.
  intros H. unfold monomial.
  pose proof (derive_mult3 _ _ _ t _ _ _ (derive_pow _ (fst (fst e)) t _ (H 0%nat ltac:(lia))) (derive_pow _ (snd (fst e)) t _ (H 1%nat ltac:(lia))) (derive_pow _ (snd e) t _ (H 2%nat ltac:(lia)))) as D. cbv beta in D.
  match type of D with is_derive _ _ ?v => replace (summ 3 (fun k => l k * dmono k e (z t))) with v; [exact D|] end. cbn [summ dmono]. ring.
Qed.
Lemma dpeval_cons k m p x : dpeval k (m :: p) x = fst m * dmono k (snd m) x + dpeval k p x.
Proof. reflexivity. Qed.
Lemma dpeval_curve (z : R -> point) p t (l : nat -> R) : (forall k, (k < 3)%nat -> is_derive (fun s => z s k) t (l k)) -> is_derive (fun s => peval p (z s)) t (summ 3 (fun k => l k * dpeval k p (z t))).
Proof.
  intros H. induction p as [|m p IH].
  - rewrite (PropMaterial.summ_ext _ _ (fun _ => 0)) by (intros; unfold dpeval; cbn [fold_right]; ring). rewrite summ_zero. apply (is_derive_const (0 : R)).
  - rewrite (PropMaterial.summ_ext 3 _ (fun k => fst m * (l k * dmono k (snd m) (z t)) + l k * dpeval k p (z t))) by (intros; rewrite dpeval_cons; ring). rewrite summ_plus, summ_l.
    apply (is_derive_ext (fun s => fst m * monomial (snd m) (z s) + peval p (z s))); [intros; reflexivity|].
    apply (is_derive_plus (V := R_NormedModule)); [|exact IH]. apply is_derive_scal. apply dmono_curve. exact H.
Qed.
Lemma peval_times c p x : peval (map (fun m : R * (nat * nat * nat) => (c * fst m, snd m)) p) x = c * peval p x.
Proof. unfold peval. induction p as [|m p IH]; cbn [map fold_right fst snd]; [ring|]. rewrite IH. unfold exps. ring. Qed.
Lemma derive_summ n (f : nat -> R -> R) t (l : nat -> R) : (forall k, (k < n)%nat -> is_derive (f k) t (l k)) -> is_derive (fun s => summ n (fun k => f k s)) t (summ n l).
Proof. intros H. induction n as [|n IH]; cbn [summ]; [apply (is_derive_const (0 : R))|]. apply (is_derive_plus (V := R_NormedModule)); [apply IH; intros; apply H; lia|apply H; lia]. Qed.
Lemma value_polynomial e u : In e canonical_elements -> exists p, forall x, value_of e u x = peval p x.
Proof.
  intros He. apply (linear_summ (fun f => exists p, forall x, f x = peval p x) (length (el_ref e)) (fun I x => u I * nth I (el_basis e x) 0)).
  - split; [|split; [|split]].
    + intros f g E (p & H). exists p. intros x. rewrite <- E. apply H.
    + exists []. reflexivity.
    + intros f g (p & F) (q & G). exists (p ++ q). intros x. rewrite peval_app, F, G. reflexivity.
    + intros c f (p & F). exists (map (fun m : R * (nat * nat * nat) => (c * fst m, snd m)) p). intros x. rewrite F. symmetry. apply peval_times.
  - intros I _. destruct (basis_polynomial e I He) as (p & H). exists (map (fun m : R * (nat * nat * nat) => (u I * fst m, snd m)) p). intros x. rewrite H. symmetry. apply peval_times.
Qed.
Lemma slope_dpeval e u p k x : In e canonical_elements -> (forall x, value_of e u x = peval p x) -> (k < el_dim e)%nat -> slope_of e u k x = dpeval k p x.
Proof.
  intros He Hp Hk. pose proof (value_slope e u x k (canonical_all e He) Hk) as D. apply is_derive_unique in D. rewrite <- D. apply is_derive_unique.
  destruct (canonical_dim e He) as [Hd _]. assert (Hk3 : (k < 3)%nat) by lia.
  apply (is_derive_ext (fun t => peval p (upd x k t))); [intros t; symmetry; apply Hp|].
  pose proof (dpeval_curve (fun t => upd x k t) p (x k) (fun j => if (j =? k)%nat then 1 else 0)) as C.
  assert (E : upd x k (x k) = upd x k (x k)) by reflexivity.
  assert (S : summ 3 (fun j => (if (j =? k)%nat then 1 else 0) * dpeval j p (upd x k (x k))) = dpeval k p x).
  { rewrite (PropMaterial.summ_ext 3 _ (fun j => if (j =? k)%nat then dpeval j p x else 0)); [apply summ_delta, Hk3|]. intros j _. destruct (j =? k)%nat; [|ring]. rewrite Rmult_1_l.
    assert (Ex : forall i, upd x k (x k) i = x i) by (intros i; unfold upd; destruct (Nat.eqb_spec i k) as [->|]; reflexivity). unfold dpeval, dmono. rewrite !Ex. reflexivity. }
  cbv beta in C. rewrite S in C. apply C. intros j _. unfold upd. destruct (j =? k)%nat; [apply (is_derive_id (x k))|apply (is_derive_const (x j))].
Qed.
(** the derivative along a line in the plane or space of the element *)
Lemma value_line e u x h t : In e canonical_elements -> (forall k, (el_dim e <= k)%nat -> h k = 0) -> is_derive (fun t => value_of e u (on_line x h t)) t (summ (el_dim e) (fun k => h k * slope_of e u k (on_line x h t))).
Proof.
  intros He Hh. destruct (value_polynomial e u He) as (p & Hp). destruct (canonical_dim e He) as [Hd _].
  assert (S : summ 3 (fun k => h k * dpeval k p (on_line x h t)) = summ (el_dim e) (fun k => h k * slope_of e u k (on_line x h t))).
  { rewrite (PropMaterial.summ_ext (el_dim e) _ (fun k => h k * dpeval k p (on_line x h t))) by (intros k Hk; rewrite (slope_dpeval e u p k _ He Hp Hk); reflexivity).
    assert (D : el_dim e = 2%nat \/ el_dim e = 3%nat) by lia. destruct D as [D|D]; rewrite D in *; [|reflexivity]. cbn [summ]. rewrite (Hh 2%nat) by lia. ring. }
  rewrite <- S. apply (is_derive_ext (fun t => peval p (on_line x h t))); [intros s; symmetry; apply Hp|]. apply dpeval_curve. intros k _. unfold on_line. auto_derive; [trivial|ring].
Qed.

Section canonical.
Variables (fuel : nat) (tri tet : list entry).
Hypotheses (Hfuel : (5 <= fuel)%nat) (Htri : shipped Tri tri) (Htet : shipped Tet tet).
Local Notation root := (newton_root fuel).
Local Notation mass_rules := (canonical_mass root (table_rule Tri tri) (table_rule Tet tet)).
Local Notation stiffness_rules := (canonical_stiffness root (table_rule Tri tri) (table_rule Tet tet)).

Lemma constant_range c n : 0 <= c <= 80 -> (n <= 3)%nat -> 0 <= c * (INR n + 1 / 2) ^ 4 <= 10 ^ 15.
Proof.
  intros Hc Hn. assert (0 <= INR n <= 3) as Hi by (split; [apply pos_INR|replace 3 with (INR 3) by (cbn; lra); apply le_INR; exact Hn]).
  assert (P : 0 <= (INR n + 1 / 2) ^ 4 <= 4 ^ 4) by (split; [apply pow_le; lra|apply pow_incr; lra]). split; [apply Rmult_le_pos; lra|]. apply (Rle_trans _ (80 * 4 ^ 4)); [apply Rmult_le_compat; lra|lra].
Qed.
(** the class of the basis functions *)
Lemma mass_class e oq : In (e, oq) mass_rules -> In e all_elements /\ exists C, linear_class C /\ found_rule oq C /\ forall I, C (fun x => nth I (el_basis e x) 0).
Proof using Hfuel Htri Htet.
  intros HIn. cbn [canonical_mass In] in HIn. repeat match type of HIn with _ \/ _ => destruct HIn as [HIn|HIn] end; [..|destruct HIn];
    pose proof (f_equal fst HIn) as He; pose proof (f_equal snd HIn) as Hq; cbn [fst snd] in He, Hq; subst e oq; clear HIn; (split; [cbn [all_elements In]; tauto|]).
  - eexists. split; [apply (Sz_linear 2 1)|]. split; [apply (simplex_determines tri3 Tri dual_tri1 1 2 _ dual_tri1_ok (fun _ => eq_refl) eq_refl tri1_monomials (Nat.le_refl _)), good_tri; (assumption || reflexivity || lia)|]. intros I. eexists. apply tri3_basis_size.
  - eexists. split; [apply (Sz_linear 2 2)|]. split; [apply (simplex_determines tri6 Tri dual_tri2 2 4 _ dual_tri2_ok (fun _ => eq_refl) eq_refl tri2_monomials (Nat.le_refl _)), good_tri; (assumption || reflexivity || lia)|]. intros I. eexists. apply tri6_basis_size.
  - eexists. split; [apply (Se_linear (2 - 1) (2 - 1) (0 * (2 - 1)))|]. split; [apply (tensor_determines quad4 Quad dual_quad1 0 2 (25 * (INR 2 + 1 / 2) ^ 4) _ dual_quad1_ok (fun _ => eq_refl) (fun _ => eq_refl) ltac:(lia) (constant_range 25 2 ltac:(lra) ltac:(lia)) quad1_monomials), accurate_quad; (assumption || reflexivity || lia)|]. intros I. eexists. apply quad4_basis_size.
  - eexists. split; [apply (Se_linear (3 - 1) (3 - 1) (0 * (3 - 1)))|]. split; [apply (tensor_determines quad9 Quad dual_quad2 0 3 (25 * (INR 3 + 1 / 2) ^ 4) _ dual_quad2_ok (fun _ => eq_refl) (fun _ => eq_refl) ltac:(lia) (constant_range 25 3 ltac:(lra) ltac:(lia)) quad2_monomials), accurate_quad; (assumption || reflexivity || lia)|]. intros I. eexists. apply quad9_basis_size.
  - eexists. split; [apply (Sz_linear 3 1)|]. split; [apply (simplex_determines tet4 Tet dual_tet1 1 2 _ dual_tet1_ok (fun _ => eq_refl) eq_refl tet1_monomials (Nat.le_refl _)), good_tet; (assumption || reflexivity || lia)|]. intros I. eexists. apply tet4_basis_size.
  - eexists. split; [apply (Sz_linear 3 2)|]. split; [apply (simplex_determines tet10 Tet dual_tet2 2 4 _ dual_tet2_ok (fun _ => eq_refl) eq_refl tet2_monomials (Nat.le_refl _)), good_tet; (assumption || reflexivity || lia)|]. intros I. eexists. apply tet10_basis_size.
  - eexists. split; [apply (Sz_linear 3 3)|]. split; [apply (simplex_determines tet20 Tet dual_tet3 3 6 _ dual_tet3_ok (fun _ => eq_refl) eq_refl tet3_monomials (Nat.le_refl _)), good_tet; (assumption || reflexivity || lia)|]. intros I. eexists. apply tet20_basis_size.
  - eexists. split; [apply (Se_linear (2 - 1) (2 - 1) (1 * (2 - 1)))|]. split; [apply (tensor_determines hex8 Hex dual_hex1 1 2 (80 * (INR 2 + 1 / 2) ^ 4) _ dual_hex1_ok (fun _ => eq_refl) ltac:(discriminate) ltac:(lia) (constant_range 80 2 ltac:(lra) ltac:(lia)) hex1_monomials), accurate_hex; (assumption || reflexivity || lia)|]. intros I. eexists. apply hex8_basis_size.
  - eexists. split; [apply (Se_linear (3 - 1) (3 - 1) (1 * (3 - 1)))|]. split; [apply (tensor_determines hex20 Hex dual_hex2 1 3 (80 * (INR 3 + 1 / 2) ^ 4) _ dual_hex2_ok (fun _ => eq_refl) ltac:(discriminate) ltac:(lia) (constant_range 80 3 ltac:(lra) ltac:(lia)) hex2_monomials), accurate_hex; (assumption || reflexivity || lia)|]. intros I. eexists. apply hex20_basis_size.
  - eexists. split; [apply (Se_linear (3 - 1) (3 - 1) (1 * (3 - 1)))|]. split; [apply (tensor_determines hex27 Hex dual_hex2 1 3 (80 * (INR 3 + 1 / 2) ^ 4) _ dual_hex2_ok (fun _ => eq_refl) ltac:(discriminate) ltac:(lia) (constant_range 80 3 ltac:(lra) ltac:(lia)) hex2_monomials), accurate_hex; (assumption || reflexivity || lia)|]. intros I. eexists. apply hex27_basis_size.
Qed.
(** the class of the derivatives of the basis functions *)
Lemma stiffness_class e oq : In (e, oq) stiffness_rules -> In e all_elements /\ exists C, linear_class C /\ found_rule oq C /\ forall I k, C (fun x => nth k (nth I (el_grads e x) []) 0).
Proof using Hfuel Htri Htet.
  intros HIn. cbn [canonical_stiffness In] in HIn. repeat match type of HIn with _ \/ _ => destruct HIn as [HIn|HIn] end; [..|destruct HIn];
    pose proof (f_equal fst HIn) as He; pose proof (f_equal snd HIn) as Hq; cbn [fst snd] in He, Hq; subst e oq; clear HIn; (split; [cbn [all_elements In]; tauto|]).
  - eexists. split; [apply (Sz_linear 2 0)|]. split; [apply (simplex_determines tri3 Tri dual_tri0 0 1 _ dual_tri0_ok (fun _ => eq_refl) eq_refl tri0_monomials ltac:(lia)), good_tri; (assumption || reflexivity || lia)|]. intros I k. eexists. apply tri3_grads_size.
  - eexists. split; [apply (Sz_linear 2 1)|]. split; [apply (simplex_determines tri6 Tri dual_tri1 1 2 _ dual_tri1_ok (fun _ => eq_refl) eq_refl tri1_monomials (Nat.le_refl _)), good_tri; (assumption || reflexivity || lia)|]. intros I k. eexists. apply tri6_grads_size.
  - eexists. split; [apply (Se_linear (2 - 1) (2 - 1) (0 * (2 - 1)))|]. split; [apply (tensor_determines quad4 Quad dual_quad1 0 2 (25 * (INR 2 + 1 / 2) ^ 4) _ dual_quad1_ok (fun _ => eq_refl) (fun _ => eq_refl) ltac:(lia) (constant_range 25 2 ltac:(lra) ltac:(lia)) quad1_monomials), accurate_quad; (assumption || reflexivity || lia)|]. intros I k. eexists. apply quad4_grads_size.
  - eexists. split; [apply (Se_linear (3 - 1) (3 - 1) (0 * (3 - 1)))|]. split; [apply (tensor_determines quad9 Quad dual_quad2 0 3 (25 * (INR 3 + 1 / 2) ^ 4) _ dual_quad2_ok (fun _ => eq_refl) (fun _ => eq_refl) ltac:(lia) (constant_range 25 3 ltac:(lra) ltac:(lia)) quad2_monomials), accurate_quad; (assumption || reflexivity || lia)|]. intros I k. eexists. apply quad9_grads_size.
  - eexists. split; [apply (Sz_linear 3 0)|]. split; [apply (simplex_determines tet4 Tet dual_tet0 0 1 _ dual_tet0_ok (fun _ => eq_refl) eq_refl tet0_monomials ltac:(lia)), good_tet; (assumption || reflexivity || lia)|]. intros I k. eexists. apply tet4_grads_size.
  - eexists. split; [apply (Sz_linear 3 1)|]. split; [apply (simplex_determines tet10 Tet dual_tet1 1 2 _ dual_tet1_ok (fun _ => eq_refl) eq_refl tet1_monomials (Nat.le_refl _)), good_tet; (assumption || reflexivity || lia)|]. intros I k. eexists. apply tet10_grads_size.
  - eexists. split; [apply (Sz_linear 3 2)|]. split; [apply (simplex_determines tet20 Tet dual_tet2 2 4 _ dual_tet2_ok (fun _ => eq_refl) eq_refl tet2_monomials (Nat.le_refl _)), good_tet; (assumption || reflexivity || lia)|]. intros I k. eexists. apply tet20_grads_size.
  - eexists. split; [apply (Se_linear (2 - 1) (2 - 1) (1 * (2 - 1)))|]. split; [apply (tensor_determines hex8 Hex dual_hex1 1 2 (80 * (INR 2 + 1 / 2) ^ 4) _ dual_hex1_ok (fun _ => eq_refl) ltac:(discriminate) ltac:(lia) (constant_range 80 2 ltac:(lra) ltac:(lia)) hex1_monomials), accurate_hex; (assumption || reflexivity || lia)|]. intros I k. eexists. apply hex8_grads_size.
  - eexists. split; [apply (Se_linear (3 - 1) (3 - 1) (1 * (3 - 1)))|]. split; [apply (tensor_determines hex20 Hex dual_hex2 1 3 (80 * (INR 3 + 1 / 2) ^ 4) _ dual_hex2_ok (fun _ => eq_refl) ltac:(discriminate) ltac:(lia) (constant_range 80 3 ltac:(lra) ltac:(lia)) hex2_monomials), accurate_hex; (assumption || reflexivity || lia)|]. intros I k. eexists. apply hex20_grads_size.
  - eexists. split; [apply (Se_linear (3 - 1) (3 - 1) (1 * (3 - 1)))|]. split; [apply (tensor_determines hex27 Hex dual_hex2 1 3 (80 * (INR 3 + 1 / 2) ^ 4) _ dual_hex2_ok (fun _ => eq_refl) ltac:(discriminate) ltac:(lia) (constant_range 80 3 ltac:(lra) ltac:(lia)) hex2_monomials), accurate_hex; (assumption || reflexivity || lia)|]. intros I k. eexists. apply hex27_grads_size.
Qed.

Lemma mass_element_in e oq : In (e, oq) mass_rules -> In e canonical_elements.
Proof using. intros H. apply (in_map fst) in H. exact H. Qed.
Lemma stiffness_element_in e oq : In (e, oq) stiffness_rules -> In e canonical_elements.
Proof using. intros H. apply (in_map fst) in H. exact H. Qed.

(** weights are positive *)
Lemma table_weights d dir k q : shipped d dir -> (N.of_nat k <= limit d)%N -> table_rule d dir k = Some q -> forall w, In w (fst q) -> 0 < w.
Proof using.
  intros (rest & P & W & B) K E. destruct (C84_tables d dir rest (N.of_nat k) P W B K) as (t & Et & _ & Wp & _). unfold table_rule in E. rewrite Et in E. injection E as <-. rewrite List.Forall_forall in Wp. exact Wp.
Qed.
Lemma quad_weights n q : (0 < n)%nat -> quadrilateral_gauss root n = Some q -> forall w, In w (fst q) -> 0 < w.
Proof using Hfuel.
  intros Hn E. destruct (quad_tensor _ _ _ E) as (ws & xs & Eg & _ & ->). destruct (C103_rule fuel n Hfuel Hn) as (ws' & xs' & Eg' & _ & _ & _ & _ & Wp & _). rewrite Eg in Eg'. injection Eg' as <- <-.
  assert (Z : forall w x, In (w, x) (zipped (ws, xs)) -> 0 < w) by (intros w x Hi; apply Wp; exact (in_combine_l _ _ _ _ Hi)).
  intros w Hw. rewrite quadrilateral_pairs in Hw. unfold unz in Hw. cbn [fst] in Hw. apply in_map_iff in Hw. destruct Hw as ([w0 y] & <- & Hw). unfold pairs2 in Hw. apply in_flat_map in Hw. destruct Hw as ([a xa] & Ha & Hw).
  apply in_map_iff in Hw. destruct Hw as ([b xb] & Hw & Hb). cbn [fst snd] in *. injection Hw as <- _. apply Rmult_lt_0_compat; [exact (Z _ _ Ha)|exact (Z _ _ Hb)].
Qed.
Lemma hex_weights n q : (0 < n)%nat -> hexahedron_gauss root n = Some q -> forall w, In w (fst q) -> 0 < w.
Proof using Hfuel.
  intros Hn E. destruct (hex_tensor _ _ _ E) as (ws & xs & Eg & _ & ->). destruct (C103_rule fuel n Hfuel Hn) as (ws' & xs' & Eg' & _ & _ & _ & _ & Wp & _). rewrite Eg in Eg'. injection Eg' as <- <-.
  assert (Z : forall w x, In (w, x) (zipped (ws, xs)) -> 0 < w) by (intros w x Hi; apply Wp; exact (in_combine_l _ _ _ _ Hi)).
  intros w Hw. rewrite hexahedron_pairs in Hw. unfold unz in Hw. cbn [fst] in Hw. apply in_map_iff in Hw. destruct Hw as ([w0 y] & <- & Hw). unfold pairs3 in Hw. apply in_flat_map in Hw. destruct Hw as ([a xa] & Ha & Hw).
  apply in_flat_map in Hw. destruct Hw as ([b xb] & Hb & Hw). apply in_map_iff in Hw. destruct Hw as ([c xc] & Hw & Hc). cbn [fst snd] in *. injection Hw as <- _.
  apply Rmult_lt_0_compat; [apply Rmult_lt_0_compat|]; [exact (Z _ _ Ha)|exact (Z _ _ Hb)|exact (Z _ _ Hc)].
Qed.
Lemma rule_weights e q : In (e, Some q) mass_rules \/ In (e, Some q) stiffness_rules -> forall w, In w (fst q) -> 0 < w.
Proof using Hfuel Htri Htet.
  intros [H|H]; cbn [canonical_mass canonical_stiffness In] in H; (repeat match type of H with _ \/ _ => destruct H as [H|H] end; [..|destruct H]); apply (f_equal snd) in H; cbn [snd] in H;
    first [ refine (table_weights Tri tri _ q Htri _ H); cbn; lia | refine (table_weights Tet tet _ q Htet _ H); cbn; lia | refine (quad_weights _ q _ H); lia | refine (hex_weights _ q _ H); lia ].
Qed.

(** C107. The mass rule of every element type is found, its weights are positive, and only the zero function of the element is zero at its points. *)
Theorem C107_mass e oq : In (e, oq) mass_rules -> exists q, oq = Some q /\ length (fst q) = length (snd q) /\ (forall w, In w (fst q) -> 0 < w) /\ determines_values e (snd q).
Proof using Hfuel Htri Htet.
  intros H. destruct (mass_class e oq H) as (He & C & HC & (q & -> & L & D) & HB). exists q. split; [reflexivity|]. split; [exact L|]. split; [apply (rule_weights e q); left; exact H|].
  intros u Hu I HI. rewrite <- (value_node e u I He HI). apply (D (value_of e u)); [|exact Hu].
  apply (linear_summ C _ (fun I x => u I * nth I (el_basis e x) 0) HC). intros J _. apply HC, HB.
Qed.
Print Assumptions C107_mass.

Lemma slope_class_sum C e u k : linear_class C -> (forall I k, C (fun x => nth k (nth I (el_grads e x) []) 0)) -> C (slope_of e u k).
Proof using. intros HC HB. apply (linear_summ C _ (fun I x => u I * nth k (nth I (el_grads e x) []) 0) HC). intros J _. apply HC, HB. Qed.
(** C107. The stiffness rule of every element type is found, its weights are positive, and only the constants of the element have no gradient at its points. *)
Theorem C107_stiffness e oq : In (e, oq) stiffness_rules -> exists q, oq = Some q /\ length (fst q) = length (snd q) /\ (forall w, In w (fst q) -> 0 < w) /\ determines_slopes e (snd q).
Proof using Hfuel Htri Htet.
  intros H. destruct (stiffness_class e oq H) as (He & C & HC & (q & -> & L & D) & HB). exists q. split; [reflexivity|]. split; [exact L|]. split; [apply (rule_weights e q); right; exact H|].
  intros u Hu I J HI HJ. rewrite <- (value_node e u I He HI), <- (value_node e u J He HJ). apply constant_values; [exact (stiffness_element_in _ _ H)| |exact HI|exact HJ].
  intros k x Hk. apply (D (slope_of e u k)); [apply slope_class_sum; assumption|]. intros y Hy. exact (Hu y k Hy Hk).
Qed.
Print Assumptions C107_stiffness.
(** a component of the derivative along the line between two nodes that vanishes at the points of the stiffness rule *)
Lemma segment_constant e oq q (u : nat -> nat -> R) (a : nat -> R) I J : In (e, oq) stiffness_rules -> oq = Some q -> (I < length (el_ref e))%nat -> (J < length (el_ref e))%nat ->
  let h k := pt (nth I (el_ref e) []) k - pt (nth J (el_ref e) []) k in
  (forall x, In x (snd q) -> summ (el_dim e) (fun c => a c * summ (el_dim e) (fun k => h k * slope_of e (fun K => u K c) k x)) = 0) ->
  summ (el_dim e) (fun c => a c * (u I c - u J c)) = 0.
Proof using Hfuel Htri Htet.
  intros H Eq HI HJ h Hz. destruct (stiffness_class e oq H) as (He & C & HC & (q' & Eq' & L & D) & HB). rewrite Eq in Eq'. injection Eq' as <-. pose proof (stiffness_element_in e oq H) as Hc. destruct (canonical_dim e Hc) as [Hd Hl].
  set (g := fun x => summ (el_dim e) (fun c => a c * summ (el_dim e) (fun k => h k * slope_of e (fun K => u K c) k x))).
  assert (G : forall x, g x = 0).
  { apply D; [|exact Hz]. apply (linear_summ C _ (fun c x => a c * summ (el_dim e) (fun k => h k * slope_of e (fun K => u K c) k x)) HC). intros c _. apply HC.
    apply (linear_summ C _ (fun k x => h k * slope_of e (fun K => u K c) k x) HC). intros k _. apply HC. apply slope_class_sum; assumption. }
  assert (Hh : forall k, (el_dim e <= k)%nat -> h k = 0). { intros k Hk. unfold h. rewrite !pt_beyond; [ring| |]; [destruct (Hl J) as [E|E]|destruct (Hl I) as [E|E]]; rewrite E; lia. }
  set (f := fun t => summ (el_dim e) (fun c => a c * value_of e (fun K => u K c) (on_line (pt (nth J (el_ref e) [])) h t))).
  assert (F : forall t, is_derive f t 0).
  { intros t. rewrite <- (G (on_line (pt (nth J (el_ref e) [])) h t)). unfold f, g. apply (derive_summ _ (fun c t => a c * value_of e (fun K => u K c) (on_line (pt (nth J (el_ref e) [])) h t))). intros c _. apply is_derive_scal. apply value_line; [exact Hc|exact Hh]. }
  pose proof (derive_zero_eq f 1 0 F) as E. unfold f in E.
  rewrite (PropMaterial.summ_ext _ (fun c => a c * (u I c - u J c)) (fun c => a c * u I c - a c * u J c)) by (intros; ring). rewrite summ_minus.
  rewrite (PropMaterial.summ_ext _ _ (fun c => a c * u I c)) in E.
  - rewrite E. rewrite (PropMaterial.summ_ext _ _ (fun c => a c * u J c)); [ring|]. intros c _. f_equal. rewrite <- (value_node e (fun K => u K c) J He HJ). apply value_ext; [exact Hc|]. intros k _. unfold on_line. ring.
  - intros c _. f_equal. rewrite <- (value_node e (fun K => u K c) I He HI). apply value_ext; [exact Hc|]. intros k _. unfold on_line, h. ring.
Qed.
End canonical.

(** ** With one point less in each direction there are other functions without gradients *)
Lemma gauss_two root ws xs : gauss root 2 = Some (ws, xs) -> exists a, xs = [a; - a].
Proof.
  unfold gauss. cbn [Nat.eqb Nat.add Nat.div Nat.divmod fst snd seq fold_left Nat.sub]. destruct (root 2%nat 0%nat) as [a|]; [|discriminate]. cbn [app nth_error fst snd]. intros H. injection H as _ <-. exists a. reflexivity.
Qed.
Definition bubble2 (a : R) (I : nat) : R := let x := nth I (el_ref quad9) [] in (a * a - nth 0 x 0 * nth 0 x 0) * (a * a - nth 1 x 0 * nth 1 x 0).
Definition bubble3 (a : R) (I : nat) : R := let x := nth I (el_ref hex27) [] in (a * a - nth 0 x 0 * nth 0 x 0) * (a * a - nth 1 x 0 * nth 1 x 0) * (a * a - nth 2 x 0 * nth 2 x 0).
Definition twist (e : element) (I : nat) : R := let x := nth I (el_ref e) [] in nth 0 x 0 * nth 1 x 0.
Lemma bubble2_slope a k x : (k < 2)%nat -> slope_of quad9 (bubble2 a) k x = -2 * x k * (a * a - x (1 - k)%nat * x (1 - k)%nat).
Proof.
  intros Hk. destruct k as [|[|k]]; [| |lia]; unfold slope_of, bubble2; cbn; unfold quad9_phi_1d, quad9_phi_grad_1d; field.
Qed.
Lemma quadratic_values b x : phi_quadratic_1d b x = (3 / 2 * (b * b) - 1) * (x * x) + 1 / 2 * b * x + 1 - b * b. Proof. reflexivity. Qed.
Lemma bubble3_slope a x : slope_of hex27 (bubble3 a) 0 x = -2 * x 0%nat * (a * a - x 1%nat * x 1%nat) * (a * a - x 2%nat * x 2%nat) /\
  slope_of hex27 (bubble3 a) 1 x = -2 * x 1%nat * (a * a - x 0%nat * x 0%nat) * (a * a - x 2%nat * x 2%nat) /\ slope_of hex27 (bubble3 a) 2 x = -2 * x 2%nat * (a * a - x 0%nat * x 0%nat) * (a * a - x 1%nat * x 1%nat).
Proof.
  repeat split; unfold slope_of, bubble3; cbn; unfold phi_quadratic_1d, phi_quadratic_1d_grad; field.
Qed.
Lemma quad4_twist x : slope_of quad4 (twist quad4) 0 x = x 1%nat /\ slope_of quad4 (twist quad4) 1 x = x 0%nat.
Proof. split; unfold slope_of, twist; cbn; field. Qed.
Lemma hex8_twist x : slope_of hex8 (twist hex8) 0 x = x 1%nat /\ slope_of hex8 (twist hex8) 1 x = x 0%nat /\ slope_of hex8 (twist hex8) 2 x = 0.
Proof. repeat split; unfold slope_of, twist; cbn; unfold phi_linear_1d, phi_linear_1d_grad; field. Qed.
(** C107. With two points in each direction, wherever they are, the elements with three nodes in each direction have functions without gradients at the points that are not constant, and so have the elements with
    two nodes in each direction with the point in the middle. The numbers of points of the code cannot be reduced. *)
Theorem C107_reduced root :
  (forall q, quadrilateral_gauss root 2 = Some q -> ~ determines_slopes quad9 (snd q)) /\ (forall q, hexahedron_gauss root 2 = Some q -> ~ determines_slopes hex27 (snd q)) /\
  (root 1%nat 0%nat = Some 0 -> (forall q, quadrilateral_gauss root 1 = Some q -> ~ determines_slopes quad4 (snd q)) /\ (forall q, hexahedron_gauss root 1 = Some q -> ~ determines_slopes hex8 (snd q))).
Proof.
  split; [|split].
  - intros q E D. destruct (quad_tensor _ _ _ E) as (ws & xs & Eg & L & ->). destruct (gauss_two _ _ _ Eg) as (a & ->).
    assert (P : forall x, In x (snd (quadrilateral_tensor (ws, [a; - a]))) -> x 0%nat * x 0%nat = a * a /\ x 1%nat * x 1%nat = a * a).
    { intros x Hx. rewrite quadrilateral_pairs in Hx. unfold unz in Hx. cbn [snd] in Hx. apply in_map_iff in Hx. destruct Hx as ([w y] & <- & Hx). unfold pairs2 in Hx. apply in_flat_map in Hx. destruct Hx as ([w1 b1] & H1 & Hx).
      apply in_map_iff in Hx. destruct Hx as ([w2 b2] & Hx & H2). cbn [fst snd] in *. injection Hx as _ <-. apply in_combine_r in H1, H2. cbn [fst snd] in H1, H2. unfold pt. cbn [nth].
      destruct H1 as [<-|[<-|[]]], H2 as [<-|[<-|[]]]; split; ring. }
    assert (H : forall I J, (I < 9)%nat -> (J < 9)%nat -> bubble2 a I = bubble2 a J).
    { intros I J HI HJ. apply (D (bubble2 a)); [|exact HI|exact HJ]. intros x k Hx Hk. cbn in Hk. rewrite bubble2_slope by exact Hk. destruct (P x Hx) as [P0 P1]. destruct k as [|[|k]]; [| |lia]; cbn [Nat.sub]; [rewrite P1|rewrite P0]; ring. }
    pose proof (H 0%nat 8%nat ltac:(lia) ltac:(lia)) as A1. pose proof (H 4%nat 8%nat ltac:(lia) ltac:(lia)) as A2. unfold bubble2 in A1, A2. cbn in A1, A2. nra.
  - intros q E D. destruct (hex_tensor _ _ _ E) as (ws & xs & Eg & L & ->). destruct (gauss_two _ _ _ Eg) as (a & ->).
    assert (P : forall x, In x (snd (hexahedron_tensor (ws, [a; - a]))) -> x 0%nat * x 0%nat = a * a /\ x 1%nat * x 1%nat = a * a /\ x 2%nat * x 2%nat = a * a).
    { intros x Hx. rewrite hexahedron_pairs in Hx. unfold unz in Hx. cbn [snd] in Hx. apply in_map_iff in Hx. destruct Hx as ([w y] & <- & Hx). unfold pairs3 in Hx. apply in_flat_map in Hx. destruct Hx as ([w1 b1] & H1 & Hx).
      apply in_flat_map in Hx. destruct Hx as ([w2 b2] & H2 & Hx). apply in_map_iff in Hx. destruct Hx as ([w3 b3] & Hx & H3). cbn [fst snd] in *. injection Hx as _ <-. apply in_combine_r in H1, H2, H3. cbn [fst snd] in H1, H2, H3. unfold pt. cbn [nth].
      destruct H1 as [<-|[<-|[]]], H2 as [<-|[<-|[]]], H3 as [<-|[<-|[]]]; repeat split; ring. }
    assert (H : forall I J, (I < 27)%nat -> (J < 27)%nat -> bubble3 a I = bubble3 a J).
    { intros I J HI HJ. apply (D (bubble3 a)); [|exact HI|exact HJ]. intros x k Hx Hk. cbn in Hk. destruct (P x Hx) as (P0 & P1 & P2). destruct (bubble3_slope a x) as (S0 & S1 & S2).
      destruct k as [|[|[|k]]]; [rewrite S0, P1|rewrite S1, P0|rewrite S2, P0|lia]; ring. }
    pose proof (H 0%nat 8%nat ltac:(lia) ltac:(lia)) as A1. pose proof (H 8%nat 20%nat ltac:(lia) ltac:(lia)) as A2. pose proof (H 20%nat 26%nat ltac:(lia) ltac:(lia)) as A3. unfold bubble3 in A1, A2, A3. cbn in A1, A2, A3. clear - A1 A2 A3.
    set (b := a * a) in *. assert (B1 : (b - 1) * (b - 1) = 0) by nra. nra.
  - intros R0. assert (G1 : forall ws xs, gauss root 1 = Some (ws, xs) -> xs = [0]).
    { intros ws xs. unfold gauss. cbn [Nat.eqb Nat.add Nat.div Nat.divmod fst snd seq fold_left Nat.sub]. rewrite R0. cbn [app fst snd]. intros H. injection H as _ <-. reflexivity. }
    split.
    + intros q E D. destruct (quad_tensor _ _ _ E) as (ws & xs & Eg & L & ->). rewrite (G1 _ _ Eg) in *. destruct ws as [|w0 [|w1 ws]]; cbn in L; try lia. pose proof (D (twist quad4)) as H. cbn in H.
      assert (Z : forall x k, pt [0; 0] = x \/ False -> (k < 2)%nat -> slope_of quad4 (twist quad4) k x = 0).
      { intros x k [<-|[]] Hk. destruct (quad4_twist (pt [0; 0])) as (S0 & S1). destruct k as [|[|k]]; [rewrite S0|rewrite S1|lia]; reflexivity. }
      specialize (H Z 0%nat 1%nat ltac:(lia) ltac:(lia)). unfold twist in H. cbn in H. lra.
    + intros q E D. destruct (hex_tensor _ _ _ E) as (ws & xs & Eg & L & ->). rewrite (G1 _ _ Eg) in *. destruct ws as [|w0 [|w1 ws]]; cbn in L; try lia. pose proof (D (twist hex8)) as H. cbn in H.
      assert (Z : forall x k, pt [0; 0; 0] = x \/ False -> (k < 3)%nat -> slope_of hex8 (twist hex8) k x = 0).
      { intros x k [<-|[]] Hk. destruct (hex8_twist (pt [0; 0; 0])) as (S0 & S1 & S2). destruct k as [|[|[|k]]]; [rewrite S0|rewrite S1|rewrite S2|lia]; reflexivity. }
      specialize (H Z 0%nat 1%nat ltac:(lia) ltac:(lia)). unfold twist in H. cbn in H. lra.
Qed.
Print Assumptions C107_reduced.

(** the rules with the tables of the repository and five steps *)
Example C107_example : shipped Tri (files Tri) /\ shipped Tet (files Tet) /\
  exists q q', table_rule Tet (files Tet) 4 = Some q /\ determines_slopes tet20 (snd q) /\ hexahedron_gauss (newton_root 5) 3 = Some q' /\ determines_slopes hex20 (snd q').
Proof.
  assert (Sh : forall d, shipped d (files d)) by (intros d; exists []; destruct (C84_example d) as (P & W & B & _); split; [exact P|split; [exact W|exact B]]).
  split; [apply Sh|]. split; [apply Sh|].
  destruct (C107_stiffness 5 (files Tri) (files Tet) (Nat.le_refl 5) (Sh Tri) (Sh Tet) tet20 (table_rule Tet (files Tet) 4) ltac:(cbn [canonical_stiffness In]; do 6 right; left; reflexivity)) as (q & E & _ & _ & D).
  destruct (C107_stiffness 5 (files Tri) (files Tet) (Nat.le_refl 5) (Sh Tri) (Sh Tet) hex20 (hexahedron_gauss (newton_root 5) 3) ltac:(cbn [canonical_stiffness In]; do 8 right; left; reflexivity)) as (q' & E' & _ & _ & D').
  exists q, q'. split; [exact E|]. split; [exact D|]. split; [exact E'|exact D'].
Qed.

(** Quadrature rules that determine polynomials: if a rule is nearly exact for products of the monomials of a list, then a polynomial with these monomials that is zero at all points of the rule
    is the zero polynomial (for C107). The proof uses the inverse of the matrix of moments, in rational numbers. *)
From Coq Require Import Reals QArith Qreals ZArith Arith Lia Lra Bool List.
From Coquelicot Require Import Coquelicot.
From Verif Require Import MaterialModel PropMaterial PropObjective ElementModel ElementSpec QuadratureModel QuadPolyN RuleProofs TableMoments TableCheck PolyquadModel PropPolyquadTables.
Import ListNotations.
Local Open Scope R_scope.

(** ** Coefficients *)
Definition same (a b : exps) : bool := Nat.eqb (fst (fst a)) (fst (fst b)) && Nat.eqb (snd (fst a)) (snd (fst b)) && Nat.eqb (snd a) (snd b).
Lemma same_spec a b : same a b = true <-> a = b.
Proof.
  destruct a as [[a1 a2] a3], b as [[b1 b2] b3]. unfold same. cbn [fst snd]. rewrite !andb_true_iff, !Nat.eqb_eq. split; [intros [[-> ->] ->]; reflexivity|].
  intros H. inversion H. repeat split.
Qed.
Definition coefficient (p : poly) (m : exps) : R := fold_right (fun c acc => (if same (snd c) m then fst c else 0) + acc) 0 p.
Definition mono (M : list exps) (i : nat) : exps := nth i M (0, 0, 0)%nat.

Lemma normal (M : list exps) p (f : exps -> R) : NoDup M -> List.Forall (fun c : R * exps => In (snd c) M) p ->
  fold_right (fun c acc => fst c * f (snd c) + acc) 0 p = summ (length M) (fun i => coefficient p (mono M i) * f (mono M i)).
Proof.
  intros N. induction p as [|c p IH]; intros F; cbn [fold_right coefficient].
  - rewrite (PropMaterial.summ_ext _ _ (fun _ => 0)) by (intros; unfold coefficient; cbn; ring). rewrite summ_zero. reflexivity.
  - inversion F; subst. rewrite IH by assumption. fold (coefficient p). destruct (In_nth M (snd c) (0, 0, 0)%nat H1) as (k & Lk & Ek).
    rewrite (PropMaterial.summ_ext _ (fun i => coefficient (c :: p) (mono M i) * f (mono M i)) (fun i => (if (i =? k)%nat then fst c * f (mono M i) else 0) + coefficient p (mono M i) * f (mono M i))).
    + rewrite summ_plus, (summ_delta _ k (fun i => fst c * f (mono M i))) by exact Lk. unfold mono at 3. rewrite Ek. reflexivity.
    + intros i Li. unfold coefficient at 1. cbn [fold_right]. fold (coefficient p (mono M i)). destruct (Nat.eqb_spec i k) as [->|Ne].
      * unfold mono at 1. rewrite Ek, (proj2 (same_spec _ _) eq_refl). ring.
      * destruct (same (snd c) (mono M i)) eqn:E; [|ring]. apply same_spec in E. exfalso. apply Ne. apply (proj1 (NoDup_nth M (0, 0, 0)%nat) N i k Li Lk). unfold mono in E. congruence.
Qed.
Lemma peval_normal M p x : NoDup M -> List.Forall (fun c : R * exps => In (snd c) M) p -> peval p x = summ (length M) (fun i => coefficient p (mono M i) * monomial (mono M i) x).
Proof. intros N F. unfold peval. exact (normal M p (fun m => monomial m x) N F). Qed.

Lemma summ_le n f g : (forall k, (k < n)%nat -> f k <= g k) -> summ n f <= summ n g.
Proof. induction n as [|n IH]; intros H; cbn [summ]; [lra|]. pose proof (H n ltac:(lia)). assert (summ n f <= summ n g) by (apply IH; intros; apply H; lia). lra. Qed.
Lemma summ_abs n f : Rabs (summ n f) <= summ n (fun k => Rabs (f k)).
Proof. induction n as [|n IH]; cbn [summ]; [rewrite Rabs_R0; lra|]. eapply Rle_trans; [apply Rabs_triang|]. lra. Qed.

(** ** A rule that is nearly exact determines the polynomial *)
Section unisolvent.
Variables (M : list exps) (D : nat -> nat -> R) (mom : exps -> R) (q : list (R * point)) (delta B : R).
Hypotheses (N : NoDup M) (Hdelta : 0 <= delta) (HB : delta * B < 1).
Let n := length M.
Hypothesis Hacc : forall i j, (i < n)%nat -> (j < n)%nat -> Rabs (total q (monomial (add_exps (mono M i) (mono M j))) - mom (add_exps (mono M i) (mono M j))) <= delta.
Hypothesis Hdual : forall i j, (i < n)%nat -> (j < n)%nat -> summ n (fun k => D i k * mom (add_exps (mono M j) (mono M k))) = if (j =? i)%nat then 1 else 0.
Hypothesis HD : summ n (fun i => summ n (fun k => Rabs (D i k))) <= B.
Variable p : poly.
Hypotheses (Hp : List.Forall (fun c : R * exps => In (snd c) M) p) (Hzero : forall w x, In (w, x) q -> peval p x = 0).
Let a i := coefficient p (mono M i).
Let A := summ n (fun i => Rabs (a i)).
Lemma total_products k : summ n (fun i => a i * total q (monomial (add_exps (mono M i) (mono M k)))) = 0.
Proof using N Hp Hzero.
  clear - N Hp Hzero. assert (E : forall l, (forall w x, In (w, x) l -> peval p x = 0) -> summ n (fun i => a i * total l (monomial (add_exps (mono M i) (mono M k)))) = 0); [|exact (E q Hzero)].
  intros l. induction l as [|[w x] l IH]; intros H.
  - rewrite (PropMaterial.summ_ext _ _ (fun _ => 0)) by (intros; unfold total; cbn; ring). apply summ_zero.
  - rewrite (PropMaterial.summ_ext _ _ (fun i => (a i * monomial (mono M i) x) * (w * monomial (mono M k) x) + a i * total l (monomial (add_exps (mono M i) (mono M k))))).
    + rewrite summ_plus, IH by (intros w' x' H'; apply (H w' x'); right; exact H'). rewrite summ_r. unfold a, n. rewrite <- (peval_normal M p x N Hp), (H w x) by (left; reflexivity). ring.
    + intros i _. change (total ((w, x) :: l) (monomial (add_exps (mono M i) (mono M k)))) with (w * monomial (add_exps (mono M i) (mono M k)) x + total l (monomial (add_exps (mono M i) (mono M k)))). rewrite monomial_mul. ring.
Qed.
Lemma small_coefficient i : (i < n)%nat -> Rabs (a i) <= delta * A * summ n (fun k => Rabs (D i k)).
Proof using Hacc Hdual Hp Hzero N Hdelta.
  intros Li. assert (E : a i = summ n (fun k => D i k * summ n (fun j => a j * (mom (add_exps (mono M j) (mono M k)) - total q (monomial (add_exps (mono M j) (mono M k))))))).
  { rewrite (PropMaterial.summ_ext _ (fun k => D i k * _) (fun k => summ n (fun j => a j * (D i k * mom (add_exps (mono M j) (mono M k)))))).
    - rewrite summ_swap. rewrite (PropMaterial.summ_ext _ _ (fun j => if (j =? i)%nat then a j else 0)).
      + symmetry. apply (summ_delta n i a Li).
      + intros j Lj. rewrite summ_l, (Hdual i j Li Lj). destruct (j =? i)%nat; ring.
    - intros k _. rewrite (PropMaterial.summ_ext n (fun j => a j * (mom _ - _)) (fun j => a j * mom (add_exps (mono M j) (mono M k)) - a j * total q (monomial (add_exps (mono M j) (mono M k))))) by (intros; ring).
      rewrite summ_minus, total_products, Rminus_0_r, <- summ_l. apply PropMaterial.summ_ext. intros. ring. }
  rewrite E. eapply Rle_trans; [apply summ_abs|]. rewrite <- summ_l. apply summ_le. intros k Lk. rewrite Rabs_mult, Rmult_comm. apply Rmult_le_compat_r; [apply Rabs_pos|].
  eapply Rle_trans; [apply summ_abs|]. unfold A. rewrite <- summ_l. apply summ_le. intros j Lj. rewrite Rabs_mult, Rmult_comm. apply Rmult_le_compat_r; [apply Rabs_pos|].
  rewrite Rabs_minus_sym. exact (Hacc j k Lj Lk).
Qed.
Lemma unisolvent_coefficients : forall i, (i < n)%nat -> coefficient p (mono M i) = 0.
Proof using Hacc Hdual Hp Hzero N Hdelta HB HD.
  assert (P : 0 <= A) by (apply PropObjective.summ_nonneg; intros; apply Rabs_pos).
  assert (L : A <= delta * B * A).
  { eapply Rle_trans; [apply (summ_le n _ (fun i => delta * A * summ n (fun k => Rabs (D i k)))); intros i Li; exact (small_coefficient i Li)|]. rewrite summ_l.
    replace (delta * B * A) with (delta * A * B) by ring. apply Rmult_le_compat_l; [apply Rmult_le_pos; assumption|exact HD]. }
  assert (Z : A = 0) by nra. intros i Li. pose proof (PropObjective.summ_nonneg_zero n (fun i => Rabs (a i)) (fun k _ => Rabs_pos _) Z i Li) as H. cbn beta in H.
  destruct (Req_dec (a i) 0) as [E|E]; [exact E|]. apply Rabs_no_R0 in E. contradiction.
Qed.
Lemma unisolvent_zero x : peval p x = 0.
Proof using Hacc Hdual Hp Hzero N Hdelta HB HD.
  rewrite (peval_normal M p x N Hp). rewrite (PropMaterial.summ_ext _ _ (fun _ => 0)); [apply summ_zero|]. intros i Li. rewrite (unisolvent_coefficients i Li). ring.
Qed.
End unisolvent.

(** ** Inverses of the matrices of moments, with integers and common denominators *)
Record dual := Dual { du_monomials : list exps; du_moments : Z; du_scale : Z; du_rows : list (list Z) }.
Definition moment_at (d : domain) (e : exps) : Q := momentQ d (fst (fst e)) (snd (fst e)) (snd e).
(** the moment times the denominator, if that is an integer *)
Definition scaled_moment (d : domain) (mm : Z) (e : exps) : option Z :=
  let q := Qred (moment_at d e) in let z := (Qnum q * (mm / Zpos (Qden q)))%Z in if (z * Zpos (Qden q) =? Qnum q * mm)%Z then Some z else None.
Fixpoint dotZ (u v : list Z) : Z := match u, v with x :: u, y :: v => (x * y + dotZ u v)%Z | _, _ => 0%Z end.
Fixpoint all_some {A} (l : list (option A)) : option (list A) := match l with [] => Some [] | Some x :: l => option_map (cons x) (all_some l) | None :: _ => None end.
Fixpoint checkb {A} (f : nat -> A -> bool) (i : nat) (l : list A) : bool := match l with [] => true | x :: l => f i x && checkb f (S i) l end.
Definition total_abs (l : list (list Z)) : Z := fold_right (fun r acc => (fold_right (fun x acc => (Z.abs x + acc)%Z) 0%Z r + acc)%Z) 0%Z l.
Definition distinct (l : list exps) : bool := (fix go l := match l with [] => true | x :: l => negb (existsb (same x) l) && go l end) l.
Definition dual_ok (d : domain) (x : dual) : bool :=
  let M := du_monomials x in
  distinct M && (0 <? du_moments x)%Z && (0 <? du_scale x)%Z && Nat.eqb (length (du_rows x)) (length M) && forallb (fun r => Nat.eqb (length r) (length M)) (du_rows x) && (total_abs (du_rows x) <=? 10 ^ 14 * du_scale x)%Z &&
  match all_some (map (fun m => all_some (map (fun m' => scaled_moment d (du_moments x) (add_exps m m')) M)) M) with
  | Some G => checkb (fun i r => checkb (fun j g => (dotZ r g =? (if Nat.eqb j i then du_moments x * du_scale x else 0))%Z) 0 G) 0 (du_rows x)
  | None => false
  end.

Section data.
Local Open Scope Z_scope.
Definition dual_tri0 : dual := Dual [(0, 0, 0)%nat] 1 2
  [[1]].
Definition dual_tri1 : dual := Dual [(0, 0, 0)%nat; (0, 1, 0)%nat; (1, 0, 0)%nat] 3 2
  [[3; 3; 3];
   [3; 6; 3];
   [3; 3; 6]].
Definition dual_tri2 : dual := Dual [(0, 0, 0)%nat; (0, 1, 0)%nat; (0, 2, 0)%nat; (1, 0, 0)%nat; (1, 1, 0)%nat; (2, 0, 0)%nat] 45 16
  [[78; 150; 45; 150; 180; 45];
   [150; 480; 270; 420; 540; 180];
   [45; 270; 270; 180; 270; 45];
   [150; 420; 180; 480; 540; 270];
   [180; 540; 270; 540; 720; 270];
   [45; 180; 45; 270; 270; 270]].
Definition dual_tet0 : dual := Dual [(0, 0, 0)%nat] 3 4
  [[3]].
Definition dual_tet1 : dual := Dual [(0, 0, 0)%nat; (0, 0, 1)%nat; (0, 1, 0)%nat; (1, 0, 0)%nat] 15 4
  [[48; 30; 30; 30];
   [30; 30; 15; 15];
   [30; 15; 30; 15];
   [30; 15; 15; 30]].
Definition dual_tet2 : dual := Dual [(0, 0, 0)%nat; (0, 0, 1)%nat; (0, 0, 2)%nat; (0, 1, 0)%nat; (0, 1, 1)%nat; (0, 2, 0)%nat; (1, 0, 0)%nat; (1, 0, 1)%nat; (1, 1, 0)%nat; (2, 0, 0)%nat] 315 32
  [[6180; 7380; 1890; 7380; 4410; 1890; 7380; 4410; 4410; 1890];
   [7380; 11160; 3780; 8100; 6300; 1890; 8100; 6300; 3780; 1890];
   [1890; 3780; 1890; 1890; 1890; 315; 1890; 1890; 630; 315];
   [7380; 8100; 1890; 11160; 6300; 3780; 8100; 3780; 6300; 1890];
   [4410; 6300; 1890; 6300; 5040; 1890; 3780; 2520; 2520; 630];
   [1890; 1890; 315; 3780; 1890; 1890; 1890; 630; 1890; 315];
   [7380; 8100; 1890; 8100; 3780; 1890; 11160; 6300; 6300; 3780];
   [4410; 6300; 1890; 3780; 2520; 630; 6300; 5040; 2520; 1890];
   [4410; 3780; 630; 6300; 2520; 1890; 6300; 2520; 5040; 1890];
   [1890; 1890; 315; 1890; 630; 315; 3780; 1890; 1890; 1890]].
Definition dual_tet3 : dual := Dual [(0, 0, 0)%nat; (0, 0, 1)%nat; (0, 0, 2)%nat; (0, 0, 3)%nat; (0, 1, 0)%nat; (0, 1, 1)%nat; (0, 1, 2)%nat; (0, 2, 0)%nat; (0, 2, 1)%nat; (0, 3, 0)%nat; (1, 0, 0)%nat; (1, 0, 1)%nat; (1, 0, 2)%nat; (1, 1, 0)%nat; (1, 1, 1)%nat; (1, 2, 0)%nat; (2, 0, 0)%nat; (2, 0, 1)%nat; (2, 1, 0)%nat; (3, 0, 0)%nat] 2835 16
  [[50160; 88200; 45360; 6300; 88200; 103320; 26460; 45360; 26460; 6300; 88200; 103320; 26460; 103320; 64260; 26460; 45360; 26460; 26460; 6300];
   [88200; 178920; 109620; 18900; 147420; 201600; 62370; 71820; 51030; 9450; 147420; 201600; 62370; 154980; 113400; 34020; 71820; 51030; 34020; 9450];
   [45360; 109620; 83160; 18900; 71820; 117180; 45360; 32760; 28350; 3780; 71820; 117180; 45360; 65520; 56700; 11340; 32760; 28350; 11340; 3780];
   [6300; 18900; 18900; 6300; 9450; 18900; 9450; 3780; 3780; 315; 9450; 18900; 9450; 7560; 7560; 945; 3780; 3780; 945; 315];
   [88200; 147420; 71820; 9450; 178920; 201600; 51030; 109620; 62370; 18900; 147420; 154980; 34020; 201600; 113400; 62370; 71820; 34020; 51030; 9450];
   [103320; 201600; 117180; 18900; 201600; 274680; 85050; 117180; 85050; 18900; 154980; 194040; 51030; 194040; 136080; 51030; 65520; 39690; 39690; 7560];
   [26460; 62370; 45360; 9450; 51030; 85050; 34020; 28350; 25515; 3780; 34020; 51030; 17010; 39690; 34020; 8505; 11340; 8505; 5670; 945];
   [45360; 71820; 32760; 3780; 109620; 117180; 28350; 83160; 45360; 18900; 71820; 65520; 11340; 117180; 56700; 45360; 32760; 11340; 28350; 3780];
   [26460; 51030; 28350; 3780; 62370; 85050; 25515; 45360; 34020; 9450; 34020; 39690; 8505; 51030; 34020; 17010; 11340; 5670; 8505; 945];
   [6300; 9450; 3780; 315; 18900; 18900; 3780; 18900; 9450; 6300; 9450; 7560; 945; 18900; 7560; 9450; 3780; 945; 3780; 315];
   [88200; 147420; 71820; 9450; 147420; 154980; 34020; 71820; 34020; 9450; 178920; 201600; 51030; 201600; 113400; 51030; 109620; 62370; 62370; 18900];
   [103320; 201600; 117180; 18900; 154980; 194040; 51030; 65520; 39690; 7560; 201600; 274680; 85050; 194040; 136080; 39690; 117180; 85050; 51030; 18900];
   [26460; 62370; 45360; 9450; 34020; 51030; 17010; 11340; 8505; 945; 51030; 85050; 34020; 39690; 34020; 5670; 28350; 25515; 8505; 3780];
   [103320; 154980; 65520; 7560; 201600; 194040; 39690; 117180; 51030; 18900; 201600; 194040; 39690; 274680; 136080; 85050; 117180; 51030; 85050; 18900];
   [64260; 113400; 56700; 7560; 113400; 136080; 34020; 56700; 34020; 7560; 113400; 136080; 34020; 136080; 90720; 34020; 56700; 34020; 34020; 7560];
   [26460; 34020; 11340; 945; 62370; 51030; 8505; 45360; 17010; 9450; 51030; 39690; 5670; 85050; 34020; 34020; 28350; 8505; 25515; 3780];
   [45360; 71820; 32760; 3780; 71820; 65520; 11340; 32760; 11340; 3780; 109620; 117180; 28350; 117180; 56700; 28350; 83160; 45360; 45360; 18900];
   [26460; 51030; 28350; 3780; 34020; 39690; 8505; 11340; 5670; 945; 62370; 85050; 25515; 51030; 34020; 8505; 45360; 34020; 17010; 9450];
   [26460; 34020; 11340; 945; 51030; 39690; 5670; 28350; 8505; 3780; 62370; 51030; 8505; 85050; 34020; 25515; 45360; 17010; 34020; 9450];
   [6300; 9450; 3780; 315; 9450; 7560; 945; 3780; 945; 315; 18900; 18900; 3780; 18900; 7560; 3780; 18900; 9450; 9450; 6300]].
Definition dual_quad1 : dual := Dual [(0, 0, 0)%nat; (0, 1, 0)%nat; (1, 0, 0)%nat; (1, 1, 0)%nat] 9 4
  [[1; 0; 0; 0];
   [0; 3; 0; 0];
   [0; 0; 3; 0];
   [0; 0; 0; 9]].
Definition dual_quad2 : dual := Dual [(0, 0, 0)%nat; (0, 1, 0)%nat; (0, 2, 0)%nat; (1, 0, 0)%nat; (1, 1, 0)%nat; (1, 2, 0)%nat; (2, 0, 0)%nat; (2, 1, 0)%nat; (2, 2, 0)%nat] 225 64
  [[81; 0; -135; 0; 0; 0; -135; 0; 225];
   [0; 108; 0; 0; 0; 0; 0; -180; 0];
   [-135; 0; 405; 0; 0; 0; 225; 0; -675];
   [0; 0; 0; 108; 0; -180; 0; 0; 0];
   [0; 0; 0; 0; 144; 0; 0; 0; 0];
   [0; 0; 0; -180; 0; 540; 0; 0; 0];
   [-135; 0; 225; 0; 0; 0; 405; 0; -675];
   [0; -180; 0; 0; 0; 0; 0; 540; 0];
   [225; 0; -675; 0; 0; 0; -675; 0; 2025]].
Definition dual_hex1 : dual := Dual [(0, 0, 0)%nat; (0, 0, 1)%nat; (0, 1, 0)%nat; (0, 1, 1)%nat; (1, 0, 0)%nat; (1, 0, 1)%nat; (1, 1, 0)%nat; (1, 1, 1)%nat] 27 8
  [[1; 0; 0; 0; 0; 0; 0; 0];
   [0; 3; 0; 0; 0; 0; 0; 0];
   [0; 0; 3; 0; 0; 0; 0; 0];
   [0; 0; 0; 9; 0; 0; 0; 0];
   [0; 0; 0; 0; 3; 0; 0; 0];
   [0; 0; 0; 0; 0; 9; 0; 0];
   [0; 0; 0; 0; 0; 0; 9; 0];
   [0; 0; 0; 0; 0; 0; 0; 27]].
Definition dual_hex2 : dual := Dual [(0, 0, 0)%nat; (0, 0, 1)%nat; (0, 0, 2)%nat; (0, 1, 0)%nat; (0, 1, 1)%nat; (0, 1, 2)%nat; (0, 2, 0)%nat; (0, 2, 1)%nat; (0, 2, 2)%nat; (1, 0, 0)%nat; (1, 0, 1)%nat; (1, 0, 2)%nat; (1, 1, 0)%nat; (1, 1, 1)%nat; (1, 1, 2)%nat; (1, 2, 0)%nat; (1, 2, 1)%nat; (1, 2, 2)%nat; (2, 0, 0)%nat; (2, 0, 1)%nat; (2, 0, 2)%nat; (2, 1, 0)%nat; (2, 1, 1)%nat; (2, 1, 2)%nat; (2, 2, 0)%nat; (2, 2, 1)%nat; (2, 2, 2)%nat] 3375 512
  [[729; 0; -1215; 0; 0; 0; -1215; 0; 2025; 0; 0; 0; 0; 0; 0; 0; 0; 0; -1215; 0; 2025; 0; 0; 0; 2025; 0; -3375];
   [0; 972; 0; 0; 0; 0; 0; -1620; 0; 0; 0; 0; 0; 0; 0; 0; 0; 0; 0; -1620; 0; 0; 0; 0; 0; 2700; 0];
   [-1215; 0; 3645; 0; 0; 0; 2025; 0; -6075; 0; 0; 0; 0; 0; 0; 0; 0; 0; 2025; 0; -6075; 0; 0; 0; -3375; 0; 10125];
   [0; 0; 0; 972; 0; -1620; 0; 0; 0; 0; 0; 0; 0; 0; 0; 0; 0; 0; 0; 0; 0; -1620; 0; 2700; 0; 0; 0];
   [0; 0; 0; 0; 1296; 0; 0; 0; 0; 0; 0; 0; 0; 0; 0; 0; 0; 0; 0; 0; 0; 0; -2160; 0; 0; 0; 0];
   [0; 0; 0; -1620; 0; 4860; 0; 0; 0; 0; 0; 0; 0; 0; 0; 0; 0; 0; 0; 0; 0; 2700; 0; -8100; 0; 0; 0];
   [-1215; 0; 2025; 0; 0; 0; 3645; 0; -6075; 0; 0; 0; 0; 0; 0; 0; 0; 0; 2025; 0; -3375; 0; 0; 0; -6075; 0; 10125];
   [0; -1620; 0; 0; 0; 0; 0; 4860; 0; 0; 0; 0; 0; 0; 0; 0; 0; 0; 0; 2700; 0; 0; 0; 0; 0; -8100; 0];
   [2025; 0; -6075; 0; 0; 0; -6075; 0; 18225; 0; 0; 0; 0; 0; 0; 0; 0; 0; -3375; 0; 10125; 0; 0; 0; 10125; 0; -30375];
   [0; 0; 0; 0; 0; 0; 0; 0; 0; 972; 0; -1620; 0; 0; 0; -1620; 0; 2700; 0; 0; 0; 0; 0; 0; 0; 0; 0];
   [0; 0; 0; 0; 0; 0; 0; 0; 0; 0; 1296; 0; 0; 0; 0; 0; -2160; 0; 0; 0; 0; 0; 0; 0; 0; 0; 0];
   [0; 0; 0; 0; 0; 0; 0; 0; 0; -1620; 0; 4860; 0; 0; 0; 2700; 0; -8100; 0; 0; 0; 0; 0; 0; 0; 0; 0];
   [0; 0; 0; 0; 0; 0; 0; 0; 0; 0; 0; 0; 1296; 0; -2160; 0; 0; 0; 0; 0; 0; 0; 0; 0; 0; 0; 0];
   [0; 0; 0; 0; 0; 0; 0; 0; 0; 0; 0; 0; 0; 1728; 0; 0; 0; 0; 0; 0; 0; 0; 0; 0; 0; 0; 0];
   [0; 0; 0; 0; 0; 0; 0; 0; 0; 0; 0; 0; -2160; 0; 6480; 0; 0; 0; 0; 0; 0; 0; 0; 0; 0; 0; 0];
   [0; 0; 0; 0; 0; 0; 0; 0; 0; -1620; 0; 2700; 0; 0; 0; 4860; 0; -8100; 0; 0; 0; 0; 0; 0; 0; 0; 0];
   [0; 0; 0; 0; 0; 0; 0; 0; 0; 0; -2160; 0; 0; 0; 0; 0; 6480; 0; 0; 0; 0; 0; 0; 0; 0; 0; 0];
   [0; 0; 0; 0; 0; 0; 0; 0; 0; 2700; 0; -8100; 0; 0; 0; -8100; 0; 24300; 0; 0; 0; 0; 0; 0; 0; 0; 0];
   [-1215; 0; 2025; 0; 0; 0; 2025; 0; -3375; 0; 0; 0; 0; 0; 0; 0; 0; 0; 3645; 0; -6075; 0; 0; 0; -6075; 0; 10125];
   [0; -1620; 0; 0; 0; 0; 0; 2700; 0; 0; 0; 0; 0; 0; 0; 0; 0; 0; 0; 4860; 0; 0; 0; 0; 0; -8100; 0];
   [2025; 0; -6075; 0; 0; 0; -3375; 0; 10125; 0; 0; 0; 0; 0; 0; 0; 0; 0; -6075; 0; 18225; 0; 0; 0; 10125; 0; -30375];
   [0; 0; 0; -1620; 0; 2700; 0; 0; 0; 0; 0; 0; 0; 0; 0; 0; 0; 0; 0; 0; 0; 4860; 0; -8100; 0; 0; 0];
   [0; 0; 0; 0; -2160; 0; 0; 0; 0; 0; 0; 0; 0; 0; 0; 0; 0; 0; 0; 0; 0; 0; 6480; 0; 0; 0; 0];
   [0; 0; 0; 2700; 0; -8100; 0; 0; 0; 0; 0; 0; 0; 0; 0; 0; 0; 0; 0; 0; 0; -8100; 0; 24300; 0; 0; 0];
   [2025; 0; -3375; 0; 0; 0; -6075; 0; 10125; 0; 0; 0; 0; 0; 0; 0; 0; 0; -6075; 0; 10125; 0; 0; 0; 18225; 0; -30375];
   [0; 2700; 0; 0; 0; 0; 0; -8100; 0; 0; 0; 0; 0; 0; 0; 0; 0; 0; 0; -8100; 0; 0; 0; 0; 0; 24300; 0];
   [-3375; 0; 10125; 0; 0; 0; 10125; 0; -30375; 0; 0; 0; 0; 0; 0; 0; 0; 0; 10125; 0; -30375; 0; 0; 0; -30375; 0; 91125]].
End data.
Lemma dual_tri0_ok : dual_ok Tri dual_tri0 = true.
Proof. vm_compute. reflexivity. Qed.
Lemma dual_tri1_ok : dual_ok Tri dual_tri1 = true.
Proof. vm_compute. reflexivity. Qed.
Lemma dual_tri2_ok : dual_ok Tri dual_tri2 = true.
Proof. vm_compute. reflexivity. Qed.
Lemma dual_tet0_ok : dual_ok Tet dual_tet0 = true.
Proof. vm_compute. reflexivity. Qed.
Lemma dual_tet1_ok : dual_ok Tet dual_tet1 = true.
Proof. vm_compute. reflexivity. Qed.
Lemma dual_tet2_ok : dual_ok Tet dual_tet2 = true.
Proof. vm_compute. reflexivity. Qed.
Lemma dual_tet3_ok : dual_ok Tet dual_tet3 = true.
Proof. vm_compute. reflexivity. Qed.
Lemma dual_quad1_ok : dual_ok Quad dual_quad1 = true.
Proof. vm_compute. reflexivity. Qed.
Lemma dual_quad2_ok : dual_ok Quad dual_quad2 = true.
Proof. vm_compute. reflexivity. Qed.
Lemma dual_hex1_ok : dual_ok Hex dual_hex1 = true.
Proof. vm_compute. reflexivity. Qed.
Lemma dual_hex2_ok : dual_ok Hex dual_hex2 = true.
Proof. vm_compute. reflexivity. Qed.

Lemma checkb_nth {A} (f : nat -> A -> bool) (d : A) l : forall i, checkb f i l = true -> forall k, (k < length l)%nat -> f (i + k)%nat (nth k l d) = true.
Proof.
  induction l as [|x l IH]; intros i H k L; cbn in L; [lia|]. cbn [checkb] in H. apply andb_prop in H. destruct H as [H1 H2]. destruct k as [|k].
  - rewrite Nat.add_0_r. exact H1.
  - cbn [nth]. replace (i + S k)%nat with (S i + k)%nat by lia. apply (IH (S i) H2). lia.
Qed.
Lemma all_some_nth {A B} (f : A -> option B) (da : A) (db : B) l : forall r, all_some (map f l) = Some r -> length r = length l /\ forall k, (k < length l)%nat -> f (nth k l da) = Some (nth k r db).
Proof.
  induction l as [|x l IH]; intros r H; cbn [map all_some] in H.
  - inversion H. split; [reflexivity|]. intros k L. cbn in L. lia.
  - destruct (f x) as [y|] eqn:E; [|discriminate]. destruct (all_some (map f l)) as [r'|]; [|discriminate]. inversion H; subst. destruct (IH r' eq_refl) as [H1 H2]. split; [cbn; congruence|].
    intros [|k] L; cbn [nth]; [exact E|]. apply H2. cbn in L. lia.
Qed.
Lemma dotZ_summ u : forall v n, length u = n -> length v = n -> IZR (dotZ u v) = summ n (fun k => IZR (nth k u 0%Z) * IZR (nth k v 0%Z)).
Proof.
  intros v n Lu Lv. assert (E : forall u v n i, length u = n -> length v = n -> IZR (dotZ u v) + summ i (fun k => 0) = summ n (fun k => IZR (nth k u 0%Z) * IZR (nth k v 0%Z))).
  { clear. intros u. induction u as [|x u IH]; intros v n i Lu Lv; rewrite summ_zero.
    - cbn in Lu. subst n. cbn. ring.
    - destruct v as [|y v]; [cbn in *; lia|]. destruct n as [|n]; [cbn in Lu; lia|]. cbn [dotZ]. rewrite plus_IZR, mult_IZR. cbn in Lu, Lv. injection Lu as Lu. injection Lv as Lv.
      specialize (IH v n 0%nat Lu Lv). cbn [summ] in IH. rewrite Rplus_0_r in IH.
      assert (F : forall m (f : nat -> R), summ (S m) f = f 0%nat + summ m (fun k => f (S k))). { clear. intros m f. induction m as [|m IH]; [cbn; ring|]. cbn [summ] in *. rewrite IH. ring. }
      rewrite F. cbn [nth]. rewrite <- IH. ring. }
  specialize (E u v n 0%nat Lu Lv). cbn [summ] in E. lra.
Qed.
Lemma total_abs_summ l n : length l = n -> forallb (fun r => Nat.eqb (length r) n) l = true -> IZR (total_abs l) = summ n (fun i => summ n (fun k => Rabs (IZR (nth k (nth i l []) 0%Z)))).
Proof.
  intros Ll Hl. assert (F : forall m (f : nat -> R), summ (S m) f = f 0%nat + summ m (fun k => f (S k))). { clear. intros m f. induction m as [|m IH]; [cbn; ring|]. cbn [summ] in *. rewrite IH. ring. }
  assert (E1 : forall r m, length r = m -> IZR (fold_right (fun x acc => (Z.abs x + acc)%Z) 0%Z r) = summ m (fun k => Rabs (IZR (nth k r 0%Z)))).
  { clear - F. intros r. induction r as [|x r IH]; intros m L; cbn in L; subst m; [reflexivity|]. cbn [fold_right]. rewrite F, plus_IZR, abs_IZR, (IH _ eq_refl). reflexivity. }
  assert (E2 : forall l m, length l = m -> forallb (fun r => Nat.eqb (length r) n) l = true -> IZR (total_abs l) = summ m (fun i => summ n (fun k => Rabs (IZR (nth k (nth i l []) 0%Z))))).
  { clear - F E1. intros l. induction l as [|r l IH]; intros m L H; cbn in L; subst m; [reflexivity|]. cbn [forallb] in H. apply andb_prop in H. destruct H as [H1 H2]. apply Nat.eqb_eq in H1.
    unfold total_abs. cbn [fold_right]. fold (total_abs l). rewrite F, plus_IZR, (E1 r n H1), (IH _ eq_refl H2). reflexivity. }
  exact (E2 l n Ll Hl).
Qed.
Lemma distinct_NoDup l : distinct l = true -> NoDup l.
Proof.
  induction l as [|x l IH]; intros H; [constructor|]. cbn [distinct] in H. apply andb_prop in H. destruct H as [H1 H2]. constructor; [|exact (IH H2)]. intros I. apply negb_true_iff in H1.
  assert (T : existsb (same x) l = true) by (apply existsb_exists; exists x; split; [exact I|apply same_spec; reflexivity]). congruence.
Qed.
Lemma scaled_moment_ok d mm e z : (0 < mm)%Z -> scaled_moment d mm e = Some z -> Q2R (moment_at d e) = IZR z / IZR mm.
Proof.
  intros P. unfold scaled_moment. destruct (Z.eqb_spec (Qnum (Qred (moment_at d e)) * (mm / Zpos (Qden (Qred (moment_at d e)))) * Zpos (Qden (Qred (moment_at d e)))) (Qnum (Qred (moment_at d e)) * mm)) as [E|]; [|discriminate].
  intros H. injection H as Hz. rewrite Hz in E. rewrite <- (Qeq_eqR _ _ (Qred_correct (moment_at d e))). unfold Q2R. apply (f_equal IZR) in E. rewrite !mult_IZR in E.
  assert (Nm : IZR mm <> 0) by (apply not_0_IZR; lia). assert (Nd : IZR (Zpos (Qden (Qred (moment_at d e)))) <> 0) by (apply not_0_IZR; lia).
  apply (Rmult_eq_reg_r (IZR mm * IZR (Zpos (Qden (Qred (moment_at d e)))))); [|apply Rmult_integral_contrapositive_currified; assumption].
  transitivity (IZR (Qnum (Qred (moment_at d e))) * IZR mm); [field; assumption|]. rewrite <- E. revert Nm. clear. generalize (IZR (Zpos (Qden (Qred (moment_at d e))))) (IZR z) (IZR mm). intros; field; assumption.
Qed.

(** a rule that is nearly exact for the products of the monomials *)
Definition close_rule (d : domain) (M : list exps) (q : rule point) : Prop :=
  forall m m', In m M -> In m' M -> Rabs (rule_integrate q (monomial (add_exps m m')) - Q2R (moment_at d (add_exps m m'))) <= / 10 ^ 15.
Lemma rule_unisolvent d x q p : dual_ok d x = true -> close_rule d (du_monomials x) q -> length (fst q) = length (snd q) -> List.Forall (fun c : R * exps => In (snd c) (du_monomials x)) p ->
  (forall y, In y (snd q) -> peval p y = 0) -> forall y, peval p y = 0.
Proof.
  intros Ok Hq Lq Hp Hz. unfold dual_ok in Ok. rewrite !andb_true_iff in Ok. destruct Ok as [[[[[[N Pm] Ps] Lr] Lrs] Tot] Ck].
  destruct (all_some _) as [G|] eqn:EG in Ck; [|discriminate]. apply Z.ltb_lt in Pm, Ps. apply Nat.eqb_eq in Lr. apply Z.leb_le in Tot. apply distinct_NoDup in N.
  pose proof (IZR_lt _ _ Pm) as Pm'. pose proof (IZR_lt _ _ Ps) as Ps'. set (M := du_monomials x) in *. set (n := length M) in *.
  destruct (all_some_nth _ (0, 0, 0)%nat [] _ _ EG) as [LG HG]. fold n in LG.
  assert (Hrow : forall i, (i < n)%nat -> length (nth i (du_rows x) []) = n).
  { intros i Li. rewrite forallb_forall in Lrs. apply Nat.eqb_eq, Lrs, nth_In. rewrite Lr. exact Li. }
  assert (Hmom : forall j k, (j < n)%nat -> (k < n)%nat -> Q2R (moment_at d (add_exps (mono M j) (mono M k))) = IZR (nth k (nth j G []) 0%Z) / IZR (du_moments x)).
  { intros j k Lj Lk. specialize (HG j Lj). destruct (all_some_nth _ (0, 0, 0)%nat 0%Z _ _ HG) as [_ H]. specialize (H k Lk). exact (scaled_moment_ok d _ _ _ Pm H). }
  assert (Hlen : forall j, (j < n)%nat -> length (nth j G []) = n).
  { intros j Lj. specialize (HG j Lj). exact (proj1 (all_some_nth _ (0, 0, 0)%nat 0%Z _ _ HG)). }
  apply (unisolvent_zero M (fun i k => IZR (nth k (nth i (du_rows x) []) 0%Z) / IZR (du_scale x)) (fun e => Q2R (moment_at d e)) (zipped q) (/ 10 ^ 15) (10 ^ 14)); try assumption.
  - lra.
  - lra.
  - intros i j Li Lj. rewrite <- integrate_total. apply Hq; apply nth_In; assumption.
  - intros i j Li Lj. fold n. rewrite (PropMaterial.summ_ext n _ (fun k => / (IZR (du_scale x) * IZR (du_moments x)) * (IZR (nth k (nth i (du_rows x) []) 0%Z) * IZR (nth k (nth j G []) 0%Z)))).
    + rewrite summ_l, <- (dotZ_summ _ _ n (Hrow i Li) (Hlen j Lj)).
      pose proof (checkb_nth _ [] _ 0%nat Ck i ltac:(rewrite Lr; exact Li)) as C1. cbn beta in C1. pose proof (checkb_nth _ [] _ 0%nat C1 j ltac:(rewrite LG; exact Lj)) as C2. cbn beta in C2. cbn [Nat.add] in C2.
      apply Z.eqb_eq in C2. rewrite C2. destruct (j =? i)%nat; [rewrite mult_IZR; field; lra|ring].
    + intros k Lk. rewrite (Hmom j k Lj Lk). field. lra.
  - fold n. rewrite (PropMaterial.summ_ext n _ (fun i => / IZR (du_scale x) * summ n (fun k => Rabs (IZR (nth k (nth i (du_rows x) []) 0%Z))))).
    + rewrite summ_l, <- (total_abs_summ (du_rows x) n Lr Lrs). apply IZR_le in Tot. rewrite mult_IZR in Tot. apply (Rmult_le_reg_l (IZR (du_scale x))); [exact Ps'|]. rewrite <- Rmult_assoc, Rinv_r, Rmult_1_l by lra.
      rewrite (Rmult_comm (IZR (du_scale x))). change (10 ^ 14)%Z with 100000000000000%Z in Tot. lra.
    + intros i _. rewrite <- summ_l. apply PropMaterial.summ_ext. intros k _. unfold Rdiv. rewrite Rabs_mult, Rabs_inv, (Rabs_pos_eq (IZR (du_scale x))) by lra. ring.
  - intros w y I. apply Hz. unfold zipped in I. exact (in_combine_r _ _ _ _ I).
Qed.

(** C76 for the operators of fenris: the Laplace operator and the operators of materials. *)
From Coq Require Import Reals List Arith Lia Lra Psatz Bool FunctionalExtensionality.
From Coquelicot Require Import Coquelicot.
From Verif Require Import MaterialModel EllipticModel PropMaterial PropObjective PropElliptic.
Import ListNotations.
Open Scope R_scope.
Local Notation vec := (nat -> R).
Local Notation mat := (nat -> nat -> R).

(** * specification *)
(** the three assembly functions of an operator belong together at the nodal values [u]: vector and matrix are assembled, the vector is the derivative of the
    energy in every direction and the matrix is symmetric and the Jacobian of the vector *)
Definition consistent {Pt Data} (el : element Pt) (s : nat) (energy : mat -> Data -> R) (operator_transpose : mat -> Data -> mat) (accumulate : mat -> Data -> nat -> nat -> mat -> R -> list R -> list R -> option mat)
    (weights : list R) (points : list Pt) (data : list Data) (u : list R) : Prop :=
  let n := el_nodes el in
  let E := fun u => element_energy el s energy u weights points data n in
  let V := fun u => element_vector el s operator_transpose u weights points data n (s * n) in
  exists f K, V u = Done f /\ element_matrix el s true accumulate u weights points data n (s * n) (s * n) = Done K /\
    (forall v, length v = (s * n)%nat -> (forall t, exists e, E (line u v t) = Done e) /\
      is_derive (fun t => result_value (E (line u v t))) 0 (summ n (fun I => summ s (fun i => f (s * I + i)%nat * nth (s * I + i) v 0)))) /\
    (forall r c, (r < s * n)%nat -> (c < s * n)%nat -> K r c = K c r) /\
    forall I J i j, (I < n)%nat -> (J < n)%nat -> (i < s)%nat -> (j < s)%nat ->
      is_derive (fun t => result_entry (V (line u (unit_vector (s * n) (s * J + j)) t)) (s * I + i)) 0 (K (s * I + i)%nat (s * J + j)%nat).
Definition small (d : nat) : Prop := d = 1%nat \/ d = 2%nat \/ d = 3%nat.

Lemma consistent_from {Pt Data} (el : element Pt) s (energy : mat -> Data -> R) (operator operator_transpose : mat -> Data -> mat) (contract : mat -> Data -> vec -> vec -> mat) accumulate weights points data u :
  small (el_dim el) -> quadrature_sizes weights points data -> length u = (s * el_nodes el)%nat -> regular_at el (combine weights (combine points data)) ->
  (forall G x i j, operator_transpose G x i j = operator G x j i) ->
  (forall w p x G, In (w, (p, x)) (combine weights (combine points data)) -> interpolation_gradient el s u p G -> derivative_at (el_dim el) s (fun G => energy G x) G (operator G x)) ->
  (forall w p x G, In (w, (p, x)) (combine weights (combine points data)) -> interpolation_gradient el s u p G ->
    (forall a b, operator_contraction_at (el_dim el) s (fun G => operator G x) G a b (contract G x a b)) /\ accumulates (el_dim el) s true (contract G x) (accumulate G x) /\
    (forall a b i j, (i < s)%nat -> (j < s)%nat -> contract G x a b i j = contract G x b a j i)) ->
  consistent el s energy operator_transpose accumulate weights points data u.
Proof.
  intros Hd Hq Hu Hr Ht Hg Hc. destruct (vector_value el s operator_transpose u weights points data Hq Hu) as (_ & V). destruct (V Hr) as (f & Ef & _).
  destruct (C76_matrix_is_jacobian el s weights points data Hd Hq operator operator_transpose true contract accumulate u Hu Hr Ht) as (K & EK & HS & HK).
  { intros w p x G Hin HG. destruct (Hc w p x G Hin HG) as (A & B & C). split; [exact A|]. split; [exact B|]. intros _. exact C. }
  exists f, K. split; [exact Ef|]. split; [exact EK|]. split; [|split; [exact (HS eq_refl)|exact HK]].
  exact (C76_vector_is_gradient el s weights points data Hd Hq energy operator operator_transpose u f Hu Ht Hg Ef).
Qed.

(** * the Laplace operator *)
Lemma laplace_derivative d G : derivative_at d 1 (laplace_energy d) G (laplace_operator G).
Proof.
  intros H. unfold laplace_energy, laplace_operator. apply (is_derive_eq _ _ (1/2 * summ d (fun k => H k 0%nat * along G H 0 k 0%nat + along G H 0 k 0%nat * H k 0%nat))).
  - apply dscal. apply is_derive_summ. intros k _. apply dmult; apply dalong.
  - rewrite <- summ_l. apply summ_ext. intros k _. cbn. rewrite along_0. field.
Qed.
Lemma laplace_contraction d G a b : operator_contraction_at d 1 laplace_operator G a b (laplace_contract d G a b).
Proof.
  intros i j Hi Hj. assert (i = 0%nat) by lia. assert (j = 0%nat) by lia. subst. unfold laplace_operator, laplace_contract, vdot. apply is_derive_summ. intros k _. apply dscal. exact (dalong G (fun m q => if (q =? 0)%nat then b m else 0) k 0%nat).
Qed.
Section laplace.
Context {Pt : Type} (el : element Pt) (weights : list R) (points : list Pt) (data : list unit) (u : list R).
Hypothesis Hd : small (el_dim el).
Hypothesis Hq : quadrature_sizes weights points data.
Hypothesis Hu : length u = el_nodes el.
Let q := combine weights (combine points data).
Let n := el_nodes el.
Let d := el_dim el.
Hypothesis Hr : regular_at el q.
Let accumulate := fun (G : mat) (_ : unit) => accumulate_contractions d 1 true (laplace_contract d G).

(** C76 for the Laplace operator *)
Theorem C76_laplace : consistent el 1 (fun G _ => laplace_energy d G) (fun G _ => transpose (laplace_operator G)) accumulate weights points data u.
Proof.
  apply (consistent_from el 1 _ (fun G _ => laplace_operator G) _ (fun G _ => laplace_contract d G)); [exact Hd|exact Hq|rewrite Nat.mul_1_l; exact Hu|exact Hr|reflexivity|intros; apply laplace_derivative|].
  intros w p x G Hin HG. split; [intros; apply laplace_contraction|]. split; [apply default_accumulates; unfold d; destruct Hd as [-> | [-> | ->]]; lia|]. intros a b i j _ _. unfold laplace_contract. apply vdot_comm.
Qed.
(** C76: the stiffness matrix of the Laplace operator does not depend on the solution; the products with nodal values are the integrals of products of gradients, so with
    weights that are not negative it is positive semidefinite; functions that are constant are in its kernel if the gradients of the basis functions add up to zero *)
Theorem C76_laplace_matrix : exists K, element_matrix el 1 true accumulate u weights points data n (1 * n) (1 * n) = Done K /\
  (forall v v', length v = n -> length v' = n -> forall G G', (forall w p x, In (w, (p, x)) q -> interpolation_gradient el 1 v p (G p) /\ interpolation_gradient el 1 v' p (G' p)) ->
    summ n (fun I => summ n (fun J => nth I v 0 * K I J * nth J v' 0)) = qsum q (fun w p _ => w * Rabs (determinant d (el_jacobian el p)) * summ d (fun k => G p k 0%nat * G' p k 0%nat))) /\
  ((forall w, In w weights -> 0 <= w) -> forall v, length v = n -> 0 <= summ n (fun I => summ n (fun J => nth I v 0 * K I J * nth J v 0))) /\
  ((forall w p x, In (w, (p, x)) q -> forall k, (k < d)%nat -> summ n (fun I => el_gradients el p I k) = 0) -> forall I, (I < n)%nat -> summ n (fun J => K I J) = 0).
Proof.
  destruct (matrix_value el 1 true (fun G (_ : unit) => laplace_contract d G) accumulate u weights points data Hd Hq) as (K & EK & HK); [rewrite Nat.mul_1_l; exact Hu|exact Hr| | |].
  { intros w p x Hin. apply default_accumulates. unfold d. destruct Hd as [-> | [-> | ->]]; lia. }
  { intros _ w p x Hin a b i j _ _. unfold laplace_contract. apply vdot_comm. }
  fold n d q in HK, EK. exists K. split; [exact EK|].
  assert (HK' : forall I J, (I < n)%nat -> (J < n)%nat -> K I J = qsum q (fun w p x => w * Rabs (determinant d (el_jacobian el p)) * vdot d (grads el p I) (grads el p J))).
  { intros I J HI HJ. pose proof (HK I J 0%nat 0%nat HI HJ ltac:(lia) ltac:(lia)) as X. rewrite !Nat.mul_1_l, !Nat.add_0_r in X. exact X. }
  assert (P : forall v v', summ n (fun I => summ n (fun J => nth I v 0 * K I J * nth J v' 0)) = qsum q (fun w p _ => w * Rabs (determinant d (el_jacobian el p)) * summ d (fun k => ugrad el 1 v p k 0%nat * ugrad el 1 v' p k 0%nat))).
  { intros v v'. rewrite (summ_ext n _ (fun I => qsum q (fun w p x => summ n (fun J => w * Rabs (determinant d (el_jacobian el p)) * (nth I v 0 * vdot d (grads el p I) (grads el p J) * nth J v' 0))))).
    2: { intros I HI. rewrite (qsum_summ n q (fun J w p x => w * Rabs (determinant d (el_jacobian el p)) * (nth I v 0 * vdot d (grads el p I) (grads el p J) * nth J v' 0))). apply summ_ext. intros J HJ.
      rewrite HK' by assumption. rewrite Rmult_assoc, Rmult_comm, Rmult_assoc, Rmult_comm. rewrite <- qsum_l. apply qsum_ext. intros w p x _. ring. }
    rewrite <- (qsum_summ n q (fun I w p x => summ n (fun J => w * Rabs (determinant d (el_jacobian el p)) * (nth I v 0 * vdot d (grads el p I) (grads el p J) * nth J v' 0)))).
    apply qsum_ext. intros w p x _. set (c := w * _). rewrite <- (summ_l d c).
    rewrite (summ_ext n _ (fun I => summ n (fun J => summ d (fun k => c * (nth I v 0 * grads el p I k * (grads el p J k * nth J v' 0)))))).
    2: { intros I _. apply summ_ext. intros J _. unfold vdot. rewrite (summ_l d c). f_equal. rewrite <- summ_l, <- summ_r. apply summ_ext. intros; ring. }
    rewrite (summ_ext n _ (fun I => summ d (fun k => summ n (fun J => c * (nth I v 0 * grads el p I k * (grads el p J k * nth J v' 0)))))) by (intros; apply summ_swap).
    rewrite summ_swap. apply summ_ext. intros k Hk. unfold ugrad. fold d n. rewrite (proj2 (Nat.ltb_lt k d) Hk). cbn [andb Nat.ltb Nat.leb]. rewrite summ_dist, <- summ_l. apply summ_ext. intros I _. rewrite <- summ_l. apply summ_ext. intros J _.
    rewrite !Nat.mul_1_l, !Nat.add_0_r. ring. }
  split; [|split].
  - intros v v' Hv Hv' G G' HG. rewrite P. apply qsum_ext. intros w p x Hin. destruct (HG w p x Hin) as (G1 & G2). rewrite (ugrad_unique el 1 v p (G p)), (ugrad_unique el 1 v' p (G' p)); try assumption; try exact (Hr w p x Hin). reflexivity.
  - intros Hw v Hv. rewrite P. assert (In_w : forall w p x, In (w, (p, x)) q -> 0 <= w) by (intros w p x Hin; apply Hw; unfold q in Hin; apply in_combine_l in Hin; exact Hin). clearbody q. clear - In_w.
    induction q as [|(w & p & x) q' IH]; [cbn; lra|]. unfold qsum in *. cbn [fold_right fst snd]. pose proof (IH (fun w' p' x' Hin => In_w w' p' x' (or_intror Hin))) as B. apply Rplus_le_le_0_compat; [|exact B].
    apply Rmult_le_pos; [apply Rmult_le_pos; [apply (In_w w p x); left; reflexivity|apply Rabs_pos]|]. apply summ_nonneg. intros k _. apply Rle_0_sqr.
  - intros Hz I HI. rewrite (summ_ext n _ (fun J => qsum q (fun w p x => w * Rabs (determinant d (el_jacobian el p)) * vdot d (grads el p I) (grads el p J)))) by (intros J HJ; apply HK'; assumption).
    rewrite <- (qsum_summ n q (fun J w p x => w * Rabs (determinant d (el_jacobian el p)) * vdot d (grads el p I) (grads el p J))).
    rewrite (qsum_ext q _ (fun w p x => 0 * 0)); [rewrite qsum_l; ring|]. intros w p x Hin. rewrite summ_l. transitivity (w * Rabs (determinant d (el_jacobian el p)) * 0); [f_equal|ring]. unfold vdot. rewrite summ_swap.
    rewrite (summ_ext d _ (fun _ => 0)); [apply summ_zero|]. intros k Hk. rewrite summ_l. transitivity (grads el p I k * 0); [f_equal|ring]. unfold grads. fold d. rewrite (proj2 (Nat.ltb_lt k d) Hk). rewrite summ_swap.
    rewrite (summ_ext d _ (fun _ => 0)); [apply summ_zero|]. intros m Hm. rewrite summ_l, (Hz w p x Hin m Hm). ring.
Qed.
End laplace.
Print Assumptions C76_laplace.
Print Assumptions C76_laplace_matrix.

(** * materials *)
Lemma material_derivative d energy stress G : gradient_at d energy (deformation_gradient G) (stress (deformation_gradient G)) -> derivative_at d d (operator_energy energy) G (elliptic_operator stress G).
Proof. exact (C55_operator d energy stress G). Qed.
Lemma material_contraction d stress contraction G a b : contraction_at d stress (deformation_gradient G) a b (contraction (deformation_gradient G) a b) -> operator_contraction_at d d (elliptic_operator stress) G a b (operator_contract contraction G a b).
Proof. exact (C56_operator d stress contraction G a b). Qed.
Section materials.
Context {Pt : Type} (el : element Pt) (weights : list R) (points : list Pt) (data : list (R * R)) (u : list R).
Hypothesis Hd : small (el_dim el).
Hypothesis Hq : quadrature_sizes weights points data.
Let d := el_dim el.
Hypothesis Hu : length u = (d * el_nodes el)%nat.
Let q := combine weights (combine points data).
Hypothesis Hr : regular_at el q.
Let accumulate (contraction : R * R -> mat -> vec -> vec -> mat) := fun (G : mat) x nrows ncols out alpha a b => batch_contraction d nrows ncols out alpha a b (operator_contract (contraction x) G).
Lemma d_pos : (0 < d)%nat.
Proof. unfold d. destruct Hd as [-> | [-> | ->]]; lia. Qed.

(** C76 for linear elasticity and St. Venant-Kirchhoff materials; the parameters are the Lame parameters at each quadrature point *)
Theorem C76_polynomial_materials :
  consistent el d (fun G x => operator_energy (le_energy d (fst x) (snd x)) G) (fun G x => elliptic_operator_transpose (le_stress d (fst x) (snd x)) G) (accumulate (fun x => le_contraction d (fst x) (snd x))) weights points data u /\
  consistent el d (fun G x => operator_energy (stvk_energy d (fst x) (snd x)) G) (fun G x => elliptic_operator_transpose (stvk_stress d (fst x) (snd x)) G) (accumulate (fun x => stvk_contraction d (fst x) (snd x))) weights points data u.
Proof.
  pose proof d_pos as dp. split.
  - apply (consistent_from el d _ (fun G x => elliptic_operator (le_stress d (fst x) (snd x)) G) _ (fun G x => operator_contract (le_contraction d (fst x) (snd x)) G)); [exact Hd|exact Hq|exact Hu|exact Hr|reflexivity|intros; apply material_derivative, C55_polynomial|].
    intros w p x G Hin HG. split; [intros; apply material_contraction, C56_polynomial|]. split; [apply batch_accumulates, dp|]. intros a b i j _ _. apply C56_symmetry.
  - apply (consistent_from el d _ (fun G x => elliptic_operator (stvk_stress d (fst x) (snd x)) G) _ (fun G x => operator_contract (stvk_contraction d (fst x) (snd x)) G)); [exact Hd|exact Hq|exact Hu|exact Hr|reflexivity|intros; apply material_derivative, C55_polynomial|].
    intros w p x G Hin HG. split; [intros; apply material_contraction, C56_polynomial|]. split; [apply batch_accumulates, dp|]. intros a b i j _ _. apply C56_symmetry.
Qed.

(** C76 for Neo-Hookean materials in two and three dimensions, where no quadrature point is turned inside out. [value] and [entries] replace infinities and NaNs by 0. *)
Theorem C76_neo_hookean : d = 2%nat \/ d = 3%nat -> (forall w p x G, In (w, (p, x)) q -> interpolation_gradient el d u p G -> 0 < determinant d (deformation_gradient G)) ->
  consistent el d (fun G x => value (nh_energy_du d (fst x) (snd x) G)) (fun G x => elliptic_operator_transpose (fun F => entries (nh_stress d (fst x) (snd x) F)) G)
    (accumulate (fun x F a b => entries (nh_contraction d (fst x) (snd x) F a b))) weights points data u.
Proof.
  intros Hd' Hpos. pose proof d_pos as dp.
  assert (EG : forall G, u_grad_from_F (deformation_gradient G) = G).
  { intros G. apply functional_extensionality. intros i. apply functional_extensionality. intros j. unfold u_grad_from_F, deformation_gradient, transpose, msub, madd. ring. }
  apply (consistent_from el d _ (fun G x => elliptic_operator (fun F => entries (nh_stress d (fst x) (snd x) F)) G) _ (fun G x => operator_contract (fun F a b => entries (nh_contraction d (fst x) (snd x) F a b)) G)); [exact Hd|exact Hq|exact Hu|exact Hr|reflexivity| |].
  - intros w p x G Hin HG. fold d. assert (HH : derivative_at d d (operator_energy (fun F => value (nh_energy d (fst x) (snd x) F))) G (elliptic_operator (fun F => entries (nh_stress d (fst x) (snd x) F)) G)).
    { apply material_derivative. intros H. destruct (C55_neo_hookean d (fst x) (snd x) (deformation_gradient G) Hd') as (N & _). destruct (N (Hpos w p x G Hin HG)) as (P & EP & HP). rewrite EP. apply HP. }
    intros H. apply (is_derive_pext (fun t => operator_energy (fun F => value (nh_energy d (fst x) (snd x) F)) (along G H t))); [|apply HH]. intros t. unfold operator_energy, nh_energy. rewrite EG. reflexivity.
  - intros w p x G Hin HG. fold d. split; [|split; [apply batch_accumulates, dp|]].
    + intros a b. apply material_contraction. destruct (C56_neo_hookean d (fst x) (snd x) (deformation_gradient G) a b Hd) as (N & _). destruct (N (Hpos w p x G Hin HG)) as (C & EC & HC). rewrite EC. cbn [entries]. intros i j Hi Hj. apply (HC i j Hi Hj).
    + intros a b i j Hi Hj. unfold operator_contract. destruct (C56_symmetry d (fst x) (snd x) (deformation_gradient G) a b i j) as (_ & _ & S).
      assert (E : forall a b, exists C, nh_contraction d (fst x) (snd x) (deformation_gradient G) a b = Some C).
      { intros a' b'. destruct (C56_neo_hookean d (fst x) (snd x) (deformation_gradient G) a' b' Hd) as (N & _). destruct (N (Hpos w p x G Hin HG)) as (C & EC & _). exists C. exact EC. }
      destruct (E a b) as (C & EC). destruct (E b a) as (C' & EC'). rewrite EC, EC'. cbn [entries]. exact (S C C' EC EC').
Qed.
End materials.
Print Assumptions C76_polynomial_materials.
Print Assumptions C76_neo_hookean.

(** a linear triangle with corners (0,0), (2,0), (0,2) *)
Definition example_triangle : element (R * R) := Element (R * R) 3 2 (fun p I => nth I [1 - fst p - snd p; fst p; snd p] 0) (fun _ I k => nth k (nth I [[-1; -1]; [1; 0]; [0; 1]] []) 0) (fun p k => nth k [2 * fst p; 2 * snd p] 0) (fun _ i j => if (i =? j)%nat then 2 else 0).
Example C76_example : regular_at example_triangle (combine [1/2] (combine [(1/3, 1/3)] [tt])) /\ quadrature_sizes [1/2] [(1/3, 1/3)] [tt] /\
  exists K, element_matrix example_triangle 1 true (fun G _ => accumulate_contractions 2 1 true (laplace_contract 2 G)) [0; 0; 0] [1/2] [(1/3, 1/3)] [tt] 3 3 3 = Done K /\ K 0%nat 0%nat = 1 /\ K 1%nat 0%nat = -1/2 /\ K 0%nat 1%nat = -1/2.
Proof.
  split; [intros w p x [[= <- <- <-]|[]]; cbn; lra|]. split; [split; reflexivity|].
  destruct (matrix_value example_triangle 1 true (fun G (_ : unit) => laplace_contract 2 G) (fun G _ => accumulate_contractions 2 1 true (laplace_contract 2 G)) [0; 0; 0] [1/2] [(1/3, 1/3)] [tt]) as (K & EK & HK).
  - right; left; reflexivity.
  - split; reflexivity.
  - reflexivity.
  - intros w p x [[= <- <- <-]|[]]; cbn; lra.
  - intros. apply default_accumulates. cbn. lia.
  - intros _ w p x _ a b i j _ _. apply vdot_comm.
  - exists K. split; [exact EK|]. pose proof (HK 0%nat 0%nat 0%nat 0%nat ltac:(cbn; lia) ltac:(cbn; lia) ltac:(lia) ltac:(lia)) as K0. pose proof (HK 1%nat 0%nat 0%nat 0%nat ltac:(cbn; lia) ltac:(cbn; lia) ltac:(lia) ltac:(lia)) as K1. pose proof (HK 0%nat 1%nat 0%nat 0%nat ltac:(cbn; lia) ltac:(cbn; lia) ltac:(lia) ltac:(lia)) as K2.
    cbn [Nat.mul Nat.add] in K0, K1, K2. rewrite K0, K1, K2. unfold qsum, laplace_contract, vdot, grads. cbn. rewrite !Rabs_pos_eq by lra. repeat split; field.
Qed.

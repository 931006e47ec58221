(** The integrals of the gradients of basis functions over a cell are sums over its faces. Auxiliary to C108. *)
From Coq Require Import Reals List Arith Lia Lra QArith Qreals FunctionalExtensionality.
From Coquelicot Require Import Coquelicot.
From Verif Require Import MaterialModel ElementModel ElementSpec QuadratureModel QuadPoly QuadPolyN RuleProofs TableMoments ElementDegrees.
Import ListNotations.
Local Open Scope R_scope.

(** the gradient of basis function [I], multiplied by the determinant of the Jacobian *)
Definition flux (e : element) (vs : list point) (I k : nat) (x : point) : R :=
  summ (el_dim e) (fun m => adjugate (el_dim e) (el_jacobian e vs x) m k * nth m (nth I (el_grads e x) []) 0).

(** * rules that integrate exactly *)
Definition centre_triangle : list (R * point) := [(2, pt [-1/3; -1/3])].
Definition centre_tetrahedron : list (R * point) := [(4/3, pt [-1/2; -1/2; -1/2])].
Definition centre_square : list (R * point) := [(4, pt [0; 0])].
Definition simpson1 : list (R * R) := [(1/3, -1); (4/3, 0); (1/3, 1)].
Definition simpson_square : list (R * point) := flat_map (fun a => map (fun b => (fst a * fst b, pt [snd a; snd b])) simpson1) simpson1.

Lemma total_scale_fun {P} (l : list (R * P)) c f : total l (fun x => c * f x) = c * total l f.
Proof. unfold total. rewrite <- sum_scale. apply sum_ext'. intros. ring. Qed.
Lemma total_plus_fun {P} (l : list (R * P)) f g : total l (fun x => f x + g x) = total l f + total l g.
Proof. unfold total. rewrite <- sum_plus. apply sum_ext'. intros. ring. Qed.
Lemma total_zero_fun {P} (l : list (R * P)) : total l (fun _ => 0) = 0.
Proof. unfold total. induction l as [|a l IH]; cbn [map sum fold_right]; [reflexivity|]. unfold sum in IH. rewrite IH. ring. Qed.
Lemma rule_on dim over m r (S : exps -> Prop) f : moments dim over m -> (forall e, S e -> dim = 2%nat -> snd e = 0%nat) -> (forall e, S e -> total r (monomial e) = m e) -> Poly S f -> over f = total r f.
Proof.
  intros M D R (p & P & H). assert (E : f = peval p) by (apply functional_extensionality, H). subst f. clear H. rewrite M by (eapply List.Forall_impl; [|exact P]; intros c Hc; apply D, Hc).
  induction P as [|c p Hc _ IH]; cbn [fold_right]; [symmetry; apply total_zero_fun|]. rewrite IH, <- (R _ Hc). unfold peval at 2. cbn [fold_right]. rewrite total_plus_fun, total_scale_fun. reflexivity.
Qed.
Ltac moment := match goal with |- context [cut_moment ?a ?b ?n] => let q := eval vm_compute in (cutQ a b n) in rewrite <- (cutQ_ok a b n); replace (Q2R (cutQ a b n)) with (Q2R q) by (f_equal; vm_compute; reflexivity) end.
Lemma triangle_centre f : Poly (total_degree 2 1) f -> on_triangle f = total centre_triangle f.
Proof.
  apply (rule_on 2 _ _ _ _ _ triangle_moments).
  - intros ((a, b), c) (_ & H & _) _. apply H. lia.
  - intros ((a, b), c) (H & Hc & _). cbn [fst snd] in *. specialize (Hc ltac:(lia)). subst c. destruct a as [|[|a]], b as [|[|b]]; try lia; moment; unfold Q2R, total, centre_triangle, monomial, pt; cbn; field.
Qed.
Lemma tetrahedron_centre f : Poly (total_degree 3 1) f -> on_tetrahedron f = total centre_tetrahedron f.
Proof.
  apply (rule_on 3 _ _ _ _ _ tetrahedron_moments).
  - intros ((a, b), c) _ H. discriminate H.
  - intros ((a, b), c) (H & _). cbn [fst snd] in *. destruct a as [|[|a]], b as [|[|b]], c as [|[|c]]; try lia; repeat moment; unfold Q2R, total, centre_tetrahedron, monomial, pt; cbn; field.
Qed.
Lemma mom_value k : integral (fun t => t ^ k) (-1) 1 = Q2R (momQ k). Proof. symmetry. apply momQ_ok. Qed.
Lemma square_centre f : Poly (each_degree 2 1) f -> on_square f = total centre_square f.
Proof.
  apply (rule_on 2 _ _ _ _ _ square_moments).
  - intros ((a, b), c) (_ & H & _) _. apply H. lia.
  - intros ((a, b), c) (H & Hc & _). cbn [fst snd] in *. specialize (Hc ltac:(lia)). subst c. rewrite !mom_value. destruct a as [|[|a]], b as [|[|b]]; try lia; unfold Q2R, total, centre_square, monomial, pt; cbn; field.
Qed.
Lemma square_simpson f : Poly (each_degree 2 3) f -> on_square f = total simpson_square f.
Proof.
  apply (rule_on 2 _ _ _ _ _ square_moments).
  - intros ((a, b), c) (_ & H & _) _. apply H. lia.
  - intros ((a, b), c) (H & Hc & _). cbn [fst snd] in *. specialize (Hc ltac:(lia)). subst c. rewrite !mom_value.
    destruct a as [|[|[|[|a]]]], b as [|[|[|[|b]]]]; try lia; unfold Q2R, total, simpson_square, simpson1, monomial, pt; cbn; field.
Qed.

(** * forces on the nodes of a face: position in the face, axis *)
Definition turned (a b : point) (k : nat) : R := match k with O => b 1%nat - a 1%nat | _ => a 0%nat - b 0%nat end.
Definition cross (u v : point) (k : nat) : R := u ((k + 1) mod 3)%nat * v ((k + 2) mod 3)%nat - u ((k + 2) mod 3)%nat * v ((k + 1) mod 3)%nat.
Definition minus (a b : point) : point := fun i => a i - b i.
Definition edge2_load (ps : list point) (j k : nat) : R := nth j [1/2; 1/2] 0 * turned (vx ps 0) (vx ps 1) k.
Definition edge3_load (ps : list point) (j k : nat) : R := nth j [1/6; 2/3; 1/6] 0 * turned (vx ps 0) (vx ps 2) k.
Definition tri3_load (ps : list point) (j k : nat) : R := nth j [1/6; 1/6; 1/6] 0 * cross (minus (vx ps 1) (vx ps 0)) (minus (vx ps 2) (vx ps 0)) k.
Definition tri6_load (ps : list point) (j k : nat) : R := nth j [0; 0; 0; 1/6; 1/6; 1/6] 0 * cross (minus (vx ps 1) (vx ps 0)) (minus (vx ps 2) (vx ps 0)) k.

(** the forces on the node with local number [I] from all faces *)
Definition local_load (load : list point -> nat -> nat -> R) (table : list (list nat)) (vs : list point) (I k : nat) : R :=
  summ (length table) (fun l => summ (length (nth l table [])) (fun j => if (nth j (nth l table []) 0 =? I)%nat then load (map (vx vs) (nth l table [])) j k else 0)).
Definition tri3_faces : list (list nat) := [[0; 1]; [1; 2]; [2; 0]]%nat.
Definition tri6_faces : list (list nat) := [[0; 3; 1]; [1; 4; 2]; [2; 5; 0]]%nat.
Definition quad4_faces : list (list nat) := [[0; 1]; [1; 2]; [2; 3]; [3; 0]]%nat.
Definition quad9_faces : list (list nat) := [[0; 4; 1]; [1; 5; 2]; [2; 6; 3]; [3; 7; 0]]%nat.
Definition tet4_faces : list (list nat) := [[0; 2; 1]; [0; 1; 3]; [1; 2; 3]; [0; 3; 2]]%nat.
Definition tet10_faces : list (list nat) := [[0; 2; 1; 6; 5; 4]; [0; 1; 3; 4; 9; 7]; [1; 2; 3; 5; 8; 9]; [0; 3; 2; 7; 8; 6]]%nat.


Ltac points vs L := repeat (destruct vs as [|? vs]; cbn [length] in L; try discriminate L).
Ltac below I H := repeat (destruct I as [|I]; [clear H|apply (proj2 (Nat.succ_lt_mono _ _)) in H]); try (exfalso; exact (Nat.nlt_0_r _ H)).
Ltac open_flux := unfold flux, el_jacobian, el_grads, on_first, isoparametric_jacobian; cbn -[Rplus Rminus Rmult Ropp Rdiv Rinv IZR total]; unfold quad9_phi_1d, quad9_phi_grad_1d; cbv zeta.

(** * rules that integrate polynomials up to a common factor *)
Definition rule_matches (S : exps -> Prop) (over : (point -> R) -> R) (W : R) (q : list (R * point)) : Prop := forall f, Poly S f -> total q f = W * over f.
Lemma fits_weaken (S : exps -> Prop) f t a b c : Deg t a b c f -> (forall e, fits t a b c e -> S e) -> Poly S f.
Proof. intros F H. exact (Poly_weaken _ _ _ H F). Qed.
Ltac suits := let e := fresh "e" in intros e; unfold fits, total_degree, each_degree; lia.

Ltac flux_degree := open_flux; degree.
Lemma tri3_degree vs I k : (length vs = 3 -> I < 3 -> k < 2 -> Deg 0 0 0 0 (flux tri3 vs I k))%nat.
Proof. intros L H K. points vs L. below I H; below k K; flux_degree. Qed.
Lemma tri6_degree vs I k : (length vs = 6 -> I < 6 -> k < 2 -> Deg 1 1 1 0 (flux tri6 vs I k))%nat.
Proof. intros L H K. points vs L. below I H; below k K; flux_degree. Qed.
Lemma quad4_degree vs I k : (length vs = 4 -> I < 4 -> k < 2 -> Deg 2 1 1 0 (flux quad4 vs I k))%nat.
Proof. intros L H K. points vs L. below I H; below k K; flux_degree. Qed.
Lemma quad9_degree vs I k : (length vs = 9 -> I < 9 -> k < 2 -> Deg 4 2 2 0 (flux quad9 vs I k))%nat.
Proof. intros L H K. points vs L. below I H; below k K; flux_degree. Qed.
Lemma tet4_degree vs I k : (length vs = 4 -> I < 4 -> k < 3 -> Deg 0 0 0 0 (flux tet4 vs I k))%nat.
Proof. intros L H K. points vs L. below I H; below k K; flux_degree. Qed.
Lemma tet10_degree vs I k : (length vs = 10 -> I < 10 -> k < 3 -> Deg 1 1 1 1 (flux tet10 vs I k))%nat.
Proof. intros L H K. points vs L. below I H; below k K; flux_degree. Qed.

(** * the integral over a cell is the sum of the forces from its faces *)
Ltac close := unfold total, local_load, edge2_load, edge3_load, tri3_load, tri6_load, turned, cross, minus, vx; open_flux; unfold pt; cbn -[Rplus Rminus Rmult Ropp Rdiv Rinv IZR]; field.
Lemma tri3_identity vs I k : (length vs = 3)%nat -> (I < 3)%nat -> (k < 2)%nat -> total centre_triangle (flux tri3 vs I k) = local_load edge2_load tri3_faces vs I k.
Proof. intros L H K. points vs L. below I H; below k K; close. Qed.
Lemma tri6_identity vs I k : (length vs = 6)%nat -> (I < 6)%nat -> (k < 2)%nat -> total centre_triangle (flux tri6 vs I k) = local_load edge3_load tri6_faces vs I k.
Proof. intros L H K. points vs L. below I H; below k K; close. Qed.
Lemma quad4_identity vs I k : (length vs = 4)%nat -> (I < 4)%nat -> (k < 2)%nat -> total centre_square (flux quad4 vs I k) = local_load edge2_load quad4_faces vs I k.
Proof. intros L H K. points vs L. below I H; below k K; close. Qed.
Lemma quad9_identity vs I k : (length vs = 9)%nat -> (I < 9)%nat -> (k < 2)%nat -> total simpson_square (flux quad9 vs I k) = local_load edge3_load quad9_faces vs I k.
Proof. intros L H K. points vs L. below I H; below k K; close. Qed.
Lemma tet4_identity vs I k : (length vs = 4)%nat -> (I < 4)%nat -> (k < 3)%nat -> total centre_tetrahedron (flux tet4 vs I k) = local_load tri3_load tet4_faces vs I k.
Proof. intros L H K. points vs L. below I H; below k K; close. Qed.
Lemma tet10_identity vs I k : (length vs = 10)%nat -> (I < 10)%nat -> (k < 3)%nat -> total centre_tetrahedron (flux tet10 vs I k) = local_load tri6_load tet10_faces vs I k.
Proof. intros L H K. points vs L. below I H; below k K; close. Qed.

(** the integrals of a rule that matches the reference element *)
Definition cell_identity (e : element) (n : nat) (table : list (list nat)) (load : list point -> nat -> nat -> R) (S : exps -> Prop) (over : (point -> R) -> R) : Prop :=
  forall W q vs I k, rule_matches S over W q -> length vs = n -> (I < n)%nat -> (k < el_dim e)%nat -> total q (flux e vs I k) = W * local_load load table vs I k.
Ltac cell D R I := intros W q vs J k M L HJ Hk; rewrite M by (eapply fits_weaken; [apply D; assumption|suits]); f_equal; rewrite <- I by assumption; apply R; eapply fits_weaken; [apply D; assumption|suits].
Lemma tri3_cell : cell_identity tri3 3 tri3_faces edge2_load (total_degree 2 0) on_triangle.
Proof. cell tri3_degree triangle_centre tri3_identity. Qed.
Lemma tri6_cell : cell_identity tri6 6 tri6_faces edge3_load (total_degree 2 1) on_triangle.
Proof. cell tri6_degree triangle_centre tri6_identity. Qed.
Lemma quad4_cell : cell_identity quad4 4 quad4_faces edge2_load (each_degree 2 1) on_square.
Proof. cell quad4_degree square_centre quad4_identity. Qed.
Lemma quad9_cell : cell_identity quad9 9 quad9_faces edge3_load (each_degree 2 2) on_square.
Proof. cell quad9_degree square_simpson quad9_identity. Qed.
Lemma tet4_cell : cell_identity tet4 4 tet4_faces tri3_load (total_degree 3 0) on_tetrahedron.
Proof. cell tet4_degree tetrahedron_centre tet4_identity. Qed.
Lemma tet10_cell : cell_identity tet10 10 tet10_faces tri6_load (total_degree 3 1) on_tetrahedron.
Proof. cell tet10_degree tetrahedron_centre tet10_identity. Qed.

(** * reversed faces *)
(** the orders in which the neighbour lists the nodes of a face *)
Definition edge2_reversals : list (list nat) := [[1; 0]]%nat.
Definition edge3_reversals : list (list nat) := [[2; 1; 0]]%nat.
Definition tri3_reversals : list (list nat) := [[0; 2; 1]; [1; 0; 2]; [2; 1; 0]]%nat.
Definition tri6_reversals : list (list nat) := [[0; 2; 1; 5; 4; 3]; [1; 0; 2; 3; 5; 4]; [2; 1; 0; 4; 3; 5]]%nat.
Definition reverses (n d : nat) (load : list point -> nat -> nat -> R) (rev : list (list nat)) : Prop :=
  forall r, In r rev ->
    length r = n /\ (forall h, summ n (fun j => h (nth j r 0%nat)) = summ n h) /\ (forall ps j k, length ps = n -> (j < n)%nat -> (k < d)%nat -> load (map (vx ps) r) j k = - load ps (nth j r 0%nat) k) /\ (forall r', In r' rev -> ~ In (map (fun j => nth j r 0%nat) r') rev).
Ltac reversed_load := intros ps j k L Hj Hk; points ps L; below j Hj; below k Hk; unfold edge2_load, edge3_load, tri3_load, tri6_load, turned, cross, minus, vx; cbn; field.
Ltac not_reversal := intros r' Hr'; cbn [In] in Hr'; repeat (destruct Hr' as [Hr'|Hr']; [subst r'|]); try destruct Hr'; cbn; intros H; repeat (destruct H as [H|H]; [discriminate H|]); exact H.
Ltac reversal := intros r Hr; cbn [In] in Hr; repeat (destruct Hr as [Hr|Hr]; [subst r; split; [reflexivity|split; [intros h; cbn; ring|split; [reversed_load|not_reversal]]]|]); destruct Hr.
Lemma edge2_reverses : reverses 2 2 edge2_load edge2_reversals.
Proof. unfold edge2_reversals, edge3_reversals, tri3_reversals, tri6_reversals. reversal. Qed.
Lemma edge3_reverses : reverses 3 2 edge3_load edge3_reversals.
Proof. unfold edge2_reversals, edge3_reversals, tri3_reversals, tri6_reversals. reversal. Qed.
Lemma tri3_reverses : reverses 3 3 tri3_load tri3_reversals.
Proof. unfold edge2_reversals, edge3_reversals, tri3_reversals, tri6_reversals. reversal. Qed.
Lemma tri6_reverses : reverses 6 3 tri6_load tri6_reversals.
Proof. unfold edge2_reversals, edge3_reversals, tri3_reversals, tri6_reversals. reversal. Qed.

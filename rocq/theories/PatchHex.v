(** The integrals of the gradients of basis functions over a hexahedron are sums over its faces. Auxiliary to C108. *)
From Coq Require Import Reals List Arith Lia Lra QArith Qreals FunctionalExtensionality.
From Coquelicot Require Import Coquelicot.
From Verif Require Import MaterialModel ElementModel ElementSpec QuadratureModel QuadPoly QuadPolyN RuleProofs TableMoments ElementDegrees PatchCells.
Import ListNotations.
Local Open Scope R_scope.

(** * the rule of Simpson *)
Definition simpson_cube : list (R * point) := flat_map (fun a => flat_map (fun b => map (fun c => (fst a * fst b * fst c, pt [snd a; snd b; snd c])) simpson1) simpson1) simpson1.
Lemma cube_simpson f : Poly (each_degree 3 3) f -> on_cube f = total simpson_cube f.
Proof.
  apply (rule_on 3 _ _ _ _ _ cube_moments).
  - intros ((a, b), c) _ H. discriminate H.
  - intros ((a, b), c) (H & _). cbn [fst snd] in *. rewrite !mom_value.
    transitivity (total simpson1 (fun t => t ^ a) * total simpson1 (fun t => t ^ b) * total simpson1 (fun t => t ^ c)).
    { unfold total, simpson_cube, simpson1, monomial, pt. cbn. ring. }
    assert (E : forall n, (n <= 3)%nat -> total simpson1 (fun t => t ^ n) = Q2R (momQ n)) by (intros n Hn; destruct n as [|[|[|[|n]]]]; [..|lia]; unfold total, simpson1, Q2R; cbn; field).
    rewrite !E by lia. reflexivity.
Qed.

(** * the Jacobian of a trilinear map *)
(** coefficients of 1, x, y, z, xy, xz, yz, xyz *)
Definition coef (vs : list point) (i j : nat) : R :=
  let v m := vx vs m i in
  match j with
  | 0%nat => (v 0%nat + v 1%nat + v 2%nat + v 3%nat + v 4%nat + v 5%nat + v 6%nat + v 7%nat) / 8
  | 1%nat => (- v 0%nat + v 1%nat + v 2%nat - v 3%nat - v 4%nat + v 5%nat + v 6%nat - v 7%nat) / 8
  | 2%nat => (- v 0%nat - v 1%nat + v 2%nat + v 3%nat - v 4%nat - v 5%nat + v 6%nat + v 7%nat) / 8
  | 3%nat => (- v 0%nat - v 1%nat - v 2%nat - v 3%nat + v 4%nat + v 5%nat + v 6%nat + v 7%nat) / 8
  | 4%nat => (v 0%nat - v 1%nat + v 2%nat - v 3%nat + v 4%nat - v 5%nat + v 6%nat - v 7%nat) / 8
  | 5%nat => (v 0%nat - v 1%nat - v 2%nat + v 3%nat - v 4%nat + v 5%nat + v 6%nat - v 7%nat) / 8
  | 6%nat => (v 0%nat + v 1%nat - v 2%nat - v 3%nat - v 4%nat - v 5%nat + v 6%nat + v 7%nat) / 8
  | _ => (- v 0%nat + v 1%nat - v 2%nat + v 3%nat + v 4%nat - v 5%nat + v 6%nat - v 7%nat) / 8
  end.
Definition slope0 (a : nat -> R) (x : point) : R := a 1%nat + a 4%nat * x 1%nat + a 5%nat * x 2%nat + a 7%nat * x 1%nat * x 2%nat.
Definition slope1 (a : nat -> R) (x : point) : R := a 2%nat + a 4%nat * x 0%nat + a 6%nat * x 2%nat + a 7%nat * x 0%nat * x 2%nat.
Definition slope2 (a : nat -> R) (x : point) : R := a 3%nat + a 5%nat * x 0%nat + a 6%nat * x 1%nat + a 7%nat * x 0%nat * x 1%nat.
Lemma hex_slopes vs x i : (8 <= length vs)%nat -> let J := on_first 8 (isoparametric_jacobian hex8_grads) vs x in J i 0%nat = slope0 (coef vs i) x /\ J i 1%nat = slope1 (coef vs i) x /\ J i 2%nat = slope2 (coef vs i) x.
Proof.
  intros L. do 8 (destruct vs as [|? vs]; cbn [length] in L; [lia|]). clear L. cbv zeta. unfold on_first, isoparametric_jacobian, slope0, slope1, slope2, coef, vx. cbn [firstn hex8_grads map combine nth hex8_phi_grad]. cbv zeta. unfold phi_linear_1d_grad, phi_linear_1d.
  repeat split; field.
Qed.
Definition corner (a : nat -> R) (m : nat) : R :=
  match m with
  | 0%nat => a 0%nat - a 1%nat - a 2%nat - a 3%nat + a 4%nat + a 5%nat + a 6%nat - a 7%nat
  | 1%nat => a 0%nat + a 1%nat - a 2%nat - a 3%nat - a 4%nat - a 5%nat + a 6%nat + a 7%nat
  | 2%nat => a 0%nat + a 1%nat + a 2%nat - a 3%nat + a 4%nat - a 5%nat - a 6%nat - a 7%nat
  | 3%nat => a 0%nat - a 1%nat + a 2%nat - a 3%nat - a 4%nat + a 5%nat - a 6%nat + a 7%nat
  | 4%nat => a 0%nat - a 1%nat - a 2%nat + a 3%nat + a 4%nat - a 5%nat - a 6%nat + a 7%nat
  | 5%nat => a 0%nat + a 1%nat - a 2%nat + a 3%nat - a 4%nat + a 5%nat - a 6%nat - a 7%nat
  | 6%nat => a 0%nat + a 1%nat + a 2%nat + a 3%nat + a 4%nat + a 5%nat + a 6%nat + a 7%nat
  | _ => a 0%nat - a 1%nat + a 2%nat + a 3%nat - a 4%nat - a 5%nat + a 6%nat - a 7%nat
  end.
Lemma corner_coef vs i m : (m < 8)%nat -> vx vs m i = corner (coef vs i) m.
Proof. intros H. below m H; unfold corner, coef; field. Qed.
Definition trilinear_flux (a b : nat -> R) (g : list R) (x : point) : R :=
  (slope1 a x * slope2 b x - slope2 a x * slope1 b x) * nth 0 g 0 + (slope2 a x * slope0 b x - slope0 a x * slope2 b x) * nth 1 g 0 + (slope0 a x * slope1 b x - slope1 a x * slope0 b x) * nth 2 g 0.
Definition hex_like (e : element) (n : nat) : Prop := el_dim e = 3%nat /\ (8 <= n)%nat /\ forall vs x, length vs = n -> el_jacobian e vs x = on_first 8 (isoparametric_jacobian hex8_grads) vs x.
Lemma hex_flux e n vs I k x : hex_like e n -> length vs = n -> (k < 3)%nat -> flux e vs I k x = trilinear_flux (coef vs ((k + 1) mod 3)) (coef vs ((k + 2) mod 3)) (nth I (el_grads e x) []) x.
Proof.
  intros (D & N & J) L' K. assert (L : (8 <= length vs)%nat) by lia. unfold flux. rewrite D, J by exact L'. destruct (hex_slopes vs x ((k + 1) mod 3) L) as (A0 & A1 & A2). destruct (hex_slopes vs x ((k + 2) mod 3) L) as (B0 & B1 & B2). unfold trilinear_flux. rewrite <- A0, <- A1, <- A2, <- B0, <- B1, <- B2. cbn [summ]. 
  unfold adjugate. change ((0 + 1) mod 3)%nat with 1%nat. change ((0 + 2) mod 3)%nat with 2%nat. change ((1 + 1) mod 3)%nat with 2%nat. change ((1 + 2) mod 3)%nat with 0%nat. change ((2 + 1) mod 3)%nat with 0%nat. change ((2 + 2) mod 3)%nat with 1%nat. ring.
Qed.

(** * forces on the nodes of a quadrilateral face *)
(** the coefficients of u, v, uv of the bilinear map of the face *)
Definition part1 (f : nat -> R) : R := (- f 0%nat + f 1%nat + f 2%nat - f 3%nat) / 4.
Definition part2 (f : nat -> R) : R := (- f 0%nat - f 1%nat + f 2%nat + f 3%nat) / 4.
Definition part3 (f : nat -> R) : R := (f 0%nat - f 1%nat + f 2%nat - f 3%nat) / 4.
(** [c]: the integrals of the basis function of a node of the face, and of its products with u and v *)
Definition face_load (c : list R) (f g : nat -> R) : R :=
  nth 0 c 0 * (part1 f * part2 g - part2 f * part1 g) + nth 1 c 0 * (part1 f * part3 g - part3 f * part1 g) + nth 2 c 0 * (part3 f * part2 g - part2 f * part3 g).
Definition quad_load (cs : list (list R)) (ps : list point) (j k : nat) : R := face_load (nth j cs []) (fun m => vx ps m ((k + 1) mod 3)%nat) (fun m => vx ps m ((k + 2) mod 3)%nat).
Definition quad4_moments : list (list R) := [[1; -1/3; -1/3]; [1; 1/3; -1/3]; [1; 1/3; 1/3]; [1; -1/3; 1/3]].
Definition quad8_moments : list (list R) := [[-1/3; -1/9; -1/9]; [-1/3; 1/9; -1/9]; [-1/3; 1/9; 1/9]; [-1/3; -1/9; 1/9]; [4/3; 0; -4/9]; [4/3; 4/9; 0]; [4/3; 0; 4/9]; [4/3; -4/9; 0]].
Definition quad9_moments : list (list R) := [[1/9; -1/9; -1/9]; [1/9; 1/9; -1/9]; [1/9; 1/9; 1/9]; [1/9; -1/9; 1/9]; [4/9; 0; -4/9]; [4/9; 4/9; 0]; [4/9; 0; 4/9]; [4/9; -4/9; 0]; [16/9; 0; 0]].
Definition hex8_faces : list (list nat) := [[3; 2; 1; 0]; [0; 1; 5; 4]; [1; 2; 6; 5]; [2; 3; 7; 6]; [4; 7; 3; 0]; [5; 6; 7; 4]]%nat.
Definition hex20_faces : list (list nat) :=
  [[0; 3; 2; 1; 9; 13; 11; 8]; [0; 1; 5; 4; 8; 12; 16; 10]; [1; 2; 6; 5; 11; 14; 18; 12]; [2; 3; 7; 6; 13; 15; 19; 14]; [0; 4; 7; 3; 10; 17; 15; 9]; [4; 5; 6; 7; 16; 18; 19; 17]]%nat.
Definition hex27_faces : list (list nat) :=
  [[0; 3; 2; 1; 9; 13; 11; 8; 20]; [0; 1; 5; 4; 8; 12; 16; 10; 21]; [1; 2; 6; 5; 11; 14; 18; 12; 23]; [2; 3; 7; 6; 13; 15; 19; 14; 24]; [0; 4; 7; 3; 10; 17; 15; 9; 22]; [4; 5; 6; 7; 16; 18; 19; 17; 25]]%nat.
Definition pick (t : list nat) (m : nat) : nat := nth m t 0%nat.
(** the forces from all faces, in terms of the coefficients of the map *)
Definition trilinear_load (cs : list (list R)) (table : list (list nat)) (a b : nat -> R) (I : nat) : R :=
  summ (length table) (fun l => summ (length (nth l table [])) (fun j => if (nth j (nth l table []) 0 =? I)%nat then face_load (nth j cs []) (fun m => corner a (pick (nth l table []) m)) (fun m => corner b (pick (nth l table []) m)) else 0)).
Definition rule_flux (e : element) (a b : nat -> R) (I : nat) : R := total simpson_cube (fun x => trilinear_flux a b (nth I (el_grads e x) []) x).

(** * products of functions of one variable *)
Definition mo (f : R -> R) (r : nat) : R := total simpson1 (fun t => t ^ r * f t).
Lemma total_product f g h : total simpson_cube (fun x => f (x 0%nat) * g (x 1%nat) * h (x 2%nat)) = total simpson1 f * total simpson1 g * total simpson1 h.
Proof. unfold total, simpson_cube, simpson1, pt, sum. cbn -[Rplus Rminus Rmult Ropp Rdiv Rinv IZR]. ring. Qed.
Lemma total_moments F G H p q r : total simpson_cube (fun x => x 0%nat ^ p * F (x 0%nat) * (x 1%nat ^ q * G (x 1%nat)) * (x 2%nat ^ r * H (x 2%nat))) = mo F p * mo G q * mo H r.
Proof. exact (total_product (fun t => t ^ p * F t) (fun t => t ^ q * G t) (fun t => t ^ r * H t)). Qed.
Definition br (a b : nat -> R) (i j : nat) : R := a i * b j - a j * b i.
Definition tensor_grad (F F' G G' H H' : R -> R) (x : point) : list R := [F' (x 0%nat) * G (x 1%nat) * H (x 2%nat); F (x 0%nat) * G' (x 1%nat) * H (x 2%nat); F (x 0%nat) * G (x 1%nat) * H' (x 2%nat)].
Definition tensor_value (F F' G G' H H' : R -> R) (a b : nat -> R) : R :=
  (br a b 2 3) * (mo F' 0 * mo G 0 * mo H 0) + (br a b 2 5 + br a b 4 3) * (mo F' 1 * mo G 0 * mo H 0) + (br a b 2 6) * (mo F' 0 * mo G 1 * mo H 0) + (br a b 6 3) * (mo F' 0 * mo G 0 * mo H 1) + (br a b 4 5) * (mo F' 2 * mo G 0 * mo H 0) + (br a b 2 7 + br a b 4 6) * (mo F' 1 * mo G 1 * mo H 0) + (br a b 6 5 + br a b 7 3) * (mo F' 1 * mo G 0 * mo H 1) + (br a b 4 7) * (mo F' 2 * mo G 1 * mo H 0) + (br a b 7 5) * (mo F' 2 * mo G 0 * mo H 1) + (br a b 3 1) * (mo F 0 * mo G' 0 * mo H 0) + (br a b 5 1) * (mo F 1 * mo G' 0 * mo H 0) + (br a b 3 4 + br a b 6 1) * (mo F 0 * mo G' 1 * mo H 0) + (br a b 3 5) * (mo F 0 * mo G' 0 * mo H 1) + (br a b 5 4 + br a b 7 1) * (mo F 1 * mo G' 1 * mo H 0) + (br a b 3 7 + br a b 6 5) * (mo F 0 * mo G' 1 * mo H 1) + (br a b 6 4) * (mo F 0 * mo G' 2 * mo H 0) + (br a b 7 4) * (mo F 1 * mo G' 2 * mo H 0) + (br a b 6 7) * (mo F 0 * mo G' 2 * mo H 1) + (br a b 1 2) * (mo F 0 * mo G 0 * mo H' 0) + (br a b 1 4) * (mo F 1 * mo G 0 * mo H' 0) + (br a b 4 2) * (mo F 0 * mo G 1 * mo H' 0) + (br a b 1 6 + br a b 5 2) * (mo F 0 * mo G 0 * mo H' 1) + (br a b 1 7 + br a b 5 4) * (mo F 1 * mo G 0 * mo H' 1) + (br a b 4 6 + br a b 7 2) * (mo F 0 * mo G 1 * mo H' 1) + (br a b 5 6) * (mo F 0 * mo G 0 * mo H' 2) + (br a b 5 7) * (mo F 1 * mo G 0 * mo H' 2) + (br a b 7 6) * (mo F 0 * mo G 1 * mo H' 2).
Lemma tensor_flux F F' G G' H H' a b : total simpson_cube (fun x => trilinear_flux a b (tensor_grad F F' G G' H H' x) x) = tensor_value F F' G G' H H' a b.
Proof.
  assert (E : (fun x => trilinear_flux a b (tensor_grad F F' G G' H H' x) x) = (fun x => (br a b 2 3) * (x 0%nat ^ 0 * F' (x 0%nat) * (x 1%nat ^ 0 * G (x 1%nat)) * (x 2%nat ^ 0 * H (x 2%nat))) + (br a b 2 5 + br a b 4 3) * (x 0%nat ^ 1 * F' (x 0%nat) * (x 1%nat ^ 0 * G (x 1%nat)) * (x 2%nat ^ 0 * H (x 2%nat))) + (br a b 2 6) * (x 0%nat ^ 0 * F' (x 0%nat) * (x 1%nat ^ 1 * G (x 1%nat)) * (x 2%nat ^ 0 * H (x 2%nat))) + (br a b 6 3) * (x 0%nat ^ 0 * F' (x 0%nat) * (x 1%nat ^ 0 * G (x 1%nat)) * (x 2%nat ^ 1 * H (x 2%nat))) + (br a b 4 5) * (x 0%nat ^ 2 * F' (x 0%nat) * (x 1%nat ^ 0 * G (x 1%nat)) * (x 2%nat ^ 0 * H (x 2%nat))) + (br a b 2 7 + br a b 4 6) * (x 0%nat ^ 1 * F' (x 0%nat) * (x 1%nat ^ 1 * G (x 1%nat)) * (x 2%nat ^ 0 * H (x 2%nat))) + (br a b 6 5 + br a b 7 3) * (x 0%nat ^ 1 * F' (x 0%nat) * (x 1%nat ^ 0 * G (x 1%nat)) * (x 2%nat ^ 1 * H (x 2%nat))) + (br a b 4 7) * (x 0%nat ^ 2 * F' (x 0%nat) * (x 1%nat ^ 1 * G (x 1%nat)) * (x 2%nat ^ 0 * H (x 2%nat))) + (br a b 7 5) * (x 0%nat ^ 2 * F' (x 0%nat) * (x 1%nat ^ 0 * G (x 1%nat)) * (x 2%nat ^ 1 * H (x 2%nat))) + (br a b 3 1) * (x 0%nat ^ 0 * F (x 0%nat) * (x 1%nat ^ 0 * G' (x 1%nat)) * (x 2%nat ^ 0 * H (x 2%nat))) + (br a b 5 1) * (x 0%nat ^ 1 * F (x 0%nat) * (x 1%nat ^ 0 * G' (x 1%nat)) * (x 2%nat ^ 0 * H (x 2%nat))) + (br a b 3 4 + br a b 6 1) * (x 0%nat ^ 0 * F (x 0%nat) * (x 1%nat ^ 1 * G' (x 1%nat)) * (x 2%nat ^ 0 * H (x 2%nat))) + (br a b 3 5) * (x 0%nat ^ 0 * F (x 0%nat) * (x 1%nat ^ 0 * G' (x 1%nat)) * (x 2%nat ^ 1 * H (x 2%nat))) + (br a b 5 4 + br a b 7 1) * (x 0%nat ^ 1 * F (x 0%nat) * (x 1%nat ^ 1 * G' (x 1%nat)) * (x 2%nat ^ 0 * H (x 2%nat))) + (br a b 3 7 + br a b 6 5) * (x 0%nat ^ 0 * F (x 0%nat) * (x 1%nat ^ 1 * G' (x 1%nat)) * (x 2%nat ^ 1 * H (x 2%nat))) + (br a b 6 4) * (x 0%nat ^ 0 * F (x 0%nat) * (x 1%nat ^ 2 * G' (x 1%nat)) * (x 2%nat ^ 0 * H (x 2%nat))) + (br a b 7 4) * (x 0%nat ^ 1 * F (x 0%nat) * (x 1%nat ^ 2 * G' (x 1%nat)) * (x 2%nat ^ 0 * H (x 2%nat))) + (br a b 6 7) * (x 0%nat ^ 0 * F (x 0%nat) * (x 1%nat ^ 2 * G' (x 1%nat)) * (x 2%nat ^ 1 * H (x 2%nat))) + (br a b 1 2) * (x 0%nat ^ 0 * F (x 0%nat) * (x 1%nat ^ 0 * G (x 1%nat)) * (x 2%nat ^ 0 * H' (x 2%nat))) + (br a b 1 4) * (x 0%nat ^ 1 * F (x 0%nat) * (x 1%nat ^ 0 * G (x 1%nat)) * (x 2%nat ^ 0 * H' (x 2%nat))) + (br a b 4 2) * (x 0%nat ^ 0 * F (x 0%nat) * (x 1%nat ^ 1 * G (x 1%nat)) * (x 2%nat ^ 0 * H' (x 2%nat))) + (br a b 1 6 + br a b 5 2) * (x 0%nat ^ 0 * F (x 0%nat) * (x 1%nat ^ 0 * G (x 1%nat)) * (x 2%nat ^ 1 * H' (x 2%nat))) + (br a b 1 7 + br a b 5 4) * (x 0%nat ^ 1 * F (x 0%nat) * (x 1%nat ^ 0 * G (x 1%nat)) * (x 2%nat ^ 1 * H' (x 2%nat))) + (br a b 4 6 + br a b 7 2) * (x 0%nat ^ 0 * F (x 0%nat) * (x 1%nat ^ 1 * G (x 1%nat)) * (x 2%nat ^ 1 * H' (x 2%nat))) + (br a b 5 6) * (x 0%nat ^ 0 * F (x 0%nat) * (x 1%nat ^ 0 * G (x 1%nat)) * (x 2%nat ^ 2 * H' (x 2%nat))) + (br a b 5 7) * (x 0%nat ^ 1 * F (x 0%nat) * (x 1%nat ^ 0 * G (x 1%nat)) * (x 2%nat ^ 2 * H' (x 2%nat))) + (br a b 7 6) * (x 0%nat ^ 0 * F (x 0%nat) * (x 1%nat ^ 1 * G (x 1%nat)) * (x 2%nat ^ 2 * H' (x 2%nat))))).
  { apply functional_extensionality. intros x. unfold trilinear_flux, tensor_grad, slope0, slope1, slope2, br. cbn [nth]. ring. }
  rewrite E. clear E. rewrite !total_plus_fun, !total_scale_fun.
  rewrite !total_moments. reflexivity.
Qed.

Definition line_fun (alpha t : R) : R := 1 + alpha * t.
Definition line_fun' (alpha t : R) : R := alpha.
Definition slant (alpha t : R) : R := alpha * t * (1 + alpha * t).
Definition slant' (alpha t : R) : R := alpha + 2 * alpha * alpha * t.
Definition linear' (alpha t : R) : R := phi_linear_1d_grad alpha.
Ltac moment_value := unfold mo, total, simpson1, sum, line_fun, line_fun', slant, slant', linear', phi_linear_1d, phi_linear_1d_grad, phi_quadratic_1d, phi_quadratic_1d_grad, bubble, bubble'; cbn -[Rplus Rminus Rmult Ropp Rdiv Rinv IZR]; cbv zeta; repeat split; field.
Lemma linear_moments alpha : mo (phi_linear_1d alpha) 0 = 1 /\ mo (phi_linear_1d alpha) 1 = alpha / 3 /\ mo (linear' alpha) 0 = alpha /\ mo (linear' alpha) 1 = 0 /\ mo (linear' alpha) 2 = alpha / 3.
Proof. moment_value. Qed.
Lemma quadratic_moments alpha : mo (phi_quadratic_1d alpha) 0 = 4 / 3 - alpha * alpha /\ mo (phi_quadratic_1d alpha) 1 = alpha / 3 /\
  mo (phi_quadratic_1d_grad alpha) 0 = alpha /\ mo (phi_quadratic_1d_grad alpha) 1 = 2 * alpha * alpha - 4 / 3 /\ mo (phi_quadratic_1d_grad alpha) 2 = alpha / 3.
Proof. moment_value. Qed.
Lemma line_moments alpha : mo (line_fun alpha) 0 = 2 /\ mo (line_fun alpha) 1 = 2 * alpha / 3 /\ mo (line_fun' alpha) 0 = 2 * alpha /\ mo (line_fun' alpha) 1 = 0 /\ mo (line_fun' alpha) 2 = 2 * alpha / 3.
Proof. moment_value. Qed.
Lemma slant_moments alpha : mo (slant alpha) 0 = 2 * alpha * alpha / 3 /\ mo (slant alpha) 1 = 2 * alpha / 3 /\ mo (slant' alpha) 0 = 2 * alpha /\ mo (slant' alpha) 1 = 4 * alpha * alpha / 3 /\ mo (slant' alpha) 2 = 2 * alpha / 3.
Proof. moment_value. Qed.
Lemma bubble_moments alpha : mo (bubble alpha) 0 = (2 * alpha * alpha + 4) / 3 /\ mo (bubble alpha) 1 = 2 * alpha * alpha * alpha / 3 /\
  mo (bubble' alpha) 0 = 2 * alpha * alpha * alpha /\ mo (bubble' alpha) 1 = -4 * (1 - alpha * alpha) / 3 /\ mo (bubble' alpha) 2 = (-4 * alpha * (1 - alpha * alpha) + 2 * alpha * alpha * alpha) / 3.
Proof. moment_value. Qed.

(** * basis functions as sums of products *)
Lemma hex8_product x al be ga : hex8_phi_grad x al be ga = tensor_grad (phi_linear_1d al) (linear' al) (phi_linear_1d be) (linear' be) (phi_linear_1d ga) (linear' ga) x.
Proof. reflexivity. Qed.
Lemma hex27_product x al be ga : hex27_phi_grad x al be ga = tensor_grad (phi_quadratic_1d al) (phi_quadratic_1d_grad al) (phi_quadratic_1d be) (phi_quadratic_1d_grad be) (phi_quadratic_1d ga) (phi_quadratic_1d_grad ga) x.
Proof. reflexivity. Qed.
Definition hex8_value al be ga := tensor_value (phi_linear_1d al) (linear' al) (phi_linear_1d be) (linear' be) (phi_linear_1d ga) (linear' ga).
Definition hex27_value al be ga := tensor_value (phi_quadratic_1d al) (phi_quadratic_1d_grad al) (phi_quadratic_1d be) (phi_quadratic_1d_grad be) (phi_quadratic_1d ga) (phi_quadratic_1d_grad ga).
Definition edge_value al be ga a b := 1 / 4 * tensor_value (bubble al) (bubble' al) (bubble be) (bubble' be) (bubble ga) (bubble' ga) a b.
Definition corner_value al be ga a b :=
  1 / 8 * (tensor_value (slant al) (slant' al) (line_fun be) (line_fun' be) (line_fun ga) (line_fun' ga) a b + tensor_value (line_fun al) (line_fun' al) (slant be) (slant' be) (line_fun ga) (line_fun' ga) a b
    + tensor_value (line_fun al) (line_fun' al) (line_fun be) (line_fun' be) (slant ga) (slant' ga) a b + -2 * tensor_value (line_fun al) (line_fun' al) (line_fun be) (line_fun' be) (line_fun ga) (line_fun' ga) a b).
Lemma hex8_flux al be ga a b : total simpson_cube (fun x => trilinear_flux a b (hex8_phi_grad x al be ga) x) = hex8_value al be ga a b.
Proof. exact (tensor_flux (phi_linear_1d al) (linear' al) (phi_linear_1d be) (linear' be) (phi_linear_1d ga) (linear' ga) a b). Qed.
Lemma hex27_flux al be ga a b : total simpson_cube (fun x => trilinear_flux a b (hex27_phi_grad x al be ga) x) = hex27_value al be ga a b.
Proof. exact (tensor_flux (phi_quadratic_1d al) (phi_quadratic_1d_grad al) (phi_quadratic_1d be) (phi_quadratic_1d_grad be) (phi_quadratic_1d ga) (phi_quadratic_1d_grad ga) a b). Qed.
Lemma edge_flux al be ga a b : total simpson_cube (fun x => trilinear_flux a b (hex20_phi_grad_edge x al be ga) x) = edge_value al be ga a b.
Proof.
  unfold edge_value. rewrite <- tensor_flux, <- total_scale_fun. f_equal. apply functional_extensionality. intros x. rewrite hex20_edge_gradient. unfold trilinear_flux, tensor_grad. cbn [nth]. ring.
Qed.
Lemma corner_flux al be ga a b : total simpson_cube (fun x => trilinear_flux a b (hex20_phi_grad_corner x al be ga) x) = corner_value al be ga a b.
Proof.
  unfold corner_value. rewrite <- !tensor_flux, <- total_scale_fun, <- !total_plus_fun, <- total_scale_fun. f_equal. apply functional_extensionality. intros x.
  unfold hex20_phi_grad_corner, trilinear_flux, tensor_grad, line_fun, line_fun', slant, slant'. cbv zeta. cbn [nth]. generalize (slope0 a x) (slope1 a x) (slope2 a x) (slope0 b x) (slope1 b x) (slope2 b x). intros. ring.
Qed.

(** * the faces of a hexahedron *)
(** the parts of the maps of the faces, in terms of the coefficients of the cell *)
Definition linear_part1 (l : nat) (a : nat -> R) : R := match l with 0%nat => a 1%nat - a 5%nat | 1%nat => a 1%nat - a 4%nat | 2%nat => a 2%nat + a 4%nat | 3%nat => - a 1%nat - a 4%nat | 4%nat => a 2%nat - a 4%nat | _ => a 2%nat + a 6%nat end.
Definition linear_part2 (l : nat) (a : nat -> R) : R := match l with 0%nat => - a 2%nat + a 6%nat | 1%nat => a 3%nat - a 6%nat | 2%nat => a 3%nat + a 5%nat | 3%nat => a 3%nat + a 6%nat | 4%nat => - a 3%nat + a 5%nat | _ => - a 1%nat - a 5%nat end.
Definition linear_part3 (l : nat) (a : nat -> R) : R := match l with 0%nat => - a 4%nat + a 7%nat | 1%nat => a 5%nat - a 7%nat | 2%nat => a 6%nat + a 7%nat | 3%nat => - a 5%nat - a 7%nat | 4%nat => - a 6%nat + a 7%nat | _ => - a 4%nat - a 7%nat end.
Definition quadratic_part1 (l : nat) (a : nat -> R) : R := match l with 0%nat => a 2%nat - a 6%nat | 1%nat => a 1%nat - a 4%nat | 2%nat => a 2%nat + a 4%nat | 3%nat => - a 1%nat - a 4%nat | 4%nat => a 3%nat - a 5%nat | _ => a 1%nat + a 5%nat end.
Definition quadratic_part2 (l : nat) (a : nat -> R) : R := match l with 0%nat => a 1%nat - a 5%nat | 1%nat => a 3%nat - a 6%nat | 2%nat => a 3%nat + a 5%nat | 3%nat => a 3%nat + a 6%nat | 4%nat => a 2%nat - a 4%nat | _ => a 2%nat + a 6%nat end.
Definition quadratic_part3 (l : nat) (a : nat -> R) : R := match l with 0%nat => a 4%nat - a 7%nat | 1%nat => a 5%nat - a 7%nat | 2%nat => a 6%nat + a 7%nat | 3%nat => - a 5%nat - a 7%nat | 4%nat => a 6%nat - a 7%nat | _ => a 4%nat + a 7%nat end.
Definition load_of (q1 q2 q3 : nat -> (nat -> R) -> R) (cs : list (list R)) (table : list (list nat)) (a b : nat -> R) (I : nat) : R :=
  summ (length table) (fun l => summ (length (nth l table [])) (fun j => if (nth j (nth l table []) 0 =? I)%nat then
    let c := nth j cs [] in nth 0 c 0 * (q1 l a * q2 l b - q2 l a * q1 l b) + nth 1 c 0 * (q1 l a * q3 l b - q3 l a * q1 l b) + nth 2 c 0 * (q3 l a * q2 l b - q2 l a * q3 l b) else 0)).
Definition parts_are (table : list (list nat)) (q1 q2 q3 : nat -> (nat -> R) -> R) : Prop :=
  forall l a, (l < length table)%nat -> let f := fun m => corner a (pick (nth l table []) m) in part1 f = q1 l a /\ part2 f = q2 l a /\ part3 f = q3 l a.
Ltac check_parts := intros l a H; cbn in H; below l H; cbv zeta; unfold part1, part2, part3, pick; cbn [nth hex8_faces hex20_faces hex27_faces corner linear_part1 linear_part2 linear_part3 quadratic_part1 quadratic_part2 quadratic_part3]; repeat split; field.
Lemma hex8_parts : parts_are hex8_faces linear_part1 linear_part2 linear_part3.
Proof. check_parts. Qed.
Lemma hex20_parts : parts_are hex20_faces quadratic_part1 quadratic_part2 quadratic_part3.
Proof. check_parts. Qed.
Lemma hex27_parts : parts_are hex27_faces quadratic_part1 quadratic_part2 quadratic_part3.
Proof. check_parts. Qed.
Lemma summ_congr n f g : (forall k, (k < n)%nat -> f k = g k) -> summ n f = summ n g.
Proof. intros H. induction n as [|n IH]; cbn [summ]; [reflexivity|]. rewrite IH by (intros; apply H; lia). rewrite H by lia. reflexivity. Qed.
Lemma load_parts table q1 q2 q3 cs a b I : parts_are table q1 q2 q3 -> trilinear_load cs table a b I = load_of q1 q2 q3 cs table a b I.
Proof.
  intros H. unfold trilinear_load, load_of. apply summ_congr. intros l Hl. destruct (H l a Hl) as (A1 & A2 & A3). destruct (H l b Hl) as (B1 & B2 & B3).
  apply summ_congr. intros j _. destruct (_ =? I)%nat; [|reflexivity]. unfold face_load. cbv zeta. rewrite A1, A2, A3, B1, B2, B3. reflexivity.
Qed.

Ltac moments_of L r := let H0 := fresh in let H1 := fresh in let H2 := fresh in let H3 := fresh in let H4 := fresh in destruct (L r) as (H0 & H1 & H2 & H3 & H4); rewrite ?H0, ?H1, ?H2, ?H3, ?H4; clear H0 H1 H2 H3 H4.
Ltac all_moments L := moments_of L (-1); moments_of L 1; moments_of L 0.
Ltac loads := unfold load_of; cbn [length hex8_faces hex20_faces hex27_faces nth summ Nat.eqb linear_part1 linear_part2 linear_part3 quadratic_part1 quadratic_part2 quadratic_part3 quad4_moments quad8_moments quad9_moments]; unfold br.
Lemma hex8_identity a b I : (I < 8)%nat -> rule_flux hex8 a b I = trilinear_load quad4_moments hex8_faces a b I.
Proof.
  intros H. rewrite (load_parts _ _ _ _ _ _ _ _ hex8_parts). below I H; unfold rule_flux; cbn [el_grads hex8 hex8_grads nth]; rewrite hex8_flux; unfold hex8_value, tensor_value; all_moments linear_moments; loads; lra.
Qed.
Lemma hex27_identity a b I : (I < 27)%nat -> rule_flux hex27 a b I = trilinear_load quad9_moments hex27_faces a b I.
Proof.
  intros H. rewrite (load_parts _ _ _ _ _ _ _ _ hex27_parts). below I H; unfold rule_flux; cbn [el_grads hex27 hex27_grads nth]; rewrite hex27_flux; unfold hex27_value, tensor_value; all_moments quadratic_moments; loads; lra.
Qed.
Lemma hex20_identity a b I : (I < 20)%nat -> rule_flux hex20 a b I = trilinear_load quad8_moments hex20_faces a b I.
Proof.
  intros H. rewrite (load_parts _ _ _ _ _ _ _ _ hex20_parts). below I H; unfold rule_flux; cbn [el_grads hex20 hex20_grads nth];
    first [rewrite corner_flux; unfold corner_value, tensor_value; all_moments line_moments; all_moments slant_moments|rewrite edge_flux; unfold edge_value, tensor_value; all_moments bubble_moments]; loads; lra.
Qed.

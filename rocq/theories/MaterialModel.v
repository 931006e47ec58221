(** Model of fenris-solid: hyperelastic materials, the logarithm of the determinant, batch contractions and the elliptic operator of a material.
    Exact reals instead of floats. Matrices are functions of row and column; only indices below the dimension [d] count.
    [determinant] and [try_inverse] are nalgebra's; they are modelled by the explicit formulas in dimensions 1, 2 and 3, the dimensions [PhysicalDim] allows
    (lib.rs:505-530). Infinite energies and matrices of NaNs are [None]. *)
From Coq Require Import Reals List Arith.
Import ListNotations.
Open Scope R_scope.

Local Notation vec := (nat -> R).
Local Notation mat := (nat -> nat -> R).

(** ** nalgebra *)
Fixpoint summ (n : nat) (f : nat -> R) : R := match n with O => 0 | S m => summ m f + f m end.
Definition eye : mat := fun i j => if (i =? j)%nat then 1 else 0.
Definition transpose (A : mat) : mat := fun i j => A j i.
Definition madd (A B : mat) : mat := fun i j => A i j + B i j.
Definition msub (A B : mat) : mat := fun i j => A i j - B i j.
Definition mscale (A : mat) (s : R) : mat := fun i j => A i j * s.
Definition mmul (d : nat) (A B : mat) : mat := fun i j => summ d (fun k => A i k * B k j).
Definition mulv (d : nat) (A : mat) (x : vec) : vec := fun i => summ d (fun k => A i k * x k).
Definition outer (x y : vec) : mat := fun i j => x i * y j.
Definition vdot (d : nat) (x y : vec) : R := summ d (fun k => x k * y k).
Definition mdot (d : nat) (A B : mat) : R := summ d (fun j => summ d (fun i => A i j * B i j)).
Definition trace (d : nat) (A : mat) : R := summ d (fun i => A i i).
Definition symmetric_part (A : mat) : mat := fun i j => (A i j + A j i) / 2.
Definition determinant (d : nat) (F : mat) : R :=
  match d with
  | 1%nat => F 0%nat 0%nat
  | 2%nat => F 0%nat 0%nat * F 1%nat 1%nat - F 1%nat 0%nat * F 0%nat 1%nat
  | 3%nat => F 0%nat 0%nat * (F 1%nat 1%nat * F 2%nat 2%nat - F 2%nat 1%nat * F 1%nat 2%nat)
             - F 0%nat 1%nat * (F 1%nat 0%nat * F 2%nat 2%nat - F 2%nat 0%nat * F 1%nat 2%nat)
             + F 0%nat 2%nat * (F 1%nat 0%nat * F 2%nat 1%nat - F 2%nat 0%nat * F 1%nat 1%nat)
  | _ => 0
  end.
(** the adjugate: the transposed matrix of cofactors *)
Definition adjugate (d : nat) (F : mat) : mat := fun i j =>
  match d with
  | 1%nat => 1
  | 2%nat => (if (i =? j)%nat then 1 else -1) * F (1 - j)%nat (1 - i)%nat
  | 3%nat => F ((j + 1) mod 3)%nat ((i + 1) mod 3)%nat * F ((j + 2) mod 3)%nat ((i + 2) mod 3)%nat
             - F ((j + 1) mod 3)%nat ((i + 2) mod 3)%nat * F ((j + 2) mod 3)%nat ((i + 1) mod 3)%nat
  | _ => 0
  end.
Definition try_inverse (d : nat) (F : mat) : option mat :=
  if Req_EM_T (determinant d F) 0 then None else Some (fun i j => adjugate d F i j / determinant d F).

(** ** logdet.rs *)
(** logdet.rs:35-53 *)
Definition log_det_F_2d (u : mat) : option R :=
  let u11 := u 0%nat 0%nat in let u22 := u 1%nat 1%nat in let b := u 0%nat 1%nat in let c := u 1%nat 0%nat in
  let gamma := u11 * u22 + u11 + u22 - b * c in
  if Rlt_dec (-1) gamma then Some (ln (1 + gamma)) else None.
(** logdet.rs:55-86 *)
Definition log_det_F_3d (u : mat) : option R :=
  let u11 := u 0%nat 0%nat in let u22 := u 1%nat 1%nat in let u33 := u 2%nat 2%nat in
  let a := 1 + u11 in let e := 1 + u22 in let i := 1 + u33 in
  let b := u 0%nat 1%nat in let c := u 0%nat 2%nat in let d := u 1%nat 0%nat in let f := u 1%nat 2%nat in let g := u 2%nat 0%nat in let h := u 2%nat 1%nat in
  let gamma := u11 * u22 * u33 + u11 * u22 + u11 * u33 + u22 * u33 + u11 + u22 + u33 + b * f * g + c * d * h - c * e * g - b * d * i - a * f * h in
  if Rlt_dec (-1) gamma then Some (ln (1 + gamma)) else None.
(** logdet.rs:17-33; in 1D the entry itself is taken *)
Definition log_det_F (d : nat) (u : mat) : option R :=
  match d with
  | 1%nat => let det := u 0%nat 0%nat in if Rlt_dec 0 det then Some (ln det) else None
  | 2%nat => log_det_F_2d u
  | 3%nat => log_det_F_3d u
  | _ => None
  end.

(** ** lib.rs:19-41 *)
Definition deformation_gradient (u_grad : mat) : mat := madd eye (transpose u_grad).
Definition u_grad_from_F (F : mat) : mat := transpose (msub F eye).

(** ** materials.rs *)
(** materials.rs:36-42 *)
Definition lame_from_young_poisson (young poisson : R) : R * R :=
  let mu := 1/2 * young / (1 + poisson) in
  let lambda := 2 * mu * poisson / (1 - 2 * poisson) in
  (mu, lambda).

(** linear elasticity, materials.rs:70-122 *)
Definition infinitesimal_strain (F : mat) : mat := msub (symmetric_part F) eye.
Definition le_energy (d : nat) (mu lambda : R) (F : mat) : R :=
  let eps := infinitesimal_strain F in mu * mdot d eps eps + 1/2 * lambda * (trace d eps) ^ 2.
Definition le_stress (d : nat) (mu lambda : R) (F : mat) : mat :=
  let eps := infinitesimal_strain F in
  let eps_tr := trace d eps in
  madd (mscale (mscale eps 2) mu) (fun i j => if (i =? j)%nat then lambda * eps_tr else 0).
Definition le_contraction (d : nat) (mu lambda : R) (F : mat) (a b : vec) : mat :=
  madd (mscale (madd (mscale eye (vdot d a b)) (outer b a)) mu) (mscale (outer a b) lambda).

(** St. Venant-Kirchhoff, materials.rs:386-468 *)
Definition green_strain (d : nat) (F : mat) : mat := mscale (msub (mmul d (transpose F) F) eye) (1/2).
Definition stvk_energy (d : nat) (mu lambda : R) (F : mat) : R :=
  let E := green_strain d F in mu * mdot d E E + 1/2 * lambda * (trace d E) ^ 2.
Definition stvk_stress (d : nat) (mu lambda : R) (F : mat) : mat :=
  let E := green_strain d F in
  madd (mscale (mscale (mmul d F E) 2) mu) (mscale (mscale F lambda) (trace d E)).
Definition stvk_contraction (d : nat) (mu lambda : R) (F : mat) (a b : vec) : mat :=
  let E := green_strain d F in
  let a_dot_b := vdot d a b in
  let Fa := mulv d F a in
  let Fb := mulv d F b in
  let Eb := mulv d E b in
  madd (madd (madd (mscale eye (2 * mu * vdot d a Eb + lambda * trace d E * a_dot_b)) (mscale (outer Fb Fa) mu)) (mscale (outer Fa Fb) lambda))
       (mscale (mscale (mmul d F (transpose F)) mu) a_dot_b).
(** the contraction in [accumulate_stress_contractions_into], materials.rs:456-467 *)
Definition stvk_contraction_batch (d : nat) (mu lambda : R) (F : mat) : vec -> vec -> mat :=
  let E := green_strain d F in
  let E_trace := trace d E in
  let FFt := mmul d F (transpose F) in
  fun a_I b_J =>
    let a_dot_b := vdot d a_I b_J in
    let Fa := mulv d F a_I in
    let Fb := mulv d F b_J in
    let Eb := mulv d E b_J in
    madd (madd (madd (mscale eye (2 * mu * vdot d a_I Eb + lambda * E_trace * a_dot_b)) (outer Fb (fun j => Fa j * mu))) (outer Fa (fun j => Fb j * lambda)))
         (mscale FFt (mu * a_dot_b)).

(** Neo-Hookean, materials.rs:234-360 *)
Definition nh_energy_du (d : nat) (mu lambda : R) (u_grad : mat) : option R :=
  let du_dX := transpose u_grad in
  match log_det_F d du_dX with
  | Some logJ =>
      let tr_E := trace d du_dX + 1/2 * mdot d du_dX du_dX in
      Some (mu * tr_E - mu * logJ + (1/2 * lambda) * logJ ^ 2)
  | None => None
  end.
Definition nh_energy (d : nat) (mu lambda : R) (F : mat) : option R := nh_energy_du d mu lambda (u_grad_from_F F).
Definition nh_stress (d : nat) (mu lambda : R) (F : mat) : option mat :=
  let J := determinant d F in
  if Rle_dec J 0 then None
  else
    let logJ := ln J in
    match try_inverse d F with
    | None => None
    | Some F_inv =>
        let F_inv_T := transpose F_inv in
        Some (madd (mscale F_inv_T (- mu + lambda * logJ)) (mscale F mu))
    end.
Definition nh_contraction (d : nat) (mu lambda : R) (F : mat) (a b : vec) : option mat :=
  let J := determinant d F in
  if Rle_dec J 0 then None
  else
    let logJ := ln J in
    match try_inverse d F with
    | None => None
    | Some F_inv =>
        let F_inv_T := transpose F_inv in
        let F_inv_T_a := mulv d F_inv_T a in
        let F_inv_T_b := mulv d F_inv_T b in
        let alpha := - mu + lambda * logJ in
        Some (madd (msub (outer F_inv_T_a (fun j => F_inv_T_b j * lambda)) (outer F_inv_T_b (fun j => F_inv_T_a j * alpha))) (mscale eye (mu * vdot d a b)))
    end.
(** the contraction in [accumulate_stress_contractions_into], materials.rs:323-358; [None] is the [todo!] panic *)
Definition nh_contraction_batch (d : nat) (mu lambda : R) (F : mat) : option (vec -> vec -> mat) :=
  let J := determinant d F in
  if Rle_dec J 0 then None
  else
    let logJ := ln J in
    match try_inverse d F with
    | None => None
    | Some F_inv =>
        let F_inv_T := transpose F_inv in
        let alpha_nh := - mu + lambda * logJ in
        Some (fun a b =>
          let F_inv_T_a := mulv d F_inv_T a in
          let F_inv_T_b := mulv d F_inv_T b in
          madd (msub (outer F_inv_T_a (fun j => F_inv_T_b j * lambda)) (outer F_inv_T_b (fun j => F_inv_T_a j * alpha_nh))) (mscale eye (mu * vdot d a b)))
    end.

(** ** compute_batch_contraction, lib.rs:340-394 *)
(** [zip_apply] on the block at [(r, c)] of size [d] *)
Definition add_block (d r c : nat) (alpha : R) (C : mat) (out : mat) : mat := fun i j =>
  if ((r <=? i) && (i <? r + d) && (c <=? j) && (j <? c + d))%bool%nat then out i j + alpha * C (i - r)%nat (j - c)%nat else out i j.
(** [rows_generic]: [d] entries *)
Definition rows (d start : nat) (x : list R) : vec := fun i => if (i <? d)%nat then nth (start + i) x 0 else 0.
Definition batch_contraction (d : nat) (nrows ncols : nat) (out : mat) (alpha : R) (a b : list R) (contraction : vec -> vec -> mat) : option mat :=
  if (d =? 0)%nat then None
  else if negb (length a mod d =? 0)%nat then None
  else if negb (length b mod d =? 0)%nat then None
  else
    let M := (length a / d)%nat in
    let N := (length b / d)%nat in
    if negb (nrows =? d * M)%nat then None
    else if negb (ncols =? d * N)%nat then None
    else Some (fold_left (fun out J =>
           fold_left (fun out I =>
             let a_I := rows d (d * I) a in
             let b_J := rows d (d * J) b in
             add_block d (d * I) (d * J) alpha (contraction a_I b_J) out)
           (seq 0 (min (J + 1) M)) out)
         (seq 0 N) out).

(** ** MaterialEllipticOperator, lib.rs:422-486, for a material given by its energy, stress and contraction; the [_du] functions are the defaults of the
    trait (lib.rs:84-90, 103-110, 136-144) *)
Definition operator_energy {A} (energy : mat -> A) (u_grad : mat) : A := energy (deformation_gradient u_grad).
Definition elliptic_operator_transpose (stress : mat -> mat) (u_grad : mat) : mat := stress (deformation_gradient u_grad).
Definition elliptic_operator (stress : mat -> mat) (u_grad : mat) : mat := transpose (elliptic_operator_transpose stress u_grad).
Definition operator_contract (contraction : mat -> vec -> vec -> mat) (u_grad : mat) (a b : vec) : mat := contraction (deformation_gradient u_grad) a b.

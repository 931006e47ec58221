(** Model of the "analytic polar decomposition" [apd] of src/util.rs over the reals. Matrices and vectors are functions of their
    indices (of which 0, 1, 2 are used); floating-point rounding is not modelled. *)
From Coq Require Import List Reals.
Import ListNotations.
Local Open Scope R_scope.

Definition mat3 := nat -> nat -> R.
Definition vec3 := nat -> R.
Definition rows3 (rows : list (list R)) : mat3 := fun r c => nth c (nth r rows []) 0.

(** nalgebra's [Quaternion]: scalar part and vector part. *)
Record quat := Quat { qw : R; qi : R; qj : R; qk : R }.

(** nalgebra [Quaternion * Quaternion] *)
Definition qmul (a b : quat) : quat :=
  Quat (qw a * qw b - qi a * qi b - qj a * qj b - qk a * qk b)
       (qw a * qi b + qi a * qw b + qj a * qk b - qk a * qj b)
       (qw a * qj b - qi a * qk b + qj a * qw b + qk a * qi b)
       (qw a * qk b + qi a * qj b - qj a * qi b + qk a * qw b).

(** nalgebra [UnitQuaternion::to_rotation_matrix] *)
Definition to_rotation (q : quat) : mat3 :=
  let w := qw q in let i := qi q in let j := qj q in let k := qk q in
  rows3 [[w * w + i * i - j * j - k * k; i * j * 2 - w * k * 2; w * j * 2 + i * k * 2];
         [w * k * 2 + i * j * 2; w * w - i * i + j * j - k * k; j * k * 2 - w * i * 2];
         [i * k * 2 - w * j * 2; w * i * 2 + j * k * 2; w * w - i * i - j * j + k * k]].

(** [R.transpose() * F] *)
Definition tr_mul (A F : mat3) : mat3 := fun r c => A 0%nat r * F 0%nat c + A 1%nat r * F 1%nat c + A 2%nat r * F 2%nat c.

Definition vec (x y z : R) : vec3 := fun i => nth i [x; y; z] 0.
Definition dot (x y : vec3) : R := x 0%nat * y 0%nat + x 1%nat * y 1%nat + x 2%nat * y 2%nat.

(** util.rs:189-193: [Bc[r]] is entry (r, c) of [B]. *)
Definition apd_gradient (B : mat3) : vec3 :=
  vec (B 1%nat 2%nat - B 2%nat 1%nat) (B 2%nat 0%nat - B 0%nat 2%nat) (B 0%nat 1%nat - B 1%nat 0%nat).

(** util.rs:195-201: the six entries of the matrix called Hessian, as a symmetric matrix. *)
Definition apd_hessian (B : mat3) : mat3 :=
  let h00 := B 1%nat 1%nat + B 2%nat 2%nat in
  let h11 := B 0%nat 0%nat + B 2%nat 2%nat in
  let h22 := B 0%nat 0%nat + B 1%nat 1%nat in
  let h01 := (B 0%nat 1%nat + B 1%nat 0%nat) * (1 / 2) in
  let h02 := (B 0%nat 2%nat + B 2%nat 0%nat) * (1 / 2) in
  let h12 := (B 1%nat 2%nat + B 2%nat 1%nat) * (1 / 2) in
  rows3 [[h00; h01; h02]; [h01; h11; h12]; [h02; h12; h22]].

(** util.rs:203-204 *)
Definition apd_det (H : mat3) : R :=
  let h00 := H 0%nat 0%nat in let h11 := H 1%nat 1%nat in let h22 := H 2%nat 2%nat in
  let h01 := H 0%nat 1%nat in let h02 := H 0%nat 2%nat in let h12 := H 1%nat 2%nat in
  - (h02 * h02 * h11) + (h01 * h02 * h12) * 2 - (h00 * h12 * h12) - (h01 * h01 * h22) + (h00 * h11 * h22).

(** util.rs:205-219: the step before the safeguards. [detH.recip()] at zero is infinite; here it is some number, and the step is
    discarded by the next test. *)
Definition apd_newton (H : mat3) (g : vec3) : vec3 :=
  let h00 := H 0%nat 0%nat in let h11 := H 1%nat 1%nat in let h22 := H 2%nat 2%nat in
  let h01 := H 0%nat 1%nat in let h02 := H 0%nat 2%nat in let h12 := H 1%nat 2%nat in
  let factor := / apd_det H * (- (1 / 4)) in
  vec (((h11 * h22 - h12 * h12) * g 0%nat + (h02 * h12 - h01 * h22) * g 1%nat + (h01 * h12 - h02 * h11) * g 2%nat) * factor)
      (((h02 * h12 - h01 * h22) * g 0%nat + (h00 * h22 - h02 * h02) * g 1%nat + (h01 * h02 - h00 * h12) * g 2%nat) * factor)
      (((h01 * h12 - h02 * h11) * g 0%nat + (h01 * h02 - h00 * h12) * g 1%nat + (h00 * h11 - h01 * h01) * g 2%nat) * factor).

Definition vscale3 (s : R) (x : vec3) : vec3 := fun i => x i * s.

(** util.rs:186-230: the step [omega] of one iteration, with the two safeguards. *)
Definition apd_omega (F : mat3) (q : quat) : vec3 :=
  let B := tr_mul (to_rotation q) F in
  let g := apd_gradient B in
  let H := apd_hessian B in
  let omega := if Rlt_dec (Rabs (apd_det H)) (1 / 1000000000) then fun i => - g i else apd_newton H g in
  if Rlt_dec 0 (dot omega g) then vscale3 (- (1 / 8)) g else omega.

(** util.rs:232-238: the quaternion of the Cayley map. *)
Definition cayley (omega : vec3) : quat :=
  let l := dot omega omega in
  let w := (1 - l) / (1 + l) in
  let s := 2 / (1 + l) in
  Quat w (omega 0%nat * s) (omega 1%nat * s) (omega 2%nat * s).

Section apd.
  Variable max_value : R.   (* [T::max_value()] *)
  Variable F : mat3.
  Variable tol : R.

  (** util.rs:171-245 [apd]: the loop with the remaining number of iterations. *)
  Fixpoint apd_loop (n : nat) (res : R) (q : quat) : quat :=
    match n with
    | O => q
    | S n' =>
        if Rlt_dec (tol * tol) res then
          let omega := apd_omega F q in
          apd_loop n' (dot omega omega) (qmul q (cayley omega))
        else q
    end.
  Definition apd (initial_guess : quat) (max_iter : nat) : quat := apd_loop max_iter max_value initial_guess.
End apd.

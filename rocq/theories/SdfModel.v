(** Model of the signed distance functions of fenris-geometry/src/sdf.rs over the exact reals. A point is its coordinate function, of which
    coordinates 0 and 1 are read; the library's types that implement the trait are one tree type. *)
From Coq Require Import Reals.
From Verif Require Import CgModel AabbModel.
Local Open Scope R_scope.

(** sdf.rs:40-60 *)
Inductive sdf := Circle (radius : R) (center : vec) | AlignedBox (box : aabb) | Union (left right : sdf).

Definition norm2 (x y : R) : R := sqrt (x * x + y * y).
(** [imax] of a vector with two entries: the first of the largest *)
Definition largest (x y : R) : R := if Rlt_dec x y then y else x.
(** 148-155: the box *)
Definition box_eval (a : aabb) (x : vec) : R :=
  let b := fun i => extents a i / 2 in
  let p := fun i => x i - center a i in
  let d := fun i => Rabs (p i) - b i in
  norm2 (Rmax (d 0%nat) 0) (Rmax (d 1%nat) 0) + Rmin 0 (largest (d 0%nat) (d 1%nat)).
(** 81-84, 117-119, 148-155 [eval] *)
Fixpoint eval (s : sdf) (x : vec) : R :=
  match s with
  | Circle r c => norm2 (x 0%nat - c 0%nat) (x 1%nat - c 1%nat) - r
  | AlignedBox a => box_eval a x
  | Union l r => Rmin (eval l x) (eval r x)
  end.

(** The result of [gradient]: none, not a number (a zero vector was normalized), or a vector. *)
Inductive gradient_result := NoGradient | NotANumber | Gradient (g : vec).
Definition step : R := 1 / 10000.
Definition shift (x : vec) (i : nat) (h : R) : vec := fun k => if Nat.eqb k i then x k + h else x k.
(** 158-170: central differences, normalized *)
Definition box_difference (a : aabb) (x : vec) (i : nat) : R := (box_eval a (shift x i step) - box_eval a (shift x i (- step))) / (2 * step).
Definition box_gradient (a : aabb) (x : vec) : gradient_result :=
  let g := box_difference a x in
  let n := norm2 (g 0%nat) (g 1%nat) in
  if Req_EM_T n 0 then NotANumber else Gradient (fun i => g i / n).
(** 86-95, 121-129, 158-170 [gradient] *)
Fixpoint gradient (s : sdf) (x : vec) : gradient_result :=
  match s with
  | Circle r c =>
      let y := fun i => x i - c i in
      let n := norm2 (y 0%nat) (y 1%nat) in
      if Req_EM_T n 0 then NoGradient else Gradient (fun i => y i / n)
  | AlignedBox a => box_gradient a x
  | Union l r => if Rlt_dec (eval l x) (eval r x) then gradient l x else gradient r x
  end.
(** 68-74, 107-109, 138-140 [bounding_box]; [None] is a panic *)
Fixpoint sdf_bounds (s : sdf) : option aabb :=
  match s with
  | Circle r c => let eps := r * (1 / 100) in aabb_new 2 (fun i => c i - (r + eps)) (fun i => c i + (r + eps))
  | AlignedBox a => Some a
  | Union l r => match sdf_bounds l with Some bl => match sdf_bounds r with Some br => enclose 2 bl br | None => None end | None => None end
  end.

(** Model of the inversion of the geometry map of an element, src/element.rs:303-458, and of the diameter of elements. Scalars are exact reals. [D] is the geometry dimension.
    [full_piv_lu] and [solve] of nalgebra are modelled by the inverse matrix: with exact arithmetic they fail for singular matrices and solve the system otherwise. *)
From Coq Require Import Reals List Arith.
From Verif Require Import CgModel MaterialModel ElementModel OptModel.
Import ListNotations.
Local Open Scope R_scope.

Definition distance (D : nat) (x y : vec) : R := norm D (fun i => y i - x i).
(** [tuple_combinations] of itertools: the pairs in lexicographic order *)
Fixpoint tuple_combinations {A} (l : list A) : list (A * A) :=
  match l with [] => [] | x :: l => map (pair x) l ++ tuple_combinations l end.
(** triangle.rs:114-120, 406-412, tetrahedron.rs:601-607, quadrilateral.rs:135-141, hexahedron.rs:110-116 *)
Definition vertices_diameter (D : nat) (vs : list vec) : R :=
  fold_left Rmax (map (fun '(x, y) => distance D x y) (tuple_combinations vs)) 0.
(** segment.rs:150-152, 178-182; line.rs:98-107 *)
Definition segment_diameter (D : nat) (vs : list vec) : R :=
  match vs with [a; b] => norm D (fun i => b i - a i) | _ => 0 end.
(** the other elements use the diameter of the linear element on their first vertices: triangle.rs:266-268, tetrahedron.rs:243-245, 489-491, quadrilateral.rs:326-328,
    hexahedron.rs:332-334, 560-562 *)
Definition diameter (el : element) (D : nat) (vs : list vec) : R :=
  if (el_corners el =? 2)%nat then segment_diameter D vs else vertices_diameter D (firstn (el_corners el) vs).

Definition lu_solve (n : nat) (A : nat -> nat -> R) (b : vec) : option vec := option_map (fun inv => mulv n inv b) (try_inverse n A).
Definition zero_vec : vec := fun _ => 0.
(** 360-361, 412: 1e-12 times the diameter *)
Definition newton_tolerance (el : element) (D : nat) (vs : list vec) : R := / 10 ^ 12 * diameter el D vs.

(** 317-324: the function whose root is sought *)
Definition map_residual (el : element) (vs : list vec) (x : vec) (xi : vec) : vec := fun i => el_map el vs xi i - x i.
(** 325-342 *)
Definition jacobian_solver (el : element) (D : nat) (vs : list vec) (xi rhs : vec) : option vec := lu_solve D (el_jacobian el vs xi) rhs.
(** 303-380 with the limit for the number of iterations as an argument *)
Definition map_with_limit (limit : nat) (el : element) (D : nat) (vs : list vec) (x : vec) : option newton_result :=
  newton D (S limit) (map_residual el vs x) (jacobian_solver el D vs) (newton_tolerance el D vs) (Some limit) zero_vec.
(** 303-380: the reference coordinates or the error; [None] is out of fuel *)
Definition map_physical_coordinates (el : element) (D : nat) (vs : list vec) (x : vec) : option (vec + newton_error) :=
  option_map (fun r => match nr_status r with inl _ => inl (nr_x r) | inr e => inr e end) (map_with_limit 20 el D vs x).

(** 427-455: the loop, with [f], [j] and [jT] at [xi]; [None] is out of fuel, [inr tt] the error of 438. The message of 451 does not leave the loop. *)
Fixpoint project_loop (fuel : nat) (el : element) (D : nat) (vs : list vec) (tolerance : R) (x xi : vec) : option (vec + unit) :=
  match fuel with
  | O => None
  | S fuel =>
      let r := el_dim el in
      let f := el_map el vs xi in
      let j := el_jacobian el vs xi in
      let jT := transpose j in
      let g := mulv D jT (fun i => f i - x i) in
      if Rlt_dec tolerance (norm r g) then
        let jTj := mmul D jT j in
        let rhs := fun i => - g i in
        match lu_solve r jTj rhs with
        | Some sol => project_loop fuel el D vs tolerance x (fun i => xi i + sol i)
        | None => Some (inr tt)
        end
      else Some (inl xi)
  end.
(** 396-458; the first [None] is the panic of 405 *)
Definition project_physical_coordinates (fuel : nat) (el : element) (D : nat) (vs : list vec) (x : vec) : option (option (vec + unit)) :=
  if (el_dim el <=? D)%nat then Some (project_loop fuel el D vs (newton_tolerance el D vs) x zero_vec) else None.

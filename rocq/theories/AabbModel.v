(** Model of [AxisAlignedBoundingBox] ([fenris-geometry/src/lib.rs]) and of the helpers in [fenris-geometry/src/util.rs]. Points are
    functions on coordinates of which the first [D] count; scalars are exact reals. *)
From Coq Require Import Reals Arith List Bool.
From Verif Require Import CgModel.
Import ListNotations.
Open Scope R_scope.

(** * util.rs *)

(** 29-51 [slices_are_equal_shift_invariant]; the slice access at [(j + i_start) % n] is within bounds *)
Definition shift_matches {T} (cmp : T -> T -> bool) (x y : list T) (i_start : nat) : bool :=
  forallb (fun jy => match nth_error x ((fst jy + i_start) mod length x) with Some x_j => cmp x_j (snd jy) | None => false end) (combine (seq 0 (length y)) y).
Definition equal_shift_invariant {T} (cmp : T -> T -> bool) (x y : list T) : bool :=
  if negb (length y =? length x)%nat then false
  else if (length x =? 0)%nat then true
  else existsb (shift_matches cmp x y) (seq 0 (length x)).

(** 102-110: the multi-index after the present one *)
Fixpoint next_index (n : nat) (idx : list nat) : list nat :=
  match idx with
  | [] => []
  | i :: rest => if (i + 1 <? n)%nat then (i + 1)%nat :: rest else 0%nat :: next_index n rest
  end.
(** 92-114 [index_set_nth_power_iter] *)
Fixpoint indices_from (n : nat) (count : nat) (idx : list nat) : list (list nat) :=
  match count with O => [] | S count => idx :: indices_from n count (next_index n idx) end.
Definition index_set_power (D n : nat) : list (list nat) := indices_from n (n ^ D) (repeat 0%nat D).

(** 5-20 [compute_orthonormal_vectors_3d]; [copysign(1, z)] is -1 for negative z, else 1 (negative zero does not exist here) *)
Definition orthonormal_vectors (x y z : R) : (R * R * R) * (R * R * R) :=
  let sign := if Rlt_dec z 0 then -1 else 1 in
  let a := - 1 / (sign + z) in
  let b := x * y * a in
  ((1 + sign * x * x * a, sign * b, - sign * x), (b, sign + y * y * a, - y)).

(** * AxisAlignedBoundingBox *)
Section Aabb.
  Variable D : nat.

  Record aabb := Aabb { bmin : vec; bmax : vec }.

  Definition rleb (x y : R) : bool := if Rle_dec x y then true else false.

  (** 116-121 [new]; [None] is the panic of the assertion *)
  Definition aabb_new (min max : vec) : option aabb := if forallb (fun i => rleb (min i) (max i)) (seq 0 D) then Some (Aabb min max) else None.
  (** 138-140 *)
  Definition aabb_from (p : vec) : option aabb := aabb_new p p.

  (** 150-166 *)
  Definition enclose (a b : aabb) : option aabb :=
    aabb_new (fun i => Rmin (bmin a i) (bmin b i)) (fun i => Rmax (bmax a i) (bmax b i)).

  (** 168-175; the outer option is the panic *)
  Definition from_points (points : list vec) : option (option aabb) :=
    match points with
    | [] => Some None
    | p :: rest =>
        option_map Some
          (fold_left (fun acc q => match acc with Some box => match aabb_from q with Some bq => enclose box bq | None => None end | None => None end) rest (aabb_from p))
    end.

  (** 177-187 *)
  Definition extents (a : aabb) : vec := fun i => bmax a i - bmin a i.
  Definition max_extent (a : aabb) : R := fold_left (fun m i => Rmax m (Rabs (extents a i))) (seq 0 D) 0.
  Definition center (a : aabb) : vec := fun i => (bmax a i + bmin a i) / 2.
  (** 204-213; [None] is the panic *)
  Definition uniformly_scale (a : aabb) (s : R) : option aabb :=
    if Rle_dec 0 s then let c := center a in Some (Aabb (fun i => c i + (bmin a i - c i) * s) (fun i => c i + (bmax a i - c i) * s)) else None.

  (** 215-217 *)
  Definition contains_point (a : aabb) (p : vec) : bool := forallb (fun i => rleb (bmin a i) (p i) && rleb (p i) (bmax a i)) (seq 0 D).

  (** 337-339, 219-226 *)
  Definition intervals_intersect (l1 u1 l2 u2 : R) : bool := rleb l2 u1 && rleb l1 u2.
  Definition intersects (a b : aabb) : bool := forallb (fun i => intervals_intersect (bmin a i) (bmax a i) (bmin b i) (bmax b i)) (seq 0 D).

  (** 241-245 *)
  Definition grow_uniformly (a : aabb) (d : R) : option aabb := aabb_new (fun i => bmin a i - d) (fun i => bmax a i + d).

  (** 248-262; entries other than 0 and 1 are unreachable *)
  Definition corner (a : aabb) (idx : list nat) : vec := fun i => match nth i idx 0%nat with O => bmin a i | _ => bmax a i end.
  Definition corners (a : aabb) : list vec := map (corner a) (index_set_power D 2).

  (** 265-278 *)
  Definition closest_point_to (a : aabb) (p : vec) : vec := fun i =>
    if Rle_dec (p i) (bmin a i) then bmin a i else if Rle_dec (bmax a i) (p i) then bmax a i else p i.
  (** 281-288 *)
  Definition dist2_to (a : aabb) (p : vec) : R := let d := fun i => closest_point_to a p i - p i in dot D d d.
  Definition dist_to (a : aabb) (p : vec) : R := sqrt (dist2_to a p).
  (** 291-310 *)
  Definition furthest_point_to (a : aabb) (p : vec) : vec := fun i =>
    let mid := (bmin a i + bmax a i) / 2 in if Rlt_dec (p i) mid then bmax a i else bmin a i.
  (** 317-334 *)
  Definition max_dist2_to (a : aabb) (p : vec) : R := let d := fun i => furthest_point_to a p i - p i in dot D d d.
  Definition max_dist_to (a : aabb) (p : vec) : R := sqrt (max_dist2_to a p).
End Aabb.

(** Vocabulary for polygons and polyhedra in space, independent of the algorithms. Points are functions on the coordinates 0, 1, 2. *)
From Coq Require Import Reals List Permutation.
Import ListNotations.
Open Scope R_scope.

Definition ip (a b : nat -> R) : R := a 0%nat * b 0%nat + a 1%nat * b 1%nat + a 2%nat * b 2%nat.
Definition minus (a b : nat -> R) : nat -> R := fun i => a i - b i.
(** the determinant of three columns *)
Definition det (a b c : nat -> R) : R :=
  a 0%nat * (b 1%nat * c 2%nat - b 2%nat * c 1%nat) - a 1%nat * (b 0%nat * c 2%nat - b 2%nat * c 0%nat) + a 2%nat * (b 0%nat * c 1%nat - b 1%nat * c 0%nat).
(** six times the signed volume of a tetrahedron *)
Definition tet6 (a b c d : nat -> R) : R := det (minus a d) (minus b d) (minus c d).
Definition rsum (l : list R) : R := fold_right Rplus 0 l.
(** consecutive elements, also from the last to the first *)
Fixpoint pairs {A} (l : list A) : list (A * A) := match l with a :: ((b :: _) as l') => (a, b) :: pairs l' | _ => [] end.
Definition loop {A} (l : list A) : list (A * A) := match l with [] => [] | a :: _ => pairs (l ++ [a]) end.
(** the triangles of the fan about the first vertex *)
Definition fan_triangles {A} (l : list A) : list (A * A * A) := match l with [] => [] | a :: r => map (fun e => (a, fst e, snd e)) (pairs r) end.
(** every side is passed as often in one direction as in the other: a closed surface with consistent orientation *)
Definition oriented {A} (faces : list (list A)) : Prop :=
  let s := concat (map loop faces) in Permutation s (map (fun e => (snd e, fst e)) s).

(** ** Convex polygons in space and convex bodies *)
Definition d2 (p q : nat -> R) : R := ip (minus p q) (minus p q).
Definition dst (p q : nat -> R) : R := sqrt (d2 p q).
(** vertex [i] of a closed polygon, counted cyclically *)
Definition vertex (vs : list (nat -> R)) (i : nat) : nat -> R := nth (i mod length vs) vs (fun _ => 0).
(** the point [x] is to the left of side [i] seen from the tip of [n], by a positive multiple of the distance *)
Definition left3 (n : nat -> R) (vs : list (nat -> R)) (i : nat) (x : nat -> R) : R :=
  det n (minus (vertex vs (i + 1)) (vertex vs i)) (minus x (vertex vs i)).
(** a planar polygon, counterclockwise about the unit normal [n], with every corner strictly to the left of every side it is not on *)
Definition convex_face (n : nat -> R) (vs : list (nat -> R)) : Prop :=
  (3 <= length vs)%nat /\ ip n n = 1 /\ (forall i, ip n (minus (vertex vs i) (vertex vs 0)) = 0) /\
  forall i j, (i < length vs)%nat -> (j < length vs)%nat -> j <> i -> j <> ((i + 1) mod length vs)%nat -> 0 < left3 n vs i (vertex vs j).
(** the points of the polygon *)
Definition in_face (n : nat -> R) (vs : list (nat -> R)) (x : nat -> R) : Prop :=
  ip n (minus x (vertex vs 0)) = 0 /\ forall i, (i < length vs)%nat -> 0 <= left3 n vs i x.
(** the body bounded by faces with inward normals: each face with its normal *)
Definition in_body (faces : list ((nat -> R) * list (nat -> R))) (x : nat -> R) : Prop :=
  forall n vs, In (n, vs) faces -> 0 <= ip n (minus x (vertex vs 0)).
(** a convex polyhedron: every face is a convex polygon and consists of the points of the body in its plane *)
Definition convex_body (faces : list ((nat -> R) * list (nat -> R))) : Prop :=
  forall n vs, In (n, vs) faces -> convex_face n vs /\ forall x, in_face n vs x <-> in_body faces x /\ ip n (minus x (vertex vs 0)) = 0.

(** ** Simplices and parallelepipeds *)
Definition agree (p q : nat -> R) : Prop := forall k, (k < 3)%nat -> p k = q k.
Definition in_triangle (a b c x : nat -> R) : Prop :=
  exists r s t, 0 <= r /\ 0 <= s /\ 0 <= t /\ r + s + t = 1 /\ agree x (fun k => r * a k + s * b k + t * c k).
Definition in_tetrahedron (v : nat -> nat -> R) (x : nat -> R) : Prop :=
  exists q r s t, 0 <= q /\ 0 <= r /\ 0 <= s /\ 0 <= t /\ q + r + s + t = 1 /\
    agree x (fun k => q * v 0%nat k + r * v 1%nat k + s * v 2%nat k + t * v 3%nat k).
(** the parallelepiped at [o] spanned by [a], [b] and [c] *)
Definition in_parallelepiped (o a b c x : nat -> R) : Prop :=
  exists r s t, 0 <= r <= 1 /\ 0 <= s <= 1 /\ 0 <= t <= 1 /\ agree x (fun k => o k + r * a k + s * b k + t * c k).

(** Model of convex polygons and polyhedra in space, fenris-geometry/src/lib.rs:391-651 and src/primitives. Scalars are exact reals,
    points and vectors are functions on the coordinates 0, 1, 2. [None] is a panic. Normalising the zero vector, which gives NaN in the
    code, gives zero here; no theorem depends on it. *)
From Coq Require Import Reals List Bool Arith.
From Verif Require Import CgModel GeomModel.
Import ListNotations.
Open Scope R_scope.

Definition sub3 (a b : vec) : vec := fun i => a i - b i.
Definition scale3 (s : R) (a : vec) : vec := fun i => s * a i.
Definition cross (a b : vec) : vec := fun k => cross_comp k a b.
Definition normalize3 (a : vec) : vec := fun i => a i / norm 3 a.

(** * [ConvexPolygon3d], lib.rs:391-531; a polygon is the list of its vertices *)
(** lib.rs:415-438 [compute_area_vector] *)
Definition fan_area (vs : list vec) : option vec :=
  match vs with
  | a :: _ :: _ :: _ =>
      Some (fun k => fold_left (fun acc i =>
        match nth_error vs i, nth_error vs (i + 1) with
        | Some b, Some c => acc + cross (sub3 b a) (sub3 c a) k * (1/2)
        | _, _ => acc
        end) (seq 1 (length vs - 2)) 0)
  | _ => None
  end.
(** 441-456 [compute_normal] *)
Definition face_normal (vs : list vec) : option vec := option_map normalize3 (fan_area vs).
(** 396-403 [compute_plane], a point and the normal; no vertices give no plane only after [compute_normal] has panicked *)
Definition face_plane (vs : list vec) : option (vec * vec) :=
  match face_normal vs, vs with Some n, v :: _ => Some (v, normalize3 n) | _, _ => None end.
(** 458-530 [closest_point]: the closest point and the distance *)
Definition prism_contains (n : vec) (e : vec * vec) (p : vec) : bool :=
  hs_contains 3 (normalize3 (cross (sub3 (snd e) (fst e)) n)) (fst e) p.
Definition face_closest (vs : list vec) (p : vec) : option (vec * R) :=
  match face_normal vs, vs with
  | Some n, x0 :: _ =>
      if forallb (fun e => prism_contains n e p) (edges vs) then
        let d := dot 3 n (sub3 p x0) in Some (sub3 p (scale3 d n), Rabs d)
      else
        match fold_left (fun acc (e : vec * vec) =>
            let q := dclosest 3 (fst e) (snd e) p in
            let d2 := dot 3 (sub3 q p) (sub3 q p) in
            match acc with
            | Some (_, best) => if Rlt_dec d2 best then Some (q, d2) else acc
            | None => Some (q, d2)
            end) (edges vs) None with
        | Some (q, d2) => Some (q, sqrt d2)
        | None => None
        end
  | _, _ => None
  end.

(** * [ConvexPolyhedron], lib.rs:533-651; a polyhedron is the list of its faces *)
(** 622-651 [compute_polyhedron_volume_from_faces] *)
Definition volume_term (face : list vec) : option R :=
  if (2 <? length face)%nat then
    match face, fan_area face with
    | x0 :: _, Some A => let area := norm 3 A in Some (if Rlt_dec 0 area then dot 3 (normalize3 A) x0 * area else 0)
    | _, _ => None
    end
  else Some 0.
Definition polyhedron_volume (faces : list (list vec)) : option R :=
  option_map (fun v => Rabs v / 3)
    (fold_left (fun acc face => match acc, volume_term face with Some v, Some t => Some (v + t) | _, _ => None end) faces (Some 0)).
(** 594-614 [contains_point]; the loop returns at the first face with the point outside *)
Fixpoint polyhedron_contains (faces : list (list vec)) (p : vec) : option bool :=
  match faces with
  | [] => Some true
  | face :: faces =>
      match face_normal face, face with
      | Some n, x0 :: _ => if hs_contains 3 (fun i => - n i) x0 p then polyhedron_contains faces p else Some false
      | _, _ => None
      end
  end.
(** 540-578 [compute_signed_distance]: the index of the closest face, the closest point and the signed distance *)
Definition psd_step (p : vec) (acc : option (bool * option (nat * vec * R))) (iface : nat * list vec) : option (bool * option (nat * vec * R)) :=
  match acc, face_closest (snd iface) p, face_normal (snd iface) with
  | Some (inside, best), Some (q, d), Some n =>
      let best' := match best with
        | Some (_, _, d') => if Rlt_dec d d' then Some (fst iface, q, d) else best
        | None => Some (fst iface, q, d)
        end in
      Some (inside && hs_contains 3 (fun i => - n i) q p, best')
  | _, _, _ => None
  end.
Definition polyhedron_sd (faces : list (list vec)) (p : vec) : option (nat * vec * R) :=
  if (length faces <? 4)%nat then None
  else
    match fold_left (psd_step p) (combine (seq 0 (length faces)) faces) (Some (true, None)) with
    | Some (inside, Some (i, q, d)) => Some (i, q, (if inside : bool then -1 else 1) * d)
    | _ => None
    end.

(** * Tetrahedra and hexahedra, primitives/tetrahedron.rs:57-80 and hexahedron.rs:73-99 *)
Definition pick (v : nat -> vec) (is : list nat) : list vec := map v is.
Definition tetrahedron_faces (v : nat -> vec) : list (list vec) := map (pick v) [[0; 1; 2]; [0; 3; 1]; [1; 3; 2]; [0; 2; 3]]%nat.
Definition hexahedron_faces (v : nat -> vec) : list (list vec) :=
  map (pick v) [[0; 1; 2; 3]; [4; 5; 1; 0]; [5; 6; 2; 1]; [6; 7; 3; 2]; [0; 3; 7; 4]; [4; 7; 6; 5]]%nat.
(** hexahedron.rs:60-63 [distance] *)
Definition hexahedron_distance (v : nat -> vec) (p : vec) : option R :=
  match polyhedron_sd (hexahedron_faces v) p with Some (_, _, sd) => Some (Rmax sd 0) | None => None end.
(** tetrahedron.rs:83-123 [distance] *)
Definition tri_normal_dir (a b c : vec) : vec := cross (sub3 b a) (sub3 c a).
Definition point_orientation (a b c p : vec) : R := dot 3 (normalize3 (tri_normal_dir a b c)) (sub3 p a).
Definition tetrahedron_distance (v : nat -> vec) (p : vec) : option R :=
  match fold_left (fun acc (t : nat * nat * nat) =>
      let '(i, j, k) := t in
      match acc, face_closest [v i; v j; v k] p with
      | Some (inside, best), Some (_, d) =>
          Some (inside && negb (if Rlt_dec 0 (point_orientation (v i) (v j) (v k) p) then true else false),
                Some (match best with Some d' => Rmin d' d | None => d end))
      | _, _ => None
      end) [(2, 1, 0); (1, 2, 3); (0, 1, 3); (2, 0, 3)]%nat (Some (true, None)) with
  | Some (inside, Some d) => Some (if inside : bool then 0 else d)
  | _ => None
  end.

(** * Winding numbers, primitives/triangle.rs:268-301 *)
Definition det3 (a b c : vec) : R := dot 3 a (cross b c).
Definition solid_angle (t : vec * vec * vec) (p : vec) : R :=
  let '(v0, v1, v2) := t in
  let a := sub3 v0 p in let b := sub3 v1 p in let c := sub3 v2 p in
  let den := norm 3 a * norm 3 b * norm 3 c + dot 3 a b * norm 3 c + dot 3 b c * norm 3 a + dot 3 c a * norm 3 b in
  2 * atan (det3 a b c / den).
Definition winding_number (ts : list (vec * vec * vec)) (p : vec) : R :=
  match map (fun t => solid_angle t p) ts with [] => 0 | a :: l => fold_left Rplus l a end / (4 * PI).

(** Model of lines, segments, half planes, disks and polygons in [fenris-geometry/src]. Scalars are exact reals. Points and vectors of
    the plane and of space are tuples; segments of any dimension use functions on coordinates as in [CgModel]. Normalising the zero
    vector, which gives NaN in the code, gives zero here; no theorem depends on it. *)
From Coq Require Import Reals List Bool Arith.
From Verif Require Import CgModel.
Import ListNotations.
Open Scope R_scope.

(** * vectors of the plane *)
Notation vec2 := (R * R)%type.
Definition vadd (a b : vec2) : vec2 := (fst a + fst b, snd a + snd b).
Definition vsub (a b : vec2) : vec2 := (fst a - fst b, snd a - snd b).
Definition vscale (s : R) (a : vec2) : vec2 := (s * fst a, s * snd a).
Definition vdot (a b : vec2) : R := fst a * fst b + snd a * snd b.
Definition perp (a b : vec2) : R := fst a * snd b - snd a * fst b.
Definition vnorm (a : vec2) : R := sqrt (vdot a a).
Definition normalize (a : vec2) : vec2 := (fst a / vnorm a, snd a / vnorm a).

Definition vec2_eq_dec (a b : vec2) : {a = b} + {a <> b}.
Proof. destruct a as [x y], b as [x' y']. destruct (Req_EM_T x x') as [->|]; [destruct (Req_EM_T y y') as [->|]|]; [left; reflexivity|right; congruence|right; congruence]. Defined.

(** nalgebra's [clamp] *)
Definition clamp (v lo hi : R) : R := if Rlt_dec lo v then if Rlt_dec v hi then v else hi else lo.

(** * primitives/half_space.rs *)
Record half_plane := HalfPlane { hp_point : vec2; hp_normal : vec2 }.
(** 33-40 *)
Definition signed_dist (h : half_plane) (p : vec2) : R := vdot (hp_normal h) (vsub p (hp_point h)).
Definition hp_contains (h : half_plane) (p : vec2) : bool := if Rle_dec (signed_dist h p) 0 then true else false.
(** 57-59 *)
Definition complement (h : half_plane) : half_plane := HalfPlane (hp_point h) (- fst (hp_normal h), - snd (hp_normal h)).

(** * primitives/line.rs, lines in the plane *)
Record line := Line { ln_point : vec2; ln_dir : vec2 }.
(** half_space.rs 80-83 *)
Definition surface (h : half_plane) : line := Line (hp_point h) (snd (hp_normal h), - fst (hp_normal h)).
(** 345-347 *)
Definition line_at (l : line) (t : R) : vec2 := vadd (ln_point l) (vscale t (ln_dir l)).
(** 364-381; [try_inverse] of a 2 x 2 matrix fails when the determinant is zero *)
Definition intersect_lines (l1 l2 : line) : option (R * R) :=
  let rhs := vsub (ln_point l2) (ln_point l1) in
  let m11 := fst (ln_dir l1) in let m12 := - fst (ln_dir l2) in let m21 := snd (ln_dir l1) in let m22 := - snd (ln_dir l2) in
  let det := m11 * m22 - m21 * m12 in
  if Req_EM_T det 0 then None
  else Some (m22 / det * fst rhs + - m12 / det * snd rhs, - m21 / det * fst rhs + m11 / det * snd rhs).
(** 354-357 *)
Definition line_intersect (l1 l2 : line) : option vec2 := option_map (fun t => line_at l1 (fst t)) (intersect_lines l1 l2).
(** 390-416; for a line whose direction is zero the code computes 0/0 *)
Definition line_disk (l : line) (center : vec2) (r : R) : option (R * R) :=
  let d := ln_dir l in
  let a0 := vsub (ln_point l) center in
  let alpha := vdot d d in
  let beta := 2 * vdot d a0 in
  let gamma := vdot a0 a0 - r * r in
  let disc := beta * beta - 4 * alpha * gamma in
  if Rle_dec 0 disc then Some ((- beta - sqrt disc) / (2 * alpha), (- beta + sqrt disc) / (2 * alpha)) else None.

(** * segments in the plane *)
Record seg := Seg { sg_start : vec2; sg_end : vec2 }.
(** 93-103 *)
Definition tangent (s : seg) : vec2 := vsub (sg_end s) (sg_start s).
Definition seg_line (s : seg) : line := Line (sg_start s) (tangent s).
(** 126-128 *)
Definition seg_at (s : seg) (t : R) : vec2 := vadd (sg_start s) (vscale t (tangent s)).
(** 327-337, 115-124 *)
Definition project_parametric (l : line) (p : vec2) : R :=
  let d2 := vdot (ln_dir l) (ln_dir l) in if Req_EM_T d2 0 then 0 else vdot (vsub p (ln_point l)) (ln_dir l) / d2.
Definition closest_parametric (s : seg) (p : vec2) : R := clamp (project_parametric (seg_line s) p) 0 1.
Definition closest_point (s : seg) (p : vec2) : vec2 := seg_at s (closest_parametric s p).
(** 142-145 *)
Definition normal_dir (s : seg) : vec2 := (snd (tangent s), - fst (tangent s)).
(** 147-151 *)
Definition intersect_line_parametric (s : seg) (l : line) : option R := option_map fst (intersect_lines (seg_line s) l).
(** 167-171 *)
Definition sub_segment (s : seg) (t : R * R) : seg := Seg (seg_at s (fst t)) (seg_at s (snd t)).
(** 154-165 *)
Definition seg_disk_parametric (s : seg) (center : vec2) (r : R) : option (R * R) :=
  option_map (fun t => (clamp (fst t) 0 1, clamp (snd t) 0 1)) (line_disk (seg_line s) center r).
Definition seg_disk (s : seg) (center : vec2) (r : R) : option seg := option_map (sub_segment s) (seg_disk_parametric s center r).
(** 178-209 *)
Definition intersect_segment_parametric (s other : seg) : option R :=
  match intersect_lines (seg_line s) (seg_line other) with
  | None => None
  | Some (t1, t2) =>
      if Rlt_dec t2 0 then None else if Rlt_dec 1 t2 then None
      else if Rlt_dec t1 0 then None else if Rlt_dec 1 t1 then None else Some t1
  end.
(** 217-250; the debug assertion is a panic of debug builds only and is a theorem here *)
Definition seg_half_plane_parametric (s : seg) (h : half_plane) : option (R * R) :=
  match hp_contains h (sg_start s), hp_contains h (sg_end s) with
  | true, true => Some (0, 1)
  | false, false => None
  | true, false => Some (0, match intersect_line_parametric s (surface h) with Some t => clamp t 0 1 | None => 1 end)
  | false, true => Some (match intersect_line_parametric s (surface h) with Some t => clamp t 0 1 | None => 0 end, 1)
  end.
(** 253-256 *)
Definition seg_half_plane (s : seg) (h : half_plane) : option seg := option_map (sub_segment s) (seg_half_plane_parametric s h).

(** * polytope.rs *)
(** 52-59: consecutive pairs of the vertices, closing the polygon *)
Fixpoint windows {A} (l : list A) : list (A * A) := match l with a :: ((b :: _) as l') => (a, b) :: windows l' | _ => [] end.
Definition edges {A} (vs : list A) : list (A * A) := match vs with [] => [] | v :: _ => windows (vs ++ [v]) end.
(** 85-95 *)
Definition edge_half_plane (e : vec2 * vec2) : option half_plane :=
  if vec2_eq_dec (fst e) (snd e) then None
  else let d := vsub (snd e) (fst e) in Some (HalfPlane (fst e) (normalize (snd d, - fst d))).
Definition half_planes (vs : list vec2) : list half_plane :=
  flat_map (fun e => match edge_half_plane e with Some h => [h] | None => [] end) (edges vs).
(** 98-107; [None] is [unimplemented!] *)
Definition polygon_contains (vs : list vec2) (p : vec2) : option bool :=
  match vs with
  | [v] => Some (if vec2_eq_dec v p then true else false)
  | [_; _] => None
  | _ => Some (forallb (fun h => hp_contains h p) (half_planes vs))
  end.
(** 124-145: the vertices that one edge contributes; [None] is the panic of [expect] *)
Definition clip_edge (h : half_plane) (e : vec2 * vec2) : option (list vec2) :=
  let '(v1, v2) := e in
  let c1 := hp_contains h v1 in let c2 := hp_contains h v2 in
  let first := if c1 then [v1] else [] in
  if (c1 && negb c2) || (negb c1 && c2) then
    match line_intersect (surface h) (Line v1 (normalize (vsub v2 v1))) with Some x => Some (first ++ [x]) | None => None end
  else Some first.
Fixpoint concat_options {A} (l : list (option (list A))) : option (list A) :=
  match l with
  | [] => Some []
  | o :: l => match o, concat_options l with Some a, Some b => Some (a ++ b) | _, _ => None end
  end.
(** 114-149 [intersect_halfplane] *)
Definition clip (vs : list vec2) (h : half_plane) : option (list vec2) :=
  match vs with
  | [v] => Some (if hp_contains h v then [v] else [])
  | _ => concat_options (map (clip_edge h) (edges vs))
  end.
(** line.rs 258-264 *)
Definition seg_polygon (s : seg) (vs : list vec2) : option seg :=
  fold_left (fun acc h => match acc with Some s => seg_half_plane s h | None => None end) (half_planes vs) (Some s).
(** 152-171 [intersect_polygon]; [None] is a panic *)
Definition clip_polygon (vs other : list vec2) : option (list vec2) :=
  let by_segment a b other := match seg_polygon (Seg a b) other with Some s => [sg_start s; sg_end s] | None => [] end in
  match vs, other with
  | [_], _ => None
  | _, [_] => None
  | [a; b], _ => Some (by_segment a b other)
  | _, [a; b] => Some (by_segment a b vs)
  | _, _ => fold_left (fun acc h => match acc with Some vs => clip vs h | None => None end) (half_planes other) (Some vs)
  end.
(** 175-182 [triangulate] *)
Definition convex_triangulate (vs : list vec2) : list (vec2 * vec2 * vec2) :=
  match vs with
  | [] => []
  | v :: _ => map (fun e => (v, fst e, snd e)) (skipn 1 (firstn (length vs - 1) (edges vs)))
  end.

(** * polygon.rs *)
(** 164-181: sum over i of (b.y - a.y) (b.x + a.x), with the vertices read cyclically *)
Definition poly_edge (vs : list vec2) (i : nat) : option (vec2 * vec2) :=
  match nth_error vs (i mod length vs), nth_error vs ((i + 1) mod length vs) with Some a, Some b => Some (a, b) | _, _ => None end.
Definition poly_signed_area (vs : list vec2) : R :=
  fold_left (fun area i => match poly_edge vs i with Some (a, b) => area + (snd b - snd a) * (fst b + fst a) | None => area end) (seq 0 (length vs)) 0 * (1/2).
Definition poly_area (vs : list vec2) : R := Rabs (poly_signed_area vs).
(** 188-195 [orientation] *)
Definition counterclockwise (vs : list vec2) : bool := if Rlt_dec 0 (poly_signed_area vs) then true else false.
(** 399-411, 415-431 *)
Definition triangulate_at_point (vs : list vec2) (p : vec2) : list (vec2 * vec2 * vec2) :=
  flat_map (fun i => match poly_edge vs i with Some (a, b) => [(p, a, b)] | None => [] end) (seq 0 (length vs)).
Definition triangulate (vs : list vec2) : list (vec2 * vec2 * vec2) :=
  match vs with
  | [] => []
  | p :: _ => flat_map (fun i => match poly_edge vs i with Some (a, b) => [(p, a, b)] | None => [] end) (seq 1 (length vs - 1 - 1))
  end.

(** * primitives/triangle.rs *)
(** 95-106 *)
Definition tri_signed_area (t : vec2 * vec2 * vec2) : R := let '(a, b, c) := t in 1/2 * perp (vsub b a) (vsub c a).
Definition tri_area (t : vec2 * vec2 * vec2) : R := Rabs (tri_signed_area t).

(** * primitives/quad.rs *)
Definition quad : Type := nat -> vec2.
(** 53-69; the previous corner is taken at the same index as the present one, as in the code *)
Definition concave_at (q : quad) (i : nat) : bool :=
  let x_next := q ((i + 2) mod 4)%nat in let x_curr := q ((i + 1) mod 4)%nat in let x_prev := q ((i + 1) mod 4)%nat in
  if Rlt_dec (perp (vsub x_next x_curr) (vsub x_prev x_curr)) 0 then true else false.
Definition concave_corner (q : quad) : option nat := option_map (fun i => (i + 1)%nat) (find (concave_at q) (seq 0 4)).
(** 76-88 *)
Definition split_connectivities (q : quad) : (nat * nat * nat) * (nat * nat * nat) :=
  match concave_corner q with
  | Some i => (((i + 2) mod 4, (i + 3) mod 4, (i + 0) mod 4), ((i + 2) mod 4, (i + 0) mod 4, (i + 1) mod 4))%nat
  | None => ((0, 1, 2), (0, 2, 3))%nat
  end.
(** 90-112 *)
Definition quad_triangles (q : quad) : (vec2 * vec2 * vec2) * (vec2 * vec2 * vec2) :=
  let '((a, b, c), (d, e, f)) := split_connectivities q in ((q a, q b, q c), (q d, q e, q f)).
Definition quad_area (q : quad) : R := let '(t1, t2) := quad_triangles q in tri_area t1 + tri_area t2.

(** * closest edges, polygon.rs *)
(** 334-338 *)
Definition get_edge (vs : list vec2) (i : nat) : option seg :=
  match nth_error vs i, nth_error vs ((i + 1) mod length vs) with Some a, Some b => Some (Seg a b) | _, _ => None end.
(** 341-364 *)
Definition pseudonormal (vs : list vec2) (i : nat) (t : R) : option vec2 :=
  match get_edge vs i with
  | None => None
  | Some e =>
      let n := normalize (normal_dir e) in
      let average m := normalize (fst (vadd m n) / 2, snd (vadd m n) / 2) in
      if Req_EM_T t 0 then option_map (fun e' => average (normalize (normal_dir e'))) (get_edge vs ((i + length vs - 1) mod length vs))
      else if Req_EM_T t 1 then option_map (fun e' => average (normalize (normal_dir e'))) (get_edge vs ((i + 1) mod length vs))
      else Some n
  end.
(** 119-141, the part of the loop for one endpoint: edges that intersect the segment are skipped; the largest number is taken to be
    infinite *)
Definition nearest_edge (vs : list vec2) (p : vec2) (skip : seg -> bool) : nat * option R :=
  fold_left (fun acc i =>
    match get_edge vs i with
    | None => acc
    | Some e =>
        if skip e then acc
        else let d := vsub p (closest_point e p) in
             let dist2 := vdot d d in
             match snd acc with
             | Some best => if Rlt_dec dist2 best then (i, Some dist2) else acc
             | None => (i, Some dist2)
             end
    end) (seq 0 (length vs)) (0%nat, None).
(** 143-154; [None] is a panic *)
Definition endpoint_inside (vs : list vec2) (s : seg) (p : vec2) : option bool :=
  let i := fst (nearest_edge vs p (fun e => match intersect_segment_parametric e s with Some _ => true | None => false end)) in
  match get_edge vs i with
  | None => None
  | Some e =>
      let t := closest_parametric e p in
      option_map (fun n => if Rle_dec (vdot (vsub p (seg_at e t)) n) 0 then true else false) (pseudonormal vs i t)
  end.
(** 104-157 [intersects_segment]; the flag [intersects] is set at 128 and never read *)
Definition intersects_segment (vs : list vec2) (s : seg) : option bool :=
  match vs with
  | [] => Some false
  | _ => match endpoint_inside vs s (sg_start s) with
         | None => None
         | Some true => Some true
         | Some false => endpoint_inside vs s (sg_end s)
         end
  end.

(** 71-102 [closest_edge]: signed distance, parameter, point, index; [None] when there is no edge *)
Definition signum (x : R) : R := if Rlt_dec x 0 then -1 else 1.
Definition closest_edge (vs : list vec2) (p : vec2) : option (R * R * vec2 * nat) :=
  match nearest_edge vs p (fun _ => false) with
  | (_, None) => None
  | (i, Some _) =>
      match get_edge vs i with
      | None => None
      | Some e =>
          let t := closest_parametric e p in
          let q := seg_at e t in
          let d := vsub p q in
          option_map (fun n => (signum (vdot d n) * vnorm d, t, q, i)) (pseudonormal vs i t)
      end
  end.

(** 384-389 [distance] of a polygon; [None] is a panic *)
Definition polygon_distance (vs : list vec2) (p : vec2) : option R := option_map (fun r => Rmax (fst (fst (fst r))) 0) (closest_edge vs p).

(** * triangle.rs 207-245 [query_signed_distance] of a triangle in the plane *)
Record sd_result := SdResult { sd_feature : nat; sd_point : vec2; sd_distance : R }.
(** 217-236: one pass of the loop *)
Definition sd_step (t : nat -> vec2) (p : vec2) (acc : bool * nat * option R * vec2) (i : nat) : bool * nat * option R * vec2 :=
  let '(inside, feature, best, point) := acc in
    let s := Seg (t i) (t ((i + 1) mod 3)%nat) in
    let q := closest_point s p in
    let d := vsub p q in
    let inside := if Rlt_dec 0 (vdot d (normal_dir s)) then false else inside in
    let dist2 := vdot d d in
    match best with
    | Some b => if Rlt_dec dist2 b then (inside, i, Some dist2, q) else (inside, feature, best, point)
    | None => (inside, i, Some dist2, q)
    end.
Definition triangle_sd (t : nat -> vec2) (p : vec2) : sd_result :=
  let '(inside, feature, best, point) := fold_left (sd_step t p) (seq 0 3) (true, 0%nat, None, (0, 0)) in
  SdResult feature point ((if inside : bool then -1 else 1) * sqrt (match best with Some b => b | None => 0 end)).
(** 197-200 *)
Definition triangle_distance (t : nat -> vec2) (p : vec2) : R := Rmax 0 (sd_distance (triangle_sd t p)).

(** * segments in any dimension, line.rs 109-128 and 327-337 *)
Section AnyDimension.
  Variable D : nat.
  Definition dseg_at (a b : vec) (t : R) : vec := fun i => a i + (b i - a i) * t.
  Definition dproject (a b p : vec) : R :=
    let d := fun i => b i - a i in
    let d2 := dot D d d in
    if Req_EM_T d2 0 then 0 else dot D (fun i => p i - a i) d / d2.
  Definition dclosest_parametric (a b p : vec) : R := clamp (dproject a b p) 0 1.
  Definition dclosest (a b p : vec) : vec := dseg_at a b (dclosest_parametric a b p).
  Definition dmidpoint (a b : vec) : vec := fun i => (a i + b i) / (1 + 1).
End AnyDimension.

(** * segments and planes in space, line.rs 13-40; [signum] of a real, zero counting as positive; the code has dimension 3, which the model does not use *)
Definition closest_to_plane_parametric (D : nat) (n x0 a b : vec) : R :=
  let nTd := dot D n (fun i => b i - a i) in
  let nTy := dot D n (fun i => x0 i - a i) in
  if Req_EM_T (signum nTd) (signum nTy) then if Rle_dec (Rabs nTd) (Rabs nTy) then 1 else nTy / nTd else 0.
(** 423-433, 268-272 *)
Definition line_plane_parametric (D : nat) (n x0 p d : vec) : option R :=
  let dn := dot D d n in if Req_EM_T dn 0 then None else Some (- dot D (fun i => p i - x0 i) n / dn).
Definition seg_plane_parametric (D : nat) (n x0 a b : vec) : option R :=
  match line_plane_parametric D n x0 a (fun i => b i - a i) with
  | Some t => if Rle_dec 0 t then if Rle_dec t 1 then Some t else None else None
  | None => None
  end.

(** * polygons in space, polygon.rs 266-305; edges and clipping by a half space with point [x0] and normal [n] *)
Definition hs_contains (D : nat) (n x0 p : vec) : bool := if Rle_dec (dot D n (fun i => p i - x0 i)) 0 then true else false.
Definition clip3_edge (D : nat) (n x0 : vec) (e : vec * vec) : list vec :=
  let '(a, b) := e in
  let ca := hs_contains D n x0 a in let cb := hs_contains D n x0 b in
  (if ca then [a] else []) ++
  (if Bool.eqb ca cb then []
   else let t := match line_plane_parametric D n x0 a (fun i => b i - a i) with Some t => clamp t 0 1 | None => 0 end in [dseg_at a b t]).
Definition clip3 (D : nat) (vs : list vec) (n x0 : vec) : list vec := flat_map (clip3_edge D n x0) (edges vs).
(** 250-260: the area vector, component [k] of the cross product being (k+1, k+2) *)
Definition cross_comp (k : nat) (a b : vec) : R :=
  let i := ((k + 1) mod 3)%nat in let j := ((k + 2) mod 3)%nat in a i * b j - a j * b i.
Definition area_vector (vs : list vec) (k : nat) : R :=
  fold_left (fun acc i => match nth_error vs (i mod length vs), nth_error vs ((i + 1) mod length vs) with Some a, Some b => acc + cross_comp k a b | _, _ => acc end)
    (seq 0 (length vs)) 0 * (1/2).

(** Vocabulary for the properties of polymeshes, independent of the algorithms. *)
From stdpp Require Import base list list_numbers.
From Verif Require Import PolyModel.

(** all indices are in bounds *)
Definition pm_ok {V} (m : polymesh V) : Prop :=
  Forall (Forall (fun v => v < length (pm_vertices m))) (pm_faces m) /\ Forall (Forall (fun f => f < length (pm_faces m))) (pm_cells m).
(** the polygon of a face, and the polygons of the faces of every cell *)
Definition polygon_of {V} (m : polymesh V) (f : nat) : option (list V) :=
  face ← pm_faces m !! f; mapM (fun v => pm_vertices m !! v) face.
Definition polygons {V} (m : polymesh V) : option (list (list (list V))) := mapM (mapM (polygon_of m)) (pm_cells m).
(** how often an index occurs in a list *)
Definition occ (f : nat) (l : list nat) : nat := length (filter (fun x => x = f) l).
(** [a] is followed by [b] on the closed loop [face] *)
Definition is_side {A} (face : list A) (a b : A) : Prop := exists i, face !! i = Some a /\ face !! (S i mod length face) = Some b.

(** ** Triangulation *)
(** the fan of triangles of a face: its first smallest vertex [a] with every side that does not contain that vertex *)
Definition is_fan (face : list nat) (ts : list (list nat)) : Prop :=
  exists l1 a l2, face = l1 ++ a :: l2 /\ (forall x, x ∈ l1 -> a < x) /\ (forall x, x ∈ l2 -> a <= x) /\
  ts = zip_with (fun b c => [a; b; c]) (l2 ++ l1) (tail (l2 ++ l1)).
(** the tetrahedra of a cell: the smallest vertex [v] of the cell with every triangle of every face that does not contain [v] *)
Definition is_cone (faces : list (list nat)) (cell : list nat) (tets : list (list nat * nat)) : Prop :=
  (cell = [] /\ tets = []) \/
  exists v tss, (exists f face, f ∈ cell /\ faces !! f = Some face /\ v ∈ face) /\
    (forall f face x, f ∈ cell -> faces !! f = Some face -> x ∈ face -> v <= x) /\
    Forall2 (fun f ts => exists face, faces !! f = Some face /\ ((v ∈ face /\ ts = []) \/ (v ∉ face /\ exists fs, is_fan face fs /\ ts = map (fun t => (t, v)) fs))) cell tss /\
    tets = concat tss.
(** a cell of triangles that are the faces of the tetrahedron over [t] with apex [v] *)
Definition is_tet_cell (faces : list (list nat)) (cell : list nat) (tv : list nat * nat) : Prop :=
  exists a b c f0 f1 f2 f3 g0 g1 g2 g3, tv.1 = [a; b; c] /\ tv.2 ∉ tv.1 /\ cell = [f0; f1; f2; f3] /\
  faces !! f0 = Some g0 /\ faces !! f1 = Some g1 /\ faces !! f2 = Some g2 /\ faces !! f3 = Some g3 /\
  g0 ≡ₚ [a; b; c] /\ g1 ≡ₚ [a; b; tv.2] /\ g2 ≡ₚ [b; c; tv.2] /\ g3 ≡ₚ [c; a; tv.2].

(** ** Clipping *)
(** the sides of a closed loop *)
Definition sides {A} (l : list A) : list (A * A) := match l with [] => [] | x :: r => zip l (r ++ [x]) end.
(** A vertex of the clipped mesh is a pair of old vertices [a <= b]: the old vertex [a] if [a = b], the cut point between [a] and [b] otherwise. *)
Definition upair (a b : nat) : nat * nat := if decide (a <= b) then (a, b) else (b, a).
(** a loop clipped to its inside: the inside vertices and, where a side changes between inside and outside, the cut point *)
Definition clip_loop (inside : nat -> bool) (face : list nat) : list (nat * nat) :=
  concat (map (fun s : nat * nat => (if inside s.1 then [(s.1, s.1)] else []) ++ (if eqb (inside s.1) (inside s.2) then [] else [upair s.1 s.2])) (sides face)).
(** the chords of a clipped loop: its sides between two cut points *)
Definition chords (out : list (nat * nat)) : list ((nat * nat) * (nat * nat)) :=
  filter (fun e => e.1.1 <> e.1.2 /\ e.2.1 <> e.2.2) (sides out).
(** the number of pairs that join [x] and [y], in any direction *)
Definition joins {A} `{EqDecision A} (x y : A) (ps : list (A * A)) : nat := length (filter (fun p => p = (x, y) \/ p = (y, x)) ps).
(** every two points are joined by an even number of sides of the loops: no side is open *)
Definition closed {A} `{EqDecision A} (loops : list (list A)) : Prop := forall x y, x <> y -> Nat.Even (joins x y (concat (map sides loops))).

(** Model of fenris-geometry/src/polymesh.rs and of the conversions between meshes and polymeshes in src/mesh_convert.rs.
    Nested vectors are lists of lists (fenris-nested-vec has its own model), indices are natural numbers, [None] is a panic. *)
From stdpp Require Import base list list_numbers sorting.
From Verif Require Import Prelude ReorderModel MeshModel.

(** polymesh.rs:60-77 *)
Record polymesh (V : Type) := PolyMesh { pm_vertices : list V; pm_faces : list (list nat); pm_cells : list (list nat) }.
Arguments PolyMesh {V} _ _ _.
Arguments pm_vertices {V} _.
Arguments pm_faces {V} _.
Arguments pm_cells {V} _.

(** polymesh.rs:91-110 [from_poly_data]: panics on an index out of bounds. *)
Definition from_poly_data {V} (vertices : list V) (faces cells : list (list nat)) : option (polymesh V) :=
  if decide (Forall (Forall (fun v => v < length vertices)) faces) then
    if decide (Forall (Forall (fun f => f < length faces)) cells) then Some (PolyMesh vertices faces cells) else None
  else None.

(** polymesh.rs:157-177 [compute_face_cell_connectivity]. *)
Definition face_cell_connectivity {V} (m : polymesh V) : option (list (list nat)) :=
  foldl (fun acc (ic : nat * list nat) =>
      rows ← acc;
      foldl (fun acc f => rows ← acc; row ← rows !! f; Some (<[f := row ++ [ic.1]]> rows)) (Some rows) ic.2)
    (Some (replicate (length (pm_faces m)) [])) (imap pair (pm_cells m)).

(** A hash map as an association list, the latest entry first. *)
Fixpoint assoc {K A} `{EqDecision K} (k : K) (m : list (K * A)) : option A :=
  match m with [] => None | (k', a) :: m' => if decide (k = k') then Some a else assoc k m' end.

(** polymesh.rs:192-211: one face; faces so far, map from sorted faces to labels, labels so far. *)
Definition dedup_step (st : list (list nat) * list (list nat * nat) * list nat) (face : list nat) :=
  let '(faces, seen, relabel) := st in
  let key := sort_nat face in
  match assoc key seen with
  | Some j => (faces, seen, relabel ++ [j])
  | None => (faces ++ [face], (key, length faces) :: seen, relabel ++ [length faces])
  end.
(** polymesh.rs:183-222 [dedup_faces]. *)
Definition dedup_faces {V} (m : polymesh V) : option (polymesh V) :=
  let '(faces, _, relabel) := foldl dedup_step ([], [], []) (pm_faces m) in
  cells ← mapM (mapM (fun f => relabel !! f)) (pm_cells m);
  Some (PolyMesh (pm_vertices m) faces cells).

(** polymesh.rs:225-239 [find_boundary_faces]. *)
Definition poly_boundary_faces {V} (m : polymesh V) : option (list nat) :=
  counts ← foldl (fun acc (cell : list nat) =>
      foldl (fun acc f => counts ← acc; c ← counts !! f; Some (<[f := c + 1]> counts)) acc cell)
    (Some (replicate (length (pm_faces m)) 0)) (pm_cells m);
  Some (omap (fun ic : nat * nat => if decide (ic.2 <= 1) then Some ic.1 else None) (imap pair counts)).

(** polymesh.rs:245-277 [concatenate]. *)
Definition concatenate {V} (meshes : list (polymesh V)) : option (polymesh V) :=
  let '(vertices, faces, cells, _, _) :=
    foldl (fun (st : list V * list (list nat) * list (list nat) * nat * nat) m =>
        let '(vertices, faces, cells, vo, fo) := st in
        (vertices ++ pm_vertices m, faces ++ map (map (fun v => v + vo)) (pm_faces m), cells ++ map (map (fun f => f + fo)) (pm_cells m),
         vo + length (pm_vertices m), fo + length (pm_faces m)))
      ([], [], [], 0, 0) meshes in
  from_poly_data vertices faces cells.

(** [.cycle().take(n + 1).tuple_windows()] and [.chain(first).tuple_windows()] *)
Definition cyclic_pairs {A} (l : list A) : list (A * A) :=
  match l with [] => [] | x :: r => zip (x :: r) (r ++ [x]) end.

(** polymesh.rs:306-317: one edge of a face; the new vertices, the map from edges and the new face so far. *)
Definition split_step {V} (mid : V -> V -> V) (vertices : list V)
    (st : option (list V * list (nat * nat * nat) * list nat)) (e : nat * nat) : option (list V * list (nat * nat * nat) * list nat) :=
  '(added, seen, face) ← st;
  let edge := (e.1 `min` e.2, e.1 `max` e.2) in
  match assoc edge seen with
  | Some k => Some (added, seen, face ++ [e.1; k])
  | None =>
      a ← vertices !! e.1; b ← vertices !! e.2;
      let k := length vertices + length added in
      Some (added ++ [mid a b], (edge, k) :: seen, face ++ [e.1; k])
  end.
(** polymesh.rs:295-323 [split_edges]; [mid] is the midpoint of two points. *)
Definition split_edges {V} (mid : V -> V -> V) (m : polymesh V) : option (polymesh V) :=
  '(added, _, faces) ← foldl (fun (acc : option (list V * list (nat * nat * nat) * list (list nat))) face =>
      '(added, seen, faces) ← acc;
      '(added, seen, face') ← foldl (split_step mid (pm_vertices m)) (Some (added, seen, [])) (cyclic_pairs face);
      Some (added, seen, faces ++ [face'])) (Some ([], [], [])) (pm_faces m);
  Some (PolyMesh (pm_vertices m ++ added) faces (pm_cells m)).
(** polymesh.rs:287-291 [split_edges_n_times]. *)
Fixpoint split_edges_n {V} (mid : V -> V -> V) (n : nat) (m : polymesh V) : option (polymesh V) :=
  match n with O => Some m | S n => m ← split_edges mid m; split_edges_n mid n m end.

(** [min_by_key]: position and value of the first smallest element. *)
Fixpoint min_pos (l : list nat) : option (nat * nat) :=
  match l with
  | [] => None
  | x :: l => match min_pos l with Some (i, y) => if decide (y < x) then Some (S i, y) else Some (0, x) | None => Some (0, x) end
  end.
(** polymesh.rs:357-371: the triangles of a face. *)
Definition fan (face : list nat) : option (list (list nat)) :=
  '(k, a) ← min_pos face;
  mapM (fun i => b ← face !! ((i + 1 + k) mod length face); c ← face !! ((i + 2 + k) mod length face); Some [a; b; c]) (seq 0 (length face - 2)).
(** polymesh.rs:409-432: the tetrahedra over the triangles of one face; triangles and cells so far. *)
Definition cone_step (v : nat) (st : option (list (list nat) * list (list nat))) (t : nat) : option (list (list nat) * list (list nat)) :=
  '(tris, cells) ← st;
  tri ← tris !! t;
  match tri with
  | [a; b; c] => let n := length tris in Some (tris ++ [[a; b; v]; [b; c; v]; [c; a; v]], cells ++ [[t; n; n + 1; n + 2]])
  | _ => None
  end.
(** polymesh.rs:376-436: one cell *)
Definition cone_cell (faces : list (list nat)) (face_map : list (list nat)) (st : option (list (list nat) * list (list nat))) (cell : list nat) :=
  match cell with
  | [] => st
  | _ =>
      vs ← mapM (fun f => faces !! f) cell;
      '(_, v) ← min_pos (concat vs);
      foldl (fun st (f : nat) =>
          face ← faces !! f;
          if decide (v ∈ (face : list nat)) then st else ts ← face_map !! f; foldl (cone_step v) st ts) st cell
  end.
(** polymesh.rs:338-443 [triangulate]. *)
Definition triangulate_mesh {V} (m : polymesh V) : outcome unit (polymesh V) :=
  if decide (Forall (fun f : list nat => 3 <= length f) (pm_faces m)) then
    match (
      fans ← mapM fan (pm_faces m);
      let face_map := (foldl (fun (acc : list (list nat) * nat) (f : list (list nat)) => (acc.1 ++ [seq acc.2 (length f)], acc.2 + length f)) ([], 0) fans).1 in
      '(tris, cells) ← foldl (cone_cell (pm_faces m) face_map) (Some (concat fans, [])) (pm_cells m);
      p ← from_poly_data (pm_vertices m) tris cells;
      dedup_faces p) with
    | Some p => Ok p
    | None => Panic
    end
  else Err tt.

(** [BTreeSet] of natural numbers in order *)
Definition btree_set (l : list nat) : list nat := dedup (sort_nat l).
(** polymesh.rs:445-502 [keep_cells]. *)
Definition poly_keep_cells {V} (m : polymesh V) (idx : list nat) : option (polymesh V) :=
  kept ← mapM (fun c => pm_cells m !! c) idx;
  let keep_faces := btree_set (concat kept) in
  faces ← mapM (fun f => pm_faces m !! f) keep_faces;
  let keep_vertices := btree_set (concat faces) in
  let fmap := imap (fun i f => (f, i)) keep_faces in
  let vmap := imap (fun i v => (v, i)) keep_vertices in
  vertices ← mapM (fun v => pm_vertices m !! v) keep_vertices;
  new_faces ← mapM (mapM (map_get vmap)) faces;
  new_cells ← mapM (mapM (map_get fmap)) kept;
  from_poly_data vertices new_faces new_cells.

(** ** Intersection with a half space, polymesh.rs:576-735 *)
(** polymesh.rs:20-31 [UndirectedEdge] *)
Definition uedge (a b : nat) : nat * nat := (a `min` b, a `max` b).
(** polymesh.rs:588-621: the clipped face and whether it is cut; [inside] is the table of vertices in the half space *)
Definition clip_face (inside : list bool) (face : list nat) : option (list (nat * nat) * bool) :=
  foldl (fun acc (e : nat * nat) =>
      '(out, is_cut) ← acc;
      a ← inside !! e.1; b ← inside !! e.2;
      Some (out ++ (if a : bool then [uedge e.1 e.1] else []) ++ (if eqb a b then [] else [uedge e.1 e.2]), is_cut || negb (eqb a b)))
    (Some ([], false)) (cyclic_pairs face).
Inductive classification := Inside | Outside | Cut.
Definition classify (out : list (nat * nat)) (is_cut : bool) : classification :=
  match out with [] => Outside | _ => if is_cut then Cut else Inside end.
Definition is_cut_vertex (e : nat * nat) : bool := negb (e.1 =? e.2).
(** polymesh.rs:646-661: the edges of a cut face between two cut vertices *)
Definition cut_edges (out : list (nat * nat)) : list ((nat * nat) * (nat * nat)) :=
  filter (fun e => is_cut_vertex e.1 && is_cut_vertex e.2 = true) (cyclic_pairs out).
(** [Vec::swap_remove] *)
Definition swap_remove {A} (l : list A) (i : nat) : list A :=
  match last l with
  | None => l
  | Some z => if decide (i + 1 = length l) then take i l else <[i := z]> (take (length l - 1) l)
  end.
(** polymesh.rs:684-695: follow the edges from [next]; the fuel is the number of edges *)
Fixpoint follow (fuel : nat) (edges : list ((nat * nat) * (nat * nat))) (next : nat * nat) (face : list (nat * nat)) :
    list ((nat * nat) * (nat * nat)) * list (nat * nat) :=
  match fuel with
  | O => (edges, face)
  | S fuel =>
      match list_find (fun e : (nat * nat) * (nat * nat) => e.1 = next \/ e.2 = next) edges with
      | None => (edges, face)
      | Some (i, e) =>
          if decide (e.1 = next) then follow fuel (swap_remove edges i) e.2 (face ++ [e.1])
          else follow fuel (swap_remove edges i) e.1 (face ++ [e.2])
      end
  end.
(** polymesh.rs:671-699: the caps of one cell *)
Fixpoint caps (fuel : nat) (edges : list ((nat * nat) * (nat * nat))) : list (list (nat * nat)) :=
  match fuel with
  | O => []
  | S fuel =>
      match last edges with
      | None => []
      | Some e => let '(rest, face) := follow (length edges) (take (length edges - 1) edges) e.2 [e.1] in face :: caps fuel rest
      end
  end.
(** polymesh.rs:635-700: one cell; the faces and the new cells so far *)
Definition clip_cell (clipped : list (list (nat * nat) * bool)) (st : option (list (list (nat * nat)) * list (list nat))) (cell : list nat) :=
  '(faces, cells) ← st;
  '(kept, edges) ← foldl (fun acc f =>
      '(kept, edges) ← acc;
      '(out, is_cut) ← clipped !! f;
      match classify out is_cut with
      | Inside => Some (kept ++ [f], edges)
      | Outside => Some (kept, edges)
      | Cut => Some (kept ++ [f], edges ++ cut_edges out)
      end) (Some ([], [])) cell;
  let new := caps (length edges) edges in
  Some (faces ++ new, cells ++ [kept ++ seq (length faces) (length new)]).
(** polymesh.rs:737-755: labels of the vertices in the order of their first occurrence *)
Definition vertex_labels (reps : list (nat * nat)) : list ((nat * nat) * nat) :=
  foldl (fun seen e => match assoc e seen with Some _ => seen | None => (e, length seen) :: seen end) [] reps.
(** polymesh.rs:762-792 *)
Definition relabel_faces (faces : list (list (nat * nat))) (labels : list ((nat * nat) * nat)) : option (list (list nat) * list (nat * nat)) :=
  foldl (fun acc (ie : nat * list (nat * nat)) =>
      '(out, map) ← acc;
      match ie.2 with
      | [] => Some (out, map)
      | _ => face ← mapM (fun e => assoc e labels) ie.2; Some (out ++ [face], (ie.1, length out) :: map)
      end) (Some ([], [])) (imap pair faces).
(** polymesh.rs:576-735; [contains] is the half space, [cut] the closest point to the plane on the segment between two points and
    [origin] the point the vertices are first set to *)
Definition clip_mesh {V} (contains : V -> bool) (cut : V -> V -> V) (origin : V) (m : polymesh V) : option (polymesh V) :=
  let inside := map contains (pm_vertices m) in
  clipped ← mapM (clip_face inside) (pm_faces m);
  '(faces, cells) ← foldl (clip_cell clipped) (Some (map fst clipped, [])) (pm_cells m);
  let labels := vertex_labels (concat faces) in
  vertices ← foldl (fun acc (el : (nat * nat) * nat) =>
      vs ← acc; a ← pm_vertices m !! el.1.1; b ← pm_vertices m !! el.1.2;
      Some (<[el.2 := if decide (el.1.1 = el.1.2) then a else cut a b]> vs)) (Some (replicate (length labels) origin)) labels;
  '(final_faces, map) ← relabel_faces faces labels;
  final_cells ← mapM (mapM (fun f => assoc f map)) (filter (fun c => c <> []) cells);
  from_poly_data vertices final_faces final_cells.

(** polymesh.rs:564-574 [intersect_convex_polyhedron]: one half space after the other *)
Definition clip_all {V H} (contains : H -> V -> bool) (cut : H -> V -> V -> V) (origin : V) (hs : list H) (m : polymesh V) : option (polymesh V) :=
  foldl (fun acc h => m ← acc; clip_mesh (contains h) (cut h) origin m) (Some m) hs.

(** ** Conversions, src/mesh_convert.rs *)
(** mesh_convert.rs:504-563: one face of a cell *)
Definition to_poly_step (cell : list nat) (st : option (list (list nat) * list (list nat * nat) * list nat)) (loc : option (list nat)) :=
  '(faces, seen, out) ← st;
  loc ← loc;
  face ← mapM (fun i => cell !! i) loc;
  let key := sort_nat face in
  match assoc key seen with
  | Some j => Some (faces, seen, out ++ [j])
  | None => Some (faces ++ [face], (key, length faces) :: seen, out ++ [length faces])
  end.
(** mesh_convert.rs:504-563 [From<&Mesh> for PolyMesh] *)
Definition mesh_to_poly {V} (k : conn_kind) (m : mesh V) : option (polymesh V) :=
  '(faces, _, cells) ← foldl (fun (acc : option (list (list nat) * list (list nat * nat) * list (list nat))) cell =>
      '(faces, seen, cells) ← acc;
      '(faces, seen, out) ← foldl (to_poly_step cell) (Some (faces, seen, [])) (map (ck_face k) (seq 0 (ck_num_faces k)));
      Some (faces, seen, cells ++ [out])) (Some ([], [], [])) (ms_cells m);
  from_poly_data (ms_vertices m) faces cells.
(** mesh_convert.rs:588-646: one cell; [below a b c d] is whether [d] is on the negative side of the triangle. *)
Definition cell_to_tet {V} (below : V -> V -> V -> V -> bool) (m : polymesh V) (cell : list nat) : outcome unit (list nat) :=
  match cell with
  | [f0; f1; f2; f3] =>
      match mapM (fun f => pm_faces m !! f) [f0; f1; f2; f3] with
      | Some [base; g1; g2; g3] =>
          match base with
          | [a; b; c] =>
              match filter (fun i => i ∉ [a; b; c]) g1 with
              | [] => Err tt
              | apex :: _ =>
                  if decide (Forall (fun g => Forall (fun i => i ∈ [a; b; c] \/ apex = i) g) [g1; g2; g3]) then
                    match mapM (fun i => pm_vertices m !! i) [a; b; c; apex] with
                    | Some [va; vb; vc; vd] => Ok (if below va vb vc vd then [b; a; c; apex] else [a; b; c; apex])
                    | _ => Panic
                    end
                  else Err tt
              end
          | _ => Panic
          end
      | _ => Panic
      end
  | _ => Err tt
  end.
(** mesh_convert.rs:565-656 [TryFrom<&PolyMesh3d> for Tet4Mesh] *)
Definition poly_to_tet {V} (below : V -> V -> V -> V -> bool) (m : polymesh V) : outcome unit (mesh V) :=
  let! cells := ofold (fun acc cell => let! t := cell_to_tet below m cell in Ok (acc ++ [t])) [] (pm_cells m) in
  Ok (Mesh (pm_vertices m) cells).
(** mesh_convert.rs:490-502 [From<&HexMesh> for Tet4Mesh] *)
Definition hex_to_tet {V} (below : V -> V -> V -> V -> bool) (m : mesh V) : option (mesh V) :=
  p ← mesh_to_poly hex8_kind m;
  match triangulate_mesh p with
  | Ok p => match poly_to_tet below p with Ok t => Some t | _ => None end
  | _ => None
  end.

(** Model of src/mesh/reorder.rs. *)
From stdpp Require Import base list list_numbers.
From Verif Require Import Prelude NestedVecModel ParadisModel VectorModel CsrModel.

(** reorder.rs:100-103 [Permutation], by its field [perm]; 106-108 [InvalidPermutation]. *)
Notation permutation := (list nat) (only parsing).
Inductive invalid_permutation := InvalidPermutation.

(** reorder.rs:119-129 [from_vec]; indexing [visited] out of range panics. *)
Definition perm_from_vec (perm : list nat) : outcome invalid_permutation permutation :=
  let! _ := ofold (fun visited index =>
      match visited !! index with
      | Some true => Err InvalidPermutation
      | Some false => Ok (<[index := true]> visited)
      | None => Panic
      end) (replicate (length perm) false) perm in
  Ok perm.

(** reorder.rs:139-141 [reverse]. *)
Definition perm_reverse (p : permutation) : permutation := reverse p.

(** reorder.rs:143-145 [source_index]. *)
Definition source_index {E} (p : permutation) (target : nat) : outcome E nat :=
  match p !! target with Some s => Ok s | None => Panic end.

(** reorder.rs:147-155 [inverse]; [umax] is usize::MAX. The [unwrap] turns an error into a panic. *)
Definition perm_inverse {E} (umax : nat) (p : permutation) : outcome E permutation :=
  match ofold (E := invalid_permutation) (fun inv '(target, source) =>
      if decide (source < length inv) then Ok (<[source := target]> inv) else Panic)
      (replicate (length p) umax) (zip (seq 0 (length p)) p) with
  | Ok inv => match perm_from_vec inv with Ok q => Ok q | _ => Panic end
  | _ => Panic
  end.

(** [for x in xs] collecting results that may panic. *)
Definition omapM {E A B} (f : A -> outcome E B) (xs : list A) : outcome E (list B) :=
  ofold (fun acc x => let! y := f x in Ok (acc ++ [y])) [] xs.

(** reorder.rs:157-167 [apply_to_slice]. *)
Definition apply_to_slice {E T} (p : permutation) (slice : list T) : outcome E (list T) :=
  if decide (length slice = length p) then
    omapM (fun src => match slice !! src with Some x => Ok x | None => Panic end) p
  else Panic.

(** ** Cuthill-McKee *)

(** reorder.rs:178 [adjacent_vertices]; [lane] panics out of range. *)
Definition adjacent {E} (p : pattern) (v : nat) : outcome E (list nat) :=
  match pat_row p v with Some (_, cs) => Ok cs | None => Panic end.

Record cm_state := CmState { cm_queue : list nat; cm_perm : list nat; cm_visited : list bool }.

(** reorder.rs:216-221: the loop over the sorted neighbours. *)
Definition cm_push {E} (st : list bool * list nat) (a : nat) : outcome E (list bool * list nat) :=
  match st.1 !! a with
  | Some false => Ok (<[a := true]> st.1, st.2 ++ [a])
  | Some true => Ok st
  | None => Panic
  end.

(** reorder.rs:206-222: the inner loop on fuel; [None] is fuel exhaustion (excluded by theorem). [srt v ws] is the
    result of [sort_unstable_by_key] on the neighbours [ws] of [v] by degree: ties in any order. *)
Fixpoint cm_search {E} (srt : nat -> list nat -> list nat) (p : pattern) (fuel : nat) (st : cm_state)
  : option (outcome E cm_state) :=
  match cm_queue st with
  | [] => Some (Ok st)
  | v :: queue =>
      match fuel with
      | 0 => None
      | S fuel =>
          match adjacent p v with
          | Ok ws =>
              match ofold cm_push (cm_visited st, queue) (srt v ws) with
              | Ok r => cm_search srt p fuel (CmState r.2 (cm_perm st ++ [v]) r.1)
              | Err e => Some (Err e)
              | Panic => Some Panic
              end
          | Err e => Some (Err e)
          | Panic => Some Panic
          end
      end
  end.

(** reorder.rs:198-200: first unvisited vertex of least degree ([min_by_key] returns the first minimum). *)
Definition least_degree (p : pattern) (visited : list bool) : option nat :=
  foldl (fun best v =>
      if decide (visited !! v = Some false) then
        let deg u := match pat_row p u with Some (_, cs) => length cs | None => 0 end in
        match best with
        | Some b => if decide (deg v < deg b) then Some v else Some b
        | None => Some v
        end
      else best) None (seq 0 (pt_nrows p)).

(** reorder.rs:194-224: the outer loop on fuel. *)
Fixpoint cm_outer {E} srt (p : pattern) (fuel : nat) (st : cm_state) : option (outcome E cm_state) :=
  if existsb negb (cm_visited st) then
    match fuel with
    | 0 => None
    | S fuel =>
        match least_degree p (cm_visited st) with
        | Some start =>
            match cm_search srt p (pt_nrows p)
                (CmState (cm_queue st ++ [start]) (cm_perm st) (<[start := true]> (cm_visited st))) with
            | Some (Ok st) => cm_outer srt p fuel st
            | r => r
            end
        | None => cm_outer srt p fuel st
        end
    end
  else Some (Ok st).

(** reorder.rs:171-232 [cuthill_mckee]. *)
Definition cuthill_mckee (srt : nat -> list nat -> list nat) (p : pattern) : option (outcome Empty_set permutation) :=
  if decide (pt_nrows p = pt_ncols p) then
    match cm_outer srt p (pt_nrows p) (CmState [] [] (replicate (pt_nrows p) false)) with
    | Some (Ok st) =>
        if decide (length (cm_perm st) = pt_nrows p) then
          match perm_from_vec (cm_perm st) with Ok q => Some (Ok q) | _ => Some Panic end
        else Some Panic
    | Some (Err e) => Some (Err e)
    | Some Panic => Some Panic
    | None => None
    end
  else Some Panic.

(** reorder.rs:236-240 [reverse_cuthill_mckee]. *)
Definition reverse_cuthill_mckee srt p : option (outcome Empty_set permutation) :=
  match cuthill_mckee srt p with Some (Ok q) => Some (Ok (perm_reverse q)) | r => r end.

(** ** Meshes *)

(** src/mesh.rs [Mesh]: vertices and connectivity, cells by their vertex indices. *)
Record mesh (V : Type) := Mesh { ms_vertices : list V; ms_cells : list (list nat) }.
Arguments Mesh {V} _ _.
Arguments ms_vertices {V} _.
Arguments ms_cells {V} _.

(** src/assembly/local.rs:50-76 [ElementConnectivityAssembler for Mesh] (solution dimension 1). *)
Definition mesh_conn {V} (m : mesh V) : conn_asm :=
  ConnAsm 1 (length (ms_vertices m)) (length (ms_cells m))
    (fun i => length (default [] (ms_cells m !! i))) (fun i _ => default [] (ms_cells m !! i)).

(** reorder.rs:14-17 [MeshPermutation]. *)
Record mesh_perm := MeshPerm { mp_vertex : permutation; mp_cells : permutation }.

(** reorder.rs:28-50 [MeshPermutation::apply]. *)
Definition mesh_perm_apply {E V} (umax : nat) (mp : mesh_perm) (m : mesh V) : outcome E (mesh V) :=
  let! new_vertices := apply_to_slice (mp_vertex mp) (ms_vertices m) in
  let! inv := perm_inverse umax (mp_vertex mp) in
  let! new_cells := apply_to_slice (mp_cells mp) (ms_cells m) in
  let! new_cells := omapM (omapM (source_index inv)) new_cells in
  Ok (Mesh new_vertices new_cells).

(** [Iterator::min] on numbers. *)
Definition list_min (l : list nat) : option nat :=
  foldl (fun best x => match best with Some b => Some (min b x) | None => Some x end) None l.

(** reorder.rs:66-88: [reorder_mesh_par] after the pattern. [cell_srt keys] is the result of sorting the cell
    indices by key (None before Some); [sort_by_key] is stable, the model allows any order of equal keys. [None] is
    fuel exhaustion in [reverse_cuthill_mckee]. *)
Definition reorder_from_pattern {V} (umax : nat) srt (cell_srt : list (option nat) -> list nat) (m : mesh V) (p : pattern)
  : option (outcome Empty_set mesh_perm) :=
  match reverse_cuthill_mckee srt p with
  | Some (Ok vp) => Some (
      let! inv := perm_inverse umax vp in
      let! keys := omapM (fun cell => let! new := omapM (source_index inv) cell in Ok (list_min new)) (ms_cells m) in
      match perm_from_vec (cell_srt keys) with
      | Ok cp => Ok (MeshPerm vp cp)
      | _ => Panic
      end)
  | Some (Err e) => Some (Err e)
  | Some Panic => Some Panic
  | None => None
  end.

(** reorder.rs:54-89 [reorder_mesh_par], possible results: the first step is the parallel pattern assembly of C13. *)
Inductive reorder_mesh_par {V} ord (size umax : nat) srt cell_srt (m : mesh V)
  : option (outcome Empty_set mesh_perm) -> Prop :=
| reorder_run r : par_assemble_pattern ord size umax (mesh_conn m) r ->
    reorder_mesh_par ord size umax srt cell_srt m
      (match r with Ok p => reorder_from_pattern umax srt cell_srt m p | Err e => Some (Err e) | Panic => Some Panic end).

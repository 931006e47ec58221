(** Specification vocabulary for boundaries and restrictions of meshes. *)
From stdpp Require Import base list list_numbers sorting.
From Verif Require Import Prelude ReorderModel MeshModel.

(** The connectivity type is consistent: each of its faces exists and refers to nodes of the cell. *)
Definition kind_ok (k : conn_kind) : Prop :=
  forall i, i < ck_num_faces k -> exists t, ck_face k i = Some t /\ Forall (fun j => j < ck_size k) t.

Definition cells_of_kind (k : conn_kind) (cells : list (list nat)) : Prop := Forall (fun cell => length cell = ck_size k) cells.

(** [f] is face number [l] of cell number [c]. *)
Definition is_face (k : conn_kind) (cells : list (list nat)) (f : list nat) (c l : nat) : Prop :=
  l < ck_num_faces k /\ exists cell t, cells !! c = Some cell /\ ck_face k l = Some t /\ Forall2 (fun j v => cell !! j = Some v) t f.

(** No other face of any cell has the same vertices. *)
Definition is_boundary_face (k : conn_kind) (cells : list (list nat)) (f : list nat) (c l : nat) : Prop :=
  is_face k cells f c l /\ forall f' c' l', is_face k cells f' c' l' -> f' ≡ₚ f -> c' = c /\ l' = l.

(** Lexicographic order. *)
Inductive lex_lt : list nat -> list nat -> Prop :=
| lex_nil x b : lex_lt [] (x :: b)
| lex_head x y a b : x < y -> lex_lt (x :: a) (y :: b)
| lex_tail x a b : lex_lt a b -> lex_lt (x :: a) (x :: b).

(** [s] is [l] sorted. *)
Definition sorted_version (l s : list nat) : Prop := s ≡ₚ l /\ StronglySorted (≤) s.

(** [kept] lists the vertices used by the chosen cells, increasingly. *)
Definition used_vertices (cells : list (list nat)) (chosen kept : list nat) : Prop :=
  StronglySorted (<) kept /\
  forall v, v ∈ kept <-> exists i c cell, chosen !! i = Some c /\ cells !! c = Some cell /\ v ∈ cell.

(** [m'] is [m] restricted to the chosen cells: its vertices are the [kept] ones, and its cells the chosen ones
    relabelled accordingly. *)
Definition restricts {V} (m : mesh V) (chosen kept : list nat) (m' : mesh V) : Prop :=
  Forall2 (fun v x => ms_vertices m !! v = Some x) kept (ms_vertices m') /\
  Forall2 (fun c cell' => exists cell, ms_cells m !! c = Some cell /\ Forall2 (fun a' a => kept !! a' = Some a) cell' cell)
    chosen (ms_cells m').

(** Specification vocabulary for the conversion to Tet20 meshes. *)
From stdpp Require Import base list list_numbers sorting.
From Coq Require Import Reals.
From Verif Require Import Prelude ReorderModel MeshModel ElementModel ConvertModel FacesSpec ConvertSpec MeshSpec.

(** The corners of a tetrahedron whose mean is node [j] of the cubic tetrahedron, with multiplicity. *)
Definition tet20_corners : list (list nat) :=
  [[0;0;0]; [1;1;1]; [2;2;2]; [3;3;3]; [0;0;1]; [0;1;1]; [0;0;2]; [0;2;2]; [0;0;3]; [0;3;3]; [1;1;2]; [1;2;2]; [1;1;3]; [1;3;3];
   [2;2;3]; [2;3;3]; [0;1;2]; [0;1;3]; [0;2;3]; [1;2;3]].
Definition tet20_parents (cell : list nat) (j : nat) : option (list nat) :=
  loc ← tet20_corners !! j; mapM (fun i => cell !! i) loc.

(** [binary_search]: on strictly sorted keys (lexicographic order) it finds exactly the keys that are present. *)
Definition search_contract (search : list (list nat) -> list nat -> option nat) : Prop :=
  forall l x, StronglySorted lex_lt l ->
    (forall i, search l x = Some i -> l !! i = Some x) /\ (x ∈ l -> search l x <> None).

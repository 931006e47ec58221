(** Specification vocabulary for sparsity patterns and CSR assembly. *)
From stdpp Require Import base list list_numbers sorting.
From Verif Require Import Prelude NestedVecModel ParadisModel ParadisSpec VectorModel VectorSpec CsrModel.

(** Entry (r, c) is stored at position [pos] of the value array. *)
Definition stored (p : pattern) (r c pos : nat) : Prop :=
  exists b e, pt_offs p !! r = Some b /\ pt_offs p !! S r = Some e /\ b <= pos < e /\ pt_cols p !! pos = Some c.

(** Validity of a sparsity pattern, as the unchecked constructor requires it. *)
Definition pat_wf (p : pattern) : Prop :=
  pt_offs p !! 0 = Some 0 /\
  (forall r b e, pt_offs p !! r = Some b -> pt_offs p !! S r = Some e -> b <= e) /\
  last (pt_offs p) = Some (length (pt_cols p)) /\
  (forall r c d i j, stored p r c i -> stored p r d j -> i < j -> c < d) /\
  (forall r c i, stored p r c i -> c < pt_ncols p).

(** Nodes [a] and [b] occur together in some element. *)
Definition coupled (ls : list (list nat)) (a b : nat) : Prop := exists ns, ns ∈ ls /\ a ∈ ns /\ b ∈ ns.

(** The pattern has room for all couplings of the elements [ls], for [s] components per node. *)
Definition has_couplings (s : nat) (ls : list (list nat)) (p : pattern) : Prop :=
  forall r c, 0 < s -> coupled ls (r / s) (c / s) -> exists pos, stored p r c pos.

(** An admissible result of sorting the local indices by key. *)
Definition sorts_by_key (srt : list nat -> list nat) : Prop :=
  forall keys, srt keys ≡ₚ seq 0 (length keys) /\
    StronglySorted (fun i j => forall a b, keys !! i = Some a -> keys !! j = Some b -> a <= b) (srt keys).

Section spec.
Context {T E : Type} (add : T -> T -> T) (zero : T).

(** Square matrix of dimension [n] as a list of rows. *)
Definition square (n : nat) (A : list (list T)) : Prop := length A = n /\ Forall (fun r => length r = n) A.

(** The element-matrix callback: result independent of the buffer, of the right shape. *)
Definition yields_mat (a : @mat_asm T E) (i count : nat) (v : outcome E (list (list T))) : Prop :=
  (forall buf, square (ca_sdim (ma_conn a) * count) buf -> ma_mat a i buf = v) /\
  (forall A, v = Ok A -> square (ca_sdim (ma_conn a) * count) A).

Definition has_mats (a : @mat_asm T E) (ls : list (list nat)) (vs : list (outcome E (list (list T)))) : Prop :=
  length vs = length ls /\
  forall i ns v, ls !! i = Some ns -> vs !! i = Some v -> yields_mat a i (length ns) v.

(** Entry of a matrix given by rows. *)
Definition mat_at (A : list (list T)) (i j : nat) : option T := row ← A !! i; row !! j.

(** Contributions of an element with nodes [ns] and matrix [A] to entry (r, c): one for each pair of local nodes
    that are the nodes of r and c. *)
Definition mat_contrib (s : nat) (ns : list nat) (A : list (list T)) (r c : nat) : list T :=
  '(il, n) ← zip (seq 0 (length ns)) ns; '(jl, m) ← zip (seq 0 (length ns)) ns;
  if decide (n = r / s /\ m = c / s) then option_list (mat_at A (s * il + r mod s) (s * jl + c mod s)) else [].

Definition mat_contribs (s : nat) (ls : list (list nat)) (As : list (list (list T))) (r c : nat) : list T :=
  concat (zip_with (fun ns A => mat_contrib s ns A r c) ls As).

(** [m'] is [m] with the contributions added, entry by entry and in order; nothing else changes. *)
Definition csr_sums (s : nat) (ls : list (list nat)) (As : list (list (list T))) (m m' : csr T) : Prop :=
  cs_pat m' = cs_pat m /\ length (cs_vals m') = length (cs_vals m) /\
  forall r c pos x, stored (cs_pat m) r c pos -> cs_vals m !! pos = Some x ->
    cs_vals m' !! pos = Some (foldl add x (mat_contribs s ls As r c)).

Definition csr_wf (m : csr T) : Prop := pat_wf (cs_pat m) /\ length (cs_vals m) = length (pt_cols (cs_pat m)).

(** Entry (r, c) of the matrix is [x]: stored, or not stored and zero. *)
Definition entry_is (m : csr T) (r c : nat) (x : T) : Prop :=
  (exists pos, stored (cs_pat m) r c pos /\ cs_vals m !! pos = Some x) \/
  ((forall pos, ~ stored (cs_pat m) r c pos) /\ x = zero).

Definition symmetric_mat (A : list (list T)) : Prop := forall i j, mat_at A i j = mat_at A j i.

(** Entry-wise sum. *)
Definition mat_add (A B : list (list T)) : list (list T) := zip_with (zip_with add) A B.

End spec.

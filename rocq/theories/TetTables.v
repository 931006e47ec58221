(** The tetrahedra of the uniform mesh of a box, as shapes relative to a grid cell, and their faces. Auxiliary to C110. *)
From stdpp Require Import base list list_numbers.
From Coq Require Import Lia ZArith.
From Verif Require Import Prelude PatchCells.
Import ListNotations.

(** the corner or the centre with these grid coordinates *)
Definition pnt : Type := bool * (nat * nat * nat).
Definition corner_at (d : nat * nat * nat) : pnt := (false, d).
Definition centre_at (d : nat * nat * nat) : pnt := (true, d).
Definition deltas (a : nat) : list (nat * nat * nat) :=
  match a with 0 => [(1, 0, 1); (1, 1, 1); (1, 1, 0); (1, 0, 0)] | 1 => [(0, 1, 0); (1, 1, 0); (1, 1, 1); (0, 1, 1)] | _ => [(0, 1, 1); (1, 1, 1); (1, 0, 1); (0, 0, 1)] end.
Definition axis_unit (a : nat) : nat * nat * nat := match a with 0 => (1, 0, 0) | 1 => (0, 1, 0) | _ => (0, 0, 1) end.
Definition lower (a : nat) (d : nat * nat * nat) : nat * nat * nat := let '(x, y, z) := d in match a with 0 => (x - 1, y, z) | 1 => (x, y - 1, z) | _ => (x, y, z - 1) end.
Definition inner_shapes (a : nat) : list (list pnt) := let s := deltas a in
  map (fun v => [centre_at (0, 0, 0); centre_at (axis_unit a); corner_at v.2; corner_at v.1]) (zip s (tail s ++ take 1 s)).
Definition pyramid_shapes (face : list (nat * nat * nat)) (even : bool) : list (list pnt) :=
  match face with
  | [a; b; c; d] => if even then [[corner_at a; corner_at b; corner_at c; centre_at (0, 0, 0)]; [corner_at a; corner_at c; corner_at d; centre_at (0, 0, 0)]]
                    else [[corner_at a; corner_at b; corner_at d; centre_at (0, 0, 0)]; [corner_at b; corner_at c; corner_at d; centre_at (0, 0, 0)]]
  | _ => []
  end.
Definition low_shapes (a : nat) (even : bool) : list (list pnt) := pyramid_shapes (map (lower a) (reverse (deltas a))) even.
Definition high_shapes (a : nat) (even : bool) : list (list pnt) := pyramid_shapes (deltas a) even.
(** axis, place (0 between two cells, 1 at the low side, 2 at the high side), parity of the cell, nodes *)
Definition kind : Type := nat * nat * bool * list pnt.
Definition kinds : list kind := Eval vm_compute in
  flat_map (fun a => map (fun s => (a, 0, true, s)) (inner_shapes a) ++ map (fun s => (a, 1, true, s)) (low_shapes a true) ++ map (fun s => (a, 1, false, s)) (low_shapes a false)
                     ++ map (fun s => (a, 2, true, s)) (high_shapes a true) ++ map (fun s => (a, 2, false, s)) (high_shapes a false)) [0; 1; 2].
Definition k_axis (k : kind) : nat := k.1.1.1.
Definition k_place (k : kind) : nat := k.1.1.2.
Definition k_even (k : kind) : bool := k.1.2.
Definition k_shape (k : kind) : list pnt := k.2.

(** faces *)
Definition no_pnt : pnt := (false, (0, 0, 0)).
Definition shape_face (s : list pnt) (l : nat) : list pnt := map (fun j => nth j s no_pnt) (nth l tet4_faces []).
Definition px (p : pnt) : nat := p.2.1.1.
Definition py (p : pnt) : nat := p.2.1.2.
Definition pz (p : pnt) : nat := p.2.2.
Definition least (f : pnt -> nat) (ps : list pnt) : nat := match ps with [] => 0 | p :: ps => foldr (fun q => Nat.min (f q)) (f p) ps end.
Definition corner3 (ps : list pnt) : nat * nat * nat := (least px ps, least py ps, least pz ps).
Definition shift (b : nat * nat * nat) (p : pnt) : pnt := (p.1, (b.1.1 + px p, b.1.2 + py p, b.2 + pz p)).
Definition unshift (b : nat * nat * nat) (p : pnt) : pnt := (p.1, (px p - b.1.1, py p - b.1.2, pz p - b.2)).
Definition key (ps : list pnt) : list pnt := map (unshift (corner3 ps)) ps.
Definition code (p : pnt) : N := ((if p.1 then 256 else 1) * (2 ^ N.of_nat (px p + 2 * py p + 4 * pz p)))%N.
Definition mask (ps : list pnt) : N := foldr (fun p m => (code p + m)%N) 0%N ps.
Record face_kind := FaceKind { f_kind : kind; f_l : nat; f_low : nat * nat * nat; f_key : list pnt; f_mask : N }.
Definition face_kind_of (k : kind) (l : nat) : face_kind := let f := shape_face (k_shape k) l in FaceKind k l (corner3 f) (key f) (mask (key f)).
Definition face_kinds : list face_kind := Eval vm_compute in flat_map (fun k => map (face_kind_of k) (seq 0 4)) kinds.

Definition pnt_eqb (p q : pnt) : bool := Bool.eqb p.1 q.1 && (px p =? px q) && (py p =? py q) && (pz p =? pz q).
Fixpoint pnts_eqb (ps qs : list pnt) : bool := match ps, qs with [], [] => true | p :: ps, q :: qs => pnt_eqb p q && pnts_eqb ps qs | _, _ => false end.
(** the face has no centre *)
Definition outer (g : face_kind) : bool := forallb (fun p : pnt => negb p.1) (f_key g).
Definition same (g g' : face_kind) : bool := pnts_eqb (k_shape (f_kind g)) (k_shape (f_kind g')) && (f_l g =? f_l g').
Definition reversed (g g' : face_kind) : bool := existsb (fun r => pnts_eqb (f_key g') (map (fun j => nth j (f_key g) no_pnt) r)) tri3_reversals.
Definition get (a : nat) (b : nat * nat * nat) : nat := match a with 0 => b.1.1 | 1 => b.1.2 | _ => b.2 end.
(** the cell of [g'] minus that of [g], if the faces agree *)
Definition offset (a : nat) (g g' : face_kind) : Z := (Z.of_nat (get a (f_low g)) - Z.of_nat (get a (f_low g')))%Z.
Definition conflict (g g' : face_kind) : bool :=
  let a := k_axis (f_kind g) in let s := k_place (f_kind g) in let s' := k_place (f_kind g') in let d := offset a g g' in
  (a =? k_axis (f_kind g')) && ((s =? 0) && (s' =? 2) && (d =? 0)%Z || (s =? 2) && (s' =? 0) && (d =? 0)%Z || (s =? 0) && (s' =? 1) && (d =? 1)%Z || (s =? 1) && (s' =? 0) && (d =? -1)%Z
    || (s =? 1) && (s' =? 2) && (d =? -1)%Z || (s =? 2) && (s' =? 1) && (d =? 1)%Z)
  || negb (s =? 0) && negb (s' =? 0) && Bool.eqb (Bool.eqb (k_even (f_kind g)) (k_even (f_kind g'))) (Z.odd (offset 0 g g' + offset 1 g g' + offset 2 g g')).
Definition pair_ok (g g' : face_kind) : bool := negb (f_mask g =? f_mask g')%N || same g g' || conflict g g' || negb (outer g) && reversed g g'.
Definition faces_ok (g : face_kind) : bool := forallb (pair_ok g) face_kinds.
Definition check_faces : bool := forallb faces_ok face_kinds.
Lemma faces_checked : check_faces = true. Proof. vm_compute. reflexivity. Qed.
Lemma pair_checked g g' : In g face_kinds -> In g' face_kinds -> pair_ok g g' = true.
Proof. intros Hg. exact (proj1 (forallb_forall (pair_ok g) face_kinds) (proj1 (forallb_forall faces_ok face_kinds) faces_checked g Hg) g'). Qed.

(** partners: which conditions hold at the cell [base + offset], given those at [base] *)
Record flags := Flags { at_low : nat -> bool; at_high : nat -> bool; is_even : bool }.
Definition in_grid (fl : flags) (g g' : face_kind) : bool := forallb (fun a => let d := offset a g g' in (d =? 0)%Z || (d =? -1)%Z && negb (at_low fl a) || (d =? 1)%Z && negb (at_high fl a)) [0; 1; 2].
Definition parity_fits (fl : flags) (g g' : face_kind) : bool := Bool.eqb (k_even (f_kind g')) (xorb (is_even fl) (Z.odd (offset 0 g g' + offset 1 g g' + offset 2 g g'))).
Definition fits (fl : flags) (g g' : face_kind) : bool :=
  let a := k_axis (f_kind g') in let d := offset a g g' in
  match k_place (f_kind g') with
  | 0 => (d =? 0)%Z && negb (at_high fl a) || (d =? -1)%Z
  | 1 => (d =? 0)%Z && at_low fl a && parity_fits fl g g'
  | _ => (d =? 0)%Z && at_high fl a && parity_fits fl g g'
  end.
Definition given (fl : flags) (g : face_kind) : bool :=
  let a := k_axis (f_kind g) in match k_place (f_kind g) with 0 => negb (at_high fl a) | 1 => at_low fl a && Bool.eqb (k_even (f_kind g)) (is_even fl) | _ => at_high fl a && Bool.eqb (k_even (f_kind g)) (is_even fl) end.
Definition bools : list bool := [true; false].
Definition pick3 (x y z : bool) (a : nat) : bool := match a with 0 => x | 1 => y | _ => z end.
Definition all_flags : list flags :=
  flat_map (fun l0 => flat_map (fun l1 => flat_map (fun l2 => flat_map (fun h0 => flat_map (fun h1 => flat_map (fun h2 => map (fun e => Flags (pick3 l0 l1 l2) (pick3 h0 h1 h2) e) bools) bools) bools) bools) bools) bools) bools.
Definition candidates (g : face_kind) : list face_kind := List.filter (fun g' => (f_mask g =? f_mask g')%N && negb (same g g') && reversed g g') face_kinds.
Definition partner_ok (cs : list face_kind) (fl : flags) (g : face_kind) : bool := negb (given fl g) || existsb (fun g' => in_grid fl g g' && fits fl g g') cs.
Definition row_ok (cs : list face_kind) (g : face_kind) : bool := forallb (fun fl => partner_ok cs fl g) all_flags.
Definition face_ok (g : face_kind) : bool := outer g || row_ok (candidates g) g.
Definition check_partners : bool := forallb face_ok face_kinds.
Lemma partners_checked : check_partners = true. Proof. vm_compute. reflexivity. Qed.
Lemma face_checked g : In g face_kinds -> face_ok g = true.
Proof. exact (proj1 (forallb_forall face_ok face_kinds) partners_checked g). Qed.
Lemma row_checked cs g fl : row_ok cs g = true -> In fl all_flags -> partner_ok cs fl g = true.
Proof. intros H. exact (proj1 (forallb_forall (fun fl => partner_ok cs fl g) all_flags) H fl). Qed.
Lemma partner_checked cs g fl : partner_ok cs fl g = true -> given fl g = true -> exists g', In g' cs /\ in_grid fl g g' = true /\ fits fl g g' = true.
Proof. unfold partner_ok. intros H E. rewrite E in H. apply existsb_exists in H as (g' & H & F). apply andb_true_iff in F. exists g'. tauto. Qed.
Lemma candidate g g' : In g' (candidates g) -> In g' face_kinds /\ same g g' = false /\ reversed g g' = true.
Proof. unfold candidates. intros H. apply filter_In in H as (H & C). apply andb_true_iff in C as (C & C2). apply andb_true_iff in C as (_ & C1). apply negb_true_iff in C1. auto. Qed.

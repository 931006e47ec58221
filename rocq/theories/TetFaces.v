(** Faces of the tetrahedra of the uniform mesh of a box: agreement, partners, boundary. Auxiliary to C110. *)
From stdpp Require Import base list list_numbers sets relations.
From Coq Require Import Lia ZArith.
From Verif Require Import Prelude ReorderModel MeshModel MeshSpec PropMesh ProcModel PropProc PatchCells PropPatch GridProofs TetTables TetGrid.
Import ListNotations.
Local Open Scope nat_scope.

(** * canonical positions *)
Definition badd (b d : nat * nat * nat) : nat * nat * nat := (b.1.1 + d.1.1, b.1.2 + d.1.2, b.2 + d.2).
Lemma least_spec f p ps : (exists q, q ∈ p :: ps /\ f q = least f (p :: ps)) /\ forall q, q ∈ p :: ps -> least f (p :: ps) <= f q.
Proof.
  cbn [least]. induction ps as [|r ps ((q & Hq & Eq) & IH)]; cbn [foldr]; [split; [exists p; split; [left|reflexivity]|]; intros q Hq; apply elem_of_list_singleton in Hq as ->; lia|]. split.
  - destruct (Nat.min_dec (f r) (foldr (fun q => Nat.min (f q)) (f p) ps)) as [E|E]; rewrite E; [exists r; split; [right; left|reflexivity]|exists q; split; [|exact Eq]]. apply elem_of_cons in Hq as [->|Hq]; [left|right; right; exact Hq].
  - intros q' Hq'. apply elem_of_cons in Hq' as [->|Hq']; [specialize (IH p ltac:(left)); lia|]. apply elem_of_cons in Hq' as [->|Hq']; [lia|]. specialize (IH q' ltac:(right; exact Hq')). lia.
Qed.
Lemma least_char f ps n : ps <> [] -> (exists q, q ∈ ps /\ f q = n) -> (forall q, q ∈ ps -> n <= f q) -> least f ps = n.
Proof.
  destruct ps as [|p ps]; [congruence|]. intros _ (q & Hq & Eq) H. destruct (least_spec f p ps) as ((q' & Hq' & Eq') & L). pose proof (H q' Hq'). pose proof (L q Hq). lia.
Qed.
Lemma least_perm f ps qs : ps ≡ₚ qs -> least f ps = least f qs.
Proof.
  intros E. destruct qs as [|q qs]; [apply Permutation_nil_r in E as ->; reflexivity|]. destruct (least_spec f q qs) as ((r & Hr & Er) & L). apply least_char; [intros ->; symmetry in E; apply Permutation_nil_r in E; discriminate|exists r; split; [rewrite E; exact Hr|exact Er]|]. intros r' Hr'. apply L. rewrite <- E. exact Hr'.
Qed.
Lemma least_shift f n b ps : ps <> [] -> (forall p, f (shift b p) = n + f p) -> least f (map (shift b) ps) = n + least f ps.
Proof.
  intros Hn H. apply least_char; [destruct ps; [congruence|discriminate]| |]; (destruct ps as [|p ps]; [congruence|]); destruct (least_spec f p ps) as ((r & Hr & Er) & L).
  - exists (shift b r). split; [apply elem_of_list_fmap; exists r; auto|]. rewrite H, Er. reflexivity.
  - intros q Hq. apply elem_of_list_fmap in Hq as (r' & -> & Hr'). rewrite H. specialize (L r' Hr'). lia.
Qed.
Lemma shift_unshift b d p : d.1.1 <= px p -> d.1.2 <= py p -> d.2 <= pz p -> shift b p = shift (badd b d) (unshift d p).
Proof. intros A B C. destruct b as [[b1 b2] b3], d as [[d1 d2] d3], p as [e [[x y] z]]. unfold shift, unshift, badd, px, py, pz in *. cbn [fst snd] in *. f_equal. f_equal; [f_equal|]; lia. Qed.
Lemma shift_key b ps : map (shift b) ps = map (shift (badd b (corner3 ps))) (key ps).
Proof.
  unfold key. rewrite map_map. apply map_ext_in. intros p Hp. apply elem_of_list_In in Hp. destruct ps as [|q ps]; [apply elem_of_nil in Hp; destruct Hp|]. apply shift_unshift; apply least_spec, Hp.
Qed.
Lemma mask_perm ps qs : ps ≡ₚ qs -> mask ps = mask qs.
Proof. unfold mask. induction 1 as [|p ps qs _ IH|p q ps|ps qs rs _ IH _ IH']; cbn [foldr]; lia. Qed.
Lemma shifted_perm b b' ps qs : ps <> [] -> qs <> [] -> map (shift b) ps ≡ₚ map (shift b') qs -> badd b (corner3 ps) = badd b' (corner3 qs) /\ key ps ≡ₚ key qs.
Proof.
  intros Np Nq E. assert (B : badd b (corner3 ps) = badd b' (corner3 qs)).
  { unfold badd, corner3. cbn [fst snd]. pose proof (least_perm px _ _ E) as X. pose proof (least_perm py _ _ E) as Y. pose proof (least_perm pz _ _ E) as Z.
    rewrite (least_shift px b.1.1), (least_shift px b'.1.1) in X by (assumption || reflexivity). rewrite (least_shift py b.1.2), (least_shift py b'.1.2) in Y by (assumption || reflexivity). rewrite (least_shift pz b.2), (least_shift pz b'.2) in Z by (assumption || reflexivity). rewrite X, Y, Z. reflexivity. }
  split; [exact B|]. rewrite (shift_key b ps), (shift_key b' qs), B in E. apply (perm_inj_on _ (fun _ => True)) in E; [exact E|intros p q _ _; apply shift_inj|apply Forall_true; auto|apply Forall_true; auto].
Qed.
Lemma reversal_cases r : In r tri3_reversals -> (forall j, In j r -> j < 3) /\ forall (A : Type) (d : A) l, length l = 3 -> map (fun j => nth j l d) r ≡ₚ l.
Proof.
  intros H. split; [|intros A d l L; destruct l as [|x [|y [|z [|]]]]; try discriminate L]; cbn in H; destruct H as [<-|[<-|[<-|[]]]]; cbn [map nth In]; try lia; solve_Permutation.
Qed.
Lemma shape_face_length s l : l < 4 -> length (shape_face s l) = 3.
Proof. intros H. do 4 (destruct l as [|l]; [reflexivity|]). lia. Qed.
Lemma face_kinds_eq : face_kinds = flat_map (fun k => map (face_kind_of k) (seq 0 4)) kinds. Proof. vm_compute. reflexivity. Qed.
Lemma face_kinds_in k l : In k kinds -> l < 4 -> In (face_kind_of k l) face_kinds.
Proof. intros Hk Hl. rewrite face_kinds_eq. apply in_flat_map. exists k. split; [exact Hk|]. apply in_map, in_seq. lia. Qed.
Lemma face_kinds_out g : In g face_kinds -> exists k l, In k kinds /\ l < 4 /\ g = face_kind_of k l.
Proof. rewrite face_kinds_eq. intros H. apply in_flat_map in H as (k & Hk & H). apply in_map_iff in H as (l & <- & Hl). apply in_seq in Hl. exists k, l. repeat split; [exact Hk|lia]. Qed.

Section faces.
Context (cx cy cz : nat).
Local Notation node := (node cx cy cz).
Local Notation inside := (inside cx cy cz).
Local Notation tets := (tets cx cy cz).
Local Notation tet := (tet cx cy cz).
Local Notation holds := (holds cx cy cz).
Local Notation in_box := (in_box cx cy cz).
Definition tet_face (b : nat * nat * nat) (s : list pnt) (l : nat) : list nat := map node (map (shift b) (shape_face s l)).
Lemma tet_face_nodes b s l : length s = 4 -> l < 4 -> map (fun j => nth j (tet b s) 0) (nth l tet4_faces []) = tet_face b s l.
Proof. intros L Hl. destruct s as [|p0 [|p1 [|p2 [|p3 [|]]]]]; try discriminate L. do 4 (destruct l as [|l]; [reflexivity|]). lia. Qed.
Lemma kind_length k : In k kinds -> length (k_shape k) = 4.
Proof. intros H. pose proof (shapes_ok k H) as O. unfold shape_ok in O. rewrite !andb_true_iff in O. destruct O as ((((_ & _) & L) & _) & _). apply Nat.eqb_eq, L. Qed.
Lemma tet_length t : t ∈ tets -> length t = 4.
Proof. intros H. apply tets_elem in H as (b & k & _ & Hk & _ & ->). unfold TetGrid.tet. rewrite map_length. apply kind_length, Hk. Qed.
Lemma tet_face_iff f c l : is_face tet4_kind tets f c l <-> exists b k, in_box b /\ In k kinds /\ holds k b /\ l < 4 /\ tets !! c = Some (tet b (k_shape k)) /\ f = tet_face b (k_shape k) l.
Proof.
  assert (T : table_of tet4_kind tet4_faces) by (clear; check_table). rewrite (face_iff tet4_kind tet4_faces); [|exact T|apply Forall_forall; intros t Ht; apply tet_length, Ht]. split.
  - intros (Hc & Hl & ->). destruct (lookup_lt_is_Some_2 tets c Hc) as (t & Et). pose proof (elem_of_list_lookup_2 _ _ _ Et) as Ht. apply tets_elem in Ht as (b & k & Hb & Hk & Hh & ->). exists b, k. split_and!; auto. unfold face_nodes. rewrite (nth_lookup_Some _ _ _ _ Et). apply tet_face_nodes; [apply kind_length, Hk|exact Hl].
  - intros (b & k & Hb & Hk & Hh & Hl & Et & ->). split; [exact (lookup_lt_Some _ _ _ Et)|]. split; [exact Hl|]. unfold face_nodes. rewrite (nth_lookup_Some _ _ _ _ Et). symmetry. apply tet_face_nodes; [apply kind_length, Hk|exact Hl].
Qed.
Lemma face_in_shape k l p : In k kinds -> l < 4 -> In p (shape_face (k_shape k) l) -> In p (k_shape k).
Proof.
  intros Hk Hl Hp. pose proof (kind_length k Hk) as L. unfold shape_face in Hp. apply in_map_iff in Hp as (j & <- & Hj). apply nth_In. rewrite L. do 4 (destruct l as [|l]; [cbn in Hj; lia|]). lia.
Qed.
Lemma face_forall b k l : in_box b -> In k kinds -> holds k b -> l < 4 -> Forall inside (map (shift b) (shape_face (k_shape k) l)).
Proof. intros Hb Hk Hh Hl. apply Forall_forall. intros p Hp. apply elem_of_list_In, in_map_iff in Hp as (q & <- & Hq). apply (shape_inside cx cy cz k); try assumption. apply (face_in_shape k l); assumption. Qed.
Lemma face_matches b k l b' k' l' : in_box b -> In k kinds -> holds k b -> l < 4 -> in_box b' -> In k' kinds -> holds k' b' -> l' < 4 -> tet_face b' (k_shape k') l' ≡ₚ tet_face b (k_shape k) l ->
  badd b (corner3 (shape_face (k_shape k) l)) = badd b' (corner3 (shape_face (k_shape k') l')) /\ key (shape_face (k_shape k') l') ≡ₚ key (shape_face (k_shape k) l).
Proof.
  intros Hb Hk Hh Hl Hb' Hk' Hh' Hl' E. apply (perm_inj_on node inside) in E; [|apply node_inj|apply face_forall; assumption|apply face_forall; assumption]. apply shifted_perm in E as (E & E'); [split; [symmetry; exact E|exact E']| |].
  - intros Z. pose proof (shape_face_length (k_shape k') l' Hl') as L. rewrite Z in L. discriminate.
  - intros Z. pose proof (shape_face_length (k_shape k) l Hl) as L. rewrite Z in L. discriminate.
Qed.
Lemma even_Z b : even b = Z.even (Z.of_nat b.1.1 + Z.of_nat b.1.2 + Z.of_nat b.2).
Proof.
  unfold even. set (n := b.1.1 + b.1.2 + b.2). replace (Z.of_nat b.1.1 + Z.of_nat b.1.2 + Z.of_nat b.2)%Z with (Z.of_nat n) by (unfold n; lia). pose proof (Nat.div_mod n 2 ltac:(lia)) as D. pose proof (Nat.mod_upper_bound n 2 ltac:(lia)) as U.
  destruct (Nat.eq_dec (n mod 2) 0) as [E|E]; [rewrite bool_decide_eq_true_2 by exact E|rewrite bool_decide_eq_false_2 by exact E]; symmetry.
  - apply Z.even_spec. exists (Z.of_nat (n / 2)). lia.
  - rewrite <- Z.negb_odd. apply negb_false_iff, Z.odd_spec. exists (Z.of_nat (n / 2)). lia.
Qed.
Definition moved (b b' : nat * nat * nat) (g g' : face_kind) : Prop := forall a, (Z.of_nat (get a b') - Z.of_nat (get a b))%Z = offset a g g'.
Lemma moved_parity b b' g g' : moved b b' g g' -> even b' = xorb (even b) (Z.odd (offset 0 g g' + offset 1 g g' + offset 2 g g')).
Proof.
  intros M. rewrite !even_Z. pose proof (M 0) as M0. pose proof (M 1) as M1. pose proof (M 2) as M2. cbn [get] in M0, M1, M2.
  replace (Z.of_nat b'.1.1 + Z.of_nat b'.1.2 + Z.of_nat b'.2)%Z with ((Z.of_nat b.1.1 + Z.of_nat b.1.2 + Z.of_nat b.2) + (offset 0 g g' + offset 1 g g' + offset 2 g g'))%Z by lia. rewrite Z.even_add. rewrite <- (Z.negb_odd (offset 0 g g' + _ + _)). destruct (Z.even _), (Z.odd _); reflexivity.
Qed.
Lemma badd_moved b b' k l k' l' : badd b (corner3 (shape_face (k_shape k) l)) = badd b' (corner3 (shape_face (k_shape k') l')) -> moved b b' (face_kind_of k l) (face_kind_of k' l').
Proof.
  intros E a. unfold offset, face_kind_of. cbn [f_low]. set (u := corner3 (shape_face (k_shape k) l)) in *. set (v := corner3 (shape_face (k_shape k') l')) in *. clearbody u v. unfold badd in E. injection E as E1 E2 E3. destruct a as [|[|a]]; cbn [get]; lia.
Qed.
Lemma conflict_sound b b' g g' : in_box b -> in_box b' -> holds (f_kind g) b -> holds (f_kind g') b' -> k_axis (f_kind g) < 3 -> k_place (f_kind g) < 3 -> k_place (f_kind g') < 3 -> moved b b' g g' -> conflict g g' = true -> False.
Proof.
  intros Hb Hb' H H' Ha Hs Hs' M C. unfold conflict in C. apply orb_true_iff in C as [C|C].
  - apply andb_true_iff in C as (A & C). apply Nat.eqb_eq in A. pose proof (M (k_axis (f_kind g))) as Mg. unfold TetGrid.holds in H, H'. rewrite <- A in H'. 
    rewrite !orb_true_iff, !andb_true_iff, !Nat.eqb_eq, !Z.eqb_eq in C. destruct C as [[[[[C|C]|C]|C]|C]|C]; destruct C as ((S & S') & D); rewrite S in H; rewrite S' in H'; rewrite D in Mg; cbn [TetGrid.in_box] in *; lia.
  - rewrite !andb_true_iff, !negb_true_iff, !Nat.eqb_neq in C. destruct C as ((S & S') & C). pose proof (moved_parity _ _ _ _ M) as P. unfold TetGrid.holds in H, H'.
    assert (E : k_even (f_kind g) = even b) by (destruct (k_place (f_kind g)) as [|[|s]]; [lia|apply H|apply H]). assert (E' : k_even (f_kind g') = even b') by (destruct (k_place (f_kind g')) as [|[|s]]; [lia|apply H'|apply H']).
    rewrite E, E', P in C. destruct (even b), (Z.odd _); discriminate C.
Qed.
Lemma kind_bounds k : In k kinds -> k_axis k < 3 /\ k_place k < 3.
Proof. intros H. pose proof (shapes_ok k H) as O. unfold shape_ok in O. rewrite !andb_true_iff in O. destruct O as ((((A & B) & _) & _) & _). apply Nat.ltb_lt in A, B. auto. Qed.
(** faces with the same nodes *)
Lemma faces_agree b k l b' k' l' : in_box b -> In k kinds -> holds k b -> l < 4 -> in_box b' -> In k' kinds -> holds k' b' -> l' < 4 -> tet_face b' (k_shape k') l' ≡ₚ tet_face b (k_shape k) l ->
  (b' = b /\ k_shape k' = k_shape k /\ l' = l) \/ outer (face_kind_of k l) = false /\ exists r, In r tri3_reversals /\ tet_face b' (k_shape k') l' = map (fun j => nth j (tet_face b (k_shape k) l) 0) r.
Proof.
  intros Hb Hk Hh Hl Hb' Hk' Hh' Hl' E. destruct (face_matches b k l b' k' l') as (B & K); [assumption..|]. pose proof (badd_moved _ _ _ _ _ _ B) as M.
  pose proof (pair_checked _ _ (face_kinds_in k l Hk Hl) (face_kinds_in k' l' Hk' Hl')) as F. unfold pair_ok in F.
  apply orb_true_iff in F as [F|F]; [apply orb_true_iff in F as [F|F]; [apply orb_true_iff in F as [F|F]|]|].
  - exfalso. apply negb_true_iff, N.eqb_neq in F. apply F. unfold face_kind_of. cbn [f_mask]. symmetry. apply mask_perm, K.
  - left. unfold same in F. apply andb_true_iff in F as (F1 & F2). unfold face_kind_of in F1, F2. cbn [f_kind f_l] in F1, F2. apply pnts_eqb_eq in F1. apply Nat.eqb_eq in F2. subst l'. rewrite F1 in B. set (u := corner3 _) in B. unfold badd in B. injection B as B1 B2 B3.
    split; [apply injective_projections; [apply injective_projections|]; lia|]. split; [symmetry; exact F1|reflexivity].
  - exfalso. destruct (kind_bounds k Hk), (kind_bounds k' Hk'). apply (conflict_sound b b' (face_kind_of k l) (face_kind_of k' l')); assumption.
  - right. apply andb_true_iff in F as (F1 & F2). split; [apply negb_true_iff, F1|]. unfold reversed in F2. apply existsb_exists in F2 as (r & Hr & F2). apply pnts_eqb_eq in F2. unfold face_kind_of in F2. cbn [f_key] in F2. exists r. split; [exact Hr|].
    unfold tet_face. rewrite (shift_key b' (shape_face (k_shape k') l')), (shift_key b (shape_face (k_shape k) l)), B, F2, !map_map. apply map_ext_in. intros j Hj. destruct (reversal_cases r Hr) as (Rj & _). specialize (Rj j Hj).
    set (K3 := key (shape_face (k_shape k) l)). assert (L3 : length K3 = 3) by (unfold K3, key; rewrite map_length; apply shape_face_length, Hl). rewrite <- (map_nth (fun p => node (shift (badd b' (corner3 (shape_face (k_shape k') l'))) p)) K3 no_pnt j). apply nth_indep. rewrite map_length. lia.
Qed.
Lemma tets_oriented : oriented tet4_kind tets tri3_reversals.
Proof.
  intros f c l f' c' l' H H' E N. apply tet_face_iff in H as (b & k & Hb & Hk & Hh & Hl & Et & ->). apply tet_face_iff in H' as (b' & k' & Hb' & Hk' & Hh' & Hl' & Et' & ->).
  destruct (faces_agree b k l b' k' l') as [(Eb & Es & El)|(_ & R)]; [assumption..| |exact R]. exfalso. apply N. subst b' l'. rewrite Es in Et'. f_equal. exact (NoDup_lookup tets c c' _ (tets_NoDup cx cy cz) Et Et').
Qed.

(** * partners *)
Definition flags_of (b : nat * nat * nat) : flags :=
  Flags (pick3 (b.1.1 =? 0) (b.1.2 =? 0) (b.2 =? 0)) (pick3 (b.1.1 + 1 =? cx) (b.1.2 + 1 =? cy) (b.2 + 1 =? cz)) (even b).
Lemma flags_in b : In (flags_of b) all_flags.
Proof.
  assert (B : forall x : bool, In x bools) by (intros []; cbn; auto). unfold flags_of, all_flags. 
  apply in_flat_map; eexists; split; [apply B|]. apply in_flat_map; eexists; split; [apply B|]. apply in_flat_map; eexists; split; [apply B|]. apply in_flat_map; eexists; split; [apply B|]. apply in_flat_map; eexists; split; [apply B|]. apply in_flat_map; eexists; split; [apply B|].
  apply in_map_iff. eexists. split; [reflexivity|apply B].
Qed.
Lemma flags_low b a : at_low (flags_of b) a = (get a b =? 0). Proof. destruct a as [|[|a]]; reflexivity. Qed.
Lemma flags_high b a : at_high (flags_of b) a = (get a b + 1 =? get a (cx, cy, cz)). Proof. destruct a as [|[|a]]; reflexivity. Qed.
Lemma given_holds k l b : k_place k < 3 -> holds k b -> in_box b -> given (flags_of b) (face_kind_of k l) = true.
Proof.
  intros Hp H Hb. unfold given, TetGrid.holds, face_kind_of in *. cbn [f_kind]. rewrite flags_low, flags_high. cbn [flags_of is_even]. destruct (k_place k) as [|[|s]].
  - apply negb_true_iff, Nat.eqb_neq. lia.
  - destruct H as (H & E). rewrite E, Bool.eqb_reflx, andb_true_r. apply Nat.eqb_eq, H.
  - destruct H as (H & E). rewrite E, Bool.eqb_reflx, andb_true_r. apply Nat.eqb_eq, H.
Qed.
Lemma partner_kind g fl : In g face_kinds -> outer g = false -> In fl all_flags -> given fl g = true ->
  exists g', In g' face_kinds /\ same g g' = false /\ reversed g g' = true /\ in_grid fl g g' = true /\ fits fl g g' = true.
Proof.
  intros Hg Ho Hf Hv. pose proof (face_checked g Hg) as F. unfold face_ok in F. rewrite Ho in F. destruct (partner_checked _ _ _ (row_checked _ _ _ F Hf) Hv) as (g' & Hg' & F1 & F2). destruct (candidate g g' Hg') as (A & B & C). exists g'. auto.
Qed.
Lemma in_grid_moved b g g' : in_box b -> in_grid (flags_of b) g g' = true -> exists b', in_box b' /\ moved b b' g g'.
Proof.
  intros Hb F1. unfold in_grid in F1. rewrite forallb_forall in F1. assert (G : forall a, a < 3 -> offset a g g' = 0%Z \/ offset a g g' = (-1)%Z /\ get a b <> 0 \/ offset a g g' = 1%Z /\ get a b + 1 <> get a (cx, cy, cz)).
  { intros a Ha. assert (Ia : In a [0; 1; 2]) by (destruct a as [|[|[|]]]; cbn; auto; lia). specialize (F1 a Ia). cbv zeta in F1. rewrite flags_low, flags_high, !orb_true_iff, !andb_true_iff, !negb_true_iff, !Z.eqb_eq, !Nat.eqb_neq in F1. tauto. }
  clear F1. destruct b as [[i j] m]. pose proof (G 0 ltac:(lia)) as G0. pose proof (G 1 ltac:(lia)) as G1. pose proof (G 2 ltac:(lia)) as G2. cbn [get fst snd] in G0, G1, G2. destruct Hb as (B1 & B2 & B3). cbn [fst snd] in B1, B2, B3.
  assert (E2 : forall a, offset (S (S a)) g g' = offset 2 g g') by reflexivity. remember (offset 0 g g') as d0. remember (offset 1 g g') as d1. remember (offset 2 g g') as d2.
  exists (Z.to_nat (Z.of_nat i + d0), Z.to_nat (Z.of_nat j + d1), Z.to_nat (Z.of_nat m + d2)). split.
  - unfold TetGrid.in_box. cbn [fst snd]. lia.
  - intros [|[|a]]; [rewrite <- Heqd0|rewrite <- Heqd1|rewrite E2]; cbn [get fst snd]; lia.
Qed.
Lemma fits_holds b b' g g' : in_box b -> k_axis (f_kind g') < 3 -> k_place (f_kind g') < 3 -> moved b b' g g' -> fits (flags_of b) g g' = true -> holds (f_kind g') b'.
Proof.
  intros Hb Ka' Kp' M F2. pose proof (M (k_axis (f_kind g'))) as Ma. unfold fits in F2. rewrite flags_low, flags_high in F2. unfold TetGrid.holds. unfold parity_fits in F2.
  assert (Bc : get (k_axis (f_kind g')) b < get (k_axis (f_kind g')) (cx, cy, cz)) by (destruct Hb as (B1 & B2 & B3); destruct (k_axis (f_kind g')) as [|[|?]]; cbn [get fst snd]; assumption).
  assert (Ev : is_even (flags_of b) = even b) by reflexivity. rewrite Ev in F2. rewrite <- (moved_parity _ _ _ _ M) in F2.
  destruct (k_place (f_kind g')) as [|[|s]]; rewrite ?orb_true_iff, ?andb_true_iff, ?negb_true_iff, ?Z.eqb_eq, ?Nat.eqb_neq, ?Nat.eqb_eq in F2.
  - lia.
  - destruct F2 as ((D & Z) & P). split; [lia|apply Bool.eqb_prop, P].
  - destruct F2 as ((D & Z) & P). split; [lia|apply Bool.eqb_prop, P].
Qed.
Lemma moved_badd b b' k l k' l' : moved b b' (face_kind_of k l) (face_kind_of k' l') -> badd b (corner3 (shape_face (k_shape k) l)) = badd b' (corner3 (shape_face (k_shape k') l')).
Proof.
  intros M. pose proof (M 0) as M0. pose proof (M 1) as M1. pose proof (M 2) as M2. unfold offset, face_kind_of in M0, M1, M2. cbn [f_low] in M0, M1, M2. set (u := corner3 (shape_face (k_shape k) l)) in *. set (v := corner3 (shape_face (k_shape k') l')) in *. clearbody u v. cbn [get] in M0, M1, M2. unfold badd. f_equal; [f_equal|]; lia.
Qed.
Lemma reversed_perm b b' k l k' l' : l < 4 -> moved b b' (face_kind_of k l) (face_kind_of k' l') -> reversed (face_kind_of k l) (face_kind_of k' l') = true -> tet_face b' (k_shape k') l' ≡ₚ tet_face b (k_shape k) l.
Proof.
  intros Hl M C2. apply moved_badd in M. unfold reversed in C2. apply existsb_exists in C2 as (r & Hr & C2). apply pnts_eqb_eq in C2. unfold face_kind_of in C2. cbn [f_key] in C2.
  unfold tet_face. rewrite (shift_key b' (shape_face (k_shape k') l')), (shift_key b (shape_face (k_shape k) l)). rewrite <- M, C2. apply Permutation_map, Permutation_map. apply (reversal_cases r Hr). unfold key. rewrite map_length. apply shape_face_length, Hl.
Qed.
Lemma same_kinds k l k' l' : same (face_kind_of k l) (face_kind_of k' l') = false -> ~ (k_shape k' = k_shape k /\ l' = l).
Proof. intros C (Es & El). unfold same, face_kind_of in C. cbn [f_kind f_l] in C. rewrite Es, El, Nat.eqb_refl, pnts_eqb_refl in C. discriminate C. Qed.
Lemma partner b k l : in_box b -> In k kinds -> holds k b -> l < 4 -> outer (face_kind_of k l) = false ->
  exists b' k' l', in_box b' /\ In k' kinds /\ holds k' b' /\ l' < 4 /\ tet_face b' (k_shape k') l' ≡ₚ tet_face b (k_shape k) l /\ ~ (k_shape k' = k_shape k /\ l' = l).
Proof.
  intros Hb Hk Hh Hl Ho. destruct (kind_bounds k Hk) as (Ka & Kp). destruct (partner_kind _ (flags_of b) (face_kinds_in k l Hk Hl) Ho (flags_in b) (given_holds k l b Kp Hh Hb)) as (g' & Hg' & C1 & C2 & F1 & F2).
  destruct (in_grid_moved b _ _ Hb F1) as (b' & Hb' & M). destruct (face_kinds_out g' Hg') as (k' & l' & Hk' & Hl' & Eg). destruct (kind_bounds k' Hk') as (Ka' & Kp'). 
  assert (Ek : f_kind g' = k') by (rewrite Eg; reflexivity). pose proof (fits_holds b b' _ g' Hb ltac:(rewrite Ek; exact Ka') ltac:(rewrite Ek; exact Kp') M F2) as Hh'. rewrite Ek in Hh'. rewrite Eg in C1, C2, M.
  exists b', k', l'. split; [exact Hb'|]. split; [exact Hk'|]. split; [exact Hh'|]. split; [exact Hl'|]. split; [exact (reversed_perm b b' k l k' l' Hl M C2)|exact (same_kinds k l k' l' C1)].
Qed.

(** * the boundary *)
Definition outer_ok (g : face_kind) : bool := negb (outer g) ||
  forallb (fun p : pnt => negb p.1 && ((k_place (f_kind g) =? 1) && (get (k_axis (f_kind g)) p.2 =? 0) || (k_place (f_kind g) =? 2) && (get (k_axis (f_kind g)) p.2 =? 1))) (shape_face (k_shape (f_kind g)) (f_l g)).
Lemma outer_checked g : In g face_kinds -> outer_ok g = true.
Proof. assert (H : forallb outer_ok face_kinds = true) by (vm_compute; reflexivity). exact (proj1 (forallb_forall outer_ok face_kinds) H g). Qed.
Definition side_ok (a s : nat) (e : bool) (o : nat * nat * nat) : bool :=
  existsb (fun g => outer g && (k_axis (f_kind g) =? a) && (k_place (f_kind g) =? s) && Bool.eqb (k_even (f_kind g)) e && existsb (pnt_eqb (corner_at o)) (shape_face (k_shape (f_kind g)) (f_l g))) face_kinds.
Definition unit_offsets : list (nat * nat * nat) := [(0, 0, 0); (1, 0, 0); (0, 1, 0); (1, 1, 0); (0, 0, 1); (1, 0, 1); (0, 1, 1); (1, 1, 1)].
Definition sides_ok : bool := forallb (fun a => forallb (fun s => forallb (fun e => forallb (fun o => negb (get a o + 1 =? s) || side_ok a s e o) unit_offsets) bools) [1; 2]) [0; 1; 2].
Lemma sides_checked : sides_ok = true. Proof. vm_compute. reflexivity. Qed.
Lemma side_checked a s e o : In a [0; 1; 2] -> In s [1; 2] -> In o unit_offsets -> get a o + 1 = s -> side_ok a s e o = true.
Proof.
  intros Ha Hs Ho E. pose proof (proj1 (forallb_forall _ [0; 1; 2]) sides_checked a Ha) as H. cbv beta in H. pose proof (proj1 (forallb_forall _ [1; 2]) H s Hs) as H1. cbv beta in H1. pose proof (proj1 (forallb_forall _ bools) H1 e ltac:(destruct e; cbn; auto)) as H2. cbv beta in H2.
  pose proof (proj1 (forallb_forall _ unit_offsets) H2 o Ho) as H3. cbv beta in H3. rewrite (proj2 (Nat.eqb_eq _ _) E) in H3. exact H3.
Qed.
Definition at_side (p : pnt) : Prop := p.1 = false /\ (px p = 0 \/ px p = cx \/ py p = 0 \/ py p = cy \/ pz p = 0 \/ pz p = cz).
Lemma tets_lookup b k : in_box b -> In k kinds -> holds k b -> exists c, tets !! c = Some (tet b (k_shape k)).
Proof. intros Hb Hk Hh. apply elem_of_list_lookup, tets_elem. exists b, k. auto 10. Qed.
Lemma near n i : 0 < n -> i <= n -> exists a d, a < n /\ i = a + d /\ d <= 1 /\ (i = 0 -> a = 0 /\ d = 0) /\ (i = n -> a + 1 = n /\ d = 1).
Proof. intros Hn Hi. destruct (decide (i = n)); [exists (n - 1), 1|exists i, 0]; lia. Qed.
Lemma boundary_at_side b k l p : in_box b -> In k kinds -> holds k b -> l < 4 -> outer (face_kind_of k l) = true -> inside p -> node p ∈ tet_face b (k_shape k) l -> at_side p.
Proof.
  intros Hb Hk Hh Hl Ho Hp Hv. pose proof (outer_checked _ (face_kinds_in k l Hk Hl)) as O. unfold outer_ok in O. rewrite Ho in O. cbn [negb] in O. rewrite orb_false_l in O. unfold face_kind_of in O. cbn [f_kind f_l] in O. rewrite forallb_forall in O.
  unfold tet_face in Hv. apply elem_of_list_In, in_map_iff in Hv as (q & Eq & Hq). pose proof (face_forall b k l Hb Hk Hh Hl) as Fi. rewrite Forall_forall in Fi. apply node_inj in Eq; [|apply Fi, elem_of_list_In, Hq|exact Hp]. subst q. apply in_map_iff in Hq as (q & <- & Hq). specialize (O q Hq).
  rewrite andb_true_iff, negb_true_iff, orb_true_iff, !andb_true_iff, !Nat.eqb_eq in O. destruct O as (O1 & O2). split; [exact O1|]. destruct (kind_bounds k Hk) as (Ka & _). unfold TetGrid.holds in Hh. destruct q as [e [[x y] z]]. unfold shift, px, py, pz. cbn [fst snd] in *.
  destruct O2 as [(Es & Ez)|(Es & Ez)]; rewrite Es in Hh; destruct Hh as (Hh & _); destruct (k_axis k) as [|[|[|]]]; try lia; cbn [get fst snd] in Hh, Ez; lia.
Qed.
Lemma outer_is_boundary b k l c : in_box b -> In k kinds -> holds k b -> l < 4 -> outer (face_kind_of k l) = true -> tets !! c = Some (tet b (k_shape k)) -> is_boundary_face tet4_kind tets (tet_face b (k_shape k) l) c l.
Proof.
  intros Hb Hk Hh Hl Ho Et. split; [apply tet_face_iff; exists b, k; auto 10|]. intros f' c' l' H' E. apply tet_face_iff in H' as (b' & k' & Hb' & Hk' & Hh' & Hl' & Et' & ->).
  destruct (faces_agree b k l b' k' l') as [(Eb & Es & El)|(O & _)]; [assumption..| |rewrite Ho in O; discriminate]. subst b' l'. rewrite Es in Et'. split; [|reflexivity]. exact (NoDup_lookup tets c' c _ (tets_NoDup cx cy cz) Et' Et).
Qed.
Lemma tets_rim : 0 < cx -> 0 < cy -> 0 < cz -> exists vs, find_boundary_vertices tet4_kind tets = Some vs /\ forall p, inside p -> node p ∈ vs <-> at_side p.
Proof.
  intros Hx Hy Hz. destruct (C26_boundary_vertices tet4_kind tets) as (vs & E & _ & H).
  { assert (K := kinds_ok). rewrite Forall_forall in K. apply K. unfold all_kinds. member. }
  { apply Forall_forall. intros t Ht. apply tet_length, Ht. }
  exists vs. split; [exact E|]. intros p Hp. rewrite H. split.
  - intros (f & c & l & (Hf & Hu) & Hv). apply tet_face_iff in Hf as (b & k & Hb & Hk & Hh & Hl & Et & ->). destruct (outer (face_kind_of k l)) eqn:Ho; [apply (boundary_at_side b k l); assumption|]. exfalso.
    destruct (partner b k l) as (b' & k' & l' & Hb' & Hk' & Hh' & Hl' & Ep & N); [assumption..|]. destruct (tets_lookup b' k' Hb' Hk' Hh') as (c' & Et'). destruct (Hu (tet_face b' (k_shape k') l') c' l') as (-> & ->); [apply tet_face_iff; exists b', k'; auto 10|exact Ep|].
    rewrite Et in Et'. injection Et' as Et'. rewrite !tet_node in Et'. apply (map_inj_on node inside) in Et'; [|apply node_inj|apply kind_forall; assumption|apply kind_forall; assumption]. apply shape_shift in Et' as (_ & Es); [|assumption..]. apply N. auto.
  - intros (Pc & Ps). unfold TetGrid.inside in Hp. rewrite Pc in Hp. destruct Hp as (P1 & P2 & P3). destruct (near cx (px p) Hx P1) as (a1 & d1 & A1 & I1 & D1 & Z1 & N1). destruct (near cy (py p) Hy P2) as (a2 & d2 & A2 & I2 & D2 & Z2 & N2). destruct (near cz (pz p) Hz P3) as (a3 & d3 & A3 & I3 & D3 & Z3 & N3).
    assert (Hb : in_box (a1, a2, a3)) by (unfold TetGrid.in_box; cbn [fst snd]; auto). assert (Ho : In (d1, d2, d3) unit_offsets) by (destruct d1 as [|[|]], d2 as [|[|]], d3 as [|[|]]; try lia; cbn; tauto).
    assert (Ep : p = shift (a1, a2, a3) (corner_at (d1, d2, d3))) by (apply pnt_eq; [exact Pc|exact I1|exact I2|exact I3]).
    assert (W : forall a s, In a [0; 1; 2] -> In s [1; 2] -> get a (d1, d2, d3) + 1 = s -> (s = 1 -> get a (a1, a2, a3) = 0) -> (s = 2 -> get a (a1, a2, a3) + 1 = get a (cx, cy, cz)) -> exists f c l, is_boundary_face tet4_kind tets f c l /\ node p ∈ f).
    { intros a s Ha Hs Eo L1 L2. pose proof (side_checked a s (even (a1, a2, a3)) (d1, d2, d3) Ha Hs Ho Eo) as S. unfold side_ok in S. apply existsb_exists in S as (g & Hg & S). rewrite !andb_true_iff in S. destruct S as ((((S1 & S2) & S3) & S4) & S5).
      destruct (face_kinds_out g Hg) as (k & l & Hk & Hl & Eg). assert (Ek : f_kind g = k) by (rewrite Eg; reflexivity). assert (El : f_l g = l) by (rewrite Eg; reflexivity). rewrite Ek in S2, S3, S4, S5. rewrite El in S5. rewrite Eg in S1. apply Nat.eqb_eq in S2, S3. apply Bool.eqb_prop in S4. apply existsb_exists in S5 as (q & Hq & S5). apply pnt_eqb_eq in S5. subst q.
      assert (Hh : holds k (a1, a2, a3)). { unfold TetGrid.holds. rewrite S2, S3, S4. cbn in Hs. destruct Hs as [<-|[<-|[]]]; [split; [apply L1; reflexivity|reflexivity]|split; [apply L2; reflexivity|reflexivity]]. }
      destruct (tets_lookup (a1, a2, a3) k Hb Hk Hh) as (c & Et). exists (tet_face (a1, a2, a3) (k_shape k) l), c, l. split; [apply outer_is_boundary; assumption|]. unfold tet_face. apply elem_of_list_In. rewrite Ep. apply in_map, in_map, Hq. }
    destruct Ps as [S|[S|[S|[S|[S|S]]]]].
    + apply (W 0 1); cbn [get fst snd]; [cbn; auto|cbn; auto|lia|lia|lia].
    + apply (W 0 2); cbn [get fst snd]; [cbn; auto|cbn; auto|lia|lia|lia].
    + apply (W 1 1); cbn [get fst snd]; [cbn; auto|cbn; auto|lia|lia|lia].
    + apply (W 1 2); cbn [get fst snd]; [cbn; auto|cbn; auto|lia|lia|lia].
    + apply (W 2 1); cbn [get fst snd]; [cbn; auto|cbn; auto|lia|lia|lia].
    + apply (W 2 2); cbn [get fst snd]; [cbn; auto|cbn; auto|lia|lia|lia].
Qed.
End faces.

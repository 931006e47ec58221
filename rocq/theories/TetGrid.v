(** The tetrahedra of the uniform mesh of a box: their faces agree, and only those on the sides of the box have no partner. Auxiliary to C110. *)
From stdpp Require Import base list list_numbers sets relations.
From Coq Require Import Lia ZArith.
From Verif Require Import Prelude ReorderModel MeshModel MeshSpec PropMesh ProcModel PropProc PatchCells PropPatch GridProofs TetTables.
Import ListNotations.
Local Open Scope nat_scope.

Section tets.
Context (cx cy cz : nat).
Definition corners_number : nat := (cx + 1) * (cy + 1) * (cz + 1).
Definition node (p : pnt) : nat := if p.1 then centre_idx cx cy corners_number [px p; py p; pz p] else vertex_idx cx cy [px p; py p; pz p].
Definition inside (p : pnt) : Prop := if p.1 then px p < cx /\ py p < cy /\ pz p < cz else px p <= cx /\ py p <= cy /\ pz p <= cz.
Lemma corner_index i j k : vertex_idx cx cy [i; j; k] = V3 cx cy i j k. Proof. reflexivity. Qed.
Lemma centre_index i j k : centre_idx cx cy corners_number [i; j; k] = cx * cy * k + cx * j + i + corners_number. Proof. reflexivity. Qed.
Lemma pnt_eq (p q : pnt) : p.1 = q.1 -> px p = px q -> py p = py q -> pz p = pz q -> p = q.
Proof. destruct p as [b [[x y] z]], q as [b' [[x' y'] z']]. cbn. congruence. Qed.
Lemma node_inj p q : inside p -> inside q -> node p = node q -> p = q.
Proof.
  unfold node, inside. destruct (p.1) eqn:Ep, (q.1) eqn:Eq; intros (A & B & C) (A' & B' & C'); rewrite ?corner_index, ?centre_index; intros E.
  - assert (D : cx * py p + px p < cx * cy) by nia. assert (D' : cx * py q + px q < cx * cy) by nia. assert (Ez : pz p = pz q) by nia. rewrite Ez in E. assert (Ey : py p = py q) by nia. apply pnt_eq; [congruence|nia|assumption|assumption].
  - exfalso. pose proof (V3_range cx cy cz (px q) (py q) (pz q) A' B' C'). unfold corners_number in E. lia.
  - exfalso. pose proof (V3_range cx cy cz (px p) (py p) (pz p) A B C). unfold corners_number in E. lia.
  - apply V3_inj in E as (E1 & E2 & E3); [|assumption..]. apply pnt_eq; [congruence|assumption..].
Qed.
Definition tet (b : nat * nat * nat) (s : list pnt) : list nat := map (fun p => node (shift b p)) s.
Definition even (b : nat * nat * nat) : bool := bool_decide ((b.1.1 + b.1.2 + b.2) mod 2 = 0).
Definition axis_shapes (b : nat * nat * nat) (a : nat) : list (list pnt) :=
  (if decide (get a b + 1 < get a (cx, cy, cz)) then inner_shapes a else []) ++ (if decide (get a b = 0) then low_shapes a (even b) else []) ++ (if decide (get a b + 1 = get a (cx, cy, cz)) then high_shapes a (even b) else []).
Lemma pyramid_tets i j k a dir : a < 3 -> make_pyramid cx cy corners_number [i; j; k] a dir = Some (map (tet (i, j, k)) (if dir then high_shapes a (even (i, j, k)) else low_shapes a (even (i, j, k)))).
Proof.
  intros Ha. unfold make_pyramid. destruct (decide ((i + j + k) mod 2 = 0)) as [H|H];
    [rewrite (bool_decide_eq_true_2 _ H : even (i, j, k) = true)|rewrite (bool_decide_eq_false_2 _ H : even (i, j, k) = false)];
    (destruct a as [|[|[|]]]; [..|lia]; destruct dir; cbn -[vertex_idx centre_idx Nat.add Nat.sub Nat.modulo corners_number tet];
    rewrite ?decide_True by lia; cbn -[vertex_idx centre_idx Nat.add Nat.sub Nat.modulo corners_number tet]; repeat case_decide; try contradiction;
    f_equal; unfold tet, node; cbn -[vertex_idx centre_idx Nat.add Nat.modulo corners_number]; rewrite ?corner_index, ?centre_index; repeat first [reflexivity|lia|f_equal]).
Qed.
Lemma connect_tets i j k a : a < 3 -> connect_centers cx cy corners_number [i; j; k] a = map (tet (i, j, k)) (inner_shapes a).
Proof.
  intros Ha. unfold connect_centers. destruct a as [|[|[|]]]; [..|lia]; cbn -[vertex_idx centre_idx Nat.add Nat.sub Nat.modulo corners_number]; repeat first [rewrite decide_True by lia|rewrite decide_False by lia];
    unfold node; cbn -[vertex_idx centre_idx Nat.add Nat.sub Nat.modulo corners_number]; rewrite !corner_index, !centre_index; repeat first [reflexivity|lia|f_equal].
Qed.
Lemma axis_tets_shapes i j k a : a < 3 -> axis_tets cx cy cz corners_number [i; j; k] a = Some (map (tet (i, j, k)) (axis_shapes (i, j, k) a)).
Proof.
  intros Ha. unfold axis_tets, axis_shapes. rewrite !pyramid_tets, connect_tets by assumption. assert (E : vec_at [i; j; k] a = get a (i, j, k)) by (destruct a as [|[|[|]]]; [reflexivity..|lia]). assert (E' : vec_at [cx; cy; cz] a = get a (cx, cy, cz)) by (destruct a as [|[|[|]]]; [reflexivity..|lia]).
  rewrite E, E'. repeat case_decide; cbn [mbind option_bind]; rewrite ?map_app; reflexivity.
Qed.

(** * the list of all tetrahedra *)
Definition bases : list (nat * nat * nat) := for_range cz (fun k => for_range cy (fun j => for_range cx (fun i => [(i, j, k)]))).
Definition base_shapes (b : nat * nat * nat) : list (list pnt) := concat (map (axis_shapes b) [0; 1; 2]).
Definition pairs : list (nat * nat * nat * list pnt) := concat (map (fun b => map (pair b) (base_shapes b)) bases).
Definition tets : list (list nat) := map (fun q => tet q.1 q.2) pairs.
Lemma tets_made : mapM (fun cell => mapM (axis_tets cx cy cz corners_number cell) (seq 0 3)) (for_range cz (fun k => for_range cy (fun j => for_range cx (fun i => [[i; j; k]])))) = Some (map (fun b => map (fun a => map (tet b) (axis_shapes b a)) [0; 1; 2]) bases)
  /\ concat (concat (map (fun b => map (fun a => map (tet b) (axis_shapes b a)) [0; 1; 2]) bases)) = tets.
Proof.
  split.
  - assert (E : for_range cz (fun k => for_range cy (fun j => for_range cx (fun i => [[i; j; k]]))) = map (fun b : nat * nat * nat => [b.1.1; b.1.2; b.2]) bases).
    { unfold bases, for_range. rewrite concat_map, map_map. f_equal. apply map_ext. intros k. rewrite concat_map, map_map. f_equal. apply map_ext. intros j. rewrite concat_map, map_map. f_equal. }
    rewrite E. clear E. induction bases as [|[[i j] k] bs IH]; [reflexivity|]. cbn [map mapM seq]. cbn [fst snd]. cbn [mapM]. rewrite !axis_tets_shapes by lia. cbn [mbind option_bind mret option_ret]. cbn [mapM] in IH. 
    match goal with |- context [mapM ?f ?l] => change (mapM f l) with (mapM (fun cell => mapM (axis_tets cx cy cz corners_number cell) (seq 0 3)) l) end. rewrite IH. reflexivity.
  - unfold tets, pairs, base_shapes. rewrite concat_map, map_map. induction bases as [|b bs IH]; [reflexivity|]. cbn [map concat]. rewrite concat_app. f_equal; [|exact IH]. cbn [map concat]. rewrite !map_app, !map_map. reflexivity.
Qed.
Lemma bases_elem b : b ∈ bases <-> b.1.1 < cx /\ b.1.2 < cy /\ b.2 < cz.
Proof.
  unfold bases. split.
  - intros H. apply elem_of_list_lookup in H as (c & H). assert (Hc : c < cx * cy * cz) by (pose proof (lookup_lt_Some _ _ _ H) as L; rewrite (fr3_length cz cy cx (fun k j i => (i, j, k))) in L; exact L).
    destruct (split3 _ _ _ _ Hc) as (i & j & k & Hi & Hj & Hk & ->). rewrite (fr3_lookup cz cy cx (fun k j i => (i, j, k))) in H by assumption. injection H as <-. cbn. auto.
  - destruct b as [[i j] k]. cbn. intros (Hi & Hj & Hk). apply (elem_of_list_lookup_2 _ (cx * cy * k + cx * j + i)), (fr3_lookup cz cy cx (fun k j i => (i, j, k))); assumption.
Qed.
Lemma bases_NoDup : NoDup bases.
Proof.
  apply NoDup_alt. intros c c' b H H'. assert (L : forall c, bases !! c = Some b -> c = cx * cy * b.2 + cx * b.1.2 + b.1.1).
  { clear. intros c H. assert (Hc : c < cx * cy * cz) by (pose proof (lookup_lt_Some _ _ _ H) as L; unfold bases in L; rewrite (fr3_length cz cy cx (fun k j i => (i, j, k))) in L; exact L).
    destruct (split3 _ _ _ _ Hc) as (i & j & k & Hi & Hj & Hk & ->). unfold bases in H. rewrite (fr3_lookup cz cy cx (fun k j i => (i, j, k))) in H by assumption. injection H as <-. reflexivity. }
  rewrite (L _ H), (L _ H'). reflexivity.
Qed.
Definition all_shapes (a : nat) : list (list pnt) := inner_shapes a ++ (low_shapes a true ++ low_shapes a false) ++ (high_shapes a true ++ high_shapes a false).
Lemma shapes_sub b a : sublist (axis_shapes b a) (all_shapes a).
Proof.
  unfold axis_shapes, all_shapes. assert (P : forall f : bool -> list (list pnt), sublist (f (even b)) (f true ++ f false)) by (intros f; destruct (even b); [apply sublist_inserts_r; reflexivity|apply sublist_inserts_l; reflexivity]).
  apply sublist_app; [case_decide; [reflexivity|apply sublist_nil_l]|]. apply sublist_app; (case_decide; [apply P|apply sublist_nil_l]).
Qed.
Lemma sublist_NoDup {A} (l l' : list A) : sublist l l' -> NoDup l' -> NoDup l.
Proof.
  induction 1 as [|x l l' H IH|x l l' H IH]; intros N; [exact N| |]; apply NoDup_cons in N as (Hx & N); [|apply IH, N]. apply NoDup_cons. split; [|apply IH, N]. intros Hl. apply Hx. clear -H Hl. revert Hl. induction H as [|y l l' H IH|y l l' H IH]; [tauto| |]; rewrite ?elem_of_cons; [intros [->|Hl]; auto|auto].
Qed.
Lemma shapes_NoDup b : NoDup (base_shapes b).
Proof.
  apply (sublist_NoDup _ (all_shapes 0 ++ all_shapes 1 ++ all_shapes 2 ++ [])); [unfold base_shapes; cbn [map concat]; repeat (apply sublist_app; [apply shapes_sub|]); reflexivity|].
  apply (bool_decide_eq_true_1 _). vm_compute. reflexivity.
Qed.
Lemma pairs_elem b s : (b, s) ∈ pairs <-> (b.1.1 < cx /\ b.1.2 < cy /\ b.2 < cz) /\ s ∈ base_shapes b.
Proof.
  unfold pairs. rewrite <- bases_elem. rewrite !elem_of_list_In, in_concat. split.
  - intros (l & Hl & H). apply in_map_iff in Hl as (b' & <- & Hb). apply in_map_iff in H as (s' & E & Hs). injection E as -> ->. split; assumption.
  - intros (Hb & Hs). exists (map (pair b) (base_shapes b)). split; [apply (in_map (fun b => map (pair b) (base_shapes b))), Hb|apply in_map, Hs].
Qed.
Lemma NoDup_concat_map {A B} (f : A -> list B) l : NoDup l -> (forall x, NoDup (f x)) -> (forall x y z, z ∈ f x -> z ∈ f y -> x = y) -> NoDup (concat (map f l)).
Proof.
  intros Nl Nf D. induction Nl as [|x l Hx _ IH]; [apply NoDup_nil_2|]. cbn [map concat]. apply NoDup_app. split; [apply Nf|]. split; [|exact IH]. intros z Hz Hz'. apply elem_of_list_In, in_concat in Hz' as (u & Hu & Hz'). apply in_map_iff in Hu as (y & <- & Hy).
  rewrite (D x y z Hz ltac:(apply elem_of_list_In, Hz')) in Hx. apply Hx, elem_of_list_In, Hy.
Qed.
Lemma pairs_NoDup : NoDup pairs.
Proof.
  apply NoDup_concat_map; [apply bases_NoDup|intros b; apply NoDup_fmap_2; [intros s s' E; injection E as ->; reflexivity|apply shapes_NoDup]|].
  intros b b' z H H'. apply elem_of_list_In, in_map_iff in H as (s & <- & _). apply elem_of_list_In, in_map_iff in H' as (s' & E & _). injection E as -> _. reflexivity.
Qed.

(** * which shapes occur at a cell *)
Definition in_box (b : nat * nat * nat) : Prop := b.1.1 < cx /\ b.1.2 < cy /\ b.2 < cz.
Definition holds (k : kind) (b : nat * nat * nat) : Prop :=
  let a := k_axis k in match k_place k with 0 => get a b + 1 < get a (cx, cy, cz) | 1 => get a b = 0 /\ k_even k = even b | _ => get a b + 1 = get a (cx, cy, cz) /\ k_even k = even b end.
Lemma kinds_eq : kinds = flat_map (fun a => map (fun s => (a, 0, true, s)) (inner_shapes a) ++ map (fun s => (a, 1, true, s)) (low_shapes a true) ++ map (fun s => (a, 1, false, s)) (low_shapes a false)
                     ++ map (fun s => (a, 2, true, s)) (high_shapes a true) ++ map (fun s => (a, 2, false, s)) (high_shapes a false)) [0; 1; 2].
Proof. vm_compute. reflexivity. Qed.
Lemma shape_kind b s : s ∈ base_shapes b <-> exists k, In k kinds /\ k_shape k = s /\ holds k b.
Proof.
  unfold base_shapes. rewrite elem_of_list_In, in_concat, kinds_eq. split.
  - intros (l & Hl & Hs). apply in_map_iff in Hl as (a & <- & Ha). unfold axis_shapes in Hs. rewrite !in_app_iff in Hs. destruct Hs as [Hs|[Hs|Hs]]; (case_decide as D; [|destruct Hs]).
    + exists (a, 0, true, s). split; [|split; [reflexivity|exact D]]. apply in_flat_map. exists a. split; [exact Ha|]. rewrite !in_app_iff. left. apply (in_map (fun s => (a, 0, true, s))), Hs.
    + exists (a, 1, even b, s). split; [|split; [reflexivity|split; [exact D|reflexivity]]]. apply in_flat_map. exists a. split; [exact Ha|]. rewrite !in_app_iff. right. destruct (even b); [left; apply (in_map (fun s => (a, 1, true, s))), Hs|right; left; apply (in_map (fun s => (a, 1, false, s))), Hs].
    + exists (a, 2, even b, s). split; [|split; [reflexivity|split; [exact D|reflexivity]]]. apply in_flat_map. exists a. split; [exact Ha|]. rewrite !in_app_iff. right; right; right. destruct (even b); [left; apply (in_map (fun s => (a, 2, true, s))), Hs|right; apply (in_map (fun s => (a, 2, false, s))), Hs].
  - intros (k & Hk & <- & H). apply in_flat_map in Hk as (a & Ha & Hk). exists (axis_shapes b a). split; [apply in_map, Ha|]. unfold axis_shapes. cbv beta in Hk. rewrite !in_app_iff in Hk. rewrite !in_app_iff.
    destruct Hk as [Hk|[Hk|[Hk|[Hk|Hk]]]]; apply in_map_iff in Hk as (s & <- & Hs); cbn [k_shape snd]; unfold holds in H; cbn [k_axis k_place k_even fst snd] in H.
    + left. rewrite decide_True by exact H. exact Hs.
    + right; left. destruct H as (H & E). rewrite decide_True by exact H. rewrite <- E. exact Hs.
    + right; left. destruct H as (H & E). rewrite decide_True by exact H. rewrite <- E. exact Hs.
    + right; right. destruct H as (H & E). rewrite decide_True by exact H. rewrite <- E. exact Hs.
    + right; right. destruct H as (H & E). rewrite decide_True by exact H. rewrite <- E. exact Hs.
Qed.
Definition shape_ok (k : kind) : bool := (k_axis k <? 3) && (k_place k <? 3) && (length (k_shape k) =? 4) &&
  (if k_place k =? 0 then pnt_eqb (nth 0 (k_shape k) no_pnt) (centre_at (0, 0, 0)) && negb (nth 3 (k_shape k) no_pnt).1 else pnt_eqb (nth 3 (k_shape k) no_pnt) (centre_at (0, 0, 0)) && negb (nth 0 (k_shape k) no_pnt).1) &&
  forallb (fun p : pnt => if p.1 then forallb (fun c => get c p.2 <=? (if (k_place k =? 0) && (c =? k_axis k) then 1 else 0)) [0; 1; 2] else forallb (fun c => get c p.2 <=? 1) [0; 1; 2]) (k_shape k).
Lemma shapes_ok k : In k kinds -> shape_ok k = true.
Proof. assert (H : forallb shape_ok kinds = true) by (vm_compute; reflexivity). rewrite forallb_forall in H. apply H. Qed.
Lemma pnt_eqb_eq p q : pnt_eqb p q = true -> p = q.
Proof. unfold pnt_eqb. rewrite !andb_true_iff, !Nat.eqb_eq. intros (((A & B) & C) & D). apply pnt_eq; [apply Bool.eqb_prop, A|assumption..]. Qed.
Lemma pnts_eqb_eq ps qs : pnts_eqb ps qs = true -> ps = qs.
Proof. revert qs. induction ps as [|p ps IH]; intros [|q qs]; cbn [pnts_eqb]; try discriminate; [reflexivity|]. rewrite andb_true_iff. intros (A & B). f_equal; [apply pnt_eqb_eq, A|apply IH, B]. Qed.
Lemma pnts_eqb_refl ps : pnts_eqb ps ps = true.
Proof. induction ps as [|p ps IH]; [reflexivity|]. cbn [pnts_eqb]. unfold pnt_eqb. rewrite !Nat.eqb_refl, Bool.eqb_reflx, IH. reflexivity. Qed.
Lemma shape_inside k b p : In k kinds -> in_box b -> holds k b -> In p (k_shape k) -> inside (shift b p).
Proof.
  intros Hk (B1 & B2 & B3) H Hp. pose proof (shapes_ok k Hk) as O. unfold shape_ok in O. rewrite !andb_true_iff in O. destruct O as ((((O1 & O2) & _) & _) & O3). rewrite forallb_forall in O3. specialize (O3 p Hp). apply Nat.ltb_lt in O1, O2. unfold inside, shift, holds in *. cbn [fst snd px py pz] in *. unfold px, py, pz in *. cbn [fst snd].
  destruct (p.1); cbn [forallb get] in O3; rewrite !andb_true_iff, !Nat.leb_le in O3; destruct O3 as (P0 & P1 & P2 & _); [|lia].
  destruct (k_place k) as [|s]; cbn [Nat.eqb andb] in *; [|lia]. destruct (k_axis k) as [|[|[|]]]; cbn [get Nat.eqb fst snd] in *; lia.
Qed.
Lemma map_inj_on {A B} (f : A -> B) (P : A -> Prop) l l' : (forall x y, P x -> P y -> f x = f y -> x = y) -> Forall P l -> Forall P l' -> map f l = map f l' -> l = l'.
Proof. intros I H. revert l'. induction H as [|x l Hx _ IH]; intros [|y l'] H' E; try discriminate; [reflexivity|]. apply Forall_cons in H' as (Hy & H'). injection E as E1 E2. f_equal; [apply I; assumption|apply IH; assumption]. Qed.
Lemma perm_inj_on {A B} (f : A -> B) (P : A -> Prop) l l' : (forall x y, P x -> P y -> f x = f y -> x = y) -> Forall P l -> Forall P l' -> map f l ≡ₚ map f l' -> l ≡ₚ l'.
Proof.
  intros I H H' E. apply Permutation_map_inv in E as (l3 & E & E'). rewrite (map_inj_on f P l l3 I H ltac:(rewrite <- E'; exact H') E). symmetry. exact E'.
Qed.
Lemma tet_node b s : tet b s = map node (map (shift b) s). Proof. unfold tet. rewrite map_map. reflexivity. Qed.
Lemma shift_inj b p q : shift b p = shift b q -> p = q.
Proof. intros E. apply pnt_eq; [exact (f_equal fst E)|pose proof (f_equal px E) as F|pose proof (f_equal py E) as F|pose proof (f_equal pz E) as F]; unfold shift in F; cbn [px py pz fst snd] in F; unfold px, py, pz in *; cbn [fst snd] in F; lia. Qed.
Lemma shape_shift k k' b b' : In k kinds -> In k' kinds -> map (shift b) (k_shape k) = map (shift b') (k_shape k') -> b = b' /\ k_shape k = k_shape k'.
Proof.
  intros Hk Hk' E. pose proof (shapes_ok k Hk) as O. pose proof (shapes_ok k' Hk') as O'. unfold shape_ok in O, O'. rewrite !andb_true_iff in O, O'. destruct O as ((((_ & _) & L) & O) & _). destruct O' as ((((_ & _) & L') & O') & _). apply Nat.eqb_eq in L, L'.
  assert (B : b = b').
  { destruct (k_shape k) as [|p0 [|p1 [|p2 [|p3 [|]]]]]; try discriminate L. destruct (k_shape k') as [|q0 [|q1 [|q2 [|q3 [|]]]]]; try discriminate L'. cbn [map nth] in *. injection E as E0 E0' E1 E1' E2 E2' E3 E3'.
    destruct (k_place k =? 0), (k_place k' =? 0); apply andb_true_iff in O as (O & N); apply andb_true_iff in O' as (O' & N'); apply pnt_eqb_eq in O, O'; subst; unfold px, py, pz in *; cbn [centre_at fst snd] in *.
    - apply injective_projections; [apply injective_projections|]; lia.
    - rewrite <- E0 in N'. discriminate N'.
    - rewrite E0 in N. discriminate N.
    - apply injective_projections; [apply injective_projections|]; lia. }
  split; [exact B|]. subst b'. apply (map_inj_on (shift b) (fun _ => True)) in E; [exact E|intros p q _ _; apply shift_inj|apply Forall_true; auto|apply Forall_true; auto].
Qed.
Lemma kind_forall k b : In k kinds -> in_box b -> holds k b -> Forall inside (map (shift b) (k_shape k)).
Proof. intros Hk Hb H. apply Forall_forall. intros p Hp. apply elem_of_list_In, in_map_iff in Hp as (q & <- & Hq). apply (shape_inside k); assumption. Qed.
Lemma tets_elem t : t ∈ tets <-> exists b k, in_box b /\ In k kinds /\ holds k b /\ t = tet b (k_shape k).
Proof.
  unfold tets. split.
  - intros H. apply elem_of_list_In, in_map_iff in H as ([b s] & <- & H). apply elem_of_list_In, pairs_elem in H as (Hb & Hs). apply shape_kind in Hs as (k & Hk & <- & Hh). exists b, k. auto.
  - intros (b & k & Hb & Hk & Hh & ->). apply elem_of_list_In, in_map_iff. exists (b, k_shape k). split; [reflexivity|]. apply elem_of_list_In, pairs_elem. split; [exact Hb|]. apply shape_kind. eauto.
Qed.
Lemma tets_NoDup : NoDup tets.
Proof.
  unfold tets. apply NoDup_alt. intros c c' t H H'. change (map (fun q => tet q.1 q.2) pairs) with ((fun q => tet q.1 q.2) <$> pairs) in H, H'. rewrite list_lookup_fmap in H, H'.
  destruct (pairs !! c) as [[b s]|] eqn:E; [|discriminate]. destruct (pairs !! c') as [[b' s']|] eqn:E'; [|discriminate]. cbn [fmap option_fmap option_map fst snd] in H, H'. injection H as <-. injection H' as H'.
  pose proof (elem_of_list_lookup_2 _ _ _ E) as Q. pose proof (elem_of_list_lookup_2 _ _ _ E') as Q'. apply pairs_elem in Q as (Hb & Hs). apply pairs_elem in Q' as (Hb' & Hs'). apply shape_kind in Hs as (k & Hk & <- & Hh). apply shape_kind in Hs' as (k' & Hk' & <- & Hh').
  rewrite !tet_node in H'. apply (map_inj_on node inside) in H'; [|apply node_inj|apply kind_forall; assumption|apply kind_forall; assumption]. apply shape_shift in H' as (-> & Es); [|assumption..]. rewrite Es in E'. exact (NoDup_lookup pairs c c' _ pairs_NoDup E E').
Qed.
End tets.

(** The tetrahedra of the uniform mesh of a box are connected across their faces. Auxiliary to C110. *)
From stdpp Require Import base list list_numbers sets relations.
From Coq Require Import Lia ZArith.
From Verif Require Import Prelude ReorderModel MeshModel ProcModel PropProc GridProofs GridLinks TetTables TetGrid.
Import ListNotations.
Local Open Scope nat_scope.

(** the tetrahedra at one of the six sides of a cell, with the offset of the cell they are made for *)
Definition group (a : nat) (dir edge e : bool) : list (list pnt * (nat * nat * nat)) :=
  if edge then map (fun s => (s, (0, 0, 0))) (if dir then high_shapes a e else low_shapes a e) else map (fun s => (s, if dir then (0, 0, 0) else axis_unit a)) (inner_shapes a).
Definition bsub (b d : nat * nat * nat) : nat * nat * nat := (b.1.1 - d.1.1, b.1.2 - d.1.2, b.2 - d.2).
Definition common (x x' : list pnt * (nat * nat * nat)) : list pnt :=
  List.filter (fun p => existsb (fun q => pnt_eqb (shift (bsub (1, 1, 1) x.2) p) (shift (bsub (1, 1, 1) x'.2) q)) x'.1) x.1.
Definition meet (x x' : list pnt * (nat * nat * nat)) : bool := length (common x x') =? 3.
Fixpoint chain (l : list (list pnt * (nat * nat * nat))) : bool := match l with x :: (y :: _) as r => meet x y && chain r | _ => true end.
Definition chains : bool := forallb (fun a => forallb (fun dir => forallb (fun edge => forallb (fun e => chain (group a dir edge e)) bools) bools) bools) [0; 1; 2].
Definition crossings : bool := forallb (fun a => forallb (fun a' => (a =? a') || forallb (fun dir => forallb (fun dir' => forallb (fun edge => forallb (fun edge' => forallb (fun e =>
  existsb (fun x => existsb (meet x) (group a' dir' edge' e)) (group a dir edge e)) bools) bools) bools) bools) bools) [0; 1; 2]) [0; 1; 2].
Lemma chains_checked : chains = true. Proof. vm_compute. reflexivity. Qed.
Lemma crossings_checked : crossings = true. Proof. vm_compute. reflexivity. Qed.
Lemma bools_all x : In x bools. Proof. destruct x; cbn; auto. Qed.
Lemma axes_all a : a < 3 -> In a [0; 1; 2]. Proof. intros H. destruct a as [|[|[|]]]; cbn; auto; lia. Qed.
Lemma group_chain a dir edge e : a < 3 -> chain (group a dir edge e) = true.
Proof.
  intros Ha. pose proof (proj1 (forallb_forall _ [0; 1; 2]) chains_checked a (axes_all a Ha)) as H. cbv beta in H. pose proof (proj1 (forallb_forall _ bools) H dir (bools_all dir)) as H1. cbv beta in H1. pose proof (proj1 (forallb_forall _ bools) H1 edge (bools_all edge)) as H2. cbv beta in H2. exact (proj1 (forallb_forall _ bools) H2 e (bools_all e)).
Qed.
Lemma group_cross a a' dir dir' edge edge' e : a < 3 -> a' < 3 -> a <> a' -> exists x x', In x (group a dir edge e) /\ In x' (group a' dir' edge' e) /\ meet x x' = true.
Proof.
  intros Ha Ha' N. pose proof (proj1 (forallb_forall _ [0; 1; 2]) crossings_checked a (axes_all a Ha)) as H. cbv beta in H. pose proof (proj1 (forallb_forall _ [0; 1; 2]) H a' (axes_all a' Ha')) as H1. cbv beta in H1. rewrite (proj2 (Nat.eqb_neq a a') N), orb_false_l in H1.
  pose proof (proj1 (forallb_forall _ bools) H1 dir (bools_all dir)) as H2. cbv beta in H2. pose proof (proj1 (forallb_forall _ bools) H2 dir' (bools_all dir')) as H3. cbv beta in H3. pose proof (proj1 (forallb_forall _ bools) H3 edge (bools_all edge)) as H4. cbv beta in H4. pose proof (proj1 (forallb_forall _ bools) H4 edge' (bools_all edge')) as H5. cbv beta in H5. pose proof (proj1 (forallb_forall _ bools) H5 e (bools_all e)) as H6. cbv beta in H6.
  apply existsb_exists in H6 as (x & Hx & H6). apply existsb_exists in H6 as (x' & Hx' & H6). exists x, x'. auto.
Qed.
Fixpoint nodupb (l : list pnt) : bool := match l with [] => true | p :: l => negb (existsb (pnt_eqb p) l) && nodupb l end.
Lemma pnt_eqb_refl p : pnt_eqb p p = true. Proof. unfold pnt_eqb. rewrite !Nat.eqb_refl, Bool.eqb_reflx. reflexivity. Qed.
Lemma nodupb_ok l : nodupb l = true -> NoDup l.
Proof.
  induction l as [|p l IH]; intros H; [apply NoDup_nil_2|]. cbn [nodupb] in H. apply andb_true_iff in H as (A & B). apply NoDup_cons_2; [|apply IH, B]. intros Hp. apply negb_true_iff in A. assert (T : existsb (pnt_eqb p) l = true) by (apply existsb_exists; exists p; split; [apply elem_of_list_In, Hp|apply pnt_eqb_refl]). congruence.
Qed.
Lemma kinds_nodup k : In k kinds -> NoDup (k_shape k).
Proof. intros Hk. apply nodupb_ok. assert (H : forallb (fun k => nodupb (k_shape k)) kinds = true) by (vm_compute; reflexivity). exact (proj1 (forallb_forall _ kinds) H k Hk). Qed.

Section links.
Context (cx cy cz : nat).
Local Notation node := (node cx cy cz).
Local Notation inside := (inside cx cy cz).
Local Notation tets := (tets cx cy cz).
Local Notation tet := (tet cx cy cz).
Local Notation in_box := (in_box cx cy cz).
Definition valid (b : nat * nat * nat) (x : list pnt * (nat * nat * nat)) : Prop :=
  (x.2.1.1 <= 1 /\ x.2.1.2 <= 1 /\ x.2.2 <= 1) /\ (x.2.1.1 <= b.1.1 /\ x.2.1.2 <= b.1.2 /\ x.2.2 <= b.2) /\ in_box (bsub b x.2) /\ x.1 ∈ base_shapes cx cy cz (bsub b x.2).
Definition real (b : nat * nat * nat) (x : list pnt * (nat * nat * nat)) : list nat := tet (bsub b x.2) x.1.
Lemma real_in b x : valid b x -> real b x ∈ tets.
Proof. intros (_ & _ & Hb & Hs). apply shape_kind in Hs as (k & Hk & E & Hh). apply tets_elem. exists (bsub b x.2), k. split; [exact Hb|]. split; [exact Hk|]. split; [exact Hh|]. unfold real. rewrite E. reflexivity. Qed.
Lemma meet_touches b x x' : valid b x -> valid b x' -> meet x x' = true -> touching 3 tets (real b x) (real b x').
Proof.
  intros V V' M. split; [apply real_in, V|]. split; [apply real_in, V'|]. destruct V as (D1 & L1 & Hb & Hs). destruct V' as (D1' & L1' & Hb' & Hs'). apply shape_kind in Hs as (k & Hk & Ek & Hh). apply shape_kind in Hs' as (k' & Hk' & Ek' & Hh').
  assert (Sub : forall p, In p (common x x') -> In p x.1 /\ exists q, In q x'.1 /\ shift (bsub b x.2) p = shift (bsub b x'.2) q).
  { intros p Hp. apply filter_In in Hp as (Hp & Hq). split; [exact Hp|]. apply existsb_exists in Hq as (q & Hq & E). apply pnt_eqb_eq in E. exists q. split; [exact Hq|]. pose proof (f_equal fst E) as F0. pose proof (f_equal px E) as F1. pose proof (f_equal py E) as F2. pose proof (f_equal pz E) as F3.
    unfold shift, bsub, px, py, pz in F0, F1, F2, F3 |- *. cbn [fst snd] in *. rewrite F0. f_equal. f_equal; [f_equal|]; lia. }
  exists (map (fun p => node (shift (bsub b x.2) p)) (common x x')). split; [|split].
  - assert (N : NoDup (common x x')). { unfold common. rewrite <- Ek. apply kinds_nodup in Hk. clear -Hk. apply NoDup_ListNoDup. apply List.NoDup_filter. apply NoDup_ListNoDup, Hk. }
    apply NoDup_alt. intros i j v Hi Hj. change (map (fun p => node (shift (bsub b x.2) p)) (common x x')) with ((fun p => node (shift (bsub b x.2) p)) <$> common x x') in Hi, Hj. rewrite list_lookup_fmap in Hi, Hj.
    destruct (common x x' !! i) as [p|] eqn:Ep; [|discriminate]. destruct (common x x' !! j) as [q|] eqn:Eq; [|discriminate]. cbn [fmap option_fmap option_map] in Hi, Hj. injection Hi as Hi. injection Hj as Hj. subst v.
    assert (Hp : In p x.1) by (apply Sub, elem_of_list_In, (elem_of_list_lookup_2 _ _ _ Ep)). assert (Hq : In q x.1) by (apply Sub, elem_of_list_In, (elem_of_list_lookup_2 _ _ _ Eq)). rewrite <- Ek in Hp, Hq.
    apply node_inj in Hj; [|apply (shape_inside cx cy cz k); assumption|apply (shape_inside cx cy cz k); assumption]. apply shift_inj in Hj. subst q. exact (NoDup_lookup _ i j p N Ep Eq).
  - rewrite map_length. apply Nat.eqb_eq, M.
  - intros j Hj. apply elem_of_list_In, in_map_iff in Hj as (p & <- & Hp). destruct (Sub p Hp) as (Hp1 & q & Hq & E). unfold real, TetGrid.tet. split; apply elem_of_list_In; [apply (in_map (fun p => node (shift (bsub b x.2) p))), Hp1|]. rewrite E. apply (in_map (fun p => node (shift (bsub b x'.2) p))), Hq.
Qed.
Lemma chain_linked b l : chain l = true -> (forall x, In x l -> valid b x) -> forall x y, In x l -> In y l -> rtc (touching 3 tets) (real b x) (real b y).
Proof.
  assert (H : chain l = true -> (forall x, In x l -> valid b x) -> forall h, head l = Some h -> forall y, In y l -> rtc (touching 3 tets) (real b h) (real b y)).
  { induction l as [|x [|y l] IH]; intros C V h E z Hz; [discriminate| |]; injection E as <-; destruct Hz as [<-|Hz]; try apply rtc_refl; [destruct Hz|]. cbn [chain] in C. apply andb_true_iff in C as (M & C).
    eapply rtc_l; [apply meet_touches; [apply V; left; reflexivity|apply V; right; left; reflexivity|exact M]|]. apply IH; [exact C|intros u Hu; apply V; right; exact Hu|reflexivity|exact Hz]. }
  intros C V x y Hx Hy. destruct l as [|h l]; [destruct Hx|]. etransitivity; [apply touched_sym, (H C V h eq_refl x Hx)|apply (H C V h eq_refl y Hy)].
Qed.
Definition side_edge (b : nat * nat * nat) (a : nat) (dir : bool) : bool := if dir then get a b + 1 =? get a (cx, cy, cz) else get a b =? 0.
Definition side_group (b : nat * nat * nat) (a : nat) (dir : bool) := group a dir (side_edge b a dir) (even b).
Lemma bsub_0 b : bsub b (0, 0, 0) = b. Proof. destruct b as [[i j] k]. unfold bsub. cbn [fst snd]. rewrite !Nat.sub_0_r. reflexivity. Qed.
Lemma group_valid b a dir x : a < 3 -> in_box b -> In x (side_group b a dir) -> valid b x.
Proof.
  intros Ha Hb Hx. assert (B : forall b' s, s ∈ axis_shapes cx cy cz b' a -> s ∈ base_shapes cx cy cz b') by (intros b' s Hs; unfold base_shapes; apply elem_of_list_In, in_concat; exists (axis_shapes cx cy cz b' a); split; [apply in_map, axes_all, Ha|apply elem_of_list_In, Hs]).
  assert (Bc : get a b < get a (cx, cy, cz)) by (destruct Hb as (B1 & B2 & B3); destruct a as [|[|?]]; cbn [get fst snd]; assumption).
  assert (Z : forall s, s ∈ axis_shapes cx cy cz b a -> valid b (s, (0, 0, 0))). { intros s Hs. unfold valid. cbn [fst snd]. rewrite bsub_0. split; [lia|]. split; [lia|]. split; [exact Hb|apply B, Hs]. }
  unfold side_group, group, side_edge in Hx. destruct dir.
  - destruct (Nat.eqb_spec (get a b + 1) (get a (cx, cy, cz))) as [E|E]; apply in_map_iff in Hx as (s & <- & Hs); apply Z; unfold axis_shapes; rewrite !elem_of_app.
    + right; right. rewrite decide_True by exact E. apply elem_of_list_In, Hs.
    + left. rewrite decide_True by lia. apply elem_of_list_In, Hs.
  - destruct (Nat.eqb_spec (get a b) 0) as [E|E]; apply in_map_iff in Hx as (s & <- & Hs).
    + apply Z. unfold axis_shapes. rewrite !elem_of_app. right; left. rewrite decide_True by exact E. apply elem_of_list_In, Hs.
    + unfold valid. cbn [fst snd]. destruct Hb as (B1 & B2 & B3). assert (G : get a (bsub b (axis_unit a)) + 1 = get a b) by (destruct a as [|[|[|]]]; cbn [get axis_unit bsub fst snd] in *; lia).
      split; [destruct a as [|[|[|]]]; cbn [axis_unit fst snd]; lia|]. split; [destruct a as [|[|[|]]]; cbn [get axis_unit fst snd] in *; lia|]. split; [unfold TetGrid.in_box, bsub; cbn [fst snd]; lia|]. apply B. unfold axis_shapes. rewrite elem_of_app. left. rewrite decide_True by lia. apply elem_of_list_In, Hs.
Qed.
(** all tetrahedra at a cell *)
Definition around (b : nat * nat * nat) (t : list nat) : Prop := exists a dir x, a < 3 /\ In x (side_group b a dir) /\ t = real b x.
Lemma around_linked b t t' : in_box b -> around b t -> around b t' -> rtc (touching 3 tets) t t'.
Proof.
  intros Hb (a & dir & x & Ha & Hx & ->) (a' & dir' & x' & Ha' & Hx' & ->).
  assert (W : forall a dir x y, a < 3 -> In x (side_group b a dir) -> In y (side_group b a dir) -> rtc (touching 3 tets) (real b x) (real b y)).
  { intros a0 d0 y z H0 Hy Hz. apply (chain_linked b (side_group b a0 d0)); [apply group_chain, H0|intros u Hu; apply (group_valid b a0 d0); assumption|exact Hy|exact Hz]. }
  assert (C : forall a a' dir dir' x x', a < 3 -> a' < 3 -> a <> a' -> In x (side_group b a dir) -> In x' (side_group b a' dir') -> rtc (touching 3 tets) (real b x) (real b x')).
  { intros a0 a1 d0 d1 y z H0 H1 N Hy Hz. destruct (group_cross a0 a1 d0 d1 (side_edge b a0 d0) (side_edge b a1 d1) (even b) H0 H1 N) as (u & v & Hu & Hv & M). etransitivity; [exact (W a0 d0 y u H0 Hy Hu)|]. eapply rtc_l; [|exact (W a1 d1 v z H1 Hv Hz)]. apply meet_touches; [apply (group_valid b a0 d0); assumption|apply (group_valid b a1 d1); assumption|exact M]. }
  destruct (decide (a = a')) as [E|N]; [|apply (C a a' dir dir'); assumption]. subst a'. set (c := if decide (a = 0) then 1 else 0). assert (Hc : c < 3 /\ a <> c) by (unfold c; case_decide; lia).
  destruct (group_cross a c dir true (side_edge b a dir) (side_edge b c true) (even b) Ha ltac:(lia) ltac:(lia)) as (u & v & Hu & Hv & M). etransitivity; [apply (C a c dir true x v); try assumption; lia|]. apply (C c a true dir' v x'); try assumption; lia.
Qed.
Lemma side_around b k : in_box b -> In k kinds -> holds cx cy cz k b -> around b (tet b (k_shape k)).
Proof.
  intros Hb Hk Hh. rewrite kinds_eq in Hk. apply in_flat_map in Hk as (a & Ha & Hk). assert (H3 : a < 3) by (cbn in Ha; lia). cbv beta in Hk. rewrite !in_app_iff in Hk.
  assert (R : forall s : list pnt, tet b s = real b (s, (0, 0, 0))) by (intros s; unfold real; cbn [fst snd]; rewrite bsub_0; reflexivity).
  unfold around, side_group, group, side_edge. destruct Hk as [Hk|[Hk|[Hk|[Hk|Hk]]]]; apply in_map_iff in Hk as (s & <- & Hs); unfold holds in Hh; cbn [k_axis k_place k_even k_shape fst snd] in Hh |- *.
  - exists a, true, (s, (0, 0, 0)). split; [exact H3|]. split; [|apply R]. rewrite (proj2 (Nat.eqb_neq _ _)) by lia. apply (in_map (fun s => (s, (0, 0, 0)))), Hs.
  - exists a, false, (s, (0, 0, 0)). split; [exact H3|]. split; [|apply R]. destruct Hh as (Hh & E). rewrite (proj2 (Nat.eqb_eq _ _)) by exact Hh. rewrite <- E. apply (in_map (fun s => (s, (0, 0, 0)))), Hs.
  - exists a, false, (s, (0, 0, 0)). split; [exact H3|]. split; [|apply R]. destruct Hh as (Hh & E). rewrite (proj2 (Nat.eqb_eq _ _)) by exact Hh. rewrite <- E. apply (in_map (fun s => (s, (0, 0, 0)))), Hs.
  - exists a, true, (s, (0, 0, 0)). split; [exact H3|]. split; [|apply R]. destruct Hh as (Hh & E). rewrite (proj2 (Nat.eqb_eq _ _)) by exact Hh. rewrite <- E. apply (in_map (fun s => (s, (0, 0, 0)))), Hs.
  - exists a, true, (s, (0, 0, 0)). split; [exact H3|]. split; [|apply R]. destruct Hh as (Hh & E). rewrite (proj2 (Nat.eqb_eq _ _)) by exact Hh. rewrite <- E. apply (in_map (fun s => (s, (0, 0, 0)))), Hs.
Qed.
(** a tetrahedron between two cells belongs to both *)
Definition next (b : nat * nat * nat) (a : nat) : nat * nat * nat := (b.1.1 + (axis_unit a).1.1, b.1.2 + (axis_unit a).1.2, b.2 + (axis_unit a).2).
Lemma bridge b a : a < 3 -> in_box b -> get a b + 1 < get a (cx, cy, cz) -> exists t, around b t /\ around (next b a) t.
Proof.
  intros Ha Hb H. assert (Hs : exists s, In s (inner_shapes a)) by (destruct a as [|[|[|]]]; [eexists; left; reflexivity..|lia]). destruct Hs as (s & Hs). exists (tet b s). split.
  - exists a, true, (s, (0, 0, 0)). split; [exact Ha|]. split; [|unfold real; cbn [fst snd]; rewrite bsub_0; reflexivity]. unfold side_group, group, side_edge. rewrite (proj2 (Nat.eqb_neq _ _)) by lia. apply (in_map (fun s => (s, (0, 0, 0)))), Hs.
  - exists a, false, (s, axis_unit a). split; [exact Ha|]. split.
    + unfold side_group, group, side_edge. rewrite (proj2 (Nat.eqb_neq _ _)) by (destruct a as [|[|[|]]]; cbn [get next axis_unit fst snd]; lia). apply (in_map (fun s => (s, axis_unit a))), Hs.
    + unfold real. cbn [fst snd]. f_equal. unfold bsub, next. cbn [fst snd]. destruct b as [[i j] k]. cbn [fst snd]. rewrite !Nat.add_sub. reflexivity.
Qed.
Lemma all_around b t : in_box b -> around b t -> forall t0, around (0, 0, 0) t0 -> rtc (touching 3 tets) t0 t.
Proof.
  remember (b.1.1 + b.1.2 + b.2) as n eqn:En. revert b t En. induction n as [|n IH]; intros b t En Hb Ht t0 H0.
  - destruct b as [[i j] k]. cbn [fst snd] in En. assert (i = 0 /\ j = 0 /\ k = 0) as (-> & -> & ->) by lia. exact (around_linked _ _ _ Hb H0 Ht).
  - assert (P : exists a b', a < 3 /\ in_box b' /\ next b' a = b /\ get a b' + 1 < get a (cx, cy, cz) /\ n = b'.1.1 + b'.1.2 + b'.2).
    { destruct b as [[i j] k]. unfold TetGrid.in_box in Hb. cbn [fst snd] in En, Hb. destruct i as [|i]; [destruct j as [|j]; [destruct k as [|k]; [lia|]|]|].
      - exists 2, (0, 0, k). unfold TetGrid.in_box, next. cbn [fst snd axis_unit get]. rewrite !Nat.add_1_r. split_and!; lia || reflexivity.
      - exists 1, (0, j, k). unfold TetGrid.in_box, next. cbn [fst snd axis_unit get]. rewrite !Nat.add_0_r, !Nat.add_1_r. split_and!; lia || reflexivity.
      - exists 0, (i, j, k). unfold TetGrid.in_box, next. cbn [fst snd axis_unit get]. rewrite !Nat.add_0_r, !Nat.add_1_r. split_and!; lia || reflexivity. }
    destruct P as (a & b' & Ha & Hb' & E & L & En'). destruct (bridge b' a Ha Hb' L) as (u & U1 & U2). rewrite E in U2. etransitivity; [exact (IH b' u En' Hb' U1 t0 H0)|exact (around_linked b u t Hb U2 Ht)].
Qed.
Lemma tets_linked t t' : t ∈ tets -> t' ∈ tets -> rtc (touching 3 tets) t t'.
Proof.
  intros Ht Ht'. apply tets_elem in Ht as (b & k & Hb & Hk & Hh & ->). apply tets_elem in Ht' as (b' & k' & Hb' & Hk' & Hh' & ->).
  assert (H0 : exists t0, around (0, 0, 0) t0). { assert (Hz : exists x, In x (side_group (0, 0, 0) 0 false)) by (unfold side_group, group, side_edge; cbn [get fst snd Nat.eqb]; eexists; left; reflexivity). destruct Hz as (x & Hx). exists (real (0, 0, 0) x), 0, false, x. split; [lia|]. split; [exact Hx|reflexivity]. }
  destruct H0 as (t0 & H0). etransitivity; [apply touched_sym, (all_around b); [exact Hb|apply side_around; assumption|exact H0]|apply (all_around b'); [exact Hb'|apply side_around; assumption|exact H0]].
Qed.
End links.

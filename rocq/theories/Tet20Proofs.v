(** Lemmas for the conversion to Tet20 meshes. *)
From stdpp Require Import base list list_numbers sets sorting.
From Coq Require Import Reals Lia Lra.
From Verif Require Import Prelude ReorderModel MeshModel MeshSpec MeshProofs ElementModel ConvertModel FacesSpec ConvertSpec Tet20Model Tet20Spec.

(** ** The order of the keys *)
Lemma key_le_spec a b : key_le a b = true <-> a = b \/ lex_lt a b.
Proof.
  revert b. induction a as [|x a IH]; intros [|y b]; cbn.
  - split; auto.
  - split; [intros _; right; constructor|done].
  - split; [done|intros [H|H]; inversion H].
  - destruct (decide (x = y)) as [->|Hxy].
    + rewrite IH. split; [intros [->|H]; [by left|right; by constructor]|].
      intros [H|H]; [left; congruence|]. inversion H; subst; [lia|by right].
    + rewrite bool_decide_eq_true. split; [intros H; right; by constructor|].
      intros [H|H]; [congruence|]. inversion H; subst; [done|congruence].
Qed.

Lemma key_le_total a b : key_le a b = false -> lex_lt b a.
Proof.
  revert b. induction a as [|x a IH]; intros [|y b]; cbn; try done; [intros _; constructor|].
  destruct (decide (x = y)) as [->|Hxy]; [intros H; constructor; by apply IH|].
  rewrite bool_decide_eq_false. intros H. constructor. lia.
Qed.

Definition kle (a b : nkey) : Prop := a = b \/ lex_lt a b.
Lemma kle_trans a b c : kle a b -> kle b c -> kle a c.
Proof. intros [->|H] [->|H']; [by left|by right|by right|right; by eapply lex_trans]. Qed.

Lemma insert_elem x y l : y ∈ key_insert x l <-> y = x \/ y ∈ l.
Proof. induction l as [|z l IH]; cbn; [set_solver|]. destruct (key_le x z); set_solver. Qed.
Lemma sort_elem y l : y ∈ key_sort l <-> y ∈ l.
Proof. unfold key_sort. induction l as [|x l IH]; cbn; [done|]. rewrite insert_elem. set_solver. Qed.
Lemma insert_sorted x l : StronglySorted kle l -> StronglySorted kle (key_insert x l).
Proof.
  induction 1 as [|z l Hl IH Hz]; cbn; [repeat constructor|]. destruct (key_le x z) eqn:E.
  - apply key_le_spec in E. constructor; [by constructor|]. constructor; [done|].
    eapply Forall_impl; [exact Hz|]. intros w Hw. by eapply kle_trans.
  - apply key_le_total in E. constructor; [done|]. apply Forall_forall. intros w Hw. apply insert_elem in Hw as [->|Hw]; [by right|].
    rewrite Forall_forall in Hz. by apply Hz.
Qed.
Lemma sort_sorted l : StronglySorted kle (key_sort l).
Proof. unfold key_sort. induction l; cbn; [constructor|by apply insert_sorted]. Qed.
Lemma dedup_elem y l : y ∈ key_dedup l <-> y ∈ l.
Proof.
  induction l as [|x [|z l] IH]; [done..|]. change (key_dedup (x :: z :: l)) with (if decide (x = z) then key_dedup (z :: l) else x :: key_dedup (z :: l)).
  destruct (decide (x = z)) as [->|H]; set_solver.
Qed.
Lemma dedup_sorted l : StronglySorted kle l -> StronglySorted lex_lt (key_dedup l).
Proof.
  induction l as [|x [|z l] IH]; intros H; [constructor|repeat constructor|].
  change (key_dedup (x :: z :: l)) with (if decide (x = z) then key_dedup (z :: l) else x :: key_dedup (z :: l)).
  inversion H as [|?? Hs Hx]; subst. destruct (decide (x = z)) as [->|Hn]; [by apply IH|].
  constructor; [by apply IH|]. apply Forall_forall. intros w Hw. apply (proj1 (dedup_elem _ _)) in Hw.
  inversion Hx as [|?? Hxz _]; subst. assert (lex_lt x z) as Hlt by (destruct Hxz; [congruence|done]).
  inversion Hs as [|?? _ Hz]; subst. apply elem_of_cons in Hw as [->|Hw]; [done|].
  rewrite Forall_forall in Hz. destruct (Hz _ Hw) as [->|Hzw]; [done|]. by eapply lex_trans.
Qed.

Lemma unlabeled_sorted cells : StronglySorted lex_lt (unlabeled_vertices cells).
Proof. apply dedup_sorted, sort_sorted. Qed.
Lemma unlabeled_elem cells k : k ∈ unlabeled_vertices cells <-> exists cell, cell ∈ cells /\ k ∈ unlabeled cell.
Proof.
  unfold unlabeled_vertices. rewrite dedup_elem, sort_elem. rewrite elem_of_list_In, in_concat. setoid_rewrite in_map_iff.
  split; [intros (l & (c & <- & Hc) & Hk)|intros (c & Hc & Hk)]; [exists c|exists (unlabeled c)]; rewrite ?elem_of_list_In in *; eauto.
Qed.
Lemma lex_nodup l : StronglySorted lex_lt l -> NoDup l.
Proof.
  induction 1 as [|x l Hl IH Hx]; constructor; [|done]. intros H. rewrite Forall_forall in Hx. by apply (lex_irrefl x), Hx.
Qed.

(** ** The vertices a key stands for *)
Definition key_set (k : nkey) : list nat :=
  match k with
  | [a; b; c; 0] => [a; a; a]
  | [a; b; c; 1] => if decide (c = 0) then [a; a; b] else [a; b; b]
  | [a; b; c; _] => [a; b; c]
  | _ => []
  end.
Inductive good : nkey -> Prop :=
| good_vertex a : good [a; 0; 0; 0]
| good_edge a b c : a ≤ b -> c < 2 -> good [a; b; c; 1]
| good_face a b c : a ≤ b -> b ≤ c -> good [a; b; c; 2].
Inductive strict : nkey -> Prop :=
| strict_vertex a : strict [a; 0; 0; 0]
| strict_edge a b c : a < b -> c < 2 -> strict [a; b; c; 1]
| strict_face a b c : a < b -> b < c -> strict [a; b; c; 2].

Lemma vertex_key a : good (normalized_vertex a) /\ strict (normalized_vertex a) /\ key_set (normalized_vertex a) ≡ₚ [a; a; a].
Proof. split; [constructor|split; [constructor|reflexivity]]. Qed.
Lemma edge_key s e : good (normalized_edge s e 0) /\ (s <> e -> strict (normalized_edge s e 0)) /\ key_set (normalized_edge s e 0) ≡ₚ [s; s; e] /\
  good (normalized_edge s e 1) /\ (s <> e -> strict (normalized_edge s e 1)) /\ key_set (normalized_edge s e 1) ≡ₚ [s; e; e].
Proof.
  unfold normalized_edge. destruct (decide (e < s)); cbn.
  - repeat split; try (constructor; lia); try (intros; constructor; lia); solve_Permutation.
  - repeat split; try (constructor; lia); try (intros; constructor; lia); done.
Qed.
Lemma face_key a b c : good (normalized_face a b c) /\ (a <> b -> a <> c -> b <> c -> strict (normalized_face a b c)) /\
  key_set (normalized_face a b c) ≡ₚ [a; b; c].
Proof.
  unfold normalized_face. pose proof (sort_nat_perm [a; b; c]) as Hp. pose proof (sort_nat_sorted [a; b; c]) as Hs.
  pose proof (Permutation_length Hp) as Hl. destruct (sort_nat [a; b; c]) as [|x [|y [|z [|? ?]]]]; cbn in Hl; try lia.
  inversion Hs as [|?? Hs' Hx]; subst. inversion Hs' as [|?? Hs'' Hy]; subst.
  inversion Hx as [|?? Hxy Hx']; subst. inversion Hy as [|?? Hyz _]; subst.
  change ([x; y; z] ++ [2]) with [x; y; z; 2]. split; [by constructor|]. split; [|exact Hp].
  intros H1 H2 H3. assert (NoDup [x; y; z]) as Hn.
  { rewrite Hp. repeat constructor; rewrite ?elem_of_cons, ?elem_of_nil; naive_solver. }
  apply NoDup_cons in Hn as [Hn1 Hn]. apply NoDup_cons in Hn as [Hn2 _]. rewrite !elem_of_cons in Hn1, Hn2.
  constructor; [assert (x <> y) by tauto|assert (y <> z) by tauto]; lia.
Qed.

Lemma unlabeled_length cell : length cell = 4 -> length (unlabeled cell) = 20.
Proof. destruct cell as [|? [|? [|? [|? [|? ?]]]]]; cbn; intros; try lia; done. Qed.

Lemma unlabeled_parents cell j k : length cell = 4 -> unlabeled cell !! j = Some k ->
  exists ps, tet20_parents cell j = Some ps /\ key_set k ≡ₚ ps /\ good k /\ (NoDup cell -> strict k).
Proof.
  destruct cell as [|a [|b [|c [|d [|? ?]]]]]; cbn [length]; intros Hl; try lia. clear Hl.
  assert (NoDup [a; b; c; d] -> a <> b /\ a <> c /\ a <> d /\ b <> c /\ b <> d /\ c <> d) as Hd.
  { rewrite !NoDup_cons, !elem_of_cons, !elem_of_nil. tauto. }
  pose proof (vertex_key a) as (?&?&?). pose proof (vertex_key b) as (?&?&?). pose proof (vertex_key c) as (?&?&?). pose proof (vertex_key d) as (?&?&?).
  pose proof (edge_key a b) as (?&?&?&?&?&?). pose proof (edge_key a c) as (?&?&?&?&?&?). pose proof (edge_key a d) as (?&?&?&?&?&?).
  pose proof (edge_key b c) as (?&?&?&?&?&?). pose proof (edge_key b d) as (?&?&?&?&?&?). pose proof (edge_key c d) as (?&?&?&?&?&?).
  pose proof (face_key a b c) as (?&?&?). pose proof (face_key a b d) as (?&?&?). pose proof (face_key a c d) as (?&?&?). pose proof (face_key b c d) as (?&?&?).
  intros Hj. assert (j < 20) as Hlt by (apply lookup_lt_Some in Hj; exact Hj).
  do 20 (destruct j as [|j]; [cbn [unlabeled lookup list_lookup] in Hj; apply (inj Some) in Hj as <-; eexists; split; [reflexivity|]; split; [assumption|split; [assumption|intros Hnd; apply Hd in Hnd; tauto]]|]).
  lia.
Qed.

(** Strictly normal keys of the same vertices are the same. *)
Lemma key_set_sorted k : strict k -> StronglySorted (≤) (key_set k).
Proof. intros [a|a b c H1 H2|a b c H1 H2]; cbn; [| destruct (decide (c = 0)) |]; repeat constructor; lia. Qed.
Lemma key_set_inj k1 k2 : strict k1 -> strict k2 -> key_set k1 ≡ₚ key_set k2 -> k1 = k2.
Proof.
  intros H1 H2 Hp. assert (key_set k1 = key_set k2) as He.
  { apply (StronglySorted_unique (≤)); [by apply key_set_sorted..|done]. }
  clear Hp. destruct H1 as [a|a b c H1 H1'|a b c H1 H1'], H2 as [a2|a2 b2 c2 H2 H2'|a2 b2 c2 H2 H2']; cbn in He;
    repeat (destruct (decide _)); injection He; intros; subst; try lia; try done; repeat f_equal; lia.
Qed.

(** ** Positions *)
Lemma mean_perm l l' : l ≡ₚ l' -> mean l = mean l'.
Proof.
  intros H. unfold mean. rewrite (Permutation_length H). f_equal. induction H; cbn; lra.
Qed.
Lemma coord_lookup vs (p : point) d v : (vs !! v : option point) = Some p -> coord vs d v = p d.
Proof. unfold coord. by intros ->. Qed.

Lemma key_vertex_ok vs k : good k -> Forall (fun v => v < length vs) (key_set k) ->
  exists p, key_vertex vs k = Some p /\ forall d, p d = mean (map (coord vs d) (key_set k)).
Proof.
  intros Hk Hr.
  assert (forall v, v < length vs -> exists p : point, (vs !! v : option point) = Some p) as Hin.
  { intros v Hv. destruct (lookup_lt_is_Some_2 vs v Hv) as [p Hp]. by exists p. }
  destruct Hk as [a|a b c H1 H2|a b c H1 H2]; cbn in Hr; unfold key_vertex; cbn [decide].
  - apply Forall_cons in Hr as [Ha _]. destruct (Hin a Ha) as [p Hp]. exists p. split; [exact Hp|].
    intros d. unfold mean. cbn. rewrite (coord_lookup _ _ _ _ Hp). field.
  - assert (a < length vs /\ b < length vs) as [Ha Hb].
    { destruct (decide (c = 0)); rewrite !Forall_cons in Hr; tauto. }
    destruct (Hin a Ha) as [p Hp], (Hin b Hb) as [q Hq]. rewrite decide_False by lia. rewrite decide_True by done.
       rewrite Hp, Hq. eexists. split; [reflexivity|]. intros d. unfold mean. cbn [key_set].
    assert (c = 0 \/ c = 1) as [-> | ->] by lia; [rewrite (decide_True (P := 0 = 0)) by done|rewrite (decide_False (P := 1 = 0)) by lia]; cbn; rewrite (coord_lookup _ _ _ _ Hp), (coord_lookup _ _ _ _ Hq); field.
  - rewrite !Forall_cons in Hr. destruct Hr as (Ha & Hb & Hc & _).
    destruct (Hin a Ha) as [p Hp], (Hin b Hb) as [q Hq], (Hin c Hc) as [r Hr].
    rewrite !decide_False by lia. rewrite decide_True by done. rewrite Hp, Hq, Hr. eexists. split; [reflexivity|].
    intros d. unfold mean. cbn. rewrite (coord_lookup _ _ _ _ Hp), (coord_lookup _ _ _ _ Hq), (coord_lookup _ _ _ _ Hr). field.
Qed.

Lemma parents_range cell j ps (n : nat) : Forall (fun v => v < n) cell -> tet20_parents cell j = Some ps -> Forall (fun v => v < n) ps.
Proof.
  intros Hc. unfold tet20_parents. destruct (tet20_corners !! j) as [loc|]; [|done]. cbn. intros H.
  apply mapM_Forall2 in H. induction H as [|i v loc ps Hi _ IH]; constructor; [|done].
  rewrite Forall_forall in Hc. apply Hc. by eapply elem_of_list_lookup_2.
Qed.

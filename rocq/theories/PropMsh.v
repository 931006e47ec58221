(** C92: reading Gmsh files. *)
From Coq Require Import NArith ZArith Reals Lra Lia List.
From Verif Require Import ElementModel IoModel IoSpec.
Import ListNotations.
Local Open Scope N_scope.

Section Load.
Context {F T : Type}.
Variable convert : F -> option T.
Variable zero : T.

(** Specification. A point of the mesh has the first coordinates of the node, converted. *)
Definition point_of (d : nat) (n : msh_node F) (p : list T) : Prop :=
  (0 < d)%nat /\ List.length p = d /\
  (forall i, (i < d)%nat -> match nth_error [mn_x n; mn_y n; mn_z n] i with Some x => convert x = Some (nth i p zero) | None => nth i p zero = zero end).
(** The blocks that are read: those of the requested type and dimension. *)
Definition selected (t : msh_type) (dim : N) (b : element_block) : Prop := eb_type b = t /\ eb_dim b = Z.of_N dim.
Definition msh_type_eq_dec (a b : msh_type) : {a = b} + {a <> b}.
Proof. decide equality. apply N.eq_dec. Defined.
Definition select (t : msh_type) (dim : N) (bs : list element_block) : list element_block :=
  filter (fun b => if msh_type_eq_dec (eb_type b) t then (eb_dim b =? Z.of_N dim)%Z else false) bs.
(** A cell has the nodes of the element, counted from 0 instead of 1. *)
Definition cell_of (checks : bool) (n : nat) (e c : list N) : Prop :=
  List.length e = n /\ Forall2 (fun tag i => tag = i + 1 \/ (checks = false /\ tag = 0 /\ i = 2 ^ 64 - 1)) e c.
Definition loads (checks : bool) (d : nat) (t : msh_type) (dim : N) (n : nat) (f : msh_file F) (m : mesh T) : Prop :=
  exists nodes elements, mf_nodes f = Some nodes /\ mf_elements f = Some elements /\
    (exists b, In b elements /\ selected t dim b) /\
    Forall (fun b => nb_tags b = None) (ms_blocks nodes) /\
    Forall (fun b => eb_tags b = None /\ (eb_type b = t -> (0 <= eb_dim b)%Z)) elements /\
    Forall2 (point_of d) (List.concat (map nb_nodes (ms_blocks nodes))) (me_vertices m) /\
    N.of_nat (List.length (me_vertices m)) = ms_num_nodes nodes /\
    Forall2 (cell_of checks n) (List.concat (map eb_elements (select t dim elements))) (me_cells m).

Lemma msh_type_eqb_eq a b : msh_type_eqb a b = true <-> a = b.
Proof. destruct a, b; cbn; try (split; [discriminate | intros E; discriminate E]); try tauto. rewrite N.eqb_eq. split; [intros -> | intros E; injection E as ->]; reflexivity. Qed.
Lemma msh_type_eqb_refl a : msh_type_eqb a a = true. Proof. apply msh_type_eqb_eq. reflexivity. Qed.

Lemma bind_ok {A B} (x : outcome A) (f : A -> outcome B) b : bind x f = Ok b <-> exists a, x = Ok a /\ f a = Ok b.
Proof. destruct x; cbn; split; intros H; try (destruct H as [? [H1 H2]]; inversion H1; subst; assumption); try discriminate. exists a. tauto. Qed.
Lemma for_each_ok {A B} (f : A -> outcome B) l bs : for_each f l = Ok bs <-> Forall2 (fun a b => f a = Ok b) l bs.
Proof.
  revert bs. induction l as [|a l IH]; intros bs; cbn.
  - split; [intros E; injection E as <-; constructor | intros H; inversion H; reflexivity].
  - rewrite bind_ok. setoid_rewrite bind_ok. split.
    + intros [b [Hb [bs' [Hl E]]]]. injection E as <-. constructor; [exact Hb | apply IH, Hl].
    + intros H. inversion H as [|? b ? bs' Hb Hl]; subst. exists b. split; [exact Hb|]. exists bs'. split; [apply IH, Hl | reflexivity].
Qed.

Lemma Forall2_impl_ {A B} (P Q : A -> B -> Prop) : (forall a b, P a b -> Q a b) -> forall l l', Forall2 P l l' -> Forall2 Q l l'.
Proof. intros H l l'. induction 1; constructor; auto. Qed.
Lemma point_ok d n p : point_from_msh_node convert zero d n = Ok p <-> point_of d n p.
Proof.
  unfold point_from_msh_node, point_of. destruct (Nat.eqb_spec d 0) as [->|Hd]; [split; [discriminate | intros [H _]; lia]|].
  assert (Hlen : forall x y z, List.length (firstn d ([x; y; z] ++ repeat zero (d - 3))) = d).
  { intros x y z. rewrite firstn_length, app_length, repeat_length. cbn [List.length]. lia. }
  assert (Hnth : forall x y z i, (i < d)%nat -> nth i (firstn d ([x; y; z] ++ repeat zero (d - 3))) zero = nth i [x; y; z] zero).
  { intros x y z i Hi.
    transitivity (nth i ([x; y; z] ++ repeat zero (d - 3)) zero).
    - rewrite <- (firstn_skipn d ([x; y; z] ++ repeat zero (d - 3))) at 2. rewrite app_nth1; [reflexivity | rewrite Hlen; exact Hi].
    - destruct (Nat.lt_ge_cases i 3) as [H|H]; [apply app_nth1; exact H|]. rewrite app_nth2 by exact H. rewrite nth_overflow with (l := [x; y; z]) by exact H.
      apply nth_repeat. }
  split.
  - intros H. apply bind_ok in H as [x [Hx H]]. apply bind_ok in H as [y [Hy H]]. apply bind_ok in H as [z [Hz H]]. assert (Ep : p = firstn d ([x; y; z] ++ repeat zero (d - 3))) by congruence. rewrite Ep. clear H Ep.
    split; [lia|]. split; [apply Hlen|]. intros i Hi. rewrite Hnth by exact Hi.
    unfold or_err in *. destruct i as [|[|[|i]]]; cbn.
    + destruct (convert (mn_x n)); congruence.
    + replace (Nat.ltb 1 d) with true in Hy by (symmetry; apply Nat.ltb_lt; lia). destruct (convert (mn_y n)); congruence.
    + replace (Nat.ltb 2 d) with true in Hz by (symmetry; apply Nat.ltb_lt; lia). destruct (convert (mn_z n)); congruence.
    + destruct i; reflexivity.
  - intros [_ [Hl H]].
    assert (Hx := H 0%nat ltac:(lia)). cbn in Hx. rewrite Hx. cbn [or_err bind].
    set (y := if Nat.ltb 1 d then nth 1 p zero else zero). set (z := if Nat.ltb 2 d then nth 2 p zero else zero).
    assert (Ey : (if Nat.ltb 1 d then or_err (convert (mn_y n)) else Ok zero) = Ok y).
    { subst y. destruct (Nat.ltb_spec 1 d) as [h|h]; [|reflexivity]. assert (Hy := H 1%nat h). cbn in Hy. rewrite Hy. reflexivity. }
    assert (Ez : (if Nat.ltb 2 d then or_err (convert (mn_z n)) else Ok zero) = Ok z).
    { subst z. destruct (Nat.ltb_spec 2 d) as [h|h]; [|reflexivity]. assert (Hz := H 2%nat h). cbn in Hz. rewrite Hz. reflexivity. }
    rewrite Ey, Ez. cbn [bind]. f_equal. apply (nth_ext _ _ zero zero); [rewrite Hlen, Hl; reflexivity|].
    rewrite Hlen. intros i Hi. rewrite Hnth by exact Hi. specialize (H i Hi). subst y z.
    clear Ey Ez Hnth Hlen. destruct i as [|[|[|i]]]; cbn [nth nth_error] in *; try reflexivity.
    + replace (Nat.ltb 1 d) with true by (symmetry; apply Nat.ltb_lt; lia). reflexivity.
    + replace (Nat.ltb 2 d) with true by (symmetry; apply Nat.ltb_lt; lia). reflexivity.
    + destruct i; cbn in H |- *; symmetry; exact H.
Qed.

Lemma vertices_ok d b vs : vertices_from_node_block convert zero d b = Ok vs <-> nb_tags b = None /\ Forall2 (point_of d) (nb_nodes b) vs.
Proof.
  unfold vertices_from_node_block. destruct (nb_tags b); [split; [discriminate | intros [H _]; discriminate]|].
  rewrite for_each_ok. split.
  - intros H. split; [reflexivity|]. revert H. apply Forall2_impl_. intros n p. apply point_ok.
  - intros [_ H]. revert H. apply Forall2_impl_. intros n p. apply point_ok.
Qed.
Lemma all_vertices_ok d bs vs :
  (exists vss, Forall2 (fun b v => vertices_from_node_block convert zero d b = Ok v) bs vss /\ vs = List.concat vss)
  <-> Forall (fun b => nb_tags b = None) bs /\ Forall2 (point_of d) (List.concat (map nb_nodes bs)) vs.
Proof.
  revert vs. induction bs as [|b bs IH]; intros vs; cbn.
  - split; [intros [vss [H ->]]; inversion H; split; constructor | intros [_ H]; inversion H; exists []; split; [constructor | reflexivity]].
  - split.
    + intros [vss [H ->]]. inversion H as [|? v ? vss' Hv Hs]; subst. apply vertices_ok in Hv as [Ht Hv].
      destruct (proj1 (IH (List.concat vss'))) as [Hf Hp]; [exists vss'; split; [exact Hs | reflexivity]|].
      split; [constructor; assumption|]. cbn. apply Forall2_app; assumption.
    + intros [Hf Hp]. inversion Hf as [|? ? Ht Hf']; subst. apply Forall2_app_inv_l in Hp as [v [vs' [Hv [Hp ->]]]].
      destruct (proj2 (IH vs') (conj Hf' Hp)) as [vss [Hs ->]]. exists (v :: vss). split; [constructor; [apply vertices_ok; split; assumption | exact Hs] | reflexivity].
Qed.

Variable checks : bool.
Lemma matches_ok t dim b m : block_matches t dim b = Ok m <-> (eb_type b = t -> (0 <= eb_dim b)%Z) /\ (m = true <-> selected t dim b).
Proof.
  unfold block_matches, selected. destruct (msh_type_eqb (eb_type b) t) eqn:E.
  - apply msh_type_eqb_eq in E. destruct (Z.ltb_spec (eb_dim b) 0) as [h|h].
    + split; [discriminate|]. intros [H _]. specialize (H E). lia.
    + split.
      * intros Em. injection Em as <-. split; [intros _; exact h|]. rewrite N.eqb_eq. split; [intros Ed; split; [exact E|]; lia | intros [_ Ed]; lia].
      * intros [_ H]. f_equal. destruct m; [apply N.eqb_eq; destruct (proj1 H eq_refl); lia|]. apply N.eqb_neq. intros Ed.
        assert (false = true) by (apply H; split; [exact E | lia]). discriminate.
  - assert (Hne : eb_type b <> t) by (intros Et; apply msh_type_eqb_eq in Et; congruence). split.
    + intros Em. injection Em as <-. split; [intros Et; contradiction|]. split; [discriminate | intros [Et _]; contradiction].
    + intros [_ H]. f_equal. destruct m; [destruct (proj1 H eq_refl); contradiction | reflexivity].
Qed.
Lemma any_ok t dim bs : Forall (fun b : element_block => eb_type b = t -> (0 <= eb_dim b)%Z) bs ->
  exists m, any_block t dim bs = Ok m /\ (m = true <-> exists b, In b bs /\ selected t dim b).
Proof.
  induction 1 as [|b bs Hb _ [m [Em IH]]]; cbn.
  - exists false. split; [reflexivity|]. split; [discriminate | intros [b [[] _]]].
  - destruct (block_matches t dim b) as [mb| |] eqn:Eb.
    + cbn. apply matches_ok in Eb as [_ Hs]. destruct mb.
      * exists true. split; [reflexivity|]. split; [intros _; exists b; split; [left; reflexivity | apply Hs; reflexivity] | reflexivity].
      * exists m. split; [exact Em|]. rewrite IH. split; intros [b' [Hi Hb']]; exists b'; split; try assumption; [right; exact Hi|].
        destruct Hi as [<-|Hi]; [apply Hs in Hb'; discriminate | exact Hi].
    + exfalso. unfold block_matches in Eb. destruct (msh_type_eqb _ _); [destruct (_ <? _)%Z|]; discriminate.
    + exfalso. unfold block_matches in Eb. destruct (msh_type_eqb (eb_type b) t) eqn:E; [|discriminate]. apply msh_type_eqb_eq in E.
      specialize (Hb E). destruct (Z.ltb_spec (eb_dim b) 0); [lia | discriminate].
Qed.
Lemma any_true t dim bs : any_block t dim bs = Ok true -> exists b, In b bs /\ selected t dim b.
Proof.
  induction bs as [|b bs IH]; cbn; [discriminate|]. intros H. apply bind_ok in H as [m [Eb H]]. destruct m.
  - exists b. split; [left; reflexivity|]. apply matches_ok in Eb as [_ Hs]. apply Hs. reflexivity.
  - destruct (IH H) as [b' [Hi Hb]]. exists b'. split; [right; exact Hi | exact Hb].
Qed.
Lemma tag_ok tag i : tag_to_index checks tag = Ok i <-> tag = i + 1 \/ (checks = false /\ tag = 0 /\ i = 2 ^ 64 - 1).
Proof.
  unfold tag_to_index. destruct (N.eqb_spec tag 0) as [->|h].
  - destruct checks.
    + split; [discriminate|]. intros [h | [h _]]; [lia | discriminate].
    + split; [intros E; injection E as <-; right; repeat split; reflexivity|]. intros [h | [_ [_ ->]]]; [lia | reflexivity].
  - split; [intros E; injection E as <-; left; lia | intros [-> | [_ [h' _]]]; [f_equal; lia | contradiction]].
Qed.
Lemma map_nth_seq {A} (l : list A) d : map (fun i => nth i l d) (seq 0 (List.length l)) = l.
Proof.
  apply (nth_ext _ _ d d); [rewrite map_length, seq_length; reflexivity|]. intros i Hi. rewrite map_length, seq_length in Hi.
  rewrite (nth_indep _ d (nth 0 l d)) by (rewrite map_length, seq_length; exact Hi).
  change (nth 0 l d) with ((fun i => nth i l d) 0%nat). rewrite map_nth, seq_nth by exact Hi. reflexivity.
Qed.
Lemma for_each_map {A B C} (f : B -> outcome C) (g : A -> B) l : for_each (fun a => f (g a)) l = for_each f (map g l).
Proof. induction l as [|a l IH]; [reflexivity|]. cbn. rewrite IH. reflexivity. Qed.
Lemma element_ok n e c : connectivity_from_element checks n e = Ok c <-> cell_of checks n e c.
Proof.
  unfold connectivity_from_element, cell_of. destruct (Nat.eqb_spec (List.length e) n) as [<-|h]; [|split; [discriminate | intros [h' _]; contradiction]].
  rewrite (for_each_map (tag_to_index checks) (fun i => nth i e 0)), map_nth_seq, for_each_ok. split.
  - intros H. split; [reflexivity|]. revert H. apply Forall2_impl_. intros tag i. apply tag_ok.
  - intros [_ H]. revert H. apply Forall2_impl_. intros tag i. apply tag_ok.
Qed.
Lemma block_ok t dim n b cs : msh_type_nodes t = Some n ->
  connectivity_from_block checks t dim n b = Ok cs <->
  eb_tags b = None /\ (eb_type b = t -> (0 <= eb_dim b)%Z) /\ Forall2 (cell_of checks n) (List.concat (map eb_elements (select t dim [b]))) cs.
Proof.
  intros Hn. unfold connectivity_from_block. destruct (eb_tags b); [split; [discriminate | intros [h _]; discriminate]|]. rewrite bind_ok, Hn.
  assert (Hsel : forall m, (m = true <-> selected t dim b) -> List.concat (map eb_elements (select t dim [b])) = if m then eb_elements b else []).
  { intros m Hm. unfold select. cbn [filter]. unfold selected in Hm. destruct (msh_type_eq_dec (eb_type b) t) as [e|e].
    - destruct (Z.eqb_spec (eb_dim b) (Z.of_N dim)) as [e'|e']; destruct m; cbn; try apply app_nil_r; try reflexivity.
      + assert (false = true) by (apply Hm; split; assumption). discriminate.
      + destruct (proj1 Hm eq_refl); contradiction.
    - destruct m; [destruct (proj1 Hm eq_refl); contradiction | reflexivity]. }
  assert (Hel : forall e c, (if Nat.ltb (List.length e) n then Err else connectivity_from_element checks n e) = Ok c <-> cell_of checks n e c).
  { intros e c. destruct (Nat.ltb_spec (List.length e) n) as [h|h]; [|apply element_ok]. split; [discriminate | intros [h' _]; lia]. }
  split.
  - intros [m [Hm H]]. apply matches_ok in Hm as [Hd Hm]. split; [reflexivity|]. split; [exact Hd|]. rewrite (Hsel m Hm). destruct m.
    + apply for_each_ok in H. revert H. apply Forall2_impl_. intros e c. apply Hel.
    + injection H as <-. constructor.
  - intros [_ [Hd H]]. 
    assert (Hm : exists m, block_matches t dim b = Ok m).
    { unfold block_matches. destruct (msh_type_eqb (eb_type b) t) eqn:E; [|eexists; reflexivity]. apply msh_type_eqb_eq in E. specialize (Hd E).
      destruct (Z.ltb_spec (eb_dim b) 0); [lia | eexists; reflexivity]. }
    destruct Hm as [m Em]. exists m. split; [exact Em|]. apply matches_ok in Em as [_ Hm]. rewrite (Hsel m Hm) in H. destruct m.
    + apply for_each_ok. revert H. apply Forall2_impl_. intros e c. apply Hel.
    + inversion H. reflexivity.
Qed.
Lemma select_cons t dim b bs : select t dim (b :: bs) = select t dim [b] ++ select t dim bs.
Proof. unfold select. cbn. destruct (msh_type_eq_dec _ _); [destruct (_ =? _)%Z|]; reflexivity. Qed.
Lemma all_cells_ok t dim n bs cs : msh_type_nodes t = Some n ->
  (exists css, Forall2 (fun b c => connectivity_from_block checks t dim n b = Ok c) bs css /\ cs = List.concat css)
  <-> Forall (fun b => eb_tags b = None /\ (eb_type b = t -> (0 <= eb_dim b)%Z)) bs /\ Forall2 (cell_of checks n) (List.concat (map eb_elements (select t dim bs))) cs.
Proof.
  intros Hn. revert cs. induction bs as [|b bs IH]; intros cs.
  - split; [intros [css [H ->]]; inversion H; split; constructor | intros [_ H]; inversion H; exists []; split; [constructor | reflexivity]].
  - rewrite select_cons, map_app, concat_app. split.
    + intros [css [H ->]]. inversion H as [|? c ? css' Hc Hs]; subst. apply block_ok in Hc as [Ht [Hd Hc]]; [|exact Hn].
      destruct (proj1 (IH (List.concat css'))) as [Hf Hp]; [exists css'; split; [exact Hs | reflexivity]|].
      split; [constructor; [split; assumption | exact Hf]|]. cbn [List.concat]. apply Forall2_app; assumption.
    + intros [Hf Hp]. inversion Hf as [|? ? [Ht Hd] Hf']; subst. apply Forall2_app_inv_l in Hp as [c [cs' [Hc [Hp ->]]]].
      destruct (proj2 (IH cs') (conj Hf' Hp)) as [css [Hs ->]]. exists (c :: css).
      split; [constructor; [apply block_ok; [exact Hn | split; [exact Ht | split; assumption]] | exact Hs] | reflexivity].
Qed.

(** Loading succeeds exactly for the files described by [loads], with the mesh described there. *)
Theorem C92_load d c t dim n (f : msh_file F) m : msh_connectivity c = Some (t, dim, n) ->
  load_msh convert zero checks d (t, dim, n) f = Ok m <-> loads checks d t dim n f m.
Proof.
  intros Hc. assert (Hn : msh_type_nodes t = Some n) by (destruct c; try discriminate Hc; injection Hc as <- <- <-; reflexivity).
  unfold load_msh, loads. split.
  - intros H. apply bind_ok in H as [nodes [Hnodes H]]. apply bind_ok in H as [els [Hels H]]. apply bind_ok in H as [found [Hfound H]].
    destruct found; [|discriminate]. cbn [negb] in H. apply bind_ok in H as [vss [Hv H]].
    destruct (N.eqb_spec (N.of_nat (List.length (List.concat vss))) (ms_num_nodes nodes)) as [Hlen|]; [|discriminate]. cbn [negb] in H.
    apply bind_ok in H as [css [Hcs H]]. injection H as <-. apply for_each_ok in Hv. apply for_each_ok in Hcs.
    destruct (proj1 (all_vertices_ok d (ms_blocks nodes) (List.concat vss))) as [Hnt Hp]; [exists vss; split; [exact Hv | reflexivity]|].
    destruct (proj1 (all_cells_ok t dim n els (List.concat css) Hn)) as [Het Hcells]; [exists css; split; [exact Hcs | reflexivity]|].
    exists nodes, els. repeat split; try assumption.
    + destruct (mf_nodes f); [injection Hnodes as ->; reflexivity | discriminate].
    + destruct (mf_elements f); [injection Hels as ->; reflexivity | discriminate].
    + apply any_true, Hfound.
  - intros [nodes [els [Hnodes [Hels [Hex [Hnt [Het [Hp [Hlen Hcells]]]]]]]]]. rewrite Hnodes, Hels. cbn [or_err bind].
    destruct (any_ok t dim els) as [found [-> Hfound]]; [revert Het; apply Forall_impl; intros b [_ h]; exact h|]. cbn [bind].
    replace found with true by (symmetry; apply Hfound, Hex). cbn [negb].
    destruct (proj2 (all_vertices_ok d (ms_blocks nodes) (me_vertices m)) (conj Hnt Hp)) as [vss [Hv Evs]].
    destruct (proj2 (all_cells_ok t dim n els (me_cells m) Hn) (conj Het Hcells)) as [css [Hcs Ecs]].
    apply for_each_ok in Hv. apply for_each_ok in Hcs. rewrite Hv. cbn [bind]. rewrite <- Evs, Hlen, N.eqb_refl. cbn [negb]. rewrite Hcs. cbn [bind]. rewrite <- Ecs.
    destruct m; reflexivity.
Qed.

(** It panics only for a block of the requested type with a negative dimension, or a selected element with more nodes than its type has, or with a node 0. *)
Theorem C92_panic d c t dim n (f : msh_file F) : (0 < d)%nat -> msh_connectivity c = Some (t, dim, n) ->
  load_msh convert zero checks d (t, dim, n) f = Panic ->
  exists elements b, mf_elements f = Some elements /\ In b elements /\ eb_type b = t /\
    ((eb_dim b < 0)%Z \/ (eb_dim b = Z.of_N dim /\ exists e, In e (eb_elements b) /\ ((n < List.length e)%nat \/ (List.length e = n /\ checks = true /\ In 0 e)))).
Proof.
  intros Hd0 Hc. assert (Hn : msh_type_nodes t = Some n) by (destruct c; try discriminate Hc; injection Hc as <- <- <-; reflexivity).
  assert (Hb : forall {A B} (x : outcome A) (g : A -> outcome B), bind x g = Panic -> x = Panic \/ exists a, x = Ok a /\ g a = Panic).
  { intros A B x g. destruct x; cbn; [right; eauto | discriminate | left; reflexivity]. }
  assert (Hfe : forall {A B} (g : A -> outcome B) l, for_each g l = Panic -> exists a, In a l /\ g a = Panic).
  { intros A B g l. induction l as [|a l IH]; cbn; [discriminate|]. intros H. destruct (Hb _ _ _ _ H) as [E | [x [E H']]]; [exists a; tauto|].
    destruct (Hb _ _ _ _ H') as [E' | [y [E' H'']]]; [|discriminate]. destruct (IH E') as [a' [Hi Ha]]. exists a'. tauto. }
  assert (Hm : forall b, block_matches t dim b = Panic -> eb_type b = t /\ (eb_dim b < 0)%Z).
  { intros b. unfold block_matches. destruct (msh_type_eqb (eb_type b) t) eqn:E; [|discriminate]. destruct (Z.ltb_spec (eb_dim b) 0); [|discriminate].
    intros _. split; [apply msh_type_eqb_eq, E | assumption]. }
  unfold load_msh. destruct (mf_nodes f) as [nodes|]; [|discriminate]. destruct (mf_elements f) as [els|]; [|discriminate]. cbn [or_err bind]. intros H.
  destruct (Hb _ _ _ _ H) as [Ea | [found [_ H1]]].
  { assert (Hany : exists b, In b els /\ eb_type b = t /\ (eb_dim b < 0)%Z).
    { clear -Ea Hb Hm. induction els as [|b els IH]; cbn in Ea; [discriminate|]. destruct (Hb _ _ _ _ Ea) as [E | [m [E E']]].
      - exists b. split; [left; reflexivity | apply Hm, E].
      - destruct m; [discriminate|]. destruct (IH E') as [b' [Hi Hb']]. exists b'. split; [right; exact Hi | exact Hb']. }
    destruct Hany as [b [Hi [Ht Hd]]]. exists els, b. tauto. }
  destruct found; [|discriminate]. cbn [negb] in H1. destruct (Hb _ _ _ _ H1) as [Ev | [vss [_ H2]]].
  { exfalso. destruct (Hfe _ _ _ _ Ev) as [nb [_ E]]. unfold vertices_from_node_block in E. destruct (nb_tags nb); [discriminate|].
    destruct (Hfe _ _ _ _ E) as [nd [_ E']]. unfold point_from_msh_node in E'. destruct (Nat.eqb_spec d 0); [lia|].
    unfold or_err in E'. destruct (convert (mn_x nd)); [|discriminate]. cbn [bind] in E'.
    destruct (Nat.ltb 1 d); [destruct (convert (mn_y nd)); [|discriminate]|]; cbn [bind] in E';
      (destruct (Nat.ltb 2 d); [destruct (convert (mn_z nd)); [|discriminate]|]; cbn [bind] in E'; discriminate). }
  destruct (_ =? _); [|discriminate]. cbn [negb] in H2. destruct (Hb _ _ _ _ H2) as [Ec | [css [_ H3]]]; [|discriminate].
  destruct (Hfe _ _ _ _ Ec) as [b [Hi E]]. exists els, b. split; [reflexivity|]. split; [exact Hi|].
  unfold connectivity_from_block in E. destruct (eb_tags b); [discriminate|]. destruct (Hb _ _ _ _ E) as [Ep | [m [Em E']]].
  { destruct (Hm b Ep). tauto. }
  apply matches_ok in Em as [_ Hs]. destruct m; [|discriminate]. destruct (proj1 Hs eq_refl) as [Ht Hdim]. split; [exact Ht|]. right. split; [exact Hdim|].
  rewrite Hn in E'. destruct (Hfe _ _ _ _ E') as [e [He Ee]]. exists e. split; [exact He|].
  destruct (Nat.ltb_spec (List.length e) n) as [h|h]; [discriminate|]. unfold connectivity_from_element in Ee.
  destruct (Nat.eqb_spec (List.length e) n) as [h'|h']; [|left; lia]. right. split; [exact h'|].
  destruct (Hfe _ _ _ _ Ee) as [i [Hin Ei]]. unfold tag_to_index in Ei. destruct (N.eqb_spec (nth i e 0) 0) as [E0|]; [|discriminate]. destruct checks; [|discriminate].
  split; [reflexivity|]. rewrite <- E0. apply nth_In. apply in_seq in Hin. lia.
Qed.

(** The nodes of a file whose tags are consecutive have the tags from the smallest one upwards, in the order of the file. *)
Definition node_with_tag (nodes : msh_nodes F) (tag : N) : option (msh_node F) :=
  if tag <? ms_min_tag nodes then None else nth_error (List.concat (map nb_nodes (ms_blocks nodes))) (N.to_nat (tag - ms_min_tag nodes)).
(** If the smallest tag is 1, every node of a cell is the node with the tag that the element of the file names. *)
Theorem C92_tags d c t dim n (f : msh_file F) m nodes elements : msh_connectivity c = Some (t, dim, n) ->
  load_msh convert zero checks d (t, dim, n) f = Ok m -> mf_nodes f = Some nodes -> mf_elements f = Some elements -> ms_min_tag nodes = 1 ->
  forall k e cell, nth_error (List.concat (map eb_elements (select t dim elements))) k = Some e -> nth_error (me_cells m) k = Some cell ->
  forall i tag node, nth_error e i = Some tag -> node_with_tag nodes tag = Some node ->
  exists j p, nth_error cell i = Some j /\ nth_error (me_vertices m) (N.to_nat j) = Some p /\ point_of d node p.
Proof.
  intros Hc Hload Hnodes Hels Hmin k e cell Hk Hcell i tag node Hi Hnode.
  apply (C92_load d c) in Hload; [|exact Hc]. destruct Hload as [nodes' [els' [En [Ee [_ [_ [_ [Hp [_ Hcells]]]]]]]]].
  rewrite Hnodes in En. injection En as <-. rewrite Hels in Ee. injection Ee as <-.
  assert (Hth : forall {A B} (P : A -> B -> Prop) l l', Forall2 P l l' -> forall k a b, nth_error l k = Some a -> nth_error l' k = Some b -> P a b).
  { intros A B P l l'. induction 1 as [|a b l l' Hab _ IH]; intros [|k'] x y; cbn; try discriminate; [intros E1 E2; injection E1 as <-; injection E2 as <-; exact Hab | apply IH]. }
  assert (Hex : forall {A B} (P : A -> B -> Prop) l l', Forall2 P l l' -> forall k a, nth_error l k = Some a -> exists b, nth_error l' k = Some b).
  { intros A B P l l'. induction 1 as [|a b l l' Hab _ IH]; intros [|k'] x; cbn; try discriminate; [intros _; exists b; reflexivity | apply IH]. }
  destruct (Hth _ _ _ _ _ Hcells k e cell Hk Hcell) as [_ Hcl]. unfold node_with_tag in Hnode. rewrite Hmin in Hnode. destruct (N.ltb_spec tag 1) as [h|h]; [discriminate|].
  destruct (Hex _ _ _ _ _ Hcl i tag Hi) as [j Hj]. destruct (Hth _ _ _ _ _ Hcl i tag j Hi Hj) as [-> | [_ [-> _]]]; [|lia].
  replace (j + 1 - 1) with j in Hnode by lia. destruct (Hex _ _ _ _ _ Hp (N.to_nat j) node Hnode) as [p Hpj].
  exists j, p. split; [exact Hj|]. split; [exact Hpj|]. apply (Hth _ _ _ _ _ Hp (N.to_nat j)); assumption.
Qed.
End Load.
Print Assumptions C92_load.
Print Assumptions C92_panic.
Print Assumptions C92_tags.

(** A file with three nodes with the tags 1, 2, 3 and one triangle is read as that triangle, and a block of segments is ignored. *)
Definition triangle_file (min : N) (tags : list N) : msh_file Z :=
  MshFile (Some (MshNodes 3 min (min + 2) [NodeBlock 0 None [MshNode 0 0 7; MshNode 5 0 7]%Z; NodeBlock 2 None [MshNode 0 5 7]%Z]))
          (Some [ElementBlock 1 (MOther 1) None [[1; 2]]; ElementBlock 2 MTri3 None [tags]]).
Example C92_example :
  load_msh Some 0%Z true 2 (MTri3, 2, 3%nat) (triangle_file 1 [2; 3; 1]) = Ok (Mesh [[0; 0]; [5; 0]; [0; 5]]%Z [[1; 2; 0]])
  /\ load_msh Some 0%Z true 2 (MTet4, 3, 4%nat) (triangle_file 1 [2; 3; 1]) = Err /\ load_msh Some 0%Z true 2 (MTri3, 2, 3%nat) (triangle_file 1 [2; 3]) = Err
  /\ load_msh Some 0%Z true 2 (MTri3, 2, 3%nat) (triangle_file 1 [2; 3; 1; 1]) = Panic /\ load_msh Some 0%Z true 2 (MTri3, 2, 3%nat) (triangle_file 1 [0; 3; 1]) = Panic.
Proof. repeat split. Qed.

(** The smallest tag is not taken into account: if it is 2, the nodes of the cells are not those with the tags of the element. *)
Theorem C92_tags_refuted : exists (f : msh_file Z) m nodes node,
  load_msh Some 0%Z true 2 (MTri3, 2, 3%nat) f = Ok m /\ mf_nodes f = Some nodes /\ mf_elements f = Some [ElementBlock 1 (MOther 1) None [[1; 2]]; ElementBlock 2 MTri3 None [[2; 3; 4]]] /\
  node_with_tag nodes 2 = Some node /\
  (exists cell p, nth_error (me_cells m) 0 = Some cell /\ nth_error (me_vertices m) (N.to_nat (nth 0 cell 0)) = Some p /\ ~ point_of Some 0%Z 2 node p).
Proof.
  eexists (triangle_file 2 [2; 3; 4]), (Mesh [[0; 0]; [5; 0]; [0; 5]]%Z [[1; 2; 3]]), _, (MshNode 0 0 7)%Z. split; [reflexivity|]. split; [reflexivity|]. split; [reflexivity|]. split; [reflexivity|].
  exists [1; 2; 3], [5; 0]%Z. split; [reflexivity|]. split; [reflexivity|]. intros [_ [_ H]]. specialize (H 0%nat ltac:(lia)). cbn in H. discriminate.
Qed.
Print Assumptions C92_tags_refuted.
(** The nodes of the elements are not compared with the number of nodes: a mesh can refer to vertices that do not exist. *)
Theorem C92_in_range_refuted : exists (f : msh_file Z) m cell i,
  load_msh Some 0%Z true 2 (MTri3, 2, 3%nat) f = Ok m /\ In cell (me_cells m) /\ In i cell /\ N.of_nat (List.length (me_vertices m)) <= i.
Proof. exists (triangle_file 1 [2; 3; 9]), (Mesh [[0; 0]; [5; 0]; [0; 5]]%Z [[1; 2; 8]]), [1; 2; 8], 8. split; [reflexivity|]. split; [left; reflexivity|]. split; [cbn; tauto | cbn; lia]. Qed.
Print Assumptions C92_in_range_refuted.

(** The nodes have the same places in Gmsh's elements and in the elements of the library: for all corners, the image of the reference node is
    the mean of the corners that Gmsh places the node between. *)
Theorem C92_convention c t dim n : msh_connectivity c = Some (t, dim, n) ->
  el_dim (element_of c) = N.to_nat dim /\ conn_len c = n /\ List.length (gmsh_groups t) = n /\
  forall vs, List.length vs = n -> forall i, (i < n)%nat -> forall a,
  el_map (element_of c) vs (pt (nth i (el_ref (element_of c)) [])) a = mean vs (nth i (gmsh_groups t) []) a.
Proof.
  intros Hc. destruct c; try discriminate Hc; injection Hc as <- <- <-; (split; [reflexivity|]; split; [reflexivity|]; split; [reflexivity|]); intros vs Hl i Hi a;
    repeat (destruct vs as [|? vs]; [discriminate Hl|]); destruct vs; try discriminate Hl; clear Hl;
    repeat (destruct i as [|i]; [cbv -[Rplus Rmult Rminus Rdiv Ropp IZR Rinv]; field|]); exfalso; lia.
Qed.
Print Assumptions C92_convention.

(** Lemmas on clipped loops and caps. *)
From stdpp Require Import base list list_numbers sorting.
From Verif Require Import Prelude ReorderModel MeshModel MeshProofs PolyModel PolySpec PolyProofs PropPolyOps.

Lemma uedge_upair a b : uedge a b = upair a b.
Proof. unfold uedge, upair. destruct (decide (a <= b)); f_equal; lia. Qed.
Lemma cyclic_sides {A} (l : list A) : cyclic_pairs l = sides l.
Proof. by destruct l. Qed.

(** * consecutive pairs *)
Fixpoint lp {A} (l : list A) : list (A * A) := match l with x :: ((y :: _) as r) => (x, y) :: lp r | _ => [] end.
Lemma lp_cons {A} (x y : A) r : lp (x :: y :: r) = (x, y) :: lp (y :: r).
Proof. done. Qed.
Lemma lp_app {A} (a : list A) x b : lp (a ++ x :: b) = lp (a ++ [x]) ++ lp (x :: b).
Proof.
  induction a as [|y a IH]; [done|]. destruct a as [|z a]; [done|]. cbn [app] in *. rewrite !lp_cons. rewrite IH. done.
Qed.
Lemma sides_lp {A} (x : A) r : sides (x :: r) = lp (x :: r ++ [x]).
Proof.
  unfold sides. generalize x at 2 4. intros z. revert x. induction r as [|y r IH]; intros x; [done|]. cbn [app zip_with]. rewrite lp_cons. f_equal. apply IH.
Qed.
Lemma sides_rot {A} (a b : list A) : exists pa pb, sides (a ++ b) = pa ++ pb /\ sides (b ++ a) = pb ++ pa.
Proof.
  destruct a as [|x a]; [exists [], (sides b); by rewrite !app_nil_r|]. destruct b as [|y b]; [exists (sides (x :: a)), []; by rewrite !app_nil_r|].
  exists (lp (x :: a ++ [y])), (lp (y :: b ++ [x])). cbn [app]. rewrite !sides_lp. split.
  - rewrite <- app_assoc. cbn [app]. change (x :: a ++ y :: b ++ [x]) with ((x :: a) ++ y :: b ++ [x]). by rewrite lp_app.
  - rewrite <- app_assoc. cbn [app]. change (y :: b ++ x :: a ++ [y]) with ((y :: b) ++ x :: a ++ [y]). by rewrite lp_app.
Qed.
Lemma sides_rot_perm {A} (a b : list A) : sides (a ++ b) ≡ₚ sides (b ++ a).
Proof. destruct (sides_rot a b) as (pa & pb & -> & ->). apply Permutation_app_comm. Qed.

Section clip.
  Context (inside : nat -> bool).
  Definition emit (s : nat * nat) : list (nat * nat) := (if inside s.1 then [(s.1, s.1)] else []) ++ (if eqb (inside s.1) (inside s.2) then [] else [upair s.1 s.2]).
  (** the part of the clipped loop along a side *)
  Definition along (s : nat * nat) : list ((nat * nat) * (nat * nat)) :=
    match inside s.1, inside s.2 with
    | true, true => [((s.1, s.1), (s.2, s.2))]
    | true, false => [((s.1, s.1), upair s.1 s.2)]
    | false, true => [(upair s.1 s.2, (s.2, s.2))]
    | false, false => []
    end.
  Definition cut_side (s : nat * nat) : bool := negb (eqb (inside s.1) (inside s.2)).
  Definition deg (x : nat * nat) (es : list ((nat * nat) * (nat * nat))) : nat := length (filter (fun z => z = x) (concat (map (fun e => [e.1; e.2]) es))).
  Definition chord (e : (nat * nat) * (nat * nat)) : Prop := e.1.1 <> e.1.2 /\ e.2.1 <> e.2.2.
  Global Instance chord_dec e : Decision (chord e).
  Proof. unfold chord. apply _. Defined.

  Lemma upair_cut u v : inside u <> inside v -> (upair u v).1 <> (upair u v).2.
  Proof. intros H. unfold upair. destruct (decide _); cbn; intros E; apply H; by rewrite E. Qed.
  Lemma deg_app x a b : deg x (a ++ b) = deg x a + deg x b.
  Proof. unfold deg. by rewrite map_app, concat_app, filter_app, app_length. Qed.
  Lemma deg_cons x e b : deg x (e :: b) = (if decide (e.1 = x) then 1 else 0) + (if decide (e.2 = x) then 1 else 0) + deg x b.
  Proof. unfold deg. cbn [map concat app]. rewrite !filter_cons. destruct (decide (e.1 = x)), (decide (e.2 = x)); cbn; lia. Qed.
  Lemma deg_perm x a b : a ≡ₚ b -> deg x a = deg x b.
  Proof. intros H. induction H; [done|rewrite !deg_cons; lia|rewrite !deg_cons; lia|lia]. Qed.

  Definition cuts (x : nat * nat) (ss : list (nat * nat)) : nat := length (filter (fun s => cut_side s = true /\ upair s.1 s.2 = x) ss).
  Lemma cuts_cons x s ss : cuts x (s :: ss) = (if decide (cut_side s = true /\ upair s.1 s.2 = x) then 1 else 0) + cuts x ss.
  Proof. unfold cuts. rewrite filter_cons. by destruct (decide _). Qed.
  Lemma cuts_app x a b : cuts x (a ++ b) = cuts x a + cuts x b.
  Proof. unfold cuts. by rewrite filter_app, app_length. Qed.

  (** along a path that ends inside; [path] are the vertices after [u] *)
  Lemma path_spec path : forall u w, last (u :: path) = Some w -> inside w = true ->
    let out := concat (map emit (lp (u :: path))) ++ [(w, w)] in
    (inside u = true -> hd_error out = Some (u, u) /\ lp out ≡ₚ concat (map along (lp (u :: path))) ++ filter chord (lp out) /\ forall x, deg x (filter chord (lp out)) = cuts x (lp (u :: path))) /\
    (inside u = false -> forall c, c.1 <> c.2 -> lp (c :: out) ≡ₚ concat (map along (lp (u :: path))) ++ filter chord (lp (c :: out)) /\
       forall x, deg x (filter chord (lp (c :: out))) = (if decide (c = x) then 1 else 0) + cuts x (lp (u :: path))).
  Proof.
    induction path as [|v path IH]; intros u w Hl Hw.
    - cbn in Hl. injection Hl as ->. cbn. split; [done|congruence].
    - cbn [last] in Hl. specialize (IH v w Hl Hw). rewrite lp_cons. cbn zeta in *. cbn [map concat]. set (out := concat (map emit (lp (v :: path))) ++ [(w, w)]) in *.
      assert (Eout : (emit (u, v) ++ concat (map emit (lp (v :: path)))) ++ [(w, w)] = emit (u, v) ++ out) by (unfold out; by rewrite app_assoc). rewrite Eout. clear Eout.
      destruct IH as [IA IB]. destruct (inside u) eqn:Eu, (inside v) eqn:Ev.
      + split; [|congruence]. intros _. destruct (IA eq_refl) as (Hh & HP & HD). unfold emit, along. cbn [fst snd]. rewrite Eu, Ev. cbn [eqb app]. destruct out as [|h out'] eqn:Eo; [done|]. cbn in Hh. injection Hh as ->.
        split; [done|]. rewrite lp_cons. rewrite filter_cons. rewrite decide_False by (unfold chord; cbn; by intros []). split.
        * cbn [app]. by constructor.
        * intros x. rewrite HD, cuts_cons. unfold cut_side. cbn [fst snd]. rewrite Eu, Ev. cbn [eqb negb]. rewrite decide_False by (by intros []). done.
      + split; [|congruence]. intros _. assert (Hc : (upair u v).1 <> (upair u v).2) by (apply upair_cut; congruence). destruct (IB eq_refl (upair u v) Hc) as (HP & HD). unfold emit, along. cbn [fst snd]. rewrite Eu, Ev. cbn [eqb app].
        split; [done|]. rewrite lp_cons. rewrite filter_cons. rewrite decide_False by (unfold chord; cbn; by intros []). split.
        * cbn [app]. by constructor.
        * intros x. rewrite HD, cuts_cons. unfold cut_side. cbn [fst snd]. rewrite Eu, Ev. cbn [eqb negb]. destruct (decide (upair u v = x)) as [E|E].
          -- by rewrite decide_True.
          -- by rewrite decide_False by (by intros []).
      + split; [congruence|]. intros _ c Hc. assert (Hc' : (upair u v).1 <> (upair u v).2) by (apply upair_cut; congruence). destruct (IA eq_refl) as (Hh & HP & HD). unfold emit, along. cbn [fst snd]. rewrite Eu, Ev. cbn [eqb app].
        destruct out as [|h out'] eqn:Eo; [done|]. cbn in Hh. injection Hh as ->. rewrite !lp_cons. rewrite !filter_cons. rewrite decide_True by done. rewrite decide_False by (unfold chord; cbn; by intros []). split.
        * cbn [app]. rewrite HP at 1. rewrite Permutation_swap. cbn [app]. rewrite Permutation_middle. done.
        * intros x. rewrite deg_cons, HD, cuts_cons. cbn [fst snd]. unfold cut_side. cbn [fst snd]. rewrite Eu, Ev. cbn [eqb negb]. destruct (decide (upair u v = x)) as [E|E].
          -- rewrite (decide_True (P := true = true /\ upair u v = x)) by done. lia.
          -- rewrite (decide_False (P := true = true /\ upair u v = x)) by (by intros []). lia.
      + split; [congruence|]. intros _ c Hc. destruct (IB eq_refl c Hc) as (HP & HD). unfold emit, along. cbn [fst snd]. rewrite Eu, Ev. cbn [eqb app]. split; [done|]. intros x. rewrite HD, cuts_cons. unfold cut_side. cbn [fst snd]. rewrite Eu, Ev. cbn [eqb negb].
        rewrite (decide_False (P := false = true /\ upair u v = x)) by (by intros []). done.
  Qed.

  Lemma clip_loop_emit face : clip_loop inside face = concat (map emit (sides face)).
  Proof. done. Qed.
  Lemma clip_rot a b : chords (clip_loop inside (a ++ b)) ≡ₚ chords (clip_loop inside (b ++ a)) /\ sides (clip_loop inside (a ++ b)) ≡ₚ sides (clip_loop inside (b ++ a)).
  Proof.
    destruct (sides_rot a b) as (pa & pb & E1 & E2). assert (sides (clip_loop inside (a ++ b)) ≡ₚ sides (clip_loop inside (b ++ a))) as H.
    { rewrite !clip_loop_emit, E1, E2, !map_app, !concat_app. apply sides_rot_perm. }
    split; [|done]. unfold chords. by rewrite H.
  Qed.
  Lemma filter_chord (out : list ((nat * nat) * (nat * nat))) : filter chord out = filter (fun e : (nat * nat) * (nat * nat) => e.1.1 <> e.1.2 /\ e.2.1 <> e.2.2) out.
  Proof. by apply list_filter_iff. Qed.

  (** the sides of a clipped loop and the degrees of its chords *)
  Lemma clip_loop_spec face : sides (clip_loop inside face) ≡ₚ concat (map along (sides face)) ++ chords (clip_loop inside face) /\ forall x, deg x (chords (clip_loop inside face)) = cuts x (sides face).
  Proof.
    destruct (decide (Exists (fun v => inside v = true) face)) as [H|H].
    - apply Exists_exists in H as (u & Hu & Hin). apply elem_of_list_split in Hu as (l1 & l2 & ->).
      destruct (clip_rot l1 (u :: l2)) as [R1 R2]. pose proof (sides_rot_perm l1 (u :: l2)) as R3. cbn [app] in R1, R2, R3.
      assert (G : let face := u :: l2 ++ l1 in sides (clip_loop inside face) ≡ₚ concat (map along (sides face)) ++ chords (clip_loop inside face) /\ forall x, deg x (chords (clip_loop inside face)) = cuts x (sides face)).
      { cbn zeta. unfold chords. rewrite <- !filter_chord. rewrite clip_loop_emit, sides_lp. destruct (path_spec ((l2 ++ l1) ++ [u]) u u) as [A _]; [change (u :: (l2 ++ l1) ++ [u]) with ((u :: l2 ++ l1) ++ [u]); apply last_snoc|done|]. specialize (A Hin).
        cbn zeta in A. destruct A as (Hh & HP & HD).
        remember (concat (map emit (lp (u :: (l2 ++ l1) ++ [u])))) as out eqn:Eo. destruct out as [|h out'].
        { exfalso. destruct (l2 ++ l1) as [|v l']; cbn [app] in Eo; rewrite lp_cons in Eo; cbn [map concat] in Eo; unfold emit in Eo at 1; cbn [fst] in Eo; rewrite Hin in Eo; done. }
        cbn in Hh. injection Hh as ->. rewrite sides_lp. done. }
      destruct G as [G1 G2]. split.
      + rewrite R2, R1, R3. done.
      + intros x. rewrite (deg_perm x _ _ R1), G2. unfold cuts. by rewrite R3.
    - assert (Hs : forall s, s ∈ sides face -> inside s.1 = false /\ inside s.2 = false).
      { intros [a b] Hs. assert (forall v, v ∈ face -> inside v = false) as Hv. { intros v Hv. destruct (inside v) eqn:E; [|done]. destruct H. apply Exists_exists. by exists v. }
        cbn. destruct face as [|x r]; [by apply elem_of_nil in Hs|]. unfold sides in Hs. split; apply Hv; [by eapply elem_of_zip_l|]. apply elem_of_zip_r in Hs. apply elem_of_app in Hs as [Hs|Hs]; [by right|]. apply elem_of_list_singleton in Hs as ->. by left. }
      assert (E1 : clip_loop inside face = []).
      { rewrite clip_loop_emit. induction (sides face) as [|s ss IH]; [done|]. cbn [map concat]. destruct (Hs s) as [A B]; [by left|]. rewrite IH by (intros; apply Hs; by right). unfold emit. by rewrite A, B. }
      rewrite E1. cbn. split.
      + rewrite app_nil_r. induction (sides face) as [|s ss IH]; [done|]. cbn [map concat]. destruct (Hs s) as [A B]; [by left|]. rewrite <- IH by (intros; apply Hs; by right). unfold along. by rewrite A, B.
      + intros x. unfold deg. cbn. induction (sides face) as [|s ss IH]; [done|]. rewrite cuts_cons. destruct (Hs s) as [A B]; [by left|]. rewrite decide_False; [apply IH; intros; apply Hs; by right|]. unfold cut_side. rewrite A, B. cbn. by intros [].
  Qed.
End clip.

(** * caps *)
Lemma swap_remove_perm {A} (l : list A) i e : l !! i = Some e -> l ≡ₚ e :: swap_remove l i.
Proof.
  intros H. unfold swap_remove. destruct (last l) as [z|] eqn:El.
  - apply last_Some in El as [l' ->]. rewrite app_length. cbn [length]. destruct (decide _) as [E|E].
    + assert (i = length l') by lia. subst i. rewrite lookup_app_r in H by lia. rewrite Nat.sub_diag in H. injection H as ->. rewrite take_app. apply Permutation_app_comm.
    + replace (length l' + 1 - 1) with (length l') by lia. rewrite take_app. assert (i < length l') as Hi. { apply lookup_lt_Some in H. rewrite app_length in H. cbn in H. lia. }
      rewrite lookup_app_l in H by done. rewrite insert_take_drop by done. rewrite <- (take_drop_middle l' i e H) at 1. rewrite <- app_assoc. cbn [app]. rewrite <- Permutation_middle. constructor. apply Permutation_app_head. symmetry. apply Permutation_cons_append.
  - destruct l; [done|]. by apply last_None in El.
Qed.

Lemma joins_app {A} `{EqDecision A} (x y : A) a b : joins x y (a ++ b) = joins x y a + joins x y b.
Proof. unfold joins. by rewrite filter_app, app_length. Qed.
Lemma joins_perm {A} `{EqDecision A} (x y : A) a b : a ≡ₚ b -> joins x y a = joins x y b.
Proof. intros H. unfold joins. by rewrite H. Qed.
Lemma joins_cons {A} `{EqDecision A} (x y : A) e b : joins x y (e :: b) = (if decide (e = (x, y) \/ e = (y, x)) then 1 else 0) + joins x y b.
Proof. unfold joins. rewrite filter_cons. by destruct (decide _). Qed.
Lemma joins_swap {A} `{EqDecision A} (x y a b : A) r : joins x y ((a, b) :: r) = joins x y ((b, a) :: r).
Proof. rewrite !joins_cons. destruct (decide ((a, b) = _ \/ _)) as [E|E], (decide ((b, a) = _ \/ _)) as [F|F]; try done; exfalso; [apply F; destruct E as [[= -> ->]|[= -> ->]]; tauto|apply E; destruct F as [[= -> ->]|[= -> ->]]; tauto]. Qed.

Local Notation edge := ((nat * nat) * (nat * nat))%type.
Lemma lp_snoc2 {A} (l : list A) a b : lp (l ++ [a; b]) = lp (l ++ [a]) ++ [(a, b)].
Proof. by rewrite (lp_app l a [b]). Qed.

Lemma follow_spec fuel : forall (edges : list edge) next face rest face', length edges <= fuel -> follow fuel edges next face = (rest, face') ->
  exists ext t, face' = face ++ ext /\ length rest <= length edges /\
    (forall x y, joins x y (lp (face' ++ [t])) + joins x y rest = joins x y (lp (face ++ [next])) + joins x y edges) /\
    (forall x, deg x (lp (face' ++ [t])) + deg x rest = deg x (lp (face ++ [next])) + deg x edges) /\
    (forall e, e ∈ rest -> e ∈ edges /\ e.1 <> t /\ e.2 <> t) /\
    (forall v, v ∈ ext -> exists e, e ∈ edges /\ (v = e.1 \/ v = e.2)).
Proof.
  induction fuel as [|fuel IH]; intros edges next face rest face' Hf Hfo.
  - destruct edges; [|cbn in Hf; lia]. cbn in Hfo. injection Hfo as <- <-. exists [], next. rewrite app_nil_r. repeat split; auto; try (by intros; exfalso; eapply not_elem_of_nil).
  - cbn [follow] in Hfo. destruct (list_find _ edges) as [[i e]|] eqn:Ef.
    + apply list_find_Some in Ef as (Hi & Hp & _). pose proof (swap_remove_perm _ _ _ Hi) as HP. assert (Hlen := Permutation_length HP). cbn [length] in Hlen.
      assert (Hmem : forall e', e' ∈ swap_remove edges i -> e' ∈ edges) by (intros e' He'; rewrite HP; by right). assert (He : e ∈ edges) by (by eapply elem_of_list_lookup_2).
      destruct e as [e1 e2]. cbn [fst snd] in *. destruct (decide (e1 = next)) as [E|E].
      * apply IH in Hfo as (ext & t & -> & Hl & HJ & HD & HR & HE); [|lia]. exists (e1 :: ext), t. rewrite <- app_assoc. cbn [app]. split; [done|]. split; [lia|]. repeat split.
        -- intros x y. specialize (HJ x y). rewrite <- !app_assoc in HJ. rewrite <- !app_assoc. cbn [app] in *. rewrite HJ. rewrite lp_snoc2, joins_app. rewrite (joins_perm x y _ _ HP). rewrite <- E. rewrite !joins_cons. change (joins x y []) with 0. lia.
        -- intros x. specialize (HD x). rewrite <- !app_assoc in HD. rewrite <- !app_assoc. cbn [app] in *. rewrite HD. rewrite lp_snoc2, deg_app. rewrite (deg_perm x _ _ HP). rewrite <- E. rewrite !deg_cons. change (deg x []) with 0. cbn [fst snd]. lia.
        -- apply Hmem. by apply HR.
        -- by apply HR.
        -- by apply HR.
        -- intros v Hv. apply elem_of_cons in Hv as [->|Hv]; [exists (e1, e2); cbn; tauto|]. destruct (HE v Hv) as (e' & He' & ?). exists e'. split; [by apply Hmem|done].
      * destruct Hp as [Hp|Hp]; [done|]. apply IH in Hfo as (ext & t & -> & Hl & HJ & HD & HR & HE); [|lia]. exists (e2 :: ext), t. rewrite <- app_assoc. cbn [app]. split; [done|]. split; [lia|]. repeat split.
        -- intros x y. specialize (HJ x y). rewrite <- !app_assoc in HJ. rewrite <- !app_assoc. cbn [app] in *. rewrite HJ. rewrite lp_snoc2, joins_app. rewrite (joins_perm x y _ _ HP). rewrite <- Hp. rewrite (joins_swap x y e1 e2). rewrite !joins_cons. change (joins x y []) with 0. lia.
        -- intros x. specialize (HD x). rewrite <- !app_assoc in HD. rewrite <- !app_assoc. cbn [app] in *. rewrite HD. rewrite lp_snoc2, deg_app. rewrite (deg_perm x _ _ HP). rewrite <- Hp. rewrite !deg_cons. change (deg x []) with 0. cbn [fst snd]. lia.
        -- apply Hmem. by apply HR.
        -- by apply HR.
        -- by apply HR.
        -- intros v Hv. apply elem_of_cons in Hv as [->|Hv]; [exists (e1, e2); cbn; tauto|]. destruct (HE v Hv) as (e' & He' & ?). exists e'. split; [by apply Hmem|done].
    + injection Hfo as <- <-. apply list_find_None in Ef. rewrite Forall_forall in Ef. exists [], next. rewrite app_nil_r. split; [done|]. split; [done|]. repeat split; auto.
      * intros E. apply (Ef e); tauto.
      * intros E. apply (Ef e); tauto.
      * intros v Hv. by apply elem_of_nil in Hv.
Qed.

Lemma path_parity (l : list (nat * nat)) : forall s t, Nat.Even (deg t (lp (s :: l ++ [t])) + if decide (s = t) then 0 else 1).
Proof.
  enough (G : forall x s t, Nat.Even (deg x (lp (s :: l ++ [t])) + (if decide (s = x) then 1 else 0) + (if decide (t = x) then 1 else 0))).
  { intros s t. specialize (G t s t). rewrite (decide_True (P := t = t)) in G by done. destruct (decide (s = t)); [|by rewrite Nat.add_0_r in G].
    destruct G as [k Hk]. exists (k - 1). lia. }
  intros x. induction l as [|y l IH]; intros s t; cbn [app]; rewrite lp_cons, deg_cons; cbn [fst snd].
  - cbn [lp]. change (deg x []) with 0. destruct (decide (s = x)), (decide (t = x)); [exists 2|exists 1|exists 1|exists 0]; lia.
  - destruct (IH y t) as [k Hk]. destruct (decide (s = x)); [exists (k + 1)|exists k]; lia.
Qed.
Lemma closed_parity (l : list (nat * nat)) s x : Nat.Even (deg x (lp (s :: l ++ [s]))).
Proof.
  enough (G : forall x s t, Nat.Even (deg x (lp (s :: l ++ [t])) + (if decide (s = x) then 1 else 0) + (if decide (t = x) then 1 else 0))).
  { specialize (G x s s). destruct (decide (s = x)); destruct G as [k Hk]; [exists (k - 1)|exists k]; lia. }
  clear. intros x. induction l as [|y l IH]; intros s t; cbn [app]; rewrite lp_cons, deg_cons; cbn [fst snd].
  - cbn [lp]. change (deg x []) with 0. destruct (decide (s = x)), (decide (t = x)); [exists 2|exists 1|exists 1|exists 0]; lia.
  - destruct (IH y t) as [k Hk]. destruct (decide (s = x)); [exists (k + 1)|exists k]; lia.
Qed.

Lemma caps_elems fuel : forall (edges : list edge), length edges <= fuel ->
  Forall (fun cap => cap <> [] /\ forall v, v ∈ cap -> exists e, e ∈ edges /\ (v = e.1 \/ v = e.2)) (caps fuel edges).
Proof.
  induction fuel as [|fuel IH]; intros edges Hf; [constructor|]. cbn [caps]. destruct (last edges) as [e|] eqn:El; [|constructor].
  apply last_Some in El as [l ->]. rewrite app_length in *. cbn [length] in *. replace (length l + 1 - 1) with (length l) by lia. rewrite take_app.
  destruct (follow _ _ _ _) as [rest face] eqn:Efo. apply follow_spec in Efo as (ext & t & -> & Hl & _ & _ & HR & HE); [|lia]. constructor.
  - split; [done|]. intros v Hv. apply elem_of_cons in Hv as [->|Hv].
    + exists e. split; [apply elem_of_app; right; by left|by left].
    + destruct (HE v Hv) as (e' & He' & H). exists e'. split; [apply elem_of_app; by left|done].
  - eapply Forall_impl; [apply IH; lia|]. intros cap [Hne Hc]. split; [done|]. intros v Hv. destruct (Hc v Hv) as (e' & He' & H). exists e'. split; [apply elem_of_app; left; by apply HR|done].
Qed.

(** where an even number of chords meets in every point the sides of the caps are the chords *)
Lemma caps_closed fuel : forall (edges : list edge), length edges <= fuel -> (forall x, Nat.Even (deg x edges)) ->
  forall x y, joins x y (concat (map sides (caps fuel edges))) = joins x y edges.
Proof.
  induction fuel as [|fuel IH]; intros edges Hf Hev x y; [destruct edges; [done|cbn in Hf; lia]|]. cbn [caps]. destruct (last edges) as [e|] eqn:El; [|by apply last_None in El as ->].
  apply last_Some in El as [l ->]. destruct e as [e1 e2]. cbn [fst snd] in *. rewrite app_length in *. cbn [length] in *. replace (length l + 1 - 1) with (length l) by lia. rewrite take_app.
  destruct (follow _ _ _ _) as [rest face] eqn:Efo. apply follow_spec in Efo as (ext & t & -> & Hl & HJ & HD & HR & _); [|lia]. cbn [app] in *.
  assert (Et : e1 = t).
  { destruct (decide (e1 = t)) as [|Hne]; [done|]. exfalso. pose proof (path_parity ext e1 t) as [k Hk]. rewrite decide_False in Hk by done. specialize (HD t). change (lp [e1; e2]) with [(e1, e2)] in HD. rewrite (deg_cons t) in HD.
    assert (Hr : deg t rest = 0). { unfold deg. assert (G : filter (fun z => z = t) (concat (map (fun e0 : edge => [e0.1; e0.2]) rest)) = []); [|by rewrite G]. clear -HR. induction rest as [|a r IHr]; [done|]. cbn [map concat app]. destruct (HR a) as (_ & A & B); [by left|]. rewrite !filter_cons, !decide_False by done. apply IHr. intros e' He'. apply HR. by right. }
    destruct (Hev t) as [k' Hk']. rewrite deg_app, deg_cons in Hk'. cbn [fst snd] in *. change (deg t []) with 0 in *. lia. }
  subst t. cbn [map concat]. rewrite joins_app. rewrite IH.
  - rewrite sides_lp. specialize (HJ x y). change (lp [e1; e2]) with [(e1, e2)] in HJ. rewrite HJ, joins_app. rewrite !joins_cons. change (joins x y []) with 0. lia.
  - lia.
  - intros z. specialize (HD z). destruct (Hev z) as [k' Hk']. pose proof (closed_parity ext e1 z) as [k Hk]. rewrite deg_app, deg_cons in Hk'. change (lp [e1; e2]) with [(e1, e2)] in HD. rewrite (deg_cons z) in HD. cbn [fst snd] in *. change (deg z []) with 0 in *. exists (k' - k). lia.
Qed.

(** Proofs about permutations and Cuthill-McKee. *)
From stdpp Require Import base list list_numbers sorting.
From Coq Require Import Lia.
From Verif Require Import Prelude NestedVecModel ParadisModel VectorModel CsrModel CsrSpec CsrProofs ReorderModel ReorderSpec.

Lemma is_perm_iff l : is_perm l <-> NoDup l /\ Forall (fun x => x < length l) l.
Proof.
  unfold is_perm. split.
  - intros H. split; [rewrite H; apply NoDup_seq|]. apply Forall_forall. intros x Hx. rewrite H in Hx. apply elem_of_seq in Hx. lia.
  - intros [Hnd Hf]. apply submseteq_Permutation_length_le; [by rewrite seq_length|]. apply NoDup_submseteq; [done|].
    intros x Hx. rewrite Forall_forall in Hf. apply elem_of_seq. specialize (Hf x Hx). simpl in Hf. lia.
Qed.

Lemma is_perm_elem l x : is_perm l -> x ∈ l <-> x < length l.
Proof. intros H. unfold is_perm in H. rewrite H at 1. rewrite elem_of_seq. lia. Qed.

Lemma is_perm_lookup l x : is_perm l -> x < length l -> exists i, l !! i = Some x /\ i < length l.
Proof. intros H Hx. apply (is_perm_elem l x H) in Hx. apply elem_of_list_lookup in Hx as [i Hi]. exists i. split; [done|]. by eapply lookup_lt_Some. Qed.

Lemma is_perm_bound l i x : is_perm l -> l !! i = Some x -> x < length l.
Proof. intros H Hi. apply (is_perm_elem l x H). exact (elem_of_list_lookup_2 _ _ _ Hi). Qed.

Lemma is_perm_inj l i j x : is_perm l -> l !! i = Some x -> l !! j = Some x -> i = j.
Proof. intros H. apply is_perm_iff in H as [H _]. by apply NoDup_lookup. Qed.

(** ** from_vec *)
Definition fv_step (visited : list bool) (index : nat) : outcome invalid_permutation (list bool) :=
  match visited !! index with
  | Some true => Err InvalidPermutation
  | Some false => Ok (<[index := true]> visited)
  | None => Panic
  end.

Lemma fv_loop l : forall visited,
  match ofold fv_step visited l with
  | Ok _ => NoDup l /\ forall x, x ∈ l -> visited !! x = Some false
  | Err _ => ~ (NoDup l /\ forall x, x ∈ l -> visited !! x = Some false)
  | Panic => exists x, x ∈ l /\ length visited <= x
  end.
Proof.
  induction l as [|x l IH]; intros visited; cbn [ofold].
  { split; [constructor|]. intros x Hx. by apply elem_of_nil in Hx. }
  unfold fv_step at 1. destruct (visited !! x) as [[|]|] eqn:Hv.
  - intros [_ H]. specialize (H x ltac:(by left)). congruence.
  - specialize (IH (<[x := true]> visited)). pose proof (lookup_lt_Some _ _ _ Hv) as Hx.
    destruct (ofold fv_step _ l) as [v|e|].
    + destruct IH as [Hnd H]. split.
      * constructor; [|done]. intros Hin. specialize (H x Hin). rewrite list_lookup_insert in H by done. done.
      * intros y Hy. apply elem_of_cons in Hy as [->|Hy]; [done|]. specialize (H y Hy). destruct (decide (x = y)) as [->|Hne]; [done|].
        by rewrite list_lookup_insert_ne in H.
    + intros [Hnd H]. apply NoDup_cons in Hnd as [Hx' Hnd]. apply IH. split; [done|]. intros y Hy.
      rewrite list_lookup_insert_ne by congruence. apply H. by right.
    + destruct IH as (y & Hy & Hl). exists y. rewrite insert_length in Hl. split; [by right|done].
  - exists x. split; [by left|]. by apply lookup_ge_None.
Qed.

Lemma from_vec_ok l p : perm_from_vec l = Ok p <-> p = l /\ is_perm l.
Proof.
  unfold perm_from_vec. fold fv_step. pose proof (fv_loop l (replicate (length l) false)) as H.
  destruct (ofold fv_step _ l) as [v|e|] eqn:Hl; simpl.
  - destruct H as [H1 H2]. assert (is_perm l).
    { apply is_perm_iff. split; [done|]. apply Forall_forall. intros x Hx. specialize (H2 x Hx). apply lookup_replicate in H2 as [_ ?]. done. }
    split; [by intros [= <-]|by intros [-> _]].
  - split; [done|]. intros [_ Hp]. exfalso. apply H. apply is_perm_iff in Hp as [Hnd Hf]. split; [done|]. intros x Hx.
    rewrite Forall_forall in Hf. apply lookup_replicate_2. by apply Hf.
  - split; [done|]. intros [_ Hp]. exfalso. destruct H as (x & Hx & Hge). rewrite replicate_length in Hge. apply (is_perm_elem l x Hp) in Hx. lia.
Qed.

Lemma from_vec_err l : Forall (fun x => x < length l) l -> (perm_from_vec l = Err InvalidPermutation <-> ~ NoDup l).
Proof.
  intros Hf. unfold perm_from_vec. fold fv_step. pose proof (fv_loop l (replicate (length l) false)) as H.
  rewrite Forall_forall in Hf.
  destruct (ofold fv_step _ l) as [v|e|] eqn:Hl; simpl.
  - destruct H as [H1 _]. by split.
  - destruct e. split; [|done]. intros _ Hnd. apply H. split; [done|]. intros x Hx. apply lookup_replicate_2. by apply Hf.
  - exfalso. destruct H as (x & Hx & Hge). rewrite replicate_length in Hge. specialize (Hf x Hx). simpl in Hf. lia.
Qed.

(** ** omapM *)
Lemma omapM_acc {E A B} (f : A -> outcome E B) xs : forall acc,
  ofold (fun acc x => let! y := f x in Ok (acc ++ [y])) acc xs =
  let! ys := omapM f xs in Ok (acc ++ ys).
Proof.
  unfold omapM. induction xs as [|x xs IH]; intros acc; cbn [ofold]; [simpl; by rewrite app_nil_r|].
  destruct (f x) as [y|e|]; simpl; [|done|done]. rewrite (IH (acc ++ [y])), (IH [y]).
  destruct (ofold _ [] xs); simpl; [|done|done]. by rewrite <- app_assoc.
Qed.

Lemma omapM_cons {E A B} (f : A -> outcome E B) x xs : omapM f (x :: xs) = let! y := f x in let! ys := omapM f xs in Ok (y :: ys).
Proof.
  unfold omapM at 1. cbn [ofold]. destruct (f x) as [y|e|]; simpl; [|done|done]. rewrite omapM_acc. by destruct (omapM f xs).
Qed.

Lemma omapM_ok {E A B} (f : A -> outcome E B) xs : forall ys, omapM f xs = Ok ys <-> Forall2 (fun x y => f x = Ok y) xs ys.
Proof.
  induction xs as [|x xs IH]; intros ys.
  - split; [intros [= <-]; constructor|intros H; by inversion H].
  - rewrite omapM_cons. split.
    + destruct (f x) as [y|e|] eqn:Hf; simpl; [|done|done]. destruct (omapM f xs) as [zs|e|]; simpl; [|done|done].
      intros [= <-]. constructor; [done|by apply IH].
    + intros H. inversion H as [|a b l l' Hf HF]; subst. rewrite Hf. simpl. apply IH in HF. by rewrite HF.
Qed.

Lemma Forall2_exists {A B} (P : A -> B -> Prop) (xs : list A) : (forall x, x ∈ xs -> exists y, P x y) -> exists ys, Forall2 P xs ys.
Proof.
  induction xs as [|x xs IH]; intros H; [by exists []|]. destruct (H x ltac:(by left)) as [y Hy].
  destruct IH as [ys Hys]; [intros z Hz; apply H; by right|]. exists (y :: ys). by constructor.
Qed.

(** ** inverse *)
Lemma inverse_loop (p : list nat) n : Forall (fun s => s < n) p -> NoDup p -> forall k inv, length inv = n ->
  exists inv', ofold (E := invalid_permutation) (fun inv '(target, source) =>
      if decide (source < length inv) then Ok (<[source := target]> inv) else Panic) inv (zip (seq k (length p)) p) = Ok inv' /\
    length inv' = n /\ (forall i s, p !! i = Some s -> inv' !! s = Some (k + i)) /\ (forall s, s ∉ p -> inv' !! s = inv !! s).
Proof.
  induction p as [|s p IH]; intros Hf Hnd k inv Hl; cbn [length seq zip_with ofold].
  { exists inv. split_and!; done. }
  apply Forall_cons in Hf as [Hs Hf]. apply NoDup_cons in Hnd as [Hns Hnd]. rewrite decide_True by lia.
  destruct (IH Hf Hnd (S k) (<[s := k]> inv)) as (inv' & -> & Hl' & H1 & H2); [by rewrite insert_length|].
  exists inv'. split_and!; [done|done| |].
  - intros [|i] t Hi; simpl in Hi.
    + simplify_eq. rewrite H2 by done. rewrite list_lookup_insert by lia. f_equal. lia.
    + rewrite (H1 _ _ Hi). f_equal. lia.
  - intros t Ht. apply not_elem_of_cons in Ht as [Ht1 Ht2]. rewrite H2 by done. by apply list_lookup_insert_ne.
Qed.

Lemma inverse_spec {E} umax p : is_perm p -> exists q, @perm_inverse E umax p = Ok q /\ is_perm q /\ length q = length p /\
  forall i j, p !! i = Some j <-> q !! j = Some i.
Proof.
  intros Hp. pose proof Hp as Hp'. apply is_perm_iff in Hp' as [Hnd Hf]. unfold perm_inverse.
  destruct (inverse_loop p (length p) Hf Hnd 0 (replicate (length p) umax)) as (q & -> & Hl & H1 & _); [apply replicate_length|].
  assert (forall i j, p !! i = Some j <-> q !! j = Some i) as Hiff.
  { intros i j. split; [by apply H1|]. intros Hj. pose proof (lookup_lt_Some _ _ _ Hj) as Hlt.
    destruct (is_perm_lookup p j Hp) as (i' & Hi' & _); [lia|]. rewrite (H1 _ _ Hi') in Hj. simpl in Hj. by injection Hj as <-. }
  assert (is_perm q) as Hq.
  { apply is_perm_iff. split.
    - apply NoDup_alt. intros i j x Hi Hj. apply Hiff in Hi, Hj. congruence.
    - apply Forall_lookup. intros i x Hi. apply Hiff in Hi. apply lookup_lt_Some in Hi. lia. }
  exists q. rewrite (proj2 (from_vec_ok q q) (conj eq_refl Hq)). split_and!; done.
Qed.

(** ** apply_to_slice *)
Lemma apply_spec {E T} (p : permutation) (src : list T) : is_perm p -> length src = length p ->
  exists dst, @apply_to_slice E T p src = Ok dst /\ length dst = length src /\
    forall i s, p !! i = Some s -> dst !! i = src !! s.
Proof.
  intros Hp Hl. unfold apply_to_slice. rewrite decide_True by done.
  destruct (Forall2_exists (fun s x => src !! s = Some x) p) as [dst Hdst].
  { intros s Hs. apply (is_perm_elem p s Hp) in Hs. apply lookup_lt_is_Some_2. lia. }
  exists dst. split_and!.
  - apply omapM_ok. eapply Forall2_impl; [exact Hdst|]. intros s x Hs. by rewrite Hs.
  - rewrite Hl. symmetry. by eapply Forall2_length.
  - intros i s Hi. destruct (Forall2_lookup_l _ _ _ _ _ Hdst Hi) as (x & Hx & Hs). congruence.
Qed.

Lemma apply_perm {E T} (p : permutation) (src dst : list T) : is_perm p -> @apply_to_slice E T p src = Ok dst -> dst ≡ₚ src.
Proof.
  intros Hp H. unfold apply_to_slice in H. destruct (decide _) as [Hl|]; [|done]. apply omapM_ok in H.
  assert (dst = omap (fun s => src !! s) p) as ->.
  { clear Hp Hl. induction H as [|s x p dst Hs _ IH]; [done|]. cbn [omap list_omap]. destruct (src !! s); [|done]. simplify_eq. by f_equal. }
  unfold is_perm in Hp. rewrite Hp, <- Hl. clear. assert (forall n, n <= length src -> omap (fun s => src !! s) (seq 0 n) ≡ₚ take n src) as H; [|by rewrite (H (length src)), take_ge by lia].
  induction n as [|n IH]; intros Hn; [done|]. rewrite seq_S, omap_app, IH by lia. cbn [omap list_omap]. simpl.
  destruct (lookup_lt_is_Some_2 src n) as [x Hx]; [lia|]. rewrite Hx. by rewrite (take_S_r _ _ _ Hx).
Qed.

(** ** Cuthill-McKee *)
Lemma sublist_sorted {A} (P : A -> A -> Prop) (l1 l2 : list A) : l1 `sublist_of` l2 -> StronglySorted P l2 -> StronglySorted P l1.
Proof.
  induction 1 as [|x l1 l2 Hsub IH|x l1 l2 Hsub IH]; intros Hs; [done| |]; inversion Hs; subst; [|by apply IH].
  constructor; [by apply IH|]. rewrite Forall_forall in *. eauto using sublist_submseteq, elem_of_submseteq.
Qed.

Lemma sorted_lookup {A} (P : A -> A -> Prop) (l : list A) i j x y : StronglySorted P l -> i < j -> l !! i = Some x -> l !! j = Some y -> P x y.
Proof.
  intros Hs. revert i j. induction Hs as [|z l Hs IH Hf]; intros [|i] [|j] Hij Hi Hj; simpl in *; try done; try lia.
  - simplify_eq. rewrite Forall_forall in Hf. apply Hf. exact (elem_of_list_lookup_2 _ _ _ Hj).
  - eapply IH; [|exact Hi|exact Hj]. lia.
Qed.

Section cm.
Context (p : pattern) (Hwf : pat_wf p) (Hsq : pt_nrows p = pt_ncols p) (srt : nat -> list nat -> list nat) (Hsrt : sorts_by_degree p srt).

Lemma row_degree v b cs : pat_row p v = Some (b, cs) -> length cs = degree p v.
Proof using Hwf Hsq Hsrt.
  unfold pat_row, degree. destruct (pt_offs p !! v) as [b'|]; simpl; [|done]. destruct (pt_offs p !! S v) as [e|]; simpl; [|done].
  destruct (slice_get _ b' e) as [c|] eqn:Hs; simpl; [|done]. intros [= -> ->]. apply slice_get_inv in Hs as [? ->].
  rewrite take_length, drop_length. lia.
Qed.

Lemma push_fold ws : forall visited queue, Forall (fun w => w < length visited) ws ->
  exists N visited', ofold (E := Empty_set) cm_push (visited, queue) ws = Ok (visited', queue ++ N) /\ length visited' = length visited /\
    N `sublist_of` ws /\ NoDup N /\ (forall x, x ∈ N <-> x ∈ ws /\ visited !! x = Some false) /\
    (forall x, visited' !! x = Some true <-> visited !! x = Some true \/ x ∈ N).
Proof using Hwf Hsq Hsrt.
  induction ws as [|w ws IH]; intros visited queue Hf; cbn [ofold].
  { exists [], visited. rewrite app_nil_r. split_and!; try done; [constructor| |].
    - intros x. split; [by intros ?%elem_of_nil|by intros [?%elem_of_nil _]].
    - intros x. split; [by left|by intros [?|?%elem_of_nil]]. }
  apply Forall_cons in Hf as [Hw Hf]. unfold cm_push at 1. cbn [fst snd].
  destruct (lookup_lt_is_Some_2 visited w Hw) as [[|] Hv]; rewrite Hv.
  - destruct (IH visited queue Hf) as (N & visited' & H0 & H1 & H2 & H3 & H4 & H5). exists N, visited'. split_and!; [done|done|by constructor|done| |done].
    intros x. rewrite H4, elem_of_cons. split; [intros [? ?]; split; [by right|done]|]. intros [[->|?] ?]; [congruence|done].
  - destruct (IH (<[w := true]> visited) (queue ++ [w])) as (N & visited' & H0 & H1 & H2 & H3 & H4 & H5).
    { eapply Forall_impl; [exact Hf|]. intros x. by rewrite insert_length. }
    exists (w :: N), visited'. rewrite H0. split_and!.
    + by rewrite <- app_assoc.
    + by rewrite H1, insert_length.
    + by constructor.
    + constructor; [|done]. rewrite H4. intros [_ H]. rewrite list_lookup_insert in H by done. done.
    + intros x. rewrite !elem_of_cons, H4. destruct (decide (x = w)) as [->|Hne].
      * split; [intros _; split; [by left|done]|intros _; by left].
      * rewrite list_lookup_insert_ne by done. split; [intros [?|[? ?]]; [done|split; [by right|done]]|intros [[?|?] ?]; [done|by right]].
    + intros x. rewrite H5, elem_of_cons. destruct (decide (x = w)) as [->|Hne].
      * rewrite list_lookup_insert by done. split; [intros _; right; by left|intros _; by left].
      * rewrite list_lookup_insert_ne by done. split; [intros [?|?]; [by left|right; by right]|intros [?|[?|?]]; [by left|done|by right]].
Qed.

(** Invariant: [order] is the discovery order, [js] the discoverers. *)
Record cm_inv (perm queue : list nat) (visited : list bool) (js : list nat) : Prop := {
  ci_len : length visited = pt_nrows p;
  ci_nodup : NoDup (perm ++ queue);
  ci_vis : forall x, visited !! x = Some true <-> x ∈ perm ++ queue;
  ci_closed : forall i v w, perm !! i = Some v -> adjacent_to p v w -> w ∈ perm ++ queue;
  ci_jlen : length js = length (perm ++ queue);
  ci_disc : forall k j, js !! k = Some j -> discovered p (perm ++ queue) k j;
  ci_jmax : forall k j, js !! k = Some j -> j < length perm \/ (j = k /\ k = length perm);
  ci_jmono : forall k k' j j', k < k' -> js !! k = Some j -> js !! k' = Some j' -> j <= j';
  ci_deg : forall k k' j v v', k < k' -> j < k -> js !! k = Some j -> js !! k' = Some j ->
     (perm ++ queue) !! k = Some v -> (perm ++ queue) !! k' = Some v' -> degree p v <= degree p v';
  ci_root : forall k v, js !! k = Some k -> (perm ++ queue) !! k = Some v ->
     forall v', v' < pt_nrows p -> v' ∉ take (S k) (perm ++ queue) -> degree p v < degree p v' \/ (degree p v = degree p v' /\ v < v');
}.

Lemma discovered_unique order k j j' : discovered p order k j -> discovered p order k j' -> j = j'.
Proof using Hwf Hsq Hsrt.
  intros (v & Hv & Hn & Hj) (v' & Hv' & Hn' & Hj'). assert (v = v') as <- by congruence.
  assert (forall a b, (forall i w, i < b -> order !! i = Some w -> ~ adjacent_to p w v) ->
    (a < k /\ exists w, order !! a = Some w /\ adjacent_to p w v) \/ a = k -> (b < k /\ (exists w, order !! b = Some w /\ adjacent_to p w v)) \/ b = k -> b <= a) as H.
  { intros a b Hb [[Ha (w & Hw & Hadj)]| ->] Hb'.
    - destruct (decide (b <= a)); [done|]. exfalso. eapply (Hb a w); [lia|done|done].
    - destruct Hb' as [[? _]| ->]; lia. }
  pose proof (H _ _ Hn' Hj Hj'). pose proof (H _ _ Hn Hj' Hj). lia.
Qed.

Lemma discovered_app order extra k j : k < length order -> discovered p order k j -> discovered p (order ++ extra) k j.
Proof using Hwf Hsq Hsrt.
  intros Hk (v & Hv & Hn & Hj). exists v. split; [by apply lookup_app_l_Some|].
  assert (j <= k) as Hjk by (destruct Hj as [[? _]| ->]; lia). split.
  - intros i w Hi Hw. rewrite lookup_app_l in Hw by lia. by eapply Hn.
  - destruct Hj as [[Hj (w & Hw & Ha)]| ->]; [|by right]. left. split; [done|]. exists w. split; [by apply lookup_app_l_Some|done].
Qed.

Lemma inv_step perm v queue visited js : cm_inv perm (v :: queue) visited js ->
  exists ws N visited' , adjacent (E := Empty_set) p v = Ok ws /\
    ofold (E := Empty_set) cm_push (visited, queue) (srt v ws) = Ok (visited', queue ++ N) /\
    cm_inv (perm ++ [v]) (queue ++ N) visited' (js ++ replicate (length N) (length perm)).
Proof using Hwf Hsq Hsrt.
  intros I. assert (v < pt_nrows p) as Hv.
  { assert (v ∈ perm ++ v :: queue) as Hin by (apply elem_of_app; right; by left). apply (ci_vis _ _ _ _ I) in Hin. apply lookup_lt_Some in Hin.
    by rewrite (ci_len _ _ _ _ I) in Hin. }
  destruct (pat_row_exists p Hwf v Hv) as (b & ws & Hrow). unfold adjacent. rewrite Hrow.
  destruct (Hsrt v ws) as [Hperm Hsort].
  assert (forall w, w ∈ ws <-> adjacent_to p v w) as Hws.
  { intros w. unfold adjacent_to. rewrite elem_of_list_lookup. split.
    - intros [i Hi]. exists (b + i). by apply (pat_row_spec p v b ws Hrow).
    - intros [pos Hs]. exists (pos - b). by apply (pat_row_stored p v b ws w pos Hrow). }
  destruct (push_fold (srt v ws) visited queue) as (N & visited' & H0 & H1 & H2 & H3 & H4 & H5).
  { apply Forall_forall. intros w Hw. rewrite Hperm in Hw. apply Hws in Hw as [pos Hs]. rewrite (ci_len _ _ _ _ I), Hsq.
    destruct Hwf as (_ & _ & _ & _ & Hb). by eapply Hb. }
  exists ws, N, visited'. split; [done|]. split; [done|].
  assert ((perm ++ [v]) ++ queue ++ N = (perm ++ v :: queue) ++ N) as Eapp by (by rewrite <- !app_assoc; simpl).
  assert (forall x, x ∈ N -> x ∉ perm ++ v :: queue) as HNo.
  { intros x Hx Hin. apply H4 in Hx as [_ Hx]. apply (ci_vis _ _ _ _ I) in Hin. congruence. }
  set (L := perm ++ v :: queue) in *. assert (length perm < length L) as HpL by (unfold L; rewrite app_length; simpl; lia).
  assert (forall k j, (js ++ replicate (length N) (length perm)) !! k = Some j ->
      (k < length L /\ js !! k = Some j) \/ (length L <= k < length L + length N /\ j = length perm)) as Hjs.
  { intros k j Hk. destruct (decide (k < length L)) as [Hlt|Hge].
    - left. split; [done|]. by rewrite lookup_app_l in Hk by (rewrite (ci_jlen _ _ _ _ I); done).
    - right. rewrite lookup_app_r in Hk by (rewrite (ci_jlen _ _ _ _ I); fold L; lia). apply lookup_replicate in Hk as [-> Hk].
      rewrite (ci_jlen _ _ _ _ I) in Hk. fold L in Hk. lia. }
  assert (forall k x, length L <= k -> (L ++ N) !! k = Some x -> x ∈ N) as HinN.
  { intros k x Hk Hx. rewrite lookup_app_r in Hx by done. exact (elem_of_list_lookup_2 _ _ _ Hx). }
  assert (L !! length perm = Some v) as HvL by (unfold L; rewrite lookup_app_r, Nat.sub_diag by lia; done).
  split; rewrite ?Eapp.
  - by rewrite H1, (ci_len _ _ _ _ I).
  - apply NoDup_app. split_and!; [apply (ci_nodup _ _ _ _ I)| |done]. intros x Hx HN. by apply (HNo x).
  - intros x. rewrite H5, (ci_vis _ _ _ _ I). fold L. rewrite (elem_of_app L N). done.
  - intros i u w Hi Hadj. apply elem_of_app. destruct (decide (i < length perm)) as [Hlt|Hge].
    + left. rewrite lookup_app_l in Hi by done. by eapply (ci_closed _ _ _ _ I).
    + rewrite lookup_app_r in Hi by lia. apply list_lookup_singleton_Some in Hi as [_ <-].
      assert (w < pt_nrows p) as Hw. { destruct Hadj as [pos Hs]. rewrite Hsq. destruct Hwf as (_ & _ & _ & _ & Hb). by eapply Hb. }
      destruct (lookup_lt_is_Some_2 visited w) as [[|] Hvw]; [by rewrite (ci_len _ _ _ _ I)| |].
      * left. by apply (ci_vis _ _ _ _ I).
      * right. apply H4. split; [|done]. rewrite Hperm. by apply Hws.
  - rewrite !app_length, replicate_length, (ci_jlen _ _ _ _ I). done.
  - intros k j Hk. apply Hjs in Hk as [[Hlt Hk]|[Hge ->]].
    + apply discovered_app; [done|]. by apply (ci_disc _ _ _ _ I).
    + destruct (lookup_lt_is_Some_2 (L ++ N) k) as [x Hx]; [rewrite app_length; lia|]. exists x. split; [done|].
      pose proof (HinN k x ltac:(lia) Hx) as HxN. split.
      * intros i w Hi Hw Hadj. apply (HNo x HxN). rewrite lookup_app_l in Hw by lia. unfold L in Hw. rewrite lookup_app_l in Hw by done.
        by eapply (ci_closed _ _ _ _ I).
      * left. split; [lia|]. exists v. split; [by apply lookup_app_l_Some|]. apply Hws. rewrite <- Hperm. by apply H4.
  - intros k j Hk. rewrite app_length. simpl. apply Hjs in Hk as [[Hlt Hk]|[Hge ->]].
    + apply (ci_jmax _ _ _ _ I) in Hk as [Hk|[-> ->]]; left; lia.
    + left; lia.
  - intros k k' j j' Hkk Hk Hk'. apply Hjs in Hk as [[Hlt Hk]|[Hge ->]]; apply Hjs in Hk' as [[Hlt' Hk']|[Hge' ->]].
    + eapply (ci_jmono _ _ _ _ I); [exact Hkk|done|done].
    + apply (ci_jmax _ _ _ _ I) in Hk as [Hk|[-> ->]]; lia.
    + lia.
    + lia.
  - intros k k' j x x' Hkk Hjk Hk Hk' Hx Hx'. apply Hjs in Hk as [[Hlt Hk]|[Hge ->]]; apply Hjs in Hk' as [[Hlt' Hk']|[Hge' Hj']].
    + rewrite lookup_app_l in Hx, Hx' by done. eapply (ci_deg _ _ _ _ I); [exact Hkk|exact Hjk|done..].
    + subst j. apply (ci_jmax _ _ _ _ I) in Hk as [Hk|[Ha Hb]]; lia.
    + lia.
    + rewrite lookup_app_r in Hx, Hx' by lia.
      assert (StronglySorted (fun a b => degree p a <= degree p b) N) as HsN by (by eapply sublist_sorted).
      eapply (sorted_lookup _ _ _ _ _ _ HsN); [|exact Hx|exact Hx']. lia.
  - intros k x Hk Hx. apply Hjs in Hk as [[Hlt Hk]|[Hge ->]]; [|lia]. rewrite lookup_app_l in Hx by done. intros x' Hx' Hn.
    eapply (ci_root _ _ _ _ I); [done|done|done|]. intros Hin. apply Hn. rewrite take_app_le by lia. exact Hin.
Qed.

Lemma inv_bound perm queue visited js : cm_inv perm queue visited js -> length (perm ++ queue) <= pt_nrows p.
Proof using Hwf Hsq Hsrt.
  intros I. rewrite <- (seq_length (pt_nrows p) 0). apply submseteq_length, NoDup_submseteq; [apply (ci_nodup _ _ _ _ I)|].
  intros x Hx. apply (ci_vis _ _ _ _ I) in Hx. apply lookup_lt_Some in Hx. rewrite (ci_len _ _ _ _ I) in Hx. apply elem_of_seq. lia.
Qed.

Lemma search_spec fuel : forall perm queue visited js, cm_inv perm queue visited js -> pt_nrows p <= fuel + length perm ->
  exists perm' visited' js', cm_search (E := Empty_set) srt p fuel (CmState queue perm visited) = Some (Ok (CmState [] perm' visited')) /\
    cm_inv perm' [] visited' js' /\ length (perm ++ queue) <= length perm'.
Proof using Hwf Hsq Hsrt.
  induction fuel as [|fuel IH]; intros perm queue visited js I Hfuel; (destruct queue as [|v queue]; [exists perm, visited, js; rewrite app_nil_r; done|]).
  - exfalso. pose proof (inv_bound _ _ _ _ I) as Hb. rewrite app_length in Hb. simpl in Hb. lia.
  - destruct (inv_step perm v queue visited js I) as (ws & N & visited' & Hadj & Hfold & I'). cbn [cm_search cm_queue cm_visited cm_perm].
    rewrite Hadj, Hfold. cbn [fst snd]. destruct (IH _ _ _ _ I') as (perm' & vis' & js' & -> & I'' & Hl); [rewrite app_length; simpl; lia|].
    exists perm', vis', js'. split_and!; [done|done|]. rewrite !app_length in *. simpl in *. lia.
Qed.

Lemma least_spec (visited : list bool) n : (forall v, v < n -> v < pt_nrows p) ->
  match foldl (fun best v =>
      if decide (visited !! v = Some false) then
        let deg u := match pat_row p u with Some (_, cs) => length cs | None => 0 end in
        match best with
        | Some b => if decide (deg v < deg b) then Some v else Some b
        | None => Some v
        end
      else best) None (seq 0 n) with
  | None => forall v, v < n -> visited !! v <> Some false
  | Some b => b < n /\ visited !! b = Some false /\
      forall v, v < n -> visited !! v = Some false -> v <> b -> degree p b < degree p v \/ (degree p b = degree p v /\ b < v)
  end.
Proof using Hwf Hsq Hsrt.
  assert (forall u, u < pt_nrows p -> match pat_row p u with Some (_, cs) => length cs | None => 0 end = degree p u) as Hdeg.
  { intros u Hu. destruct (pat_row_exists p Hwf u Hu) as (b & cs & Hrow). rewrite Hrow. by eapply row_degree. }
  induction n as [|n IH]; intros Hn; [simpl; lia|]. rewrite seq_S, foldl_app. simpl. specialize (IH ltac:(auto with lia)).
  destruct (foldl _ None (seq 0 n)) as [b|].
  - destruct IH as (Hb & Hvb & Hmin). destruct (decide (visited !! n = Some false)) as [Hv|Hv].
    + rewrite !Hdeg by auto with lia. destruct (decide (degree p n < degree p b)) as [Hlt|Hge].
      * split_and!; [lia|done|]. intros v Hvn Hvv Hne. destruct (decide (v = b)) as [->|Hvb']; [by left|].
        destruct (Hmin v ltac:(lia) Hvv Hvb'); lia.
      * split_and!; [lia|done|]. intros v Hvn Hvv Hne. destruct (decide (v = n)) as [->|Hvn']; [|apply Hmin; [lia|done|done]].
        destruct (decide (degree p b < degree p n)); [by left|right; lia].
    + split_and!; [lia|done|]. intros v Hvn Hvv Hne. apply Hmin; [|done|done]. destruct (decide (v = n)) as [->|]; [done|lia].
  - destruct (decide (visited !! n = Some false)) as [Hv|Hv].
    + split_and!; [lia|done|]. intros v Hvn Hvv Hne. exfalso. apply (IH v); [lia|done].
    + intros v Hvn. destruct (decide (v = n)) as [->|]; [done|]. apply IH. lia.
Qed.

Lemma least_degree_spec (visited : list bool) :
  match least_degree p visited with
  | None => forall v, v < pt_nrows p -> visited !! v <> Some false
  | Some b => b < pt_nrows p /\ visited !! b = Some false /\
      forall v, v < pt_nrows p -> visited !! v = Some false -> v <> b -> degree p b < degree p v \/ (degree p b = degree p v /\ b < v)
  end.
Proof using Hwf Hsq Hsrt. exact (least_spec visited (pt_nrows p) ltac:(done)). Qed.

Lemma inv_start perm visited js start : cm_inv perm [] visited js -> least_degree p visited = Some start ->
  cm_inv perm [start] (<[start := true]> visited) (js ++ [length perm]).
Proof using Hwf Hsq Hsrt.
  intros I Hs. pose proof (least_degree_spec visited) as H. rewrite Hs in H.
  destruct H as (Hlt & Hvs & Hmin). assert (start ∉ perm) as Hnin.
  { intros Hin. assert (start ∈ perm ++ []) as Hin' by (by rewrite app_nil_r). apply (ci_vis _ _ _ _ I) in Hin'. congruence. }
  pose proof (ci_vis _ _ _ _ I) as Hvis. rewrite app_nil_r in Hvis.
  assert (length js = length perm) as Hjl by (rewrite (ci_jlen _ _ _ _ I), app_nil_r; done).
  assert (forall k j, (js ++ [length perm]) !! k = Some j -> (k < length perm /\ js !! k = Some j) \/ (k = length perm /\ j = length perm)) as Hjs.
  { intros k j Hk. destruct (decide (k < length perm)).
    - left. split; [done|]. by rewrite lookup_app_l in Hk by lia.
    - right. rewrite lookup_app_r in Hk by lia. apply list_lookup_singleton_Some in Hk as [? <-]. lia. }
  split.
  - by rewrite insert_length, (ci_len _ _ _ _ I).
  - apply NoDup_app. split_and!; [|by intros x Hx ->%elem_of_list_singleton|apply NoDup_singleton]. pose proof (ci_nodup _ _ _ _ I) as Hnd. by rewrite app_nil_r in Hnd.
  - intros x. rewrite elem_of_app, elem_of_list_singleton. destruct (decide (x = start)) as [->|Hne].
    + rewrite list_lookup_insert by (by eapply lookup_lt_Some). split; [by right|done].
    + rewrite list_lookup_insert_ne by done. rewrite Hvis. split; [by left|by intros [?|?]].
  - intros i v w Hi Hadj. apply elem_of_app. left. pose proof (ci_closed _ _ _ _ I _ _ _ Hi Hadj) as Hin. by rewrite app_nil_r in Hin.
  - rewrite !app_length, Hjl. done.
  - intros k j Hk. apply Hjs in Hk as [[Hk Hj]|[-> ->]].
    + apply discovered_app; [done|]. pose proof (ci_disc _ _ _ _ I _ _ Hj) as Hd. by rewrite app_nil_r in Hd.
    + exists start. split; [by rewrite lookup_app_r, Nat.sub_diag by lia|]. split; [|by right]. intros i w Hi Hw Hadj. rewrite lookup_app_l in Hw by done.
      apply Hnin. pose proof (ci_closed _ _ _ _ I _ _ _ Hw Hadj) as Hin. by rewrite app_nil_r in Hin.
  - intros k j Hk. apply Hjs in Hk as [[Hk Hj]|[-> ->]]; [|by right]. apply (ci_jmax _ _ _ _ I) in Hj as [?|[? ?]]; [by left|lia].
  - intros k k' j j' Hkk Hk Hk'. apply Hjs in Hk as [[Hk Hj]|[-> ->]]; apply Hjs in Hk' as [[Hk' Hj']|[-> ->]]; [|..|lia|lia].
    + eapply (ci_jmono _ _ _ _ I); [exact Hkk|done|done].
    + apply (ci_jmax _ _ _ _ I) in Hj as [?|[? ?]]; lia.
  - intros k k' j v v' Hkk Hjk Hk Hk' Hv Hv'. apply Hjs in Hk as [[Hk Hj]|[Ek Ej]]; apply Hjs in Hk' as [[Hk' Hj']|[Ek' Ej']]; [|..|lia|lia].
    + rewrite lookup_app_l in Hv, Hv' by done. eapply (ci_deg _ _ _ _ I); rewrite ?app_nil_r; [exact Hkk|exact Hjk|done..].
    + apply (ci_jmax _ _ _ _ I) in Hj as [?|[? ?]]; lia.
  - intros k v Hk Hv v' Hv' Hn. apply Hjs in Hk as [[Hk Hj]|[-> _]].
    + rewrite lookup_app_l in Hv by done. rewrite take_app_le in Hn by lia. eapply (ci_root _ _ _ _ I); rewrite ?app_nil_r; [exact Hj|done|done|done].
    + rewrite lookup_app_r, Nat.sub_diag in Hv by lia. simpl in Hv. simplify_eq. rewrite take_ge in Hn by (rewrite app_length; simpl; lia).
      rewrite elem_of_app, elem_of_list_singleton in Hn. apply Hmin; [done| |by intros ->; apply Hn; right].
      destruct (lookup_lt_is_Some_2 visited v') as [[|] Hvv]; [by rewrite (ci_len _ _ _ _ I)| |done]. exfalso. apply Hn. left. by apply Hvis.
Qed.

Lemma outer_spec fuel : forall perm visited js, cm_inv perm [] visited js -> pt_nrows p <= fuel + length perm ->
  exists perm' visited' js', cm_outer (E := Empty_set) srt p fuel (CmState [] perm visited) = Some (Ok (CmState [] perm' visited')) /\
    cm_inv perm' [] visited' js' /\ length perm' = pt_nrows p.
Proof using Hwf Hsq Hsrt.
  assert (forall perm visited js, cm_inv perm [] visited js -> existsb negb visited = false -> length perm = pt_nrows p) as Hdone.
  { intros perm visited js I He. pose proof (inv_bound _ _ _ _ I) as Hb. rewrite app_nil_r in Hb.
    assert (seq 0 (pt_nrows p) ⊆+ perm) as Hsub.
    { apply NoDup_submseteq; [apply NoDup_seq|]. intros x Hx. apply elem_of_seq in Hx.
      destruct (lookup_lt_is_Some_2 visited x) as [b Hx']; [rewrite (ci_len _ _ _ _ I); lia|]. destruct b.
      - apply (ci_vis _ _ _ _ I) in Hx'. by rewrite app_nil_r in Hx'.
      - assert (existsb negb visited = true) as Ht; [|congruence]. apply existsb_exists. exists false. split; [|done].
        apply elem_of_list_In. exact (elem_of_list_lookup_2 _ _ _ Hx'). }
    apply submseteq_length in Hsub. rewrite seq_length in Hsub. lia. }
  induction fuel as [|fuel IH]; intros perm visited js I Hfuel; cbn [cm_outer cm_visited cm_queue cm_perm];
    (destruct (existsb negb visited) eqn:He; [|exists perm, visited, js; split_and!; [done|done|by eapply Hdone]]).
  - exfalso. apply existsb_exists in He as (b & Hin & Hb). destruct b; [done|]. apply elem_of_list_In, elem_of_list_lookup in Hin as [x Hx].
    assert (perm ≡ₚ seq 0 (pt_nrows p)) as Hp.
    { apply submseteq_Permutation_length_le; [rewrite seq_length; lia|]. apply NoDup_submseteq.
      - pose proof (ci_nodup _ _ _ _ I) as Hnd. by rewrite app_nil_r in Hnd.
      - intros y Hy. apply elem_of_seq. assert (y ∈ perm ++ []) as Hy' by (by rewrite app_nil_r). apply (ci_vis _ _ _ _ I), lookup_lt_Some in Hy'.
        rewrite (ci_len _ _ _ _ I) in Hy'. lia. }
    assert (x ∈ perm ++ []) as Hxp.
    { rewrite app_nil_r, Hp. apply elem_of_seq. apply lookup_lt_Some in Hx. rewrite (ci_len _ _ _ _ I) in Hx. lia. }
    apply (ci_vis _ _ _ _ I) in Hxp. congruence.
  - destruct (least_degree p visited) as [start|] eqn:Hs.
    + pose proof (inv_start _ _ _ _ I Hs) as I1. change ([] ++ [start]) with [start].
      destruct (search_spec (pt_nrows p) _ _ _ _ I1) as (perm' & visited' & js' & -> & I2 & Hl); [lia|].
      rewrite app_length in Hl. simpl in Hl. eapply IH; [exact I2|lia].
    + exfalso. pose proof (least_degree_spec visited) as H. rewrite Hs in H.
      apply existsb_exists in He as (b & Hin & Hb). destruct b; [done|]. apply elem_of_list_In, elem_of_list_lookup in Hin as [x Hx].
      apply (H x); [|done]. apply lookup_lt_Some in Hx. by rewrite (ci_len _ _ _ _ I) in Hx.
Qed.

Lemma inv_init : cm_inv [] [] (replicate (pt_nrows p) false) [].
Proof using Hwf Hsq Hsrt.
  split; try done.
  - apply replicate_length.
  - constructor.
  - intros x. split; [intros H; apply lookup_replicate in H as [? _]; done|intros H; by apply elem_of_nil in H].
Qed.

Lemma cuthill_mckee_spec : exists q, cuthill_mckee srt p = Some (Ok q) /\ is_perm q /\ length q = pt_nrows p /\ cm_order p q.
Proof using Hwf Hsq Hsrt.
  unfold cuthill_mckee. rewrite decide_True by done.
  destruct (outer_spec (pt_nrows p) [] _ _ inv_init) as (perm & visited & js & -> & I & Hl); [simpl; lia|]. cbn [cm_perm]. rewrite decide_True by done.
  pose proof (ci_nodup _ _ _ _ I) as Hnd. rewrite app_nil_r in Hnd.
  assert (is_perm perm) as Hp.
  { apply is_perm_iff. split; [done|]. apply Forall_forall. intros x Hx. assert (x ∈ perm ++ []) as Hx' by (by rewrite app_nil_r).
    apply (ci_vis _ _ _ _ I), lookup_lt_Some in Hx'. rewrite (ci_len _ _ _ _ I) in Hx'. simpl. lia. }
  rewrite (proj2 (from_vec_ok perm perm) (conj eq_refl Hp)). exists perm. split_and!; [done|done|done|].
  assert (forall k j, discovered p perm k j -> js !! k = Some j) as Hd.
  { intros k j Hd. assert (k < length perm) as Hk by (destruct Hd as (v & Hv & _); by eapply lookup_lt_Some).
    destruct (lookup_lt_is_Some_2 js k) as [j' Hj']; [rewrite (ci_jlen _ _ _ _ I), app_nil_r; done|].
    pose proof (ci_disc _ _ _ _ I _ _ Hj') as Hd'. rewrite app_nil_r in Hd'. by rewrite (discovered_unique _ _ _ _ Hd Hd'). }
  split_and!.
  - intros k Hk. destruct (lookup_lt_is_Some_2 js k) as [j Hj]; [rewrite (ci_jlen _ _ _ _ I), app_nil_r; done|].
    exists j. pose proof (ci_disc _ _ _ _ I _ _ Hj) as Hd'. by rewrite app_nil_r in Hd'.
  - intros k k' j j' Hkk Hk Hk'. eapply (ci_jmono _ _ _ _ I); [exact Hkk|by apply Hd..].
  - intros k k' j v v' Hkk Hjk Hk Hk' Hv Hv'. eapply (ci_deg _ _ _ _ I); rewrite ?app_nil_r; [exact Hkk|exact Hjk|by apply Hd|by apply Hd|done|done].
  - intros k v Hk Hv k' v' Hkk Hv'. eapply (ci_root _ _ _ _ I); rewrite ?app_nil_r; [by apply Hd|done| |].
    + rewrite <- Hl. by eapply is_perm_bound.
    + intros Hin. apply elem_of_take in Hin as (i & Hi & Hlt). rewrite (NoDup_lookup _ _ _ _ Hnd Hi Hv') in Hlt. lia.
Qed.

Lemma rcm_spec : exists q, cuthill_mckee srt p = Some (Ok q) /\ reverse_cuthill_mckee srt p = Some (Ok (reverse q)) /\ is_perm (reverse q) /\ length (reverse q) = pt_nrows p.
Proof using Hwf Hsq Hsrt.
  destruct cuthill_mckee_spec as (q & Hq & Hp & Hl & _). exists q. split; [done|]. unfold reverse_cuthill_mckee. rewrite Hq. split; [done|].
  rewrite reverse_length. split; [|done]. unfold is_perm in *. by rewrite reverse_length, reverse_Permutation.
Qed.
End cm.

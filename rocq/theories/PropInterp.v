(** C35. *)
From stdpp Require Import base list list_numbers.
From Coq Require Import Reals Lia Lra.
From Verif Require Import Prelude InterpModel InterpSpec.

Lemma ofold_collect {E A B} (f : list B -> A -> outcome E (list B)) (g : A -> B) l :
  (forall acc x, x ∈ l -> f acc x = Ok (acc ++ [g x])) -> forall acc, ofold f acc l = Ok (acc ++ map g l).
Proof.
  induction l as [|x l IH]; intros H acc; cbn [ofold map]; [by rewrite app_nil_r|].
  rewrite H by (by left). rewrite IH by (intros; apply H; by right). by rewrite <- app_assoc.
Qed.

Lemma take_drop_nth (u : list R) o s : o + s <= length u -> take s (drop o u) = map (fun c => nth (o + c) u 0%R) (seq 0 s).
Proof.
  intros H. apply list_eq. intros i. destruct (decide (i < s)) as [Hi|Hi].
  - rewrite lookup_take by done. rewrite lookup_drop, list_lookup_fmap, lookup_seq_lt by done. cbn.
    destruct (lookup_lt_is_Some_2 u (o + i)) as [x Hx]; [lia|]. rewrite Hx. f_equal. symmetry. apply nth_lookup_Some with (d := 0%R) in Hx. done.
  - rewrite lookup_ge_None_2 by (rewrite take_length; lia). rewrite lookup_ge_None_2; [done|]. rewrite map_length, seq_length. lia.
Qed.

Lemma node_rows_ok s u j : s * j + s <= length u -> node_rows s u j = Ok (map (comp s u j) (seq 0 s)).
Proof. intros H. unfold node_rows, slice. rewrite decide_True by lia. f_equal. replace (s * j + s - s * j) with s by lia. by apply take_drop_nth. Qed.
Lemma node_rows_panic s u j : length u < s * j + s -> node_rows s u j = Panic.
Proof. intros H. unfold node_rows, slice. by rewrite decide_False by lia. Qed.

Lemma zip_with_map {A} (op : R -> R -> R) (f g : A -> R) l : zip_with op (map f l) (map g l) = map (fun x => op (f x) (g x)) l.
Proof. induction l; cbn; [done|]. by f_equal. Qed.

Lemma repeat_map {A} (x : A) (n m : nat) : repeat x n = map (fun _ => x) (seq m n).
Proof. revert m. induction n; intros m; cbn; [done|]. f_equal. apply IHn. Qed.

(** every node of the list has all its components in the vector *)
Definition in_vector (s : nat) (u : list R) (ts : list term) : Prop := Forall (fun t => s * tm_node t + s <= length u) ts.

Lemma value_fold s u ts : forall f, in_vector s u ts ->
  ofold (E := unit) (fun acc '(v, j) => let! uj := node_rows s u j in Ok (zip_with Rplus acc (map (fun x => (x * v)%R) uj)))
    (map f (seq 0 s)) (zip (map tm_value ts) (map tm_node ts)) = Ok (map (fun c => f c + value_at s u c ts)%R (seq 0 s)).
Proof.
  induction ts as [|t ts IH]; intros f H; cbn [map zip zip_with ofold].
  - f_equal. apply map_ext. intros c. unfold value_at. cbn. lra.
  - apply Forall_cons in H as [Ht H]. rewrite node_rows_ok by done. cbn [obind]. rewrite map_map, zip_with_map, IH by done.
    f_equal. apply map_ext. intros c. unfold value_at, rsum. cbn [foldr]. lra.
Qed.

Lemma value_fold_panic s u ts : Exists (fun t => length u < s * tm_node t + s) ts -> forall acc,
  ofold (E := unit) (fun acc '(v, j) => let! uj := node_rows s u j in Ok (zip_with Rplus acc (map (fun x => (x * v)%R) uj)))
    acc (zip (map tm_value ts) (map tm_node ts)) = Panic.
Proof.
  induction ts as [|t ts IH]; intros H acc; [by apply Exists_nil in H|]. cbn [map zip zip_with ofold].
  apply Exists_cons in H. destruct (decide (length u < s * tm_node t + s)) as [Hb|Hb]; [by rewrite node_rows_panic|].
  rewrite node_rows_ok by lia. cbn [obind]. apply IH. tauto.
Qed.

Definition rows (d s : nat) (f : nat -> nat -> R) : list (list R) := map (fun i => map (f i) (seq 0 s)) (seq 0 d).

Lemma map_nth_seq (g : list R) : g = map (fun i => nth i g 0%R) (seq 0 (length g)).
Proof. pose proof (take_drop_nth g 0 (length g) ltac:(lia)) as E. rewrite drop_0, take_ge in E by lia. exact E. Qed.

Lemma deriv_fold d s u ts : forall f, in_vector s u ts -> Forall (fun t => length (tm_grad t) = d) ts ->
  ofold (E := unit) (fun acc '(g, j) => let! uj := node_rows s u j in
      Ok (zip_with (fun row gi => zip_with Rplus row (map (fun x => (gi * x)%R) uj)) acc g))
    (rows d s f) (zip (map tm_grad ts) (map tm_node ts)) = Ok (rows d s (fun i c => f i c + deriv_at s u i c ts)%R).
Proof.
  induction ts as [|t ts IH]; intros f H Hd; cbn [map zip zip_with ofold].
  - unfold rows. f_equal. apply map_ext. intros i. apply map_ext. intros c. unfold deriv_at. cbn. lra.
  - apply Forall_cons in H as [Ht H]. apply Forall_cons in Hd as [Hg Hd]. rewrite node_rows_ok by done. cbn [obind].
    assert (E : zip_with (fun row gi => zip_with Rplus row (map (fun x => (gi * x)%R) (map (comp s u (tm_node t)) (seq 0 s)))) (rows d s f) (tm_grad t) =
      rows d s (fun i c => f i c + nth i (tm_grad t) 0 * comp s u (tm_node t) c)%R).
    { rewrite (map_nth_seq (tm_grad t)) at 1. rewrite Hg. unfold rows. generalize (seq 0 d) as l. induction l as [|i l IHl]; cbn [map zip_with]; [done|].
      f_equal; [|done]. rewrite map_map, zip_with_map. done. }
    rewrite E, IH by done. f_equal. unfold rows. apply map_ext. intros i. apply map_ext. intros c. unfold deriv_at, rsum. cbn [foldr]. lra.
Qed.

(** * slices of the compressed arrays *)
Lemma concat_split {A} (ls : list (list A)) i l : ls !! i = Some l ->
  concat ls = concat (take i ls) ++ l ++ concat (drop (S i) ls) /\ length (concat (take (S i) ls)) = length (concat (take i ls)) + length l.
Proof.
  intros H. split.
  - pose proof (f_equal (@concat A) (take_drop_middle _ _ _ H)) as E. rewrite <- E. by rewrite concat_app.
  - rewrite (take_S_r _ _ _ H), concat_app, app_length. cbn. rewrite app_nil_r. done.
Qed.
Lemma slice_mid {A} (a b c : list A) n m : n = length a -> m = length a + length b -> slice (a ++ b ++ c) n m = Ok b.
Proof.
  intros -> ->. unfold slice. rewrite decide_True by (rewrite !app_length; lia). rewrite drop_app.
  replace (length a + length b - length a) with (length b) by lia. by rewrite take_app.
Qed.

Lemma starts_lookup pts i : i <= length pts -> starts pts !! i = Some (length (concat (take i pts))).
Proof. intros H. unfold starts. rewrite list_lookup_fmap, lookup_seq_lt by lia. done. Qed.
Lemma starts_length pts : length (starts pts) = length pts + 1.
Proof. unfold starts. by rewrite map_length, seq_length. Qed.

Lemma slice_mapped {B} (f : term -> B) pts i ts : pts !! i = Some ts ->
  slice (map f (concat pts)) (length (concat (take i pts))) (length (concat (take (S i) pts))) = Ok (map f ts).
Proof.
  intros H. destruct (concat_split _ _ _ H) as [E1 E2]. rewrite E1, E2, !map_app. apply slice_mid; rewrite !map_length; done.
Qed.

Lemma concat_grad_length d ts : Forall (fun t => length (tm_grad t) = d) ts -> length (concat (map tm_grad ts)) = d * length ts.
Proof. induction 1 as [|t ts Ht H IH]; cbn; [lia|]. rewrite app_length, IH, Ht. lia. Qed.

Lemma slice_gradients d pts i ts : pts !! i = Some ts -> Forall (fun t => length (tm_grad t) = d) (concat pts) ->
  slice (flat_gradients pts) (d * length (concat (take i pts))) (d * length (concat (take (S i) pts))) = Ok (concat (map tm_grad ts)).
Proof.
  intros H Hd. destruct (concat_split _ _ _ H) as [E1 E2]. unfold flat_gradients. rewrite E1 in Hd |- *. rewrite E2, !map_app, !concat_app.
  apply Forall_app in Hd as [H1 Hd]. apply Forall_app in Hd as [H2 _].
  apply slice_mid; rewrite !(concat_grad_length d) by done; lia.
Qed.

Lemma columns_concat d ts : Forall (fun t => length (tm_grad t) = d) ts ->
  map (column d (concat (map tm_grad ts))) (seq 0 (length ts)) = map tm_grad ts.
Proof.
  intros H. apply list_eq. intros k. rewrite !list_lookup_fmap. destruct (ts !! k) as [t|] eqn:Ek.
  - rewrite lookup_seq_lt by (by apply lookup_lt_Some in Ek). cbn. f_equal. unfold column.
    rewrite <- (take_drop_middle _ _ _ Ek) in H |- *. apply Forall_app in H as [H1 H2]. apply Forall_cons in H2 as [H2 _].
    rewrite map_app, concat_app. cbn [map concat]. pose proof (lookup_lt_Some _ _ _ Ek).
    replace (d * k) with (length (concat (map tm_grad (take k ts)))) by (rewrite (concat_grad_length d) by done; rewrite take_length; lia).
    rewrite drop_app, <- H2, take_app. done.
  - rewrite lookup_ge_None_2; [done|]. rewrite seq_length. by apply lookup_ge_None.
Qed.

Lemma compressed_ok d (wv wg : bool) pts : Forall (fun t => length (tm_grad t) = d) (concat pts) ->
  exists it, from_compressed (if wv then Some (flat_values pts) else None) (if wg then Some (flat_gradients pts) else None)
      (flat_nodes pts) (starts pts) = Ok it /\
    in_values it = (if wv then Some (flat_values pts) else None) /\ in_gradients it = (if wg then Some (flat_gradients pts) else None) /\
    in_indices it = flat_nodes pts /\ in_offsets it = starts pts /\
    (forall m, in_max it = Some m -> exists t, t ∈ concat pts /\ tm_node t = m /\ Forall (fun t => tm_node t <= m) (concat pts)) /\
    (in_max it = None -> concat pts = []).
Proof.
  intros Hd. unfold from_compressed.
  rewrite decide_True.
  2:{ apply Forall_lookup. intros i x Hx. assert (Hi : i < length pts + 1) by (apply lookup_lt_Some in Hx; by rewrite starts_length in Hx).
      rewrite starts_lookup in Hx by lia. injection Hx as <-. unfold flat_nodes. rewrite map_length.
      pose proof (f_equal length (f_equal (@concat term) (take_drop i pts))) as E. rewrite concat_app, app_length in E. lia. }
  assert (E1 : (match (if wv then Some (flat_values pts) else None) with
    | Some v => if decide (length v = length (flat_nodes pts)) then Ok tt else Panic | None => Ok tt end) = Ok (E := unit) tt).
  { destruct wv; [|done]. rewrite decide_True; [done|]. unfold flat_values, flat_nodes. by rewrite !map_length. }
  rewrite E1. cbn [obind].
  assert (E2 : (match (if wg then Some (flat_gradients pts) else None) with
    | Some g => if decide (length (flat_nodes pts) ≠ 0) then if decide (length g mod length (flat_nodes pts) = 0) then Ok tt else Panic
                else if decide (length g ≠ 0) then Panic else Ok tt | None => Ok tt end) = Ok (E := unit) tt).
  { destruct wg; [|done]. unfold flat_gradients, flat_nodes. rewrite (concat_grad_length d) by done. rewrite map_length. case_decide.
    - rewrite decide_True; [done|]. rewrite Nat.mod_mul; done.
    - rewrite decide_False; [done|]. lia. }
  rewrite E2. cbn [obind]. eexists. split; [reflexivity|]. cbn. split_and!; try done.
  - unfold flat_nodes. destruct (concat pts) as [|t ts] eqn:Ec; cbn [map]; [done|]. intros m [= <-].
    assert (Hmax : forall l, Forall (fun j => j <= foldr Nat.max 0 l) l /\ (l ≠ [] -> foldr Nat.max 0 l ∈ l)).
    { induction l as [|j l [IH1 IH2]]; [done|]. split.
      - constructor; cbn; [lia|]. apply (Forall_impl _ _ _ IH1). intros; lia.
      - intros _. cbn. destruct (Nat.max_spec j (foldr Nat.max 0 l)) as [[Hlt ->]|[_ ->]]; [|by left]. right. apply IH2. intros ->. cbn in Hlt. lia. }
    destruct (Hmax (map tm_node (t :: ts))) as [M1 M2]. specialize (M2 ltac:(done)). apply elem_of_list_fmap in M2 as (x & Hx & Hin).
    exists x. split; [done|]. split; [done|]. by apply Forall_fmap in M1.
  - unfold flat_nodes. destruct (concat pts); done.
Qed.

Section Interpolate.
  Context (d : nat) (pts : list (list term)) (it : interpolator) (s : nat) (u : list R).
  Context (Hi : in_indices it = flat_nodes pts) (Ho : in_offsets it = starts pts) (Hs : 0 < s).
  Context (Hm : forall m, in_max it = Some m -> exists t, t ∈ concat pts /\ tm_node t = m /\ Forall (fun t => tm_node t <= m) (concat pts)).

  Lemma check_ok : in_vector s u (concat pts) -> check_sizes it s (length pts) u = Ok tt.
  Proof using Hs Ho Hm.
    intros Hu. unfold check_sizes. rewrite Ho, starts_length. rewrite decide_True by done. destruct (in_max it) as [m|]; [|done].
    destruct (Hm m eq_refl) as (t & Ht & <- & _). rewrite decide_True; [done|]. unfold in_vector in Hu. rewrite Forall_forall in Hu. specialize (Hu t Ht). lia.
  Qed.

  Lemma interpolate_values : in_values it = Some (flat_values pts) -> in_vector s u (concat pts) ->
    interpolate it s u = Ok (map (fun ts => map (fun c => value_at s u c ts) (seq 0 s)) pts).
  Proof using Hi Hs Ho Hm.
    intros Hv Hu. unfold interpolate. rewrite Ho, starts_length. rewrite Nat.add_1_r. unfold interpolate_into. rewrite check_ok by done. cbn [obind]. rewrite Hv.
    rewrite (ofold_collect _ (fun i => map (fun c => value_at s u c (default [] (pts !! i))) (seq 0 s))).
    - cbn [app]. f_equal. apply list_eq. intros i. rewrite !list_lookup_fmap. destruct (pts !! i) as [ts|] eqn:Ei.
      + rewrite lookup_seq_lt by (by apply lookup_lt_Some in Ei). cbn. by rewrite Ei.
      + rewrite lookup_ge_None_2; [done|]. rewrite seq_length. by apply lookup_ge_None.
    - intros acc i Hin. apply elem_of_seq in Hin. destruct (lookup_lt_is_Some_2 pts i) as [ts Hts]; [lia|]. unfold at_offset. rewrite Ho.
      rewrite !starts_lookup by lia. cbn [obind]. rewrite Nat.add_1_r. unfold flat_values. rewrite (slice_mapped _ _ _ _ Hts). cbn [obind].
      rewrite Hi. unfold flat_nodes. rewrite (slice_mapped _ _ _ _ Hts). cbn [obind]. rewrite (repeat_map 0%R s 0). rewrite value_fold.
      + cbn [obind]. rewrite Hts. cbn. f_equal. f_equal. f_equal. apply map_ext. intros c. apply Rplus_0_l.
      + destruct (concat_split _ _ _ Hts) as [E _]. unfold in_vector in *. rewrite E in Hu. apply Forall_app in Hu as [_ Hu]. by apply Forall_app in Hu as [Hu _].
  Qed.

  Lemma interpolate_derivs : in_gradients it = Some (flat_gradients pts) -> Forall (fun t => length (tm_grad t) = d) (concat pts) ->
    in_vector s u (concat pts) ->
    interpolate_gradients it d s u = Ok (map (fun ts => map (fun i => map (fun c => deriv_at s u i c ts) (seq 0 s)) (seq 0 d)) pts).
  Proof using Hi Hs Ho Hm.
    intros Hg Hd Hu. unfold interpolate_gradients. rewrite Ho, starts_length. rewrite Nat.add_1_r. unfold interpolate_gradients_into.
    rewrite check_ok by done. cbn [obind]. rewrite Hg.
    rewrite (ofold_collect _ (fun i => rows d s (fun k c => deriv_at s u k c (default [] (pts !! i))))).
    - cbn [app]. f_equal. apply list_eq. intros i. rewrite !list_lookup_fmap. destruct (pts !! i) as [ts|] eqn:Ei.
      + rewrite lookup_seq_lt by (by apply lookup_lt_Some in Ei). cbn. by rewrite Ei.
      + rewrite lookup_ge_None_2; [done|]. rewrite seq_length. by apply lookup_ge_None.
    - intros acc i Hin. apply elem_of_seq in Hin. destruct (lookup_lt_is_Some_2 pts i) as [ts Hts]; [lia|]. unfold at_offset. rewrite Ho.
      rewrite !starts_lookup by lia. cbn [obind]. rewrite Nat.add_1_r. rewrite (slice_gradients _ _ _ _ Hts Hd). cbn [obind].
      rewrite Hi. unfold flat_nodes. rewrite (slice_mapped _ _ _ _ Hts). cbn [obind].
      destruct (concat_split _ _ _ Hts) as [E E2]. rewrite E2. replace (length (concat (take i pts)) + length ts - length (concat (take i pts))) with (length ts) by lia.
      assert (Hd' : Forall (fun t => length (tm_grad t) = d) ts) by (rewrite E in Hd; apply Forall_app in Hd as [_ Hd]; by apply Forall_app in Hd as [Hd _]).
      rewrite columns_concat by done. replace (repeat (repeat 0%R s) d) with (rows d s (fun _ _ => 0%R)).
      2:{ unfold rows. rewrite (repeat_map (repeat 0%R s) d 0). apply map_ext. intros _. by rewrite (repeat_map 0%R s 0). }
      rewrite deriv_fold; [|unfold in_vector in *; rewrite E in Hu; apply Forall_app in Hu as [_ Hu]; by apply Forall_app in Hu as [Hu _]|done].
      cbn [obind]. rewrite Hts. cbn. f_equal. f_equal. f_equal. unfold rows. apply map_ext. intros k. apply map_ext. intros c. apply Rplus_0_l.
  Qed.
End Interpolate.

(** C35: for every compressed layout and every vector that has all components of all nodes, interpolation succeeds, and
    gives at each point the sum of weights times nodal values, and the matrix of sums of gradients times nodal values. *)
Theorem C35_interpolate : forall d s pts u, 0 < s -> Forall (fun t => length (tm_grad t) = d) (concat pts) ->
  Forall (fun t => s * (tm_node t + 1) <= length u) (concat pts) ->
  exists it, from_compressed (Some (flat_values pts)) (Some (flat_gradients pts)) (flat_nodes pts) (starts pts) = Ok it /\
    interpolate it s u = Ok (map (fun ts => map (fun c => value_at s u c ts) (seq 0 s)) pts) /\
    interpolate_gradients it d s u = Ok (map (fun ts => map (fun i => map (fun c => deriv_at s u i c ts) (seq 0 s)) (seq 0 d)) pts).
Proof.
  intros d s pts u Hs Hd Hu. destruct (compressed_ok d true true pts Hd) as (it & E & Ev & Eg & Ei & Eo & Em & _). exists it. split; [done|].
  assert (Hu' : in_vector s u (concat pts)) by (apply (Forall_impl _ _ _ Hu); intros; lia).
  split; [by eapply interpolate_values|by eapply interpolate_derivs].
Qed.
Print Assumptions C35_interpolate.

(** C35: if the vector is too short for some node, interpolation panics; it never reads another node's values. *)
Theorem C35_short_vector : forall d s pts u it, 0 < s -> Forall (fun t => length (tm_grad t) = d) (concat pts) ->
  from_compressed (Some (flat_values pts)) None (flat_nodes pts) (starts pts) = Ok it ->
  Exists (fun t => length u < s * (tm_node t + 1)) (concat pts) -> interpolate it s u = Panic.
Proof.
  intros d s pts u it Hs Hd E Hex. destruct (compressed_ok d true false pts Hd) as (it' & E' & Ev & _ & Ei & Eo & Em & _).
  rewrite E in E'. injection E' as <-. unfold interpolate. rewrite Eo, starts_length, Nat.add_1_r. unfold interpolate_into.
  unfold check_sizes. rewrite Eo, starts_length, decide_True by done.
  destruct (match in_max it with None => Ok tt | Some m => if decide (s * m < length u) then Ok tt else Panic end) as [[]|[]|] eqn:Ec; [|destruct (in_max it); [case_decide|]; done|done].
  cbn [obind]. rewrite Ev. clear Ec Em E. match goal with |- ofold ?F _ _ = _ => set (step := F) end.
  assert (Hstep : forall acc i ts, pts !! i = Some ts ->
    (Exists (fun t => length u < s * (tm_node t + 1)) ts -> step acc i = Panic) /\
    (~ Exists (fun t => length u < s * (tm_node t + 1)) ts -> exists x, step acc i = Ok (acc ++ [x]))).
  { intros acc i ts Hts. pose proof (lookup_lt_Some _ _ _ Hts). unfold step, at_offset. rewrite Eo, !starts_lookup by lia. cbn [obind]. rewrite Nat.add_1_r.
    unfold flat_values. rewrite (slice_mapped _ _ _ _ Hts). cbn [obind].
    rewrite Ei. unfold flat_nodes. rewrite (slice_mapped _ _ _ _ Hts). cbn [obind]. split; intros Hb.
    - rewrite value_fold_panic; [done|]. apply (Exists_impl _ _ _ Hb). intros; lia.
    - rewrite (repeat_map 0%R s 0), value_fold; [cbn [obind]; by eexists|].
      apply not_Exists_Forall in Hb; [|apply _]. apply (Forall_impl _ _ _ Hb). cbn. intros; lia. }
  clearbody step.
  assert (H : forall n i, i + n = length pts -> Exists (fun t => length u < s * (tm_node t + 1)) (concat (drop i pts)) -> forall acc, ofold step acc (seq i n) = Panic).
  { induction n as [|n IH]; intros i Hin Hx acc; [rewrite drop_ge in Hx by lia; by apply Exists_nil in Hx|].
    destruct (lookup_lt_is_Some_2 pts i) as [ts Hts]; [lia|]. rewrite (drop_S _ _ _ Hts) in Hx. cbn [concat] in Hx. cbn [seq ofold].
    destruct (Hstep acc i ts Hts) as [H1 H2]. destruct (decide (Exists (fun t => length u < s * (tm_node t + 1)) ts)) as [Hb|Hb]; [by rewrite (H1 Hb)|].
    destruct (H2 Hb) as [x ->]. apply Exists_app in Hx as [Hx|Hx]; [done|]. apply IH; [lia|done]. }
  apply (H (length pts) 0); done.
Qed.
Print Assumptions C35_short_vector.

(** * from a space *)
Section SpaceProofs.
  Context {P X : Type} (sp : space P X) (d : nat).

  Lemma foldl_plus (l : list R) : forall x, foldl Rplus x l = (x + rsum id l)%R.
  Proof. induction l as [|y l IH]; intros x; cbn; [lra|]. rewrite IH. unfold rsum. cbn. unfold id. lra. Qed.
  Lemma sum_to_rsum n f : sum_to n f = rsum f (seq 0 n).
  Proof. unfold sum_to. rewrite foldl_plus. rewrite Rplus_0_l. unfold rsum. induction (seq 0 n); cbn; [done|]. rewrite IHl. done. Qed.

  Lemma imap_seq {A B} (f : nat -> A -> B) (l : list A) (g : nat -> B) : (forall i x, l !! i = Some x -> f i x = g i) -> imap f l = map g (seq 0 (length l)).
  Proof.
    intros H. apply list_eq. intros i. rewrite list_lookup_imap, list_lookup_fmap. destruct (l !! i) as [x|] eqn:E.
    - rewrite lookup_seq_lt by (by apply lookup_lt_Some in E). cbn. by rewrite (H _ _ E).
    - rewrite lookup_ge_None_2; [done|]. rewrite seq_length. by apply lookup_ge_None.
  Qed.

  Lemma terms_nodes jit e xi : map tm_node (element_terms sp d jit e xi) = sp_nodes sp e.
  Proof. unfold element_terms. generalize (fun (a : nat) => sp_basis sp e xi a). intros _. apply list_eq. intros i. rewrite list_lookup_fmap, list_lookup_imap. by destruct (sp_nodes sp e !! i). Qed.
  Lemma terms_values jit e xi : map tm_value (element_terms sp d jit e xi) = map (sp_basis sp e xi) (seq 0 (length (sp_nodes sp e))).
  Proof. unfold element_terms. etrans; [exact (fmap_imap _ _ _)|]. apply imap_seq. done. Qed.
  Lemma terms_grads jit e xi : map tm_grad (element_terms sp d jit e xi) =
    map (fun a => map (fun i => sum_to d (fun j => jit i j * sp_ref_grad sp e xi a j)%R) (seq 0 d)) (seq 0 (length (sp_nodes sp e))).
  Proof. unfold element_terms. etrans; [exact (fmap_imap _ _ _)|]. apply imap_seq. intros a j _. cbn. apply map_ext. intros i. by rewrite sum_to_rsum. Qed.
  Lemma terms_length jit e xi : length (element_terms sp d jit e xi) = length (sp_nodes sp e).
  Proof. unfold element_terms. by rewrite imap_length. Qed.
  Lemma terms_grad_length jit e xi : Forall (fun t => length (tm_grad t) = d) (element_terms sp d jit e xi).
  Proof.
    unfold element_terms. apply Forall_lookup. intros i t. rewrite list_lookup_imap. destruct (sp_nodes sp e !! i); [|done]. cbn. intros [= <-]. cbn. by rewrite map_length, seq_length.
  Qed.

  (** the terms of a point: what the closest element gives *)
  Definition point_terms (p : P) (ts : list term) : Prop :=
    exists e xi jit, sp_find sp p = Some (e, xi) /\ sp_jinv_t sp e xi = Some jit /\ ts = element_terms sp d jit e xi.

  Definition state_of (wv wg : bool) (pts : list (list term)) : option (list R) * option (list R) * list nat :=
    (if wv then Some (flat_values pts) else None, if wg then Some (flat_gradients pts) else None, flat_nodes pts).

  Lemma add_points_spec wv wg points pts : Forall2 point_terms points pts -> forall pre,
    add_points sp d (map (fun i => length (concat (take i pre))) (seq 0 (length pre))) (state_of wv wg pre) (map (sp_find sp) points) =
    Ok (map (fun i => length (concat (take i (pre ++ pts)))) (seq 0 (length (pre ++ pts))), state_of wv wg (pre ++ pts)).
  Proof using.
    induction 1 as [|p ts points pts (e & xi & jit & Ef & Ej & Et) HF IH]; intros pre; cbn [map add_points]; [by rewrite app_nil_r|].
    rewrite Ef. unfold add_point. cbn [state_of].
    assert (E : (let! gradients := (match (if wg then Some (flat_gradients pre) else None) with
                      | Some g =>
                          match sp_jinv_t sp e xi with
                          | None => Panic
                          | Some jit =>
                              Ok (Some (g ++ concat (map (fun a => map (fun i => sum_to d (fun j => jit i j * sp_ref_grad sp e xi a j)%R) (seq 0 d))
                                (seq 0 (length (sp_nodes sp e))))))
                          end
                      | None => Ok None
                      end) in
       Ok (E := unit) (match (if wv then Some (flat_values pre) else None) with
                  | Some v => Some (v ++ map (sp_basis sp e xi) (seq 0 (length (sp_nodes sp e))))
                  | None => None
                  end, gradients, flat_nodes pre ++ sp_nodes sp e)) = Ok (state_of wv wg (pre ++ [ts]))).
    { rewrite Ej. unfold state_of, flat_values, flat_gradients, flat_nodes. rewrite !concat_app. cbn [concat]. rewrite app_nil_r, !map_app, concat_app, Et, terms_nodes, terms_values, terms_grads.
      by destruct wv, wg. }
    rewrite E. cbn [obind].
    replace (map (fun i => length (concat (take i pre))) (seq 0 (length pre)) ++ [length (state_of wv wg pre).2])
      with (map (fun i => length (concat (take i (pre ++ [ts])))) (seq 0 (length (pre ++ [ts])))).
    2:{ rewrite app_length. cbn [length]. rewrite Nat.add_1_r, seq_S, map_app. cbn [map]. f_equal.
        - apply map_ext_in. intros i Hi. apply in_seq in Hi. by rewrite take_app_le by lia.
        - cbn. rewrite take_app. unfold flat_nodes. by rewrite map_length. }
    rewrite IH, <- app_assoc. done.
  Qed.

  Lemma from_space_compressed wv wg points pts : Forall2 point_terms points pts ->
    from_space sp d points wv wg = from_compressed (if wv then Some (flat_values pts) else None) (if wg then Some (flat_gradients pts) else None)
      (flat_nodes pts) (starts pts).
  Proof using.
    intros HF. unfold from_space. pose proof (add_points_spec wv wg points pts HF []) as E. cbn [map seq length app] in E.
    replace (state_of wv wg []) with (if wv then Some ([] : list R) else None, if wg then Some ([] : list R) else None, [] : list nat) in E by (by destruct wv, wg).
    rewrite E. cbn [obind state_of]. rewrite app_length, map_length, seq_length. rewrite (Forall2_length _ _ _ HF). rewrite decide_True by done.
    f_equal. unfold starts. rewrite Nat.add_1_r, seq_S, map_app. cbn [map]. f_equal. f_equal. cbn. rewrite take_ge by lia. unfold flat_nodes. by rewrite map_length.
  Qed.
End SpaceProofs.

(** C35: if every point has a closest element (with a regular Jacobian), the interpolator built from a space evaluates at each
    point the finite element function and its physical gradient in that element. *)
Theorem C35_from_space : forall P X (sp : space P X) d s points pts u, 0 < s -> Forall2 (point_terms sp d) points pts ->
  Forall (fun t => s * (tm_node t + 1) <= length u) (concat pts) ->
  exists it, from_space sp d points true true = Ok it /\
    interpolate it s u = Ok (map (fun ts => map (fun c => value_at s u c ts) (seq 0 s)) pts) /\
    interpolate_gradients it d s u = Ok (map (fun ts => map (fun i => map (fun c => deriv_at s u i c ts) (seq 0 s)) (seq 0 d)) pts).
Proof.
  intros P X sp d s points pts u Hs HF Hu. rewrite (from_space_compressed sp d true true _ _ HF). apply C35_interpolate; try done.
  clear Hu. induction HF as [|p ts points pts (e & xi & jit & _ & _ & ->) HF IH]; cbn [concat]; [constructor|]. apply Forall_app. split; [apply terms_grad_length|done].
Qed.
Print Assumptions C35_from_space.

(** C35: if no point has an element, the documentation promises [None]; what happens is a panic as soon as there are two
    points, and with a single point an interpolator that evaluates to zero. *)
Theorem C35_no_elements_refuted : forall P X (sp : space P X) d p q ps wv wg, (forall p, sp_find sp p = None) ->
  from_space sp d (p :: q :: ps) wv wg = Panic /\
  exists it, from_space sp d [p] true wg = Ok it /\ forall s u, interpolate it s u = Ok [repeat 0%R s].
Proof.
  intros P X sp d p q ps wv wg Hnone. split.
  - unfold from_space. cbn [map]. rewrite Hnone. cbn [add_points]. destruct wv, wg; cbn; rewrite decide_False; (done || lia).
  - unfold from_space. cbn [map]. rewrite Hnone. cbn [add_points].
    assert (E : exists it, from_compressed (Some []) (if wg then Some [] else None) [] [0; 0] = Ok it /\ in_max it = None /\ in_values it = Some [] /\ in_indices it = [] /\ in_offsets it = [0; 0]).
    { destruct wg; unfold from_compressed; rewrite decide_True by (repeat constructor); cbn; by eexists. }
    destruct E as (it & E & Em & Ev & Ei & Eo). exists it. split; [destruct wg; exact E|]. intros s u. unfold interpolate. rewrite Eo. cbn [length]. unfold interpolate_into, check_sizes.
    rewrite Eo, Em, Ev. cbn. unfold at_offset. rewrite Eo, Ei. cbn. done.
Qed.
Print Assumptions C35_no_elements_refuted.

(** Two segments [0, 1] and [1, 2] with linear basis functions; the nodal values 10, 20, 40 at the points 1/2 and 5/4. *)
Definition segments : space R R := Space
  (fun x => if Rle_dec x 1 then Some (0%nat, x) else Some (1%nat, x - 1)%R)
  (fun e => [e; S e]) (fun _ xi a => if decide (a = 0) then (1 - xi)%R else xi)
  (fun _ _ a _ => if decide (a = 0) then (-1)%R else 1%R) (fun _ _ => Some (fun _ _ => 1%R)).
Example C35_example : exists it, from_space segments 1 [1 / 2; 5 / 4]%R true true = Ok it /\
  interpolate it 1 [10; 20; 40]%R = Ok [[15]; [25]]%R /\ interpolate_gradients it 1 1 [10; 20; 40]%R = Ok [[[10]]; [[20]]]%R.
Proof.
  assert (HF : Forall2 (point_terms segments 1) [1 / 2; 5 / 4]%R
    [element_terms segments 1 (fun _ _ => 1%R) 0 (1 / 2)%R; element_terms segments 1 (fun _ _ => 1%R) 1 (1 / 4)%R]).
  { repeat constructor.
    - exists 0, (1 / 2)%R, (fun _ _ => 1%R). cbn. destruct (Rle_dec (1 / 2) 1); [done|lra].
    - exists 1, (1 / 4)%R, (fun _ _ => 1%R). cbn. destruct (Rle_dec (5 / 4) 1); [lra|]. split_and!; try done. f_equal. f_equal. lra. }
  destruct (C35_from_space _ _ segments 1 1 _ _ [10; 20; 40]%R ltac:(lia) HF) as (it & E & E1 & E2); [repeat constructor|]. exists it. split; [done|]. rewrite E1, E2.
  unfold element_terms, value_at, deriv_at, comp, rsum. cbn. repeat first [rewrite decide_True by lia|rewrite decide_False by lia]. unfold Datatypes.id. cbn. split; repeat f_equal; lra.
Qed.

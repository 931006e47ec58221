(** Parallel vector assembly agrees with serial assembly; scalar assembly. *)
From stdpp Require Import base list list_numbers sorting relations.
From Coq Require Import Lia ZArith.
From Verif Require Import Prelude NestedVecModel NestedVecSpec NestedVecProofs ParadisModel ParadisSpec
  ParadisProofs ColoringProofs ParadisSafety VectorModel VectorSpec VectorProofs VectorParProofs VectorColors.

Set Default Proof Using "Type".

Lemma collect_nodes_holds c ls : has_conn c ls -> holds (collect_nodes c) ls.
Proof.
  intros [Hl Hc].
  assert (collect_nodes c = nv_of_lists ls) as ->.
  { unfold collect_nodes, nv_of_lists. rewrite <- Hl.
    assert (forall m k nested buf, k + m = length ls ->
      (foldl (fun '(nested, buf) i => let buf := ca_populate c i (vec_resize buf (ca_count c i) 0) in (nv_push nested buf, buf))
        (nested, buf) (seq k m)).1 = foldl nv_push nested (drop k ls)) as H.
    { induction m as [|m IH]; intros k nested buf Hk; simpl.
      - by rewrite drop_ge by lia.
      - destruct (lookup_lt_is_Some_2 ls k) as [ns Hns]; [lia|]. destruct (Hc k ns Hns) as [H1 H2].
        rewrite H1, H2 by apply vec_resize_length. rewrite IH by lia. by rewrite (drop_S ls ns k Hns). }
    rewrite (H (length ls) 0) by lia. by rewrite drop_0. }
  pose proof (rep_canon ls) as Hrep. rewrite <- canon_of_lists in Hrep.
  destruct (rep_shows _ _ Hrep) as (H1 & H2 & _). split_and!; [done|done|]. by apply rep_iter.
Qed.

Lemma concat_perm {A} (l1 l2 : list (list A)) : l1 ≡ₚ l2 -> concat l1 ≡ₚ concat l2.
Proof.
  induction 1 as [|x l1 l2 _ IH|x y l|l1 l2 l3 _ IH1 _ IH2]; simpl; [done|by rewrite IH| |by rewrite IH1].
  rewrite !app_assoc. by rewrite (Permutation_app_comm y x).
Qed.

Section agree.
Context {T E : Type} (add : T -> T -> T) (zero : T) (umax : nat).

Lemma foldl_add_perm (x : T) l1 l2 : (forall a b c, add a (add b c) = add (add a b) c) -> (forall a b, add a b = add b a) ->
  l1 ≡ₚ l2 -> foldl add x l1 = foldl add x l2.
Proof.
  intros Ha Hc Hp. revert x. induction Hp as [|y l1 l2 _ IH|y z l|l1 l2 l3 _ IH1 _ IH2]; intros x; simpl.
  - done.
  - apply IH.
  - f_equal. by rewrite <- !Ha, (Hc z y).
  - by rewrite IH1.
Qed.

Lemma contribs_perm s ls subs labels (f : nat -> list T) good d :
  Forall2 (fun i t => ls !! i = Some t) labels subs ->
  labels ≡ₚ seq 0 (length ls) -> length good = length ls ->
  (forall i v, good !! i = Some v -> f i = v) ->
  contribs s subs (map f labels) d ≡ₚ contribs s ls good d.
Proof.
  intros Hf Hp Hl Hg. unfold contribs. set (g := fun (ns : list nat) (v : list T) => elem_contrib s ns v d).
  assert (zip_with g subs (map f labels) = map (fun i => g (default [] (ls !! i)) (f i)) labels) as ->.
  { clear -Hf. induction Hf as [|i t labels subs Hi Hf IH]; simpl; [done|]. by rewrite Hi, IH. }
  assert (zip_with g ls good = map (fun i => g (default [] (ls !! i)) (f i)) (seq 0 (length ls))) as ->.
  { apply list_eq. intros i. rewrite lookup_zip_with, list_lookup_fmap.
    destruct (decide (i < length ls)) as [Hi|Hi].
    - rewrite lookup_seq_lt by done. simpl. destruct (lookup_lt_is_Some_2 ls i Hi) as [t Ht].
      destruct (lookup_lt_is_Some_2 good i) as [v Hv]; [lia|]. rewrite Ht, Hv. simpl. by rewrite (Hg i v Hv).
    - rewrite (lookup_ge_None_2 ls) by lia. simpl. by rewrite (lookup_seq_ge 0 (length ls)) by lia. }
  apply concat_perm. by rewrite Hp.
Qed.

Lemma coloring_safe ord debug v ls colors : hash_order ord -> holds v ls -> (Z.of_nat (length ls) <= i32_max)%Z ->
  sequential_greedy_coloring ord debug v = Some (Ok colors) ->
  exists lss, Forall2 safe_value colors lss /\
    Forall2 (fun i t => ls !! i = Some t) (concat (map ds_labels colors)) (concat lss) /\
    concat (map ds_labels colors) ≡ₚ seq 0 (length ls) /\ Forall (fun sub => sub <> []) lss.
Proof.
  intros Hord Hh Hb Hrun. destruct (coloring_valid ord debug v ls Hord Hh Hb) as (colors' & Hrun' & Hp & Hv & _).
  assert (colors' = colors) as -> by congruence.
  assert (forall cs, (forall c, c ∈ cs -> c ∈ colors) -> exists lss, Forall2 safe_value cs lss /\
    Forall2 (fun i t => ls !! i = Some t) (concat (map ds_labels cs)) (concat lss) /\ Forall (fun sub => sub <> []) lss) as H.
  { induction cs as [|c cs IH]; intros Hin; [exists []; by repeat constructor|].
    destruct IH as (lss & H1 & H2 & H3); [intros c' Hc'; apply Hin; by right|].
    rewrite Forall_forall in Hv. destruct (Hv c) as (sub & Hf & Hit & _ & Hne & _); [apply Hin; by left|].
    exists (sub :: lss). split_and!.
    - constructor; [|done]. eapply (from_coloring ord debug v ls colors c sub); try done. apply Hin. by left.
    - simpl. by apply Forall2_app.
    - constructor; [|done]. intros ->. inversion Hf. done. }
  destruct (H colors) as (lss & H1 & H2 & H3); [done|]. by exists lss.
Qed.

Lemma par_vec_permutes (a : @vec_asm T E) ls vs ord debug colors ws out out' r :
  hash_order ord -> has_conn (va_conn a) ls -> nodes_in_range (ca_nodes (va_conn a)) ls -> has_vecs a ls vs ->
  0 < ca_sdim (va_conn a) -> (Z.of_nat (length ls) <= i32_max)%Z ->
  (debug = true -> forall ns, ns ∈ ls -> ns <> []) ->
  length out = ca_sdim (va_conn a) * ca_nodes (va_conn a) ->
  color_nodes ord debug (va_conn a) = Some (Ok colors) ->
  par_assemble_vector_into add zero umax a debug colors out out' r ->
  let '(_, out'', r') := assemble_vector_into add zero umax ws out a in
  match r with
  | Ok _ => r' = Ok tt /\ length out' = length out /\ length out'' = length out /\ exists good, vs = map Ok good /\
      forall dof x, out !! dof = Some x -> exists l, l ≡ₚ contribs (ca_sdim (va_conn a)) ls good dof /\
        out'' !! dof = Some (foldl add x (contribs (ca_sdim (va_conn a)) ls good dof)) /\ out' !! dof = Some (foldl add x l)
  | Err e => (exists i, vs !! i = Some (Err e)) /\ r' <> Ok tt
  | Panic => (exists i, vs !! i = Some Panic) /\ r' <> Ok tt
  end.
Proof.
  intros Hord Hconn Hr Hvs Hs Hb Hd Hout Hcol Hrun.
  pose proof (collect_nodes_holds _ ls Hconn) as Hh.
  destruct (coloring_safe ord debug _ ls colors Hord Hh Hb Hcol) as (lss & Hsafe & Hf & Hp & Hne).
  set (vres := fun i => match vs !! i with Some v => v | None => Panic end).
  assert (Forall2 (label_ok a vres) (concat (map ds_labels colors)) (concat lss)) as Hlab.
  { eapply Forall2_impl; [exact Hf|]. intros i t Hi. destruct Hconn as [Hcl Hc'].
    destruct (Hc' i t Hi) as [Hcount _]. split; [done|]. unfold vres.
    destruct (lookup_lt_is_Some_2 vs i) as [v Hv].
    { rewrite (proj1 Hvs). eapply lookup_lt_Some; exact Hi. }
    rewrite Hv. by eapply (proj2 Hvs). }
  assert (forall i, i ∈ concat (map ds_labels colors) <-> i < length ls) as Hin.
  { intros i. rewrite Hp, elem_of_seq. lia. }
  assert (forall i, i < length ls -> vs !! i = Some (vres i)) as Hvres.
  { intros i Hi. unfold vres. destruct (lookup_lt_is_Some_2 vs i) as [v Hv]; [by rewrite (proj1 Hvs)|]. by rewrite Hv. }
  destruct Hrun as [Hbad|out' r _ Hrun]; [done|].
  assert (Hsub : forall t, t ∈ concat lss -> t ∈ ls).
  { intros t Ht. apply elem_of_list_lookup in Ht as [k Hk].
    destruct (Forall2_lookup_r _ _ _ _ _ Hf Hk) as (i & _ & Hi). by eapply elem_of_list_lookup_2. }
  pose proof (colors_run_spec add zero umax a debug vres (ca_nodes (va_conn a)) Hs colors lss Hsafe) as Hspec.
  specialize (Hspec ltac:(
    rewrite Forall_forall; intros sub Hin' Hdb; rewrite Forall_forall in Hne;
    destruct sub as [|t sub]; [by specialize (Hne _ Hin')|];
    exists t; split; [by left|]; apply Hd; [done|]; apply Hsub, concat_elem; exists (t :: sub); split; [done|by left])).
  specialize (Hspec ltac:(intros ns k Hns Hk; by apply (Hr ns k); [apply Hsub|])).
  specialize (Hspec Hlab out out' r Hout Hrun).
  destruct (assemble_vector_into_spec add zero umax a ls vs ws out Hconn Hr Hvs Hout) as (ws' & out'' & r' & good & Hser & Hsum & Hres).
  rewrite Hser. destruct r as [[]|e|].
  - destruct Hspec as (f & Hf1 & Hsum1). rewrite Forall_forall in Hf1.
    assert (forall i, i < length ls -> vs !! i = Some (Ok (f i))) as Hok.
    { intros i Hi. rewrite Hvres by done. f_equal. apply Hf1. by apply Hin. }
    destruct r' as [[]|e|].
    + split; [done|]. 
      assert (length good = length ls) as Hgl.
      { rewrite <- (proj1 Hvs), Hres. by rewrite fmap_length. }
      rewrite take_ge in Hsum by lia.
      destruct Hsum as [L1 S1], Hsum1 as [L2 S2]. split; [done|]. split; [done|]. exists good. split; [done|]. intros d x Ex.
      eexists. split; [|split; [exact (S1 d x Ex)|exact (S2 d x Ex)]].
      apply contribs_perm; [done|done|done|]. intros i v Hv.
      assert (i < length ls) as Hi by (rewrite <- Hgl; by eapply lookup_lt_Some).
      specialize (Hok i Hi). rewrite Hres, list_lookup_fmap, Hv in Hok. simpl in Hok. by simplify_eq.
    + destruct Hres as [rest Hres]. exfalso.
      assert (vs !! (length good) = Some (Err e)) as H.
      { rewrite Hres, lookup_app_r by (by rewrite fmap_length). by rewrite fmap_length, Nat.sub_diag. }
      rewrite Hok in H; [done|]. rewrite <- (proj1 Hvs). by eapply lookup_lt_Some.
    + destruct Hres as [rest Hres]. exfalso.
      assert (vs !! (length good) = Some Panic) as H.
      { rewrite Hres, lookup_app_r by (by rewrite fmap_length). by rewrite fmap_length, Nat.sub_diag. }
      rewrite Hok in H; [done|]. rewrite <- (proj1 Hvs). by eapply lookup_lt_Some.
  - destruct Hspec as (i & Hi & Hv). apply Hin in Hi. split; [exists i; rewrite Hvres by done; by rewrite Hv|].
    intros ->. specialize (Hvres i Hi). rewrite Hres, list_lookup_fmap, Hv in Hvres. destruct (good !! i); done.
  - destruct Hspec as (i & Hi & Hv). apply Hin in Hi. split; [exists i; rewrite Hvres by done; by rewrite Hv|].
    intros ->. specialize (Hvres i Hi). rewrite Hres, list_lookup_fmap, Hv in Hvres. destruct (good !! i); done.
Qed.

Lemma par_vec_agrees (a : @vec_asm T E) ls vs ord debug colors ws out out' r :
  (forall x y z, add x (add y z) = add (add x y) z) -> (forall x y, add x y = add y x) ->
  hash_order ord -> has_conn (va_conn a) ls -> nodes_in_range (ca_nodes (va_conn a)) ls -> has_vecs a ls vs ->
  0 < ca_sdim (va_conn a) -> (Z.of_nat (length ls) <= i32_max)%Z ->
  (debug = true -> forall ns, ns ∈ ls -> ns <> []) ->
  length out = ca_sdim (va_conn a) * ca_nodes (va_conn a) ->
  color_nodes ord debug (va_conn a) = Some (Ok colors) ->
  par_assemble_vector_into add zero umax a debug colors out out' r ->
  let '(_, out'', r') := assemble_vector_into add zero umax ws out a in
  match r with
  | Ok _ => r' = Ok tt /\ out' = out''
  | Err e => (exists i, vs !! i = Some (Err e)) /\ r' <> Ok tt
  | Panic => (exists i, vs !! i = Some Panic) /\ r' <> Ok tt
  end.
Proof.
  intros Ha Hc Hord Hconn Hr Hvs Hs Hb Hd Hout Hcol Hrun.
  pose proof (par_vec_permutes a ls vs ord debug colors ws out out' r Hord Hconn Hr Hvs Hs Hb Hd Hout Hcol Hrun) as H.
  destruct (assemble_vector_into add zero umax ws out a) as [[ws' out''] r']. destruct r as [[]|e|]; [|exact H|exact H].
  destruct H as (-> & L1 & L2 & good & _ & H). split; [done|]. apply list_eq. intros d. destruct (out !! d) as [x|] eqn:Ex.
  - destruct (H d x Ex) as (l & Hl & -> & ->). f_equal. by apply foldl_add_perm.
  - apply lookup_ge_None in Ex. rewrite !lookup_ge_None_2; [done|lia|lia].
Qed.

(** Statement for C10. *)
Lemma par_vec_deterministic (a : @vec_asm T E) debug (vecs : nat -> list T) colors lss out :
  Forall2 safe_value colors lss -> 0 < ca_sdim (va_conn a) ->
  length out = ca_sdim (va_conn a) * ca_nodes (va_conn a) ->
  nodes_in_range (ca_nodes (va_conn a)) (concat lss) ->
  (debug = true -> Forall (fun ls => exists ns, ns ∈ ls /\ ns <> []) lss) ->
  Forall2 (fun i ns => ca_count (va_conn a) i = length ns /\ yields_vec a i (length ns) (Ok (vecs i)))
    (concat (map ds_labels colors)) (concat lss) ->
  exists out', par_assemble_vector_into add zero umax a debug colors out out' (Ok tt) /\
    sums_to add (ca_sdim (va_conn a)) (concat lss) (map vecs (concat (map ds_labels colors))) out out' /\
    forall out'' r, par_assemble_vector_into add zero umax a debug colors out out'' r -> r = Ok tt /\ out'' = out'.
Proof.
  intros Hsafe Hs Hout Hr Hd Hlab.
  assert (Forall (fun ls => debug = true -> exists ns, ns ∈ ls /\ ns <> []) lss) as Hd'.
  { rewrite Forall_forall. intros ls Hls Hdb. specialize (Hd Hdb). rewrite Forall_forall in Hd. by apply Hd. }
  destruct (colors_run_exists add zero umax a debug vecs (ca_nodes (va_conn a)) Hs colors lss Hsafe Hd' Hr Hlab out Hout) as [out' Hrun].
  assert (forall out'' r, colors_run add zero umax a debug colors out out'' r -> r = Ok tt /\
     sums_to add (ca_sdim (va_conn a)) (concat lss) (map vecs (concat (map ds_labels colors))) out out'') as Hall.
  { intros out'' r Hrun'. pose proof (colors_run_spec add zero umax a debug (fun i => Ok (vecs i)) (ca_nodes (va_conn a)) Hs colors lss Hsafe Hd' Hr Hlab out out'' r Hout Hrun') as H.
    destruct r as [[]|e|]; [|by destruct H as (? & _ & ?)|by destruct H as (? & _ & ?)].
    split; [done|]. destruct H as (f & Hf & H).
    assert (map vecs (concat (map ds_labels colors)) = map f (concat (map ds_labels colors))) as ->; [|done].
    apply map_ext_in. intros i Hi. apply elem_of_list_In in Hi. rewrite Forall_forall in Hf.
    specialize (Hf i Hi). by simplify_eq. }
  destruct (Hall out' (Ok tt) Hrun) as [_ Hsum].
  exists out'. split; [by constructor|]. split; [done|].
  intros out'' r [Hbad|out3 r' _ Hrun']; [done|]. destruct (Hall out3 r' Hrun') as [-> Hsum'].
  split; [done|]. by eapply sums_to_unique.
Qed.

(** ** Scalars *)
Lemma scalar_fold (f : nat -> outcome E T) (l : list nat) (x : T) :
  match ofold (fun acc i => let! x := f i in Ok (add acc x)) x l with
  | Ok y => exists vals, map f l = map Ok vals /\ y = foldl add x vals
  | Err e => exists l1 i l2 vals, l = l1 ++ i :: l2 /\ map f l1 = map Ok vals /\ f i = Err e
  | Panic => exists l1 i l2 vals, l = l1 ++ i :: l2 /\ map f l1 = map Ok vals /\ f i = Panic
  end.
Proof.
  revert x. induction l as [|i l IH]; intros x; simpl; [by exists []|].
  destruct (f i) as [v|e|] eqn:Ei; simpl.
  - specialize (IH (add x v)). destruct (ofold _ (add x v) l) as [y|e|].
    + destruct IH as (vals & Hm & ->). exists (v :: vals). by rewrite Hm.
    + destruct IH as (l1 & j & l2 & vals & -> & Hm & Hj). exists (i :: l1), j, l2, (v :: vals).
      split_and!; [done| |done]. simpl. by rewrite Ei, Hm.
    + destruct IH as (l1 & j & l2 & vals & -> & Hm & Hj). exists (i :: l1), j, l2, (v :: vals).
      split_and!; [done| |done]. simpl. by rewrite Ei, Hm.
  - exists [], i, l, []. done.
  - exists [], i, l, []. done.
Qed.

Lemma reduce_spec (f : nat -> outcome E T) from len r :
  (forall x y z, add x (add y z) = add (add x y) z) -> (forall x, add zero x = x) -> (forall x, add x zero = x) ->
  reduce add zero f from len r ->
  match r with
  | Ok y => exists vals, map f (seq from len) = map Ok vals /\ y = foldl add zero vals
  | Err e => exists i, i ∈ seq from len /\ f i = Err e
  | Panic => exists i, i ∈ seq from len /\ f i = Panic
  end.
Proof.
  intros Ha H0 H0' Hred.
  induction Hred as [from len|from l1 l2 x y _ IH1 _ IH2|from l1 l2 r Hr _ IH|from l1 l2 r Hr _ IH].
  - pose proof (scalar_fold f (seq from len) zero) as H.
    destruct (ofold _ zero (seq from len)) as [y|e|].
    + done.
    + destruct H as (l1 & i & l2 & _ & Heq & _ & Hi). exists i. split; [|done]. rewrite Heq. apply elem_of_app. right. by left.
    + destruct H as (l1 & i & l2 & _ & Heq & _ & Hi). exists i. split; [|done]. rewrite Heq. apply elem_of_app. right. by left.
  - destruct IH1 as (v1 & Hm1 & ->). destruct IH2 as (v2 & Hm2 & ->). exists (v1 ++ v2). split.
    + by rewrite seq_app, !map_app, Hm1, Hm2.
    + rewrite foldl_app. generalize (foldl add zero v1) as x. clear -Ha H0 H0'.
      assert (forall x y, foldl add (add x y) v2 = add x (foldl add y v2)) as H.
      { induction v2 as [|z v2 IH]; intros x y; simpl; [done|]. by rewrite <- Ha, IH. }
      intros x. rewrite <- (H0' x) at 2. by rewrite H.
  - rewrite seq_app. destruct r as [x|e|]; [by destruct (Hr x)| |]; destruct IH as (i & Hi & ?); exists i; split; try done; apply elem_of_app; by left.
  - rewrite seq_app. destruct r as [x|e|]; [by destruct (Hr x)| |]; destruct IH as (i & Hi & ?); exists i; split; try done; apply elem_of_app; by right.
Qed.

Lemma map_ok_inj (v1 v2 : list T) : map (@Ok E T) v1 = map Ok v2 -> v1 = v2.
Proof. revert v2. induction v1 as [|x v1 IH]; intros [|y v2] H; simpl in *; simplify_eq; try done. f_equal. by apply IH. Qed.

Lemma scalar_par_agrees (f : nat -> outcome E T) n r :
  (forall x y z, add x (add y z) = add (add x y) z) -> (forall x, add zero x = x) -> (forall x, add x zero = x) ->
  par_assemble_scalar add zero n f r ->
  match r with
  | Ok y => assemble_scalar add zero n f = Ok y
  | Err e => (exists i, i < n /\ f i = Err e) /\ forall y, assemble_scalar add zero n f <> Ok y
  | Panic => (exists i, i < n /\ f i = Panic) /\ forall y, assemble_scalar add zero n f <> Ok y
  end.
Proof.
  intros Ha H0 H0' Hred. pose proof (reduce_spec f 0 n r Ha H0 H0' Hred) as H.
  pose proof (scalar_fold f (seq 0 n) zero) as Hs. unfold assemble_scalar.
  assert (forall i g, i ∈ seq 0 n -> f i = g -> (forall v, g <> Ok v) -> forall y, ofold (fun acc i => let! x := f i in Ok (add acc x)) zero (seq 0 n) <> Ok y) as Hno.
  { intros i g Hi Hg Hne y Hy. rewrite Hy in Hs. destruct Hs as (vals & Hm & _).
    assert (g ∈ map f (seq 0 n)) as Hin by (rewrite <- Hg; by apply elem_of_list_fmap_1).
    rewrite Hm in Hin. apply elem_of_list_fmap in Hin as (v & -> & _). by apply (Hne v). }
  destruct r as [y|e|].
  - destruct H as (vals & Hm & ->). destruct (ofold _ zero (seq 0 n)) as [y'|e|].
    + destruct Hs as (vals' & Hm' & ->). rewrite Hm in Hm'. by apply map_ok_inj in Hm' as ->.
    + destruct Hs as (l1 & i & l2 & _ & Heq & _ & Hi). rewrite Heq, map_app in Hm. simpl in Hm.
      assert (Err e ∈ map (@Ok E T) vals) as Hin by (rewrite <- Hm, <- Hi; apply elem_of_app; right; by left).
      apply elem_of_list_fmap in Hin as (? & ? & _). done.
    + destruct Hs as (l1 & i & l2 & _ & Heq & _ & Hi). rewrite Heq, map_app in Hm. simpl in Hm.
      assert (Panic ∈ map (@Ok E T) vals) as Hin by (rewrite <- Hm, <- Hi; apply elem_of_app; right; by left).
      apply elem_of_list_fmap in Hin as (? & ? & _). done.
  - destruct H as (i & Hi & Hf). split; [exists i; split; [|done]; apply elem_of_seq in Hi; lia|].
    by apply (Hno i (Err e)).
  - destruct H as (i & Hi & Hf). split; [exists i; split; [|done]; apply elem_of_seq in Hi; lia|].
    by apply (Hno i Panic).
Qed.

End agree.

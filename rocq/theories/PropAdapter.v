(** C101: element assembler adapters (transformation of element quantities, relabelling of nodes, several bodies). *)
From stdpp Require Import base list list_numbers sorting.
From Coq Require Import Lia ZArith.
From Verif Require Import Prelude NestedVecModel NestedVecSpec NestedVecProofs ParadisModel ParadisSpec
  ParadisProofs ColoringProofs VectorModel VectorSpec VectorProofs VectorAgree PropVector
  CsrModel CsrSpec CsrProofs CsrSerial CsrPattern CsrAlgebra PropCsr TableModel TableSpec PropTable
  AdapterModel AdapterSpec AdapterProofs AdapterAggregate.

(** C101. The default methods return the element quantity. *)
Theorem C101_element_quantities :
  forall (T E : Type) (zero : T),
    (forall (a : @vec_asm T E) ls vs i v, has_conn (va_conn a) ls -> has_vecs a ls vs -> vs !! i = Some v -> assemble_element_vector zero a i = v) /\
    (forall (a : @mat_asm T E) ls vs i v, has_conn (ma_conn a) ls -> has_mats a ls vs -> vs !! i = Some v -> assemble_element_matrix zero a i = v).
Proof.
  intros T E zero. split; intros a ls vs i v [Hl Hc] [Hlv Hv] Hi; (destruct (lookup_lt_is_Some_2 ls i) as [ns Hns]; [rewrite <- Hlv; by eapply lookup_lt_Some|]);
    destruct (Hc i ns Hns) as [Hcount _]; destruct (Hv i ns v Hns Hi) as [Hy _].
  - unfold assemble_element_vector. rewrite Hcount. apply Hy. apply replicate_length.
  - unfold assemble_element_matrix. rewrite Hcount. apply Hy. split; [apply replicate_length|]. apply Forall_replicate, replicate_length.
Qed.
Print Assumptions C101_element_quantities.

(** First failure among transformed results. *)
Lemma bound_results {E A} (g : A -> outcome E A) (vs : list (outcome E A)) good rest (x : outcome E A) :
  map (fun v => let! y := v in g y) vs = map Ok good ++ rest ->
  Forall2 (fun v w => exists y, v = Ok y /\ g y = Ok w) (take (length good) vs) good /\
  (forall x l, rest = x :: l -> exists v, vs !! length good = Some v /\ (let! y := v in g y) = x) /\
  (rest = [] -> length good = length vs).
Proof.
  revert vs. induction good as [|w good IH]; intros vs H; cbn in H.
  - split; [constructor|]. split.
    + intros x' l ->. destruct vs as [|v vs]; [done|]. cbn in H. injection H as H1 H2. exists v. done.
    + intros ->. by destruct vs.
  - destruct vs as [|v vs]; [done|]. cbn in H. injection H as H1 H2. destruct (IH vs H2) as (I1 & I2 & I3). cbn [length take]. split.
    + constructor; [|done]. destruct v as [y| |]; [|done..]. by exists y.
    + split; [exact I2|]. intros Hr. cbn. by rewrite I3.
Qed.

Lemma bind_failed {E A} (g : A -> outcome E A) (v : outcome E A) :
  (forall e, (let! y := v in g y) = Err e -> v = Err e \/ exists y, v = Ok y /\ g y = Err e) /\
  ((let! y := v in g y) = Panic -> v = Panic \/ exists y, v = Ok y /\ g y = Panic).
Proof. split; [intros e|]; destruct v as [y|e'|]; cbn; intros H; try (by left); try (by right; exists y); simplify_eq; by left. Qed.

(** C101. Assembling a transformed vector assembler adds the transformed element vectors, up to the first element that fails or
    whose transformation fails; that failure is returned. *)
Theorem C101_transform_vector :
  forall (T E : Type) (add : T -> T -> T) (zero : T) (umax : nat) (g : list T -> outcome E (list T))
         (a : @vec_asm T E) (ls : list (list nat)) (vs : list (outcome E (list T))) (ws : vec_ws) (out : list T),
    (forall v w, g v = Ok w -> length w = length v) ->
    has_conn (va_conn a) ls -> nodes_in_range (ca_nodes (va_conn a)) ls -> has_vecs a ls vs ->
    length out = ca_sdim (va_conn a) * ca_nodes (va_conn a) ->
    exists ws' out' r good,
      assemble_vector_into add zero umax ws out (transform_vec g a) = (ws', out', r) /\
      sums_to add (ca_sdim (va_conn a)) (take (length good) ls) good out out' /\
      Forall2 (fun v w => exists x, v = Ok x /\ g x = Ok w) (take (length good) vs) good /\
      match r with
      | Ok _ => length good = length vs
      | Err e => exists v, vs !! length good = Some v /\ (v = Err e \/ exists x, v = Ok x /\ g x = Err e)
      | Panic => exists v, vs !! length good = Some v /\ (v = Panic \/ exists x, v = Ok x /\ g x = Panic)
      end.
Proof.
  intros T E add zero umax g a ls vs ws out Hg Hc Hr Hv Hout.
  destruct (assemble_vector_into_spec add zero umax (transform_vec g a) ls _ ws out Hc Hr (has_vecs_transform g a ls vs Hg Hv) Hout)
    as (ws' & out' & r & good & Hrun & Hsum & Hres). exists ws', out', r, good. split; [exact Hrun|]. split; [exact Hsum|].
  destruct r as [[]|e|].
  - destruct (bound_results g vs good [] Panic) as (B1 & _ & B3); [by rewrite app_nil_r|]. split; [done|]. by apply B3.
  - destruct Hres as [rest Hres]. destruct (bound_results g vs good _ Panic Hres) as (B1 & B2 & _). split; [done|].
    destruct (B2 _ _ eq_refl) as (v & Hvl & He). exists v. split; [done|]. by apply bind_failed.
  - destruct Hres as [rest Hres]. destruct (bound_results g vs good _ Panic Hres) as (B1 & B2 & _). split; [done|].
    destruct (B2 _ _ eq_refl) as (v & Hvl & He). exists v. split; [done|]. by apply bind_failed.
Qed.
Print Assumptions C101_transform_vector.

(** C101. The same for matrices, assembled into a matrix with room for the couplings. *)
Theorem C101_transform_matrix :
  forall (T E : Type) (add : T -> T -> T) (zero : T) (srt : list nat -> list nat) (g : list (list T) -> outcome E (list (list T)))
         (a : @mat_asm T E) (ls : list (list nat)) (vs : list (outcome E (list (list T)))) (ws : csr_ws) (m : csr T),
    (forall n A B, square n A -> g A = Ok B -> square n B) ->
    has_conn (ma_conn a) ls -> has_mats a ls vs -> pat_wf (cs_pat m) -> sorts_by_key srt ->
    1 <= ca_sdim (ma_conn a) -> Forall NoDup ls -> has_couplings (ca_sdim (ma_conn a)) ls (cs_pat m) ->
    exists ws' m' r good,
      assemble_into_csr add zero srt ws m (transform_mat g a) = (ws', m', r) /\
      csr_sums add (ca_sdim (ma_conn a)) (take (length good) ls) good m m' /\
      Forall2 (fun v w => exists x, v = Ok x /\ g x = Ok w) (take (length good) vs) good /\
      match r with
      | Ok _ => length good = length vs
      | Err e => exists v, vs !! length good = Some v /\ (v = Err e \/ exists x, v = Ok x /\ g x = Err e)
      | Panic => exists v, vs !! length good = Some v /\ (v = Panic \/ exists x, v = Ok x /\ g x = Panic)
      end.
Proof.
  intros T E add zero srt g a ls vs ws m Hg Hc Hv Hwf Hsrt Hs Hnd Hcp.
  destruct (assemble_into_csr_spec add zero srt (transform_mat g a) ls _ ws m Hc (has_mats_transform g a ls vs Hg Hv) Hwf Hsrt Hs Hnd Hcp)
    as (ws' & m' & r & good & Hrun & Hsum & Hres). exists ws', m', r, good. split; [exact Hrun|]. split; [exact Hsum|].
  destruct r as [[]|e|].
  - destruct (bound_results g vs good [] Panic) as (B1 & _ & B3); [by rewrite app_nil_r|]. split; [done|]. by apply B3.
  - destruct Hres as [rest Hres]. destruct (bound_results g vs good _ Panic Hres) as (B1 & B2 & _). split; [done|].
    destruct (B2 _ _ eq_refl) as (v & Hvl & He). exists v. split; [done|]. by apply bind_failed.
  - destruct Hres as [rest Hres]. destruct (bound_results g vs good _ Panic Hres) as (B1 & B2 & _). split; [done|].
    destruct (B2 _ _ eq_refl) as (v & Hvl & He). exists v. split; [done|]. by apply bind_failed.
Qed.
Print Assumptions C101_transform_matrix.

(** C101. Scalars: the sum of the transformed element values. *)
Theorem C101_transform_scalar :
  forall (T E : Type) (add : T -> T -> T) (zero : T) (g : T -> outcome E T) (f : nat -> outcome E T) (n : nat),
    match assemble_scalar add zero n (transform_scalar g f) with
    | Ok y => exists vals, Forall2 (fun i w => exists x, f i = Ok x /\ g x = Ok w) (seq 0 n) vals /\ y = foldl add zero vals
    | Err e => exists i, i < n /\ (f i = Err e \/ exists x, f i = Ok x /\ g x = Err e) /\
        forall j, j < i -> exists x w, f j = Ok x /\ g x = Ok w
    | Panic => exists i, i < n /\ (f i = Panic \/ exists x, f i = Ok x /\ g x = Panic) /\
        forall j, j < i -> exists x w, f j = Ok x /\ g x = Ok w
    end.
Proof.
  intros T E add zero g f n. pose proof (C20_serial_scalar T E add zero (transform_scalar g f) n) as H.
  assert (OK : forall l vals, map (transform_scalar g f) l = map Ok vals -> Forall2 (fun i w => exists x, f i = Ok x /\ g x = Ok w) l vals).
  { intros l. induction l as [|i l IH]; intros [|w vals] Hm; cbn in Hm; simplify_eq; [constructor|]. constructor; [|by apply IH].
    unfold transform_scalar in *. destruct (f i) as [x| |]; [by exists x|done..]. }
  assert (SPLIT : forall l1 i l2 vals, seq 0 n = l1 ++ i :: l2 -> map (transform_scalar g f) l1 = map Ok vals ->
    i < n /\ forall j, j < i -> exists x w, f j = Ok x /\ g x = Ok w).
  { intros l1 i l2 vals Hs Hm. apply OK in Hm.
    assert (Hi : seq 0 n !! length l1 = Some i) by (rewrite Hs; by rewrite list_lookup_middle). apply lookup_seq in Hi as [-> Hi]. split; [lia|].
    intros j Hj. cbn in Hj. assert (Hjl : l1 !! j = Some j).
    { assert (Hjs : seq 0 n !! j = Some j) by (rewrite lookup_seq_lt by lia; done). rewrite Hs in Hjs. by rewrite lookup_app_l in Hjs by lia. }
    destruct (Forall2_lookup_l _ _ _ _ _ Hm Hjl) as (w & _ & x & Hx & Hw). by exists x, w. }
  destruct (assemble_scalar add zero n (transform_scalar g f)) as [y|e|].
  - destruct H as (vals & Hm & ->). exists vals. split; [|done]. by apply OK.
  - destruct H as (l1 & i & l2 & vals & Hs & Hm & Hi). exists i. destruct (SPLIT _ _ _ _ Hs Hm) as [H1 H2]. split; [done|]. split; [|done]. by apply bind_failed.
  - destruct H as (l1 & i & l2 & vals & Hs & Hm & Hi). exists i. destruct (SPLIT _ _ _ _ Hs Hm) as [H1 H2]. split; [done|]. split; [|done]. by apply bind_failed.
Qed.
Print Assumptions C101_transform_scalar.

(** ** Additive transformations (for example scaling) *)
Section Linear.
  Context {T : Type} (add : T -> T -> T) (h : T -> T).
  Hypothesis additive : forall x y, h (add x y) = add (h x) (h y).
  Lemma foldl_additive l x : foldl add (h x) (map h l) = h (foldl add x l).
  Proof using additive. revert x. induction l as [|y l IH]; intros x; cbn; [done|]. by rewrite <- additive, IH. Qed.
  Lemma elem_contrib_fmap s ns (v : list T) d : elem_contrib s ns (map h v) d = map h (elem_contrib s ns v d).
  Proof.
    unfold elem_contrib. generalize (zip (seq 0 (length ns)) ns). intros l. induction l as [|[il n] l IH]; [done|]. cbn [omap list_omap].
    destruct (decide _); [|exact IH]. rewrite list_lookup_fmap. destruct (v !! _); cbn; [f_equal|]; exact IH.
  Qed.
  Lemma contribs_fmap s ls (vs : list (list T)) d : contribs s ls (map (map h) vs) d = map h (contribs s ls vs d).
  Proof.
    unfold contribs. revert vs. induction ls as [|ns ls IH]; intros [|v vs]; [done..|]. cbn [map zip_with concat]. by rewrite map_app, elem_contrib_fmap, IH.
  Qed.
  Lemma mat_at_fmap (A : list (list T)) i j : mat_at (map (map h) A) i j = h <$> mat_at A i j.
  Proof. unfold mat_at. rewrite list_lookup_fmap. destruct (A !! i) as [row|]; cbn; [|done]. apply list_lookup_fmap. Qed.
  Lemma mat_contribs_fmap s ls (As : list (list (list T))) r c : mat_contribs s ls (map (map (map h)) As) r c = map h (mat_contribs s ls As r c).
  Proof.
    unfold mat_contribs. revert As. induction ls as [|ns ls IH]; intros [|A As]; [done..|]. cbn [map zip_with concat]. rewrite map_app, IH. f_equal.
    rewrite !mat_contrib_bind. generalize (x ← zip (seq 0 (length ns)) ns; y ← zip (seq 0 (length ns)) ns; [(x, y)]). intros l.
    induction l as [|z l IHl]; [done|]. rewrite !bind_cons, map_app, IHl. f_equal. destruct (decide _); [|done]. rewrite mat_at_fmap. by destruct (mat_at _ _ _).
  Qed.
End Linear.

(** C101. Transforming the element quantities by an additive function (scaling, sign change, conversion of units) transforms the
    assembled result, whatever the outcome; no law of the addition is needed. *)
Theorem C101_additive :
  forall (T E : Type) (add : T -> T -> T) (zero : T) (h : T -> T), (forall x y, h (add x y) = add (h x) (h y)) ->
    (forall (umax : nat) (a : @vec_asm T E) ls vs ws ws' out,
      has_conn (va_conn a) ls -> nodes_in_range (ca_nodes (va_conn a)) ls -> has_vecs a ls vs ->
      length out = ca_sdim (va_conn a) * ca_nodes (va_conn a) ->
      (assemble_vector_into add zero umax ws' (map h out) (transform_vec (fun v => Ok (map h v)) a)).1.2 =
        map h (assemble_vector_into add zero umax ws out a).1.2 /\
      (assemble_vector_into add zero umax ws' (map h out) (transform_vec (fun v => Ok (map h v)) a)).2 =
        (assemble_vector_into add zero umax ws out a).2) /\
    (forall (srt : list nat -> list nat) (a : @mat_asm T E) ls vs ws ws' m,
      has_conn (ma_conn a) ls -> has_mats a ls vs -> csr_wf m -> sorts_by_key srt -> 1 <= ca_sdim (ma_conn a) -> Forall NoDup ls ->
      has_couplings (ca_sdim (ma_conn a)) ls (cs_pat m) ->
      (assemble_into_csr add zero srt ws' (Csr (cs_pat m) (map h (cs_vals m))) (transform_mat (fun A => Ok (map (map h) A)) a)).1.2 =
        Csr (cs_pat m) (map h (cs_vals (assemble_into_csr add zero srt ws m a).1.2)) /\
      (assemble_into_csr add zero srt ws' (Csr (cs_pat m) (map h (cs_vals m))) (transform_mat (fun A => Ok (map (map h) A)) a)).2 =
        (assemble_into_csr add zero srt ws m a).2).
Proof.
  intros T E add zero h Hh. 
  assert (COMB : forall A (k : A -> A) (vs : list (outcome E A)) good1 good2 r1 r2,
    match r1 with Ok _ => vs = map Ok good1 | Err e => exists rest, vs = map Ok good1 ++ Err e :: rest | Panic => exists rest, vs = map Ok good1 ++ Panic :: rest end ->
    match r2 with Ok _ => map (fun v => let! y := v in Ok (k y)) vs = map Ok good2 | Err e => exists rest, map (fun v => let! y := v in Ok (k y)) vs = map Ok good2 ++ Err e :: rest
      | Panic => exists rest, map (fun v => let! y := v in Ok (k y)) vs = map Ok good2 ++ Panic :: rest end ->
    r2 = r1 :> outcome E unit /\ good2 = map k good1).
  { intros A k vs good1 good2 r1 r2 H1 H2.
    assert (C1 : match collect vs with Ok g => r1 = Ok tt /\ g = good1 | Err e => r1 = Err e | Panic => r1 = Panic end).
    { destruct r1 as [[]|e|]; [rewrite H1, collect_map_ok; done|destruct H1 as [rest ->]; by rewrite collect_first..]. }
    revert good1 good2 H1 H2 C1. induction vs as [|v vs IH]; intros good1 good2 H1 H2 C1.
    - destruct good1; [|destruct r1 as [|e|]; [done|destruct H1; done..]]. destruct good2; [|destruct r2 as [|e|]; [done|destruct H2; done..]].
      destruct r1 as [[]|e|]; [|destruct H1; done..]. destruct r2 as [[]|e|]; [done|destruct H2; done..].
    - destruct v as [x|e|].
      + assert (H1' : exists g1, good1 = x :: g1 /\ match r1 with Ok _ => vs = map Ok g1 | Err e => exists rest, vs = map Ok g1 ++ Err e :: rest | Panic => exists rest, vs = map Ok g1 ++ Panic :: rest end).
        { destruct r1 as [|e|]; [|destruct H1 as [rest H1]..]; destruct good1 as [|y good1]; cbn in H1; simplify_eq; exists good1; split; eauto. }
        assert (H2' : exists g2, good2 = k x :: g2 /\ match r2 with Ok _ => map (fun v => let! y := v in Ok (k y)) vs = map Ok g2 | Err e => exists rest, map (fun v => let! y := v in Ok (k y)) vs = map Ok g2 ++ Err e :: rest
          | Panic => exists rest, map (fun v => let! y := v in Ok (k y)) vs = map Ok g2 ++ Panic :: rest end).
        { destruct r2 as [|e|]; [|destruct H2 as [rest H2]..]; destruct good2 as [|y good2]; cbn in H2; simplify_eq; exists good2; split; eauto. }
        destruct H1' as (g1 & -> & H1'). destruct H2' as (g2 & -> & H2'). destruct (IH g1 g2 H1' H2') as [-> ->]; [|done].
        cbn in C1. destruct (collect vs) as [g| |]; cbn in C1; [|done..]. destruct C1 as [? ?]. by simplify_eq.
      + cbn in C1. subst r1. destruct H1 as [rest H1]. destruct good1 as [|y good1]; [|done].
        destruct r2 as [|e'|]; [|destruct H2 as [rest2 H2]..]; destruct good2 as [|y good2]; cbn in H2; simplify_eq. done.
      + cbn in C1. subst r1. destruct H1 as [rest H1]. destruct good1 as [|y good1]; [|done].
        destruct r2 as [|e'|]; [|destruct H2 as [rest2 H2]..]; destruct good2 as [|y good2]; cbn in H2; simplify_eq. done. }
  split.
  - intros umax a ls vs ws ws' out Hc Hr Hv Hout.
    destruct (assemble_vector_into_spec add zero umax a ls vs ws out Hc Hr Hv Hout) as (w1 & o1 & r1 & g1 & -> & [L1 S1] & R1).
    destruct (assemble_vector_into_spec add zero umax (transform_vec (fun v => Ok (map h v)) a) ls _ ws' (map h out) Hc Hr
      (has_vecs_transform (fun v => Ok (map h v)) a ls vs ltac:(intros v w [= <-]; by rewrite map_length) Hv)) as (w2 & o2 & r2 & g2 & -> & [L2 S2] & R2);
      [by rewrite map_length|].
    destruct (COMB _ (map h) vs g1 g2 r1 r2 R1 R2) as [-> ->]. cbn. split; [|done]. apply list_eq. intros d. rewrite list_lookup_fmap.
    destruct (out !! d) as [x|] eqn:Ex.
    + rewrite (S1 d x Ex). cbn. rewrite (S2 d (h x)) by (by rewrite list_lookup_fmap, Ex). rewrite map_length. cbn [va_conn transform_vec].
      rewrite contribs_fmap, foldl_additive by done. done.
    + apply lookup_ge_None in Ex. rewrite !lookup_ge_None_2; [done|lia|rewrite L2, map_length; lia].
  - intros srt a ls vs ws ws' m Hc Hv [Hwf Hlen] Hsrt Hs Hnd Hcp.
    destruct (assemble_into_csr_spec add zero srt a ls vs ws m Hc Hv Hwf Hsrt Hs Hnd Hcp) as (w1 & o1 & r1 & g1 & -> & (P1 & L1 & S1) & R1).
    destruct (assemble_into_csr_spec add zero srt (transform_mat (fun A => Ok (map (map h) A)) a) ls _ ws' (Csr (cs_pat m) (map h (cs_vals m))) Hc
      (has_mats_transform (fun A => Ok (map (map h) A)) a ls vs ltac:(intros n A B [HA1 HA2] [= <-]; split; [by rewrite map_length|apply Forall_fmap; eapply Forall_impl; [exact HA2|]; intros row ?; cbn; by rewrite map_length]) Hv)
      Hwf Hsrt Hs Hnd Hcp) as (w2 & o2 & r2 & g2 & -> & (P2 & L2 & S2) & R2).
    destruct (COMB _ (map (map h)) vs g1 g2 r1 r2 R1 R2) as [-> ->]. cbn in *. split; [|done]. destruct o2 as [p2 v2]. cbn in *. subst p2. f_equal.
    apply list_eq. intros d. rewrite list_lookup_fmap. destruct (cs_vals m !! d) as [x|] eqn:Ex.
    + destruct (stored_cover (cs_pat m) Hwf d) as (r & c & Hst); [rewrite <- Hlen; by eapply lookup_lt_Some|].
      rewrite (S1 r c d x Hst Ex). cbn. rewrite (S2 r c d (h x) Hst) by (by rewrite list_lookup_fmap, Ex). rewrite map_length.
      rewrite mat_contribs_fmap, foldl_additive by done. done.
    + apply lookup_ge_None in Ex. rewrite !lookup_ge_None_2; [done|lia|rewrite L2, map_length; lia].
Qed.
Print Assumptions C101_additive.

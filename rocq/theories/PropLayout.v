(** C98: matrix views, stacking, prefix sums, gathering of nodal values and quadrature iteration. *)
From Verif Require Import LayoutModel.
From Coq Require Import List Arith NArith Bool Lia Reals.
Import ListNotations.

(** ** Specification *)
(** Every entry of the view lies in the buffer, and no two at the same place. *)
Definition in_buffer {T} (buf : list T) (v : view) : Prop := forall i j, i < v_rows v -> j < v_cols v -> address v i j < length buf.
Definition no_overlap (v : view) : Prop := forall i j i' j', i < v_rows v -> j < v_cols v -> i' < v_rows v -> j' < v_cols v ->
  address v i j = address v i' j' -> i = i' /\ j = j'.
(** The entries follow each other column by column. *)
Definition column_major (v : view) : Prop := forall i j, i < v_rows v -> j < v_cols v -> address v i j = v_base v + (i + j * v_rows v).
(** The [k]-th entry, counted column by column. *)
Definition kth {T} (buf : list T) (v : view) (k : nat) : option T := entry buf v (k mod v_rows v) (k / v_rows v).

Lemma mod_div k r c : k < r * c -> k mod r < r /\ k / r < c.
Proof.
  intros H. assert (r <> 0) by (intros ->; lia). split; [apply Nat.mod_upper_bound; assumption|].
  apply Nat.div_lt_upper_bound; lia.
Qed.
Lemma mod_div_eq k r : r <> 0 -> k mod r + k / r * r = k.
Proof. intros H. pose proof (Nat.div_mod k r H). lia. Qed.
Lemma kth_column_major {T} (buf : list T) v k : column_major v -> k < v_rows v * v_cols v -> kth buf v k = nth_error buf (v_base v + k).
Proof.
  intros Hc Hk. destruct (mod_div _ _ _ Hk) as [H1 H2]. unfold kth, entry. rewrite (Hc _ _ H1 H2), mod_div_eq; [reflexivity|]. intros E. rewrite E in Hk. lia.
Qed.

Lemma nodup_map {A B} (f : A -> B) l : (forall x y, In x l -> In y l -> f x = f y -> x = y) -> NoDup l -> NoDup (map f l).
Proof.
  intros Hf. induction l as [|a l IH]; intros Hl; cbn; [constructor|]. inversion Hl; subst. constructor.
  - rewrite in_map_iff. intros (b & E & Hb). apply Hf in E; [subst; contradiction|right; exact Hb|left; reflexivity].
  - apply IH; [|assumption]. intros x y Hx Hy. apply Hf; right; assumption.
Qed.
Definition addresses (v : view) : list nat := map (fun k => address v (k mod v_rows v) (k / v_rows v)) (seq 0 (v_rows v * v_cols v)).
Lemma enough {T} (buf : list T) v : in_buffer buf v -> no_overlap v -> 0 < v_rows v * v_cols v -> v_base v + v_rows v * v_cols v <= length buf.
Proof.
  intros Hb Hn Hp. assert (Hnd : NoDup (addresses v)).
  { unfold addresses. apply nodup_map; [|apply seq_NoDup]. intros k k' Hk Hk' E. apply in_seq in Hk, Hk'.
    destruct (mod_div k (v_rows v) (v_cols v) ltac:(lia)) as [A1 A2]. destruct (mod_div k' (v_rows v) (v_cols v) ltac:(lia)) as [A3 A4].
    destruct (Hn _ _ _ _ A1 A2 A3 A4 E) as [E1 E2].
    rewrite <- (mod_div_eq k (v_rows v)), <- (mod_div_eq k' (v_rows v)) by lia. rewrite E1, E2. reflexivity. }
  assert (Hi : incl (addresses v) (seq (v_base v) (length buf - v_base v))).
  { intros a Ha. unfold addresses in Ha. apply in_map_iff in Ha. destruct Ha as (k & <- & Hk). apply in_seq in Hk.
    destruct (mod_div k (v_rows v) (v_cols v) ltac:(lia)) as [H1 H2]. specialize (Hb _ _ H1 H2). apply in_seq. unfold address in *. lia. }
  pose proof (NoDup_incl_length Hnd Hi) as Hl. unfold addresses in Hl. rewrite map_length, !seq_length in Hl. lia.
Qed.

(** C98: reshaping succeeds for the same number of entries, is never out of bounds, and keeps the entries of a column-major view. *)
Theorem C98_reshape : forall T (buf : list T) v r2 c2, in_buffer buf v -> no_overlap v ->
  (reshape_to_slice v (r2, c2) = None <-> v_rows v * v_cols v <> r2 * c2) /\
  (forall w, reshape_to_slice v (r2, c2) = Some w -> v_rows w = r2 /\ v_cols w = c2 /\ in_buffer buf w /\ no_overlap w /\ column_major w /\
     (column_major v -> forall k, k < v_rows v * v_cols v -> kth buf w k = kth buf v k)).
Proof.
  intros T buf v r2 c2 Hb Hn. unfold reshape_to_slice. destruct (Nat.eqb_spec (v_rows v * v_cols v) (r2 * c2)) as [E|E].
  - split; [split; [discriminate|congruence]|]. intros w [= <-]. split; [reflexivity|]. split; [reflexivity|].
    assert (Hcm : column_major (View (v_base v) r2 c2 1 r2)) by (intros i j _ _; unfold address; cbn; lia).
    split; [|split; [|split; [exact Hcm|]]].
    + intros i j Hi Hj. cbn in Hi, Hj. rewrite Hcm by assumption. cbn. pose proof (enough buf v Hb Hn). assert (i + j * r2 < r2 * c2) by nia. lia.
    + intros i j i' j' Hi Hj Hi' Hj'. rewrite !Hcm by assumption. cbn in *. intros Ea. assert (j = j') by nia. subst. split; [lia|reflexivity].
    + intros Hv k Hk. rewrite (kth_column_major buf v k Hv Hk). rewrite kth_column_major; [reflexivity|exact Hcm|cbn; lia].
  - split; [split; [intros _; exact E|reflexivity]|discriminate].
Qed.
Print Assumptions C98_reshape.

(** C98: reshaping keeps the entries of every buffer only for column-major views; a view with other strides is silently misread. *)
Theorem C98_reshape_only : forall v r2 c2 w, reshape_to_slice v (r2, c2) = Some w ->
  (forall T (buf : list T), in_buffer buf v -> forall k, k < v_rows v * v_cols v -> kth buf w k = kth buf v k) -> column_major v.
Proof.
  intros v r2 c2 w Hw Hk i j Hi Hj. unfold reshape_to_slice in Hw. destruct (Nat.eqb_spec (v_rows v * v_cols v) (r2 * c2)) as [E|]; [|discriminate]. injection Hw as <-.
  set (n := v_base v + v_rows v * v_cols v + S (v_rows v) * S (v_rstride v) + S (v_cols v) * S (v_cstride v)).
  assert (Hin : in_buffer (seq 0 n) v).
  { intros i' j' Hi' Hj'. rewrite seq_length. unfold address, n. nia. }
  assert (Hkk : i + j * v_rows v < v_rows v * v_cols v) by nia. specialize (Hk nat (seq 0 n) Hin _ Hkk).
  rewrite kth_column_major in Hk; [|intros i' j' _ _; unfold address; cbn; lia|cbn; lia]. cbn [v_base] in Hk.
  unfold kth, entry in Hk. replace ((i + j * v_rows v) mod v_rows v) with i in Hk by (rewrite Nat.mod_add by lia; symmetry; apply Nat.mod_small; lia).
  replace ((i + j * v_rows v) / v_rows v) with j in Hk by (rewrite Nat.div_add by lia; rewrite Nat.div_small by lia; reflexivity).
  specialize (Hin i j Hi Hj). rewrite seq_length in Hin.
  assert (v_base v + (i + j * v_rows v) < n) by (unfold n; lia).
  rewrite (nth_error_nth' (seq 0 n) 0), (nth_error_nth' (seq 0 n) 0) in Hk by (rewrite seq_length; lia).
  rewrite !seq_nth in Hk by lia. injection Hk as Hk. lia.
Qed.
Print Assumptions C98_reshape_only.

Theorem C98_reshape_refuted : exists (buf : list nat) v w k, in_buffer buf v /\ no_overlap v /\ reshape_to_slice v (2, 1) = Some w /\
  k < v_rows v * v_cols v /\ kth buf w k <> kth buf v k.
Proof.
  exists [10; 20; 30; 40], (View 0 1 2 1 2), (View 0 2 1 1 2), 1. split; [|split; [|split; [reflexivity|split; [cbn; lia|discriminate]]]].
  - intros i j Hi Hj. unfold address. cbn in *. lia.
  - intros i j i' j' Hi Hj Hi' Hj'. unfold address. cbn in *. lia.
Qed.
Print Assumptions C98_reshape_refuted.

(** C98: coercing succeeds exactly for the same shape and the strides of a packed matrix, and then changes no entry. *)
Theorem C98_coerce : forall v r c,
  (forall w, coerce_col_major_slice v r c = Some w -> v_rows w = v_rows v /\ v_cols w = v_cols v /\ column_major v /\
     forall i j, address w i j = address v i j) /\
  (coerce_col_major_slice v r c <> None <-> r = v_rows v /\ c = v_cols v /\ v_rstride v = 1 /\ v_cstride v = v_rows v).
Proof.
  intros v r c. unfold coerce_col_major_slice. destruct (Nat.eqb_spec r (v_rows v)) as [->|]; cbn [negb]; [|split; [discriminate|intuition congruence]].
  destruct (Nat.eqb_spec c (v_cols v)) as [->|]; cbn [negb]; [|split; [discriminate|intuition congruence]].
  destruct (Nat.eqb_spec (v_rstride v) 1) as [E1|E1]; cbn [andb]; [|split; [discriminate|intuition congruence]].
  destruct (Nat.eqb_spec (v_cstride v) (v_rows v)) as [E2|E2]; [|split; [discriminate|intuition congruence]].
  split.
  - intros w [= <-]. split; [reflexivity|]. split; [reflexivity|]. split.
    + intros i j _ _. unfold address. rewrite E1, E2. lia.
    + intros i j. unfold address. cbn. rewrite E1, E2. reflexivity.
  - split; [intros _; repeat split; assumption|discriminate].
Qed.
Print Assumptions C98_coerce.

(** C98: a column-major view may be refused: a part of a column. *)
Theorem C98_coerce_refuted : exists v, column_major v /\ coerce_col_major_slice v (v_rows v) (v_cols v) = None.
Proof. exists (View 0 2 1 1 3). split; [intros i j Hi Hj; unfold address; cbn in *; lia|reflexivity]. Qed.
Print Assumptions C98_coerce_refuted.

(** ** Stacking *)
Definition total {T} (ms : list (mat T)) : nat := list_sum (map nrows ms).

Lemma skipn_skipn {A} (l : list A) : forall n m, skipn n (skipn m l) = skipn (n + m) l.
Proof.
  induction l as [|a l IH]; intros n m; [rewrite !skipn_nil; reflexivity|]. destruct m as [|m]; [rewrite Nat.add_0_r; reflexivity|].
  rewrite Nat.add_succ_r. cbn. apply IH.
Qed.
Lemma flatten_loop_spec {T} cols (ms : list (mat T)) : forall rows out,
  match flatten_loop cols ms rows out with
  | Some (n, out') => n = rows + total ms /\ (rows <= nrows out -> n <= nrows out) /\ Forall (fun m => m_cols m = cols) ms /\ (ms <> [] -> m_cols out = cols) /\ m_cols out' = m_cols out /\
      (rows <= nrows out -> m_rows out' = firstn rows (m_rows out) ++ concat (map m_rows ms) ++ skipn (rows + total ms) (m_rows out))
  | None => rows <= nrows out -> ~ (rows + total ms <= nrows out /\ Forall (fun m => m_cols m = cols) ms /\ m_cols out = cols)
  end.
Proof.
  induction ms as [|m ms IH]; intros rows out; cbn [flatten_loop].
  - unfold total; cbn. rewrite Nat.add_0_r. repeat split; try constructor; try lia; try congruence. intros _. rewrite firstn_skipn. reflexivity.
  - assert (Ht : total (m :: ms) = nrows m + total ms) by reflexivity.
    destruct (Nat.eqb_spec (m_cols m) cols) as [E1|E1]; cbn [negb]; [|intros _ (_ & H & _); inversion H; congruence].
    destruct (Nat.ltb_spec (nrows out) (rows + nrows m)) as [E2|E2]; [intros Hr (H & _); lia|].
    destruct (Nat.eqb_spec (m_cols out) (m_cols m)) as [E3|E3]; cbn [negb]; [|intros _ (_ & _ & H); congruence].
    set (out1 := Mat _ _). assert (Hn : nrows out1 = nrows out).
    { unfold out1, nrows in *. cbn [m_rows]. rewrite !app_length, firstn_length, skipn_length. lia. }
    specialize (IH (rows + nrows m) out1). destruct (flatten_loop cols ms (rows + nrows m) out1) as [[n out']|].
    + destruct IH as (H1 & H2 & H3 & H4 & H5 & H6). rewrite Ht. split; [lia|]. split; [intros; lia|]. split; [constructor; assumption|]. split; [congruence|].
      split; [rewrite H5; reflexivity|]. intros Hr. rewrite H6 by lia. unfold out1. cbn [m_rows map concat].
      assert (Hf : length (firstn rows (m_rows out)) = rows) by (rewrite firstn_length; unfold nrows in *; lia).
      assert (Ef : firstn (rows + nrows m) (firstn rows (m_rows out) ++ m_rows m ++ skipn (rows + nrows m) (m_rows out)) = firstn rows (m_rows out) ++ m_rows m).
      { rewrite app_assoc. rewrite firstn_app. unfold nrows. rewrite firstn_all2 by (rewrite app_length; lia). rewrite app_length, Hf.
        replace (rows + length (m_rows m) - (rows + length (m_rows m))) with 0 by lia. cbn. apply app_nil_r. }
      assert (Es : skipn (rows + nrows m + total ms) (firstn rows (m_rows out) ++ m_rows m ++ skipn (rows + nrows m) (m_rows out)) = skipn (rows + (nrows m + total ms)) (m_rows out)).
      { rewrite app_assoc, skipn_app, skipn_all2 by (rewrite app_length, Hf; unfold nrows; lia). cbn. rewrite app_length, Hf.
        rewrite skipn_skipn. f_equal. unfold nrows. lia. }
      rewrite Ef, Es, <- !app_assoc. reflexivity.
    + intros Hr (H1 & H2 & H3). inversion H2; subst. apply IH; [lia|]. split; [rewrite Hn; lia|]. split; [assumption|exact H3].
Qed.

(** C98: stacking into a matrix succeeds exactly for the matching number of rows and columns, and writes the rows one after the other. *)
Theorem C98_flatten_into : forall T (out out' : mat T) ms, flatten_vertically_into out ms = Some out' <->
  total ms = nrows out /\ Forall (fun m => m_cols m = m_cols out) ms /\ out' = Mat (m_cols out) (concat (map m_rows ms)).
Proof.
  intros T out out' ms. destruct ms as [|first ms]; unfold flatten_vertically_into.
  - destruct out as [c rows]. unfold nrows, total. cbn. destruct rows as [|r rows]; cbn.
    + split; [intros [= <-]; repeat split; constructor|intros (_ & _ & ->); reflexivity].
    + split; [discriminate|intros (H & _); discriminate].
  - pose proof (flatten_loop_spec (m_cols first) (first :: ms) 0 out) as H. destruct (flatten_loop (m_cols first) (first :: ms) 0 out) as [[n out1]|].
    + destruct H as (H1 & H2 & H3 & H4 & H5 & H6). specialize (H4 ltac:(discriminate)). specialize (H6 ltac:(lia)). specialize (H2 ltac:(lia)). rewrite H4. rewrite Nat.add_0_l in H1, H6. cbn [firstn app] in H6.
      assert (Hn : nrows out1 = nrows out).
      { assert (Hc : length (concat (map m_rows (first :: ms))) = total (first :: ms)).
        { unfold total. generalize (first :: ms). intros l. induction l as [|x l IH]; [reflexivity|]. cbn. rewrite app_length, IH. reflexivity. }
        unfold nrows at 1. rewrite H6, app_length, Hc, skipn_length. unfold nrows in *. lia. }
      destruct (Nat.eqb_spec n (nrows out1)) as [E|E].
      * assert (Er : out1 = Mat (m_cols first) (concat (map m_rows (first :: ms)))).
        { destruct out1 as [c rows]. cbn [m_cols m_rows] in *. rewrite H5, H4, H6, skipn_all2, app_nil_r by (unfold nrows in *; lia). reflexivity. }
        split; [intros [= <-]; split; [congruence|split; [exact H3|exact Er]]|intros (_ & _ & ->); rewrite Er; reflexivity].
      * split; [discriminate|intros (H & _); congruence].
    + split; [discriminate|]. intros (E1 & E2 & _). exfalso. apply H; [lia|]. inversion E2; subst. split; [lia|]. split; [|congruence].
      eapply Forall_impl; [|exact E2]. cbn. congruence.
Qed.
Print Assumptions C98_flatten_into.

Lemma fold_total {T} (ms : list (mat T)) : forall n, fold_left (fun n m => n + nrows m) ms n = n + total ms.
Proof. induction ms as [|m ms IH]; intros n; cbn [fold_left]; [unfold total; cbn; lia|]. rewrite IH. change (total (m :: ms)) with (nrows m + total ms). lia. Qed.

(** C98: without a matrix there is no stack; with one it succeeds exactly if all have the same number of columns. *)
Theorem C98_flatten : forall T (zero : T) ms,
  (flatten_vertically zero ms = Some None <-> ms = []) /\
  (forall out, flatten_vertically zero ms = Some (Some out) <->
     ms <> [] /\ Forall (fun m => m_cols m = m_cols out) ms /\ m_rows out = concat (map m_rows ms)).
Proof.
  intros T zero ms. destruct ms as [|first ms].
  - split; [split; reflexivity|]. intros out. cbn. split; [discriminate|intros (H & _); congruence].
  - unfold flatten_vertically. rewrite fold_total, Nat.add_0_l. set (out0 := Mat _ _).
    assert (Hn : nrows out0 = total (first :: ms)) by (unfold out0, nrows; cbn [m_rows]; apply repeat_length).
    pose proof (fun o => C98_flatten_into T out0 o (first :: ms)) as H. destruct (flatten_vertically_into out0 (first :: ms)) as [o|].
    + cbn. split; [split; discriminate|]. destruct (proj1 (H o) eq_refl) as (H1 & H2 & H3). intros out. split.
      * intros [= <-]. split; [discriminate|]. rewrite H3. split; [exact H2|reflexivity].
      * intros (_ & G1 & G2). rewrite H3. do 2 f_equal. destruct out as [c rows]. cbn in G2. rewrite G2. f_equal. unfold out0. cbn. inversion G1; subst. assumption.
    + cbn. split; [split; discriminate|]. intros out. split; [discriminate|]. intros (_ & G1 & G2). exfalso.
      assert (None = Some (Mat (m_cols out0) (concat (map m_rows (first :: ms))))) as X; [|discriminate]. apply H. split; [congruence|]. split; [|reflexivity].
      inversion G1 as [|? ? G3 G4]; subst. eapply Forall_impl; [|exact G1]. unfold out0. cbn. congruence.
Qed.
Print Assumptions C98_flatten.

(** ** Prefix sums *)
Definition nsum (l : list N) : N := fold_right N.add 0%N l.

(** C98: entry [i] is the start plus the sum of the counts before [i]. Overflow of the final sum, which is not an entry, panics. *)
Theorem C98_prefix_sum : forall max counts x0 l, (x0 <= max)%N ->
  (prefix_sum max counts x0 = None <-> (max < x0 + nsum counts)%N) /\
  (prefix_sum max counts x0 = Some l <-> (x0 + nsum counts <= max)%N /\ length l = length counts /\
     forall i, i < length counts -> nth i l 0%N = (x0 + nsum (firstn i counts))%N).
Proof.
  intros max counts. induction counts as [|x counts IH]; intros x0 l Hx; cbn [prefix_sum].
  - cbn. rewrite N.add_0_r. split; [split; [discriminate|lia]|]. split; [intros [= <-]; repeat split; [assumption|lia]|].
    intros (_ & H & _). destruct l; [reflexivity|discriminate].
  - cbn [nsum fold_right]. fold (nsum counts). destruct (N.ltb_spec max (x0 + x)) as [H|H].
    + split; [split; [lia|reflexivity]|]. split; [discriminate|lia].
    + destruct (IH (x0 + x)%N (tl l) H) as (IH1 & IH2). split.
      * destruct (prefix_sum max counts (x0 + x)) as [l'|]; cbn; [split; [discriminate|]|split; [|reflexivity]]; intros G.
        -- assert (Some l' = None) as X; [|discriminate]. apply IH1. lia.
        -- destruct IH1 as [IH1 _]. specialize (IH1 eq_refl). lia.
      * split.
        -- destruct (prefix_sum max counts (x0 + x)) as [l'|] eqn:E; [|discriminate]. cbn. intros [= <-]. cbn [tl] in IH2. destruct (proj1 IH2 eq_refl) as (H1 & H2 & H3).
           split; [lia|]. split; [cbn; congruence|]. intros [|i] Hi; cbn; [lia|]. rewrite H3 by lia. fold (nsum (firstn i counts)). lia.
        -- intros (H1 & H2 & H3). destruct l as [|y l]; [discriminate|]. cbn [tl] in IH2. pose proof (H3 0 ltac:(cbn; lia)) as H0. cbn in H0. rewrite N.add_0_r in H0. subst y.
           rewrite (proj2 IH2); [reflexivity|]. split; [lia|]. split; [cbn in H2; lia|]. intros i Hi. specialize (H3 (S i) ltac:(cbn; lia)). cbn in H3. rewrite H3. fold (nsum (firstn i counts)). lia.
Qed.
Print Assumptions C98_prefix_sum.

(** ** Gathering nodal values *)
Lemma extract_loop_spec {T} d (u : list T) nodes : forall i l,
  length l = d * (i + length nodes) ->
  match extract_loop d u nodes i l with
  | None => exists g, In g nodes /\ length u < d * g + d
  | Some l' => (forall g, In g nodes -> d * g + d <= length u) /\ l' = firstn (d * i) l ++ concat (map (fun g => firstn d (skipn (d * g) u)) nodes)
  end.
Proof.
  induction nodes as [|g nodes IH]; intros i l Hl; cbn [extract_loop].
  - cbn in Hl. rewrite Nat.add_0_r in Hl. split; [intros g []|]. cbn. rewrite app_nil_r, <- Hl, firstn_all. reflexivity.
  - unfold rows_generic. destruct (Nat.ltb_spec (length u) (d * g + d)) as [H|H]; [exists g; split; [left; reflexivity|exact H]|].
    cbn [length] in Hl. assert (Hd : d * i + d <= length l) by nia. destruct (Nat.ltb_spec (length l) (d * i + d)) as [H'|_]; [lia|].
    set (ui := firstn d (skipn (d * g) u)). assert (Hu : length ui = d) by (unfold ui; rewrite firstn_length, skipn_length; lia).
    set (l1 := firstn (d * i) l ++ ui ++ skipn (d * i + d) l).
    assert (Hl1 : length l1 = d * (S i + length nodes)) by (unfold l1; rewrite !app_length, firstn_length, skipn_length, Hu, Hl; nia).
    specialize (IH (S i) l1 Hl1). destruct (extract_loop d u nodes (S i) l1) as [l'|].
    + destruct IH as (H1 & ->). split; [intros g' [<-|Hg]; [exact H|apply H1, Hg]|].
      cbn [map concat]. fold ui. rewrite app_assoc. f_equal. unfold l1. rewrite app_assoc, firstn_app.
      rewrite firstn_all2 by (rewrite app_length, firstn_length, Hu; nia).
      replace (d * S i - length (firstn (d * i) l ++ ui)) with 0 by (rewrite app_length, firstn_length, Hu; nia). cbn. apply app_nil_r.
    + destruct IH as (g' & Hg & H1). exists g'. split; [right; exact Hg|exact H1].
Qed.
Lemma nth_error_skipn {A} n : forall (l : list A) k, nth_error (skipn n l) k = nth_error l (n + k).
Proof. induction n as [|n IH]; intros l k; [reflexivity|]. destruct l as [|a l]; cbn; [destruct k; reflexivity|apply IH]. Qed.
Lemma nth_error_firstn {A} n : forall (l : list A) k, k < n -> nth_error (firstn n l) k = nth_error l k.
Proof. induction n as [|n IH]; intros l k Hk; [lia|]. destruct l as [|a l]; [reflexivity|]. destruct k as [|k]; [reflexivity|]. cbn. apply IH. lia. Qed.

(** C98: component [c] of the [k]-th listed node is at [d*k + c]; a node beyond the vector panics. *)
Theorem C98_extract : forall T (zero : T) d u nodes,
  (extract_by_node_index zero d u nodes = None <-> exists g, In g nodes /\ length u < d * g + d) /\
  (forall l, extract_by_node_index zero d u nodes = Some l -> length l = d * length nodes /\
     forall k g c, nth_error nodes k = Some g -> c < d -> exists x, nth_error u (d * g + c) = Some x /\ nth_error l (d * k + c) = Some x).
Proof.
  intros T zero d u nodes. unfold extract_by_node_index. pose proof (extract_loop_spec d u nodes 0 (repeat zero (d * length nodes)) ltac:(rewrite repeat_length; reflexivity)) as H.
  destruct (extract_loop d u nodes 0 (repeat zero (d * length nodes))) as [l'|].
  - destruct H as (H1 & H2). rewrite Nat.mul_0_r in H2. cbn [firstn app] in H2. split; [split; [discriminate|]|].
    + intros (g & Hg & Hu). specialize (H1 g Hg). lia.
    + intros l [= <-]. subst l'. clear -H1. induction nodes as [|g nodes IH]; [cbn; split; [lia|intros [|k] g c Hk; discriminate]|].
      cbn [map concat length]. pose proof (H1 g (or_introl eq_refl)) as Hg. assert (Hl : length (firstn d (skipn (d * g) u)) = d) by (rewrite firstn_length, skipn_length; lia).
      destruct IH as (IH1 & IH2); [intros g' Hg'; apply H1; right; exact Hg'|]. split; [rewrite app_length, Hl, IH1; lia|].
      intros [|k] g' c Hk Hc.
      * cbn in Hk. injection Hk as <-. rewrite Nat.mul_0_r, Nat.add_0_l. rewrite nth_error_app1 by lia. rewrite nth_error_firstn, nth_error_skipn by lia.
        destruct (nth_error u (d * g + c)) as [x|] eqn:E; [exists x; split; reflexivity|]. apply nth_error_None in E. lia.
      * cbn in Hk. destruct (IH2 k g' c Hk Hc) as (x & X1 & X2). exists x. split; [exact X1|]. rewrite nth_error_app2 by nia. rewrite Hl. replace (d * S k + c - d) with (d * k + c) by nia. exact X2.
  - split; [split; [intros _; exact H|reflexivity]|discriminate].
Qed.
Print Assumptions C98_extract.

(** ** Quadrature rules *)
Lemma collect_spec {W P D} : forall fuel (ws : list W) (ps : list P) (ds : list D), length ws < fuel -> collect_loop fuel (ws, ps, ds) = combine (combine ws ps) ds.
Proof.
  induction fuel as [|fuel IH]; intros ws ps ds H; [lia|]. destruct ws as [|w ws]; [reflexivity|]. destruct ps as [|p ps]; [reflexivity|]. destruct ds as [|d ds]; [reflexivity|].
  cbn. f_equal. apply IH. cbn in H. lia.
Qed.

(** C98: iterating a rule visits the weights, points and data in step, and once it has ended it stays so. *)
Theorem C98_iter : forall (W P D : Type) (ws : list W) (ps : list P) (ds : list D),
  length (quadrature_iter ws ps ds) = Nat.min (length ws) (Nat.min (length ps) (length ds)) /\
  (forall i w p d, nth_error (quadrature_iter ws ps ds) i = Some (w, p, d) <-> nth_error ws i = Some w /\ nth_error ps i = Some p /\ nth_error ds i = Some d) /\
  (forall n, let after := Nat.iter n (fun st => snd (quadrature_next st)) in
     fst (quadrature_next (ws, ps, ds)) = None -> fst (quadrature_next (after (ws, ps, ds))) = None) /\
  length (unit_data ws) = length ws.
Proof.
  intros W P D ws ps ds. assert (E : quadrature_iter ws ps ds = combine (combine ws ps) ds) by (apply collect_spec; lia). split; [rewrite E, !combine_length; lia|]. split; [|split].
  - rewrite E. clear E. revert ps ds. induction ws as [|w ws IH]; intros ps ds i w' p' d'; [cbn; split; [destruct i; discriminate|intros (H & _); destruct i; discriminate]|].
    destruct ps as [|p ps]; [cbn; split; [destruct i; discriminate|intros (_ & H & _); destruct i; discriminate]|].
    destruct ds as [|d ds]; [cbn; split; [destruct i; discriminate|intros (_ & _ & H); destruct i; discriminate]|].
    destruct i as [|i]; cbn; [split; [intros [= <- <- <-]; repeat split|intros ([= <-] & [= <-] & [= <-]); reflexivity]|apply IH].
  - intros n after Hn. subst after. assert (G : forall st : list W * list P * list D, fst (quadrature_next st) = None -> fst (quadrature_next (snd (quadrature_next st))) = None).
    { intros [[[|w a] [|p b]] [|d c]]; cbn; try discriminate; try reflexivity; destruct a; try reflexivity; destruct b; reflexivity. }
    induction n as [|n IH]; cbn; [exact Hn|]. apply G, IH.
  - apply repeat_length.
Qed.
Print Assumptions C98_iter.

Open Scope R_scope.
Fixpoint weighted (f : nat -> R) (n : nat) : R := match n with O => 0 | S m => weighted f m + f m end.
Lemma weighted_shift f n : weighted f (S n) = f 0%nat + weighted (fun i => f (S i)) n.
Proof. induction n as [|n IH]; [cbn; ring|]. cbn [weighted] in *. rewrite IH. ring. Qed.

(** C98: both integrators compute the weighted sum over the points that have a weight. *)
Theorem C98_integrate : forall (P : Type) ws (ps : list P) (f : P -> R) p0,
  quadrature_integrate 0 Rplus Rmult ws ps f = weighted (fun i => nth i ws 0 * f (nth i ps p0)) (Nat.min (length ws) (length ps)) /\
  rule_integrate 0 Rplus Rmult (ws, ps) f = quadrature_integrate 0 Rplus Rmult ws ps f.
Proof.
  intros P ws ps f p0.
  assert (A : forall ws ps a, fold_left (fun integral (wp : R * P) => integral + f (snd wp) * fst wp) (combine ws ps) a = a + weighted (fun i => nth i ws 0 * f (nth i ps p0)) (Nat.min (length ws) (length ps))).
  { clear ws ps. induction ws as [|w ws IH]; intros ps a; [cbn; ring|]. destruct ps as [|p ps]; [cbn; ring|].
    cbn [length Nat.min]. rewrite weighted_shift. cbn [combine fold_left]. rewrite IH. cbn [nth fst snd]. ring. }
  unfold quadrature_integrate, rule_integrate. cbn [fst snd]. split; [rewrite A; ring|]. generalize 0.
  induction (combine ws ps) as [|x l IH]; intros a; [reflexivity|]. cbn. rewrite IH. f_equal. f_equal. ring.
Qed.
Print Assumptions C98_integrate.

(** C98: conversion of a rule keeps the numbers of weights and points and converts each. *)
Theorem C98_convert : forall (W W' : Type) (convert : W -> W') ws ps, let '(ws', ps') := convert_rule convert (ws, ps) in
  length ws' = length ws /\ length ps' = length ps /\
  (forall i, nth_error ws' i = option_map convert (nth_error ws i)) /\
  (forall i c, match nth_error ps' i, nth_error ps i with Some q, Some p => nth_error q c = option_map convert (nth_error p c) | None, None => True | _, _ => False end).
Proof.
  intros W W' convert ws ps. cbn. rewrite !map_length. split; [reflexivity|]. split; [reflexivity|]. split; [intros i; apply nth_error_map|].
  intros i c. rewrite nth_error_map. destruct (nth_error ps i) as [p|]; cbn; [apply nth_error_map|exact I].
Qed.
Print Assumptions C98_convert.
Close Scope R_scope.

(** ** Examples *)
(** The middle column of a 2 x 3 matrix, and its first row. *)
Example C98_example :
  let buf := [1; 2; 3; 4; 5; 6] in
  in_buffer buf (View 2 2 1 1 2) /\ no_overlap (View 2 2 1 1 2) /\ column_major (View 2 2 1 1 2) /\
  reshape_to_slice (View 2 2 1 1 2) (1, 2) = Some (View 2 1 2 1 1) /\
  ~ column_major (View 0 1 3 1 2) /\
  flatten_vertically 0 [Mat 2 [[1; 2]]; Mat 2 []; Mat 2 [[3; 4]; [5; 6]]] = Some (Some (Mat 2 [[1; 2]; [3; 4]; [5; 6]])) /\
  flatten_vertically 0 [Mat 2 [[1; 2]]; Mat 1 [[3]]] = None /\
  prefix_sum 255 [3; 4; 5]%N 10%N = Some [10; 13; 17]%N /\ prefix_sum 20 [3; 4; 5]%N 10%N = None /\
  extract_by_node_index 0 2 buf [2; 0] = Some [5; 6; 1; 2] /\ extract_by_node_index 0 2 buf [3] = None /\
  quadrature_iter [1; 2] [7; 8; 9] (unit_data [1; 2]) = [(1, 7, tt); (2, 8, tt)].
Proof.
  cbn zeta. split; [intros i j Hi Hj; unfold address; cbn in *; lia|]. split; [intros i j i' j' Hi Hj Hi' Hj'; unfold address; cbn in *; lia|].
  split; [intros i j Hi Hj; unfold address; cbn in *; lia|]. split; [reflexivity|]. split; [intros H; specialize (H 0 1 ltac:(cbn; lia) ltac:(cbn; lia)); discriminate|].
  repeat split.
Qed.

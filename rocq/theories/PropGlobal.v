(** C78: global assembly of elliptic operators. The assembled vector is the derivative of the assembled energy and the assembled matrix is the Jacobian of the assembled
    vector, whatever is left in the thread-local workspaces. *)
From stdpp Require Import base list list_numbers sets.
From Coq Require Import Reals Lia Lra.
From Coquelicot Require Import Coquelicot.
From Verif Require Import Prelude NestedVecModel ParadisModel VectorModel VectorSpec VectorProofs ParadisSpec ColoringProofs CsrModel CsrSpec PropVector PropCsr.
From Verif Require Import MaterialModel EllipticModel PropMaterial PropElliptic PropEllipticOps TableModel GlobalModel.
Local Open Scope R_scope.
Local Notation vec := (nat -> R).
Local Notation mat := (nat -> nat -> R).

(** * specification *)
(** the entries of [v] that belong to the nodes [ns] *)
Definition local_values (s : nat) (v : list R) (ns : list nat) : list R := map (fun a => nth (s * nth (a / s) ns 0%nat + a mod s) v 0) (seq 0 (s * length ns)).
(** the weights, points and data the table has for the elements, whatever the buffers contain *)
Definition reads_quadrature {Pt Data} (table : q_table Pt Data) (elems : nat) (ws : nat -> list R) (ps : nat -> list Pt) (ds : nat -> list Data) : Prop :=
  forall e, (e < elems)%nat -> length (ps e) = length (ws e) /\ length (ds e) = length (ws e) /\ qt_size table e = Ok (length (ws e)) /\
    forall bp bw bd, length bp = length (ws e) -> length bw = length (ws e) -> length bd = length (ws e) -> qt_populate table e bp bw bd = Ok (ps e, ws e, ds e).

(** the assembled energy, vector and matrix of a mesh belong together at the nodal values [u], for all contents of the workspaces [ws] of the threads and of the workspaces [vws], [cws] of the assemblers:
    the vector is the derivative of the energy in every direction and the matrix is symmetric and the Jacobian of the vector *)
Definition ok_value (o : outcome unit R) : R := match o with Ok y => y | _ => 0 end.
Definition ok_entry (o : outcome unit (list R)) (k : nat) : R := match o with Ok f => nth k f 0 | _ => 0 end.
Definition assembly_consistent {Pt Data} (n : nat) (energy_at : (nat -> ell_ws Pt Data) -> list R -> outcome unit R) (vector_at : @vec_ws R -> (nat -> ell_ws Pt Data) -> list R -> outcome unit (list R))
    (matrix_at : @csr_ws R -> (nat -> ell_ws Pt Data) -> list R -> outcome unit (csr R)) (u : list R) : Prop :=
  exists f, (forall vws ws, vector_at vws ws u = Ok f) /\ length f = n /\
    (forall v, length v = n -> (forall ws t, exists y, energy_at ws (line u v t) = Ok y) /\
      forall ws : R -> nat -> ell_ws Pt Data, is_derive (fun t => ok_value (energy_at (ws t) (line u v t))) 0 (summ n (fun k => nth k f 0 * nth k v 0))) /\
    forall cws ws, exists m, matrix_at cws ws u = Ok m /\ csr_wf m /\ pt_nrows (cs_pat m) = n /\
      forall r c, (r < n)%nat -> (c < n)%nat -> exists K, entry_is 0 m r c K /\ entry_is 0 m c r K /\
        (forall vws ws t, exists g, vector_at vws ws (line u (unit_vector n c) t) = Ok g) /\
        forall (vws : R -> @vec_ws R) (ws : R -> nat -> ell_ws Pt Data), is_derive (fun t => ok_entry (vector_at (vws t) (ws t) (line u (unit_vector n c) t)) r) 0 K.

(** * quadrature tables *)
Lemma rules_lengths {P W D} (ps : list (list P)) (ws : list (list W)) (ds : list (list D)) r p w d : rules_consistent ps ws ds -> ps !! r = Some p -> ws !! r = Some w -> ds !! r = Some d -> length p = length w /\ length d = length w.
Proof.
  intros (_ & _ & H) Hp Hw Hd. rewrite Forall_lookup in H. assert (E : zip (zip ps ws) ds !! r = Some (p, w, d)) by (rewrite !lookup_zip_with, Hp; simpl; rewrite Hw; simpl; rewrite Hd; reflexivity).
  destruct (H r _ E) as (H1 & H2). split; lia.
Qed.
(** C78: the tables of fenris have the rules they were made of; the rule of an element of the compact table is the one it is mapped to *)
Theorem C78_tables {Pt Data} (ps : list (list Pt)) (ws : list (list R)) (ds : list (list Data)) (map : list nat) (p : list Pt) (w : list R) (d : list Data) elems :
  (forall t, general_from ps ws ds = Ok t -> (elems <= length ws)%nat -> reads_quadrature (general_table t) elems (fun e => nth e ws []) (fun e => nth e ps []) (fun e => nth e ds [])) /\
  (forall t, uniform_from p w d = Ok t -> reads_quadrature (uniform_table t) elems (fun _ => w) (fun _ => p) (fun _ => d)) /\
  (forall t, compact_from ps ws ds map = Ok t -> (elems <= length map)%nat -> reads_quadrature (compact_table t) elems (fun e => nth (nth e map 0%nat) ws []) (fun e => nth (nth e map 0%nat) ps []) (fun e => nth (nth e map 0%nat) ds [])).
Proof.
  assert (nth_get : forall {A} (l : list A) i a, (i < length l)%nat -> l !! i = Some (nth i l a)).
  { intros A l. induction l as [|y l IH]; intros [|i] a H; simpl in *; try lia; [reflexivity|]. apply IH. lia. }
  split; [|split].
  - intros t Ht Hl e He. unfold general_from in Ht. destruct (decide _) as [Hc|]; [|discriminate]. injection Ht as <-. assert (L1 := proj1 Hc). assert (L2 := proj1 (proj2 Hc)).
    assert (Ep := nth_get _ ps e [] ltac:(lia)). assert (Ew := nth_get _ ws e [] ltac:(lia)). assert (Ed := nth_get _ ds e [] ltac:(lia)).
    destruct (rules_lengths ps ws ds e _ _ _ Hc Ep Ew Ed) as (H1 & H2). split; [exact H1|]. split; [exact H2|]. split; [cbn; unfold general_size; cbn; rewrite Ew; reflexivity|].
    intros bp bw bd E1 E2 E3. cbn. unfold quadrature_and_data, general_quadrature, general_data. cbn. rewrite Ep, Ew, Ed. cbn. rewrite E1, E2, E3. rewrite decide_True by exact H1. cbn. rewrite decide_True by reflexivity. cbn. rewrite decide_True by exact H2. reflexivity.
  - intros t Ht e He. unfold uniform_from in Ht. destruct (decide _) as [H1|]; [|discriminate]. destruct (decide _) as [H2|]; [|discriminate]. injection Ht as <-. split; [exact H1|]. split; [congruence|]. split; [cbn; unfold uniform_size; cbn; rewrite H1; reflexivity|].
    intros bp bw bd E1 E2 E3. cbn. unfold quadrature_and_data, uniform_quadrature, uniform_data. cbn. rewrite E1, E2, E3. rewrite decide_True by exact H1. cbn. rewrite decide_True by reflexivity. cbn. rewrite decide_True by congruence. reflexivity.
  - intros t Ht Hl e He. unfold compact_from in Ht. destruct (decide _) as [Hc|]; [|discriminate]. destruct (decide _) as [Hm|]; [|discriminate]. injection Ht as <-. assert (L1 := proj1 Hc). assert (L2 := proj1 (proj2 Hc)).
    assert (Em := nth_get _ map e 0%nat ltac:(lia)). rewrite Forall_forall in Hm. assert (Hr := Hm _ (elem_of_list_lookup_2 _ _ _ Em)). set (r := nth e map 0%nat) in *.
    assert (Ep := nth_get _ ps r [] Hr). assert (Ew := nth_get _ ws r [] ltac:(lia)). assert (Ed := nth_get _ ds r [] ltac:(lia)).
    destruct (rules_lengths ps ws ds r _ _ _ Hc Ep Ew Ed) as (H1 & H2). split; [exact H1|]. split; [exact H2|]. split; [cbn; unfold compact_size, compact_rule; cbn; rewrite Em; cbn; rewrite Ep, H1; reflexivity|].
    intros bp bw bd E1 E2 E3. cbn. unfold quadrature_and_data, compact_quadrature, compact_data, compact_rule. cbn. rewrite Em. cbn. rewrite Ep, Ew, Ed. cbn. rewrite E1, E2, E3. rewrite decide_True by exact H1. cbn. rewrite decide_True by reflexivity. cbn. rewrite decide_True by exact H2. reflexivity.
Qed.
Print Assumptions C78_tables.

(** * sums *)
Definition lsum (l : list R) : R := foldr Rplus 0 l.
Lemma foldl_lsum l x : foldl Rplus x l = x + lsum l.
Proof. revert x. induction l as [|y l IH]; intros x; simpl; [ring|]. rewrite IH. ring. Qed.
Lemma lsum_app l1 l2 : lsum (l1 ++ l2) = lsum l1 + lsum l2.
Proof. induction l1 as [|y l IH]; simpl; [ring|]. rewrite IH. ring. Qed.
Lemma summ_add n m g : summ (n + m) g = summ n g + summ m (fun i => g (n + i)%nat).
Proof. induction m as [|m IH]; [rewrite Nat.add_0_r; simpl; ring|]. rewrite Nat.add_succ_r. simpl. rewrite IH. ring. Qed.
Lemma summ_first n g : summ (S n) g = g 0%nat + summ n (fun i => g (S i)).
Proof. change (S n) with (1 + n)%nat. rewrite summ_add. simpl. ring. Qed.
Lemma summ_blocks s N g : summ (s * N) g = summ N (fun n => summ s (fun i => g (s * n + i)%nat)).
Proof. induction N as [|N IH]; [rewrite Nat.mul_0_r; reflexivity|]. rewrite Nat.mul_succ_r, summ_add, IH. reflexivity. Qed.
Lemma lsum_nth l : lsum l = summ (length l) (fun i => nth i l 0).
Proof. induction l as [|x l IH]; [reflexivity|]. cbn [length]. rewrite summ_first. simpl. rewrite IH. reflexivity. Qed.
Lemma lsum_concat ll : lsum (concat ll) = summ (length ll) (fun e => lsum (nth e ll [])).
Proof. induction ll as [|l ll IH]; [reflexivity|]. cbn [length]. rewrite summ_first. simpl. rewrite lsum_app, IH. reflexivity. Qed.
Lemma nth_default_lookup {A} (l : list A) i d : nth i l d = default d (l !! i).
Proof. revert i. induction l as [|x l IH]; intros [|i]; simpl; auto. Qed.
Lemma nth_some {A} (l : list A) i d x : l !! i = Some x -> nth i l d = x.
Proof. intros H. rewrite nth_default_lookup, H. reflexivity. Qed.
Lemma some_nth {A} (l : list A) i d : (i < length l)%nat -> l !! i = Some (nth i l d).
Proof. intros H. destruct (lookup_lt_is_Some_2 l i H) as (x & Hx). rewrite (nth_some l i d x Hx). exact Hx. Qed.
Lemma nth_zip_with {A B C} (f : A -> B -> C) l1 l2 i d d1 d2 : length l1 = length l2 -> (i < length l1)%nat -> nth i (zip_with f l1 l2) d = f (nth i l1 d1) (nth i l2 d2).
Proof.
  intros H Hi. apply nth_some. rewrite lookup_zip_with, (some_nth l1 i d1) by lia. simpl. rewrite (some_nth l2 i d2) by lia. reflexivity.
Qed.

(** * entries of assembled vectors and matrices *)
Lemma elem_contrib_sum s ns v dof : lsum (elem_contrib s ns v dof) = summ (length ns) (fun I => if (nth I ns 0 =? dof / s)%nat then nth (s * I + dof mod s) v 0 else 0).
Proof.
  unfold elem_contrib. enough (H : forall k, lsum (omap (fun '(il, n) => if decide (n = dof `div` s) then v !! (s * il + dof `mod` s)%nat else None) (zip (seq k (length ns)) ns)) =
    summ (length ns) (fun I => if (nth I ns 0 =? dof / s)%nat then nth (s * (k + I) + dof mod s) v 0 else 0)) by exact (H 0%nat).
  induction ns as [|n ns IH]; intros k; [reflexivity|]. cbn [length]. rewrite summ_first. simpl. rewrite Nat.add_0_r.
  assert (IH' := IH (S k)). rewrite (summ_ext (length ns) (fun i => if (nth i ns 0 =? dof / s)%nat then nth (s * (k + S i) + dof mod s) v 0 else 0) (fun I => if (nth I ns 0 =? dof / s)%nat then nth (s * (S k + I) + dof mod s) v 0 else 0))
    by (intros i _; rewrite Nat.add_succ_r; reflexivity).
  rewrite <- IH'. destruct (decide (n = dof / s)%nat) as [E|E]; [rewrite (proj2 (Nat.eqb_eq _ _) E)|rewrite (proj2 (Nat.eqb_neq _ _) E); rewrite Rplus_0_l; reflexivity].
  rewrite nth_default_lookup. destruct (v !! _); cbn [default]; [reflexivity|simpl; rewrite Rplus_0_l; reflexivity].
Qed.
Lemma contribs_sum s ls vs dof : length vs = length ls ->
  lsum (contribs s ls vs dof) = summ (length ls) (fun e => summ (length (nth e ls [])) (fun I => if (nth I (nth e ls []) 0 =? dof / s)%nat then nth (s * I + dof mod s) (nth e vs []) 0 else 0)).
Proof.
  intros Hl. unfold contribs. rewrite lsum_concat, zip_with_length_l by lia. apply summ_ext. intros e He. rewrite (nth_zip_with _ _ _ _ _ [] []) by lia. apply elem_contrib_sum.
Qed.
Lemma lsum_bind {A} (l : list A) (f : A -> list R) : lsum (l ≫= f) = lsum (map (fun a => lsum (f a)) l).
Proof. induction l as [|a l IH]; [reflexivity|]. simpl. rewrite lsum_app. f_equal. exact IH. Qed.
Lemma lsum_indexed (f : nat -> nat -> R) ns k : lsum (map (fun '(il, n) => f il n) (zip (seq k (length ns)) ns)) = summ (length ns) (fun I => f (k + I)%nat (nth I ns 0%nat)).
Proof.
  revert k. induction ns as [|n ns IH]; intros k; [reflexivity|]. cbn [length]. rewrite summ_first. simpl. rewrite Nat.add_0_r, IH. f_equal. apply summ_ext. intros i _. f_equal. lia.
Qed.
Definition mat_entry (A : list (list R)) (i j : nat) : R := nth j (nth i A []) 0.
Lemma mat_contrib_sum s ns A r c : lsum (mat_contrib s ns A r c) =
  summ (length ns) (fun I => summ (length ns) (fun J => if ((nth I ns 0 =? r / s) && (nth J ns 0 =? c / s))%nat then mat_entry A (s * I + r mod s) (s * J + c mod s) else 0)).
Proof.
  unfold mat_contrib. rewrite lsum_bind.
  etransitivity; [|exact (lsum_indexed (fun I n => summ (length ns) (fun J => if ((n =? r / s) && (nth J ns 0 =? c / s))%nat then mat_entry A (s * I + r mod s) (s * J + c mod s) else 0)) ns 0)].
  f_equal. apply map_ext. intros (I & n). rewrite lsum_bind.
  etransitivity; [|exact (lsum_indexed (fun J m => if ((n =? r / s) && (m =? c / s))%nat then mat_entry A (s * I + r mod s) (s * J + c mod s) else 0) ns 0)].
  f_equal. apply map_ext. intros (J & m). destruct (decide _) as [(-> & ->)|N].
  - rewrite !Nat.eqb_refl. unfold mat_at, mat_entry. rewrite !nth_default_lookup. destruct (A !! _) as [row|]; simpl; [|reflexivity]. destruct (row !! _); simpl; ring.
  - destruct (Nat.eqb_spec n (r / s)); [|reflexivity]. destruct (Nat.eqb_spec m (c / s)); [|reflexivity]. exfalso. auto.
Qed.
Lemma mat_contribs_sum s ls As r c : length As = length ls -> lsum (mat_contribs s ls As r c) =
  summ (length ls) (fun e => let ns := nth e ls [] in summ (length ns) (fun I => summ (length ns) (fun J => if ((nth I ns 0 =? r / s) && (nth J ns 0 =? c / s))%nat then mat_entry (nth e As []) (s * I + r mod s) (s * J + c mod s) else 0))).
Proof.
  intros Hl. unfold mat_contribs. rewrite lsum_concat, zip_with_length_l by lia. apply summ_ext. intros e He. rewrite (nth_zip_with _ _ _ _ _ [] []) by lia. apply mat_contrib_sum.
Qed.

(** * local values *)
Lemma length_local s v ns : length (local_values s v ns) = (s * length ns)%nat.
Proof. unfold local_values. rewrite map_length, seq_length. reflexivity. Qed.
Lemma local_at s v ns a : (a < s * length ns)%nat -> nth a (local_values s v ns) 0 = nth (s * nth (a / s) ns 0%nat + a mod s) v 0.
Proof. intros H. unfold local_values. apply nth_some. rewrite list_lookup_fmap, lookup_seq_lt by exact H. reflexivity. Qed.
Lemma divmod_block s I i : (i < s)%nat -> ((s * I + i) / s = I)%nat /\ ((s * I + i) mod s = i)%nat.
Proof.
  intros Hi. split.
  - symmetry. apply (Nat.div_unique _ _ I i); lia.
  - symmetry. apply (Nat.mod_unique _ _ I i); lia.
Qed.
Lemma nth_local s v ns I i : (I < length ns)%nat -> (i < s)%nat -> nth (s * I + i) (local_values s v ns) 0 = nth (s * nth I ns 0%nat + i) v 0.
Proof. intros HI Hi. rewrite local_at by nia. destruct (divmod_block s I i Hi) as (-> & ->). reflexivity. Qed.
Lemma nth_eq (l1 l2 : list R) : length l1 = length l2 -> (forall i, (i < length l1)%nat -> nth i l1 0 = nth i l2 0) -> l1 = l2.
Proof. intros Hl H. apply (List.nth_ext l1 l2 0 0 Hl H). Qed.
Lemma local_line s u v t ns : length u = length v -> local_values s (line u v t) ns = line (local_values s u ns) (local_values s v ns) t.
Proof.
  intros H. apply nth_eq; [rewrite length_line; rewrite !length_local; reflexivity|]. rewrite length_local. intros a Ha. rewrite nth_line by (rewrite !length_local; reflexivity).
  rewrite !local_at by exact Ha. apply nth_line, H.
Qed.
Lemma nodup_nth (ns : list nat) I J : NoDup ns -> (I < length ns)%nat -> (J < length ns)%nat -> nth I ns 0%nat = nth J ns 0%nat -> I = J.
Proof. intros H HI HJ E. apply (NoDup_lookup ns I J (nth I ns 0%nat) H); [apply some_nth, HI|]. rewrite E. apply some_nth, HJ. Qed.
Lemma local_unit s N c ns J : (c < N)%nat -> (0 < s)%nat -> NoDup ns -> (J < length ns)%nat -> nth J ns 0%nat = (c / s)%nat ->
  local_values s (unit_vector N c) ns = unit_vector (s * length ns) (s * J + c mod s).
Proof.
  intros Hc Hs Hn HJ EJ. apply nth_eq; [rewrite length_local, length_unit; reflexivity|]. rewrite length_local. intros a Ha. rewrite local_at by exact Ha. rewrite !nth_unit.
  assert (Dc := Nat.div_mod c s ltac:(lia)). assert (Da := Nat.div_mod a s ltac:(lia)). pose proof (Nat.mod_upper_bound c s ltac:(lia)). pose proof (Nat.mod_upper_bound a s ltac:(lia)).
  rewrite (proj2 (Nat.ltb_lt a _) Ha), andb_true_r. destruct (Nat.eqb_spec a (s * J + c mod s)) as [E|N'].
  - subst a. destruct (divmod_block s J (c mod s) ltac:(lia)) as (-> & ->). rewrite EJ, <- Dc, Nat.eqb_refl, (proj2 (Nat.ltb_lt c N) Hc). reflexivity.
  - destruct (Nat.eqb_spec (s * nth (a / s) ns 0%nat + a mod s) c) as [E|]; [|reflexivity]. exfalso.
    assert (E1 : (c / s)%nat = nth (a / s) ns 0%nat) by (rewrite <- E; apply (divmod_block s _ (a mod s)); lia). assert (E2 : (c mod s = a mod s)%nat) by (rewrite <- E; apply (divmod_block s (nth (a / s) ns 0%nat)); lia).
    assert (HI : (a / s < length ns)%nat) by (apply Nat.div_lt_upper_bound; lia).
    rewrite <- EJ in E1. symmetry in E1. apply (nodup_nth ns _ _ Hn HI HJ) in E1. apply N'. rewrite E2, <- E1. exact Da.
Qed.
Lemma local_zero s N c ns : (0 < s)%nat -> (c / s)%nat ∉ ns -> local_values s (unit_vector N c) ns = replicate (s * length ns) 0.
Proof.
  intros Hs Hn. apply nth_eq; [rewrite length_local, replicate_length; reflexivity|]. rewrite length_local. intros a Ha. rewrite local_at by exact Ha.
  rewrite (nth_some (replicate _ 0) a 0 0) by (apply lookup_replicate; auto). rewrite nth_unit. destruct (Nat.eqb_spec (s * nth (a / s) ns 0%nat + a mod s) c) as [E|]; [|reflexivity].
  exfalso. apply Hn. pose proof (Nat.mod_upper_bound a s ltac:(lia)). rewrite <- E. destruct (divmod_block s (nth (a / s) ns 0%nat) (a mod s) ltac:(lia)) as (-> & _).
  apply (elem_of_list_lookup_2 ns (a / s)). apply some_nth. apply Nat.div_lt_upper_bound; lia.
Qed.
Lemma gather_local s (u buf : list R) ns : length buf = (s * length ns)%nat -> List.Forall (fun k => (s * k + s <= length u)%nat) ns -> gather_global_to_local u buf ns s = Ok (local_values s u ns).
Proof.
  intros Hl HF. pose proof (C21_gather_copies R s u buf ns) as H. destruct (gather_global_to_local u buf ns s) as [loc|[]|].
  - destruct H as (_ & Hlen & H). f_equal. apply nth_eq; [rewrite length_local; lia|]. intros a Ha. assert (Hs : (s <> 0)%nat) by (intros ->; simpl in *; lia).
    rewrite local_at by lia. assert (HI : (a / s < length ns)%nat) by (apply Nat.div_lt_upper_bound; lia). pose proof (Nat.mod_upper_bound a s Hs) as Hm.
    destruct (H (a / s)%nat (nth (a / s) ns 0%nat) (a mod s)%nat (some_nth _ _ _ HI) Hm) as (Hin & E). rewrite <- (Nat.div_mod a s Hs) in E. rewrite !nth_default_lookup. f_equal.
    rewrite E. do 2 f_equal. f_equal. rewrite nth_default_lookup. reflexivity.
  - exfalso. destruct H as [H|H]; [lia|]. apply Exists_exists in H as (k & Hk & H). rewrite Forall_forall in HF. specialize (HF k Hk). lia.
Qed.

(** * the element assemblers *)
Section elements.
Context {Pt Data : Type} (origin : Pt) (default_data : Data) (umax : nat) (sp : fe_space Pt) (table : q_table Pt Data).
Context (s : nat) (ls : list (list nat)) (w : nat -> list R) (p : nat -> list Pt) (x : nat -> list Data).
Hypothesis Hc : has_conn (fs_conn sp s) ls.
Hypothesis Hr : nodes_in_range (fs_nodes sp) ls.
Hypothesis Hq : reads_quadrature table (length ls) w p x.

Lemma prepare_quadrature_ok ws e : (e < length ls)%nat -> prepare_quadrature origin default_data table ws e = Ok (EllWs (ew_u ws) (p e) (w e) (x e) (ew_nodes ws) (ew_basis ws)).
Proof. intros He. destruct (Hq e He) as (_ & _ & Hs & Hp). unfold prepare_quadrature. rewrite Hs. simpl. rewrite Hp by apply vec_resize_length. reflexivity. Qed.
Lemma space_nodes e ns buf : ls !! e = Some ns -> fs_count sp e = length ns /\ fs_populate sp e (vec_resize buf (length ns) umax) = ns.
Proof. intros He. destruct Hc as (_ & H). destruct (H e ns He) as (H1 & H2). split; [exact H1|]. apply H2. apply vec_resize_length. Qed.
Lemma prepare_elliptic_ok u ws e ns : ls !! e = Some ns -> length u = (s * fs_nodes sp)%nat ->
  prepare_elliptic origin default_data umax sp table s u ws e = Ok (EllWs (local_values s u ns) (p e) (w e) (x e) ns (length ns)).
Proof.
  intros He Hu. unfold prepare_elliptic, prepare_nodes. cbv zeta. cbn [ew_u ew_nodes ew_points ew_weights ew_data ew_basis].
  destruct (space_nodes e ns (ew_nodes ws) He) as (-> & ->). rewrite gather_local; [|apply vec_resize_length|].
  - rewrite prepare_quadrature_ok by (apply lookup_lt_Some in He; exact He). reflexivity.
  - apply Forall_forall. intros k Hk. assert (k < fs_nodes sp)%nat by (apply (Hr ns k); [apply (elem_of_list_lookup_2 ls e), He|exact Hk]). rewrite Hu. nia.
Qed.

(** C78: the element assemblers give the results of the element functions for the entries of [u] that belong to the nodes of the element, whatever the thread-local workspace and the
    output buffer contain *)
Theorem C78_elements (energy : mat -> Data -> R) (operator_transpose : mat -> Data -> mat) symmetric accumulate u e ns :
  ls !! e = Some ns -> length u = (s * fs_nodes sp)%nat ->
  forall ws, let el := fs_element sp e in let ue := local_values s u ns in let n := length ns in
  elliptic_scalar origin default_data umax sp table s energy u ws e = of_result (element_energy el s energy ue (w e) (p e) (x e) n) /\
  (forall out, length out = (s * n)%nat -> elliptic_vector origin default_data umax sp table s operator_transpose u ws e out =
    (let! f := of_result (element_vector el s operator_transpose ue (w e) (p e) (x e) n (s * n)) in Ok (as_list (s * n) f))) /\
  (forall out, square (s * n) out -> elliptic_matrix origin default_data umax sp table s symmetric accumulate u ws e out =
    (let! K := of_result (element_matrix el s symmetric accumulate ue (w e) (p e) (x e) n (s * n) (s * n)) in Ok (as_rows (s * n) K))).
Proof.
  intros He Hu ws el ue n. destruct (space_nodes e ns [] He) as (Hn & _). split; [|split].
  - unfold elliptic_scalar. rewrite (prepare_elliptic_ok u ws e ns He Hu). reflexivity.
  - intros out Ho. unfold elliptic_vector. rewrite Hn. rewrite decide_True by exact Ho. rewrite (prepare_elliptic_ok u ws e ns He Hu). simpl. rewrite Ho. reflexivity.
  - intros out Ho. unfold elliptic_matrix. rewrite Hn. rewrite decide_True by exact Ho. rewrite (prepare_elliptic_ok u ws e ns He Hu). reflexivity.
Qed.
End elements.
Print Assumptions C78_elements.

(** * global assembly *)
Lemma length_as_list n f : length (as_list n f) = n.
Proof. unfold as_list. rewrite map_length. apply seq_length. Qed.
Lemma nth_as_list n f k : (k < n)%nat -> nth k (as_list n f) 0 = f k.
Proof. intros H. unfold as_list. apply nth_some. rewrite list_lookup_fmap, lookup_seq_lt by exact H. reflexivity. Qed.
Lemma square_as_rows n f : square n (as_rows n f).
Proof.
  unfold square, as_rows. rewrite map_length, seq_length. split; [reflexivity|]. apply Forall_forall. intros r Hr. apply elem_of_list_fmap in Hr as (i & -> & _). rewrite map_length. apply seq_length.
Qed.
Lemma entry_as_rows n f i j : (i < n)%nat -> (j < n)%nat -> mat_entry (as_rows n f) i j = f i j.
Proof.
  intros Hi Hj. unfold mat_entry, as_rows. rewrite (nth_some _ i [] (map (f i) (seq 0 n))) by (rewrite list_lookup_fmap, lookup_seq_lt by exact Hi; reflexivity). exact (nth_as_list n (f i) j Hj).
Qed.
Lemma map_Ok_inj {A} (l1 l2 : list A) : map (@Ok unit A) l1 = map Ok l2 -> l1 = l2.
Proof. revert l2. induction l1 as [|x l1 IH]; intros [|y l2] H; simpl in H; try discriminate; [reflexivity|]. injection H as -> H. f_equal. apply IH, H. Qed.
Lemma seq_nth_lookup {A} (f : nat -> A) n e : (e < n)%nat -> map f (seq 0 n) !! e = Some (f e).
Proof. intros H. rewrite list_lookup_fmap, lookup_seq_lt by exact H. reflexivity. Qed.

Lemma scalar_sum n (f : nat -> outcome unit R) (g : nat -> R) : (forall e, (e < n)%nat -> f e = Ok (g e)) -> assemble_scalar Rplus 0 n f = Ok (summ n g).
Proof.
  intros H. pose proof (C20_serial_scalar R unit Rplus 0 f n) as C. destruct (assemble_scalar Rplus 0 n f) as [y|e|].
  - destruct C as (vals & E & ->). rewrite (map_ext_in f (fun e => Ok (g e))) in E by (intros e He; apply in_seq in He; apply H; lia). rewrite <- (map_map g Ok) in E. apply map_Ok_inj in E. subst vals.
    f_equal. rewrite foldl_lsum, lsum_nth, map_length, seq_length, Rplus_0_l. apply summ_ext. intros e He. apply nth_some, seq_nth_lookup, He.
  - destruct C as (l1 & i & l2 & vals & E & _ & Ei). assert (i ∈ seq 0 n) as Hi by (rewrite E; set_solver). apply elem_of_seq in Hi. rewrite H in Ei by lia. discriminate.
  - destruct C as (l1 & i & l2 & vals & E & _ & Ei). assert (i ∈ seq 0 n) as Hi by (rewrite E; set_solver). apply elem_of_seq in Hi. rewrite H in Ei by lia. discriminate.
Qed.
(** entry of the sum of scattered element vectors *)
Definition scattered (s : nat) (ls : list (list nat)) (F : nat -> vec) (k : nat) : R :=
  summ (length ls) (fun e => let ns := nth e ls [] in summ (length ns) (fun I => if (nth I ns 0 =? k / s)%nat then F e (s * I + k mod s)%nat else 0)).
Definition scattered_mat (s : nat) (ls : list (list nat)) (K : nat -> mat) (r c : nat) : R :=
  summ (length ls) (fun e => let ns := nth e ls [] in summ (length ns) (fun I => summ (length ns) (fun J =>
    if ((nth I ns 0 =? r / s) && (nth J ns 0 =? c / s))%nat then K e (s * I + r mod s)%nat (s * J + c mod s)%nat else 0))).

Lemma vector_sum umax vws (a : @vec_asm R unit) ls (F : nat -> vec) :
  has_conn (va_conn a) ls -> nodes_in_range (ca_nodes (va_conn a)) ls -> (0 < ca_sdim (va_conn a))%nat ->
  (forall e ns out, ls !! e = Some ns -> length out = (ca_sdim (va_conn a) * length ns)%nat -> va_vec a e out = Ok (as_list (ca_sdim (va_conn a) * length ns) (F e))) ->
  (assemble_vector Rplus 0 umax vws a).2 = Ok (as_list (ca_sdim (va_conn a) * ca_nodes (va_conn a)) (scattered (ca_sdim (va_conn a)) ls F)).
Proof.
  intros Hc Hr Hs HF. set (s := ca_sdim (va_conn a)) in *. set (N := ca_nodes (va_conn a)) in *.
  set (vs := map (fun e => as_list (s * length (nth e ls [])) (F e)) (seq 0 (length ls))).
  assert (Hv : has_vecs a ls (map Ok vs)).
  { split; [unfold vs; rewrite !map_length; apply seq_length|]. intros e ns v He Hv. assert (He' := lookup_lt_Some _ _ _ He). unfold vs in Hv. rewrite map_map, seq_nth_lookup in Hv by exact He'. injection Hv as <-.
    rewrite (nth_some ls e [] ns He). split.
    - intros buf Hb. apply HF; assumption.
    - intros v [= <-]. apply length_as_list. }
  unfold assemble_vector. fold s N. destruct (C09_serial_vector_assembly R unit Rplus 0 umax a ls (map Ok vs) vws (replicate (s * N) 0) Hc Hr Hv) as (ws' & out' & r & good & E & S & M); [apply replicate_length|].
  rewrite E. cbn [snd]. destruct r as [[]|e|].
  - apply map_Ok_inj in M. subst good. cbn [obind]. f_equal. fold s in S. destruct S as (Hl & S). rewrite replicate_length in Hl.
    assert (Hvs : length vs = length ls) by (unfold vs; rewrite map_length; apply seq_length).
    apply nth_eq; [rewrite length_as_list; exact Hl|]. rewrite Hl. intros k Hk. rewrite nth_as_list by exact Hk.
    rewrite (nth_some out' k 0 _ (S k 0 ltac:(apply lookup_replicate; auto))). rewrite Hvs, firstn_all. rewrite foldl_lsum, Rplus_0_l, contribs_sum by exact Hvs.
    unfold scattered. apply summ_ext. intros e He. cbv zeta. apply summ_ext. intros I HI. destruct (_ =? _)%nat; [|reflexivity].
    unfold vs. rewrite (nth_some _ e [] _ (seq_nth_lookup _ _ _ He)). apply nth_as_list. pose proof (Nat.mod_upper_bound k s ltac:(lia)). nia.
  - destruct M as (rest & M). exfalso. assert (H : Err e ∈ map (@Ok unit (list R)) vs) by (rewrite M; set_solver). apply elem_of_list_fmap in H as (y & Ey & _). discriminate.
  - destruct M as (rest & M). exfalso. assert (H : Panic ∈ map (@Ok unit (list R)) vs) by (rewrite M; set_solver). apply elem_of_list_fmap in H as (y & Ey & _). discriminate.
Qed.
Lemma matrix_sum srt ord umax cws (a : @mat_asm R unit) ls (K : nat -> mat) :
  hash_order ord -> sorts_by_key srt ->
  has_conn (ma_conn a) ls -> nodes_in_range (ca_nodes (ma_conn a)) ls -> (0 < ca_sdim (ma_conn a))%nat -> List.Forall NoDup ls ->
  (forall e ns out, ls !! e = Some ns -> square (ca_sdim (ma_conn a) * length ns) out -> ma_mat a e out = Ok (as_rows (ca_sdim (ma_conn a) * length ns) (K e))) ->
  exists m, (assemble_csr Rplus 0 srt ord umax cws a).2 = Ok m /\ csr_wf m /\ pt_nrows (cs_pat m) = (ca_sdim (ma_conn a) * ca_nodes (ma_conn a))%nat /\
    forall r c, entry_is 0 m r c (scattered_mat (ca_sdim (ma_conn a)) ls K r c).
Proof.
  intros Ho Hsrt Hc Hr Hs Hn HK. set (s := ca_sdim (ma_conn a)) in *.
  set (vs := map (fun e => as_rows (s * length (nth e ls [])) (K e)) (seq 0 (length ls))).
  assert (Hv : has_mats a ls (map Ok vs)).
  { split; [unfold vs; rewrite !map_length; apply seq_length|]. intros e ns v He Hv. assert (He' := lookup_lt_Some _ _ _ He). unfold vs in Hv. rewrite map_map, seq_nth_lookup in Hv by exact He'. injection Hv as <-.
    rewrite (nth_some ls e [] ns He). split.
    - intros buf Hb. apply HK; assumption.
    - intros v [= <-]. apply square_as_rows. }
  assert (Hvs : length vs = length ls) by (unfold vs; rewrite map_length; apply seq_length).
  pose proof (C14_assemble R unit Rplus 0 srt ord umax cws a ls (map Ok vs) Ho Hsrt Hc Hr Hv Hs Hn) as C. destruct (assemble_csr Rplus 0 srt ord umax cws a) as (ws' & [m|e|]); cbn [snd] in *.
  - destruct C as (As & EA & Hw & Hp & He). apply map_Ok_inj in EA. subst As. exists m. split; [reflexivity|]. split; [exact Hw|]. split; [exact Hp|]. intros r c. specialize (He r c). fold s in He.
    rewrite foldl_lsum, Rplus_0_l, mat_contribs_sum in He by exact Hvs. erewrite (summ_ext (length ls)) in He; [exact He|]. intros e Hel. cbv zeta. apply summ_ext. intros I HI. apply summ_ext. intros J HJ.
    destruct (_ && _)%bool; [|reflexivity]. unfold vs. rewrite (nth_some _ e [] _ (seq_nth_lookup _ _ _ Hel)). pose proof (Nat.mod_upper_bound r s ltac:(lia)). pose proof (Nat.mod_upper_bound c s ltac:(lia)). apply entry_as_rows; nia.
  - destruct C as (good & rest & M). exfalso. assert (H : Err e ∈ map (@Ok unit (list (list R))) vs) by (rewrite M; set_solver). apply elem_of_list_fmap in H as (y & Ey & _). discriminate.
  - destruct C as (good & rest & M). exfalso. assert (H : Panic ∈ map (@Ok unit (list (list R))) vs) by (rewrite M; set_solver). apply elem_of_list_fmap in H as (y & Ey & _). discriminate.
Qed.

(** the product with nodal values is the sum of the products of the elements *)
Lemma summ_zero' n f : (forall k, (k < n)%nat -> f k = 0) -> summ n f = 0.
Proof. intros H. rewrite (summ_ext n f (fun _ => 0)) by exact H. apply summ_zero. Qed.
Lemma scattered_dot s N ls F v : (0 < s)%nat -> nodes_in_range N ls ->
  summ (s * N) (fun k => scattered s ls F k * nth k v 0) =
  summ (length ls) (fun e => let ns := nth e ls [] in summ (length ns) (fun I => summ s (fun i => F e (s * I + i)%nat * nth (s * I + i) (local_values s v ns) 0))).
Proof.
  intros Hs Hr. unfold scattered. rewrite (summ_ext (s * N) _ (fun k => summ (length ls) (fun e => let ns := nth e ls [] in summ (length ns) (fun I => if (nth I ns 0 =? k / s)%nat then F e (s * I + k mod s)%nat * nth k v 0 else 0)))).
  2: { intros k Hk. rewrite <- summ_r. apply summ_ext. intros e He. cbv zeta. rewrite <- summ_r. apply summ_ext. intros I HI. destruct (_ =? _)%nat; ring. }
  rewrite summ_swap. apply summ_ext. intros e He. cbv zeta. set (ns := nth e ls []). rewrite summ_swap. apply summ_ext. intros I HI. rewrite summ_blocks.
  assert (Hn : (nth I ns 0 < N)%nat).
  { apply (Hr ns); [apply (elem_of_list_lookup_2 ls e), some_nth, He|apply (elem_of_list_lookup_2 ns I), some_nth, HI]. }
  rewrite (summ_ext N _ (fun n => if (n =? nth I ns 0)%nat then summ s (fun i => F e (s * I + i)%nat * nth (s * n + i) v 0) else 0)).
  - rewrite (summ_delta N (nth I ns 0%nat) (fun n => summ s (fun i => F e (s * I + i)%nat * nth (s * n + i) v 0)) Hn). apply summ_ext. intros i Hi. rewrite nth_local by assumption. reflexivity.
  - intros n _. rewrite (Nat.eqb_sym n). destruct (Nat.eqb_spec (nth I ns 0%nat) n) as [E|E].
    + apply summ_ext. intros i Hi. destruct (divmod_block s n i Hi) as (-> & ->). rewrite (proj2 (Nat.eqb_eq _ _) E). reflexivity.
    + apply summ_zero'. intros i Hi. destruct (divmod_block s n i Hi) as (-> & ->). rewrite (proj2 (Nat.eqb_neq _ _) E). reflexivity.
Qed.

Section global.
Context {Pt Data : Type} (origin : Pt) (default_data : Data) (umax : nat) (sp : fe_space Pt) (table : q_table Pt Data).
Context (s : nat) (ls : list (list nat)) (w : nat -> list R) (p : nat -> list Pt) (x : nat -> list Data).
Hypothesis Hc : has_conn (fs_conn sp s) ls.
Hypothesis Hr : nodes_in_range (fs_nodes sp) ls.
Hypothesis Hq : reads_quadrature table (length ls) w p x.
Hypothesis Hs : (0 < s)%nat.
Context (energy : mat -> Data -> R) (operator_transpose : mat -> Data -> mat) (accumulate : mat -> Data -> nat -> nat -> mat -> R -> list R -> list R -> option mat).
Context (srt : list nat -> list nat) (ord : nat -> list nat -> list nat).
Hypothesis Hord : hash_order ord.
Hypothesis Hsrt : sorts_by_key srt.
Let N := fs_nodes sp.
Let energy_at ws u := assemble_scalar Rplus 0 (fs_elems sp) (fun e => elliptic_scalar origin default_data umax sp table s energy u (ws e) e).
Let vector_at vws ws u := (assemble_vector Rplus 0 umax vws (elliptic_vec_asm origin default_data umax sp table s operator_transpose u ws)).2.
Let matrix_at cws ws u := (assemble_csr Rplus 0 srt ord umax cws (elliptic_mat_asm origin default_data umax sp table s true accumulate u ws)).2.

Let nodes e := nth e ls [].
Let E_ e u := element_energy (fs_element sp e) s energy (local_values s u (nodes e)) (w e) (p e) (x e) (length (nodes e)).
Let V_ e u := element_vector (fs_element sp e) s operator_transpose (local_values s u (nodes e)) (w e) (p e) (x e) (length (nodes e)) (s * length (nodes e)).
Let K_ e u := element_matrix (fs_element sp e) s true accumulate (local_values s u (nodes e)) (w e) (p e) (x e) (length (nodes e)) (s * length (nodes e)) (s * length (nodes e)).

Lemma energy_global ws u : length u = (s * N)%nat -> (forall e, (e < length ls)%nat -> exists y, E_ e u = Done y) ->
  energy_at ws u = Ok (summ (length ls) (fun e => result_value (E_ e u))).
Proof.
  intros Hu H. assert (Hl : length ls = fs_elems sp) by apply Hc. unfold energy_at. rewrite <- Hl. apply scalar_sum. intros e He.
  destruct (C78_elements origin default_data umax sp table s ls w p x Hc Hr Hq energy operator_transpose true accumulate u e (nodes e) (some_nth ls e [] He) Hu (ws e)) as (HE & _ & _).
  rewrite HE. fold (E_ e u). destruct (H e He) as (y & ->). reflexivity.
Qed.
Lemma vector_global vws ws u : length u = (s * N)%nat -> (forall e, (e < length ls)%nat -> exists f, V_ e u = Done f) ->
  vector_at vws ws u = Ok (as_list (s * N) (scattered s ls (fun e => result_entry (V_ e u)))).
Proof.
  intros Hu H. unfold vector_at. apply (vector_sum umax vws (elliptic_vec_asm origin default_data umax sp table s operator_transpose u ws) ls); [exact Hc|exact Hr|exact Hs|].
  intros e ns out He Ho. cbn [va_vec va_conn ca_sdim elliptic_vec_asm fs_conn] in *. assert (En : nodes e = ns) by (apply nth_some, He).
  destruct (C78_elements origin default_data umax sp table s ls w p x Hc Hr Hq energy operator_transpose true accumulate u e ns He Hu (ws e)) as (_ & HV & _).
  rewrite HV by exact Ho. destruct (H e (lookup_lt_Some _ _ _ He)) as (f & Ef). unfold V_ in *. rewrite En in *. rewrite Ef. reflexivity.
Qed.
Lemma matrix_global cws ws u : List.Forall NoDup ls -> length u = (s * N)%nat -> forall K, (forall e, (e < length ls)%nat -> K_ e u = Done (K e)) ->
  exists m, matrix_at cws ws u = Ok m /\ csr_wf m /\ pt_nrows (cs_pat m) = (s * N)%nat /\ forall r c, entry_is 0 m r c (scattered_mat s ls K r c).
Proof.
  intros Hn Hu K H. unfold matrix_at. apply (matrix_sum srt ord umax cws (elliptic_mat_asm origin default_data umax sp table s true accumulate u ws) ls K); [exact Hord|exact Hsrt|exact Hc|exact Hr|exact Hs|exact Hn|].
  intros e ns out He Ho. cbn [ma_mat ma_conn ca_sdim elliptic_mat_asm fs_conn] in *. assert (En : nodes e = ns) by (apply nth_some, He).
  destruct (C78_elements origin default_data umax sp table s ls w p x Hc Hr Hq energy operator_transpose true accumulate u e ns He Hu (ws e)) as (_ & _ & HK).
  rewrite HK by exact Ho. specialize (H e (lookup_lt_Some _ _ _ He)). unfold K_ in *. rewrite En in *. rewrite H. reflexivity.
Qed.
(** vector and energy of an element exist for all nodal values or for none *)
Lemma vector_done (el : element Pt) u u' we pe (xe : list Data) buffer nout f : element_vector el s operator_transpose u we pe xe buffer nout = Done f -> length u' = length u ->
  exists f', element_vector el s operator_transpose u' we pe xe buffer nout = Done f'.
Proof.
  intros Hf Hl. assert (Hf' := Hf). unfold element_vector in Hf'. cbv zeta in Hf'.
  destruct (Nat.eqb_spec (length we) (length pe)) as [E1|]; [|discriminate]. destruct (Nat.eqb_spec (length pe) (length xe)) as [E2|]; [|discriminate].
  destruct (Nat.eqb_spec buffer (el_nodes el)) as [->|]; [|discriminate]. destruct (Nat.eqb_spec (length u) (s * el_nodes el)) as [E3|]; [|discriminate].
  destruct (Nat.eqb_spec nout (s * el_nodes el)) as [->|]; [|discriminate]. clear Hf'.
  destruct (vector_value el s operator_transpose u we pe xe (conj E1 E2) E3) as (H1 & _). destruct (vector_value el s operator_transpose u' we pe xe (conj E1 E2) (eq_trans Hl E3)) as (_ & H2).
  destruct H2 as (f' & H2 & _); [|exists f'; exact H2]. apply Classical_Prop.NNPP. intros Hn. apply H1 in Hn. rewrite Hn in Hf. discriminate.
Qed.

(** C78: if the assembly functions of every element belong together then those of the mesh do *)
Theorem C78_consistent u : length u = (s * N)%nat -> List.Forall NoDup ls ->
  (forall e ns, ls !! e = Some ns -> el_nodes (fs_element sp e) = length ns /\ consistent (fs_element sp e) s energy operator_transpose accumulate (w e) (p e) (x e) (local_values s u ns)) ->
  assembly_consistent (s * N) energy_at vector_at matrix_at u.
Proof.
  intros Hu Hn Hcons.
  assert (Hcons' : forall e, (e < length ls)%nat -> el_nodes (fs_element sp e) = length (nodes e) /\ consistent (fs_element sp e) s energy operator_transpose accumulate (w e) (p e) (x e) (local_values s u (nodes e)))
    by (intros e He; apply (Hcons e), some_nth, He).
  assert (HV : forall u' e, length u' = (s * N)%nat -> (e < length ls)%nat -> exists f, V_ e u' = Done f).
  { intros u' e Hu' He. destruct (Hcons' e He) as (En & f & K & Ef & _). rewrite En in Ef. apply (vector_done _ _ _ _ _ _ _ _ f Ef). rewrite !length_local. reflexivity. }
  exists (as_list (s * N) (scattered s ls (fun e => result_entry (V_ e u)))). split; [|split; [apply length_as_list|split]].
  - intros vws ws. apply vector_global; [exact Hu|]. intros e He. apply HV; assumption.
  - intros v Hv. assert (HE : forall t e, (e < length ls)%nat -> exists y, E_ e (line u v t) = Done y).
    { intros t e He. unfold E_. rewrite local_line by lia. destruct (Hcons' e He) as (En & f & K & _ & _ & H & _). rewrite En in H. destruct (H (local_values s v (nodes e)) ltac:(apply length_local)) as (H1 & _). apply H1. }
    assert (EE : forall ws t, energy_at ws (line u v t) = Ok (summ (length ls) (fun e => result_value (E_ e (line u v t))))).
    { intros ws t. apply energy_global; [rewrite length_line; lia|]. apply HE. }
    split; [intros ws t; rewrite EE; eexists; reflexivity|]. intros ws.
    apply (is_derive_pext (fun t => summ (length ls) (fun e => result_value (E_ e (line u v t))))); [intros t; rewrite EE; reflexivity|].
    rewrite (summ_ext (s * N) _ (fun k => scattered s ls (fun e => result_entry (V_ e u)) k * nth k v 0)) by (intros k Hk; rewrite nth_as_list by exact Hk; reflexivity).
    rewrite scattered_dot by assumption. cbv zeta. apply is_derive_summ. intros e He. fold (nodes e). destruct (Hcons' e He) as (En & f & K & Ef & _ & H & _). rewrite En in H, Ef.
    destruct (H (local_values s v (nodes e)) ltac:(apply length_local)) as (_ & H2). fold (V_ e u) in Ef. rewrite Ef. cbn [result_entry].
    apply (is_derive_pext _ _ _ _ (fun t => f_equal (fun l => result_value (element_energy (fs_element sp e) s energy l (w e) (p e) (x e) (length (nodes e)))) (eq_sym (local_line s u v t (nodes e) (eq_trans Hu (eq_sym Hv))))) H2).
  - intros cws ws.
    assert (HK : exists K : nat -> mat, forall e, (e < length ls)%nat -> K_ e u = Done (K e)).
    { exists (fun e => match K_ e u with Done K => K | _ => fun _ _ => 0 end). intros e He. destruct (Hcons' e He) as (En & f & K & _ & EK & _). rewrite En in EK. unfold K_. rewrite EK. reflexivity. }
    destruct HK as (K & HK). destruct (matrix_global cws ws u Hn Hu K HK) as (m & Em & Hw & Hp & Hent). exists m. split; [exact Em|]. split; [exact Hw|]. split; [exact Hp|].
    intros r c Hrr Hcc. exists (scattered_mat s ls K r c). split; [apply Hent|]. split; [|split].
    + replace (scattered_mat s ls K r c) with (scattered_mat s ls K c r); [apply Hent|]. unfold scattered_mat. apply summ_ext. intros e He. cbv zeta. rewrite summ_swap. apply summ_ext. intros J HJ. apply summ_ext. intros I HI.
      fold (nodes e) in *. rewrite andb_comm. destruct (_ && _)%bool; [|reflexivity]. destruct (Hcons' e He) as (En & f & K' & _ & EK & _ & HS & _). rewrite En in EK, HS. fold (K_ e u) in EK. rewrite (HK e He) in EK. injection EK as <-.
      pose proof (Nat.mod_upper_bound r s ltac:(lia)). pose proof (Nat.mod_upper_bound c s ltac:(lia)). apply HS; nia.
    + intros vws' ws' t. eexists. apply vector_global; [rewrite length_line; rewrite ?length_unit; lia|]. intros e He. apply HV; [rewrite length_line; rewrite ?length_unit; lia|exact He].
    + intros vws' ws'.
      apply (is_derive_pext (fun t => scattered s ls (fun e => result_entry (V_ e (line u (unit_vector (s * N) c) t))) r)).
      { intros t. rewrite vector_global; [cbn [ok_entry]; rewrite nth_as_list by exact Hrr; reflexivity|rewrite length_line; rewrite ?length_unit; lia|]. intros e He. apply HV; [rewrite length_line; rewrite ?length_unit; lia|exact He]. }
      unfold scattered, scattered_mat. apply is_derive_summ. intros e He. cbv zeta. fold (nodes e). apply is_derive_summ. intros I HI.
      destruct (Nat.eqb_spec (nth I (nodes e) 0%nat) (r / s)%nat) as [EI|NI]; cbn [andb].
      2: { apply (is_derive_eq _ _ 0); [apply dconst|]. symmetry. apply summ_zero'. reflexivity. }
      pose proof (Nat.mod_upper_bound r s ltac:(lia)) as Hrm. pose proof (Nat.mod_upper_bound c s ltac:(lia)) as Hcm.
      assert (Hnd : NoDup (nodes e)) by (rewrite Forall_forall in Hn; apply Hn, (elem_of_list_lookup_2 ls e), some_nth, He).
      destruct (Hcons' e He) as (En & f & K' & Ef & EK & _ & _ & HJ). rewrite En in EK, HJ, Ef. fold (K_ e u) in EK. rewrite (HK e He) in EK. injection EK as <-.
      destruct (decide ((c / s)%nat ∈ nodes e)) as [Hin|Hout].
      * apply elem_of_list_lookup in Hin as (J & EJ). assert (LJ := lookup_lt_Some _ _ _ EJ). assert (EJ' := nth_some _ J 0%nat _ EJ).
        rewrite (summ_ext (length (nodes e)) _ (fun J' => if (J' =? J)%nat then K e (s * I + r mod s)%nat (s * J' + c mod s)%nat else 0)).
        2: { intros J' HJ'. destruct (Nat.eqb_spec (nth J' (nodes e) 0%nat) (c / s)) as [E'|N']; destruct (Nat.eqb_spec J' J) as [->|NJ]; try reflexivity; [|congruence].
             exfalso. apply NJ. apply (nodup_nth (nodes e)); congruence. }
        rewrite (summ_delta (length (nodes e)) J (fun J' => K e (s * I + r mod s)%nat (s * J' + c mod s)%nat) LJ).
        refine (is_derive_pext _ _ _ _ _ (HJ I J (r mod s)%nat (c mod s)%nat HI LJ Hrm Hcm)). intros t. unfold V_.
        rewrite local_line by (rewrite length_unit; exact Hu). rewrite (local_unit s (s * N) c (nodes e) J) by assumption. reflexivity.
      * rewrite (summ_zero' (length (nodes e))).
        2: { intros J HJ'. destruct (Nat.eqb_spec (nth J (nodes e) 0%nat) (c / s)) as [E'|]; [|reflexivity]. exfalso. apply Hout. rewrite <- E'. apply (elem_of_list_lookup_2 (nodes e) J), some_nth, HJ'. }
        apply (is_derive_pext (fun _ => result_entry (V_ e u) (s * I + r mod s))); [|apply dconst]. intros t. unfold V_.
        rewrite local_line by (rewrite length_unit; exact Hu). rewrite (local_zero s (s * N) c (nodes e)) by assumption. do 2 f_equal.
        apply nth_eq; [rewrite length_line; rewrite !length_local, ?replicate_length; reflexivity|]. rewrite length_local. intros a Ha. rewrite nth_line by (rewrite length_local, replicate_length; reflexivity).
        rewrite (nth_some (replicate _ 0) a 0 0) by (apply lookup_replicate; auto). ring.
Qed.
End global.
Print Assumptions C78_consistent.

(** * the operators of fenris *)
Section operators.
Context {Pt Data : Type} (origin : Pt) (default_data : Data) (umax : nat) (sp : fe_space Pt) (table : q_table Pt Data).
Context (ls : list (list nat)) (w : nat -> list R) (p : nat -> list Pt) (x : nat -> list Data) (d : nat).
Context (srt : list nat -> list nat) (ord : nat -> list nat -> list nat).
(** a mesh of elements of dimension [d] that are not degenerate at their quadrature points, with different nodes *)
Definition regular_mesh (s : nat) : Prop :=
  has_conn (fs_conn sp s) ls /\ nodes_in_range (fs_nodes sp) ls /\ List.Forall NoDup ls /\ reads_quadrature table (length ls) w p x /\ hash_order ord /\ sorts_by_key srt /\ small d /\
  forall e ns, ls !! e = Some ns -> el_nodes (fs_element sp e) = length ns /\ el_dim (fs_element sp e) = d /\ regular_at (fs_element sp e) (combine (w e) (combine (p e) (x e))).
(** energy, vector and matrix of an operator *)
Definition operator_consistent (s : nat) (energy : mat -> Data -> R) (operator_transpose : mat -> Data -> mat) (accumulate : mat -> Data -> nat -> nat -> mat -> R -> list R -> list R -> option mat) (u : list R) : Prop :=
  assembly_consistent (s * fs_nodes sp)
    (fun ws u => assemble_scalar Rplus 0 (fs_elems sp) (fun e => elliptic_scalar origin default_data umax sp table s energy u (ws e) e))
    (fun vws ws u => (assemble_vector Rplus 0 umax vws (elliptic_vec_asm origin default_data umax sp table s operator_transpose u ws)).2)
    (fun cws ws u => (assemble_csr Rplus 0 srt ord umax cws (elliptic_mat_asm origin default_data umax sp table s true accumulate u ws)).2) u.

Lemma mesh_consistent s energy operator_transpose accumulate u : (0 < s)%nat -> regular_mesh s -> length u = (s * fs_nodes sp)%nat ->
  (forall e ns, ls !! e = Some ns -> el_nodes (fs_element sp e) = length ns -> el_dim (fs_element sp e) = d -> small d -> quadrature_sizes (w e) (p e) (x e) -> regular_at (fs_element sp e) (combine (w e) (combine (p e) (x e))) ->
    consistent (fs_element sp e) s energy operator_transpose accumulate (w e) (p e) (x e) (local_values s u ns)) ->
  operator_consistent s energy operator_transpose accumulate u.
Proof.
  intros Hs (Hc & Hr & Hn & Hq & Ho & Hsrt & Hd & He) Hu H. unfold operator_consistent. apply (C78_consistent origin default_data umax sp table s ls w p x Hc Hr Hq Hs energy operator_transpose accumulate srt ord Ho Hsrt u Hu Hn).
  intros e ns Hens. destruct (He e ns Hens) as (H1 & H2 & H3). split; [exact H1|]. apply (H e ns Hens H1 H2 Hd); [|exact H3]. destruct (Hq e (lookup_lt_Some _ _ _ Hens)) as (L1 & L2 & _). split; lia.
Qed.
End operators.

(** C78 for the Laplace operator *)
Theorem C78_laplace {Pt} (origin : Pt) umax sp (table : q_table Pt unit) ls w p x d srt ord u :
  regular_mesh sp table ls w p x d srt ord 1 -> length u = fs_nodes sp ->
  operator_consistent origin tt umax sp table srt ord 1 (fun G _ => laplace_energy d G) (fun G _ => transpose (laplace_operator G)) (fun G _ => accumulate_contractions d 1 true (laplace_contract d G)) u.
Proof.
  intros Hm Hu. apply (mesh_consistent origin tt umax sp table ls w p x d srt ord 1); [lia|exact Hm|lia|]. intros e ns He Hn Hd Hsm Hq Hr. subst d.
  apply C76_laplace; [exact Hsm|exact Hq|rewrite length_local, Hn; lia|exact Hr].
Qed.
Print Assumptions C78_laplace.
(** C78 for linear elasticity and St. Venant-Kirchhoff materials *)
Theorem C78_polynomial_materials {Pt} (origin : Pt) params umax sp (table : q_table Pt (R * R)) ls w p x d srt ord u :
  regular_mesh sp table ls w p x d srt ord d -> length u = (d * fs_nodes sp)%nat ->
  let accumulate (contraction : R * R -> mat -> vec -> vec -> mat) := fun (G : mat) y nrows ncols out alpha a b => batch_contraction d nrows ncols out alpha a b (operator_contract (contraction y) G) in
  operator_consistent origin params umax sp table srt ord d (fun G y => operator_energy (le_energy d (fst y) (snd y)) G) (fun G y => elliptic_operator_transpose (le_stress d (fst y) (snd y)) G) (accumulate (fun y => le_contraction d (fst y) (snd y))) u /\
  operator_consistent origin params umax sp table srt ord d (fun G y => operator_energy (stvk_energy d (fst y) (snd y)) G) (fun G y => elliptic_operator_transpose (stvk_stress d (fst y) (snd y)) G) (accumulate (fun y => stvk_contraction d (fst y) (snd y))) u.
Proof.
  intros Hm Hu accumulate. assert (Hd0 : (0 < d)%nat) by (destruct Hm as (_ & _ & _ & _ & _ & _ & [-> |[-> | ->]] & _); lia).
  split; apply (mesh_consistent origin params umax sp table ls w p x d srt ord d); try assumption; intros e ns He Hn Hd Hsm Hq Hr; clear Hm; subst d;
    (eapply (C76_polynomial_materials (fs_element sp e)); [exact Hsm|exact Hq|rewrite length_local, Hn; reflexivity|exact Hr]).
Qed.
Print Assumptions C78_polynomial_materials.
(** C78 for Neo-Hookean materials where no element is inverted *)
Theorem C78_neo_hookean {Pt} (origin : Pt) params umax sp (table : q_table Pt (R * R)) ls w p x d srt ord u :
  regular_mesh sp table ls w p x d srt ord d -> length u = (d * fs_nodes sp)%nat -> d = 2%nat \/ d = 3%nat ->
  (forall e ns wt pt y G, ls !! e = Some ns -> In (wt, (pt, y)) (combine (w e) (combine (p e) (x e))) -> interpolation_gradient (fs_element sp e) d (local_values d u ns) pt G -> 0 < determinant d (deformation_gradient G)) ->
  operator_consistent origin params umax sp table srt ord d (fun G y => value (nh_energy_du d (fst y) (snd y) G)) (fun G y => elliptic_operator_transpose (fun F => entries (nh_stress d (fst y) (snd y) F)) G)
    (fun G y nrows ncols out alpha a b => batch_contraction d nrows ncols out alpha a b (operator_contract (fun F a b => entries (nh_contraction d (fst y) (snd y) F a b)) G)) u.
Proof.
  intros Hm Hu Hd23 Hpos. apply (mesh_consistent origin params umax sp table ls w p x d srt ord d); [lia|exact Hm|exact Hu|]. intros e ns He Hn Hd Hsm Hq Hr. clear Hm. subst d.
  apply (C76_neo_hookean (fs_element sp e)); [exact Hsm|exact Hq|rewrite length_local, Hn; reflexivity|exact Hr|exact Hd23|]. intros wt pt y G Hin HG. exact (Hpos e ns wt pt y G He Hin HG).
Qed.
Print Assumptions C78_neo_hookean.

(** two segments of length 1 with three nodes, a quadrature rule of one point, workspaces with leftovers of other elements *)
Definition ex_element : element R := Element R 2 1 (fun p I => if (I =? 0)%nat then (1 - p) / 2 else (1 + p) / 2) (fun _ I _ => if (I =? 0)%nat then -1/2 else 1/2) (fun p _ => (1 + p) / 2) (fun _ _ _ => 1/2).
Definition ex_conn : list (list nat) := [[0; 1]; [2; 1]]%nat.
Definition ex_space : fe_space R := FeSpace 2 3 (fun _ => 2%nat) (fun e _ => nth e ex_conn []) (fun _ => ex_element).
Definition ex_table {Data} (x : Data) : q_table R Data := QTable (fun _ => Ok 1%nat) (fun _ _ _ _ => Ok ((0 :: []), (2 :: []), (x :: []))).
Lemma ex_has_conn s : has_conn (fs_conn ex_space s) ex_conn.
Proof. split; [reflexivity|]. intros [|[|e]] ns H; [injection H as <-|injection H as <-|discriminate]; split; auto. Qed.
Lemma ex_range : nodes_in_range 3 ex_conn.
Proof. intros ns k Hns Hk. unfold ex_conn in Hns. set_unfold. destruct Hns as [-> | [-> | []]]; set_unfold; lia. Qed.
Lemma ex_nodup : List.Forall NoDup ex_conn.
Proof. repeat constructor; set_solver by lia. Qed.
Lemma ex_reads {Data} (x : Data) : reads_quadrature (ex_table x) 2 (fun _ => (2 :: [])) (fun _ => (0 :: [])) (fun _ => (x :: [])).
Proof. intros e He. repeat split; auto. Qed.
Example C78_example :
  regular_mesh ex_space (ex_table tt) ex_conn (fun _ => (2 :: [])) (fun _ => (0 :: [])) (fun _ => (tt :: [])) 1 key_sort (fun _ l => l) 1 /\
  exists f, (assemble_vector Rplus 0 77 (VecWs [5; 5; 5] [9; 9]%nat) (elliptic_vec_asm 0 tt 77 ex_space (ex_table tt) 1 (fun G _ => transpose (laplace_operator G)) [0; 1; 4]
    (fun _ => EllWs [8; 8; 8] [] (6 :: []) [tt; tt] [] 4))).2 = Ok f /\ nth 0 f 0 = -1 /\ nth 1 f 0 = -2 /\ nth 2 f 0 = 3.
Proof.
  assert (H : regular_mesh ex_space (ex_table tt) ex_conn (fun _ => (2 :: [])) (fun _ => (0 :: [])) (fun _ => (tt :: [])) 1 key_sort (fun _ l => l) 1).
  { split; [apply ex_has_conn|]. split; [apply ex_range|]. split; [apply ex_nodup|]. split; [apply ex_reads|]. split; [intros k s; reflexivity|]. split; [apply key_sort_ok|]. split; [left; reflexivity|].
    intros e ns He. assert (ns = [0; 1]%nat \/ ns = [2; 1]%nat) as Hns by (destruct e as [|[|e]]; [injection He as <-; auto|injection He as <-; auto|discriminate]).
    split; [destruct Hns as [-> | ->]; reflexivity|]. split; [reflexivity|]. intros wt pt y [[= <- <- <-]|[]]. cbn. lra. }
  split; [exact H|].
  pose proof (vector_global 0 tt 77 ex_space (ex_table tt) 1 ex_conn (fun _ => (2 :: [])) (fun _ => (0 :: [])) (fun _ => (tt :: [])) (ex_has_conn 1) ex_range (ex_reads tt) ltac:(lia) (fun _ _ => 0)
    (fun G _ => transpose (laplace_operator G)) (fun _ _ _ _ _ _ _ _ => None) (VecWs [5; 5; 5] [9; 9]%nat) (fun _ => EllWs [8; 8; 8] [] (6 :: []) [tt; tt] [] 4) [0; 1; 4] eq_refl) as V.
  assert (HV : forall a b, exists f, element_vector ex_element 1 (fun G (_ : unit) => transpose (laplace_operator G)) [a; b] (2 :: []) (0 :: []) (tt :: []) 2 2 = Done f /\ f 0%nat = a - b /\ f 1%nat = b - a).
  { intros a b. unfold element_vector. cbn -[try_inverse determinant volume_u_grad Nat.modulo Nat.div]. unfold try_inverse. cbn [determinant]. destruct (Req_EM_T (1/2) 0) as [E|_]; [lra|]. eexists. split; [reflexivity|].
    cbn. unfold laplace_operator, transpose, volume_u_grad, within, mmul. cbn. rewrite (Rabs_right (1/2)) by lra. unfold zeros. split; field. }
  destruct (HV 0 1) as (f0 & E0 & H00 & H01). destruct (HV 4 1) as (f1 & E1 & H10 & H11).
  eexists. split; [apply V|].
  - intros [|[|e]] He; [exists f0; exact E0|exists f1; exact E1|cbn in He; lia].
  - rewrite !nth_as_list by (cbn; lia). unfold scattered. cbn [ex_conn length summ nth].
    change (local_values 1 [0; 1; 4] [0; 1]%nat) with [0; 1]. change (local_values 1 [0; 1; 4] [2; 1]%nat) with [4; 1]. cbn -[element_vector ex_element]. unfold ex_space. cbn [fs_element]. change (1 * 2)%nat with 2%nat.
    rewrite E0, E1. cbn [result_entry]. rewrite H00, H01, H10, H11. lra.
Qed.

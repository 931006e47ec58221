(** Lemmas about systems with a sparse matrix, Dirichlet conditions and the conjugate gradient solver. *)
From stdpp Require Import base list list_numbers sets.
From Coq Require Import Reals Lia Lra.
From Coquelicot Require Import Coquelicot.
From Verif Require Import Prelude NestedVecModel ParadisModel VectorModel VectorSpec VectorProofs ParadisSpec CsrModel CsrSpec CsrProofs CsrPattern PropVector PropCsr DirichletModel DirichletSpec DirichletProofs PropDirichlet.
From Verif Require Import MaterialModel EllipticModel PropMaterial PropObjective PropElliptic PropMass GlobalModel PropGlobal PropGlobalForms OperatorModel.
From Verif Require CgModel CgSpec CgProofs PropCg.
Local Open Scope R_scope.
Local Notation vec := (nat -> R).
Local Notation mat := (nat -> nat -> R).

(** * the product of a sparse matrix and a vector *)
Lemma foldl_indexed (v x : nat -> R) (cols : list nat) a k0 : foldl (fun acc '(k, c) => acc + v k * x c) a (zip (seq k0 (length cols)) cols) = a + summ (length cols) (fun k => v (k0 + k)%nat * x (nth k cols 0%nat)).
Proof.
  revert a k0. induction cols as [|c cols IH]; intros a k0; [simpl; ring|]. cbn [length seq zip zip_with foldl]. rewrite IH, summ_first. cbn [nth]. rewrite Nat.add_0_r.
  rewrite (summ_ext (length cols) (fun k => v (S k0 + k)%nat * x (nth k cols 0%nat)) (fun i => v (k0 + S i)%nat * x (nth i cols 0%nat))) by (intros i _; rewrite Nat.add_succ_r; reflexivity). ring.
Qed.
Lemma row_entries (m : csr R) n A r b cols : csr_wf m -> (r < n)%nat -> entries_of n m A -> pat_row (cs_pat m) r = Some (b, cols) ->
  forall c, (c < n)%nat -> A r c = summ (length cols) (fun k => if (nth k cols 0 =? c)%nat then default 0 (cs_vals m !! (b + k)%nat) else 0).
Proof.
  intros (Hw & Hl) Hr HA Hp c Hc. pose proof (row_pos_lt (cs_pat m) Hw r b cols Hp) as Hlt. destruct (HA r c Hr Hc) as [(pos & Hs & Hv)|(Hn & E)].
  - destruct (pat_row_stored _ _ _ _ _ _ Hp Hs) as (Hb & Hk). set (k := (pos - b)%nat) in *. assert (Hkl := lookup_lt_Some _ _ _ Hk).
    rewrite (summ_ext _ _ (fun k' => if (k' =? k)%nat then default 0 (cs_vals m !! (b + k')%nat) else 0)).
    + rewrite (summ_delta (length cols) k (fun k' => default 0 (cs_vals m !! (b + k')%nat)) Hkl). replace (b + k)%nat with pos by (unfold k; lia). rewrite Hv. reflexivity.
    + intros k' Hk'. destruct (Nat.eqb_spec k' k) as [->|N]; [rewrite (nth_some cols k 0%nat c Hk), Nat.eqb_refl; reflexivity|].
      destruct (Nat.eqb_spec (nth k' cols 0%nat) c) as [E|]; [|reflexivity]. exfalso. pose proof (some_nth cols k' 0%nat Hk') as Hk2. rewrite E in Hk2.
      destruct (Nat.lt_trichotomy k' k) as [L|[L|L]]; [pose proof (Hlt _ _ _ _ L Hk2 Hk); lia|auto|pose proof (Hlt _ _ _ _ L Hk Hk2); lia].
  - rewrite E. symmetry. apply summ_zero'. intros k Hk. destruct (Nat.eqb_spec (nth k cols 0%nat) c) as [Ec|]; [|reflexivity]. exfalso. apply (Hn (b + k)%nat).
    apply (pat_row_spec _ _ _ _ Hp). rewrite <- Ec. apply some_nth, Hk.
Qed.
Lemma csr_apply_product (m : csr R) n A x : csr_wf m -> pt_nrows (cs_pat m) = n -> pt_ncols (cs_pat m) = n -> entries_of n m A ->
  exists y, csr_apply m x = Some y /\ forall i, (i < n)%nat -> y i = summ n (fun j => A i j * x j).
Proof.
  intros Hw Hr Hc HA. eexists. split; [reflexivity|]. intros i Hi. cbv beta. destruct (pat_row_exists (cs_pat m) (proj1 Hw) i) as (b & cols & Hp); [lia|]. rewrite Hp.
  rewrite (foldl_indexed (fun k => default 0 (cs_vals m !! (b + k)%nat)) x cols 0 0), Rplus_0_l. cbn [Nat.add].
  rewrite (summ_ext n _ (fun j => summ (length cols) (fun k => if (j =? nth k cols 0)%nat then default 0 (cs_vals m !! (b + k)%nat) * x j else 0))).
  - rewrite summ_swap. apply summ_ext. intros k Hk. symmetry. apply (summ_delta n (nth k cols 0%nat) (fun j => default 0 (cs_vals m !! (b + k)%nat) * x j)).
    destruct (proj1 Hw) as (_ & _ & _ & _ & Hb). rewrite <- Hc. apply (Hb i _ (b + k)%nat). apply (pat_row_spec _ _ _ _ Hp), some_nth, Hk.
  - intros j Hj. rewrite (row_entries m n A i b cols Hw Hi HA Hp j Hj), <- summ_r. apply summ_ext. intros k Hk. rewrite (Nat.eqb_sym j). destruct (_ =? _)%nat; ring.
Qed.

(** * sums as lists, vectors as functions *)
Lemma sum_below_summ n f : sum_below n f = summ n f.
Proof.
  unfold sum_below. induction n as [|n IH]; [reflexivity|]. rewrite seq_S, map_app, foldr_app. cbn [summ]. rewrite <- IH. cbn [Nat.add map foldr].
  clear IH. set (l := map f (seq 0 n)). induction l as [|y l IH]; cbn [foldr]; [ring|]. rewrite IH. ring.
Qed.
Lemma inner_summ n x y : CgSpec.inner n x y = summ n (fun i => x i * y i).
Proof. destruct n as [|n]; [reflexivity|]. cbn [CgSpec.inner]. induction n as [|n IH]; [cbn; ring|]. cbn [sum_f_R0]. rewrite IH. reflexivity. Qed.
Lemma form_as_list n A (x y : vec) : form n A (as_list n x) (as_list n y) = summ n (fun r => x r * summ n (fun c => A r c * y c)).
Proof. unfold form. apply summ_ext. intros r Hr. rewrite <- summ_l. apply summ_ext. intros c Hc. rewrite !nth_as_list by assumption. ring. Qed.

(** * the pattern of assembled matrices *)
Lemma assembled_pattern {E} srt ord umax cws (a : @mat_asm R E) ls As m : hash_order ord -> sorts_by_key srt -> has_conn (ma_conn a) ls -> nodes_in_range (ca_nodes (ma_conn a)) ls -> (0 < ca_sdim (ma_conn a))%nat -> List.Forall NoDup ls ->
  has_mats a ls As -> (assemble_csr Rplus 0 srt ord umax cws a).2 = Ok m ->
  pt_ncols (cs_pat m) = (ca_sdim (ma_conn a) * ca_nodes (ma_conn a))%nat /\
  forall r c, (exists pos, stored (cs_pat m) r c pos) <-> coupled ls (r / ca_sdim (ma_conn a)) (c / ca_sdim (ma_conn a)).
Proof.
  intros Ho Hsrt Hc Hr Hs Hn Hm Ha. destruct (C12_pattern_is_coupling_graph E ord umax (ma_conn a) ls Ho Hc Hr) as (p & Ep & Hw & _ & Hnc & Hst). unfold assemble_csr in Ha. rewrite Ep in Ha.
  destruct (C14_assemble_into_csr R E Rplus 0 srt a ls As cws (Csr p (replicate (length (pt_cols p)) 0)) Hc Hm Hw Hsrt Hs Hn) as (ws' & m' & r & good & Ei & Hsum & _).
  { intros r c _ Hcp. apply Hst. split; [exact Hs|exact Hcp]. }
  rewrite Ei in Ha. cbn [snd] in Ha. destruct r as [[]| |]; try discriminate. cbn [obind] in Ha. injection Ha as <-. destruct Hsum as (Hp & _). cbn [cs_pat] in Hp. rewrite Hp.
  split; [exact Hnc|]. intros r c. rewrite Hst. split; [intros (_ & H); exact H|intros H; split; [exact Hs|exact H]].
Qed.

(** * definite systems *)
(** the nodal values are zero at the given nodes *)
Definition vanishes (nodes : list nat) (s : nat) (v : list R) : Prop := forall r, constrained nodes s r -> nth r v 0 = 0.

Section definite.
Context (m : csr R) (n : nat) (A : mat) (nodes : list nat) (s : nat) (is_zero : R -> bool) (b : list R).
Hypothesis Hz : forall x, is_zero x = true <-> x = 0.
Hypothesis Hw : csr_wf m.
Hypothesis Hrows : pt_nrows (cs_pat m) = n.
Hypothesis Hcols : pt_ncols (cs_pat m) = n.
Hypothesis Hst : struct_sym (cs_pat m).
Hypothesis HA : entries_of n m A.
Hypothesis Hsym : forall r c, (r < n)%nat -> (c < n)%nat -> A r c = A c r.
Hypothesis Hb : length b = n.
Hypothesis Hcon : forall r, constrained nodes s r -> (r < n)%nat /\ exists pos, stored (cs_pat m) r r pos.
Hypothesis Hdef : forall v, length v = n -> vanishes nodes s v -> (exists r, (r < n)%nat /\ nth r v 0 <> 0) -> 0 < form n A v v.

Let con := constrained nodes s.
Lemma imposed : exists m' b' sc, dirichlet_csr 0 1 Rabs is_zero m nodes s = Ok m' /\ dirichlet_rhs 0 b nodes s = Ok b' /\ csr_wf m' /\ cs_pat m' = cs_pat m /\ length b' = n /\ 0 < sc /\
  (forall i, (i < n)%nat -> nth i b' 0 = if constrained_dec nodes s i then 0 else nth i b 0) /\
  entries_of n m' (fun i j => if constrained_dec nodes s i then if (i =? j)%nat then sc else 0 else if constrained_dec nodes s j then 0 else A i j).
Proof.
  destruct (C18_dirichlet_csr R 0 1 Rabs is_zero (fun x => 0 < x) m nodes s Hz Rlt_0_1 Rabs_pos_lt Hw) as (m' & sc & Em & Hw' & Hbc & _ & Hsc); [congruence|exact Hst|intros r Hr; rewrite Hrows; apply (Hcon r Hr)|].
  destruct (dirichlet_rhs_spec 0 b nodes s) as (b' & Eb & Hl & Hb2); [intros r Hr; rewrite Hb; apply (Hcon r Hr)|].
  exists m', b', sc. split; [exact Em|]. split; [exact Eb|]. split; [exact Hw'|]. split; [apply Hbc|]. split; [lia|]. split; [exact Hsc|]. split.
  - intros i Hi. destruct (lookup_lt_is_Some_2 b i) as (y & Hy); [lia|]. destruct (Hb2 i y Hy) as (Q1 & Q2). rewrite (nth_some b i 0 y Hy).
    destruct (constrained_dec nodes s i) as [C|C]; apply nth_some; auto.
  - intros i j Hi Hj. destruct (bc_entries 0 con sc m m' i j (A i j) Hw (fun k Hk => proj2 (Hcon k Hk)) Hbc (HA i j Hi Hj)) as (H1 & H2 & H3).
    destruct (constrained_dec nodes s i) as [C|C].
    + destruct (Nat.eqb_spec i j) as [E|N]; [apply H1; assumption|apply H2; [left; exact C|exact N]].
    + destruct (constrained_dec nodes s j) as [C'|C']; [|apply H3; assumption]. apply H2; [right; exact C'|]. intros ->. auto.
Qed.

Definition free_part (x : vec) : vec := fun i => if constrained_dec nodes s i then 0 else x i.
Lemma solve_definite : exists m' b', dirichlet_csr 0 1 Rabs is_zero m nodes s = Ok m' /\ dirichlet_rhs 0 b nodes s = Ok b' /\ csr_wf m' /\ length b' = n /\
  forall x0 tol max_iter fuel, 0 <= tol -> match max_iter with Some k => (n <= k)%nat | None => True end -> (n < fuel)%nat ->
  exists res, CgModel.cg_solve n (csr_apply m') identity_apply (CgModel.relative_residual n tol) max_iter (fun i => nth i b' 0) x0 fuel = Some res /\ CgModel.res_error res = None /\ (CgModel.res_iterations res <= n)%nat /\
    (forall A', entries_of n m' A' -> CgSpec.length2 n (fun i => nth i b' 0 - summ n (fun j => A' i j * CgModel.res_x res j)) <= tol * CgSpec.length2 n (fun i => nth i b' 0)) /\
    (tol = 0 -> vanishes nodes s (as_list n (CgModel.res_x res)) /\ forall i, (i < n)%nat -> ~ con i -> summ n (fun j => A i j * CgModel.res_x res j) = nth i b 0).
Proof.
  destruct imposed as (m' & b' & sc & Em & Eb & Hw' & Hp & Hl & Hsc & Hb' & HA'). exists m', b'. split; [exact Em|]. split; [exact Eb|]. split; [exact Hw'|]. split; [exact Hl|].
  set (A' := fun i j => if constrained_dec nodes s i then if (i =? j)%nat then sc else 0 else if constrained_dec nodes s j then 0 else A i j) in *.
  intros x0 tol max fuel Htol Hmax Hfuel. set (LA := fun (x : vec) i => summ n (fun j => A' i j * x j)).
  assert (Happ : forall x, exists y, csr_apply m' x = Some y /\ forall i, (i < n)%nat -> y i = LA x i) by (intros x; apply csr_apply_product; [exact Hw'|congruence|congruence|exact HA']).
  assert (Hlin : CgSpec.linear_map n LA).
  { split.
    - intros x y Hxy i Hi. apply summ_ext. intros j Hj. rewrite (Hxy j Hj). reflexivity.
    - intros x y a i Hi. unfold LA. rewrite <- summ_l, <- summ_plus. apply summ_ext. intros. ring. }
  assert (Hcomp : CgSpec.computes n (csr_apply m') LA) by (intros x y E i Hi; destruct (Happ x) as (y' & E' & H); rewrite E in E'; injection E' as <-; apply H, Hi).
  assert (HA's : forall i j, (i < n)%nat -> (j < n)%nat -> A' i j = A' j i).
  { intros i j Hi Hj. unfold A'. destruct (constrained_dec nodes s i), (constrained_dec nodes s j); try reflexivity.
    - rewrite (Nat.eqb_sym i). reflexivity.
    - destruct (Nat.eqb_spec i j) as [->|]; [contradiction|reflexivity].
    - destruct (Nat.eqb_spec j i) as [->|]; [contradiction|reflexivity].
    - apply Hsym; assumption. }
  assert (HsA : CgSpec.symmetric_map n LA).
  { intros x y. rewrite !inner_summ. unfold LA. rewrite (summ_ext n _ (fun i => summ n (fun j => A' i j * x j * y i))) by (intros; rewrite <- summ_r; reflexivity). rewrite summ_swap.
    apply summ_ext. intros j Hj. rewrite <- summ_l. apply summ_ext. intros i Hi. rewrite (HA's i j Hi Hj). ring. }
  assert (Hq : forall x, CgSpec.inner n x (LA x) = form n A (as_list n (free_part x)) (as_list n (free_part x)) + sc * summ n (fun i => if constrained_dec nodes s i then x i * x i else 0)).
  { intros x. rewrite inner_summ, form_as_list, <- summ_l, <- summ_plus. apply summ_ext. intros i Hi. unfold LA, free_part, A'. destruct (constrained_dec nodes s i) as [C|C].
    - rewrite (summ_ext n _ (fun j => if (j =? i)%nat then sc * x j else 0)) by (intros j Hj; rewrite (Nat.eqb_sym j); destruct (_ =? _)%nat; ring). rewrite (summ_delta n i (fun j => sc * x j) Hi). ring.
    - rewrite Rmult_0_r, Rplus_0_r. f_equal. apply summ_ext. intros j Hj. destruct (constrained_dec nodes s j); ring. }
  assert (Hpos : CgSpec.positive_map n LA).
  { intros x Hx. rewrite Hq. assert (Hv : vanishes nodes s (as_list n (free_part x))).
    { intros r Hr. rewrite nth_as_list by (apply Hcon, Hr). unfold free_part. destruct (constrained_dec nodes s r); [reflexivity|contradiction]. }
    assert (Hs0 : 0 <= summ n (fun i => if constrained_dec nodes s i then x i * x i else 0)).
    { apply summ_nonneg. intros i Hi. destruct (constrained_dec nodes s i); [nra|lra]. }
    assert (Hlen : length (as_list n (free_part x)) = n) by apply length_as_list.
    destruct (Classical_Prop.classic (exists r, (r < n)%nat /\ nth r (as_list n (free_part x)) 0 <> 0)) as [Hne|Hall].
    - pose proof (Hdef _ Hlen Hv Hne). nra.
    - assert (Hf0 : forall r, (r < n)%nat -> free_part x r = 0).
      { intros r Hr. destruct (Req_EM_T (free_part x r) 0) as [E|E]; [exact E|]. exfalso. apply Hall. exists r. split; [exact Hr|]. rewrite nth_as_list by exact Hr. exact E. }
      assert (form n A (as_list n (free_part x)) (as_list n (free_part x)) = 0) as ->.
      { rewrite form_as_list. apply summ_zero'. intros r Hr. rewrite (Hf0 r Hr). ring. }
      assert (Hex : exists r, (r < n)%nat /\ x r <> 0).
      { apply Classical_Prop.NNPP. intros N. apply Hx. intros i Hi. destruct (Req_EM_T (x i) 0) as [E|E]; [exact E|]. exfalso. apply N. exists i. auto. }
      destruct Hex as (r & Hr & Hxr). assert (Cr : con r).
      { destruct (constrained_dec nodes s r) as [C|C]; [exact C|]. exfalso. apply Hxr. rewrite <- (Hf0 r Hr). unfold free_part. destruct (constrained_dec nodes s r); [contradiction|reflexivity]. }
      enough (x r * x r <= summ n (fun i => if constrained_dec nodes s i then x i * x i else 0)) by (assert (0 < x r * x r) by nra; nra).
      rewrite <- (summ_delta n r (fun i => x i * x i) Hr) at 1. apply Rminus_le. replace (summ n _ - summ n _) with (- summ n (fun i => (if constrained_dec nodes s i then x i * x i else 0) - (if (i =? r)%nat then x i * x i else 0))).
      + assert (0 <= summ n (fun i => (if constrained_dec nodes s i then x i * x i else 0) - (if (i =? r)%nat then x i * x i else 0))); [|lra]. apply summ_nonneg. intros i Hi. destruct (Nat.eqb_spec i r) as [->|].
        * destruct (constrained_dec nodes s r); [lra|contradiction].
        * destruct (constrained_dec nodes s i); nra.
      + rewrite (summ_ext n _ (fun i => (if constrained_dec nodes s i then x i * x i else 0) + -1 * (if (i =? r)%nat then x i * x i else 0))) by (intros; ring). rewrite summ_plus, summ_l. ring. }
  assert (HidL : CgSpec.computes n identity_apply (fun x => x)) by (intros x y [= <-] i Hi; reflexivity).
  destruct (PropCg.C37_solves n (csr_apply m') identity_apply tol max (fun i => nth i b' 0) x0 LA (fun x => x) fuel Hlin Hcomp HidL) as (res & E & Eerr & Hit & Hres); try assumption.
  { intros x E. discriminate. }
  { intros x E. discriminate. }
  { intros x y. reflexivity. }
  { intros x Hx. rewrite inner_summ. apply Rnot_le_lt. intros Hle. apply Hx. intros i Hi. destruct (Req_EM_T (x i) 0) as [E|E]; [exact E|]. exfalso.
    enough (x i * x i <= summ n (fun i => x i * x i)) by (assert (0 < x i * x i) by nra; lra). clear - Hi. induction n as [|k IH]; [lia|]. cbn [summ]. destruct (Nat.eq_dec i k) as [->|].
    - enough (0 <= summ k (fun i => x i * x i)) by lra. apply summ_nonneg. intros. nra.
    - specialize (IH ltac:(lia)). nra. }
  exists res. split; [exact E|]. split; [exact Eerr|]. split; [exact Hit|]. split.
  - intros A'' HA''. eapply Rle_trans; [|exact Hres]. apply Req_le. unfold CgSpec.length2. f_equal. rewrite !inner_summ. apply summ_ext. intros i Hi. unfold CgSpec.residual, LA.
    assert (EA : summ n (fun j => A'' i j * CgModel.res_x res j) = summ n (fun j => A' i j * CgModel.res_x res j)).
    { apply summ_ext. intros j Hj. rewrite (C14_entry_unique R 0 m' i j _ _ (proj1 Hw') (HA'' i j Hi Hj) (HA' i j Hi Hj)). reflexivity. }
    rewrite EA. reflexivity.
  - intros ->. rewrite Rmult_0_l in Hres. set (x := CgModel.res_x res) in *.
    assert (Hsol : forall i, (i < n)%nat -> LA x i = nth i b' 0).
    { assert (Hz0 : CgModel.norm n (CgSpec.residual LA (fun i => nth i b' 0) x) = 0) by (rewrite CgProofs.norm_length2; apply Rle_antisym; [exact Hres|apply sqrt_pos]).
      intros i Hi. pose proof (CgProofs.norm_zero n _ Hz0 i Hi) as H0. unfold CgSpec.residual in H0. lra. }
    assert (Hvan : forall i, (i < n)%nat -> con i -> x i = 0).
    { intros i Hi C. specialize (Hsol i Hi). rewrite Hb' in Hsol by exact Hi. unfold LA, A' in Hsol. destruct (constrained_dec nodes s i) as [_|]; [|contradiction].
      rewrite (summ_ext n _ (fun j => if (j =? i)%nat then sc * x j else 0)) in Hsol by (intros j Hj; rewrite (Nat.eqb_sym j); destruct (_ =? _)%nat; ring). rewrite (summ_delta n i (fun j => sc * x j) Hi) in Hsol. nra. }
    split; [intros r Hr; rewrite nth_as_list by (apply Hcon, Hr); apply Hvan; [apply Hcon, Hr|exact Hr]|].
    intros i Hi C. specialize (Hsol i Hi). rewrite Hb' in Hsol by exact Hi. unfold LA, A' in Hsol. destruct (constrained_dec nodes s i) as [|_]; [contradiction|]. rewrite <- Hsol. apply summ_ext. intros j Hj.
    destruct (constrained_dec nodes s j) as [C'|]; [rewrite (Hvan j Hj C'); ring|reflexivity].
Qed.
End definite.

(** * matrices of quadratic energies *)
Section quadratic.
Context {Pt Data : Type} (n : nat) (energy_at : (nat -> ell_ws Pt Data) -> list R -> outcome unit R) (vector_at : @vec_ws R -> (nat -> ell_ws Pt Data) -> list R -> outcome unit (list R))
  (matrix_at : @csr_ws R -> (nat -> ell_ws Pt Data) -> list R -> outcome unit (csr R)).
Context (E : list R -> R).
Hypothesis Hcons : forall u, length u = n -> assembly_consistent n energy_at vector_at matrix_at u.
Hypothesis HE : forall ws u, length u = n -> energy_at ws u = Ok (E u).
Hypothesis Hquad : forall u v, length u = n -> length v = n -> exists b, forall t, E (line u v t) = E u + t * b + t * t * E v.

Let ws0 : nat -> ell_ws Pt Data := fun _ => EllWs [] [] [] [] [] 0.
Let vws0 : @vec_ws R := VecWs [] [].
Let f u := match vector_at vws0 ws0 u with Ok g => g | _ => [] end.
Let dotl (g v : list R) := summ n (fun k => nth k g 0 * nth k v 0).

Lemma quadratic_line u v t : length u = n -> length v = n -> E (line u v t) = E u + t * dotl (f u) v + t * t * E v.
Proof.
  intros Hu Hv. destruct (Hquad u v Hu Hv) as (b & Hb). rewrite Hb. enough (b = dotl (f u) v) as -> by reflexivity.
  destruct (Hcons u Hu) as (g & Hg & Hgl & Hd & _). destruct (Hd v Hv) as (_ & Hd'). specialize (Hd' (fun _ => ws0)).
  unfold f. rewrite Hg. unfold dotl. apply is_derive_unique in Hd'. rewrite <- Hd'. symmetry. apply is_derive_unique.
  apply (is_derive_ext (fun t => E u + t * b + t * t * E v)).
  - intros t'. rewrite HE by (rewrite length_line; [exact Hu|congruence]). cbn [ok_value]. symmetry. apply Hb.
  - auto_derive; [exact I|ring].
Qed.
Lemma line_sum_sym u v : length u = n -> length v = n -> line u v 1 = line v u 1.
Proof. intros Hu Hv. apply nth_eq; [rewrite !length_line by congruence; congruence|]. intros i _. rewrite !nth_line by congruence. ring. Qed.
Lemma dotl_sym u v : length u = n -> length v = n -> dotl (f u) v = dotl (f v) u.
Proof. intros Hu Hv. pose proof (quadratic_line u v 1 Hu Hv) as H1. pose proof (quadratic_line v u 1 Hv Hu) as H2. rewrite (line_sum_sym u v Hu Hv), H2 in H1. lra. Qed.
Lemma dotl_line g v w t : length v = n -> length w = n -> dotl g (line v w t) = dotl g v + t * dotl g w.
Proof. intros Hv Hw. unfold dotl. rewrite <- summ_l, <- summ_plus. apply summ_ext. intros k _. rewrite nth_line by congruence. ring. Qed.
Lemma dotl_unit g r : (r < n)%nat -> dotl g (unit_vector n r) = nth r g 0.
Proof.
  intros Hr. unfold dotl. rewrite (summ_ext n _ (fun k => if (k =? r)%nat then nth k g 0 else 0)); [apply (summ_delta n r (fun k => nth k g 0) Hr)|].
  intros k Hk. rewrite nth_unit, (proj2 (Nat.ltb_lt k n) Hk), andb_true_r. destruct (k =? r)%nat; ring.
Qed.
Lemma quadratic_matrix cws ws u : length u = n -> exists m, matrix_at cws ws u = Ok m /\ csr_wf m /\ pt_nrows (cs_pat m) = n /\
  exists A, entries_of n m A /\ (forall r c, (r < n)%nat -> (c < n)%nat -> A r c = A c r) /\
  forall v v', length v = n -> length v' = n -> form n A v v' = E (line v v' 1) - E v - E v'.
Proof.
  intros Hu. destruct (Hcons u Hu) as (g & Hg & Hgl & _ & Hm). destruct (Hm cws ws) as (m & Em & Hw & Hr & Hent). exists m. split; [exact Em|]. split; [exact Hw|]. split; [exact Hr|].
  set (A := fun r c => dotl (f (unit_vector n r)) (unit_vector n c)). exists A.
  assert (HlU : forall c, length (unit_vector n c) = n) by (intros; apply length_unit).
  assert (Hsym : forall r c, A r c = A c r) by (intros r c; apply dotl_sym; apply HlU).
  split; [|split; [intros r c _ _; apply Hsym|]].
  - intros r c Hr' Hc. destruct (Hent r c Hr' Hc) as (K & HK & _ & _ & Hd). specialize (Hd (fun _ => vws0) (fun _ => ws0)). enough (A r c = K) as -> by exact HK.
    apply is_derive_unique in Hd. rewrite <- Hd. symmetry. apply is_derive_unique.
    apply (is_derive_ext (fun t => dotl (f (unit_vector n r)) u + t * A r c)).
    + intros t. assert (Hl : length (line u (unit_vector n c) t) = n) by (rewrite length_line; [exact Hu|rewrite HlU; exact Hu]).
      destruct (Hcons _ Hl) as (h & Hh & _). transitivity (dotl (f (line u (unit_vector n c) t)) (unit_vector n r)).
      * rewrite (dotl_sym (line u (unit_vector n c) t) (unit_vector n r) Hl (HlU r)), dotl_line by (try exact Hu; apply HlU). reflexivity.
      * rewrite (dotl_unit _ r Hr'). unfold f, ok_entry. rewrite Hh. reflexivity.
    + auto_derive; [exact I|ring].
  - intros v v' Hv Hv'. rewrite (quadratic_line v v' 1 Hv Hv'). transitivity (dotl (f v) v'); [|ring].
    rewrite dotl_sym by assumption. unfold form, dotl. apply summ_ext. intros r Hr'.
    rewrite (summ_ext n _ (fun c => nth r v 0 * (A r c * nth c v' 0))) by (intros; ring). rewrite summ_l, Rmult_comm. f_equal.
    rewrite <- (dotl_unit (f v') r Hr'), dotl_sym by (try exact Hv'; apply HlU). unfold dotl at 1. apply summ_ext. intros c Hc. unfold A. rewrite dotl_unit by exact Hc. reflexivity.
Qed.
End quadratic.

(** C18, C19: homogeneous Dirichlet conditions. *)
From stdpp Require Import base list list_numbers.
From Coq Require Import Lia Reals ZArith.
From Verif Require Import Prelude NestedVecModel VectorModel VectorSpec CsrModel CsrSpec CsrProofs CsrPattern PropParadis PropVector DirichletModel DirichletSpec DirichletProofs.

(** C18. Rows and columns of constrained degrees of freedom are zero except for a positive diagonal. *)
Theorem C18_dirichlet_csr :
  forall (T : Type) (zero one : T) (abs : T -> T) (is_zero : T -> bool) (pos : T -> Prop) (m : csr T) (nodes : list nat) (d : nat),
    (forall x, is_zero x = true <-> x = zero) -> pos one -> (forall x, x <> zero -> pos (abs x)) ->
    csr_wf m -> pt_ncols (cs_pat m) = pt_nrows (cs_pat m) -> struct_sym (cs_pat m) ->
    (forall r, constrained nodes d r -> r < pt_nrows (cs_pat m)) ->
    exists m' s, dirichlet_csr zero one abs is_zero m nodes d = Ok m' /\ csr_wf m' /\
      bc_imposed zero s (constrained nodes d) m m' /\ scale_choice zero one abs m s /\ pos s.
Proof.
  intros T zero one abs is_zero pos m nodes d Hz H1 Ha Hwf Hsq Hsym Hcon.
  destruct (dirichlet_csr_spec zero one abs is_zero m nodes d Hwf Hsq Hsym Hcon) as (m' & Hm & Hbc).
  pose proof (dirichlet_scale_spec zero one abs is_zero m Hz Hwf) as Hs. eexists m', _.
  split; [exact Hm|]. split; [by eapply bc_wf|]. split; [exact Hbc|]. split; [done|].
  destruct Hs as [[-> _]|(r & q & x & _ & _ & Hx & -> & _)]; [done|by apply Ha].
Qed.
Print Assumptions C18_dirichlet_csr.

(** C18. Symmetric matrices stay symmetric. *)
Theorem C18_symmetry_kept :
  forall (T : Type) (zero one : T) (abs : T -> T) (is_zero : T -> bool) (m m' : csr T) (nodes : list nat) (d : nat),
    csr_wf m -> pt_ncols (cs_pat m) = pt_nrows (cs_pat m) -> struct_sym (cs_pat m) ->
    (forall r, constrained nodes d r -> r < pt_nrows (cs_pat m)) ->
    (forall r c x, entry_is zero m r c x -> entry_is zero m c r x) ->
    dirichlet_csr zero one abs is_zero m nodes d = Ok m' ->
    forall r c x, entry_is zero m' r c x -> entry_is zero m' c r x.
Proof.
  intros T zero one abs is_zero m m' nodes d Hwf Hsq Hst Hcon Hsym Hm.
  destruct (dirichlet_csr_spec zero one abs is_zero m nodes d Hwf Hsq Hst Hcon) as (m1 & Hm1 & Hbc).
  assert (m1 = m') as -> by congruence. eapply bc_symmetric; [apply constrained_dec|exact Hwf|exact Hbc|exact Hst|exact Hsym].
Qed.
Print Assumptions C18_symmetry_kept.

(** C18. Only the set of nodes matters: repeated nodes and their order are harmless. *)
Theorem C18_repeated_nodes :
  forall (T : Type) (zero one : T) (abs : T -> T) (is_zero : T -> bool) (m : csr T) (nodes nodes' : list nat) (d : nat),
    csr_wf m -> pt_ncols (cs_pat m) = pt_nrows (cs_pat m) -> struct_sym (cs_pat m) ->
    (forall r, constrained nodes d r -> r < pt_nrows (cs_pat m)) -> (forall k, k ∈ nodes <-> k ∈ nodes') ->
    dirichlet_csr zero one abs is_zero m nodes d = dirichlet_csr zero one abs is_zero m nodes' d.
Proof.
  intros T zero one abs is_zero m nodes nodes' d Hwf Hsq Hst Hcon Heq.
  assert (forall r, constrained nodes d r <-> constrained nodes' d r) as Hc by (unfold constrained; intros; by setoid_rewrite Heq).
  destruct (dirichlet_csr_spec zero one abs is_zero m nodes d Hwf Hsq Hst Hcon) as (m1 & -> & P1 & L1 & H1).
  destruct (dirichlet_csr_spec zero one abs is_zero m nodes' d Hwf Hsq Hst) as (m2 & -> & P2 & L2 & H2); [intros r; rewrite <- Hc; apply Hcon|].
  f_equal. destruct m1 as [p1 v1], m2 as [p2 v2]. simpl in *. subst. f_equal. apply list_eq. intros k.
  destruct (cs_vals m !! k) as [x|] eqn:Hx.
  - assert (k < length (pt_cols (cs_pat m))) as Hk by (rewrite <- (proj2 Hwf); by eapply lookup_lt_Some).
    destruct (stored_cover _ (proj1 Hwf) k Hk) as (r & c & Hs). specialize (H1 _ _ _ _ Hs Hx) as (A1 & A2 & A3). specialize (H2 _ _ _ _ Hs Hx) as (B1 & B2 & B3).
    rewrite <- !Hc in *. destruct (constrained_dec nodes d r) as [Hr|Hr], (constrained_dec nodes d c) as [Hcc|Hcc], (decide (r = c)) as [->|Hne];
      try (rewrite A1, B1 by done; done); try (rewrite A2, B2 by auto; done); rewrite A3, B3 by done; done.
  - apply lookup_ge_None in Hx. rewrite !lookup_ge_None_2 by congruence. done.
Qed.
Print Assumptions C18_repeated_nodes.

(** C18. Solutions of the constrained system over the reals: [A] and [A'] are the dense views. *)
Theorem C18_system :
  forall (m m' : csr R) (is_zero : R -> bool) (nodes : list nat) (d n : nat) (A A' : nat -> nat -> R) (b b' : list R) (x : nat -> R),
    (forall x, is_zero x = true <-> x = 0%R) ->
    csr_wf m -> pt_ncols (cs_pat m) = n -> pt_nrows (cs_pat m) = n -> struct_sym (cs_pat m) -> length b = n ->
    (forall r, constrained nodes d r -> r < n /\ exists pos, stored (cs_pat m) r r pos) ->
    dirichlet_csr 0%R 1%R Rabs is_zero m nodes d = Ok m' -> dirichlet_rhs 0%R b nodes d = Ok b' ->
    (forall i j, entry_is 0%R m i j (A i j)) -> (forall i j, entry_is 0%R m' i j (A' i j)) ->
    solves n A' x (fun i => default 0%R (b' !! i)) <->
    (forall i, i < n -> constrained nodes d i -> x i = 0%R) /\
    (forall i, i < n -> ~ constrained nodes d i -> sum_below n (fun j => A i j * x j)%R = default 0%R (b !! i)).
Proof.
  intros m m' is_zero nodes d n A A' b b' x Hz Hwf Hnc Hnr Hst Hb Hcon Hm Hrhs HA HA'.
  destruct (dirichlet_csr_spec 0%R 1%R Rabs is_zero m nodes d Hwf) as (m1 & Hm1 & Hbc); [congruence|done|intros r Hr; rewrite Hnr; by apply Hcon|].
  assert (m1 = m') as -> by congruence.
  destruct (dirichlet_rhs_spec 0%R b nodes d) as (b1 & Hb1 & Hl1 & Hb2); [intros r Hr; rewrite Hb; by apply Hcon|].
  assert (b1 = b') as -> by congruence.
  apply system_reduction with (s := dirichlet_scale 1%R Rabs is_zero m).
  - apply constrained_dec.
  - destruct (dirichlet_scale_spec 0%R 1%R Rabs is_zero m Hz Hwf) as [[-> _]|(r & q & y & _ & _ & Hy & -> & _)]; [apply R1_neq_R0|by apply Rabs_no_R0].
  - intros i j Hi Hj. pose proof (bc_wf 0%R _ _ m m' Hwf Hbc) as Hwf'.
    destruct (bc_entries 0%R _ _ m m' i j (A i j) Hwf (fun k Hk => proj2 (Hcon k Hk)) Hbc (HA i j)) as (H1 & H2 & H3).
    split_and!; intros Q1 Q2; eapply (entry_unique_wf 0%R); eauto; exact (proj1 Hwf').
  - intros i Hi. destruct (lookup_lt_is_Some_2 b i) as [y Hy]; [lia|]. rewrite Hy. destruct (Hb2 i y Hy) as [Q1 Q2].
    split; intros Q; [rewrite (Q1 Q)|rewrite (Q2 Q)]; done.
Qed.
Print Assumptions C18_system.

(** C18. Without structural symmetry the column half fails: entry (1,0) survives. *)
Theorem C18_without_structural_symmetry_refuted :
  exists (m m' : csr Z) (nodes : list nat),
    csr_wf m /\ pt_ncols (cs_pat m) = pt_nrows (cs_pat m) /\ (forall r, constrained nodes 1 r -> r < pt_nrows (cs_pat m)) /\
    dirichlet_csr 0%Z 1%Z Z.abs (Z.eqb 0) m nodes 1 = Ok m' /\
    exists r c x, constrained nodes 1 c /\ r <> c /\ x <> 0%Z /\ entry_is 0%Z m' r c x.
Proof.
  exists (Csr (Pattern [0; 1; 3] [0; 0; 1] 2) [5; 7; 9]%Z), (Csr (Pattern [0; 1; 3] [0; 0; 1] 2) [5; 7; 9]%Z), [0].
  split; [|split; [done|split; [|split; [vm_compute; reflexivity|]]]].
  - split; [|done]. split_and!; [done| |done| |].
    + intros [|[|[|r]]] b e Hb He; simpl in *; simplify_eq; lia.
    + intros r c d i j (b & e & H1 & H2 & H3 & H4) (b' & e' & H1' & H2' & H3' & H4') Hij.
      destruct r as [|[|r]]; simpl in *; simplify_eq; [lia|]. destruct i as [|[|[|i]]], j as [|[|[|j]]]; simpl in *; simplify_eq; lia.
    + intros r c i (b & e & H1 & H2 & H3 & H4). destruct i as [|[|[|i]]]; simpl in *; simplify_eq; lia.
  - intros r (node & i & Hn & Hi & ->). apply elem_of_list_singleton in Hn as ->. simpl. cbv. lia.
  - exists 1, 0, 7%Z. split_and!; [exists 0, 0; split_and!; [by left|lia|done]|done|done|]. left. exists 1. split; [|done].
    exists 1, 3. split_and!; [done|done|lia|lia|done].
Qed.
Print Assumptions C18_without_structural_symmetry_refuted.

Definition ex_tri : pattern := Pattern [0; 2; 5; 7] [0; 1; 0; 1; 2; 1; 2] 3.

Example C18_example :
  csr_wf (Csr ex_tri [-5; 1; 1; 7; 2; 2; 9]%Z) /\ pt_ncols ex_tri = pt_nrows ex_tri /\ struct_sym ex_tri /\
  (forall r, constrained [2; 2] 1 r -> r < pt_nrows ex_tri) /\
  dirichlet_csr 0%Z 1%Z Z.abs (Z.eqb 0) (Csr ex_tri [-5; 1; 1; 7; 2; 2; 9]%Z) [2; 2] 1 =
    Ok (Csr ex_tri [-5; 1; 1; 7; 0; 0; 5]%Z).
Proof.
  destruct (assemble_pattern_spec (E := nat) id_order 0 (table_conn 1 3 [[0; 1]; [1; 2]]) [[0; 1]; [1; 2]] id_order_ok (table_has_conn _ _ _))
    as (p & Hp & Hwf & _ & _ & Hst).
  { intros ns k Hns Hk. repeat (apply elem_of_cons in Hns as [->|Hns]; [repeat (apply elem_of_cons in Hk as [->|Hk]; [simpl; lia|]); by apply elem_of_nil in Hk|]).
    by apply elem_of_nil in Hns. }
  assert (p = ex_tri) as -> by (vm_compute in Hp; by simplify_eq).
  split; [by split|]. split; [done|]. split; [|split; [|vm_compute; reflexivity]].
  - intros r c H. apply Hst. apply Hst in H as [H (ns & H1 & H2 & H3)]. split; [done|]. by exists ns.
  - intros r (node & i & Hn & Hi & ->). repeat (apply elem_of_cons in Hn as [->|Hn]; [cbv; lia|]). by apply elem_of_nil in Hn.
Qed.

(** C19. Dense matrices over the reals. *)
Theorem C19_dirichlet_matrix :
  forall (A : dmat R) (a : nat -> nat -> R) (n : nat) (nodes : list nat) (d : nat),
    length (dm_rows A) = n -> dm_ncols A = n -> dmat_wf A -> (forall i j, i < n -> j < n -> dm_at A i j = Some (a i j)) ->
    (forall r, constrained nodes d r -> r < n) ->
    exists A' (a' : nat -> nat -> R), dirichlet_matrix 0%R Rplus Rabs div_nat A nodes d = Ok A' /\
      length (dm_rows A') = n /\ dm_ncols A' = n /\ dmat_wf A' /\ (forall i j, i < n -> j < n -> dm_at A' i j = Some (a' i j)) /\
      forall i j, i < n -> j < n ->
        (constrained nodes d i -> i = j -> a' i j = (sum_below n (fun i => Rabs (a i i)) / INR n)%R) /\
        (constrained nodes d i \/ constrained nodes d j -> i <> j -> a' i j = 0%R) /\
        (~ constrained nodes d i -> ~ constrained nodes d j -> a' i j = a i j).
Proof. exact dirichlet_matrix_spec. Qed.
Print Assumptions C19_dirichlet_matrix.

(** C19. Right-hand sides, any scalar type. *)
Theorem C19_dirichlet_rhs :
  forall (T : Type) (zero : T) (b : list T) (nodes : list nat) (d : nat), (forall r, constrained nodes d r -> r < length b) ->
    exists b', dirichlet_rhs zero b nodes d = Ok b' /\ length b' = length b /\
      forall i x, b !! i = Some x -> (constrained nodes d i -> b' !! i = Some zero) /\ (~ constrained nodes d i -> b' !! i = Some x).
Proof. exact @dirichlet_rhs_spec. Qed.
Print Assumptions C19_dirichlet_rhs.

(** C19. Solutions of the constrained system are exactly the extensions by zero of solutions of the free rows. *)
Theorem C19_system :
  forall (A A' : dmat R) (a a' : nat -> nat -> R) (b b' : list R) (n : nat) (nodes : list nat) (d : nat) (x : nat -> R),
    length (dm_rows A) = n -> dm_ncols A = n -> dmat_wf A -> length b = n ->
    (forall i j, i < n -> j < n -> dm_at A i j = Some (a i j)) -> (forall i j, i < n -> j < n -> dm_at A' i j = Some (a' i j)) ->
    (forall r, constrained nodes d r -> r < n) -> (exists i, i < n /\ a i i <> 0%R) ->
    dirichlet_matrix 0%R Rplus Rabs div_nat A nodes d = Ok A' -> dirichlet_rhs 0%R b nodes d = Ok b' ->
    solves n a' x (fun i => default 0%R (b' !! i)) <->
    (forall i, i < n -> constrained nodes d i -> x i = 0%R) /\
    (forall i, i < n -> ~ constrained nodes d i -> sum_below n (fun j => a i j * x j)%R = default 0%R (b !! i)).
Proof.
  intros A A' a a' b b' n nodes d x Hn Hc Hwf Hb Ha Ha' Hcon Hex HA Hrhs.
  destruct (dirichlet_matrix_spec A a n nodes d Hn Hc Hwf Ha Hcon) as (A1 & a1 & HA1 & _ & _ & _ & Ha1 & H).
  assert (A1 = A') as -> by congruence.
  destruct (dirichlet_rhs_spec 0%R b nodes d) as (b1 & Hb1 & _ & Hb2); [intros r Hr; rewrite Hb; by apply Hcon|]. assert (b1 = b') as -> by congruence.
  assert (forall i j, i < n -> j < n -> a1 i j = a' i j) as E. { intros i j Hi Hj. specialize (Ha1 i j Hi Hj). specialize (Ha' i j Hi Hj). congruence. }
  apply system_reduction with (s := (sum_below n (fun i => Rabs (a i i)) / INR n)%R).
  - apply constrained_dec.
  - apply Rgt_not_eq. destruct Hex as (i & Hi & Hai). apply Rdiv_lt_0_compat; [|apply lt_0_INR; lia]. by apply (sum_abs_pos n (fun i => a i i) i).
  - intros i j Hi Hj. rewrite <- E by done. by apply H.
  - intros i Hi. destruct (lookup_lt_is_Some_2 b i) as [y Hy]; [lia|]. rewrite Hy. destruct (Hb2 i y Hy) as [Q1 Q2].
    split; intros Q; [rewrite (Q1 Q)|rewrite (Q2 Q)]; done.
Qed.
Print Assumptions C19_system.

Example C19_example :
  dirichlet_matrix 0%Z Z.add Z.abs (fun x n => x / Z.of_nat n)%Z (DMat 3 [[-5; 1; 0]; [1; 7; 2]; [0; 2; 9]]%Z) [2; 0; 2] 1 =
    Ok (DMat 3 [[7; 0; 0]; [0; 7; 0]; [0; 0; 7]]%Z) /\
  dirichlet_rhs 0%Z [1; 2; 3; 4]%Z [1] 2 = Ok [1; 2; 0; 0]%Z /\
  (forall r, constrained [2; 0; 2] 1 r -> r < 3).
Proof.
  split; [vm_compute; reflexivity|]. split; [vm_compute; reflexivity|]. intros r (node & i & Hn & Hi & ->).
  repeat (apply elem_of_cons in Hn as [->|Hn]; [lia|]). by apply elem_of_nil in Hn.
Qed.

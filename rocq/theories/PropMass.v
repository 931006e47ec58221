(** C77: mass matrices and source vectors of elements. *)
From Coq Require Import Reals List Arith Lia Lra Psatz Bool.
From Verif Require Import MaterialModel EllipticModel PropMaterial PropObjective PropElliptic.
Import ListNotations.
Open Scope R_scope.
Local Notation vec := (nat -> R).
Local Notation mat := (nat -> nat -> R).

(** * specification *)
Definition partition_of_unity {Pt Data} (el : element Pt) (q : list (R * (Pt * Data))) : Prop := forall w p x, In (w, (p, x)) q -> summ (el_nodes el) (fun I => el_basis el p I) = 1.
(** component [i] of the function with the nodal values [v] *)
Definition interpolated {Pt} (el : element Pt) (s : nat) (v : list R) (p : Pt) (i : nat) : R := summ (el_nodes el) (fun I => el_basis el p I * nth (s * I + i) v 0).

(** * folds *)
Lemma index_inj s I i J j : (i < s)%nat -> (j < s)%nat -> ((s * I + i =? s * J + j) = (I =? J) && (i =? j))%nat.
Proof.
  intros Hi Hj. destruct (Nat.eqb_spec I J) as [->|N]; cbn [andb].
  - destruct (Nat.eqb_spec i j) as [->|N]; [apply Nat.eqb_refl|apply Nat.eqb_neq; lia].
  - apply Nat.eqb_neq. nia.
Qed.
Lemma mass_diagonal s I J c I0 J0 i0 j0 : (i0 < s)%nat -> (j0 < s)%nat -> forall m (out : mat), (m <= s)%nat ->
  fold_left (fun (output : mat) i => fun p q => if ((p =? s * I + i) && (q =? s * J + i))%bool%nat then output p q + c else output p q) (seq 0 m) out (s * I0 + i0)%nat (s * J0 + j0)%nat =
  out (s * I0 + i0)%nat (s * J0 + j0)%nat + if ((I =? I0) && (J =? J0) && (i0 =? j0) && (i0 <? m))%nat then c else 0.
Proof.
  intros Hi Hj m out. induction m as [|m IH]; intros Hm; [cbn [seq fold_left]; rewrite andb_false_r; ring|]. rewrite seq_S, fold_left_app. cbn [fold_left]. rewrite Nat.add_0_l. rewrite IH by lia.
  rewrite !index_inj by lia. rewrite (Nat.eqb_sym I0 I), (Nat.eqb_sym J0 J). destruct (I =? I0)%nat; cbn [andb]; [|rewrite ?andb_false_r; ring]. destruct (J =? J0)%nat; cbn [andb]; [|rewrite ?andb_false_r; ring].
  destruct (Nat.eqb_spec i0 j0) as [->|N]; cbn [andb].
  - rewrite andb_diag. destruct (Nat.eqb_spec j0 m) as [->|N].
    + rewrite (proj2 (Nat.ltb_ge m m)) by lia. rewrite (proj2 (Nat.ltb_lt m (S m))) by lia. ring.
    + destruct (Nat.ltb_spec j0 m), (Nat.ltb_spec j0 (S m)); try lia; ring.
  - destruct (Nat.eqb_spec i0 m) as [->|]; cbn [andb]; [|ring]. destruct (Nat.eqb_spec j0 m); [lia|ring].
Qed.
Lemma mass_row s I (f : nat -> R) I0 J0 i0 j0 : (i0 < s)%nat -> (j0 < s)%nat -> forall m (out : mat),
  fold_left (fun output J => fold_left (fun (output : mat) i => fun p q => if ((p =? s * I + i) && (q =? s * J + i))%bool%nat then output p q + f J else output p q) (seq 0 s) output) (seq I m) out (s * I0 + i0)%nat (s * J0 + j0)%nat =
  out (s * I0 + i0)%nat (s * J0 + j0)%nat + if ((I =? I0) && (i0 =? j0) && (I <=? J0) && (J0 <? I + m))%nat then f J0 else 0.
Proof.
  intros Hi Hj m out. induction m as [|m IH].
  - cbn [seq fold_left]. destruct (Nat.leb_spec I J0), (Nat.ltb_spec J0 (I + 0)); try lia; rewrite ?andb_false_r; cbn; ring.
  - rewrite seq_S, fold_left_app. cbn [fold_left]. rewrite mass_diagonal by lia. rewrite IH. rewrite (proj2 (Nat.ltb_lt i0 s) Hi), andb_true_r. destruct (I =? I0)%nat; cbn [andb]; [|ring]. destruct (i0 =? j0)%nat; cbn [andb]; [|rewrite ?andb_false_r; ring].
    rewrite andb_true_r. destruct (Nat.eqb_spec (I + m) J0) as [<-|N].
    + rewrite (proj2 (Nat.ltb_ge (I + m) (I + m))) by lia. rewrite (proj2 (Nat.leb_le I (I + m))) by lia. rewrite (proj2 (Nat.ltb_lt (I + m) (I + S m))) by lia. cbn [andb]. ring.
    + destruct (Nat.ltb_spec J0 (I + m)), (Nat.ltb_spec J0 (I + S m)); try lia; ring.
Qed.
Lemma mass_all s n (f : nat -> nat -> R) I0 J0 i0 j0 : (i0 < s)%nat -> (j0 < s)%nat -> (J0 < n)%nat -> forall m (out : mat), (m <= n)%nat ->
  fold_left (fun output I => fold_left (fun output J => fold_left (fun (output : mat) i => fun p q => if ((p =? s * I + i) && (q =? s * J + i))%bool%nat then output p q + f I J else output p q) (seq 0 s) output) (seq I (n - I)) output) (seq 0 m) out (s * I0 + i0)%nat (s * J0 + j0)%nat =
  out (s * I0 + i0)%nat (s * J0 + j0)%nat + if ((I0 <? m) && (i0 =? j0) && (I0 <=? J0))%nat then f I0 J0 else 0.
Proof.
  intros Hi Hj HJ m out. induction m as [|m IH]; intros Hm; [cbn [seq fold_left Nat.ltb Nat.leb andb]; ring|]. rewrite seq_S, fold_left_app. cbn [fold_left]. rewrite Nat.add_0_l. rewrite (mass_row s m (f m)) by assumption. rewrite IH by lia.
  replace (m + (n - m))%nat with n by lia. rewrite (proj2 (Nat.ltb_lt J0 n) HJ), andb_true_r. destruct (i0 =? j0)%nat; cbn [andb]; [|rewrite ?andb_false_r; cbn; ring]. rewrite !andb_true_r.
  destruct (Nat.eqb_spec m I0) as [->|N].
  - rewrite (proj2 (Nat.ltb_ge I0 I0)) by lia. rewrite (proj2 (Nat.ltb_lt I0 (S I0))) by lia. cbn [andb]. ring.
  - cbn [andb]. destruct (Nat.ltb_spec I0 m), (Nat.ltb_spec I0 (S m)); try lia; ring.
Qed.

Section theorems.
Context {Pt : Type} (el : element Pt) (weights : list R) (points : list Pt) (s : nat).
Let d := el_dim el.
Let n := el_nodes el.

Section mass.
Variable density : list R.
Let q := combine weights (combine points density).
Lemma mass_value : quadrature_sizes weights points density -> exists M, element_mass el weights points density s n (s * n) (s * n) = Done M /\
  forall I J i j, (I < n)%nat -> (J < n)%nat -> (i < s)%nat -> (j < s)%nat ->
    M (s * I + i)%nat (s * J + j)%nat = if (i =? j)%nat then qsum q (fun w p rho => w * Rabs (determinant d (el_jacobian el p)) * rho * el_basis el p I * el_basis el p J) else 0.
Proof.
  intros (E1 & E2). unfold element_mass. cbv zeta. rewrite E1, E2, !Nat.eqb_refl. cbn [negb]. fold n. rewrite ?Nat.eqb_refl. cbn [negb]. fold q d. eexists. split; [reflexivity|]. intros I J i j HI HJ Hi Hj.
  rewrite clone_all by nia.
  assert (K : forall (out : mat) I J i j, (I < n)%nat -> (J < n)%nat -> (i < s)%nat -> (j < s)%nat -> fold_left (fun output '(weight, (point, density)) =>
      fold_left (fun output I =>
        fold_left (fun output J =>
          fold_left (fun (output : mat) i => fun p q => if ((p =? s * I + i) && (q =? s * J + i))%bool%nat then output p q + weight * Rabs (determinant d (el_jacobian el point)) * density * el_basis el point I * el_basis el point J else output p q) (seq 0 s) output)
        (seq I (n - I)) output)
      (seq 0 n) output) q out (s * I + i)%nat (s * J + j)%nat = out (s * I + i)%nat (s * J + j)%nat + if ((i =? j) && (I <=? J))%nat then qsum q (fun w p rho => w * Rabs (determinant d (el_jacobian el p)) * rho * el_basis el p I * el_basis el p J) else 0).
  { clear I J i j HI HJ Hi Hj. clearbody q. intros out I J i j HI HJ Hi Hj. revert out. induction q as [|(w & p & rho) q' IH]; intros out; [cbn; destruct (_ && _); ring|]. cbn [fold_left]. rewrite IH.
    rewrite (mass_all s n (fun I J => w * Rabs (determinant d (el_jacobian el p)) * rho * el_basis el p I * el_basis el p J)) by (assumption || lia). rewrite (proj2 (Nat.ltb_lt I n) HI). cbn [andb]. unfold qsum. cbn [fold_right fst snd]. destruct (_ && _); ring. }
  destruct (Nat.ltb_spec (s * J + j) (s * I + i)) as [L|L]; rewrite K by assumption; unfold zeros; rewrite Rplus_0_l.
  - assert (J <= I)%nat by nia. rewrite (proj2 (Nat.leb_le J I)) by assumption. rewrite andb_true_r, (Nat.eqb_sym j i). destruct (i =? j)%nat; [|reflexivity]. apply qsum_ext. intros; ring.
  - assert (I <= J)%nat by nia. rewrite (proj2 (Nat.leb_le I J)) by assumption. rewrite andb_true_r. reflexivity.
Qed.
(** C77: the blocks of the mass matrix are multiples of the identity by the quadratures of density times products of basis functions, above and below the diagonal; the
    call panics exactly if some size does not match *)
Theorem C77_mass : (exists M, element_mass el weights points density s n (s * n) (s * n) = Done M /\
    forall I J i j, (I < n)%nat -> (J < n)%nat -> (i < s)%nat -> (j < s)%nat ->
      M (s * I + i)%nat (s * J + j)%nat = if (i =? j)%nat then qsum q (fun w p rho => w * Rabs (determinant d (el_jacobian el p)) * rho * el_basis el p I * el_basis el p J) else 0) <->
  quadrature_sizes weights points density.
Proof.
  split; [|apply mass_value]. intros (M & E & _). unfold element_mass in E. cbv zeta in E. destruct (Nat.eqb_spec (length weights) (length points)); [|discriminate]. destruct (Nat.eqb_spec (length points) (length density)); [|discriminate]. split; assumption.
Qed.
(** C77: products with nodal values are integrals of products of functions; with weights and densities that are not negative the matrix is positive semidefinite;
    if the basis functions add up to one then the entries of each component add up to the mass *)
Theorem C77_mass_form M : element_mass el weights points density s n (s * n) (s * n) = Done M ->
  (forall v v', summ n (fun I => summ s (fun i => summ n (fun J => summ s (fun j => nth (s * I + i) v 0 * M (s * I + i)%nat (s * J + j)%nat * nth (s * J + j) v' 0)))) =
    qsum q (fun w p rho => w * Rabs (determinant d (el_jacobian el p)) * rho * summ s (fun i => interpolated el s v p i * interpolated el s v' p i))) /\
  ((forall w, In w weights -> 0 <= w) -> (forall rho, In rho density -> 0 <= rho) ->
    forall v, 0 <= summ n (fun I => summ s (fun i => summ n (fun J => summ s (fun j => nth (s * I + i) v 0 * M (s * I + i)%nat (s * J + j)%nat * nth (s * J + j) v 0))))) /\
  (partition_of_unity el q -> forall i, (i < s)%nat -> summ n (fun I => summ n (fun J => M (s * I + i)%nat (s * J + i)%nat)) = qsum q (fun w p rho => w * Rabs (determinant d (el_jacobian el p)) * rho)).
Proof.
  intros E. assert (Hq : quadrature_sizes weights points density).
  { unfold element_mass in E. cbv zeta in E. destruct (Nat.eqb_spec (length weights) (length points)); [|discriminate]. destruct (Nat.eqb_spec (length points) (length density)); [|discriminate]. split; assumption. }
  destruct (mass_value Hq) as (M' & E' & HM). rewrite E in E'. injection E' as <-.
  assert (P : forall v v', summ n (fun I => summ s (fun i => summ n (fun J => summ s (fun j => nth (s * I + i) v 0 * M (s * I + i)%nat (s * J + j)%nat * nth (s * J + j) v' 0)))) =
    qsum q (fun w p rho => w * Rabs (determinant d (el_jacobian el p)) * rho * summ s (fun i => interpolated el s v p i * interpolated el s v' p i))).
  { intros v v'. transitivity (summ n (fun I => summ s (fun i => summ n (fun J => qsum q (fun w p rho => w * Rabs (determinant d (el_jacobian el p)) * rho * ((el_basis el p I * nth (s * I + i) v 0) * (el_basis el p J * nth (s * J + i) v' 0))))))).
    { apply summ_ext. intros I HI. apply summ_ext. intros i Hi. apply summ_ext. intros J HJ. rewrite (summ_ext s _ (fun j => if (j =? i)%nat then nth (s * I + i) v 0 * M (s * I + i)%nat (s * J + j)%nat * nth (s * J + j) v' 0 else 0)).
      - rewrite (summ_delta s i (fun j => nth (s * I + i) v 0 * M (s * I + i)%nat (s * J + j)%nat * nth (s * J + j) v' 0)) by exact Hi. rewrite HM by assumption. rewrite Nat.eqb_refl. rewrite Rmult_assoc, Rmult_comm, Rmult_assoc, Rmult_comm. rewrite <- qsum_l. apply qsum_ext. intros; ring.
      - intros j Hj. rewrite HM by assumption. rewrite (Nat.eqb_sym j i). destruct (i =? j)%nat; ring. }
    rewrite (summ_ext n _ (fun I => qsum q (fun w p rho => summ s (fun i => summ n (fun J => w * Rabs (determinant d (el_jacobian el p)) * rho * ((el_basis el p I * nth (s * I + i) v 0) * (el_basis el p J * nth (s * J + i) v' 0))))))).
    2: { intros I _. rewrite (qsum_summ s q (fun i w p rho => summ n (fun J => w * Rabs (determinant d (el_jacobian el p)) * rho * ((el_basis el p I * nth (s * I + i) v 0) * (el_basis el p J * nth (s * J + i) v' 0))))). apply summ_ext. intros i _.
      rewrite (qsum_summ n q (fun J w p rho => w * Rabs (determinant d (el_jacobian el p)) * rho * ((el_basis el p I * nth (s * I + i) v 0) * (el_basis el p J * nth (s * J + i) v' 0)))). reflexivity. }
    rewrite <- (qsum_summ n q (fun I w p rho => summ s (fun i => summ n (fun J => w * Rabs (determinant d (el_jacobian el p)) * rho * ((el_basis el p I * nth (s * I + i) v 0) * (el_basis el p J * nth (s * J + i) v' 0)))))).
    apply qsum_ext. intros w p rho _. set (c := w * _ * _). rewrite summ_swap. rewrite <- (summ_l s c). apply summ_ext. intros i _. unfold interpolated. fold n. rewrite summ_dist. rewrite <- (summ_l n c). apply summ_ext. intros I _. rewrite (summ_l n c). reflexivity. }
  split; [exact P|]. split.
  - intros Hw Hrho v. rewrite P. assert (In_w : forall w p x, In (w, (p, x)) q -> 0 <= w /\ 0 <= x) by (intros w p x Hin; unfold q in Hin; split; [apply Hw; exact (in_combine_l _ _ _ _ Hin)|apply Hrho; apply in_combine_r in Hin; exact (in_combine_r _ _ _ _ Hin)]). clearbody q. clear - In_w.
    induction q as [|(w & p & x) q' IH]; [cbn; lra|]. unfold qsum in *. cbn [fold_right fst snd]. pose proof (IH (fun w' p' x' Hin => In_w w' p' x' (or_intror Hin))) as B. apply Rplus_le_le_0_compat; [|exact B]. destruct (In_w w p x (or_introl eq_refl)) as (W & X).
    apply Rmult_le_pos; [apply Rmult_le_pos; [apply Rmult_le_pos; [exact W|apply Rabs_pos]|exact X]|]. apply summ_nonneg. intros k _. apply Rle_0_sqr.
  - intros Hp i Hi. rewrite (summ_ext n _ (fun I => summ n (fun J => qsum q (fun w p rho => w * Rabs (determinant d (el_jacobian el p)) * rho * (el_basis el p I * el_basis el p J))))).
    2: { intros I HI. apply summ_ext. intros J HJ. rewrite HM by assumption. rewrite Nat.eqb_refl. apply qsum_ext. intros; ring. }
    rewrite (summ_ext n _ (fun I => qsum q (fun w p rho => summ n (fun J => w * Rabs (determinant d (el_jacobian el p)) * rho * (el_basis el p I * el_basis el p J))))) by (intros I _; rewrite (qsum_summ n q (fun J w p rho => w * Rabs (determinant d (el_jacobian el p)) * rho * (el_basis el p I * el_basis el p J))); reflexivity).
    rewrite <- (qsum_summ n q (fun I w p rho => summ n (fun J => w * Rabs (determinant d (el_jacobian el p)) * rho * (el_basis el p I * el_basis el p J)))). apply qsum_ext. intros w p rho Hin. set (c := w * _ * _).
    rewrite (summ_ext n _ (fun I => c * (el_basis el p I * 1))).
    + rewrite (summ_l n c), (summ_ext n _ (fun I => el_basis el p I)) by (intros; ring). pose proof (Hp w p rho Hin) as H1. fold n in H1. rewrite H1. unfold c. ring.
    + intros I _. rewrite (summ_l n c). f_equal. rewrite summ_l. f_equal. exact (Hp w p rho Hin).
Qed.
End mass.

Section source.
Context {Data : Type} (data : list Data).
Let q := combine weights (combine points data).
Lemma source_value (source : vec -> Data -> vec) : quadrature_sizes weights points data -> exists f, element_source el s source weights points data n (n * s) = Done f /\
  forall I i, (i < s)%nat -> f (s * I + i)%nat = qsum q (fun w p x => w * Rabs (determinant d (el_jacobian el p)) * (source (el_map el p) x i * el_basis el p I)).
Proof.
  intros (E1 & E2). unfold element_source. cbv zeta. rewrite E1, E2, !Nat.eqb_refl. cbn [negb]. fold n. rewrite ?Nat.eqb_refl. cbn [negb]. fold q d. eexists. split; [reflexivity|]. intros I i Hi.
  assert (DI : ((s * I + i) / s = I)%nat) by (rewrite Nat.mul_comm, Nat.div_add_l by lia; rewrite Nat.div_small by lia; lia).
  assert (MI : ((s * I + i) mod s = i)%nat) by (rewrite Nat.mul_comm, Nat.add_comm, Nat.mod_add by lia; apply Nat.mod_small; lia).
  assert (K : forall (out : vec) r, fold_left (fun (output : vec) '(weight, (point, data)) r => output r + weight * Rabs (determinant d (el_jacobian el point)) * (source (el_map el point) data (r mod s)%nat * el_basis el point (r / s)%nat)) q out r =
    out r + qsum q (fun w p x => w * Rabs (determinant d (el_jacobian el p)) * (source (el_map el p) x (r mod s)%nat * el_basis el p (r / s)%nat))).
  { clearbody q. intros out r. revert out. induction q as [|(w & p & x) q' IH]; intros out; [cbn; ring|]. cbn [fold_left]. rewrite IH. unfold qsum. cbn [fold_right fst snd]. ring. }
  rewrite K, DI, MI. ring.
Qed.
(** C77: source vectors are quadratures of the source times basis functions; products with nodal values are integrals of source times function; if the basis
    functions add up to one, the vector adds up to the integral of the source *)
Theorem C77_source source f : element_source el s source weights points data n (n * s) = Done f ->
  (forall I i, (i < s)%nat -> f (s * I + i)%nat = qsum q (fun w p x => w * Rabs (determinant d (el_jacobian el p)) * (source (el_map el p) x i * el_basis el p I))) /\
  (forall v, summ n (fun I => summ s (fun i => f (s * I + i)%nat * nth (s * I + i) v 0)) = qsum q (fun w p x => w * Rabs (determinant d (el_jacobian el p)) * summ s (fun i => source (el_map el p) x i * interpolated el s v p i))) /\
  (partition_of_unity el q -> forall i, (i < s)%nat -> summ n (fun I => f (s * I + i)%nat) = qsum q (fun w p x => w * Rabs (determinant d (el_jacobian el p)) * source (el_map el p) x i)).
Proof.
  intros E. assert (Hq : quadrature_sizes weights points data).
  { unfold element_source in E. cbv zeta in E. destruct (Nat.eqb_spec (length weights) (length points)); [|discriminate]. destruct (Nat.eqb_spec (length points) (length data)); [|discriminate]. split; assumption. }
  destruct (source_value source Hq) as (f' & E' & Hf). rewrite E in E'. injection E' as <-. split; [exact Hf|]. split.
  - intros v. rewrite (summ_ext n _ (fun I => qsum q (fun w p x => summ s (fun i => w * Rabs (determinant d (el_jacobian el p)) * (source (el_map el p) x i * (el_basis el p I * nth (s * I + i) v 0)))))).
    2: { intros I _. rewrite (qsum_summ s q (fun i w p x => w * Rabs (determinant d (el_jacobian el p)) * (source (el_map el p) x i * (el_basis el p I * nth (s * I + i) v 0)))). apply summ_ext. intros i Hi. rewrite Hf by exact Hi. rewrite Rmult_comm, <- qsum_l. apply qsum_ext. intros; ring. }
    rewrite <- (qsum_summ n q (fun I w p x => summ s (fun i => w * Rabs (determinant d (el_jacobian el p)) * (source (el_map el p) x i * (el_basis el p I * nth (s * I + i) v 0))))). apply qsum_ext. intros w p x _. set (c := w * _). rewrite summ_swap, <- (summ_l s c). apply summ_ext. intros i _.
    rewrite (summ_l n c). f_equal. unfold interpolated. rewrite summ_l. reflexivity.
  - intros Hp i Hi. rewrite (summ_ext n _ (fun I => qsum q (fun w p x => w * Rabs (determinant d (el_jacobian el p)) * (source (el_map el p) x i * el_basis el p I)))) by (intros; apply Hf; exact Hi).
    rewrite <- (qsum_summ n q (fun I w p x => w * Rabs (determinant d (el_jacobian el p)) * (source (el_map el p) x i * el_basis el p I))). apply qsum_ext. intros w p x Hin. set (c := w * _). rewrite (summ_l n c). f_equal. rewrite (summ_l n (source (el_map el p) x i)). etransitivity; [apply f_equal; exact (Hp w p x Hin)|ring].
Qed.
End source.
(** C77: gravity pulls with the mass times the acceleration *)
Theorem C77_gravity gravity density f M : element_source el s (gravity_source gravity) weights points density n (n * s) = Done f -> element_mass el weights points density s n (s * n) (s * n) = Done M ->
  partition_of_unity el (combine weights (combine points density)) -> forall i, (i < s)%nat ->
  summ n (fun I => f (s * I + i)%nat) = gravity i * summ n (fun I => summ n (fun J => M (s * I + i)%nat (s * J + i)%nat)).
Proof.
  intros Ef EM Hp i Hi. destruct (C77_source density _ _ Ef) as (_ & _ & H). rewrite (H Hp i Hi). destruct (C77_mass_form density _ EM) as (_ & _ & H'). rewrite (H' Hp i Hi). rewrite <- qsum_l. apply qsum_ext. intros w p rho _. unfold gravity_source. ring.
Qed.
End theorems.
Print Assumptions C77_mass.
Print Assumptions C77_mass_form.
Print Assumptions C77_source.
Print Assumptions C77_gravity.
(** a triangle with two components *)
Example C77_example : let el := Element (R * R) 3 2 (fun p I => nth I [1 - fst p - snd p; fst p; snd p] 0) (fun _ I k => nth k (nth I [[-1; -1]; [1; 0]; [0; 1]] []) 0) (fun p k => nth k [2 * fst p; 2 * snd p] 0) (fun _ i j => if (i =? j)%nat then 2 else 0) in
  let q := combine [1/2; 1/4] (combine [(1/3, 1/3); (0, 1/2)] [3; 5]) in
  partition_of_unity el q /\ (exists M, element_mass el [1/2; 1/4] [(1/3, 1/3); (0, 1/2)] [3; 5] 2 3 6 6 = Done M) /\ exists f, element_source el 2 (gravity_source (fun i => nth i [0; -10] 0)) [1/2; 1/4] [(1/3, 1/3); (0, 1/2)] [3; 5] 3 6 = Done f.
Proof.
  cbv zeta. split; [intros w p x [[= <- <- <-]|[[= <- <- <-]|[]]]; cbn; lra|]. split; eexists; reflexivity.
Qed.

(** C79: products of assembled matrices and vectors with nodal values are the integrals over the mesh. *)
From stdpp Require Import base list list_numbers sets.
From Coq Require Import Reals Lia Lra.
From Coquelicot Require Import Coquelicot.
From Verif Require Import Prelude NestedVecModel ParadisModel VectorModel VectorSpec VectorProofs ParadisSpec ColoringProofs CsrModel CsrSpec PropVector PropCsr.
From Verif Require Import MaterialModel EllipticModel PropMaterial PropObjective PropElliptic PropEllipticOps PropMass GlobalModel PropGlobal.
Local Open Scope R_scope.
Local Notation vec := (nat -> R).
Local Notation mat := (nat -> nat -> R).

(** * specification *)
(** [A] has the entries of the assembled matrix [m] *)
Definition entries_of (n : nat) (m : csr R) (A : mat) : Prop := forall r c, (r < n)%nat -> (c < n)%nat -> entry_is 0 m r c (A r c).
(** v^T A v' *)
Definition form (n : nat) (A : mat) (v v' : list R) : R := summ n (fun r => summ n (fun c => nth r v 0 * A r c * nth c v' 0)).
(** the integral over the mesh, by quadrature, of a function of element, weight times volume, point and data *)
Definition mesh_integral {Pt Data} (sp : fe_space Pt) (elems : nat) (w : nat -> list R) (p : nat -> list Pt) (x : nat -> list Data) (g : nat -> Pt -> Data -> R) : R :=
  summ elems (fun e => qsum (combine (w e) (combine (p e) (x e))) (fun wt pt y => wt * Rabs (determinant (el_dim (fs_element sp e)) (el_jacobian (fs_element sp e) pt)) * g e pt y)).

(** * forms *)
Lemma scattered_mat_row s ls K r c : scattered_mat s ls K r c = scattered s ls (fun e a => let ns := nth e ls [] in summ (length ns) (fun J => if (nth J ns 0 =? c / s)%nat then K e a (s * J + c mod s)%nat else 0)) r.
Proof.
  unfold scattered_mat, scattered. apply summ_ext. intros e He. cbv zeta. apply summ_ext. intros I HI. destruct (_ =? _)%nat; cbn [andb]; [reflexivity|]. apply summ_zero'. reflexivity.
Qed.
Lemma form_sum s N ls K v v' : (0 < s)%nat -> nodes_in_range N ls -> form (s * N) (scattered_mat s ls K) v v' =
  summ (length ls) (fun e => let ns := nth e ls [] in summ (length ns) (fun I => summ s (fun i => summ (length ns) (fun J => summ s (fun j =>
    nth (s * I + i) (local_values s v ns) 0 * K e (s * I + i)%nat (s * J + j)%nat * nth (s * J + j) (local_values s v' ns) 0))))).
Proof.
  intros Hs Hr. unfold form. rewrite summ_swap.
  rewrite (summ_ext (s * N) _ (fun c => summ (length ls) (fun e => let ns := nth e ls [] in summ (length ns) (fun J => if (nth J ns 0 =? c / s)%nat then
     (fun b => summ (length ns) (fun I => summ s (fun i => nth (s * I + i) (local_values s v ns) 0 * K e (s * I + i)%nat b))) (s * J + c mod s)%nat else 0)) * nth c v' 0)).
  - pose proof (scattered_dot s N ls (fun e b => let ns := nth e ls [] in summ (length ns) (fun I => summ s (fun i => nth (s * I + i) (local_values s v ns) 0 * K e (s * I + i)%nat b))) v' Hs Hr) as H.
    unfold scattered in H. cbv zeta in *. rewrite H. apply summ_ext. intros e He. set (ns := nth e ls []).
    rewrite (summ_ext (length ns) (fun J => _) (fun J => summ (length ns) (fun I => summ s (fun i => summ s (fun j => nth (s * I + i) (local_values s v ns) 0 * K e (s * I + i)%nat (s * J + j)%nat * nth (s * J + j) (local_values s v' ns) 0))))).
    + rewrite summ_swap. apply summ_ext. intros I HI. rewrite summ_swap. reflexivity.
    + intros J HJ. rewrite (summ_ext s _ (fun j => summ (length ns) (fun I => summ s (fun i => nth (s * I + i) (local_values s v ns) 0 * K e (s * I + i)%nat (s * J + j)%nat * nth (s * J + j) (local_values s v' ns) 0)))).
      * rewrite summ_swap. apply summ_ext. intros I HI. apply summ_swap.
      * intros j Hj. rewrite <- summ_r. apply summ_ext. intros I HI. rewrite <- summ_r. reflexivity.
  - intros c Hc. rewrite (summ_ext (s * N) _ (fun r => scattered s ls (fun e a => let ns := nth e ls [] in summ (length ns) (fun J => if (nth J ns 0 =? c / s)%nat then K e a (s * J + c mod s)%nat else 0)) r * nth r v 0 * nth c v' 0)).
    2: { intros r Hrr. rewrite scattered_mat_row. ring. }
    rewrite summ_r. f_equal. rewrite scattered_dot by assumption. apply summ_ext. intros e He. cbv zeta. set (ns := nth e ls []).
    rewrite (summ_ext (length ns) _ (fun I => summ (length ns) (fun J => summ s (fun i => if (nth J ns 0 =? c / s)%nat then nth (s * I + i) (local_values s v ns) 0 * K e (s * I + i)%nat (s * J + c mod s)%nat else 0)))).
    + rewrite summ_swap. apply summ_ext. intros J HJ. destruct (nth J ns 0 =? c / s)%nat; [reflexivity|]. apply summ_zero'. intros I HI. apply summ_zero'. reflexivity.
    + intros I HI. rewrite summ_swap. apply summ_ext. intros i Hi. rewrite <- summ_r. apply summ_ext. intros J HJ. destruct (_ =? _)%nat; ring.
Qed.
Lemma form_ext n A B v v' : (forall r c, (r < n)%nat -> (c < n)%nat -> A r c = B r c) -> form n A v v' = form n B v v'.
Proof. intros H. unfold form. apply summ_ext. intros r Hr. apply summ_ext. intros c Hc. rewrite H by assumption. reflexivity. Qed.

(** nodal values of the constant function 1 in component [i] *)
Definition component (s N i : nat) : list R := as_list (s * N) (fun k => if (k mod s =? i)%nat then 1 else 0).
Lemma component_at s N i n j : (n < N)%nat -> (j < s)%nat -> nth (s * n + j) (component s N i) 0 = if (j =? i)%nat then 1 else 0.
Proof. intros Hn Hj. unfold component. rewrite nth_as_list by nia. destruct (divmod_block s n j Hj) as (_ & ->). reflexivity. Qed.
Lemma form_component s N A i j : (i < s)%nat -> (j < s)%nat -> form (s * N) A (component s N i) (component s N j) = summ N (fun a => summ N (fun b => A (s * a + i)%nat (s * b + j)%nat)).
Proof.
  intros Hi Hj. unfold form. rewrite summ_blocks. apply summ_ext. intros a Ha.
  rewrite (summ_ext s _ (fun i' => if (i' =? i)%nat then summ N (fun b => A (s * a + i')%nat (s * b + j)%nat) else 0)).
  - rewrite (summ_delta s i (fun i' => summ N (fun b => A (s * a + i')%nat (s * b + j)%nat)) Hi). reflexivity.
  - intros i' Hi'. rewrite component_at by assumption. destruct (i' =? i)%nat; [|apply summ_zero'; intros; ring]. rewrite summ_blocks. apply summ_ext. intros b Hb.
    rewrite (summ_ext s _ (fun j' => if (j' =? j)%nat then A (s * a + i')%nat (s * b + j')%nat else 0)).
    + rewrite (summ_delta s j (fun j' => A (s * a + i')%nat (s * b + j')%nat) Hj). reflexivity.
    + intros j' Hj'. rewrite component_at by assumption. destruct (j' =? j)%nat; ring.
Qed.
Lemma dot_component s N (f : list R) i : (i < s)%nat -> summ (s * N) (fun k => nth k f 0 * nth k (component s N i) 0) = summ N (fun a => nth (s * a + i) f 0).
Proof.
  intros Hi. rewrite summ_blocks. apply summ_ext. intros a Ha. rewrite (summ_ext s _ (fun i' => if (i' =? i)%nat then nth (s * a + i') f 0 else 0)).
  - rewrite (summ_delta s i (fun i' => nth (s * a + i') f 0) Hi). reflexivity.
  - intros i' Hi'. rewrite component_at by assumption. destruct (i' =? i)%nat; ring.
Qed.
Lemma interpolated_component {Pt} (el : element Pt) s N ns pt i j : el_nodes el = length ns -> (forall n, n ∈ ns -> (n < N)%nat) -> (j < s)%nat ->
  interpolated el s (local_values s (component s N i) ns) pt j = if (j =? i)%nat then summ (el_nodes el) (fun I => el_basis el pt I) else 0.
Proof.
  intros He Hn Hj. unfold interpolated. transitivity (summ (el_nodes el) (fun I => el_basis el pt I * (if (j =? i)%nat then 1 else 0))).
  - apply summ_ext. intros I HI. rewrite nth_local by lia. rewrite component_at; [reflexivity| |exact Hj]. apply Hn, (elem_of_list_lookup_2 ns I), some_nth. lia.
  - destruct (j =? i)%nat; [|apply summ_zero'; intros; ring]. apply summ_ext. intros; ring.
Qed.

Section integrals.
Context {Pt : Type} (origin : Pt) (umax : nat) (sp : fe_space Pt) (s : nat) (ls : list (list nat)) (w : nat -> list R) (p : nat -> list Pt).
Context (srt : list nat -> list nat) (ord : nat -> list nat -> list nat).
(** elements with different nodes in range *)
Definition conforming_mesh : Prop := has_conn (fs_conn sp s) ls /\ nodes_in_range (fs_nodes sp) ls /\ List.Forall NoDup ls /\ forall e ns, ls !! e = Some ns -> el_nodes (fs_element sp e) = length ns.
Hypothesis Hmesh : conforming_mesh.
Hypothesis Hs : (0 < s)%nat.
Hypothesis Hord : hash_order ord.
Hypothesis Hsrt : sorts_by_key srt.
Let N := fs_nodes sp.
Let nodes e := nth e ls [].
Let el e := fs_element sp e.

Lemma mesh_node e n : (e < length ls)%nat -> n ∈ nodes e -> (n < N)%nat.
Proof. intros He Hn. destruct Hmesh as (_ & Hr & _). apply (Hr (nodes e)); [apply (elem_of_list_lookup_2 ls e), some_nth, He|exact Hn]. Qed.
Lemma mesh_count e : (e < length ls)%nat -> el_nodes (el e) = length (nodes e).
Proof. intros He. destruct Hmesh as (_ & _ & _ & H). apply H, some_nth, He. Qed.

Section mass.
Context (table : q_table Pt R) (rho : nat -> list R).
Hypothesis Hq : reads_quadrature table (length ls) w p rho.
Lemma mass_element e ws out : (e < length ls)%nat -> square (s * length (nodes e)) out ->
  exists M, element_mass (el e) (w e) (p e) (rho e) s (length (nodes e)) (s * length (nodes e)) (s * length (nodes e)) = Done M /\
    mass_matrix origin umax sp table s ws e out = Ok (as_rows (s * length (nodes e)) M).
Proof.
  intros He (Ho & Hrow). destruct Hmesh as (Hc & Hr & _ & _). destruct (Hq e He) as (L1 & L2 & _).
  destruct (mass_value (el e) (w e) (p e) s (rho e) ) as (M & EM & _); [split; lia|]. rewrite mesh_count in EM by exact He. exists M. split; [exact EM|].
  unfold mass_matrix. rewrite (prepare_quadrature_ok origin 0 table ls w p rho Hq) by exact He. cbn [obind prepare_nodes ew_weights ew_points ew_data ew_basis].
  assert (Hn : fs_count sp e = length (nodes e)) by (destruct Hc as (_ & Hc); apply (Hc e (nodes e)), some_nth, He). rewrite Hn.
  assert (Hcol : match out with [] => 0%nat | row :: _ => length row end = (s * length (nodes e))%nat).
  { destruct out as [|row out]; [exact Ho|]. apply Forall_cons in Hrow as (Hrow & _). exact Hrow. }
  rewrite Hcol, Ho. fold (el e). rewrite EM. reflexivity.
Qed.
Let mass_at cws ws := (assemble_csr Rplus 0 srt ord umax cws (mass_mat_asm origin umax sp table s ws)).2.

(** C79: the assembled mass matrix. Products with nodal values are the integrals over the mesh of density times the product of the functions; with weights and densities that are not negative the
    matrix is positive semidefinite; if the basis functions add up to one then the entries of each component add up to the mass of the mesh; different components are not coupled *)
Theorem C79_mass cws ws : exists m, mass_at cws ws = Ok m /\ csr_wf m /\ pt_nrows (cs_pat m) = (s * N)%nat /\ exists A, entries_of (s * N) m A /\
  (forall r c, (r < s * N)%nat -> (c < s * N)%nat -> A r c = A c r) /\
  (forall a b i j, (a < N)%nat -> (b < N)%nat -> (i < s)%nat -> (j < s)%nat -> i <> j -> A (s * a + i)%nat (s * b + j)%nat = 0) /\
  (forall v v', length v = (s * N)%nat -> length v' = (s * N)%nat -> form (s * N) A v v' =
    mesh_integral sp (length ls) w p rho (fun e pt y => y * summ s (fun i => interpolated (el e) s (local_values s v (nodes e)) pt i * interpolated (el e) s (local_values s v' (nodes e)) pt i))) /\
  ((forall e wt, (e < length ls)%nat -> In wt (w e) -> 0 <= wt) -> (forall e y, (e < length ls)%nat -> In y (rho e) -> 0 <= y) -> forall v, length v = (s * N)%nat -> 0 <= form (s * N) A v v) /\
  ((forall e, (e < length ls)%nat -> partition_of_unity (el e) (combine (w e) (combine (p e) (rho e)))) ->
    forall i, (i < s)%nat -> summ N (fun a => summ N (fun b => A (s * a + i)%nat (s * b + i)%nat)) = mesh_integral sp (length ls) w p rho (fun _ _ y => y)).
Proof.
  destruct Hmesh as (Hc & Hr & Hn & _).
  assert (HM : exists M : nat -> mat, forall e, (e < length ls)%nat -> element_mass (el e) (w e) (p e) (rho e) s (length (nodes e)) (s * length (nodes e)) (s * length (nodes e)) = Done (M e)).
  { exists (fun e => match element_mass (el e) (w e) (p e) (rho e) s (length (nodes e)) (s * length (nodes e)) (s * length (nodes e)) with Done M => M | _ => fun _ _ => 0 end).
    intros e He. destruct (mass_element e (ws e) (as_rows (s * length (nodes e)) (fun _ _ => 0)) He (square_as_rows _ _)) as (M & EM & _). rewrite EM. reflexivity. }
  destruct HM as (M & HM).
  destruct (matrix_sum srt ord umax cws (mass_mat_asm origin umax sp table s ws) ls M Hord Hsrt Hc Hr Hs Hn) as (m & Em & Hw & Hp & Hent).
  { intros e ns out He Ho. cbn [ma_mat ma_conn ca_sdim mass_mat_asm fs_conn] in *. assert (En : nodes e = ns) by (apply nth_some, He). subst ns. assert (He' := lookup_lt_Some _ _ _ He).
    destruct (mass_element e (ws e) out He' Ho) as (M' & EM' & ->). rewrite HM in EM' by exact He'. injection EM' as <-. reflexivity. }
  exists m. split; [exact Em|]. split; [exact Hw|]. split; [exact Hp|]. exists (scattered_mat s ls M). cbn [ma_conn mass_mat_asm fs_conn ca_sdim] in Hent. split; [intros r c _ _; apply Hent|].
  assert (HF : forall v v', form (s * N) (scattered_mat s ls M) v v' =
    mesh_integral sp (length ls) w p rho (fun e pt y => y * summ s (fun i => interpolated (el e) s (local_values s v (nodes e)) pt i * interpolated (el e) s (local_values s v' (nodes e)) pt i))).
  { intros v v'. rewrite form_sum by assumption. unfold mesh_integral. apply summ_ext. intros e He. cbv zeta. fold (nodes e) (el e). assert (EM := HM e He). rewrite <- mesh_count in EM |- * by exact He.
    destruct (C77_mass_form (el e) (w e) (p e) s (rho e) (M e) EM) as (H & _). rewrite H. apply qsum_ext. intros. ring. }
  assert (Hent' : forall e, (e < length ls)%nat -> forall I J i j, (I < length (nodes e))%nat -> (J < length (nodes e))%nat -> (i < s)%nat -> (j < s)%nat -> M e (s * I + i)%nat (s * J + j)%nat =
    if (i =? j)%nat then qsum (combine (w e) (combine (p e) (rho e))) (fun w p rho => w * Rabs (determinant (el_dim (el e)) (el_jacobian (el e) p)) * rho * el_basis (el e) p I * el_basis (el e) p J) else 0).
  { intros e He. assert (EM := HM e He). rewrite <- mesh_count in EM by exact He. destruct (Hq e He) as (L1 & L2 & _). destruct (mass_value (el e) (w e) (p e) s (rho e) ) as (M' & EM' & HM'); [split; lia|].
    rewrite EM in EM'. injection EM' as <-. rewrite <- mesh_count by exact He. exact HM'. }
  split; [|split; [|split; [|split]]].
  - intros r c _ _. unfold scattered_mat. apply summ_ext. intros e He. cbv zeta. fold (nodes e). rewrite summ_swap. apply summ_ext. intros J HJ. apply summ_ext. intros I HI. rewrite andb_comm. destruct (_ && _)%bool; [|reflexivity].
    pose proof (Nat.mod_upper_bound r s ltac:(lia)). pose proof (Nat.mod_upper_bound c s ltac:(lia)). rewrite !Hent' by assumption. rewrite (Nat.eqb_sym (c mod s)). destruct (_ =? _)%nat; [|reflexivity]. apply qsum_ext. intros. ring.
  - intros a b i j Ha Hb Hi Hj Hij. unfold scattered_mat. apply summ_zero'. intros e He. cbv zeta. fold (nodes e). apply summ_zero'. intros I HI. apply summ_zero'. intros J HJ. destruct (_ && _)%bool; [|reflexivity].
    destruct (divmod_block s a i Hi) as (_ & ->). destruct (divmod_block s b j Hj) as (_ & ->). rewrite Hent' by assumption. rewrite (proj2 (Nat.eqb_neq i j) Hij). reflexivity.
  - intros v v' _ _. apply HF.
  - intros Hwt Hrho v _. rewrite form_sum by assumption. apply summ_nonneg. intros e He. cbv zeta. fold (nodes e). assert (EM := HM e He). rewrite <- mesh_count in EM |- * by exact He.
    destruct (C77_mass_form (el e) (w e) (p e) s (rho e) (M e) EM) as (_ & H & _). apply H; [intros wt; apply Hwt, He|intros y; apply Hrho, He].
  - intros Hpu i Hi. rewrite <- (form_component s N (scattered_mat s ls M) i i Hi Hi), HF. unfold mesh_integral. apply summ_ext. intros e He. apply qsum_ext. intros wt pt y Hin. f_equal.
    transitivity (y * 1); [|ring]. f_equal. rewrite (summ_ext s _ (fun j => if (j =? i)%nat then 1 else 0)); [exact (summ_delta s i (fun _ => 1) Hi)|].
    intros j Hj. rewrite (interpolated_component (el e) s N (nodes e) pt i j (mesh_count e He) (fun n => mesh_node e n He) Hj). destruct (j =? i)%nat; [|ring]. rewrite (Hpu e He wt pt y Hin). ring.
Qed.
End mass.

(** C79: the assembled source vector. Products with nodal values are the integrals over the mesh of the products of source and function; if the basis functions add up to one then the entries of each
    component add up to the integral of that component of the source *)
Theorem C79_source {Data} (default_data : Data) (table : q_table Pt Data) (x : nat -> list Data) (source : vec -> Data -> vec) vws ws : reads_quadrature table (length ls) w p x ->
  exists f, (assemble_vector Rplus 0 umax vws (source_vec_asm origin default_data umax sp table s source ws)).2 = Ok f /\ length f = (s * N)%nat /\
  (forall v, length v = (s * N)%nat -> summ (s * N) (fun k => nth k f 0 * nth k v 0) =
    mesh_integral sp (length ls) w p x (fun e pt y => summ s (fun i => source (el_map (el e) pt) y i * interpolated (el e) s (local_values s v (nodes e)) pt i))) /\
  ((forall e, (e < length ls)%nat -> partition_of_unity (el e) (combine (w e) (combine (p e) (x e)))) ->
    forall i, (i < s)%nat -> summ N (fun a => nth (s * a + i) f 0) = mesh_integral sp (length ls) w p x (fun e pt y => source (el_map (el e) pt) y i)).
Proof.
  intros Hq. destruct Hmesh as (Hc & Hr & Hn & _).
  assert (HF : exists F : nat -> vec, forall e, (e < length ls)%nat -> element_source (el e) s source (w e) (p e) (x e) (length (nodes e)) (length (nodes e) * s) = Done (F e)).
  { exists (fun e => match element_source (el e) s source (w e) (p e) (x e) (length (nodes e)) (length (nodes e) * s) with Done f => f | _ => fun _ => 0 end). intros e He.
    destruct (Hq e He) as (L1 & L2 & _). destruct (source_value (el e) (w e) (p e) s (x e) source) as (f & Ef & _); [split; lia|]. rewrite mesh_count in Ef by exact He. rewrite Ef. reflexivity. }
  destruct HF as (F & HF).
  assert (EV : (assemble_vector Rplus 0 umax vws (source_vec_asm origin default_data umax sp table s source ws)).2 = Ok (as_list (s * N) (scattered s ls F))).
  { apply (vector_sum umax vws (source_vec_asm origin default_data umax sp table s source ws) ls F Hc Hr Hs).
    intros e ns out He Ho. cbn [va_vec va_conn ca_sdim source_vec_asm fs_conn] in *. assert (En : nodes e = ns) by (apply nth_some, He). subst ns. assert (He' := lookup_lt_Some _ _ _ He).
    unfold source_vector. rewrite (prepare_quadrature_ok origin default_data table ls w p x Hq) by exact He'. cbn [obind prepare_nodes ew_weights ew_points ew_data ew_basis].
    assert (Hcnt : fs_count sp e = length (nodes e)) by (destruct Hc as (_ & Hc'); apply (Hc' e (nodes e)), He). rewrite Hcnt, Ho, (Nat.mul_comm s). fold (el e). rewrite (HF e He'). reflexivity. }
  assert (HD : forall v, summ (s * N) (fun k => nth k (as_list (s * N) (scattered s ls F)) 0 * nth k v 0) =
    mesh_integral sp (length ls) w p x (fun e pt y => summ s (fun i => source (el_map (el e) pt) y i * interpolated (el e) s (local_values s v (nodes e)) pt i))).
  { intros v. rewrite (summ_ext (s * N) _ (fun k => scattered s ls F k * nth k v 0)) by (intros k Hk; rewrite nth_as_list by exact Hk; reflexivity). rewrite scattered_dot by assumption.
    unfold mesh_integral. apply summ_ext. intros e He. cbv zeta. fold (nodes e) (el e). assert (Ef := HF e He). rewrite <- mesh_count in Ef |- * by exact He. destruct (C77_source (el e) (w e) (p e) s (x e) source (F e) Ef) as (_ & H & _). apply H. }
  exists (as_list (s * N) (scattered s ls F)). split; [exact EV|]. split; [apply length_as_list|]. split; [intros v _; apply HD|].
  intros Hpu i Hi. rewrite <- (dot_component s N _ i Hi), HD. unfold mesh_integral. apply summ_ext. intros e He. apply qsum_ext. intros wt pt y Hin. f_equal.
  rewrite (summ_ext s _ (fun j => if (j =? i)%nat then source (el_map (el e) pt) y j else 0)); [exact (summ_delta s i (fun j => source (el_map (el e) pt) y j) Hi)|].
  intros j Hj. rewrite (interpolated_component (el e) s N (nodes e) pt i j (mesh_count e He) (fun n => mesh_node e n He) Hj). destruct (j =? i)%nat; [|ring]. rewrite (Hpu e He wt pt y Hin). ring.
Qed.
End integrals.
Print Assumptions C79_mass.
Print Assumptions C79_source.
(** C79: the assembled gravity of a mesh adds up to its mass, taken from the assembled mass matrix, times the acceleration *)
Theorem C79_gravity {Pt} (origin : Pt) umax (sp : fe_space Pt) s ls w p (table : q_table Pt R) rho srt ord gravity vws ws cws ws' f m A :
  conforming_mesh sp s ls -> (0 < s)%nat -> hash_order ord -> sorts_by_key srt -> reads_quadrature table (length ls) w p rho ->
  (forall e, (e < length ls)%nat -> partition_of_unity (fs_element sp e) (combine (w e) (combine (p e) (rho e)))) ->
  (assemble_vector Rplus 0 umax vws (source_vec_asm origin 0 umax sp table s (gravity_source gravity) ws)).2 = Ok f ->
  (assemble_csr Rplus 0 srt ord umax cws (mass_mat_asm origin umax sp table s ws')).2 = Ok m -> entries_of (s * fs_nodes sp) m A ->
  forall i, (i < s)%nat -> summ (fs_nodes sp) (fun a => nth (s * a + i) f 0) = gravity i * summ (fs_nodes sp) (fun a => summ (fs_nodes sp) (fun b => A (s * a + i)%nat (s * b + i)%nat)).
Proof.
  intros Hm Hs Ho Hsrt Hq Hpu Ef Em HA i Hi. destruct (C79_source origin umax sp s ls w p Hm Hs 0 table rho (gravity_source gravity) vws ws Hq) as (f' & Ef' & _ & _ & H). rewrite Ef in Ef'. injection Ef' as <-.
  destruct (C79_mass origin umax sp s ls w p srt ord Hm Hs Ho Hsrt table rho Hq cws ws') as (m' & Em' & Hw & _ & A' & HA' & _ & _ & _ & _ & H'). rewrite Em in Em'. injection Em' as <-.
  rewrite (H Hpu i Hi). rewrite (summ_ext (fs_nodes sp) _ (fun a => summ (fs_nodes sp) (fun b => A' (s * a + i)%nat (s * b + i)%nat))).
  - rewrite (H' Hpu i Hi). unfold mesh_integral. rewrite <- summ_l. apply summ_ext. intros e He. rewrite <- qsum_l. apply qsum_ext. intros. unfold gravity_source. ring.
  - intros a Ha. apply summ_ext. intros b Hb. apply (C14_entry_unique R 0 m (s * a + i)%nat (s * b + i)%nat); [apply Hw|apply HA; nia|apply HA'; nia].
Qed.
Print Assumptions C79_gravity.

(** C79: the assembled matrix of the Laplace operator. Products with nodal values are the integrals over the mesh of the products of the gradients; with weights that are not negative it is positive
    semidefinite; if the gradients of the basis functions add up to zero then its rows do *)
Theorem C79_laplace {Pt} (origin : Pt) umax sp (table : q_table Pt unit) ls w p x d srt ord u cws ws :
  regular_mesh sp table ls w p x d srt ord 1 -> length u = fs_nodes sp ->
  exists m, (assemble_csr Rplus 0 srt ord umax cws (elliptic_mat_asm origin tt umax sp table 1 true (fun G _ => accumulate_contractions d 1 true (laplace_contract d G)) u ws)).2 = Ok m /\
  csr_wf m /\ pt_nrows (cs_pat m) = fs_nodes sp /\ exists A, entries_of (fs_nodes sp) m A /\
  (forall v v' G G', length v = fs_nodes sp -> length v' = fs_nodes sp ->
    (forall e ns wt pt y, ls !! e = Some ns -> In (wt, (pt, y)) (combine (w e) (combine (p e) (x e))) ->
      interpolation_gradient (fs_element sp e) 1 (local_values 1 v ns) pt (G e pt) /\ interpolation_gradient (fs_element sp e) 1 (local_values 1 v' ns) pt (G' e pt)) ->
    form (fs_nodes sp) A v v' = mesh_integral sp (length ls) w p x (fun e pt _ => summ d (fun k => G e pt k 0%nat * G' e pt k 0%nat))) /\
  ((forall e wt, (e < length ls)%nat -> In wt (w e) -> 0 <= wt) -> forall v, length v = fs_nodes sp -> 0 <= form (fs_nodes sp) A v v) /\
  ((forall e wt pt y k, (e < length ls)%nat -> In (wt, (pt, y)) (combine (w e) (combine (p e) (x e))) -> (k < d)%nat -> summ (el_nodes (fs_element sp e)) (fun I => el_gradients (fs_element sp e) pt I k) = 0) ->
    forall r, (r < fs_nodes sp)%nat -> summ (fs_nodes sp) (fun c => A r c) = 0).
Proof.
  intros (Hc & Hr & Hn & Hq & Ho & Hsrt & Hd & He) Hu. set (acc := fun (G : mat) (_ : unit) => accumulate_contractions d 1 true (laplace_contract d G)).
  assert (HL : forall e, (e < length ls)%nat -> exists K, element_matrix (fs_element sp e) 1 true acc (local_values 1 u (nth e ls [])) (w e) (p e) (x e) (length (nth e ls [])) (1 * length (nth e ls [])) (1 * length (nth e ls [])) = Done K /\
    el_nodes (fs_element sp e) = length (nth e ls []) /\
    (forall v v', length v = length (nth e ls []) -> length v' = length (nth e ls []) -> forall G G', (forall wt pt y, In (wt, (pt, y)) (combine (w e) (combine (p e) (x e))) -> interpolation_gradient (fs_element sp e) 1 v pt (G pt) /\ interpolation_gradient (fs_element sp e) 1 v' pt (G' pt)) ->
      summ (length (nth e ls [])) (fun I => summ (length (nth e ls [])) (fun J => nth I v 0 * K I J * nth J v' 0)) = qsum (combine (w e) (combine (p e) (x e))) (fun wt pt _ => wt * Rabs (determinant (el_dim (fs_element sp e)) (el_jacobian (fs_element sp e) pt)) * summ d (fun k => G pt k 0%nat * G' pt k 0%nat))) /\
    ((forall wt, In wt (w e) -> 0 <= wt) -> forall v, length v = length (nth e ls []) -> 0 <= summ (length (nth e ls [])) (fun I => summ (length (nth e ls [])) (fun J => nth I v 0 * K I J * nth J v 0))) /\
    ((forall wt pt y, In (wt, (pt, y)) (combine (w e) (combine (p e) (x e))) -> forall k, (k < d)%nat -> summ (length (nth e ls [])) (fun I => el_gradients (fs_element sp e) pt I k) = 0) -> forall I, (I < length (nth e ls []))%nat -> summ (length (nth e ls [])) (fun J => K I J) = 0)).
  { intros e Hel. destruct (He e (nth e ls []) (some_nth ls e [] Hel)) as (En & Ed & Hreg). destruct (Hq e Hel) as (L1 & L2 & _). unfold acc. clear acc. subst d. rewrite <- En.
    destruct (C76_laplace_matrix (fs_element sp e) (w e) (p e) (x e) (local_values 1 u (nth e ls []))) as (K & EK & H1 & H2 & H3); [exact Hd|split; lia|rewrite length_local; lia|exact Hreg|].
    exists K. split; [exact EK|]. split; [reflexivity|]. split; [exact H1|]. split; [exact H2|exact H3]. }
  assert (HK : exists K : nat -> mat, forall e, (e < length ls)%nat -> element_matrix (fs_element sp e) 1 true acc (local_values 1 u (nth e ls [])) (w e) (p e) (x e) (length (nth e ls [])) (1 * length (nth e ls [])) (1 * length (nth e ls [])) = Done (K e)).
  { exists (fun e => match element_matrix (fs_element sp e) 1 true acc (local_values 1 u (nth e ls [])) (w e) (p e) (x e) (length (nth e ls [])) (1 * length (nth e ls [])) (1 * length (nth e ls [])) with Done K => K | _ => fun _ _ => 0 end).
    intros e Hel. destruct (HL e Hel) as (K & EK & _). rewrite EK. reflexivity. }
  destruct HK as (K & HK).
  destruct (matrix_global origin tt umax sp table 1 ls w p x Hc Hr Hq ltac:(lia) (fun _ _ => 0) (fun _ _ => fun _ _ => 0) acc srt ord Ho Hsrt cws ws u Hn ltac:(lia) K HK) as (m & Em & Hw & Hp & Hent).
  rewrite Nat.mul_1_l in Hp. exists m. split; [exact Em|]. split; [exact Hw|]. split; [exact Hp|]. exists (scattered_mat 1 ls K). split; [intros r c _ _; apply Hent|].
  assert (HF : forall v v', form (fs_nodes sp) (scattered_mat 1 ls K) v v' = summ (length ls) (fun e => summ (length (nth e ls [])) (fun I => summ (length (nth e ls [])) (fun J => nth I (local_values 1 v (nth e ls [])) 0 * K e I J * nth J (local_values 1 v' (nth e ls [])) 0)))).
  { intros v v'. pose proof (form_sum 1 (fs_nodes sp) ls K v v' ltac:(lia) Hr) as H. rewrite Nat.mul_1_l in H. rewrite H. apply summ_ext. intros e Hel. cbv zeta. apply summ_ext. intros I HI. rewrite summ_first. cbn [summ]. rewrite Rplus_0_r. apply summ_ext. intros J HJ. 
    rewrite !Nat.mul_1_l, !Nat.add_0_r. ring. }
  split; [|split].
  - intros v v' G G' Hv Hv' HG. rewrite HF. unfold mesh_integral. apply summ_ext. intros e Hel. destruct (HL e Hel) as (K' & EK & _ & H1 & _). rewrite (HK e Hel) in EK. injection EK as <-.
    apply H1; [rewrite length_local; lia|rewrite length_local; lia|]. intros wt pt y Hin. apply (HG e (nth e ls []) wt pt y); [apply some_nth, Hel|exact Hin].
  - intros Hwt v Hv. rewrite HF. apply summ_nonneg. intros e Hel. destruct (HL e Hel) as (K' & EK & _ & _ & H2 & _). rewrite (HK e Hel) in EK. injection EK as <-. apply H2; [intros wt; apply Hwt, Hel|rewrite length_local; lia].
  - intros Hg r Hrr. unfold scattered_mat. rewrite summ_swap. apply summ_zero'. intros e Hel. cbv zeta. set (ns := nth e ls []). rewrite summ_swap. apply summ_zero'. intros I HI. rewrite Nat.div_1_r, Nat.mod_1_r, Nat.mul_1_l, Nat.add_0_r.
    destruct (Nat.eqb_spec (nth I ns 0%nat) r) as [EI|NI]; cbn [andb]; [|apply summ_zero'; intros; apply summ_zero'; reflexivity].
    destruct (HL e Hel) as (K' & EK & En & _ & _ & H3). rewrite (HK e Hel) in EK. injection EK as <-. etransitivity; [|exact (H3 (fun wt pt y Hin k Hk => eq_trans (f_equal (fun n => summ n _) (eq_sym En)) (Hg e wt pt y k Hel Hin Hk)) I HI)]. fold ns.
    rewrite summ_swap. apply summ_ext. intros J HJ. rewrite (summ_ext (fs_nodes sp) _ (fun c => if (c =? nth J ns 0)%nat then K e I J else 0)).
    + apply (summ_delta (fs_nodes sp) (nth J ns 0%nat) (fun _ => K e I J)). apply (Hr ns); [apply (elem_of_list_lookup_2 ls e), some_nth, Hel|apply (elem_of_list_lookup_2 ns J), some_nth, HJ].
    + intros c Hcc. rewrite Nat.div_1_r, Nat.mod_1_r, Nat.mul_1_l, Nat.add_0_r, (Nat.eqb_sym c). reflexivity.
Qed.
Print Assumptions C79_laplace.

(** two segments of length 1, density 3 *)
Example C79_example :
  conforming_mesh ex_space 1 ex_conn /\ reads_quadrature (ex_table 3) (length ex_conn) (fun _ => 2 :: []) (fun _ => 0 :: []) (fun _ => 3 :: []) /\
  (forall e, (e < length ex_conn)%nat -> partition_of_unity (fs_element ex_space e) (combine (2 :: []) (combine (0 :: []) (3 :: [])))) /\
  mesh_integral ex_space (length ex_conn) (fun _ => 2 :: []) (fun _ => 0 :: []) (fun _ => 3 :: []) (fun _ _ y => y) = 6 /\
  (forall e wt pt (y : R) k, (e < length ex_conn)%nat -> In (wt, (pt, y)) (combine (2 :: []) (combine (0 :: []) (3 :: []))) -> (k < 1)%nat -> summ (el_nodes (fs_element ex_space e)) (fun I => el_gradients (fs_element ex_space e) pt I k) = 0).
Proof.
  split; [|split; [apply ex_reads|split; [|split]]].
  - split; [apply ex_has_conn|]. split; [apply ex_range|]. split; [apply ex_nodup|]. intros [|[|e]] ns H; [injection H as <-; reflexivity|injection H as <-; reflexivity|discriminate].
  - intros e He wt pt y [[= <- <- <-]|[]]. cbn. lra.
  - unfold mesh_integral. cbn. rewrite (Rabs_right (1/2)) by lra. lra.
  - intros e wt pt y k He [[= <- <- <-]|[]] Hk. cbn. lra.
Qed.

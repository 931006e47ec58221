(** C105: assembling, imposing boundary conditions and solving with conjugate gradients gives the minimiser of the energy. *)
From stdpp Require Import base list list_numbers sets.
From Coq Require Import Reals Lia Lra Psatz.
From Coquelicot Require Import Coquelicot.
From Verif Require Import Prelude NestedVecModel ParadisModel VectorModel VectorSpec VectorProofs ParadisSpec CsrModel CsrSpec CsrProofs CsrPattern PropVector PropCsr DirichletModel DirichletSpec DirichletProofs PropDirichlet.
From Verif Require Import MaterialModel EllipticModel PropMaterial PropObjective PropElliptic PropEllipticOps PropMass GlobalModel PropGlobal PropGlobalForms OperatorModel SolveProofs.
From Verif Require CgModel CgSpec.
Local Open Scope R_scope.
Local Notation vec := (nat -> R).
Local Notation mat := (nat -> nat -> R).

(** * specification *)
(** among all nodal values that are zero at the nodes with boundary conditions, [u] alone has the smallest value of [J] *)
Definition minimiser (n s : nat) (nodes : list nat) (J : list R -> R) (u : list R) : Prop :=
  length u = n /\ vanishes nodes s u /\ forall v, length v = n -> vanishes nodes s v -> v <> u -> J u < J v.
(** the system with matrix [m] and right-hand side [f]: boundary conditions can be imposed, and the conjugate gradient solver without preconditioner (identity) succeeds after at most as many iterations as
    there are unknowns, whatever the initial values [x0]; the residual is as small as requested. With tolerance zero the result has the property [P]. *)
Definition solved (n s : nat) (nodes : list nat) (is_zero : R -> bool) (m : csr R) (f : list R) (P : list R -> Prop) : Prop :=
  exists m' f', dirichlet_csr 0 1 Rabs is_zero m nodes s = Ok m' /\ dirichlet_rhs 0 f nodes s = Ok f' /\ csr_wf m' /\ length f' = n /\
  forall x0 tol max_iter fuel, 0 <= tol -> match max_iter with Some k => (n <= k)%nat | None => True end -> (n < fuel)%nat ->
  exists res, CgModel.cg_solve n (csr_apply m') identity_apply (CgModel.relative_residual n tol) max_iter (fun i => nth i f' 0) x0 fuel = Some res /\ CgModel.res_error res = None /\ (CgModel.res_iterations res <= n)%nat /\
    (forall A', entries_of n m' A' -> CgSpec.length2 n (fun i => nth i f' 0 - summ n (fun j => A' i j * CgModel.res_x res j)) <= tol * CgSpec.length2 n (fun i => nth i f' 0)) /\
    (tol = 0 -> P (as_list n (CgModel.res_x res))).
(** the integral over the mesh of the product of source and function *)
Definition work {Pt Data} (sp : fe_space Pt) (ls : list (list nat)) (w : nat -> list R) (p : nat -> list Pt) (x : nat -> list Data) (s : nat) (source : vec -> Data -> vec) (v : list R) : R :=
  mesh_integral sp (length ls) w p x (fun e pt y => summ s (fun i => source (el_map (fs_element sp e) pt) y i * interpolated (fs_element sp e) s (local_values s v (nth e ls [])) pt i)).

(** * quadratic energies *)
Lemma qsum_nonneg {Pt Data} (q : list (R * (Pt * Data))) f : (forall w p x, In (w, (p, x)) q -> 0 <= f w p x) -> 0 <= qsum q f.
Proof.
  unfold qsum. induction q as [|(w & p & x) q IH]; intros H; cbn; [lra|]. pose proof (H w p x (or_introl eq_refl)). assert (0 <= fold_right (fun wpx acc => f (fst wpx) (fst (snd wpx)) (snd (snd wpx)) + acc) 0 q); [|lra].
  apply IH. intros w' p' x' Hin. apply H. right. exact Hin.
Qed.
Lemma qsum_nonneg_zero {Pt Data} (q : list (R * (Pt * Data))) f : (forall w p x, In (w, (p, x)) q -> 0 <= f w p x) -> qsum q f = 0 -> forall w p x, In (w, (p, x)) q -> f w p x = 0.
Proof.
  induction q as [|(w & p & x) q IH]; intros H Hz w' p' x' Hin; [destruct Hin|].
  assert (H0 := H w p x (or_introl eq_refl)). assert (Hq : 0 <= qsum q f) by (apply qsum_nonneg; intros; apply H; right; assumption). change (f w p x + qsum q f = 0) in Hz.
  destruct Hin as [[= <- <- <-]|Hin]; [lra|]. apply IH; [intros; apply H; right; assumption|lra|exact Hin].
Qed.
Lemma vanishes_line nodes s u v t : length u = length v -> vanishes nodes s u -> vanishes nodes s v -> vanishes nodes s (line u v t).
Proof. intros Hl Hu Hv r Hr. rewrite nth_line by exact Hl. rewrite (Hu r Hr), (Hv r Hr). ring. Qed.

Section energies.
Context {Pt Data Data' : Type} (origin : Pt) (default_data : Data) (default_data' : Data') (umax : nat) (sp : fe_space Pt) (table : q_table Pt Data) (table' : q_table Pt Data').
Context (s : nat) (ls : list (list nat)) (w : nat -> list R) (p : nat -> list Pt) (x : nat -> list Data) (d : nat) (w' : nat -> list R) (p' : nat -> list Pt) (x' : nat -> list Data').
Context (srt : list nat -> list nat) (ord : nat -> list nat -> list nat).
Context (energy : mat -> Data -> R) (operator_transpose : mat -> Data -> mat) (accumulate : mat -> Data -> nat -> nat -> mat -> R -> list R -> list R -> option mat) (source : vec -> Data' -> vec).
Hypothesis Hs : (0 < s)%nat.
Hypothesis Hmesh : regular_mesh sp table ls w p x d srt ord s.
Hypothesis Hq' : reads_quadrature table' (length ls) w' p' x'.
Let N := fs_nodes sp.
Let n := (s * N)%nat.
Hypothesis Hcons : forall u, length u = n -> operator_consistent origin default_data umax sp table srt ord s energy operator_transpose accumulate u.
Let at_point e wt pt y := (e < length ls)%nat /\ In (wt, (pt, y)) (combine (w e) (combine (p e) (x e))).
Hypothesis Hquad : forall e wt pt y, at_point e wt pt y -> forall G H, exists b, forall t, energy (along G H t) y = energy G y + t * b + t * t * energy H y.
Hypothesis Hnonneg : forall e wt pt y, at_point e wt pt y -> forall G, 0 <= energy G y.
Hypothesis Hweights : forall e wt, (e < length ls)%nat -> In wt (w e) -> 0 < wt.
Context (nodes : list nat) (is_zero : R -> bool).
Hypothesis Hz : forall x, is_zero x = true <-> x = 0.
Hypothesis Hnodes : forall k, k ∈ nodes -> exists ns, ns ∈ ls /\ k ∈ ns.
(** the boundary conditions exclude all functions without energy *)
Hypothesis Hkernel : forall v, length v = n -> vanishes nodes s v ->
  (forall e ns wt pt y G, ls !! e = Some ns -> In (wt, (pt, y)) (combine (w e) (combine (p e) (x e))) -> interpolation_gradient (fs_element sp e) s (local_values s v ns) pt G -> energy G y = 0) -> forall k, (k < n)%nat -> nth k v 0 = 0.

Let E (u : list R) : R := mesh_integral sp (length ls) w p x (fun e pt y => energy (ugrad (fs_element sp e) s (local_values s u (nth e ls [])) pt) y).
Let energy_at ws u := assemble_scalar Rplus 0 (fs_elems sp) (fun e => elliptic_scalar origin default_data umax sp table s energy u (ws e) e).

Lemma energy_assembled ws u : length u = n -> energy_at ws u = Ok (E u).
Proof using Hmesh Hs operator_transpose accumulate.
  intros Hu. destruct Hmesh as (Hc & Hr & Hn & Hq & Ho & Hsrt & Hd & He). unfold energy_at.
  assert (HV : forall e, (e < length ls)%nat -> element_energy (fs_element sp e) s energy (local_values s u (nth e ls [])) (w e) (p e) (x e) (length (nth e ls [])) =
    Done (qsum (combine (w e) (combine (p e) (x e))) (fun wt pt y => wt * Rabs (determinant (el_dim (fs_element sp e)) (el_jacobian (fs_element sp e) pt)) * energy (ugrad (fs_element sp e) s (local_values s u (nth e ls [])) pt) y))).
  { intros e Hel. destruct (He e (nth e ls []) (some_nth ls e [] Hel)) as (En & Ed & Hreg). destruct (Hq e Hel) as (L1 & L2 & _).
    pose proof (energy_value (fs_element sp e) s energy (local_values s u (nth e ls [])) (w e) (p e) (x e)) as HE. cbv zeta in HE. rewrite En in HE. apply HE; [split; lia|apply length_local|exact Hreg]. }
  pose proof (energy_global origin default_data umax sp table s ls w p x Hc Hr Hq energy operator_transpose accumulate ws u Hu) as HG. cbv zeta in HG. rewrite HG.
  - f_equal. unfold E, mesh_integral. apply summ_ext. intros e Hel. rewrite (HV e Hel). reflexivity.
  - intros e Hel. eexists. apply HV, Hel.
Qed.
Lemma energy_quadratic u v : length u = n -> length v = n -> exists b, forall t, E (line u v t) = E u + t * b + t * t * E v.
Proof using Hmesh Hquad Hs.
  intros Hu Hv. unfold E, mesh_integral.
  set (G := fun (u : list R) e pt => ugrad (fs_element sp e) s (local_values s u (nth e ls [])) pt). set (jd := fun e pt => Rabs (determinant (el_dim (fs_element sp e)) (el_jacobian (fs_element sp e) pt))).
  set (bf := fun e pt y => energy (along (G u e pt) (G v e pt) 1) y - energy (G u e pt) y - energy (G v e pt) y).
  exists (summ (length ls) (fun e => qsum (combine (w e) (combine (p e) (x e))) (fun wt pt y => wt * jd e pt * bf e pt y))). intros t.
  rewrite <- !summ_l, <- !summ_plus. apply summ_ext. intros e He. rewrite <- !qsum_l, <- !qsum_plus. apply qsum_ext. intros wt pt y Hin.
  rewrite local_line by congruence. rewrite ugrad_line by (rewrite !length_local; reflexivity). fold (G u e pt) (G v e pt) (jd e pt).
  destruct (Hquad e wt pt y (conj He Hin) (G u e pt) (G v e pt)) as (b & Hb). unfold bf. rewrite !Hb. ring.
Qed.
Lemma energy_nonneg u : 0 <= E u.
Proof using Hnonneg Hweights.
  unfold E, mesh_integral. apply summ_nonneg. intros e He. apply qsum_nonneg. intros wt pt y Hin. assert (0 < wt) by (apply (Hweights e); [exact He|eapply in_combine_l, Hin]).
  apply Rmult_le_pos; [apply Rmult_le_pos; [lra|apply Rabs_pos]|]. apply (Hnonneg e wt pt y). split; assumption.
Qed.
Lemma energy_zero u : length u = n -> vanishes nodes s u -> E u = 0 -> forall k, (k < n)%nat -> nth k u 0 = 0.
Proof using Hmesh Hnonneg Hweights Hkernel Hs.
  intros Hu Hv HE. apply Hkernel; [exact Hu|exact Hv|]. intros e ns wt pt y G Hens Hin HG. destruct Hmesh as (_ & _ & _ & _ & _ & _ & Hd & He). destruct (He e ns Hens) as (En & Ed & Hreg).
  assert (Hel := lookup_lt_Some _ _ _ Hens). rewrite (ugrad_unique (fs_element sp e) s (local_values s u ns) pt G); [|rewrite Ed; exact Hd|exact (Hreg wt pt y Hin)|exact HG].
  unfold E, mesh_integral in HE. assert (Hterm : forall e wt pt y, (e < length ls)%nat -> In (wt, (pt, y)) (combine (w e) (combine (p e) (x e))) ->
    0 <= wt * Rabs (determinant (el_dim (fs_element sp e)) (el_jacobian (fs_element sp e) pt)) * energy (ugrad (fs_element sp e) s (local_values s u (nth e ls [])) pt) y).
  { intros e1 wt1 pt1 y1 He1 Hin1. assert (0 < wt1) by (apply (Hweights e1); [exact He1|eapply in_combine_l, Hin1]). apply Rmult_le_pos; [apply Rmult_le_pos; [lra|apply Rabs_pos]|]. apply (Hnonneg e1 wt1 pt1 y1). split; assumption. }
  pose proof (summ_nonneg_zero _ _ (fun e He => qsum_nonneg _ _ (fun wt pt y Hin => Hterm e wt pt y He Hin)) HE e Hel) as H1. cbv beta in H1.
  pose proof (qsum_nonneg_zero _ _ (fun wt pt y Hin => Hterm e wt pt y Hel Hin) H1 wt pt y Hin) as H2. cbv beta in H2. rewrite (nth_some ls e [] ns Hens) in H2.
  apply Rmult_integral in H2 as [H2|H2]; [|exact H2]. exfalso. assert (0 < wt) by (apply (Hweights e); [exact Hel|eapply in_combine_l, Hin]).
  pose proof (Rabs_pos_lt _ (Hreg wt pt y Hin)). apply Rmult_integral in H2 as [H2|H2]; lra.
Qed.

Definition energy_minus_work ws v : R := ok_value (energy_at ws v) - work sp ls w' p' x' s source v.

Lemma solve_energy u0 cws ws vws ws' : length u0 = n ->
  exists m f, (assemble_csr Rplus 0 srt ord umax cws (elliptic_mat_asm origin default_data umax sp table s true accumulate u0 ws)).2 = Ok m /\
  (assemble_vector Rplus 0 umax vws (source_vec_asm origin default_data' umax sp table' s source ws')).2 = Ok f /\
  solved n s nodes is_zero m f (fun u => minimiser n s nodes (energy_minus_work ws) u /\
    forall v, length v = n -> vanishes nodes s v -> E (line u v 1) - E u - E v = work sp ls w' p' x' s source v).
Proof using Hs Hmesh Hq' Hcons Hquad Hnonneg Hweights Hz Hnodes Hkernel.
  intros Hu0. assert (Hm := Hmesh). destruct Hm as (Hc & Hr & Hn & Hq & Ho & Hsrt & Hd & He).
  assert (Hconf : conforming_mesh sp s ls) by (split; [exact Hc|split; [exact Hr|split; [exact Hn|intros e ns Hens; apply (He e ns Hens)]]]).
  destruct (C79_source origin umax sp s ls w' p' Hconf Hs default_data' table' x' source vws ws' Hq') as (f & Ef & Lf & Hf & _). fold N in Lf, Hf. fold n in Lf, Hf.
  destruct (quadratic_matrix n energy_at _ _ E Hcons energy_assembled energy_quadratic cws ws u0 Hu0) as (m & Em & Hw & Hrows & A & HA & Hsym & Hform).
  exists m, f. split; [exact Em|]. split; [exact Ef|].
  assert (HE2 : forall v, length v = n -> form n A v v = 2 * E v).
  { intros v Hv. rewrite Hform by assumption. destruct (energy_quadratic v v Hv Hv) as (b & Hb).
    assert (E0 : E (line v v (-1)) = 0).
    { set (z := line v v (-1)). assert (Hlz : length z = n) by (unfold z; rewrite length_line; congruence).
      destruct (energy_quadratic z z Hlz Hlz) as (b0 & Hb0). assert (Hzz : forall t, line z z t = z).
      { intros t. apply nth_eq; [rewrite length_line; reflexivity|]. intros i _. rewrite nth_line by reflexivity. unfold z. rewrite nth_line by reflexivity. ring. }
      pose proof (Hb0 1) as H1. pose proof (Hb0 (-1)) as H2. rewrite Hzz in H1, H2. lra. }
    rewrite Hb in E0. rewrite Hb. lra. }
  assert (Hmats : exists As, has_mats (elliptic_mat_asm origin default_data umax sp table s true accumulate u0 ws) ls As).
  { exists (map (fun e => let n := length (nth e ls []) in let! K := of_result (element_matrix (fs_element sp e) s true accumulate (local_values s u0 (nth e ls [])) (w e) (p e) (x e) n (s * n) (s * n)) in Ok (as_rows (s * n) K)) (seq 0 (length ls))).
    split; [rewrite map_length, seq_length; reflexivity|]. intros e ns v Hens Hv. assert (Hel := lookup_lt_Some _ _ _ Hens). rewrite seq_nth_lookup in Hv by exact Hel. injection Hv as <-. rewrite (nth_some ls e [] ns Hens). cbv zeta.
    destruct (C78_elements origin default_data umax sp table s ls w p x Hc Hr Hq energy operator_transpose true accumulate u0 e ns Hens Hu0 (ws e)) as (_ & _ & HK). split; [exact HK|].
    intros v Hv. cbn [ca_sdim ma_conn elliptic_mat_asm fs_conn]. destruct (of_result _); cbn [obind] in Hv; try discriminate. injection Hv as <-. apply square_as_rows. }
  destruct Hmats as (As & Hmats).
  destruct (assembled_pattern srt ord umax cws (elliptic_mat_asm origin default_data umax sp table s true accumulate u0 ws) ls As m Ho Hsrt Hc Hr Hs Hn Hmats Em) as (Hcols & Hst). cbn [ca_sdim ca_nodes ma_conn elliptic_mat_asm fs_conn] in Hcols, Hst. fold N in Hcols. fold n in Hcols.
  assert (Hcon : forall r, constrained nodes s r -> (r < n)%nat /\ exists pos, stored (cs_pat m) r r pos).
  { intros r (k & i & Hk & Hi & ->). destruct (Hnodes k Hk) as (ns & Hns & Hkn). assert (Hlt : (k < N)%nat) by (apply (Hr ns k Hns Hkn)). split; [unfold n; nia|]. apply Hst. destruct (divmod_block s k i Hi) as (-> & _). exists ns. auto. }
  assert (Hss : struct_sym (cs_pat m)) by (intros r c; rewrite !Hst; intros (ns & H1 & H2 & H3); exists ns; auto).
  destruct (solve_definite m n A nodes s is_zero f Hz Hw Hrows Hcols Hss HA Hsym Lf Hcon) as (m' & f' & Em' & Ef' & Hw' & Lf' & Hsolve).
  { intros v Hv Hvan (r & Hr' & Hne). rewrite HE2 by exact Hv. pose proof (energy_nonneg v). destruct (Req_EM_T (E v) 0) as [E0|E0]; [|lra]. exfalso. apply Hne. apply (energy_zero v Hv Hvan E0 r Hr'). }
  exists m', f'. split; [exact Em'|]. split; [exact Ef'|]. split; [exact Hw'|]. split; [exact Lf'|]. intros x0 tol max fuel Ht Hmax Hfuel.
  destruct (Hsolve x0 tol max fuel Ht Hmax Hfuel) as (res & Eres & Herr & Hit & Hresid & Hex). exists res. split; [exact Eres|]. split; [exact Herr|]. split; [exact Hit|]. split; [exact Hresid|].
  intros T0. destruct (Hex T0) as (Hvan & Heq). set (u := as_list n (CgModel.res_x res)) in *. assert (Hu : length u = n) by apply length_as_list.
  assert (Hwork : forall v, length v = n -> work sp ls w' p' x' s source v = summ n (fun k => nth k f 0 * nth k v 0)) by (intros v Hv; symmetry; apply Hf, Hv).
  assert (Hweak : forall v, length v = n -> vanishes nodes s v -> form n A v u = summ n (fun k => nth k f 0 * nth k v 0)).
  { intros v Hv Hvv. unfold form. apply summ_ext. intros r Hr'. destruct (constrained_dec nodes s r) as [C|C].
    - rewrite (Hvv r C), Rmult_0_r. apply summ_zero'. intros c _. ring.
    - rewrite <- (Heq r Hr' C). rewrite (summ_ext n _ (fun c => nth r v 0 * (A r c * CgModel.res_x res c))); [rewrite summ_l; ring|]. intros c Hcc. unfold u. rewrite nth_as_list by exact Hcc. ring. }
  assert (Hfs : forall v v', form n A v v' = form n A v' v).
  { intros v v'. unfold form. rewrite summ_swap. apply summ_ext. intros c Hcc. apply summ_ext. intros r Hrr. rewrite (Hsym r c Hrr Hcc). ring. }
  split.
  - split; [exact Hu|]. split; [exact Hvan|]. intros v Hv Hvv Hne. unfold energy_minus_work. rewrite !energy_assembled by assumption. cbn [ok_value]. rewrite !Hwork by assumption.
    set (dv := line v u (-1)). assert (Ldv : length dv = n) by (unfold dv; rewrite length_line; congruence).
    assert (Vdv : vanishes nodes s dv) by (apply vanishes_line; [congruence|exact Hvv|exact Hvan]).
    assert (Ev : v = line u dv 1) by (apply nth_eq; [rewrite length_line; congruence|]; intros i _; rewrite nth_line by congruence; unfold dv; rewrite nth_line by congruence; ring).
    pose proof (Hform u dv Hu Ldv) as H1. rewrite <- Ev in H1. rewrite Hfs, Hweak in H1 by assumption.
    assert (Epos : 0 < E dv).
    { pose proof (energy_nonneg dv). destruct (Req_EM_T (E dv) 0) as [E0|E0]; [|lra]. exfalso. apply Hne. apply nth_eq; [congruence|]. intros i Hi. rewrite Hv in Hi.
      pose proof (energy_zero dv Ldv Vdv E0 i Hi) as H2. unfold dv in H2. rewrite nth_line in H2 by congruence. lra. }
    assert (Hsum : summ n (fun k => nth k f 0 * nth k v 0) = summ n (fun k => nth k f 0 * nth k u 0) + summ n (fun k => nth k f 0 * nth k dv 0)).
    { rewrite <- summ_plus. apply summ_ext. intros k _. unfold dv. rewrite nth_line by congruence. ring. }
    rewrite Hsum. lra.
  - intros v Hv Hvv. rewrite Hwork by exact Hv. rewrite <- (Hform u v Hu Hv), Hfs. apply Hweak; assumption.
Qed.
End energies.

(** * the Laplace operator *)
(** the boundary conditions leave no function without gradients but zero *)
Definition anchored {Pt Data} (sp : fe_space Pt) (ls : list (list nat)) (w : nat -> list R) (p : nat -> list Pt) (x : nat -> list Data) (s : nat) (nodes : list nat) (no_energy : mat -> Prop) : Prop :=
  forall v, length v = (s * fs_nodes sp)%nat -> vanishes nodes s v ->
  (forall e ns wt pt y G, ls !! e = Some ns -> In (wt, (pt, y)) (combine (w e) (combine (p e) (x e))) -> interpolation_gradient (fs_element sp e) s (local_values s v ns) pt G -> no_energy G) ->
  forall k, (k < s * fs_nodes sp)%nat -> nth k v 0 = 0.
(** gradients of two functions at the quadrature points *)
Definition gradients_of {Pt Data} (sp : fe_space Pt) (ls : list (list nat)) (w : nat -> list R) (p : nat -> list Pt) (x : nat -> list Data) (s : nat) (v : list R) (G : nat -> Pt -> mat) : Prop :=
  forall e ns wt pt y, ls !! e = Some ns -> In (wt, (pt, y)) (combine (w e) (combine (p e) (x e))) -> interpolation_gradient (fs_element sp e) s (local_values s v ns) pt (G e pt).

Lemma laplace_quadratic d G H t : laplace_energy d (along G H t) = laplace_energy d G + t * summ d (fun k => G k 0%nat * H k 0%nat) + t * t * laplace_energy d H.
Proof. unfold laplace_energy, along. rewrite <- !summ_l, <- !summ_plus. apply summ_ext. intros k _. field. Qed.
Lemma laplace_quadratic_ex d G H : exists b, forall t, laplace_energy d (along G H t) = laplace_energy d G + t * b + t * t * laplace_energy d H.
Proof. eexists. intros t. apply laplace_quadratic. Qed.
Lemma laplace_zero d G : laplace_energy d G = 0 -> forall k, (k < d)%nat -> G k 0%nat = 0.
Proof.
  intros H k Hk. unfold laplace_energy in H. assert (Hz : summ d (fun k => G k 0%nat * G k 0%nat) = 0) by lra. pose proof (summ_nonneg_zero d _ (fun k _ => Rle_0_sqr (G k 0%nat)) Hz k Hk) as H0.
  cbv beta in H0. apply Rmult_integral in H0 as [H0|H0]; exact H0.
Qed.
Lemma laplace_nonneg d G : 0 <= laplace_energy d G.
Proof. unfold laplace_energy. apply Rmult_le_pos; [lra|]. apply summ_nonneg. intros. apply Rle_0_sqr. Qed.
Lemma gradients_ugrad {Pt Data} (sp : fe_space Pt) (table : q_table Pt Data) ls w p x d srt ord s v G : regular_mesh sp table ls w p x d srt ord s -> gradients_of sp ls w p x s v G ->
  forall e wt pt y, (e < length ls)%nat -> In (wt, (pt, y)) (combine (w e) (combine (p e) (x e))) -> ugrad (fs_element sp e) s (local_values s v (nth e ls [])) pt = G e pt.
Proof.
  intros (_ & _ & _ & _ & _ & _ & Hd & He) HG e wt pt y Hel Hin. destruct (He e _ (some_nth ls e [] Hel)) as (_ & Ed & Hreg). symmetry.
  apply ugrad_unique; [rewrite Ed; exact Hd|apply (Hreg wt pt y Hin)|]. exact (HG e _ wt pt y (some_nth ls e [] Hel) Hin).
Qed.
(** the difference of the energies is the integral of the product *)
Lemma polar_energy {Pt Data} (sp : fe_space Pt) (table : q_table Pt Data) ls w p x d srt ord s (energy : mat -> Data -> R) (product : mat -> mat -> Data -> R) u v G H :
  regular_mesh sp table ls w p x d srt ord s -> length u = length v -> gradients_of sp ls w p x s u G -> gradients_of sp ls w p x s v H ->
  (forall e wt pt y, (e < length ls)%nat -> In (wt, (pt, y)) (combine (w e) (combine (p e) (x e))) -> energy (along (G e pt) (H e pt) 1) y = energy (G e pt) y + product (G e pt) (H e pt) y + energy (H e pt) y) ->
  mesh_integral sp (length ls) w p x (fun e pt y => energy (ugrad (fs_element sp e) s (local_values s (line u v 1) (nth e ls [])) pt) y) -
  mesh_integral sp (length ls) w p x (fun e pt y => energy (ugrad (fs_element sp e) s (local_values s u (nth e ls [])) pt) y) -
  mesh_integral sp (length ls) w p x (fun e pt y => energy (ugrad (fs_element sp e) s (local_values s v (nth e ls [])) pt) y) =
  mesh_integral sp (length ls) w p x (fun e pt y => product (G e pt) (H e pt) y).
Proof.
  intros Hm Hl HG HH Hp.
  assert (Hsum : mesh_integral sp (length ls) w p x (fun e pt y => energy (ugrad (fs_element sp e) s (local_values s (line u v 1) (nth e ls [])) pt) y) =
    mesh_integral sp (length ls) w p x (fun e pt y => energy (ugrad (fs_element sp e) s (local_values s u (nth e ls [])) pt) y) + mesh_integral sp (length ls) w p x (fun e pt y => product (G e pt) (H e pt) y) +
    mesh_integral sp (length ls) w p x (fun e pt y => energy (ugrad (fs_element sp e) s (local_values s v (nth e ls [])) pt) y)); [|rewrite Hsum; ring].
  unfold mesh_integral. rewrite <- !summ_plus. apply summ_ext. intros e He. rewrite <- !qsum_plus. apply qsum_ext. intros wt pt y Hin.
  rewrite local_line by exact Hl. rewrite ugrad_line by (rewrite !length_local; reflexivity).
  rewrite (gradients_ugrad sp table ls w p x d srt ord s u G Hm HG e wt pt y He Hin), (gradients_ugrad sp table ls w p x d srt ord s v H Hm HH e wt pt y He Hin), (Hp e wt pt y He Hin). ring.
Qed.

(** assembly of the matrix and of the source, imposing the conditions and the solver all succeed; the exact result is the only minimiser of the assembled energy minus the work of the source and solves the weak form *)
Definition poisson_solved {Pt Data'} (origin : Pt) (default_data' : Data') umax (sp : fe_space Pt) (table : q_table Pt unit) (table' : q_table Pt Data') ls (w : nat -> list R) p (x : nat -> list unit) d w' p' x' srt ord source nodes is_zero u0 cws ws vws ws' : Prop :=
  exists m f, (assemble_csr Rplus 0 srt ord umax cws (elliptic_mat_asm origin tt umax sp table 1 true (fun G _ => accumulate_contractions d 1 true (laplace_contract d G)) u0 ws)).2 = Ok m /\
  (assemble_vector Rplus 0 umax vws (source_vec_asm origin default_data' umax sp table' 1 source ws')).2 = Ok f /\
  solved (fs_nodes sp) 1 nodes is_zero m f (fun u =>
    minimiser (fs_nodes sp) 1 nodes (fun v => ok_value (assemble_scalar Rplus 0 (fs_elems sp) (fun e => elliptic_scalar origin tt umax sp table 1 (fun G _ => laplace_energy d G) v (ws e) e)) - work sp ls w' p' x' 1 source v) u /\
    forall v G H, length v = fs_nodes sp -> vanishes nodes 1 v -> gradients_of sp ls w p x 1 u G -> gradients_of sp ls w p x 1 v H ->
      mesh_integral sp (length ls) w p x (fun e pt _ => summ d (fun k => G e pt k 0%nat * H e pt k 0%nat)) = work sp ls w' p' x' 1 source v).
(** C105: the Poisson problem, on a regular mesh with positive weights, with homogeneous Dirichlet conditions at nodes of elements that exclude all functions with zero gradients but zero *)
Theorem C105_poisson {Pt Data'} (origin : Pt) (default_data' : Data') umax sp (table : q_table Pt unit) (table' : q_table Pt Data') ls w p x d w' p' x' srt ord source nodes is_zero u0 cws ws vws ws' :
  regular_mesh sp table ls w p x d srt ord 1 -> reads_quadrature table' (length ls) w' p' x' -> (forall e wt, (e < length ls)%nat -> In wt (w e) -> 0 < wt) ->
  (forall x, is_zero x = true <-> x = 0) -> (forall k, k ∈ nodes -> exists ns, ns ∈ ls /\ k ∈ ns) -> anchored sp ls w p x 1 nodes (fun G => forall k, (k < d)%nat -> G k 0%nat = 0) -> length u0 = fs_nodes sp ->
  poisson_solved origin default_data' umax sp table table' ls w p x d w' p' x' srt ord source nodes is_zero u0 cws ws vws ws'.
Proof.
  intros Hm Hq' Hwt Hz Hnodes Hanch Hu0. unfold anchored in Hanch.
  pose proof (solve_energy origin tt default_data' umax sp table table' 1 ls w p x d w' p' x' srt ord (fun G _ => laplace_energy d G) (fun G _ => transpose (laplace_operator G)) (fun G _ => accumulate_contractions d 1 true (laplace_contract d G)) source ltac:(lia) Hm Hq') as HS.
  cbv zeta in HS. rewrite Nat.mul_1_l in HS, Hanch.
  destruct (HS (fun u Hu => C78_laplace origin umax sp table ls w p x d srt ord u Hm Hu) (fun e wt pt y _ G H => laplace_quadratic_ex d G H) (fun _ _ _ _ _ G => laplace_nonneg d G) Hwt nodes is_zero Hz Hnodes) with (u0 := u0) (cws := cws) (ws := ws) (vws := vws) (ws' := ws') as (m & f & Em & Ef & Hsol).
  - intros v Hv Hvan Hg. apply (Hanch v Hv Hvan). intros e ns wt pt y G Hens Hin HG. apply (laplace_zero d G). exact (Hg e ns wt pt y G Hens Hin HG).
  - exact Hu0.
  - exists m, f. split; [exact Em|]. split; [exact Ef|]. destruct Hsol as (m' & f' & H1 & H2 & H3 & H4 & H5). exists m', f'. split; [exact H1|]. split; [exact H2|]. split; [exact H3|]. split; [exact H4|].
    intros x0 tol max fuel Ht Hmax Hfuel. destruct (H5 x0 tol max fuel Ht Hmax Hfuel) as (res & R1 & R2 & R3 & R4 & R5). exists res. split; [exact R1|]. split; [exact R2|]. split; [exact R3|]. split; [exact R4|].
    intros T0. destruct (R5 T0) as (Hmin & Hweak). split; [exact Hmin|]. intros v G H Hv Hvan HG HH. rewrite <- (Hweak v Hv Hvan). symmetry.
    apply (polar_energy sp table ls w p x d srt ord 1 (fun G _ => laplace_energy d G) (fun G H _ => summ d (fun k => G k 0%nat * H k 0%nat)) _ v G H Hm); [rewrite length_as_list; congruence|exact HG|exact HH|].
    intros. rewrite laplace_quadratic. ring.
Qed.
Print Assumptions C105_poisson.

(** * linear elasticity *)
Definition strain (G : mat) : mat := fun i j => (G i j + G j i) / 2.
Lemma strain_eq G i j : infinitesimal_strain (deformation_gradient G) i j = strain G i j.
Proof. unfold infinitesimal_strain, msub, symmetric_part, deformation_gradient, madd, transpose, strain, eye. rewrite (Nat.eqb_sym j i). destruct (i =? j)%nat; field. Qed.
Definition strain_product (d : nat) (mu lambda : R) (G H : mat) : R := 2 * mu * mdot d (strain G) (strain H) + lambda * (trace d (strain G) * trace d (strain H)).
Lemma le_value d mu lambda G : operator_energy (le_energy d mu lambda) G = 1 / 2 * strain_product d mu lambda G G.
Proof.
  unfold operator_energy, le_energy, strain_product, mdot, trace. rewrite (summ_ext d (fun j => summ d (fun i => infinitesimal_strain _ i j * _)) (fun j => summ d (fun i => strain G i j * strain G i j))).
  - rewrite (summ_ext d (fun i => infinitesimal_strain _ i i) (fun i => strain G i i)) by (intros; apply strain_eq). field.
  - intros j _. apply summ_ext. intros i _. rewrite !strain_eq. reflexivity.
Qed.
Lemma le_quadratic d mu lambda G H t : operator_energy (le_energy d mu lambda) (along G H t) = operator_energy (le_energy d mu lambda) G + t * strain_product d mu lambda G H + t * t * operator_energy (le_energy d mu lambda) H.
Proof.
  rewrite !le_value. unfold strain_product, mdot, trace.
  assert (T : summ d (fun i => strain (along G H t) i i) = summ d (fun i => strain G i i) + t * summ d (fun i => strain H i i)) by (rewrite <- summ_l, <- summ_plus; apply summ_ext; intros; unfold strain, along; field).
  assert (S : summ d (fun j => summ d (fun i => strain (along G H t) i j * strain (along G H t) i j)) = summ d (fun j => summ d (fun i => strain G i j * strain G i j)) +
    2 * t * summ d (fun j => summ d (fun i => strain G i j * strain H i j)) + t * t * summ d (fun j => summ d (fun i => strain H i j * strain H i j))).
  { rewrite <- !summ_l, <- !summ_plus. apply summ_ext. intros j _. rewrite <- !summ_l, <- !summ_plus. apply summ_ext. intros i _. unfold strain, along. field. }
  rewrite T, S. field.
Qed.
Lemma le_quadratic_ex d mu lambda G H : exists b, forall t, operator_energy (le_energy d mu lambda) (along G H t) = operator_energy (le_energy d mu lambda) G + t * b + t * t * operator_energy (le_energy d mu lambda) H.
Proof. eexists. intros t. apply le_quadratic. Qed.
(** materials with positive shear modulus and bulk modulus *)
Definition stable (d : nat) (y : R * R) : Prop := 0 < fst y /\ 0 < 2 * fst y + INR d * snd y.
Lemma trace_bound d e : small d -> trace d e * trace d e <= INR d * mdot d e e.
Proof.
  intros [-> | [-> | ->]]; unfold trace, mdot; cbn [summ]; rewrite !Rplus_0_l; simpl INR.
  - lra.
  - assert (0 <= (e 0%nat 0%nat - e 1%nat 1%nat) * (e 0%nat 0%nat - e 1%nat 1%nat)) by apply Rle_0_sqr. assert (0 <= e 0%nat 1%nat * e 0%nat 1%nat) by apply Rle_0_sqr. assert (0 <= e 1%nat 0%nat * e 1%nat 0%nat) by apply Rle_0_sqr. lra.
  - set (a := e 0%nat 0%nat). set (b := e 1%nat 1%nat). set (c := e 2%nat 2%nat). assert (0 <= (a - b) * (a - b)) by apply Rle_0_sqr. assert (0 <= (a - c) * (a - c)) by apply Rle_0_sqr. assert (0 <= (b - c) * (b - c)) by apply Rle_0_sqr.
    assert (0 <= e 0%nat 1%nat * e 0%nat 1%nat) by apply Rle_0_sqr. assert (0 <= e 1%nat 0%nat * e 1%nat 0%nat) by apply Rle_0_sqr. assert (0 <= e 0%nat 2%nat * e 0%nat 2%nat) by apply Rle_0_sqr.
    assert (0 <= e 2%nat 0%nat * e 2%nat 0%nat) by apply Rle_0_sqr. assert (0 <= e 1%nat 2%nat * e 1%nat 2%nat) by apply Rle_0_sqr. assert (0 <= e 2%nat 1%nat * e 2%nat 1%nat) by apply Rle_0_sqr. lra.
Qed.
Lemma mdot_nonneg d e : 0 <= mdot d e e.
Proof. unfold mdot. apply summ_nonneg. intros. apply summ_nonneg. intros. apply Rle_0_sqr. Qed.
Lemma le_lower d y G : small d -> stable d y -> exists c, 0 < c /\ c * mdot d (strain G) (strain G) <= operator_energy (le_energy d (fst y) (snd y)) G.
Proof.
  intros Hd (Hmu & Hk). destruct y as (mu & la). cbn [fst snd] in *. rewrite le_value. unfold strain_product. pose proof (trace_bound d (strain G) Hd) as Ht. pose proof (mdot_nonneg d (strain G)) as Hn.
  set (D := mdot d (strain G) (strain G)) in *. set (T := trace d (strain G)) in *. assert (0 <= T * T) by apply Rle_0_sqr. destruct (Rle_or_lt 0 la) as [L|L].
  - exists mu. split; [exact Hmu|]. nra.
  - exists ((2 * mu + INR d * la) / 2). split; [lra|]. assert (la * (T * T) >= la * (INR d * D)) by nra. nra.
Qed.
Lemma le_nonneg d y G : small d -> stable d y -> 0 <= operator_energy (le_energy d (fst y) (snd y)) G.
Proof. intros Hd Hy. destruct (le_lower d y G Hd Hy) as (c & Hc & H). pose proof (mdot_nonneg d (strain G)). nra. Qed.
Lemma le_zero d y G : small d -> stable d y -> operator_energy (le_energy d (fst y) (snd y)) G = 0 -> forall i j, (i < d)%nat -> (j < d)%nat -> strain G i j = 0.
Proof.
  intros Hd Hy H0 i j Hi Hj. destruct (le_lower d y G Hd Hy) as (c & Hc & H). pose proof (mdot_nonneg d (strain G)) as Hn. assert (Hz : mdot d (strain G) (strain G) = 0) by nra. unfold mdot in Hz.
  pose proof (summ_nonneg_zero d _ (fun j _ => summ_nonneg d _ (fun i _ => Rle_0_sqr (strain G i j))) Hz j Hj) as H1. cbv beta in H1.
  pose proof (summ_nonneg_zero d _ (fun i _ => Rle_0_sqr (strain G i j)) H1 i Hi) as H2. cbv beta in H2. apply Rmult_integral in H2 as [H2|H2]; exact H2.
Qed.

(** the same for displacements and the energy of linear elasticity *)
Definition elasticity_solved {Pt Data'} (origin : Pt) params (default_data' : Data') umax (sp : fe_space Pt) (table : q_table Pt (R * R)) (table' : q_table Pt Data') ls (w : nat -> list R) p (x : nat -> list (R * R)) d w' p' x' srt ord source nodes is_zero u0 cws ws vws ws' : Prop :=
  exists m f, (assemble_csr Rplus 0 srt ord umax cws (elliptic_mat_asm origin params umax sp table d true
      (fun (G : mat) y nrows ncols out alpha a b => batch_contraction d nrows ncols out alpha a b (operator_contract (le_contraction d (fst y) (snd y)) G)) u0 ws)).2 = Ok m /\
  (assemble_vector Rplus 0 umax vws (source_vec_asm origin default_data' umax sp table' d source ws')).2 = Ok f /\
  solved (d * fs_nodes sp) d nodes is_zero m f (fun u =>
    minimiser (d * fs_nodes sp) d nodes (fun v => ok_value (assemble_scalar Rplus 0 (fs_elems sp) (fun e => elliptic_scalar origin params umax sp table d (fun G y => operator_energy (le_energy d (fst y) (snd y)) G) v (ws e) e)) - work sp ls w' p' x' d source v) u /\
    forall v G H, length v = (d * fs_nodes sp)%nat -> vanishes nodes d v -> gradients_of sp ls w p x d u G -> gradients_of sp ls w p x d v H ->
      mesh_integral sp (length ls) w p x (fun e pt y => strain_product d (fst y) (snd y) (G e pt) (H e pt)) = work sp ls w' p' x' d source v).
(** C105: linear elasticity, with Lame parameters at the quadrature points. The conditions exclude all displacements with zero strains but zero *)
Theorem C105_elasticity {Pt Data'} (origin : Pt) params (default_data' : Data') umax sp (table : q_table Pt (R * R)) (table' : q_table Pt Data') ls w p x d w' p' x' srt ord source nodes is_zero u0 cws ws vws ws' :
  regular_mesh sp table ls w p x d srt ord d -> reads_quadrature table' (length ls) w' p' x' -> (forall e wt, (e < length ls)%nat -> In wt (w e) -> 0 < wt) ->
  (forall e y, (e < length ls)%nat -> In y (x e) -> stable d y) ->
  (forall x, is_zero x = true <-> x = 0) -> (forall k, k ∈ nodes -> exists ns, ns ∈ ls /\ k ∈ ns) -> anchored sp ls w p x d nodes (fun G => forall i j, (i < d)%nat -> (j < d)%nat -> strain G i j = 0) ->
  length u0 = (d * fs_nodes sp)%nat ->
  elasticity_solved origin params default_data' umax sp table table' ls w p x d w' p' x' srt ord source nodes is_zero u0 cws ws vws ws'.
Proof.
  intros Hm Hq' Hwt Hstab Hz Hnodes Hanch Hu0. assert (Hd : small d) by apply Hm. assert (Hd0 : (0 < d)%nat) by (destruct Hd as [-> | [-> | ->]]; lia).
  assert (Hst : forall e wt pt y, (e < length ls)%nat /\ In (wt, (pt, y)) (combine (w e) (combine (p e) (x e))) -> stable d y).
  { intros e wt pt y (He & Hin). apply (Hstab e y He). apply in_combine_r in Hin. apply in_combine_r in Hin. exact Hin. }
  pose proof (solve_energy origin params default_data' umax sp table table' d ls w p x d w' p' x' srt ord (fun G y => operator_energy (le_energy d (fst y) (snd y)) G) (fun G y => elliptic_operator_transpose (le_stress d (fst y) (snd y)) G)
    (fun (G : mat) y nrows ncols out alpha a b => batch_contraction d nrows ncols out alpha a b (operator_contract (le_contraction d (fst y) (snd y)) G)) source Hd0 Hm Hq') as HS. cbv zeta in HS.
  destruct (HS (fun u Hu => proj1 (C78_polynomial_materials origin params umax sp table ls w p x d srt ord u Hm Hu)) (fun e wt pt y _ G H => le_quadratic_ex d (fst y) (snd y) G H)
    (fun e wt pt y Hin G => le_nonneg d y G Hd (Hst e wt pt y Hin)) Hwt nodes is_zero Hz Hnodes) with (u0 := u0) (cws := cws) (ws := ws) (vws := vws) (ws' := ws') as (m & f & Em & Ef & Hsol).
  - intros v Hv Hvan Hg. apply (Hanch v Hv Hvan). intros e ns wt pt y G Hens Hin HG. apply (le_zero d y G Hd); [apply (Hst e wt pt y); split; [exact (lookup_lt_Some _ _ _ Hens)|exact Hin]|]. exact (Hg e ns wt pt y G Hens Hin HG).
  - exact Hu0.
  - exists m, f. split; [exact Em|]. split; [exact Ef|]. destruct Hsol as (m' & f' & H1 & H2 & H3 & H4 & H5). exists m', f'. split; [exact H1|]. split; [exact H2|]. split; [exact H3|]. split; [exact H4|].
    intros x0 tol max fuel Ht Hmax Hfuel. destruct (H5 x0 tol max fuel Ht Hmax Hfuel) as (res & R1 & R2 & R3 & R4 & R5). exists res. split; [exact R1|]. split; [exact R2|]. split; [exact R3|]. split; [exact R4|].
    intros T0. destruct (R5 T0) as (Hmin & Hweak). split; [exact Hmin|]. intros v G H Hv Hvan HG HH. rewrite <- (Hweak v Hv Hvan). symmetry.
    apply (polar_energy sp table ls w p x d srt ord d (fun G y => operator_energy (le_energy d (fst y) (snd y)) G) (fun G H y => strain_product d (fst y) (snd y) G H) _ v G H Hm); [rewrite length_as_list; congruence|exact HG|exact HH|].
    intros. rewrite le_quadratic. ring.
Qed.
Print Assumptions C105_elasticity.

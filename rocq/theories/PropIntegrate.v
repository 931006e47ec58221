(** C85: integrals over elements and meshes. *)
From stdpp Require Import base list list_numbers sets.
From Coq Require Import Reals Lia Lra FunctionalExtensionality.
From Coquelicot Require Import Coquelicot.
From Verif Require Import Prelude NestedVecModel ParadisModel VectorModel VectorSpec VectorProofs ParadisSpec ColoringProofs CsrModel CsrSpec PropVector PropCsr TableModel.
From Verif Require Import MaterialModel EllipticModel PropMaterial PropObjective PropElliptic PropEllipticOps PropMass GlobalModel PropGlobal IntegrateModel PropVolumeForm.
Local Open Scope R_scope.
Local Notation vec := (nat -> R).
Local Notation mat := (nat -> nat -> R).

(** * specification *)
(** sum over the quadrature points *)
Definition point_sum {Pt} (w : list R) (p : list Pt) (f : R -> Pt -> R) : R := fold_right (fun q acc => f (fst q) (snd q) + acc) 0 (combine w p).
(** the value of the function with the nodal values [u], a vector with [s] components *)
Definition field_value {Pt} (el : element Pt) (s : nat) (u : list R) (pt : Pt) : vec := fun i => if (i <? s)%nat then interpolated el s u pt i else 0.
(** the quadrature rule of each element *)
Definition reads_points {Pt} (table : wp_table Pt) (elems : nat) (w : nat -> list R) (p : nat -> list Pt) : Prop :=
  forall e, (e < elems)%nat -> length (p e) = length (w e) /\ wt_size table e = Ok (length (w e)) /\
    forall bp bw, length bp = length (w e) -> length bw = length (w e) -> wt_populate table e bp bw = Ok (p e, w e).
(** the Jacobian is not singular at the quadrature points *)
Definition regular_points {Pt} (el : element Pt) (w : list R) (p : list Pt) : Prop := forall wt pt, In (wt, pt) (combine w p) -> determinant (el_dim el) (el_jacobian el pt) <> 0.

(** * tables *)
(** C85: the tables of fenris have the rules they were made of, also when only points and weights are read *)
Theorem C85_tables {Pt Data} (ps : list (list Pt)) (ws : list (list R)) (ds : list (list Data)) (map : list nat) (p : list Pt) (w : list R) (d : list Data) elems :
  (forall t, general_from ps ws ds = Ok t -> (elems <= length ws)%nat -> reads_points (general_points t) elems (fun e => nth e ws []) (fun e => nth e ps [])) /\
  (forall t, uniform_from p w d = Ok t -> reads_points (uniform_points t) elems (fun _ => w) (fun _ => p)) /\
  (forall t, compact_from ps ws ds map = Ok t -> (elems <= length map)%nat -> reads_points (compact_points t) elems (fun e => nth (nth e map 0%nat) ws []) (fun e => nth (nth e map 0%nat) ps [])).
Proof.
  assert (nth_get : forall {A} (l : list A) i a, (i < length l)%nat -> l !! i = Some (nth i l a)).
  { intros A l. induction l as [|y l IH]; intros [|i] a H; simpl in *; try lia; [reflexivity|]. apply IH. lia. }
  split; [|split].
  - intros t Ht Hl e He. unfold general_from in Ht. destruct (decide _) as [Hc|]; [|discriminate]. injection Ht as <-. assert (L1 := proj1 Hc). assert (L2 := proj1 (proj2 Hc)).
    assert (Ep := nth_get _ ps e [] ltac:(lia)). assert (Ew := nth_get _ ws e [] ltac:(lia)). assert (Ed := nth_get _ ds e [] ltac:(lia)).
    destruct (rules_lengths ps ws ds e _ _ _ Hc Ep Ew Ed) as (H1 & H2). split; [exact H1|]. split; [cbn; unfold general_size; cbn; rewrite Ew; reflexivity|].
    intros bp bw E1 E2. cbn. unfold general_quadrature. cbn. rewrite Ep, Ew. cbn. rewrite E1, E2. rewrite decide_True by exact H1. cbn. rewrite decide_True by reflexivity. reflexivity.
  - intros t Ht e He. unfold uniform_from in Ht. destruct (decide _) as [H1|]; [|discriminate]. destruct (decide _) as [H2|]; [|discriminate]. injection Ht as <-. split; [exact H1|]. split; [cbn; unfold uniform_size; cbn; rewrite H1; reflexivity|].
    intros bp bw E1 E2. cbn. unfold uniform_quadrature. cbn. rewrite E1, E2. rewrite decide_True by exact H1. cbn. rewrite decide_True by reflexivity. reflexivity.
  - intros t Ht Hl e He. unfold compact_from in Ht. destruct (decide _) as [Hc|]; [|discriminate]. destruct (decide _) as [Hm|]; [|discriminate]. injection Ht as <-. assert (L1 := proj1 Hc). assert (L2 := proj1 (proj2 Hc)).
    assert (Em := nth_get _ map e 0%nat ltac:(lia)). rewrite Forall_forall in Hm. assert (Hr := Hm _ (elem_of_list_lookup_2 _ _ _ Em)). set (r := nth e map 0%nat) in *.
    assert (Ep := nth_get _ ps r [] Hr). assert (Ew := nth_get _ ws r [] ltac:(lia)). assert (Ed := nth_get _ ds r [] ltac:(lia)).
    destruct (rules_lengths ps ws ds r _ _ _ Hc Ep Ew Ed) as (H1 & H2). split; [exact H1|]. split; [cbn; unfold compact_size, compact_rule; cbn; rewrite Em; cbn; rewrite Ep, H1; reflexivity|].
    intros bp bw E1 E2. cbn. unfold compact_quadrature, compact_rule. cbn. rewrite Em. cbn. rewrite Ep, Ew. cbn. rewrite E1, E2. rewrite decide_True by exact H1. cbn. rewrite decide_True by reflexivity. reflexivity.
Qed.
Print Assumptions C85_tables.

(** * sums *)
Lemma point_sum_ext {Pt} w (p : list Pt) f g : (forall wt pt, In (wt, pt) (combine w p) -> f wt pt = g wt pt) -> point_sum w p f = point_sum w p g.
Proof. unfold point_sum. induction (combine w p) as [|(wt & pt) q IH]; intros H; [reflexivity|]. cbn. rewrite IH by (intros; apply H; right; assumption). rewrite (H wt pt) by (left; reflexivity). reflexivity. Qed.
Lemma point_sum_plus {Pt} w (p : list Pt) f g : point_sum w p (fun wt pt => f wt pt + g wt pt) = point_sum w p f + point_sum w p g.
Proof. unfold point_sum. induction (combine w p) as [|(wt & pt) q IH]; cbn; [ring|]. rewrite IH. ring. Qed.
Lemma point_sum_l {Pt} w (p : list Pt) c f : point_sum w p (fun wt pt => c * f wt pt) = c * point_sum w p f.
Proof. unfold point_sum. induction (combine w p) as [|(wt & pt) q IH]; cbn; [ring|]. rewrite IH. ring. Qed.
Lemma point_sum_nonneg {Pt} w (p : list Pt) f : (forall wt pt, In (wt, pt) (combine w p) -> 0 <= f wt pt) -> 0 <= point_sum w p f.
Proof. unfold point_sum. induction (combine w p) as [|(wt & pt) q IH]; intros H; cbn; [lra|]. pose proof (H wt pt (or_introl eq_refl)). specialize (IH (fun a b h => H a b (or_intror h))). cbn. lra. Qed.
Lemma point_sum_zero {Pt} w (p : list Pt) f : (forall wt pt, In (wt, pt) (combine w p) -> 0 <= f wt pt) -> point_sum w p f = 0 -> forall wt pt, In (wt, pt) (combine w p) -> f wt pt = 0.
Proof.
  unfold point_sum. induction (combine w p) as [|(wt & pt) q IH]; intros H E wt' pt' [] ; cbn in E.
  - assert (0 <= fold_right (fun q acc => f (fst q) (snd q) + acc) 0 q). { clear - H. induction q as [|(a & b) q IH]; cbn; [lra|]. pose proof (H a b (or_intror (or_introl eq_refl))). assert (0 <= fold_right (fun q acc => f (fst q) (snd q) + acc) 0 q) by (apply IH; intros x y [|]; apply H; [left; assumption|right; right; assumption]). lra. }
    injection H0 as <- <-. pose proof (H wt pt (or_introl eq_refl)). lra.
  - pose proof (H wt pt (or_introl eq_refl)). assert (0 <= fold_right (fun q acc => f (fst q) (snd q) + acc) 0 q). { clear - H. induction q as [|(a & b) q IH]; cbn; [lra|]. pose proof (H a b (or_intror (or_introl eq_refl))). assert (0 <= fold_right (fun q acc => f (fst q) (snd q) + acc) 0 q) by (apply IH; intros x y [|]; apply H; [left; assumption|right; right; assumption]). lra. }
    apply IH; [intros; apply H; right; assumption|lra|assumption].
Qed.
Lemma wp_in {Pt} w (p : list Pt) wt pt x : In (wt, (pt, x)) (weights_and_points w p) <-> In (wt, pt) (combine w p).
Proof.
  unfold weights_and_points. revert p. induction w as [|a w IH]; intros [|b p]; cbn; try tauto. rewrite IH. split; (intros [E|E]; [left; destruct x; congruence|right; exact E]).
Qed.
Lemma wp_sum {Pt} w (p : list Pt) f : qsum (weights_and_points w p) (fun wt pt _ => f wt pt) = point_sum w p f.
Proof. unfold weights_and_points, point_sum, qsum. revert p. induction w as [|a w IH]; intros [|b p]; cbn; try reflexivity. f_equal. apply IH. Qed.
Lemma data_sum {Pt Data} w (p : list Pt) (x : list Data) f : length x = length p -> qsum (combine w (combine p x)) (fun wt pt _ => f wt pt) = point_sum w p f.
Proof. unfold point_sum, qsum. revert p x. induction w as [|a w IH]; intros [|b p] [|y x] H; cbn in *; try reflexivity; try lia. f_equal. apply IH. lia. Qed.

(** * elements *)
Lemma interpolation_value {Pt} (el : element Pt) s u pt : length u = (s * el_nodes el)%nat -> compute_interpolation s (el_nodes el) u (el_basis el pt) = Some (field_value el s u pt).
Proof.
  intros H. unfold compute_interpolation. rewrite (proj2 (Nat.eqb_eq _ _) H). f_equal. apply functional_extensionality. intros i. unfold field_value, interpolated. destruct (i <? s)%nat; [|reflexivity].
  rewrite fold_add, Rplus_0_l. apply summ_ext. intros. ring.
Qed.
Lemma adjugate_transpose d J i j : small d -> (i < d)%nat -> (j < d)%nat -> adjugate d (transpose J) i j = adjugate d J j i.
Proof. intros [-> | [-> | ->]] Hi Hj; destruct i as [|[|[|?]]]; try lia; destruct j as [|[|[|?]]]; try lia; unfold adjugate, transpose; cbn; ring. Qed.
Lemma determinant_transpose d J : small d -> determinant d (transpose J) = determinant d J.
Proof. intros [-> | [-> | ->]]; unfold determinant, transpose; ring. Qed.
Lemma gradient_value {Pt} (el : element Pt) s u pt Ginv : small (el_dim el) -> length u = (s * el_nodes el)%nat -> try_inverse (el_dim el) (transpose (el_jacobian el pt)) = Some Ginv ->
  match compute_interpolation_gradient (el_dim el) s (el_nodes el) u (el_gradients el pt) with Some G => Some (within (el_dim el) s (mmul (el_dim el) Ginv G)) | None => None end = Some (ugrad el s u pt).
Proof.
  intros Hd Hu HG. unfold compute_interpolation_gradient. rewrite (proj2 (Nat.eqb_eq _ _) Hu). f_equal. rewrite <- volume_ugrad. unfold volume_u_grad.
  unfold try_inverse in HG. destruct (Req_EM_T _ 0); [discriminate|]. injection HG as <-. apply functional_extensionality. intros i. apply functional_extensionality. intros j. unfold within at 1 3.
  destruct (Nat.ltb_spec i (el_dim el)) as [Hi|]; [|reflexivity]. destruct (Nat.ltb_spec j s) as [Hj|]; [|reflexivity]. cbn [andb]. unfold mmul. apply summ_ext. intros k Hk. unfold within.
  rewrite (proj2 (Nat.ltb_lt k _) Hk), (proj2 (Nat.ltb_lt j s) Hj). cbn [andb]. rewrite determinant_transpose, adjugate_transpose by assumption. reflexivity.
Qed.
Lemma inverse_none d J : small d -> try_inverse d (transpose J) = None <-> determinant d J = 0.
Proof. intros Hd. unfold try_inverse. rewrite determinant_transpose by exact Hd. destruct (Req_EM_T _ 0); split; intros; try assumption; try discriminate; [reflexivity|contradiction]. Qed.

Definition value_u (f : u_function) (x u : vec) : vec := match f with FunU f => f x u | FunX f => f x end.
Definition uses_u (f : u_function) : Prop := match f with FunU _ => True | FunX _ => False end.
Definition value_u_grad (f : u_grad_function) (x u : vec) (G : mat) : vec := match f with FunUGrad f => f x u G | FunGrad f => f x G | FunOnlyU f => f x u end.

Lemma loop_done {Pt} (q : list (R * (Pt * unit))) (step : R -> Pt -> unit -> vec -> result vec) (f : R -> Pt -> vec) r :
  (forall w p x acc, In (w, (p, x)) q -> step w p x acc = Done (fun k => acc k + f w p k)) -> quadrature_loop step q r = Done (fun k => r k + qsum q (fun w p _ => f w p k)).
Proof.
  revert r. induction q as [|(w & p & x) q IH]; intros r H.
  - cbn. f_equal. apply functional_extensionality. intros. ring.
  - cbn [quadrature_loop]. rewrite H by (left; reflexivity). rewrite IH by (intros; apply H; right; assumption). f_equal. apply functional_extensionality. intros k. unfold qsum. cbn [fold_right fst snd]. ring.
Qed.

(** C85: the integral over an element is the sum over the quadrature points of weight times volume form times the integrand, evaluated at the mapped point and the interpolated value. Nodal values of the wrong number
    are a panic if the integrand uses them and there is a quadrature point, and otherwise have no effect *)
Theorem C85_element {Pt} (el : element Pt) g s f w p u :
  ((length u = (s * el_nodes el)%nat \/ ~ uses_u f) -> exists r, integrate_over_element el g s f w p u = Done r /\
     forall k, r k = point_sum w p (fun wt pt => wt * volume_form g (el_dim el) (el_jacobian el pt) * value_u f (el_map el pt) (field_value el s u pt) k)) /\
  (length u <> (s * el_nodes el)%nat -> uses_u f -> integrate_over_element el g s f w p u = Mismatch \/ combine w p = []).
Proof.
  split.
  - intros H. unfold integrate_over_element. cbv zeta. rewrite (loop_done _ _ (fun wt pt k => value_u f (el_map el pt) (field_value el s u pt) k * (wt * volume_form g (el_dim el) (el_jacobian el pt)))).
    + eexists. split; [reflexivity|]. intros k. cbv beta. rewrite Rplus_0_l, wp_sum. apply point_sum_ext. intros. ring.
    + intros wt pt x acc _. destruct f as [f|f]; cbn [evaluate_u value_u]; [|reflexivity]. destruct H as [H|H]; [|destruct (H I)]. rewrite interpolation_value by exact H. reflexivity.
  - intros H Hf. destruct f as [f|f]; [|destruct Hf]. unfold integrate_over_element. cbv zeta. destruct w as [|a w]; [right; reflexivity|]. destruct p as [|b p]; [right; reflexivity|]. left. cbn. unfold compute_interpolation.
    rewrite (proj2 (Nat.eqb_neq _ _) H). reflexivity.
Qed.
Print Assumptions C85_element.

(** the gradient of the interpolated function at a quadrature point *)
Definition field_gradient {Pt} (el : element Pt) (s : nat) (u : list R) (w : list R) (p : list Pt) (G : Pt -> mat) : Prop :=
  forall wt pt, In (wt, pt) (combine w p) -> interpolation_gradient el s u pt (G pt) /\ forall G', interpolation_gradient el s u pt G' -> G' = G pt.
Lemma ugrad_gradient {Pt} (el : element Pt) s u w (p : list Pt) : small (el_dim el) -> regular_points el w p -> field_gradient el s u w p (ugrad el s u).
Proof. intros Hd Hr wt pt Hin. split; [apply ugrad_spec; [exact Hd|apply (Hr wt), Hin]|]. intros G' HG. apply ugrad_unique; [exact Hd|apply (Hr wt), Hin|exact HG]. Qed.

Lemma volume_done {Pt} (el : element Pt) s f w (p : list Pt) u : small (el_dim el) -> length u = (s * el_nodes el)%nat -> regular_points el w p -> exists r, integrate_over_volume_element el s f w p u = Done r /\
  forall k, r k = point_sum w p (fun wt pt => wt * Rabs (determinant (el_dim el) (el_jacobian el pt)) * value_u_grad f (el_map el pt) (field_value el s u pt) (ugrad el s u pt) k).
Proof.
  intros Hd Hu Hr. unfold integrate_over_volume_element. cbv zeta.
  rewrite (loop_done _ _ (fun wt pt k => value_u_grad f (el_map el pt) (field_value el s u pt) (ugrad el s u pt) k * (wt * volume_form (el_dim el) (el_dim el) (el_jacobian el pt)))).
  - eexists. split; [reflexivity|]. intros k. cbv beta. rewrite Rplus_0_l, wp_sum. apply point_sum_ext. intros. unfold volume_form. rewrite Nat.eqb_refl. ring.
  - intros wt pt x acc Hin. apply wp_in in Hin. destruct (try_inverse (el_dim el) (transpose (el_jacobian el pt))) as [Ginv|] eqn:E; [|apply inverse_none in E; [|exact Hd]; destruct (Hr wt pt Hin E)].
    rewrite (gradient_value el s u pt Ginv Hd Hu E), interpolation_value by exact Hu. destruct f; reflexivity.
Qed.
Lemma volume_singular {Pt} (el : element Pt) s f w (p : list Pt) u : small (el_dim el) -> length u = (s * el_nodes el)%nat -> ~ regular_points el w p -> integrate_over_volume_element el s f w p u = Singular.
Proof.
  intros Hd Hu. unfold integrate_over_volume_element. cbv zeta. generalize (fun _ : nat => 0). revert p. induction w as [|a w IH]; intros [|b p] r Hr; [destruct Hr; intros ? ? []..|].
  cbn. destruct (try_inverse (el_dim el) (transpose (el_jacobian el b))) as [Ginv|] eqn:E; [|reflexivity]. rewrite (gradient_value el s u b Ginv Hd Hu E), interpolation_value by exact Hu.
  assert (Hb : determinant (el_dim el) (el_jacobian el b) <> 0) by (intros Z; apply inverse_none in Z; [|exact Hd]; congruence).
  assert (Hr' : ~ regular_points el w p). { intros R. apply Hr. intros wt pt [E'|Hin]; [injection E' as <- <-; exact Hb|exact (R wt pt Hin)]. }
  destruct f; exact (IH p _ Hr').
Qed.
(** C85: the integral over a volume element is the sum over the quadrature points of weight times absolute determinant times the integrand, evaluated at the mapped point, the interpolated value and the physical
    gradient of the interpolated function; a singular Jacobian at one of the quadrature points, and only that, is an error *)
Theorem C85_volume_element {Pt} (el : element Pt) s f w (p : list Pt) u : small (el_dim el) -> length u = (s * el_nodes el)%nat ->
  (regular_points el w p -> exists r G, integrate_over_volume_element el s f w p u = Done r /\ field_gradient el s u w p G /\
     forall k, r k = point_sum w p (fun wt pt => wt * Rabs (determinant (el_dim el) (el_jacobian el pt)) * value_u_grad f (el_map el pt) (field_value el s u pt) (G pt) k)) /\
  (integrate_over_volume_element el s f w p u = Singular <-> ~ regular_points el w p).
Proof.
  intros Hd Hu. split.
  - intros Hr. destruct (volume_done el s f w p u Hd Hu Hr) as (r & E & H). exists r, (ugrad el s u). split; [exact E|]. split; [apply ugrad_gradient; assumption|exact H].
  - split; [|apply volume_singular; assumption]. intros E Hr. destruct (volume_done el s f w p u Hd Hu Hr) as (r & E' & _). congruence.
Qed.
Print Assumptions C85_volume_element.

(** * meshes *)
Lemma regular_dec {Pt} (el : element Pt) w (p : list Pt) : regular_points el w p \/ ~ regular_points el w p.
Proof.
  unfold regular_points. induction (combine w p) as [|(a & b) q IH]; [left; intros ? ? []|]. destruct (Req_dec (determinant (el_dim el) (el_jacobian el b)) 0) as [E|E].
  - right. intros H. exact (H a b (or_introl eq_refl) E).
  - destruct IH as [IH|IH]; [left; intros wt pt [Eq|Hin]; [injection Eq as <- <-; exact E|exact (IH wt pt Hin)]|right; intros H; apply IH; intros wt pt Hin; apply (H wt pt); right; exact Hin].
Qed.
Section mesh.
Context {Pt : Type} (origin : Pt) (umax : nat) (sp : fe_space Pt) (table : wp_table Pt).
Context (s : nat) (ls : list (list nat)) (w : nat -> list R) (p : nat -> list Pt).
Hypothesis Hc : has_conn (fs_conn sp s) ls.
Hypothesis Hr : nodes_in_range (fs_nodes sp) ls.
Hypothesis Hn : forall e ns, ls !! e = Some ns -> el_nodes (fs_element sp e) = length ns.
Hypothesis Hq : reads_points table (length ls) w p.
Let nodes e := nth e ls [].
Let el e := fs_element sp e.

Lemma prepare_integral_ok u ws e : (e < length ls)%nat -> length u = (fs_nodes sp * s)%nat ->
  prepare_integral origin umax sp table s u ws e = Ok (IntWs (p e) (w e) (local_values s u (nodes e)) (nodes e)).
Proof.
  intros He Hu. unfold prepare_integral. destruct (Hq e He) as (_ & H1 & H2). rewrite H1. cbn [obind]. rewrite H2 by apply vec_resize_length. cbn [obind fst snd].
  assert (Hl : ls !! e = Some (nodes e)) by (apply some_nth, He). destruct Hc as (_ & Hc'). destruct (Hc' e _ Hl) as (C1 & C2). cbn [ca_count ca_populate fs_conn] in C1, C2. rewrite C1, C2 by apply vec_resize_length.
  rewrite gather_local; [reflexivity|rewrite vec_resize_length; lia|].
  apply Forall_forall. intros k Hk. assert (k < fs_nodes sp)%nat by (apply (Hr (nodes e) k); [apply (elem_of_list_lookup_2 ls e), Hl|exact Hk]). rewrite Hu. nia.
Qed.
Lemma local_length u e : (e < length ls)%nat -> length (local_values s u (nodes e)) = (s * el_nodes (el e))%nat.
Proof. intros He. rewrite length_local. unfold el. rewrite (Hn e (nodes e)) by (apply some_nth, He). reflexivity. Qed.
Lemma elems_length : fs_elems sp = length ls.
Proof. destruct Hc as (H & _). symmetry; exact H. Qed.

(** C85: the integral of f(x, u) or f(x) over a mesh of curves, surfaces or volumes, whatever the thread-local workspaces contain: the sum over all elements and quadrature points of weight times volume form times
    the value of the integrand (its first component). Nodal values of the wrong number are refused *)
Theorem C85_mesh_integral g f u ws :
  (length u = (fs_nodes sp * s)%nat -> mesh_integrate origin umax sp table g s f u ws = Ok (summ (length ls) (fun e =>
     point_sum (w e) (p e) (fun wt pt => wt * volume_form g (el_dim (el e)) (el_jacobian (el e) pt) * value_u f (el_map (el e) pt) (field_value (el e) s (local_values s u (nodes e)) pt) 0%nat)))) /\
  (length u <> (fs_nodes sp * s)%nat -> mesh_integrate origin umax sp table g s f u ws = Panic).
Proof.
  unfold mesh_integrate. split; intros Hu; [|rewrite (proj2 (Nat.eqb_neq _ _) Hu); reflexivity]. rewrite (proj2 (Nat.eqb_eq _ _) Hu), elems_length. apply scalar_sum. intros e He.
  unfold integral_scalar. rewrite prepare_integral_ok by assumption. cbn [obind iw_weights iw_points iw_u]. fold (el e).
  destruct (C85_element (el e) g s f (w e) (p e) (local_values s u (nodes e))) as (H & _). destruct H as (r & -> & H); [left; apply local_length, He|]. cbn [of_result obind]. f_equal. apply H.
Qed.

(** C85: the integral of f(x, u, grad u) over a mesh of volumes; it fails, with an error value, exactly if an element has a singular Jacobian at a quadrature point *)
Theorem C85_mesh_volume_integral f u ws : (forall e, (e < length ls)%nat -> small (el_dim (el e))) -> length u = (fs_nodes sp * s)%nat ->
  ((forall e, (e < length ls)%nat -> regular_points (el e) (w e) (p e)) -> exists G, (forall e, (e < length ls)%nat -> field_gradient (el e) s (local_values s u (nodes e)) (w e) (p e) (G e)) /\
     mesh_volume_integrate origin umax sp table s f u ws = Ok (summ (length ls) (fun e => point_sum (w e) (p e) (fun wt pt =>
       wt * Rabs (determinant (el_dim (el e)) (el_jacobian (el e) pt)) * value_u_grad f (el_map (el e) pt) (field_value (el e) s (local_values s u (nodes e)) pt) (G e pt) 0%nat)))) /\
  (mesh_volume_integrate origin umax sp table s f u ws = Err tt <-> exists e, (e < length ls)%nat /\ ~ regular_points (el e) (w e) (p e)) /\
  mesh_volume_integrate origin umax sp table s f u ws <> Panic.
Proof.
  intros Hd Hu. unfold mesh_volume_integrate. rewrite (proj2 (Nat.eqb_eq _ _) Hu), elems_length.
  assert (S : forall e, (e < length ls)%nat -> let r := volume_integral_scalar origin umax sp table s f u (ws e) e in
    (regular_points (el e) (w e) (p e) -> r = Ok (point_sum (w e) (p e) (fun wt pt =>
       wt * Rabs (determinant (el_dim (el e)) (el_jacobian (el e) pt)) * value_u_grad f (el_map (el e) pt) (field_value (el e) s (local_values s u (nodes e)) pt) (ugrad (el e) s (local_values s u (nodes e)) pt) 0%nat))) /\
    (~ regular_points (el e) (w e) (p e) -> r = Err tt)).
  { intros e He. cbv zeta. unfold volume_integral_scalar. rewrite prepare_integral_ok by assumption. cbn [obind iw_weights iw_points iw_u]. fold (el e). split.
    - intros Hreg. destruct (volume_done (el e) s f (w e) (p e) (local_values s u (nodes e)) (Hd e He) (local_length u e He) Hreg) as (r & -> & H). cbn [of_result obind]. f_equal. apply H.
    - intros Hreg. rewrite (volume_singular (el e) s f (w e) (p e) (local_values s u (nodes e)) (Hd e He) (local_length u e He) Hreg). reflexivity. }
  assert (OK : (forall e, (e < length ls)%nat -> regular_points (el e) (w e) (p e)) -> assemble_scalar Rplus 0 (length ls) (fun e => volume_integral_scalar origin umax sp table s f u (ws e) e) =
    Ok (summ (length ls) (fun e => point_sum (w e) (p e) (fun wt pt => wt * Rabs (determinant (el_dim (el e)) (el_jacobian (el e) pt)) * value_u_grad f (el_map (el e) pt) (field_value (el e) s (local_values s u (nodes e)) pt) (ugrad (el e) s (local_values s u (nodes e)) pt) 0%nat)))).
  { intros Hreg. apply scalar_sum. intros e He. apply S; [exact He|apply Hreg, He]. }
  assert (N : forall e, (e < length ls)%nat -> volume_integral_scalar origin umax sp table s f u (ws e) e <> Panic).
  { intros e He E. destruct (S e He) as (S1 & S2). destruct (regular_dec (el e) (w e) (p e)) as [R|R]; [rewrite S1 in E by exact R|rewrite S2 in E by exact R]; discriminate. }
  pose proof (C20_serial_scalar R unit Rplus 0 (fun e => volume_integral_scalar origin umax sp table s f u (ws e) e) (length ls)) as C.
  split; [|split].
  - intros Hreg. exists (fun e => ugrad (el e) s (local_values s u (nodes e))). split; [intros e He; apply ugrad_gradient; [apply Hd, He|apply Hreg, He]|]. apply OK, Hreg.
  - split.
    + intros E. rewrite E in C. destruct C as (l1 & i & l2 & vals & El & _ & Ei). assert (Hi : i ∈ seq 0 (length ls)) by (rewrite El; set_solver). apply elem_of_seq in Hi. exists i. split; [lia|].
      intros R. destruct (S i ltac:(lia)) as (S1 & _). rewrite S1 in Ei by exact R. discriminate.
    + intros (e & He & Hreg). destruct (assemble_scalar _ _ _ _) as [y|[]|]; [|reflexivity|].
      * destruct C as (vals & El & _). exfalso. assert (L : map (fun e => volume_integral_scalar origin umax sp table s f u (ws e) e) (seq 0 (length ls)) !! e = map Ok vals !! e) by (rewrite El; reflexivity).
        rewrite seq_nth_lookup in L by exact He. rewrite list_lookup_fmap in L. destruct (S e He) as (_ & S2). rewrite S2 in L by exact Hreg. destruct (vals !! e); discriminate.
      * destruct C as (l1 & i & l2 & vals & El & _ & Ei). assert (Hi : i ∈ seq 0 (length ls)) by (rewrite El; set_solver). apply elem_of_seq in Hi. destruct (N i ltac:(lia) Ei).
  - intros E. rewrite E in C. destruct C as (l1 & i & l2 & vals & El & _ & Ei). assert (Hi : i ∈ seq 0 (length ls)) by (rewrite El; set_solver). apply elem_of_seq in Hi. destruct (N i ltac:(lia) Ei).
Qed.

(** C85: on meshes without singular Jacobians both integrators agree about f(x, u) *)
Theorem C85_integrators_agree d f u ws ws' : (forall e, (e < length ls)%nat -> el_dim (el e) = d /\ regular_points (el e) (w e) (p e)) -> small d -> length u = (fs_nodes sp * s)%nat ->
  mesh_volume_integrate origin umax sp table s (FunOnlyU f) u ws = mesh_integrate origin umax sp table d s (FunU f) u ws'.
Proof.
  intros H Hd Hu. destruct (C85_mesh_integral d (FunU f) u ws') as (M & _). rewrite M by exact Hu.
  destruct (C85_mesh_volume_integral (FunOnlyU f) u ws) as (V & _); [intros e He; destruct (H e He) as (-> & _); exact Hd|exact Hu|]. destruct V as (G & _ & ->); [intros e He; apply H, He|]. f_equal.
  apply summ_ext. intros e He. apply point_sum_ext. intros wt pt _. destruct (H e He) as (-> & _). unfold volume_form. rewrite Nat.eqb_refl. reflexivity.
Qed.
End mesh.
Print Assumptions C85_mesh_integral.
Print Assumptions C85_mesh_volume_integral.
Print Assumptions C85_integrators_agree.

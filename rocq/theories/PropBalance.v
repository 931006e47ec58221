(** C106: balance of assembled forces. Internal forces sum to zero and have no torque; assembled energies do not change under rigid motions; rigid motions are in the kernel of stiffness matrices. *)
From stdpp Require Import base list list_numbers sets.
From Coq Require Import Reals Lia Lra Psatz.
From Coquelicot Require Import Coquelicot.
From Verif Require Import Prelude NestedVecModel ParadisModel VectorModel VectorSpec VectorProofs ParadisSpec CsrModel CsrSpec CsrProofs CsrPattern PropVector PropCsr.
From Verif Require Import MaterialModel EllipticModel PropMaterial PropObjective PropElliptic PropEllipticOps PropMass GlobalModel PropGlobal PropGlobalForms SolveProofs PropSolve.
Local Open Scope R_scope.
Local Notation vec := (nat -> R).
Local Notation mat := (nat -> nat -> R).

(** * specification *)
(** the basis functions of every element add up to a constant *)
Definition flat_constants {Pt Data} (sp : fe_space Pt) (ls : list (list nat)) (w : nat -> list R) (p : nat -> list Pt) (x : nat -> list Data) : Prop :=
  forall e wt pt y i, (e < length ls)%nat -> In (wt, (pt, y)) (combine (w e) (combine (p e) (x e))) -> (i < el_dim (fs_element sp e))%nat ->
    summ (el_nodes (fs_element sp e)) (fun I => el_gradients (fs_element sp e) pt I i) = 0.
(** the Jacobian of every element is the derivative of the interpolation of the positions [X] of its nodes *)
Definition positions {Pt Data} (sp : fe_space Pt) (ls : list (list nat)) (w : nat -> list R) (p : nat -> list Pt) (x : nat -> list Data) (X : nat -> vec) : Prop :=
  forall e ns wt pt y i k, ls !! e = Some ns -> In (wt, (pt, y)) (combine (w e) (combine (p e) (x e))) -> (i < el_dim (fs_element sp e))%nat -> (k < el_dim (fs_element sp e))%nat ->
    summ (length ns) (fun I => X (nth I ns 0%nat) k * el_gradients (fs_element sp e) pt I i) = el_jacobian (fs_element sp e) pt k i.
(** component [c] of the values of the node [a] *)
Definition value_at (s : nat) (u : list R) (a c : nat) : R := nth (s * a + c) u 0.
(** the sum of the forces at all nodes, and the torque of the forces at the positions [x] in the plane of the axes [i] and [j] *)
Definition total_force (s N : nat) (f : list R) (c : nat) : R := summ N (fun a => value_at s f a c).
Definition torque (s N : nat) (x : nat -> vec) (f : list R) (i j : nat) : R := summ N (fun a => x a i * value_at s f a j - x a j * value_at s f a i).

(** * gradients of nodal functions *)
Definition nodal (s N : nat) (g : nat -> vec) : list R := as_list (s * N) (fun r => g (r / s)%nat (r mod s)%nat).
Lemma length_nodal s N g : length (nodal s N g) = (s * N)%nat.
Proof. apply length_as_list. Qed.
Lemma value_nodal s N g a c : (a < N)%nat -> (c < s)%nat -> value_at s (nodal s N g) a c = g a c.
Proof. intros Ha Hc. unfold value_at, nodal. rewrite nth_as_list by nia. destruct (divmod_block s a c Hc) as (-> & ->). reflexivity. Qed.
Lemma dot_nodal s N f g : summ (s * N) (fun k => nth k f 0 * nth k (nodal s N g) 0) = summ N (fun a => summ s (fun c => value_at s f a c * g a c)).
Proof. rewrite summ_blocks. apply summ_ext. intros a Ha. apply summ_ext. intros c Hc. fold (value_at s f a c). fold (value_at s (nodal s N g) a c). rewrite value_nodal by assumption. reflexivity. Qed.
Lemma nodal_values s N u : (0 < s)%nat -> length u = (s * N)%nat -> nodal s N (value_at s u) = u.
Proof.
  intros Hs Hu. apply nth_eq; [rewrite length_nodal; congruence|]. rewrite length_nodal. intros i Hi. unfold nodal. rewrite nth_as_list by exact Hi. unfold value_at. rewrite <- Nat.div_mod by lia. reflexivity.
Qed.

Section balance.
Context {Pt Data : Type} (origin : Pt) (default_data : Data) (umax : nat) (sp : fe_space Pt) (table : q_table Pt Data).
Context (s : nat) (ls : list (list nat)) (w : nat -> list R) (p : nat -> list Pt) (x : nat -> list Data) (d : nat) (srt : list nat -> list nat) (ord : nat -> list nat -> list nat).
Hypothesis Hs : (0 < s)%nat.
Hypothesis Hmesh : regular_mesh sp table ls w p x d srt ord s.
Let N := fs_nodes sp.
Let n := (s * N)%nat.
Let el e := fs_element sp e.
Let nodes e := nth e ls [].
Let at_point e wt pt y := (e < length ls)%nat /\ In (wt, (pt, y)) (combine (w e) (combine (p e) (x e))).
Let G u e pt := ugrad (el e) s (local_values s u (nodes e)) pt.

Lemma mesh_el e : (e < length ls)%nat -> el_nodes (el e) = length (nodes e) /\ el_dim (el e) = d /\ regular_at (el e) (combine (w e) (combine (p e) (x e))).
Proof using Hmesh. intros He. apply Hmesh. apply some_nth, He. Qed.
Lemma mesh_dim : small d.
Proof using Hmesh. apply Hmesh. Qed.
Lemma mesh_node_in e I : (e < length ls)%nat -> (I < length (nodes e))%nat -> (nth I (nodes e) 0 < N)%nat.
Proof using Hmesh. intros He HI. destruct Hmesh as (_ & Hr & _). apply (Hr (nodes e)); [apply (elem_of_list_lookup_2 ls e), some_nth, He|apply (elem_of_list_lookup_2 (nodes e) I), some_nth, HI]. Qed.

Lemma virtual_work op vws ws u : length u = n -> exists f, (assemble_vector Rplus 0 umax vws (elliptic_vec_asm origin default_data umax sp table s op u ws)).2 = Ok f /\ length f = n /\
  forall v, summ n (fun k => nth k f 0 * nth k v 0) = mesh_integral sp (length ls) w p x (fun e pt y => summ s (fun i => summ d (fun k => op (G u e pt) y i k * G v e pt k i))).
Proof using Hmesh Hs.
  intros Hu. destruct Hmesh as (Hc & Hr & Hn & Hq & Ho & Hsrt & Hd & He).
  assert (HV : forall e, (e < length ls)%nat -> exists f, element_vector (el e) s op (local_values s u (nodes e)) (w e) (p e) (x e) (length (nodes e)) (s * length (nodes e)) = Done f /\
    forall I i, (i < s)%nat -> f (s * I + i)%nat = qsum (combine (w e) (combine (p e) (x e))) (fun wt pt y => wt * Rabs (determinant (el_dim (el e)) (el_jacobian (el e) pt)) * summ d (fun k => grads (el e) pt I k * op (G u e pt) y i k))).
  { intros e Hel. destruct (mesh_el e Hel) as (En & Ed & Hreg). destruct (Hq e Hel) as (L1 & L2 & _).
    destruct (vector_value (el e) s op (local_values s u (nodes e)) (w e) (p e) (x e)) as (_ & H2); [split; lia|rewrite length_local, En; reflexivity|]. cbv zeta in H2. destruct (H2 Hreg) as (f & Ef & Hf).
    exists f. split; [rewrite <- En; exact Ef|]. intros I i Hi. rewrite (Hf I i Hi), Ed. reflexivity. }
  eexists. split; [|split].
  - apply (vector_global origin default_data umax sp table s ls w p x Hc Hr Hq Hs (fun _ _ => 0) op (fun _ _ _ _ _ _ _ _ => None) vws ws u Hu). intros e Hel. destruct (HV e Hel) as (f & Ef & _). exists f. exact Ef.
  - apply length_as_list.
  - intros v. rewrite (summ_ext n _ (fun k => scattered s ls (fun e => result_entry (element_vector (el e) s op (local_values s u (nodes e)) (w e) (p e) (x e) (length (nodes e)) (s * length (nodes e)))) k * nth k v 0)) by (intros k Hk; rewrite nth_as_list by exact Hk; reflexivity).
    unfold n. rewrite (scattered_dot s N ls _ v Hs Hr). unfold mesh_integral. apply summ_ext. intros e Hel. cbv zeta. fold (nodes e). destruct (HV e Hel) as (f & Ef & Hf). destruct (mesh_el e Hel) as (En & Ed & _). rewrite Ef. cbn [result_entry].
    transitivity (summ (length (nodes e)) (fun I => summ s (fun i => qsum (combine (w e) (combine (p e) (x e))) (fun wt pt y => wt * Rabs (determinant (el_dim (el e)) (el_jacobian (el e) pt)) * (nth (s * I + i) (local_values s v (nodes e)) 0 * summ d (fun k => grads (el e) pt I k * op (G u e pt) y i k)))))).
    + apply summ_ext. intros I HI. apply summ_ext. intros i Hi. rewrite (Hf I i Hi), Rmult_comm, <- qsum_l. apply qsum_ext. intros. ring.
    + rewrite (summ_ext (length (nodes e)) _ (fun I => qsum (combine (w e) (combine (p e) (x e))) (fun wt pt y => summ s (fun i => wt * Rabs (determinant (el_dim (el e)) (el_jacobian (el e) pt)) * (nth (s * I + i) (local_values s v (nodes e)) 0 * summ d (fun k => grads (el e) pt I k * op (G u e pt) y i k)))))) by (intros; rewrite qsum_summ; reflexivity).
      rewrite <- qsum_summ. apply qsum_ext. intros wt pt y _. rewrite summ_swap, <- summ_l. apply summ_ext. intros i Hi.
      rewrite summ_l. f_equal. change (G v e pt) with (ugrad (el e) s (local_values s v (nodes e)) pt). unfold ugrad. rewrite En, Ed.
      rewrite (summ_ext d (fun k => op _ _ _ _ * _) (fun k => summ (length (nodes e)) (fun I => nth (s * I + i) (local_values s v (nodes e)) 0 * (grads (el e) pt I k * op (G u e pt) y i k)))).
      * rewrite summ_swap. apply summ_ext. intros I HI. rewrite summ_l. reflexivity.
      * intros k Hk. rewrite (proj2 (Nat.ltb_lt k d) Hk), (proj2 (Nat.ltb_lt i s) Hi). cbn [andb]. rewrite <- summ_l. apply summ_ext. intros. ring.
Qed.
Lemma gradient_nodal g e pt k c : (e < length ls)%nat -> (k < d)%nat -> (c < s)%nat -> G (nodal s N g) e pt k c = summ (length (nodes e)) (fun I => grads (el e) pt I k * g (nth I (nodes e) 0%nat) c).
Proof using Hmesh.
  intros He Hk Hc. destruct (mesh_el e He) as (En & Ed & _). unfold G, ugrad. rewrite En, Ed, (proj2 (Nat.ltb_lt k d) Hk), (proj2 (Nat.ltb_lt c s) Hc). cbn [andb]. apply summ_ext. intros I HI. rewrite nth_local by assumption.
  fold (value_at s (nodal s N g) (nth I (nodes e) 0%nat) c). rewrite value_nodal; [reflexivity|apply mesh_node_in; assumption|exact Hc].
Qed.
Lemma gradient_values u e pt k c : length u = n -> (e < length ls)%nat -> (k < d)%nat -> (c < s)%nat -> G u e pt k c = summ (length (nodes e)) (fun I => grads (el e) pt I k * value_at s u (nth I (nodes e) 0%nat) c).
Proof using Hmesh Hs. intros Hu. intros. rewrite <- (nodal_values s N u Hs Hu) at 1. apply gradient_nodal; assumption. Qed.
Hypothesis Hflat : flat_constants sp ls w p x.
Lemma constant_gradient e wt pt y k : at_point e wt pt y -> (k < d)%nat -> summ (length (nodes e)) (fun I => grads (el e) pt I k) = 0.
Proof using Hmesh Hflat Hs.
  intros (He & Hin) Hk. destruct (mesh_el e He) as (En & Ed & _). unfold grads. rewrite Ed, (proj2 (Nat.ltb_lt k d) Hk). rewrite summ_swap. apply summ_zero'. intros m Hm. rewrite summ_l, <- En. unfold el. rewrite (Hflat e wt pt y m He Hin); [ring|]. fold (el e). lia.
Qed.
Context (X : nat -> vec).
Hypothesis HX : positions sp ls w p x X.
Lemma position_gradient e wt pt y k c : at_point e wt pt y -> (k < d)%nat -> (c < d)%nat -> summ (length (nodes e)) (fun I => grads (el e) pt I k * X (nth I (nodes e) 0%nat) c) = if (c =? k)%nat then 1 else 0.
Proof using Hmesh HX Hs.
  intros (He & Hin) Hk Hc. destruct (mesh_el e He) as (En & Ed & Hreg). set (J := el_jacobian (el e) pt). assert (HJ : determinant d J <> 0) by (rewrite <- Ed; exact (Hreg wt pt y Hin)).
  rewrite (summ_ext _ _ (fun I => summ d (fun m => adjugate d J m k / determinant d J * (X (nth I (nodes e) 0%nat) c * el_gradients (el e) pt I m)))).
  2: { intros I _. unfold grads. rewrite Ed, (proj2 (Nat.ltb_lt k d) Hk). fold J. rewrite Rmult_comm, <- summ_l. apply summ_ext. intros. ring. }
  rewrite summ_swap. rewrite (summ_ext d _ (fun m => / determinant d J * (J c m * adjugate d J m k))).
  2: { intros m Hm. rewrite summ_l. unfold el, nodes. rewrite (HX e _ wt pt y m c (some_nth ls e [] He) Hin); [fold (el e); fold J; unfold Rdiv; ring|fold (el e); lia|fold (el e); lia]. }
  rewrite summ_l, adjugate_inverse by (first [exact mesh_dim | assumption]). destruct (c =? k)%nat; [field; exact HJ|ring].
Qed.
End balance.

(** C106: virtual work. For every operator, also one without energy, and all nodal values: assembly succeeds, and the product of the vector with nodal values [v] is the integral of the product of the operator with the gradient of [v] *)
Theorem C106_virtual_work {Pt Data} (origin : Pt) (default_data : Data) umax sp (table : q_table Pt Data) s ls w p x d srt ord operator_transpose vws ws u :
  (0 < s)%nat -> regular_mesh sp table ls w p x d srt ord s -> length u = (s * fs_nodes sp)%nat ->
  exists f, (assemble_vector Rplus 0 umax vws (elliptic_vec_asm origin default_data umax sp table s operator_transpose u ws)).2 = Ok f /\ length f = (s * fs_nodes sp)%nat /\
  forall v G H, gradients_of sp ls w p x s u G -> gradients_of sp ls w p x s v H ->
    summ (s * fs_nodes sp) (fun k => nth k f 0 * nth k v 0) = mesh_integral sp (length ls) w p x (fun e pt y => summ s (fun i => summ d (fun k => operator_transpose (G e pt) y i k * H e pt k i))).
Proof.
  intros Hs Hm Hu. destruct (virtual_work origin default_data umax sp table s ls w p x d srt ord Hs Hm operator_transpose vws ws u Hu) as (f & Ef & Lf & Hf). exists f. split; [exact Ef|]. split; [exact Lf|].
  intros v G H HG HH. rewrite Hf. unfold mesh_integral. apply summ_ext. intros e He. apply qsum_ext. intros wt pt y Hin. f_equal. apply summ_ext. intros i _. apply summ_ext. intros k _.
  rewrite (gradients_ugrad sp table ls w p x d srt ord s u G Hm HG e wt pt y He Hin), (gradients_ugrad sp table ls w p x d srt ord s v H Hm HH e wt pt y He Hin). reflexivity.
Qed.
Print Assumptions C106_virtual_work.

Lemma integral_zero {Pt Data} (sp : fe_space Pt) elems w p (x : nat -> list Data) g : (forall e wt pt y, (e < elems)%nat -> In (wt, (pt, y)) (combine (w e) (combine (p e) (x e))) -> g e pt y = 0) -> mesh_integral sp elems w p x g = 0.
Proof.
  intros H. unfold mesh_integral. apply summ_zero'. intros e He. rewrite (qsum_ext _ _ (fun wt pt y => 0 * wt)); [rewrite qsum_l; ring|]. intros wt pt y Hin. rewrite (H e wt pt y He Hin). ring.
Qed.

(** C106: internal forces of every operator add up to zero *)
Theorem C106_force {Pt Data} (origin : Pt) (default_data : Data) umax sp (table : q_table Pt Data) s ls w p x d srt ord operator_transpose vws ws u f :
  (0 < s)%nat -> regular_mesh sp table ls w p x d srt ord s -> flat_constants sp ls w p x -> length u = (s * fs_nodes sp)%nat ->
  (assemble_vector Rplus 0 umax vws (elliptic_vec_asm origin default_data umax sp table s operator_transpose u ws)).2 = Ok f -> forall c, (c < s)%nat -> total_force s (fs_nodes sp) f c = 0.
Proof.
  intros Hs Hm Hfl Hu Ef c Hc. destruct (virtual_work origin default_data umax sp table s ls w p x d srt ord Hs Hm operator_transpose vws ws u Hu) as (f' & Ef' & Lf & Hf). rewrite Ef in Ef'. injection Ef' as <-.
  specialize (Hf (nodal s (fs_nodes sp) (fun _ i => if (i =? c)%nat then 1 else 0))). rewrite dot_nodal in Hf. transitivity (summ (fs_nodes sp) (fun a => summ s (fun i => value_at s f a i * (if (i =? c)%nat then 1 else 0)))).
  - apply summ_ext. intros a _. rewrite (summ_ext s _ (fun i => if (i =? c)%nat then value_at s f a i else 0)) by (intros i _; destruct (i =? c)%nat; ring). rewrite (summ_delta s c (fun i => value_at s f a i) Hc). reflexivity.
  - rewrite Hf. apply integral_zero. intros e wt pt y He Hin. apply summ_zero'. intros i Hi. apply summ_zero'. intros k Hk. rewrite (gradient_nodal sp table s ls w p x d srt ord Hm _ e pt k i He Hk Hi).
    rewrite summ_r, (constant_gradient sp table s ls w p x d srt ord Hs Hm Hfl e wt pt y k (conj He Hin) Hk). ring.
Qed.
Print Assumptions C106_force.

(** rows of a matrix against rows of another *)
Definition row_product (d : nat) (A B : mat) (i j : nat) : R := summ d (fun k => A i k * B j k).
Lemma plane_sum d (t : nat -> R) i j a b : (i < d)%nat -> (j < d)%nat -> i <> j -> summ d (fun c => t c * (if (c =? j)%nat then a else if (c =? i)%nat then b else 0)) = t j * a + t i * b.
Proof.
  intros Hi Hj Hn. rewrite (summ_ext d _ (fun c => (if (c =? j)%nat then t c * a else 0) + (if (c =? i)%nat then t c * b else 0))).
  - rewrite summ_plus, (summ_delta d j (fun c => t c * a) Hj), (summ_delta d i (fun c => t c * b) Hi). reflexivity.
  - intros c _. destruct (Nat.eqb_spec c j), (Nat.eqb_spec c i); subst; try contradiction; ring.
Qed.
Lemma torque_work d N f (y : nat -> vec) i j : (i < d)%nat -> (j < d)%nat -> i <> j ->
  torque d N y f i j = summ (d * N) (fun k => nth k f 0 * nth k (nodal d N (fun a c => if (c =? j)%nat then y a i else if (c =? i)%nat then - y a j else 0)) 0).
Proof. intros Hi Hj Hn. rewrite dot_nodal. apply summ_ext. intros a _. rewrite (plane_sum d (value_at d f a) i j (y a i) (- y a j) Hi Hj Hn). ring. Qed.

(** C106: internal forces of materials whose stress [P] satisfies P F^T = F P^T have no torque about the deformed positions; if P is symmetric they have none about the undeformed ones *)
Theorem C106_torque {Pt Data} (origin : Pt) (default_data : Data) umax sp (table : q_table Pt Data) ls w p x d srt ord (stress : mat -> Data -> mat) vws ws u f X :
  regular_mesh sp table ls w p x d srt ord d -> flat_constants sp ls w p x -> positions sp ls w p x X -> length u = (d * fs_nodes sp)%nat ->
  (assemble_vector Rplus 0 umax vws (elliptic_vec_asm origin default_data umax sp table d (fun G y => elliptic_operator_transpose (fun F => stress F y) G) u ws)).2 = Ok f -> forall i j, (i < d)%nat -> (j < d)%nat ->
  ((forall e ns wt pt y G, ls !! e = Some ns -> In (wt, (pt, y)) (combine (w e) (combine (p e) (x e))) -> interpolation_gradient (fs_element sp e) d (local_values d u ns) pt G ->
      let F := deformation_gradient G in row_product d (stress F y) F i j = row_product d (stress F y) F j i) -> torque d (fs_nodes sp) (fun a c => X a c + value_at d u a c) f i j = 0) /\
  ((forall e ns wt pt y G, ls !! e = Some ns -> In (wt, (pt, y)) (combine (w e) (combine (p e) (x e))) -> interpolation_gradient (fs_element sp e) d (local_values d u ns) pt G ->
      stress (deformation_gradient G) y i j = stress (deformation_gradient G) y j i) -> torque d (fs_nodes sp) X f i j = 0).
Proof.
  intros Hm Hfl HX Hu Ef i j Hi Hj. destruct (Nat.eq_dec i j) as [<-|Hn].
  { split; intros _; unfold torque; apply summ_zero'; intros; ring. }
  assert (Hd : small d) by apply Hm. assert (Hs : (0 < d)%nat) by lia.
  destruct (virtual_work origin default_data umax sp table d ls w p x d srt ord Hs Hm (fun G y => elliptic_operator_transpose (fun F => stress F y) G) vws ws u Hu) as (f' & Ef' & Lf & Hf). rewrite Ef in Ef'. injection Ef' as <-.
  assert (HG : forall e wt pt y, (e < length ls)%nat -> In (wt, (pt, y)) (combine (w e) (combine (p e) (x e))) -> interpolation_gradient (fs_element sp e) d (local_values d u (nth e ls [])) pt (ugrad (fs_element sp e) d (local_values d u (nth e ls [])) pt)).
  { intros e wt pt y He Hin. destruct (mesh_el sp table d ls w p x d srt ord Hm e He) as (_ & Ed & Hreg). apply ugrad_spec; [rewrite Ed; exact Hd|exact (Hreg wt pt y Hin)]. }
  (* the gradient of the rotation of the positions [x] *)
  assert (HV : forall (y : nat -> vec) (D : nat -> Pt -> mat), (forall e wt pt z k c, (e < length ls)%nat -> In (wt, (pt, z)) (combine (w e) (combine (p e) (x e))) -> (k < d)%nat -> (c < d)%nat ->
      summ (length (nth e ls [])) (fun I => grads (fs_element sp e) pt I k * y (nth I (nth e ls []) 0%nat) c) = D e pt c k) ->
    torque d (fs_nodes sp) y f i j = mesh_integral sp (length ls) w p x (fun e pt z =>
      let P := stress (deformation_gradient (ugrad (fs_element sp e) d (local_values d u (nth e ls [])) pt)) z in row_product d P (D e pt) j i - row_product d P (D e pt) i j)).
  { intros y D HD. rewrite (torque_work d (fs_nodes sp) f y i j Hi Hj Hn), Hf. unfold mesh_integral. apply summ_ext. intros e He. apply qsum_ext. intros wt pt z Hin. f_equal. cbv zeta.
    set (P := stress _ z). unfold elliptic_operator_transpose. fold P. rewrite summ_swap. unfold row_product.
    rewrite (summ_ext d (fun k => summ d (fun i0 => P i0 k * _)) (fun k => P j k * D e pt i k + -1 * (P i k * D e pt j k))); [rewrite summ_plus, summ_l; ring|].
    intros k Hk. rewrite (summ_ext d _ (fun c => P c k * (if (c =? j)%nat then D e pt i k else if (c =? i)%nat then - D e pt j k else 0))); [rewrite plane_sum by assumption; ring|].
    intros c Hc. f_equal. rewrite (gradient_nodal sp table d ls w p x d srt ord Hm _ e pt k c He Hk Hc). destruct (Nat.eqb_spec c j); [exact (HD e wt pt z k i He Hin Hk Hi)|]. destruct (Nat.eqb_spec c i).
    - rewrite <- (HD e wt pt z k j He Hin Hk Hj). replace (- summ (length (nth e ls [])) (fun I => grads (fs_element sp e) pt I k * y (nth I (nth e ls []) 0%nat) j)) with (-1 * summ (length (nth e ls [])) (fun I => grads (fs_element sp e) pt I k * y (nth I (nth e ls []) 0%nat) j)) by ring.
      rewrite <- summ_l. apply summ_ext. intros. ring.
    - apply summ_zero'. intros. ring. }
  split.
  - intros Hsym. rewrite (HV _ (fun e pt => deformation_gradient (ugrad (fs_element sp e) d (local_values d u (nth e ls [])) pt))).
    + apply integral_zero. intros e wt pt z He Hin. cbv zeta. rewrite (Hsym e _ wt pt z _ (some_nth ls e [] He) Hin (HG e wt pt z He Hin)). ring.
    + intros e wt pt z k c He Hin Hk Hc. rewrite (summ_ext _ _ (fun I => grads (fs_element sp e) pt I k * X (nth I (nth e ls []) 0%nat) c + grads (fs_element sp e) pt I k * value_at d u (nth I (nth e ls []) 0%nat) c)) by (intros; ring).
      rewrite summ_plus, (position_gradient sp table d ls w p x d srt ord Hs Hm X HX e wt pt z k c (conj He Hin) Hk Hc). unfold deformation_gradient, madd, transpose, eye. f_equal.
      symmetry. exact (gradient_values sp table d ls w p x d srt ord Hs Hm u e pt k c Hu He Hk Hc).
  - intros Hsym. rewrite (HV X (fun _ _ => eye)).
    + apply integral_zero. intros e wt pt z He Hin. cbv zeta. unfold row_product, eye. set (P := stress _ z).
      assert (S : forall a b, (b < d)%nat -> summ d (fun k => P a k * (if (b =? k)%nat then 1 else 0)) = P a b).
      { intros a b Hb. rewrite (summ_ext d _ (fun k => if (k =? b)%nat then P a k else 0)); [apply (summ_delta d b (fun k => P a k) Hb)|]. intros k _. rewrite (Nat.eqb_sym b). destruct (k =? b)%nat; ring. }
      rewrite !S by assumption. unfold P. rewrite (Hsym e _ wt pt z _ (some_nth ls e [] He) Hin (HG e wt pt z He Hin)). ring.
    + intros e wt pt z k c He Hin Hk Hc. exact (position_gradient sp table d ls w p x d srt ord Hs Hm X HX e wt pt z k c (conj He Hin) Hk Hc).
Qed.
Print Assumptions C106_torque.

Lemma stvk_balanced d mu lambda F i j : (i < d)%nat -> (j < d)%nat -> row_product d (stvk_stress d mu lambda F) F i j = row_product d (stvk_stress d mu lambda F) F j i.
Proof.
  intros Hi Hj. unfold row_product, stvk_stress, madd, mscale, mmul. set (E := green_strain d F). assert (HE : forall a b, E a b = E b a).
  { intros a b. unfold E, green_strain, mscale, msub, mmul, transpose, eye. rewrite (Nat.eqb_sym b a). f_equal. f_equal. apply summ_ext. intros. ring. }
  assert (S : forall i j, summ d (fun k => (summ d (fun m => F i m * E m k) * 2 * mu + F i k * lambda * trace d E) * F j k) = 2 * mu * summ d (fun k => summ d (fun m => F i m * E m k * F j k)) + lambda * trace d E * summ d (fun k => F i k * F j k)).
  { intros a b. rewrite <- !summ_l, <- summ_plus. apply summ_ext. intros k _. rewrite (summ_ext d (fun m => F a m * E m k * F b k) (fun m => F b k * (F a m * E m k))) by (intros; ring). rewrite summ_l. ring. }
  rewrite !S. f_equal; [|f_equal; apply summ_ext; intros; ring]. f_equal. rewrite summ_swap. apply summ_ext. intros k _. apply summ_ext. intros m _. rewrite (HE m k). ring.
Qed.
Lemma nh_balanced d mu lambda F i j : physical d -> (i < d)%nat -> (j < d)%nat -> row_product d (nh_P d mu lambda F) F i j = row_product d (nh_P d mu lambda F) F j i.
Proof.
  intros Hd Hi Hj. unfold row_product, nh_P. set (c := (- mu + lambda * ln (determinant d F)) / determinant d F).
  assert (S : forall a b, (a < d)%nat -> (b < d)%nat -> summ d (fun k => (adjugate d F k a / determinant d F * (- mu + lambda * ln (determinant d F)) + F a k * mu) * F b k) = c * (if (b =? a)%nat then determinant d F else 0) + mu * summ d (fun k => F a k * F b k)).
  { intros a b Ha Hb. rewrite <- (adjugate_inverse d F b a Hd Hb Ha), <- !summ_l, <- summ_plus. apply summ_ext. intros k _. unfold c, Rdiv. ring. }
  rewrite !S by assumption. rewrite (Nat.eqb_sym j i). f_equal. f_equal. apply summ_ext. intros. ring.
Qed.
Lemma le_symmetric d mu lambda F i j : le_stress d mu lambda F i j = le_stress d mu lambda F j i.
Proof.
  unfold le_stress. generalize (trace d (infinitesimal_strain F)). intros tr. unfold mscale, infinitesimal_strain, symmetric_part, msub, madd, transpose, eye. rewrite (Nat.eqb_sym j i). destruct (i =? j)%nat; field.
Qed.

(** C106: internal forces of St. Venant-Kirchhoff and of not inverted Neo-Hookean materials have no torque about the deformed positions, those of linear elasticity none about the undeformed ones *)
Theorem C106_materials {Pt} (origin : Pt) params umax sp (table : q_table Pt (R * R)) ls w p x d srt ord vws ws u f X :
  regular_mesh sp table ls w p x d srt ord d -> flat_constants sp ls w p x -> positions sp ls w p x X -> length u = (d * fs_nodes sp)%nat ->
  let assembled (stress : R -> R -> mat -> mat) := (assemble_vector Rplus 0 umax vws (elliptic_vec_asm origin params umax sp table d (fun G y => elliptic_operator_transpose (stress (fst y) (snd y)) G) u ws)).2 in
  let no_torque (x : nat -> vec) := forall i j, (i < d)%nat -> (j < d)%nat -> torque d (fs_nodes sp) x f i j = 0 in
  let deformed := fun a c => X a c + value_at d u a c in
  (assembled (stvk_stress d) = Ok f -> no_torque deformed) /\
  ((forall e ns wt pt y G, ls !! e = Some ns -> In (wt, (pt, y)) (combine (w e) (combine (p e) (x e))) -> interpolation_gradient (fs_element sp e) d (local_values d u ns) pt G -> 0 < determinant d (deformation_gradient G)) ->
    assembled (fun mu lambda F => entries (nh_stress d mu lambda F)) = Ok f -> no_torque deformed) /\
  (assembled (le_stress d) = Ok f -> no_torque X).
Proof.
  intros Hm Hfl HX Hu assembled no_torque deformed. assert (Hd : small d) by apply Hm. split; [|split].
  - intros Ef i j Hi Hj. destruct (C106_torque origin params umax sp table ls w p x d srt ord (fun F y => stvk_stress d (fst y) (snd y) F) vws ws u f X Hm Hfl HX Hu Ef i j Hi Hj) as (H & _). apply H.
    intros. apply stvk_balanced; assumption.
  - intros Hpos Ef i j Hi Hj. destruct (C106_torque origin params umax sp table ls w p x d srt ord (fun F y => entries (nh_stress d (fst y) (snd y) F)) vws ws u f X Hm Hfl HX Hu Ef i j Hi Hj) as (H & _). apply H.
    intros e ns wt pt y G He Hin HG F. unfold F. rewrite nh_stress_ok by exact (Hpos e ns wt pt y G He Hin HG). cbn [entries]. apply nh_balanced; assumption.
  - intros Ef i j Hi Hj. destruct (C106_torque origin params umax sp table ls w p x d srt ord (fun F y => le_stress d (fst y) (snd y) F) vws ws u f X Hm Hfl HX Hu Ef i j Hi Hj) as (_ & H). apply H. intros. apply le_symmetric.
Qed.
Print Assumptions C106_materials.

(** * rigid motions *)
(** [u'] are the displacements after moving the body deformed by [u] with [Q] and [t] *)
Definition moved (d N : nat) (X : nat -> vec) (Q : mat) (t : vec) (u u' : list R) : Prop :=
  length u' = (d * N)%nat /\ forall a c, (a < N)%nat -> (c < d)%nat -> X a c + value_at d u' a c = t c + summ d (fun j => Q c j * (X a j + value_at d u a j)).
Definition agree (d : nat) (A B : mat) : Prop := forall i j, (i < d)%nat -> (j < d)%nat -> A i j = B i j.
Lemma moved_gradient {Pt Data} sp (table : q_table Pt Data) ls w p x d srt ord X Q t u u' : regular_mesh sp table ls w p x d srt ord d -> flat_constants sp ls w p x -> positions sp ls w p x X -> length u = (d * fs_nodes sp)%nat ->
  moved d (fs_nodes sp) X Q t u u' -> forall e wt pt y, (e < length ls)%nat -> In (wt, (pt, y)) (combine (w e) (combine (p e) (x e))) ->
  agree d (deformation_gradient (ugrad (fs_element sp e) d (local_values d u' (nth e ls [])) pt)) (rotated d Q (deformation_gradient (ugrad (fs_element sp e) d (local_values d u (nth e ls [])) pt))).
Proof.
  intros Hm Hfl HX Hu (Hu' & Hmv) e wt pt y He Hin c k Hc Hk. assert (Hs : (0 < d)%nat) by lia. set (ns := nth e ls []). set (g := fun I => grads (fs_element sp e) pt I k).
  assert (HF : forall v b, length v = (d * fs_nodes sp)%nat -> (b < d)%nat -> deformation_gradient (ugrad (fs_element sp e) d (local_values d v ns) pt) b k = summ (length ns) (fun I => g I * (X (nth I ns 0%nat) b + value_at d v (nth I ns 0%nat) b))).
  { intros v b Hv Hb. rewrite (summ_ext _ _ (fun I => g I * X (nth I ns 0%nat) b + g I * value_at d v (nth I ns 0%nat) b)) by (intros; ring).
    rewrite summ_plus. unfold g, ns. rewrite (position_gradient sp table d ls w p x d srt ord Hs Hm X HX e wt pt y k b (conj He Hin) Hk Hb). unfold deformation_gradient, madd, transpose, eye. f_equal.
    exact (gradient_values sp table d ls w p x d srt ord Hs Hm v e pt k b Hv He Hk Hb). }
  rewrite (HF u' c Hu' Hc). unfold rotated. rewrite (summ_ext d _ (fun j => summ (length ns) (fun I => g I * (Q c j * (X (nth I ns 0%nat) j + value_at d u (nth I ns 0%nat) j))))) by (intros j Hj; rewrite (HF u j Hu Hj), <- summ_l; apply summ_ext; intros; ring).
  rewrite summ_swap. rewrite (summ_ext (length ns) _ (fun I => t c * g I + summ d (fun j => g I * (Q c j * (X (nth I ns 0%nat) j + value_at d u (nth I ns 0%nat) j))))).
  - rewrite summ_plus, summ_l. unfold g, ns. rewrite (constant_gradient sp table d ls w p x d srt ord Hs Hm Hfl e wt pt y k (conj He Hin) Hk). ring.
  - intros I HI. rewrite Hmv; [|apply (mesh_node_in sp table d ls w p x d srt ord Hm e I He HI)|exact Hc]. rewrite summ_l. ring.
Qed.
Lemma green_agree d F F' : agree d F F' -> agree d (green_strain d F) (green_strain d F').
Proof. intros H i j Hi Hj. unfold green_strain, mscale, msub, mmul, transpose. f_equal. f_equal. apply summ_ext. intros k Hk. rewrite (H k i Hk Hi), (H k j Hk Hj). reflexivity. Qed.
Lemma mdot_agree d A B : agree d A B -> mdot d A A = mdot d B B.
Proof. intros H. unfold mdot. apply summ_ext. intros j Hj. apply summ_ext. intros i Hi. rewrite (H i j Hi Hj). reflexivity. Qed.
Lemma trace_agree d A B : agree d A B -> trace d A = trace d B.
Proof. intros H. unfold trace. apply summ_ext. intros i Hi. apply H; assumption. Qed.
Lemma det_agree d A B : physical d -> agree d A B -> determinant d A = determinant d B.
Proof. intros [-> | [-> | ->]] H; unfold determinant; rewrite !H by lia; reflexivity. Qed.
Lemma adj_agree d A B : physical d -> agree d A B -> agree d (adjugate d A) (adjugate d B).
Proof. intros [-> | [-> | ->]] H i j Hi Hj; destruct i as [|[|[|i]]]; try lia; destruct j as [|[|[|j]]]; try lia; cbn; rewrite ?H by lia; reflexivity. Qed.
Lemma stvk_energy_agree d mu lambda F F' : agree d F F' -> stvk_energy d mu lambda F = stvk_energy d mu lambda F'.
Proof. intros H. unfold stvk_energy. apply green_agree in H. cbv zeta. rewrite (mdot_agree d _ _ H), (trace_agree d _ _ H). reflexivity. Qed.
Lemma stvk_stress_agree d mu lambda F F' : agree d F F' -> agree d (stvk_stress d mu lambda F) (stvk_stress d mu lambda F').
Proof.
  intros H i j Hi Hj. pose proof (green_agree d F F' H) as HE. unfold stvk_stress, madd, mscale, mmul. cbv zeta. rewrite (trace_agree d _ _ HE), (H i j Hi Hj). f_equal. f_equal. f_equal. apply summ_ext. intros k Hk. rewrite (H i k Hi Hk), (HE k j Hk Hj). reflexivity.
Qed.
Lemma nh_du_F d mu lambda G : nh_energy_du d mu lambda G = nh_energy d mu lambda (deformation_gradient G).
Proof.
  unfold nh_energy. f_equal. apply FunctionalExtensionality.functional_extensionality. intros i. apply FunctionalExtensionality.functional_extensionality. intros j. unfold u_grad_from_F, transpose, msub, deformation_gradient, madd, transpose. ring.
Qed.
Lemma nh_energy_agree d mu lambda F F' : d = 2%nat \/ d = 3%nat -> agree d F F' -> nh_energy d mu lambda F = nh_energy d mu lambda F'.
Proof. intros Hd H. rewrite !nh_energy_ok by exact Hd. rewrite !nh_formula_alt by exact Hd. rewrite (det_agree d F F'), (mdot_agree d F F') by (first [exact H | unfold physical; tauto]). reflexivity. Qed.
Lemma nh_stress_agree d mu lambda F F' : physical d -> agree d F F' -> agree d (entries (nh_stress d mu lambda F)) (entries (nh_stress d mu lambda F')).
Proof.
  intros Hd H i j Hi Hj. pose proof (det_agree d F F' Hd H) as ED. destruct (Rlt_dec 0 (determinant d F)) as [P|P].
  - rewrite !nh_stress_ok by (rewrite <- ?ED; exact P). cbn [entries]. unfold nh_P. rewrite ED, (H i j Hi Hj), (adj_agree d F F' Hd H j i Hj Hi). reflexivity.
  - unfold nh_stress. rewrite <- ED. destruct (Rle_dec (determinant d F) 0); [reflexivity|lra].
Qed.

(** C106: assembled energies of St. Venant-Kirchhoff and Neo-Hookean materials are the same after a rigid motion (for the first one also after a reflection), and the forces move along *)
Theorem C106_rigid_motion {Pt} (origin : Pt) params umax sp (table : q_table Pt (R * R)) ls w p x d srt ord X Q t u u' ws ws' vws vws' :
  regular_mesh sp table ls w p x d srt ord d -> flat_constants sp ls w p x -> positions sp ls w p x X -> length u = (d * fs_nodes sp)%nat -> moved d (fs_nodes sp) X Q t u u' ->
  let energy (g : mat -> R * R -> R) ws u := assemble_scalar Rplus 0 (fs_elems sp) (fun e => elliptic_scalar origin params umax sp table d g u (ws e) e) in
  let forces (stress : R -> R -> mat -> mat) vws ws u := (assemble_vector Rplus 0 umax vws (elliptic_vec_asm origin params umax sp table d (fun G y => elliptic_operator_transpose (stress (fst y) (snd y)) G) u ws)).2 in
  let invariant g stress := (exists E, energy g ws u = Ok E /\ energy g ws' u' = Ok E) /\ exists f f', forces stress vws ws u = Ok f /\ forces stress vws' ws' u' = Ok f' /\
    forall a c, (a < fs_nodes sp)%nat -> (c < d)%nat -> value_at d f' a c = summ d (fun j => Q c j * value_at d f a j) in
  (orthogonal d Q -> invariant (fun G y => operator_energy (stvk_energy d (fst y) (snd y)) G) (stvk_stress d)) /\
  (rotation d Q -> d = 2%nat \/ d = 3%nat -> invariant (fun G y => value (nh_energy_du d (fst y) (snd y) G)) (fun mu lambda F => entries (nh_stress d mu lambda F))).
Proof.
  intros Hm Hfl HX Hu Hmv energy forces invariant. assert (Hd : small d) by apply Hm. assert (Hs : (0 < d)%nat) by (destruct Hd as [-> | [-> | ->]]; lia). assert (Hu' := proj1 Hmv).
  set (F := fun u e pt => deformation_gradient (ugrad (fs_element sp e) d (local_values d u (nth e ls [])) pt)).
  assert (HI : forall g stress, (forall e wt pt y, (e < length ls)%nat -> In (wt, (pt, y)) (combine (w e) (combine (p e) (x e))) ->
      g (ugrad (fs_element sp e) d (local_values d u' (nth e ls [])) pt) y = g (ugrad (fs_element sp e) d (local_values d u (nth e ls [])) pt) y /\
      agree d (stress (fst y) (snd y) (F u' e pt)) (rotated d Q (stress (fst y) (snd y) (F u e pt)))) -> invariant g stress).
  { intros g stress H. split.
    - eexists. split; [apply (energy_assembled origin params umax sp table d ls w p x d srt ord g (fun _ _ _ _ => 0) (fun _ _ _ _ _ _ _ _ => None) Hs Hm ws u Hu)|].
      unfold energy. rewrite (energy_assembled origin params umax sp table d ls w p x d srt ord g (fun _ _ _ _ => 0) (fun _ _ _ _ _ _ _ _ => None) Hs Hm ws' u' Hu'). f_equal. unfold mesh_integral. apply summ_ext. intros e He. apply qsum_ext. intros wt pt y Hin.
      f_equal. apply (H e wt pt y He Hin).
    - set (op := fun (G : mat) (y : R * R) => elliptic_operator_transpose (stress (fst y) (snd y)) G).
      destruct (virtual_work origin params umax sp table d ls w p x d srt ord Hs Hm op vws ws u Hu) as (f & Ef & Lf & Hf). destruct (virtual_work origin params umax sp table d ls w p x d srt ord Hs Hm op vws' ws' u' Hu') as (f' & Ef' & Lf' & Hf').
      exists f, f'. split; [exact Ef|]. split; [exact Ef'|]. intros a c Ha Hc.
      set (N := fs_nodes sp) in *. set (v' := nodal d N (fun b i => if ((b =? a) && (i =? c))%nat then 1 else 0)). set (v := nodal d N (fun b j => if (b =? a)%nat then Q c j else 0)).
      assert (E1 : summ (d * N) (fun k => nth k f' 0 * nth k v' 0) = value_at d f' a c).
      { unfold v'. rewrite dot_nodal. rewrite (summ_ext N _ (fun b => if (b =? a)%nat then value_at d f' b c else 0)); [apply (summ_delta N a (fun b => value_at d f' b c) Ha)|].
        intros b _. destruct (b =? a)%nat; cbn [andb]; [|apply summ_zero'; intros; ring]. rewrite (summ_ext d _ (fun i => if (i =? c)%nat then value_at d f' b i else 0)) by (intros i _; destruct (i =? c)%nat; ring). apply (summ_delta d c (fun i => value_at d f' b i) Hc). }
      assert (E2 : summ (d * N) (fun k => nth k f 0 * nth k v 0) = summ d (fun j => Q c j * value_at d f a j)).
      { unfold v. rewrite dot_nodal. rewrite (summ_ext N _ (fun b => if (b =? a)%nat then summ d (fun j => Q c j * value_at d f b j) else 0)); [apply (summ_delta N a (fun b => summ d (fun j => Q c j * value_at d f b j)) Ha)|].
        intros b _. destruct (b =? a)%nat; [apply summ_ext; intros; ring|apply summ_zero'; intros; ring]. }
      rewrite <- E1, <- E2, Hf, Hf'. unfold mesh_integral. apply summ_ext. intros e He. apply qsum_ext. intros wt pt y Hin. f_equal. destruct (H e wt pt y He Hin) as (_ & HP). unfold op, elliptic_operator_transpose. fold (F u' e pt) (F u e pt).
      set (P' := stress _ _ (F u' e pt)) in *. set (P := stress _ _ (F u e pt)) in *. set (h := fun k => summ (length (nth e ls [])) (fun I => grads (fs_element sp e) pt I k * (if (nth I (nth e ls []) 0 =? a)%nat then 1 else 0))).
      transitivity (summ d (fun k => P' c k * h k)).
      + rewrite summ_swap. apply summ_ext. intros k Hk. rewrite (summ_ext d _ (fun i => if (i =? c)%nat then P' i k * h k else 0)); [apply (summ_delta d c (fun i => P' i k * h k) Hc)|]. intros i Hi.
        unfold v'. fold N. rewrite (gradient_nodal sp table d ls w p x d srt ord Hm _ e pt k i He Hk Hi). unfold h. destruct (i =? c)%nat; [f_equal; apply summ_ext; intros; rewrite andb_true_r; reflexivity|]. rewrite summ_zero'; [ring|]. intros. rewrite andb_false_r. ring.
      + rewrite summ_swap. apply summ_ext. intros k Hk. rewrite (HP c k Hc Hk). unfold rotated. rewrite Rmult_comm, <- summ_l. apply summ_ext. intros j Hj. unfold v. fold N. rewrite (gradient_nodal sp table d ls w p x d srt ord Hm _ e pt k j He Hk Hj).
        unfold h. rewrite (summ_ext _ (fun I => grads (fs_element sp e) pt I k * (if (nth I (nth e ls []) 0 =? a)%nat then Q c j else 0)) (fun I => Q c j * (grads (fs_element sp e) pt I k * (if (nth I (nth e ls []) 0 =? a)%nat then 1 else 0)))) by (intros I _; destruct (_ =? _)%nat; ring).
        rewrite summ_l. ring. }
  split.
  - intros HQ. apply HI. intros e wt pt y He Hin. pose proof (moved_gradient sp table ls w p x d srt ord X Q t u u' Hm Hfl HX Hu Hmv e wt pt y He Hin) as HF. fold (F u' e pt) (F u e pt) in HF.
    destruct (C75_objective_stvk d (fst y) (snd y) Q (F u e pt) HQ) as (O1 & O2). split.
    + unfold operator_energy. fold (F u' e pt) (F u e pt). rewrite (stvk_energy_agree d _ _ _ _ HF). exact O1.
    + intros i j Hi Hj. rewrite (stvk_stress_agree d _ _ _ _ HF i j Hi Hj). apply O2.
  - intros HQ H23. apply HI. intros e wt pt y He Hin. pose proof (moved_gradient sp table ls w p x d srt ord X Q t u u' Hm Hfl HX Hu Hmv e wt pt y He Hin) as HF. fold (F u' e pt) (F u e pt) in HF.
    destruct (C75_objective_nh d (fst y) (snd y) Q (F u e pt) HQ) as (O1 & O2). split.
    + rewrite !nh_du_F. fold (F u' e pt) (F u e pt). rewrite (nh_energy_agree d _ _ _ _ H23 HF), (O1 H23). reflexivity.
    + intros i j Hi Hj. rewrite (nh_stress_agree d _ _ _ _ Hd HF i j Hi Hj). specialize (O2 Hd). destruct (nh_stress d (fst y) (snd y) (F u e pt)), (nh_stress d (fst y) (snd y) (rotated d Q (F u e pt))); try contradiction; cbn [entries]; [apply O2; assumption|].
      unfold rotated. rewrite summ_zero'; [reflexivity|]. intros. ring.
Qed.
Print Assumptions C106_rigid_motion.

(** * stiffness matrices of linear elasticity *)
(** translations and linearised rotations *)
Definition rigid_displacement (d N : nat) (X : nat -> vec) (v : list R) : Prop :=
  length v = (d * N)%nat /\ exists t W, (forall i j, (i < d)%nat -> (j < d)%nat -> W i j = - W j i) /\ forall a c, (a < N)%nat -> (c < d)%nat -> value_at d v a c = t c + summ d (fun j => W c j * X a j).
(** the strains at all quadrature points are zero *)
Definition strain_free {Pt Data} (sp : fe_space Pt) (ls : list (list nat)) (w : nat -> list R) (p : nat -> list Pt) (x : nat -> list Data) (d : nat) (v : list R) : Prop :=
  forall e ns wt pt y G, ls !! e = Some ns -> In (wt, (pt, y)) (combine (w e) (combine (p e) (x e))) -> interpolation_gradient (fs_element sp e) d (local_values d v ns) pt G -> forall i j, (i < d)%nat -> (j < d)%nat -> strain G i j = 0.
Lemma rigid_strain_free {Pt Data} sp (table : q_table Pt Data) ls w p x d srt ord X v : regular_mesh sp table ls w p x d srt ord d -> flat_constants sp ls w p x -> positions sp ls w p x X -> rigid_displacement d (fs_nodes sp) X v -> strain_free sp ls w p x d v.
Proof.
  intros Hm Hfl HX (Hv & t & W & HW & Hval) e ns wt pt y G He Hin HG i j Hi Hj. assert (Hs : (0 < d)%nat) by lia. pose proof (lookup_lt_Some _ _ _ He) as Hl. pose proof (nth_some _ _ [] _ He) as En.
  destruct (mesh_el sp table d ls w p x d srt ord Hm e Hl) as (Ed0 & Ed & Hreg).
  assert (EG : G = ugrad (fs_element sp e) d (local_values d v (nth e ls [])) pt).
  { apply ugrad_unique; [rewrite Ed; apply Hm|exact (Hreg wt pt y Hin)|rewrite En; exact HG]. }
  assert (HF : forall k c, (k < d)%nat -> (c < d)%nat -> G k c = W c k).
  { intros k c Hk Hc. rewrite EG. rewrite (gradient_values sp table d ls w p x d srt ord Hs Hm v e pt k c Hv Hl Hk Hc).
    rewrite (summ_ext _ _ (fun I => t c * grads (fs_element sp e) pt I k + summ d (fun b => W c b * (grads (fs_element sp e) pt I k * X (nth I (nth e ls []) 0%nat) b)))).
    - rewrite summ_plus, summ_l, (constant_gradient sp table d ls w p x d srt ord Hs Hm Hfl e wt pt y k (conj Hl Hin) Hk), summ_swap.
      rewrite (summ_ext d _ (fun b => if (b =? k)%nat then W c b else 0)); [rewrite (summ_delta d k (fun b => W c b) Hk); ring|]. intros b Hb.
      rewrite summ_l, (position_gradient sp table d ls w p x d srt ord Hs Hm X HX e wt pt y k b (conj Hl Hin) Hk Hb). destruct (b =? k)%nat; ring.
    - intros I HI. rewrite Hval; [|apply (mesh_node_in sp table d ls w p x d srt ord Hm e I Hl HI)|exact Hc]. rewrite Rmult_plus_distr_l, <- summ_l. f_equal; [ring|]. apply summ_ext. intros. ring. }
  unfold strain. rewrite (HF i j Hi Hj), (HF j i Hj Hi), (HW i j Hi Hj). field.
Qed.

(** C106: the assembled matrix of linear elasticity is symmetric and is the bilinear form of the strains; with nonnegative weights and stable parameters it is positive semidefinite. Rigid displacements are in its kernel;
    with positive weights and stable parameters the kernel is exactly the displacements without strain. *)
Theorem C106_elastic_matrix {Pt} (origin : Pt) params umax sp (table : q_table Pt (R * R)) ls w p x d srt ord u0 cws ws :
  regular_mesh sp table ls w p x d srt ord d -> length u0 = (d * fs_nodes sp)%nat ->
  exists m A, (assemble_csr Rplus 0 srt ord umax cws (elliptic_mat_asm origin params umax sp table d true
      (fun (G : mat) y nrows ncols out alpha a b => batch_contraction d nrows ncols out alpha a b (operator_contract (le_contraction d (fst y) (snd y)) G)) u0 ws)).2 = Ok m /\ csr_wf m /\ pt_nrows (cs_pat m) = (d * fs_nodes sp)%nat /\
  entries_of (d * fs_nodes sp) m A /\ (forall r c, (r < d * fs_nodes sp)%nat -> (c < d * fs_nodes sp)%nat -> A r c = A c r) /\
  (forall v v' G H, length v = (d * fs_nodes sp)%nat -> length v' = (d * fs_nodes sp)%nat -> gradients_of sp ls w p x d v G -> gradients_of sp ls w p x d v' H ->
    form (d * fs_nodes sp) A v v' = mesh_integral sp (length ls) w p x (fun e pt y => strain_product d (fst y) (snd y) (G e pt) (H e pt))) /\
  ((forall e wt, (e < length ls)%nat -> In wt (w e) -> 0 <= wt) -> (forall e y, (e < length ls)%nat -> In y (x e) -> stable d y) -> forall v, length v = (d * fs_nodes sp)%nat -> 0 <= form (d * fs_nodes sp) A v v) /\
  (forall v, length v = (d * fs_nodes sp)%nat -> strain_free sp ls w p x d v -> forall r, (r < d * fs_nodes sp)%nat -> summ (d * fs_nodes sp) (fun c => A r c * nth c v 0) = 0) /\
  ((forall e wt, (e < length ls)%nat -> In wt (w e) -> 0 < wt) -> (forall e y, (e < length ls)%nat -> In y (x e) -> stable d y) -> forall v, length v = (d * fs_nodes sp)%nat ->
    (forall r, (r < d * fs_nodes sp)%nat -> summ (d * fs_nodes sp) (fun c => A r c * nth c v 0) = 0) -> strain_free sp ls w p x d v) /\
  (forall X v, flat_constants sp ls w p x -> positions sp ls w p x X -> rigid_displacement d (fs_nodes sp) X v -> forall r, (r < d * fs_nodes sp)%nat -> summ (d * fs_nodes sp) (fun c => A r c * nth c v 0) = 0).
Proof.
  intros Hm Hu0. assert (Hd : small d) by apply Hm. assert (Hs : (0 < d)%nat) by (destruct Hd as [-> | [-> | ->]]; lia). set (n := (d * fs_nodes sp)%nat) in *.
  set (en := fun (G : mat) (y : R * R) => operator_energy (le_energy d (fst y) (snd y)) G).
  set (E := fun u => mesh_integral sp (length ls) w p x (fun e pt y => en (ugrad (fs_element sp e) d (local_values d u (nth e ls [])) pt) y)).
  destruct (quadratic_matrix n (fun ws u => assemble_scalar Rplus 0 (fs_elems sp) (fun e => elliptic_scalar origin params umax sp table d en u (ws e) e)) _ _ E
    (fun u Hu => proj1 (C78_polynomial_materials origin params umax sp table ls w p x d srt ord u Hm Hu))
    (fun ws u Hu => energy_assembled origin params umax sp table d ls w p x d srt ord en (fun _ _ _ _ => 0) (fun _ _ _ _ _ _ _ _ => None) Hs Hm ws u Hu)
    (energy_quadratic sp table d ls w p x d srt ord en Hs Hm (fun e wt pt y _ G H => le_quadratic_ex d (fst y) (snd y) G H)) cws ws u0 Hu0) as (m & Em & Hw & Hr & A & HA & Hsym & Hform).
  exists m, A. split; [exact Em|]. split; [exact Hw|]. split; [exact Hr|]. split; [exact HA|]. split; [exact Hsym|].
  assert (HB : forall v v' G H, length v = n -> length v' = n -> gradients_of sp ls w p x d v G -> gradients_of sp ls w p x d v' H -> form n A v v' = mesh_integral sp (length ls) w p x (fun e pt y => strain_product d (fst y) (snd y) (G e pt) (H e pt))).
  { intros v v' G H Hv Hv' HG HH. rewrite (Hform v v' Hv Hv'). apply (polar_energy sp table ls w p x d srt ord d en (fun G H y => strain_product d (fst y) (snd y) G H) v v' G H Hm); [congruence|exact HG|exact HH|].
    intros. unfold en. rewrite le_quadratic. ring. }
  set (Gr := fun v e pt => ugrad (fs_element sp e) d (local_values d v (nth e ls [])) pt).
  assert (HGr : forall v, gradients_of sp ls w p x d v (Gr v)).
  { intros v e ns wt pt y He Hin. pose proof (lookup_lt_Some _ _ _ He) as Hl. unfold Gr. rewrite (nth_some _ _ [] _ He). destruct (mesh_el sp table d ls w p x d srt ord Hm e Hl) as (_ & Ed & Hreg).
    apply ugrad_spec; [rewrite Ed; exact Hd|exact (Hreg wt pt y Hin)]. }
  assert (Hst : forall e wt pt y, In (wt, (pt, y)) (combine (w e) (combine (p e) (x e))) -> In wt (w e) /\ In y (x e)).
  { intros e wt pt y Hin. split; [exact (in_combine_l _ _ _ _ Hin)|]. apply in_combine_r in Hin. exact (in_combine_r _ _ _ _ Hin). }
  assert (HK : forall v, length v = n -> strain_free sp ls w p x d v -> forall r, (r < n)%nat -> summ n (fun c => A r c * nth c v 0) = 0).
  { intros v Hv Hz r Hr'. transitivity (form n A (unit_vector n r) v).
    - unfold form. symmetry. rewrite (summ_ext n _ (fun k => if (k =? r)%nat then summ n (fun c => A k c * nth c v 0) else 0)); [apply (summ_delta n r (fun k => summ n (fun c => A k c * nth c v 0)) Hr')|].
      intros k Hk. rewrite nth_unit, (proj2 (Nat.ltb_lt k n) Hk), andb_true_r. destruct (k =? r)%nat; [apply summ_ext; intros; ring|apply summ_zero'; intros; ring].
    - rewrite (HB _ v (Gr (unit_vector n r)) (Gr v)); [|apply length_unit|exact Hv|apply HGr|apply HGr]. apply integral_zero. intros e wt pt y He Hin.
      assert (Z : forall i j, (i < d)%nat -> (j < d)%nat -> strain (Gr v e pt) i j = 0) by (intros i j; apply (Hz e _ wt pt y _ (some_nth ls e [] He) Hin); apply (HGr v e _ wt pt y (some_nth ls e [] He) Hin)).
      unfold strain_product, mdot, trace. rewrite (summ_zero' d (fun j => summ d _)), (summ_zero' d (fun i => strain (Gr v e pt) i i)); [ring|intros i Hi; apply Z; exact Hi|].
      intros j Hj. apply summ_zero'. intros i Hi. rewrite Z by assumption. ring. }
  assert (HP : forall v, length v = n -> form n A v v = mesh_integral sp (length ls) w p x (fun e pt y => 2 * en (Gr v e pt) y)).
  { intros v Hv. rewrite (HB v v (Gr v) (Gr v) Hv Hv (HGr v) (HGr v)). unfold mesh_integral. apply summ_ext. intros e He. apply qsum_ext. intros wt pt y Hin. unfold en. rewrite le_value. f_equal. field. }
  split; [exact HB|]. split; [|split; [exact HK|split]].
  - intros Hw0 Hy v Hv. rewrite (HP v Hv). unfold mesh_integral. apply summ_nonneg. intros e He. apply qsum_nonneg. intros wt pt y Hin. destruct (Hst e wt pt y Hin) as (I1 & I2).
    apply Rmult_le_pos; [apply Rmult_le_pos; [apply (Hw0 e wt He I1)|apply Rabs_pos]|]. pose proof (le_nonneg d y (Gr v e pt) Hd (Hy e y He I2)). unfold en. lra.
  - intros Hw0 Hy v Hv Hker e ns wt pt y G He Hin HG. pose proof (lookup_lt_Some _ _ _ He) as Hl. destruct (mesh_el sp table d ls w p x d srt ord Hm e Hl) as (_ & Ed & Hreg).
    assert (EG : G = Gr v e pt). { unfold Gr. apply ugrad_unique; [rewrite Ed; exact Hd|exact (Hreg wt pt y Hin)|rewrite (nth_some _ _ [] _ He); exact HG]. }
    assert (F0 : form n A v v = 0). { unfold form. apply summ_zero'. intros r Hr'. rewrite (summ_ext n _ (fun c => nth r v 0 * (A r c * nth c v 0))) by (intros; ring). rewrite summ_l, (Hker r Hr'). ring. }
    rewrite (HP v Hv) in F0. unfold mesh_integral in F0.
    assert (Hq : forall e wt pt y, (e < length ls)%nat -> In (wt, (pt, y)) (combine (w e) (combine (p e) (x e))) -> 0 <= wt * Rabs (determinant (el_dim (fs_element sp e)) (el_jacobian (fs_element sp e) pt)) * (2 * en (Gr v e pt) y)).
    { intros e1 wt1 pt1 y1 He1 Hin1. destruct (Hst e1 wt1 pt1 y1 Hin1) as (I1 & I2). apply Rmult_le_pos; [apply Rmult_le_pos; [left; apply (Hw0 e1 wt1 He1 I1)|apply Rabs_pos]|]. pose proof (le_nonneg d y1 (Gr v e1 pt1) Hd (Hy e1 y1 He1 I2)). unfold en. lra. }
    pose proof (summ_nonneg_zero (length ls) _ (fun e He => qsum_nonneg _ _ (fun wt pt y Hin => Hq e wt pt y He Hin)) F0 e Hl) as Z1. cbv beta in Z1.
    pose proof (qsum_nonneg_zero _ _ (fun wt pt y Hin => Hq e wt pt y Hl Hin) Z1 wt pt y Hin) as Z2. cbv beta in Z2. destruct (Hst e wt pt y Hin) as (I1 & I2).
    assert (Hen : en (Gr v e pt) y = 0). { apply Rmult_integral in Z2 as [Z2|Z2]; [|lra]. apply Rmult_integral in Z2 as [Z2|Z2]; [specialize (Hw0 e wt Hl I1); lra|]. exfalso. revert Z2. apply Rabs_no_R0. exact (Hreg wt pt y Hin). }
    rewrite EG. apply (le_zero d y _ Hd (Hy e y Hl I2) Hen).
  - intros X v Hfl HX Hrig r Hr'. apply HK; [exact (proj1 Hrig)|apply (rigid_strain_free sp table ls w p x d srt ord X v Hm Hfl HX Hrig)|exact Hr'].
Qed.
Print Assumptions C106_elastic_matrix.

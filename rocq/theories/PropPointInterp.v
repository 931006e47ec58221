(** C89: interpolation of finite element functions at arbitrary points. *)
From stdpp Require Import base list list_numbers.
From Coq Require Import Reals Lia Lra FunctionalExtensionality.
From Verif Require Import Prelude NestedVecModel ParadisModel VectorModel VectorSpec ParadisSpec ColoringProofs PropVector MaterialModel EllipticModel PropMaterial PropObjective PropElliptic PropEllipticOps.
From Verif Require Import TableModel GlobalModel PropGlobal IntegrateModel PropIntegrate PointInterpModel InterpModel InterpSpec PropInterp.
Local Open Scope R_scope.
Local Notation vec := (nat -> R).
Local Notation mat := (nat -> nat -> R).

(** * specification *)
(** component [c] of the finite element function with nodal values [u] at reference coordinates [xi] of the element [el] with nodes [ns] *)
Definition field_at {Pt} (el : element Pt) (ns : list nat) (s : nat) (u : list R) (xi : Pt) (c : nat) : R :=
  summ (length ns) (fun I => el_basis el xi I * nth (s * nth I ns 0%nat + c) u 0).
(** its gradient [G], row [k] the derivative in direction [k]: by the chain rule the transposed Jacobian maps it to the gradient in reference coordinates *)
Definition gradient_at {Pt} (el : element Pt) (ns : list nat) (d s : nat) (u : list R) (xi : Pt) (G : mat) : Prop :=
  forall i c, (i < d)%nat -> (c < s)%nat -> summ d (fun k => el_jacobian el xi k i * G k c) = summ (length ns) (fun I => el_gradients el xi I i * nth (s * nth I ns 0%nat + c) u 0).
(** the nodal values of all nodes exist *)
Definition has_values (s : nat) (u : list R) (ns : list nat) : Prop := List.Forall (fun k => (s * k + s <= length u)%nat) ns.

(** * the loop *)
Section loop.
Context {P Pt A : Type} (find : P -> option (option (nat * Pt))) (step : ibuffer -> nat -> Pt -> option (A * ibuffer)) (zero : A).
Context (ok : nat -> Pt -> Prop) (value : nat -> Pt -> A).
Definition result_of (p : P) : A := match find p with Some (Some (e, xi)) => value e xi | _ => zero end.
Definition answered (p : P) : Prop := match find p with None => False | Some None => True | Some (Some (e, xi)) => ok e xi end.
Lemma loop_result points : (forall p e xi buf, p ∈ points -> find p = Some (Some (e, xi)) -> ok e xi -> exists buf', step buf e xi = Some (value e xi, buf')) -> (forall p, p ∈ points -> answered p) ->
  forall results buf, length points = length results -> points_loop find step zero points results buf = Some (map result_of points).
Proof.
  intros Hs. induction points as [|p points IH]; intros Ha [|r results] buf Hl; try discriminate; [reflexivity|]. cbn [points_loop map]. pose proof (Ha p ltac:(left)) as Hp. unfold answered in Hp. unfold result_of at 1.
  destruct (find p) as [[(e & xi)|]|] eqn:E; [| |contradiction].
  - destruct (Hs p e xi buf ltac:(left) E Hp) as (buf' & ->). rewrite IH; [reflexivity| | |now injection Hl].
    + intros q e' xi' b Hq. apply (Hs q). right. exact Hq.
    + intros q Hq. apply Ha. right. exact Hq.
  - rewrite IH; [reflexivity| | |now injection Hl].
    + intros q e' xi' b Hq. apply (Hs q). right. exact Hq.
    + intros q Hq. apply Ha. right. exact Hq.
Qed.
Lemma loop_refuses points : (forall p e xi buf a buf', p ∈ points -> find p = Some (Some (e, xi)) -> step buf e xi = Some (a, buf') -> ok e xi) ->
  forall results buf rs, length points = length results -> points_loop find step zero points results buf = Some rs -> forall p, p ∈ points -> answered p.
Proof.
  intros Hs. induction points as [|q points IH]; intros [|r results] buf rs Hl H p Hp; try discriminate; [by apply elem_of_nil in Hp|]. cbn [points_loop] in H.
  assert (T : forall buf rs, points_loop find step zero points results buf = Some rs -> forall p, p ∈ points -> answered p).
  { intros b l. apply IH; [|now injection Hl]. intros q' e xi b' a b'' Hq. apply (Hs q'). right. exact Hq. }
  apply elem_of_cons in Hp. unfold answered. destruct (find q) as [[(e & xi)|]|] eqn:E; [| |discriminate].
  - destruct (step buf e xi) as [(a & buf')|] eqn:Es; [|discriminate]. destruct (points_loop _ _ _ _ _ buf') as [l|] eqn:El; [|discriminate].
    destruct Hp as [->|Hp]; [rewrite E; exact (Hs q e xi buf a buf' ltac:(left) E Es)|exact (T _ _ El p Hp)].
  - destruct (points_loop _ _ _ _ _ buf) as [l|] eqn:El; [|discriminate]. destruct Hp as [->|Hp]; [rewrite E; exact I|exact (T _ _ El p Hp)].
Qed.
End loop.

Section points.
Context {P Pt : Type} (origin : Pt) (umax : nat) (sp : fe_space Pt) (find : P -> option (option (nat * Pt))) (s : nat) (ls : list (list nat)).
Hypothesis Hc : has_conn (fs_conn sp s) ls.
(** the search finds elements of the space *)
Hypothesis Hf : forall p e xi, find p = Some (Some (e, xi)) -> (e < length ls)%nat.
Let nodes e := nth e ls [].
Let el e := fs_element sp e.

Lemma nodes_read e buf : (e < length ls)%nat -> fs_count sp e = length (nodes e) /\ fs_populate sp e (vec_resize buf (length (nodes e)) umax) = nodes e.
Proof.
  intros He. assert (Hl : ls !! e = Some (nodes e)) by (apply some_nth, He). destruct Hc as (_ & Hc'). destruct (Hc' e _ Hl) as (C1 & C2). cbn [ca_count ca_populate fs_conn] in C1, C2.
  split; [exact C1|]. apply C2, vec_resize_length.
Qed.
Lemma prepare_ok buf e u : (e < length ls)%nat -> has_values s u (nodes e) ->
  prepare_element_in_space origin umax sp buf e u s = Some (IBuffer (nodes e) (length (nodes e)) (ib_values buf) (ib_gradients buf) (local_values s u (nodes e)), origin, e).
Proof.
  intros He Hu. unfold prepare_element_in_space. destruct (nodes_read e (ib_nodes buf) He) as (-> & ->). rewrite gather_local; [reflexivity|apply vec_resize_length|exact Hu].
Qed.
Lemma prepare_refuses buf e u r : (e < length ls)%nat -> prepare_element_in_space origin umax sp buf e u s = Some r -> has_values s u (nodes e).
Proof.
  intros He. unfold prepare_element_in_space. destruct (nodes_read e (ib_nodes buf) He) as (-> & ->). pose proof (C21_gather_copies R s u (vec_resize (ib_u buf) (s * length (nodes e)) 0) (nodes e)) as H.
  destruct (gather_global_to_local _ _ _ _) as [loc|[]|]; [|discriminate]. intros _. destruct H as (_ & _ & H). apply Forall_forall. intros k Hk.
  destruct (decide (s = 0%nat)) as [->|Hs]; [lia|]. apply elem_of_list_lookup in Hk as (il & Hil). destruct (H il k (s - 1)%nat Hil ltac:(lia)) as (Hb & _). lia.
Qed.

Definition value_at_point (u : list R) (e : nat) (xi : Pt) : vec := fun c => if (c <? s)%nat then field_at (el e) (nodes e) s u xi c else 0.
Lemma local_interpolation u e (basis : nat -> R) : compute_interpolation s (length (nodes e)) (local_values s u (nodes e)) basis =
  Some (fun c => if (c <? s)%nat then summ (length (nodes e)) (fun I => basis I * nth (s * nth I (nodes e) 0%nat + c) u 0) else 0).
Proof.
  unfold compute_interpolation. rewrite length_local, Nat.eqb_refl. f_equal. apply functional_extensionality. intros c. destruct (Nat.ltb_spec c s) as [Hs|]; [|reflexivity].
  rewrite fold_add, Rplus_0_l. apply summ_ext. intros I HI. rewrite nth_local by assumption. ring.
Qed.
Lemma local_gradient d u e (G : nat -> vec) : compute_interpolation_gradient d s (length (nodes e)) (local_values s u (nodes e)) G =
  Some (within d s (fun i c => summ (length (nodes e)) (fun I => G I i * nth (s * nth I (nodes e) 0%nat + c) u 0))).
Proof.
  unfold compute_interpolation_gradient. rewrite length_local, Nat.eqb_refl. f_equal. apply functional_extensionality. intros i. apply functional_extensionality. intros c. unfold within.
  destruct (Nat.ltb_spec i d) as [Hi|]; [|reflexivity]. destruct (Nat.ltb_spec c s) as [Hs|]; [|reflexivity]. cbn [andb]. rewrite fold_outer. unfold zeros. rewrite Rplus_0_l.
  apply summ_ext. intros I HI. rewrite nth_local by assumption. reflexivity.
Qed.

(** C89: values. The code answers exactly if the buffers have equal lengths, the search does not panic and the nodal values exist; the answer for a point is the finite element function at the
    reference coordinates found for it, and zero if there is no element, whatever the workspace and the buffer contained *)
Theorem C89_values points u results buf :
  ((exists rs, interpolate_at_points origin umax sp find s points u results buf = Some rs) <->
    length points = length results /\ forall p, p ∈ points -> exists c, find p = Some c /\ forall e xi, c = Some (e, xi) -> has_values s u (nodes e)) /\
  forall rs, interpolate_at_points origin umax sp find s points u results buf = Some rs -> Forall2 (fun p r =>
    (find p = Some None -> forall c, (c < s)%nat -> r c = 0) /\
    (forall e xi, find p = Some (Some (e, xi)) -> forall c, (c < s)%nat -> r c = field_at (el e) (nodes e) s u xi c)) points rs.
Proof.
  unfold interpolate_at_points. set (step := fun b e xi => _).
  assert (Good : forall p e xi b, p ∈ points -> find p = Some (Some (e, xi)) -> has_values s u (nodes e) -> exists b', step b e xi = Some (value_at_point u e xi, b')).
  { intros p e xi b _ Hp Hu. unfold step. rewrite (prepare_ok b e u (Hf p e xi Hp) Hu). cbn [update_reference_point buffer_interpolate ib_count ib_u ib_values option_map]. rewrite local_interpolation. eexists. reflexivity. }
  assert (Bad : forall p e xi b a b', p ∈ points -> find p = Some (Some (e, xi)) -> step b e xi = Some (a, b') -> has_values s u (nodes e)).
  { intros p e xi b a b' _ Hp. unfold step. destruct (prepare_element_in_space _ _ _ _ _ _ _) as [r|] eqn:E; [|discriminate]. intros _. exact (prepare_refuses _ _ _ _ (Hf p e xi Hp) E). }
  assert (A : (forall p, p ∈ points -> exists c, find p = Some c /\ forall e xi, c = Some (e, xi) -> has_values s u (nodes e)) <-> forall p, p ∈ points -> answered find (fun e _ => has_values s u (nodes e)) p).
  { split; intros H p Hp; specialize (H p Hp); unfold answered in *.
    - destruct H as (c & -> & H). destruct c as [(e & xi)|]; [exact (H e xi eq_refl)|exact I].
    - destruct (find p) as [c|]; [|contradiction]. exists c. split; [reflexivity|]. intros e xi ->. exact H. }
  split; [split|].
  - intros (rs & H). destruct (Nat.eqb_spec (length points) (length results)) as [Hl|]; [|discriminate]. split; [exact Hl|]. apply A. exact (loop_refuses find step _ _ points Bad results buf rs Hl H).
  - intros (Hl & H). rewrite Hl, Nat.eqb_refl. rewrite (loop_result find step (fun _ => 0) _ _ points Good (proj1 A H) results buf Hl). eexists. reflexivity.
  - intros rs H. destruct (Nat.eqb_spec (length points) (length results)) as [Hl|]; [|discriminate]. pose proof (loop_refuses find step _ _ points Bad results buf rs Hl H) as Ha.
    rewrite (loop_result find step (fun _ => 0) _ _ points Good Ha results buf Hl) in H. injection H as <-. apply Forall2_fmap_r. apply Forall_Forall2_diag. apply Forall_forall. intros p Hp. unfold result_of. split.
    + intros ->. reflexivity.
    + intros e xi -> c Hs. unfold value_at_point. rewrite (proj2 (Nat.ltb_lt c s) Hs). reflexivity.
Qed.

Definition gradient_at_point (d : nat) (u : list R) (e : nat) (xi : Pt) : mat :=
  within d s (fun i c => summ d (fun m => adjugate d (el_jacobian (el e) xi) m i / determinant d (el_jacobian (el e) xi) *
    summ (length (nodes e)) (fun I => el_gradients (el e) xi I m * nth (s * nth I (nodes e) 0%nat + c) u 0))).
Lemma gradient_at_point_spec d u e xi : small d -> determinant d (el_jacobian (el e) xi) <> 0 -> gradient_at (el e) (nodes e) d s u xi (gradient_at_point d u e xi).
Proof.
  intros Hd Hj i c Hi Hs. set (J := el_jacobian (el e) xi) in *. set (r := fun m => summ (length (nodes e)) (fun I => el_gradients (el e) xi I m * nth (s * nth I (nodes e) 0%nat + c) u 0)).
  transitivity (summ d (fun k => summ d (fun m => r m / determinant d J * (adjugate d J m k * J k i)))).
  { apply summ_ext. intros k Hk. unfold gradient_at_point, within. rewrite (proj2 (Nat.ltb_lt k d) Hk), (proj2 (Nat.ltb_lt c s) Hs). cbn [andb]. fold J. rewrite <- summ_l. apply summ_ext. intros m _. fold (r m). field. exact Hj. }
  rewrite summ_swap. transitivity (summ d (fun m => if (m =? i)%nat then r m else 0)); [|apply (summ_delta d i r), Hi].
  apply summ_ext. intros m Hm. rewrite summ_l, adjugate_left by assumption. destruct (m =? i)%nat; [field; exact Hj|ring].
Qed.

(** C89: gradients. The code answers exactly if moreover the Jacobian at every reference point found is regular; the answer is the physical gradient *)
Theorem C89_gradients d points u results buf : small d ->
  ((exists rs, interpolate_gradient_at_points origin umax sp find d s points u results buf = Some rs) <->
    length points = length results /\ forall p, p ∈ points -> exists c, find p = Some c /\ forall e xi, c = Some (e, xi) -> has_values s u (nodes e) /\ determinant d (el_jacobian (el e) xi) <> 0) /\
  forall rs, interpolate_gradient_at_points origin umax sp find d s points u results buf = Some rs -> Forall2 (fun p G =>
    (find p = Some None -> forall k c, (k < d)%nat -> (c < s)%nat -> G k c = 0) /\
    (forall e xi, find p = Some (Some (e, xi)) -> gradient_at (el e) (nodes e) d s u xi G)) points rs.
Proof.
  intros Hd. unfold interpolate_gradient_at_points. set (step := fun b e xi => _). set (ok := fun e xi => has_values s u (nodes e) /\ determinant d (el_jacobian (el e) xi) <> 0).
  assert (Good : forall p e xi b, p ∈ points -> find p = Some (Some (e, xi)) -> ok e xi -> exists b', step b e xi = Some (gradient_at_point d u e xi, b')).
  { intros p e xi b _ Hp (Hu & Hj). unfold step. rewrite (prepare_ok b e u (Hf p e xi Hp) Hu). cbn [update_reference_point interpolate_ref_gradient element_reference_jacobian ib_count ib_u ib_gradients]. rewrite local_gradient.
    unfold try_inverse. fold (el e). destruct (Req_EM_T _ 0) as [E|_]; [contradiction|]. eexists. f_equal. f_equal. unfold gradient_at_point. apply functional_extensionality. intros i. apply functional_extensionality. intros c.
    unfold within at 1 3. destruct (Nat.ltb_spec i d) as [Hi|]; [|reflexivity]. destruct (Nat.ltb_spec c s) as [Hs|]; [|reflexivity]. cbn [andb]. unfold mmul, transpose. apply summ_ext. intros m Hm. unfold within.
    rewrite (proj2 (Nat.ltb_lt m d) Hm), (proj2 (Nat.ltb_lt c s) Hs). cbn [andb]. reflexivity. }
  assert (Bad : forall p e xi b a b', p ∈ points -> find p = Some (Some (e, xi)) -> step b e xi = Some (a, b') -> ok e xi).
  { intros p e xi b a b' _ Hp. unfold step. destruct (prepare_element_in_space _ _ _ _ _ _ _) as [r|] eqn:E; [|discriminate]. pose proof (prepare_refuses _ _ _ _ (Hf p e xi Hp) E) as Hu.
    rewrite (prepare_ok b e u (Hf p e xi Hp) Hu) in E. injection E as <-. cbn [update_reference_point interpolate_ref_gradient element_reference_jacobian ib_count ib_u ib_gradients]. rewrite local_gradient.
    unfold try_inverse. destruct (Req_EM_T _ 0) as [E|Hj]; [discriminate|]. intros _. split; [exact Hu|exact Hj]. }
  assert (A : (forall p, p ∈ points -> exists c, find p = Some c /\ forall e xi, c = Some (e, xi) -> ok e xi) <-> forall p, p ∈ points -> answered find ok p).
  { split; intros H p Hp; specialize (H p Hp); unfold answered in *.
    - destruct H as (c & -> & H). destruct c as [(e & xi)|]; [exact (H e xi eq_refl)|exact I].
    - destruct (find p) as [c|]; [|contradiction]. exists c. split; [reflexivity|]. intros e xi ->. exact H. }
  split; [split|].
  - intros (rs & H). destruct (Nat.eqb_spec (length points) (length results)) as [Hl|]; [|discriminate]. split; [exact Hl|]. apply A. exact (loop_refuses find step _ _ points Bad results buf rs Hl H).
  - intros (Hl & H). rewrite Hl, Nat.eqb_refl. rewrite (loop_result find step zeros _ _ points Good (proj1 A H) results buf Hl). eexists. reflexivity.
  - intros rs H. destruct (Nat.eqb_spec (length points) (length results)) as [Hl|]; [|discriminate]. pose proof (loop_refuses find step _ _ points Bad results buf rs Hl H) as Ha.
    rewrite (loop_result find step zeros _ _ points Good Ha results buf Hl) in H. injection H as <-. apply Forall2_fmap_r. apply Forall_Forall2_diag. apply Forall_forall. intros p Hp. specialize (Ha p Hp). unfold answered in Ha. unfold result_of. split.
    + intros ->. reflexivity.
    + intros e xi E. rewrite E in *. destruct Ha as (_ & Hj). apply gradient_at_point_spec; assumption.
Qed.
(** the answers do not depend on the other points, on the buffers or on the workspace *)
Lemma values_exact points u results buf rs : interpolate_at_points origin umax sp find s points u results buf = Some rs -> rs = map (result_of find (fun _ => 0) (value_at_point u)) points.
Proof.
  intros H. destruct (proj1 (proj1 (C89_values points u results buf)) (ex_intro _ rs H)) as (Hl & Ha). unfold interpolate_at_points in H. rewrite Hl, Nat.eqb_refl in H.
  match type of H with points_loop _ ?st _ _ _ _ = _ => rewrite (loop_result find st (fun _ => 0) (fun e _ => has_values s u (nodes e)) (value_at_point u) points) in H end; [congruence| | |exact Hl].
  - intros p e xi b _ Hp Hu. rewrite (prepare_ok b e u (Hf p e xi Hp) Hu). cbn [update_reference_point buffer_interpolate ib_count ib_u ib_values option_map]. rewrite local_interpolation. eexists. reflexivity.
  - intros p Hp. destruct (Ha p Hp) as (c & E & H'). unfold answered. rewrite E. destruct c as [(e & xi)|]; [exact (H' e xi eq_refl)|exact I].
Qed.
Lemma gradients_exact d points u results buf rs : small d -> interpolate_gradient_at_points origin umax sp find d s points u results buf = Some rs -> rs = map (result_of find zeros (gradient_at_point d u)) points.
Proof.
  intros Hd H. destruct (proj1 (proj1 (C89_gradients d points u results buf Hd)) (ex_intro _ rs H)) as (Hl & Ha). unfold interpolate_gradient_at_points in H. rewrite Hl, Nat.eqb_refl in H.
  match type of H with points_loop _ ?st _ _ _ _ = _ => rewrite (loop_result find st zeros (fun e xi => has_values s u (nodes e) /\ determinant d (el_jacobian (el e) xi) <> 0) (gradient_at_point d u) points) in H end; [congruence| | |exact Hl].
  - intros p e xi b _ Hp (Hu & Hj). rewrite (prepare_ok b e u (Hf p e xi Hp) Hu). cbn [update_reference_point interpolate_ref_gradient element_reference_jacobian ib_count ib_u ib_gradients]. rewrite local_gradient.
    unfold try_inverse. fold (el e). destruct (Req_EM_T _ 0) as [E|_]; [contradiction|]. eexists. f_equal. f_equal. unfold gradient_at_point. apply functional_extensionality. intros i. apply functional_extensionality. intros c.
    unfold within at 1 3. destruct (Nat.ltb_spec i d) as [Hi|]; [|reflexivity]. destruct (Nat.ltb_spec c s) as [Hs|]; [|reflexivity]. cbn [andb]. unfold mmul, transpose. apply summ_ext. intros m Hm. unfold within.
    rewrite (proj2 (Nat.ltb_lt m d) Hm), (proj2 (Nat.ltb_lt c s) Hs). cbn [andb]. reflexivity.
  - intros p Hp. destruct (Ha p Hp) as (c & E & H'). unfold answered. rewrite E. destruct c as [(e & xi)|]; [exact (H' e xi eq_refl)|exact I].
Qed.
(** C89: one point at a time or all at once is the same, with whatever workspaces *)
Theorem C89_pointwise points u rs buf buf' : interpolate_all origin umax sp find s points u buf = Some rs -> forall i p, points !! i = Some p -> exists r, rs !! i = Some r /\ interpolate_at_point origin umax sp find s p u buf' = Some r.
Proof.
  intros H i p Hp. unfold interpolate_all in H. pose proof (values_exact _ _ _ _ _ H) as ->. exists (result_of find (fun _ => 0) (value_at_point u) p). split; [rewrite list_lookup_fmap, Hp; reflexivity|].
  destruct (proj1 (proj1 (C89_values _ _ _ _)) (ex_intro _ _ H)) as (_ & Ha). unfold interpolate_at_point.
  destruct (proj2 (proj1 (C89_values [p] u [fun _ => 0] buf'))) as (r & E).
  - split; [reflexivity|]. intros q Hq. apply elem_of_list_singleton in Hq as ->. apply Ha. exact (elem_of_list_lookup_2 _ _ _ Hp).
  - rewrite E. rewrite (values_exact _ _ _ _ _ E). reflexivity.
Qed.
Theorem C89_pointwise_gradient d points u rs buf buf' : small d -> interpolate_gradient_all origin umax sp find d s points u buf = Some rs -> forall i p, points !! i = Some p ->
  exists r, rs !! i = Some r /\ interpolate_gradient_at_point origin umax sp find d s p u buf' = Some r.
Proof.
  intros Hd H i p Hp. unfold interpolate_gradient_all in H. pose proof (gradients_exact _ _ _ _ _ _ Hd H) as ->. exists (result_of find zeros (gradient_at_point d u) p). split; [rewrite list_lookup_fmap, Hp; reflexivity|].
  destruct (proj1 (proj1 (C89_gradients _ _ _ _ _ Hd)) (ex_intro _ _ H)) as (_ & Ha). unfold interpolate_gradient_at_point.
  destruct (proj2 (proj1 (C89_gradients d [p] u [zeros] buf' Hd))) as (r & E).
  - split; [reflexivity|]. intros q Hq. apply elem_of_list_singleton in Hq as ->. apply Ha. exact (elem_of_list_lookup_2 _ _ _ Hp).
  - rewrite E. rewrite (gradients_exact _ _ _ _ _ _ Hd E). reflexivity.
Qed.

(** C89: the interpolator that is built once for fixed points (C35) gives the same values and gradients *)
Definition fixed_space (d : nat) : space P Pt := Space (fun p => match find p with Some c => c | None => None end) nodes
  (fun e xi I => el_basis (el e) xi I) (fun e xi I j => el_gradients (el e) xi I j) (fun e xi => option_map transpose (try_inverse d (el_jacobian (el e) xi))).
Lemma rsum_seq (f : nat -> R) n : rsum f (seq 0 n) = summ n f.
Proof.
  unfold rsum. assert (G : forall k x, foldr (fun a acc => f a + acc) x (seq k n) = summ n (fun i => f (k + i)%nat) + x).
  { induction n as [|n IH]; intros k x; cbn [seq foldr summ]; [ring|]. rewrite (IH (S k)). rewrite <- (Rplus_assoc (f k)). f_equal. clear. induction n as [|n IH]; cbn [summ]; [rewrite Nat.add_0_r; ring|].
    rewrite <- Rplus_assoc, IH. do 2 f_equal. lia. }
  rewrite (G 0%nat 0). rewrite Rplus_0_r. reflexivity.
Qed.
Lemma rsum_imap {A B} (g : nat -> A -> B) (f : B -> R) (l : list A) (a : A) : rsum f (imap g l) = summ (length l) (fun i => f (g i (nth i l a))).
Proof.
  rewrite <- rsum_seq. assert (E : imap g l = map (fun i => g i (nth i l a)) (seq 0 (length l))).
  { apply imap_seq. intros i x Hx. f_equal. symmetry. apply nth_some. exact Hx. }
  rewrite E. unfold rsum. generalize (seq 0 (length l)). intros q. induction q as [|i q IH]; cbn; [reflexivity|]. rewrite IH. reflexivity.
Qed.
Theorem C89_fixed d points u rs Gs buf buf' : small d -> (0 < s)%nat -> (forall p, p ∈ points -> find p <> Some None) ->
  interpolate_all origin umax sp find s points u buf = Some rs -> interpolate_gradient_all origin umax sp find d s points u buf' = Some Gs ->
  exists it, from_space (fixed_space d) d points true true = Ok it /\ interpolate it s u = Ok (map (fun r => map r (seq 0 s)) rs) /\
    interpolate_gradients it d s u = Ok (map (fun G => map (fun i => map (G i) (seq 0 s)) (seq 0 d)) Gs).
Proof.
  intros Hd Hs Hn HV HG. destruct (proj1 (proj1 (C89_gradients _ _ _ _ _ Hd)) (ex_intro _ _ HG)) as (_ & Ha). rewrite (values_exact _ _ _ _ _ HV), (gradients_exact _ _ _ _ _ _ Hd HG). clear HV HG.
  set (terms := fun p => match find p with Some (Some (e, xi)) => element_terms (fixed_space d) d (transpose (fun i j => adjugate d (el_jacobian (el e) xi) i j / determinant d (el_jacobian (el e) xi))) e xi | _ => [] end).
  assert (HF : Forall2 (point_terms (fixed_space d) d) points (map terms points)).
  { apply Forall2_fmap_r, Forall_Forall2_diag, Forall_forall. intros p Hp. destruct (Ha p Hp) as (c & E & H). destruct c as [(e & xi)|]; [|destruct (Hn p Hp E)].
    destruct (H e xi eq_refl) as (_ & Hj). unfold point_terms, terms. eexists e, xi, _. cbn [fixed_space sp_find sp_jinv_t]. rewrite E. split; [reflexivity|]. split; [|reflexivity].
    unfold try_inverse. destruct (Req_EM_T _ 0); [contradiction|]. reflexivity. }
  destruct (C35_from_space P Pt (fixed_space d) d s points (map terms points) u Hs HF) as (it & E1 & E2 & E3).
  { apply Forall_forall. intros t Ht. apply elem_of_list_In, in_concat in Ht as (l & Hl & Ht). apply in_map_iff in Hl as (p & <- & Hp). apply elem_of_list_In in Hp. unfold terms in Ht.
    destruct (Ha p Hp) as (c & E & H). rewrite E in Ht. destruct c as [(e & xi)|]; [|destruct Ht]. destruct (H e xi eq_refl) as (Hv & _). apply elem_of_list_In, elem_of_lookup_imap in Ht as (I & k & -> & Hk). cbn [tm_node].
    unfold has_values in Hv. rewrite List.Forall_forall in Hv. specialize (Hv k). cbn [fixed_space sp_nodes] in Hk. apply elem_of_list_lookup_2, elem_of_list_In in Hk. specialize (Hv Hk). lia. }
  exists it. split; [exact E1|]. rewrite E2, E3. rewrite !map_map. split; f_equal; apply map_ext_in; intros p Hp; apply elem_of_list_In in Hp; destruct (Ha p Hp) as (c & E & H); unfold terms, result_of; rewrite E; (destruct c as [(e & xi)|]; [|destruct (Hn p Hp E)]); destruct (H e xi eq_refl) as (_ & Hj).
  - apply map_ext_in. intros c Hc'. apply in_seq in Hc'. unfold value_at, element_terms. rewrite (rsum_imap _ _ _ 0%nat). unfold value_at_point. rewrite (proj2 (Nat.ltb_lt c s)) by lia. unfold field_at. cbn [fixed_space sp_nodes sp_basis tm_value tm_node]. reflexivity.
  - apply map_ext_in. intros i Hi. apply in_seq in Hi. apply map_ext_in. intros c Hc'. apply in_seq in Hc'. unfold deriv_at, element_terms. rewrite (rsum_imap _ _ _ 0%nat). unfold gradient_at_point, within.
    rewrite (proj2 (Nat.ltb_lt i d)) by lia. rewrite (proj2 (Nat.ltb_lt c s)) by lia. cbn [andb fixed_space sp_nodes sp_basis sp_ref_grad tm_value tm_node tm_grad].
    transitivity (summ (length (nodes e)) (fun I => summ d (fun m => adjugate d (el_jacobian (el e) xi) m i / determinant d (el_jacobian (el e) xi) * el_gradients (el e) xi I m) * nth (s * nth I (nodes e) 0%nat + c) u 0)).
    + apply summ_ext. intros I HI. unfold comp. f_equal. apply nth_some. rewrite list_lookup_fmap, lookup_seq_lt by lia. cbn [fmap option_fmap option_map Nat.add]. f_equal. rewrite rsum_seq. reflexivity.
    + transitivity (summ (length (nodes e)) (fun I => summ d (fun m => adjugate d (el_jacobian (el e) xi) m i / determinant d (el_jacobian (el e) xi) * (el_gradients (el e) xi I m * nth (s * nth I (nodes e) 0%nat + c) u 0)))).
      * apply summ_ext. intros I HI. rewrite <- summ_r. apply summ_ext. intros. ring.
      * rewrite summ_swap. apply summ_ext. intros m Hm. rewrite summ_l. reflexivity.
Qed.
End points.
Print Assumptions C89_pointwise.
Print Assumptions C89_pointwise_gradient.
Print Assumptions C89_fixed.
Print Assumptions C89_values.
Print Assumptions C89_gradients.

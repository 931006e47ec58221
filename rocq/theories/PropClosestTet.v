(** * C87: closest points of tetrahedra *)
From Coq Require Import Reals List Bool Arith Lra Lia Psatz.
From Verif Require Import CgModel CgSpec CgProofs AabbModel AabbSpec GeomModel MeshModel MaterialModel ElementModel ClosestModel ClosestSpec ClosestProofs PropClosest.
Import ListNotations.
Local Open Scope R_scope.

Definition tw4 (xi : vec) (i : nat) : R := nth i (tet4_basis xi) 0.
Lemma tet_map_mean (vs : list vec) xi k : length vs = 4%nat -> el_map tet4 vs xi k = mean (tw4 xi) vs k.
Proof.
  destruct vs as [|a [|b [|c [|d [|]]]]]; try discriminate. intros _. unfold mean, tw4. cbn [length total nth]. cbn [el_map tet4]. unfold isoparametric_map, tet4_basis. cbn [ElementModel.combine nth]. ring.
Qed.
Lemma tw4_total xi : total 4 (tw4 xi) = 1.
Proof. unfold tw4. cbn [total]. unfold tet4_basis. cbn [nth]. field. Qed.
Lemma tet_ref_mean xi : veq 3 xi (mean (tw4 xi) (map pt tet4_ref)).
Proof. intros [|[|[|k]]] Hk; [| | |lia]; unfold mean, tw4; cbn [map length tet4_ref total nth]; unfold pt, tet4_basis; cbn [nth]; field. Qed.
Lemma tet_affine (vs : list vec) xi k : length vs = 4%nat -> let J := el_jacobian tet4 vs origin k in
  el_map tet4 vs xi k = el_map tet4 vs origin k + (J 0%nat * xi 0%nat + J 1%nat * xi 1%nat + J 2%nat * xi 2%nat).
Proof.
  destruct vs as [|a [|b [|c [|d [|]]]]]; try discriminate. intros _. cbn [el_map el_jacobian tet4]. unfold isoparametric_map, isoparametric_jacobian, tet4_basis, tet4_grads, origin.
  cbn [map ElementModel.combine nth]. field.
Qed.
Definition tdir4 (u v z : R) (i : nat) : R := nth i [- (u + v + z) / 2; u / 2; v / 2; z / 2] 0.
Lemma tdir4_mean (vs : list vec) u v z k : length vs = 4%nat -> let J := el_jacobian tet4 vs origin k in mean (tdir4 u v z) vs k = J 0%nat * u + J 1%nat * v + J 2%nat * z.
Proof.
  destruct vs as [|a [|b [|c [|d [|]]]]]; try discriminate. intros _. unfold mean, tdir4. cbn [length total nth]. cbn [el_jacobian tet4]. unfold isoparametric_jacobian, tet4_grads, origin.
  cbn [map ElementModel.combine nth]. field.
Qed.
Lemma tet_flat (vs : list vec) x u v z : length vs = 4%nat -> (u <> 0 \/ v <> 0 \/ z <> 0) ->
  (forall k, (k < 3)%nat -> let J := el_jacobian tet4 vs origin k in J 0%nat * u + J 1%nat * v + J 2%nat * z = 0) -> hull 0 3 vs x -> hull_boundary 3 vs x.
Proof.
  intros L N Z. apply leave_flat with (d := tdir4 u v z); rewrite ?L.
  - unfold tdir4. cbn [total nth]. field.
  - intros k Hk. rewrite tdir4_mean by exact L. apply Z. exact Hk.
  - destruct N as [N|[N|N]]; [exists 1%nat|exists 2%nat|exists 3%nat]; (split; [lia|]); unfold tdir4; cbn [nth]; lra.
Qed.

(** a singular matrix annihilates a vector: a row of cofactors or, if they all vanish, a vector normal to a row *)
Lemma kernel3 (M : nat -> nat -> R) : determinant 3 M = 0 -> exists u v z, (u <> 0 \/ v <> 0 \/ z <> 0) /\ forall i, (i < 3)%nat -> M i 0%nat * u + M i 1%nat * v + M i 2%nat * z = 0.
Proof.
  unfold determinant. intros Z.
  set (a0 := M 0%nat 0%nat) in *. set (b0 := M 0%nat 1%nat) in *. set (c0 := M 0%nat 2%nat) in *.
  set (a1 := M 1%nat 0%nat) in *. set (b1 := M 1%nat 1%nat) in *. set (c1 := M 1%nat 2%nat) in *.
  set (a2 := M 2%nat 0%nat) in *. set (b2 := M 2%nat 1%nat) in *. set (c2 := M 2%nat 2%nat) in *.
  assert (Rows : forall u v z, a0 * u + b0 * v + c0 * z = 0 -> a1 * u + b1 * v + c1 * z = 0 -> a2 * u + b2 * v + c2 * z = 0 ->
    forall i, (i < 3)%nat -> M i 0%nat * u + M i 1%nat * v + M i 2%nat * z = 0).
  { intros u v z H0 H1 H2 [|[|[|i]]] Hi; [exact H0|exact H1|exact H2|lia]. }
  (* the three vector products of rows *)
  assert (Cross : forall p q r s t w, p = b0 * c1 - c0 * b1 -> q = c0 * a1 - a0 * c1 -> r = a0 * b1 - b0 * a1 -> s = b0 * c2 - c0 * b2 -> t = c0 * a2 - a0 * c2 -> w = a0 * b2 - b0 * a2 ->
    forall g h k, g = b1 * c2 - c1 * b2 -> h = c1 * a2 - a1 * c2 -> k = a1 * b2 - b1 * a2 ->
    (exists u v z, (u <> 0 \/ v <> 0 \/ z <> 0) /\ a0 * u + b0 * v + c0 * z = 0 /\ a1 * u + b1 * v + c1 * z = 0 /\ a2 * u + b2 * v + c2 * z = 0)).
  { intros p q r s t w -> -> -> -> -> -> g h k -> -> ->.
    destruct (Req_EM_T (b0 * c1 - c0 * b1) 0) as [P|P]; [|exists (b0 * c1 - c0 * b1), (c0 * a1 - a0 * c1), (a0 * b1 - b0 * a1); repeat split; [auto|ring|ring|lra]].
    destruct (Req_EM_T (c0 * a1 - a0 * c1) 0) as [Q|Q]; [|exists (b0 * c1 - c0 * b1), (c0 * a1 - a0 * c1), (a0 * b1 - b0 * a1); repeat split; [auto|ring|ring|lra]].
    destruct (Req_EM_T (a0 * b1 - b0 * a1) 0) as [R1|R1]; [|exists (b0 * c1 - c0 * b1), (c0 * a1 - a0 * c1), (a0 * b1 - b0 * a1); repeat split; [auto|ring|ring|lra]].
    destruct (Req_EM_T (b0 * c2 - c0 * b2) 0) as [S|S]; [|exists (b0 * c2 - c0 * b2), (c0 * a2 - a0 * c2), (a0 * b2 - b0 * a2); repeat split; [auto|ring|lra|ring]].
    destruct (Req_EM_T (c0 * a2 - a0 * c2) 0) as [T|T]; [|exists (b0 * c2 - c0 * b2), (c0 * a2 - a0 * c2), (a0 * b2 - b0 * a2); repeat split; [auto|ring|lra|ring]].
    destruct (Req_EM_T (a0 * b2 - b0 * a2) 0) as [W|W]; [|exists (b0 * c2 - c0 * b2), (c0 * a2 - a0 * c2), (a0 * b2 - b0 * a2); repeat split; [auto|ring|lra|ring]].
    destruct (Req_EM_T (b1 * c2 - c1 * b2) 0) as [G|G]; [|exists (b1 * c2 - c1 * b2), (c1 * a2 - a1 * c2), (a1 * b2 - b1 * a2); repeat split; [auto|lra|ring|ring]].
    destruct (Req_EM_T (c1 * a2 - a1 * c2) 0) as [H|H]; [|exists (b1 * c2 - c1 * b2), (c1 * a2 - a1 * c2), (a1 * b2 - b1 * a2); repeat split; [auto|lra|ring|ring]].
    destruct (Req_EM_T (a1 * b2 - b1 * a2) 0) as [K|K]; [|exists (b1 * c2 - c1 * b2), (c1 * a2 - a1 * c2), (a1 * b2 - b1 * a2); repeat split; [auto|lra|ring|ring]].
    (* all minors vanish *)
    destruct (Req_EM_T a0 0) as [A0|A0]; [|exists b0, (- a0), 0; repeat split; [right; left; lra|ring|lra|lra]].
    destruct (Req_EM_T b0 0) as [B0|B0]; [|exists b0, (- a0), 0; repeat split; [left; lra|ring|lra|lra]].
    destruct (Req_EM_T a1 0) as [A1|A1]; [|exists b1, (- a1), 0; repeat split; [right; left; lra|lra|ring|lra]].
    destruct (Req_EM_T b1 0) as [B1|B1]; [|exists b1, (- a1), 0; repeat split; [left; lra|lra|ring|lra]].
    destruct (Req_EM_T a2 0) as [A2|A2]; [|exists b2, (- a2), 0; repeat split; [right; left; lra|lra|lra|ring]].
    exists 1, 0, 0. repeat split; [left; lra| | |]; rewrite ?A0, ?A1, ?A2; ring. }
  destruct (Cross _ _ _ _ _ _ eq_refl eq_refl eq_refl eq_refl eq_refl eq_refl _ _ _ eq_refl eq_refl eq_refl) as (u & v & z & N & H0 & H1 & H2).
  exists u, v, z. split; [exact N|]. now apply Rows.
Qed.

Lemma tet_likely epsilon xi : is_likely_in_tet_ref_interior epsilon xi = true -> weighting (2 * epsilon) 4 (tw4 xi).
Proof.
  unfold is_likely_in_tet_ref_interior. intros [[[H1 H2]%andb_prop H3]%andb_prop H4]%andb_prop.
  destruct (rleb_spec (-1 - 4 * epsilon) (xi 0%nat)); [|discriminate]. destruct (rleb_spec (-1 - 4 * epsilon) (xi 1%nat)); [|discriminate].
  destruct (rleb_spec (-1 - 4 * epsilon) (xi 2%nat)); [|discriminate]. destruct (rleb_spec (xi 0%nat + xi 1%nat + xi 2%nat) (-1 + 4 * epsilon)); [|discriminate].
  split; [|apply tw4_total]. intros [|[|[|[|i]]]] Hi; [| | | |lia]; unfold tw4, tet4_basis; cbn [nth]; lra.
Qed.
Lemma tet_unlikely epsilon xi : 0 <= epsilon -> is_likely_in_tet_ref_interior epsilon xi = false -> exists i, (i < 4)%nat /\ tw4 xi i < 0.
Proof.
  intros He. unfold is_likely_in_tet_ref_interior. destruct (rleb_spec (-1 - 4 * epsilon) (xi 0%nat)).
  - destruct (rleb_spec (-1 - 4 * epsilon) (xi 1%nat)).
    + destruct (rleb_spec (-1 - 4 * epsilon) (xi 2%nat)).
      * destruct (rleb_spec (xi 0%nat + xi 1%nat + xi 2%nat) (-1 + 4 * epsilon)); [discriminate|]. intros _. exists 0%nat. split; [lia|]. unfold tw4, tet4_basis; cbn [nth]. lra.
      * intros _. exists 3%nat. split; [lia|]. unfold tw4, tet4_basis; cbn [nth]. lra.
    + intros _. exists 2%nat. split; [lia|]. unfold tw4, tet4_basis; cbn [nth]. lra.
  - intros _. exists 1%nat. split; [lia|]. unfold tw4, tet4_basis; cbn [nth]. lra.
Qed.

(** ** faces *)
(** the weights of a face as weights of the tetrahedron *)
Definition widen (f : nat) (w : nat -> R) (i : nat) : R :=
  let '(w0, w1, w2) := (w 0%nat, w 1%nat, w 2%nat) in
  nth i (match f with 0%nat => [w0; w2; w1; 0] | 1%nat => [w0; w1; 0; w2] | 2%nat => [0; w0; w1; w2] | _ => [w0; 0; w2; w1] end) 0.
Definition missing (f : nat) : nat := match f with 0 => 3 | 1 => 2 | 2 => 0 | _ => 1 end%nat.
Lemma widen_weighting delta f w : 0 <= delta -> weighting delta 3 w -> weighting delta 4 (widen f w) /\ widen f w (missing f) = 0.
Proof.
  intros Hd [W T]. cbn [total] in T. pose proof (W 0%nat ltac:(lia)). pose proof (W 1%nat ltac:(lia)). pose proof (W 2%nat ltac:(lia)).
  split; [split|]; [| |destruct f as [|[|[|f]]]; reflexivity].
  - intros [|[|[|[|i]]]] Hi; try lia; unfold widen; destruct f as [|[|[|f]]]; cbn [nth]; lra.
  - cbn [total]. unfold widen. destruct f as [|[|[|f]]]; cbn [nth]; lra.
Qed.
Lemma face_mean (vs : list vec) f : length vs = 4%nat -> (f < 4)%nat -> exists a b c, face_vertices vs f = Some (a, b, c) /\ forall w k, mean w [a; b; c] k = mean (widen f w) vs k.
Proof.
  destruct vs as [|v0 [|v1 [|v2 [|v3 [|]]]]]; try discriminate. intros _ Hf.
  destruct f as [|[|[|[|f]]]]; [| | | |lia]; (do 3 eexists; split; [reflexivity|]; intros w k; unfold mean, widen; cbn [length total nth]; ring).
Qed.
Lemma boundary_face (vs : list vec) y : length vs = 4%nat -> hull_boundary 3 vs y -> exists f a b c, (f < 4)%nat /\ face_vertices vs f = Some (a, b, c) /\ hull 0 3 [a; b; c] y.
Proof.
  destruct vs as [|v0 [|v1 [|v2 [|v3 [|]]]]]; try discriminate. intros _ (w & j & [W T] & Hj & Z & Y). cbn [length total] in *.
  pose proof (W 0%nat ltac:(lia)). pose proof (W 1%nat ltac:(lia)). pose proof (W 2%nat ltac:(lia)). pose proof (W 3%nat ltac:(lia)).
  destruct j as [|[|[|[|j]]]]; [| | | |lia].
  - exists 2%nat. do 3 eexists. split; [lia|]. split; [reflexivity|]. exists (fun i => nth i [w 1%nat; w 2%nat; w 3%nat] 0). split; [split|].
    + intros [|[|[|i]]] Hi; cbn in *; try lia; lra.
    + cbn; lra.
    + intros k Hk. rewrite (Y k Hk). unfold mean. cbn [length total nth]. rewrite Z. ring.
  - exists 3%nat. do 3 eexists. split; [lia|]. split; [reflexivity|]. exists (fun i => nth i [w 0%nat; w 3%nat; w 2%nat] 0). split; [split|].
    + intros [|[|[|i]]] Hi; cbn in *; try lia; lra.
    + cbn; lra.
    + intros k Hk. rewrite (Y k Hk). unfold mean. cbn [length total nth]. rewrite Z. ring.
  - exists 1%nat. do 3 eexists. split; [lia|]. split; [reflexivity|]. exists (fun i => nth i [w 0%nat; w 1%nat; w 3%nat] 0). split; [split|].
    + intros [|[|[|i]]] Hi; cbn in *; try lia; lra.
    + cbn; lra.
    + intros k Hk. rewrite (Y k Hk). unfold mean. cbn [length total nth]. rewrite Z. ring.
  - exists 0%nat. do 3 eexists. split; [lia|]. split; [reflexivity|]. exists (fun i => nth i [w 0%nat; w 2%nat; w 1%nat] 0). split; [split|].
    + intros [|[|[|i]]] Hi; cbn in *; try lia; lra.
    + cbn; lra.
    + intros k Hk. rewrite (Y k Hk). unfold mean. cbn [length total nth]. rewrite Z. ring.
Qed.

Lemma sequence_all {A B} (f : A -> option B) l (P : A -> B -> Prop) : (forall a, In a l -> exists b, f a = Some b /\ P a b) -> exists bs, sequence (map f l) = Some bs /\ Forall2 P l bs.
Proof.
  induction l as [|a l IH]; intros H; [exists []; split; [reflexivity|constructor]|]. destruct (H a (or_introl eq_refl)) as (b & E & Pb).
  destruct IH as (bs & Es & F); [intros a' Ha; apply H; right; exact Ha|]. exists (b :: bs). cbn. rewrite E, Es. split; [reflexivity|now constructor].
Qed.

Lemma Forall2_in_r {A B} (P : A -> B -> Prop) l l' : Forall2 P l l' -> forall b, In b l' -> exists a, P a b.
Proof. induction 1 as [|a b l l' H F IH]; [intros b []|]. intros b' [E|I]; [subst b'; exists a; exact H|now apply IH]. Qed.
Lemma Forall2_in_l {A B} (P : A -> B -> Prop) l l' : Forall2 P l l' -> forall a, In a l -> exists b, In b l' /\ P a b.
Proof.
  induction 1 as [|a b l l' H F IH]; [intros a []|]. intros a' [E|I].
  - subst a'. exists b. split; [left; reflexivity|exact H].
  - destruct (IH a' I) as (b' & Ib & Pb). exists b'. split; [right; exact Ib|exact Pb].
Qed.

Section tet.
Variables (epsilon : R) (a b c d p : vec).
Hypothesis He : 0 <= epsilon.
Let vs := [a; b; c; d].

Definition good_face (f : nat) (r : nat * vec * R) : Prop :=
  let '(g, xi, d2) := r in g = f /\ exists x y z x' y' z', face_vertices vs f = Some (x, y, z) /\ face_vertices (map pt tet4_ref) f = Some (x', y', z') /\
    let q := el_map tet4 vs (el_map tri3 [x'; y'; z'] xi) in
    (exists w, weighting (2 * epsilon) 4 w /\ w (missing f) = 0 /\ veq 3 (el_map tri3 [x'; y'; z'] xi) (mean w (map pt tet4_ref)) /\ veq 3 q (mean w vs)) /\ d2 = dist2 3 p q /\ nearest 3 (hull 0 3 [x; y; z]) p q.
Lemma tw4_of_mean w xi : total 4 w = 1 -> veq 3 xi (mean w (map pt tet4_ref)) -> forall i, (i < 4)%nat -> tw4 xi i = w i.
Proof.
  intros T E. cbn [total] in T. pose proof (E 0%nat ltac:(lia)) as E0. pose proof (E 1%nat ltac:(lia)) as E1. pose proof (E 2%nat ltac:(lia)) as E2.
  unfold mean in E0, E1, E2. cbn [length map tet4_ref total nth] in E0, E1, E2. unfold pt in E0, E1, E2. cbn [nth] in E0, E1, E2.
  intros [|[|[|[|i]]]] Hi; [| | | |lia]; unfold tw4, tet4_basis; cbn [nth]; lra.
Qed.
Lemma face_found f : (f < 4)%nat -> exists r, face_candidate epsilon vs p f = Some r /\ good_face f r.
Proof.
  intros Hf. unfold face_candidate. destruct (face_mean vs f eq_refl Hf) as (x & y & z & Ef & Mf). rewrite Ef.
  destruct (face_mean (map pt tet4_ref) f eq_refl Hf) as (x' & y' & z' & Er & Mr).
  destruct (C87_tri3d3 epsilon x y z p He) as (xi & -> & (w & W & R2 & X) & N). cbn zeta in N, X. cbn [closest_coords]. eexists. split; [reflexivity|].
  split; [reflexivity|]. exists x, y, z, x', y', z'. split; [exact Ef|]. split; [exact Er|].
  assert (Tw : forall i, (i < 3)%nat -> tw xi i = w i).
  { destruct W as [_ T]. cbn [length total] in T. intros i Hi. pose proof (R2 0%nat ltac:(cbn; lia)) as E0. pose proof (R2 1%nat ltac:(cbn; lia)) as E1.
    unfold mean in E0, E1. cbn [length map tri3_ref total nth] in E0, E1. unfold pt in E0, E1. cbn [nth] in E0, E1.
    destruct i as [|[|[|i]]]; [| | |lia]; unfold tw, tri3_basis; cbn [nth]; lra. }
  assert (Xr : veq 3 (el_map tri3 [x'; y'; z'] xi) (mean (widen f w) (map pt tet4_ref))).
  { intros k _. rewrite tri_map_mean by reflexivity. rewrite <- Mr. apply mean_ext. exact Tw. }
  destruct (widen_weighting (2 * epsilon) f w ltac:(lra) W) as [W4 Z4].
  assert (Q : veq 3 (el_map tet4 vs (el_map tri3 [x'; y'; z'] xi)) (el_map tri3 [x; y; z] xi)).
  { intros k Hk. rewrite (X k Hk), (Mf w k). rewrite tet_map_mean by reflexivity. apply mean_ext. intros i Hi. apply tw4_of_mean; [exact (proj2 W4)|exact Xr|exact Hi]. }
  assert (D2 : distance_squared 3 (el_map tri3 [x; y; z] xi) p = dist2 3 p (el_map tet4 vs (el_map tri3 [x'; y'; z'] xi))).
  { rewrite dist2_squared, dist2_sym. apply dist2_ext; [intros i _; reflexivity|]. intros i Hi. symmetry. auto. }
  cbn zeta. split; [|split; [exact D2|]].
  - exists (widen f w). split; [exact W4|]. split; [exact Z4|]. split; [exact Xr|]. intros k Hk. rewrite (Q k Hk), (X k Hk). apply Mf.
  - intros u Hu. specialize (N u Hu). rewrite <- D2, dist2_squared, dist2_sym. exact N.
Qed.

Theorem C87_tet4 : exists r, tet4_closest epsilon a b c d p = Some r /\
  let xi := closest_coords r in let x := el_map tet4 [a; b; c; d] xi in
  located (2 * epsilon) 3 (map pt tet4_ref) [a; b; c; d] xi x /\
  nearest 3 (hull 0 3 [a; b; c; d]) p x /\
  (r = InElement xi -> veq 3 x p /\ ~ hull_boundary 3 [a; b; c; d] p) /\
  (hull 0 3 [a; b; c; d] p -> ~ hull_boundary 3 [a; b; c; d] p -> r = InElement xi).
Proof.
  unfold tet4_closest. fold vs.
  destruct (sequence_all (face_candidate epsilon vs p) (seq 0 4) (fun f r => (f < 4)%nat /\ good_face f r)) as (cs & -> & F).
  { intros f Hf%in_seq. destruct (face_found f ltac:(lia)) as (r & E & G). exists r. split; [exact E|]. split; [lia|exact G]. }
  destruct (min_by_spec snd cs) as ([[f xf] d2] & -> & I & M); [intros ->; inversion F|].
  assert (G : (f < 4)%nat /\ good_face f (f, xf, d2)).
  { destruct (Forall2_in_r _ _ _ F _ I) as (f' & Hf & G). assert (f = f') by (exact (proj1 G)). subst f'. auto. }
  assert (Min : nearest 3 (hull_boundary 3 vs) p (el_map tet4 vs (el_map tri3 (let '(x, y, z) := match face_vertices (map pt tet4_ref) f with Some t => t | None => (p, p, p) end in [x; y; z]) xf))).
  { intros y (g & x1 & x2 & x3 & Hg & Eg & Hy)%boundary_face; [|reflexivity]. destruct (Forall2_in_l _ _ _ F g) as (r & Ir & _ & Gr); [apply in_seq; lia|].
    destruct G as (_ & _ & ? & ? & ? & x' & y' & z' & _ & Er & _ & Ed & _). rewrite Er. rewrite <- Ed.
    destruct r as [[g' xg] dg]. destruct Gr as (-> & y1 & y2 & y3 & ? & ? & ? & Eg' & _ & _ & Eg2 & Ng). rewrite Eg in Eg'. injection Eg' as <- <- <-.
    specialize (M _ Ir). cbn in M. rewrite Eg2 in M. specialize (Ng y Hy). lra. }
  destruct G as (Hf & _ & x1 & x2 & x3 & x' & y' & z' & Ef & Er & (w & W & Zw & Xi & Q) & Ed & _). rewrite Er in *. cbn zeta in *.
  set (xi_face := el_map tri3 [x'; y'; z'] xf) in *. set (q := el_map tet4 vs xi_face) in *.
  assert (Bp : hull_boundary 3 vs p -> d2 = 0).
  { intros B. specialize (Min p B). rewrite <- Ed in Min. rewrite (proj2 (dist2_zero 3 p p)) in Min by (intros i _; reflexivity). pose proof (dist2_nonneg 3 p q). lra. }
  assert (Bz : d2 = 0 -> hull 0 3 vs p -> hull_boundary 3 vs p).
  { intros Zd Hp. rewrite Ed in Zd. apply dist2_zero in Zd. assert (Pm : veq 3 p (mean w vs)) by (intros i Hi; rewrite (Zd i Hi); auto).
    destruct (some_negative 4 w) as [Neg|Pos].
    - destruct (leave_toward 3 vs p p p w (proj2 W) Pm Neg) as (y & (w' & j & W' & Hj & Zj & Y) & Ly); [|exact Hp|].
      + rewrite (dot_ext 3 _ (fun _ => 0) _ (fun _ => 0)); [apply dot_zero|intros i _; ring|intros i _; ring].
      + rewrite (proj2 (dist2_zero 3 p p)) in Ly by (intros i _; reflexivity). pose proof (dist2_nonneg 3 p y). assert (E : dist2 3 p y = 0) by lra. apply dist2_zero in E.
        exists w', j. split; [exact W'|]. split; [exact Hj|]. split; [exact Zj|]. intros i Hi. rewrite (E i Hi). auto.
    - exists w, (missing f). split; [split; [intros i Hi; specialize (Pos i Hi); lra|exact (proj2 W)]|]. split; [destruct f as [|[|[|f]]]; cbn; lia|]. split; [exact Zw|exact Pm]. }
  assert (Loc : located (2 * epsilon) 3 (map pt tet4_ref) vs xi_face q) by (exists w; split; [exact W|]; split; [exact Xi|exact Q]).
  assert (Face : (forall y, hull 0 3 vs y -> exists z, hull_boundary 3 vs z /\ dist2 3 p z <= dist2 3 p y) ->
    exists r, Some (ClosestPoint xi_face) = Some r /\
    located (2 * epsilon) 3 (map pt tet4_ref) vs (closest_coords r) (el_map tet4 vs (closest_coords r)) /\
    nearest 3 (hull 0 3 vs) p (el_map tet4 vs (closest_coords r)) /\
    (r = InElement (closest_coords r) -> veq 3 (el_map tet4 vs (closest_coords r)) p /\ ~ hull_boundary 3 vs p) /\
    (hull 0 3 vs p -> ~ hull_boundary 3 vs p -> r = InElement (closest_coords r))).
  { intros Leave. eexists. split; [reflexivity|]. cbn [closest_coords]. fold q. split; [exact Loc|]. split; [|split; [discriminate|]].
    - intros y Hy. destruct (Leave y Hy) as (z & Hz & Le). specialize (Min z Hz). lra.
    - intros Hp Np. exfalso. destruct (Leave p Hp) as (z & Hz & Le). rewrite (proj2 (dist2_zero 3 p p)) in Le by (intros i _; reflexivity).
      apply Np. apply Bz; [|exact Hp]. rewrite Ed. specialize (Min z Hz). pose proof (dist2_nonneg 3 p q). lra. }
  destruct (try_inverse 3 (el_jacobian tet4 vs origin)) as [inv|] eqn:Inv; cbn [option_map filter_opt].
  - set (xi := mulv 3 inv (fun i => p i - el_map tet4 vs origin i)).
    assert (Mx : veq 3 (el_map tet4 vs xi) p).
    { intros k Hk. rewrite tet_affine by reflexivity. pose proof (inverse3 _ _ (fun i => p i - el_map tet4 vs origin i) Inv k Hk) as J. cbn beta in J. fold xi in J. rewrite J. ring. }
    destruct (is_likely_in_tet_ref_interior epsilon xi) eqn:In_.
    + rewrite dist2_squared. rewrite (proj2 (dist2_zero 3 p (el_map tet4 vs xi))) by (intros i Hi; symmetry; auto).
      destruct (Rlt_dec 0 d2) as [Pos|NPos].
      * eexists. split; [reflexivity|]. cbn [closest_coords]. split; [|split; [|split; [|reflexivity]]].
        -- exists (tw4 xi). split; [now apply tet_likely|]. split; [apply tet_ref_mean|]. intros k _. now apply tet_map_mean.
        -- now apply nearest_exact.
        -- intros _. split; [exact Mx|]. intros Hb. apply Bp in Hb. lra.
      * assert (Zd : d2 = 0) by (rewrite Ed in NPos |- *; pose proof (dist2_nonneg 3 p q); lra).
        eexists. split; [reflexivity|]. cbn [closest_coords]. fold q. split; [exact Loc|]. split; [|split; [discriminate|]].
        -- intros y Hy. rewrite <- Ed, Zd. apply dist2_nonneg.
        -- intros Hp Np. exfalso. apply Np. now apply Bz.
    + apply Face. intros y Hy. apply leave_toward with (q := p) (mu := tw4 xi).
      * apply tw4_total.
      * intros i Hi. rewrite <- (Mx i Hi). now apply tet_map_mean.
      * destruct (tet_unlikely epsilon xi He In_) as (i & Hi & Ni). exists i. split; [exact Hi|exact Ni].
      * rewrite (dot_ext 3 _ (fun _ => 0) _ (fun i => p i - y i)); [apply dot_zero|intros i _; ring|intros i _; reflexivity].
      * exact Hy.
  - apply Face. intros y Hy. exists y. split; [|lra]. apply singular in Inv. destruct (kernel3 _ Inv) as (u & v & z & Nz & K). now apply tet_flat with (u := u) (v := v) (z := z).
Qed.
End tet.
Print Assumptions C87_tet4.

(** C72: volumes of polyhedra. *)
From Coq Require Import Reals List Permutation Lra Lia Bool Arith.
From Verif Require Import CgModel CgSpec CgProofs GeomModel PropSeg SolidModel SolidSpec.
Import ListNotations.
Open Scope R_scope.
Local Notation pt := (nat -> R).

Lemma windows_pairs {A} (l : list A) : windows l = pairs l.
Proof. induction l as [|a [|b l] IH]; [reflexivity..|]. change (windows (a :: b :: l)) with ((a, b) :: windows (b :: l)). rewrite IH. reflexivity. Qed.
Lemma edges_loop {A} (l : list A) : edges l = loop l.
Proof. destruct l; [reflexivity|]. apply windows_pairs. Qed.
Lemma dot_ip a b : dot 3 a b = ip a b.
Proof. unfold ip. cbn [dot]. ring. Qed.
Lemma cross_det a b c : ip a (cross b c) = det a b c.
Proof. unfold ip, cross, cross_comp, det. cbn. ring. Qed.
Lemma rsum_app l m : rsum (l ++ m) = rsum l + rsum m.
Proof. unfold rsum. induction l as [|x l IH]; cbn [app fold_right]; [lra|]. rewrite IH. lra. Qed.
Lemma rsum_perm l m : Permutation l m -> rsum l = rsum m.
Proof. unfold rsum. induction 1; cbn [fold_right]; lra. Qed.
Lemma rsum_ext {A} (f g : A -> R) l : (forall x, In x l -> f x = g x) -> rsum (map f l) = rsum (map g l).
Proof. intros H. f_equal. apply map_ext_in, H. Qed.
Lemma rsum_scale {A} (f : A -> R) c l : rsum (map (fun x => c * f x) l) = c * rsum (map f l).
Proof. unfold rsum. induction l as [|x l IH]; cbn [map fold_right]; [lra|]. rewrite IH. lra. Qed.
Lemma rsum_plus {A} (f g : A -> R) l : rsum (map (fun x => f x + g x) l) = rsum (map f l) + rsum (map g l).
Proof. unfold rsum. induction l as [|x l IH]; cbn [map fold_right]; [lra|]. rewrite IH. lra. Qed.

(** ** the area vector *)
Lemma fan_area_sum vs : (3 <= length vs)%nat -> exists A, fan_area vs = Some A /\
  forall k, A k = rsum (map (fun t => let '(a, b, c) := t in cross (minus b a) (minus c a) k / 2) (fan_triangles vs)).
Proof.
  intros H. destruct vs as [|a [|b [|c l]]]; [cbn in H; lia..|]. eexists. split; [reflexivity|]. intros k. cbn beta.
  unfold fan_triangles. rewrite map_map. cbn [fst snd]. rewrite <- windows_pairs. rewrite (windows_nth (b :: c :: l) (fun _ => 0)), map_map. cbn [fst snd].
  replace (length (a :: b :: c :: l) - 2)%nat with (length (b :: c :: l) - 1)%nat by (cbn; lia). rewrite <- seq_shift.
  set (m := (length (b :: c :: l) - 1)%nat). assert (Hm : forall i, In i (seq 0 m) -> (S i < length (b :: c :: l))%nat) by (intros i Hi; apply in_seq in Hi; unfold m in Hi; cbn in *; lia).
  assert (G : forall is acc, (forall i, In i is -> (S i < length (b :: c :: l))%nat) -> fold_left (fun acc i => match nth_error (a :: b :: c :: l) i, nth_error (a :: b :: c :: l) (i + 1) with
      | Some b, Some c => acc + cross (sub3 b a) (sub3 c a) k * (1 / 2) | _, _ => acc end) (map S is) acc =
      acc + rsum (map (fun i => cross (minus (nth i (b :: c :: l) (fun _ => 0)) a) (minus (nth (S i) (b :: c :: l) (fun _ => 0)) a) k / 2) is)).
  { induction is as [|i is IH]; intros acc Hi; cbn [map fold_left]; [unfold rsum; cbn; lra|].
    assert (L := Hi i (or_introl eq_refl)). replace (S i + 1)%nat with (S (S i)) by lia. change (nth_error (a :: b :: c :: l) (S i)) with (nth_error (b :: c :: l) i). change (nth_error (a :: b :: c :: l) (S (S i))) with (nth_error (b :: c :: l) (S i)).
    rewrite !(nth_error_nth' _ (fun _ : nat => 0)) by (unfold vec in *; lia). rewrite IH by (intros j Hj; apply Hi; right; exact Hj). unfold rsum. cbn [map fold_right]. unfold sub3, minus, Rdiv. rewrite Rmult_1_l, Rplus_assoc. reflexivity. }
  etransitivity; [exact (G (seq 0 m) 0 Hm)|]. rewrite Rplus_0_l. f_equal. apply map_ext. intros i. replace (i + 1)%nat with (S i) by lia. reflexivity.
Qed.

(** twice the area is the sum of the cross products around the loop *)
Lemma pairs_telescope (f : (nat -> R) -> (nat -> R) -> R) (g : (nat -> R) -> R) l : forall a z, rsum (map (fun e => f (fst e) (snd e) + (g (snd e) - g (fst e))) (pairs (a :: l ++ [z]))) = rsum (map (fun e => f (fst e) (snd e)) (pairs (a :: l ++ [z]))) + (g z - g a).
Proof.
  unfold rsum. induction l as [|b l IH]; intros a z; cbn [app].
  - cbn. lra.
  - change (pairs (a :: b :: l ++ [z])) with ((a, b) :: pairs (b :: l ++ [z])). cbn [map fold_right fst snd]. rewrite IH. lra.
Qed.
Lemma fan_loop vs k : rsum (map (fun t => let '(a, b, c) := t in cross (minus b a) (minus c a) k / 2) (fan_triangles vs)) = rsum (map (fun e : pt * pt => cross (fst e) (snd e) k) (loop vs)) / 2.
Proof.
  destruct vs as [|a r]; [unfold rsum; cbn; lra|]. unfold fan_triangles, loop. rewrite map_map. cbn [fst snd].
  destruct r as [|b r]; [unfold rsum; cbn; unfold cross, cross_comp; lra|].
  assert (E : rsum (map (fun e : pt * pt => cross (fst e) (snd e) k) (pairs ((a :: b :: r) ++ [a]))) = rsum (map (fun e : pt * pt => cross (minus (fst e) a) (minus (snd e) a) k) (pairs ((a :: b :: r) ++ [a])))).
  { cbn [app]. change (a :: b :: r ++ [a]) with (a :: (b :: r) ++ [a]). rewrite (rsum_ext (fun e : pt * pt => cross (minus (fst e) a) (minus (snd e) a) k) (fun e : pt * pt => cross (fst e) (snd e) k + ((fun x : pt => cross x a k) (snd e) - (fun x : pt => cross x a k) (fst e)))) by (intros [x y] _; cbn [fst snd]; unfold cross, cross_comp, minus; ring).
    rewrite (pairs_telescope (fun x y => cross x y k) (fun x : pt => cross x a k)). unfold vec in *. lra. }
  rewrite E. clear E. cbn [app]. change (pairs (a :: b :: r ++ [a])) with ((a, b) :: pairs (b :: r ++ [a])). cbn [map]. cbn [fst snd].
  assert (Z : cross (minus a a) (minus b a) k = 0) by (unfold cross, cross_comp, minus; ring).
  assert (L : forall b, rsum (map (fun e : pt * pt => cross (minus (fst e) a) (minus (snd e) a) k) (pairs (b :: r ++ [a]))) = rsum (map (fun e : pt * pt => cross (minus (fst e) a) (minus (snd e) a) k) (pairs (b :: r)))).
  { clear. induction r as [|c r IH]; intros b; cbn [app].
    - unfold rsum. cbn. unfold cross, cross_comp, minus. ring.
    - change (pairs (b :: c :: r ++ [a])) with ((b, c) :: pairs (c :: r ++ [a])). change (pairs (b :: c :: r)) with ((b, c) :: pairs (c :: r)). cbn [map]. unfold rsum in *. cbn [fold_right]. rewrite IH. reflexivity. }
  unfold rsum at 2. cbn [fold_right]. rewrite Z. fold (rsum (map (fun e : pt * pt => cross (minus (fst e) a) (minus (snd e) a) k) (pairs (b :: r ++ [a])))). rewrite L.
  rewrite (rsum_ext _ (fun e : pt * pt => / 2 * cross (minus (fst e) a) (minus (snd e) a) k)) by (intros [x y] _; cbn [fst snd]; lra). rewrite rsum_scale. lra.
Qed.

(** The area vector of the fan is half the sum of the cross products of consecutive vertices. *)
Theorem C72_area vs : (3 <= length vs)%nat -> exists A, fan_area vs = Some A /\ forall k, A k = rsum (map (fun e : pt * pt => cross (fst e) (snd e) k) (loop vs)) / 2.
Proof. intros H. destruct (fan_area_sum vs H) as (A & E & HA). exists A. split; [exact E|]. intros k. rewrite HA. apply fan_loop. Qed.
Print Assumptions C72_area.

(** ** volumes *)
Definition face_area (vs : list (nat -> R)) : nat -> R := fun k => rsum (map (fun e : pt * pt => cross (fst e) (snd e) k) (loop vs)) / 2.
Lemma face_tets vs p : rsum (map (fun t => let '(a, b, c) := t in tet6 a b c p) (fan_triangles vs)) = match vs with [] => 0 | x0 :: _ => 2 * ip (minus x0 p) (face_area vs) end.
Proof.
  destruct vs as [|x0 r]; [reflexivity|]. unfold face_area, ip. rewrite <- !fan_loop.
  unfold fan_triangles. rewrite !map_map. cbn [fst snd].
  assert (E : rsum (map (fun x => tet6 x0 (fst x) (snd x) p) (pairs r)) = rsum (map (fun x => 2 * (minus x0 p 0%nat * (cross (minus (fst x) x0) (minus (snd x) x0) 0%nat / 2) + minus x0 p 1%nat * (cross (minus (fst x) x0) (minus (snd x) x0) 1%nat / 2) + minus x0 p 2%nat * (cross (minus (fst x) x0) (minus (snd x) x0) 2%nat / 2))) (pairs r))).
  { apply rsum_ext. intros [b c] _. cbn [fst snd]. unfold tet6, det, minus, cross, cross_comp. cbn. field. }
  rewrite E, rsum_scale. rewrite !rsum_plus. rewrite !rsum_scale. ring.
Qed.

Lemma norm_zero A : norm 3 A <= 0 -> forall x, ip A x = 0.
Proof.
  intros H x. assert (Z : dot 3 A A = 0).
  { unfold norm in H. assert (0 <= dot 3 A A) by (cbn [dot]; nra). apply sqrt_eq_0; [assumption|]. pose proof (sqrt_pos (dot 3 A A)). lra. }
  cbn [dot] in Z. unfold ip. assert (A 0%nat = 0) by nra. assert (A 1%nat = 0) by nra. assert (A 2%nat = 0) by nra. rewrite H0, H1, H2. ring.
Qed.
Lemma volume_term_ok face : volume_term face = Some (match face with [] => 0 | x0 :: _ => ip x0 (face_area face) end).
Proof.
  unfold volume_term. destruct (2 <? length face)%nat eqn:L.
  - apply Nat.ltb_lt in L. destruct (C72_area face ltac:(lia)) as (A & E & HA). destruct face as [|x0 r] eqn:F; [cbn in L; lia|]. rewrite <- F in *. rewrite E. f_equal.
    assert (Eip : ip x0 (face_area face) = ip A x0) by (assert (HF : forall k, face_area face k = A k) by (intros k; rewrite HA; reflexivity); unfold ip; rewrite !HF; ring). rewrite Eip. destruct (Rlt_dec 0 (norm 3 A)) as [P|P].
    + rewrite dot_ip. unfold ip, normalize3. field. lra.
    + symmetry. apply norm_zero. lra.
  - apply Nat.ltb_ge in L. f_equal. destruct face as [|x0 [|x1 [|x2 r]]]; [reflexivity|..|cbn in L; lia].
    + unfold ip, face_area, rsum. cbn. unfold cross, cross_comp. cbn. field.
    + unfold ip, face_area, rsum. cbn. unfold cross, cross_comp. cbn. field.
Qed.
Lemma volume_sum faces : polyhedron_volume faces = Some (Rabs (rsum (map (fun face : list pt => match face with [] => 0 | x0 :: _ => ip x0 (face_area face) end) faces)) / 3).
Proof.
  unfold polyhedron_volume.
  assert (G : forall l v, fold_left (fun acc face => match acc, volume_term face with Some v, Some t => Some (v + t) | _, _ => None end) l (Some v) =
    Some (v + rsum (map (fun face : list pt => match face with [] => 0 | x0 :: _ => ip x0 (face_area face) end) l))).
  { induction l as [|face l IH]; intros v; cbn [fold_left map]; [unfold rsum; cbn; f_equal; lra|]. rewrite volume_term_ok, IH. f_equal. unfold rsum. cbn [fold_right]. unfold vec. lra. }
  rewrite G. cbn [option_map]. rewrite Rplus_0_l. reflexivity.
Qed.

Lemma oriented_area faces k : oriented faces -> rsum (map (fun face : list pt => face_area face k) faces) = 0.
Proof.
  unfold oriented. set (s := concat (map loop faces)). intros P.
  assert (E : rsum (map (fun face : list pt => face_area face k) faces) = rsum (map (fun e : pt * pt => cross (fst e) (snd e) k) s) / 2).
  { unfold s. clear. induction faces as [|f faces IH]; [unfold rsum; cbn; lra|]. cbn [map concat]. rewrite map_app, rsum_app. unfold rsum at 1. cbn [fold_right]. fold (rsum (map (fun face : list pt => face_area face k) faces)). rewrite IH. unfold face_area. lra. }
  rewrite E. assert (N : rsum (map (fun e : pt * pt => cross (fst e) (snd e) k) s) = - rsum (map (fun e : pt * pt => cross (fst e) (snd e) k) s)); [|lra].
  rewrite (rsum_perm _ _ (Permutation_map (fun e : pt * pt => cross (fst e) (snd e) k) P)) at 1. rewrite map_map. cbn [fst snd].
  rewrite (rsum_ext _ (fun e : pt * pt => -1 * cross (fst e) (snd e) k)) by (intros [x y] _; cbn [fst snd]; unfold cross, cross_comp; ring). rewrite rsum_scale. lra.
Qed.

(** six times the signed volume seen from [p]: the sum over the fan triangles of all faces *)
Definition seen_from (faces : list (list (nat -> R))) (p : nat -> R) : list R := map (fun t => let '(a, b, c) := t in tet6 a b c p) (concat (map fan_triangles faces)).
Lemma seen_sum faces p : oriented faces -> rsum (seen_from faces p) = 2 * rsum (map (fun face : list pt => match face with [] => 0 | x0 :: _ => ip x0 (face_area face) end) faces).
Proof.
  intros O. unfold seen_from.
  assert (E : rsum (map (fun t => let '(a, b, c) := t in tet6 a b c p) (concat (map fan_triangles faces))) =
    rsum (map (fun face : list pt => 2 * match face with [] => 0 | x0 :: _ => ip x0 (face_area face) end) faces)
      - 2 * (p 0%nat * rsum (map (fun face : list pt => face_area face 0%nat) faces) + p 1%nat * rsum (map (fun face : list pt => face_area face 1%nat) faces) + p 2%nat * rsum (map (fun face : list pt => face_area face 2%nat) faces))).
  { clear O. induction faces as [|f faces IH]; [unfold rsum; cbn; lra|]. cbn [map concat]. rewrite map_app, rsum_app, IH, face_tets. unfold rsum. cbn [fold_right].
    destruct f as [|x0 r]; [|unfold ip, minus; ring]. unfold face_area, rsum. cbn [loop map fold_right]. unfold Rdiv. ring. }
  rewrite E, !(oriented_area faces _ O), rsum_scale. ring.
Qed.

(** C72: the volume of a closed, consistently oriented surface is the absolute value of the signed volumes of the tetrahedra over its
    fan triangles, seen from any point. *)
Theorem C72_volume faces : oriented faces -> forall p, polyhedron_volume faces = Some (Rabs (rsum (seen_from faces p)) / 6).
Proof.
  intros O p. rewrite volume_sum, (seen_sum faces p O). f_equal. rewrite Rabs_mult. rewrite (Rabs_right 2) by lra. lra.
Qed.
Print Assumptions C72_volume.

(** C72: if a point sees all fan triangles from the same side, the volume is the sum of the volumes of the tetrahedra. *)
Theorem C72_convex faces p : oriented faces -> Forall (fun v => 0 <= v) (seen_from faces p) \/ Forall (fun v => v <= 0) (seen_from faces p) ->
  polyhedron_volume faces = Some (rsum (map (fun v => Rabs v / 6) (seen_from faces p))).
Proof.
  intros O H. rewrite (C72_volume faces O p). f_equal. generalize dependent (seen_from faces p). clear. intros l H.
  rewrite (rsum_ext _ (fun v => / 6 * Rabs v)) by (intros; lra). rewrite rsum_scale. enough (Rabs (rsum l) = rsum (map Rabs l)) by lra. destruct H as [H|H].
  - assert (G : 0 <= rsum l /\ rsum (map Rabs l) = rsum l); [|rewrite (proj2 G); apply Rabs_right; lra]. unfold rsum. induction H as [|v l Hv _ [I1 I2]]; cbn [map fold_right]; [lra|]. rewrite I2, (Rabs_right v) by lra. split; lra.
  - assert (G : rsum l <= 0 /\ rsum (map Rabs l) = - rsum l); [|rewrite (proj2 G); apply Rabs_left1; lra]. unfold rsum. induction H as [|v l Hv _ [I1 I2]]; cbn [map fold_right]; [lra|]. rewrite I2, (Rabs_left1 v) by lra. split; lra.
Qed.
Print Assumptions C72_convex.

(** ** tetrahedra and hexahedra *)
Lemma loop_map {A B} (g : A -> B) l : loop (map g l) = map (fun e => (g (fst e), g (snd e))) (loop l).
Proof.
  destruct l as [|a l]; [reflexivity|]. unfold loop. cbn [map]. change (g a :: map g l) with (map g (a :: l)). change [g a] with (map g [a]). rewrite <- map_app. generalize ((a :: l) ++ [a]). clear.
  induction l as [|x [|y l] IH]; [reflexivity..|]. cbn [map pairs] in *. rewrite IH. reflexivity.
Qed.
Lemma oriented_map {A B} (g : A -> B) faces : oriented faces -> oriented (map (map g) faces).
Proof.
  unfold oriented. intros P. assert (E : concat (map loop (map (map g) faces)) = map (fun e => (g (fst e), g (snd e))) (concat (map loop faces))).
  { clear. induction faces as [|f faces IH]; [reflexivity|]. cbn [map concat]. rewrite map_app, IH, loop_map. reflexivity. }
  cbv zeta in *. rewrite E. rewrite map_map. cbn [fst snd]. apply (Permutation_map (fun e => (g (fst e), g (snd e)))) in P. rewrite map_map in P. exact P.
Qed.
Ltac perm_pairs := repeat match goal with |- Permutation (?x :: ?l) ?r =>
  let rec go pre suf := match suf with
    | x :: ?s => change r with (pre ++ x :: s); apply Permutation_cons_app; cbn [app]
    | ?y :: ?s => let pre' := eval cbn [app] in (pre ++ [y]) in go pre' s
    end in go (@nil (nat * nat)) r end; try apply perm_nil.
Lemma tetrahedron_oriented v : oriented (tetrahedron_faces v).
Proof. unfold tetrahedron_faces, pick. apply oriented_map. unfold oriented. cbn. perm_pairs. Qed.
Lemma hexahedron_oriented v : oriented (hexahedron_faces v).
Proof. unfold hexahedron_faces, pick. apply oriented_map. unfold oriented. cbn. perm_pairs. Qed.

(** C72: the volume of a tetrahedron. *)
Theorem C72_tetrahedron v : polyhedron_volume (tetrahedron_faces v) = Some (Rabs (det (minus (v 1%nat) (v 0%nat)) (minus (v 2%nat) (v 0%nat)) (minus (v 3%nat) (v 0%nat))) / 6).
Proof.
  rewrite (C72_volume _ (tetrahedron_oriented v) (v 0%nat)). rewrite <- Rabs_Ropp. f_equal. f_equal. f_equal. unfold seen_from, tetrahedron_faces, pick, rsum. cbn [map concat fan_triangles pairs app fst snd fold_right]. unfold tet6, det, minus. ring.
Qed.
Print Assumptions C72_tetrahedron.
(** C72: the volume of a hexahedron that is an affine image of the cube. *)
Theorem C72_parallelepiped (o e1 e2 e3 : nat -> R) v : (forall i s, In (i, s) [(0, (0, 0, 0)); (1, (1, 0, 0)); (2, (1, 1, 0)); (3, (0, 1, 0)); (4, (0, 0, 1)); (5, (1, 0, 1)); (6, (1, 1, 1)); (7, (0, 1, 1))]%nat ->
    forall k, v i k = o k + INR (fst (fst s)) * e1 k + INR (snd (fst s)) * e2 k + INR (snd s) * e3 k) ->
  polyhedron_volume (hexahedron_faces v) = Some (Rabs (det e1 e2 e3)).
Proof.
  intros H. rewrite (C72_volume _ (hexahedron_oriented v) o). f_equal.
  assert (E : rsum (seen_from (hexahedron_faces v) o) = - (6 * det e1 e2 e3)); [|rewrite E, Rabs_Ropp, Rabs_mult, (Rabs_right 6) by lra; lra].
  unfold seen_from, hexahedron_faces, pick, rsum. cbn [map concat fan_triangles pairs app fst snd fold_right]. unfold tet6, det, minus.
  rewrite !(H 0%nat (0, 0, 0)%nat), !(H 1%nat (1, 0, 0)%nat), !(H 2%nat (1, 1, 0)%nat), !(H 3%nat (0, 1, 0)%nat), !(H 4%nat (0, 0, 1)%nat), !(H 5%nat (1, 0, 1)%nat), !(H 6%nat (1, 1, 1)%nat), !(H 7%nat (0, 1, 1)%nat) by (cbn; tauto).
  cbn [fst snd INR]. ring.
Qed.
Print Assumptions C72_parallelepiped.

(** the reference tetrahedron, and a box *)
Example C72_example : let e i := fun k : nat => if Nat.eqb (S k) i then 1 else 0 in
  polyhedron_volume (tetrahedron_faces e) = Some (1 / 6) /\
  oriented (tetrahedron_faces e) /\ Forall (fun v => v <= 0) (seen_from (tetrahedron_faces e) (fun _ => 1/4)) /\
  polyhedron_volume (hexahedron_faces (fun i k => 5 + if existsb (Nat.eqb i) (nth k [[1; 2; 5; 6]; [2; 3; 6; 7]; [4; 5; 6; 7]]%nat []) then nth k [2; 3; 4] 0 else 0)) = Some 24.
Proof.
  cbv zeta. split; [|split; [apply tetrahedron_oriented|split]].
  - rewrite C72_tetrahedron. f_equal. unfold det, minus. cbn. replace (Rabs _) with 1; [lra|]. symmetry. rewrite Rabs_right; lra.
  - unfold seen_from, tetrahedron_faces, pick. cbn [map concat fan_triangles pairs app fst snd]. unfold tet6, det, minus. cbn. repeat (constructor; [lra|]). constructor.
  - rewrite (C72_parallelepiped (fun _ => 5) (fun k => nth k [2; 0; 0] 0) (fun k => nth k [0; 3; 0] 0) (fun k => nth k [0; 0; 4] 0)).
    + f_equal. unfold det. cbn. rewrite Rabs_right; lra.
    + intros i s H k. cbn in H. repeat (destruct H as [[= <- <-]|H]; [destruct k as [|[|[|k]]]; cbn; try (destruct k); cbn; lra|]). destruct H.
Qed.

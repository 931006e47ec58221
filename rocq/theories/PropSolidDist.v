(** C73: closest points of convex polygons in space, containment in and distance to convex polyhedra. *)
From Coq Require Import Reals List Lra Lia Psatz Bool Arith.
From Verif Require Import CgModel CgSpec CgProofs GeomModel GeomSpec PropSeg PropPolygon PropPoly3 PropDist SolidModel SolidSpec PropVolume.
Import ListNotations.
Open Scope R_scope.
Local Notation pt := (nat -> R).

(** ** frames *)
Lemma unit_frame (n : pt) : ip n n = 1 -> exists u, ip u u = 1 /\ ip n u = 0.
Proof.
  intros H. destruct (Req_dec (n 0%nat * n 0%nat + n 1%nat * n 1%nat) 0) as [Z|Z].
  - exists (fun k => match k with O => 1 | _ => 0 end). unfold ip. cbn. assert (n 0%nat = 0) by nra. rewrite H0. lra.
  - set (q := n 0%nat * n 0%nat + n 1%nat * n 1%nat) in *. assert (P : 0 < q) by (unfold q in *; nra). pose proof (sqrt_lt_R0 q P) as Sq. pose proof (sqrt_sqrt q ltac:(lra)) as SS.
    exists (fun k => match k with O => - n 1%nat / sqrt q | S O => n 0%nat / sqrt q | _ => 0 end). unfold ip. cbn. split; [|field; lra].
    set (r := sqrt q) in *. clearbody r. replace (- n 1%nat / r * (- n 1%nat / r) + n 0%nat / r * (n 0%nat / r) + 0 * 0) with (q / (r * r)) by (unfold q; field; lra). rewrite SS. field. lra.
Qed.

Section Embed.
  Variables n u x0 : pt.
  Hypothesis Hn : ip n n = 1.
  Hypothesis Hu : ip u u = 1.
  Hypothesis Hnu : ip n u = 0.
  Let w : pt := cross n u.
  (** coordinates in the plane *)
  Definition emb (x : pt) : R * R := (ip u (minus x x0), ip w (minus x x0)).
  Lemma parseval y : ip y y = ip u y * ip u y + ip w y * ip w y + ip n y * ip n y.
  Proof.
    assert (G : ip w y * ip w y = ip y y * (ip n n * ip u u - ip n u * ip n u) - ip n y * (ip n y * ip u u - ip n u * ip u y) + ip u y * (ip n y * ip n u - ip n n * ip u y)).
    { unfold w, ip, cross, cross_comp. cbn. ring. }
    rewrite G, Hn, Hu, Hnu. ring.
  Qed.
  Lemma emb_left a b x : left_of (emb a) (emb b) (emb x) = det n (minus b a) (minus x a).
  Proof.
    assert (G : left_of (emb a) (emb b) (emb x) = ip u u * det n (minus b a) (minus x a) - ip n u * det u (minus b a) (minus x a)).
    { unfold left_of, emb, w, det, ip, cross, cross_comp, minus. cbn. ring. }
    rewrite G, Hu, Hnu. ring.
  Qed.
  Lemma emb_dist p x : d2 p x = dist2 (emb p) (emb x) + (ip n (minus p x)) ^ 2.
  Proof.
    unfold d2. rewrite parseval. unfold dist2, emb. cbn [fst snd].
    replace (ip u (minus p x)) with (ip u (minus p x0) - ip u (minus x x0)) by (unfold ip, minus; ring).
    replace (ip w (minus p x)) with (ip w (minus p x0) - ip w (minus x x0)) by (unfold ip, minus; ring). ring.
  Qed.
  Lemma emb_mix a b t : emb (mixd a b t) = mix (emb a) (emb b) t.
  Proof. unfold emb, mix, mixd, ip, minus. cbn. f_equal; ring. Qed.
  Lemma emb_corner vs i : (0 < length vs)%nat -> corner (map emb vs) i = emb (vertex vs i).
  Proof.
    intros H. unfold corner, vertex. rewrite map_length. rewrite (nth_indep _ (0, 0) (emb (fun _ => 0))) by (rewrite map_length; apply Nat.mod_upper_bound; lia). apply map_nth.
  Qed.
End Embed.

(** ** the normal *)
Lemma vertex_nth vs i : (i < length vs)%nat -> vertex vs i = nth i vs (fun _ => 0).
Proof. intros H. unfold vertex. rewrite Nat.mod_small by exact H. reflexivity. Qed.
Lemma vertex_in vs i : (0 < length vs)%nat -> In (vertex vs i) vs.
Proof. intros H. apply nth_In, Nat.mod_upper_bound. lia. Qed.
Lemma vertex_cons vs x : In x vs -> exists i, (i < length vs)%nat /\ x = vertex vs i.
Proof. intros H. destruct (In_nth vs x (fun _ => 0) H) as (i & Hi & E). exists i. split; [exact Hi|]. rewrite vertex_nth by exact Hi. auto. Qed.
Lemma edges_vertex vs : edges vs = map (fun i => (vertex vs i, vertex vs (i + 1))) (seq 0 (length vs)).
Proof. apply (edges_nth vs (fun _ => 0)). Qed.

(** a vector orthogonal to two vectors orthogonal to [n] *)
Lemma planar_cross n a b : ip n n = 1 -> ip n a = 0 -> ip n b = 0 -> forall k, cross a b k = det n a b * n (k mod 3)%nat.
Proof.
  intros Hn Ha Hb k. assert (G : forall k, cross a b k * ip n n = det n a b * n (k mod 3)%nat + 0 -> cross a b k = det n a b * n (k mod 3)%nat) by (intros j H; rewrite Hn in H; lra).
  apply G. clear G.
  assert (Cy : forall j, cross a b (j mod 3)%nat = cross a b j).
  { intros j. unfold cross, cross_comp. rewrite !Nat.add_mod_idemp_l by lia. reflexivity. }
  rewrite <- Cy. pose proof (Nat.mod_upper_bound k 3 ltac:(lia)) as L. set (r := (k mod 3)%nat) in *. clearbody r. clear Cy k.
  unfold ip in *. destruct r as [|[|[|r]]]; [..|lia]; unfold cross, cross_comp, det; cbn.
  - assert (E : (a 1%nat * b 2%nat - a 2%nat * b 1%nat) * (n 0%nat * n 0%nat + n 1%nat * n 1%nat + n 2%nat * n 2%nat) =
      (n 0%nat * (a 1%nat * b 2%nat - a 2%nat * b 1%nat) - n 1%nat * (a 0%nat * b 2%nat - a 2%nat * b 0%nat) + n 2%nat * (a 0%nat * b 1%nat - a 1%nat * b 0%nat)) * n 0%nat
      + (n 1%nat * b 2%nat - n 2%nat * b 1%nat) * (n 0%nat * a 0%nat + n 1%nat * a 1%nat + n 2%nat * a 2%nat) - (n 1%nat * a 2%nat - n 2%nat * a 1%nat) * (n 0%nat * b 0%nat + n 1%nat * b 1%nat + n 2%nat * b 2%nat)) by ring.
    rewrite E, Ha, Hb. ring.
  - assert (E : (a 2%nat * b 0%nat - a 0%nat * b 2%nat) * (n 0%nat * n 0%nat + n 1%nat * n 1%nat + n 2%nat * n 2%nat) =
      (n 0%nat * (a 1%nat * b 2%nat - a 2%nat * b 1%nat) - n 1%nat * (a 0%nat * b 2%nat - a 2%nat * b 0%nat) + n 2%nat * (a 0%nat * b 1%nat - a 1%nat * b 0%nat)) * n 1%nat
      + (n 2%nat * b 0%nat - n 0%nat * b 2%nat) * (n 0%nat * a 0%nat + n 1%nat * a 1%nat + n 2%nat * a 2%nat) - (n 2%nat * a 0%nat - n 0%nat * a 2%nat) * (n 0%nat * b 0%nat + n 1%nat * b 1%nat + n 2%nat * b 2%nat)) by ring.
    rewrite E, Ha, Hb. ring.
  - assert (E : (a 0%nat * b 1%nat - a 1%nat * b 0%nat) * (n 0%nat * n 0%nat + n 1%nat * n 1%nat + n 2%nat * n 2%nat) =
      (n 0%nat * (a 1%nat * b 2%nat - a 2%nat * b 1%nat) - n 1%nat * (a 0%nat * b 2%nat - a 2%nat * b 0%nat) + n 2%nat * (a 0%nat * b 1%nat - a 1%nat * b 0%nat)) * n 2%nat
      + (n 0%nat * b 1%nat - n 1%nat * b 0%nat) * (n 0%nat * a 0%nat + n 1%nat * a 1%nat + n 2%nat * a 2%nat) - (n 0%nat * a 1%nat - n 1%nat * a 0%nat) * (n 0%nat * b 0%nat + n 1%nat * b 1%nat + n 2%nat * b 2%nat)) by ring.
    rewrite E, Ha, Hb. ring.
Qed.

Lemma rsum_pos {A} (f : A -> R) l : l <> [] -> (forall x, In x l -> 0 < f x) -> 0 < rsum (map f l).
Proof.
  intros N H. destruct l as [|x l]; [congruence|]. clear N. unfold rsum. cbn [map fold_right].
  assert (0 <= fold_right Rplus 0 (map f l)); [|specialize (H x (or_introl eq_refl)); lra]. assert (H' : forall y, In y l -> 0 < f y) by (intros; apply H; right; assumption). clear H.
  induction l as [|y l IH]; cbn [map fold_right]; [lra|]. pose proof (H' y (or_introl eq_refl)). specialize (IH (fun z Hz => H' z (or_intror Hz))). lra.
Qed.

Lemma fan_of_vertices vs : (3 <= length vs)%nat -> forall t, In t (fan_triangles vs) -> exists i, (1 <= i)%nat /\ (i + 1 < length vs)%nat /\ t = (vertex vs 0, vertex vs i, vertex vs (i + 1)).
Proof.
  intros H t Ht. destruct vs as [|a r]; [cbn in H; lia|]. unfold fan_triangles in Ht. apply in_map_iff in Ht as ([b c] & <- & Hbc). rewrite <- windows_pairs, (windows_nth r (fun _ => 0)) in Hbc.
  apply in_map_iff in Hbc as (i & [= <- <-] & Hi). apply in_seq in Hi. cbn [length] in *. exists (S i). split; [lia|]. split; [lia|]. cbn [fst snd].
  rewrite !vertex_nth by (cbn; lia). replace (S i + 1)%nat with (S (i + 1)) by lia. reflexivity.
Qed.

(** the normal of the code is the normal *)
Lemma face_normal_ok n vs : convex_face n vs -> exists m, face_normal vs = Some m /\ forall k, m k = n (k mod 3)%nat.
Proof.
  intros (three & Hn & Pl & SC). unfold face_normal. destruct (fan_area_sum vs three) as (A & -> & HA). cbn [option_map]. eexists. split; [reflexivity|].
  set (s := rsum (map (fun t : pt * pt * pt => let '(a, b, c) := t in det n (minus b a) (minus c a) / 2) (fan_triangles vs))).
  assert (Pl' : forall i j, ip n (minus (vertex vs i) (vertex vs j)) = 0) by (intros i j; pose proof (Pl i); pose proof (Pl j); unfold ip, minus in *; lra).
  assert (E : forall k, A k = s * n (k mod 3)%nat).
  { intros k. rewrite HA. rewrite Rmult_comm. unfold s. rewrite <- rsum_scale. apply rsum_ext. intros [[a b] c] Ht. destruct (fan_of_vertices vs three _ Ht) as (i & _ & _ & [= -> -> ->]).
    rewrite (planar_cross n) by auto. lra. }
  assert (S : 0 < s).
  { apply rsum_pos.
    - destruct vs as [|a [|b [|c l]]]; [cbn in three; lia..|]. discriminate.
    - intros [[a b] c] Ht. destruct (fan_of_vertices vs three _ Ht) as (i & Hi & Hi' & [= -> -> ->]). specialize (SC i 0%nat ltac:(lia) ltac:(lia) ltac:(lia)). rewrite (Nat.mod_small (i + 1)) in SC by lia. specialize (SC ltac:(lia)).
      unfold left3 in SC. assert (Q : det n (minus (vertex vs (i + 1)) (vertex vs i)) (minus (vertex vs 0) (vertex vs i)) = det n (minus (vertex vs i) (vertex vs 0)) (minus (vertex vs (i + 1)) (vertex vs 0))) by (unfold det, minus; ring). lra. }
  assert (Nm : norm 3 A = s).
  { unfold norm. rewrite dot_ip. assert (Q : ip A A = s * s) by (transitivity (s * s * ip n n); [unfold ip; rewrite !E; cbn; ring|rewrite Hn; ring]). rewrite Q. apply sqrt_square. lra. }
  intros k. unfold normalize3. rewrite E, Nm. field. lra.
Qed.

(** ** the closest point of a face *)
Lemma normalize_ip c y : 0 < norm 3 c -> ip (normalize3 c) y = ip c y / norm 3 c.
Proof. intros H. unfold ip, normalize3. field. lra. Qed.
Lemma norm_pos c y : ip c y <> 0 -> 0 < norm 3 c.
Proof. intros H. destruct (Rle_lt_dec (norm 3 c) 0) as [L|L]; [|exact L]. exfalso. apply H, norm_zero, L. Qed.
Lemma distd_dst p q : distd 3 p q = dst p q.
Proof. unfold distd. rewrite <- norm_length2. unfold norm, dst, d2, minus. rewrite dot_ip. reflexivity. Qed.
Lemma d2_nonneg p q : 0 <= d2 p q.
Proof. unfold d2, ip. nra. Qed.
Lemma d2_sym p q : d2 p q = d2 q p.
Proof. unfold d2, ip, minus. ring. Qed.
Lemma dst_le p x q y : d2 p x <= d2 q y <-> dst p x <= dst q y.
Proof.
  unfold dst. pose proof (d2_nonneg p x). pose proof (d2_nonneg q y). split; intros L; [apply sqrt_le_1_alt, L|apply sqrt_le_0; assumption].
Qed.

Lemma dist2_nonneg a b : 0 <= dist2 a b.
Proof. unfold dist2. pose proof (pow2_ge_0 (fst a - fst b)). pose proof (pow2_ge_0 (snd a - snd b)). lra. Qed.

Lemma vertex_0 x0 r : vertex (x0 :: r) 0 = x0.
Proof. unfold vertex. rewrite Nat.mod_0_l by discriminate. reflexivity. Qed.
Definition closer (p : pt) (acc : option (pt * R)) (e : pt * pt) : option (pt * R) :=
  let q := dclosest 3 (fst e) (snd e) p in let dd := dot 3 (sub3 q p) (sub3 q p) in
  match acc with Some (_, best) => if Rlt_dec dd best then Some (q, dd) else acc | None => Some (q, dd) end.
Lemma face_closest_unfold m vs p : face_normal vs = Some m -> vs <> [] -> face_closest vs p =
  if forallb (fun e => prism_contains m e p) (edges vs) then let d := dot 3 m (sub3 p (vertex vs 0)) in Some (sub3 p (scale3 d m), Rabs d)
  else match fold_left (closer p) (edges vs) None with Some (q, b) => Some (q, sqrt b) | None => None end.
Proof. intros E N. unfold face_closest. rewrite E. destruct vs as [|x0 r]; [congruence|]. rewrite vertex_0. reflexivity. Qed.

Section Face.
  Variables (n : pt) (vs : list pt).
  Hypothesis CF : convex_face n vs.
  Let three : (3 <= length vs)%nat := proj1 CF.
  Let Hn : ip n n = 1 := proj1 (proj2 CF).
  Let Pl : forall i, ip n (minus (vertex vs i) (vertex vs 0)) = 0 := proj1 (proj2 (proj2 CF)).
  Let SC := proj2 (proj2 (proj2 CF)).
  Local Notation P := (vertex vs).

  Lemma emb_strict u : ip u u = 1 -> ip n u = 0 -> strictly_convex (map (emb n u (P 0)) vs).
  Proof.
    intros Hu Hnu. split; [rewrite map_length; exact three|]. rewrite map_length. intros i j Hi Hj N1 N2. rewrite !emb_corner by lia. rewrite (emb_left n u (P 0) Hu Hnu). apply SC; assumption.
  Qed.
  Lemma emb_all u x : ip u u = 1 -> ip n u = 0 -> left_of_all (map (emb n u (P 0)) vs) (emb n u (P 0) x) <-> forall i, (i < length vs)%nat -> 0 <= left3 n vs i x.
  Proof.
    intros Hu Hnu. unfold left_of_all. rewrite map_length. split; intros H i Hi; specialize (H i Hi); rewrite !emb_corner in * by lia; rewrite (emb_left n u (P 0) Hu Hnu) in *; exact H.
  Qed.
  Lemma face_boundary i t : 0 <= t <= 1 -> in_face n vs (mixd (P i) (P (i + 1)) t).
  Proof.
    intros Ht. split.
    - pose proof (Pl i) as A. pose proof (Pl (i + 1)) as B. transitivity ((1 - t) * ip n (minus (P i) (P 0)) + t * ip n (minus (P (i + 1)) (P 0))); [unfold ip, minus, mixd; ring|rewrite A, B; ring].
    - destruct (unit_frame n Hn) as (u & Hu & Hnu). apply (emb_all u _ Hu Hnu). rewrite emb_mix. pose proof (emb_strict u Hu Hnu) as S.
      rewrite <- !emb_corner by lia. apply boundary_inside; [exact S|rewrite map_length; exact three|exact Ht].
  Qed.
  Lemma leave_face x p : in_face n vs x -> ~ (forall i, (i < length vs)%nat -> 0 <= left3 n vs i p) ->
    exists k t, (k < length vs)%nat /\ 0 <= t <= 1 /\ d2 p (mixd (P k) (P (k + 1)) t) <= d2 p x.
  Proof.
    intros [Hx Lx] Hp. destruct (unit_frame n Hn) as (u & Hu & Hnu). pose proof (emb_strict u Hu Hnu) as S. rewrite <- (emb_all u _ Hu Hnu) in Lx. rewrite <- (emb_all u _ Hu Hnu) in Hp.
    destruct (leave _ S ltac:(rewrite map_length; exact three) _ _ Lx Hp) as (k & s & Hk & _ & Hs & (t & Ht & E) & _). rewrite map_length in Hk. exists k, t. split; [exact Hk|]. split; [exact Ht|].
    rewrite !emb_corner in E by lia. assert (E' : emb n u (P 0) (mixd (P k) (P (k + 1)) t) = mix (emb n u (P 0) x) (emb n u (P 0) p) s) by (rewrite emb_mix; symmetry; exact E). rewrite !(emb_dist n u (P 0) Hn Hu Hnu p), E'.
    assert (Hy : ip n (minus (mixd (P k) (P (k + 1)) t) (P 0)) = 0) by apply (proj1 (face_boundary k t Ht)).
    assert (E1 : ip n (minus p (mixd (P k) (P (k + 1)) t)) = ip n (minus p (P 0))) by (unfold ip, minus in *; lra). assert (E2 : ip n (minus p x) = ip n (minus p (P 0))) by (unfold ip, minus in *; lra). rewrite E1, E2.
    set (a := emb n u (P 0) p). set (b := emb n u (P 0) x). assert (Q : dist2 a (mix b a s) = (1 - s) ^ 2 * dist2 a b) by (unfold dist2, mix; cbn [fst snd]; ring). rewrite Q.
    pose proof (dist2_nonneg a b). clearbody a b. clear -H Hs. set (D := dist2 a b) in *. clearbody D. assert ((1 - s) ^ 2 <= 1) by (cbn [pow]; nra). nra.
  Qed.

  Lemma prism_ok m i p : (forall k, m k = n (k mod 3)%nat) -> (i < length vs)%nat -> prism_contains m (P i, P (i + 1)) p = true <-> 0 <= left3 n vs i p.
  Proof.
    intros Hm Hi. unfold prism_contains, hs_contains. cbn [fst snd]. rewrite dot_ip. set (e := sub3 (P (i + 1)) (P i)). set (y := fun k => p k - P i k).
    assert (D : forall z, ip (cross e m) z = - det n e z) by (intros z; unfold ip, cross, cross_comp, det; cbn; rewrite !Hm; cbn; ring).
    assert (N : 0 < norm 3 (cross e m)).
    { set (j := ((i + 2) mod length vs)%nat). assert (Hj : (j < length vs)%nat) by (apply Nat.mod_upper_bound; lia).
      assert (J1 : j <> i).
      { unfold j. intros E. destruct (Nat.lt_ge_cases (i + 2) (length vs)) as [L|L]; [rewrite Nat.mod_small in E by exact L; lia|]. replace (i + 2)%nat with (i + 2 - length vs + 1 * length vs)%nat in E by lia. rewrite Nat.mod_add in E by lia. rewrite Nat.mod_small in E by lia. lia. }
      assert (J2 : j <> ((i + 1) mod length vs)%nat).
      { unfold j. intros E. pose proof (Nat.div_mod (i + 2) (length vs) ltac:(lia)) as A. pose proof (Nat.div_mod (i + 1) (length vs) ltac:(lia)) as B. rewrite E in A. set (q1 := ((i + 2) / length vs)%nat) in *. set (q2 := ((i + 1) / length vs)%nat) in *. assert (length vs * q1 = length vs * q2 + 1)%nat by lia. assert (q1 = q2 \/ q1 < q2 \/ q2 + 1 <= q1)%nat as [?|[?|?]] by lia; nia. }
      pose proof (SC i j Hi Hj J1 J2) as L. unfold left3 in L. apply (norm_pos _ (minus (P j) (P i))). rewrite D. change e with (minus (P (i + 1)) (P i)). lra. }
    rewrite normalize_ip by exact N. rewrite D. change (det n e y) with (left3 n vs i p).
    assert (I : 0 < / norm 3 (cross e m)) by (apply Rinv_0_lt_compat, N). unfold Rdiv. split.
    - destruct (Rle_dec _ _) as [L|L]; [intros _; nra|discriminate].
    - intros L. destruct (Rle_dec _ _) as [L'|L']; [reflexivity|exfalso; apply L'; nra].
  Qed.

  Lemma closest_fold p es : forall acc, match fold_left (closer p) es acc with
    | None => acc = None /\ es = []
    | Some (q, b) => (acc = Some (q, b) \/ exists e, In e es /\ q = dclosest 3 (fst e) (snd e) p /\ b = d2 p q) /\
        (forall q' b', acc = Some (q', b') -> b <= b') /\ forall e, In e es -> b <= d2 p (dclosest 3 (fst e) (snd e) p)
    end.
  Proof.
    induction es as [|e es IH]; intros acc; cbn [fold_left].
    - destruct acc as [[q b]|]; [|split; reflexivity]. split; [left; reflexivity|]. split; [intros q' b' [= _ ->]; lra|intros e []].
    - assert (Ed : dot 3 (sub3 (dclosest 3 (fst e) (snd e) p) p) (sub3 (dclosest 3 (fst e) (snd e) p) p) = d2 p (dclosest 3 (fst e) (snd e) p)) by (rewrite dot_ip, d2_sym; reflexivity).
      specialize (IH (closer p acc e)). destruct (fold_left (closer p) es (closer p acc e)) as [[q b]|].
      + destruct IH as (H1 & H2 & H3). unfold closer in H1, H2. cbv zeta in H1, H2. rewrite Ed in *. set (q0 := dclosest 3 (fst e) (snd e) p) in *. destruct acc as [[qa ba]|].
        * destruct (Rlt_dec (d2 p q0) ba) as [L|L].
          -- pose proof (H2 _ _ eq_refl) as H2'. split; [|split].
             ++ right. destruct H1 as [[= <- <-]|(e' & I & J)]; [exists e; split; [left; reflexivity|split; reflexivity]|exists e'; split; [right; exact I|exact J]].
             ++ intros q' b' [= _ <-]. lra.
             ++ intros e' [<-|I]; [exact H2'|apply H3, I].
          -- pose proof (H2 _ _ eq_refl) as H2'. split; [|split].
             ++ destruct H1 as [H1|(e' & I & J)]; [left; exact H1|right; exists e'; split; [right; exact I|exact J]].
             ++ exact H2.
             ++ intros e' [<-|I]; [fold q0; lra|apply H3, I].
        * pose proof (H2 _ _ eq_refl) as H2'. split; [|split].
          -- right. destruct H1 as [[= <- <-]|(e' & I & J)]; [exists e; split; [left; reflexivity|split; reflexivity]|exists e'; split; [right; exact I|exact J]].
          -- intros q' b' [=].
          -- intros e' [<-|I]; [exact H2'|apply H3, I].
      + destruct IH as [E _]. unfold closer in E. cbv zeta in E. destruct acc as [[qa ba]|]; [destruct (Rlt_dec _ _)|]; discriminate.
  Qed.

  (** C73: the closest point of a convex polygon. *)
  Theorem C73_face p : exists q d, face_closest vs p = Some (q, d) /\ in_face n vs q /\ d = dst p q /\ forall x, in_face n vs x -> d <= dst p x.
  Proof.
    destruct (face_normal_ok n vs CF) as (m & Em & Hm). assert (N : vs <> []) by (intros E; pose proof three as H; rewrite E in H; cbn in H; lia). rewrite (face_closest_unfold m vs p Em N), edges_vertex.
    assert (T : forallb (fun e => prism_contains m e p) (map (fun i => (P i, P (i + 1))) (seq 0 (length vs))) = true <-> forall i, (i < length vs)%nat -> 0 <= left3 n vs i p).
    { rewrite forallb_forall. split.
      - intros H i Hi. apply (prism_ok m i p Hm Hi), H. apply in_map_iff. exists i. split; [reflexivity|]. apply in_seq. lia.
      - intros H e He. apply in_map_iff in He as (i & <- & Hi). apply in_seq in Hi. apply (prism_ok m i p Hm ltac:(lia)), H. lia. }
    assert (Em3 : forall y, ip m y = ip n y) by (intros y; unfold ip; rewrite !Hm; reflexivity).
    destruct (forallb _ _).
    - do 2 eexists. split; [reflexivity|]. rewrite dot_ip. set (h := ip m (sub3 p (P 0))).
      assert (Eh : h = ip n (minus p (P 0))) by (unfold h; rewrite Em3; reflexivity). clearbody h.
      set (q := sub3 p (scale3 h m)).
      assert (Hq : ip n (minus q (P 0)) = 0).
      { transitivity (ip n (minus p (P 0)) - h * ip m n); [unfold q, ip, sub3, scale3, minus; ring|]. rewrite Em3, Hn, Eh. ring. }
      assert (L : forall i, left3 n vs i q = left3 n vs i p).
      { intros i. unfold left3. transitivity (det n (minus (P (i + 1)) (P i)) (minus p (P i)) - h * det n (minus (P (i + 1)) (P i)) m); [unfold det, minus, q, sub3, scale3; ring|]. replace (det n (minus (P (i + 1)) (P i)) m) with 0; [ring|]. unfold det. rewrite !Hm. cbn. ring. }
      assert (Dq : d2 p q = h * h).
      { transitivity (h * h * ip m m); [unfold d2, q, ip, minus, sub3, scale3; ring|]. rewrite Em3. replace (ip n m) with (ip n n); [rewrite Hn; ring|]. unfold ip. rewrite !Hm. reflexivity. }
      assert (Ad : Rabs h = dst p q) by (unfold dst; rewrite Dq; symmetry; apply sqrt_Rsqr_abs). split.
      + split; [exact Hq|]. intros i Hi. rewrite L. apply T; [reflexivity|exact Hi].
      + split; [exact Ad|]. intros x [Hx _]. rewrite Ad. apply dst_le. rewrite Dq. destruct (unit_frame n Hn) as (u & Hu & Hnu). rewrite (emb_dist n u (P 0) Hn Hu Hnu p x).
        assert (E : ip n (minus p x) = h) by (rewrite Eh; unfold ip, minus in *; lra). rewrite E. pose proof (dist2_nonneg (emb n u (P 0) p) (emb n u (P 0) x)). nra.
    - assert (F : ~ forall i, (i < length vs)%nat -> 0 <= left3 n vs i p) by (intros H; apply T in H; discriminate).
      pose proof (closest_fold p (map (fun i => (P i, P (i + 1))) (seq 0 (length vs))) None) as C.
      destruct (fold_left _ _ None) as [[q b]|]; [|destruct C as [_ C]; apply (f_equal (@length _)) in C; rewrite map_length, seq_length in C; cbn in C; lia].
      destruct C as ([C1|(e & He & Eq & Eb)] & _ & C3); [discriminate|]. do 2 eexists. split; [reflexivity|]. apply in_map_iff in He as (i & <- & Hi). cbn [fst snd] in Eq.
      destruct (C42_closest_point 3 (P i) (P (i + 1)) p) as [(t & Ht & V) _]. rewrite <- Eq in V. pose proof (face_boundary i t Ht) as [B1 B2]. split; [|split].
      + split.
        * rewrite <- B1. unfold ip, minus. rewrite !V by lia. reflexivity.
        * intros j Hj. specialize (B2 j Hj). unfold left3 in *. replace (det _ _ (minus q (P j))) with (det n (minus (P (j + 1)) (P j)) (minus (mixd (P i) (P (i + 1)) t) (P j))); [exact B2|]. unfold det, minus. rewrite !V by lia. reflexivity.
      + rewrite Eb. reflexivity.
      + intros x Hx. destruct (leave_face x p Hx F) as (k & s & Hk & Hs & L). apply Rle_trans with (dst p (mixd (P k) (P (k + 1)) s)); [|apply dst_le, L].
        rewrite Eb. destruct (C42_closest_point 3 (P k) (P (k + 1)) p) as [_ M]. specialize (M s Hs). rewrite !distd_dst in M. apply Rle_trans with (2 := M). apply dst_le.
        rewrite <- Eb. apply (C3 (P k, P (k + 1))). apply in_map_iff. exists k. split; [reflexivity|]. apply in_seq. lia.
  Qed.
End Face.
Print Assumptions C73_face.

(** ** convex polyhedra *)
Lemma half_space_ok n m p q : (forall k, m k = n (k mod 3)%nat) -> hs_contains 3 (fun i => - m i) q p = true <-> 0 <= ip n (minus p q).
Proof.
  intros Hm. unfold hs_contains. rewrite dot_ip. assert (E : ip (fun i => - m i) (fun i => p i - q i) = - ip n (minus p q)) by (unfold ip, minus; rewrite !Hm; cbn; ring). rewrite E.
  destruct (Rle_dec _ _); split; intros; try discriminate; try reflexivity; lra.
Qed.
(** C73: containment in a polyhedron is the conjunction of the half spaces of its faces. *)
Theorem C73_contains (faces : list (pt * list pt)) p : (forall n vs, In (n, vs) faces -> convex_face n vs) ->
  exists b, polyhedron_contains (map snd faces) p = Some b /\ (b = true <-> in_body faces p).
Proof.
  induction faces as [|[n vs] faces IH]; intros CF.
  - exists true. split; [reflexivity|]. split; [intros _ n vs []|reflexivity].
  - destruct (face_normal_ok n vs (CF n vs (or_introl eq_refl))) as (m & Em & Hm). cbn [map snd polyhedron_contains]. rewrite Em.
    destruct vs as [|x0 r] eqn:Evs; [destruct (CF n [] (or_introl eq_refl)) as [H _]; cbn in H; lia|]. pose proof (half_space_ok n m p x0 Hm) as T.
    destruct (hs_contains 3 (fun i => - m i) x0 p).
    + destruct IH as (b & Eb & Hb); [intros; apply CF; right; assumption|]. exists b. split; [exact Eb|]. rewrite Hb. split.
      * intros H n' vs' [[= <- <-]|I]; [rewrite vertex_0; apply T; reflexivity|apply H, I].
      * intros H n' vs' I. apply H. right. exact I.
    + exists false. split; [reflexivity|]. split; [discriminate|]. intros H. apply T. specialize (H n (x0 :: r) (or_introl eq_refl)). rewrite vertex_0 in H. exact H.
Qed.
Print Assumptions C73_contains.

(** on the way from a point of the body to a point that is not in its interior there is a point of a face *)
Lemma leave_body (faces : list (pt * list pt)) x y : convex_body faces -> in_body faces x -> (exists n vs, In (n, vs) faces /\ ip n (minus y (vertex vs 0)) <= 0) ->
  exists n vs s, In (n, vs) faces /\ 0 <= s <= 1 /\ in_face n vs (mixd x y s).
Proof.
  intros CB Hx (n0 & vs0 & I0 & L0). set (F := fun k z => match nth_error faces k with Some (n, vs) => ip n (minus z (vertex vs 0)) | None => 1 end).
  assert (Hf : forall k, 0 <= F k x) by (intros k; unfold F; destruct (nth_error faces k) as [[n vs]|] eqn:E; [apply Hx; eapply nth_error_In; exact E|lra]).
  assert (Mix : forall k s, F k (mixd x y s) = (1 - s) * F k x + s * F k y) by (intros k s; unfold F; destruct (nth_error faces k) as [[n vs]|]; [unfold ip, minus, mixd; ring|ring]).
  destruct (argmin [(0,0);(0,0);(0,0)] ltac:(cbn; lia) (fun k => F k x / (F k x - F k y)) (fun k => F k y <= 0) (fun k => Rle_dec (F k y) 0) (length faces)) as (k & Hk & Gk & Hm).
  { destruct (In_nth_error _ _ I0) as (k & Ek). exists k. split; [apply nth_error_Some; rewrite Ek; discriminate|]. unfold F. rewrite Ek. exact L0. }
  assert (Et : forall j, F j y <= 0 -> F j x / (F j x - F j y) * (F j x - F j y) = F j x).
  { intros j Hj. pose proof (Hf j). destruct (Req_dec (F j x - F j y) 0) as [Z|Z]; [|field; exact Z]. rewrite Z, Rmult_0_r. lra. }
  cbv beta in Hm. set (s := F k x / (F k x - F k y)) in *. pose proof (Et k Gk) as Es. fold s in Es.
  assert (Hs : 0 <= s <= 1).
  { pose proof (Hf k). destruct (Req_dec (F k x - F k y) 0) as [Z|Z]; [unfold s; rewrite Z; unfold Rdiv; rewrite Rinv_0; lra|]. assert (0 < F k x - F k y) by lra. split; apply Rmult_le_reg_r with (F k x - F k y); lra. }
  destruct (nth_error faces k) as [[n vs]|] eqn:Ek; [|apply nth_error_None in Ek; lia]. exists n, vs, s. pose proof (nth_error_In _ _ Ek) as I. split; [exact I|]. split; [exact Hs|].
  apply (proj2 (CB n vs I)). split.
  - intros n' vs' I'. destruct (In_nth_error _ _ I') as (j & Ej). pose proof (Mix j s) as M. pose proof (Hf j) as Fj. unfold F in M at 1. rewrite Ej in M. rewrite M. clear M.
    destruct (Rle_lt_dec (F j y) 0) as [L|L]; [|nra]. assert (Hj : (j < length faces)%nat) by (apply nth_error_Some; rewrite Ej; discriminate). specialize (Hm j Hj L). pose proof (Et j L). nra.
  - pose proof (Mix k s) as M. unfold F in M at 1. rewrite Ek in M. rewrite M. lra.
Qed.

Definition nearer (best : option (nat * pt * R)) (i : nat) (q : pt) (d : R) : option (nat * pt * R) :=
  match best with Some (_, _, d') => if Rlt_dec d d' then Some (i, q, d) else best | None => Some (i, q, d) end.
Lemma psd_fold p (faces : list (pt * list pt)) : (forall n vs, In (n, vs) faces -> convex_face n vs) -> forall k inside best,
  exists inside' best', fold_left (psd_step p) (combine (seq k (length faces)) (map snd faces)) (Some (inside, best)) = Some (inside', best') /\
  (inside' = true <-> inside = true /\ in_body faces p) /\
  match best' with
  | None => best = None /\ faces = []
  | Some (i, q, d) => (best = Some (i, q, d) \/ exists j n vs, i = (k + j)%nat /\ nth_error faces j = Some (n, vs) /\ in_face n vs q /\ d = dst p q) /\
      (forall i' q' d', best = Some (i', q', d') -> d <= d') /\ forall n vs x, In (n, vs) faces -> in_face n vs x -> d <= dst p x
  end.
Proof.
  induction faces as [|[n vs] faces IH]; intros CF k inside best.
  - cbn. exists inside, best. split; [reflexivity|]. split; [split; [intros H; split; [exact H|intros n vs []]|intros [H _]; exact H]|].
    destruct best as [[[i q] d]|]; [|split; reflexivity]. split; [left; reflexivity|]. split; [intros i' q' d' [= _ _ ->]; lra|intros n vs x []].
  - pose proof (CF n vs (or_introl eq_refl)) as Cf. destruct (face_normal_ok n vs Cf) as (m & Em & Hm). destruct (C73_face n vs Cf p) as (q & d & Eq & Iq & Ed & Mq).
    cbn [length seq map snd combine fold_left]. unfold psd_step at 2. cbn [fst snd]. rewrite Eq, Em. fold (nearer best k q d).
    destruct (IH (fun n' vs' I => CF n' vs' (or_intror I)) (S k) (inside && hs_contains 3 (fun i => - m i) q p) (nearer best k q d)) as (inside' & best' & E & Hi & Hb).
    exists inside', best'. split; [exact E|]. split.
    + rewrite Hi, andb_true_iff, (half_space_ok n m p q Hm). assert (A : ip n (minus p q) = ip n (minus p (vertex vs 0))) by (destruct Iq as [Iq _]; unfold ip, minus in *; lra). rewrite A. split.
      * intros [[H1 H2] H3]. split; [exact H1|]. intros n' vs' [[= <- <-]|I]; [exact H2|apply H3, I].
      * intros [H1 H2]. split; [split; [exact H1|apply H2; left; reflexivity]|intros n' vs' I; apply H2; right; exact I].
    + destruct best' as [[[i q'] d']|].
      * destruct Hb as (H1 & H2 & H3). unfold nearer in H1, H2. destruct best as [[[ib qb] db]|].
        -- destruct (Rlt_dec d db) as [L|L].
           ++ pose proof (H2 _ _ _ eq_refl) as H2'. split; [|split].
              ** right. destruct H1 as [[= <- <- <-]|(j & n' & vs' & -> & I & J)]; [exists 0%nat, n, vs; split; [lia|]; split; [reflexivity|]; split; [exact Iq|exact Ed]|exists (S j), n', vs'; split; [lia|]; split; [exact I|exact J]].
              ** intros i' q'' d'' [= _ _ <-]. lra.
              ** intros n' vs' x [[= <- <-]|I] Hx; [specialize (Mq x Hx); lra|apply (H3 n' vs' x I Hx)].
           ++ pose proof (H2 _ _ _ eq_refl) as H2'. split; [|split].
              ** destruct H1 as [H1|(j & n' & vs' & -> & I & J)]; [left; exact H1|right; exists (S j), n', vs'; split; [lia|]; split; [exact I|exact J]].
              ** exact H2.
              ** intros n' vs' x [[= <- <-]|I] Hx; [specialize (Mq x Hx); lra|apply (H3 n' vs' x I Hx)].
        -- pose proof (H2 _ _ _ eq_refl) as H2'. split; [|split].
           ++ right. destruct H1 as [[= <- <- <-]|(j & n' & vs' & -> & I & J)]; [exists 0%nat, n, vs; split; [lia|]; split; [reflexivity|]; split; [exact Iq|exact Ed]|exists (S j), n', vs'; split; [lia|]; split; [exact I|exact J]].
           ++ intros i' q'' d'' [=].
           ++ intros n' vs' x [[= <- <-]|I] Hx; [specialize (Mq x Hx); lra|apply (H3 n' vs' x I Hx)].
      * destruct Hb as [Hb _]. unfold nearer in Hb. destruct best as [[[ib qb] db]|]; [destruct (Rlt_dec _ _)|]; discriminate.
Qed.

Lemma d2_zero p q : d2 p q = 0 -> p 0%nat = q 0%nat /\ p 1%nat = q 1%nat /\ p 2%nat = q 2%nat.
Proof.
  unfold d2, ip, minus. intros Z. pose proof (Rle_0_sqr (p 0%nat - q 0%nat)) as A. pose proof (Rle_0_sqr (p 1%nat - q 1%nat)) as B. pose proof (Rle_0_sqr (p 2%nat - q 2%nat)) as C. unfold Rsqr in *.
  assert (X : forall x, x * x = 0 -> x = 0) by (intros x Hx; apply Rmult_integral in Hx; lra). repeat split; apply Rminus_diag_uniq, X; lra.
Qed.

(** C73: the signed distance to a convex polyhedron. The point returned is on the face returned, at the distance returned. Inside, the distance is
    negative and no point outside the interior is closer; outside it is positive and no point of the body is closer. *)
Theorem C73_signed_distance (faces : list (pt * list pt)) p : convex_body faces -> (4 <= length faces)%nat ->
  exists i q sd n vs, polyhedron_sd (map snd faces) p = Some (i, q, sd) /\ nth_error faces i = Some (n, vs) /\ in_face n vs q /\ Rabs sd = dst p q /\
    (in_body faces p -> sd <= 0 /\ forall x, (exists n vs, In (n, vs) faces /\ ip n (minus x (vertex vs 0)) <= 0) -> - sd <= dst p x) /\
    (~ in_body faces p -> 0 < sd /\ forall x, in_body faces x -> sd <= dst p x).
Proof.
  intros CB H4. destruct (psd_fold p faces (fun n vs I => proj1 (CB n vs I)) 0 true None) as (inside & best & E & Hi & Hb).
  assert (PS : polyhedron_sd (map snd faces) p = match best with Some (i, q, d) => Some (i, q, (if inside then -1 else 1) * d) | None => None end).
  { unfold polyhedron_sd. rewrite map_length. rewrite (proj2 (Nat.ltb_ge _ _) H4).
    etransitivity; [exact (f_equal (fun r => match r with Some (inside, Some (i, q, d)) => Some (i, q, (if inside : bool then -1 else 1) * d) | _ => None end) E)|]. destruct best as [[[i q] d]|]; reflexivity. }
  rewrite PS. clear PS E. destruct best as [[[i q] d]|]; [|destruct Hb as [_ ->]; cbn in H4; lia].
  destruct Hb as ([Hb|(j & n & vs & -> & Ej & Iq & Ed)] & _ & Hmin); [discriminate|]. exists j, q, ((if inside then -1 else 1) * d), n, vs. split; [reflexivity|]. split; [exact Ej|]. split; [exact Iq|].
  assert (D0 : 0 <= d) by (rewrite Ed; apply sqrt_pos). split; [|split].
  - rewrite <- Ed. destruct inside; [replace (-1 * d) with (- d) by ring; rewrite Rabs_Ropp|rewrite Rmult_1_l]; apply Rabs_pos_eq, D0.
  - intros B. assert (inside = true) as -> by (apply Hi; split; [reflexivity|exact B]). split; [lra|]. intros x Hx. destruct (leave_body faces p x CB B Hx) as (n' & vs' & s & I & Hs & Hf).
    specialize (Hmin n' vs' _ I Hf). apply Rle_trans with (dst p (mixd p x s)); [lra|]. apply dst_le.
    assert (Q : d2 p (mixd p x s) = s * s * d2 p x) by (unfold d2, ip, minus, mixd; ring). rewrite Q. pose proof (d2_nonneg p x). assert (s * s <= 1) by nra. nra.
  - intros B. assert (inside = false) as -> by (destruct inside; [exfalso; apply B, Hi; reflexivity|reflexivity]).
    assert (Out : exists n vs, In (n, vs) faces /\ ip n (minus p (vertex vs 0)) < 0).
    { destruct (Exists_dec (fun nv : pt * list pt => ip (fst nv) (minus p (vertex (snd nv) 0)) < 0) faces (fun nv => Rlt_dec _ _)) as [X|X].
      - apply Exists_exists in X as ([n' vs'] & I & L). exists n', vs'. auto.
      - exfalso. apply B. intros n' vs' I. destruct (Rle_lt_dec 0 (ip n' (minus p (vertex vs' 0)))) as [L|L]; [exact L|]. exfalso. apply X, Exists_exists. exists (n', vs'). auto. }
    split.
    + destruct (Rle_lt_or_eq_dec 0 d D0) as [L|Z]; [lra|exfalso]. apply B. assert (Z2 : d2 p q = 0) by (apply sqrt_eq_0; [apply d2_nonneg|]; unfold dst in Ed; lra).
      pose proof (proj1 (proj1 (proj2 (CB n vs (nth_error_In _ _ Ej)) q) Iq)) as Bq. intros n' vs' I. specialize (Bq n' vs' I).
      assert (Eq3 : p 0%nat = q 0%nat /\ p 1%nat = q 1%nat /\ p 2%nat = q 2%nat) by (apply d2_zero, Z2). destruct Eq3 as (E0 & E1 & E2). unfold ip, minus in *. rewrite E0, E1, E2. exact Bq.
    + intros x Bx. destruct (leave_body faces x p CB Bx) as (n' & vs' & s & I & Hs & Hf); [destruct Out as (n' & vs' & I & L); exists n', vs'; split; [exact I|lra]|].
      specialize (Hmin n' vs' _ I Hf). apply Rle_trans with (dst p (mixd x p s)); [lra|]. apply dst_le.
      assert (Q : d2 p (mixd x p s) = (1 - s) * (1 - s) * d2 p x) by (unfold d2, ip, minus, mixd; ring). rewrite Q. pose proof (d2_nonneg p x). assert ((1 - s) * (1 - s) <= 1) by nra. nra.
Qed.
Print Assumptions C73_signed_distance.

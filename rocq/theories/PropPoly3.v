(** C64: polygons in space clipped by a half space. *)
From Coq Require Import Reals List Lra Lia Psatz Bool Arith.
From Verif Require Import CgModel CgSpec CgProofs GeomModel GeomSpec PropSeg.
Import ListNotations.
Open Scope R_scope.

(** * sums along paths of any kind of points *)
Section Path.
  Context {V : Type}.
  Definition tsum (l : list R) : R := fold_right Rplus 0 l.
  Definition psum (f : V -> V -> R) (l : list V) : R := tsum (map (fun e => f (fst e) (snd e)) (windows l)).
  Definition csum (f : V -> V -> R) (l : list V) : R := tsum (map (fun e => f (fst e) (snd e)) (edges l)).
  Lemma psum_cons f a b l : psum f (a :: b :: l) = f a b + psum f (b :: l).
  Proof. reflexivity. Qed.
  Lemma psum_app f l x m : psum f (l ++ x :: m) = psum f (l ++ [x]) + psum f (x :: m).
  Proof.
    induction l as [|a l IH]; [cbn [app]; unfold psum at 2; cbn; lra|]. destruct l as [|b l].
    - cbn [app]. rewrite !psum_cons. unfold psum at 2. cbn. lra.
    - change ((a :: b :: l) ++ x :: m) with (a :: b :: (l ++ x :: m)). change ((a :: b :: l) ++ [x]) with (a :: b :: (l ++ [x])).
      rewrite !psum_cons. change (b :: l ++ x :: m) with ((b :: l) ++ x :: m). rewrite IH. cbn [app]. lra.
  Qed.
  Lemma psum_telescope f g l a z : psum (fun x y => f x y + (g y - g x)) ((a :: l) ++ [z]) = psum f ((a :: l) ++ [z]) + (g z - g a).
  Proof.
    revert a. induction l as [|b l IH]; intros a; cbn [app].
    - rewrite !psum_cons. unfold psum; cbn. lra.
    - rewrite !psum_cons. change (b :: l ++ [z]) with ((b :: l) ++ [z]). rewrite IH. lra.
  Qed.
  Lemma csum_telescope f f' g l : (forall a b, f' a b = f a b + (g b - g a)) -> csum f' l = csum f l.
  Proof.
    intros H. transitivity (csum (fun x y => f x y + (g y - g x)) l); [unfold csum; f_equal; apply map_ext; intros e; apply H|].
    destruct l as [|a l]; [reflexivity|]. change (csum (fun x y => f x y + (g y - g x)) (a :: l)) with (psum (fun x y => f x y + (g y - g x)) ((a :: l) ++ [a])).
    rewrite psum_telescope. change (csum f (a :: l)) with (psum f ((a :: l) ++ [a])). lra.
  Qed.

  (** ** clipping in general: points with a height [d] and cuts at height zero *)
  Variable inb : V -> bool.
  Variable cutp : V -> V -> V.
  Variable good : V -> Prop.
  Variable border : V -> Prop.
  Variable w : V -> V -> R.
  Hypothesis cut_on : forall a b, good a -> good b -> inb a <> inb b -> border (cutp a b).
  Hypothesis w_zero : forall a b, border a -> border b -> w a b = 0.

  Definition gemit (e : V * V) : list V := (if inb (fst e) then [fst e] else []) ++ (if Bool.eqb (inb (fst e)) (inb (snd e)) then [] else [cutp (fst e) (snd e)]).
  Definition gpart (a b : V) : R :=
    if inb a then if inb b then w a b else w a (cutp a b) else if inb b then w (cutp a b) b else 0.
  Fixpoint glast (l : list V) (z : V) : V := match l with [] => z | b :: l => glast l b end.
  Lemma glast_snoc l a z : glast (l ++ [z]) a = z.
  Proof. revert a. induction l; intros; cbn; auto. Qed.
  Definition gemission (a : V) (l : list V) : list V := flat_map gemit (windows (a :: l)) ++ (if inb (glast l a) then [glast l a] else []).
  Lemma gemission_cons a b l : gemission a (b :: l) = gemit (a, b) ++ gemission b l.
  Proof. unfold gemission. change (windows (a :: b :: l)) with ((a, b) :: windows (b :: l)). cbn [flat_map glast]. rewrite <- app_assoc. reflexivity. Qed.
  Lemma gfirst l : forall a, good a -> Forall good l -> (inb a = true -> exists m, gemission a l = a :: m) /\
    (inb a = false -> match gemission a l with [] => True | x :: _ => border x end).
  Proof.
    induction l as [|b l IH]; intros a Ga Gl.
    - unfold gemission; cbn. destruct (inb a); split; intros; try discriminate; [eexists; reflexivity|exact I].
    - inversion Gl as [|? ? Gb Gl']; subst. rewrite gemission_cons. unfold gemit. cbn [fst snd]. destruct (IH b Gb Gl') as [I1 I2]. split; intros A; rewrite A; destruct (inb b) eqn:B; cbn [app Bool.eqb].
      + eexists; reflexivity.
      + eexists; reflexivity.
      + apply cut_on; auto. congruence.
      + apply I2. reflexivity.
  Qed.
  Lemma glast_border l : forall a, good a -> Forall good l -> inb (glast l a) = false -> forall m x, gemission a l = m ++ [x] -> border x.
  Proof.
    induction l as [|b l IH]; intros a Ga Gl Z m x H.
    - unfold gemission in H. cbn in *. rewrite Z in H. destruct m; discriminate.
    - inversion Gl as [|? ? Gb Gl']; subst. rewrite gemission_cons in H. cbn [glast] in Z. specialize (IH b Gb Gl' Z). destruct (gemission b l) as [|y k] eqn:E.
      + rewrite app_nil_r in H. destruct (inb b) eqn:B.
        * destruct (gfirst l b Gb Gl') as [I1 _]. destruct (I1 B) as [q Hq]. rewrite Hq in E. discriminate.
        * unfold gemit in H. cbn [fst snd] in H. rewrite B in H. destruct (inb a) eqn:A; cbn in H.
          -- change [a; cutp a b] with ([a] ++ [cutp a b]) in H. apply app_inj_tail in H. destruct H as [_ <-]. apply cut_on; auto. congruence.
          -- destruct m; discriminate.
      + destruct (exists_last (l := y :: k)) as (k' & z & Ek); [discriminate|]. rewrite Ek, app_assoc in H. apply app_inj_tail in H. destruct H as [_ <-].
        apply (IH k' z). exact Ek.
  Qed.
  Lemma gemission_sum l : forall a, good a -> Forall good l -> psum w (gemission a l) = psum gpart (a :: l).
  Proof.
    induction l as [|b l IH]; intros a Ga Gl.
    - unfold gemission; cbn. destruct (inb a); reflexivity.
    - inversion Gl as [|? ? Gb Gl']; subst. rewrite gemission_cons, psum_cons, <- (IH b Gb Gl'). destruct (gfirst l b Gb Gl') as [I1 I2]. unfold gemit, gpart at 1. cbn [fst snd].
      destruct (inb a) eqn:A, (inb b) eqn:B; cbn [Bool.eqb app].
      + destruct (I1 eq_refl) as [m ->]. rewrite psum_cons. reflexivity.
      + specialize (I2 eq_refl). destruct (gemission b l) as [|y m].
        * rewrite psum_cons. unfold psum; cbn. reflexivity.
        * rewrite !psum_cons. rewrite (w_zero (cutp a b) y); [lra| |exact I2]. apply cut_on; auto. congruence.
      + destruct (I1 eq_refl) as [m ->]. rewrite psum_cons. reflexivity.
      + lra.
  Qed.
  Lemma gclip_sum vs : Forall good vs -> csum w (flat_map gemit (edges vs)) = csum gpart vs.
  Proof.
    intros Gs. destruct vs as [|v l]; [reflexivity|]. inversion Gs as [|? ? Gv Gl0]; subst.
    assert (Gl : Forall good (l ++ [v])) by (apply Forall_app; auto).
    change (csum gpart (v :: l)) with (psum gpart (v :: (l ++ [v]))). rewrite <- (gemission_sum _ _ Gv Gl).
    unfold edges at 1. change ((v :: l) ++ [v]) with (v :: (l ++ [v])). unfold gemission. rewrite glast_snoc. set (ws := flat_map gemit (windows (v :: l ++ [v]))).
    destruct (inb v) eqn:A.
    - destruct (gfirst (l ++ [v]) v Gv Gl) as [I1 _]. destruct (I1 A) as [m Hm]. unfold gemission in Hm. rewrite glast_snoc, A in Hm. fold ws in Hm.
      destruct ws as [|y ws']; cbn [app] in *; injection Hm; [intros _|intros _ ->]; reflexivity.
    - rewrite app_nil_r. destruct (gfirst (l ++ [v]) v Gv Gl) as [_ I2]. specialize (I2 A). pose proof (glast_border (l ++ [v]) v Gv Gl) as L. rewrite glast_snoc in L. specialize (L A).
      unfold gemission in I2, L. rewrite glast_snoc, A, app_nil_r in I2, L. fold ws in I2, L.
      destruct ws as [|y ws']; [reflexivity|]. change (csum w (y :: ws')) with (psum w ((y :: ws') ++ [y])). destruct (exists_last (l := y :: ws')) as (m & z & E); [discriminate|].
      rewrite E in L |- *. rewrite <- app_assoc. cbn [app]. rewrite psum_app, psum_cons. rewrite (w_zero z y); [unfold psum at 2; cbn; lra| |exact I2].
      apply (L m z). reflexivity.
  Qed.
End Path.

(** * half spaces *)
Definition height (D : nat) (n x0 p : vec) : R := dot D n (fun i => p i - x0 i).
Lemma hs_iff D n x0 p : hs_contains D n x0 p = true <-> height D n x0 p <= 0.
Proof. unfold hs_contains, height. destruct (Rle_dec _ _); split; intros; try discriminate; auto; contradiction. Qed.
Lemma hs_false D n x0 p : hs_contains D n x0 p = false <-> 0 < height D n x0 p.
Proof. unfold hs_contains, height. destruct (Rle_dec _ _); split; intros; try discriminate; auto; lra. Qed.

Definition cut3 (D : nat) (n x0 a b : vec) : vec :=
  dseg_at a b (match line_plane_parametric D n x0 a (fun i => b i - a i) with Some t => clamp t 0 1 | None => 0 end).
Lemma height_seg D n x0 a b t : height D n x0 (dseg_at a b t) = (1 - t) * height D n x0 a + t * height D n x0 b.
Proof.
  unfold height. assert (E : veq D (fun i => dseg_at a b t i - x0 i) (fun i => (fun i => (fun _ => 0) i + (1 - t) * (a i - x0 i)) i + t * (b i - x0 i))) by (intros i _; unfold dseg_at; ring).
  rewrite (dot_ext D _ _ _ _ (fun _ _ => eq_refl) E), !dot_add_r, (dot_comm D n (fun _ => 0)), dot_zero. ring.
Qed.
(** the parameter of the cut *)
Lemma cut3_param D n x0 a b : hs_contains D n x0 a <> hs_contains D n x0 b -> exists t, 0 <= t <= 1 /\ cut3 D n x0 a b = dseg_at a b t /\
  t * (height D n x0 b - height D n x0 a) = - height D n x0 a.
Proof.
  intros N. set (u := height D n x0 a). set (z := height D n x0 b).
  assert (Hd : dot D (fun i => b i - a i) n = z - u).
  { rewrite dot_comm. unfold z, u, height. assert (E : veq D (fun i => b i - x0 i) (fun i => (fun i => a i - x0 i) i + 1 * (b i - a i))) by (intros i _; ring).
    rewrite (dot_ext D _ _ _ _ (fun _ _ => eq_refl) E), dot_add_r. ring. }
  assert (C : u <= 0 < z \/ z <= 0 < u).
  { destruct (hs_contains D n x0 a) eqn:A, (hs_contains D n x0 b) eqn:B; try congruence.
    - apply hs_iff in A. apply hs_false in B. left. split; assumption.
    - apply hs_false in A. apply hs_iff in B. right. split; assumption. }
  unfold cut3, line_plane_parametric. rewrite Hd. destruct (Req_EM_T (z - u) 0) as [Z|NZ]; [exfalso; lra|].
  assert (Hu : dot D (fun i => a i - x0 i) n = u) by (rewrite dot_comm; reflexivity). rewrite Hu.
  assert (R0 : 0 <= - u / (z - u) <= 1).
  { destruct C.
    - unfold Rdiv. assert (0 < / (z - u)) by (apply Rinv_0_lt_compat; lra). split; [apply Rmult_le_pos; lra|]. apply Rmult_le_reg_r with (z - u); [lra|]. rewrite Rmult_assoc, Rinv_l by lra. lra.
    - replace (- u / (z - u)) with (u * / (u - z)) by (field; lra). assert (0 < / (u - z)) by (apply Rinv_0_lt_compat; lra). split; [apply Rmult_le_pos; lra|]. apply Rmult_le_reg_r with (u - z); [lra|]. rewrite Rmult_assoc, Rinv_l by lra. lra. }
  rewrite clamp_same by exact R0. exists (- u / (z - u)). split; [exact R0|]. split; [reflexivity|]. field. lra.
Qed.
Lemma cut3_border D n x0 a b : hs_contains D n x0 a <> hs_contains D n x0 b -> height D n x0 (cut3 D n x0 a b) = 0.
Proof. intros N. destruct (cut3_param D n x0 a b N) as (t & Ht & -> & E). rewrite height_seg. lra. Qed.

Lemma clip3_emit D vs n x0 : clip3 D vs n x0 = flat_map (gemit (hs_contains D n x0) (cut3 D n x0)) (edges vs).
Proof. unfold clip3. apply flat_map_ext. intros [a b]. unfold clip3_edge, gemit, cut3. cbn [fst snd]. reflexivity. Qed.

(** vertices of the result are inside and on sides; inside vertices are kept; in any dimension *)
Lemma edges_nth {A} (vs : list A) (z : A) : edges vs = map (fun i => (nth (i mod length vs) vs z, nth ((i + 1) mod length vs) vs z)) (seq 0 (length vs)).
Proof.
  destruct vs as [|v l]; [reflexivity|]. unfold edges. rewrite (windows_nth _ z), app_length. cbn [length]. replace (S (length l) + 1 - 1)%nat with (S (length l)) by lia.
  apply map_ext_in. intros i Hi. apply in_seq in Hi. rewrite !nth_close by lia. reflexivity.
Qed.
Theorem C64_vertices D vs (n x0 : vec) :
  (forall x, In x (clip3 D vs n x0) -> inner D n (fun i => x i - x0 i) <= 0 /\
     exists a b t, (exists k, (k < length vs)%nat /\ nth_error vs k = Some a /\ nth_error vs ((k + 1) mod length vs) = Some b) /\ 0 <= t <= 1 /\ veq D x (mixd a b t)) /\
  (forall v, In v vs -> inner D n (fun i => v i - x0 i) <= 0 -> In v (clip3 D vs n x0)).
Proof.
  set (z := fun _ : nat => 0).
  assert (Eg : forall e, In e (edges vs) -> exists k, (k < length vs)%nat /\ nth_error vs k = Some (fst e) /\ nth_error vs ((k + 1) mod length vs) = Some (snd e)).
  { intros e He. rewrite (edges_nth vs z) in He. apply in_map_iff in He. destruct He as (k & <- & Hk). apply in_seq in Hk. exists k. cbn [fst snd].
    split; [lia|]. split; [|apply nth_error_nth', Nat.mod_upper_bound; lia]. rewrite Nat.mod_small by lia. apply nth_error_nth'. lia. }
  rewrite clip3_emit. split.
  - intros x Hx. apply in_flat_map in Hx. destruct Hx as ([a b] & He & Hx). specialize (Eg _ He). cbn [fst snd] in Eg. unfold gemit in Hx. cbn [fst snd] in Hx. apply in_app_iff in Hx.
    rewrite <- dot_inner. change (dot D n (fun i => x i - x0 i)) with (height D n x0 x). destruct Hx as [Hx|Hx].
    + destruct (hs_contains D n x0 a) eqn:A; [|destruct Hx]. destruct Hx as [<-|[]]. split; [apply hs_iff, A|]. exists a, b, 0. split; [exact Eg|]. split; [lra|]. intros i _. unfold mixd. ring.
    + destruct (Bool.eqb _ _) eqn:Q; [destruct Hx|]. apply eqb_false_iff in Q. destruct Hx as [<-|[]]. split; [rewrite (cut3_border D n x0 a b Q); lra|].
      destruct (cut3_param D n x0 a b Q) as (t & Ht & -> & _). exists a, b, t. split; [exact Eg|]. split; [exact Ht|]. intros i _. unfold dseg_at, mixd. ring.
  - intros v Hv Hd. apply in_flat_map. destruct (In_nth vs v z Hv) as (i & Hi & Ei).
    exists (nth (i mod length vs) vs z, nth ((i + 1) mod length vs) vs z). split; [rewrite (edges_nth vs z); apply in_map_iff; exists i; split; [reflexivity|apply in_seq; lia]|].
    rewrite (Nat.mod_small i) by exact Hi. rewrite Ei. unfold gemit. cbn [fst snd]. apply in_app_iff. left.
    rewrite <- dot_inner in Hd. apply hs_iff in Hd. rewrite Hd. left. reflexivity.
Qed.
Print Assumptions C64_vertices.

(** * the area vector *)
(** component [k] of half the sum of the cross products of consecutive vertices about the origin *)
Definition cross3 (a b : nat -> R) (k : nat) : R := a ((k + 1) mod 3)%nat * b ((k + 2) mod 3)%nat - a ((k + 2) mod 3)%nat * b ((k + 1) mod 3)%nat.
Lemma area_vector_sum vs k : area_vector vs k = csum (cross_comp k) vs / 2.
Proof.
  unfold area_vector. set (z := fun _ : nat => 0).
  assert (E : forall l acc, (forall i, In i l -> True) -> (0 < length vs)%nat -> fold_left (fun acc i => match nth_error vs (i mod length vs), nth_error vs ((i + 1) mod length vs) with
      Some a, Some b => acc + cross_comp k a b | _, _ => acc end) l acc
    = acc + tsum (map (fun i => cross_comp k (nth (i mod length vs) vs z) (nth ((i + 1) mod length vs) vs z)) l)).
  { induction l as [|i l IH]; intros acc _ L; cbn [fold_left map]; [unfold tsum; cbn; lra|].
    rewrite !(nth_error_nth' vs z) by (apply Nat.mod_upper_bound; lia). rewrite IH by auto. unfold tsum; cbn [fold_right]. lra. }
  destruct vs as [|v l]; [unfold csum, tsum; cbn; lra|]. rewrite E by (auto; cbn; lia). unfold csum. rewrite (edges_nth _ z), map_map. cbn [fst snd]. rewrite Rplus_0_l. unfold Rdiv. rewrite Rmult_1_l. reflexivity.
Qed.

(** the component of the area along [m] *)
Definition area_along (m : vec) (vs : list vec) : R := m 0%nat * area_vector vs 0 + m 1%nat * area_vector vs 1 + m 2%nat * area_vector vs 2.
Definition triple (m a b : vec) : R := m 0%nat * cross3 a b 0 + m 1%nat * cross3 a b 1 + m 2%nat * cross3 a b 2.
Lemma area_along_sum m vs p : area_along m vs = csum (fun a b => triple m (fun i => a i - p i) (fun i => b i - p i)) vs / 2.
Proof.
  rewrite (csum_telescope (fun a b => triple m a b) _ (fun x => - triple m p x)).
  2:{ intros a b. unfold triple, cross3. cbn. ring. }
  unfold area_along. rewrite !area_vector_sum. unfold csum. generalize (edges vs). intros es.
  enough (tsum (map (fun e => triple m (fst e) (snd e)) es) = m 0%nat * tsum (map (fun e => cross_comp 0 (fst e) (snd e)) es)
    + m 1%nat * tsum (map (fun e => cross_comp 1 (fst e) (snd e)) es) + m 2%nat * tsum (map (fun e => cross_comp 2 (fst e) (snd e)) es)) by lra.
  induction es as [|e es IH]; unfold tsum in *; cbn [map fold_right]; [ring|]. rewrite IH. unfold triple, cross3, cross_comp. ring.
Qed.

Lemma height3 n x0 p : height 3 n x0 p = n 0%nat * (p 0%nat - x0 0%nat) + n 1%nat * (p 1%nat - x0 1%nat) + n 2%nat * (p 2%nat - x0 2%nat).
Proof. unfold height. rewrite dot_inner. unfold inner. cbn. ring. Qed.

(** area elements about a base point [p], when those of points of the border vanish *)
Lemma conserve m p n x0 vs (planar : vec -> Prop) : (forall v, In v vs -> planar v) -> (forall a b t, planar a -> planar b -> planar (dseg_at a b t)) ->
  (forall a b, planar a -> planar b -> height 3 n x0 a = 0 -> height 3 n x0 b = 0 -> triple m (fun i => a i - p i) (fun i => b i - p i) = 0) ->
  area_along m (clip3 3 vs n x0) + area_along m (clip3 3 vs (fun i => - n i) x0) = area_along m vs.
Proof.
  intros Pl Seg W0. rewrite !(area_along_sum m _ p), !clip3_emit. set (w := fun a b : vec => triple m (fun i => a i - p i) (fun i => b i - p i)).
  assert (Hneg : forall q, height 3 (fun i => - n i) x0 q = - height 3 n x0 q) by (intros; rewrite !height3; ring).
  set (inb := hs_contains 3 n x0). set (inb' := hs_contains 3 (fun i => - n i) x0).
  assert (C1 : forall a, inb a = true <-> height 3 n x0 a <= 0) by (intros; apply hs_iff). assert (C2 : forall a, inb a = false <-> 0 < height 3 n x0 a) by (intros; apply hs_false).
  assert (C3 : forall a, inb' a = true <-> 0 <= height 3 n x0 a) by (intros; unfold inb'; rewrite hs_iff, Hneg; lra).
  assert (C4 : forall a, inb' a = false <-> height 3 n x0 a < 0) by (intros; unfold inb'; rewrite hs_false, Hneg; lra).
  set (border := fun q => planar q /\ height 3 n x0 q = 0).
  assert (B1 : forall a b, planar a -> planar b -> inb a <> inb b -> border (cut3 3 n x0 a b)).
  { intros a b Ha Hb N. split; [|apply cut3_border; exact N]. destruct (cut3_param 3 n x0 a b N) as (t & _ & -> & _). apply Seg; assumption. }
  assert (B2 : forall a b, planar a -> planar b -> inb' a <> inb' b -> border (cut3 3 (fun i => - n i) x0 a b)).
  { intros a b Ha Hb N. split.
    - destruct (cut3_param 3 _ x0 a b N) as (t & _ & -> & _). apply Seg; assumption.
    - pose proof (cut3_border 3 _ x0 a b N) as H. rewrite Hneg in H. lra. }
  assert (Z : forall a b, border a -> border b -> w a b = 0) by (intros a b [Pa Ha] [Pb Hb]; apply W0; assumption).
  assert (Fv : Forall planar vs) by (apply Forall_forall; exact Pl).
  pose proof (gclip_sum inb (cut3 3 n x0) planar border w B1 Z vs Fv) as G1. pose proof (gclip_sum inb' (cut3 3 (fun i => - n i) x0) planar border w B2 Z vs Fv) as G2.
  match type of G1 with ?x = _ => match type of G2 with ?y = _ => change (x / 2 + y / 2 = csum w vs / 2) end end. rewrite G1, G2.
  assert (E : forall a b, planar a -> planar b -> gpart inb (cut3 3 n x0) w a b + gpart inb' (cut3 3 (fun i => - n i) x0) w a b = w a b).
  { intros a b Ha Hb. unfold gpart.
    assert (Split : forall t, w a (dseg_at a b t) = t * w a b /\ w (dseg_at a b t) b = (1 - t) * w a b) by (intros; unfold w, triple, cross3, dseg_at; cbn; split; ring).
    assert (P1 : inb a <> inb b -> exists t, cut3 3 n x0 a b = dseg_at a b t /\ t * (height 3 n x0 b - height 3 n x0 a) = - height 3 n x0 a).
    { intros N. destruct (cut3_param 3 n x0 a b N) as (t & _ & E & F). exists t. auto. }
    assert (P2 : inb' a <> inb' b -> exists t, cut3 3 (fun i => - n i) x0 a b = dseg_at a b t /\ t * (height 3 n x0 b - height 3 n x0 a) = - height 3 n x0 a).
    { intros N. destruct (cut3_param 3 _ x0 a b N) as (t & _ & E & F). exists t. split; [exact E|]. rewrite !Hneg in F. lra. }
    assert (W : height 3 n x0 a = 0 -> height 3 n x0 b = 0 -> w a b = 0) by (intros; apply Z; split; assumption).
    specialize (C1 a) as C1a. specialize (C1 b) as C1b. specialize (C2 a) as C2a. specialize (C2 b) as C2b. specialize (C3 a) as C3a. specialize (C3 b) as C3b. specialize (C4 a) as C4a. specialize (C4 b) as C4b.
    revert P1 P2 C1a C1b C2a C2b C3a C3b C4a C4b W. set (u := height 3 n x0 a). set (v := height 3 n x0 b). clearbody u v.
    destruct (inb a), (inb b), (inb' a), (inb' b); intros P1 P2 [C1a _] [C1b _] [C2a _] [C2b _] [C3a _] [C3b _] [C4a _] [C4b _] W;
      repeat match goal with H : ?x = ?x -> _ |- _ => specialize (H eq_refl) end; try (exfalso; lra); try lra.
    all: try (destruct P1 as (t & -> & F); [discriminate|]; destruct (Split t) as [S1 S2]).
    all: try (destruct P2 as (t' & -> & F'); [discriminate|]; destruct (Split t') as [S1' S2']).
    all: rewrite ?S1, ?S2, ?S1', ?S2'.
    all: try (assert (t = t') as <- by (apply Rmult_eq_reg_r with (v - u); lra)).
    all: try lra.
    all: try (assert (t = 1) as -> by (apply Rmult_eq_reg_r with (v - u); lra); lra).
    all: try (assert (t = 0) as -> by (apply Rmult_eq_reg_r with (v - u); lra); lra).
    all: try (assert (t' = 1) as -> by (apply Rmult_eq_reg_r with (v - u); lra); lra).
    all: try (assert (t' = 0) as -> by (apply Rmult_eq_reg_r with (v - u); lra); lra).
    all: try (assert (w a b = 0) as Z1 by (apply W; lra); rewrite ?Z1; lra). }
  enough (csum (gpart inb (cut3 3 n x0) w) vs + csum (gpart inb' (cut3 3 (fun i => - n i) x0) w) vs = csum w vs) by lra.
  unfold csum. assert (Ed : forall e, In e (edges vs) -> planar (fst e) /\ planar (snd e)).
  { intros e He. rewrite (edges_nth vs (fun _ => 0)) in He. apply in_map_iff in He. destruct He as (k & <- & Hk). apply in_seq in Hk. cbn [fst snd].
    split; apply Pl, nth_In, Nat.mod_upper_bound; lia. }
  revert Ed. generalize (edges vs). induction l as [|e l IH]; intros Ed; unfold tsum in *; cbn [map fold_right]; [lra|].
  destruct (Ed e (or_introl eq_refl)) as [H1 H2]. rewrite <- (E _ _ H1 H2), <- IH by (intros; apply Ed; right; assumption). lra.
Qed.

(** For every polygon in space, planar or not, the area vectors of the two parts add up to that of the polygon in the
    directions along the plane: cutting only adds faces of the plane, whose area vectors are along its normal. *)
Theorem C64_area_along (vs : list vec) (n x0 m : vec) : inner 3 m n = 0 -> (exists i, (i < 3)%nat /\ n i <> 0) ->
  inner 3 m (area_vector (clip3 3 vs n x0)) + inner 3 m (area_vector (clip3 3 vs (fun i => - n i) x0)) = inner 3 m (area_vector vs).
Proof.
  intros Mn N. assert (E : forall us, inner 3 m (area_vector us) = area_along m us) by (intros; unfold inner, area_along; cbn; ring). rewrite !E.
  apply (conserve m x0 n x0 vs (fun _ => True)); auto. intros a b _ _. rewrite !height3. unfold triple, cross3. cbn. unfold inner in Mn. cbn in Mn.
  set (a0 := a 0%nat - x0 0%nat). set (a1 := a 1%nat - x0 1%nat). set (a2 := a 2%nat - x0 2%nat). set (b0 := b 0%nat - x0 0%nat). set (b1 := b 1%nat - x0 1%nat). set (b2 := b 2%nat - x0 2%nat).
  intros Ha Hb. set (d := m 0%nat * (a1 * b2 - a2 * b1) + m 1%nat * (a2 * b0 - a0 * b2) + m 2%nat * (a0 * b1 - a1 * b0)).
  assert (M : n 0%nat * m 0%nat + n 1%nat * m 1%nat + n 2%nat * m 2%nat = 0) by lra. clear Mn E.
  assert (D0 : d * n 0%nat = 0).
  { transitivity ((n 0%nat * m 0%nat + n 1%nat * m 1%nat + n 2%nat * m 2%nat) * (a1 * b2 - a2 * b1) + (n 0%nat * a0 + n 1%nat * a1 + n 2%nat * a2) * (b1 * m 2%nat - b2 * m 1%nat) + (n 0%nat * b0 + n 1%nat * b1 + n 2%nat * b2) * (m 1%nat * a2 - m 2%nat * a1)); [unfold d; ring|]. rewrite M, Ha, Hb. ring. }
  assert (D1 : d * n 1%nat = 0).
  { transitivity ((n 0%nat * m 0%nat + n 1%nat * m 1%nat + n 2%nat * m 2%nat) * (a2 * b0 - a0 * b2) + (n 0%nat * a0 + n 1%nat * a1 + n 2%nat * a2) * (b2 * m 0%nat - b0 * m 2%nat) + (n 0%nat * b0 + n 1%nat * b1 + n 2%nat * b2) * (m 2%nat * a0 - m 0%nat * a2)); [unfold d; ring|]. rewrite M, Ha, Hb. ring. }
  assert (D2 : d * n 2%nat = 0).
  { transitivity ((n 0%nat * m 0%nat + n 1%nat * m 1%nat + n 2%nat * m 2%nat) * (a0 * b1 - a1 * b0) + (n 0%nat * a0 + n 1%nat * a1 + n 2%nat * a2) * (b0 * m 1%nat - b1 * m 0%nat) + (n 0%nat * b0 + n 1%nat * b1 + n 2%nat * b2) * (m 0%nat * a1 - m 1%nat * a0)); [unfold d; ring|]. rewrite M, Ha, Hb. ring. }
  destruct N as (i & Hi & Ni). destruct i as [|[|[|]]]; [| | |lia].
  - apply Rmult_integral in D0. tauto.
  - apply Rmult_integral in D1. tauto.
  - apply Rmult_integral in D2. tauto.
Qed.
Print Assumptions C64_area_along.

(** A polygon in a plane not parallel to the cutting plane: the area vectors of the two parts add up to that of the polygon. *)
Theorem C64_area (vs : list vec) (n x0 q : vec) (c : R) : (forall v, In v vs -> inner 3 q v = c) -> (exists i, (i < 3)%nat /\ cross3 n q i <> 0) ->
  forall k, (k < 3)%nat -> area_vector (clip3 3 vs n x0) k + area_vector (clip3 3 vs (fun i => - n i) x0) k = area_vector vs k.
Proof.
  intros Pl N k Hk. set (m := fun i => if Nat.eqb i k then 1 else 0).
  assert (E : forall us, area_vector us k = area_along m us) by (intros; unfold area_along, m; destruct k as [|[|[|]]]; [| | |lia]; cbn [Nat.eqb]; ring). rewrite !E.
  set (g0 := cross3 n q 0). set (g1 := cross3 n q 1). set (g2 := cross3 n q 2).
  assert (G : 0 < g0 * g0 + g1 * g1 + g2 * g2).
  { destruct N as (i & Hi & Ni). destruct i as [|[|[|]]]; [| | |lia]; fold g0 g1 g2 in Ni; nra. }
  set (s := (c - inner 3 q x0) / (g0 * g0 + g1 * g1 + g2 * g2)).
  (* a point on both planes *)
  set (p := fun i => x0 i + s * match i with O => g1 * n 2%nat - g2 * n 1%nat | S O => g2 * n 0%nat - g0 * n 2%nat | _ => g0 * n 1%nat - g1 * n 0%nat end).
  assert (P1 : n 0%nat * (p 0%nat - x0 0%nat) + n 1%nat * (p 1%nat - x0 1%nat) + n 2%nat * (p 2%nat - x0 2%nat) = 0) by (unfold p; ring).
  assert (P2 : q 0%nat * p 0%nat + q 1%nat * p 1%nat + q 2%nat * p 2%nat = c).
  { transitivity (inner 3 q x0 + s * (g0 * g0 + g1 * g1 + g2 * g2)); [unfold p, inner, g0, g1, g2, cross3; cbn; ring|]. unfold s. field. lra. }
  apply (conserve m p n x0 vs (fun v => inner 3 q v = c)); auto.
  - assert (X : forall v, inner 3 q v = q 0%nat * v 0%nat + q 1%nat * v 1%nat + q 2%nat * v 2%nat) by (intros; unfold inner; cbn; ring).
    intros a b t. rewrite !X. intros Ha Hb. unfold dseg_at.
    transitivity ((1 - t) * (q 0%nat * a 0%nat + q 1%nat * a 1%nat + q 2%nat * a 2%nat) + t * (q 0%nat * b 0%nat + q 1%nat * b 1%nat + q 2%nat * b 2%nat)); [ring|]. rewrite Ha, Hb. ring.
  - intros a b Ha Hb. rewrite !height3. intros H1 H2. unfold inner in Ha, Hb. cbn in Ha, Hb.
    set (a0 := a 0%nat - p 0%nat). set (a1 := a 1%nat - p 1%nat). set (a2 := a 2%nat - p 2%nat). set (b0 := b 0%nat - p 0%nat). set (b1 := b 1%nat - p 1%nat). set (b2 := b 2%nat - p 2%nat).
    assert (A1 : n 0%nat * a0 + n 1%nat * a1 + n 2%nat * a2 = 0) by (unfold a0, a1, a2; lra). assert (A2 : q 0%nat * a0 + q 1%nat * a1 + q 2%nat * a2 = 0) by (unfold a0, a1, a2; lra).
    assert (B1 : n 0%nat * b0 + n 1%nat * b1 + n 2%nat * b2 = 0) by (unfold b0, b1, b2; lra). assert (B2 : q 0%nat * b0 + q 1%nat * b1 + q 2%nat * b2 = 0) by (unfold b0, b1, b2; lra).
    assert (Par : forall x0' x1 x2, n 0%nat * x0' + n 1%nat * x1 + n 2%nat * x2 = 0 -> q 0%nat * x0' + q 1%nat * x1 + q 2%nat * x2 = 0 ->
      let l := (g0 * x0' + g1 * x1 + g2 * x2) / (g0 * g0 + g1 * g1 + g2 * g2) in x0' = l * g0 /\ x1 = l * g1 /\ x2 = l * g2).
    { intros y0 y1 y2 K1 K2 l. assert (K0 : g1 * y2 - g2 * y1 = 0 /\ g2 * y0 - g0 * y2 = 0 /\ g0 * y1 - g1 * y0 = 0).
      { split; [|split].
        - transitivity (q 0%nat * (n 0%nat * y0 + n 1%nat * y1 + n 2%nat * y2) - n 0%nat * (q 0%nat * y0 + q 1%nat * y1 + q 2%nat * y2)); [unfold g0, g1, g2, cross3; cbn; ring|]. rewrite K1, K2; ring.
        - transitivity (q 1%nat * (n 0%nat * y0 + n 1%nat * y1 + n 2%nat * y2) - n 1%nat * (q 0%nat * y0 + q 1%nat * y1 + q 2%nat * y2)); [unfold g0, g1, g2, cross3; cbn; ring|]. rewrite K1, K2; ring.
        - transitivity (q 2%nat * (n 0%nat * y0 + n 1%nat * y1 + n 2%nat * y2) - n 2%nat * (q 0%nat * y0 + q 1%nat * y1 + q 2%nat * y2)); [unfold g0, g1, g2, cross3; cbn; ring|]. rewrite K1, K2; ring. }
      destruct K0 as (Z0 & Z1 & Z2). unfold l. repeat split; apply Rmult_eq_reg_r with (g0 * g0 + g1 * g1 + g2 * g2); try lra; field_simplify; try lra.
      - transitivity (y0 * (g0 * g0 + g1 * g1 + g2 * g2) - g1 * (g0 * y1 - g1 * y0) * 0); [ring|]. transitivity (y0 * (g0 * g0 + g1 * g1 + g2 * g2) + (g1 * (g0 * y1 - g1 * y0) - g2 * (g2 * y0 - g0 * y2))); [rewrite Z2, Z1; ring|ring].
      - transitivity (y1 * (g0 * g0 + g1 * g1 + g2 * g2) + (g2 * (g1 * y2 - g2 * y1) - g0 * (g0 * y1 - g1 * y0))); [rewrite Z2, Z0; ring|ring].
      - transitivity (y2 * (g0 * g0 + g1 * g1 + g2 * g2) + (g0 * (g2 * y0 - g0 * y2) - g1 * (g1 * y2 - g2 * y1))); [rewrite Z1, Z0; ring|ring]. }
    assert (exists l, a0 = l * g0 /\ a1 = l * g1 /\ a2 = l * g2) as (l & E0 & E1 & E2) by (eexists; exact (Par _ _ _ A1 A2)).
    assert (exists l, b0 = l * g0 /\ b1 = l * g1 /\ b2 = l * g2) as (l' & F0 & F1 & F2) by (eexists; exact (Par _ _ _ B1 B2)).
    unfold triple, cross3. cbn. fold a0 a1 a2 b0 b1 b2. rewrite E0, E1, E2, F0, F1, F2. ring.
Qed.
Print Assumptions C64_area.

(** Each component of the area vector is the signed area of the projection on a coordinate plane. *)
Theorem C64_projection (vs : list vec) k : (k < 3)%nat ->
  area_vector vs k = shoelace (map (fun v => (v ((k + 1) mod 3)%nat, v ((k + 2) mod 3)%nat)) vs).
Proof.
  intros Hk. rewrite area_vector_sum. unfold shoelace, sum_to, csum, tsum. rewrite (edges_nth vs (fun _ => 0)), map_map, map_length. cbn [fst snd]. f_equal. f_equal. apply map_ext_in. intros i Hi. apply in_seq in Hi.
  assert (C : forall j, corner (map (fun v : vec => (v ((k + 1) mod 3)%nat, v ((k + 2) mod 3)%nat)) vs) j
     = (nth (j mod length vs) vs (fun _ => 0) ((k + 1) mod 3)%nat, nth (j mod length vs) vs (fun _ => 0) ((k + 2) mod 3)%nat)).
  { intros j. unfold corner. rewrite map_length. change (0, 0) with ((fun v : vec => (v ((k + 1) mod 3)%nat, v ((k + 2) mod 3)%nat)) (fun _ => 0)). rewrite map_nth. reflexivity. }
  rewrite !C. cbn [fst snd]. unfold cross_comp. reflexivity.
Qed.
Print Assumptions C64_projection.

(** a square in the plane [x + z = 2] cut by [y = 1] *)
Definition square3 : list vec :=
  [(fun i => match i with O => 0 | S O => 0 | _ => 2 end); (fun i => match i with O => 2 | S O => 0 | _ => 0 end);
   (fun i => match i with O => 2 | S O => 2 | _ => 0 end); (fun i => match i with O => 0 | S O => 2 | _ => 2 end)].
Example C64_example : (forall v, In v square3 -> inner 3 (fun i => match i with S O => 0 | _ => 1 end) v = 2) /\
  cross3 (fun i => match i with S O => 1 | _ => 0 end) (fun i => match i with S O => 0 | _ => 1 end) 0 <> 0 /\
  area_vector square3 0 = 4 /\ area_vector square3 1 = 0 /\ area_vector square3 2 = 4.
Proof.
  split; [|split; [|split; [|split]]].
  - intros v [<-|[<-|[<-|[<-|[]]]]]; unfold inner; cbn; ring.
  - unfold cross3. cbn. lra.
  - unfold area_vector, cross_comp. cbn. lra.
  - unfold area_vector, cross_comp. cbn. lra.
  - unfold area_vector, cross_comp. cbn. lra.
Qed.

(** * C88: the search for the closest element finds a closest element *)
From Coq Require Import Reals List Bool Arith Lra Lia Psatz Permutation Sorted.
From Verif Require Import CgModel CgSpec CgProofs AabbModel AabbSpec GeomModel MeshModel MaterialModel ElementModel ClosestModel ClosestSpec ClosestProofs PropAabb PropClosest PropClosestTet.
Import ListNotations.
Local Open Scope R_scope.

(** ** what is assumed of the parts *)
(** The iterator of the tree yields every entry once, in the order of the distance of the boxes from the point. *)
Definition by_distance (D : nat) (neighbors : list entry -> vec -> list entry) : Prop :=
  forall tree p, Permutation (neighbors tree p) tree /\ StronglySorted (fun a b => dist2_to D (fst a) p <= dist2_to D (fst b) p) (neighbors tree p).
(** A space whose elements are the sets [K e], none empty: bounds contain the element, queries give a nearest point, which meets [Q];
    [InElement] is only reported for coordinates of the point itself. *)
Record sound (sp : search_space) (K : nat -> vec -> Prop) (Q : nat -> vec -> vec -> Prop) : Prop := {
  snd_bounds : forall e, (e < ss_elements sp)%nat -> exists box, ss_bounds sp e = Some box /\ proper (ss_dim sp) box /\ forall x, K e x -> inside (ss_dim sp) box x;
  snd_inhabited : forall e, (e < ss_elements sp)%nat -> exists x, K e x;
  snd_closest : forall e p, (e < ss_elements sp)%nat -> exists r x, ss_closest sp e p = Some r /\ ss_map sp e (closest_coords r) = Some x /\
    Q e (closest_coords r) x /\ nearest (ss_dim sp) (K e) p x /\ (r = InElement (closest_coords r) -> veq (ss_dim sp) x p) }.

Lemma dist2_inner_sym D a p x : dist2 D (closest_point_to a p) p <= dist2 D x p -> dist2 D (closest_point_to a p) p <= dist2 D p x.
Proof. intros H. rewrite (dist2_sym D p x). exact H. Qed.

(** ** entries of the tree *)
Lemma Forall2_len {A B} (P : A -> B -> Prop) l l' : Forall2 P l l' -> length l = length l'.
Proof. induction 1; cbn; congruence. Qed.
Lemma combine_seq_in {A} (l : list A) : forall k i a, In (i, a) (List.combine (seq k (length l)) l) -> (k <= i)%nat /\ nth_error l (i - k) = Some a.
Proof.
  induction l as [|b l IH]; intros k i a H; [destruct H|]. cbn in H. destruct H as [E|H].
  - injection E as <- <-. rewrite Nat.sub_diag. auto.
  - destruct (IH (S k) i a H) as [Hk E]. split; [lia|]. replace (i - k)%nat with (S (i - S k)) by lia. exact E.
Qed.
Lemma combine_seq_map {A} (l : list A) : forall k, map fst (List.combine (seq k (length l)) l) = seq k (length l).
Proof. induction l as [|b l IH]; intros k; [reflexivity|]. cbn. rewrite IH. reflexivity. Qed.

Lemma enlarged D box : proper D box -> exists big, uniformly_scale box (101 / 100) = Some big /\ proper D big /\ forall x, inside D box x -> inside D big x.
Proof.
  intros P. destruct (uniformly_scale box (101 / 100)) as [big|] eqn:E.
  - exists big. split; [reflexivity|]. destruct (C41_scale D box (101 / 100) big P E) as (_ & Pb & _ & I). split; [exact Pb|].
    intros x Hx. apply I. exists (fun i => center box i + (x i - center box i) * (100 / 101)). split.
    + intros i Hi. specialize (Hx i Hi). specialize (P i Hi). unfold center. lra.
    + intros i _. field.
  - exfalso. unfold uniformly_scale in E. destruct (Rle_dec 0 (101 / 100)); [discriminate|lra].
Qed.

(** an entry for every element, whose box contains the element *)
Lemma tree_of_space sp K Q : sound sp K Q -> exists tree, from_space sp = Some tree /\ map snd tree = seq 0 (ss_elements sp) /\
  forall box e, In (box, e) tree -> (e < ss_elements sp)%nat /\ proper (ss_dim sp) box /\ forall x, K e x -> inside (ss_dim sp) box x.
Proof.
  intros S. unfold from_space, bounds_for_all_elements.
  destruct (sequence_all (ss_bounds sp) (seq 0 (ss_elements sp)) (fun e box => (e < ss_elements sp)%nat /\ proper (ss_dim sp) box /\ forall x, K e x -> inside (ss_dim sp) box x)) as (boxes & -> & F).
  { intros e He%in_seq. destruct (snd_bounds _ _ _ S e ltac:(lia)) as (box & E & P & I). exists box. split; [exact E|]. split; [lia|auto]. }
  assert (L : length boxes = ss_elements sp) by (apply Forall2_len in F; rewrite seq_length in F; lia).
  unfold from_bounding_boxes.
  edestruct (sequence_all (fun '(i, bounding_box) => match uniformly_scale bounding_box (101 / 100) with None => None
     | Some bounding_box => option_map (fun box => (box, i)) (aabb_new (ss_dim sp) (bmin bounding_box) (bmax bounding_box)) end)
     (List.combine (seq 0 (length boxes)) boxes) (fun ib (t : entry) => snd t = fst ib /\ (fst ib < ss_elements sp)%nat /\ proper (ss_dim sp) (fst t) /\ forall x, K (fst ib) x -> inside (ss_dim sp) (fst t) x)) as (tree & Et & Ft).
  { intros [i box] Hi. apply combine_seq_in in Hi as [_ Hi]. rewrite Nat.sub_0_r in Hi.
    assert (HF : (i < ss_elements sp)%nat /\ proper (ss_dim sp) box /\ forall x, K i x -> inside (ss_dim sp) box x).
    { assert (G : forall k l bs, Forall2 (fun e box => (e < ss_elements sp)%nat /\ proper (ss_dim sp) box /\ forall x, K e x -> inside (ss_dim sp) box x) (seq k l) bs ->
        forall i b, nth_error bs i = Some b -> (k + i < ss_elements sp)%nat /\ proper (ss_dim sp) b /\ forall x, K (k + i)%nat x -> inside (ss_dim sp) b x).
      { clear. intros k l. revert k. induction l as [|l IH]; intros k bs H; inversion H; subst; intros [|i] b Hb; cbn in Hb; try discriminate.
        - injection Hb as <-. rewrite Nat.add_0_r. assumption.
        - replace (k + S i)%nat with (S k + i)%nat by lia. eapply IH; eassumption. }
      specialize (G 0%nat _ _ F i box Hi). cbn in G. exact G. }
    destruct HF as (Hlt & P & I). destruct (enlarged (ss_dim sp) box P) as (big & -> & Pb & Ib).
    destruct (aabb_new_spec (ss_dim sp) (bmin big) (bmax big)) as [[-> _]|[_ Np]].
    - cbn. eexists. split; [reflexivity|]. cbn. split; [reflexivity|]. split; [exact Hlt|]. split; [exact Pb|]. intros x Hx. apply (Ib x). now apply I.
    - exfalso. apply Np. exact Pb. }
  exists tree. split; [exact Et|]. split.
  - rewrite <- L, <- (combine_seq_map boxes 0). clear -Ft. induction Ft as [|ib t l l' (E & _) F IH]; [reflexivity|]. cbn. rewrite E, IH. reflexivity.
  - intros box e He. destruct (Forall2_in_r _ _ _ Ft _ He) as (ib & E & Hlt & P & I). cbn in *. subst e. auto.
Qed.

(** ** pruning *)
Lemma take_while_cut {A} (f : A -> bool) (le : A -> A -> Prop) l : StronglySorted le l -> (forall a b, le a b -> f b = true -> f a = true) ->
  forall a, In a l -> f a = true -> In a (take_while f l).
Proof.
  intros S Mono. induction S as [|b l S IH H]; intros a I E; [destruct I|]. cbn. destruct I as [->|I].
  - rewrite E. left. reflexivity.
  - rewrite (Mono b a); [right; apply IH; assumption| |exact E]. rewrite Forall_forall in H. now apply H.
Qed.
Lemma take_while_incl {A} (f : A -> bool) l a : In a (take_while f l) -> In a l.
Proof. induction l as [|b l IH]; [auto|]. cbn. destruct (f b); [|intros []]. intros [->|I]; [left; reflexivity|right; auto]. Qed.

Section search.
Variables (sp : search_space) (K : nat -> vec -> Prop) (Q : nat -> vec -> vec -> Prop) (neighbors : list entry -> vec -> list entry) (p : vec).
Hypotheses (S : sound sp K Q) (By : by_distance (ss_dim sp) neighbors).
Local Notation D := (ss_dim sp).
Local Notation n := (ss_elements sp).

(** an element that is not a candidate is farther away than every point of the first box *)
Lemma candidates_complete tree : map snd tree = seq 0 n -> (forall box e, In (box, e) tree -> (e < n)%nat /\ proper D box /\ forall x, K e x -> inside D box x) ->
  let cs := closest_cell_candidates neighbors D tree p in
  (forall e, In e cs -> (e < n)%nat) /\ (n = 0%nat <-> cs = []) /\
  forall e, (e < n)%nat -> ~ In e cs -> exists e0, In e0 cs /\ forall x y, K e x -> K e0 y -> dist2 D p y < dist2 D p x.
Proof.
  intros Keys T. unfold closest_cell_candidates. destruct (By tree p) as [Perm Sort]. cbn zeta.
  destruct (neighbors tree p) as [|[box0 e0] rest] eqn:E.
  - apply Permutation_nil in Perm. subst tree. cbn in Keys. assert (n = 0%nat) by (apply (f_equal (@length nat)) in Keys; rewrite seq_length in Keys; cbn in Keys; lia).
    split; [intros e []|]. split; [tauto|]. intros e He. lia.
  - set (near := fun e : entry => rleb (dist2_to D (fst e) p) (max_dist2_to D box0 p)).
    assert (In0 : In (box0, e0) tree) by (eapply Permutation_in; [exact Perm|left; reflexivity]).
    destruct (T box0 e0 In0) as (H0 & P0 & I0).
    assert (First : near (box0, e0) = true).
    { unfold near. cbn [fst]. destruct (rleb_spec (dist2_to D box0 p) (max_dist2_to D box0 p)) as [|N]; [reflexivity|exfalso]. apply N.
      destruct (C41_closest D box0 p P0) as (Ic & _ & Ed & _). destruct (C41_furthest D box0 p P0) as (_ & M & Em & _). rewrite Ed, Em. now apply M. }
    assert (In_e0 : In e0 (map snd (take_while near ((box0, e0) :: rest)))) by (cbn; rewrite First; left; reflexivity).
    split; [|split].
    + intros e He. apply in_map_iff in He as ([box e'] & <- & I). apply take_while_incl in I. apply (T box). eapply Permutation_in; [exact Perm|exact I].
    + split; [lia|]. intros Nil. rewrite Nil in In_e0. destruct In_e0.
    + intros e He Nin. exists e0. split; [exact In_e0|].
      assert (Ie : exists box, In (box, e) tree).
      { assert (Hs : In e (map snd tree)) by (rewrite Keys; apply in_seq; lia). apply in_map_iff in Hs as ([box e'] & <- & I). exists box. exact I. }
      destruct Ie as (box & Ie). destruct (T box e Ie) as (_ & P & I).
      assert (Far : near (box, e) = false).
      { destruct (near (box, e)) eqn:Nr; [|reflexivity]. exfalso. apply Nin. apply in_map_iff. exists (box, e). split; [reflexivity|].
        apply take_while_cut with (le := fun a b : entry => dist2_to D (fst a) p <= dist2_to D (fst b) p); [exact Sort| | |exact Nr].
        - intros a b Le Hb. unfold near in *. destruct (rleb_spec (dist2_to D (fst b) p) (max_dist2_to D box0 p)); [|discriminate].
          destruct (rleb_spec (dist2_to D (fst a) p) (max_dist2_to D box0 p)) as [|N]; [reflexivity|exfalso; apply N; lra].
        - eapply Permutation_in; [symmetry; exact Perm|exact Ie]. }
      unfold near in Far. cbn [fst] in Far. destruct (rleb_spec (dist2_to D box p) (max_dist2_to D box0 p)) as [|N]; [discriminate|].
      intros x y Hx Hy. destruct (C41_closest D box p P) as (_ & Mc & Ed & _). destruct (C41_furthest D box0 p P0) as (_ & Mf & Em & _).
      specialize (Mc x (I x Hx)). specialize (Mf y (I0 y Hy)). rewrite (dist2_sym D p y), (dist2_sym D p x). lra.
Qed.

(** the loop keeps the best of the candidates seen so far *)
Definition best (seen : list nat) (min_dist2 : option R) (result : option (nat * vec)) : Prop :=
  match result with
  | None => seen = [] /\ min_dist2 = None
  | Some (e, xi) => exists x, In e seen /\ ss_map sp e xi = Some x /\ Q e xi x /\ min_dist2 = Some (dist2 D p x) /\ forall e' y, In e' seen -> K e' y -> dist2 D p x <= dist2 D p y
  end.
Lemma loop_best cs : forall seen m r, (forall e, In e (seen ++ cs) -> (e < n)%nat) -> best seen m r ->
  match closest_loop sp p cs m r with
  | None => False
  | Some None => seen ++ cs = []
  | Some (Some (e, xi)) => exists x, In e (seen ++ cs) /\ ss_map sp e xi = Some x /\ Q e xi x /\ forall e' y, In e' (seen ++ cs) -> K e' y -> dist2 D p x <= dist2 D p y
  end.
Proof.
  induction cs as [|c cs IH]; intros seen m r Hn B; cbn [closest_loop].
  - rewrite app_nil_r. destruct r as [[e xi]|]; [|exact (proj1 B)]. destruct B as (x & I & Mx & Qx & _ & Bx). exists x. auto.
  - destruct (snd_closest _ _ _ S c p) as (rc & x & Ec & Ex & Qx & Nx & Inx); [apply Hn, in_or_app; right; left; reflexivity|]. rewrite Ec.
    assert (Ic : In c (seen ++ c :: cs)) by (apply in_or_app; right; left; reflexivity).
    destruct rc as [xi|xi]; cbn [closest_coords] in *.
    + exists x. split; [exact Ic|]. split; [exact Ex|]. split; [exact Qx|]. intros e' y _ _.
      rewrite (proj2 (dist2_zero D p x)); [apply dist2_nonneg|]. intros i Hi. symmetry. now apply Inx.
    + rewrite Ex, dist2_squared, dist2_sym.
      replace (seen ++ c :: cs) with ((seen ++ [c]) ++ cs) in * by (rewrite <- app_assoc; reflexivity).
      assert (New : (forall e' y, In e' seen -> K e' y -> dist2 D p x <= dist2 D p y) -> best (seen ++ [c]) (Some (dist2 D p x)) (Some (c, xi))).
      { intros Old. exists x. split; [apply in_or_app; right; left; reflexivity|]. split; [exact Ex|]. split; [exact Qx|]. split; [reflexivity|].
        intros e' y I Hy. apply in_app_or in I as [I|[<-|[]]]; [now apply (Old e')|now apply Nx]. }
      destruct r as [[e1 x1]|].
      * destruct B as (z & Iz & Mz & Qz & -> & Bz). destruct (rleb_spec (dist2 D p x) (dist2 D p z)) as [Le|Nle].
        -- apply IH; [exact Hn|]. apply New. intros e' y I Hy. specialize (Bz e' y I Hy). lra.
        -- apply IH; [exact Hn|]. exists z. split; [apply in_or_app; left; exact Iz|]. split; [exact Mz|]. split; [exact Qz|]. split; [reflexivity|].
           intros e' y I Hy. apply in_app_or in I as [I|[<-|[]]]; [now apply (Bz e')|]. specialize (Nx y Hy). lra.
      * destruct B as [-> ->]. apply IH; [exact Hn|]. apply New. intros e' y [].
Qed.

Theorem C88_search : 
  (n = 0%nat -> find_closest neighbors sp p = Some None) /\
  (n <> 0%nat -> exists e xi x, find_closest neighbors sp p = Some (Some (e, xi)) /\ (e < n)%nat /\ ss_map sp e xi = Some x /\ Q e xi x /\
    forall e' y, (e' < n)%nat -> K e' y -> dist2 D p x <= dist2 D p y).
Proof.
  unfold find_closest. destruct (tree_of_space _ _ _ S) as (tree & -> & Keys & T). unfold find_closest_element.
  destruct (candidates_complete tree Keys T) as (Hn & Empty & Far). set (cs := closest_cell_candidates neighbors D tree p) in *.
  assert (Start : best [] None None) by (split; reflexivity).
  pose proof (loop_best cs [] None None Hn Start) as L. cbn [app] in L. split; intros N.
  - rewrite (proj1 Empty N) in *. reflexivity.
  - destruct (closest_loop sp p cs None None) as [[[e xi]|]|]; [|exfalso; tauto|destruct L].
    destruct L as (x & Ie & Mx & Qx & Bx). exists e, xi, x. split; [reflexivity|]. split; [now apply Hn|]. split; [exact Mx|]. split; [exact Qx|].
    intros e' y He' Hy. destruct (in_dec Nat.eq_dec e' cs) as [I|I]; [now apply (Bx e')|].
    destruct (Far e' He' I) as (e0 & I0 & F0). destruct (snd_inhabited _ _ _ S e0 (Hn e0 I0)) as (y0 & Hy0). specialize (F0 y y0 Hy Hy0). specialize (Bx e0 y0 I0 Hy0). lra.
Qed.
End search.
Print Assumptions C88_search.

(** ** meshes *)
Definition corners_of (k : kind) : nat := match k with Tri3d2 | Tri3d3 => 3 | Tet4 => 4 end.
Definition reference_of (k : kind) : list vec := map pt (match k with Tri3d2 | Tri3d3 => tri3_ref | Tet4 => tet4_ref end).
(** every cell has the right number of vertices and they exist *)
Definition well_formed (m : mesh) : Prop := forall cell, In cell (m_cells m) -> length cell = corners_of (m_kind m) /\ forall i, In i cell -> (i < length (m_vertices m))%nat.
Definition cell_vertices (m : mesh) (e : nat) : list vec := map (fun i => nth i (m_vertices m) (fun _ => 0)) (nth e (m_cells m) []).
(** the points of an element: the triangle or tetrahedron with its vertices *)
Definition in_element (m : mesh) (e : nat) (x : vec) : Prop := hull 0 (kind_dim (m_kind m)) (cell_vertices m e) x.

Lemma mesh_element_ok m e : well_formed m -> (e < length (m_cells m))%nat -> mesh_element m e = Some (cell_vertices m e) /\ length (cell_vertices m e) = corners_of (m_kind m).
Proof.
  intros W He. unfold mesh_element, cell_vertices. destruct (nth_error (m_cells m) e) as [cell|] eqn:E; [|apply nth_error_None in E; lia].
  destruct (W cell (nth_error_In _ _ E)) as [L B]. rewrite (nth_error_nth _ _ [] E). rewrite map_length. split; [|exact L]. clear -B.
  induction cell as [|i cell IH]; [reflexivity|]. cbn. rewrite (nth_error_nth' (m_vertices m) (fun _ => 0)) by (apply B; left; reflexivity).
  rewrite IH by (intros j Hj; apply B; right; exact Hj). reflexivity.
Qed.
Lemma mean_between vs w k lo hi : (forall v, In v vs -> lo <= v k <= hi) -> weighting 0 (length vs) w -> lo <= mean w vs k <= hi.
Proof.
  intros H [W T]. unfold mean.
  assert (B : forall i, (i < length vs)%nat -> w i * lo <= w i * nth i vs (fun _ => 0) k <= w i * hi).
  { intros i Hi. specialize (H _ (nth_In vs (fun _ => 0) Hi)). specialize (W i Hi). nra. }
  assert (E : forall c, total (length vs) (fun i => w i * c) = c).
  { intros c. transitivity (total (length vs) (fun i => c * w i)); [apply total_ext; intros; ring|]. rewrite total_scale. transitivity (c * 1); [f_equal; exact T|ring]. }
  split; [rewrite <- (E lo)|rewrite <- (E hi)]; apply total_le; intros i Hi; apply B; exact Hi.
Qed.
Lemma bounds_ok m e : well_formed m -> (e < length (m_cells m))%nat ->
  exists box, mesh_bounds m e = Some box /\ proper (kind_dim (m_kind m)) box /\ forall x, in_element m e x -> inside (kind_dim (m_kind m)) box x.
Proof.
  intros W He. destruct (mesh_element_ok m e W He) as [E L]. unfold mesh_bounds, element_bounds. rewrite E.
  destruct (C41_from_points (kind_dim (m_kind m)) (cell_vertices m e)) as (box & -> & P & I & _); [intros Z; rewrite Z in L; destruct (m_kind m); discriminate|].
  exists box. split; [reflexivity|]. split; [exact P|]. intros x (w & Ww & X) i Hi. rewrite (X i Hi). apply mean_between; [|exact Ww]. intros v Hv. exact (I v Hv i Hi).
Qed.
Lemma first_vertex m e : well_formed m -> (e < length (m_cells m))%nat -> exists x, in_element m e x.
Proof.
  intros W He. destruct (mesh_element_ok m e W He) as [_ L]. set (w := fun i : nat => if (i =? 0)%nat then 1 else 0). exists (mean w (cell_vertices m e)), w. split; [|intros i _; reflexivity].
  split; [intros i _; unfold w; destruct (i =? 0)%nat; lra|]. rewrite L. unfold w. destruct (m_kind m); cbn; lra.
Qed.
Lemma closest_ok epsilon m e p : 0 <= epsilon -> well_formed m -> (e < length (m_cells m))%nat -> exists r x, mesh_closest epsilon m e p = Some r /\ mesh_map m e (closest_coords r) = Some x /\
  located (2 * epsilon) (kind_dim (m_kind m)) (reference_of (m_kind m)) (cell_vertices m e) (closest_coords r) x /\ nearest (kind_dim (m_kind m)) (in_element m e) p x /\
  (r = InElement (closest_coords r) -> veq (kind_dim (m_kind m)) x p).
Proof.
  intros Heps W He. destruct (mesh_element_ok m e W He) as [E L]. unfold mesh_closest, mesh_map, in_element. rewrite E. cbn [option_map].
  destruct (m_kind m); cbn [corners_of kind_closest kind_dim kind_element reference_of] in *.
  - destruct (cell_vertices m e) as [|a [|b [|c [|]]]]; try discriminate. destruct (C87_tri3d2 epsilon a b c p Heps) as (r & Er & Lo & N & I & _). exists r. eexists. split; [exact Er|]. split; [reflexivity|].
    split; [exact Lo|]. split; [exact N|]. intros H. exact (proj1 (I H)).
  - destruct (cell_vertices m e) as [|a [|b [|c [|]]]]; try discriminate. destruct (C87_tri3d3 epsilon a b c p Heps) as (xi & Er & Lo & N). exists (ClosestPoint xi). eexists. split; [exact Er|]. split; [reflexivity|].
    split; [exact Lo|]. split; [exact N|]. discriminate.
  - destruct (cell_vertices m e) as [|a [|b [|c [|d [|]]]]]; try discriminate. destruct (C87_tet4 epsilon a b c d p Heps) as (r & Er & Lo & N & I & _). exists r. eexists. split; [exact Er|]. split; [reflexivity|].
    split; [exact Lo|]. split; [exact N|]. intros H. exact (proj1 (I H)).
Qed.

Theorem C88_mesh epsilon m neighbors p : 0 <= epsilon -> well_formed m -> by_distance (kind_dim (m_kind m)) neighbors ->
  (m_cells m = [] -> find_closest neighbors (mesh_space epsilon m) p = Some None) /\
  (m_cells m <> [] -> exists e xi x, find_closest neighbors (mesh_space epsilon m) p = Some (Some (e, xi)) /\ (e < length (m_cells m))%nat /\ mesh_map m e xi = Some x /\
    located (2 * epsilon) (kind_dim (m_kind m)) (reference_of (m_kind m)) (cell_vertices m e) xi x /\
    forall e' y, (e' < length (m_cells m))%nat -> in_element m e' y -> dist2 (kind_dim (m_kind m)) p x <= dist2 (kind_dim (m_kind m)) p y).
Proof.
  intros Heps W By.
  assert (S : sound (mesh_space epsilon m) (in_element m) (fun e xi x => located (2 * epsilon) (kind_dim (m_kind m)) (reference_of (m_kind m)) (cell_vertices m e) xi x)).
  { split; cbn [mesh_space ss_dim ss_elements ss_bounds ss_closest ss_map].
    - intros e He. now apply bounds_ok.
    - intros e He. now apply first_vertex.
    - intros e q He. now apply closest_ok. }
  destruct (C88_search (mesh_space epsilon m) _ _ neighbors p S By) as [Z N]. cbn [mesh_space ss_dim ss_elements ss_map] in Z, N. split.
  - intros E. apply Z. rewrite E. reflexivity.
  - intros E. apply N. intros L. apply length_zero_iff_nil in L. contradiction.
Qed.
Print Assumptions C88_mesh.

(** without a tolerance the answer is a point of the mesh, and a point of the mesh finds itself *)
Theorem C88_exact m neighbors p : well_formed m -> by_distance (kind_dim (m_kind m)) neighbors -> m_cells m <> [] ->
  exists e xi x, find_closest neighbors (mesh_space 0 m) p = Some (Some (e, xi)) /\ mesh_map m e xi = Some x /\ (e < length (m_cells m))%nat /\ in_element m e x /\
    nearest (kind_dim (m_kind m)) (fun y => exists e', (e' < length (m_cells m))%nat /\ in_element m e' y) p x /\
    ((exists e', (e' < length (m_cells m))%nat /\ in_element m e' p) -> veq (kind_dim (m_kind m)) x p).
Proof.
  intros W By Ne. destruct (C88_mesh 0 m neighbors p (Rle_refl 0) W By) as [_ H]. destruct (H Ne) as (e & xi & x & E & He & Mx & (w & [Ww T] & _ & X) & Min).
  exists e, xi, x. split; [exact E|]. split; [exact Mx|]. split; [exact He|]. split; [|split].
  - exists w. split; [split; [intros i Hi; specialize (Ww i Hi); lra|exact T]|exact X].
  - intros y (e' & He' & Hy). now apply (Min e').
  - intros (e' & He' & Hp). specialize (Min e' p He' Hp). rewrite (proj2 (dist2_zero _ p p)) in Min by (intros i _; reflexivity).
    pose proof (dist2_nonneg (kind_dim (m_kind m)) p x). assert (Z : dist2 (kind_dim (m_kind m)) p x = 0) by lra. apply dist2_zero in Z. intros i Hi. symmetry. auto.
Qed.
Print Assumptions C88_exact.

(** ** an iterator that meets the contract: sort the entries *)
Fixpoint insert_entry (D : nat) (p : vec) (e : entry) (l : list entry) : list entry :=
  match l with [] => [e] | a :: l => if Rle_dec (dist2_to D (fst e) p) (dist2_to D (fst a) p) then e :: a :: l else a :: insert_entry D p e l end.
Definition sorted_neighbors (D : nat) (tree : list entry) (p : vec) : list entry := fold_right (insert_entry D p) [] tree.
Lemma insert_perm D p e l : Permutation (insert_entry D p e l) (e :: l).
Proof. induction l as [|a l IH]; cbn; [reflexivity|]. destruct (Rle_dec _ _); [reflexivity|]. rewrite IH. apply perm_swap. Qed.
Lemma sorted_by_distance D : by_distance D (sorted_neighbors D).
Proof.
  intros tree p. unfold sorted_neighbors. induction tree as [|e tree [P S]]; cbn [fold_right]; [split; constructor|].
  split; [rewrite insert_perm; now constructor|]. clear P. induction S as [|a l S IH H]; cbn.
  - constructor; constructor.
  - destruct (Rle_dec (dist2_to D (fst e) p) (dist2_to D (fst a) p)) as [Le|N].
    + constructor; [now constructor|]. constructor; [exact Le|]. eapply Forall_impl; [|exact H]. cbn. intros b Hb. lra.
    + constructor; [exact IH|]. rewrite Forall_forall in *. intros b Hb. apply (Permutation_in _ (insert_perm D p e l)) in Hb. destruct Hb as [<-|Hb]; [lra|now apply H].
Qed.

(** two triangles; the point beyond the second one gets the corner (2, 0) of it *)
Definition two_triangles : mesh := Mesh Tri3d2 [pt [0; 0]; pt [1; 0]; pt [0; 1]; pt [2; 0]; pt [2; 1]] [[0; 1; 2]; [1; 3; 4]]%nat.
Example C88_example : exists e xi x, find_closest (sorted_neighbors 2) (mesh_space 0 two_triangles) (pt [3; -1]) = Some (Some (e, xi)) /\
  mesh_map two_triangles e xi = Some x /\ e = 1%nat /\ veq 2 x (pt [2; 0]).
Proof.
  destruct (C88_exact two_triangles (sorted_neighbors 2) (pt [3; -1])) as (e & xi & x & E & Mx & He & (w & [W T] & X) & N & _).
  { intros cell [<-|[<-|[]]]; (split; [reflexivity|]); cbn; intros i Hi; lia. }
  { apply sorted_by_distance. }
  { discriminate. }
  exists e, xi, x. split; [exact E|]. split; [exact Mx|].
  assert (H : dist2 2 (pt [3; -1]) x <= dist2 2 (pt [3; -1]) (pt [2; 0])).
  { apply N. exists 1%nat. split; [cbn; lia|]. exists (fun i => nth i [0; 1; 0] 0). split; [split|].
    + intros [|[|[|i]]] Hi; cbn in *; try lia; lra.
    + cbn. lra.
    + intros [|[|k]] Hk; [| |cbn in Hk; lia]; unfold mean; cbn; unfold pt; cbn [nth]; lra. }
  rewrite <- !dist2_squared in H. unfold distance_squared in H. cbn [dot] in H. unfold pt in H. cbn [nth] in H.
  cbn [two_triangles m_cells length] in He. pose proof (X 0%nat ltac:(cbn; lia)) as X0. pose proof (X 1%nat ltac:(cbn; lia)) as X1.
  destruct e as [|[|e]]; [exfalso| |lia]; unfold mean, cell_vertices in X0, X1, W, T; cbn [two_triangles m_cells m_vertices nth map length total] in X0, X1, W, T; unfold pt in X0, X1; cbn [nth] in X0, X1;
    pose proof (W 0%nat ltac:(lia)); pose proof (W 1%nat ltac:(lia)); pose proof (W 2%nat ltac:(lia)).
  - assert (x 0%nat <= 1) by lra. assert (0 <= x 1%nat) by lra. nra.
  - assert (x 0%nat <= 2) by lra. assert (0 <= x 1%nat) by lra. split; [reflexivity|]. intros [|[|k]] Hk; [| |lia]; unfold pt; cbn [nth]; nra.
Qed.

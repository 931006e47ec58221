(** C93: exporting meshes to VTK. *)
From Coq Require Import NArith ZArith Reals Lra Lia String Ascii List.
From Verif Require Import ElementModel IoModel IoSpec PropMsh.
Import ListNotations.
Local Open Scope N_scope.

(** Specification. A cell [l] is exported as [l']: with the same corners, with nodes of the cell only and none twice, and so that in every straight-sided cell all
    nodes are where VTK expects them. *)
Definition exported (c : conn) (l l' : list N) : Prop :=
  let groups := vtk_groups (vtk_cell_type c) in
  (forall j, nth j groups [] = [j] -> nth j l' 0 = nth j l 0) /\ incl l' l /\ (NoDup l -> NoDup l') /\
  forall P : N -> nat -> R, straight (element_of c) (map P l) ->
  forall k, (k < List.length groups)%nat -> forall a, P (nth k l' 0) a = mean (map P l') (nth k groups []) a.

(** how many nodes of a cell are exported *)
Definition exported_len (c : conn) : nat := match c with Quad9d2 => 9 | _ => List.length (vtk_groups (vtk_cell_type c)) end%nat.

Definition order (c : conn) : list nat :=
  match c with Tet10 => seq 0 8 ++ [9; 8]%nat | Tet20 => seq 0 4 | Hex20 | Hex27 => seq 0 8 ++ hex_edge_order | _ => seq 0 (conn_len c) end.
Ltac split_list l Hl := repeat (destruct l as [|? l]; [discriminate Hl|]); destruct l; [|discriminate Hl].
Lemma write_order c l : List.length l = conn_len c -> write_vtk_connectivity c l (repeat 0 (vtk_num_nodes c)) = Ok (map (fun k => nth k l 0) (order c)).
Proof. intros Hl. destruct c; split_list l Hl; reflexivity. Qed.
Lemma order_props c : List.length (order c) = exported_len c /\ NoDup (order c) /\ (forall k, In k (order c) <-> (k < exported_len c)%nat) /\ (exported_len c <= conn_len c)%nat.
Proof.
  assert (Hcheck : forall l n, List.length l = n -> forallb (fun k => Nat.ltb k n) l = true -> forallb (fun k => existsb (Nat.eqb k) l) (seq 0 n) = true ->
    List.length l = n /\ NoDup l /\ (forall k, In k l <-> (k < n)%nat)).
  { intros l n Hl Hb Ha. assert (Hin : forall k, In k l <-> (k < n)%nat).
    { intros k. split; intros H.
      - rewrite forallb_forall in Hb. apply Nat.ltb_lt, Hb, H.
      - rewrite forallb_forall in Ha. specialize (Ha k ltac:(apply in_seq; lia)). apply existsb_exists in Ha as [x [Hx E]]. apply Nat.eqb_eq in E. congruence. }
    split; [exact Hl|]. split; [|exact Hin]. apply (NoDup_incl_NoDup (l := seq 0 n)); [apply seq_NoDup | rewrite seq_length; lia | intros k Hk; apply Hin; apply in_seq in Hk; lia]. }
  assert (Hle : (exported_len c <= conn_len c)%nat) by (destruct c; cbn; lia).
  destruct (Hcheck (order c) (exported_len c)) as [H1 [H2 H3]]; try (destruct c; reflexivity). repeat split; try assumption; apply H3.
Qed.
Lemma mean_map {A} (P : A -> nat -> R) d l g a : Forall (fun j => (j < List.length l)%nat) g -> mean (map P l) g a = (fold_right Rplus 0 (map (fun j => P (nth j l d) a) g) / INR (List.length g))%R.
Proof.
  intros H. unfold mean. f_equal. f_equal. induction H as [|j g Hj _ IH]; [reflexivity|]. cbn [map]. f_equal; [|exact IH].
  rewrite (nth_indep _ _ (P d)) by (rewrite map_length; exact Hj). rewrite map_nth. reflexivity.
Qed.
Lemma nth_order c l k : (k < exported_len c)%nat -> nth k (map (fun k => nth k l 0) (order c)) 0 = nth (nth k (order c) 0%nat) l 0.
Proof.
  intros Hk. destruct (order_props c) as [Hlen _]. rewrite (nth_indep _ 0 (nth 0 l 0)) by (rewrite map_length, Hlen; exact Hk).
  apply (map_nth (fun k => nth k l 0) (order c) 0%nat k).
Qed.
Lemma order_exported c l : List.length l = conn_len c -> exported c l (map (fun k => nth k l 0) (order c)).
Proof.
  intros Hl. destruct (order_props c) as [Hlen [Hnd [Hin Hle]]]. unfold exported.
  assert (Hgr : (List.length (vtk_groups (vtk_cell_type c)) <= exported_len c)%nat) by (destruct c; cbn; lia).
  split; [|split; [|split]].
  - intros j Hj. destruct (Nat.lt_ge_cases j (List.length (vtk_groups (vtk_cell_type c)))) as [h|h]; [|rewrite nth_overflow in Hj by exact h; discriminate].
    rewrite nth_order by lia. f_equal. revert Hj. clear -h.
    destruct c; cbn in h; do 20 (destruct j as [|j]; [reflexivity || discriminate|]); lia.
  - intros x Hx. apply in_map_iff in Hx as [k [<- Hk]]. apply nth_In. apply Hin in Hk. lia.
  - intros Hl'. clear -Hnd Hin Hl Hl' Hle. assert (Hlt : Forall (fun k => (k < List.length l)%nat) (order c)) by (apply Forall_forall; intros k Hk; apply Hin in Hk; lia).
    revert Hnd Hlt. clear Hin. generalize (order c). intros o. induction o as [|k o IH]; intros Hnd Hlt; [constructor|].
    inversion Hnd as [|? ? Hk Hnd']; subst. inversion Hlt as [|? ? Hklt Hlt']; subst. cbn. constructor; [|apply IH; assumption].
    intros Hx. apply in_map_iff in Hx as [k' [E Hk']]. rewrite Forall_forall in Hlt'. rewrite NoDup_nth in Hl'. apply Hl' in E; [congruence | apply Hlt', Hk' | exact Hklt].
  - intros P [Hln HP] k Hk a.
    assert (Hst : forall i, (i < List.length (el_ref (element_of c)))%nat -> P (nth i l 0) a = el_map (element_of c) (map P l) (pt (nth i (el_ref (element_of c)) [])) a).
    { intros i Hi. rewrite <- (HP i Hi a). f_equal. rewrite (nth_indep _ (fun _ => 0%R) (P 0)) by (rewrite Hln; exact Hi). rewrite map_nth. reflexivity. }
    rewrite (mean_map P 0).
    2: { apply Forall_forall. intros j Hj. rewrite map_length, Hlen. clear -Hj Hk. destruct c; cbn in Hk; do 20 (destruct k as [|k]; [cbn in *; lia|]); lia. }
    clear HP Hln Hin Hnd Hle Hgr. 
    rewrite nth_order by (destruct c; cbn in Hk |- *; lia).
    destruct c; split_list l Hl; cbn in Hk;
      do 20 (destruct k as [|k];
        [first [exfalso; lia | match goal with |- P (nth (nth ?k ?o _) ?l _) _ = _ => let i := eval cbv in (nth k o 0%nat) in let H := fresh "H" in
           assert (H := Hst i ltac:(cbn; lia)); change (nth k o 0%nat) with i; clear Hst;
           cbv -[Rplus Rmult Rminus Rdiv Ropp IZR Rinv] in H |- *; first [field | rewrite H; field] end]|]); exfalso; lia.
Qed.

Lemma Forall2_map_l {A B} (f : A -> B) (Q : A -> B -> Prop) l : (forall a, In a l -> Q a (f a)) -> Forall2 Q l (map f l).
Proof. induction l as [|a l IH]; intros H; cbn; constructor; [apply H; left; reflexivity | apply IH; intros b Hb; apply H; right; exact Hb]. Qed.
Lemma for_each_u32 l : for_each try_u32 l = if forallb fits_u32 l then Ok l else Err.
Proof.
  induction l as [|n l IH]; [reflexivity|]. cbn [for_each forallb]. unfold try_u32 at 1. destruct (fits_u32 n); [|reflexivity]. cbn [bind andb]. rewrite IH. destruct (forallb fits_u32 l); reflexivity.
Qed.
Lemma for_each_if {A B} (g : A -> outcome B) (h : A -> B) (ok : A -> bool) l : (forall a, In a l -> g a = if ok a then Ok (h a) else Err) ->
  for_each g l = if forallb ok l then Ok (map h l) else Err.
Proof.
  induction l as [|a l IH]; intros H; [reflexivity|]. cbn [for_each forallb map]. rewrite (H a (or_introl eq_refl)). destruct (ok a); [|reflexivity]. cbn [bind andb].
  rewrite IH by (intros b Hb; apply H; right; exact Hb). destruct (forallb ok l); reflexivity.
Qed.
Lemma build_cell_eq c l : List.length l = conn_len c ->
  build_cell c l = if forallb fits_u32 (firstn (exported_len c) l) then Ok (N.of_nat (exported_len c) :: map (fun k => nth k l 0) (order c), vtk_cell_type c) else Err.
Proof.
  intros Hl. unfold build_cell. assert (En : vtk_num_nodes c = exported_len c) by (destruct c; reflexivity).
  replace (try_u32 (N.of_nat (vtk_num_nodes c))) with (@Ok N (N.of_nat (exported_len c))) by (destruct c; reflexivity). cbn [bind].
  rewrite write_order by exact Hl. cbn [bind]. rewrite for_each_u32.
  replace (forallb fits_u32 (map (fun k => nth k l 0) (order c))) with (forallb fits_u32 (firstn (exported_len c) l)); [destruct (forallb fits_u32 _); reflexivity|].
  destruct (order_props c) as [_ [_ [Hin Hle]]]. apply Bool.eq_iff_eq_true. rewrite !forallb_forall. split; intros H x Hx.
  - apply in_map_iff in Hx as [k [<- Hk]]. apply Hin in Hk. apply H. rewrite <- (firstn_skipn (exported_len c) l) at 1.
    rewrite app_nth1 by (rewrite firstn_length; lia). apply nth_In. rewrite firstn_length. lia.
  - apply (In_nth _ _ 0) in Hx as [k [Hk <-]]. rewrite firstn_length in Hk. assert (Hk' : (k < exported_len c)%nat) by lia.
    replace (nth k (firstn (exported_len c) l) 0) with (nth k l 0) by (rewrite <- (firstn_skipn (exported_len c) l) at 1; apply app_nth1; rewrite firstn_length; lia).
    apply H. apply in_map_iff. exists k. split; [reflexivity | apply Hin, Hk'].
Qed.
Lemma legacy_concat (cs : list (list N)) : legacy (List.concat (map (fun l => N.of_nat (List.length l) :: l) cs)) cs.
Proof. induction cs as [|l cs IH]; cbn; constructor; exact IH. Qed.
Lemma padded_flat {T} (zero : T) vs : Forall (fun v => (List.length v <= 3)%nat) vs -> padded zero (flat_map (fun v => v ++ repeat zero (3 - List.length v)) vs) vs.
Proof. induction 1; cbn; constructor; assumption. Qed.

(** Building never panics for a mesh in at most three dimensions. It fails exactly if a node that is exported does not fit 32 bits; otherwise the points are the
    vertices, padded with zeros, the cells are in the legacy format the cells of the mesh in the order of VTK, one type for each, and the data are those added. *)
Theorem C93_build {T} (zero : T) d c (b : builder T) : (d <= 3)%nat ->
  Forall (fun v => List.length v = d) (bu_vertices b) -> Forall (fun l => List.length l = conn_len c) (bu_cells b) ->
  (try_build zero d c b = Err /\ exists l i, In l (bu_cells b) /\ In i (firstn (exported_len c) l) /\ 2 ^ 32 <= i) \/
  (Forall (fun l => Forall (fun i => i < 2 ^ 32) (firstn (exported_len c) l)) (bu_cells b) /\
   exists p cells, try_build zero d c b = Ok p /\ padded zero (pc_points p) (bu_vertices b) /\ legacy (pc_vertices p) cells /\
     Forall2 (fun l l' => exported c l l' /\ List.length l' = exported_len c) (bu_cells b) cells /\
     pc_types p = repeat (vtk_cell_type c) (List.length (bu_cells b)) /\ pc_num_cells p = N.of_nat (List.length (bu_cells b)) mod 2 ^ 32 /\
     pc_point_data p = bu_points b /\ pc_cell_data p = bu_cell_data b).
Proof.
  intros Hd Hv Hcells. unfold try_build. replace (Nat.leb d 3) with true by (symmetry; apply Nat.leb_le, Hd). cbn [negb].
  rewrite (for_each_if (build_cell c) (fun l => (N.of_nat (exported_len c) :: map (fun k => nth k l 0) (order c), vtk_cell_type c)) (fun l => forallb fits_u32 (firstn (exported_len c) l)))
    by (intros l Hl; apply build_cell_eq; rewrite Forall_forall in Hcells; apply Hcells, Hl).
  destruct (forallb _ (bu_cells b)) eqn:E.
  - right. split.
    { rewrite forallb_forall in E. apply Forall_forall. intros l Hl. specialize (E l Hl). rewrite forallb_forall in E. apply Forall_forall. intros i Hi. apply N.ltb_lt. apply E, Hi. }
    cbn [bind]. eexists. exists (map (fun l => map (fun k => nth k l 0) (order c)) (bu_cells b)). split; [reflexivity|]. cbn [pc_points pc_vertices pc_types pc_num_cells pc_point_data pc_cell_data].
    destruct (order_props c) as [Hlen _].
    split; [apply padded_flat; revert Hv; apply Forall_impl; lia|]. split.
    { rewrite map_map. cbn [fst].
      replace (map (fun l => N.of_nat (exported_len c) :: map (fun k => nth k l 0) (order c)) (bu_cells b))
        with (map (fun l => N.of_nat (List.length l) :: l) (map (fun l => map (fun k => nth k l 0) (order c)) (bu_cells b))); [apply legacy_concat|].
      rewrite map_map. apply map_ext. intros l. rewrite map_length, Hlen. reflexivity. }
    split; [apply Forall2_map_l; intros l Hl; rewrite Forall_forall in Hcells; split; [apply order_exported, Hcells, Hl | rewrite map_length; exact Hlen]|].
    split; [|repeat split]. rewrite map_map. cbn [snd]. clear. induction (bu_cells b) as [|l cs IH]; [reflexivity|]. cbn. f_equal. exact IH.
  - left. split; [reflexivity|]. clear -E. induction (bu_cells b) as [|l cs IH]; [discriminate|]. cbn [forallb] in E. apply Bool.andb_false_iff in E as [E|E].
    + assert (Hex : exists i, In i (firstn (exported_len c) l) /\ fits_u32 i = false).
      { clear -E. induction (firstn (exported_len c) l) as [|i m IH]; [discriminate|]. cbn in E. apply Bool.andb_false_iff in E as [E|E]; [exists i; split; [left; reflexivity | exact E]|].
        destruct (IH E) as [j [Hj Ej]]. exists j. split; [right; exact Hj | exact Ej]. }
      destruct Hex as [i [Hi Ei]]. exists l, i. split; [left; reflexivity|]. split; [exact Hi|]. apply N.ltb_ge, Ei.
    + destruct (IH E) as [l' [i [Hl' Hi]]]. exists l', i. split; [right; exact Hl' | exact Hi].
Qed.
Print Assumptions C93_build.

(** A list in the legacy format and padded points can be read in one way only, the latter for a fixed dimension. *)
Theorem C93_unambiguous : (forall l cs cs', legacy l cs -> legacy l cs' -> cs = cs') /\
  (forall T (zero : T) d l vs vs', Forall (fun v => List.length v = d) vs -> Forall (fun v => List.length v = d) vs' -> padded zero l vs -> padded zero l vs' -> vs = vs').
Proof.
  assert (Happ : forall A (a b c d : list A), List.length a = List.length b -> a ++ c = b ++ d -> a = b /\ c = d).
  { intros A a. induction a as [|x a IH]; intros [|y b] c d Hl E; try discriminate; [split; [reflexivity | exact E]|]. cbn in E. injection E as -> E.
    destruct (IH b c d) as [-> ->]; [injection Hl as Hl; exact Hl | exact E | split; reflexivity]. }
  split.
  - intros l cs cs' H. revert cs'. induction H as [|c l cs _ IH]; intros cs' H'; inversion H' as [|c' l' cs0 H0 E1 E2]; subst; [reflexivity|].
    assert (El : List.length c' = List.length c) by lia. match goal with E : c' ++ _ = c ++ _ |- _ => destruct (Happ _ _ _ _ _ El E) as [-> ->] end. f_equal. apply IH, H0.
  - intros T zero d l vs vs' Hv Hv' H. revert vs' Hv'. induction H as [|v l vs Hvl Hp IH]; intros vs' Hv' H'; inversion H' as [|v' l' vs0 Hv0 H0 E1 E2]; subst; try reflexivity.
    + exfalso. match goal with E : _ = [] |- _ => apply (f_equal (@List.length T)) in E; rewrite !app_length, repeat_length in E; cbn [List.length] in E; match type of Hv0 with (List.length ?w <= 3)%nat => destruct (List.length w) as [|[|[|]]]; lia end end.
    + exfalso. match goal with E : [] = _ |- _ => apply (f_equal (@List.length T)) in E; rewrite !app_length, repeat_length in E; cbn [List.length] in E; match type of Hvl with (List.length ?w <= 3)%nat => destruct (List.length w) as [|[|[|]]]; lia end end.
    + inversion Hv as [|? ? Ed Hv1]; subst. inversion Hv' as [|? ? Ed' Hv2]; subst. rewrite <- !app_assoc in E1. destruct (Happ _ v' v _ _ Ed' E1) as [-> E2].
      apply app_inv_head in E2. subst l'. f_equal. apply IH; assumption.
Qed.
Print Assumptions C93_unambiguous.

(** The number of nodes of a cell is the one of its VTK type, except for nine-node quadrilaterals: they are exported as quadratic quadrilaterals, which have eight. *)
Theorem C93_size c : c <> Quad9d2 -> exported_len c = List.length (vtk_groups (vtk_cell_type c)).
Proof. destruct c; intros H; try reflexivity. contradiction. Qed.
Print Assumptions C93_size.
(** The type has the corners of the element, so its shape and dimension: the reference element of the code is that of VTK scaled from [0, 1] to [-1, 1]. *)
Theorem C93_type c : firstn (el_corners (element_of c)) (el_ref (element_of c)) = map (map (fun y => 2 * y - 1)%R) (vtk_corners (vtk_cell_type c)).
Proof. destruct c; cbn; repeat first [reflexivity | progress f_equal | lra]. Qed.
Print Assumptions C93_type.
Theorem C93_size_refuted : exists (b : builder Z) p, try_build 0%Z 2 Quad9d2 b = Ok p /\ pc_types p = [QuadraticQuad] /\ pc_vertices p = 9 :: [0; 1; 2; 3; 4; 5; 6; 7; 8].
Proof. exists (from_mesh (repeat [0; 0]%Z 9) [[0; 1; 2; 3; 4; 5; 6; 7; 8]]). eexists. split; [reflexivity|]. split; reflexivity. Qed.
Print Assumptions C93_size_refuted.

(** Vector data need as many entries as components times vertices, and at most three components; they are stored padded with zeros. Scalar data need
    as many entries as components times vertices or cells, and a number of components that fits 32 bits. Everything else stays as it is. *)
Theorem C93_vectors {T} (zero : T) (b : builder T) name k a :
  match with_point_vector_attributes zero b name k a with
  | Ok b' => List.length a = (k * List.length (bu_vertices b))%nat /\ (k <= 3)%nat /\
      exists data rows, b' = Builder (bu_vertices b) (bu_cells b) (bu_points b ++ [DataArray name None data]) (bu_cell_data b) (bu_title b) /\
        padded zero data rows /\ List.concat rows = a /\ List.length rows = List.length (bu_vertices b) /\ Forall (fun r => List.length r = k) rows
  | Err => False
  | Panic => List.length a <> (k * List.length (bu_vertices b))%nat \/ (3 < k)%nat
  end.
Proof.
  unfold with_point_vector_attributes. destruct (Nat.eqb_spec (List.length a) (k * List.length (bu_vertices b))) as [Hl|Hl]; [|left; exact Hl]. cbn [negb].
  destruct (Nat.leb_spec k 3) as [Hk|Hk]; [|right; exact Hk]. cbn [negb]. split; [exact Hl|]. split; [exact Hk|]. set (n := List.length (bu_vertices b)) in *.
  set (row i := map (fun j => nth (k * i + j) a zero) (seq 0 k)).
  assert (Hrow : forall i, List.length (row i) = k) by (intros i; unfold row; rewrite map_length, seq_length; reflexivity).
  eexists. exists (map row (seq 0 n)). split; [reflexivity|]. split.
  { change (padded zero (flat_map (fun i => row i ++ repeat zero (3 - k)) (seq 0 n)) (map row (seq 0 n))).
    replace (flat_map (fun i => row i ++ repeat zero (3 - k)) (seq 0 n)) with (flat_map (fun v => v ++ repeat zero (3 - List.length v)) (map row (seq 0 n))).
    - apply padded_flat, Forall_forall. intros v Hv. apply in_map_iff in Hv as [i [<- _]]. rewrite Hrow. exact Hk.
    - induction (seq 0 n) as [|i s IH]; [reflexivity|]. cbn [map flat_map]. rewrite IH, Hrow. reflexivity. }
  split; [|split; [rewrite map_length, seq_length; reflexivity | apply Forall_forall; intros v Hv; apply in_map_iff in Hv as [i [<- _]]; apply Hrow]].
  assert (Hpre : forall m, (k * m <= List.length a)%nat -> List.concat (map row (seq 0 m)) = firstn (k * m) a).
  { induction m as [|m IH]; intros Hm; [rewrite Nat.mul_0_r; reflexivity|]. rewrite seq_S, map_app, concat_app, IH by nia. cbn [map List.concat Nat.add]. rewrite app_nil_r.
    replace (k * S m)%nat with (k * m + k)%nat by nia. rewrite <- (firstn_skipn (k * m) a) at 2. rewrite firstn_app, firstn_firstn, firstn_length, Nat.min_r, Nat.min_l by nia.
    replace (k * m + k - k * m)%nat with k by lia. f_equal. unfold row. apply (nth_ext _ _ zero zero); [rewrite map_length, seq_length, firstn_length, skipn_length; nia|].
    intros j Hj. rewrite map_length, seq_length in Hj. rewrite (nth_indep _ zero (nth (k * m + 0) a zero)) by (rewrite map_length, seq_length; exact Hj).
    rewrite (map_nth (fun j => nth (k * m + j) a zero)), seq_nth by exact Hj. cbn [Nat.add].
    transitivity (nth j (skipn (k * m) a) zero).
    - rewrite <- (firstn_skipn (k * m) a) at 1. rewrite app_nth2 by (rewrite firstn_length; nia). f_equal. rewrite firstn_length. nia.
    - rewrite <- (firstn_skipn k (skipn (k * m) a)) at 1. apply app_nth1. rewrite firstn_length, skipn_length. nia. }
  rewrite Hpre by lia. rewrite <- Hl. apply firstn_all.
Qed.
Print Assumptions C93_vectors.
Theorem C93_scalars {T} (b : builder T) name k a :
  (forall b', with_point_scalar_attributes b name k a = Ok b' <->
    N.of_nat (List.length a) = k * N.of_nat (List.length (bu_vertices b)) /\ k < 2 ^ 32 /\
    b' = Builder (bu_vertices b) (bu_cells b) (bu_points b ++ [DataArray name (Some k) a]) (bu_cell_data b) (bu_title b)) /\
  (forall b', with_cell_scalar_attributes b name k a = Ok b' <->
    N.of_nat (List.length a) = k * N.of_nat (List.length (bu_cells b)) /\ k < 2 ^ 32 /\
    b' = Builder (bu_vertices b) (bu_cells b) (bu_points b) (bu_cell_data b ++ [DataArray name (Some k) a]) (bu_title b)).
Proof.
  unfold with_point_scalar_attributes, with_cell_scalar_attributes, fits_u32. split; intros b'; match goal with |- context [N.of_nat (List.length a) =? ?x] => destruct (N.eqb_spec (N.of_nat (List.length a)) x) end; cbn [negb];
    try (split; [discriminate | intros [? _]; contradiction]); (destruct (N.ltb_spec k (2 ^ 32)); cbn [negb]; [|split; [discriminate | intros [_ [? _]]; lia]]);
    (split; [intros E; injection E as <-; repeat split; assumption | intros [_ [_ ->]]; reflexivity]).
Qed.
Print Assumptions C93_scalars.

(** Whatever calls made the builder: all data arrays of the data set have one row per point or cell. *)
Inductive reachable {T} (zero : T) (vs : list (list T)) (cs : list (list N)) : builder T -> Prop :=
| reach_new : reachable zero vs cs (from_mesh vs cs)
| reach_title b t : reachable zero vs cs b -> reachable zero vs cs (with_title b t)
| reach_vectors b b' name k a : reachable zero vs cs b -> with_point_vector_attributes zero b name k a = Ok b' -> reachable zero vs cs b'
| reach_points b b' name k a : reachable zero vs cs b -> with_point_scalar_attributes b name k a = Ok b' -> reachable zero vs cs b'
| reach_cells b b' name k a : reachable zero vs cs b -> with_cell_scalar_attributes b name k a = Ok b' -> reachable zero vs cs b'.
Definition rows {T} (n : nat) (x : data_array T) : Prop :=
  N.of_nat (List.length (da_data x)) = match da_comps x with Some k => k * N.of_nat n | None => 3 * N.of_nat n end.
Theorem C93_data {T} (zero : T) d c vs cs b p : reachable zero vs cs b -> Forall (fun v => List.length v = d) vs -> try_build zero d c b = Ok p ->
  bu_vertices b = vs /\ bu_cells b = cs /\ List.length (pc_points p) = (3 * List.length vs)%nat /\ List.length (pc_types p) = List.length cs /\
  Forall (rows (List.length vs)) (pc_point_data p) /\ Forall (rows (List.length cs)) (pc_cell_data p).
Proof.
  intros Hr Hv Hb.
  assert (Hpad : forall (l : list T) rs, padded zero l rs -> List.length l = (3 * List.length rs)%nat).
  { intros l rs. induction 1 as [|v l' rs' Hl _ IH]; [reflexivity|]. rewrite !app_length, repeat_length, IH. cbn [List.length]. destruct (List.length v) as [|[|[|[|]]]]; lia. }
  assert (Hinv : bu_vertices b = vs /\ bu_cells b = cs /\ Forall (rows (List.length vs)) (bu_points b) /\ Forall (rows (List.length cs)) (bu_cell_data b)).
  { clear Hb p. induction Hr as [|b t _ IH|b b' name k a _ IH E|b b' name k a _ IH E|b b' name k a _ IH E].
    - repeat split; constructor.
    - exact IH.
    - destruct IH as [E1 [E2 [H1 H2]]]. pose proof (C93_vectors zero b name k a) as H. rewrite E in H. destruct H as [_ [_ [data [rs [-> [Hp [_ [Hl _]]]]]]]].
      cbn. repeat split; try assumption. apply Forall_app. split; [exact H1|]. constructor; [|constructor]. unfold rows. cbn [da_data da_comps]. apply Hpad in Hp. rewrite Hl, E1 in Hp. lia.
    - destruct IH as [E1 [E2 [H1 H2]]]. apply (proj1 (C93_scalars b name k a)) in E as [Hl [_ ->]]. cbn. repeat split; try assumption.
      apply Forall_app. split; [exact H1|]. constructor; [|constructor]. unfold rows. cbn. rewrite Hl, E1. reflexivity.
    - destruct IH as [E1 [E2 [H1 H2]]]. apply (proj2 (C93_scalars b name k a)) in E as [Hl [_ ->]]. cbn. repeat split; try assumption.
      apply Forall_app. split; [exact H2|]. constructor; [|constructor]. unfold rows. cbn. rewrite Hl, E2. reflexivity. }
  destruct Hinv as [E1 [E2 [H1 H2]]]. split; [exact E1|]. split; [exact E2|]. unfold try_build in Hb. destruct (Nat.leb_spec d 3) as [Hd|]; [|discriminate]. cbn [negb] in Hb.
  apply bind_ok in Hb as [cells [Hc Hb]]. injection Hb as <-. cbn [pc_points pc_types pc_point_data pc_cell_data]. split.
  - rewrite E1. apply Hpad, padded_flat. revert Hv. apply Forall_impl. lia.
  - split; [|split; assumption]. rewrite map_length. apply for_each_ok in Hc. rewrite <- E2. clear -Hc. induction Hc; [reflexivity|]. cbn. f_equal. assumption.
Qed.
Print Assumptions C93_data.

(** The version is the one of the XML format exactly for the extension vtu, in lower or upper case letters. *)
Theorem C93_version e : export_version (Some e) = (1, 0) <->
  exists a b c, e = String a (String b (String c EmptyString)) /\ In a ["v"; "V"]%char /\ In b ["t"; "T"]%char /\ In c ["u"; "U"]%char.
Proof.
  assert (Hlow : forall x y z, In (x, (y, z)) [("v", ("v", "V")); ("t", ("t", "T")); ("u", ("u", "U"))]%char -> forall a, ascii_lower a = x <-> In a [y; z]).
  { intros x y z H a. cbn in H. repeat destruct H as [H|H]; try contradiction; injection H as <- <- <-; split;
      try (intros [<-|[<-|[]]]; reflexivity);
      (destruct a as [b0 b1 b2 b3 b4 b5 b6 b7]; destruct b0, b1, b2, b3, b4, b5, b6, b7; intros E; try (discriminate E); cbn; tauto). }
  unfold export_version. destruct (String.eqb_spec (lower e) "vtu") as [E|E].
  - split; [intros _|reflexivity]. destruct e as [|a [|b [|c [|x e]]]]; try discriminate E. cbn in E. injection E as E1 E2 E3. exists a, b, c.
    split; [reflexivity|]. split; [|split]; [apply (Hlow "v"%char) | apply (Hlow "t"%char) | apply (Hlow "u"%char)]; try assumption; cbn; tauto.
  - split; [discriminate|]. intros [a [b [c [-> [Ha [Hb Hc]]]]]]. exfalso. apply E. cbn. f_equal; [|f_equal; [|f_equal]].
    + apply (Hlow "v" "v" "V")%char; [cbn; tauto | exact Ha].
    + apply (Hlow "t" "t" "T")%char; [cbn; tauto | exact Hb].
    + apply (Hlow "u" "u" "U")%char; [cbn; tauto | exact Hc].
Qed.
Print Assumptions C93_version.

(** Two triangles in the plane with one vector per vertex; and the ten nodes of a tetrahedron, of which the last two are exchanged. *)
Example C93_example :
  match with_point_vector_attributes 0%Z (from_mesh [[0; 0]; [1; 0]; [0; 1]; [1; 1]]%Z [[0; 1; 2]; [1; 3; 2]]) "u" 2 [1; 2; 3; 4; 5; 6; 7; 8]%Z with
  | Ok b => try_build 0%Z 2 Tri3d2 b = Ok (Piece [0; 0; 0; 1; 0; 0; 0; 1; 0; 1; 1; 0]%Z 2 [3; 0; 1; 2; 3; 1; 3; 2] [Triangle; Triangle] [DataArray "u" None [1; 2; 0; 3; 4; 0; 5; 6; 0; 7; 8; 0]%Z] [])
  | _ => False
  end
  /\ write_vtk_connectivity Tet10 [0; 1; 2; 3; 4; 5; 6; 7; 8; 9] (repeat 0 10) = Ok [0; 1; 2; 3; 4; 5; 6; 7; 9; 8]
  /\ build_cell Segment2d2 [0; 2 ^ 32] = Err.
Proof. split; [reflexivity|]. split; reflexivity. Qed.

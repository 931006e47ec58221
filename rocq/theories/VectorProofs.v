(** Proofs about serial vector assembly, gather and scatter. *)
From stdpp Require Import base list list_numbers.
From Coq Require Import Lia ZArith.
From Verif Require Import Prelude NestedVecModel NestedVecSpec NestedVecProofs ParadisModel ParadisSpec
  ParadisProofs ColoringProofs VectorModel VectorSpec.

Set Default Proof Using "Type".
Section proofs.
Context {T E : Type} (add : T -> T -> T) (zero : T) (umax : nat).
Notation upd := (upd add).
Implicit Types (us : list (nat * T)) (out : list T).

(** Values added at location [d] by a list of updates. *)
Definition touching (d : nat) us : list T := omap (fun u => if decide (u.1 = d) then Some u.2 else None) us.

Lemma touching_app d us1 us2 : touching d (us1 ++ us2) = touching d us1 ++ touching d us2.
Proof. apply omap_app. Qed.

Lemma touching_concat d uss : touching d (concat uss) = concat (map (touching d) uss).
Proof. induction uss as [|us uss IH]; simpl; [done|]. by rewrite touching_app, IH. Qed.

Lemma touching_nil d us : d ∉ map fst us -> touching d us = [].
Proof.
  induction us as [|[i v] us IH]; simpl; [done|]. intros H. apply not_elem_of_cons in H as [H1 H2].
  rewrite decide_False by done. auto.
Qed.

Lemma upd_length out u : length (upd out u) = length out.
Proof. apply alter_length. Qed.

Lemma upds_length us out : length (foldl upd out us) = length out.
Proof. revert out. induction us as [|u us IH]; intros out; simpl; [done|]. by rewrite IH, upd_length. Qed.

Lemma upds_lookup us out d : foldl upd out us !! d = (fun x => foldl add x (touching d us)) <$> out !! d.
Proof.
  revert out. induction us as [|[i v] us IH]; intros out; simpl.
  - by destruct (out !! d).
  - rewrite IH. unfold VectorModel.upd. simpl. destruct (decide (i = d)) as [->|Hne].
    + rewrite list_lookup_alter. by destruct (out !! d).
    + rewrite list_lookup_alter_ne by done. by destruct (out !! d).
Qed.

Lemma upds_ext us1 us2 out : (forall d, touching d us1 = touching d us2) -> foldl upd out us1 = foldl upd out us2.
Proof. intros H. apply list_eq. intros d. by rewrite !upds_lookup, H. Qed.

Lemma touching_block d off (xs : list T) :
  touching d (block_updates off xs) = if decide (off <= d) then option_list (xs !! (d - off)) else [].
Proof.
  unfold block_updates. revert off. induction xs as [|x xs IH]; intros off; simpl.
  - by destruct (decide (off <= d)).
  - rewrite IH. destruct (decide (off = d)) as [->|Hne].
    + destruct (decide (S d <= d)); [lia|]. destruct (decide (d <= d)); [|lia]. by rewrite Nat.sub_diag.
    + destruct (decide (off <= d)).
      * destruct (decide (S off <= d)); [|lia]. replace (d - off) with (S (d - S off)) by lia. done.
      * by destruct (decide (S off <= d)); [lia|].
Qed.

(** ** slices *)
Lemma slice_get_some {A} (l : list A) b e : b <= e -> e <= length l ->
  slice_get l b e = Some (take (e - b) (drop b l)).
Proof. intros. unfold slice_get. by rewrite decide_True. Qed.

Lemma slice_get_none {A} (l : list A) b e : length l < e -> slice_get l b e = None.
Proof. intros. unfold slice_get. rewrite decide_False; [done|lia]. Qed.

Lemma lookup_slice {A} (l : list A) b n k : k < n -> (take n (drop b l)) !! k = l !! (b + k).
Proof. intros. by rewrite lookup_take, lookup_drop. Qed.

(** Updates of a scatter. *)
Definition scatter_updates (s : nat) (k : nat) (indices : list nat) (local : list T) : list (nat * T) :=
  concat (map (fun '(il, ig) => block_updates (s * ig) (take s (drop (s * il) local)))
              (zip (seq k (length indices)) indices)).

Lemma add_local_to_global_loop s local indices : forall k global,
  (k + length indices) * s <= length local ->
  ofold (fun glob '(il, ig) =>
      if decide (s * ig + s <= length glob) then
        match slice_get local (s * il) (s * il + s) with
        | Some xs => Ok (foldl upd glob (block_updates (s * ig) xs))
        | None => Panic
        end
      else Panic) global (zip (seq k (length indices)) indices)
  = if decide (Forall (fun ig => s * ig + s <= length global) indices)
    then @Ok Empty_set _ (foldl upd global (scatter_updates s k indices local)) else Panic.
Proof.
  induction indices as [|ig indices IH]; intros k global Hlen; cbn [zip_with seq length ofold].
  - rewrite decide_True by constructor. done.
  - simpl in Hlen. destruct (decide (s * ig + s <= length global)) as [Hi|Hi].
    + rewrite slice_get_some by nia.
      replace (s * k + s - s * k) with s by lia.
      rewrite IH by nia.
      unfold scatter_updates. cbn [zip_with seq length map concat]. rewrite foldl_app.
      destruct (decide (Forall (fun ig0 => s * ig0 + s <= length (foldl upd global _)) indices)) as [HF|HF].
      * rewrite decide_True; [done|]. rewrite upds_length in HF. by constructor.
      * rewrite decide_False; [done|]. intros HF'. apply HF. rewrite upds_length. by inversion HF'.
    + rewrite decide_False; [done|]. intros HF. by inversion HF.
Qed.

Lemma add_local_to_global_spec s local global indices :
  add_local_to_global add local global indices s =
    if decide (length local = length indices * s /\ Forall (fun ig => s * ig + s <= length global) indices)
    then Ok (foldl upd global (scatter_updates s 0 indices local)) else Panic.
Proof.
  unfold add_local_to_global. destruct (decide (length local = _)) as [Hl|Hl].
  - rewrite add_local_to_global_loop by (rewrite Hl; lia).
    destruct (decide (Forall _ indices)) as [HF|HF]; destruct (decide (_ /\ _)) as [[? ?]|HA]; [done| |done|done].
    exfalso. by apply HA.
  - rewrite decide_False; [done|]. by intros [? ?].
Qed.

Lemma touching_scatter s indices (local : list T) d k : 0 < s ->
  touching d (scatter_updates s k indices local) =
  omap (fun '(il, n) => if decide (n = d `div` s) then local !! (s * il + d `mod` s) else None)
       (zip (seq k (length indices)) indices).
Proof.
  intros Hs. revert k. unfold scatter_updates. induction indices as [|ig indices IH]; intros k; simpl; [done|].
  rewrite touching_app, IH, touching_block.
  assert (d = s * (d `div` s) + d `mod` s) as Hd by (apply Nat.div_mod; lia).
  assert (d `mod` s < s) as Hm by (apply Nat.mod_upper_bound; lia).
  destruct (decide (ig = d `div` s)) as [->|Hne].
  - rewrite decide_True by lia. replace (d - s * (d `div` s)) with (d `mod` s) by lia.
    rewrite lookup_slice by done. by destruct (local !! _).
  - destruct (decide (s * ig <= d)) as [Hle|]; [|done].
    rewrite (lookup_ge_None_2 (take s _)); [done|].
    rewrite take_length.
    assert (s <= d - s * ig); [|lia]. assert (ig < d `div` s \/ d `div` s < ig) as [|] by lia; nia.
Qed.

Lemma touching_scatter_contrib s ns (v : list T) d : 0 < s ->
  touching d (scatter_updates s 0 ns v) = elem_contrib s ns v d.
Proof. apply touching_scatter. Qed.

(** ** Serial assembly *)

Lemma vec_resize_length {A} (l : list A) n x : length (vec_resize l n x) = n.
Proof. unfold vec_resize. rewrite take_length, app_length, replicate_length. lia. Qed.

Lemma prepare_spec (a : @vec_asm T E) ws i ns v :
  ca_count (va_conn a) i = length ns -> (forall buf, length buf = length ns -> ca_populate (va_conn a) i buf = ns) ->
  yields_vec a i (length ns) v ->
  (prepare_element zero umax a ws i).2 = v /\ vw_nodes (prepare_element zero umax a ws i).1 = ns.
Proof.
  intros Hc Hp [Hv _]. unfold prepare_element. rewrite Hc.
  rewrite Hp by apply vec_resize_length. rewrite Hv by apply vec_resize_length. by destruct v.
Qed.

Lemma contribs_app s ls1 ls2 (vs1 vs2 : list (list T)) d : length ls1 = length vs1 ->
  contribs s (ls1 ++ ls2) (vs1 ++ vs2) d = contribs s ls1 vs1 d ++ contribs s ls2 vs2 d.
Proof. intros H. unfold contribs. rewrite zip_with_app by done. by rewrite concat_app. Qed.

Lemma sums_to_refl s (out : list T) : sums_to add s [] [] out out.
Proof. split; [done|]. intros dof x ->. done. Qed.

Lemma sums_to_trans s ls1 ls2 (vs1 vs2 : list (list T)) out1 out2 out3 : length ls1 = length vs1 ->
  sums_to add s ls1 vs1 out1 out2 -> sums_to add s ls2 vs2 out2 out3 ->
  sums_to add s (ls1 ++ ls2) (vs1 ++ vs2) out1 out3.
Proof.
  intros Hl [H1 H1'] [H2 H2']. split; [congruence|]. intros dof x Hx.
  rewrite contribs_app, foldl_app by done. by apply H2', H1'.
Qed.

Lemma sums_to_unique s ls (vs : list (list T)) out o1 o2 :
  sums_to add s ls vs out o1 -> sums_to add s ls vs out o2 -> o1 = o2.
Proof.
  intros [L1 H1] [L2 H2]. apply list_eq. intros d. destruct (out !! d) as [x|] eqn:Ex.
  - by rewrite (H1 d x Ex), (H2 d x Ex).
  - apply lookup_ge_None in Ex. rewrite !lookup_ge_None_2; [done|lia|lia].
Qed.

Lemma sums_to_one s ns (v : list T) out : 0 < s \/ out = [] ->
  sums_to add s [ns] [v] out (foldl upd out (scatter_updates s 0 ns v)).
Proof.
  intros Hs. split; [apply upds_length|]. intros d x Hx. destruct Hs as [Hs|Hs]; [|by subst].
  rewrite upds_lookup, Hx. simpl. rewrite touching_scatter_contrib by done.
  unfold contribs. simpl. by rewrite app_nil_r.
Qed.

Lemma vector_loop_spec (a : @vec_asm T E) (ls : list (list nat)) (vs : list (outcome E (list T))) :
  has_conn (va_conn a) ls -> nodes_in_range (ca_nodes (va_conn a)) ls -> has_vecs a ls vs ->
  forall m k ws out, k + m = length ls -> length out = ca_sdim (va_conn a) * ca_nodes (va_conn a) ->
  exists ws' out' r good,
    vector_loop add zero umax a ws out (seq k m) = (ws', out', r) /\
    sums_to add (ca_sdim (va_conn a)) (take (length good) (drop k ls)) good out out' /\
    match r with
    | Ok _ => drop k vs = map Ok good
    | Err e => exists rest, drop k vs = map Ok good ++ Err e :: rest
    | Panic => exists rest, drop k vs = map Ok good ++ Panic :: rest
    end.
Proof.
  intros [Hcl Hc] Hr [Hvl Hv]. induction m as [|m IH]; intros k ws out Hk Hout; simpl.
  - exists ws, out, (Ok tt), []. split_and!; [done| |].
    + rewrite take_0. apply sums_to_refl.
    + rewrite drop_ge by lia. done.
  - destruct (lookup_lt_is_Some_2 ls k) as [ns Hns]; [lia|].
    destruct (lookup_lt_is_Some_2 vs k) as [v Hvk]; [lia|].
    destruct (Hc k ns Hns) as [Hcount Hpop]. pose proof (Hv k ns v Hns Hvk) as Hy.
    destruct (prepare_spec a ws k ns v Hcount Hpop Hy) as [Hp1 Hp2].
    destruct (prepare_element zero umax a ws k) as [ws1 r1] eqn:Eprep. simpl in Hp1, Hp2. subst r1.
    rewrite (drop_S vs _ k Hvk). destruct v as [v|e|].
    + rewrite Hp2. rewrite add_local_to_global_spec. rewrite decide_True.
      2:{ split; [rewrite (proj2 Hy v eq_refl); lia|]. rewrite Forall_forall. intros ig Hig.
          assert (ig < ca_nodes (va_conn a)) by (eapply Hr; [by eapply elem_of_list_lookup_2|done]).
          rewrite Hout. nia. }
      set (out1 := foldl upd out _). 
      destruct (IH (S k) ws1 out1) as (ws' & out' & r & good & Hrun & Hsum & Hres); [lia|unfold out1; by rewrite upds_length|].
      exists ws', out', r, (v :: good). split; [exact Hrun|]. split.
      * rewrite (drop_S ls _ k Hns). simpl. change (ns :: ?l) with ([ns] ++ l). change (v :: good) with ([v] ++ good).
        eapply sums_to_trans; [done| |exact Hsum]. apply sums_to_one.
        destruct (ca_sdim (va_conn a)); [right|left; lia]. destruct out; [done|simpl in Hout; lia].
      * destruct r; simpl.
        -- by rewrite Hres.
        -- destruct Hres as [rest ->]. eauto.
        -- destruct Hres as [rest ->]. eauto.
    + exists ws1, out, (Err e), []. split_and!; [done| |eauto]. rewrite take_0. apply sums_to_refl.
    + exists ws1, out, Panic, []. split_and!; [done| |eauto]. rewrite take_0. apply sums_to_refl.
Qed.

Lemma assemble_vector_into_spec (a : @vec_asm T E) ls vs ws out :
  has_conn (va_conn a) ls -> nodes_in_range (ca_nodes (va_conn a)) ls -> has_vecs a ls vs ->
  length out = ca_sdim (va_conn a) * ca_nodes (va_conn a) ->
  exists ws' out' r good,
    assemble_vector_into add zero umax ws out a = (ws', out', r) /\
    sums_to add (ca_sdim (va_conn a)) (take (length good) ls) good out out' /\
    match r with
    | Ok _ => vs = map Ok good
    | Err e => exists rest, vs = map Ok good ++ Err e :: rest
    | Panic => exists rest, vs = map Ok good ++ Panic :: rest
    end.
Proof.
  intros Hc Hr Hv Hout. unfold assemble_vector_into. rewrite decide_True by done.
  rewrite <- (proj1 Hc).
  destruct (vector_loop_spec a ls vs Hc Hr Hv (length ls) 0 ws out) as (ws' & out' & r & good & H); [lia|done|].
  exists ws', out', r, good. by rewrite !drop_0 in H.
Qed.

(** ** Gather *)
Lemma gather_loop s (global : list T) indices : forall k local,
  (k + length indices) * s <= length local ->
  match ofold (fun loc '(il, ig) =>
      match slice_get global (s * ig) (s * ig + s) with
      | Some xs => if decide (s * il + s <= length loc)
                   then Ok (take (s * il) loc ++ xs ++ drop (s * il + s) loc) else Panic
      | None => @Panic Empty_set _
      end) local (zip (seq k (length indices)) indices) with
  | Ok loc => Forall (fun ig => s * ig + s <= length global) indices /\
       loc = take (s * k) local ++ concat (map (fun ig => take s (drop (s * ig) global)) indices)
             ++ drop (s * (k + length indices)) local
  | Err _ => False
  | Panic => Exists (fun ig => length global < s * ig + s) indices
  end.
Proof.
  induction indices as [|ig indices IH]; intros k local Hlen; simpl.
  - split; [constructor|]. rewrite Nat.add_0_r, take_drop. done.
  - simpl in Hlen. destruct (decide (s * ig + s <= length global)) as [Hi|Hi].
    + rewrite slice_get_some by lia. replace (s * ig + s - s * ig) with s by lia.
      rewrite decide_True by nia.
      set (loc := take (s * k) local ++ _).
      assert (length (take s (drop (s * ig) global)) = s) as Hsl by (rewrite take_length, drop_length; lia).
      assert (length loc = length local) as Hloc.
      { unfold loc. rewrite !app_length, Hsl, take_length, drop_length. nia. }
      specialize (IH (S k) loc). rewrite Hloc in IH. specialize (IH ltac:(nia)).
      destruct (ofold _ loc _) as [loc'|[]|].
      * destruct IH as [HF ->]. split; [by constructor|].
        assert (length (take (s * k) local) = s * k) as Htk by (rewrite take_length; nia).
        assert (take (s * S k) loc = take (s * k) local ++ take s (drop (s * ig) global)) as ->.
        { unfold loc. rewrite app_assoc. apply take_app_alt. rewrite app_length, Htk, Hsl. lia. }
        assert (drop (s * (S k + length indices)) loc = drop (s * (k + S (length indices))) local) as ->.
        { unfold loc. rewrite app_assoc. rewrite drop_app_ge by (rewrite app_length, Htk, Hsl; nia).
          rewrite drop_drop. f_equal. rewrite app_length, Htk, Hsl. nia. }
        by rewrite <- !app_assoc.
      * by constructor 2.
    + rewrite slice_get_none by lia. constructor. lia.
Qed.

Lemma gather_spec s (global local : list T) indices :
  match gather_global_to_local global local indices s with
  | Ok loc => length local = length indices * s /\ Forall (fun ig => s * ig + s <= length global) indices /\
       loc = concat (map (fun ig => take s (drop (s * ig) global)) indices)
  | Err _ => False
  | Panic => length local <> length indices * s \/ Exists (fun ig => length global < s * ig + s) indices
  end.
Proof.
  unfold gather_global_to_local. destruct (decide (length local = length indices * s)) as [Hl|Hl]; [|by left].
  pose proof (gather_loop s global indices 0 local ltac:(rewrite Hl; lia)) as H.
  destruct (ofold _ local _) as [loc|[]|]; [|by right].
  destruct H as [HF ->]. split_and!; [done|done|].
  rewrite drop_ge by lia. rewrite Nat.mul_0_r, app_nil_r. done.
Qed.

Lemma concat_block_lookup {A} s (bs : list (list A)) il b c : Forall (fun b => length b = s) bs ->
  bs !! il = Some b -> c < s -> concat bs !! (s * il + c) = b !! c.
Proof.
  intros HF. revert il. induction HF as [|b' bs Hb HF IH]; intros il Hil Hc; [done|].
  destruct il as [|il]; simpl in *; simplify_eq.
  - rewrite Nat.mul_0_r. simpl. by rewrite lookup_app_l by lia.
  - rewrite lookup_app_r by lia. rewrite <- (IH il); [|done|done]. f_equal. lia.
Qed.

Lemma gather_lookup s (global loc local : list T) indices il ig c :
  gather_global_to_local global local indices s = Ok loc ->
  indices !! il = Some ig -> c < s -> loc !! (s * il + c) = global !! (s * ig + c).
Proof.
  intros H Hil Hc. pose proof (gather_spec s global local indices) as Hg. rewrite H in Hg.
  destruct Hg as (_ & HF & ->). rewrite Forall_forall in HF.
  rewrite (concat_block_lookup s _ il (take s (drop (s * ig) global)) c); [| | |done].
  - by apply lookup_slice.
  - rewrite Forall_forall. intros b Hb. apply elem_of_list_fmap in Hb as (ig' & -> & Hin).
    rewrite take_length, drop_length. specialize (HF ig' Hin). lia.
  - by rewrite list_lookup_fmap, Hil.
Qed.

End proofs.

(** ** Adjointness, over any commutative semiring. *)
From Coq Require Import Ring.
Section adjoint.
Context {T : Type} (zero one : T) (add mul : T -> T -> T) (SR : semi_ring_theory zero one add mul (=)).
Add Ring SRing : SR.
Set Default Proof Using "Type*".

Definition dot (x y : list T) : T := foldr add zero (zip_with mul x y).

Lemma dot_upd u g i x y : length u = length g -> u !! i = Some y ->
  dot u (upd add g (i, x)) = add (dot u g) (mul y x).
Proof.
  revert g i. induction u as [|a u IH]; intros [|b g] i Hl Hi; try done.
  simpl in Hl. destruct i as [|i].
  - simpl in Hi. simplify_eq. unfold dot, upd. simpl. ring.
  - assert (dot u (upd add g (i, x)) = add (dot u g) (mul y x)) as H by (apply IH; [lia|done]).
    change (upd add (b :: g) (S i, x)) with (b :: upd add g (i, x)).
    unfold dot in *. cbn [zip_with foldr]. rewrite H. ring.
Qed.

Lemma dot_app x1 x2 y1 y2 : length x1 = length y1 -> dot (x1 ++ x2) (y1 ++ y2) = add (dot x1 y1) (dot x2 y2).
Proof.
  intros H. unfold dot. rewrite zip_with_app by done. rewrite foldr_app.
  induction (zip_with mul x1 y1) as [|z zs IH]; simpl; [ring|]. rewrite IH. ring.
Qed.

Lemma dot_zeros u n : dot u (replicate n zero) = zero.
Proof.
  revert n. induction u as [|a u IH]; intros [|n]; unfold dot in *; simpl; try done. rewrite IH. ring.
Qed.

Lemma dot_block u off xs g : length u = length g -> off + length xs <= length u ->
  dot u (foldl (upd add) g (block_updates off xs)) = add (dot u g) (dot (take (length xs) (drop off u)) xs).
Proof.
  revert off g. induction xs as [|x xs IH]; intros off g Hl Ho; unfold block_updates; simpl.
  - unfold dot at 3. simpl. destruct u; simpl; ring.
  - simpl in Ho. destruct (lookup_lt_is_Some_2 u off) as [y Hy]; [lia|].
    fold (block_updates (S off) xs). rewrite IH by (rewrite ?upd_length; lia).
    rewrite (dot_upd u g off x y) by done. rewrite (drop_S u y off Hy). unfold dot at 4. simpl.
    fold (dot (take (length xs) (drop (S off) u)) xs). ring.
Qed.

Lemma gather_scatter_adjoint s (u v local loc out : list T) indices :
  gather_global_to_local u local indices s = Ok loc ->
  add_local_to_global add v (replicate (length u) zero) indices s = Ok out ->
  dot loc v = dot u out.
Proof.
  intros Hg Ha. pose proof (gather_spec s u local indices) as Hgs. rewrite Hg in Hgs.
  destruct Hgs as (Hl & HF & ->). rewrite add_local_to_global_spec in Ha.
  destruct (decide _) as [[Hv _]|]; [|done]. simplify_eq. clear Hg Hl.
  assert (forall k g, length g = length u -> length v = (k + length indices) * s ->
    dot u (foldl (upd add) g (scatter_updates s k indices v)) =
    add (dot u g) (dot (concat (map (fun ig => take s (drop (s * ig) u)) indices)) (drop (s * k) v))) as H.
  { clear Hv. induction HF as [|ig indices Hig HF IH]; intros k g Hg Hv.
    - simpl. unfold dot at 3. simpl. ring.
    - unfold scatter_updates. simpl. rewrite foldl_app. fold (scatter_updates s (S k) indices v).
      simpl in Hv. rewrite IH by (rewrite ?upds_length; lia).
      assert (length (take s (drop (s * k) v)) = s) as Hlen by (rewrite take_length, drop_length; nia).
      rewrite dot_block by (rewrite ?Hlen; lia). rewrite Hlen.
      rewrite <- (take_drop s (drop (s * k) v)) at 2. rewrite drop_drop. replace (s * k + s) with (s * S k) by lia.
      rewrite dot_app by (rewrite !take_length, !drop_length; nia).
      ring. }
  rewrite H by (rewrite ?replicate_length; lia).
  rewrite dot_zeros. rewrite Nat.mul_0_r, drop_0. ring.
Qed.
End adjoint.

(** Proofs about element assembler adapters. *)
From stdpp Require Import base list list_numbers sorting.
From Coq Require Import Lia.
From Verif Require Import Prelude NestedVecModel NestedVecSpec NestedVecProofs ParadisModel ParadisSpec
  ParadisProofs ColoringProofs VectorModel VectorSpec VectorProofs VectorAgree
  CsrModel CsrSpec CsrProofs CsrSerial TableModel TableSpec PropTable AdapterModel AdapterSpec.

(** ** Contributions by key *)
Lemma bind_ext {X T} (l : list X) (f g : X -> list T) : (forall x, x ∈ l -> f x = g x) -> l ≫= f = l ≫= g.
Proof.
  induction l as [|x l IH]; intros H; [done|]. rewrite !bind_cons. rewrite H by (by left). f_equal. apply IH. intros y Hy. apply H. by right.
Qed.

Lemma bind_empty {X T} (l : list X) (f : X -> list T) : (forall x, x ∈ l -> f x = []) -> l ≫= f = [].
Proof.
  induction l as [|x l IH]; intros H; [done|]. rewrite bind_cons. rewrite H by (by left). apply IH. intros y Hy. apply H. by right.
Qed.

Section Keys.
  Context {X K T : Type} `{EqDecision K}.

  (** Items whose key lies in [S], grouped by key. *)
  Lemma group_keys (l : list X) (k : X -> K) (P : X -> Prop) `{forall x, Decision (P x)} (G : X -> list T) (S : list K) :
    NoDup S -> (forall x, x ∈ l -> (k x ∈ S <-> P x)) ->
    l ≫= (fun x => if decide (P x) then G x else []) ≡ₚ
    S ≫= (fun q => l ≫= (fun x => if decide (k x = q) then G x else [])).
  Proof.
    intros HN. induction l as [|x l IH]; intros HP.
    - by rewrite (bind_empty S).
    - rewrite bind_cons. rewrite IH by (intros y Hy; apply HP; by right).
      assert (Hx := HP x ltac:(by left)). clear IH HP.
      trans ((S ≫= fun q => if decide (k x = q) then G x else []) ++ (S ≫= fun q => l ≫= (fun x => if decide (k x = q) then G x else []))).
      + apply Permutation_app_tail. destruct (decide (P x)) as [Hp|Hp].
        * assert (Hin := proj2 Hx Hp). clear Hx Hp. induction S as [|q S IHS]; [by apply elem_of_nil in Hin|].
          rewrite bind_cons. apply NoDup_cons in HN as [Hq HN]. apply elem_of_cons in Hin as [Hin|Hin].
          -- rewrite decide_True by done. rewrite bind_empty; [by rewrite app_nil_r|]. intros q' Hq'. rewrite decide_False; [done|]. congruence.
          -- rewrite decide_False by congruence. by apply IHS.
        * rewrite bind_empty; [done|]. intros q Hq. rewrite decide_False; [done|]. intros <-. apply Hp. by apply Hx.
      + clear Hx HN. induction S as [|q S IHS]; [done|]. rewrite !bind_cons. rewrite <- IHS. 
        rewrite <- !app_assoc. apply Permutation_app_head. rewrite !app_assoc. apply Permutation_app_tail. apply Permutation_app_comm.
  Qed.
End Keys.

Section Contribs.
  Context {T : Type}.

  Lemma elem_contrib_bind s ns (v : list T) d :
    elem_contrib s ns v d = zip (seq 0 (length ns)) ns ≫= (fun x => if decide (x.2 = d / s) then option_list (v !! (s * x.1 + d mod s)) else []).
  Proof.
    unfold elem_contrib. generalize (zip (seq 0 (length ns)) ns). intros l. induction l as [|[il n] l IH]; [done|].
    rewrite bind_cons. cbn [omap list_omap fst snd]. rewrite <- IH. destruct (decide (n = d / s)); [|done].
    by destruct (v !! _).
  Qed.

  Lemma bind_pairs {A B} (l : list A) (l' : list B) (G : A * B -> list T) :
    l ≫= (fun x => l' ≫= (fun y => G (x, y))) = (x ← l; y ← l'; [(x, y)]) ≫= G.
  Proof.
    induction l as [|x l IH]; [done|]. rewrite !bind_cons, bind_app. f_equal; [|exact IH].
    clear IH. induction l' as [|y l' IH]; [done|]. rewrite !bind_cons. cbn [app]. rewrite bind_cons. f_equal. exact IH.
  Qed.

  Lemma mat_contrib_bind s ns (A : list (list T)) r c :
    mat_contrib s ns A r c = (x ← zip (seq 0 (length ns)) ns; y ← zip (seq 0 (length ns)) ns; [(x, y)]) ≫=
      (fun z => if decide (z.1.2 = r / s /\ z.2.2 = c / s) then option_list (mat_at A (s * z.1.1 + r mod s) (s * z.2.1 + c mod s)) else []).
  Proof.
    rewrite <- bind_pairs. unfold mat_contrib. apply bind_ext. intros [il n] _. apply bind_ext. intros [jl m] _. done.
  Qed.

  Lemma zip_map_r (f : nat -> nat) ks ns : zip ks (map f ns) = map (fun x : nat * nat => (x.1, f x.2)) (zip ks ns).
  Proof. revert ks. induction ns as [|n ns IH]; intros [|k ks]; [done..|]. cbn. f_equal. apply IH. Qed.

  Lemma elem_zip (ks ns : list nat) x : x ∈ zip ks ns -> x.2 ∈ ns.
  Proof. intros H. apply elem_of_list_lookup in H as [i Hi]. apply lookup_zip_with_Some in Hi as (a & b & -> & _ & Hb). by eapply elem_of_list_lookup_2. Qed.

  Lemma bind_map {A B C} (h : A -> B) (l : list A) (g : B -> list C) : map h l ≫= g = l ≫= (fun x => g (h x)).
  Proof. induction l as [|x l IH]; [done|]. cbn [map]. rewrite !bind_cons. by rewrite IH. Qed.

  Lemma elem_contrib_map (f : nat -> nat) s ns (v : list T) d :
    elem_contrib s (map f ns) v d = zip (seq 0 (length ns)) ns ≫= (fun x => if decide (f x.2 = d / s) then option_list (v !! (s * x.1 + d mod s)) else []).
  Proof. rewrite elem_contrib_bind, map_length, zip_map_r, bind_map. done. Qed.

  Lemma mat_contrib_map (f : nat -> nat) s ns (A : list (list T)) r c :
    mat_contrib s (map f ns) A r c = (x ← zip (seq 0 (length ns)) ns; y ← zip (seq 0 (length ns)) ns; [(x, y)]) ≫=
      (fun z => if decide (f z.1.2 = r / s /\ f z.2.2 = c / s) then option_list (mat_at A (s * z.1.1 + r mod s) (s * z.2.1 + c mod s)) else []).
  Proof.
    rewrite mat_contrib_bind, <- !bind_pairs, map_length, zip_map_r, bind_map. apply bind_ext. intros x _. by rewrite bind_map.
  Qed.

  Lemma elem_pairs {A} (l : list A) z : z ∈ (x ← l; y ← l; [(x, y)]) -> z.1 ∈ l /\ z.2 ∈ l.
  Proof.
    intros H. apply elem_of_list_bind in H as (x & H & Hx). apply elem_of_list_bind in H as (y & H & Hy). apply elem_of_list_singleton in H as ->. done.
  Qed.

  Lemma div_dof s j c : c < s -> (s * j + c) / s = j /\ (s * j + c) mod s = c.
  Proof.
    intros H. split.
    - rewrite (Nat.mul_comm s), Nat.div_add_l, Nat.div_small by lia. lia.
    - rewrite Nat.add_comm, (Nat.mul_comm s), Nat.mod_add, Nat.mod_small by lia. done.
  Qed.

  Lemma fibre_NoDup f n j : NoDup (fibre f n j).
  Proof. apply NoDup_filter, NoDup_seq. Qed.
  Lemma elem_fibre (f : nat -> nat) n j i : i ∈ fibre f n j <-> i < n /\ f i = j.
  Proof. unfold fibre. rewrite elem_of_list_filter, elem_of_seq. split; [intros [? ?]|intros [? ?]]; split; try done; lia. Qed.

  (** Injective relabelling: the same contributions in the same order. *)
  Lemma elem_contrib_inj (f : nat -> nat) s ns (v : list T) n i c : c < s -> i < n -> (forall k, k ∈ ns -> k < n) ->
    (forall a b, a < n -> b < n -> f a = f b -> a = b) -> elem_contrib s (map f ns) v (s * f i + c) = elem_contrib s ns v (s * i + c).
  Proof.
    intros Hc Hi Hn Hinj. rewrite elem_contrib_map, elem_contrib_bind. destruct (div_dof s (f i) c Hc) as [-> ->]. destruct (div_dof s i c Hc) as [-> ->].
    apply bind_ext. intros x Hx. apply elem_zip, Hn in Hx. destruct (decide (x.2 = i)) as [->|Hne]; [by rewrite decide_True|].
    rewrite decide_False; [done|]. intros He. apply Hne. by apply Hinj.
  Qed.

  Lemma elem_contrib_none s ns (v : list T) d : d / s ∉ ns -> elem_contrib s ns v d = [].
  Proof.
    intros H. rewrite elem_contrib_bind. apply bind_empty. intros x Hx. rewrite decide_False; [done|]. intros He. apply H. rewrite <- He. by eapply elem_zip.
  Qed.

  Lemma contribs_inj (f : nat -> nat) s ls (vs : list (list T)) n i c : c < s -> i < n -> nodes_in_range n ls ->
    (forall a b, a < n -> b < n -> f a = f b -> a = b) -> contribs s (map (map f) ls) vs (s * f i + c) = contribs s ls vs (s * i + c).
  Proof.
    intros Hc Hi Hr Hinj. unfold contribs. f_equal. revert vs. induction ls as [|ns ls IH]; intros [|v vs]; [done..|]. cbn [map zip_with]. f_equal.
    - apply (elem_contrib_inj f s ns v n); try done. intros k Hk. by apply (Hr ns); [left|].
    - apply IH. intros ns' k H1 H2. apply (Hr ns'); [by right|done].
  Qed.

  Lemma contribs_none s ls (vs : list (list T)) d : (forall ns, ns ∈ ls -> d / s ∉ ns) -> contribs s ls vs d = [].
  Proof.
    intros H. unfold contribs. revert vs. induction ls as [|ns ls IH]; intros [|v vs]; [done..|]. cbn [zip_with concat].
    rewrite elem_contrib_none by (apply H; by left). apply IH. intros ns' Hns. apply H. by right.
  Qed.

  Lemma mat_contrib_inj (f : nat -> nat) s ns (A : list (list T)) n i c j d : c < s -> d < s -> i < n -> j < n -> (forall k, k ∈ ns -> k < n) ->
    (forall a b, a < n -> b < n -> f a = f b -> a = b) ->
    mat_contrib s (map f ns) A (s * f i + c) (s * f j + d) = mat_contrib s ns A (s * i + c) (s * j + d).
  Proof.
    intros Hc Hd Hi Hj Hn Hinj. rewrite mat_contrib_map, mat_contrib_bind.
    destruct (div_dof s (f i) c Hc) as [-> ->]. destruct (div_dof s i c Hc) as [-> ->].
    destruct (div_dof s (f j) d Hd) as [-> ->]. destruct (div_dof s j d Hd) as [-> ->].
    apply bind_ext. intros z Hz. apply elem_pairs in Hz as [Hx Hy]. apply elem_zip, Hn in Hx. apply elem_zip, Hn in Hy.
    destruct (decide (z.1.2 = i /\ z.2.2 = j)) as [[-> ->]|Hne]; [by rewrite decide_True|].
    rewrite decide_False; [done|]. intros [H1 H2]. apply Hne. split; by apply Hinj.
  Qed.

  Lemma mat_contrib_none s ns (A : list (list T)) r c : (r / s ∈ ns -> c / s ∉ ns) -> mat_contrib s ns A r c = [].
  Proof.
    intros H. rewrite mat_contrib_bind. apply bind_empty. intros z Hz. apply elem_pairs in Hz as [Hx Hy]. apply elem_zip in Hx. apply elem_zip in Hy.
    rewrite decide_False; [done|]. intros [H1 H2]. rewrite H1 in Hx. rewrite H2 in Hy. by apply H.
  Qed.

  Lemma mat_contribs_inj (f : nat -> nat) s ls (As : list (list (list T))) n i c j d : c < s -> d < s -> i < n -> j < n -> nodes_in_range n ls ->
    (forall a b, a < n -> b < n -> f a = f b -> a = b) ->
    mat_contribs s (map (map f) ls) As (s * f i + c) (s * f j + d) = mat_contribs s ls As (s * i + c) (s * j + d).
  Proof.
    intros Hc Hd Hi Hj Hr Hinj. unfold mat_contribs. f_equal. revert As. induction ls as [|ns ls IH]; intros [|v vs]; [done..|]. cbn [map zip_with]. f_equal.
    - apply (mat_contrib_inj f s ns v n); try done. intros k Hk. by apply (Hr ns); [left|].
    - apply IH. intros ns' k H1 H2. apply (Hr ns'); [by right|done].
  Qed.

  Lemma mat_contribs_none s ls (As : list (list (list T))) r c : (forall ns, ns ∈ ls -> r / s ∈ ns -> c / s ∉ ns) -> mat_contribs s ls As r c = [].
  Proof.
    intros H. unfold mat_contribs. revert As. induction ls as [|ns ls IH]; intros [|v vs]; [done..|]. cbn [zip_with concat].
    rewrite mat_contrib_none by (apply H; by left). apply IH. intros ns' Hns. apply H. by right.
  Qed.

  (** Arbitrary relabelling: the contributions of the preimages together. *)
  Lemma perm_bind_app {A} (S : list A) (f g : A -> list T) : (S ≫= f) ++ (S ≫= g) ≡ₚ S ≫= (fun q => f q ++ g q).
  Proof.
    induction S as [|q S IH]; [done|]. rewrite !bind_cons, <- IH. rewrite <- !app_assoc. apply Permutation_app_head.
    rewrite !app_assoc. apply Permutation_app_tail. apply Permutation_app_comm.
  Qed.

  Lemma elem_contrib_fibre (f : nat -> nat) s ns (v : list T) n j c : c < s -> (forall k, k ∈ ns -> k < n) ->
    elem_contrib s (map f ns) v (s * j + c) ≡ₚ fibre f n j ≫= (fun i => elem_contrib s ns v (s * i + c)).
  Proof.
    intros Hc Hn. rewrite elem_contrib_map. destruct (div_dof s j c Hc) as [-> ->].
    rewrite (group_keys _ (fun x : nat * nat => x.2) _ _ (fibre f n j)); [|apply fibre_NoDup|].
    - rewrite (bind_ext (fibre f n j) _ (fun i => elem_contrib s ns v (s * i + c))); [done|]. intros i _. rewrite elem_contrib_bind.
      destruct (div_dof s i c Hc) as [-> ->]. done.
    - intros x Hx. rewrite elem_fibre. apply elem_zip, Hn in Hx. naive_solver.
  Qed.

  Lemma contribs_fibre (f : nat -> nat) s ls (vs : list (list T)) n j c : c < s -> nodes_in_range n ls ->
    contribs s (map (map f) ls) vs (s * j + c) ≡ₚ fibre f n j ≫= (fun i => contribs s ls vs (s * i + c)).
  Proof.
    intros Hc Hr. unfold contribs. revert vs. induction ls as [|ns ls IH]; intros vs.
    - cbn. by rewrite bind_empty.
    - destruct vs as [|v vs]; [cbn; by rewrite bind_empty|]. cbn [map zip_with concat]. rewrite <- perm_bind_app. apply Permutation_app.
      + apply elem_contrib_fibre; [done|]. intros k Hk. by apply (Hr ns); [left|].
      + apply IH. intros ns' k H1 H2. apply (Hr ns'); [by right|done].
  Qed.

  Lemma fibre2_NoDup f n j j' : NoDup (fibre2 f n j j').
  Proof.
    unfold fibre2. generalize (fibre_NoDup f n j) (fibre_NoDup f n j'). generalize (fibre f n j) (fibre f n j'). intros l l' H H'.
    induction l as [|x l IH]; [constructor|]. rewrite bind_cons. apply NoDup_cons in H as [Hx H]. apply NoDup_app. split_and!; [|  |by apply IH].
    - clear IH Hx. induction l' as [|y l' IH']; [constructor|]. rewrite bind_cons. apply NoDup_cons in H' as [Hy H']. cbn [app]. apply NoDup_cons. split; [|by apply IH'].
      intros Hi. apply elem_of_list_bind in Hi as (b & Hb & ?). apply elem_of_list_singleton in Hb. by simplify_eq.
    - intros z Hz Hz'. apply elem_of_list_bind in Hz as (b & Hb & _). apply elem_of_list_singleton in Hb as ->.
      apply elem_of_list_bind in Hz' as (a & Ha & Hal). apply elem_of_list_bind in Ha as (b' & Hb' & _). apply elem_of_list_singleton in Hb'. by simplify_eq.
  Qed.
  Lemma elem_fibre2 (f : nat -> nat) n j j' z : z ∈ fibre2 f n j j' <-> (z.1 < n /\ f z.1 = j) /\ (z.2 < n /\ f z.2 = j').
  Proof.
    unfold fibre2. destruct z as [a b]. rewrite elem_of_list_bind. rewrite <- !elem_fibre. cbn [fst snd]. split.
    - intros (x & H & Hx). apply elem_of_list_bind in H as (y & H & Hy). apply elem_of_list_singleton in H. by simplify_eq.
    - intros [Ha Hb]. exists a. split; [|done]. apply elem_of_list_bind. exists b. split; [|done]. by apply elem_of_list_singleton.
  Qed.

  Lemma mat_contrib_fibre (f : nat -> nat) s ns (A : list (list T)) n j c j' d : c < s -> d < s -> (forall k, k ∈ ns -> k < n) ->
    mat_contrib s (map f ns) A (s * j + c) (s * j' + d) ≡ₚ fibre2 f n j j' ≫= (fun q => mat_contrib s ns A (s * q.1 + c) (s * q.2 + d)).
  Proof.
    intros Hc Hd Hn. rewrite mat_contrib_map. destruct (div_dof s j c Hc) as [-> ->]. destruct (div_dof s j' d Hd) as [-> ->].
    rewrite (group_keys _ (fun z : (nat * nat) * (nat * nat) => (z.1.2, z.2.2)) _ _ (fibre2 f n j j')); [|apply fibre2_NoDup|].
    - rewrite (bind_ext (fibre2 f n j j') _ (fun q => mat_contrib s ns A (s * q.1 + c) (s * q.2 + d))); [done|]. intros q _. rewrite mat_contrib_bind.
      destruct (div_dof s q.1 c Hc) as [-> ->]. destruct (div_dof s q.2 d Hd) as [-> ->].
      apply bind_ext. intros z _. destruct q as [a b]. cbn [fst snd]. destruct (decide (z.1.2 = a /\ z.2.2 = b)) as [[-> ->]|Hne]; [by rewrite decide_True|].
      rewrite decide_False; [done|]. intros [= <- <-]. by apply Hne.
    - intros z Hz. rewrite elem_fibre2. cbn [fst snd]. apply elem_pairs in Hz as [Hx Hy]. apply elem_zip, Hn in Hx. apply elem_zip, Hn in Hy. naive_solver.
  Qed.

  Lemma mat_contribs_fibre (f : nat -> nat) s ls (As : list (list (list T))) n j c j' d : c < s -> d < s -> nodes_in_range n ls ->
    mat_contribs s (map (map f) ls) As (s * j + c) (s * j' + d) ≡ₚ fibre2 f n j j' ≫= (fun q => mat_contribs s ls As (s * q.1 + c) (s * q.2 + d)).
  Proof.
    intros Hc Hd Hr. unfold mat_contribs. revert As. induction ls as [|ns ls IH]; intros As.
    - cbn. by rewrite bind_empty.
    - destruct As as [|A As]; [cbn; by rewrite bind_empty|]. cbn [map zip_with concat]. rewrite <- perm_bind_app. apply Permutation_app.
      + apply mat_contrib_fibre; [done..|]. intros k Hk. by apply (Hr ns); [left|].
      + apply IH. intros ns' k H1 H2. apply (Hr ns'); [by right|done].
  Qed.
End Contribs.

(** ** Sums *)
Section Sums.
  Context {T : Type} (add : T -> T -> T) (zero : T).
  Hypothesis assoc : forall x y z, add x (add y z) = add (add x y) z.
  Hypothesis comm : forall x y, add x y = add y x.
  Hypothesis zero_l : forall x, add zero x = x.

  Lemma foldl_split x l : foldl add x l = add x (foldl add zero l).
  Proof.
    revert x. induction l as [|y l IH]; intros x; cbn [foldl]; [by rewrite comm, zero_l|]. rewrite (IH (add x y)), (IH (add zero y)), zero_l. by rewrite assoc.
  Qed.
  Lemma foldl_bind {A} (S : list A) (g : A -> list T) x : foldl add x (S ≫= g) = foldl add x (map (fun q => foldl add zero (g q)) S).
  Proof.
    revert x. induction S as [|q S IH]; intros x; [done|]. rewrite bind_cons, foldl_app, IH. cbn [map foldl]. f_equal. apply foldl_split.
  Qed.
End Sums.

(** ** The adapters meet the contracts *)
Section Contracts.
  Context {T E : Type}.

  Lemma has_conn_map (f : nat -> nat) n c ls : has_conn c ls -> has_conn (map_nodes_conn f n c) (map (map f) ls).
  Proof.
    intros [Hl Hc]. split; [by rewrite map_length|]. intros i ns Hi. rewrite list_lookup_fmap in Hi. apply fmap_Some in Hi as (ns' & Hi & ->).
    destruct (Hc i ns' Hi) as [Hn Hp]. cbn. split; [by rewrite map_length|]. intros buf Hb. rewrite map_length in Hb. by rewrite Hp.
  Qed.

  Lemma has_vecs_map (f : nat -> nat) n (a : @vec_asm T E) ls vs : has_vecs a ls vs -> has_vecs (map_nodes_vec f n a) (map (map f) ls) vs.
  Proof.
    intros [Hl Hv]. split; [by rewrite map_length|]. intros i ns v Hi Hvi. rewrite list_lookup_fmap in Hi. apply fmap_Some in Hi as (ns' & Hi & ->).
    rewrite map_length. exact (Hv i ns' v Hi Hvi).
  Qed.
  Lemma has_mats_map (f : nat -> nat) n (a : @mat_asm T E) ls vs : has_mats a ls vs -> has_mats (map_nodes_mat f n a) (map (map f) ls) vs.
  Proof.
    intros [Hl Hv]. split; [by rewrite map_length|]. intros i ns v Hi Hvi. rewrite list_lookup_fmap in Hi. apply fmap_Some in Hi as (ns' & Hi & ->).
    rewrite map_length. exact (Hv i ns' v Hi Hvi).
  Qed.

  Lemma has_vecs_transform g (a : @vec_asm T E) ls vs : (forall v w, g v = Ok w -> length w = length v) ->
    has_vecs a ls vs -> has_vecs (transform_vec g a) ls (map (fun v => let! x := v in g x) vs).
  Proof.
    intros Hg [Hl Hv]. split; [by rewrite map_length|]. intros i ns v Hi Hvi. rewrite list_lookup_fmap in Hvi. apply fmap_Some in Hvi as (v' & Hvi & ->).
    destruct (Hv i ns v' Hi Hvi) as [H1 H2]. split; cbn.
    - intros buf Hb. by rewrite H1.
    - intros x Hx. destruct v' as [y| |]; cbn in Hx; [|done..]. rewrite (Hg _ _ Hx). by apply H2.
  Qed.
  Lemma has_mats_transform g (a : @mat_asm T E) ls vs : (forall n A B, square n A -> g A = Ok B -> square n B) ->
    has_mats a ls vs -> has_mats (transform_mat g a) ls (map (fun v => let! x := v in g x) vs).
  Proof.
    intros Hg [Hl Hv]. split; [by rewrite map_length|]. intros i ns v Hi Hvi. rewrite list_lookup_fmap in Hvi. apply fmap_Some in Hvi as (v' & Hvi & ->).
    destruct (Hv i ns v' Hi Hvi) as [H1 H2]. split; cbn.
    - intros buf Hb. by rewrite H1.
    - intros x Hx. destruct v' as [y| |]; cbn in Hx; [|done..]. apply (Hg _ _ _ (H2 _ eq_refl) Hx).
  Qed.
End Contracts.

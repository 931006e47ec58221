(** C82: for a requested strength, the rule of the file with the smallest sufficient strength is returned, and an error exactly if no file is sufficient. *)
From Coq Require Import ZArith NArith String Ascii Arith Lia Bool List Permutation.
From Verif Require Import PolyquadModel PropPolyquadText.
Import ListNotations.
Local Open Scope list_scope.

(** ** Specification *)
(** the text of a number: decimal digits, possibly after a plus sign *)
Definition numeral (s : string) (n : N) : Prop :=
  exists ds, ds <> [] /\ Forall (fun d => (d < 10)%N) ds /\ (chars s = map (fun d => ascii_of_N (48 + d)) ds \/ chars s = "+"%char :: map (fun d => ascii_of_N (48 + d)) ds) /\
    n = fold_left (fun a d => 10 * a + d)%N ds 0%N /\ (n < 2 ^ 64)%N.
(** a file named [strength]-[size].txt *)
Definition is_rule_file (e : entry) (strength size : N) : Prop :=
  en_is_file e = true /\ en_extension e = Some "txt"%string /\ exists a b, en_stem e = (a ++ String "-" b)%string /\ numeral a strength /\ numeral b size.

Section Select.
Context {F : Type} (parse : string -> @table F + parse_error).
(** the directory has rule files, all well formed and of the size in their name, no two of the same strength *)
Definition well_formed (dir : list entry) : Prop :=
  (exists e s n, In e dir /\ is_rule_file e s n) /\
  (forall e s n, In e dir -> is_rule_file e s n -> exists w p, parse (en_text e) = inl (w, p) /\ N.of_nat (length w) = n /\ N.of_nat (length p) = n) /\
  (forall i j e f s n m, nth_error dir i = Some e -> nth_error dir j = Some f -> is_rule_file e s n -> is_rule_file f s m -> i = j).

(** ** File names *)
Lemma ascii_N_of_ascii c : ascii_of_N (N_of_ascii c) = c.
Proof. destruct c as [[] [] [] [] [] [] [] []]; reflexivity. Qed.
Lemma digit_spec c d : digit c = Some d <-> (d < 10)%N /\ c = ascii_of_N (48 + d).
Proof.
  unfold digit. split.
  - destruct ((48 <=? N_of_ascii c) && (N_of_ascii c <=? 57))%N eqn:E; [|discriminate]. intros [= <-]. apply andb_prop in E. destruct E as [E1 E2].
    apply N.leb_le in E1, E2. split; [lia|]. replace (48 + (N_of_ascii c - 48))%N with (N_of_ascii c) by lia. symmetry. apply ascii_N_of_ascii.
  - intros (L & ->). assert (C : In d [0; 1; 2; 3; 4; 5; 6; 7; 8; 9]%N) by (cbn; lia). cbn in C. repeat destruct C as [<-|C]; [reflexivity..|destruct C].
Qed.
Lemma digits_spec s acc n : digits acc s = Some n <-> exists ds, Forall (fun d => (d < 10)%N) ds /\ chars s = map (fun d => ascii_of_N (48 + d)) ds /\ n = fold_left (fun a d => 10 * a + d)%N ds acc.
Proof.
  revert acc. induction s as [|c s IH]; intros acc; cbn [digits chars].
  - split.
    + intros [= <-]. exists []. repeat constructor.
    + intros (ds & _ & E & ->). destruct ds; [reflexivity|discriminate].
  - destruct (digit c) as [d|] eqn:D.
    + rewrite IH. apply digit_spec in D. destruct D as (L & ->). split.
      * intros (ds & B & E & ->). exists (d :: ds). split; [constructor; assumption|]. split; [cbn; rewrite E; reflexivity|reflexivity].
      * intros (ds & B & E & ->). destruct ds as [|d' ds]; [discriminate|]. inversion B; subst. cbn in E. injection E as E1 E2.
        assert (d' = d) as ->. { assert (A : digit (ascii_of_N (48 + d)) = Some d') by (apply digit_spec; split; assumption).
          assert (A' : digit (ascii_of_N (48 + d)) = Some d) by (apply digit_spec; split; [assumption|reflexivity]). congruence. }
        exists ds. repeat split; assumption.
    + split; [discriminate|]. intros (ds & B & E & ->). destruct ds as [|d' ds]; [discriminate|]. inversion B; subst. cbn in E. injection E as E1 E2.
      assert (A : digit c = Some d') by (apply digit_spec; split; assumption). congruence.
Qed.
Lemma no_plus_digit d ds l : (d < 10)%N -> "+"%char :: l = map (fun d => ascii_of_N (48 + d)) (d :: ds) -> False.
Proof. intros L E. cbn in E. injection E as E _. assert (A : digit "+" = Some d) by (apply digit_spec; split; assumption). discriminate A. Qed.
Lemma parse_usize_spec s n : parse_usize s = Some n <-> numeral s n.
Proof.
  assert (G : forall r, (match r with EmptyString => None | _ => match digits 0 r with Some n => if (n <? 2 ^ 64)%N then Some n else None | None => None end end) = Some n <->
    exists ds, ds <> [] /\ Forall (fun d => (d < 10)%N) ds /\ chars r = map (fun d => ascii_of_N (48 + d)) ds /\ n = fold_left (fun a d => 10 * a + d)%N ds 0%N /\ (n < 2 ^ 64)%N).
  { intros r. destruct r as [|c r].
    - split; [discriminate|]. intros (ds & N & _ & E & _). destruct ds; [destruct N; reflexivity|discriminate].
    - destruct (digits 0 (String c r)) as [m|] eqn:E.
      + apply digits_spec in E. destruct E as (ds & B & E & ->). destruct (N.ltb_spec (fold_left (fun a d => 10 * a + d)%N ds 0%N) (2 ^ 64)) as [L|L].
        * split; [intros [= <-]; exists ds; repeat split; try assumption; intros ->; discriminate|]. intros (ds' & _ & B' & E' & -> & _).
          assert (H : digits 0 (String c r) = Some (fold_left (fun a d => 10 * a + d)%N ds 0%N)) by (apply digits_spec; exists ds; repeat split; assumption).
          assert (H' : digits 0 (String c r) = Some (fold_left (fun a d => 10 * a + d)%N ds' 0%N)) by (apply digits_spec; exists ds'; repeat split; assumption). congruence.
        * split; [discriminate|]. intros (ds' & _ & B' & E' & -> & L').
          assert (H : digits 0 (String c r) = Some (fold_left (fun a d => 10 * a + d)%N ds 0%N)) by (apply digits_spec; exists ds; repeat split; assumption).
          assert (H' : digits 0 (String c r) = Some (fold_left (fun a d => 10 * a + d)%N ds' 0%N)) by (apply digits_spec; exists ds'; repeat split; assumption). assert (Q : fold_left (fun a d => 10 * a + d)%N ds 0%N = fold_left (fun a d => 10 * a + d)%N ds' 0%N) by congruence. rewrite Q in L. destruct (proj1 (N.lt_nge _ _) L' L).
      + split; [discriminate|]. intros (ds' & _ & B' & E' & -> & L').
        assert (H' : digits 0 (String c r) = Some (fold_left (fun a d => 10 * a + d)%N ds' 0%N)) by (apply digits_spec; exists ds'; repeat split; assumption). congruence. }
  unfold numeral. assert (P : forall l, (forall c r, s = String c r -> c <> "+"%char) \/ s = String "+" l -> True) by trivial. clear P.
  assert (S : (exists r, s = String "+" r) \/ (parse_usize s = match s with EmptyString => None | _ => match digits 0 s with Some n => if (n <? 2 ^ 64)%N then Some n else None | None => None end end /\ forall r, s <> String "+" r)).
  { destruct s as [|c r]; [right; split; [reflexivity|discriminate]|]. destruct (Ascii.eqb_spec c "+") as [->|N]; [left; exists r; reflexivity|]. right. split.
    - unfold parse_usize. destruct c as [[] [] [] [] [] [] [] []]; try reflexivity. destruct N; reflexivity.
    - intros r' [= E _]. apply N, E. }
  destruct S as [(r & ->)|(E & N)].
  - change (parse_usize (String "+" r)) with (match r with EmptyString => None | _ => match digits 0 r with Some n => if (n <? 2 ^ 64)%N then Some n else None | None => None end end).
    rewrite G. split.
    + intros (ds & H1 & H2 & H3 & H4). exists ds. split; [exact H1|]. split; [exact H2|]. split; [right; cbn; rewrite H3; reflexivity|exact H4].
    + intros (ds & H1 & H2 & [H3|H3] & H4).
      * exfalso. destruct ds as [|d ds]; [destruct H1; reflexivity|]. inversion H2; subst. apply (no_plus_digit d ds (chars r)); assumption.
      * cbn in H3. injection H3 as H3. exists ds. repeat split; try assumption; apply H4.
  - rewrite E, G. split.
    + intros (ds & H1 & H2 & H3 & H4). exists ds. split; [exact H1|]. split; [exact H2|]. split; [left; exact H3|exact H4].
    + intros (ds & H1 & H2 & [H3|H3] & H4); [exists ds; repeat split; try assumption; apply H4|]. exfalso. destruct s as [|c r]; [discriminate|]. cbn in H3. injection H3 as -> _. apply (N r). reflexivity.
Qed.
Lemma numeral_no_dash a n : numeral a n -> ~ In "-"%char (chars a).
Proof.
  intros (ds & _ & B & E & _) I. assert (H : In "-"%char (map (fun d => ascii_of_N (48 + d)) ds)) by (destruct E as [E|E]; rewrite E in I; [exact I|destruct I as [I|I]; [discriminate|exact I]]).
  apply in_map_iff in H. destruct H as (d & H & Hd). rewrite Forall_forall in B. assert (A : digit "-" = Some d) by (apply digit_spec; split; [apply B, Hd|symmetry; exact H]). discriminate A.
Qed.
Lemma split_dash_none b : ~ In "-"%char (chars b) -> split_dash b = [b].
Proof.
  induction b as [|c b IH]; intros N; [reflexivity|]. cbn [split_dash]. destruct (Ascii.eqb_spec c "-") as [->|C]; [destruct N; left; reflexivity|]. rewrite IH; [reflexivity|].
  intros I. apply N. right. exact I.
Qed.
Lemma split_dash_app a b : ~ In "-"%char (chars a) -> split_dash (a ++ String "-" b)%string = a :: split_dash b.
Proof.
  induction a as [|c a IH]; intros N; [reflexivity|]. cbn [append split_dash]. destruct (Ascii.eqb_spec c "-") as [->|C]; [destruct N; left; reflexivity|]. rewrite IH; [reflexivity|].
  intros I. apply N. right. exact I.
Qed.
Lemma split_dash_nonempty s : split_dash s <> [].
Proof. induction s as [|c s IH]; [discriminate|]. cbn. destruct (Ascii.eqb c "-"); [discriminate|]. destruct (split_dash s); [destruct IH; reflexivity|discriminate]. Qed.
Lemma split_dash_one s a : split_dash s = [a] -> s = a.
Proof.
  revert a. induction s as [|c s IH]; intros a E; cbn in E; [injection E as <-; reflexivity|]. destruct (Ascii.eqb c "-"); [injection E as _ E; destruct (split_dash_nonempty _ E)|].
  destruct (split_dash s) as [|l [|? ?]] eqn:D; try discriminate. injection E as <-. rewrite (IH l eq_refl). reflexivity.
Qed.
Lemma split_dash_two s a b : split_dash s = [a; b] -> s = (a ++ String "-" b)%string.
Proof.
  revert a b. induction s as [|c s IH]; intros a b E; cbn in E; [discriminate|]. destruct (Ascii.eqb_spec c "-") as [->|C].
  - injection E as <- E. rewrite (split_dash_one _ _ E). reflexivity.
  - destruct (split_dash s) as [|l [|l' [|? ?]]] eqn:D; try discriminate. injection E as <- <-. rewrite (IH l l' eq_refl). reflexivity.
Qed.
Lemma rule_file_spec e s n : rule_file e = Some (s, n) <-> is_rule_file e s n.
Proof.
  unfold rule_file, is_rule_file, match_stem. destruct e as [f stem ext text]. cbn [en_is_file en_stem en_extension]. split.
  - destruct f; [|discriminate]. destruct ext as [ext|]; [|discriminate]. destruct (String.eqb_spec ext "txt") as [->|]; [|discriminate].
    destruct (split_dash stem) as [|a [|b [|? ?]]] eqn:D; try discriminate. destruct (parse_usize a) as [s'|] eqn:A; [|discriminate]. destruct (parse_usize b) as [n'|] eqn:B; [|discriminate].
    intros [= -> ->]. split; [reflexivity|]. split; [reflexivity|]. exists a, b. split; [apply split_dash_two, D|]. split; apply parse_usize_spec; assumption.
  - intros (-> & -> & a & b & -> & A & B). rewrite String.eqb_refl. rewrite split_dash_app by (eapply numeral_no_dash; exact A). rewrite split_dash_none by (eapply numeral_no_dash; exact B).
    apply parse_usize_spec in A, B. rewrite A, B. reflexivity.
Qed.

(** ** Loading *)
Definition sized (r : @table F) (n : N) : Prop := N.of_nat (length (fst r)) = n /\ N.of_nat (length (snd r)) = n.
Definition strengths (dir : list entry) : list N := flat_map (fun e => match rule_file e with Some (s, _) => [s] | None => [] end) dir.
Lemma load_files_some dir rules : load_files parse dir = Some rules ->
  map fst rules = strengths dir /\
  (forall s t, In (s, t) rules -> exists e n, In e dir /\ rule_file e = Some (s, n) /\ parse (en_text e) = inl t /\ sized t n) /\
  (forall e s n, In e dir -> rule_file e = Some (s, n) -> exists t, In (s, t) rules /\ parse (en_text e) = inl t /\ sized t n).
Proof.
  revert rules. induction dir as [|e dir IH]; intros rules E; cbn [load_files] in E.
  - injection E as <-. split; [reflexivity|]. split; [intros s t []|intros e s n []].
  - cbn [strengths flat_map]. destruct (rule_file e) as [[s n]|] eqn:R.
    + destruct (parse (en_text e)) as [t|] eqn:P; [|discriminate].
      destruct ((N.of_nat (length (fst t)) =? n)%N && (length (fst t) =? length (snd t))%nat) eqn:L; [|discriminate]. apply andb_prop in L. destruct L as [L1 L2].
      apply N.eqb_eq in L1. apply Nat.eqb_eq in L2. destruct (load_files parse dir) as [rs|] eqn:E'; [|discriminate]. injection E as <-. destruct (IH rs eq_refl) as (M & I & J).
      assert (Z : sized t n) by (split; [exact L1|rewrite <- L2; exact L1]). split; [cbn; rewrite M; reflexivity|]. split.
      * intros s' t' [[= <- <-]|H]; [exists e, n; repeat split; try assumption; try (left; reflexivity); apply Z|]. destruct (I s' t' H) as (e' & n' & H1 & H2). exists e', n'. split; [right; exact H1|exact H2].
      * intros e' s' n' [<-|H] R'; [rewrite R in R'; injection R' as <- <-; exists t; split; [left; reflexivity|split; assumption]|]. destruct (J e' s' n' H R') as (t' & H1 & H2). exists t'. split; [right; exact H1|exact H2].
    + destruct (IH rules E) as (M & I & J). split; [exact M|]. split.
      * intros s t H. destruct (I s t H) as (e' & n' & H1 & H2). exists e', n'. split; [right; exact H1|exact H2].
      * intros e' s n [<-|H] R'; [congruence|apply (J e' s n H R')].
Qed.
Lemma load_files_none dir : load_files parse dir = None -> exists e s n, In e dir /\ rule_file e = Some (s, n) /\ forall t, parse (en_text e) = inl t -> ~ sized t n.
Proof.
  induction dir as [|e dir IH]; intros E; cbn [load_files] in E; [discriminate|]. destruct (rule_file e) as [[s n]|] eqn:R.
  - destruct (parse (en_text e)) as [t|] eqn:P.
    + destruct ((N.of_nat (length (fst t)) =? n)%N && (length (fst t) =? length (snd t))%nat) eqn:L.
      * destruct (load_files parse dir) as [rs|] eqn:E'; [discriminate|]. destruct (IH eq_refl) as (e' & s' & n' & H1 & H2). exists e', s', n'. split; [right; exact H1|exact H2].
      * exists e, s, n. split; [left; reflexivity|]. split; [exact R|]. rewrite P. intros t' [= <-] (Z1 & Z2). rewrite <- Z1 in L. rewrite N.eqb_refl in L. cbn in L. apply Nat.eqb_neq in L. lia.
    + exists e, s, n. split; [left; reflexivity|]. split; [exact R|]. rewrite P. discriminate.
  - destruct (IH E) as (e' & s' & n' & H1 & H2). exists e', s', n'. split; [right; exact H1|exact H2].
Qed.
Lemma insert_perm (r : N * @table F) rules : Permutation (r :: rules) (insert_rule r rules).
Proof.
  induction rules as [|s rules IH]; [reflexivity|]. cbn. destruct (fst r <=? fst s)%N; [reflexivity|]. rewrite perm_swap. constructor. exact IH.
Qed.
Lemma sort_perm (rules : list (N * @table F)) : Permutation rules (sort_rules rules).
Proof. induction rules as [|r rules IH]; [reflexivity|]. cbn. rewrite <- insert_perm. constructor. exact IH. Qed.
Lemma distinct_spec l : distinct l = true <-> NoDup l.
Proof.
  induction l as [|x l IH]; cbn; [split; [constructor|reflexivity]|]. rewrite andb_true_iff, IH, negb_true_iff. split.
  - intros (N & D). constructor; [|exact D]. intros I. assert (existsb (N.eqb x) l = true) by (apply existsb_exists; exists x; split; [exact I|apply N.eqb_refl]). congruence.
  - intros D. inversion D as [|? ? Nx D']; subst. split; [|exact D']. destruct (existsb (N.eqb x) l) eqn:E; [|reflexivity]. apply existsb_exists in E. destruct E as (y & I & E). apply N.eqb_eq in E. subst y. destruct (Nx I).
Qed.
Lemma max_ge l s : In s l -> (s <= fold_right N.max 0 l)%N.
Proof. induction l as [|x l IH]; intros []; cbn; [subst; lia|]. specialize (IH H). lia. Qed.
Lemma max_In l : l <> [] -> In (fold_right N.max 0%N l) l.
Proof.
  induction l as [|x l IH]; intros N; [destruct N; reflexivity|]. destruct l as [|y l]; [left; cbn; lia|]. change (fold_right N.max 0%N (x :: y :: l)) with (N.max x (fold_right N.max 0%N (y :: l))).
  destruct (N.max_spec x (fold_right N.max 0%N (y :: l))) as [(_ & ->)|(_ & ->)]; [right; apply IH; discriminate|left; reflexivity].
Qed.

Lemma select_from_spec fuel (rules : list (N * @table F)) mx k : (forall s t, In (s, t) rules -> (s <= mx)%N) -> (N.to_nat (mx + 1 - k) < fuel)%nat ->
  exists res, select_from fuel rules mx k = Some res /\
    match res with
    | Some t => exists s, In (s, t) rules /\ (k <= s)%N /\ forall s' t', In (s', t') rules -> (k <= s')%N -> (s <= s')%N
    | None => forall s t, In (s, t) rules -> (s < k)%N
    end.
Proof.
  intros M. revert k. induction fuel as [|fuel IH]; intros k L; [lia|]. cbn [select_from].
  destruct (find (fun r => (fst r =? k)%N) rules) as [[s t]|] eqn:Fd.
  - apply find_some in Fd. destruct Fd as (I & E). apply N.eqb_eq in E. cbn in E. subst s. exists (Some t). split; [reflexivity|]. exists k. split; [exact I|]. split; [lia|]. intros; lia.
  - assert (No : forall s t, In (s, t) rules -> s <> k).
    { intros s t I ->. pose proof (find_none _ _ Fd _ I) as E. cbn in E. rewrite N.eqb_refl in E. discriminate. }
    destruct (N.leb_spec k mx) as [Le|Gt].
    + destruct (IH (k + 1)%N) as (res & E & R); [lia|]. exists res. split; [exact E|]. destruct res as [t|].
      * destruct R as (s & I & Ls & Mn). exists s. split; [exact I|]. split; [lia|]. intros s' t' I' L'. apply (Mn s' t' I'). pose proof (No s' t' I'). lia.
      * intros s t I. pose proof (R s t I). pose proof (No s t I). lia.
    + exists None. split; [reflexivity|]. intros s t I. pose proof (M s t I). lia.
Qed.
Lemma strengths_In dir s : In s (strengths dir) <-> exists e n, In e dir /\ rule_file e = Some (s, n).
Proof.
  unfold strengths. rewrite in_flat_map. split.
  - intros (e & I & H). destruct (rule_file e) as [[s' n]|] eqn:R; [|destruct H]. destruct H as [<-|[]]. exists e, n. split; assumption.
  - intros (e & n & I & R). exists e. split; [exact I|]. rewrite R. left; reflexivity.
Qed.
Lemma strengths_NoDup dir : NoDup (strengths dir) <-> forall i j e f s n m, nth_error dir i = Some e -> nth_error dir j = Some f -> rule_file e = Some (s, n) -> rule_file f = Some (s, m) -> i = j.
Proof.
  induction dir as [|e dir IH]; [split; [intros _ [|i]; discriminate|constructor]|].
  change (strengths (e :: dir)) with (match rule_file e with Some (s, _) => [s] | None => [] end ++ strengths dir). split.
  - intros D. assert (D' : NoDup (strengths dir)) by (destruct (rule_file e) as [[s n]|]; [inversion D; assumption|exact D]).
    assert (X : forall s n m j f, rule_file e = Some (s, n) -> nth_error dir j = Some f -> rule_file f = Some (s, m) -> False).
    { intros s n m j f R Hj Rf. rewrite R in D. inversion D as [|? ? Ns _]; subst. apply Ns, strengths_In. exists f, m. split; [eapply nth_error_In, Hj|exact Rf]. }
    intros [|i] [|j] e1 e2 s n m H1 H2 R1 R2; cbn in H1, H2.
    + reflexivity.
    + injection H1 as <-. destruct (X s n m j e2 R1 H2 R2).
    + injection H2 as <-. destruct (X s m n i e1 R2 H1 R1).
    + f_equal. apply (proj1 IH D' i j e1 e2 s n m); assumption.
  - intros H. assert (D : NoDup (strengths dir)).
    { apply IH. intros i j e1 e2 s n m H1 H2 R1 R2. assert (E : S i = S j) by (apply (H (S i) (S j) e1 e2 s n m); assumption). lia. }
    destruct (rule_file e) as [[s n]|] eqn:R; [|exact D]. constructor; [|exact D]. intros I. apply strengths_In in I. destruct I as (f & m & I & Rf). apply In_nth_error in I. destruct I as (j & Hj).
    assert (E : O = S j) by (apply (H O (S j) e f s n m); try assumption; reflexivity). lia.
Qed.

(** C82. The directory yields a selection function exactly if it is well formed, and then the function returns the rule in the file with the smallest strength that is at
    least the requested one, or the error if there is no such file. *)
Theorem C82_select dir k :
  (select_minimum parse dir k <> None <-> well_formed dir) /\
  forall res, select_minimum parse dir k = Some res ->
    match res with
    | Some r => exists e s n, In e dir /\ is_rule_file e s n /\ parse (en_text e) = inl r /\ N.of_nat (length (fst r)) = n /\ N.of_nat (length (snd r)) = n /\
        (k <= s)%N /\ forall e' s' n', In e' dir -> is_rule_file e' s' n' -> (k <= s')%N -> (s <= s')%N
    | None => forall e s n, In e dir -> is_rule_file e s n -> (s < k)%N
    end.
Proof.
  assert (G : forall rules, load_files parse dir = Some rules -> rules <> [] -> NoDup (map fst rules) -> exists res, select_minimum parse dir k = Some res /\
    match res with
    | Some t => exists s, In (s, t) rules /\ (k <= s)%N /\ forall s' t', In (s', t') rules -> (k <= s')%N -> (s <= s')%N
    | None => forall s t, In (s, t) rules -> (s < k)%N
    end).
  { intros rules E N D. unfold select_minimum, load_rules. rewrite E. pose proof (sort_perm rules) as P.
    assert (PI : forall s t, In (s, t) (sort_rules rules) <-> In (s, t) rules) by (intros s t; split; apply Permutation_in; [symmetry|]; exact P).
    destruct (sort_rules rules) as [|r0 rs] eqn:Es; [apply Permutation_sym, Permutation_nil in P; destruct (N P)|]. rewrite <- Es in *.
    assert (Ds : distinct (map fst (sort_rules rules)) = true) by (apply distinct_spec; apply (Permutation_NoDup (l := map fst rules)); [apply Permutation_map, P|exact D]).
    cbv zeta. rewrite Ds. destruct (select_from_spec (S (N.to_nat (fold_right N.max 0%N (map fst (sort_rules rules)) + 1 - k))) (sort_rules rules) (fold_right N.max 0%N (map fst (sort_rules rules))) k) as (res & Er & R).
    - intros s t I. apply max_ge. apply (in_map fst) in I. exact I.
    - lia.
    - exists res. split; [exact Er|]. destruct res as [t|].
      + destruct R as (s & I & L & Mn). exists s. split; [apply PI, I|]. split; [exact L|]. intros s' t' I'. apply (Mn s' t'), PI, I'.
      + intros s t I. apply (R s t), PI, I. }
  split; [split|].
  - intros E. unfold select_minimum, load_rules in E. destruct (load_files parse dir) as [rules|] eqn:L; [|destruct E; reflexivity].
    destruct (load_files_some dir rules L) as (M & I & J). pose proof (sort_perm rules) as P. destruct (sort_rules rules) as [|[s0 t0] rs] eqn:Es; [destruct E; reflexivity|].
    destruct (distinct (map fst ((s0, t0) :: rs))) eqn:D; [|destruct E; reflexivity]. apply distinct_spec in D. rewrite <- Es in D.
    assert (D' : NoDup (strengths dir)).
    { rewrite <- M. apply (Permutation_NoDup (l := map fst (sort_rules rules))); [apply Permutation_map, Permutation_sym; rewrite Es; exact P|exact D]. }
    split; [|split].
    + destruct (I s0 t0) as (e & n & H1 & H2 & _); [apply (Permutation_in _ (Permutation_sym P)); left; reflexivity|]. exists e, s0, n. split; [exact H1|apply rule_file_spec, H2].
    + intros e s n He R. apply rule_file_spec in R. destruct (J e s n He R) as ([w p] & _ & H2 & Z1 & Z2). exists w, p. repeat split; assumption.
    + intros i j e f s n m H1 H2 R1 R2. apply rule_file_spec in R1, R2. apply (proj1 (strengths_NoDup dir) D' i j e f s n m); assumption.
  - intros ((e0 & s0 & n0 & H0 & R0) & W & U). destruct (load_files parse dir) as [rules|] eqn:L.
    + destruct (load_files_some dir rules L) as (M & I & J). destruct (G rules eq_refl) as (res & E & _).
      * apply rule_file_spec in R0. destruct (J e0 s0 n0 H0 R0) as (t & H & _). intros ->. destruct H.
      * rewrite M. apply strengths_NoDup. intros i j e f s n m H1 H2 R1 R2. apply rule_file_spec in R1, R2. apply (U i j e f s n m); assumption.
      * rewrite E. discriminate.
    + destruct (load_files_none dir L) as (e & s & n & He & R & B). apply rule_file_spec in R. destruct (W e s n He R) as (w & p & E & Z1 & Z2). destruct (B (w, p) E). split; assumption.
  - intros res E. unfold select_minimum, load_rules in E. destruct (load_files parse dir) as [rules|] eqn:L; [|discriminate].
    destruct (load_files_some dir rules L) as (M & I & J). pose proof (sort_perm rules) as P. destruct (sort_rules rules) as [|[s0 t0] rs] eqn:Es; [discriminate|].
    destruct (distinct (map fst ((s0, t0) :: rs))) eqn:D; [|discriminate]. apply distinct_spec in D. rewrite <- Es in D.
    destruct (G rules eq_refl) as (res' & E' & R).
    + intros ->. discriminate.
    + apply (Permutation_NoDup (l := map fst (sort_rules rules))); [apply Permutation_map, Permutation_sym; rewrite Es; exact P|exact D].
    + unfold select_minimum, load_rules in E'. rewrite L, Es in E'. assert (Dt : distinct (map fst ((s0, t0) :: rs)) = true) by (apply distinct_spec; rewrite <- Es; exact D). cbv zeta in E, E'. rewrite Dt in E'. rewrite E in E'. injection E' as <-.
      destruct res as [t|].
      * destruct R as (s & H & Lk & Mn). destruct (I s t H) as (e & n & H1 & H2 & H3 & Z1 & Z2). exists e, s, n. split; [exact H1|]. split; [apply rule_file_spec, H2|].
        split; [exact H3|]. split; [exact Z1|]. split; [exact Z2|]. split; [exact Lk|]. intros e' s' n' He' R' L'. apply rule_file_spec in R'. destruct (J e' s' n' He' R') as (t' & H' & _). apply (Mn s' t' H' L').
      * intros e s n He R'. apply rule_file_spec in R'. destruct (J e s n He R') as (t' & H' & _). apply (R s t' H').
Qed.
End Select.
Print Assumptions C82_select.

(** the order in which the directory is read does not matter *)
Theorem C82_order {F} (parse : string -> @table F + parse_error) dir dir' k : Permutation dir dir' -> select_minimum parse dir k = select_minimum parse dir' k.
Proof.
  intros P. assert (W : forall d d', Permutation d d' -> well_formed parse d -> well_formed parse d').
  { intros d d' Q (H1 & H2 & H3). split; [|split].
    - destruct H1 as (e & s & n & I & R). exists e, s, n. split; [apply (Permutation_in _ Q), I|exact R].
    - intros e s n I. apply H2, (Permutation_in _ (Permutation_sym Q)), I.
    - intros i j e f s n m E1 E2 R1 R2. assert (D : NoDup (strengths d')).
      { apply (Permutation_NoDup (l := strengths d)); [apply Permutation_flat_map, Q|]. apply strengths_NoDup. intros i' j' e' f' s' n' m' A1 A2 B1 B2. apply rule_file_spec in B1, B2. apply (H3 i' j' e' f' s' n' m'); assumption. }
      apply rule_file_spec in R1, R2. apply (proj1 (strengths_NoDup d') D i j e f s n m); assumption. }
  destruct (C82_select parse dir k) as (A & S). destruct (C82_select parse dir' k) as (A' & S').
  destruct (select_minimum parse dir k) as [r|]; destruct (select_minimum parse dir' k) as [r'|].
  - assert (Wd : well_formed parse dir') by (apply A'; discriminate). destruct Wd as (_ & _ & U). specialize (S r eq_refl). specialize (S' r' eq_refl). f_equal. destruct r as [t|]; destruct r' as [t'|].
    + destruct S as (e & s & n & I & R & E & _ & _ & L & M). destruct S' as (e' & s' & n' & I' & R' & E' & _ & _ & L' & M').
      assert (s = s') as ->. { apply N.le_antisymm; [apply (M e' s' n'); try assumption; apply (Permutation_in _ (Permutation_sym P)), I'|apply (M' e s n); try assumption; apply (Permutation_in _ P), I]. }
      apply (Permutation_in _ P) in I. apply In_nth_error in I, I'. destruct I as (i & I). destruct I' as (j & I'). assert (i = j) as -> by (apply (U i j e e' s' n n'); assumption).
      rewrite I in I'. injection I' as <-. rewrite E in E'. injection E' as <-. reflexivity.
    + destruct S as (e & s & n & I & R & E & _ & _ & L & M). specialize (S' e s n (Permutation_in _ P I) R). lia.
    + destruct S' as (e & s & n & I & R & E & _ & _ & L & M). specialize (S e s n (Permutation_in _ (Permutation_sym P) I) R). lia.
    + reflexivity.
  - exfalso. apply A'; [|reflexivity]. apply (W dir dir' P). apply A. discriminate.
  - exfalso. apply A; [|reflexivity]. apply (W dir' dir (Permutation_sym P)). apply A'. discriminate.
  - reflexivity.
Qed.
Print Assumptions C82_order.

(** files of strengths 1, 2 and 4 *)
Definition example_dir : list entry :=
  [ {| en_is_file := true; en_stem := "4-1"; en_extension := Some "txt"%string; en_text := "a b c" |};
    {| en_is_file := true; en_stem := ".DS_Store"; en_extension := None; en_text := "" |};
    {| en_is_file := true; en_stem := "1-2"; en_extension := Some "txt"%string; en_text := ("d e f" ++ String "010" "g h i")%string |};
    {| en_is_file := true; en_stem := "2-1"; en_extension := Some "txt"%string; en_text := "j k l" |} ].
Example C82_example : well_formed (parse2d (fun t => Some t)) example_dir /\
  select_minimum (parse2d (fun t => Some t)) example_dir 0 = Some (Some (["f"; "i"], [["d"; "e"]; ["g"; "h"]]))%string /\
  select_minimum (parse2d (fun t => Some t)) example_dir 3 = Some (Some (["c"], [["a"; "b"]]))%string /\
  select_minimum (parse2d (fun t => Some t)) example_dir 5 = Some None.
Proof. split; [apply (proj1 (C82_select _ _ 0%N)); vm_compute; discriminate|]. vm_compute. repeat split. Qed.

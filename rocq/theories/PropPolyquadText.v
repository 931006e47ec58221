(** C83: the text format of quadrature tables is read correctly: rows of white-space separated numbers, blank lines skipped, the first malformed row reported. *)
From Coq Require Import String Ascii Arith Lia Bool List.
From Verif Require Import PolyquadModel.
Import ListNotations.
Local Open Scope string_scope.

(** ** Specification *)
(** space, tab, line feed, form feed, carriage return *)
Definition space_chars : list ascii := [" "; "009"; "010"; "012"; "013"]%char.
Fixpoint chars (s : string) : list ascii := match s with EmptyString => [] | String c s => c :: chars s end.
Definition blank (s : string) : Prop := forall c, In c (chars s) -> In c space_chars.
Definition word (s : string) : Prop := s <> EmptyString /\ forall c, In c (chars s) -> ~ In c space_chars.
(** the white-space separated words of a string *)
Inductive Words : string -> list string -> Prop :=
  | Words_none s : blank s -> Words s []
  | Words_last s w : blank s -> word w -> Words (s ++ w) [w]
  | Words_more s w c t ws : blank s -> word w -> In c space_chars -> Words (String c t) ws -> Words (s ++ w ++ String c t) (w :: ws).
(** the lines of a text; the last one need not end with a line feed *)
Definition no_newline (s : string) : Prop := ~ In "010"%char (chars s).
Inductive Lines : string -> list string -> Prop :=
  | Lines_none : Lines EmptyString []
  | Lines_last l : no_newline l -> l <> EmptyString -> Lines l [l]
  | Lines_more l t ls : no_newline l -> Lines t ls -> Lines (l ++ String "010" t) (l :: ls).
(** the words of the lines that are not blank *)
Definition Rows (text : string) (rows : list (list string)) : Prop :=
  exists ls wss, Lines text ls /\ Forall2 Words ls wss /\ rows = filter (fun ws => match ws with [] => false | _ => true end) wss.

(** ** Words and lines *)
Lemma is_space_spec c : is_space c = true <-> In c space_chars.
Proof.
  split.
  - intros H. destruct c as [[] [] [] [] [] [] [] []]; try discriminate H; cbn; auto 10.
  - intros H. cbn in H. repeat destruct H as [<-|H]; [reflexivity..|destruct H].
Qed.
Lemma is_space_false c : is_space c = false <-> ~ In c space_chars.
Proof.
  rewrite <- is_space_spec. destruct (is_space c); split; intros H; try discriminate; try reflexivity. destruct H; reflexivity.
Qed.
Lemma is_newline_spec c : is_newline c = true <-> c = "010"%char.
Proof.
  split; [|intros ->; reflexivity]. intros H. destruct c as [[] [] [] [] [] [] [] []]; try discriminate H; reflexivity.
Qed.
Lemma words_blank s t : blank s -> words (s ++ t) = words t.
Proof.
  unfold words. induction s as [|c s IH]; intros B; [reflexivity|]. cbn [append words_from].
  assert (C : is_space c = true) by (apply is_space_spec, B; left; reflexivity).
  assert (IH' := IH (fun d I => B d (or_intror I))). destruct (words_from (s ++ t)) as [w ws]. rewrite C. cbn [push_word]. exact IH'.
Qed.
Lemma words_from_word w t : (forall c, In c (chars w) -> ~ In c space_chars) -> words_from (w ++ t) = (w ++ fst (words_from t), snd (words_from t)).
Proof.
  induction w as [|c w IH]; intros W; [cbn [append]; destruct (words_from t); reflexivity|]. cbn [append words_from]. rewrite IH by (intros d I; apply W; right; exact I).
  assert (C : is_space c = false) by (apply is_space_false, W; left; reflexivity). rewrite C. reflexivity.
Qed.
Lemma append_nil_r s : s ++ EmptyString = s.
Proof. induction s as [|c s IH]; [reflexivity|]. cbn. rewrite IH. reflexivity. Qed.
Lemma push_word_ok w ws : w <> EmptyString -> push_word w ws = w :: ws.
Proof. destruct w; [intros []; reflexivity|reflexivity]. Qed.
Lemma words_ok s ws : Words s ws -> words s = ws.
Proof.
  induction 1 as [s B|s w B (N & W)|s w c t ws B (N & W) C _ IH].
  - rewrite <- (append_nil_r s), words_blank by exact B. reflexivity.
  - rewrite words_blank by exact B. rewrite <- (append_nil_r w) at 1. unfold words. rewrite words_from_word by exact W. cbn [words_from fst snd]. rewrite append_nil_r.
    apply push_word_ok, N.
  - rewrite words_blank by exact B. unfold words. rewrite words_from_word by exact W. rewrite <- IH. unfold words. cbn [words_from].
    apply is_space_spec in C. destruct (words_from t) as [v vs]. rewrite C. cbn [fst snd push_word]. rewrite append_nil_r. apply push_word_ok, N.
Qed.
Lemma Words_total s : exists ws, Words s ws.
Proof.
  assert (H : exists b w ws, s = b ++ w /\ blank b /\ ((w = EmptyString /\ ws = []) \/ word w /\ ws = [w] \/
      exists v c t vs, w = v ++ String c t /\ word v /\ In c space_chars /\ Words (String c t) vs /\ ws = v :: vs)).
  { induction s as [|c s (b & w & ws & E & B & H)].
    - exists EmptyString, EmptyString, []. split; [reflexivity|]. split; [intros c []|]. left. split; reflexivity.
    - destruct (is_space c) eqn:C.
      + apply is_space_spec in C. exists (String c b), w, ws. split; [cbn; rewrite E; reflexivity|]. split; [intros d [<-|I]; [exact C|apply B, I]|exact H].
      + apply is_space_false in C. destruct b as [|c' b].
        * cbn in E. subst w. destruct H as [(-> & ->)|[((N & W) & ->)|(v & c' & t & vs & -> & (N & W) & C' & V & ->)]].
          -- exists EmptyString, (String c EmptyString), [String c EmptyString]. split; [reflexivity|]. split; [intros d []|]. right; left. split; [|reflexivity].
             split; [discriminate|]. intros d [<-|[]]. exact C.
          -- exists EmptyString, (String c s), [String c s]. split; [reflexivity|]. split; [intros d []|]. right; left. split; [|reflexivity].
             split; [discriminate|]. intros d [<-|I]; [exact C|apply W, I].
          -- exists EmptyString, (String c v ++ String c' t), (String c v :: vs). split; [reflexivity|]. split; [intros d []|]. right; right.
             exists (String c v), c', t, vs. repeat split; try assumption; try discriminate. intros d [<-|I]; [exact C|apply W, I].
        * assert (C' : In c' space_chars) by (apply B; left; reflexivity).
          assert (V : Words (String c' (b ++ w)) ws).
          { change (String c' (b ++ w)) with (String c' b ++ w). destruct H as [(-> & ->)|[(W & ->)|(v & d & t & vs & -> & W & D & V & ->)]].
            - rewrite append_nil_r. apply Words_none, B.
            - apply Words_last; assumption.
            - apply Words_more; assumption. }
          exists EmptyString, (String c s), (String c EmptyString :: ws). split; [reflexivity|]. split; [intros d []|]. right; right.
          exists (String c EmptyString), c', (b ++ w), ws. rewrite E. split; [reflexivity|]. split; [|split; [exact C'|split; [exact V|reflexivity]]].
          split; [discriminate|]. intros d [<-|[]]. exact C. }
  destruct H as (b & w & ws & -> & B & H). exists ws. destruct H as [(-> & ->)|[(W & ->)|(v & d & t & vs & -> & W & D & V & ->)]].
  - rewrite append_nil_r. apply Words_none, B.
  - apply Words_last; assumption.
  - apply Words_more; assumption.
Qed.
Lemma is_newline_no c : c <> "010"%char -> is_newline c = false.
Proof. intros N. destruct (is_newline c) eqn:E; [|reflexivity]. destruct N. apply is_newline_spec, E. Qed.
Lemma lines_ok s ls : Lines s ls -> lines s = ls.
Proof.
  induction 1 as [|l N E|l t ls N _ IH]; [reflexivity| |].
  - destruct l as [|c l]; [destruct E; reflexivity|clear E]. revert c N. induction l as [|d l IH]; intros c N.
    + cbn [lines]. rewrite is_newline_no; [reflexivity|]. intros ->. apply N. left; reflexivity.
    + change (lines (String c (String d l))) with (if is_newline c then EmptyString :: lines (String d l) else match lines (String d l) with [] => [String c EmptyString] | l :: ls => String c l :: ls end).
      rewrite is_newline_no by (intros ->; apply N; left; reflexivity). rewrite IH by (intros I; apply N; right; exact I). reflexivity.
  - induction l as [|c l IHl].
    + cbn. rewrite IH. reflexivity.
    + cbn [append lines]. rewrite is_newline_no by (intros ->; apply N; left; reflexivity). rewrite IHl by (intros I; apply N; right; exact I). reflexivity.
Qed.
Lemma Lines_total s : exists ls, Lines s ls.
Proof.
  assert (H : s = EmptyString \/ (no_newline s /\ s <> EmptyString) \/ exists l t ls, s = l ++ String "010" t /\ no_newline l /\ Lines t ls).
  { induction s as [|c s H]; [left; reflexivity|]. right. destruct (is_newline c) eqn:C.
    - apply is_newline_spec in C. subst c. right. destruct H as [-> | [(N & E)|(l & t & ls & -> & N & L)]].
      + exists EmptyString, EmptyString, []. repeat split; [intros []|constructor].
      + exists EmptyString, s, [s]. repeat split; [intros []|constructor; assumption].
      + exists EmptyString, (l ++ String "010" t), (l :: ls). repeat split; [intros []|constructor; assumption].
    - assert (C' : c <> "010"%char) by (intros ->; discriminate C). destruct H as [-> | [(N & E)|(l & t & ls & -> & N & L)]].
      + left. split; [intros [I|[]]; apply C', I|discriminate].
      + left. split; [intros [I|I]; [apply C', I|apply N, I]|discriminate].
      + right. exists (String c l), t, ls. repeat split; [intros [I|I]; [apply C', I|apply N, I]|exact L]. }
  destruct H as [-> | [(N & E)|(l & t & ls & -> & N & L)]]; eexists; constructor; eassumption.
Qed.
(** every text has rows, and only one list of them *)
Lemma Rows_total text : exists rows, Rows text rows.
Proof.
  destruct (Lines_total text) as (ls & L). assert (exists wss, Forall2 Words ls wss) as (wss & W).
  { clear L. induction ls as [|l ls (wss & IH)]; [exists []; constructor|]. destruct (Words_total l) as (ws & W). exists (ws :: wss). constructor; assumption. }
  exists (filter (fun ws => match ws with [] => false | _ => true end) wss), ls, wss. repeat split; assumption.
Qed.

Local Open Scope list_scope.
Section Parse.
Context {F : Type} (parse_float : string -> option F).

(** the parser sees the rows only *)
Fixpoint parse_rows {A} (labels : list string) (handler : A -> list F -> A + parse_error) (rule : A) (rows : list (list string)) : A + parse_error :=
  match rows with
  | [] => inl rule
  | row :: rows =>
      match parse_entries parse_float labels 0 row with
      | inr e => inr e
      | inl xs => match handler rule xs with inr e => inr e | inl rule => parse_rows labels handler rule rows end
      end
  end.
Lemma parse_lines_rows {A} labels (handler : A -> list F -> A + parse_error) rule text rows : Rows text rows ->
  parse_lines parse_float labels handler rule (lines text) = parse_rows labels handler rule rows.
Proof.
  intros (ls & wss & L & W & ->). rewrite (lines_ok _ _ L). clear text L. revert rule. induction W as [|l ws ls wss Hw W IH]; intros rule; [reflexivity|].
  cbn [parse_lines filter]. rewrite (words_ok _ _ Hw). destruct ws as [|w ws]; [apply IH|]. cbn [parse_rows]. destruct (parse_entries parse_float labels 0 (w :: ws)) as [xs|e]; [|reflexivity].
  destruct (handler rule xs); [apply IH|reflexivity].
Qed.
Lemma parse_entries_ok labels i row xs : map parse_float row = map Some xs -> parse_entries parse_float labels i row = inl xs.
Proof.
  revert i xs. induction row as [|t row IH]; intros i [|x xs] E; cbn in E; try discriminate; [reflexivity|]. injection E as E1 E2. cbn. rewrite E1, (IH (S i) xs E2). reflexivity.
Qed.
Lemma parse_entries_bad labels i row xs t rest : map parse_float row = map Some xs -> parse_float t = None ->
  parse_entries parse_float labels i (row ++ t :: rest) = inr (FloatError t (nth (i + length row) labels "unlabeled entry")).
Proof.
  revert i xs. induction row as [|u row IH]; intros i [|x xs] E B; cbn in E; try discriminate.
  - cbn. rewrite B, Nat.add_0_r. reflexivity.
  - injection E as E1 E2. cbn. rewrite E1, (IH (S i) xs E2 B). cbn [length]. replace (S i + length row) with (i + S (length row)) by lia. reflexivity.
Qed.
Lemma parse_entries_spec row : (exists xs, map parse_float row = map Some xs) \/ (exists r t rest xs, row = (r ++ t :: rest)%list /\ map parse_float r = map Some xs /\ parse_float t = None).
Proof.
  induction row as [|t row IH]; [left; exists []; reflexivity|]. destruct (parse_float t) as [x|] eqn:E.
  - destruct IH as [(xs & IH)|(r & u & rest & xs & -> & IH & B)].
    + left. exists (x :: xs). cbn. rewrite E, IH. reflexivity.
    + right. exists (t :: r), u, rest, (x :: xs). repeat split; [|exact B]. cbn. rewrite E, IH. reflexivity.
  - right. exists [], t, row, []. repeat split. exact E.
Qed.

(** rows of [d] coordinates and a weight *)
Definition row_of (row : list string) (point : list F) (w : F) : Prop := map parse_float row = map Some (point ++ [w])%list.
Definition rows_of (d : nat) (rows : list (list string)) (weights : list F) (points : list (list F)) : Prop :=
  length rows = length weights /\ length rows = length points /\ Forall (fun p => length p = d) points /\
  forall i row p w, nth_error rows i = Some row -> nth_error points i = Some p -> nth_error weights i = Some w -> row_of row p w.

Lemma rows_of_cons d row rows weights points : rows_of d (row :: rows) weights points ->
  exists w weights' p points', weights = w :: weights' /\ points = p :: points' /\ length p = d /\ row_of row p w /\ rows_of d rows weights' points'.
Proof.
  intros (L1 & L2 & D & H). destruct weights as [|w weights]; [discriminate|]. destruct points as [|p points]; [discriminate|].
  exists w, weights, p, points. inversion D; subst. repeat split; auto.
  - apply (H 0%nat); reflexivity.
  - intros i r q v. apply (H (S i)).
Qed.
(** both parsers, with the handler as an argument *)
Definition handles (d : nat) (handler : @table F -> list F -> @table F + parse_error) : Prop :=
  (forall rule p w, length p = d -> handler rule (p ++ [w])%list = inl ((fst rule ++ [w])%list, (snd rule ++ [p])%list)) /\
  (forall rule xs, length xs <> S d -> handler rule xs = inr (UnexpectedEntries (length xs) (S d))).
Lemma handles2 : handles 2 handler2.
Proof.
  split.
  - intros rule p w L. destruct p as [|x [|y [|z p]]]; cbn in L; try discriminate. reflexivity.
  - intros rule xs L. destruct xs as [|x [|y [|w [|z xs]]]]; try reflexivity. destruct L; reflexivity.
Qed.
Lemma handles3 : handles 3 handler3.
Proof.
  split.
  - intros rule p w L. destruct p as [|x [|y [|z [|v p]]]]; cbn in L; try discriminate. reflexivity.
  - intros rule xs L. destruct xs as [|x [|y [|z [|w [|v xs]]]]]; try reflexivity. destruct L; reflexivity.
Qed.
Lemma parse_rows_app d handler labels rule rows rest weights points : handles d handler -> rows_of d rows weights points ->
  parse_rows labels handler rule (rows ++ rest) = parse_rows labels handler ((fst rule ++ weights)%list, (snd rule ++ points)%list) rest.
Proof.
  intros (H & _). revert rule weights points. induction rows as [|row rows IH]; intros rule weights points R.
  - destruct R as (L1 & L2 & _). destruct weights; [|discriminate]. destruct points; [|discriminate]. rewrite !app_nil_r. destruct rule. reflexivity.
  - destruct (rows_of_cons _ _ _ _ _ R) as (w & ws & p & ps & -> & -> & D & E & R'). cbn [app parse_rows]. rewrite (parse_entries_ok _ _ _ _ E), H by exact D.
    rewrite (IH _ _ _ R'). cbn [fst snd]. rewrite <- !app_assoc. reflexivity.
Qed.

(** reading a table of dimension [d] *)
Definition reads (d : nat) (labels : list string) (parse : string -> @table F + parse_error) : Prop :=
  (forall text rows weights points, Rows text rows -> rows_of d rows weights points -> parse text = inl (weights, points)) /\
  (forall text rows row rest weights points, Rows text (rows ++ row :: rest) -> rows_of d rows weights points ->
    (forall r t r' xs, row = (r ++ t :: r')%list -> map parse_float r = map Some xs -> parse_float t = None ->
      parse text = inr (FloatError t (nth (length r) labels "unlabeled entry"))) /\
    (forall xs, map parse_float row = map Some xs -> length row <> S d -> parse text = inr (UnexpectedEntries (length row) (S d)))) /\
  (forall text weights points, parse text = inl (weights, points) -> exists rows, Rows text rows /\ rows_of d rows weights points).

Lemma length_map_eq (row : list string) (xs : list F) : map parse_float row = map Some xs -> length row = length xs.
Proof. intros E. apply (f_equal (@length _)) in E. rewrite !map_length in E. exact E. Qed.
Lemma snoc_split {A} d (xs : list A) : length xs = S d -> exists p w, xs = (p ++ [w])%list /\ length p = d.
Proof.
  intros L. destruct (exists_last (l := xs)) as (p & w & ->); [destruct xs; [discriminate|discriminate]|]. exists p, w. split; [reflexivity|]. rewrite app_length in L. cbn in L. lia.
Qed.
Lemma parse_rows_inv d handler labels rule rows res : handles d handler -> parse_rows labels handler rule rows = inl res ->
  exists weights points, rows_of d rows weights points /\ res = ((fst rule ++ weights)%list, (snd rule ++ points)%list).
Proof.
  intros (H & H'). revert rule. induction rows as [|row rows IH]; intros rule E.
  - injection E as <-. exists [], []. split; [|rewrite !app_nil_r; destruct rule; reflexivity]. repeat split; [constructor|]. intros [|i]; discriminate.
  - cbn [parse_rows] in E. destruct (parse_entries_spec row) as [(xs & X)|(r & t & rest & xs & -> & X & B)].
    + rewrite (parse_entries_ok _ _ _ _ X) in E. destruct (Nat.eq_dec (length xs) (S d)) as [L|L].
      * destruct (snoc_split d xs L) as (p & w & -> & D). rewrite H in E by exact D. destruct (IH _ E) as (ws & ps & (L1 & L2 & Dp & R) & ->). exists (w :: ws), (p :: ps). split.
        -- repeat split; cbn; [lia|lia|constructor; assumption|]. intros [|i] r q v; cbn; [intros [= <-] [= <-] [= <-]; exact X|apply R].
        -- cbn [fst snd]. rewrite <- !app_assoc. reflexivity.
      * rewrite H' in E by exact L. discriminate.
    + rewrite (parse_entries_bad _ _ _ _ _ _ X B) in E. discriminate.
Qed.
Lemma reads_ok d labels handler parse : handles d handler -> (forall text, parse text = parse_lines parse_float labels handler ([], []) (lines text)) -> reads d labels parse.
Proof.
  intros Hd P. split; [|split].
  - intros text rows weights points T R. rewrite P, (parse_lines_rows _ _ _ _ _ T). rewrite <- (app_nil_r rows), (parse_rows_app d _ _ _ _ _ _ _ Hd R). reflexivity.
  - intros text rows row rest weights points T R. rewrite P, (parse_lines_rows _ _ _ _ _ T), (parse_rows_app d _ _ _ _ _ _ _ Hd R). cbn [parse_rows]. split.
    + intros r t r' xs -> X B. rewrite (parse_entries_bad _ _ _ _ _ _ X B). reflexivity.
    + intros xs X L. rewrite (parse_entries_ok _ _ _ _ X). pose proof (length_map_eq _ _ X) as E. rewrite E in *. destruct Hd as (_ & Hd). rewrite Hd by exact L. reflexivity.
  - intros text weights points E. destruct (Rows_total text) as (rows & T). rewrite P, (parse_lines_rows _ _ _ _ _ T) in E.
    destruct (parse_rows_inv d _ _ _ _ _ Hd E) as (ws & ps & R & E'). injection E' as -> ->. exists rows. split; assumption.
Qed.
End Parse.

(** C83. [parse2d] and [parse3d] read exactly the texts whose nonblank lines consist of two (three) coordinates and a weight, and report the first other line: its first
    entry that is not a number, or else its number of entries. *)
Theorem C83_text {F : Type} (parse_float : string -> option F) :
  (forall text, exists rows, Rows text rows) /\
  reads parse_float 2 ["x coordinate"; "y coordinate"; "weight"] (parse2d parse_float) /\
  reads parse_float 3 ["x coordinate"; "y coordinate"; "z coordinate"; "weight"] (parse3d parse_float).
Proof.
  split; [apply Rows_total|]. split.
  - exact (reads_ok parse_float 2 _ handler2 _ handles2 (fun text => eq_refl)).
  - exact (reads_ok parse_float 3 _ handler3 _ handles3 (fun text => eq_refl)).
Qed.
Print Assumptions C83_text.
Local Open Scope list_scope.
(** a text with a blank line, and one with a missing entry in its second row *)
Example C83_text_example : let nl := String "010" EmptyString in
  Rows (" 0.5 1" ++ nl ++ nl ++ "-2   3" ++ nl)%string [["0.5"; "1"]; ["-2"; "3"]] /\
  parse2d (fun t => Some t) ("0.5 1 2" ++ nl ++ " " ++ nl ++ "-2 3" ++ nl)%string = inr (UnexpectedEntries 2 3).
Proof.
  split; [|reflexivity]. exists [" 0.5 1"; ""; "-2   3"], [["0.5"; "1"]; []; ["-2"; "3"]]. split; [|split; [|reflexivity]].
  - apply (Lines_more " 0.5 1"); [unfold no_newline; cbn; intuition discriminate|]. apply (Lines_more ""); [unfold no_newline; cbn; intuition discriminate|]. apply (Lines_more "-2   3"); [unfold no_newline; cbn; intuition discriminate|]. constructor.
  - assert (B0 : blank "") by (intros c []).
    constructor; [|constructor; [|constructor; [|constructor]]].
    + apply (Words_more " " "0.5" " " "1"); [intros c [<-|[]]; left; reflexivity|split; [discriminate|cbn; intuition (subst; discriminate)]|left; reflexivity|].
      apply (Words_last " " "1"); [intros c [<-|[]]; left; reflexivity|split; [discriminate|cbn; intuition (subst; discriminate)]].
    + apply Words_none, B0.
    + apply (Words_more "" "-2" " " "  3"); [exact B0|split; [discriminate|cbn; intuition (subst; discriminate)]|left; reflexivity|].
      apply (Words_last "   " "3"); [intros c [<-|[<-|[<-|[]]]]; left; reflexivity|split; [discriminate|cbn; intuition (subst; discriminate)]].
Qed.

(** Blanks, documentation, names and strings are read as the grammar says
    (towards C48 to C51). *)
From Coq Require Import Strings.String ZArith List Bool Lia Strings.Byte ZifyBool ZifyNat ZifyN.
From Verif Require Import Base Schema Parser SpecParser SpecGrammar ParserProofs ParserProofs2.
Import ListNotations.
Local Open Scope Z_scope.

(** * Characters *)
Lemma In_existsb c l : In c l <-> existsb (Byte.eqb c) l = true.
Proof.
  rewrite existsb_exists. split.
  - intros H. exists c. split; auto. apply Byte.byte_dec_lb. reflexivity.
  - intros (x & H & E). apply Byte.byte_dec_bl in E. subst. auto.
Qed.
Lemma existsb_of (f : byte -> bool) l : (forall c, existsb (Byte.eqb c) l = f c) -> forall c, In c l <-> f c = true.
Proof. intros H c. rewrite In_existsb, H. tauto. Qed.
Lemma digit_iff c : digit c <-> is_digit c = true.
Proof. apply existsb_of. clear. intros c. destruct c; reflexivity. Qed.
Lemma hex_digit_iff c : hex_digit c <-> is_hex_digit c = true.
Proof. apply existsb_of. clear. intros c. destruct c; reflexivity. Qed.
Lemma letter_iff c : letter c <-> is_letter c = true.
Proof. apply existsb_of. clear. intros c. destruct c; reflexivity. Qed.
Lemma space_iff c : space c <-> is_space c = true.
Proof. apply existsb_of. clear. intros c. destruct c; reflexivity. Qed.
Lemma word_byte_iff c : word_byte c <-> (is_letter c || is_digit c || Byte.eqb c "_") = true.
Proof.
  apply (existsb_of (fun c => is_letter c || is_digit c || Byte.eqb c "_")).
  clear. intros c. destruct c; reflexivity.
Qed.
Lemma eqb_iff a b : Byte.eqb a b = true <-> a = b.
Proof. split; [apply Byte.byte_dec_bl|apply Byte.byte_dec_lb]. Qed.
Lemma eqb_neq a b : a <> b -> Byte.eqb a b = false.
Proof. intros H. destruct (Byte.eqb a b) eqn:E; auto. apply eqb_iff in E. contradiction. Qed.
Lemma eqb_same a : Byte.eqb a a = true.
Proof. now apply eqb_iff. Qed.

Lemma span_app p a r :
  forallb p a = true -> match r with [] => True | c :: _ => p c = false end -> span p (a ++ r) = (a, r).
Proof.
  intros F R. induction a as [|c a IH]; cbn in *.
  - destruct r as [|c r]; cbn; auto. now rewrite R.
  - apply andb_true_iff in F as [F1 F2]. rewrite F1, (IH F2). reflexivity.
Qed.
Lemma span_stop p s a r : span p s = (a, r) -> match r with [] => True | c :: _ => p c = false end.
Proof.
  revert a r. induction s as [|c s IH]; cbn; intros a r.
  - injection 1 as <- <-. auto.
  - destruct (p c) eqn:P.
    + destruct (span p s) as [x y] eqn:E. injection 1 as <- <-. exact (IH x y eq_refl).
    + injection 1 as <- <-. auto.
Qed.

(** * Blanks *)
(** [r] starts with something that is not blank. *)
Definition stops (r : text) : Prop := comment_or_space r = None.

Lemma multispace_none c r : is_space c = false -> multispace1 (c :: r) = None.
Proof. intros H. unfold multispace1, span1. cbn [span]. now rewrite H. Qed.
Lemma stops_nil : stops [].
Proof. reflexivity. Qed.
Lemma stops_byte c r : is_space c = false -> c <> "/"%byte -> stops (c :: r).
Proof.
  intros H N. unfold stops, comment_or_space. cbn [alt]. unfold p_comment, value_of at 1, pair_ at 1.
  change (lit "//") with ["/"%byte; "/"%byte]. cbn [tag]. rewrite (eqb_neq "/"%byte c) by congruence.
  unfold value_of. now rewrite multispace_none.
Qed.
Lemma stops_doc r : stops (lit "///" ++ r).
Proof. reflexivity. Qed.

Lemma one_line_span body r :
  one_line body -> match r with [] => True | c :: _ => c = line_feed \/ c = carriage_return end ->
  span (fun c => negb (Byte.eqb c "013" || Byte.eqb c "010")) (body ++ r) = (body, r).
Proof.
  intros L R. apply span_app.
  - apply forallb_forall. intros c H. unfold one_line in L. rewrite Forall_forall in L. apply L in H as [H1 H2].
    rewrite eqb_neq, eqb_neq; auto.
  - destruct r as [|c r]; auto. destruct R as [->| ->]; reflexivity.
Qed.
Lemma not_line_ending_ok body r :
  one_line body -> r = [] \/ (exists e x, line_end e /\ r = e ++ x) -> not_line_ending (body ++ r) = Some (body, r).
Proof.
  intros L R. unfold not_line_ending. rewrite one_line_span; auto.
  - destruct R as [->|(e & x & [->| ->] & ->)]; reflexivity.
  - destruct R as [->|(e & x & [->| ->] & ->)]; cbn; auto.
Qed.
Lemma line_ending_ok e r : line_end e -> line_ending (e ++ r) = Some (e, r).
Proof. intros [->| ->]; reflexivity. Qed.

Lemma not_slash_ok body r :
  (forall x, body <> "/"%byte :: x) -> body <> [] \/ (forall x, r <> "/"%byte :: x) -> pnot (tag (lit "/")) (body ++ r) = Some (tt, body ++ r).
Proof.
  intros N R. unfold pnot. change (lit "/") with ["/"%byte].
  assert (tag ["/"%byte] (body ++ r) = None) as ->; auto.
  destruct body as [|c body]; cbn [tag app].
  - destruct r as [|c r]; auto. destruct R as [R|R]; [congruence|].
    rewrite eqb_neq; auto. intros <-. apply (R r). reflexivity.
  - rewrite eqb_neq; auto. intros <-. apply (N body). reflexivity.
Qed.
Lemma line_end_start e r : line_end e -> forall x, e ++ r <> "/"%byte :: x.
Proof. intros [->| ->] x; discriminate. Qed.
Lemma comment_ok body r :
  one_line body -> (forall x, body <> "/"%byte :: x) -> r = [] \/ (exists e x, line_end e /\ r = e ++ x) ->
  p_comment (lit "//" ++ body ++ r) = Some (tt, r).
Proof.
  intros L N R. unfold p_comment, value_of, pair_. rewrite tag_app, not_slash_ok, not_line_ending_ok; auto.
  right. destruct R as [->|(e & x & E & ->)]; [discriminate|]. now apply line_end_start.
Qed.

Lemma blank_tail a b : forallb is_space a = true -> blank (a ++ b) -> blank b.
Proof.
  induction a as [|c a IH]; cbn; auto. intros F B. apply andb_true_iff in F as [F1 F2].
  inversion B as [|? ? S B' E|body e t L N E B' Q]; subst; auto. discriminate.
Qed.
(** [r] does not start with a space. *)
Definition no_space (r : text) : Prop := match r with [] => True | c :: _ => is_space c = false end.
Lemma stops_no_space r : stops r -> no_space r.
Proof.
  intros R. destruct r as [|d r]; cbn; auto. destruct (is_space d) eqn:D; auto. exfalso.
  revert R. unfold stops, comment_or_space. cbn [alt]. destruct (p_comment (d :: r)); [discriminate|].
  unfold value_of, multispace1, span1. cbn [span]. rewrite D. destruct (span is_space r). discriminate.
Qed.
Lemma blank_repeats_gen r l0 r0 : no_space r -> repeats comment_or_space r l0 r0 ->
  forall n b, (List.length b <= n)%nat -> blank b -> exists l, repeats comment_or_space (b ++ r) l r0.
Proof.
  intros NS R0. induction n as [|n IH]; intros b L B.
  - destruct b; [|cbn in L; lia]. exists l0. exact R0.
  - inversion B as [|c t S B' E|body e t O N E B' Q]; subst.
    + exists l0. exact R0.
    + destruct (span is_space (c :: t)) as [a b'] eqn:Sp.
      assert (X := span_spec _ _ _ _ Sp). destruct X as [Eq F].
      destruct a as [|c' a].
      { cbn [span] in Sp. apply space_iff in S. rewrite S in Sp. destruct (span is_space t). discriminate. }
      assert (Hb : blank b') by (apply (blank_tail (c' :: a)); auto; rewrite <- Eq; auto).
      destruct (IH b') as (l & Rep); auto.
      { apply (f_equal (@List.length _)) in Eq. rewrite app_length in Eq. cbn in Eq, L. lia. }
      rewrite Eq, <- app_assoc. exists (tt :: l). econstructor; [|exact Rep].
      unfold comment_or_space. cbn [alt].
      assert (p_comment ((c' :: a) ++ b' ++ r) = None) as ->.
      { cbn in F. apply andb_true_iff in F as [F1 _]. unfold p_comment, value_of, pair_.
        change (lit "//") with ["/"%byte; "/"%byte]. cbn [tag app]. rewrite eqb_neq; auto.
        intros <-. discriminate. }
      unfold value_of, multispace1, span1. rewrite span_app; auto.
      destruct b' as [|d b']; [exact NS|]. apply span_stop in Sp. exact Sp.
    + rewrite <- !app_assoc. destruct (IH (e ++ t)) as (l & Rep).
      * rewrite !app_length in L |- *. change (List.length (lit "//")) with 2%nat in L. rewrite !app_length in L. lia.
      * destruct E as [->| ->]; cbn; repeat (apply blank_space; [cbn; tauto|]); auto.
      * exists (tt :: l). econstructor; [|rewrite <- app_assoc in Rep; exact Rep].
        unfold comment_or_space. cbn [alt]. rewrite comment_ok; auto. right. exists e, (t ++ r). auto.
Qed.
Lemma blank_repeats b r : blank b -> stops r -> exists l, repeats comment_or_space (b ++ r) l r.
Proof.
  intros B R. apply (blank_repeats_gen r [] r) with (n := List.length b); auto.
  - now apply stops_no_space.
  - now constructor.
Qed.
Lemma blank_ok b r : blank b -> stops r -> comment_or_space0 (b ++ r) = Some (tt, r).
Proof.
  intros B R. destruct (blank_repeats b r B R) as (l & Rep).
  unfold comment_or_space0, value_of.
  rewrite (many0_total _ adv_comment_or_space _ _ _ Rep). reflexivity.
Qed.
Lemma blank0_ok r : stops r -> comment_or_space0 r = Some (tt, r).
Proof. apply (blank_ok []). constructor. Qed.
Lemma blank1_ok b r : blank1 b -> stops r -> comment_or_space1 (b ++ r) = Some (tt, r).
Proof.
  intros [B N] R. destruct (blank_repeats b r B R) as (l & Rep).
  unfold comment_or_space1, value_of, many1. inversion Rep as [s E|s a q l' r' E Rep']; subst.
  - exfalso. apply (f_equal (@List.length _)) in H1. rewrite app_length in H1. destruct b; [congruence|cbn in H1; lia].
  - rewrite E, (many0_total _ adv_comment_or_space _ _ _ Rep'). reflexivity.
Qed.
Lemma blank_app a b : blank a -> blank b -> blank (a ++ b).
Proof.
  induction 1; intros B; cbn [app]; auto.
  - apply blank_space; auto.
  - rewrite <- !app_assoc. apply blank_comment; auto.
Qed.
(** The end of a file. *)
Lemma file_end_ok b e : blank b -> file_end e -> comment_or_space0 (b ++ e) = Some (tt, []).
Proof.
  intros B [->|(body & -> & O & N)].
  - apply blank_ok; auto. apply stops_nil.
  - destruct (blank_repeats_gen (lit "//" ++ body) [tt] []) with (n := List.length b) (b := b) as (l & Rep); auto.
    + reflexivity.
    + econstructor; [|apply repeats_stop; reflexivity]. unfold comment_or_space. cbn [alt].
      rewrite <- (app_nil_r body). rewrite comment_ok; auto.
    + unfold comment_or_space0, value_of. now rewrite (many0_total _ adv_comment_or_space _ _ _ Rep).
Qed.

(** * Documentation *)
(** [r] starts with something that is neither blank nor documentation. *)
Definition starts (r : text) : Prop := stops r /\ tag (lit "///") r = None.
Lemma starts_byte c r : is_space c = false -> c <> "/"%byte -> starts (c :: r).
Proof.
  intros H N. split; [now apply stops_byte|]. change (lit "///") with ["/"%byte; "/"%byte; "/"%byte].
  cbn [tag]. rewrite eqb_neq; auto.
Qed.
Lemma stops_docs d c r : docs d c -> starts r -> stops (d ++ r).
Proof. intros D [S _]. destruct D; auto. rewrite <- !app_assoc. apply stops_doc. Qed.
Lemma docs_repeats d c r : docs d c -> starts r ->
  repeats (terminated (terminated raw_doc_comment line_ending) comment_or_space0) (d ++ r) c r.
Proof.
  induction 1 as [|body e b t c O E B D IH]; intros R.
  - destruct R as [_ R]. constructor. unfold terminated, raw_doc_comment, preceded. cbn [app]. now rewrite R.
  - rewrite <- !app_assoc. econstructor; [|exact (IH R)].
    unfold terminated, raw_doc_comment, preceded. rewrite tag_app, not_line_ending_ok; auto.
    + rewrite line_ending_ok; auto. rewrite blank_ok; auto. eapply stops_docs; eauto.
    + right. exists e, (b ++ t ++ r). auto.
Qed.
Lemma docs_ok d c r : docs d c -> starts r -> doc_comment (d ++ r) = Some (c, r).
Proof. intros D R. apply many0_total; [apply adv_doc_line|]. now apply docs_repeats. Qed.

(** * Strings *)
Lemma escaped_ok : forall v a r, string_body v ->
  escaped_loop a (v ++ """"%byte :: r) =
  match rev v ++ a with [] => None | _ => Some (rev a ++ v, """"%byte :: r) end.
Proof.
  intros v a r B. revert a. induction B as [|c t N1 N2 B IH|c t C B IH]; intros a.
  - cbn [app rev escaped_loop]. change (Byte.eqb """" "\") with false. rewrite eqb_same.
    destruct a; auto. now rewrite app_nil_r.
  - cbn [app escaped_loop]. rewrite (eqb_neq c), (eqb_neq c) by auto. rewrite IH. cbn [rev].
    rewrite <- !app_assoc. cbn [app]. destruct (rev t ++ c :: a) eqn:E; auto.
  - cbn [app escaped_loop]. rewrite eqb_same.
    assert (Byte.eqb c "\" || Byte.eqb c """" = true) as -> by (destruct C as [->| ->]; reflexivity).
    rewrite IH. cbn [rev]. rewrite <- !app_assoc. cbn [app].
    destruct (rev t ++ c :: "\"%byte :: a) eqn:E; auto.
Qed.
Lemma string_ok t v r : string_text t v -> string_constant (t ++ r) = Some (v, r).
Proof.
  intros [B ->]. unfold string_constant, pmap, delimited, preceded, terminated, double_quote.
  rewrite <- !app_assoc. change (lit """") with [""""%byte]. cbn [app char]. rewrite eqb_same.
  unfold opt, escaped. rewrite escaped_ok by auto. rewrite app_nil_r.
  destruct v as [|c v].
  - cbn [rev app char]. now rewrite eqb_same.
  - destruct (rev (c :: v)) eqn:E.
    + apply (f_equal (@List.length _)) in E. rewrite rev_length in E. discriminate.
    + cbn [rev app char]. now rewrite eqb_same.
Qed.

(** * Names *)
Lemma next_ascii b r : is_ascii b = true -> next_char (b :: r) = Some ([b], r).
Proof. intros H. cbn. now rewrite H. Qed.
(** [r] does not start in the middle of a character. *)
Definition whole (r : text) : Prop := match r with [] => True | c :: _ => is_continuation c = false end.
Lemma continuation_iff c : continuation c <-> is_continuation c = true.
Proof. unfold continuation, is_continuation, code. lia. Qed.
Lemma next_wide c r : wide c -> whole r -> next_char (c ++ r) = Some (c, r).
Proof.
  intros (b & x & -> & H & _ & F) W. cbn [app next_char]. unfold is_ascii, code.
  destruct (Z.of_N (Byte.to_N b) <? 128) eqn:E; [lia|]. rewrite span_app; auto.
  apply forallb_forall. rewrite Forall_forall in F. intros y Y. now apply continuation_iff, F.
Qed.
Lemma on_ascii_byte p u b : is_ascii b = true -> on_ascii p u [b] = p b.
Proof. intros H. cbn. now rewrite H. Qed.
Lemma on_ascii_wide p u c : wide c -> on_ascii p u c = u c.
Proof.
  intros (b & x & -> & H & N & _). destruct x as [|d x]; auto. congruence.
Qed.
Lemma letter_ascii b : is_letter b || is_digit b || Byte.eqb b "_" = true -> is_ascii b = true.
Proof. destruct b; auto. Qed.
Lemma ascii_whole c r : is_ascii c = true -> whole (c :: r).
Proof. cbn. unfold is_ascii, is_continuation. lia. Qed.

Section Names.
Context (uni_alphabetic uni_alphanumeric : text -> bool).
Notation p_ident := (p_ident uni_alphabetic uni_alphanumeric).
Notation name_text := (name_text uni_alphabetic uni_alphanumeric).
Notation qname_text := (qname_text uni_alphabetic uni_alphanumeric).
Notation qualified_ident := (qualified_ident uni_alphabetic uni_alphanumeric).

(** No name goes on into [r]. *)
Definition name_ends (r : text) : Prop :=
  whole r /\
  match next_char r with None => True | Some (c, _) => ident_char uni_alphanumeric c = false end.

Lemma start_ok c r : name_start uni_alphabetic c -> whole r ->
  next_char (c ++ r) = Some (c, r) /\ ident_start uni_alphabetic c = true.
Proof.
  unfold ident_start. intros [(b & -> & H)|[W U]] Wr.
  - assert (A : (is_letter b || Byte.eqb b "_") = true).
    { destruct H as [H| ->]; [apply letter_iff in H; now rewrite H|reflexivity]. }
    assert (A' : is_ascii b = true).
    { apply letter_ascii. apply orb_true_iff in A as [A|A]; rewrite A; rewrite ?orb_true_r; auto. }
    split; [now apply next_ascii|]. now rewrite on_ascii_byte.
  - split; [now apply next_wide|]. now rewrite on_ascii_wide.
Qed.
Lemma cont_ok c r : name_char uni_alphanumeric c -> whole r ->
  next_char (c ++ r) = Some (c, r) /\ ident_char uni_alphanumeric c = true.
Proof.
  unfold ident_char. intros [(b & -> & H)|[W U]] Wr.
  - assert (A : (is_letter b || is_digit b || Byte.eqb b "_") = true).
    { destruct H as [H|[H| ->]]; [apply letter_iff in H|apply digit_iff in H|]; rewrite ?H, ?orb_true_r; auto. }
    split; [now apply next_ascii, letter_ascii|]. rewrite on_ascii_byte; auto. now apply letter_ascii.
  - split; [now apply next_wide|]. now rewrite on_ascii_wide.
Qed.
Lemma char_whole c r : name_char uni_alphanumeric c -> whole (c ++ r).
Proof.
  intros [(b & -> & H)|[(b & x & -> & B & _) _]]; cbn [app].
  - apply ascii_whole, letter_ascii.
    destruct H as [H|[H| ->]]; [apply letter_iff in H|apply digit_iff in H|]; rewrite ?H, ?orb_true_r; auto.
  - cbn. unfold is_continuation, code. lia.
Qed.
Lemma chars_whole cs r : Forall (name_char uni_alphanumeric) cs -> whole r -> whole (List.concat cs ++ r).
Proof.
  intros F R. destruct cs as [|c cs]; auto. inversion F; subst. cbn [List.concat]. rewrite <- app_assoc.
  now apply char_whole.
Qed.
Lemma take_chars_ok : forall cs n r, Forall (name_char uni_alphanumeric) cs -> name_ends r ->
  (List.length cs <= n)%nat ->
  take_chars_n n (ident_char uni_alphanumeric) (List.concat cs ++ r) = (List.concat cs, r).
Proof.
  induction cs as [|c cs IH]; intros n r F R L; cbn [List.concat app].
  - destruct n; cbn; auto. destruct R as [_ R]. destruct (next_char r) as [[c x]|]; auto. now rewrite R.
  - inversion F as [|? ? C F']; subst. destruct n as [|n]; [cbn in L; lia|]. cbn [take_chars_n].
    rewrite <- app_assoc. destruct (cont_ok c (List.concat cs ++ r) C) as [-> ->].
    { apply chars_whole; auto. apply R. }
    rewrite IH; auto. cbn in L; lia.
Qed.
Lemma concat_length cs : Forall (name_char uni_alphanumeric) cs -> (List.length cs <= List.length (List.concat cs))%nat.
Proof.
  induction 1 as [|c cs C F IH]; cbn; auto. rewrite app_length.
  destruct c as [|b c]; [|cbn; lia]. destruct C as [(b & E & _)|[(b & x & E & _) _]]; discriminate.
Qed.
Lemma name_ok x r : name_text x -> name_ends r -> p_ident (x ++ r) = Some (x, r).
Proof.
  intros (c & cs & -> & C & F) R. unfold Parser.p_ident, recognize, preceded, one_char.
  rewrite <- app_assoc. destruct (start_ok c (List.concat cs ++ r) C) as [-> ->].
  { apply chars_whole; auto. apply R. }
  unfold take_chars. rewrite take_chars_ok; auto.
  - f_equal. f_equal. rewrite app_assoc, app_length, Nat.add_sub, firstn_app, Nat.sub_diag, firstn_all.
    cbn. now rewrite app_nil_r.
  - rewrite app_length. pose proof (concat_length cs F). lia.
Qed.
(** The first byte of a name. *)
Definition name_byte (b : byte) : Prop := is_letter b = true \/ b = "_"%byte \/ 192 <= code b.
Lemma name_first x : name_text x -> exists b x', x = b :: x' /\ name_byte b.
Proof.
  intros (c & cs & -> & C & F). destruct C as [(b & -> & [H| ->])|[(b & y & -> & H & _) _]]; cbn [app].
  - apply letter_iff in H. exists b. eexists. split; [reflexivity|left; auto].
  - eexists. eexists. split; [reflexivity|right; left; auto].
  - exists b. eexists. split; [reflexivity|right; right]. unfold code. lia.
Qed.
Lemma name_byte_plain b : name_byte b ->
  is_space b = false /\ ~ In b (lit "/.,:;=(){}[]""+-\0123456789").
Proof.
  rewrite In_existsb. intros [H|[->|H]]; [|split; [reflexivity|discriminate]|].
  - destruct b; try discriminate; (split; [reflexivity|discriminate]).
  - destruct b; try (exfalso; vm_compute in H; congruence); (split; [reflexivity|discriminate]).
Qed.
Lemma starts_name x r : name_text x -> starts (x ++ r).
Proof.
  intros H. destruct (name_first x H) as (b & x' & -> & B). apply name_byte_plain in B as [S N].
  cbn [app]. apply starts_byte; auto. intros ->. apply N. cbn. auto.
Qed.
Lemma stops_name x r : name_text x -> stops (x ++ r).
Proof. intros H. apply (starts_name x r H). Qed.
End Names.

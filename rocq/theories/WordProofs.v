(** The words the parser looks for are those of the specification (towards C48 and
    C50). *)
From Coq Require Import Strings.String ZArith List Bool Lia Strings.Byte ZifyBool ZifyNat ZifyN.
From Verif Require Import Base Schema Parser SpecParser SpecGrammar ParserProofs ParserProofs2 GrammarProofs
  GrammarProofs2 GrammarProofs3.
Import ListNotations.
Local Open Scope Z_scope.

(** * Characters *)
Lemma ascii_iff b : is_ascii b = true <-> (Byte.to_N b < 128)%N.
Proof. unfold is_ascii, code. lia. Qed.
Lemma characters_next c cs s : characters (c :: cs) s <-> exists r, next_char s = Some (c, r) /\ characters cs r.
Proof.
  split.
  - intros H. inversion H as [|b cs' t A T|b x cs' t A F N T]; subst.
    + exists t. split; auto. apply next_ascii. now apply ascii_iff.
    + exists t. split; auto. cbn [next_char].
      assert (is_ascii b = false) as -> by (apply not_true_iff_false; rewrite ascii_iff; lia).
      assert (span is_continuation (x ++ t) = (x, t)) as ->; auto. apply span_app.
      * apply forallb_forall. intros d D. rewrite Forall_forall in F. now apply continuation_iff, F.
      * destruct t as [|d t]; auto. destruct (is_continuation d) eqn:E; auto.
        apply continuation_iff in E. exfalso. now apply (N d t).
  - intros (r & E & H). destruct s as [|b s]; [discriminate|]. cbn [next_char] in E. destruct (is_ascii b) eqn:A.
    + injection E as <- <-. constructor; auto. now apply ascii_iff.
    + destruct (span is_continuation s) as [x y] eqn:P. injection E as <- <-.
      pose proof (span_stop _ _ _ _ P) as Q. apply span_spec in P as [-> F]. constructor; auto.
      * apply not_true_iff_false in A. rewrite ascii_iff in A. lia.
      * apply Forall_forall. intros d D. apply continuation_iff. rewrite forallb_forall in F. auto.
      * intros d z -> C. apply continuation_iff in C. congruence.
Qed.
Lemma characters_empty cs : characters cs [] -> cs = [].
Proof. inversion 1; auto. Qed.
Lemma characters_none s : characters [] s -> s = [].
Proof. inversion 1; auto. Qed.
Lemma characters_total : forall n s, (List.length s <= n)%nat -> exists cs, characters cs s.
Proof.
  induction n as [|n IH]; intros s L.
  - destruct s; [|cbn in L; lia]. exists []. constructor.
  - destruct (next_char s) as [[c r]|] eqn:E.
    + pose proof (next_char_spec _ _ _ E) as [-> N]. destruct (IH r) as (cs & H).
      { rewrite app_length in L. destruct c; [congruence|cbn in L; lia]. }
      exists (c :: cs). apply characters_next. eauto.
    + destruct s as [|b s]; [exists []; constructor|]. cbn [next_char] in E. destruct (is_ascii b); [discriminate|].
      destruct (span _ s); discriminate.
Qed.
Lemma characters_unique cs : forall ds s, characters cs s -> characters ds s -> cs = ds.
Proof.
  induction cs as [|c cs IH]; intros [|d ds] s C D; auto.
  - apply characters_none in C as ->. now apply characters_empty in D.
  - apply characters_none in D as ->. now apply characters_empty in C.
  - apply characters_next in C as (r & E & C). apply characters_next in D as (r' & E' & D).
    rewrite E in E'. injection E' as <- <-. f_equal. eauto.
Qed.
Lemma characters_ascii_app w : Forall (fun b => (Byte.to_N b < 128)%N) w -> forall cs s,
  characters (map (fun b => [b]) w ++ cs) s <-> exists r, s = w ++ r /\ characters cs r.
Proof.
  induction 1 as [|b w A F IH]; intros cs s; cbn [map app].
  - split; [eauto|]. now intros (r & -> & H).
  - rewrite characters_next. split.
    + intros (r & E & H). apply IH in H as (q & -> & H). apply next_char_spec in E as [-> _]. exists q. auto.
    + intros (r & -> & H). exists (w ++ r). split; [apply next_ascii; now apply ascii_iff|]. apply IH. eauto.
Qed.
(** A text may be cut before an ASCII byte. *)
Lemma characters_cut : forall cs a b s, (Byte.to_N b < 128)%N -> characters cs (a ++ b :: s) ->
  exists xs ys, cs = xs ++ ys /\ characters xs a /\ characters ys (b :: s).
Proof.
  induction cs as [|c cs IH]; intros a b s B H.
  - apply characters_none in H. destruct a; discriminate.
  - destruct a as [|d a].
    + exists [], (c :: cs). repeat split; auto. constructor.
    + cbn [app] in H. inversion H as [|b' cs' t A T E|b' x cs' t A F N T E]; subst.
      * apply IH in T as (xs & ys & -> & X & Y); auto. exists ([d] :: xs), ys. repeat split; auto. now constructor.
      * assert (K : exists z, a = x ++ z /\ t = z ++ b :: s).
        { clear - B F H2. revert a H2. induction F as [|y x Y F IH]; intros a E.
          - exists a. auto.
          - destruct a as [|a0 a]; cbn [app] in E.
            + injection E as -> E. exfalso. unfold continuation in Y. lia.
            + injection E as -> E. destruct (IH a E) as (z & -> & ->). exists z. auto. }
        destruct K as (z & -> & ->). apply IH in T as (xs & ys & -> & X & Y); auto.
        exists ((d :: x) :: xs), ys. repeat split; auto. constructor; auto.
        intros e q -> C. apply (N e (q ++ b :: s)); auto.
Qed.

Section Words.
Context (uw : text -> bool).
Notation has_word := (has_word uw).
Lemma word_char_iff c : word_char uw c = true <-> word_character uw c.
Proof.
  unfold word_char, on_ascii, word_character.
  assert (L : forall b, is_letter b || is_digit b || Byte.eqb b "_" = true <-> letter b \/ digit b \/ b = "_"%byte).
  { intros b. rewrite letter_iff, digit_iff, !orb_true_iff, eqb_iff. tauto. }
  destruct c as [|b [|d c]].
  - split; [|intros [(b & E & _)|[_ H]]; [discriminate|auto]]. intros H. right. split; auto. discriminate.
  - destruct (is_ascii b) eqn:A.
    + rewrite L. split; [eauto|]. intros [(b' & E & H)|[H _]]; [injection E as <-; auto|].
      specialize (H b eq_refl). apply ascii_iff in A. lia.
    + assert (G : (128 <= Byte.to_N b)%N) by (apply not_true_iff_false in A; rewrite ascii_iff in A; lia).
      split.
      * intros H. right. split; auto. now intros b' [= <-].
      * intros [(b' & E & H)|[_ H]]; auto. injection E as <-. apply L, letter_ascii in H. congruence.
  - split; [|intros [(b' & E & _)|[_ H]]; [discriminate|auto]]. intros H. right. split; auto. discriminate.
Qed.
Lemma word_char_false c : word_char uw c = false <-> ~ word_character uw c.
Proof. rewrite <- word_char_iff. now destruct (word_char uw c). Qed.

Section Word.
Context (w : text) (wA : Forall (fun b => (Byte.to_N b < 128)%N) w) (wN : w <> []).
Notation single := (fun b : byte => [b]).
Lemma starts_word_iff cs s : characters cs s ->
  starts_word uw w s = true <-> exists ds, cs = map single w ++ ds /\ (forall c x, ds = c :: x -> ~ word_character uw c).
Proof.
  intros C. unfold starts_word. split.
  - destruct (tag w s) as [[x r]|] eqn:T; [|discriminate]. apply tag_spec in T as [-> _].
    destruct (characters_total (List.length r) r (le_n _)) as (ds & D). intros H.
    assert (E : characters (map single w ++ ds) (w ++ r)) by (apply characters_ascii_app; eauto).
    exists ds. split; [eapply characters_unique; eauto|]. intros c y ->.
    apply characters_next in D as (q & Nx & _). rewrite Nx in H. apply negb_true_iff in H. now apply word_char_false.
  - intros (ds & -> & K). apply (characters_ascii_app w wA) in C as (r & -> & D). rewrite tag_app.
    destruct (next_char r) as [[c q]|] eqn:E; auto. destruct ds as [|d ds].
    + apply characters_none in D as ->. discriminate.
    + apply characters_next in D as (q' & E' & _). rewrite E in E'. injection E' as <- <-.
      apply negb_true_iff, word_char_false. eapply K; eauto.
Qed.
Lemma has_word_n_iff : forall n prev cs s, (List.length s < n)%nat -> characters cs s ->
  has_word_n uw n prev w s = true <->
  exists xs ds, cs = xs ++ map single w ++ ds /\ (xs = [] -> prev = false)
    /\ (forall x c, xs = x ++ [c] -> ~ word_character uw c) /\ (forall c x, ds = c :: x -> ~ word_character uw c).
Proof.
  induction n as [|n IH]; intros prev cs s L C; [lia|]. cbn [has_word_n].
  rewrite orb_true_iff, andb_true_iff, negb_true_iff, (starts_word_iff cs s C).
  destruct cs as [|c cs].
  - apply characters_none in C as ->. cbn. split.
    + intros [[_ (ds & E & _)]|E]; [|discriminate]. destruct w; [congruence|discriminate].
    + intros (xs & ds & E & _). exfalso. destruct xs; [|discriminate]. destruct w; [congruence|discriminate].
  - apply characters_next in C as (r & E & C). rewrite E. pose proof (next_char_spec _ _ _ E) as [-> N].
    rewrite (IH (word_char uw c) cs r); auto.
    2: { rewrite app_length in L. destruct c; [congruence|cbn in L; lia]. }
    split.
    + intros [[P (ds & -> & K)]|(xs & ds & -> & P & A & B)].
      * exists [], ds. repeat split; auto. intros x c' H. destruct x; discriminate.
      * exists (c :: xs), ds. repeat split; auto; [discriminate|]. intros x d H.
        destruct xs as [|x0 xs].
        -- destruct x as [|x1 x]; [|destruct x; discriminate]. injection H as <-. apply word_char_false. auto.
        -- assert (D : x0 :: xs <> []) by discriminate. destruct (exists_last D) as (y & e & Ey). rewrite Ey in *.
           change (c :: y ++ [e]) with ((c :: y) ++ [e]) in H. apply app_inj_tail in H as [_ <-]. eapply A; eauto.
    + intros (xs & ds & H & P & A & B). destruct xs as [|x0 xs]; cbn [app] in H.
      * left. split; auto. exists ds. auto.
      * right. injection H as -> ->. exists xs, ds. repeat split; auto.
        -- intros ->. apply word_char_false. apply (A [] x0). reflexivity.
        -- intros x d ->. apply (A (x0 :: x) d). reflexivity.
Qed.
Lemma has_word_iff s : has_word w s = true <-> has_the_word uw w s.
Proof.
  unfold Parser.has_word, has_the_word. destruct (characters_total (List.length s) s (le_n _)) as (cs & C).
  rewrite (has_word_n_iff _ _ _ _ (Nat.lt_succ_diag_r _) C). split.
  - intros (xs & ds & -> & _ & A & B). exists xs, ds. auto.
  - intros (xs & ds & C' & A & B). exists xs, ds. split; [eapply characters_unique; eauto|]. auto.
Qed.
Lemma has_word_false s : has_word w s = false <-> ~ has_the_word uw w s.
Proof. rewrite <- has_word_iff. now destruct (has_word w s). Qed.
(** A word in a text is one of every longer text, if what comes before ends with an
    ASCII byte that is no part of a word. *)
Lemma word_tail a c s : (Byte.to_N c < 128)%N -> ~ word_byte c -> has_the_word uw w s -> has_the_word uw w (a ++ c :: s).
Proof.
  intros A W (xs & ds & C & X & D).
  destruct (characters_total (List.length a) a (le_n _)) as (as_ & As).
  destruct (characters_total (List.length (a ++ c :: s)) (a ++ c :: s) (le_n _)) as (all & All).
  destruct (characters_cut all a c s A All) as (us & vs & -> & U & V).
  exists (us ++ [c] :: xs), ds. split.
  - assert (V' : characters ([c] :: xs ++ map single w ++ ds) (c :: s)) by (constructor; auto).
    pose proof (characters_unique _ _ _ V V') as ->. rewrite <- app_assoc. exact All.
  - split; auto. intros x d E. destruct xs as [|x0 xs].
    + apply app_inj_tail in E as [_ <-]. intros [(b & [= <-] & H)|[H _]]; [|specialize (H c eq_refl); lia].
      apply W. apply word_byte_iff. rewrite !orb_true_iff, <- letter_iff, <- digit_iff, eqb_iff. tauto.
    + assert (Ne : x0 :: xs <> []) by discriminate. destruct (exists_last Ne) as (u & v & Eu). rewrite Eu in *.
      change (us ++ [c] :: u ++ [v] = x ++ [d]) in E. rewrite app_comm_cons, app_assoc in E.
      apply app_inj_tail in E as [_ <-]. eapply X; eauto.
Qed.
End Word.
(** The word of the specification is one of the coarser notion. *)
Lemma characters_concat cs s : characters cs s -> s = List.concat cs.
Proof. induction 1; cbn [List.concat]; subst; auto. Qed.
Lemma last_byte_word cs s c x : characters (cs ++ [c]) s -> s = x -> forall y b, x = y ++ [b] -> word_byte b -> word_character uw c.
Proof.
  intros H -> y b E W. apply characters_concat in H as K.
  assert (C : exists t, characters [c] t).
  { clear - H. revert x H. induction cs as [|d cs IH]; intros s H; [eauto|].
    cbn [app] in H. apply characters_next in H as (r & _ & H). eauto. }
  destruct C as (t & C). rewrite E in K. rewrite concat_app in K. cbn [List.concat] in K. rewrite app_nil_r in K.
  inversion C as [|b' cs' t' A T|b' z cs' t' A F N T]; subst.
  - apply app_inj_tail in K as [_ <-]. left. exists b. split; auto.
    apply word_byte_iff in W. rewrite !orb_true_iff, <- letter_iff, <- digit_iff, eqb_iff in W. tauto.
  - exfalso. apply word_byte_iff, letter_ascii, ascii_iff in W. destruct z as [|z0 z].
    + apply app_inj_tail in K as [_ <-]. lia.
    + assert (D : z0 :: z <> []) by discriminate. destruct (exists_last D) as (u & v & Eu). rewrite Eu in *.
      rewrite app_comm_cons, app_assoc in K. apply app_inj_tail in K as [_ <-].
      apply Forall_app in F as [_ F]. inversion F; subst. unfold continuation in *. lia.
Qed.
Lemma the_word_mentions w s : Forall (fun b => (Byte.to_N b < 128)%N) w -> has_the_word uw w s -> w <> [] -> mentions w s.
Proof.
  intros A H N. apply has_word_iff in H; auto. apply has_word_mentions in H as (a & b & -> & _ & X & Y).
  exists a, b. auto.
Qed.
End Words.

Lemma special_words w : w = lit "nan" \/ w = lit "inf" \/ w = lit "infinity" \/ w = lit "true" \/ w = lit "false" ->
  Forall (fun b => (Byte.to_N b < 128)%N) w /\ w <> [].
Proof. intros [->|[->|[->|[->| ->]]]]; (split; [repeat constructor|discriminate]). Qed.

Section Special.
Context (uw : text -> bool).
Lemma no_special_iff s : no_special uw s <->
  has_word uw (lit "nan") s = false /\ has_word uw (lit "inf") s = false /\ has_word uw (lit "infinity") s = false.
Proof.
  unfold no_special. rewrite !has_word_false; [reflexivity|..]; apply special_words; tauto.
Qed.
Lemma quiet_no_special s : quiet s -> no_special uw s.
Proof.
  intros (A & B & C). repeat split; intros H; apply the_word_mentions in H; auto; apply special_words; tauto.
Qed.
Lemma no_special_tail a c s : (Byte.to_N c < 128)%N -> ~ word_byte c -> no_special uw (a ++ c :: s) -> no_special uw s.
Proof.
  intros A W (N1 & N2 & N3). repeat split; intros H; [apply N1|apply N2|apply N3]; apply word_tail; auto.
Qed.
Lemma sign_plain c : In c (lit "-+") -> (Byte.to_N c < 128)%N /\ ~ word_byte c.
Proof. unfold word_byte. rewrite !In_existsb. intros H. destruct c; try discriminate; split; (reflexivity || discriminate). Qed.
(** A sign in front makes no difference. *)
Lemma no_special_sign c s : In c (lit "-+") -> no_special uw (c :: s) <-> no_special uw s.
Proof.
  intros I. split.
  - apply sign_plain in I as [A W]. apply (no_special_tail []); auto.
  - assert (K : forall w, match w with [] => False | d :: _ => d <> c end ->
      has_word uw w s = false -> has_word uw w (c :: s) = false).
    { intros w D H. unfold Parser.has_word in *. cbn [List.length]. apply sign_plain in I as [A W].
      remember (S (List.length s)) as n. cbn [has_word_n]. 
      assert (starts_word uw w (c :: s) = false) as ->.
      { unfold starts_word. destruct w as [|d w]; [contradiction|]. cbn [tag]. now rewrite eqb_neq. }
      cbn [negb andb orb]. apply ascii_iff in A. rewrite next_ascii by auto.
      assert (word_char uw [c] = false) as ->; auto. unfold word_char. rewrite on_ascii_byte by auto.
      apply not_true_iff_false. rewrite <- word_byte_iff. auto. }
    rewrite !no_special_iff. intros (H1 & H2 & H3).
    repeat split; apply K; auto; cbn; intros <-; rewrite In_existsb in I; discriminate.
Qed.
Lemma special_iff s : special_float_constant uw s = None <-> no_special uw s.
Proof.
  assert (O : exists o r, opt plus_or_minus s = Some (o, r) /\ (no_special uw s <-> no_special uw r)).
  { unfold opt, plus_or_minus. destruct s as [|c s]; [exists None, []; split; auto; tauto|].
    cbn [one_of]. destruct (existsb (Byte.eqb c) (lit "-+")) eqn:E.
    - exists (Some c), s. split; auto. apply no_special_sign. now apply In_existsb.
    - exists None, (c :: s). split; auto. tauto. }
  destruct O as (o & r & E & ->). rewrite no_special_iff.
  unfold special_float_constant. cbn [alt]. unfold nan, inf_or_infinity, pmap, terminated. rewrite E.
  unfold re_match. destruct (has_word uw (lit "nan") r), (has_word uw (lit "inf") r), (has_word uw (lit "infinity") r);
  cbn [orb]; split; intros H; try discriminate H; auto; try (destruct H as (? & ? & ?); discriminate).
Qed.
(** Every text after an ASCII byte that is no word byte, and blanks. *)
Lemma no_special_blank c b s : (Byte.to_N c < 128)%N -> ~ word_byte c -> blank b -> no_special uw (c :: b ++ s) -> no_special uw s.
Proof.
  intros A W B H. assert (L : b = [] \/ exists x d, b = x ++ [d] /\ space d).
  { clear - B. induction B as [|c t S B IH|body e t O N E B IH]; auto; right.
    - destruct IH as [->|(x & d & -> & W)]; [exists [], c; auto|exists (c :: x), d; auto].
    - destruct IH as [->|(x & d & -> & W)].
      + rewrite app_nil_r. destruct E as [->| ->].
        * exists (lit "//" ++ body), line_feed. rewrite <- app_assoc. split; auto. cbn. auto.
        * exists (lit "//" ++ body ++ [carriage_return]), line_feed. rewrite <- !app_assoc. split; auto. cbn. auto.
      + exists (lit "//" ++ body ++ e ++ x), d. rewrite <- !app_assoc. auto. }
  destruct L as [->|(x & d & -> & D)].
  - apply (no_special_tail [] c); auto.
  - apply (no_special_tail (c :: x) d); auto.
    + unfold space in D. rewrite In_existsb in D. destruct d; try discriminate; reflexivity.
    + now apply space_no_word.
    + rewrite <- app_assoc in H. exact H.
Qed.
(** The booleans. *)
Lemma word_constant_none w x (r : text) : w = lit "true" \/ w = lit "false" -> breaks r ->
  word_constant uw w (x ++ r) = None <-> (forall y, x = w ++ y -> ~ has_the_word uw w (x ++ r)).
Proof.
  intros Hw B. assert (S : Forall (fun b => (Byte.to_N b < 128)%N) w /\ w <> []) by (apply special_words; tauto).
  destruct S as [SA SN].
  unfold word_constant, re_match. destruct (has_word uw w (x ++ r)) eqn:E.
  - apply has_word_iff in E; auto. split.
    + intros T y -> _. rewrite <- app_assoc, tag_app in T. discriminate.
    + intros H. apply tag_none; auto.
      * intros y ->. now apply (H y).
      * destruct Hw as [->| ->]; now apply names_plain.
  - apply has_word_false in E; auto. split; auto.
Qed.
Lemma boolean_none' x (r : text) : boolean_constant uw (x ++ r) = None -> no_boolean uw x (x ++ r).
Proof.
  intros E w y W -> H. assert (S : Forall (fun b => (Byte.to_N b < 128)%N) w /\ w <> []) by (apply special_words; tauto).
  destruct S as [SA SN]. apply has_word_iff in H; auto. rewrite <- app_assoc in *.
  assert (K : word_constant uw w (w ++ y ++ r) = Some (w, y ++ r)).
  { unfold word_constant, re_match. rewrite H. apply tag_app. }
  unfold boolean_constant in E. cbn [alt] in E. unfold true_, false_, value_of in E.
  destruct W as [->| ->]; rewrite K in E.
  - discriminate.
  - destruct (word_constant uw (lit "true") _) as [[? ?]|]; discriminate.
Qed.
Lemma boolean_none x (r : text) : breaks r -> boolean_constant uw (x ++ r) = None <-> no_boolean uw x (x ++ r).
Proof.
  intros B. pose proof (word_constant_none (lit "true") x r (or_introl eq_refl) B) as T.
  pose proof (word_constant_none (lit "false") x r (or_intror eq_refl) B) as F.
  unfold boolean_constant. cbn [alt]. unfold true_, false_, value_of, no_boolean.
  destruct (word_constant uw (lit "true") (x ++ r)) as [[? ?]|].
  - split; [discriminate|]. intros H. assert (K : Some (t, t0) = None); [|discriminate K].
    apply T. intros y E. eapply H; eauto.
  - destruct (word_constant uw (lit "false") (x ++ r)) as [[? ?]|].
    + split; [discriminate|]. intros H. assert (K : Some (t, t0) = None); [|discriminate K].
      apply F. intros y E. eapply H; eauto.
    + split; auto. intros _ w y [->| ->] E; [eapply T; eauto|eapply F; eauto].
Qed.
End Special.

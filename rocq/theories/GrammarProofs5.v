(** Lists, metadata and JSON-like values are read as the grammar says (towards C48
    and C50). *)
From Coq Require Import Strings.String ZArith List Bool Lia Strings.Byte ZifyBool ZifyNat ZifyN.
From Verif Require Import Base Schema Parser SpecParser SpecGrammar ParserProofs ParserProofs2 GrammarProofs
  GrammarProofs2 GrammarProofs3 WordProofs GrammarProofs4.
Import ListNotations.
Local Open Scope Z_scope.

(** * Separators *)
Definition sep (c : byte) : parser byte := delimited comment_or_space0 (char c) comment_or_space0.
Lemma delim_char c : In c delims -> is_space c = false /\ c <> "/"%byte /\ ~ word_byte c.
Proof.
  unfold delims, word_byte. rewrite !In_existsb. intros H.
  destruct c; try discriminate; repeat split; try reflexivity; discriminate.
Qed.
Lemma sep_ok c b1 b2 (r : text) : In c delims -> blank b1 -> blank b2 -> stops r ->
  sep c (b1 ++ [c] ++ b2 ++ r) = Some (c, r).
Proof.
  intros D B1 B2 R. unfold sep, delimited, preceded, terminated. rewrite blank_ok; auto.
  - rewrite char_app, blank_ok; auto.
  - cbn [app]. apply delim_stops; auto.
Qed.
Lemma skip_char c cs (r : text) : next cs r -> ~ In c cs -> preceded comment_or_space0 (char c) r = None.
Proof.
  intros N H. destruct (next_skip _ _ N) as (d & t & E & I & _). unfold preceded. rewrite E.
  apply char_none. congruence.
Qed.
Lemma sep_none c cs (r : text) : next cs r -> ~ In c cs -> sep c r = None.
Proof.
  intros N H. destruct (next_skip _ _ N) as (d & t & E & I & _). unfold sep, delimited, preceded, terminated. rewrite E.
  rewrite char_none; auto. congruence.
Qed.
Lemma adv_sep c : advances (sep c).
Proof. apply advances_delimited_m; [apply spl_blank0|apply advances_char|apply spl_blank0]. Qed.

(** * Items between commas *)
Section Listing.
Context {A : Type} (item : text -> text -> A -> Prop) (p : parser A) (k : byte) (R : text) (n : nat).
Context (item_stops : forall q t a r, item q t a -> stops (t ++ r)).
Lemma listing_first q t l r : listing item q t l -> stops (t ++ r).
Proof. destruct 1; rewrite <- ?app_assoc; eapply item_stops; eauto. Qed.
Lemma listing_listed t l :
  (forall t a r, (List.length t <= n)%nat -> item r t a -> next [","%byte; k] r -> p (t ++ r) = Some (a, r)) ->
  next [","%byte; k] R -> listed list_comma p R [] R ->
  listing item R t l -> (List.length t <= n)%nat ->
  exists a l' s, l = a :: l' /\ p (t ++ R) = Some (a, s) /\ listed list_comma p s l' R.
Proof.
  intros item_ok R_next R_end H. induction H as [r t a I|r t a b1 b2 t' l I B1 B2 H IH]; intros L.
  - exists a, [], r. repeat split; auto.
  - rewrite !app_length in L. rewrite <- !app_assoc in *.
    destruct IH as (a' & l' & s & -> & E & Li); auto.
    { clear - L. cbn in L. lia. }
    exists a, (a' :: l'). eexists. split; auto. split.
    + apply item_ok; auto; [clear - L; lia|]. apply next_blank; auto. apply next_here; cbn; auto.
    + eapply listed_step; eauto. unfold list_comma. apply sep_ok; auto; [cbn; auto|].
      eapply listing_first; eauto.
Qed.
End Listing.
Lemma listing_tail {A} (item : text -> A -> Prop) q r t l :
  listing (fun _ => item) q t l -> listing (fun _ => item) r t l.
Proof. induction 1; now constructor. Qed.
Lemma series_tail {A} (item : text -> A -> Prop) q r t l :
  series (fun _ => item) q t l -> series (fun _ => item) r t l.
Proof. induction 1; now constructor. Qed.
Lemma opt_tail {A} mark (item : text -> A -> Prop) q r t l :
  opt_part mark (fun _ => item) q t l -> opt_part mark (fun _ => item) r t l.
Proof. destruct 1; now constructor. Qed.
Lemma listing_plain {A} (item : text -> A -> Prop) (p : parser A) (k : byte) (R : text) q t l :
  (forall t a r, item t a -> next [","%byte; k] r -> p (t ++ r) = Some (a, r)) ->
  (forall t a r, item t a -> stops (t ++ r)) ->
  next [","%byte; k] R -> listed list_comma p R [] R -> listing (fun _ => item) q t l ->
  exists a l' s, l = a :: l' /\ p (t ++ R) = Some (a, s) /\ listed list_comma p s l' R.
Proof.
  intros I S N E L. apply (listing_listed (fun _ => item) p k R (List.length t)); eauto. eapply listing_tail; eauto.
Qed.

(** * Items one after the other *)
Section Series.
Context {A : Type} (item : text -> text -> A -> Prop) (p : parser A) (ok : A -> Prop) (R r0 : text).
Notation w := (delimited comment_or_space0 p comment_or_space0).
Context (item_ok : forall t a r, item r t a -> ok a -> p (t ++ r) = Some (a, r)).
Context (item_stops : forall q t a r, item q t a -> stops (t ++ r)).
Context (R_skip : forall b, blank b -> comment_or_space0 (b ++ R) = Some (tt, r0)).

Lemma series_repeats t l : series item R t l -> Forall ok l -> l <> [] ->
  forall l' s', repeats w r0 l' s' -> forall b, blank b -> repeats w (b ++ t ++ R) (l ++ l') s'.
Proof.
  intros H. remember R as R' eqn:ER in H. revert ER. induction H as [|R' t a b' t' l I B' H IH]; intros -> F N l' s' Rep b B; [congruence|].
  inversion F as [|? ? Fa F']; subst. rewrite <- !app_assoc in *. cbn [app].
  assert (S0 : comment_or_space0 (b ++ t ++ b' ++ t' ++ R) = Some (tt, t ++ b' ++ t' ++ R)).
  { apply blank_ok; auto. eapply item_stops; eauto. }
  assert (Pa : p (t ++ b' ++ t' ++ R) = Some (a, b' ++ t' ++ R)) by (apply item_ok; auto).
  destruct l as [|a2 l].
  - inversion H; subst. cbn [app] in *. eapply repeats_step; [|exact Rep].
    unfold delimited, preceded, terminated. rewrite S0, Pa, R_skip; auto.
  - eapply repeats_step.
    + unfold delimited, preceded, terminated. rewrite S0, Pa. rewrite blank_ok; auto.
      inversion H; subst. rewrite <- app_assoc. eapply item_stops; eauto.
    + apply (IH eq_refl F' ltac:(discriminate) _ _ Rep []). constructor.
Qed.
End Series.

(** * Metadata *)
Section Values.
Context (uni_alphabetic uni_alphanumeric uni_word : text -> bool).
Context (parse_f64 parse_hexf64 : text -> option Z).
Context (hexf_range : forall t v, parse_hexf64 t = Some v -> 0 <= v < 2 ^ 64).
Notation name_text := (name_text uni_alphabetic uni_alphanumeric).
Notation p_ident := (p_ident uni_alphabetic uni_alphanumeric).
Notation p_single := (p_single uni_word parse_f64 parse_hexf64).
Notation single_text := (single_text parse_f64 parse_hexf64).
Notation meta_item := (meta_item uni_alphabetic uni_alphanumeric parse_f64 parse_hexf64 (no_special uni_word)).
Notation meta_text := (meta_text uni_alphabetic uni_alphanumeric parse_f64 parse_hexf64 (no_special uni_word)).
Notation metadata_item := (metadata_item uni_alphabetic uni_alphanumeric uni_word parse_f64 parse_hexf64).
Notation raw_metadata := (raw_metadata uni_alphabetic uni_alphanumeric uni_word parse_f64 parse_hexf64).
Notation p_metadata := (p_metadata uni_alphabetic uni_alphanumeric uni_word parse_f64 parse_hexf64).
Notation value_text := (value_text uni_alphabetic uni_alphanumeric parse_f64 parse_hexf64 (no_special uni_word)).
Notation object_text := (object_text uni_alphabetic uni_alphanumeric).
Notation pair_text := (pair_text uni_alphabetic uni_alphanumeric).
Notation value_ := (value_ uni_alphabetic uni_alphanumeric uni_word parse_f64 parse_hexf64).
Notation object_with := (object_with uni_alphabetic uni_alphanumeric).

Lemma meta_item_ok t a r : meta_item r t a -> next [","%byte; ")"%byte] r -> metadata_item (t ++ r) = Some (a, r).
Proof.
  intros H N. unfold Parser.metadata_item, pair_. destruct H as [r x X|r x b1 b2 t v X B1 B2 V Q].
  - rewrite name_ok'; auto; [|eapply next_breaks; eauto].
    destruct (next_skip _ _ N) as (c & u & E & I & D). unfold opt, preceded. rewrite E. unfold colon.
    rewrite char_none; auto. cbn in I. intros <-. destruct I as [I|[I|[]]]; discriminate.
  - rewrite <- !app_assoc in *. rewrite name_ok'; auto; [|apply breaks_blank; auto; apply breaks_delim; cbn; auto 20].
    unfold opt, preceded. rewrite blank_ok by (first [assumption|apply delim_stops; cbn; auto 20]).
    change (lit ":" ++ b2 ++ t ++ r) with (":"%byte :: b2 ++ t ++ r). unfold colon. rewrite char_ok.
    rewrite blank_ok by (first [assumption|eapply single_starts; eauto]).
    rewrite (single_ok uni_word parse_f64 parse_hexf64 hexf_range t v r); auto. eapply next_breaks; eauto.
Qed.
Lemma meta_item_stops q t a r : meta_item q t a -> stops (t ++ r).
Proof. destruct 1; rewrite <- ?app_assoc; eapply stops_name; eauto. Qed.
Lemma adv_metadata_item : advances metadata_item.
Proof. apply advances_pair_l; [apply adv_ident|]. apply splits_opt. repeat (apply splits_preceded; [first [apply spl_blank0|apply advances_splits, advances_char]|]). apply advances_splits, adv_single. Qed.
Lemma ident_none c r : In c delims -> p_ident (c :: r) = None.
Proof.
  intros D. unfold Parser.p_ident, recognize, preceded, one_char.
  assert (A : is_ascii c = true) by (apply (breaks_plain c r); now apply breaks_delim).
  rewrite next_ascii by auto. unfold ident_start. rewrite on_ascii_byte by auto.
  unfold delims in D. rewrite In_existsb in D. destruct c; try discriminate; reflexivity.
Qed.
Lemma raw_metadata_ok t m r : meta_text r t (Some m) -> raw_metadata (t ++ r) = Some (m, r).
Proof.
  intros H. unfold Parser.raw_metadata, delimited. inversion H as [|r' b B|r' b1 b2 t' m' B1 B2 L]; subst; rewrite <- !app_assoc in *.
  - unfold preceded at 1, terminated, left_paren.
    change (lit "(" ++ b ++ lit ")" ++ r) with ("("%byte :: b ++ ")"%byte :: r).
    rewrite char_ok, blank_ok by (first [assumption|apply delim_stops; cbn; auto 20]).
    unfold separated_list, Parser.metadata_item, pair_. rewrite ident_none by (cbn; auto 20).
    unfold preceded. rewrite blank0_ok by (apply delim_stops; cbn; auto 20). unfold right_paren. now rewrite char_ok.
  - unfold preceded at 1, terminated, left_paren.
    change (lit "(" ++ b1 ++ t' ++ b2 ++ lit ")" ++ r) with ("("%byte :: b1 ++ t' ++ b2 ++ ")"%byte :: r) in *.
    rewrite char_ok, blank_ok by (first [assumption|eapply listing_first; eauto; apply meta_item_stops]).
    assert (N : next [")"%byte] (b2 ++ ")"%byte :: r)) by (apply next_blank; auto; apply next_here; cbn; auto 20).
    destruct (listing_listed meta_item metadata_item ")" (b2 ++ ")"%byte :: r) (List.length t') meta_item_stops)
      with (t := t') (l := m) as (a & l' & s & -> & E & Li); auto.
    + intros u a q _ I Nq. apply meta_item_ok; auto.
    + eapply next_weaken; [|exact N]. cbn. tauto.
    + apply listed_no_sep. apply (sep_none "," [")"%byte]); auto. cbn. intros [I|[]]. discriminate.
    + erewrite list_total; [|apply adv_sep|apply adv_metadata_item|exact E|exact Li].
      unfold preceded. rewrite blank_ok by (first [assumption|apply delim_stops; cbn; auto 20]). unfold right_paren. now rewrite char_ok.
Qed.
Lemma metadata_ok t m r : meta_text r t m -> (m = None -> exists c u, r = c :: u /\ c <> "("%byte) ->
  p_metadata (t ++ r) = Some (m, r).
Proof.
  intros H N. unfold Parser.p_metadata, opt. destruct m as [m|].
  - now rewrite (raw_metadata_ok t m r).
  - inversion H; subst. destruct (N eq_refl) as (c & u & -> & C). cbn [app].
    unfold Parser.raw_metadata, delimited, preceded at 1, terminated, left_paren. now rewrite char_none by congruence.
Qed.
(** Metadata starts with a parenthesis. *)
Lemma meta_starts q t m (r : text) : meta_text q t m -> starts r -> starts (t ++ r).
Proof. intros H S. destruct H; auto; apply delim_stops; cbn; auto 20. Qed.
Lemma meta_next q t m r cs : meta_text q t m -> next cs r -> next ("("%byte :: cs) (t ++ r).
Proof.
  intros H N. destruct H.
  - eapply next_weaken; [|exact N]. cbn. auto.
  - apply next_here; cbn; auto 20.
  - apply next_here; cbn; auto 20.
Qed.

(** * JSON-like values *)
Lemma value_first q t v (r : text) : value_text q t v -> stops (t ++ r).
Proof.
  destruct 1 as [q t v H|q t kv c H|q b B|q b1 b2 t l B1 B2 H].
  - eapply single_starts; eauto.
  - destruct H as [q d c b D B|q d c b1 b2 t kv D B1 B2 L]; rewrite <- !app_assoc; eapply stops_docs; eauto;
    apply delim_stops; cbn; auto 20.
  - apply delim_stops; cbn; auto 20.
  - apply delim_stops; cbn; auto 20.
Qed.
Lemma pair_first q t v (r : text) : pair_text value_text q t v -> stops (t ++ r).
Proof. destruct 1; rewrite <- ?app_assoc; eapply stops_name; eauto. Qed.
Lemma adv_pair : advances (separated_pair p_ident key_colon value_).
Proof.
  apply advances_pair_l; [apply adv_ident|]. apply splits_preceded; [apply advances_splits, adv_sep|apply advances_splits, adv_value].
Qed.

Section Objects.
Context (n : nat).
Context (IH : forall t v r, (List.length t < n)%nat -> value_text r t v -> breaks r -> value_ (t ++ r) = Some (v, r)).
Lemma pair_ok t a r : (List.length t <= n)%nat -> pair_text value_text r t a -> breaks r ->
  separated_pair p_ident key_colon value_ (t ++ r) = Some (a, r).
Proof.
  intros L H N. destruct H as [r x b1 b2 t v X B1 B2 V]. rewrite !app_length in L. rewrite <- !app_assoc in *.
  unfold separated_pair, pair_. rewrite name_ok'; auto; [|apply breaks_blank; auto; apply breaks_delim; cbn; auto 20].
  unfold preceded. change key_colon with (sep ":"). change (lit ":" ++ b2 ++ t ++ r) with ([":"%byte] ++ b2 ++ t ++ r).
  rewrite (sep_ok ":" b1 b2 (t ++ r)); auto; [|cbn; auto 20|eapply value_first; eauto].
  rewrite (IH t v r); auto. clear - L. cbn in L. lia.
Qed.
Lemma object_ok t kv c r : (List.length t <= n)%nat -> object_text value_text r t kv c ->
  object_with value_ (t ++ r) = Some ((kv, c), r).
Proof.
  intros L H. unfold Parser.object_with, pmap.
  destruct H as [r d c b D B|r d c b1 b2 t kv D B1 B2 H]; rewrite <- !app_assoc in *; unfold pair_.
  - rewrite (docs_ok d c) by (auto; apply delim_stops; cbn; auto 20).
    unfold delimited, preceded at 1, terminated, left_brace.
    change (lit "{" ++ b ++ lit "}" ++ r) with ("{"%byte :: b ++ "}"%byte :: r).
    rewrite char_ok, blank_ok by (first [assumption|apply delim_stops; cbn; auto 20]).
    unfold separated_list, separated_pair, pair_. rewrite ident_none by (cbn; auto 20).
    unfold preceded. rewrite blank0_ok by (apply delim_stops; cbn; auto 20). unfold right_brace. now rewrite char_ok.
  - rewrite (docs_ok d c) by (auto; apply delim_stops; cbn; auto 20).
    unfold delimited, preceded at 1, terminated, left_brace.
    change (lit "{" ++ b1 ++ t ++ b2 ++ lit "}" ++ r) with ("{"%byte :: b1 ++ t ++ b2 ++ "}"%byte :: r) in *.
    rewrite char_ok, blank_ok by (first [assumption|eapply listing_first; eauto; apply pair_first]).
    assert (N : next ["}"%byte] (b2 ++ "}"%byte :: r)) by (apply next_blank; auto; apply next_here; cbn; auto 20).
    destruct (listing_listed (pair_text value_text) (separated_pair p_ident key_colon value_) "}"
                (b2 ++ "}"%byte :: r) (List.length t) pair_first)
      with (t := t) (l := kv) as (a & l' & s & -> & E & Li); auto.
    + intros u a q Lu I Nq. apply pair_ok; auto.
      * rewrite !app_length in L. clear - L Lu. lia.
      * eapply next_breaks; eauto.
    + eapply next_weaken; [|exact N]. cbn. tauto.
    + apply listed_no_sep. apply (sep_none "," ["}"%byte]); auto. cbn. intros [I|[]]. discriminate.
    + erewrite list_total; [|apply adv_sep|apply adv_pair|exact E|exact Li].
      unfold preceded. rewrite blank_ok by (first [assumption|apply delim_stops; cbn; auto 20]). unfold right_brace. now rewrite char_ok.
Qed.
End Objects.

Lemma value_ok_n : forall n t v r, (List.length t < n)%nat -> value_text r t v -> breaks r ->
  value_ (t ++ r) = Some (v, r).
Proof.
  induction n as [|n IH]; intros t v r L H N; [lia|]. rewrite value_equation. cbn [alt].
  destruct H as [r t v H Q|r t kv c H Q|r b B Q|r b1 b2 t l B1 B2 H Q].
  - unfold pmap at 1. now rewrite (single_ok uni_word parse_f64 parse_hexf64 hexf_range t v r).
  - assert (S : exists c s, t ++ r = c :: s /\ ~ In c (lit "+-.0123456789""tf")).
    { destruct H as [r d c' b D B|r d c' b1 b2 t kv D B1 B2 H]; destruct D; rewrite <- !app_assoc;
      eexists; eexists; (split; [reflexivity|apply not_in; reflexivity]). }
    destruct S as (c0 & s & E & C).
    assert (P : pmap p_single JSingle (t ++ r) = None).
    { unfold pmap. rewrite E. rewrite single_none; auto. now rewrite <- E. }
    rewrite P. unfold pmap at 1. rewrite (object_ok n IH t kv c r); auto. lia.
  - rewrite <- !app_assoc in *.
    change (lit "[" ++ b ++ lit "]" ++ r) with ("["%byte :: b ++ "]"%byte :: r) in *.
    unfold pmap at 1. rewrite single_none; auto; [|apply not_in; reflexivity].
    unfold pmap at 1. unfold Parser.object_with, pmap at 1, pair_ at 1.
    change (doc_comment ("["%byte :: b ++ "]"%byte :: r)) with (doc_comment ([] ++ "["%byte :: b ++ "]"%byte :: r)).
    rewrite (docs_ok [] []); [|constructor|apply delim_stops; cbn; auto 20].
    unfold delimited at 1, preceded at 1, terminated at 1, left_brace. rewrite char_none by discriminate.
    unfold pmap, value_list_with, delimited, preceded at 1, terminated, left_square_bracket.
    rewrite char_ok, blank_ok by (first [assumption|apply delim_stops; cbn; auto 20]).
    assert (V : value_ ("]"%byte :: r) = None).
    { rewrite value_equation. cbn [alt]. unfold pmap at 1. rewrite single_none; [|apply (no_special_blank uni_word "[" b); auto|apply not_in; reflexivity].
      - unfold pmap at 1. unfold Parser.object_with, pmap at 1, pair_ at 1.
        change (doc_comment ("]"%byte :: r)) with (doc_comment ([] ++ "]"%byte :: r)).
        rewrite (docs_ok [] []); [|constructor|apply delim_stops; cbn; auto 20]. reflexivity.
      - reflexivity.
      - apply delim_char. cbn. auto 20. }
    unfold separated_list. rewrite V. unfold preceded. rewrite blank0_ok by (apply delim_stops; cbn; auto 20).
    unfold right_square_bracket. now rewrite char_ok.
  - rewrite !app_length in L. rewrite <- !app_assoc in *.
    change (lit "[" ++ b1 ++ t ++ b2 ++ lit "]" ++ r) with ("["%byte :: b1 ++ t ++ b2 ++ "]"%byte :: r) in *.
    unfold pmap at 1. rewrite single_none; auto; [|apply not_in; reflexivity].
    unfold pmap at 1. unfold Parser.object_with, pmap at 1, pair_ at 1.
    change (doc_comment ("["%byte :: b1 ++ t ++ b2 ++ "]"%byte :: r)) with (doc_comment ([] ++ "["%byte :: b1 ++ t ++ b2 ++ "]"%byte :: r)).
    rewrite (docs_ok [] []); [|constructor|apply delim_stops; cbn; auto 20].
    unfold delimited at 1, preceded at 1, terminated at 1, left_brace. rewrite char_none by discriminate.
    unfold pmap, value_list_with, delimited, preceded at 1, terminated, left_square_bracket.
    rewrite char_ok, blank_ok by (first [assumption|eapply listing_first; eauto; apply value_first]).
    assert (Nx : next ["]"%byte] (b2 ++ "]"%byte :: r)) by (apply next_blank; auto; apply next_here; cbn; auto 20).
    destruct (listing_listed value_text value_ "]" (b2 ++ "]"%byte :: r) (List.length t) value_first)
      with (t := t) (l := l) as (a & l' & s & -> & E & Li); auto.
    + intros u a q Lu I Nq. apply IH; auto.
      * clear - L Lu. cbn in L. lia.
      * eapply next_breaks; eauto.
    + eapply next_weaken; [|exact Nx]. cbn. tauto.
    + apply listed_no_sep. apply (sep_none "," ["]"%byte]); auto. cbn. intros [I|[]]. discriminate.
    + erewrite list_total; [|apply adv_sep|apply adv_value|exact E|exact Li].
      unfold preceded. rewrite blank_ok by (first [assumption|apply delim_stops; cbn; auto 20]). unfold right_square_bracket. now rewrite char_ok.
Qed.
Lemma object_ok' t kv c r : object_text value_text r t kv c -> object_with value_ (t ++ r) = Some ((kv, c), r).
Proof.
  intros H. apply (object_ok (List.length t)); auto. intros t' v' r' L V B. now apply (value_ok_n (List.length t)).
Qed.
End Values.

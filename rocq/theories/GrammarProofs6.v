(** Declarations are read as the grammar says (towards C48 and C50). *)
From Coq Require Import Strings.String ZArith List Bool Lia Strings.Byte ZifyBool ZifyNat ZifyN.
From Verif Require Import Base Schema Parser SpecParser SpecGrammar ParserProofs ParserProofs2 GrammarProofs
  GrammarProofs2 GrammarProofs3 WordProofs GrammarProofs4 GrammarProofs5.
Import ListNotations.
Local Open Scope Z_scope.

Ltac in_delims := cbn; auto 20.
Ltac ch := match goal with |- context [char ?c (?l ++ ?r)] => change (l ++ r) with (c :: r); rewrite char_ok end.
(** Skips a blank in front of something that is none. *)
Ltac skip := rewrite blank_ok by (first [assumption|now apply delim_stops; in_delims|idtac]).

Lemma delim_lit s c r : lit s = [c] -> In c delims -> starts (lit s ++ r).
Proof. intros -> D. now apply delim_stops. Qed.
Lemma blank_lit_next b s c (r : text) : lit s = [c] -> In c delims -> blank b -> next [c] (b ++ lit s ++ r).
Proof. intros -> D B. apply next_blank; auto. apply next_here; auto. now left. Qed.
Lemma next_add c cs r : next cs r -> next (c :: cs) r.
Proof. apply next_weaken. intros d. now right. Qed.
Section Declarations.
Context (uni_alphabetic uni_alphanumeric uni_word : text -> bool).
Context (parse_f64 parse_hexf64 : text -> option Z).
Context (has_stem : text -> bool).
Context (hexf_range : forall t v, parse_hexf64 t = Some v -> 0 <= v < 2 ^ 64).
Notation name_text := (name_text uni_alphabetic uni_alphanumeric).
Notation p_ident := (p_ident uni_alphabetic uni_alphanumeric).
Notation type_text := (type_text uni_alphabetic uni_alphanumeric).
Notation type_ := (type_ uni_alphabetic uni_alphanumeric).
Notation meta_text := (meta_text uni_alphabetic uni_alphanumeric parse_f64 parse_hexf64 (no_special uni_word)).
Notation p_metadata := (p_metadata uni_alphabetic uni_alphanumeric uni_word parse_f64 parse_hexf64).
Notation default_text :=
  (default_text uni_alphabetic uni_alphanumeric parse_f64 parse_hexf64 (no_special uni_word) (no_boolean uni_word)).
Notation p_default_value := (p_default_value uni_alphabetic uni_alphanumeric uni_word parse_f64 parse_hexf64).
Notation field_text :=
  (field_text uni_alphabetic uni_alphanumeric parse_f64 parse_hexf64 (no_special uni_word) (no_boolean uni_word)).
Notation field_decl := (field_decl uni_alphabetic uni_alphanumeric uni_word parse_f64 parse_hexf64).
Notation variant_text := (variant_text uni_alphabetic uni_alphanumeric).
Notation enumval_decl := (enumval_decl uni_alphabetic uni_alphanumeric).
Notation enum_body := (enum_body uni_alphabetic uni_alphanumeric).
Notation variants_text := (variants_text uni_alphabetic uni_alphanumeric).
Notation product_type_body := (product_type_body uni_alphabetic uni_alphanumeric uni_word parse_f64 parse_hexf64).
Notation rpc_method := (rpc_method uni_alphabetic uni_alphanumeric uni_word parse_f64 parse_hexf64).
Notation method_text := (method_text uni_alphabetic uni_alphanumeric parse_f64 parse_hexf64 (no_special uni_word)).
Notation qname_text := (qname_text uni_alphabetic uni_alphanumeric).
Notation qualified_ident := (qualified_ident uni_alphabetic uni_alphanumeric).

Lemma stops_type t ty r : type_text t ty -> stops (t ++ r).
Proof.
  destruct 1 as [p| |t a H|t q H].
  - destruct p; apply stops_byte; (reflexivity || discriminate).
  - apply stops_byte; (reflexivity || discriminate).
  - apply delim_stops. in_delims.
  - eapply stops_qname; eauto.
Qed.
Lemma stops_default q t v r : default_text q t v -> stops (t ++ r).
Proof.
  destruct 1 as [q t v H|q x H].
  - eapply (single_starts parse_f64 parse_hexf64 t (SScalar v)). now constructor.
  - eapply stops_name; eauto.
Qed.
Lemma stops_integer t v (r : text) : integer_text t v -> stops (t ++ r).
Proof. intros H. apply (single_starts parse_f64 parse_hexf64 t (SScalar (CInt v))). now do 2 constructor. Qed.
Lemma field_stops q t f r : field_text q t f -> stops (t ++ r).
Proof. destruct 1. rewrite <- !app_assoc. eapply stops_docs; eauto. eapply starts_name; eauto. Qed.

(** What may come between an item and the end: an optional metadata. *)
Lemma meta_end q b1 t m b2 s c (r : text) : blank b1 -> meta_text q t m -> blank b2 -> lit s = [c] -> In c delims -> 
  next ["("%byte; c] (b1 ++ t ++ b2 ++ lit s ++ r).
Proof.
  intros B1 M B2 S D. apply next_blank; auto. eapply meta_next; eauto. now apply blank_lit_next.
Qed.
(** An absent metadata is found absent. *)
Lemma metadata_at b1 t m b2 s c (r : text) : blank b1 -> meta_text (b2 ++ lit s ++ r) t m -> blank b2 -> lit s = [c] -> In c delims ->
  c <> "("%byte ->
  exists r', comment_or_space0 (b1 ++ t ++ b2 ++ lit s ++ r) = Some (tt, r')
    /\ p_metadata r' = Some (m, match m with Some _ => b2 ++ lit s ++ r | None => lit s ++ r end).
Proof.
  intros B1 M B2 S D N. destruct m as [m|].
  - exists (t ++ b2 ++ lit s ++ r). split.
    + apply blank_ok; auto. inversion M; subst; apply delim_stops; in_delims.
    + apply (metadata_ok uni_alphabetic uni_alphanumeric uni_word parse_f64 parse_hexf64 hexf_range t (Some m)); auto. discriminate.
  - inversion M; subst. cbn [app] in *. exists (lit s ++ r). rewrite app_assoc. split.
    + rewrite blank_ok; auto; [now apply blank_app|]. rewrite S. now apply delim_stops.
    + apply (metadata_ok uni_alphabetic uni_alphanumeric uni_word parse_f64 parse_hexf64 hexf_range [] None (lit s ++ r)); [constructor|].
      intros _. rewrite S. exists c, r. auto.
Qed.
Lemma skip_rest (m : option metadata) b s c (r : text) : blank b -> lit s = [c] -> In c delims ->
  comment_or_space0 (match m with Some _ => b ++ lit s ++ r | None => lit s ++ r end) = Some (tt, lit s ++ r).
Proof.
  intros B S D. assert (stops (lit s ++ r)) by (rewrite S; now apply delim_stops).
  destruct m; [now apply blank_ok|now apply blank0_ok].
Qed.

Lemma field_ok t f r : field_text r t f -> plain_type (af_ty f) -> field_decl (t ++ r) = Some (f, r).
Proof.
  intros H P1. destruct H as [r d c x b1 b2 t ty dt dv b3 mt m b4 D X B1 B2 T DT B3 M B4].
  cbn [af_ty] in P1. rewrite <- !app_assoc in *.
  unfold Parser.field_decl, pmap, terminated, pair_, preceded.
  rewrite (docs_ok d c) by (auto; eapply starts_name; eauto).
  rewrite name_ok' by (auto; apply breaks_blank; auto; apply breaks_delim; in_delims).
  rewrite blank_ok by (auto; apply delim_stops; in_delims). unfold colon. ch.
  rewrite blank_ok by (auto; eapply stops_type; eauto).
  assert (N : next ["="%byte; "("%byte; ";"%byte] (dt ++ b3 ++ mt ++ b4 ++ lit ";" ++ r)).
  { inversion DT as [|q b5 b6 t' a B5 B6 I]; subst.
    - apply next_add. eapply (meta_end _ b3 mt m b4 ";" ";" r); eauto. in_delims.
    - rewrite <- !app_assoc. apply next_blank; auto. apply next_here; in_delims. }
  rewrite (type_ok _ _ t ty T P1 _ _ N).
  destruct (metadata_at b3 mt m b4 ";" ";" r B3 M B4) as (r' & E1 & E2); auto; [in_delims|discriminate|].
  inversion DT as [|q b5 b6 t' a B5 B6 I]; subst; unfold opt at 1; cbn [app].
  - rewrite E1. destruct (next_skip _ _ (meta_end _ b3 mt m b4 ";" ";" r B3 M B4 eq_refl ltac:(in_delims))) as (k & u & E & K & _).
    assert (K' : r' = k :: u) by congruence. subst r'. unfold equals. rewrite char_none by (intros <-; cbn in K; destruct K as [K|[K|[]]]; discriminate).
    rewrite E1, E2. rewrite (skip_rest m b4 ";" ";") by (auto; in_delims). unfold semicolon. now ch.
  - rewrite <- !app_assoc in *. rewrite blank_ok by (auto; apply delim_stops; in_delims). unfold equals. ch.
    rewrite blank_ok by (auto; eapply stops_default; eauto).
    rewrite (default_ok _ _ _ _ _ hexf_range t' a); auto.
    + rewrite E1, E2. rewrite (skip_rest m b4 ";" ";") by (auto; in_delims). unfold semicolon. now ch.
    + eapply next_breaks. eapply (meta_end _ b3 mt m b4 ";" ";" r); eauto. in_delims.
Qed.

(** * Enums and unions *)
Lemma variant_ok t v r : variant_text t v -> next [","%byte; "}"%byte] r -> enumval_decl (t ++ r) = Some (v, r).
Proof.
  intros H N. destruct H as [d c x t v D X I]. rewrite <- !app_assoc.
  unfold Parser.enumval_decl, pmap, pair_, preceded.
  rewrite (docs_ok d c) by (auto; eapply starts_name; eauto).
  inversion I as [q|q b1 b2 t' a B1 B2 I']; subst; cbn [app].
  - rewrite name_ok' by (auto; eapply next_breaks; eauto). unfold opt.
    destruct (next_skip _ _ N) as (k & u & E & K & _). rewrite E. unfold equals.
    now rewrite char_none by (intros <-; cbn in K; destruct K as [K|[K|[]]]; discriminate).
  - rewrite <- !app_assoc. rewrite name_ok' by (auto; apply breaks_blank; auto; apply breaks_delim; in_delims).
    unfold opt. rewrite blank_ok by (auto; apply delim_stops; in_delims). unfold equals. ch.
    rewrite blank_ok by (auto; eapply stops_integer; eauto).
    rewrite (integer_ok t' a r); auto. eapply next_breaks; eauto.
Qed.
Lemma variant_stops t v r : variant_text t v -> stops (t ++ r).
Proof. destruct 1. rewrite <- !app_assoc. eapply stops_docs; eauto. eapply starts_name; eauto. Qed.
Lemma variant_none r : enumval_decl ("}"%byte :: r) = None.
Proof.
  unfold Parser.enumval_decl, pmap, pair_.
  change (doc_comment ("}"%byte :: r)) with (doc_comment ([] ++ "}"%byte :: r)).
  rewrite (docs_ok [] []); [|constructor|apply delim_stops; in_delims]. now rewrite ident_none by in_delims.
Qed.
Lemma variants_ok t vs r : variants_text t vs -> enum_body (t ++ r) = Some (vs, r).
Proof.
  intros H. unfold Parser.enum_body, delimited.
  destruct H as [b1 b2 t vs b3 B1 B2 L B3|b1 b2 t vs b3 b4 B1 B2 L B3 B4]; rewrite <- !app_assoc; unfold preceded, terminated.
  - rewrite blank_ok by (auto; apply delim_stops; in_delims). unfold left_brace. ch.
    rewrite blank_ok by (auto; eapply listing_first; eauto; intro; apply variant_stops).
    assert (N : next ["}"%byte] (b3 ++ lit "}" ++ r)) by (apply blank_lit_next; auto; in_delims).
    destruct (listing_plain variant_text enumval_decl "}" (b3 ++ lit "}" ++ r) [] t vs) as (a & l' & s & -> & E & Li); auto.
    + apply variant_ok.
    + apply variant_stops.
    + eapply next_weaken; [|exact N]. cbn. tauto.
    + apply listed_no_sep. apply (sep_none "," ["}"%byte]); auto. cbn. intros [I|[]]. discriminate.
    + erewrite nonempty_list_total; [|apply adv_sep|apply adv_enumval|exact E|exact Li].
      unfold opt, pair_. rewrite blank_ok by (auto; apply delim_stops; in_delims). unfold comma.
      change (lit "}" ++ r) with ("}"%byte :: r). rewrite char_none by discriminate.
      rewrite blank_ok by (auto; apply delim_stops; in_delims). unfold right_brace. now rewrite char_ok.
  - rewrite blank_ok by (auto; apply delim_stops; in_delims). unfold left_brace. ch.
    rewrite blank_ok by (auto; eapply listing_first; eauto; intro; apply variant_stops).
    assert (N : next [","%byte] (b3 ++ lit "," ++ b4 ++ lit "}" ++ r)) by (apply blank_lit_next; auto; in_delims).
    destruct (listing_plain variant_text enumval_decl "}" (b3 ++ lit "," ++ b4 ++ lit "}" ++ r) [] t vs) as (a & l' & s & -> & E & Li); auto.
    + apply variant_ok.
    + apply variant_stops.
    + eapply next_weaken; [|exact N]. cbn. tauto.
    + eapply listed_no_item; [apply (sep_ok "," b3 b4 (lit "}" ++ r)); auto; [in_delims|apply delim_stops; in_delims]|].
      apply variant_none.
    + erewrite nonempty_list_total; [|apply adv_sep|apply adv_enumval|exact E|exact Li].
      unfold opt, pair_. rewrite blank_ok by (auto; apply delim_stops; in_delims). unfold comma. ch.
      rewrite blank_ok by (auto; apply delim_stops; in_delims).
      rewrite blank0_ok by (apply delim_stops; in_delims). unfold right_brace. now ch.
Qed.
End Declarations.

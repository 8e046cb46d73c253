(** Whole declarations and whole files are read as the grammar says (C48, C50). *)
From Coq Require Import Strings.String ZArith List Bool Lia Strings.Byte ZifyBool ZifyNat ZifyN.
From Verif Require Import Base Schema Parser SpecParser SpecGrammar ParserProofs ParserProofs2 GrammarProofs
  GrammarProofs2 GrammarProofs3 WordProofs GrammarProofs4 GrammarProofs5 GrammarProofs6.
Import ListNotations.
Local Open Scope Z_scope.

Ltac tg := match goal with |- context [tag (lit ?s) (lit ?s ++ ?r)] => rewrite (tag_app (lit s) r) end.
Lemma take4 x r : (List.length x = 4)%nat ->
  (forall a b c y, x = a ++ b :: c :: y -> (128 <= Byte.to_N b)%N -> ~ continuation c) ->
  take 4 (x ++ """"%byte :: r) = Some (x, """"%byte :: r).
Proof.
  intros L H.
  assert (G : forall n x, (List.length x = n)%nat ->
    (forall a b c y, x = a ++ b :: c :: y -> (128 <= Byte.to_N b)%N -> ~ continuation c) ->
    take n (x ++ """"%byte :: r) = Some (x, """"%byte :: r)).
  { clear. induction n as [|n IH]; intros x L H.
    - destruct x; [reflexivity|discriminate].
    - destruct x as [|b x]; [discriminate|]. cbn [take app].
      assert (N : next_char (b :: x ++ """"%byte :: r) = Some ([b], x ++ """"%byte :: r)).
      { cbn [next_char]. destruct (is_ascii b) eqn:A; auto.
        assert (span is_continuation (x ++ """"%byte :: r) = ([], x ++ """"%byte :: r)) as ->; auto.
        destruct x as [|c x]; auto. cbn [app span].
        assert (is_continuation c = false) as ->; auto.
        destruct (is_continuation c) eqn:C; auto. exfalso. apply continuation_iff in C.
        apply (H [] b c x); auto. unfold is_ascii, code in A. clear - A. lia. }
      rewrite N, IH; auto.
      intros a b' c y -> Hb. apply (H (b :: a) b' c y); auto. }
  now apply (G 4%nat).
Qed.

Lemma starts_lit s r : match lit s with [] => False | c :: _ => is_space c = false /\ c <> "/"%byte end -> starts (lit s ++ r).
Proof. destruct (lit s) as [|c w]; [tauto|]. intros [H N]. now apply starts_byte. Qed.

Section Files.
Context (uni_alphabetic uni_alphanumeric uni_word : text -> bool).
Context (parse_f64 parse_hexf64 : text -> option Z).
Context (has_stem : text -> bool).
Context (hexf_range : forall t v, parse_hexf64 t = Some v -> 0 <= v < 2 ^ 64).
Notation ua := uni_alphabetic.
Notation un := uni_alphanumeric.
Notation name_text := (name_text ua un).
Notation p_ident := (p_ident ua un).
Notation qname_text := (qname_text ua un).
Notation qualified_ident := (qualified_ident ua un).
Notation meta_text := (meta_text ua un parse_f64 parse_hexf64 (no_special uni_word)).
Notation p_metadata := (p_metadata ua un uni_word parse_f64 parse_hexf64).
Notation field_text := (field_text ua un parse_f64 parse_hexf64 (no_special uni_word) (no_boolean uni_word)).
Notation field_decl := (field_decl ua un uni_word parse_f64 parse_hexf64).
Notation product_text := (product_text ua un parse_f64 parse_hexf64 (no_special uni_word) (no_boolean uni_word)).
Notation product_type_body := (product_type_body ua un uni_word parse_f64 parse_hexf64).
Notation method_text := (method_text ua un parse_f64 parse_hexf64 (no_special uni_word)).
Notation rpc_method := (rpc_method ua un uni_word parse_f64 parse_hexf64).
Notation metadata_at := (metadata_at ua un uni_word parse_f64 parse_hexf64 hexf_range).
Notation meta_end := (meta_end ua un uni_word parse_f64 parse_hexf64).
Notation enum_text := (enum_text ua un parse_f64 parse_hexf64 (no_special uni_word)).
Notation union_text := (union_text ua un parse_f64 parse_hexf64 (no_special uni_word)).
Notation rpc_text := (rpc_text ua un parse_f64 parse_hexf64 (no_special uni_word)).
Notation element_text := (element_text ua un parse_f64 parse_hexf64 (no_special uni_word) (no_boolean uni_word)).
Notation include_text := (include_text has_stem).
Notation enum_decl := (enum_decl ua un uni_word parse_f64 parse_hexf64).
Notation union_decl := (union_decl ua un uni_word parse_f64 parse_hexf64).
Notation rpc_decl := (rpc_decl ua un uni_word parse_f64 parse_hexf64).
Notation p_element := (p_element ua un uni_word parse_f64 parse_hexf64).
Notation include_decl := (include_decl has_stem).

(** * Tables and structs *)
Lemma field_none r : delimited comment_or_space0 field_decl comment_or_space0 ("}"%byte :: r) = None.
Proof.
  unfold delimited, preceded. rewrite blank0_ok by (apply delim_stops; in_delims). unfold terminated at 1.
  unfold Parser.field_decl, pmap, terminated at 1, pair_ at 1.
  change (doc_comment ("}"%byte :: r)) with (doc_comment ([] ++ "}"%byte :: r)).
  rewrite (docs_ok [] []); [|constructor|apply delim_stops; in_delims].
  unfold pair_ at 1, terminated at 1. now rewrite ident_none by in_delims.
Qed.
(** The repetition of an item between braces. *)
Lemma series_ok {A} (item : text -> text -> A -> Prop) (p : parser A) (ok : A -> Prop) t l b (r : text) : advances p ->
  (forall t a r, item r t a -> ok a -> p (t ++ r) = Some (a, r)) ->
  (forall q t a r, item q t a -> stops (t ++ r)) ->
  delimited comment_or_space0 p comment_or_space0 ("}"%byte :: r) = None ->
  series item ("}"%byte :: r) t l -> Forall ok l -> blank b ->
  exists r', many0 (delimited comment_or_space0 p comment_or_space0) (b ++ t ++ "}"%byte :: r) = Some (l, r')
    /\ comment_or_space0 r' = Some (tt, "}"%byte :: r) /\ (b = [] \/ l <> [] -> r' = "}"%byte :: r).
Proof.
  intros A1 I S E H F B. destruct l as [|a l].
  - inversion H; subst. cbn [app] in *. exists (b ++ "}"%byte :: r).
    assert (K : comment_or_space0 (b ++ "}"%byte :: r) = Some (tt, "}"%byte :: r)) by (apply blank_ok; auto; apply delim_stops; in_delims).
    split; [|split; auto].
    + apply many0_total; [now apply adv_around|]. apply repeats_stop. revert E. unfold delimited, preceded. rewrite K.
      rewrite blank0_ok by (apply delim_stops; in_delims). auto.
    + intros [->|C]; auto. congruence.
  - exists ("}"%byte :: r). split; [|split; auto].
    + apply many0_total; [now apply adv_around|]. rewrite <- (app_nil_r (a :: l)).
      eapply (series_repeats item p ok ("}"%byte :: r) ("}"%byte :: r)); eauto; try discriminate.
      * intros b' B'. apply blank_ok; auto. apply delim_stops; in_delims.
      * now apply repeats_stop.
Qed.
Lemma product_body_ok x b1 b2 mt m b3 b4 t fs r :
  blank1 b1 -> name_text x -> blank b2 -> meta_text (b3 ++ lit "{" ++ b4 ++ t ++ lit "}" ++ r) mt m -> blank b3 ->
  blank b4 -> series field_text (lit "}" ++ r) t fs -> Forall (fun f => plain_type (af_ty f)) fs ->
  product_type_body (b1 ++ x ++ b2 ++ mt ++ b3 ++ lit "{" ++ b4 ++ t ++ lit "}" ++ r) = Some ((x, (m, fs)), r).
Proof.
  intros B1 X B2 M B3 B4 H F. unfold Parser.product_type_body, pair_, delimited.
  unfold preceded at 1. rewrite blank1_ok by (auto; eapply stops_name; eauto). unfold terminated at 1.
  assert (N := meta_end _ b2 mt m b3 "{" "{" (b4 ++ t ++ lit "}" ++ r) B2 M B3 eq_refl ltac:(in_delims)).
  rewrite name_ok' by (auto; eapply next_breaks; eauto).
  destruct (metadata_at b2 mt m b3 "{" "{" (b4 ++ t ++ lit "}" ++ r) B2 M B3) as (r' & E1 & E2); auto;
    [in_delims|discriminate|].
  rewrite E1. unfold terminated at 1. rewrite E2. rewrite (skip_rest m b3 "{" "{") by (auto; in_delims).
  unfold preceded, left_brace. ch.
  destruct (series_ok field_text field_decl (fun f => plain_type (af_ty f)) t fs [] r) as (r'' & M1 & M2 & M3).
  - apply adv_field.
  - intros. now apply field_ok.
  - intros. eapply field_stops; eauto.
  - apply field_none.
  - exact H.
  - exact F.
  - constructor.
  - assert (S : stops (t ++ lit "}" ++ r)).
    { inversion H; subst; [apply delim_stops; in_delims|]. rewrite <- !app_assoc. eapply field_stops; eauto. }
    rewrite blank_ok by auto.
    cbn [app] in M1. change (lit "}" ++ r) with ("}"%byte :: r).
    unfold delimited, preceded, terminated in M1 |- *. rewrite M1, M2. unfold right_brace. now rewrite char_ok.
Qed.

(** * Statements *)
Lemma method_ok t x r : method_text r t x -> rpc_method (t ++ r) = Some (x, r).
Proof.
  intros H. destruct H as [r d c x b1 b2 t1 q1 b3 b4 b5 t2 q2 b6 mt m b7 D X B1 B2 T1 B3 B4 B5 T2 B6 M B7].
  rewrite <- !app_assoc in *. unfold Parser.rpc_method, pmap, pair_ at 1.
  rewrite (docs_ok d c) by (auto; eapply starts_name; eauto). unfold pair_ at 1, terminated at 1.
  rewrite name_ok' by (auto; apply breaks_blank; auto; apply breaks_delim; in_delims).
  rewrite blank_ok by (auto; apply delim_stops; in_delims).
  unfold pair_ at 1, delimited at 1, preceded at 1, left_paren. ch.
  unfold terminated at 1, delimited at 1, preceded at 1. rewrite blank_ok by (auto; eapply stops_qname; eauto).
  unfold terminated at 1.
  rewrite (qname_ok _ _ [")"%byte] t1 q1) by (auto; apply blank_lit_next; auto; in_delims).
  rewrite blank_ok by (auto; apply delim_stops; in_delims). unfold right_paren. ch.
  unfold preceded at 1. change key_colon with (sep ":").
  change (lit ":" ++ b5 ++ t2 ++ b6 ++ mt ++ b7 ++ lit ";" ++ r) with ([":"%byte] ++ b5 ++ t2 ++ b6 ++ mt ++ b7 ++ lit ";" ++ r).
  rewrite sep_ok by (first [assumption|solve [in_delims]|eapply stops_qname; eauto]).
  unfold terminated at 1, pair_ at 1.
  assert (N := meta_end _ b6 mt m b7 ";" ";" r B6 M B7 eq_refl ltac:(in_delims)).
  rewrite (qname_ok _ _ _ t2 q2 _ T2 N).
  destruct (metadata_at b6 mt m b7 ";" ";" r B6 M B7) as (r' & E1 & E2); auto;
    [in_delims|discriminate|].
  unfold preceded. rewrite E1, E2. unfold terminated. rewrite (skip_rest m b7 ";" ";") by (auto; in_delims).
  unfold semicolon. now ch.
Qed.
Lemma method_stops q t x r : method_text q t x -> stops (t ++ r).
Proof. destruct 1. rewrite <- !app_assoc. eapply stops_docs; eauto. eapply starts_name; eauto. Qed.
Lemma method_none r : delimited comment_or_space0 rpc_method comment_or_space0 ("}"%byte :: r) = None.
Proof.
  unfold delimited, preceded. rewrite blank0_ok by (apply delim_stops; in_delims). unfold terminated at 1.
  unfold Parser.rpc_method, pmap, pair_ at 1.
  change (doc_comment ("}"%byte :: r)) with (doc_comment ([] ++ "}"%byte :: r)).
  rewrite (docs_ok [] []); [|constructor|apply delim_stops; in_delims].
  unfold pair_ at 1, terminated at 1. now rewrite ident_none by in_delims.
Qed.

(** Each declaration on its own keyword, after the doc comment. *)
Lemma product_ok kw t p r (K : match lit kw with [] => False | c :: _ => is_space c = false /\ c <> "/"%byte end) :
  product_text (lit kw) r t p -> Forall (fun f => plain_type (af_ty f)) (ap_fields p) ->
  pmap (pair_ doc_comment (preceded (tag (lit kw)) product_type_body))
       (fun '(c, (name, (m, fs))) => AProduct name fs m c) (t ++ r) = Some (p, r).
Proof.
  intros H F. destruct H as [r d c b1 x b2 mt m b3 b4 t fs D B1 X B2 M B3 B4 H]. cbn [ap_fields] in F.
  rewrite <- !app_assoc in *. unfold pmap, pair_ at 1. rewrite (docs_ok d c) by (auto; now apply starts_lit).
  unfold preceded. rewrite tag_app. rewrite (product_body_ok x b1 b2 mt m b3 b4 t fs r); auto.
Qed.
Lemma enum_ok t e r : enum_text r t e -> plain_type (ae_base e) -> enum_decl (t ++ r) = Some (e, r).
Proof.
  intros H P. destruct H as [r d c b1 x b2 b3 t ty mt m vt vs D B1 X B2 B3 T M V]. cbn [ae_base] in P.
  rewrite <- !app_assoc in *. unfold Parser.enum_decl, pmap, pair_ at 1.
  rewrite (docs_ok d c) by (auto; now apply starts_lit). unfold pair_ at 1, preceded at 1. rewrite tag_app.
  unfold delimited, preceded at 1. rewrite blank1_ok by (auto; eapply stops_name; eauto). unfold terminated at 1.
  rewrite name_ok' by (auto; apply breaks_blank; auto; apply breaks_delim; in_delims).
  rewrite blank_ok by (auto; apply delim_stops; in_delims). unfold pair_ at 1, preceded, colon. ch.
  rewrite blank_ok by (auto; eapply stops_type; eauto).
  assert (Nv : next ["{"%byte] (vt ++ r)).
  { destruct V; rewrite <- !app_assoc; apply blank_lit_next; auto; in_delims. }
  assert (Nm : next ["("%byte; "{"%byte] (mt ++ vt ++ r)) by (eapply meta_next; eauto).
  rewrite (type_ok _ _ t ty T P _ _ Nm). unfold pair_.
  rewrite (metadata_ok ua un uni_word parse_f64 parse_hexf64 hexf_range mt m); auto.
  - now rewrite (variants_ok ua un uni_word parse_f64 parse_hexf64 has_stem vt vs r).
  - intros _. destruct Nv as (b & k & u & E & B & I & K). rewrite E. apply blank_first in B. destruct b as [|k' b].
    + cbn [app]. exists k, u. split; auto. intros ->. cbn in I. destruct I as [I|[]]. discriminate.
    + cbn [app]. exists k', (b ++ k :: u). split; auto. intros ->. destruct B as [B|B]; [discriminate|].
      unfold space in B. rewrite In_existsb in B. discriminate.
Qed.
Lemma union_ok t u r : union_text r t u -> union_decl (t ++ r) = Some (u, r).
Proof.
  intros H. destruct H as [r d c b1 x b2 mt m vt vs D B1 X B2 M V].
  rewrite <- !app_assoc in *. unfold Parser.union_decl, pmap, pair_ at 1.
  rewrite (docs_ok d c) by (auto; now apply starts_lit). unfold pair_ at 1, preceded at 1. rewrite tag_app.
  unfold delimited, preceded at 1. rewrite blank1_ok by (auto; eapply stops_name; eauto). unfold terminated at 1.
  assert (Nv : next ["{"%byte] (vt ++ r)).
  { destruct V; rewrite <- !app_assoc; apply blank_lit_next; auto; in_delims. }
  rewrite name_ok' by (auto; apply breaks_blank; auto; eapply next_breaks, meta_next; eauto).
  destruct m as [m|].
  - rewrite blank_ok by (auto; inversion M; subst; apply delim_stops; in_delims). unfold pair_.
    rewrite (metadata_ok ua un uni_word parse_f64 parse_hexf64 hexf_range mt (Some m)); auto; try discriminate.
    now rewrite (variants_ok ua un uni_word parse_f64 parse_hexf64 has_stem vt vs r).
  - inversion M; subst. cbn [app].
    assert (E : exists b v, vt = b ++ lit "{" ++ v /\ blank b /\ variants_text ua un (lit "{" ++ v) vs).
    { destruct V as [c1 c2 t vs b3 C1 C2 L B3|c1 c2 t vs b3 b4 C1 C2 L B3 B4]; exists c1; eexists; split; eauto; split; auto.
      - apply (variants_intro ua un [] c2 t vs b3); auto. constructor.
      - apply (variants_comma ua un [] c2 t vs b3 b4); auto. constructor. }
    destruct E as (b & v & -> & B & V'). rewrite <- !app_assoc, (app_assoc b2).
    rewrite blank_ok by (first [now apply blank_app|apply delim_stops; in_delims]). unfold pair_.
    change (lit "{" ++ v ++ r) with ([] ++ lit "{" ++ v ++ r).
    rewrite (metadata_ok ua un uni_word parse_f64 parse_hexf64 hexf_range [] None); [|constructor|].
    + pose proof (variants_ok ua un uni_word parse_f64 parse_hexf64 has_stem _ vs r V') as W. rewrite <- app_assoc in W. now rewrite W.
    + intros _. eexists; eexists; split; [reflexivity|discriminate].
Qed.
Lemma rpc_ok t x r : rpc_text r t x -> rpc_decl (t ++ r) = Some (x, r).
Proof.
  intros H. destruct H as [r d c b1 x b2 b3 t ms D B1 X B2 B3 H N].
  rewrite <- !app_assoc in *. unfold Parser.rpc_decl, pmap, pair_ at 1.
  rewrite (docs_ok d c) by (auto; now apply starts_lit). unfold pair_ at 1, preceded at 1, terminated at 1. rewrite tag_app.
  rewrite blank1_ok by (auto; eapply stops_name; eauto). unfold terminated at 1.
  rewrite name_ok' by (auto; apply breaks_blank; auto; apply breaks_delim; in_delims).
  rewrite blank_ok by (auto; apply delim_stops; in_delims). unfold delimited at 1, preceded at 1, left_brace. ch.
  unfold terminated at 1.
  destruct (series_ok method_text rpc_method (fun _ => True) t ms b3 r) as (r' & M1 & _ & M3).
  - apply adv_rpc_method.
  - intros. now apply method_ok.
  - apply method_stops.
  - apply method_none.
  - exact H.
  - apply Forall_forall. auto.
  - exact B3.
  - rewrite M3 in M1 by auto. change (lit "}" ++ r) with ("}"%byte :: r).
    apply many0_inv in M1; [|apply adv_around, adv_rpc_method].
    assert (W : many1 (delimited comment_or_space0 rpc_method comment_or_space0) (b3 ++ t ++ "}"%byte :: r) = Some (ms, "}"%byte :: r)).
    { unfold many1. inversion M1 as [s E|s a q l q' E R]; subst; [congruence|]. rewrite E.
      now rewrite (many0_total _ (adv_around _ (adv_rpc_method _ _ _ _ _)) _ _ _ R). }
    rewrite W. unfold right_brace. now rewrite char_ok.
Qed.
End Files.

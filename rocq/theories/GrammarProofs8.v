(** Whole files are read as the grammar says (C48, C50). *)
From Coq Require Import Strings.String ZArith List Bool Lia Strings.Byte ZifyBool ZifyNat ZifyN.
From Verif Require Import Base Schema Parser SpecParser SpecGrammar ParserProofs ParserProofs2 GrammarProofs
  GrammarProofs2 GrammarProofs3 WordProofs GrammarProofs4 GrammarProofs5 GrammarProofs6 GrammarProofs7.
Import ListNotations.
Local Open Scope Z_scope.

Lemma statement_ok {A} kw (gap : text -> Prop) (g : parser unit) (item : text -> A -> Prop) (p : parser A) t a c (r : text) :
  (forall b s, gap b -> stops s -> g (b ++ s) = Some (tt, s)) ->
  (forall t a s, item t a -> next [";"%byte] s -> p (t ++ s) = Some (a, s)) ->
  (forall t a s, item t a -> stops (t ++ s)) ->
  match lit kw with [] => False | c :: _ => is_space c = false /\ c <> "/"%byte end ->
  statement (lit kw) gap item t a c ->
  pair_ doc_comment (delimited (tag (lit kw)) (delimited g p comment_or_space0) semicolon) (t ++ r) = Some ((c, a), r).
Proof.
  intros G P S K H. destruct H as [d c b1 t a b2 D B1 I B2]. rewrite <- !app_assoc.
  unfold pair_. rewrite (docs_ok d c) by (auto; apply starts_lit; exact K).
  unfold delimited, preceded, terminated. rewrite tag_app. rewrite G by eauto.
  rewrite (P t a); auto; [|apply blank_lit_next; auto; in_delims].
  rewrite blank_ok by (auto; apply delim_stops; in_delims). unfold semicolon. now ch.
Qed.

Section Files.
Context (uni_alphabetic uni_alphanumeric uni_word : text -> bool).
Context (parse_f64 parse_hexf64 : text -> option Z).
Context (has_stem : text -> bool).
Context (hexf_range : forall t v, parse_hexf64 t = Some v -> 0 <= v < 2 ^ 64).
Notation ua := uni_alphabetic.
Notation un := uni_alphanumeric.
Notation uw := uni_word.
Notation f6 := parse_f64.
Notation fh := parse_hexf64.
Notation include_text := (include_text has_stem).
Notation include_decl := (include_decl has_stem).
Notation element_text := (element_text ua un f6 fh (no_special uw) (no_boolean uw)).
Notation p_element := (p_element ua un uw f6 fh).
Notation clear_text := (clear_text ua un uw f6 fh has_stem).
Notation schema_decl := (schema_decl ua un uw f6 fh has_stem).

(** * A declaration with another keyword *)
Ltac other := intros D S T; unfold pmap, map_res, pair_ at 1; rewrite (docs_ok _ _ _ D S);
  unfold pair_, delimited, preceded, terminated; rewrite T; reflexivity.
Lemma no_namespace d c r : docs d c -> starts r -> tag (lit "namespace") r = None -> namespace_decl ua un (d ++ r) = None.
Proof. unfold namespace_decl. other. Qed.
Lemma no_table d c r : docs d c -> starts r -> tag (lit "table") r = None -> table_decl ua un uw f6 fh (d ++ r) = None.
Proof. unfold table_decl. other. Qed.
Lemma no_struct d c r : docs d c -> starts r -> tag (lit "struct") r = None -> struct_decl ua un uw f6 fh (d ++ r) = None.
Proof. unfold struct_decl. other. Qed.
Lemma no_enum d c r : docs d c -> starts r -> tag (lit "enum") r = None -> enum_decl ua un uw f6 fh (d ++ r) = None.
Proof. unfold enum_decl. other. Qed.
Lemma no_union d c r : docs d c -> starts r -> tag (lit "union") r = None -> union_decl ua un uw f6 fh (d ++ r) = None.
Proof. unfold union_decl. other. Qed.
Lemma no_root d c r : docs d c -> starts r -> tag (lit "root_type") r = None -> root_decl ua un (d ++ r) = None.
Proof. unfold root_decl. other. Qed.
Lemma no_extension d c r : docs d c -> starts r -> tag (lit "file_extension") r = None -> file_extension_decl (d ++ r) = None.
Proof. unfold file_extension_decl. other. Qed.
Lemma no_identifier d c r : docs d c -> starts r -> tag (lit "file_identifier") r = None -> file_identifier_decl (d ++ r) = None.
Proof. unfold file_identifier_decl. other. Qed.
Lemma no_attribute d c r : docs d c -> starts r -> tag (lit "attribute") r = None -> attribute_decl ua un (d ++ r) = None.
Proof. unfold attribute_decl. other. Qed.
Lemma no_rpc d c r : docs d c -> starts r -> tag (lit "rpc_service") r = None -> rpc_decl ua un uw f6 fh (d ++ r) = None.
Proof. unfold rpc_decl. other. Qed.
Lemma no_include d c r : docs d c -> starts r -> tag (lit "include") r = None -> include_decl (d ++ r) = None.
Proof. unfold Parser.include_decl. other. Qed.

(** * The single declarations *)
Lemma gap0 b s : blank b -> stops s -> comment_or_space0 (b ++ s) = Some (tt, s).
Proof. apply blank_ok. Qed.
Lemma gap1 b s : blank1 b -> stops s -> comment_or_space1 (b ++ s) = Some (tt, s).
Proof. apply blank1_ok. Qed.
Lemma stops_string t v r : string_text t v -> stops (t ++ r).
Proof. intros H. destruct (string_first t v r H) as (x & ->). apply stops_byte; (reflexivity || discriminate). Qed.
Lemma include_ok t i r : include_text t i -> include_decl (t ++ r) = Some (i, r).
Proof.
  intros [H St]. unfold Parser.include_decl, map_res.
  rewrite (statement_ok "include" blank1 _ string_text _ t (in_path i) (in_doc i) r); auto using gap1, string_ok.
  - rewrite St. now destruct i.
  - intros. eapply stops_string; eauto.
  - split; (reflexivity || discriminate).
Qed.
Lemma namespace_ok t q c r : statement (lit "namespace") blank1 (qname_text ua un) t q c -> namespace_decl ua un (t ++ r) = Some ((q, c), r).
Proof.
  intros H. unfold namespace_decl, pmap.
  rewrite (statement_ok "namespace" blank1 _ (qname_text ua un) _ t q c r); auto using gap1.
  - intros. eapply qname_ok; eauto.
  - intros. eapply stops_qname; eauto.
  - split; (reflexivity || discriminate).
Qed.
Lemma root_ok t x c r : statement (lit "root_type") blank1 (name_itself ua un) t x c -> root_decl ua un (t ++ r) = Some (x, r).
Proof.
  intros H. unfold root_decl, pmap.
  rewrite (statement_ok "root_type" blank1 _ (name_itself ua un) _ t x c r); auto using gap1.
  - intros t' a s [N ->] Nx. apply name_ok'; auto. eapply next_breaks; eauto.
  - intros t' a s [N ->]. eapply stops_name; eauto.
  - split; (reflexivity || discriminate).
Qed.
Lemma extension_ok t x c r : statement (lit "file_extension") blank string_text t x c -> file_extension_decl (t ++ r) = Some ((x, c), r).
Proof.
  intros H. unfold file_extension_decl, pmap.
  rewrite (statement_ok "file_extension" blank _ string_text _ t x c r); auto using gap0, string_ok.
  - intros. eapply stops_string; eauto.
  - split; (reflexivity || discriminate).
Qed.
Lemma identifier_ok t x c r : statement (lit "file_identifier") blank identifier_text t x c -> file_identifier_decl (t ++ r) = Some ((x, c), r).
Proof.
  intros H. unfold file_identifier_decl, map_res.
  rewrite (statement_ok "file_identifier" blank _ identifier_text _ t x c r); auto using gap0.
  - destruct H as [d c b1 t x b2 D B1 (E & L & F) B2]. rewrite L. reflexivity.
  - intros t' a s (-> & L & F) _. rewrite <- !app_assoc. unfold delimited, preceded, terminated, double_quote. ch.
    change (lit """" ++ s) with (""""%byte :: s). rewrite take4 by auto. now rewrite char_ok.
  - intros t' a s (-> & L & F). rewrite <- !app_assoc. apply stops_byte; (reflexivity || discriminate).
  - split; (reflexivity || discriminate).
Qed.
Lemma attribute_ok t x c r : statement (lit "attribute") blank1 (attribute_name ua un) t x c -> attribute_decl ua un (t ++ r) = Some (x, r).
Proof.
  intros H. unfold attribute_decl, pmap.
  rewrite (statement_ok "attribute" blank1 _ (attribute_name ua un) _ t x c r); auto using gap1.
  - intros t' a s [[N ->]|St] Nx; cbn [alt].
    + rewrite name_ok'; auto. eapply next_breaks; eauto.
    + assert (p_ident ua un (t' ++ s) = None) as ->.
      { destruct (string_first _ _ s St) as (y & ->). reflexivity. }
      now rewrite (string_ok t' a s).
  - intros t' a s [[N ->]|St]; [eapply stops_name; eauto|eapply stops_string; eauto].
  - split; (reflexivity || discriminate).
Qed.

(** * Elements *)
Ltac skips D := repeat first
  [rewrite (no_namespace _ _ _ D) by (first [reflexivity|now apply starts_lit|apply delim_stops; in_delims])
  |rewrite (no_table _ _ _ D) by (first [reflexivity|now apply starts_lit|apply delim_stops; in_delims])
  |rewrite (no_struct _ _ _ D) by (first [reflexivity|now apply starts_lit|apply delim_stops; in_delims])
  |rewrite (no_enum _ _ _ D) by (first [reflexivity|now apply starts_lit|apply delim_stops; in_delims])
  |rewrite (no_union _ _ _ D) by (first [reflexivity|now apply starts_lit|apply delim_stops; in_delims])
  |rewrite (no_root _ _ _ D) by (first [reflexivity|now apply starts_lit|apply delim_stops; in_delims])
  |rewrite (no_extension _ _ _ D) by (first [reflexivity|now apply starts_lit|apply delim_stops; in_delims])
  |rewrite (no_identifier _ _ _ D) by (first [reflexivity|now apply starts_lit|apply delim_stops; in_delims])
  |rewrite (no_attribute _ _ _ D) by (first [reflexivity|now apply starts_lit|apply delim_stops; in_delims])
  |rewrite (no_rpc _ _ _ D) by (first [reflexivity|now apply starts_lit|apply delim_stops; in_delims])].

(** An element: a doc comment and one of the keywords or a brace. *)
Definition heads : list text :=
  [lit "namespace"; lit "table"; lit "struct"; lit "enum"; lit "union"; lit "root_type"; lit "file_extension";
   lit "file_identifier"; lit "attribute"; lit "rpc_service"; lit "{"].
Section Heads.
Context (P : text -> Prop) (Q : ident -> text -> Prop).
Lemma element_head q t e : (SpecGrammar.element_text ua un f6 fh P Q) q t e -> exists d c k u, docs d c /\ In k heads /\ t = d ++ k ++ u.
Proof.
  assert (G : forall {A} k gap (item : text -> A -> Prop) t a c, In k heads -> statement k gap item t a c ->
    exists d c k u, docs d c /\ In k heads /\ t = d ++ k ++ u).
  { intros A k gap item t' a c K H. destruct H. do 4 eexists. split; [|split]; eauto. }
  destruct 1 as [r t q c H|r t p H|r t p H|r t e H|r t u H|r t x c H|r t e c H|r t i c H|r t x c H|r t x H|r t kv c H].
  1,6,7,8,9: eapply G; [|exact H]; cbn; tauto.
  all: destruct H; do 4 eexists; (split; [eassumption|split; [|reflexivity]]); cbn; tauto.
Qed.
Lemma head_starts k (u : text) : In k heads -> starts (k ++ u).
Proof.
  cbn. intros H. repeat destruct H as [H|H]; try contradiction; subst k;
  apply starts_byte; (reflexivity || discriminate).
Qed.
Lemma element_stops q t e r : (SpecGrammar.element_text ua un f6 fh P Q) q t e -> stops (t ++ r).
Proof.
  intros H. destruct (element_head q t e H) as (d & c & k & u & D & K & ->). rewrite <- !app_assoc.
  eapply stops_docs; eauto. now apply head_starts.
Qed.
Lemma element_no_include q t e r : (SpecGrammar.element_text ua un f6 fh P Q) q t e -> include_decl (t ++ r) = None.
Proof.
  intros H. destruct (element_head q t e H) as (d & c & k & u & D & K & ->). rewrite <- !app_assoc.
  apply (no_include d c); auto; [now apply head_starts|].
  cbn in K. repeat destruct K as [K|K]; try contradiction; subst k; reflexivity.
Qed.
End Heads.
Definition typed (e : element) : Prop :=
  match e with
  | ETable p | EStruct p => Forall (fun f => plain_type (af_ty f)) (ap_fields p)
  | EEnum e => plain_type (ae_base e)
  | _ => True
  end.
Lemma element_ok t e r : element_text r t e -> typed e -> p_element (t ++ r) = Some (e, r).
Proof.
  intros H P. unfold Parser.p_element. cbn [alt].
  destruct H as [r t q c H|r t p H|r t p H|r t e H|r t u H|r t x c H|r t e c H|r t i c H|r t x c H|r t x H|r t kv c H]; cbn [typed] in P.
  - unfold pmap at 1. now rewrite (namespace_ok t q c r H).
  - assert (O := product_ok ua un uw f6 fh hexf_range "table" t p r ltac:(split; (reflexivity || discriminate)) H P).
    fold (table_decl ua un uw f6 fh) in O.
    assert (N : namespace_decl ua un (t ++ r) = None) by (destruct H as [r0 d c ? ? ? ? ? ? ? ? ? D]; rewrite <- !app_assoc; now skips D).
    unfold pmap. rewrite N. now rewrite O.
  - assert (O := product_ok ua un uw f6 fh hexf_range "struct" t p r ltac:(split; (reflexivity || discriminate)) H P).
    fold (struct_decl ua un uw f6 fh) in O.
    assert (N : namespace_decl ua un (t ++ r) = None /\ table_decl ua un uw f6 fh (t ++ r) = None)
      by (destruct H as [r0 d c ? ? ? ? ? ? ? ? ? D]; rewrite <- !app_assoc; split; now skips D).
    destruct N as [N1 N2]. unfold pmap. rewrite N1, N2. now rewrite O.
  - assert (O := enum_ok ua un uw f6 fh has_stem hexf_range t e r H P). destruct H as [r0 d c b1 x b2 b3 t ty mt m vt vs D].
    rewrite <- !app_assoc in *. unfold pmap. skips D. now rewrite O.
  - assert (O := union_ok ua un uw f6 fh has_stem hexf_range t u r H). destruct H as [r0 d c b1 x b2 mt m vt vs D].
    rewrite <- !app_assoc in *. unfold pmap. skips D. now rewrite O.
  - assert (O := root_ok t x c r H). destruct H as [d c b1 t a b2 D]. rewrite <- !app_assoc in *. unfold pmap. skips D. now rewrite O.
  - assert (O := extension_ok t e c r H). destruct H as [d c b1 t a b2 D]. rewrite <- !app_assoc in *. unfold pmap. skips D. now rewrite O.
  - assert (O := identifier_ok t i c r H). destruct H as [d c b1 t a b2 D]. rewrite <- !app_assoc in *. unfold pmap. skips D. now rewrite O.
  - assert (O := attribute_ok t x c r H). destruct H as [d c b1 t a b2 D]. rewrite <- !app_assoc in *. unfold pmap. skips D. now rewrite O.
  - assert (O := rpc_ok ua un uw f6 fh hexf_range t x r H). destruct H as [r0 d c b1 x b2 b3 t ms D].
    rewrite <- !app_assoc in *. unfold pmap. skips D. now rewrite O.
  - assert (O := object_ok' ua un uw f6 fh hexf_range t kv c r H). fold (object ua un uw f6 fh) in O.
    destruct H as [r0 d c b D B|r0 d c b1 b2 t kv D B1 B2 L]; rewrite <- !app_assoc in *; unfold pmap; skips D; now rewrite O.
Qed.

(** * Files *)
Lemma no_includes_here : delimited comment_or_space0 include_decl comment_or_space0 [] = None.
Proof. reflexivity. Qed.
Lemma no_elements_here : delimited comment_or_space0 p_element comment_or_space0 [] = None.
Proof. reflexivity. Qed.
Lemma clear_ok t S : clear_text t S -> plain_types S -> schema_decl t = Some (S, []).
Proof.
  intros H P. destruct H as [|b ti is_ te es e B HI HE E N]; [reflexivity|].
  unfold plain_types in P. cbn [sc_elements] in P.
  unfold Parser.schema_decl, pmap, pair_.
  set (wi := delimited comment_or_space0 include_decl comment_or_space0) in *.
  set (we := delimited comment_or_space0 p_element comment_or_space0) in *.
  assert (Ai : advances wi) by (apply adv_around, adv_include).
  assert (Ae : advances we) by (apply adv_around, adv_element).
  (* the elements, wherever they start *)
  assert (Run : es <> [] -> forall b', blank b' -> repeats we (b' ++ te ++ e) es []).
  { intros Ne b' B'. rewrite <- (app_nil_r es). eapply (series_repeats element_text p_element typed e []); eauto.
    - intros. now apply element_ok.
    - intros. eapply element_stops; eauto.
    - intros b'' B''. now apply file_end_ok.
    - apply repeats_stop. apply no_elements_here. }
  assert (First : es <> [] -> forall s, stops (te ++ s) /\ include_decl (te ++ s) = None).
  { intros Ne s. destruct HE as [|e t a b0 t' l I B0 HE]; [congruence|]. rewrite <- !app_assoc.
    split; [eapply element_stops; eauto|eapply element_no_include; eauto]. }
  destruct is_ as [|i is_].
  - inversion HI; subst. cbn [app] in *.
    assert (Ne : es <> []) by (intros ->; inversion HE; subst; apply N; reflexivity).
    rewrite (many0_total wi Ai (b ++ te ++ e) [] (b ++ te ++ e)).
    + now rewrite (many0_total we Ae _ es [] (Run Ne b B)).
    + apply repeats_stop. unfold wi, delimited, preceded. destruct (First Ne e) as [S1 S2].
      rewrite blank_ok by auto. unfold terminated. now rewrite S2.
  - destruct es as [|el es].
    + inversion HE; subst. cbn [app] in *.
      assert (R : repeats wi (b ++ ti ++ e) (i :: is_) []).
      { rewrite <- (app_nil_r (i :: is_)). eapply (series_repeats (fun _ => include_text) include_decl (fun _ => True) e []); eauto.
        - intros. now apply include_ok.
        - intros q t a r [Hs _]. destruct Hs as [d c b1 t a' b2 D]. rewrite <- !app_assoc. eapply stops_docs; eauto. now apply starts_lit.
        - intros b'' B''. now apply file_end_ok.
        - eapply series_tail; eauto.
        - now apply Forall_forall.
        - discriminate.
        - apply repeats_stop. apply no_includes_here. }
      rewrite (many0_total wi Ai _ _ _ R). rewrite (many0_total we Ae [] [] []); auto.
      apply repeats_stop. apply no_elements_here.
    + assert (Ne : el :: es <> []) by discriminate. destruct (First Ne e) as [S1 S2].
      assert (R : repeats wi (b ++ ti ++ te ++ e) (i :: is_) (te ++ e)).
      { rewrite <- (app_nil_r (i :: is_)). eapply (series_repeats (fun _ => include_text) include_decl (fun _ => True) (te ++ e) (te ++ e)); eauto.
        - intros. now apply include_ok.
        - intros q t a r [Hs _]. destruct Hs as [d c b1 t a' b2 D]. rewrite <- !app_assoc. eapply stops_docs; eauto. now apply starts_lit.
        - intros b'' B''. now apply blank_ok.
        - eapply series_tail; eauto.
        - now apply Forall_forall.
        - discriminate.
        - apply repeats_stop. fold wi. unfold wi, delimited, preceded. rewrite blank0_ok by auto. unfold terminated. now rewrite S2. }
      rewrite (many0_total wi Ai _ _ _ R).
      now rewrite (many0_total we Ae (te ++ e) _ [] (Run Ne [] blank_nil)).
Qed.
End Files.

(** The remaining lemmas behind PropsParser (C47 to C51). *)
From Coq Require Import Strings.String ZArith List Bool Lia Strings.Byte ZifyBool ZifyNat ZifyN.
From Verif Require Import Base Schema Parser SpecParser SpecGrammar SpecPrint ParserProofs ParserProofs2 GrammarProofs
  GrammarProofs2 GrammarProofs3 WordProofs GrammarProofs4 GrammarProofs8 ExactProofs.
Import ListNotations.
Local Open Scope Z_scope.

Lemma many0_exact {A} (p : parser A) s : advances p ->
  (exists l r, repeats p s l r) /\ forall l r, many0 p s = Some (l, r) <-> repeats p s l r.
Proof.
  intros H. split.
  - destruct (many0_repeats p s H) as (l & r & _ & R). eauto.
  - intros l r. split; [now apply many0_inv|now apply many0_total].
Qed.
Lemma list_exact {A B} (sep : parser B) (p : parser A) s l r : advances sep -> advances p ->
  separated_list sep p s = Some (l, r) <->
  (l = [] /\ r = s /\ p s = None) \/ exists a q l', l = a :: l' /\ p s = Some (a, q) /\ listed sep p q l' r.
Proof.
  intros K H. split; [now apply list_inv|]. intros [(-> & -> & E)|(a & q & l' & -> & E & R)].
  - unfold separated_list. now rewrite E.
  - eapply list_total; eauto.
Qed.
Lemma nonempty_list_exact {A B} (sep : parser B) (p : parser A) s l r : advances sep -> advances p ->
  separated_nonempty_list sep p s = Some (l, r) <->
  exists a q l', l = a :: l' /\ p s = Some (a, q) /\ listed sep p q l' r.
Proof.
  intros K H. split; [now apply nonempty_list_inv|]. intros (a & q & l' & -> & E & R). eapply nonempty_list_total; eauto.
Qed.

Lemma rules_split ua un uw f6 fh has_stem :
  splits (schema_decl ua un uw f6 fh has_stem) /\ splits comment_or_space0 /\ splits doc_comment
  /\ splits (p_metadata ua un uw f6 fh) /\ splits (product_type_body ua un uw f6 fh)
  /\ advances comment_or_space1 /\ advances (p_ident ua un) /\ advances (qualified_ident ua un)
  /\ advances string_constant /\ advances integer_constant /\ advances (float_constant uw f6 fh)
  /\ advances (boolean_constant uw) /\ advances (scalar uw f6 fh) /\ advances (p_single uw f6 fh)
  /\ advances (p_default_value ua un uw f6 fh) /\ advances (value_ ua un uw f6 fh) /\ advances (object ua un uw f6 fh)
  /\ advances (type_ ua un) /\ advances (field_decl ua un uw f6 fh) /\ advances (enumval_decl ua un)
  /\ advances (enum_body ua un) /\ advances (rpc_method ua un uw f6 fh)
  /\ advances (include_decl has_stem) /\ advances (namespace_decl ua un) /\ advances (attribute_decl ua un)
  /\ advances (root_decl ua un) /\ advances (table_decl ua un uw f6 fh) /\ advances (struct_decl ua un uw f6 fh)
  /\ advances (enum_decl ua un uw f6 fh) /\ advances (union_decl ua un uw f6 fh) /\ advances (rpc_decl ua un uw f6 fh)
  /\ advances file_extension_decl /\ advances file_identifier_decl /\ advances (p_element ua un uw f6 fh).
Proof.
  repeat match goal with |- _ /\ _ => split end;
  first [apply spl_schema|apply spl_blank0|apply spl_doc|apply spl_metadata|apply spl_product_body|apply adv_blank1
        |apply adv_ident|apply adv_qualified|apply adv_string|apply adv_integer|apply adv_float|apply adv_boolean
        |apply adv_scalar|apply adv_single|apply adv_default_value|apply adv_value|apply adv_object|apply adv_type
        |apply adv_field|apply adv_enumval|apply adv_enum_body|apply adv_rpc_method|apply adv_include|apply adv_namespace
        |apply adv_attribute|apply adv_root|apply adv_table|apply adv_struct|apply adv_enum|apply adv_union|apply adv_rpc
        |apply adv_file_extension|apply adv_file_identifier|apply adv_element].
Qed.

Section Blanks.
Context (ua un uw : text -> bool) (f6 fh : text -> option Z) (has_stem : text -> bool).
Context (hexf_range : forall t v, fh t = Some v -> 0 <= v < 2 ^ 64).
Lemma blanks_do_not_matter t1 t2 S :
  schema_text ua un f6 fh has_stem t1 S -> schema_text ua un f6 fh has_stem t2 S -> plain_schema S ->
  quiet t1 -> quiet t2 ->
  schema_decl ua un uw f6 fh has_stem t1 = Some (S, []) /\ schema_decl ua un uw f6 fh has_stem t2 = Some (S, []).
Proof. split; now apply schema_ok. Qed.
Context (alphabetic_wide : forall c, ua c = true -> wide c) (alphanumeric_wide : forall c, un c = true -> wide c).
Lemma blanks_exact t1 t2 S :
  schema_decl ua un uw f6 fh has_stem t1 = Some (S, []) -> schema_text ua un f6 fh has_stem t2 S ->
  schema_decl ua un uw f6 fh has_stem t2 = Some (S, []) <-> clear_text ua un uw f6 fh has_stem t2 S.
Proof.
  intros E _. apply schema_exact in E as [_ P]; auto. rewrite schema_exact; auto. tauto.
Qed.
Lemma element_text_nonempty r t e : element_text ua un f6 fh anything any_name r t e -> t <> [].
Proof.
  intros H E. destruct H as [r t q c H|r t p H|r t p H|r t en H|r t u H|r t x c H|r t x c H|r t x c H|r t x c H|r t rp H|r t kv c H]; destruct H; subst;
  repeat match goal with H : _ ++ _ = [] |- _ => apply app_eq_nil in H as [? H] end; discriminate.
Qed.
Lemma around_declarations b1 b2 b3 t1 t2 e1 e2 :
  blank b1 -> blank b2 -> blank b3 -> declaration_text ua un f6 fh t1 e1 -> declaration_text ua un f6 fh t2 e2 ->
  plain_schema (Schema [] [e1; e2]) -> quiet (b1 ++ t1 ++ b2 ++ t2 ++ b3) ->
  schema_decl ua un uw f6 fh has_stem (b1 ++ t1 ++ b2 ++ t2 ++ b3) = Some (Schema [] [e1; e2], []).
Proof.
  intros B1 B2 B3 T1 T2 P Q. apply schema_ok; auto.
  replace (b1 ++ t1 ++ b2 ++ t2 ++ b3) with (b1 ++ [] ++ (t1 ++ b2 ++ t2 ++ b3 ++ []) ++ []) by (now rewrite !app_nil_r).
  apply (file_some ua un f6 fh has_stem anything any_name b1 [] [] (t1 ++ b2 ++ t2 ++ b3 ++ []) [e1; e2] []); auto; try (now left).
  - apply (series_cons _ _ t1 e1 b2 (t2 ++ b3 ++ []) [e2]); auto using element_anywhere. apply (series_cons _ _ t2 e2 b3 [] []); auto using element_anywhere. constructor.
  - intros E. apply app_eq_nil in E as [_ E]. apply app_eq_nil in E as [E _]. now apply (element_text_nonempty [] t1 e1).
Qed.
Lemma integer_scalar t v r : integer_text t v -> breaks r -> quiet (t ++ r) -> scalar uw f6 fh (t ++ r) = Some (CInt v, r).
Proof. intros I B Q. apply scalar_ok; auto; [now constructor|now apply quiet_no_special]. Qed.
End Blanks.

Lemma blank_read b s : blank b ->
  (forall c x, s = c :: x -> ~ space c) -> (forall x, s <> lit "//" ++ x) ->
  comment_or_space0 (b ++ s) = Some (tt, s).
Proof.
  intros B S C. apply blank_ok; auto. destruct s as [|c s]; [apply stops_nil|].
  assert (N : is_space c = false).
  { specialize (S c s eq_refl). unfold space in S. rewrite In_existsb in S. destruct (is_space c) eqn:E; auto.
    exfalso. apply S. destruct c; try discriminate; reflexivity. }
  unfold stops, comment_or_space. cbn [alt]. unfold value_of at 1. rewrite multispace_none by auto.
  unfold p_comment, value_of, pair_. destruct (tag (lit "//") (c :: s)) as [[x r]|] eqn:E; auto.
  apply tag_spec in E as [E _]. now apply C in E.
Qed.

Lemma decimal sign f ds r : sign_text sign f -> Forall digit ds -> ds <> [] ->
  (forall c x, r = c :: x -> ~ digit c) ->
  (i128 (f (number 10 ds)) -> dec_integer_constant (sign ++ ds ++ r) = Some (f (number 10 ds), r))
  /\ (~ i128 (f (number 10 ds)) -> dec_integer_constant (sign ++ ds ++ r) = None).
Proof.
  intros S F N R. rewrite (dec_integer_run sign f); auto.
  - rewrite <- in_i128_iff. destruct (in_i128 _); split; intros H; try reflexivity; first [discriminate H|exfalso; apply H; reflexivity].
  - destruct r as [|c r]; [exact I|]. cbn. specialize (R c r eq_refl). rewrite digit_iff in R. now destruct (is_digit c).
Qed.
Lemma hexadecimal sign f x ds r : sign_text sign f -> In x (lit "xX") -> Forall hex_digit ds -> ds <> [] ->
  (forall c x, r = c :: x -> ~ hex_digit c) ->
  (i128 (number 16 ds) ->
   hex_integer_constant (sign ++ lit "0" ++ [x] ++ ds ++ r) = Some (f (number 16 ds), r))
  /\ (~ i128 (number 16 ds) -> hex_integer_constant (sign ++ lit "0" ++ [x] ++ ds ++ r) = None).
Proof.
  intros S X F N R. rewrite (hex_integer_run sign f); auto.
  - rewrite <- in_i128_iff. destruct (in_i128 _); split; intros H; try reflexivity; first [discriminate H|exfalso; apply H; reflexivity].
  - destruct r as [|c r]; [exact I|]. cbn. specialize (R c r eq_refl). unfold hex_digit in R. rewrite In_existsb in R.
    destruct (is_hex_digit c) eqn:E; auto. exfalso. apply R. destruct c; try discriminate; reflexivity.
Qed.

(** * Checks for the examples *)
Lemma ascii_name ua un (c : byte) (x : text) :
  is_letter c || Byte.eqb c "_" = true -> forallb (fun b => is_letter b || is_digit b || Byte.eqb b "_") x = true ->
  name_text ua un (c :: x).
Proof.
  intros H F. exists [c], (map (fun b => [b]) x). split; [|split].
  - cbn. f_equal. clear. induction x; cbn; congruence.
  - left. exists c. split; auto. apply orb_true_iff in H as [H|H]; [left; now apply letter_iff|right].
    now apply Byte.byte_dec_bl in H.
  - apply Forall_forall. intros d D. apply in_map_iff in D as (b & <- & D). apply forallb_forall with (x := b) in F; auto.
    left. exists b. split; auto. apply orb_true_iff in F as [F|F]; [apply orb_true_iff in F as [F|F]|].
    + left. now apply letter_iff.
    + right. left. now apply digit_iff.
    + right. right. now apply Byte.byte_dec_bl in F.
Qed.
Lemma plain_string t : forallb (fun c => negb (Byte.eqb c "\" || Byte.eqb c """")) t = true -> string_body t.
Proof.
  induction t as [|c t IH]; [constructor|]. cbn [forallb]. intros H. apply andb_true_iff in H as [H K].
  apply string_char; auto; intros ->; discriminate.
Qed.
Lemma plain_line t : forallb (fun c => negb (Byte.eqb c "010" || Byte.eqb c "013")) t = true -> one_line t.
Proof.
  intros H. apply Forall_forall. intros c C. apply forallb_forall with (x := c) in H; auto.
  split; intros ->; discriminate.
Qed.
Lemma no_builtin x : existsb (fun '(w, _) => match tag w x with Some _ => true | None => false end) builtin_names = false ->
  ~ builtin_like x.
Proof.
  intros H (w & y & -> & W). assert (I : exists ty, In (w, ty) builtin_names).
  { destruct W as [->|(p & ->)]; [exists AString|exists (APrim p); destruct p]; cbn; tauto. }
  destruct I as (ty & I). rewrite <- not_true_iff_false in H. apply H. apply existsb_exists. exists (w, ty). split; auto.
  now rewrite tag_app.
Qed.
Lemma ascii_text (x : text) : forallb is_ascii x = true ->
  forall a b c y, x = a ++ b :: c :: y -> (128 <= Byte.to_N b)%N -> ~ continuation c.
Proof.
  intros H a b c y -> B _. apply forallb_forall with (x := b) in H; [|apply in_app_iff; right; now left].
  unfold is_ascii, code in H. lia.
Qed.

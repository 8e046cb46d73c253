(** Every rule of the grammar consumes a prefix; the recursive rules satisfy the
    equations of the source, so their fuel is never felt (C47). *)
From Coq Require Import Strings.String ZArith List Bool Lia Strings.Byte ZifyBool ZifyNat ZifyN.
From Verif Require Import Base Schema Parser SpecParser ParserProofs.
Import ListNotations.
Local Open Scope Z_scope.
Set Default Proof Using "Type".

(** Two parsers that agree on the inputs shorter than [k]. *)
Definition agree {A} (k : nat) (p q : parser A) : Prop :=
  forall s, (List.length s < k)%nat -> p s = q s.
Section Agree.
Context {A B C : Type}.
Lemma agree_refl k (p : parser A) : agree k p p.
Proof. intros s _. reflexivity. Qed.
Lemma agree_pmap k (p q : parser A) (f : A -> B) : agree k p q -> agree k (pmap p f) (pmap q f).
Proof. intros H s L. unfold pmap. now rewrite H. Qed.
Lemma agree_pair k (p p' : parser A) (q q' : parser B) :
  splits p -> agree k p p' -> agree k q q' -> agree k (pair_ p q) (pair_ p' q').
Proof.
  intros S H K s L. unfold pair_. rewrite <- (H s L). destruct (p s) as [[a r]|] eqn:E; auto.
  rewrite (K r); auto. apply (splits_length _ _ _ _ S) in E. lia.
Qed.
Lemma agree_preceded k (p : parser A) (q q' : parser B) :
  splits p -> agree k q q' -> agree k (preceded p q) (preceded p q').
Proof.
  intros S K s L. unfold preceded. destruct (p s) as [[a r]|] eqn:E; auto.
  rewrite (K r); auto. apply (splits_length _ _ _ _ S) in E. lia.
Qed.
Lemma agree_behind k (p : parser A) (q q' : parser B) :
  advances p -> agree k q q' -> agree (S k) (preceded p q) (preceded p q').
Proof.
  intros S K s L. unfold preceded. destruct (p s) as [[a r]|] eqn:E; auto.
  rewrite (K r); auto. apply (advances_length _ _ _ _ S) in E. lia.
Qed.
Lemma agree_terminated k (p p' : parser A) (q : parser B) :
  agree k p p' -> agree k (terminated p q) (terminated p' q).
Proof. intros H s L. unfold terminated. now rewrite <- (H s L). Qed.
Lemma agree_sep_n k (sep : parser B) (p p' : parser A) :
  splits sep -> splits p -> agree k p p' -> forall n, agree k (sep_n n sep p) (sep_n n sep p').
Proof.
  intros S P H. induction n as [|n IH]; intros s L; cbn; auto.
  destruct (sep s) as [[x r]|] eqn:E; auto. destruct (bytes_eqb r s); auto.
  apply (splits_length _ _ _ _ S) in E. rewrite <- (H r) by lia.
  destruct (p r) as [[a q]|] eqn:F; auto. destruct (bytes_eqb q s); auto.
  apply (splits_length _ _ _ _ P) in F. rewrite IH by lia. reflexivity.
Qed.
Lemma agree_separated_list k (sep : parser B) (p p' : parser A) :
  splits sep -> splits p -> agree k p p' -> agree k (separated_list sep p) (separated_list sep p').
Proof.
  intros S P H s L. unfold separated_list. rewrite <- (H s L).
  destruct (p s) as [[a r]|] eqn:E; auto. destruct (bytes_eqb r s); auto.
  rewrite (agree_sep_n k sep p p' S P H); auto. apply (splits_length _ _ _ _ P) in E. lia.
Qed.
Lemma agree_alt k : forall (ps qs : list (parser A)),
  Forall2 (agree k) ps qs -> agree k (alt ps) (alt qs).
Proof.
  induction 1 as [|p q ps qs H F IH]; intros s L; cbn; auto.
  rewrite (H s L), (IH s L). reflexivity.
Qed.
Lemma agree_mono k j (p q : parser A) : (j <= k)%nat -> agree k p q -> agree j p q.
Proof. intros L H s M. apply H. lia. Qed.
End Agree.

Ltac in_cases := cbn [In]; intros ? ?HIn; repeat destruct HIn as [HIn|HIn]; try subst; try contradiction.

Section Rules.
Context (uni_alphabetic uni_alphanumeric uni_word : text -> bool).
Context (parse_f64 parse_hexf64 : text -> option Z).
Context (has_stem : text -> bool).

Notation p_ident := (p_ident uni_alphabetic uni_alphanumeric).
Notation include_decl := (include_decl has_stem).
Notation qualified_ident := (qualified_ident uni_alphabetic uni_alphanumeric).
Notation namespace_decl := (namespace_decl uni_alphabetic uni_alphanumeric).
Notation attribute_decl := (attribute_decl uni_alphabetic uni_alphanumeric).
Notation root_decl := (root_decl uni_alphabetic uni_alphanumeric).
Notation scalar := (scalar uni_word parse_f64 parse_hexf64).
Notation p_single := (p_single uni_word parse_f64 parse_hexf64).
Notation p_default_value := (p_default_value uni_alphabetic uni_alphanumeric uni_word parse_f64 parse_hexf64).
Notation metadata_item := (metadata_item uni_alphabetic uni_alphanumeric uni_word parse_f64 parse_hexf64).
Notation raw_metadata := (raw_metadata uni_alphabetic uni_alphanumeric uni_word parse_f64 parse_hexf64).
Notation p_metadata := (p_metadata uni_alphabetic uni_alphanumeric uni_word parse_f64 parse_hexf64).
Notation object_with := (object_with uni_alphabetic uni_alphanumeric).
Notation value_n := (value_n uni_alphabetic uni_alphanumeric uni_word parse_f64 parse_hexf64).
Notation value_ := (value_ uni_alphabetic uni_alphanumeric uni_word parse_f64 parse_hexf64).
Notation object := (object uni_alphabetic uni_alphanumeric uni_word parse_f64 parse_hexf64).
Notation type_n := (type_n uni_alphabetic uni_alphanumeric).
Notation type_ := (type_ uni_alphabetic uni_alphanumeric).
Notation enumval_decl := (enumval_decl uni_alphabetic uni_alphanumeric).
Notation enum_body := (enum_body uni_alphabetic uni_alphanumeric).
Notation enum_decl := (enum_decl uni_alphabetic uni_alphanumeric uni_word parse_f64 parse_hexf64).
Notation union_decl := (union_decl uni_alphabetic uni_alphanumeric uni_word parse_f64 parse_hexf64).
Notation field_decl := (field_decl uni_alphabetic uni_alphanumeric uni_word parse_f64 parse_hexf64).
Notation product_type_body := (product_type_body uni_alphabetic uni_alphanumeric uni_word parse_f64 parse_hexf64).
Notation struct_decl := (struct_decl uni_alphabetic uni_alphanumeric uni_word parse_f64 parse_hexf64).
Notation table_decl := (table_decl uni_alphabetic uni_alphanumeric uni_word parse_f64 parse_hexf64).
Notation rpc_method := (rpc_method uni_alphabetic uni_alphanumeric uni_word parse_f64 parse_hexf64).
Notation rpc_decl := (rpc_decl uni_alphabetic uni_alphanumeric uni_word parse_f64 parse_hexf64).
Notation p_element := (p_element uni_alphabetic uni_alphanumeric uni_word parse_f64 parse_hexf64).
Notation schema_decl := (schema_decl uni_alphabetic uni_alphanumeric uni_word parse_f64 parse_hexf64 has_stem).

Lemma adv_ident : advances p_ident.
Proof. apply advances_recognize, advances_preceded_l; [apply advances_one_char|apply splits_take_chars]. Qed.
Lemma adv_string : advances string_constant.
Proof.
  apply advances_pmap, advances_delimited_l; [apply advances_char| |apply advances_splits, advances_char].
  apply splits_opt, splits_escaped.
Qed.
Lemma adv_comment : advances p_comment.
Proof.
  apply advances_value_of, advances_pair_l; [apply advances_tag|].
  apply splits_pair; [apply splits_pnot|apply splits_not_line_ending].
Qed.
Lemma adv_comment_or_space : advances comment_or_space.
Proof.
  apply advances_alt. in_cases; [apply adv_comment|]. apply advances_value_of, advances_span1.
Qed.
Lemma spl_blank0 : splits comment_or_space0.
Proof. apply splits_value_of, splits_many0, advances_splits, adv_comment_or_space. Qed.
Lemma adv_blank1 : advances comment_or_space1.
Proof. apply advances_value_of, advances_many1, adv_comment_or_space. Qed.
Lemma spl_blank1 : splits comment_or_space1.
Proof. apply advances_splits, adv_blank1. Qed.
Lemma adv_doc_line : advances (terminated (terminated raw_doc_comment line_ending) comment_or_space0).
Proof.
  apply advances_terminated_l; [|apply spl_blank0].
  apply advances_terminated_l; [|apply advances_splits, advances_line_ending].
  apply advances_preceded_l; [apply advances_tag|apply splits_not_line_ending].
Qed.
Lemma spl_doc : splits doc_comment.
Proof. apply splits_many0, advances_splits, adv_doc_line. Qed.

Hint Resolve adv_ident adv_string spl_blank0 adv_blank1 spl_blank1 spl_doc advances_char advances_one_of
  advances_tag splits_take splits_escaped advances_span1 splits_span0 : parse.
Hint Extern 1 (splits (char _)) => apply advances_splits, advances_char : parse.
Hint Extern 1 (splits (tag _)) => apply splits_tag : parse.
Hint Extern 1 (splits (one_of _)) => apply advances_splits, advances_one_of : parse.
Hint Extern 1 (splits (span1 _)) => apply advances_splits, advances_span1 : parse.
Hint Extern 1 (splits p_ident) => apply advances_splits, adv_ident : parse.
Hint Extern 1 (splits string_constant) => apply advances_splits, adv_string : parse.
Hint Resolve splits_pmap splits_map_res splits_value_of splits_opt splits_pnot splits_recognize splits_pair
  splits_preceded splits_terminated splits_delimited splits_separated_pair splits_many0 splits_many1
  splits_separated_list : parse.

Ltac unf := unfold list_comma, key_colon in *; unfold plus_or_minus, double_quote, backslash, left_paren, right_paren, left_brace, right_brace,
  colon, comma, semicolon, equals, period, zero, left_square_bracket, right_square_bracket,
  digit0, digit1, hex_digit0, hex_digit1, multispace1 in *.
Ltac spl := unf; eauto 20 with parse.

Lemma adv_after_doc {A B} (p : parser A) (f : comment * A -> B) : advances p -> advances (pmap (pair_ doc_comment p) f).
Proof. intros H. apply advances_pmap, advances_pair_r; auto. apply spl_doc. Qed.

Lemma adv_include : advances include_decl.
Proof.
  apply advances_map_res, advances_pair_r; [apply spl_doc|].
  apply advances_delimited_l; [apply advances_tag| |]; spl.
Qed.
Lemma adv_qualified : advances qualified_ident.
Proof. apply advances_separated_nonempty_list; spl. Qed.
Hint Resolve adv_qualified : parse.
Hint Extern 1 (splits qualified_ident) => apply advances_splits, adv_qualified : parse.
Lemma adv_namespace : advances namespace_decl.
Proof. apply adv_after_doc, advances_delimited_l; [apply advances_tag| |]; spl. Qed.
Lemma adv_attribute : advances attribute_decl.
Proof.
  apply adv_after_doc, advances_delimited_l; [apply advances_tag| |]; [|spl].
  apply splits_delimited; try spl. apply splits_alt. in_cases; spl.
Qed.
Lemma adv_root : advances root_decl.
Proof. apply adv_after_doc, advances_delimited_l; [apply advances_tag| |]; spl. Qed.

Lemma adv_dec_integer : advances dec_integer_constant.
Proof. apply advances_map_res, advances_recognize, advances_preceded_r; spl. Qed.
Lemma adv_hex_integer : advances hex_integer_constant.
Proof.
  apply advances_map_res, advances_pair_r; [spl|]. apply advances_preceded_l; spl.
Qed.
Lemma adv_integer : advances integer_constant.
Proof. apply advances_alt. in_cases; [apply adv_hex_integer|apply adv_dec_integer]. Qed.
Lemma adv_word_constant c w : advances (word_constant uni_word (c :: w)).
Proof.
  intros s a r. unfold word_constant. destruct (re_match _ s); [|discriminate]. apply advances_tag.
Qed.
Lemma adv_boolean : advances (boolean_constant uni_word).
Proof. apply advances_alt. in_cases; apply advances_value_of, adv_word_constant. Qed.
Lemma spl_re_match m : splits (re_match m).
Proof. intros s a r. unfold re_match. destruct (m s); [|discriminate]. injection 1 as <- <-. exists s. now rewrite app_nil_r. Qed.
Lemma spl_dec_float_exponent : splits dec_float_exponent.
Proof. unfold dec_float_exponent. spl. Qed.
Lemma spl_hex_float_exponent : splits hex_float_exponent.
Proof. unfold hex_float_exponent. spl. Qed.
Hint Resolve spl_dec_float_exponent spl_hex_float_exponent spl_re_match : parse.
Lemma adv_dec_float : advances (dec_float_constant parse_f64).
Proof.
  apply advances_map_res, advances_recognize, advances_preceded_r; [spl|].
  apply advances_alt. in_cases.
  - apply advances_terminated_l; [|spl]. apply advances_alt. in_cases.
    + apply advances_terminated_l; spl.
    + apply advances_preceded_l; spl.
  - apply advances_terminated_l; spl.
Qed.
Lemma adv_hex_float : advances (hex_float_constant parse_hexf64).
Proof.
  apply advances_pmap, advances_pair_l.
  - apply advances_terminated_r; [spl|]. apply advances_terminated_l; spl.
  - apply splits_map_res, splits_recognize, splits_alt. in_cases.
    + apply splits_terminated; [|spl]. apply splits_alt. in_cases; spl.
    + spl.
Qed.
Lemma has_word_nil n prev c w : has_word_n uni_word n prev (c :: w) [] = false.
Proof. destruct n; cbn; auto. now rewrite andb_false_r. Qed.
Lemma adv_re_match m : m [] = false -> advances (re_match m).
Proof.
  intros N s a r. unfold re_match. destruct (m s) eqn:E; [|discriminate]. injection 1 as <- <-.
  exists s. split; [intros ->; congruence|now rewrite app_nil_r].
Qed.
Lemma adv_special : advances (special_float_constant uni_word).
Proof.
  apply advances_alt. in_cases; apply advances_pmap, advances_terminated_r; try solve [spl];
    apply adv_re_match; reflexivity.
Qed.
Lemma adv_float : advances (float_constant uni_word parse_f64 parse_hexf64).
Proof. apply advances_alt. in_cases; [apply adv_special|apply adv_hex_float|apply adv_dec_float]. Qed.
Lemma adv_scalar : advances scalar.
Proof. apply advances_alt. in_cases; apply advances_pmap; [apply adv_float|apply adv_integer|apply adv_boolean]. Qed.
Lemma adv_single : advances p_single.
Proof. apply advances_alt. in_cases; apply advances_pmap; [apply adv_scalar|apply adv_string]. Qed.
Lemma adv_default_value : advances p_default_value.
Proof. apply advances_alt. in_cases; apply advances_pmap; [apply adv_scalar|apply adv_ident]. Qed.
Hint Extern 1 (splits p_single) => apply advances_splits, adv_single : parse.
Hint Extern 1 (splits p_default_value) => apply advances_splits, adv_default_value : parse.
Hint Extern 1 (splits integer_constant) => apply advances_splits, adv_integer : parse.

Lemma spl_list_comma : splits list_comma.
Proof. spl. Qed.
Lemma spl_key_colon : splits key_colon.
Proof. spl. Qed.
Lemma spl_metadata_item : splits metadata_item.
Proof. unfold Parser.metadata_item. spl. Qed.
Lemma spl_raw_metadata : splits raw_metadata.
Proof.
  unfold Parser.raw_metadata. apply splits_delimited; [spl| |spl].
  apply splits_separated_list; [apply spl_list_comma|apply spl_metadata_item].
Qed.
Lemma spl_metadata : splits p_metadata.
Proof. apply splits_opt, spl_raw_metadata. Qed.
Hint Resolve spl_metadata : parse.

Lemma adv_object_with v : splits v -> advances (object_with v).
Proof.
  intros H. apply adv_after_doc, advances_delimited_l.
  - apply advances_terminated_l; spl.
  - apply splits_separated_list; [spl|]. apply splits_separated_pair; spl.
  - spl.
Qed.
Lemma adv_value_list_with v : splits v -> advances (value_list_with v).
Proof.
  intros H. apply advances_delimited_l.
  - apply advances_terminated_l; spl.
  - apply splits_separated_list; [spl|auto].
  - spl.
Qed.
Lemma adv_value_n : forall n, advances (value_n n).
Proof.
  induction n as [|n IH]; [intros s a r; discriminate|].
  apply (advances_ext _ _ (fun s => eq_refl)). apply advances_alt. in_cases; apply advances_pmap.
  - apply adv_single.
  - apply adv_object_with, advances_splits, IH.
  - apply adv_value_list_with, advances_splits, IH.
Qed.
Lemma adv_value : advances value_.
Proof. intros s a r. apply adv_value_n. Qed.
Lemma adv_object : advances object.
Proof. apply adv_object_with, advances_splits, adv_value. Qed.
Lemma adv_type_n : forall n, advances (type_n n).
Proof.
  induction n as [|n IH]; [intros s a r; discriminate|].
  apply (advances_ext _ _ (fun s => eq_refl)). apply advances_alt. in_cases.
  - apply advances_alt. intros p P. apply in_map_iff in P as ([w t] & <- & I).
    apply advances_value_of. cbn in I. repeat destruct I as [E|I]; try contradiction; injection E as <- <-; apply advances_tag.
  - apply advances_pmap, advances_delimited_l; try solve [spl]. apply advances_splits, IH.
  - apply advances_pmap, adv_qualified.
Qed.
Lemma adv_type : advances type_.
Proof. intros s a r. apply adv_type_n. Qed.
Hint Extern 1 (splits type_) => apply advances_splits, adv_type : parse.

Lemma adv_enumval : advances enumval_decl.
Proof. apply adv_after_doc, advances_pair_l; spl. Qed.
Lemma adv_enum_body : advances enum_body.
Proof.
  apply advances_delimited_l.
  - apply advances_delimited_m; spl.
  - apply splits_terminated; [|spl]. apply advances_splits, advances_separated_nonempty_list; [spl|apply adv_enumval].
  - spl.
Qed.
Hint Extern 1 (splits enum_body) => apply advances_splits, adv_enum_body : parse.
Lemma adv_enum : advances enum_decl.
Proof.
  apply adv_after_doc, advances_pair_l; [apply advances_preceded_l; [apply advances_tag|spl]|].
  apply splits_pair; [spl|]. apply splits_pair; spl.
Qed.
Lemma adv_union : advances union_decl.
Proof.
  apply adv_after_doc, advances_pair_l; [apply advances_preceded_l; [apply advances_tag|spl]|].
  apply splits_pair; spl.
Qed.
Lemma adv_field : advances field_decl.
Proof.
  apply advances_pmap, advances_terminated_l; [|spl]. apply advances_pair_r; [spl|].
  apply advances_pair_l; [apply advances_terminated_l; spl|].
  apply splits_pair; [spl|]. apply splits_pair; spl.
Qed.
Lemma adv_around {A} (p : parser A) : advances p -> advances (delimited comment_or_space0 p comment_or_space0).
Proof. intros H. apply advances_delimited_m; auto; apply spl_blank0. Qed.
Lemma spl_product_body : splits product_type_body.
Proof.
  unfold Parser.product_type_body. apply splits_pair; [spl|]. apply splits_pair; [spl|].
  apply splits_delimited; [spl| |spl]. apply splits_many0, advances_splits, adv_around, adv_field.
Qed.
Lemma adv_struct : advances struct_decl.
Proof. apply adv_after_doc, advances_preceded_l; [apply advances_tag|apply spl_product_body]. Qed.
Lemma adv_table : advances table_decl.
Proof. apply adv_after_doc, advances_preceded_l; [apply advances_tag|apply spl_product_body]. Qed.
Lemma adv_rpc_method : advances rpc_method.
Proof.
  apply adv_after_doc, advances_pair_l; [apply advances_terminated_l; spl|].
  apply splits_pair; [spl|]. apply splits_preceded; [spl|]. apply splits_terminated; [|spl]. spl.
Qed.
Lemma adv_rpc : advances rpc_decl.
Proof.
  apply adv_after_doc, advances_pair_l.
  - apply advances_preceded_l; [apply advances_terminated_l; [apply advances_tag|spl]|spl].
  - apply splits_delimited; [spl| |spl]. apply splits_many1, advances_splits, adv_around, adv_rpc_method.
Qed.
Lemma adv_file_extension : advances file_extension_decl.
Proof. apply adv_after_doc, advances_delimited_l; [apply advances_tag| |]; spl. Qed.
Lemma adv_file_identifier : advances file_identifier_decl.
Proof.
  apply advances_map_res, advances_pair_r; [spl|]. apply advances_delimited_l; [apply advances_tag| |spl].
  apply splits_delimited; [spl| |spl]. spl.
Qed.
Lemma adv_element : advances p_element.
Proof.
  apply advances_alt. in_cases; apply advances_pmap.
  - apply adv_namespace. - apply adv_table. - apply adv_struct. - apply adv_enum. - apply adv_union.
  - apply adv_root. - apply adv_file_extension. - apply adv_file_identifier. - apply adv_attribute.
  - apply adv_rpc. - apply adv_object.
Qed.
Lemma spl_schema : splits schema_decl.
Proof.
  apply splits_pmap, splits_pair; apply splits_many0, advances_splits, adv_around; [apply adv_include|apply adv_element].
Qed.

(** The whole parser never fails: at worst it consumes nothing. *)
Lemma schema_runs s :
  exists is_ es r1 r2,
    schema_decl s = Some (Schema is_ es, r2)
    /\ repeats (delimited comment_or_space0 include_decl comment_or_space0) s is_ r1
    /\ repeats (delimited comment_or_space0 p_element comment_or_space0) r1 es r2.
Proof.
  destruct (many0_repeats _ s (adv_around _ adv_include)) as (is_ & r1 & M1 & R1).
  destruct (many0_repeats _ r1 (adv_around _ adv_element)) as (es & r2 & M2 & R2).
  exists is_, es, r1, r2. split; auto.
  unfold Parser.schema_decl, pmap, pair_. now rewrite M1, M2.
Qed.

(** The recursive rules. *)
Lemma agree_object_with k v v' : splits v -> splits v' -> agree k v v' -> agree (S k) (object_with v) (object_with v').
Proof.
  intros S S' H. apply agree_pmap, agree_pair; [apply spl_doc|apply agree_refl|].
  apply agree_behind; [apply advances_terminated_l; spl|]. apply agree_terminated.
  apply agree_separated_list; [spl|apply splits_separated_pair; spl|].
  apply agree_pair; [spl|apply agree_refl|]. apply agree_preceded; [spl|auto].
Qed.
Lemma agree_value_list_with k v v' : splits v -> agree k v v' -> agree (S k) (value_list_with v) (value_list_with v').
Proof.
  intros S H. apply agree_behind; [apply advances_terminated_l; spl|]. apply agree_terminated.
  apply agree_separated_list; [spl|auto|auto].
Qed.
Lemma value_alts_agree k v v' : splits v -> splits v' -> agree k v v' ->
  agree (S k)
    (alt [pmap p_single JSingle; pmap (object_with v) (fun '(kv, c) => JObject kv c); pmap (value_list_with v) JList])
    (alt [pmap p_single JSingle; pmap (object_with v') (fun '(kv, c) => JObject kv c); pmap (value_list_with v') JList]).
Proof.
  intros S S' H. apply agree_alt. apply Forall2_cons; [|apply Forall2_cons; [|apply Forall2_cons; [|apply Forall2_nil]]].
  - apply agree_refl.
  - apply agree_pmap, agree_object_with; auto.
  - apply agree_pmap, agree_value_list_with; auto.
Qed.
Lemma value_n_stable : forall k n m, (k <= n)%nat -> (k <= m)%nat -> agree k (value_n n) (value_n m).
Proof.
  induction k as [|k IH]; intros n m N M; [intros s L; inversion L|].
  destruct n as [|n]; [inversion N|]. destruct m as [|m]; [inversion M|]. intros s L.
  apply (value_alts_agree k); auto; try (apply advances_splits, adv_value_n). apply IH; apply le_S_n; auto.
Qed.
Lemma value_equation s :
  value_ s = alt [pmap p_single JSingle;
                  pmap (object_with value_) (fun '(kv, c) => JObject kv c);
                  pmap (value_list_with value_) JList] s.
Proof.
  unfold Parser.value_ at 1. cbn [Parser.value_n].
  apply (value_alts_agree (List.length s)); [| | |apply Nat.lt_succ_diag_r].
  - apply advances_splits, adv_value_n.
  - apply advances_splits, adv_value.
  - intros t L. unfold Parser.value_. apply (value_n_stable (S (List.length t))); auto.
Qed.
Lemma type_alts_agree k v v' : agree k v v' ->
  agree (S k)
    (alt [builtin_type; pmap (delimited left_square_bracket v right_square_bracket) AArray; pmap qualified_ident AIdent])
    (alt [builtin_type; pmap (delimited left_square_bracket v' right_square_bracket) AArray; pmap qualified_ident AIdent]).
Proof.
  intros H. apply agree_alt. apply Forall2_cons; [apply agree_refl|apply Forall2_cons; [|apply Forall2_cons; [apply agree_refl|apply Forall2_nil]]].
  apply agree_pmap, agree_behind; [spl|]. now apply agree_terminated.
Qed.
Lemma type_n_stable : forall k n m, (k <= n)%nat -> (k <= m)%nat -> agree k (type_n n) (type_n m).
Proof.
  induction k as [|k IH]; intros n m N M; [intros s L; inversion L|].
  destruct n as [|n]; [inversion N|]. destruct m as [|m]; [inversion M|]. intros s L.
  apply (type_alts_agree k); auto. apply IH; apply le_S_n; auto.
Qed.
Lemma type_equation s :
  type_ s = alt [builtin_type;
                 pmap (delimited left_square_bracket type_ right_square_bracket) AArray;
                 pmap qualified_ident AIdent] s.
Proof.
  unfold Parser.type_ at 1. cbn [Parser.type_n].
  apply (type_alts_agree (List.length s)); [|apply Nat.lt_succ_diag_r].
  intros t L. unfold Parser.type_. apply (type_n_stable (S (List.length t))); auto.
Qed.
End Rules.

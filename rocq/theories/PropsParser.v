(** Properties C47-C51: the schema parser.  Statements only; each theorem is closed
    by a lemma of the proof files.  Vocabulary: Parser.v (the rules of parser.rs; a
    parser gives [None] or a value and the rest of the input), SpecParser.v
    ([advances], [splits], [repeats], [listed], [quiet]: the text has none of the
    words nan, inf, infinity), SpecGrammar.v (the language: [schema_text t S] when
    [t] is a text of the schema [S]; [plain_schema]: no type name starts with the
    name of a built-in type, no default name with true or false), SpecPrint.v (a
    printer).  The Unicode classes of non-ASCII characters, the decimal and
    hexadecimal float readers and [Path::file_stem] are parameters. *)
From Coq Require Import Strings.String ZArith List Bool Lia Strings.Byte.
From Verif Require Import Base Schema Parser SpecParser SpecGrammar SpecPrint ParserProofs ParserProofs2 GrammarProofs
  GrammarProofs3 GrammarProofs4 GrammarProofs6 GrammarProofs8 GrammarProofs9 SoundProofs SoundProofs2 ExactProofs PrintProofs CompileProofs ParserProofs3.
Import ListNotations.
Local Open Scope Z_scope.

(** ** C47 *)
(** Every rule fails or splits its input, and but for blanks, documentation and
    metadata, which may be absent, it consumes something. *)
Theorem C47_rules_split ua un uw f6 fh has_stem :
  splits (schema_decl ua un uw f6 fh has_stem) /\ splits comment_or_space0 /\ splits doc_comment
  /\ splits (p_metadata ua un uw f6 fh) /\ splits (product_type_body ua un uw f6 fh)
  /\ advances comment_or_space1 /\ advances (p_ident ua un) /\ advances (qualified_ident ua un)
  /\ advances string_constant /\ advances integer_constant /\ advances (float_constant uw f6 fh)
  /\ advances (boolean_constant uw) /\ advances (scalar uw f6 fh) /\ advances (p_single uw f6 fh)
  /\ advances (p_default_value ua un uw f6 fh) /\ advances (value_ ua un uw f6 fh) /\ advances (object ua un uw f6 fh)
  /\ advances (type_ ua un) /\ advances (field_decl ua un uw f6 fh) /\ advances (enumval_decl ua un)
  /\ advances (enum_body ua un) /\ advances (rpc_method ua un uw f6 fh)
  /\ advances (include_decl has_stem) /\ advances (namespace_decl ua un) /\ advances (attribute_decl ua un)
  /\ advances (root_decl ua un) /\ advances (table_decl ua un uw f6 fh) /\ advances (struct_decl ua un uw f6 fh)
  /\ advances (enum_decl ua un uw f6 fh) /\ advances (union_decl ua un uw f6 fh) /\ advances (rpc_decl ua un uw f6 fh)
  /\ advances file_extension_decl /\ advances file_identifier_decl /\ advances (p_element ua un uw f6 fh).
Proof. exact (rules_split ua un uw f6 fh has_stem). Qed.
Print Assumptions C47_rules_split.

(** The whole parser never fails: on any text it is two loops, each run until its
    rule fails. *)
Theorem C47_schema_runs ua un uw f6 fh has_stem s :
  exists is_ es r1 r2,
    schema_decl ua un uw f6 fh has_stem s = Some (Schema is_ es, r2)
    /\ repeats (delimited comment_or_space0 (include_decl has_stem) comment_or_space0) s is_ r1
    /\ repeats (delimited comment_or_space0 (p_element ua un uw f6 fh) comment_or_space0) r1 es r2.
Proof. exact (schema_runs ua un uw f6 fh has_stem s). Qed.
Print Assumptions C47_schema_runs.

(** The bound on the rounds of nom's loops, a device of the model, is never reached:
    for a rule that consumes something the loop gives what the unbounded loop
    gives, and the unbounded loop ends. *)
Theorem C47_many0_exact {A} (p : parser A) s : advances p ->
  (exists l r, repeats p s l r) /\ forall l r, many0 p s = Some (l, r) <-> repeats p s l r.
Proof. exact (many0_exact p s). Qed.
Print Assumptions C47_many0_exact.
Theorem C47_list_exact {A B} (sep : parser B) (p : parser A) s l r : advances sep -> advances p ->
  separated_list sep p s = Some (l, r) <->
  (l = [] /\ r = s /\ p s = None) \/ exists a q l', l = a :: l' /\ p s = Some (a, q) /\ listed sep p q l' r.
Proof. exact (list_exact sep p s l r). Qed.
Print Assumptions C47_list_exact.
Theorem C47_nonempty_list_exact {A B} (sep : parser B) (p : parser A) s l r : advances sep -> advances p ->
  separated_nonempty_list sep p s = Some (l, r) <->
  exists a q l', l = a :: l' /\ p s = Some (a, q) /\ listed sep p q l' r.
Proof. exact (nonempty_list_exact sep p s l r). Qed.
Print Assumptions C47_nonempty_list_exact.
(** Neither is the bound on the depth of the recursive rules: they satisfy the
    equations of the code. *)
Theorem C47_value_equation ua un uw f6 fh s :
  value_ ua un uw f6 fh s =
  alt [pmap (p_single uw f6 fh) JSingle;
       pmap (object_with ua un (value_ ua un uw f6 fh)) (fun '(kv, c) => JObject kv c);
       pmap (value_list_with (value_ ua un uw f6 fh)) JList] s.
Proof. exact (value_equation ua un uw f6 fh s). Qed.
Print Assumptions C47_value_equation.
Theorem C47_type_equation ua un s :
  type_ ua un s =
  alt [builtin_type;
       pmap (delimited left_square_bracket (type_ ua un) right_square_bracket) AArray;
       pmap (qualified_ident ua un) AIdent] s.
Proof. exact (type_equation ua un s). Qed.
Print Assumptions C47_type_equation.

Definition no (_ : text) : bool := false.
Definition yes (_ : text) : bool := true.
Definition none (_ : text) : option Z := None.
Example C47_case :
  let t := lit "include ""a.fbs""; table T { x:int; } tabel U {}" in
  schema_decl no no no none none yes t
  = Some (Schema [Include (lit "a.fbs") []]
                 [ETable (AProduct (lit "T") [AField (lit "x") (APrim Int) None None []] None [])],
          lit "tabel U {}").
Proof. reflexivity. Qed.

(** ** C48 *)
(** Every text of the language is read as the schema it is a text of ... *)
Theorem C48_reads_language ua un uw f6 fh has_stem
  (hexf_range : forall t v, fh t = Some v -> 0 <= v < 2 ^ 64) t S :
  schema_text ua un f6 fh has_stem t S -> plain_schema S -> quiet t ->
  schema_decl ua un uw f6 fh has_stem t = Some (S, []).
Proof. exact (schema_ok ua un uw f6 fh has_stem hexf_range t S). Qed.
Print Assumptions C48_reads_language.

(** ... and no other text is read to its end. *)
Theorem C48_reads_only_language ua un uw f6 fh has_stem
  (alphabetic_wide : forall c, ua c = true -> wide c) (alphanumeric_wide : forall c, un c = true -> wide c)
  (hexf_range : forall t v, fh t = Some v -> 0 <= v < 2 ^ 64) t S :
  schema_decl ua un uw f6 fh has_stem t = Some (S, []) -> schema_text ua un f6 fh has_stem t S.
Proof. exact (schema_sound ua un uw f6 fh has_stem hexf_range alphabetic_wide alphanumeric_wide t S). Qed.
Print Assumptions C48_reads_only_language.

(** Exactly the texts read: those texts of the language where no word [inf],
    [infinity] or [nan] stands in the rest of the file at a value, and no name given
    as default starts with a whole word [true] or [false] ([clear_text]); and the
    schemas read are those where no type starts with the name of a built-in one. *)
Theorem C48_exact ua un uw f6 fh has_stem
  (alphabetic_wide : forall c, ua c = true -> wide c) (alphanumeric_wide : forall c, un c = true -> wide c)
  (hexf_range : forall t v, fh t = Some v -> 0 <= v < 2 ^ 64) t S :
  schema_decl ua un uw f6 fh has_stem t = Some (S, [])
  <-> clear_text ua un uw f6 fh has_stem t S /\ plain_types S.
Proof. exact (schema_exact ua un uw f6 fh has_stem hexf_range alphabetic_wide alphanumeric_wide t S). Qed.
Print Assumptions C48_exact.
(** These are texts of the language. *)
Theorem C48_clear_in_language ua un uw f6 fh has_stem t S :
  clear_text ua un uw f6 fh has_stem t S -> schema_text ua un f6 fh has_stem t S.
Proof. exact (clear_schema ua un uw f6 fh has_stem t S). Qed.
Print Assumptions C48_clear_in_language.

(** A printed schema is a text of the language, and is read back. *)
Theorem C48_printed_in_language ua un f6 fh has_stem show_float S :
  writable ua un f6 fh has_stem show_float S ->
  schema_text ua un f6 fh has_stem (show_schema show_float S) S.
Proof. exact (show_schema_text ua un f6 fh has_stem show_float S). Qed.
Print Assumptions C48_printed_in_language.
Theorem C48_printed_parses ua un uw f6 fh has_stem
  (hexf_range : forall t v, fh t = Some v -> 0 <= v < 2 ^ 64) show_float S :
  writable ua un f6 fh has_stem show_float S -> plain_schema S -> quiet (show_schema show_float S) ->
  schema_decl ua un uw f6 fh has_stem (show_schema show_float S) = Some (S, []).
Proof. exact (printed_parses ua un uw f6 fh has_stem hexf_range show_float S). Qed.
Print Assumptions C48_printed_parses.

(** A text has one meaning. *)
Theorem C48_unambiguous ua un f6 fh has_stem
  (hexf_range : forall t v, fh t = Some v -> 0 <= v < 2 ^ 64) t S1 S2 :
  quiet t -> schema_text ua un f6 fh has_stem t S1 -> schema_text ua un f6 fh has_stem t S2 ->
  plain_schema S1 -> plain_schema S2 -> S1 = S2.
Proof. exact (unambiguous ua un no f6 fh has_stem hexf_range t S1 S2). Qed.
Print Assumptions C48_unambiguous.

(** As stated C48 is false: of the documented syntax, the parser does not read
    special floats, metadata of an enum after a blank, blanks in a vector type, nor
    a file of comments only.  Nothing of these texts is read. *)
Theorem C48_documented_syntax_refuted ua un uw f6 fh has_stem :
  Forall (fun t => schema_decl ua un uw f6 fh has_stem t = Some (Schema [] [], t))
    [lit "table T { x:float = inf; }"; lit "enum E : ubyte (bit_flags) { A }"; lit "table T { x:[ int ]; }";
     lit "// only a comment"].
Proof. repeat constructor. Qed.
Print Assumptions C48_documented_syntax_refuted.

(** A schema with an include, a namespace, documentation, an enum with values, a
    union, a table with vectors, defaults and metadata, a struct, a service, an
    object and the other declarations. *)
Definition sample : schema :=
  Schema [Include (lit "base.fbs") [lit " common parts"]]
    [ENamespace [lit "game"; lit "net"] [];
     EEnum (AEnum (lit "Color") [AVariant (lit "Red") (Some (-3)) []; AVariant (lit "Blue") None [lit "the sky"]]
              (APrim Byte) (Some [(lit "bit_flags", None)]) []);
     EUnion (AUnion (lit "Any") [AVariant (lit "Orc") None []] None []);
     ETable (AProduct (lit "Orc")
       [AField (lit "hp") (APrim Short) (Some (DScalar (CInt 100))) (Some [(lit "id", Some (SScalar (CInt 0)))]) [lit " health"];
        AField (lit "names") (AArray (AArray AString)) None (Some [(lit "required", None); (lit "key", Some (SString (lit "k")))]) [];
        AField (lit "color") (AIdent [lit "game"; lit "net"; lit "Color"]) (Some (DIdent (lit "Blue"))) None [];
        AField (lit "ok") (APrim Bool) (Some (DScalar (CBool true))) None []] None [lit "green"]);
     EStruct (AProduct (lit "P") [AField (lit "x") (APrim Float) None None []] None []);
     ERoot (lit "Orc"); EFileExtension (lit "orc") []; EFileIdentifier (lit "ORCS") []; EAttribute (lit "priority");
     ERpc (ARpc (lit "Camp") [AMethod (lit "find") [lit "Orc"] [lit "game"; lit "Orc"] None []] []);
     EObject [(lit "hp", JSingle (SScalar (CInt 7))); (lit "l", JList [JSingle (SString (lit "a\\b")); JObject [] []])] []].
Definition no_float (_ : Z) : text := [].
Ltac inside V :=
  lazymatch type of V with
  | False => destruct V
  | _ => destruct V as [V|V]; [first [injection V as <- <-|subst]|inside V]
  end.
Ltac ok :=
  repeat match goal with
         | |- _ /\ _ => split
         | |- True => exact I
         | |- name_text _ _ _ => apply ascii_name; reflexivity
         | |- string_body (lit "a\\b") =>
             apply string_char; [discriminate|discriminate|]; apply string_escape; [now left|apply plain_string; reflexivity]
         | |- string_body _ => apply plain_string; reflexivity
         | |- one_line _ => apply plain_line; reflexivity
         | |- ~ builtin_like _ => apply no_builtin; reflexivity
         | |- i128 _ => split; vm_compute; congruence
         | |- identifier_text _ _ => split; [reflexivity|split; [reflexivity|]]; apply ascii_text; reflexivity
         | |- path_ok _ _ _ => split; [discriminate|]
         | |- _ <> _ => discriminate
         | |- value_ok _ _ _ _ _ _ => constructor
         | |- forall x v, In (x, v) _ -> _ => intros x v V; cbn [In] in V; inside V
         | |- forall v, In v _ -> _ => intros v V; cbn [In] in V; inside V
         | |- Forall _ [] => constructor
         | |- Forall _ (_ :: _) => constructor
         | |- yes _ = true => reflexivity
         | |- ~ (_ \/ _) => intros [(y & Y)|(y & Y)]; discriminate Y
         | _ => progress cbn -[lit one_line i128 path_ok name_text identifier_text builtin_like]
         | |- ~ _ => fail 1
         | _ => red
         end.
Example C48_case : writable no no none none yes no_float sample /\ plain_schema sample
  /\ quiet (show_schema no_float sample)
  /\ schema_decl no no no none none yes (show_schema no_float sample) = Some (sample, []).
Proof.
  split; [|split; [|split]].
  - split; ok.
  - unfold plain_schema. ok.
  - apply quiet_check; reflexivity.
  - vm_compute. reflexivity.
Qed.

(** A special word before the first value, or one in a schema with no values, is in
    nobody's way. *)
Example C48_exact_case ua un uw f6 fh has_stem
  (alphabetic_wide : forall c, ua c = true -> wide c) (alphanumeric_wide : forall c, un c = true -> wide c)
  (hexf_range : forall t v, fh t = Some v -> 0 <= v < 2 ^ 64) :
  let t := lit "table nan { x:int; } // inf" ++ [line_feed] ++ lit "table T { x:int = 3; y:E = truer; }" in
  ~ quiet t /\ exists S, clear_text ua un uw f6 fh has_stem t S /\ plain_types S.
Proof.
  split.
  - intros (Q & _). apply Q.
    exists (lit "table "), (lit " { x:int; } // inf" ++ [line_feed] ++ lit "table T { x:int = 3; y:E = truer; }").
    split; [reflexivity|]. split.
    + intros x c E. apply (f_equal (fun l => List.last l "a"%byte)) in E. rewrite List.last_last in E. cbn in E. subst c.
      unfold word_byte. rewrite In_existsb. discriminate.
    + intros c x E. injection E as <- _. unfold word_byte. rewrite In_existsb. discriminate.
  - eexists. apply schema_exact; [assumption..|]. reflexivity.
Qed.

(** ** C49 *)
(** Of the identifiers other than the built-in names, exactly those that do not
    start with a built-in name are read as the type they name. *)
Theorem C49_type_name_iff ua un x cs r : name_text ua un x -> ~ builtin x -> next cs r ->
  type_ ua un (x ++ r) = Some (AIdent [x], r) <-> ~ builtin_like x.
Proof. exact (type_name_iff ua un no none none x cs r). Qed.
Print Assumptions C49_type_name_iff.

(** A field of any other user type is not read at all. *)
Theorem C49_field_rejected ua un uw f6 fh d c f b1 b2 x r :
  docs d c -> name_text ua un f -> blank b1 -> blank b2 -> name_text ua un x -> builtin_like x -> ~ builtin x ->
  breaks r ->
  field_decl ua un uw f6 fh (d ++ f ++ b1 ++ lit ":" ++ b2 ++ x ++ r) = None.
Proof. exact (field_rejected ua un uw f6 fh d c f b1 b2 x r). Qed.
Print Assumptions C49_field_rejected.

(** So C49 as stated is false. *)
Theorem C49_user_type_refuted ua un uw f6 fh has_stem :
  field_decl ua un uw f6 fh (lit "x:interval;") = None
  /\ schema_decl ua un uw f6 fh has_stem (lit "table T { x:interval; }")
     = Some (Schema [] [], lit "table T { x:interval; }").
Proof. now split. Qed.
Print Assumptions C49_user_type_refuted.

Example C49_case ua un uw f6 fh :
  ~ builtin_like (lit "Interval") /\ next (lit ";") (lit " ;")
  /\ field_decl ua un uw f6 fh (lit "x : Interval ;") = Some (AField (lit "x") (AIdent [lit "Interval"]) None None [], []).
Proof.
  split; [|split].
  - intros (w & y & E & [->|(p & ->)]); [discriminate|destruct p; discriminate].
  - exists (lit " "), ";"%byte, []. repeat split; try (apply In_existsb; reflexivity).
    constructor; [apply In_existsb; reflexivity|constructor].
  - reflexivity.
Qed.

(** ** C50 *)
(** The blanks of a text are no part of the schema it is a text of
    (SpecGrammar), so two texts that differ in them are read alike. *)
Theorem C50_blanks_do_not_matter ua un uw f6 fh has_stem
  (hexf_range : forall t v, fh t = Some v -> 0 <= v < 2 ^ 64) t1 t2 S :
  schema_text ua un f6 fh has_stem t1 S -> schema_text ua un f6 fh has_stem t2 S -> plain_schema S ->
  quiet t1 -> quiet t2 ->
  schema_decl ua un uw f6 fh has_stem t1 = Some (S, []) /\ schema_decl ua un uw f6 fh has_stem t2 = Some (S, []).
Proof. exact (blanks_do_not_matter ua un uw f6 fh has_stem hexf_range t1 t2 S). Qed.
Print Assumptions C50_blanks_do_not_matter.

(** Of two texts of one schema of which one is read, the other is read exactly if no
    special word is in its way. *)
Theorem C50_exact ua un uw f6 fh has_stem
  (alphabetic_wide : forall c, ua c = true -> wide c) (alphanumeric_wide : forall c, un c = true -> wide c)
  (hexf_range : forall t v, fh t = Some v -> 0 <= v < 2 ^ 64) t1 t2 S :
  schema_decl ua un uw f6 fh has_stem t1 = Some (S, []) -> schema_text ua un f6 fh has_stem t2 S ->
  schema_decl ua un uw f6 fh has_stem t2 = Some (S, []) <-> clear_text ua un uw f6 fh has_stem t2 S.
Proof. exact (blanks_exact ua un uw f6 fh has_stem hexf_range alphabetic_wide alphanumeric_wide t1 t2 S). Qed.
Print Assumptions C50_exact.

(** Any blank may stand around a declaration, and be taken away. *)
Theorem C50_around_declarations ua un uw f6 fh has_stem
  (hexf_range : forall t v, fh t = Some v -> 0 <= v < 2 ^ 64) b1 b2 b3 t1 t2 e1 e2 :
  blank b1 -> blank b2 -> blank b3 -> declaration_text ua un f6 fh t1 e1 -> declaration_text ua un f6 fh t2 e2 ->
  plain_schema (Schema [] [e1; e2]) -> quiet (b1 ++ t1 ++ b2 ++ t2 ++ b3) ->
  schema_decl ua un uw f6 fh has_stem (b1 ++ t1 ++ b2 ++ t2 ++ b3) = Some (Schema [] [e1; e2], []).
Proof. exact (around_declarations ua un uw f6 fh has_stem hexf_range b1 b2 b3 t1 t2 e1 e2). Qed.
Print Assumptions C50_around_declarations.

(** What blank space between tokens is to the parser: it reads any blank to its
    end, and stops there. *)
Theorem C50_blank_read b s : blank b ->
  (forall c x, s = c :: x -> ~ space c) -> (forall x, s <> lit "//" ++ x) ->
  comment_or_space0 (b ++ s) = Some (tt, s).
Proof. exact (blank_read b s). Qed.
Print Assumptions C50_blank_read.

(** As stated C50 is false: a comment with one of the special float names after a
    default value changes what is read. *)
Theorem C50_comment_refuted ua un uw f6 fh has_stem :
  let t := lit "table T { x:int = 3; }" in
  schema_decl ua un uw f6 fh has_stem t
  = Some (Schema [] [ETable (AProduct (lit "T") [AField (lit "x") (APrim Int) (Some (DScalar (CInt 3))) None []] None [])], [])
  /\ schema_decl ua un uw f6 fh has_stem (t ++ lit " // inf") = Some (Schema [] [], t ++ lit " // inf").
Proof. now split. Qed.
Print Assumptions C50_comment_refuted.

(** The same table with other blanks, one of them a comment with a word that only
    starts like a special float name. *)
Example C50_case ua un uw f6 fh has_stem :
  let t := lit "table" ++ [tab] ++ lit "T// information" ++ [line_feed] ++ lit "{x :int=3 // a" ++ [carriage_return; line_feed] ++ lit "; }" in
  schema_decl ua un uw f6 fh has_stem t = schema_decl ua un uw f6 fh has_stem (lit "table T { x:int = 3; }").
Proof. reflexivity. Qed.

(** ** C51 *)
(** A decimal constant denotes its value, if that is in the range of i128; it is
    rejected otherwise. *)
Theorem C51_decimal sign f ds r : sign_text sign f -> Forall digit ds -> ds <> [] ->
  (forall c x, r = c :: x -> ~ digit c) ->
  (i128 (f (number 10 ds)) -> dec_integer_constant (sign ++ ds ++ r) = Some (f (number 10 ds), r))
  /\ (~ i128 (f (number 10 ds)) -> dec_integer_constant (sign ++ ds ++ r) = None).
Proof. exact (decimal sign f ds r). Qed.
Print Assumptions C51_decimal.

(** A hexadecimal one too, but for the least i128, which is rejected. *)
Theorem C51_hexadecimal sign f x ds r : sign_text sign f -> In x (lit "xX") -> Forall hex_digit ds -> ds <> [] ->
  (forall c x, r = c :: x -> ~ hex_digit c) ->
  (i128 (number 16 ds) ->
   hex_integer_constant (sign ++ lit "0" ++ [x] ++ ds ++ r) = Some (f (number 16 ds), r))
  /\ (~ i128 (number 16 ds) -> hex_integer_constant (sign ++ lit "0" ++ [x] ++ ds ++ r) = None).
Proof. exact (hexadecimal sign f x ds r). Qed.
Print Assumptions C51_hexadecimal.

(** Where an integer or a scalar may stand, the constant before a blank, a comment
    or a delimiter is read; and nothing else is read as an integer. *)
Theorem C51_integer t v r : integer_text t v -> breaks r -> integer_constant (t ++ r) = Some (v, r).
Proof. exact (integer_ok t v r). Qed.
Print Assumptions C51_integer.
Theorem C51_integer_only s v r : integer_constant s = Some (v, r) -> exists t, s = t ++ r /\ integer_text t v.
Proof. exact (integer_exact s v r). Qed.
Print Assumptions C51_integer_only.
Theorem C51_scalar uw f6 fh (hexf_range : forall t v, fh t = Some v -> 0 <= v < 2 ^ 64) t v r :
  integer_text t v -> breaks r -> quiet (t ++ r) -> scalar uw f6 fh (t ++ r) = Some (CInt v, r).
Proof. exact (integer_scalar uw f6 fh hexf_range t v r). Qed.
Print Assumptions C51_scalar.

(** As stated C51 is false: there is no integer too large for a digit string, but
    one for i128; and the least i128 is read in decimal only. *)
Theorem C51_every_digit_string_refuted :
  integer_constant (lit "170141183460469231731687303715884105728;") = None
  /\ integer_constant (lit "-170141183460469231731687303715884105728;") = Some (- 2 ^ 127, lit ";")
  /\ hex_integer_constant (lit "-0x80000000000000000000000000000000;") = None
  /\ integer_constant (lit "-0x80000000000000000000000000000000;") = Some (0, lit "x80000000000000000000000000000000;").
Proof. now repeat split. Qed.
Print Assumptions C51_every_digit_string_refuted.

Example C51_case :
  dec_integer_constant (lit "-0420,") = Some (-420, lit ",") /\ hex_integer_constant (lit "+0X1fF]") = Some (511, lit "]")
  /\ number 10 (lit "0420") = 420 /\ number 16 (lit "1fF") = 511.
Proof. now repeat split. Qed.

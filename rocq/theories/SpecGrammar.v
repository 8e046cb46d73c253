(** The schema language, as a relation between texts and what they denote; it
    knows nothing of the parser.  The shape of each rule is that of the grammar in
    the FlatBuffers documentation, restricted where butte's parser accepts less;
    SpecParser and DESIGN.md list those places. *)
From Coq Require Import Strings.String ZArith List Bool Strings.Byte.
From Verif Require Import Base Schema.
Import ListNotations.
Local Open Scope Z_scope.

(** * Characters *)
Definition digit (c : byte) : Prop := In c (lit "0123456789").
Definition hex_digit (c : byte) : Prop := In c (lit "0123456789abcdefABCDEF").
Definition letter (c : byte) : Prop := In c (lit "abcdefghijklmnopqrstuvwxyzABCDEFGHIJKLMNOPQRSTUVWXYZ").
Definition line_feed : byte := x0a.
Definition carriage_return : byte := x0d.
Definition tab : byte := x09.
Definition space (c : byte) : Prop := In c [x20; tab; carriage_return; line_feed].
Definition line_end (e : text) : Prop := e = [line_feed] \/ e = [carriage_return; line_feed].
Definition one_line (t : text) : Prop := Forall (fun c => c <> line_feed /\ c <> carriage_return) t.
(** The bytes of a character that takes several: a byte above the ASCII range and
    continuation bytes. *)
Definition continuation (b : byte) : Prop := (128 <= Byte.to_N b < 192)%N.
Definition wide (c : text) : Prop :=
  exists b r, c = b :: r /\ (192 <= Byte.to_N b)%N /\ r <> [] /\ Forall continuation r.

(** The text can be cut after [n] bytes, not inside a character. *)
Definition cuts (n : nat) (s : text) : Prop := exists a b, s = a ++ b /\ List.length a = n
  /\ forall c x, b = c :: x -> ~ continuation c.

(** * Blanks: spaces and comments *)
Inductive blank : text -> Prop :=
| blank_nil : blank []
| blank_space c t : space c -> blank t -> blank (c :: t)
| blank_comment body e t :
    one_line body -> (forall x, body <> "/"%byte :: x) -> line_end e -> blank t ->
    blank (lit "//" ++ body ++ e ++ t).
Definition blank1 (b : text) : Prop := blank b /\ b <> [].
(** The end of a file may be a comment with no line end. *)
Definition file_end (t : text) : Prop :=
  t = [] \/ exists body, t = lit "//" ++ body /\ one_line body /\ (forall x, body <> "/"%byte :: x).

(** What may follow a name or a number. *)
Definition delims : text := lit ";,:=(){}[]".
Definition breakers : text := lit ";,:=(){}[]/ " ++ [tab; carriage_return; line_feed].
Definition breaks (r : text) : Prop := match r with [] => True | b :: _ => In b breakers end.
(** [r] starts with a blank and then one of [cs]. *)
Definition next (cs : text) (r : text) : Prop :=
  exists b c t, r = b ++ c :: t /\ blank b /\ In c cs /\ In c delims.

(** Documentation comments: what follows the three slashes on each line. *)
Inductive docs : text -> comment -> Prop :=
| docs_nil : docs [] []
| docs_line body e b t c :
    one_line body -> line_end e -> blank b -> docs t c ->
    docs (lit "///" ++ body ++ e ++ b ++ t) (body :: c).

(** * Lists of items *)
(** From here on [X r t a] says that [t] is a text of [a] in front of [r], the rest
    of the file.  Items separated by commas. *)
Inductive listing {A} (item : text -> text -> A -> Prop) : text -> text -> list A -> Prop :=
| listing_one r t a : item r t a -> listing item r t [a]
| listing_more r t a b1 b2 t' l :
    item (b1 ++ lit "," ++ b2 ++ t' ++ r) t a -> blank b1 -> blank b2 -> listing item r t' l ->
    listing item r (t ++ b1 ++ lit "," ++ b2 ++ t') (a :: l).
(** Items one after the other. *)
Inductive series {A} (item : text -> text -> A -> Prop) : text -> text -> list A -> Prop :=
| series_nil r : series item r [] []
| series_cons r t a b t' l :
    item (b ++ t' ++ r) t a -> blank b -> series item r t' l -> series item r (t ++ b ++ t') (a :: l).

(** * Integers and strings *)
(** The value of a digit string: each digit counts for its position in
    [0123456789abcdef], either case. *)
Fixpoint position (c : byte) (l : text) : Z :=
  match l with [] => 0 | d :: l => if Byte.eqb c d then 0 else 1 + position c l end.
Definition weight_of (c : byte) : Z :=
  if existsb (Byte.eqb c) (lit "ABCDEF")
  then 10 + position c (lit "ABCDEF")
  else position c (lit "0123456789abcdef").
Definition number (base : Z) (ds : text) : Z :=
  fold_left (fun v d => v * base + weight_of d) ds 0.
Definition sign_text (t : text) (v : Z -> Z) : Prop :=
  (t = [] /\ v = (fun x => x)) \/ (t = lit "+" /\ v = (fun x => x)) \/ (t = lit "-" /\ v = Z.opp).
Definition i128 (v : Z) : Prop := - 2 ^ 127 <= v < 2 ^ 127.
Inductive integer_text : text -> Z -> Prop :=
| integer_dec sign f ds :
    sign_text sign f -> Forall digit ds -> ds <> [] -> i128 (f (number 10 ds)) ->
    integer_text (sign ++ ds) (f (number 10 ds))
| integer_hex sign f x ds :
    sign_text sign f -> In x (lit "xX") -> Forall hex_digit ds -> ds <> [] -> i128 (number 16 ds) ->
    integer_text (sign ++ lit "0" ++ [x] ++ ds) (f (number 16 ds)).

(** The inside of a string: the only escapes are those of the backslash and of
    the double quote. *)
Inductive string_body : text -> Prop :=
| string_nil : string_body []
| string_char c t : c <> "\"%byte -> c <> """"%byte -> string_body t -> string_body (c :: t)
| string_escape c t : c = "\"%byte \/ c = """"%byte -> string_body t -> string_body ("\"%byte :: c :: t).
Definition string_text (t : text) (v : text) : Prop := string_body v /\ t = lit """" ++ v ++ lit """".

(** The type names of the language. *)
Definition prim_name (p : prim) : text :=
  lit (match p with
       | Bool => "bool" | Byte => "byte" | UByte => "ubyte" | Short => "short" | UShort => "ushort"
       | Int => "int" | UInt => "uint" | Float => "float" | Long => "long" | ULong => "ulong"
       | Double => "double" | Int8 => "int8" | UInt8 => "uint8" | Int16 => "int16"
       | UInt16 => "uint16" | Int32 => "int32" | UInt32 => "uint32" | Int64 => "int64"
       | UInt64 => "uint64" | Float32 => "float32" | Float64 => "float64"
       end).

(** * Schemas whose names the parser does not mistake *)
(** [x] starts with the name of a built-in type. *)
Definition builtin_like (x : text) : Prop :=
  exists w y, x = w ++ y /\ (w = lit "string" \/ exists p, w = prim_name p).
Definition builtin (x : text) : Prop := x = lit "string" \/ exists p, x = prim_name p.
(** The first component of a type name does not start with the name of a built-in
    type. *)
Fixpoint plain_type (t : aty) : Prop :=
  match t with
  | APrim _ | AString => True
  | AArray t => plain_type t
  | AIdent q => match q with x :: _ => ~ builtin_like x | [] => True end
  end.
(** A name given as default does not start with [true] or [false]. *)
Definition plain_default (d : default_value) : Prop :=
  match d with
  | DScalar _ => True
  | DIdent x => ~ ((exists y, x = lit "true" ++ y) \/ (exists y, x = lit "false" ++ y))
  end.
Definition plain_field (f : afield) : Prop :=
  plain_type (af_ty f) /\ match af_default f with Some d => plain_default d | None => True end.
Definition plain_element (e : element) : Prop :=
  match e with
  | ETable p | EStruct p => Forall plain_field (ap_fields p)
  | EEnum e => plain_type (ae_base e)
  | _ => True
  end.
Definition plain_schema (s : schema) : Prop := Forall plain_element (sc_elements s).
(** Of these, the demand on type names alone. *)
Definition plain_types (s : schema) : Prop :=
  Forall (fun e => match e with
                   | ETable p | EStruct p => Forall (fun f => plain_type (af_ty f)) (ap_fields p)
                   | EEnum e => plain_type (ae_base e)
                   | _ => True
                   end) (sc_elements s).

(** * Words *)
(** The characters of a text: an ASCII byte is one, any other byte with the
    continuation bytes after it is another. *)
Inductive characters : list text -> text -> Prop :=
| characters_nil : characters [] []
| characters_ascii b cs t : (Byte.to_N b < 128)%N -> characters cs t -> characters ([b] :: cs) (b :: t)
| characters_wide b c cs t :
    (128 <= Byte.to_N b)%N -> Forall continuation c -> (forall d x, t = d :: x -> ~ continuation d) ->
    characters cs t -> characters ((b :: c) :: cs) (b :: c ++ t).
Section Words.
(** Which characters other than ASCII make words. *)
Context (uni_word : text -> bool).
Definition word_character (c : text) : Prop :=
  (exists b, c = [b] /\ (letter b \/ digit b \/ b = "_"%byte))
  \/ ((forall b, c = [b] -> (128 <= Byte.to_N b)%N) /\ uni_word c = true).
(** The characters of [w] occur in [t], with no word character right before or
    after them. *)
Definition has_the_word (w : text) (t : text) : Prop :=
  exists cs ds, characters (cs ++ map (fun b => [b]) w ++ ds) t
    /\ (forall x c, cs = x ++ [c] -> ~ word_character c)
    /\ (forall c x, ds = c :: x -> ~ word_character c).
(** The text has none of the special float names. *)
Definition no_special (t : text) : Prop :=
  ~ has_the_word (lit "nan") t /\ ~ has_the_word (lit "inf") t /\ ~ has_the_word (lit "infinity") t.
(** The name [x], in front of a rest with which it makes the text [s], is not taken
    for a boolean. *)
Definition no_boolean (x : ident) (s : text) : Prop :=
  forall w y, w = lit "true" \/ w = lit "false" -> x = w ++ y -> ~ has_the_word w s.
End Words.

Section Grammar.
Context (uni_alphabetic uni_alphanumeric : text -> bool).
Context (parse_f64 parse_hexf64 : text -> option Z).
Context (has_stem : text -> bool).
(** What is demanded of the file from each value on, and from each name given as a
    default on. *)
Context (at_value : text -> Prop) (at_name : ident -> text -> Prop).

(** * Names *)
Definition name_start (c : text) : Prop :=
  (exists b, c = [b] /\ (letter b \/ b = "_"%byte)) \/ (wide c /\ uni_alphabetic c = true).
Definition name_char (c : text) : Prop :=
  (exists b, c = [b] /\ (letter b \/ digit b \/ b = "_"%byte)) \/ (wide c /\ uni_alphanumeric c = true).
Definition name_text (t : ident) : Prop :=
  exists c cs, t = c ++ List.concat cs /\ name_start c /\ Forall name_char cs.
(** Names joined by dots. *)
Inductive qname_text : text -> qident -> Prop :=
| qname_one x : name_text x -> qname_text x [x]
| qname_more x b1 b2 t q :
    name_text x -> blank b1 -> blank b2 -> qname_text t q ->
    qname_text (x ++ b1 ++ lit "." ++ b2 ++ t) (x :: q).

(** * Scalars, single values *)
Definition exponent (marks : text) (t : text) : Prop :=
  exists m sign f ds, t = [m] ++ sign ++ ds /\ In m marks /\ sign_text sign f /\ Forall digit ds /\ ds <> [].
Definition opt_exponent (marks : text) (t : text) : Prop := t = [] \/ exponent marks t.
(** A number with a point or an exponent. *)
Definition point_text (dg : byte -> Prop) (marks : text) (t : text) : Prop :=
  (exists a b e, t = a ++ lit "." ++ b ++ e /\ Forall dg a /\ a <> [] /\ Forall dg b /\ opt_exponent marks e)
  \/ (exists b e, t = lit "." ++ b ++ e /\ Forall dg b /\ b <> [] /\ opt_exponent marks e)
  \/ (exists a e, t = a ++ e /\ Forall dg a /\ a <> [] /\ exponent marks e).
(** Flipping the sign bit of a double. *)
Definition flip (bits : Z) : Z := Z.lxor bits (2 ^ 63).
Inductive float_text : text -> Z -> Prop :=
| float_dec sign f t v :
    sign_text sign f -> point_text digit (lit "eE") t -> parse_f64 (sign ++ t) = Some v ->
    float_text (sign ++ t) v
| float_hex sign x t v :
    (sign = [] \/ sign = lit "+") -> In x (lit "xX") -> point_text hex_digit (lit "pP") t ->
    parse_hexf64 t = Some v ->
    float_text (sign ++ lit "0" ++ [x] ++ t) v
| float_hex_neg x t v :
    In x (lit "xX") -> point_text hex_digit (lit "pP") t ->
    parse_hexf64 t = Some v ->
    float_text (lit "-0" ++ [x] ++ t) (flip v).
Inductive scalar_text : text -> scalar_const -> Prop :=
| scalar_int t v : integer_text t v -> scalar_text t (CInt v)
| scalar_float t v : float_text t v -> scalar_text t (CFloat v)
| scalar_true : scalar_text (lit "true") (CBool true)
| scalar_false : scalar_text (lit "false") (CBool false).
Inductive single_text : text -> single -> Prop :=
| single_scalar t v : scalar_text t v -> single_text t (SScalar v)
| single_string t v : string_text t v -> single_text t (SString v).
Inductive default_text : text -> text -> default_value -> Prop :=
| default_scalar r t v : scalar_text t v -> at_value (t ++ r) -> default_text r t (DScalar v)
| default_name r x : name_text x -> at_value (x ++ r) -> at_name x (x ++ r) -> default_text r x (DIdent x).

(** * Metadata *)
Inductive meta_item : text -> text -> ident * option single -> Prop :=
| meta_flag r x : name_text x -> meta_item r x (x, None)
| meta_value r x b1 b2 t v :
    name_text x -> blank b1 -> blank b2 -> single_text t v -> at_value (t ++ r) ->
    meta_item r (x ++ b1 ++ lit ":" ++ b2 ++ t) (x, Some v).
Inductive meta_text : text -> text -> option metadata -> Prop :=
| meta_none r : meta_text r [] None
| meta_empty r b : blank b -> meta_text r (lit "(" ++ b ++ lit ")") (Some [])
| meta_some r b1 b2 t m :
    blank b1 -> blank b2 -> listing meta_item (b2 ++ lit ")" ++ r) t m ->
    meta_text r (lit "(" ++ b1 ++ t ++ b2 ++ lit ")") (Some m).

(** * JSON-like values *)
Inductive pair_text (vt : text -> text -> value -> Prop) : text -> text -> ident * value -> Prop :=
| pair_text_intro r x b1 b2 t v :
    name_text x -> blank b1 -> blank b2 -> vt r t v ->
    pair_text vt r (x ++ b1 ++ lit ":" ++ b2 ++ t) (x, v).
Inductive object_text (vt : text -> text -> value -> Prop) : text -> text -> list (ident * value) -> comment -> Prop :=
| object_empty r d c b : docs d c -> blank b -> object_text vt r (d ++ lit "{" ++ b ++ lit "}") [] c
| object_some r d c b1 b2 t kv :
    docs d c -> blank b1 -> blank b2 -> listing (pair_text vt) (b2 ++ lit "}" ++ r) t kv ->
    object_text vt r (d ++ lit "{" ++ b1 ++ t ++ b2 ++ lit "}") kv c.
Inductive value_text : text -> text -> value -> Prop :=
| value_single r t v : single_text t v -> at_value (t ++ r) -> value_text r t (JSingle v)
| value_object r t kv c : object_text value_text r t kv c -> at_value (t ++ r) -> value_text r t (JObject kv c)
| value_empty_list r b :
    blank b -> at_value ((lit "[" ++ b ++ lit "]") ++ r) -> value_text r (lit "[" ++ b ++ lit "]") (JList [])
| value_list r b1 b2 t l :
    blank b1 -> blank b2 -> listing value_text (b2 ++ lit "]" ++ r) t l ->
    at_value ((lit "[" ++ b1 ++ t ++ b2 ++ lit "]") ++ r) ->
    value_text r (lit "[" ++ b1 ++ t ++ b2 ++ lit "]") (JList l).

(** * Types: no blanks inside the brackets of a vector type *)
Inductive type_text : text -> aty -> Prop :=
| type_prim p : type_text (prim_name p) (APrim p)
| type_string : type_text (lit "string") AString
| type_array t a : type_text t a -> type_text (lit "[" ++ t ++ lit "]") (AArray a)
| type_name t q : qname_text t q -> type_text t (AIdent q).

(** * Declarations *)
Inductive opt_part {A} (mark : text) (item : text -> text -> A -> Prop) : text -> text -> option A -> Prop :=
| opt_absent r : opt_part mark item r [] None
| opt_present r b1 b2 t a :
    blank b1 -> blank b2 -> item r t a -> opt_part mark item r (b1 ++ mark ++ b2 ++ t) (Some a).
Inductive field_text : text -> text -> afield -> Prop :=
| field_intro r d c x b1 b2 t ty dt dv b3 mt m b4 :
    docs d c -> name_text x -> blank b1 -> blank b2 -> type_text t ty ->
    opt_part (lit "=") default_text (b3 ++ mt ++ b4 ++ lit ";" ++ r) dt dv -> blank b3 ->
    meta_text (b4 ++ lit ";" ++ r) mt m -> blank b4 ->
    field_text r (d ++ x ++ b1 ++ lit ":" ++ b2 ++ t ++ dt ++ b3 ++ mt ++ b4 ++ lit ";")
               (AField x ty dv m c).
(** The part of a table or struct after its keyword. *)
Inductive product_text (keyword : text) : text -> text -> aproduct -> Prop :=
| product_intro r d c b1 x b2 mt m b3 b4 t fs :
    docs d c -> blank1 b1 -> name_text x -> blank b2 ->
    meta_text (b3 ++ lit "{" ++ b4 ++ t ++ lit "}" ++ r) mt m -> blank b3 -> blank b4 ->
    series field_text (lit "}" ++ r) t fs ->
    product_text keyword r
      (d ++ keyword ++ b1 ++ x ++ b2 ++ mt ++ b3 ++ lit "{" ++ b4 ++ t ++ lit "}")
      (AProduct x fs m c).
Inductive variant_text : text -> avariant -> Prop :=
| variant_intro d c x t v :
    docs d c -> name_text x -> opt_part (lit "=") (fun _ => integer_text) [] t v ->
    variant_text (d ++ x ++ t) (AVariant x v c).
(** Between the braces of an enum or union: at least one variant, possibly a
    trailing comma. *)
Inductive variants_text : text -> list avariant -> Prop :=
| variants_intro b1 b2 t vs b3 :
    blank b1 -> blank b2 -> listing (fun _ => variant_text) [] t vs -> blank b3 ->
    variants_text (b1 ++ lit "{" ++ b2 ++ t ++ b3 ++ lit "}") vs
| variants_comma b1 b2 t vs b3 b4 :
    blank b1 -> blank b2 -> listing (fun _ => variant_text) [] t vs -> blank b3 -> blank b4 ->
    variants_text (b1 ++ lit "{" ++ b2 ++ t ++ b3 ++ lit "," ++ b4 ++ lit "}") vs.
(** No blank between the base type of an enum and its metadata. *)
Inductive enum_text : text -> text -> aenum -> Prop :=
| enum_intro r d c b1 x b2 b3 t ty mt m vt vs :
    docs d c -> blank1 b1 -> name_text x -> blank b2 -> blank b3 -> type_text t ty ->
    meta_text (vt ++ r) mt m -> variants_text vt vs ->
    enum_text r (d ++ lit "enum" ++ b1 ++ x ++ b2 ++ lit ":" ++ b3 ++ t ++ mt ++ vt) (AEnum x vs ty m c).
Inductive union_text : text -> text -> aunion -> Prop :=
| union_intro r d c b1 x b2 mt m vt vs :
    docs d c -> blank1 b1 -> name_text x -> blank b2 -> meta_text (vt ++ r) mt m -> variants_text vt vs ->
    union_text r (d ++ lit "union" ++ b1 ++ x ++ b2 ++ mt ++ vt) (AUnion x vs m c).
Inductive method_text : text -> text -> amethod -> Prop :=
| method_intro r d c x b1 b2 t1 q1 b3 b4 b5 t2 q2 b6 mt m b7 :
    docs d c -> name_text x -> blank b1 -> blank b2 -> qname_text t1 q1 -> blank b3 -> blank b4 -> blank b5 ->
    qname_text t2 q2 -> blank b6 -> meta_text (b7 ++ lit ";" ++ r) mt m -> blank b7 ->
    method_text r
      (d ++ x ++ b1 ++ lit "(" ++ b2 ++ t1 ++ b3 ++ lit ")" ++ b4 ++ lit ":" ++ b5 ++ t2 ++ b6 ++ mt
         ++ b7 ++ lit ";")
      (AMethod x q1 q2 m c).
Inductive rpc_text : text -> text -> arpc -> Prop :=
| rpc_intro r d c b1 x b2 b3 t ms :
    docs d c -> blank1 b1 -> name_text x -> blank b2 -> blank b3 ->
    series method_text (lit "}" ++ r) t ms -> ms <> [] ->
    rpc_text r (d ++ lit "rpc_service" ++ b1 ++ x ++ b2 ++ lit "{" ++ b3 ++ t ++ lit "}") (ARpc x ms c).
(** [keyword], an argument, a semicolon; [gap] tells which blanks may follow the
    keyword. *)
Inductive statement {A} (keyword : text) (gap : text -> Prop) (item : text -> A -> Prop) :
  text -> A -> comment -> Prop :=
| statement_intro d c b1 t a b2 :
    docs d c -> gap b1 -> item t a -> blank b2 ->
    statement keyword gap item (d ++ keyword ++ b1 ++ t ++ b2 ++ lit ";") a c.
Definition name_itself (t : text) (x : ident) : Prop := name_text t /\ x = t.
Definition attribute_name (t : text) (x : ident) : Prop := name_itself t x \/ string_text t x.
(** Four characters of one byte each, whatever they are: no continuation byte. *)
Definition identifier_text (t : text) (x : text) : Prop :=
  t = lit """" ++ x ++ lit """" /\ List.length x = 4%nat
  /\ forall a b c y, x = a ++ b :: c :: y -> (128 <= Byte.to_N b)%N -> ~ continuation c.
Definition include_text (t : text) (i : include) : Prop :=
  statement (lit "include") blank1 string_text t (in_path i) (in_doc i) /\ has_stem (in_path i) = true.
Inductive element_text : text -> text -> element -> Prop :=
| element_namespace r t q c :
    statement (lit "namespace") blank1 qname_text t q c -> element_text r t (ENamespace q c)
| element_table r t p : product_text (lit "table") r t p -> element_text r t (ETable p)
| element_struct r t p : product_text (lit "struct") r t p -> element_text r t (EStruct p)
| element_enum r t e : enum_text r t e -> element_text r t (EEnum e)
| element_union r t u : union_text r t u -> element_text r t (EUnion u)
| element_root r t x c : statement (lit "root_type") blank1 name_itself t x c -> element_text r t (ERoot x)
| element_extension r t e c :
    statement (lit "file_extension") blank string_text t e c -> element_text r t (EFileExtension e c)
| element_identifier r t i c :
    statement (lit "file_identifier") blank identifier_text t i c -> element_text r t (EFileIdentifier i c)
| element_attribute r t x c :
    statement (lit "attribute") blank1 attribute_name t x c -> element_text r t (EAttribute x)
| element_rpc r t x : rpc_text r t x -> element_text r t (ERpc x)
| element_object r t kv c : object_text value_text r t kv c -> element_text r t (EObject kv c).

(** A whole file: includes, then declarations, with blanks around them. *)
Inductive file_text : text -> schema -> Prop :=
| file_empty : file_text [] (Schema [] [])
| file_some b ti is_ te es e :
    blank b -> series (fun _ => include_text) [] ti is_ -> series element_text e te es -> file_end e -> ti ++ te <> [] ->
    file_text (b ++ ti ++ te ++ e) (Schema is_ es).
End Grammar.

(** The language: nothing is demanded of the words of the file. *)
Definition anything (_ : text) : Prop := True.
Definition any_name (_ : ident) (_ : text) : Prop := True.
Definition declaration_text ua un f6 fh (t : text) (e : element) : Prop :=
  element_text ua un f6 fh anything any_name [] t e.
Definition schema_text ua un f6 fh has_stem (t : text) (S : schema) : Prop :=
  file_text ua un f6 fh has_stem anything any_name t S.
(** What the parser reads of it: from each value on the file has none of the special
    float names, and no default name is taken for a boolean. *)
Definition clear_text ua un uw f6 fh has_stem (t : text) (S : schema) : Prop :=
  file_text ua un f6 fh has_stem (no_special uw) (no_boolean uw) t S.

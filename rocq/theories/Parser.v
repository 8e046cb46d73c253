(** The schema parser: butte-build/src/ast/parser.rs, on top of the nom 5.1
    combinators it imports (parser.rs:4-24).

    A parser takes the remaining input (the UTF-8 bytes of a Rust [str]) and
    gives either [None], which is nom's [Err::Error], or the value and the rest
    of the input.  No parser of this file gives [Err::Failure] or
    [Err::Incomplete]: only the [complete] variants are imported, and
    [map_res] turns any error of its closure into [Err::Error].

    The loops of nom ([many0], [separated_list], ...) and the recursive rules
    ([type_], [value_]) run on fuel, which the callers set to one more than the
    length of the input; ParserProofs shows that any larger amount gives the same
    result. *)
From Coq Require Import Strings.String ZArith List Bool Strings.Byte.
From Verif Require Import Base Schema.
Import ListNotations.
Local Open Scope Z_scope.

Definition parser (A : Type) := text -> option (A * text).

(** * nom: parsers of single characters and of fixed texts *)

(** [nom::bytes::complete::tag]. *)
Fixpoint tag (w : text) (s : text) : option (text * text) :=
  match w with
  | [] => Some ([], s)
  | c :: w =>
      match s with
      | [] => None
      | d :: s =>
          if Byte.eqb c d
          then match tag w s with Some (x, r) => Some (c :: x, r) | None => None end
          else None
      end
  end.

(** [nom::character::complete::char] and [one_of], for ASCII characters. *)
Definition char (c : byte) : parser byte :=
  fun s => match s with d :: r => if Byte.eqb c d then Some (d, r) else None | [] => None end.
Definition one_of (cs : text) : parser byte :=
  fun s => match s with d :: r => if existsb (Byte.eqb d) cs then Some (d, r) else None | [] => None end.

(** Character classes of ASCII bytes. *)
Definition code (b : byte) : Z := Z.of_N (Byte.to_N b).
Definition between (lo hi : byte) (b : byte) : bool := (code lo <=? code b) && (code b <=? code hi).
Definition is_ascii (b : byte) : bool := code b <? 128.
Definition is_digit (b : byte) : bool := between "0" "9" b.
Definition is_hex_digit (b : byte) : bool :=
  is_digit b || between "a" "f" b || between "A" "F" b.
Definition is_letter (b : byte) : bool := between "a" "z" b || between "A" "Z" b.
Definition is_space (b : byte) : bool :=
  Byte.eqb b " " || Byte.eqb b "009" || Byte.eqb b "013" || Byte.eqb b "010".

(** The longest prefix whose bytes satisfy [p].  Used for classes that hold of
    ASCII bytes only, or of all bytes of a non-ASCII character. *)
Fixpoint span (p : byte -> bool) (s : text) : text * text :=
  match s with
  | [] => ([], [])
  | b :: r => if p b then let '(a, r) := span p r in (b :: a, r) else ([], s)
  end.
(** [take_while] style parsers: zero or more, one or more. *)
Definition span0 (p : byte -> bool) : parser text := fun s => Some (span p s).
Definition span1 (p : byte -> bool) : parser text :=
  fun s => match span p s with ([], _) => None | (a, r) => Some (a, r) end.

(** [nom::character::complete]: [digit0], [digit1], [hex_digit0], [hex_digit1],
    [multispace1]. *)
Definition digit0 := span0 is_digit.
Definition digit1 := span1 is_digit.
Definition hex_digit0 := span0 is_hex_digit.
Definition hex_digit1 := span1 is_hex_digit.
Definition multispace1 := span1 is_space.

(** [nom::character::complete::line_ending]. *)
Definition line_ending : parser text :=
  fun s => match s with
           | c :: r =>
               if Byte.eqb c "010" then Some ([c], r)
               else match r with
                    | d :: r => if Byte.eqb c "013" && Byte.eqb d "010" then Some ([c; d], r) else None
                    | [] => None
                    end
           | [] => None
           end.
(** [nom::character::complete::not_line_ending]: everything up to a line feed,
    or up to a carriage return, which must then start a line ending. *)
Definition not_line_ending : parser text :=
  fun s =>
    let '(a, r) := span (fun c => negb (Byte.eqb c "013" || Byte.eqb c "010")) s in
    match r with
    | [] => Some (a, r)
    | c :: _ =>
        if Byte.eqb c "013"
        then match line_ending r with Some _ => Some (a, r) | None => None end
        else Some (a, r)
    end.

(** * nom: combinators *)

Section Combinators.
Context {A B C D E : Type}.

(** [nom::combinator]: [map], [map_res] (a closure that may fail), [value],
    [opt], [not], [recognize].  [complete] is the identity on parsers that never
    give [Err::Incomplete]. *)
Definition pmap (p : parser A) (f : A -> B) : parser B :=
  fun s => match p s with Some (a, r) => Some (f a, r) | None => None end.
Definition map_res (p : parser A) (f : A -> option B) : parser B :=
  fun s => match p s with
           | Some (a, r) => match f a with Some b => Some (b, r) | None => None end
           | None => None
           end.
Definition value_of (b : B) (p : parser A) : parser B :=
  fun s => match p s with Some (_, r) => Some (b, r) | None => None end.
Definition opt (p : parser A) : parser (option A) :=
  fun s => match p s with Some (a, r) => Some (Some a, r) | None => Some (None, s) end.
Definition pnot (p : parser A) : parser unit :=
  fun s => match p s with Some _ => None | None => Some (tt, s) end.
Definition recognize (p : parser A) : parser text :=
  fun s => match p s with
           | Some (_, r) => Some (firstn (List.length s - List.length r)%nat s, r)
           | None => None
           end.

(** [nom::sequence]: [pair] ([tuple] is nested pairs), [preceded],
    [terminated], [delimited], [separated_pair]. *)
Definition pair_ (p : parser A) (q : parser B) : parser (A * B) :=
  fun s => match p s with
           | Some (a, r) => match q r with Some (b, r) => Some ((a, b), r) | None => None end
           | None => None
           end.
Definition preceded (p : parser A) (q : parser B) : parser B :=
  fun s => match p s with Some (_, r) => q r | None => None end.
Definition terminated (p : parser A) (q : parser B) : parser A :=
  fun s => match p s with
           | Some (a, r) => match q r with Some (_, r) => Some (a, r) | None => None end
           | None => None
           end.

(** [nom::branch::alt]. *)
Fixpoint alt (ps : list (parser A)) : parser A :=
  fun s => match ps with
           | [] => None
           | p :: ps => match p s with Some x => Some x | None => alt ps s end
           end.

(** [nom::multi::many0]: stops at the first error; a success that consumes
    nothing is an error of the whole loop. *)
Fixpoint many0_n (n : nat) (p : parser A) (s : text) : option (list A * text) :=
  match n with
  | O => None
  | S n =>
      match p s with
      | None => Some ([], s)
      | Some (a, r) =>
          if bytes_eqb r s then None
          else match many0_n n p r with Some (l, r) => Some (a :: l, r) | None => None end
      end
  end.
Definition many0 (p : parser A) : parser (list A) := fun s => many0_n (S (List.length s)) p s.

(** [nom::multi::many1]: the first round must succeed (and is not checked for
    progress). *)
Definition many1 (p : parser A) : parser (list A) :=
  fun s => match p s with
           | None => None
           | Some (a, r) => match many0 p r with Some (l, r) => Some (a :: l, r) | None => None end
           end.

(** The loop of [nom::multi::separated_list] and [separated_nonempty_list]: when
    the separator or what follows it fails, the list ends before the
    separator. *)
Fixpoint sep_n (n : nat) (sep : parser B) (p : parser A) (s : text) : option (list A * text) :=
  match n with
  | O => None
  | S n =>
      match sep s with
      | None => Some ([], s)
      | Some (_, r1) =>
          if bytes_eqb r1 s then None
          else match p r1 with
               | None => Some ([], s)
               | Some (a, r2) =>
                   if bytes_eqb r2 s then None
                   else match sep_n n sep p r2 with Some (l, r) => Some (a :: l, r) | None => None end
               end
      end
  end.
Definition separated_list (sep : parser B) (p : parser A) : parser (list A) :=
  fun s => match p s with
           | None => Some ([], s)
           | Some (a, r) =>
               if bytes_eqb r s then None
               else match sep_n (S (List.length r)) sep p r with
                    | Some (l, r) => Some (a :: l, r)
                    | None => None
                    end
           end.
Definition separated_nonempty_list (sep : parser B) (p : parser A) : parser (list A) :=
  fun s => match p s with
           | None => None
           | Some (a, r) =>
               if bytes_eqb r s then None
               else match sep_n (S (List.length r)) sep p r with
                    | Some (l, r) => Some (a :: l, r)
                    | None => None
                    end
           end.
End Combinators.

Definition delimited {A B C} (p : parser A) (q : parser B) (t : parser C) : parser B :=
  preceded p (terminated q t).
Definition separated_pair {A B C} (p : parser A) (sep : parser B) (q : parser C) : parser (A * C) :=
  pair_ p (preceded sep q).

(** * Characters that may take several bytes *)

(** The first character of a text, as its bytes: an ASCII byte, or a byte and the
    continuation bytes after it.  (A Rust [str] is valid UTF-8; on other byte
    strings this is an arbitrary choice.) *)
Definition is_continuation (b : byte) : bool := (128 <=? code b) && (code b <? 192).
Definition next_char (s : text) : option (text * text) :=
  match s with
  | [] => None
  | b :: r =>
      if is_ascii b then Some ([b], r)
      else let '(c, r) := span is_continuation r in Some (b :: c, r)
  end.
(** [take_while] over characters. *)
Fixpoint take_chars_n (n : nat) (p : text -> bool) (s : text) : text * text :=
  match n with
  | O => ([], s)
  | S n =>
      match next_char s with
      | None => ([], s)
      | Some (c, r) => if p c then let '(a, r) := take_chars_n n p r in (c ++ a, r) else ([], s)
      end
  end.
Definition take_chars (p : text -> bool) : parser text :=
  fun s => Some (take_chars_n (List.length s) p s).
(** [take_while_m_n(1, 1, _)]. *)
Definition one_char (p : text -> bool) : parser text :=
  fun s => match next_char s with
           | Some (c, r) => if p c then Some (c, r) else None
           | None => None
           end.
(** [nom::bytes::complete::take]: that many characters. *)
Fixpoint take (n : nat) (s : text) : option (text * text) :=
  match n with
  | O => Some ([], s)
  | S n =>
      match next_char s with
      | None => None
      | Some (c, r) => match take n r with Some (a, r) => Some (c ++ a, r) | None => None end
      end
  end.

(** [nom::bytes::complete::escaped] with [none_of] of the control character and
    the double quote as the normal characters and those two as the escapable
    ones (parser.rs:172-176).  The loop works on single bytes: every byte of a
    non-ASCII character is normal.  [i] is what is left, [a] (reversed) what was
    passed. *)
Fixpoint escaped_loop (a : text) (i : text) : option (text * text) :=
  match i with
  | [] => Some (rev a, [])
  | c :: i' =>
      if Byte.eqb c "\" then
        match i' with
        | [] => None
        | d :: i'' => if Byte.eqb d "\" || Byte.eqb d """" then escaped_loop (d :: c :: a) i'' else None
        end
      else if Byte.eqb c """" then match a with [] => None | _ => Some (rev a, i) end
      else escaped_loop (c :: a) i'
  end.
Definition escaped : parser text := escaped_loop [].

Section Grammar.
(** What the parser asks the standard library and other crates: whether a
    non-ASCII character (given by its bytes) is alphabetic, alphanumeric
    ([char::is_alphabetic], [char::is_alphanumeric]), or a word character of
    the regex crate's \w; [f64::from_str] and [hexf_parse::parse_hexf64] as bit
    patterns; whether [Path::file_stem] is present. *)
Context (uni_alphabetic uni_alphanumeric uni_word : text -> bool).
Context (parse_f64 parse_hexf64 : text -> option Z).
Context (has_stem : text -> bool).

Definition on_ascii (p : byte -> bool) (u : text -> bool) (c : text) : bool :=
  match c with
  | [b] => if is_ascii b then p b else u c
  | _ => u c
  end.
Definition ident_start (c : text) : bool :=
  on_ascii (fun b => is_letter b || Byte.eqb b "_") uni_alphabetic c.
Definition ident_char (c : text) : bool :=
  on_ascii (fun b => is_letter b || is_digit b || Byte.eqb b "_") uni_alphanumeric c.
Definition word_char (c : text) : bool :=
  on_ascii (fun b => is_letter b || is_digit b || Byte.eqb b "_") uni_word c.

(** [Regex::is_match] for the word [w] between two word boundaries: somewhere in
    [s], [w] occurs with no word character before or after.  [prev] tells
    whether the character before [s] is a word character. *)
Definition starts_word (w : text) (s : text) : bool :=
  match tag w s with
  | None => false
  | Some (_, r) => match next_char r with Some (c, _) => negb (word_char c) | None => true end
  end.
Fixpoint has_word_n (n : nat) (prev : bool) (w : text) (s : text) : bool :=
  match n with
  | O => false
  | S n =>
      (negb prev && starts_word w s)
      || match next_char s with
         | None => false
         | Some (c, r) => has_word_n n (word_char c) w r
         end
  end.
Definition has_word (w : text) (s : text) : bool := has_word_n (S (List.length s)) false w s.
(** [nom::re_match!] (nom 5.1, regexp.rs): on a match anywhere in the input, the
    whole input is consumed. *)
Definition re_match (m : text -> bool) : parser text :=
  fun s => if m s then Some (s, []) else None.

(** * The grammar *)

(** parser.rs:40-42. *)
Definition plus_or_minus := one_of (lit "-+").
(** parser.rs:60-114. *)
Definition double_quote := char """".
Definition backslash := char "\".
Definition left_paren := char "(".
Definition right_paren := char ")".
Definition left_brace := char "{".
Definition right_brace := char "}".
Definition colon := char ":".
Definition comma := char ",".
Definition semicolon := char ";".
Definition equals := char "=".
Definition period := char ".".
Definition zero := char "0".
Definition left_square_bracket := char "[".
Definition right_square_bracket := char "]".

(** parser.rs:116-124. *)
Definition p_ident : parser ident := recognize (preceded (one_char ident_start) (take_chars ident_char)).
(** parser.rs:168-181: the text between the quotes, escapes left as they
    are. *)
Definition string_constant : parser text :=
  pmap (delimited double_quote (opt escaped) double_quote)
       (fun x => match x with Some x => x | None => [] end).

(** parser.rs:241-256. *)
Definition p_comment : parser unit :=
  value_of tt (pair_ (tag (lit "//")) (pair_ (pnot (tag (lit "/"))) not_line_ending)).
Definition comment_or_space : parser unit := alt [p_comment; value_of tt multispace1].
Definition comment_or_space0 : parser unit := value_of tt (many0 comment_or_space).
Definition comment_or_space1 : parser unit := value_of tt (many1 comment_or_space).

(** parser.rs:2518-2533. *)
Definition raw_doc_comment : parser text := preceded (tag (lit "///")) not_line_ending.
Definition doc_comment_lines : parser (list text) :=
  many0 (terminated (terminated raw_doc_comment line_ending) comment_or_space0).
Definition doc_comment : parser comment := doc_comment_lines.

(** parser.rs:428-455. *)
Definition include_decl : parser include :=
  map_res
    (pair_ doc_comment
       (delimited (tag (lit "include"))
          (delimited comment_or_space1 string_constant comment_or_space0)
          semicolon))
    (fun '(c, path) => if has_stem path then Some (Include path c) else None).

(** parser.rs:511-519. *)
Definition qualified_ident : parser qident :=
  separated_nonempty_list (delimited comment_or_space0 (tag (lit ".")) comment_or_space0) p_ident.
(** parser.rs:521-533. *)
Definition namespace_decl : parser (qident * comment) :=
  pmap
    (pair_ doc_comment
       (delimited (tag (lit "namespace"))
          (delimited comment_or_space1 qualified_ident comment_or_space0)
          semicolon))
    (fun '(c, path) => (path, c)).
(** parser.rs:611-627. *)
Definition attribute_decl : parser ident :=
  pmap
    (pair_ doc_comment
       (delimited (tag (lit "attribute"))
          (delimited comment_or_space1 (alt [p_ident; string_constant]) comment_or_space0)
          semicolon))
    (fun '(_, attr) => attr).
(** parser.rs:863-875. *)
Definition root_decl : parser ident :=
  pmap
    (pair_ doc_comment
       (delimited (tag (lit "root_type"))
          (delimited comment_or_space1 p_ident comment_or_space0)
          semicolon))
    (fun '(_, typename) => typename).

(** The value of a digit string. *)
Definition digit_value (b : byte) : Z :=
  if is_digit b then code b - 48 else if between "a" "f" b then code b - 87 else code b - 55.
Fixpoint digits_value (base : Z) (acc : Z) (s : text) : Z :=
  match s with
  | [] => acc
  | b :: s => digits_value base (acc * base + digit_value b) s
  end.
(** [i128::from_str] on a recognized [+|-] digits: an error outside [i128]. *)
Definition in_i128 (v : Z) : bool := (- 2 ^ 127 <=? v) && (v <? 2 ^ 127).
Definition i128_from_str (s : text) : option Z :=
  let v := match s with
           | c :: r =>
               if Byte.eqb c "-" then - digits_value 10 0 r
               else if Byte.eqb c "+" then digits_value 10 0 r
               else digits_value 10 0 s
           | [] => 0
           end in
  if in_i128 v then Some v else None.
(** parser.rs:1874-1879. *)
Definition dec_integer_constant : parser Z :=
  map_res (recognize (preceded (opt plus_or_minus) digit1)) i128_from_str.
(** Is the optional sign a minus? *)
Definition is_minus (sign : option byte) : bool :=
  match sign with Some c => Byte.eqb c "-" | None => false end.
(** parser.rs:1927-1944. *)
Definition hex_integer_constant : parser Z :=
  map_res
    (pair_ (opt plus_or_minus) (preceded zero (preceded (one_of (lit "xX")) hex_digit1)))
    (fun '(sign, v) =>
       let v := digits_value 16 0 v in
       if in_i128 v
       then let v := if is_minus sign then - v else v in
            if in_i128 v then Some v else None
       else None).
(** parser.rs:2318-2320. *)
Definition integer_constant : parser Z := alt [hex_integer_constant; dec_integer_constant].

(** parser.rs:1966-1978 and 2023-2025. *)
Definition word_constant (w : text) : parser text :=
  fun s => match re_match (has_word w) s with Some _ => tag w s | None => None end.
Definition true_ : parser bool := value_of true (word_constant (lit "true")).
Definition false_ : parser bool := value_of false (word_constant (lit "false")).
Definition boolean_constant : parser bool := alt [true_; false_].

(** parser.rs:2047-2067. *)
Definition dec_float_exponent : parser text :=
  recognize (pair_ (one_of (lit "eE")) (pair_ (opt plus_or_minus) digit1)).
Definition dec_float_constant : parser Z :=
  map_res
    (recognize (preceded (opt plus_or_minus)
       (alt [terminated (alt [terminated digit1 (terminated period digit0);
                              preceded period digit1])
                        (opt dec_float_exponent);
             terminated digit1 dec_float_exponent])))
    parse_f64.
(** parser.rs:2141-2177; negating flips the sign bit. *)
Definition hex_float_exponent : parser text :=
  recognize (terminated (one_of (lit "pP")) (terminated (opt plus_or_minus) digit1)).
Definition negate (bits : Z) : Z := if bits <? 2 ^ 63 then bits + 2 ^ 63 else bits - 2 ^ 63.
Definition hex_float_constant : parser Z :=
  pmap
    (pair_ (terminated (opt plus_or_minus) (terminated zero (one_of (lit "xX"))))
       (map_res
          (recognize
             (alt [terminated (alt [terminated (terminated hex_digit1 period) hex_digit0;
                                    preceded period hex_digit1])
                              (opt hex_float_exponent);
                   terminated hex_digit1 hex_float_exponent]))
          parse_hexf64))
    (fun '(sign, v) => if is_minus sign then negate v else v).
(** parser.rs:2180-2193, 2228-2241, 2270-2272. *)
Definition nan_bits : Z := 9221120237041090560.
Definition inf_bits : Z := 9218868437227405312.
Definition nan : parser Z :=
  pmap (terminated (opt plus_or_minus) (re_match (has_word (lit "nan"))))
       (fun sign => if is_minus sign then negate nan_bits else nan_bits).
Definition inf_or_infinity : parser Z :=
  pmap (terminated (opt plus_or_minus)
          (re_match (fun s => has_word (lit "inf") s || has_word (lit "infinity") s)))
       (fun sign => if is_minus sign then negate inf_bits else inf_bits).
Definition special_float_constant : parser Z := alt [nan; inf_or_infinity].
(** parser.rs:2082-2088. *)
Definition float_constant : parser Z :=
  alt [special_float_constant; hex_float_constant; dec_float_constant].

(** parser.rs:1428-1434. *)
Definition scalar : parser scalar_const :=
  alt [pmap float_constant CFloat; pmap integer_constant CInt; pmap boolean_constant CBool].
(** parser.rs:1525-1530. *)
Definition p_single : parser single := alt [pmap scalar SScalar; pmap string_constant SString].
(** parser.rs:1645-1650. *)
Definition p_default_value : parser default_value := alt [pmap scalar DScalar; pmap p_ident DIdent].

(** parser.rs:1329-1352. *)
Definition list_comma : parser byte := delimited comment_or_space0 comma comment_or_space0.
Definition metadata_item : parser (ident * option single) :=
  pair_ p_ident
    (opt (preceded comment_or_space0 (preceded colon (preceded comment_or_space0 p_single)))).
Definition raw_metadata : parser metadata :=
  delimited (terminated left_paren comment_or_space0)
    (separated_list list_comma metadata_item)
    (preceded comment_or_space0 right_paren).
Definition p_metadata : parser (option metadata) := opt raw_metadata.

(** parser.rs:1437-1461, 1533-1542 and 1575-1581: [value_], [object] and
    [value_list] call each other; [v] stands for the inner [value_]. *)
Definition key_colon : parser byte := delimited comment_or_space0 colon comment_or_space0.
Definition object_with (v : parser value) : parser (list (ident * value) * comment) :=
  pmap
    (pair_ doc_comment
       (delimited (terminated left_brace comment_or_space0)
          (separated_list list_comma (separated_pair p_ident key_colon v))
          (preceded comment_or_space0 right_brace)))
    (fun '(c, kv) => (kv, c)).
Definition value_list_with (v : parser value) : parser (list value) :=
  delimited (terminated left_square_bracket comment_or_space0)
    (separated_list list_comma v)
    (preceded comment_or_space0 right_square_bracket).
Fixpoint value_n (n : nat) (s : text) : option (value * text) :=
  match n with
  | O => None
  | S n =>
      alt [pmap p_single JSingle;
           pmap (object_with (value_n n)) (fun '(kv, c) => JObject kv c);
           pmap (value_list_with (value_n n)) JList] s
  end.
Definition value_ : parser value := fun s => value_n (S (List.length s)) s.
Definition object : parser (list (ident * value) * comment) := object_with value_.

(** parser.rs:1275-1307: the built-in names in the order they are tried. *)
Definition builtin_names : list (text * aty) :=
  [(lit "bool", APrim Bool); (lit "byte", APrim Byte); (lit "ubyte", APrim UByte);
   (lit "short", APrim Short); (lit "ushort", APrim UShort); (lit "long", APrim Long);
   (lit "ulong", APrim ULong); (lit "double", APrim Double); (lit "int8", APrim Int8);
   (lit "uint8", APrim UInt8); (lit "int16", APrim Int16); (lit "uint16", APrim UInt16);
   (lit "int32", APrim Int32); (lit "uint32", APrim UInt32); (lit "int64", APrim Int64);
   (lit "uint64", APrim UInt64); (lit "float32", APrim Float32); (lit "float64", APrim Float64);
   (lit "int", APrim Int); (lit "uint", APrim UInt); (lit "float", APrim Float);
   (lit "string", AString)].
Definition builtin_type : parser aty :=
  alt (map (fun '(w, t) => value_of t (tag w)) builtin_names).
Fixpoint type_n (n : nat) (s : text) : option (aty * text) :=
  match n with
  | O => None
  | S n =>
      alt [builtin_type;
           pmap (delimited left_square_bracket (type_n n) right_square_bracket) AArray;
           pmap qualified_ident AIdent] s
  end.
Definition type_ : parser aty := fun s => type_n (S (List.length s)) s.

(** parser.rs:1310-1326. *)
Definition enumval_decl : parser avariant :=
  pmap
    (pair_ doc_comment
       (pair_ p_ident
          (opt (preceded comment_or_space0
                  (preceded equals (preceded comment_or_space0 integer_constant))))))
    (fun '(c, (i, v)) => AVariant i v c).
(** parser.rs:681-693. *)
Definition enum_body : parser (list avariant) :=
  delimited
    (delimited comment_or_space0 left_brace comment_or_space0)
    (terminated
       (separated_nonempty_list list_comma enumval_decl)
       (opt (pair_ comment_or_space0 (pair_ comma comment_or_space0))))
    (preceded comment_or_space0 right_brace).
(** parser.rs:695-715. *)
Definition enum_decl : parser aenum :=
  pmap
    (pair_ doc_comment
       (pair_ (preceded (tag (lit "enum")) (delimited comment_or_space1 p_ident comment_or_space0))
          (pair_ (preceded colon (preceded comment_or_space0 type_))
             (pair_ p_metadata enum_body))))
    (fun '(c, (name, (base, (m, vs)))) => AEnum name vs base m c).
(** parser.rs:783-801. *)
Definition union_decl : parser aunion :=
  pmap
    (pair_ doc_comment
       (pair_ (preceded (tag (lit "union")) (delimited comment_or_space1 p_ident comment_or_space0))
          (pair_ p_metadata enum_body)))
    (fun '(c, (name, (m, vs))) => AUnion name vs m c).

(** parser.rs:904-929. *)
Definition field_decl : parser afield :=
  pmap
    (terminated
       (pair_ doc_comment
          (pair_ (terminated p_ident
                    (pair_ comment_or_space0 (pair_ colon comment_or_space0)))
             (pair_ type_
                (pair_ (opt (preceded (pair_ comment_or_space0 (pair_ equals comment_or_space0))
                               p_default_value))
                   (preceded comment_or_space0 p_metadata)))))
       (pair_ comment_or_space0 semicolon))
    (fun '(c, (name, (ty, (d, m)))) => AField name ty d m c).
(** parser.rs:1677-1687. *)
Definition product_type_body : parser (ident * (option metadata * list afield)) :=
  pair_ (delimited comment_or_space1 p_ident comment_or_space0)
    (pair_ (terminated p_metadata comment_or_space0)
       (delimited (preceded left_brace comment_or_space0)
          (many0 (delimited comment_or_space0 field_decl comment_or_space0))
          (terminated comment_or_space0 right_brace))).
(** parser.rs:1690-1717. *)
Definition struct_decl : parser aproduct :=
  pmap (pair_ doc_comment (preceded (tag (lit "struct")) product_type_body))
       (fun '(c, (name, (m, fs))) => AProduct name fs m c).
Definition table_decl : parser aproduct :=
  pmap (pair_ doc_comment (preceded (tag (lit "table")) product_type_body))
       (fun '(c, (name, (m, fs))) => AProduct name fs m c).

(** parser.rs:1191-1219. *)
Definition rpc_method : parser amethod :=
  pmap
    (pair_ doc_comment
       (pair_ (terminated p_ident comment_or_space0)
          (pair_ (delimited left_paren
                    (delimited comment_or_space0 qualified_ident comment_or_space0)
                    right_paren)
             (preceded key_colon
                (terminated (pair_ qualified_ident (preceded comment_or_space0 p_metadata))
                   (terminated comment_or_space0 semicolon))))))
    (fun '(c, (name, (req, (resp, m)))) => AMethod name req resp m c).
(** parser.rs:1076-1098. *)
Definition rpc_decl : parser arpc :=
  pmap
    (pair_ doc_comment
       (pair_ (preceded (terminated (tag (lit "rpc_service")) comment_or_space1)
                 (terminated p_ident comment_or_space0))
          (delimited left_brace
             (many1 (delimited comment_or_space0 rpc_method comment_or_space0))
             right_brace)))
    (fun '(c, (name, ms)) => ARpc name ms c).

(** parser.rs:2342-2354. *)
Definition file_extension_decl : parser (text * comment) :=
  pmap
    (pair_ doc_comment
       (delimited (tag (lit "file_extension"))
          (delimited comment_or_space0 string_constant comment_or_space0)
          semicolon))
    (fun '(c, e) => (e, c)).
(** parser.rs:2415-2452. *)
Definition file_identifier_decl : parser (text * comment) :=
  map_res
    (pair_ doc_comment
       (delimited (tag (lit "file_identifier"))
          (delimited comment_or_space0 (delimited double_quote (take 4) double_quote)
             comment_or_space0)
          semicolon))
    (fun '(c, id) => if Nat.eqb (List.length id) 4 then Some (id, c) else None).

(** parser.rs:200-214. *)
Definition p_element : parser element :=
  alt [pmap namespace_decl (fun '(q, c) => ENamespace q c);
       pmap table_decl ETable;
       pmap struct_decl EStruct;
       pmap enum_decl EEnum;
       pmap union_decl EUnion;
       pmap root_decl ERoot;
       pmap file_extension_decl (fun '(e, c) => EFileExtension e c);
       pmap file_identifier_decl (fun '(i, c) => EFileIdentifier i c);
       pmap attribute_decl EAttribute;
       pmap rpc_decl ERpc;
       pmap object (fun '(o, c) => EObject o c)].
(** parser.rs:259-271. *)
Definition schema_decl : parser schema :=
  pmap
    (pair_ (many0 (delimited comment_or_space0 include_decl comment_or_space0))
       (many0 (delimited comment_or_space0 p_element comment_or_space0)))
    (fun '(is_, es) => Schema is_ es).
End Grammar.

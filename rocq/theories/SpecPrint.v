(** A printer of schemas, and the schemas it can print (for C48). *)
From Coq Require Import Strings.String ZArith List Bool Strings.Byte.
From Verif Require Import Base Schema SpecGrammar.
Import ListNotations.
Local Open Scope Z_scope.

(** * Numbers *)
Definition show_digit (v : Z) : byte := nth (Z.to_nat v) (lit "0123456789") "0"%byte.
Fixpoint show_digits (n : nat) (v : Z) : text :=
  match n with
  | O => [show_digit v]
  | S n => if v <? 10 then [show_digit v] else show_digits n (v / 10) ++ [show_digit (v mod 10)]
  end.
Definition show_nonneg (v : Z) : text := show_digits (Z.to_nat (Z.log2 v)) v.
Definition show_int (v : Z) : text := if v <? 0 then lit "-" ++ show_nonneg (- v) else show_nonneg v.

(** * The printer *)
Fixpoint join (sep : text) (l : list text) : text :=
  match l with
  | [] => []
  | [t] => t
  | t :: l => t ++ sep ++ join sep l
  end.
Definition newline : text := [line_feed].
Definition quoted (s : text) : text := lit """" ++ s ++ lit """".
Definition show_doc (c : comment) : text := flat_map (fun l => lit "///" ++ l ++ newline) c.
Definition show_path (q : qident) : text := join (lit ".") q.

Section Printer.
(** How floats are written is left open. *)
Context (show_float : Z -> text).

Definition show_scalar (s : scalar_const) : text :=
  match s with
  | CInt v => show_int v
  | CFloat v => show_float v
  | CBool true => lit "true"
  | CBool false => lit "false"
  end.
Definition show_single (s : single) : text :=
  match s with SScalar c => show_scalar c | SString s => quoted s end.
Definition show_default (d : default_value) : text :=
  match d with DScalar c => show_scalar c | DIdent x => x end.
Definition show_meta_item (i : ident * option single) : text :=
  match i with
  | (x, None) => x
  | (x, Some v) => x ++ lit ": " ++ show_single v
  end.
Definition show_meta (m : option metadata) : text :=
  match m with None => [] | Some m => lit "(" ++ join (lit ", ") (map show_meta_item m) ++ lit ")" end.
Fixpoint show_value (v : value) : text :=
  match v with
  | JSingle s => show_single s
  | JObject kv c =>
      show_doc c ++ lit "{" ++ join (lit ", ") (map (fun '(x, v) => x ++ lit ": " ++ show_value v) kv) ++ lit "}"
  | JList l => lit "[" ++ join (lit ", ") (map show_value l) ++ lit "]"
  end.
Fixpoint show_type (t : aty) : text :=
  match t with
  | APrim p => prim_name p
  | AString => lit "string"
  | AArray t => lit "[" ++ show_type t ++ lit "]"
  | AIdent q => show_path q
  end.
Definition show_field (f : afield) : text :=
  show_doc (af_doc f) ++ af_id f ++ lit ": " ++ show_type (af_ty f)
    ++ match af_default f with Some d => lit " = " ++ show_default d | None => [] end
    ++ lit " " ++ show_meta (af_meta f) ++ lit ";".
Definition lines (l : list text) : text := flat_map (fun t => t ++ newline) l.
Definition show_product (keyword : text) (p : aproduct) : text :=
  show_doc (ap_doc p) ++ keyword ++ lit " " ++ ap_id p ++ lit " " ++ show_meta (ap_meta p) ++ lit " {"
    ++ newline ++ lines (map show_field (ap_fields p)) ++ lit "}".
Definition show_variant (v : avariant) : text :=
  show_doc (av_doc v) ++ av_id v ++ match av_value v with Some i => lit " = " ++ show_int i | None => [] end.
Definition show_variants (vs : list avariant) : text :=
  lit " {" ++ newline ++ join (lit "," ++ newline) (map show_variant vs) ++ newline ++ lit "}".
Definition show_enum (e : aenum) : text :=
  show_doc (ae_doc e) ++ lit "enum " ++ ae_id e ++ lit " : " ++ show_type (ae_base e)
    ++ show_meta (ae_meta e) ++ show_variants (ae_variants e).
Definition show_union (u : aunion) : text :=
  show_doc (au_doc u) ++ lit "union " ++ au_id u ++ lit " " ++ show_meta (au_meta u) ++ show_variants (au_variants u).
Definition show_method (m : amethod) : text :=
  show_doc (am_doc m) ++ am_id m ++ lit "(" ++ show_path (am_request m) ++ lit "): "
    ++ show_path (am_response m) ++ lit " " ++ show_meta (am_meta m) ++ lit ";".
Definition show_rpc (r : arpc) : text :=
  show_doc (ar_doc r) ++ lit "rpc_service " ++ ar_id r ++ lit " {" ++ newline
    ++ lines (map show_method (ar_methods r)) ++ lit "}".
Definition show_statement (keyword : text) (c : comment) (t : text) : text :=
  show_doc c ++ keyword ++ lit " " ++ t ++ lit ";".
Definition show_element (e : element) : text :=
  match e with
  | ENamespace q c => show_statement (lit "namespace") c (show_path q)
  | ETable p => show_product (lit "table") p
  | EStruct p => show_product (lit "struct") p
  | EEnum e => show_enum e
  | EUnion u => show_union u
  | ERoot x => show_statement (lit "root_type") [] x
  | EFileExtension t c => show_statement (lit "file_extension") c (quoted t)
  | EFileIdentifier t c => show_statement (lit "file_identifier") c (quoted t)
  | EAttribute x => show_statement (lit "attribute") [] (quoted x)
  | ERpc r => show_rpc r
  | EObject kv c => show_value (JObject kv c)
  end.
Definition show_include (i : include) : text := show_statement (lit "include") (in_doc i) (quoted (in_path i)).
Definition show_schema (s : schema) : text :=
  lines (map show_include (sc_includes s)) ++ lines (map show_element (sc_elements s)).
End Printer.

(** * The schemas that have a text at all: names are names, documentation lines
    are single lines, strings are well escaped, integers fit. *)
Section Writable.
Context (uni_alphabetic uni_alphanumeric : text -> bool).
Context (parse_f64 parse_hexf64 : text -> option Z).
Context (has_stem : text -> bool).
Context (show_float : Z -> text).
Notation name_text := (name_text uni_alphabetic uni_alphanumeric).

Definition doc_ok (c : comment) : Prop := Forall one_line c.
Definition path_ok (q : qident) : Prop := q <> [] /\ Forall name_text q.
Definition scalar_ok (s : scalar_const) : Prop :=
  match s with
  | CInt v => i128 v
  | CFloat v => float_text parse_f64 parse_hexf64 (show_float v) v
  | CBool _ => True
  end.
Definition single_ok (s : single) : Prop :=
  match s with SScalar c => scalar_ok c | SString s => string_body s end.
Definition default_ok (d : default_value) : Prop :=
  match d with DScalar c => scalar_ok c | DIdent x => name_text x end.
Definition meta_ok (m : option metadata) : Prop :=
  match m with
  | None => True
  | Some m => Forall (fun '(x, v) => name_text x /\ match v with Some v => single_ok v | None => True end) m
  end.
Inductive value_ok : value -> Prop :=
| value_ok_single s : single_ok s -> value_ok (JSingle s)
| value_ok_object kv c :
    doc_ok c -> (forall x v, In (x, v) kv -> name_text x /\ value_ok v) -> value_ok (JObject kv c)
| value_ok_list l : (forall v, In v l -> value_ok v) -> value_ok (JList l).
Fixpoint type_ok (t : aty) : Prop :=
  match t with
  | APrim _ | AString => True
  | AArray t => type_ok t
  | AIdent q => path_ok q
  end.
Definition field_ok (f : afield) : Prop :=
  doc_ok (af_doc f) /\ name_text (af_id f) /\ type_ok (af_ty f)
  /\ match af_default f with Some d => default_ok d | None => True end /\ meta_ok (af_meta f).
Definition product_ok (p : aproduct) : Prop :=
  doc_ok (ap_doc p) /\ name_text (ap_id p) /\ meta_ok (ap_meta p) /\ Forall field_ok (ap_fields p).
Definition variant_ok (v : avariant) : Prop :=
  doc_ok (av_doc v) /\ name_text (av_id v) /\ match av_value v with Some i => i128 i | None => True end.
Definition variants_ok (vs : list avariant) : Prop := vs <> [] /\ Forall variant_ok vs.
Definition enum_ok (e : aenum) : Prop :=
  doc_ok (ae_doc e) /\ name_text (ae_id e) /\ type_ok (ae_base e) /\ meta_ok (ae_meta e) /\ variants_ok (ae_variants e).
Definition union_ok (u : aunion) : Prop :=
  doc_ok (au_doc u) /\ name_text (au_id u) /\ meta_ok (au_meta u) /\ variants_ok (au_variants u).
Definition method_ok (m : amethod) : Prop :=
  doc_ok (am_doc m) /\ name_text (am_id m) /\ path_ok (am_request m) /\ path_ok (am_response m) /\ meta_ok (am_meta m).
Definition rpc_ok (r : arpc) : Prop :=
  doc_ok (ar_doc r) /\ name_text (ar_id r) /\ ar_methods r <> [] /\ Forall method_ok (ar_methods r).
Definition element_ok (e : element) : Prop :=
  match e with
  | ENamespace q c => doc_ok c /\ path_ok q
  | ETable p | EStruct p => product_ok p
  | EEnum e => enum_ok e
  | EUnion u => union_ok u
  | ERoot x => name_text x
  | EFileExtension t c => doc_ok c /\ string_body t
  | EFileIdentifier t c => doc_ok c /\ identifier_text (quoted t) t
  | EAttribute x => string_body x
  | ERpc r => rpc_ok r
  | EObject kv c => value_ok (JObject kv c)
  end.
Definition include_ok (i : include) : Prop :=
  doc_ok (in_doc i) /\ string_body (in_path i) /\ has_stem (in_path i) = true.
Definition writable (s : schema) : Prop :=
  Forall include_ok (sc_includes s) /\ Forall element_ok (sc_elements s).
End Writable.

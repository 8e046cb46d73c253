(** The project's own unit tests of the parser, butte-build/src/ast/parser.rs,
    run on the model of it (Parser.v): the tests of that file (three more are in RepoTests2.v), with
    the input copied from it and the expected answer written as a value of
    Schema.v.  These are tests of how faithful the model is; no property rests
    on them.

    A [HashMap] of metadata is its list of pairs here, so the tests in which one
    key occurs twice expect both pairs.  The errors of failed parses are [None]
    here.  The values expected of floating-point literals are the bit patterns
    of the same literals. *)
From Coq Require Import Strings.String ZArith List Bool Strings.Byte.
From Verif Require Import Base Schema Parser.
Import ListNotations.
Local Open Scope Z_scope.

(** What the standard library answers on the inputs of these tests. *)
Definition t_unicode (c : text) : bool := false.
Definition t_f64 (s : text) : option Z :=
  match find (fun p => bytes_eqb (fst p) s)
    [(lit "2.0", 4611686018427387904);
     (lit "1.0", 4607182418800017408);
     (lit "2.3", 4612361558371493478);
     (lit "2.42", 4612631774349135708);
     (lit "42.42", 4631166901565532406);
     (lit "-2.1", 13835283235263532237)] with
  | Some p => Some (snd p)
  | None => None
  end.
Definition t_hexf64 (s : text) : option Z := None.
Definition t_stem (s : text) : bool := true.

(** The parsers under test. *)
Definition r_ident := p_ident t_unicode t_unicode.
Definition r_include := include_decl t_stem.
Definition r_namespace := namespace_decl t_unicode t_unicode.
Definition r_attribute := attribute_decl t_unicode t_unicode.
Definition r_root := root_decl t_unicode t_unicode.
Definition r_qualified := qualified_ident t_unicode t_unicode.
Definition r_true := true_ t_unicode.
Definition r_false := false_ t_unicode.
Definition r_boolean := boolean_constant t_unicode.
Definition r_dec_float := dec_float_constant t_f64.
Definition r_nan := nan t_unicode.
Definition r_inf := inf_or_infinity t_unicode.
Definition r_special := special_float_constant t_unicode.
Definition r_float := float_constant t_unicode t_f64 t_hexf64.
Definition r_default := p_default_value t_unicode t_unicode t_unicode t_f64 t_hexf64.
Definition r_metadata := p_metadata t_unicode t_unicode t_unicode t_f64 t_hexf64.
Definition r_object := object t_unicode t_unicode t_unicode t_f64 t_hexf64.
Definition r_value := value_ t_unicode t_unicode t_unicode t_f64 t_hexf64.
Definition r_enum := enum_decl t_unicode t_unicode t_unicode t_f64 t_hexf64.
Definition r_union := union_decl t_unicode t_unicode t_unicode t_f64 t_hexf64.
Definition r_field := field_decl t_unicode t_unicode t_unicode t_f64 t_hexf64.
Definition r_table := table_decl t_unicode t_unicode t_unicode t_f64 t_hexf64.
Definition r_method := rpc_method t_unicode t_unicode t_unicode t_f64 t_hexf64.
Definition r_rpc := rpc_decl t_unicode t_unicode t_unicode t_f64 t_hexf64.
Definition r_element := p_element t_unicode t_unicode t_unicode t_f64 t_hexf64.
Definition r_schema := schema_decl t_unicode t_unicode t_unicode t_f64 t_hexf64 t_stem.
Definition r_value_list := value_list_with r_value.

(** parser.rs:48 *)
Example r_test_plus_or_minus :
  plus_or_minus (lit "+")
  = Some ("+"%byte, []) /\
  plus_or_minus (lit "-")
  = Some ("-"%byte, []).
Proof. repeat split; vm_compute; reflexivity. Qed.
(** parser.rs:54 *)
Example r_test_invalid_plus_or_minus :
  plus_or_minus (lit "/")
  = None.
Proof. vm_compute; reflexivity. Qed.
(** parser.rs:130 *)
Example r_test_simple_ident :
  r_ident (lit "foo")
  = Some ((lit "foo"), []).
Proof. vm_compute; reflexivity. Qed.
(** parser.rs:135 *)
Example r_test_underscore_prefix :
  r_ident (lit "_foo")
  = Some ((lit "_foo"), []).
Proof. vm_compute; reflexivity. Qed.
(** parser.rs:140 *)
Example r_test_just_underscore :
  r_ident (lit "_")
  = Some ((lit "_"), []).
Proof. vm_compute; reflexivity. Qed.
(** parser.rs:145 *)
Example r_test_id_with_number :
  r_ident (lit "foo1")
  = Some ((lit "foo1"), []).
Proof. vm_compute; reflexivity. Qed.
(** parser.rs:150 *)
Example r_test_invalid_ident_contains_valid :
  r_ident (lit "1foo")
  = None.
Proof. vm_compute; reflexivity. Qed.
(** parser.rs:155 *)
Example r_test_number_is_invalid :
  r_ident (lit "1")
  = None.
Proof. vm_compute; reflexivity. Qed.
(** parser.rs:161 *)
Example r_test_empty_ident_is_invalid :
  r_ident ([])
  = None.
Proof. vm_compute; reflexivity. Qed.
(** parser.rs:187 *)
Example r_test_string_constant :
  string_constant (lit """a b c D \""z1""")
  = Some (lit "a b c D \""z1", []).
Proof. vm_compute; reflexivity. Qed.
(** parser.rs:193 *)
Example r_test_empty_string_constant :
  string_constant (lit """""")
  = Some ([], []).
Proof. vm_compute; reflexivity. Qed.
(** parser.rs:221 *)
Example r_test_element_schema :
  r_element (lit "rpc_service Greeter {
  SayHello(HelloRequest):HelloReply;
  SayManyHellos(ManyHellosRequest):HelloReply (streaming: ""server"");
}")
  = Some (ERpc (ARpc (lit "Greeter") [(AMethod (lit "SayHello") [(lit "HelloRequest")] [(lit "HelloReply")] None []); (AMethod (lit "SayManyHellos") [(lit "ManyHellosRequest")] [(lit "HelloReply")] (Some [((lit "streaming"), (Some (SString (lit "server"))))]) [])] []), []).
Proof. vm_compute; reflexivity. Qed.
(** parser.rs:278 *)
Example r_test_simple_include_with_comments :
  (many0 (delimited comment_or_space0 r_include comment_or_space0)) (lit "//baz
include ""a""; // bar
")
  = Some ([(Include (lit "a") [])], []).
Proof. vm_compute; reflexivity. Qed.
(** parser.rs:291 *)
Example r_test_includes_only_schema :
  r_schema (lit "include ""a""; // bar
        // foo
include ""b"";


include ""foo/bar/baz.fbs"";

    ")
  = Some (Schema [(Include (lit "a") []); (Include (lit "b") []); (Include (lit "foo/bar/baz.fbs") [])] [], []).
Proof. vm_compute; reflexivity. Qed.
(** parser.rs:312 *)
Example r_test_elements_only_schema :
  r_schema (lit "table MyMessage {
  message: string;
  foo: float64 = 2.0;
}")
  = Some (Schema [] [ETable (AProduct (lit "MyMessage") [(AField (lit "message") AString None None []); (AField (lit "foo") (APrim Float64) (Some (DScalar (CFloat 4611686018427387904))) None [])] None [])], []).
Proof. vm_compute; reflexivity. Qed.
(** parser.rs:329 *)
Example r_test_full_schema :
  r_schema (lit "

include ""foo/bar/baz.fbs"";

table HelloReply {
  message:string;
} // bar

// foo!

table HelloRequest {
  name:string;
}

table ManyHellosRequest {
  name:string;
  num_greetings:int;
}

namespace foo.bar;

rpc_service Greeter {
  SayHello(HelloRequest):HelloReply;
  SayManyHellos(ManyHellosRequest):HelloReply (streaming: ""server"");
}

")
  = Some (Schema [(Include (lit "foo/bar/baz.fbs") [])] [ETable (AProduct (lit "HelloReply") [(AField (lit "message") AString None None [])] None []); ETable (AProduct (lit "HelloRequest") [(AField (lit "name") AString None None [])] None []); ETable (AProduct (lit "ManyHellosRequest") [(AField (lit "name") AString None None []); (AField (lit "num_greetings") (APrim Int) None None [])] None []); ENamespace [(lit "foo"); (lit "bar")] []; ERpc (ARpc (lit "Greeter") [(AMethod (lit "SayHello") [(lit "HelloRequest")] [(lit "HelloReply")] None []); (AMethod (lit "SayManyHellos") [(lit "ManyHellosRequest")] [(lit "HelloReply")] (Some [((lit "streaming"), (Some (SString (lit "server"))))]) [])] [])], []).
Proof. vm_compute; reflexivity. Qed.
(** parser.rs:384 *)
Example r_test_schema_with_namespaces :
  r_schema (lit "
namespace a.b;

table A {
  message: string;
}

namespace c;

table C {
  field1: a.b.A;
}
")
  = Some (Schema [] [ENamespace [(lit "a"); (lit "b")] []; ETable (AProduct (lit "A") [(AField (lit "message") AString None None [])] None []); ENamespace [(lit "c")] []; ETable (AProduct (lit "C") [(AField (lit "field1") (AIdent [(lit "a"); (lit "b"); (lit "A")]) None None [])] None [])], []).
Proof. vm_compute; reflexivity. Qed.
(** parser.rs:409 *)
Example r_test_schema_with_namespace :
  r_schema (lit "

namespace baz;

table Hello{
  message:string;
  count:uint64; } // bar
")
  = Some (Schema [] [ENamespace [(lit "baz")] []; ETable (AProduct (lit "Hello") [(AField (lit "message") AString None None []); (AField (lit "count") (APrim UInt64) None None [])] None [])], []).
Proof. vm_compute; reflexivity. Qed.
(** parser.rs:461 *)
Example r_test_include_decl_with_comments :
  r_include (lit "include //fizz
            //buzz
" ++ [x09] ++ lit """foo""//bzz
;")
  = Some ((Include (lit "foo") []), []).
Proof. vm_compute; reflexivity. Qed.
(** parser.rs:474 *)
Example r_test_include_decl :
  r_include (lit "include ""foo"";")
  = Some ((Include (lit "foo") []), []).
Proof. vm_compute; reflexivity. Qed.
(** parser.rs:484 *)
Example r_test_include_decl_prefix_whitespace :
  r_include (lit "include     ""foo"";")
  = Some ((Include (lit "foo") []), []).
Proof. vm_compute; reflexivity. Qed.
(** parser.rs:494 *)
Example r_test_include_decl_no_prefix_whitespace :
  r_include (lit "include""foo"";")
  = None.
Proof. vm_compute; reflexivity. Qed.
(** parser.rs:500 *)
Example r_test_include_decl_trailing_whitespace :
  r_include (lit "include ""foo""    ;")
  = Some ((Include (lit "foo") []), []).
Proof. vm_compute; reflexivity. Qed.
(** parser.rs:540 *)
Example r_test_namespace_decl_with_comments :
  r_namespace (lit "namespace // a namespace comment 
a// Yet another one" ++ [x09] ++ lit "


;")
  = Some (([(lit "a")], []), []).
Proof. vm_compute; reflexivity. Qed.
(** parser.rs:548 *)
Example r_test_namespace_decl_with_doc_comment :
  r_namespace (lit "/// foo
namespace foo;")
  = Some (([(lit "foo")], [lit " foo"]), []).
Proof. vm_compute; reflexivity. Qed.
(** parser.rs:558 *)
Example r_test_namespace_decl_with_doc_and_non_doc_comment :
  r_namespace (lit "/// foo
// Bar
namespace foo;")
  = Some (([(lit "foo")], [lit " foo"]), []).
Proof. vm_compute; reflexivity. Qed.
(** parser.rs:569 *)
Example r_test_namespace_decl_with_doc_space_and_non_doc_comment :
  r_namespace (lit "/// foo
//
// Bar

namespace foo;")
  = Some (([(lit "foo")], [lit " foo"]), []).
Proof. vm_compute; reflexivity. Qed.
(** parser.rs:582 *)
Example r_test_one_level_namespace_decl :
  r_namespace (lit "namespace a;")
  = Some (([(lit "a")], []), []).
Proof. vm_compute; reflexivity. Qed.
(** parser.rs:589 *)
Example r_test_two_level_namespace_decl :
  r_namespace (lit "namespace a.b;")
  = Some (([(lit "a"); (lit "b")], []), []).
Proof. vm_compute; reflexivity. Qed.
(** parser.rs:596 *)
Example r_test_three_level_namespace_decl :
  r_namespace (lit "namespace a.b.c;")
  = Some (([(lit "a"); (lit "b"); (lit "c")], []), []).
Proof. vm_compute; reflexivity. Qed.
(** parser.rs:603 *)
Example r_test_three_level_namespace_decl_ws :
  r_namespace (lit "namespace " ++ [x0d] ++ lit "
a  .b.c
" ++ [x09] ++ lit ";")
  = Some (([(lit "a"); (lit "b"); (lit "c")], []), []).
Proof. vm_compute; reflexivity. Qed.
(** parser.rs:634 *)
Example r_test_simple_attribute_decl_with_comments :
  r_attribute (lit "attribute// gah, an attr!
            a;")
  = Some ((lit "a"), []).
Proof. vm_compute; reflexivity. Qed.
(** parser.rs:644 *)
Example r_test_attribute_decl_with_doc_comments :
  r_attribute (lit "/// An
/// Attribute
// implementation notes
/// Further comments
attribute a;")
  = Some ((lit "a"), []).
Proof. vm_compute; reflexivity. Qed.
(** parser.rs:659 *)
Example r_test_simple_attribute_decl :
  r_attribute (lit "attribute a;")
  = Some ((lit "a"), []).
Proof. vm_compute; reflexivity. Qed.
(** parser.rs:666 *)
Example r_test_quoted_attribute_decl :
  r_attribute (lit "attribute ""a"";")
  = Some ((lit "a"), []).
Proof. vm_compute; reflexivity. Qed.
(** parser.rs:673 *)
Example r_test_attribute_decl_ws :
  r_attribute (lit "attribute" ++ [x09] ++ lit "
" ++ [x09] ++ lit " my_attr

" ++ [x0d] ++ lit "
;")
  = Some ((lit "my_attr"), []).
Proof. vm_compute; reflexivity. Qed.
(** parser.rs:722 *)
Example r_test_simple_enum_with_comments :
  r_enum (lit "enum // thing
        MyEnum //other thing!
        // jazz?
: int32 // fiz!
        { foo // bar
            = 1, bar //ugh!
        }")
  = Some ((AEnum (lit "MyEnum") [(AVariant (lit "foo") (Some 1) []); (AVariant (lit "bar") None [])] (APrim Int32) None []), []).
Proof. vm_compute; reflexivity. Qed.
(** parser.rs:736 *)
Example r_test_enum_with_doc_comments :
  r_enum (lit "/// The enum!
enum MyEnum : int32 {
    // Not a doc commment
    /// Maybe it's a foo
    foo = 1,
    // Hm,
    /// Could be a bar though
    bar,

    // Nope, it's a baz
    baz = 9,
}")
  = Some ((AEnum (lit "MyEnum") [(AVariant (lit "foo") (Some 1) [lit " Maybe it's a foo"]); (AVariant (lit "bar") None [lit " Could be a bar though"]); (AVariant (lit "baz") (Some 9) [])] (APrim Int32) None [lit " The enum!"]), []).
Proof. vm_compute; reflexivity. Qed.
(** parser.rs:765 *)
Example r_test_simple_enum :
  r_enum (lit "enum MyEnum : int32 { foo = 1, bar }")
  = Some ((AEnum (lit "MyEnum") [(AVariant (lit "foo") (Some 1) []); (AVariant (lit "bar") None [])] (APrim Int32) None []), []).
Proof. vm_compute; reflexivity. Qed.
(** parser.rs:774 *)
Example r_test_simple_enum_with_trailing_comma :
  r_enum (lit "enum MyEnum : int32 { foo = 1, bar, }")
  = Some ((AEnum (lit "MyEnum") [(AVariant (lit "foo") (Some 1) []); (AVariant (lit "bar") None [])] (APrim Int32) None []), []).
Proof. vm_compute; reflexivity. Qed.
(** parser.rs:808 *)
Example r_test_simple_union_with_comments :
  r_union (lit "union //foo!
MyUnion // comment
            //comment
// thing
{ // comm
            foo // foo!
            = 1//bar
            ," ++ [x09] ++ [x09] ++ lit "bar, //baz! field
Baz=     234 

 // ha!
}")
  = Some ((AUnion (lit "MyUnion") [(AVariant (lit "foo") (Some 1) []); (AVariant (lit "bar") None []); (AVariant (lit "Baz") (Some 234) [])] None []), []).
Proof. vm_compute; reflexivity. Qed.
(** parser.rs:823 *)
Example r_test_union_with_doc_comments :
  r_union (lit "/// Unionize!
union MyUnion {
    // Not a doc commment
    /// Maybe it's a foo
    foo = 1,
    // Hm,
    /// Could be a bar though
    bar,

    // Nope, it's a baz
    baz = 9,
}")
  = Some ((AUnion (lit "MyUnion") [(AVariant (lit "foo") (Some 1) [lit " Maybe it's a foo"]); (AVariant (lit "bar") None [lit " Could be a bar though"]); (AVariant (lit "baz") (Some 9) [])] None [lit " Unionize!"]), []).
Proof. vm_compute; reflexivity. Qed.
(** parser.rs:851 *)
Example r_test_simple_union :
  r_union (lit "union MyUnion { foo = 1, bar, Baz = 234 }")
  = Some ((AUnion (lit "MyUnion") [(AVariant (lit "foo") (Some 1) []); (AVariant (lit "bar") None []); (AVariant (lit "Baz") (Some 234) [])] None []), []).
Proof. vm_compute; reflexivity. Qed.
(** parser.rs:882 *)
Example r_test_root_decl :
  r_root (lit "root_type Foo;")
  = Some ((lit "Foo"), []).
Proof. vm_compute; reflexivity. Qed.
(** parser.rs:889 *)
Example r_test_root_decl_with_doc_comments :
  r_root (lit "/// I am Foo.
// Not a doc

root_type Foo;")
  = Some ((lit "Foo"), []).
Proof. vm_compute; reflexivity. Qed.
(** parser.rs:936 *)
Example r_test_field_decl_with_metadata :
  r_field (lit "message: string (required);")
  = Some ((AField (lit "message") AString None (Some [((lit "required"), None)]) []), []).
Proof. vm_compute; reflexivity. Qed.
(** parser.rs:944 *)
Example r_test_field_decl_with_comments :
  r_field (lit "foo // bar
// baz
 :
" ++ [x09] ++ lit "float64 // fizz
=         // buuzzzz
" ++ [x09] ++ [x09] ++ [x09] ++ lit "2.0


;")
  = Some ((AField (lit "foo") (APrim Float64) (Some (DScalar (CFloat 4611686018427387904))) None []), []).
Proof. vm_compute; reflexivity. Qed.
(** parser.rs:962 *)
Example r_test_field_decl_with_doc_comment :
  r_field (lit "/// A really great field
great: int64;")
  = Some ((AField (lit "great") (APrim Int64) None None [lit " A really great field"]), []).
Proof. vm_compute; reflexivity. Qed.
(** parser.rs:973 *)
Example r_test_field_decl_with_doc_and_non_doc_comment :
  r_field (lit "/// A really great field
// Not part of the doc

great: int64;")
  = Some ((AField (lit "great") (APrim Int64) None None [lit " A really great field"]), []).
Proof. vm_compute; reflexivity. Qed.
(** parser.rs:986 *)
Example r_test_field_decl_with_spaced_doc_comment :
  r_field (lit "/// A really great field

great: int64;")
  = Some ((AField (lit "great") (APrim Int64) None None [lit " A really great field"]), []).
Proof. vm_compute; reflexivity. Qed.
(** parser.rs:998 *)
Example r_test_field_decl_with_space_doc_and_non_doc_comment :
  r_field (lit "/// A really great field
// comment


// Thing!
great: int64;")
  = Some ((AField (lit "great") (APrim Int64) None None [lit " A really great field"]), []).
Proof. vm_compute; reflexivity. Qed.
(** parser.rs:1013 *)
Example r_test_field_decl :
  r_field (lit "foo: float64 = 2.0;")
  = Some ((AField (lit "foo") (APrim Float64) (Some (DScalar (CFloat 4611686018427387904))) None []), []).
Proof. vm_compute; reflexivity. Qed.
(** parser.rs:1021 *)
Example r_test_field_decl_uint :
  r_field (lit "foo :uint=3;")
  = Some ((AField (lit "foo") (APrim UInt) (Some (DScalar (CInt 3))) None []), []).
Proof. vm_compute; reflexivity. Qed.
(** parser.rs:1029 *)
Example r_test_field_decl_no_scalar :
  r_field (lit "foo:float64    //faz
;")
  = Some ((AField (lit "foo") (APrim Float64) None None []), []).
Proof. vm_compute; reflexivity. Qed.
(** parser.rs:1037 *)
Example r_test_field_decl_enum_default_value :
  r_field (lit "foo : MyEnum = Foo;")
  = Some ((AField (lit "foo") (AIdent [(lit "MyEnum")]) (Some (DIdent (lit "Foo"))) None []), []).
Proof. vm_compute; reflexivity. Qed.
(** parser.rs:1051 *)
Example r_test_field_decl_boolean_default_value_explicit_false :
  r_field (lit "foo : bool = false;")
  = Some ((AField (lit "foo") (APrim Bool) (Some (DScalar (CBool false))) None []), []).
Proof. vm_compute; reflexivity. Qed.
(** parser.rs:1063 *)
Example r_test_field_decl_boolean_default_value_true :
  r_field (lit "foo : bool = true;")
  = Some ((AField (lit "foo") (APrim Bool) (Some (DScalar (CBool true))) None []), []).
Proof. vm_compute; reflexivity. Qed.
(** parser.rs:1105 *)
Example r_test_rpc_decl_single_method_with_comments :
  r_rpc (lit "rpc_service Greeter { // foo
    //b baz
  SayHello(// foo
  HelloRequest):HelloReply; // zaz
// zu
}")
  = Some ((ARpc (lit "Greeter") [(AMethod (lit "SayHello") [(lit "HelloRequest")] [(lit "HelloReply")] None [])] []), []).
Proof. vm_compute; reflexivity. Qed.
(** parser.rs:1119 *)
Example r_test_rpc_decl_single_method :
  r_rpc (lit "rpc_service Greeter {
  SayHello(HelloRequest):HelloReply;
}")
  = Some ((ARpc (lit "Greeter") [(AMethod (lit "SayHello") [(lit "HelloRequest")] [(lit "HelloReply")] None [])] []), []).
Proof. vm_compute; reflexivity. Qed.
(** parser.rs:1130 *)
Example r_test_rpc_decl_multiple_methods :
  r_rpc (lit "rpc_service Greeter {
  SayHello   (HelloRequest ):HelloReply;
  SayManyHellos(ManyHellosRequest):HelloReply  (streaming: ""server""  ) ;

}")
  = Some ((ARpc (lit "Greeter") [(AMethod (lit "SayHello") [(lit "HelloRequest")] [(lit "HelloReply")] None []); (AMethod (lit "SayManyHellos") [(lit "ManyHellosRequest")] [(lit "HelloReply")] (Some [((lit "streaming"), (Some (SString (lit "server"))))]) [])] []), []).
Proof. vm_compute; reflexivity. Qed.
(** parser.rs:1151 *)
Example r_test_rpc_decl_doc_comment :
  r_rpc (lit "/// A greeter service!
// impl
/// User facing
rpc_service Greeter {
  /// Hi there!
  SayHello   (HelloRequest ):HelloReply;
  /// Multiple hi theres!
  SayManyHellos(ManyHellosRequest):HelloReply  (streaming: ""server""  ) ;

}")
  = Some ((ARpc (lit "Greeter") [(AMethod (lit "SayHello") [(lit "HelloRequest")] [(lit "HelloReply")] None [lit " Hi there!"]); (AMethod (lit "SayManyHellos") [(lit "ManyHellosRequest")] [(lit "HelloReply")] (Some [((lit "streaming"), (Some (SString (lit "server"))))]) [lit " Multiple hi theres!"])] [lit " A greeter service!"; lit " User facing"]), []).
Proof. vm_compute; reflexivity. Qed.
(** parser.rs:1183 *)
Example r_test_simple_qualified_ident :
  r_qualified (lit "a.b")
  = Some ([(lit "a"); (lit "b")], []).
Proof. vm_compute; reflexivity. Qed.
(** parser.rs:1226 *)
Example r_test_rpc_method_with_comments :
  r_method (lit "SayHello // foo
(// bar
    HelloRequest
        // fiizz
        )
//buzz
// baz
:
    HelloReply // saz
// fzz
;")
  = Some ((AMethod (lit "SayHello") [(lit "HelloRequest")] [(lit "HelloReply")] None []), []).
Proof. vm_compute; reflexivity. Qed.
(** parser.rs:1245 *)
Example r_test_rpc_method :
  r_method (lit "SayHello(HelloRequest):HelloReply;")
  = Some ((AMethod (lit "SayHello") [(lit "HelloRequest")] [(lit "HelloReply")] None []), []).
Proof. vm_compute; reflexivity. Qed.
(** parser.rs:1253 *)
Example r_test_rpc_method_with_metadata :
  r_method (lit "SayHello(HelloRequest):HelloReply (streaming: ""server"", streaming: ""server"");")
  = Some ((AMethod (lit "SayHello") [(lit "HelloRequest")] [(lit "HelloReply")] (Some [((lit "streaming"), (Some (SString (lit "server")))); ((lit "streaming"), (Some (SString (lit "server"))))]) []), []).
Proof. vm_compute; reflexivity. Qed.
(** parser.rs:1263 *)
Example r_test_rpc_method_with_metadata_and_comments :
  r_method (lit "SayHello(HelloRequest):HelloReply (streaming:
            // fuzz
            ""server"", streaming: ""server"");")
  = Some ((AMethod (lit "SayHello") [(lit "HelloRequest")] [(lit "HelloReply")] (Some [((lit "streaming"), (Some (SString (lit "server")))); ((lit "streaming"), (Some (SString (lit "server"))))]) []), []).
Proof. vm_compute; reflexivity. Qed.
(** parser.rs:1359 *)
Example r_test_simple_metadata_with_comments :
  r_metadata (lit "(
    // fuzzy
    a // wuzzy
    : // wuz
    ""b""
// a bear
" ++ [x09] ++ lit ")")
  = Some ((Some [((lit "a"), (Some (SString (lit "b"))))]), []).
Proof. vm_compute; reflexivity. Qed.
(** parser.rs:1374 *)
Example r_test_simple_metadata :
  r_metadata (lit "(a: ""b"")")
  = Some ((Some [((lit "a"), (Some (SString (lit "b"))))]), []).
Proof. vm_compute; reflexivity. Qed.
(** parser.rs:1382 *)
Example r_test_single_metadata :
  r_metadata (lit "(required)")
  = Some ((Some [((lit "required"), None)]), []).
Proof. vm_compute; reflexivity. Qed.
(** parser.rs:1390 *)
Example r_test_empty_metadata :
  r_metadata (lit "()")
  = Some (Some [], []).
Proof. vm_compute; reflexivity. Qed.
(** parser.rs:1398 *)
Example r_test_keys_only_metadata :
  r_metadata (lit "(a, b, c, def)")
  = Some ((Some [((lit "a"), None); ((lit "b"), None); ((lit "c"), None); ((lit "def"), None)]), []).
Proof. vm_compute; reflexivity. Qed.
(** parser.rs:1411 *)
Example r_test_multiple_field_metadata :
  r_metadata (lit "(x, a: ""news"", b: 42,c: 42.42, d, e)")
  = Some ((Some [((lit "x"), None); ((lit "a"), (Some (SString (lit "news")))); ((lit "b"), (Some (SScalar (CInt 42)))); ((lit "c"), (Some (SScalar (CFloat 4631166901565532406)))); ((lit "d"), None); ((lit "e"), None)]), []).
Proof. vm_compute; reflexivity. Qed.
(** parser.rs:1468 *)
Example r_test_object :
  r_object (lit "{a: [""b"", 1.0, 2, [3]]}")
  = Some (([((lit "a"), (JList [(JSingle (SString (lit "b"))); (JSingle (SScalar (CFloat 4607182418800017408))); (JSingle (SScalar (CInt 2))); (JList [(JSingle (SScalar (CInt 3)))])]))], []), []).
Proof. vm_compute; reflexivity. Qed.
(** parser.rs:1478 *)
Example r_test_empty_object :
  r_object (lit "{}")
  = Some (([], []), []).
Proof. vm_compute; reflexivity. Qed.
(** parser.rs:1486 *)
Example r_test_object_with_doc_comments :
  r_object (lit "/// A doc
//
/// Comment

{}")
  = Some (([], [lit " A doc"; lit " Comment"]), []).
Proof. vm_compute; reflexivity. Qed.
(** parser.rs:1499 *)
Example r_test_object_with_comments :
  r_object (lit "{
        // baz

            a //buzz
                : // fizz
                [// baz
""b"" // foo
, // fizz
         1.0, 2, [//foo
             3//bar
         ]
                //baz
                ]
                // foo
}")
  = Some (([((lit "a"), (JList [(JSingle (SString (lit "b"))); (JSingle (SScalar (CFloat 4607182418800017408))); (JSingle (SScalar (CInt 2))); (JList [(JSingle (SScalar (CInt 3)))])]))], []), []).
Proof. vm_compute; reflexivity. Qed.
(** parser.rs:1549 *)
Example r_test_value_list :
  r_value_list (lit "[""a"",1, 2]")
  = Some ([(JSingle (SString (lit "a"))); (JSingle (SScalar (CInt 1))); (JSingle (SScalar (CInt 2)))], []).
Proof. vm_compute; reflexivity. Qed.
(** parser.rs:1556 *)
Example r_test_value_list_with_comments :
  r_value_list (lit "[//thing
    ""a"",1
    // comment
    ,
           // a huge comment
           // on
           // mul-
           // tiple lines, some space too!

            2// fiz
                ]")
  = Some ([(JSingle (SString (lit "a"))); (JSingle (SScalar (CInt 1))); (JSingle (SScalar (CInt 2)))], []).
Proof. vm_compute; reflexivity. Qed.
(** parser.rs:1588 *)
Example r_test_value_single_value :
  r_value (lit "1")
  = Some ((JSingle (SScalar (CInt 1))), []) /\
  r_value (lit "2.3")
  = Some ((JSingle (SScalar (CFloat 4612361558371493478))), []) /\
  r_value (lit """abc d""")
  = Some ((JSingle (SString (lit "abc d"))), []) /\
  r_value (lit "true")
  = Some ((JSingle (SScalar (CBool true))), []) /\
  r_value (lit "false")
  = Some ((JSingle (SScalar (CBool false))), []).
Proof. repeat split; vm_compute; reflexivity. Qed.
(** parser.rs:1609 *)
Example r_test_value_object :
  r_value (lit "{a: 1}")
  = Some ((JObject [((lit "a"), (JSingle (SScalar (CInt 1))))] []), []) /\
  r_value (lit "{b: 2.42}")
  = Some ((JObject [((lit "b"), (JSingle (SScalar (CFloat 4612631774349135708))))] []), []) /\
  r_value (lit "{c: [""a""]}")
  = Some ((JObject [((lit "c"), (JList [(JSingle (SString (lit "a")))]))] []), []) /\
  r_value (lit "{d: [""a"", {b: [1, [""z""]]}]}")
  = Some ((JObject [((lit "d"), (JList [(JSingle (SString (lit "a"))); (JObject [((lit "b"), (JList [(JSingle (SScalar (CInt 1))); (JList [(JSingle (SString (lit "z")))])]))] [])]))] []), []).
Proof. repeat split; vm_compute; reflexivity. Qed.
(** parser.rs:1635 *)
Example r_test_value_value_list :
  r_value (lit "[""a"", 1]")
  = Some ((JList [(JSingle (SString (lit "a"))); (JSingle (SScalar (CInt 1)))]), []).
Proof. vm_compute; reflexivity. Qed.
(** parser.rs:1657 *)
Example r_test_default_value :
  r_default (lit "1")
  = Some (DScalar (CInt 1), []) /\
  r_default (lit "Foo")
  = Some (DIdent (lit "Foo"), []) /\
  r_default (lit "false")
  = Some (DScalar (CBool false), []) /\
  r_default (lit "true")
  = Some (DScalar (CBool true), []).
Proof. repeat split; vm_compute; reflexivity. Qed.
(** parser.rs:1724 *)
Example r_test_empty_table_no_spaces :
  r_table (lit "table HelloReply {}")
  = Some ((AProduct (lit "HelloReply") [] None []), []).
Proof. vm_compute; reflexivity. Qed.
(** parser.rs:1732 *)
Example r_test_empty_table :
  r_table (lit "table HelloReply {
}")
  = Some ((AProduct (lit "HelloReply") [] None []), []).
Proof. vm_compute; reflexivity. Qed.
(** parser.rs:1742 *)
Example r_test_table_with_doc_commented_fields :
  r_table (lit "/// A response with a required field
table HelloReply {

  /// Sweet, sweet message
  message: string;
  // Not a doc comment
  /// A doc comment
  foo: [string];
  // Aha!

  bar: [float64];

}")
  = Some ((AProduct (lit "HelloReply") [(AField (lit "message") AString None None [lit " Sweet, sweet message"]); (AField (lit "foo") (AArray AString) None None [lit " A doc comment"]); (AField (lit "bar") (AArray (APrim Float64)) None None [])] None [lit " A response with a required field"]), []).
Proof. vm_compute; reflexivity. Qed.
(** parser.rs:1771 *)
Example r_test_table_with_required_field :
  r_table (lit "/// A response with a required field
table HelloReply {
  message: string (required);
}")
  = Some ((AProduct (lit "HelloReply") [(AField (lit "message") AString None (Some [((lit "required"), None)]) [])] None [lit " A response with a required field"]), []).
Proof. vm_compute; reflexivity. Qed.
(** parser.rs:1787 *)
Example r_test_table_with_comments :
  r_table (lit "/// My awesome table!
table HelloReply // baz
// foo
{ // buz
  message: string; // fizz
  // buzzz
  // a
foo :uint=3;//baz
// fizzy
  bar // fuzzy
  :      [int8];
}")
  = Some ((AProduct (lit "HelloReply") [(AField (lit "message") AString None None []); (AField (lit "foo") (APrim UInt) (Some (DScalar (CInt 3))) None []); (AField (lit "bar") (AArray (APrim Int8)) None None [])] None [lit " My awesome table!"]), []).
Proof. vm_compute; reflexivity. Qed.
(** parser.rs:1816 *)
Example r_test_table_multiple_fields :
  r_table (lit "/// My awesome table!
table HelloReply
{
  message: string;
  foo :uint=3;

  bar :      [int8];
}")
  = Some ((AProduct (lit "HelloReply") [(AField (lit "message") AString None None []); (AField (lit "foo") (APrim UInt) (Some (DScalar (CInt 3))) None []); (AField (lit "bar") (AArray (APrim Int8)) None None [])] None [lit " My awesome table!"]), []).
Proof. vm_compute; reflexivity. Qed.
(** parser.rs:1840 *)
Example r_test_table :
  r_table (lit "table HelloReply {
  message: string;
}")
  = Some ((AProduct (lit "HelloReply") [(AField (lit "message") AString None None [])] None []), []).
Proof. vm_compute; reflexivity. Qed.
(** parser.rs:1851 *)
Example r_test_table_with_default_enum_value :
  r_table (lit "table HelloReply {
    message_type: MessageType = UNKNOWN;
}")
  = Some ((AProduct (lit "HelloReply") [(AField (lit "message_type") (AIdent [(lit "MessageType")]) (Some (DIdent (lit "UNKNOWN"))) None [])] None []), []).
Proof. vm_compute; reflexivity. Qed.
(** parser.rs:1917 *)
Example r_test_dec_integer_constant :
  dec_integer_constant (lit "1234")
  = Some (1234, []) /\
  dec_integer_constant (lit "-1234")
  = Some ((-1234), []).
Proof. repeat split; vm_compute; reflexivity. Qed.
(** parser.rs:1950 *)
Example r_test_hex_integer_constant :
  hex_integer_constant (lit "0x1234ABCDEFabcdef")
  = Some (1311862292449316335, []) /\
  hex_integer_constant (lit "-0x1234ABCDEFabcdef")
  = Some ((-1311862292449316335), []).
Proof. repeat split; vm_compute; reflexivity. Qed.
(** parser.rs:1959 *)
Example r_test_invalid_hex_integer_constant :
  hex_integer_constant (lit "ABCDEFabcdef")
  = None.
Proof. vm_compute; reflexivity. Qed.
(** parser.rs:1984 *)
Example r_test_true :
  r_true (lit "true")
  = Some (true, []).
Proof. vm_compute; reflexivity. Qed.
(** parser.rs:1990 *)
Example r_test_true_semicolon :
  r_true (lit "true;")
  = Some (true, lit ";").
Proof. vm_compute; reflexivity. Qed.
(** parser.rs:1996 *)
Example r_test_invalid_true :
  r_true (lit "truez")
  = None.
Proof. vm_compute; reflexivity. Qed.
(** parser.rs:2002 *)
Example r_test_false :
  r_false (lit "false")
  = Some (false, []).
Proof. vm_compute; reflexivity. Qed.
(** parser.rs:2008 *)
Example r_test_false_semicolon :
  r_false (lit "false;")
  = Some (false, lit ";").
Proof. vm_compute; reflexivity. Qed.
(** parser.rs:2014 *)
Example r_test_invalid_false :
  r_false (lit "falsez")
  = None.
Proof. vm_compute; reflexivity. Qed.
(** parser.rs:2031 *)
Example r_test_boolean_constant :
  r_boolean (lit "true")
  = Some (true, []) /\
  r_boolean (lit "false")
  = Some (false, []).
Proof. repeat split; vm_compute; reflexivity. Qed.
(** parser.rs:2040 *)
Example r_test_invalid_boolean_constant :
  r_boolean (lit "waltz")
  = None.
Proof. vm_compute; reflexivity. Qed.
(** parser.rs:2073 *)
Example r_test_dec_float_constant :
  r_dec_float (lit "-2.1")
  = Some (13835283235263532237, []).
Proof. vm_compute; reflexivity. Qed.
(** parser.rs:2094 *)
Example r_test_float_constant_nan :
  r_float (lit "nan")
  = Some (nan_bits, []) /\
  r_float (lit "+nan")
  = Some (nan_bits, []) /\
  r_float (lit "-nan")
  = Some (negate nan_bits, []).
Proof. repeat split; vm_compute; reflexivity. Qed.
(** parser.rs:2115 *)
Example r_test_float_constant_inf :
  r_float (lit "inf")
  = Some (9218868437227405312, []) /\
  r_float (lit "+inf")
  = Some (9218868437227405312, []) /\
  r_float (lit "-inf")
  = Some (18442240474082181120, []).
Proof. repeat split; vm_compute; reflexivity. Qed.
(** parser.rs:2127 *)
Example r_test_float_constant_infinity :
  r_float (lit "infinity")
  = Some (9218868437227405312, []) /\
  r_float (lit "+infinity")
  = Some (9218868437227405312, []) /\
  r_float (lit "-infinity")
  = Some (18442240474082181120, []).
Proof. repeat split; vm_compute; reflexivity. Qed.
(** parser.rs:2199 *)
Example r_test_nan :
  r_nan (lit "nan")
  = Some (nan_bits, []) /\
  r_nan (lit "+nan")
  = Some (nan_bits, []) /\
  r_nan (lit "-nan")
  = Some (negate nan_bits, []).
Proof. repeat split; vm_compute; reflexivity. Qed.
(** parser.rs:2220 *)
Example r_test_invalid_nan :
  r_nan (lit "nanz")
  = None.
Proof. vm_compute; reflexivity. Qed.
(** parser.rs:2247 *)
Example r_test_inf_or_infinity_infinity :
  r_inf (lit "inf")
  = Some (9218868437227405312, []) /\
  r_inf (lit "+inf")
  = Some (9218868437227405312, []) /\
  r_inf (lit "-inf")
  = Some (18442240474082181120, []) /\
  r_inf (lit "infinity")
  = Some (9218868437227405312, []) /\
  r_inf (lit "+infinity")
  = Some (9218868437227405312, []) /\
  r_inf (lit "-infinity")
  = Some (18442240474082181120, []).
Proof. repeat split; vm_compute; reflexivity. Qed.
(** parser.rs:2278 *)
Example r_test_special_float_constant_nan :
  r_special (lit "nan")
  = Some (nan_bits, []) /\
  r_special (lit "+nan")
  = Some (nan_bits, []) /\
  r_special (lit "-nan")
  = Some (negate nan_bits, []).
Proof. repeat split; vm_compute; reflexivity. Qed.
(** parser.rs:2299 *)
Example r_test_special_float_constant_inf :
  r_special (lit "inf")
  = Some (9218868437227405312, []) /\
  r_special (lit "-inf")
  = Some (18442240474082181120, []).
Proof. repeat split; vm_compute; reflexivity. Qed.
(** parser.rs:2308 *)
Example r_test_special_float_constant_infinity :
  r_special (lit "infinity")
  = Some (9218868437227405312, []) /\
  r_special (lit "-infinity")
  = Some (18442240474082181120, []).
Proof. repeat split; vm_compute; reflexivity. Qed.
(** parser.rs:2326 *)
Example r_test_integer_constant :
  integer_constant (lit "1234")
  = Some (1234, []) /\
  integer_constant (lit "-1234")
  = Some ((-1234), []) /\
  integer_constant (lit "0x1234")
  = Some (4660, []) /\
  integer_constant (lit "-0x1234")
  = Some ((-4660), []).
Proof. repeat split; vm_compute; reflexivity. Qed.
(** parser.rs:2361 *)
Example r_test_file_extension_decl_with_comments :
  file_extension_decl (lit "file_extension  //bar
        // foo
            ""foo""//baz
" ++ [x09] ++ lit ";")
  = Some ((lit "foo", []), []).
Proof. vm_compute; reflexivity. Qed.
(** parser.rs:2372 *)
Example r_test_file_extension_decl_with_doc_comments :
  file_extension_decl (lit "/// Doc1
//

/// Doc2
file_extension ""foo"";")
  = Some ((lit "foo", [lit " Doc1"; lit " Doc2"]), []).
Proof. vm_compute; reflexivity. Qed.
(** parser.rs:2386 *)
Example r_test_file_extension_decl :
  file_extension_decl (lit "file_extension ""foo"";")
  = Some ((lit "foo", []), []).
Proof. vm_compute; reflexivity. Qed.
(** parser.rs:2393 *)
Example r_test_file_extension_decl_no_leading_space :
  file_extension_decl (lit "file_extension""foo"";")
  = Some ((lit "foo", []), []).
Proof. vm_compute; reflexivity. Qed.
(** parser.rs:2400 *)
Example r_test_file_extension_decl_trailing_space :
  file_extension_decl (lit "file_extension ""foo""  ;")
  = Some ((lit "foo", []), []).
Proof. vm_compute; reflexivity. Qed.
(** parser.rs:2407 *)
Example r_test_file_extension_decl_surrounding_space :
  file_extension_decl (lit "file_extension   ""foo""  ;")
  = Some ((lit "foo", []), []).
Proof. vm_compute; reflexivity. Qed.
(** parser.rs:2459 *)
Example r_test_file_identifier_decl_with_comments :
  file_identifier_decl (lit "file_identifier // baz
            " ++ [x09] ++ [x09] ++ lit """PAR3""// buz!
" ++ [x09] ++ lit ";")
  = Some ((lit "PAR3", []), []).
Proof. vm_compute; reflexivity. Qed.
(** parser.rs:2469 *)
Example r_test_file_identifier_decl_with_doc_comments :
  file_identifier_decl (lit "/// Some file id

//
/// Doc 2
file_identifier ""PAR3"";")
  = Some ((lit "PAR3", [lit " Some file id"; lit " Doc 2"]), []).
Proof. vm_compute; reflexivity. Qed.
(** parser.rs:2482 *)
Example r_test_file_identifier_decl :
  file_identifier_decl (lit "file_identifier ""PAR3"";")
  = Some ((lit "PAR3", []), []).
Proof. vm_compute; reflexivity. Qed.
(** parser.rs:2489 *)
Example r_test_file_identifier_decl_no_leading_space :
  file_identifier_decl (lit "file_identifier""BAAR"";")
  = Some ((lit "BAAR", []), []).
Proof. vm_compute; reflexivity. Qed.
(** parser.rs:2496 *)
Example r_test_file_identifier_decl_trailing_space :
  file_identifier_decl (lit "file_identifier ""DEF1""  ;")
  = Some ((lit "DEF1", []), []).
Proof. vm_compute; reflexivity. Qed.
(** parser.rs:2503 *)
Example r_test_file_identifier_decl_surrounding_space :
  file_identifier_decl (lit "file_identifier   ""ABCD""  ;")
  = Some ((lit "ABCD", []), []).
Proof. vm_compute; reflexivity. Qed.
(** parser.rs:2510 *)
Example r_test_file_identifier_decl_with_multibyte_char :
  file_identifier_decl (lit "file_identifier ""❤234"";")
  = None.
Proof. vm_compute; reflexivity. Qed.
(** parser.rs:2539 *)
Example r_test_empty_comment :
  p_comment (lit "//
")
  = Some (tt, [x0a]) /\
  p_comment (lit "//" ++ [x0d] ++ lit "
")
  = Some (tt, [x0d; x0a]).
Proof. repeat split; vm_compute; reflexivity. Qed.
(** parser.rs:2550 *)
Example r_test_comment :
  p_comment (lit "// a b c 
")
  = Some (tt, [x0a]).
Proof. vm_compute; reflexivity. Qed.
(** parser.rs:2557 *)
Example r_test_empty_raw_doc_comment :
  raw_doc_comment (lit "///
")
  = Some ([], [x0a]) /\
  raw_doc_comment (lit "///" ++ [x0d] ++ lit "
")
  = Some ([], [x0d; x0a]).
Proof. repeat split; vm_compute; reflexivity. Qed.
(** parser.rs:2573 *)
Example r_test_doc_comment_lines :
  doc_comment_lines (lit "/// A
///   B
/// C
")
  = Some ([lit " A"; lit "   B"; lit " C"], []).
Proof. vm_compute; reflexivity. Qed.
(** parser.rs:2581 *)
Example r_test_doc_comment :
  doc_comment (lit "/// My awesome table!
")
  = Some ([lit " My awesome table!"], []).
Proof. vm_compute; reflexivity. Qed.
(** parser.rs:2589 *)
Example r_test_doc_comment_multi_line :
  doc_comment (lit "/// My awesome table!
/// Another comment w00t?
")
  = Some ([lit " My awesome table!"; lit " Another comment w00t?"], []) /\
  doc_comment (lit "/// My awesome table!
a")
  = Some ([lit " My awesome table!"], lit "a").
Proof. repeat split; vm_compute; reflexivity. Qed.

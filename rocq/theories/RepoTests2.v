(** The project's own tests of schema resolution (butte-build/src/ir/transform.rs and
    ir/types.rs), of default values (codegen.rs) and of the generated code
    (butte-examples/tests), run on the model: the inputs are copied from them, the
    expected answers written as values of the model.  Like RepoTests.v, these are tests
    of how faithful the model is; no property rests on them. *)
From Coq Require Import Strings.String ZArith List Bool Strings.Byte.
From Verif Require Import Base Scalar SpecWire Reader Builder Schema Ident Heck Parser Resolve Codegen SpecTable SpecDoc RepoTests.
Import ListNotations.
Local Open Scope Z_scope.

(** [Builder::build] of what [schema_decl] read. *)
Definition r_build (t : text) : res (list node) :=
  match r_schema t with Some (s, _) => build snake_case (sc_elements s) | None => Crash end.

(** transform.rs:650 *)
Example r_test_table_simple :
  r_build (lit "// Not a doc
table HelloReply {
    message:string;
}
")
  = Done [NTable (ITable [lit "HelloReply"] [IField (lit "message") IString None false []] false [])].
Proof. vm_compute; reflexivity. Qed.
(** transform.rs:675 *)
Example r_test_table_root :
  r_build (lit "table HelloReply {
    /// Doc
    message:string;
}

root_type HelloReply;
")
  = Done [NTable (ITable [lit "HelloReply"] [IField (lit "message") IString None false [lit " Doc"]] true [])].
Proof. vm_compute; reflexivity. Qed.
(** transform.rs:704 *)
Example r_test_table_in_namespace :
  r_build (lit "namespace foo.bar;

table HelloReply {
    message:string;
}
")
  = Done [NNamespace [lit "foo"] [NNamespace [lit "foo"; lit "bar"] [NTable (ITable [lit "foo"; lit "bar"; lit "HelloReply"] [IField (lit "message") IString None false []] false [])]]].
Proof. vm_compute; reflexivity. Qed.
(** transform.rs:740 *)
Example r_namespace_stacking :
  r_build (lit "namespace foo.bar;

table HelloReply {
    message:string;
}

namespace foo.baz;

table GoodbyeReply {
    message:string;
}
")
  = Done [NNamespace [lit "foo"] [NNamespace [lit "foo"; lit "bar"] [NTable (ITable [lit "foo"; lit "bar"; lit "HelloReply"] [IField (lit "message") IString None false []] false [])]; NNamespace [lit "foo"; lit "baz"] [NTable (ITable [lit "foo"; lit "baz"; lit "GoodbyeReply"] [IField (lit "message") IString None false []] false [])]]].
Proof. vm_compute; reflexivity. Qed.
(** transform.rs:800 *)
Example r_test_table_simple_dependency :
  r_build (lit "table HelloMsg {
    val: string;
}

table HelloReply {
    message: HelloMsg;
}
")
  = Done [NTable (ITable [lit "HelloMsg"] [IField (lit "val") IString None false []] false []);
     NTable (ITable [lit "HelloReply"] [IField (lit "message") (ICustom [lit "HelloMsg"] KTable) None false []] false [])].
Proof. vm_compute; reflexivity. Qed.
(** transform.rs:844 *)
Example r_test_table_required_field :
  r_build (lit "table HelloMsg {
    message: string (required);
}
")
  = Done [NTable (ITable [lit "HelloMsg"] [IField (lit "message") IString None true []] false [])].
Proof. vm_compute; reflexivity. Qed.
(** transform.rs:869 *)
Example r_test_table_depends_on_next :
  r_build (lit "table HelloReply {
    message: HelloMsg;
}

table HelloMsg {
    val: string;
}
")
  = Done [NTable (ITable [lit "HelloReply"] [IField (lit "message") (ICustom [lit "HelloMsg"] KTable) None false []] false []);
     NTable (ITable [lit "HelloMsg"] [IField (lit "val") IString None false []] false [])].
Proof. vm_compute; reflexivity. Qed.
(** transform.rs:913 *)
Example r_test_table_depends_on_next_with_root_type_first :
  r_build (lit "root_type HelloReply;

table HelloReply {
    message: HelloMsg;
}

table HelloMsg {
    val: string;
}
")
  = Done [NTable (ITable [lit "HelloReply"] [IField (lit "message") (ICustom [lit "HelloMsg"] KTable) None false []] true []);
     NTable (ITable [lit "HelloMsg"] [IField (lit "val") IString None false []] false [])].
Proof. vm_compute; reflexivity. Qed.
(** transform.rs:960 *)
Example r_test_table_recursive :
  r_build (lit "table HelloReply {
    message: HelloReply;
}
")
  = Done [NTable (ITable [lit "HelloReply"] [IField (lit "message") (ICustom [lit "HelloReply"] KTable) None false []] false [])].
Proof. vm_compute; reflexivity. Qed.
(** transform.rs:989 *)
Example r_test_struct_single :
  r_build (lit "struct Vector3 {
    x: float32;
    y: float32;
    z: float32;
} 
")
  = Done [NStruct (IStruct [lit "Vector3"] [IField (lit "x") (IPrim Float32) None false []; IField (lit "y") (IPrim Float32) None false []; IField (lit "z") (IPrim Float32) None false []] [])].
Proof. vm_compute; reflexivity. Qed.
(** transform.rs:1025 *)
Example r_test_struct_in_struct :
  r_build (lit "struct Vector2 {
    x: float32;
    y: float32;
}
struct Vector3 {
    xy: Vector2;
    z: float32;
} 
")
  = Done [NStruct (IStruct [lit "Vector2"] [IField (lit "x") (IPrim Float32) None false []; IField (lit "y") (IPrim Float32) None false []] []);
     NStruct (IStruct [lit "Vector3"] [IField (lit "xy") (ICustom [lit "Vector2"] (KStruct [IField (lit "x") (IPrim Float32) None false []; IField (lit "y") (IPrim Float32) None false []])) None false []; IField (lit "z") (IPrim Float32) None false []] [])].
Proof. vm_compute; reflexivity. Qed.
(** transform.rs:1093 *)
Example r_test_enum_single :
  r_build (lit "enum MyEnum : ubyte { Foo, Bar }")
  = Done [NEnum (IEnum [lit "MyEnum"] [IEnumV (lit "Foo") None []; IEnumV (lit "Bar") None []] UByte [])].
Proof. vm_compute; reflexivity. Qed.
(** transform.rs:1118 *)
Example r_test_union_single :
  r_build (lit "table A {
            message: string;
        }
        table B {
            message: [ubyte];
        }
        union AorB {
            A,
            B
        }
        ")
  = Done [NNamespace [lit "butte_gen"] [NEnum (IEnum [lit "butte_gen"; lit "AorBType"] [IEnumV (lit "None") (Some 0) []; IEnumV (lit "A") None []; IEnumV (lit "B") None []] UByte [])];
     NTable (ITable [lit "A"] [IField (lit "message") IString None false []] false []);
     NTable (ITable [lit "B"] [IField (lit "message") (IArray (IPrim UByte)) None false []] false []);
     NUnion (IUnion [lit "AorB"] [lit "butte_gen"; lit "AorBType"] [IUnionV (ICustom [lit "A"] KTable) (lit "A") []; IUnionV (ICustom [lit "B"] KTable) (lit "B") []] [])].
Proof. vm_compute; reflexivity. Qed.
(** transform.rs:1209 *)
Example r_test_table_using_union :
  r_build (lit "table A {
            /// A nice message
            message: string;
        }
        table B {
            /// A nicer message
            message: [ubyte];
        }
        union AorB {
            /// Multiple
            /// lines
            /// of comments.
            A,
            /// Comments
            B
        }
        table Z {
            a_or_b: AorB;
        }
        ")
  = Done [NNamespace [lit "butte_gen"] [NEnum (IEnum [lit "butte_gen"; lit "AorBType"] [IEnumV (lit "None") (Some 0) []; IEnumV (lit "A") None [lit " Multiple"; lit " lines"; lit " of comments."]; IEnumV (lit "B") None [lit " Comments"]] UByte [])];
     NTable (ITable [lit "A"] [IField (lit "message") IString None false [lit " A nice message"]] false []);
     NTable (ITable [lit "B"] [IField (lit "message") (IArray (IPrim UByte)) None false [lit " A nicer message"]] false []);
     NUnion (IUnion [lit "AorB"] [lit "butte_gen"; lit "AorBType"] [IUnionV (ICustom [lit "A"] KTable) (lit "A") [lit " Multiple"; lit " lines"; lit " of comments."]; IUnionV (ICustom [lit "B"] KTable) (lit "B") [lit " Comments"]] []);
     NTable (ITable [lit "Z"] [IField (lit "a_or_b_type") (ICustom [lit "butte_gen"; lit "AorBType"] (KEnum [IEnumV (lit "None") (Some 0) []; IEnumV (lit "A") None [lit " Multiple"; lit " lines"; lit " of comments."]; IEnumV (lit "B") None [lit " Comments"]] UByte)) None false []; IField (lit "a_or_b") (ICustom [lit "AorB"] (KUnion [lit "butte_gen"; lit "AorBType"] [IUnionV (ICustom [lit "A"] KTable) (lit "A") [lit " Multiple"; lit " lines"; lit " of comments."]; IUnionV (ICustom [lit "B"] KTable) (lit "B") [lit " Comments"]])) None false []] false [])].
Proof. vm_compute; reflexivity. Qed.
(** transform.rs:1395 *)
Example r_test_rpc_method_resolved :
  r_build (lit "namespace foo.bar;
table HelloMsg {
    val: string;
}

table HelloReply {
    message: HelloMsg;
}

rpc_service Greeter {
    SayHello(foo.bar.HelloMsg) : foo.bar.HelloReply;
}
  
")
  = Done [NNamespace [lit "foo"] [NNamespace [lit "foo"; lit "bar"] [NTable (ITable [lit "foo"; lit "bar"; lit "HelloMsg"] [IField (lit "val") IString None false []] true []); NTable (ITable [lit "foo"; lit "bar"; lit "HelloReply"] [IField (lit "message") (ICustom [lit "foo"; lit "bar"; lit "HelloMsg"] KTable) None false []] true []); NRpc (IRpc [lit "foo"; lit "bar"; lit "Greeter"] [IMethod (lit "SayHello") (lit "say_hello") [lit "foo"; lit "bar"; lit "HelloMsg"] [lit "foo"; lit "bar"; lit "HelloReply"] StreamNone []] [])]]].
Proof. vm_compute; reflexivity. Qed.

(** ir/types.rs:597-646: [relative]. *)
Example r_relative :
  let id := [lit "foo"; lit "bar"; lit "Baz"] in
  relative id (q_namespace id) = [lit "Baz"] /\
  relative id None = id /\
  relative id (Some [lit "foo"]) = [lit "bar"; lit "Baz"] /\
  relative id (Some [lit "foo"; lit "bar"; lit "bim"]) = [lit "super"; lit "Baz"] /\
  relative [lit "foo"; lit "bar"; lit "bam"; lit "Baz"] (Some [lit "foo"; lit "bar"; lit "bim"]) = [lit "super"; lit "bam"; lit "Baz"].
Proof. repeat split; vm_compute; reflexivity. Qed.

(** parser.rs:1887-1915: the largest and smallest integers. *)
Example r_integers :
  dec_integer_constant (lit "18446744073709551615") = Some (2 ^ 64 - 1, []) /\
  dec_integer_constant (lit "9223372036854775807") = Some (2 ^ 63 - 1, []) /\
  dec_integer_constant (lit "-9223372036854775808") = Some (- 2 ^ 63, []).
Proof. repeat split; vm_compute; reflexivity. Qed.

(** codegen.rs:254-353: the extreme values of the types of integers and of booleans are
    accepted as defaults, and are themselves. *)
Definition r_extremes : list (prim * Z * Z) :=
  [(Byte, - 2 ^ 7, 2 ^ 7 - 1); (UByte, 0, 2 ^ 8 - 1); (Short, - 2 ^ 15, 2 ^ 15 - 1); (UShort, 0, 2 ^ 16 - 1);
   (Int, - 2 ^ 31, 2 ^ 31 - 1); (UInt, 0, 2 ^ 32 - 1); (Long, - 2 ^ 63, 2 ^ 63 - 1); (ULong, 0, 2 ^ 64 - 1);
   (Int8, - 2 ^ 7, 2 ^ 7 - 1); (UInt8, 0, 2 ^ 8 - 1); (Int16, - 2 ^ 15, 2 ^ 15 - 1); (UInt16, 0, 2 ^ 16 - 1);
   (Int32, - 2 ^ 31, 2 ^ 31 - 1); (UInt32, 0, 2 ^ 32 - 1); (Int64, - 2 ^ 63, 2 ^ 63 - 1); (UInt64, 0, 2 ^ 64 - 1)].
(** Integer literals of floats: 0 and 1 suffice below. *)
Definition t_floats : floats :=
  Floats (fun z => if z =? 1 then 1065353216 else 0) (fun z => if z =? 1 then 4607182418800017408 else 0) (fun _ => 0).
Example r_defaults :
  map (fun '(p, lo, hi) => (const_value t_floats (prim_ty p) (CInt lo), const_value t_floats (prim_ty p) (CInt hi))) r_extremes
  = map (fun '(p, lo, hi) => (Some lo, Some hi)) r_extremes /\
  const_value t_floats TBool (CBool true) = Some 1 /\ const_value t_floats TBool (CBool false) = Some 0.
Proof. repeat split; vm_compute; reflexivity. Qed.

(** codegen.rs:1170-1188: two of the three fields are required. *)
Example r_required_fields :
  match r_build (lit "table Hello {
  world: string (required);
  earth: int = 616 (required);
  universe: string;
}") with
  | Done (NTable t :: _) =>
      match gen_table t_floats snake_case (Host true false) (it_fields t) with
      | Some gs => length (filter g_req gs)
      | None => 0%nat
      end
  | _ => 0%nat
  end = 2%nat.
Proof. vm_compute; reflexivity. Qed.

(** butte-examples/fbs. *)
Definition array_fbs : text := (lit "/// Flatbuffers namespaces are defined as UpperCamelCase.
namespace Array;

/// A test entry with a value.
table Entry {
  value: uint64;
}

enum Value: ubyte {
  A = 0,
  B = 1
}

/// Different arrays.
table ArrayTable {
  table_entries: [Entry];
  enum_entries: [Value];
  int_entries: [int32];
}

/// Array of arrays.
table ArrayOfArrayTable {
  table_arrays: [[Entry]] (required);
}
").
Definition default_value_fbs : text := (lit "namespace DefaultValue;

table Values {
  bool_implicit: bool;
  bool_explicit: bool = false;
  bool_other: bool = true;

  float_implicit: float;
  float_explicit: float = 0;
  float_other: float = 1;

  int_implicit: int;
  int_explicit: int = 0;
  int_other: int = 1;

  long_implicit: long;
  long_explicit: long = 0;
  long_other: long = 1;

  text: string;
}
").
Definition greeter_fbs : text := (lit "/// A response from the server
/// Useful for getting a greeting back!
namespace Foo.Bar;


/// Hello there!
table HelloRequest {
  /// What's your name?
  name: string (required);
}

table HelloReply {
  message: string ;
}

table ManyHellosRequest {
  name: string (required);
  /// Number of ""hellos""
  num_greetings: int;
}

union EitherHello {
  HelloReply, HelloRequest
}

table EitherHelloRequest {
  something_required: EitherHello (required);
  /// A comment
  something: EitherHello;
}


table HelloRequestArray {
  /// Field comment
  requests: [HelloRequest];
}

namespace Baz.Buzz;

/// Doc
enum Foo : int32 {
  A,
  /// Foo
  B,
  /// Bar
  //
  /// Baz
  C
}

table FooBar {
  name: string;
  my_foo: Foo = A;
}


/// A greeter service!
/// ... with a multiline doc comment?!
rpc_service Greeter {
  /// More info
  SayHello(Foo.Bar.HelloRequest) : Foo.Bar.HelloReply;
  /// Even more info
  SayManyHellos(Foo.Bar.ManyHellosRequest) : Foo.Bar.HelloReply (streaming: ""server"");
}
").
Definition r_nodes (t : text) : list node := match r_build t with Done ns => ns | _ => [] end.
Definition h64 : host := Host true false.

(** What the test writes, and what the accessors of a table return. *)
Definition r_save (t : text) (x : doc) (q : qident) : outcome (list byte) :=
  save t_floats snake_case (r_nodes t) h64 h64 0 x q None false.
Definition r_gets (t : text) (q : qident) (D : list byte) (loc : Z) : list (outcome (option gval)) :=
  match fields_named (r_nodes t) q with
  | Some fs =>
      match gen_table t_floats snake_case h64 fs with
      | Some gs => map (gen_get h64 D loc) gs
      | None => []
      end
  | None => []
  end.

(** butte-examples/tests/default_value.rs: implicit and explicit zeros are equal, the
    other default is not, and a text is absent. *)
Definition values : qident := [lit "DefaultValue"; lit "Values"].
Definition n (z : Z) : outcome (option gval) := Val (Some (GPlain (VScalar z))).
Example r_test_default_value :
  match r_save default_value_fbs (DTable []) values with
  | Val D =>
      match get_root h64 FTable D with
      | Val (VTable loc) => r_gets default_value_fbs values D loc
      | _ => []
      end
  | _ => []
  end = [n 0; n 0; n 1; n 0; n 0; n 1065353216; n 0; n 0; n 1; n 0; n 0; n 1; Val None].
Proof. vm_compute; reflexivity. Qed.

(** butte-examples/tests/array.rs:13-65. *)
Definition entry (i : Z) : doc := DTable [(lit "value", DNum i)].
Definition array_table : qident := [lit "Array"; lit "ArrayTable"].
Definition entry_table : qident := [lit "Array"; lit "Entry"].
Definition array_of_array_table : qident := [lit "Array"; lit "ArrayOfArrayTable"].
(** The elements of a vector, by indexing. *)
Definition r_elements (D : list byte) (v : gval) : outcome (list fval) :=
  match v with
  | GPlain (VVector t v) =>
      let* len := vec_len h64 D v in
      (fix go (k : nat) (i : Z) : outcome (list fval) :=
         match k with
         | O => Val []
         | S k => let* x := vec_get h64 t D v i in let* xs := go k (i + 1) in Val (x :: xs)
         end) (Z.to_nat len) 0
  | _ => Val []
  end.
Definition r_values (D : list byte) (xs : list fval) : list (list (outcome (option gval))) :=
  map (fun x => match x with VTable loc => r_gets array_fbs entry_table D loc | _ => [] end) xs.
Example r_test_table_array :
  match r_save array_fbs (DTable [(lit "table_entries", DList [entry 0; entry 1]);
                                  (lit "enum_entries", DList [DName (lit "A"); DName (lit "A")]);
                                  (lit "int_entries", DList [DNum 0; DNum 1])]) array_table with
  | Val D =>
      match get_root h64 FTable D with
      | Val (VTable loc) =>
          match r_gets array_fbs array_table D loc with
          | [Val (Some ts); Val (Some es); Val (Some is)] =>
              match r_elements D ts, r_elements D es, r_elements D is with
              | Val ts, Val es, Val is => Some (r_values D ts, es, is)
              | _, _, _ => None
              end
          | _ => None
          end
      | _ => None
      end
  | _ => None
  end = Some ([[n 0]; [n 1]], [VEnum 0; VEnum 0], [VScalar 0; VScalar 1]).
Proof. vm_compute; reflexivity. Qed.

(** butte-examples/tests/array.rs:67-112. *)
Example r_test_table_array_of_array :
  match r_save array_fbs (DTable [(lit "table_arrays", DList [DList [entry 0; entry 1]; DList [entry 0; entry 1]])]) array_of_array_table with
  | Val D =>
      match get_root h64 FTable D with
      | Val (VTable loc) =>
          match r_gets array_fbs array_of_array_table D loc with
          | [Val (Some tss)] =>
              match r_elements D tss with
              | Val [ts; ts'] =>
                  match r_elements D (GPlain ts), r_elements D (GPlain ts') with
                  | Val ts, Val ts' => Some (r_values D ts, r_values D ts')
                  | _, _ => None
                  end
              | _ => None
              end
          | _ => None
          end
      | _ => None
      end
  | _ => None
  end = Some ([[n 0]; [n 1]], [[n 0]; [n 1]]).
Proof. vm_compute; reflexivity. Qed.

(** butte-examples/tests/cli.rs, butte-examples/src/greeter/greeter.rs. *)
Definition foo_bar (s : text) : qident := [lit "Foo"; lit "Bar"; s].
Definition foo_bar_table : qident := [lit "Baz"; lit "Buzz"; lit "FooBar"].
Definition str (s : text) : outcome (option gval) := Val (Some (GPlain (VStr s))).
Example r_test_greeter_name :
  match r_save greeter_fbs (DTable [(lit "name", DText (lit "John"))]) (foo_bar (lit "HelloRequest")) with
  | Val D =>
      match get_root h64 FTable D with
      | Val (VTable loc) => r_gets greeter_fbs (foo_bar (lit "HelloRequest")) D loc
      | _ => []
      end
  | _ => []
  end = [str (lit "John")].
Proof. vm_compute; reflexivity. Qed.
(** The types of the two unions, and the names and messages inside. *)
Example r_test_greeter_unions :
  match r_save greeter_fbs
          (DTable [(lit "something", DVariant (lit "HelloRequest") (DTable [(lit "name", DText (lit "Jane"))]));
                   (lit "something_required", DVariant (lit "HelloReply") (DTable [(lit "message", DText (lit "Wassup Jane"))]))])
          (foo_bar (lit "EitherHelloRequest")) with
  | Val D =>
      match get_root h64 FTable D with
      | Val (VTable loc) =>
          match r_gets greeter_fbs (foo_bar (lit "EitherHelloRequest")) D loc with
          | [t_required; Val (Some (GVariant k (VTable required))); t; Val (Some (GVariant k' (VTable other)))] =>
              Some (t_required, k, r_gets greeter_fbs (foo_bar (lit "HelloReply")) D required,
                    t, k', r_gets greeter_fbs (foo_bar (lit "HelloRequest")) D other)
          | _ => None
          end
      | _ => None
      end
  | _ => None
  end = Some (Val (Some (GPlain (VEnum 1))), 1, [str (lit "Wassup Jane")], Val (Some (GPlain (VEnum 2))), 2, [str (lit "Jane")]).
Proof. vm_compute; reflexivity. Qed.
Example r_test_greeter_enum :
  match r_save greeter_fbs (DTable [(lit "name", DText (lit "Joe")); (lit "my_foo", DName (lit "B"))]) foo_bar_table with
  | Val D =>
      match get_root h64 FTable D with
      | Val (VTable loc) => r_gets greeter_fbs foo_bar_table D loc
      | _ => []
      end
  | _ => []
  end = [str (lit "Joe"); Val (Some (GPlain (VEnum 1)))].
Proof. vm_compute; reflexivity. Qed.

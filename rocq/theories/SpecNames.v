(** Vocabulary for the question whether names in the emitted code mean what they
    should. *)
From Coq Require Import Strings.String ZArith List Bool Strings.Byte.
From Verif Require Import Base Schema Ident SpecIdent Heck SpecResolve Emit SpecEmit SpecTable Names.
Import ListNotations.
Local Open Scope string_scope.
Local Open Scope list_scope.

(** The nodes of a resolved schema in the module [p]. *)
Inductive module_nodes : list node -> qident -> list node -> Prop :=
| nodes_here l : module_nodes l [] l
| nodes_inner l q inner p found : In (NNamespace q inner) l -> module_nodes inner p found -> module_nodes l (last q [] :: p) found.

(** A name at a place among [items] is taken for something else: the path begins with
    a type parameter; or it is meant as a name Rust provides, and a type or a module
    beside the place has this name. *)
Definition hidden (items : list item) (u : use) : Prop :=
  exists x rest, u_path u = x :: rest /\ (In x (u_params u) \/ u_means u = Std /\ In x (type_names items)).

(** The types that the accessors of a table mention. *)
Inductive accessor_type (fs : list ifield) : qident -> Prop :=
| at_field f q c : In f fs -> In (q, c) (ty_mentions (if_ty f)) -> accessor_type fs q
| at_companion f q e vs : In f fs -> if_ty f = ICustom q (KUnion e vs) -> accessor_type fs e
| at_variant f q e vs v m c : In f fs -> if_ty f = ICustom q (KUnion e vs) -> In v vs -> In (m, c) (ty_mentions (iuv_ty v)) ->
    accessor_type fs m.

(** The names Rust provides that are needed for a type, and for a node. *)
Inductive type_word : ity -> string -> Prop :=
| tw_prim p : type_word (IPrim p) (prim_word p)
| tw_string : type_word IString "str"
| tw_vector t : type_word (IArray t) "butte"
| tw_element t w : type_word t w -> type_word (IArray t) w
| tw_table q : type_word (ICustom q KTable) "u8".
Inductive word : node -> string -> Prop :=
| wd_table t w : In w ["From"; "butte"; "u8"; "std"; "Result"; "usize"] -> word (NTable t) w
| wd_default t : has_default (it_fields t) -> word (NTable t) "Default"
| wd_option t f : In f (it_fields t) -> if_required f = false -> word (NTable t) "Option"
| wd_field t f w : In f (it_fields t) -> type_word (if_ty f) w -> word (NTable t) w
| wd_variant t f q e vs v w : In f (it_fields t) -> if_ty f = ICustom q (KUnion e vs) -> In v vs -> type_word (iuv_ty v) w -> word (NTable t) w
| wd_enum e w : In w ["Default"; "butte"; "u8"; "usize"; "Result"; "std"; "From"; "str"] -> word (NEnum e) w
| wd_base e : word (NEnum e) (prim_word (ie_base e))
| wd_union u v w : In v (iu_variants u) -> type_word (iuv_ty v) w -> word (NUnion u) w.

(** A type or module of this name is emitted in the module [p]: a type of the schema,
    the [Args] or [Builder] of a table, a namespace. *)
Inductive named (snake : text -> text) (root : list node) (p : qident) : ident -> Prop :=
| nd_type x c : In (p ++ [x], c) (defined root) -> named snake root p x
| nd_suffix x s : In (p ++ [x], KTable) (defined root) -> In s ["Args"; "Builder"] -> named snake root p (x ++ lit s)
| nd_module a : namespace_in root (p ++ [a]) -> named snake root p (module_name snake a).

(** The schema hides no names: no table is named [B], and none mentions a type beside
    it named [B], or in a namespace [B] beside it; no type or namespace has a name that
    is needed beside it. *)
Record hides_nothing (snake : text -> text) (root : list node) : Prop := HidesNothing {
  hn_table : forall p t, In (p, NTable t) (all_contents root) -> last (it_id t) [] <> lit "B";
  hn_types : forall p t q, In (p, NTable t) (all_contents root) -> accessor_type (it_fields t) q ->
    forall rest, q <> p ++ lit "B" :: rest;
  hn_words : forall p n w, In (p, n) (all_contents root) -> word n w -> ~ named snake root p (lit w) }.

(** All the names above; and a declaration that gives nothing one of them, nor [B]. *)
Definition words : list string :=
  ["From"; "Default"; "Option"; "Result"; "butte"; "std"; "str"; "bool"; "usize";
   "i8"; "u8"; "i16"; "u16"; "i32"; "u32"; "i64"; "u64"; "f32"; "f64"].
Definition free_name (x : ident) : Prop := x <> lit "B" /\ ~ In x (map lit words).
Definition free_names (e : element) : Prop :=
  match e with
  | ETable t | EStruct t => free_name (ap_id t)
  | EEnum e => free_name (ae_id e)
  | EUnion u => free_name (au_id u)
  | ENamespace q _ => forall x, In x q -> x <> lit "B" /\ ~ In (snake_case x) (map lit words)
  | _ => True
  end.

(** Schemas with code in which some name is hidden. *)
Definition hiding : list (list element) :=
  [[tb "B" []];
   [en "B" Byte [vr "X"]; uses "T" (nm "B")];
   [ENamespace [lit "z"; lit "B"] []; en "E" Byte [vr "X"]; ENamespace [lit "z"] []; uses "T" (AIdent [lit "z"; lit "B"; lit "E"])];
   [tb "Result" []];
   [tb "Option" []; uses "T" (APrim Int)];
   [tb "Default" []];
   [en "From" Byte [vr "X"]];
   [en "u8" Byte [vr "X"]];
   [uses "str" AString];
   [tb "T" []; ENamespace [lit "std"] []; tb "U" []];
   [tb "T" []; ENamespace [lit "Butte"] []; tb "U" []]].

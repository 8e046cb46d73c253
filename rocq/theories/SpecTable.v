(** Vocabulary for the question which tables of a resolved schema get code that
    compiles. *)
From Coq Require Import Strings.String ZArith List Bool Strings.Byte.
From Verif Require Import Base Schema Codegen SpecEmit.
Import ListNotations.
Local Open Scope string_scope.
Local Open Scope list_scope.
Local Open Scope Z_scope.

(** The numbers of an integer type. *)
Definition int_range (p : prim) : option (Z * Z) :=
  match p with
  | Byte | Int8 => Some (-128, 127)
  | UByte | UInt8 => Some (0, 255)
  | Short | Int16 => Some (-32768, 32767)
  | UShort | UInt16 => Some (0, 65535)
  | Int | Int32 => Some (-2147483648, 2147483647)
  | UInt | UInt32 => Some (0, 4294967295)
  | Long | Int64 => Some (- 2 ^ 63, 2 ^ 63 - 1)
  | ULong | UInt64 => Some (0, 2 ^ 64 - 1)
  | Bool | Float | Float32 | Double | Float64 => None
  end.
Definition in_range (p : prim) (n : Z) : Prop :=
  match int_range p with Some (lo, hi) => lo <= n <= hi | None => False end.
(** Not an infinity and not a NaN: the exponent is not all ones. *)
Definition is_double (bits : Z) : Prop := bits / 2 ^ 52 mod 2048 <> 2047.
Definition is_float (bits : Z) : Prop := bits / 2 ^ 23 mod 256 <> 255.

(** An enum that Rust takes: it has variants, with different names, none of them
    [Error] or [Inner], and with different values that are in range; the value of a
    variant is the one given or its position. *)
Definition variant_number (i : nat) (v : ienumv) : Z :=
  match iev_value v with Some n => n | None => Z.of_nat i end.
Record fine_enum (vs : list ienumv) (base : prim) : Prop := FineEnum {
  fe_some : vs <> [];
  fe_names : NoDup (map iev_id vs);
  fe_words : forall v, In v vs -> iev_id v <> lit "Error" /\ iev_id v <> lit "Inner";
  fe_range : forall i v, nth_error vs i = Some v -> in_range base (variant_number i v);
  fe_numbers : forall i j v w, nth_error vs i = Some v -> nth_error vs j = Some w ->
    variant_number i v = variant_number j w -> i = j }.
(** A type that can be the type of a field, of the elements of a vector, of a
    variant of a union: no struct, no union, no vector of these. *)
Inductive fine_type : ity -> Prop :=
| ft_prim p : fine_type (IPrim p)
| ft_string : fine_type IString
| ft_array t : fine_type t -> fine_type (IArray t)
| ft_table q : fine_type (ICustom q KTable)
| ft_enum q vs b : fine_enum vs b -> fine_type (ICustom q (KEnum vs b)).
(** A union that Rust takes, with its companion: one of the variants is a table,
    there are at most 255 of them, with different names, none of them [None],
    [Error] or [Inner]. *)
Record fine_union (vs : list iunionv) : Prop := FineUnion {
  fu_table : exists v q, In v vs /\ iuv_ty v = ICustom q KTable;
  fu_count : Z.of_nat (length vs) <= 255;
  fu_names : NoDup (map iuv_id vs);
  fu_words : forall v, In v vs -> ~ In (iuv_id v) [lit "None"; lit "Error"; lit "Inner"];
  fu_types : forall v, In v vs -> fine_type (iuv_ty v) }.
(** A default that is a value of the type.  What is given as the default of a union
    field is ignored, but the generator panics on numbers. *)
Inductive fine_default (fl : floats) : ity -> option default_value -> Prop :=
| fd_none t : fine_default fl t None
| fd_bool b : fine_default fl (IPrim Bool) (Some (DScalar (CBool b)))
| fd_int p n : in_range p n -> fine_default fl (IPrim p) (Some (DScalar (CInt n)))
| fd_float_int p n : In p [Float; Float32; Double; Float64] -> fine_default fl (IPrim p) (Some (DScalar (CInt n)))
| fd_float p x : In p [Float; Float32] -> is_float (f64_to_f32 fl x) -> fine_default fl (IPrim p) (Some (DScalar (CFloat x)))
| fd_double p x : In p [Double; Float64] -> is_double x -> fine_default fl (IPrim p) (Some (DScalar (CFloat x)))
| fd_enum q vs b i : In i (map iev_id vs) -> fine_default fl (ICustom q (KEnum vs b)) (Some (DIdent i))
| fd_union_name q e vs i : fine_default fl (ICustom q (KUnion e vs)) (Some (DIdent i))
| fd_union_bool q e vs b : fine_default fl (ICustom q (KUnion e vs)) (Some (DScalar (CBool b))).

Section Table.
Context (fl : floats) (snake : text -> text).
(** The accessor before a union's, which returns its type, is there. *)
Definition type_field (fs : list ifield) (f : ifield) : Prop :=
  forall q e vs, if_ty f = ICustom q (KUnion e vs) ->
    exists tf evs b, In tf fs /\ snake (if_id tf) = snake (if_id f) ++ lit "_type" /\
      if_ty tf = ICustom e (KEnum evs b) /\ if_required tf = if_required f.
(** The table's [Args] has a [Default]. *)
Definition has_default (fs : list ifield) : Prop :=
  forall f, In f fs -> if_required f = true -> is_scalar (if_ty f) = true.
(** A table that the generator and Rust take: the accessors have different names,
    none of them [create] or [get_root]; no field is named like one of the variants
    that are in scope everywhere; types and defaults are fine; the
    accessors of unions find their types; and the first variant of an enum can be
    had by [default()] where it has to. *)
Record fine_table (fs : list ifield) : Prop := FineTable {
  ft_names : NoDup (map (fun f => snake (if_id f)) fs);
  ft_words : forall f, In f fs -> snake (if_id f) <> lit "create" /\ snake (if_id f) <> lit "get_root";
  ft_params : forall f, In f fs -> ~ In (if_id f) [lit "Some"; lit "None"; lit "Ok"; lit "Err"];
  ft_types : forall f, In f fs -> fine_type (if_ty f) \/ exists q e vs, if_ty f = ICustom q (KUnion e vs) /\ fine_union vs;
  ft_defaults : forall f, In f fs -> fine_default fl (if_ty f) (if_default f);
  ft_unions : forall f, In f fs -> type_field fs f;
  ft_variant : has_default fs -> forall f q vs b, In f fs -> if_ty f = ICustom q (KEnum vs b) ->
    if_default f = None -> ~ In (lit "default") (map iev_id vs) }.
End Table.

(** Schemas for the examples: each of the first ones resolves, and has a table that
    does not compile. *)
Definition tb (name : string) (fs : list afield) : element := ETable (AProduct (lit name) fs None []).
Definition st (name : string) (fs : list afield) : element := EStruct (AProduct (lit name) fs None []).
Definition fd (name : string) (t : aty) : afield := AField (lit name) t None None [].
Definition fdv (name : string) (t : aty) (d : default_value) : afield := AField (lit name) t (Some d) None [].
Definition nm (name : string) : aty := AIdent [lit name].
Definition vr (x : string) : avariant := AVariant (lit x) None [].
Definition en (name : string) (base : prim) (vs : list avariant) : element := EEnum (AEnum (lit name) vs (APrim base) None []).
Definition un (name : string) (vs : list string) : element := EUnion (AUnion (lit name) (map vr vs) None []).
Definition uses (name : string) (t : aty) : element := tb name [fd "x" t].

Definition odd_schemas : list (list element) :=
  [(* accessors of the same name, or named like the two functions of every table *)
   [tb "T" [fd "a_b" (APrim Int); fd "aB" (APrim Int)]];
   [tb "T" [fd "create" (APrim Int)]];
   [tb "T" [fd "getRoot" (APrim Int)]];
   [tb "T" [fd "None" (APrim Int)]];
   [tb "T" [fd "Ok" AString]];
   (* types without accessors *)
   [st "S" [fd "x" (APrim Int)]; uses "T" (nm "S")];
   [tb "A" []; un "U" ["A"]; uses "T" (AArray (nm "U"))];
   (* enums *)
   [en "E" Byte []; uses "T" (nm "E")];
   [en "E" Byte [vr "A"; vr "A"]; uses "T" (nm "E")];
   [en "E" Byte [vr "Error"]; uses "T" (nm "E")];
   [en "E" Byte [vr "Inner"]; uses "T" (nm "E")];
   [en "E" Byte [AVariant (lit "A") (Some 128) []]; uses "T" (nm "E")];
   [en "E" Byte [AVariant (lit "A") (Some 1) []; vr "B"]; uses "T" (nm "E")];
   [en "E" Byte [vr "default"]; uses "T" (nm "E")];
   (* unions *)
   [un "U" []; uses "T" (nm "U")];
   [en "E" Byte [vr "A"]; un "U" ["E"]; uses "T" (nm "U")];
   [tb "None" []; un "U" ["None"]; uses "T" (nm "U")];
   [tb "A" []; un "U" ["A"; "A"]; uses "T" (nm "U")];
   [tb "A" []; un "U" ["A"]; un "V" ["A"; "U"]; uses "T" (nm "V")];
   [tb "A" []; un "U" ["A"]; tb "T" [fd "type" (nm "U")]];
   (* defaults *)
   [tb "T" [fdv "x" (APrim UByte) (DScalar (CInt 256))]];
   [tb "T" [fdv "x" (APrim Int) (DScalar (CFloat 0))]];
   [tb "T" [fdv "x" (APrim Int) (DScalar (CBool true))]];
   [tb "T" [fdv "x" (APrim Int) (DIdent (lit "y"))]];
   [tb "T" [fdv "x" (APrim Bool) (DScalar (CInt 1))]];
   [tb "T" [fdv "x" (APrim Double) (DScalar (CFloat (2047 * 2 ^ 52)))]];
   [tb "T" [fdv "x" AString (DScalar (CInt 1))]];
   [en "E" Byte [vr "A"]; tb "T" [fdv "x" (nm "E") (DIdent (lit "B"))]];
   [en "E" Byte [vr "A"]; tb "T" [fdv "x" (nm "E") (DScalar (CInt 0))]];
   [tb "A" []; un "U" ["A"]; tb "T" [fdv "x" (nm "U") (DScalar (CInt 0))]]].

(** A schema whose tables are fine. *)
Definition whole : list element :=
  [ENamespace [lit "game"] []; en "Color" Byte [AVariant (lit "Red") (Some (-1)) []; vr "Green"; vr "Blue"];
   tb "Sword" [fdv "damage" (APrim Short) (DScalar (CInt 70)); fd "Fast" (APrim Bool)];
   un "Weapon" ["Sword"; "Color"];
   tb "Monster" [fdv "color" (nm "Color") (DIdent (lit "Blue")); fd "weapon" (nm "Weapon"); fd "Colors" (AArray (nm "Color"));
     fd "names" (AArray AString); fdv "speed" (APrim Float) (DScalar (CInt 3)); fdv "alive" (APrim Bool) (DScalar (CBool true)); fd "boss" (nm "Monster")]].

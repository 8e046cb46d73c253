(** The names that the code emitted by butte-build/src/codegen.rs relies on: for each
    place in it, the type parameters in scope, the path, and whether it is meant as a
    name that Rust provides everywhere (a crate, a primitive type, or in the prelude)
    or as a type of the emitted code.  Variants of [Option] and [Result] are left out:
    they are values, and the values of emitted modules are functions [enum_name_x]. *)
From Coq Require Import Strings.String ZArith List Bool Strings.Byte.
From Verif Require Import Base Schema Ident Codegen Emit.
Import ListNotations.
Local Open Scope string_scope.
Local Open Scope list_scope.

Inductive meaning := Std | Item (k : rkind).
Record use := Use { u_params : list ident; u_path : qident; u_means : meaning }.
Definition std (params : list ident) (w : string) : use := Use params [lit w] Std.

(** codegen.rs:104-124 and 836-858. *)
Definition prim_word (p : prim) : string :=
  match p with
  | Bool => "bool"
  | Byte | Int8 => "i8"
  | UByte | UInt8 => "u8"
  | Short | Int16 => "i16"
  | UShort | UInt16 => "u16"
  | Int | Int32 => "i32"
  | UInt | UInt32 => "u32"
  | Long | Int64 => "i64"
  | ULong | UInt64 => "u64"
  | Float | Float32 => "f32"
  | Double | Float64 => "f64"
  end.
(** codegen.rs:76-172; the wrappers are in the crate [butte], which the places of
    types name anyway. *)
Fixpoint ty_uses (params : list ident) (ns : option qident) (t : ity) : list use :=
  match t with
  | IPrim p => [std params (prim_word p)]
  | IString => [std params "str"]
  | IArray t => std params "butte" :: ty_uses params ns t
  | ICustom q c => Use params (relative q ns) (Item (rkind_of c)) :: match c with KTable => [std params "u8"] | _ => [] end
  end.

Section Table.
Context (ns : option qident) (name : ident).
(** The type parameter of tables. *)
Definition param : list ident := [lit "B"].

(** codegen.rs:570-708. *)
Definition accessor_uses (f : ifield) : list use :=
  [std param "Result"; std param "butte"; Use param [name] (Item RTable)] ++
  (if if_required f then [] else [std param "Option"]) ++
  ty_uses param ns (if_ty f) ++
  match if_ty f with
  | ICustom q (KUnion e vs) =>
      [Use param (relative q ns) (Item RUnion); Use param (relative e ns) (Item REnum)] ++
      flat_map (fun v => ty_uses param ns (iuv_ty v)) vs
  | _ => []
  end.
(** codegen.rs:394-435. *)
Definition arg_uses (f : ifield) : list use :=
  (if is_union (if_ty f) then [std [] "butte"] else std [] "butte" :: ty_uses [] ns (if_ty f)) ++
  (if if_required f || is_scalar (if_ty f) then [] else [std [] "Option"]).
(** codegen.rs:457-496. *)
Definition arg_default_uses (f : ifield) : list use :=
  match if_ty f, if_default f with
  | IPrim _, None | ICustom _ (KEnum _ _), _ | ICustom _ (KStruct _), None => ty_uses [] ns (if_ty f)
  | _, _ => []
  end.
(** codegen.rs:512-560. *)
Definition add_uses (f : ifield) : list use :=
  [std [] "butte"; Use [] [name] (Item RTable)] ++
  (if is_union (if_ty f) then [] else ty_uses [] ns (if_ty f)).
End Table.

(** codegen.rs:722-826. *)
Definition table_uses (t : itable) : list use :=
  let ns := q_namespace (it_id t) in
  let name := last (it_id t) [] in
  let fs := it_fields t in
  (* 724-726: the struct *)
  [std param "butte"] ++
  (* 728-738: From *)
  [std param "From"; std param "butte"; Use param [name] (Item RTable)] ++
  (* 740-752: create *)
  [Use [] [name] (Item RTable); std [] "u8"; std [] "butte";
   Use [] [name ++ lit "Args"] (Item RArgs); Use [] [name ++ lit "Builder"] (Item RBuilder)] ++
  (* 755-766: accessors and get_root *)
  [Use param [name] (Item RTable); std param "std"; std param "u8"; std param "Result"; std param "butte"] ++
  flat_map (accessor_uses ns name) fs ++
  (* 768-776: Follow *)
  [std [] "butte"; Use [] [name] (Item RTable); std [] "u8"; std [] "usize"; std [] "Result"] ++
  (* 778-790: FollowBuf *)
  [std param "butte"; Use param [name] (Item RTable); std param "std"; std param "u8"; std param "usize"; std param "Result"] ++
  (* 793-795: Args *)
  flat_map (arg_uses ns) fs ++
  (* 456-508, 797: Default *)
  (if forallb (fun f => negb (if_required f) || is_scalar (if_ty f)) fs
   then [std [] "Default"; Use [] [name ++ lit "Args"] (Item RArgs)] ++ flat_map (arg_default_uses ns) fs else []) ++
  (* 800-824: the builder *)
  [std [] "butte"; Use [] [name ++ lit "Builder"] (Item RBuilder); Use [] [name] (Item RTable); std [] "u8"] ++
  flat_map (add_uses ns name) fs.

(** codegen.rs:965-1025. *)
Definition enum_uses (e : ienum) : list use :=
  let name := last (ie_id e) [] in
  [Use [] [name] (Item REnum); std [] "Default";
   std [] "butte"; std [] "u8"; std [] "usize"; std [] "Result"; std [] (prim_word (ie_base e)); std [] "std";
   std [] "From"; std [] "str"].

(** codegen.rs:1041-1091. *)
Definition union_uses (u : iunion) : list use :=
  let ns := q_namespace (iu_id u) in
  [Use [] [last (iu_id u) []] (Item RUnion); Use [] (relative (iu_enum u) ns) (Item REnum)] ++
  flat_map (fun v => ty_uses [] ns (iuv_ty v)) (iu_variants u).

Definition node_uses (n : node) : list use :=
  match n with
  | NTable t => table_uses t
  | NEnum e => enum_uses e
  | NUnion u => union_uses u
  | NStruct _ | NRpc _ | NNamespace _ _ => []
  end.

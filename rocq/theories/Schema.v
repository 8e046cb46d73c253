(** The schema compiler's data types: butte-build/src/ast/types.rs (what the
    parser produces) and butte-build/src/ir/types.rs (what resolution produces
    and code generation consumes). *)
From Coq Require Import ZArith List Bool Strings.Byte Strings.String.
From Verif Require Import Base.
Import ListNotations.
Local Open Scope Z_scope.

(** A Rust [str]: its UTF-8 bytes. *)
Definition text := list byte.
(** A literal, for writing texts down. *)
Definition lit (s : string) : text := list_byte_of_string s.

(** ast/types.rs:458-461 and ir/types.rs:438-441 ([Ident]), ast/types.rs:464-467
    and ir/types.rs:500-503 ([QualifiedIdent]). *)
Definition ident := text.
Definition qident := list ident.
Definition ident_eqb (a b : ident) : bool := bytes_eqb a b.
Fixpoint qident_eqb (a b : qident) : bool :=
  match a, b with
  | [], [] => true
  | x :: a, y :: b => ident_eqb x y && qident_eqb a b
  | _, _ => false
  end.

(** ast/types.rs:470-473. *)
Definition comment := list text.

(** The built-in scalar types: the first 21 cases of ast/types.rs:228-254 and
    of ir/types.rs:135-161; ir/types.rs:295-313 ([EnumBaseType]) is the subset
    accepted by [enum_base]. *)
Inductive prim :=
| Bool | Byte | UByte | Short | UShort | Int | UInt | Float | Long | ULong | Double
| Int8 | UInt8 | Int16 | UInt16 | Int32 | UInt32 | Int64 | UInt64 | Float32 | Float64.

(** ast/types.rs:274-281 and 312-317: an [i128], an [f64] as its bit pattern, a
    [bool]. *)
Inductive scalar_const := CInt (i : Z) | CFloat (bits : Z) | CBool (b : bool).
(** ast/types.rs:350-354. *)
Inductive default_value := DScalar (s : scalar_const) | DIdent (i : ident).
(** ast/types.rs:407-411. *)
Inductive single := SScalar (s : scalar_const) | SString (s : text).
(** ast/types.rs:298-310: the pairs in textual order; the [HashMap] keeps the
    last value of each key ([meta_get]). *)
Definition metadata := list (ident * option single).
Fixpoint meta_get (m : metadata) (k : ident) : option (option single) :=
  match m with
  | [] => None
  | (k', v) :: m =>
      match meta_get m k with
      | Some x => Some x
      | None => if ident_eqb k k' then Some v else None
      end
  end.
(** ast/types.rs:331-339 and 443-449: JSON-like values (pairs in textual
    order). *)
Inductive value :=
| JSingle (s : single)
| JObject (o : list (ident * value)) (doc : comment)
| JList (l : list value).

(** ast/types.rs:228-254. *)
Inductive aty :=
| APrim (p : prim)
| AString
| AArray (t : aty)
| AIdent (q : qident).

(** ast/types.rs:182-196. *)
Record afield := AField {
  af_id : ident; af_ty : aty; af_default : option default_value;
  af_meta : option metadata; af_doc : comment }.
(** ast/types.rs:284-296. *)
Record avariant := AVariant { av_id : ident; av_value : option Z; av_doc : comment }.
(** ast/types.rs:129-153: [Struct] and [Table] have the same shape. *)
Record aproduct := AProduct {
  ap_id : ident; ap_fields : list afield; ap_meta : option metadata; ap_doc : comment }.
(** ast/types.rs:155-167. *)
Record aenum := AEnum {
  ae_id : ident; ae_variants : list avariant; ae_base : aty;
  ae_meta : option metadata; ae_doc : comment }.
(** ast/types.rs:169-180. *)
Record aunion := AUnion {
  au_id : ident; au_variants : list avariant; au_meta : option metadata; au_doc : comment }.
(** ast/types.rs:198-226. *)
Record amethod := AMethod {
  am_id : ident; am_request : qident; am_response : qident;
  am_meta : option metadata; am_doc : comment }.
Record arpc := ARpc { ar_id : ident; ar_methods : list amethod; ar_doc : comment }.
(** ast/types.rs:32-46 with the small records of 86-127 inlined. *)
Inductive element :=
| ENamespace (q : qident) (doc : comment)
| ETable (t : aproduct)
| EStruct (t : aproduct)
| EEnum (e : aenum)
| EUnion (u : aunion)
| ERoot (typename : ident)
| EFileExtension (ext : text) (doc : comment)
| EFileIdentifier (id : text) (doc : comment)
| EAttribute (attr : ident)
| ERpc (r : arpc)
| EObject (o : list (ident * value)) (doc : comment).
(** ast/types.rs:19-30, 7-17.  [stem] is a function of [path] computed by the
    standard library and is left out. *)
Record include := Include { in_path : text; in_doc : comment }.
Record schema := Schema { sc_includes : list include; sc_elements : list element }.

(** ast/types.rs:392-405 ([TryFrom<&Type> for DefaultValue]). *)
Definition implicit_default (t : aty) : option default_value :=
  match t with
  | AArray _ | AIdent _ | AString => None
  | APrim Bool => Some (DScalar (CBool false))
  | APrim (Double | Float | Float32 | Float64) => Some (DScalar (CFloat 0))
  | APrim _ => Some (DScalar (CInt 0))
  end.

(** ir/types.rs:315-338 ([TryFrom<&ast::Type> for EnumBaseType]). *)
Definition enum_base (t : aty) : option prim :=
  match t with
  | APrim (Bool | Float | Double | Float32 | Float64) => None
  | APrim p => Some p
  | _ => None
  end.

(** ir/types.rs:409-420. *)
Record ienumv := IEnumV { iev_id : ident; iev_value : option Z; iev_doc : comment }.

(** ir/types.rs:135-161 ([Type]), 257-277 ([CustomTypeRef], [CustomType]),
    115-133 ([Field] with its metadata), 423-432 ([UnionVariant]). *)
Inductive ity :=
| IPrim (p : prim)
| IString
| IArray (t : ity)
| ICustom (q : qident) (c : icustom)
with icustom :=
| KTable
| KStruct (fs : list ifield)
| KEnum (vs : list ienumv) (base : prim)
| KUnion (enum_ident : qident) (vs : list iunionv)
with ifield :=
| IField (id : ident) (ty : ity) (default : option default_value) (required : bool) (doc : comment)
with iunionv :=
| IUnionV (ty : ity) (id : ident) (doc : comment).

Definition if_id (f : ifield) : ident := match f with IField i _ _ _ _ => i end.
Definition if_ty (f : ifield) : ity := match f with IField _ t _ _ _ => t end.
Definition if_default (f : ifield) : option default_value := match f with IField _ _ d _ _ => d end.
Definition if_required (f : ifield) : bool := match f with IField _ _ _ r _ => r end.
Definition iuv_ty (v : iunionv) : ity := match v with IUnionV t _ _ => t end.
Definition iuv_id (v : iunionv) : ident := match v with IUnionV _ i _ => i end.

(** ir/types.rs:164-180, 279-283. *)
Definition is_scalar (t : ity) : bool :=
  match t with
  | IString | IArray _ => false
  | ICustom _ (KTable | KUnion _ _) => false
  | ICustom _ (KStruct _ | KEnum _ _) => true
  | IPrim _ => true
  end.
(** ir/types.rs:182-190. *)
Definition is_union (t : ity) : bool :=
  match t with ICustom _ (KUnion _ _) => true | _ => false end.

(** ir/types.rs:92-113 ([Table], [Struct]), 285-293 ([Enum]), 340-349
    ([Union]), 352-401 ([Rpc] and its methods). *)
Record itable := ITable {
  it_id : qident; it_fields : list ifield; it_root : bool; it_doc : comment }.
Record istruct := IStruct { is_id : qident; is_fields : list ifield; is_doc : comment }.
Record ienum := IEnum {
  ie_id : qident; ie_variants : list ienumv; ie_base : prim; ie_doc : comment }.
Record iunion := IUnion {
  iu_id : qident; iu_enum : qident; iu_variants : list iunionv; iu_doc : comment }.
Inductive streaming := StreamNone | StreamClient | StreamServer | StreamBidi.
Record imethod := IMethod {
  im_id : ident; im_snake : ident; im_request : qident; im_response : qident;
  im_streaming : streaming; im_doc : comment }.
Record irpc := IRpc { ir_id : qident; ir_methods : list imethod; ir_doc : comment }.
(** ir/types.rs:15-23 and 70-83. *)
Inductive node :=
| NNamespace (q : qident) (nodes : list node)
| NTable (t : itable)
| NStruct (s : istruct)
| NEnum (e : ienum)
| NUnion (u : iunion)
| NRpc (r : irpc).

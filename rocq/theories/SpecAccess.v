(** Vocabulary for statements about generated accessors on arbitrary bytes:
    programs that use them, and the values a field of a schema type may have. *)
From Coq Require Import ZArith List Bool Strings.Byte.
From Verif Require Import Base Scalar SpecWire Utf8 Reader Client Schema Codegen SpecGen.
Import ListNotations.
Local Open Scope Z_scope.

(** A call of a client of generated code: a call of the reader, or of a generated
    accessor on the [i]-th value obtained so far. *)
Inductive gcall := GRead (c : rcall) | GAccess (i : nat) (f : gfield).
Definition content (v : gval) : fval := match v with GPlain v | GVariant _ v => v end.
Definition gexec (h : host) (buf : list byte) (hs : list fval) (c : gcall) : outcome (list fval) :=
  match c with
  | GRead c => exec h buf hs c
  | GAccess i f => on_table hs i (fun l => let* o := gen_get h buf l f in Val (map content (opt_list o))) []
  end.
(** An error is returned to the client, which goes on. *)
Fixpoint gclient (h : host) (buf : list byte) (hs : list fval) (cs : list gcall) : outcome (list fval) :=
  match cs with
  | [] => Val hs
  | c :: cs =>
      match gexec h buf hs c with
      | Val new => gclient h buf (hs ++ new) cs
      | Err _ => gclient h buf hs cs
      | Panic => Panic
      end
  end.
(** Accessors are those of generated tables. *)
Definition gcall_ok (c : gcall) : Prop :=
  match c with
  | GRead c => rcall_ok c
  | GAccess _ f => exists lim gs, generated lim gs /\ In f gs
  end.

(** The numbers of a primitive type; floats are bit patterns. *)
Definition prim_range (p : prim) : Z * Z :=
  match p with
  | Bool => (0, 2)
  | Byte | Int8 => (- 2 ^ 7, 2 ^ 7)
  | UByte | UInt8 => (0, 2 ^ 8)
  | Short | Int16 => (- 2 ^ 15, 2 ^ 15)
  | UShort | UInt16 => (0, 2 ^ 16)
  | Int | Int32 => (- 2 ^ 31, 2 ^ 31)
  | UInt | UInt32 | Float | Float32 => (0, 2 ^ 32)
  | Long | Int64 => (- 2 ^ 63, 2 ^ 63)
  | ULong | UInt64 | Double | Float64 => (0, 2 ^ 64)
  end.
(** The [k]-th variant of an enum has this number. *)
Definition variant_number (vs : list ienumv) (n : Z) : Prop :=
  exists k v, nth_error vs k = Some v /\ n = match iev_value v with Some x => x | None => Z.of_nat k end.

(** [v], read from [buf], is a value of schema type [t]: numbers are in range,
    enum values are variants, strings are UTF-8, and all elements of a vector that
    can be read are values of its element type. *)
Fixpoint value_of (h : host) (buf : list byte) (t : ity) (v : fval) : Prop :=
  match t with
  | IPrim p => exists n, v = VScalar n /\ fst (prim_range p) <= n < snd (prim_range p)
  | IString => exists s, v = VStr s /\ is_utf8 s
  | IArray t => exists e l, v = VVector e l /\ forall i w, vec_get h e buf l i = Val w -> value_of h buf t w
  | ICustom _ KTable => exists l, v = VTable l
  | ICustom _ (KEnum vs _) => exists n, v = VEnum n /\ variant_number vs n
  | ICustom _ _ => False
  end.
(** The same for what an accessor returns: a union gives one of its variants with a
    value of that variant's type. *)
Definition returns (h : host) (buf : list byte) (t : ity) (r : gval) : Prop :=
  match t, r with
  | ICustom _ (KUnion _ vs), GVariant _ v => exists u, In u vs /\ value_of h buf (iuv_ty u) v
  | ICustom _ (KUnion _ _), GPlain _ | _, GVariant _ _ => False
  | _, GPlain v => value_of h buf t v
  end.

(** What the code emitted by butte-build/src/codegen.rs does: the generated
    [create] functions over the builder model, the generated accessors over the
    reader model.  Generation happens in two steps: [gen_table] is what the
    generator decides from the resolved schema (slots, types, literals), with
    [None] when the generator panics or rustc rejects what it emits; the
    [gen_*] functions after it are the emitted bodies.

    Names: the emitted Rust refers to fields by index here, except where the
    emitted text itself is looked up by name (the [x_type] accessor of a union
    field).  Doc attributes, lifetimes and clippy attributes have no run-time
    meaning and are left out. *)
From Coq Require Import ZArith List Bool Strings.Byte Strings.String.
From Verif Require Import Base Scalar Reader Builder Schema.
Import ListNotations.
Local Open Scope Z_scope.

(** codegen.rs:104-124 and 836-858. *)
Definition prim_ty (p : prim) : sty :=
  match p with
  | Bool => TBool
  | Byte | Int8 => TI8
  | UByte | UInt8 => TU8
  | Short | Int16 => TI16
  | UShort | UInt16 => TU16
  | Int | Int32 => TI32
  | UInt | UInt32 => TU32
  | Long | Int64 => TI64
  | ULong | UInt64 => TU64
  | Float | Float32 => TF32
  | Double | Float64 => TF64
  end.

(** codegen.rs:912-934: the value of every variant, in order: the given one or
    the variant's index. *)
Fixpoint enum_values_from (i : Z) (vs : list ienumv) : list Z :=
  match vs with
  | [] => []
  | v :: vs =>
      match iev_value v with Some x => x | None => i end :: enum_values_from (i + 1) vs
  end.
Definition enum_values (vs : list ienumv) : list Z := enum_values_from 0 vs.

Fixpoint mem_z (x : Z) (l : list Z) : bool :=
  match l with [] => false | y :: l => (x =? y) || mem_z x l end.
Fixpoint nodup_z (l : list Z) : bool :=
  match l with [] => true | x :: l => negb (mem_z x l) && nodup_z l end.
Fixpoint mem_ident (x : ident) (l : list ident) : bool :=
  match l with [] => false | y :: l => ident_eqb x y || mem_ident x l end.
Fixpoint nodup_ident (l : list ident) : bool :=
  match l with [] => true | x :: l => negb (mem_ident x l) && nodup_ident l end.

(** ir/types.rs:295-338: [EnumBaseType] has the integer types only. *)
Definition int_ty (t : sty) : bool :=
  match t with TBool | TF32 | TF64 => false | _ => true end.

(** rustc on the emitted enum (codegen.rs:964-1024): at least one variant (the
    [Default] impl), distinct names, literals in range, distinct discriminants;
    no variant [Error] or [Inner], which would make [Self::Error] (codegen.rs:993)
    or [Self::Inner] (codegen.rs:985) ambiguous (the lint
    ambiguous_associated_items, an error by default). *)
Definition enum_compiles (vs : list ienumv) (base : prim) : bool :=
  negb (match vs with [] => true | _ => false end) && int_ty (prim_ty base) &&
  nodup_ident (map iev_id vs) &&
  forallb (valid_scalar (prim_ty base)) (enum_values vs) &&
  nodup_z (enum_values vs) &&
  forallb (fun v => negb (mem_ident (iev_id v) [lit "Error"; lit "Inner"])) vs.

(** [<Enum>::Name]. *)
Fixpoint variant_value_from (i : Z) (vs : list ienumv) (id : ident) : option Z :=
  match vs with
  | [] => None
  | v :: vs =>
      if ident_eqb (iev_id v) id
      then Some (match iev_value v with Some x => x | None => i end)
      else variant_value_from (i + 1) vs id
  end.
Definition variant_value (vs : list ienumv) (id : ident) : option Z := variant_value_from 0 vs id.

(** codegen.rs:76-172 with [wrap_refs_types] = [ForwardsUOffset] and
    [wrap_outer] = true: the type an accessor passes to [Table::get].  Struct
    types panic in the generator (codegen.rs:1151); vectors of unions name
    a type without [Follow]. *)
Fixpoint follow_ty (t : ity) : option fty :=
  match t with
  | IPrim p => Some (FScalar (prim_ty p))
  | IString => Some (FUOffset FStr)
  | IArray t => option_map (fun t => FUOffset (FVector t)) (follow_ty t)
  | ICustom _ KTable => Some (FUOffset FTable)
  | ICustom _ (KEnum vs b) =>
      if enum_compiles vs b then Some (FEnum (prim_ty b) (enum_values vs)) else None
  | ICustom _ (KStruct _) | ICustom _ (KUnion _ _) => None
  end.

(** Conversions of literals to floating-point bit patterns, done by rustc and
    by [as f32] (codegen.rs:193-201). *)
Record floats := Floats { int_to_f32 : Z -> Z; int_to_f64 : Z -> Z; f64_to_f32 : Z -> Z }.

Section Gen.
Context (fl : floats).
(** heck's [to_snake_case]. *)
Context (snake : ident -> ident).

(** codegen.rs:175-222: a literal of a scalar type.  An integer literal out of
    range, a float literal for an integer type and the like are rejected by
    rustc; an infinity or NaN, also one that [as f32] makes, panics in
    [LitFloat::new]. *)
Definition finite64 (bits : Z) : bool := negb ((bits / 2 ^ 52) mod 2 ^ 11 =? 2 ^ 11 - 1).
Definition finite32 (bits : Z) : bool := negb ((bits / 2 ^ 23) mod 2 ^ 8 =? 2 ^ 8 - 1).
Definition const_value (t : sty) (c : scalar_const) : option Z :=
  match t, c with
  | TBool, CBool b => Some (if b then 1 else 0)
  | TBool, _ | _, CBool _ => None
  | TF32, CInt i => Some (int_to_f32 fl i)
  | TF64, CInt i => Some (int_to_f64 fl i)
  | TF32, CFloat f => if finite32 (f64_to_f32 fl f) then Some (f64_to_f32 fl f) else None
  | TF64, CFloat f => if finite64 f then Some f else None
  | _, CInt i => if valid_scalar t i then Some i else None
  | _, CFloat _ => None
  end.

(** A generated field. *)
Inductive gkind :=
| GScalar (t : sty) (default : option Z)
| GEnum (t : sty) (values : list Z) (default : option Z)
| GRef (t : fty)
| GUnion (tslot : Z) (tbase : sty) (tvalues : list Z) (tdefault : option Z) (variants : list (Z * fty)).
Record gfield := GField { g_slot : Z; g_kind : gkind; g_req : bool }.

(** codegen.rs:623-624: the [x_type] accessor, found by name among the
    accessors (named by codegen.rs:580). *)
Definition type_name (id : ident) : ident := (snake id ++ lit "_type")%list.
Fixpoint find_field (i : Z) (fs : list ifield) (name : ident) : option (Z * ifield) :=
  match fs with
  | [] => None
  | f :: fs => if ident_eqb (snake (if_id f)) name then Some (i, f) else find_field (i + 1) fs name
  end.

(** codegen.rs:626-689: one match arm per variant. *)
Fixpoint union_arms (evs : list ienumv) (vs : list iunionv) : option (list (Z * fty)) :=
  match vs with
  | [] => Some []
  | v :: vs =>
      match variant_value evs (iuv_id v), follow_ty (iuv_ty v), union_arms evs vs with
      | Some n, Some t, Some l => Some ((n, t) :: l)
      | _, _, _ => None
      end
  end.

(** rustc on that match and on the union's own enum (codegen.rs:1073-1091):
    distinct variants, and the arms with the [None] arm cover the companion enum;
    a table among the variants, without which the enum's ['a] is unused. *)
Definition is_table (t : ity) : bool := match t with ICustom _ KTable => true | _ => false end.
Definition union_exhaustive (evs : list ienumv) (vs : list iunionv) : bool :=
  existsb (fun v => is_table (iuv_ty v)) vs && nodup_ident (map iuv_id vs) && mem_ident (lit "None") (map iev_id evs) &&
  forallb (fun e => ident_eqb (iev_id e) (lit "None") || mem_ident (iev_id e) (map iuv_id vs)) evs.

(** codegen.rs:562-568: the slot of the [index]-th field; [index as VOffsetT]
    wraps, and [hg] is the generator's own build. *)
Definition slot_of (hg : host) (index : Z) : option Z :=
  match field_index_to_field_offset hg (as_u16 index) with Val s => Some s | _ => None end.

(** The default of an enum field, codegen.rs:217-220. *)
Definition enum_default (vs : list ienumv) (d : option default_value) : option (option Z) :=
  match d with
  | None => Some None
  | Some (DIdent i) => option_map Some (variant_value vs i)
  | Some (DScalar _) => None
  end.

(** One field of [all]; codegen.rs:512-708.  [None] where the generator panics
    or its output does not compile.  Not modelled: a primitive field whose
    default names an associated constant of its type ([x:ubyte = MAX]), which
    compiles if [Args] has no [Default]; taken as failing. *)
Definition gen_field (hg : host) (all : list ifield) (index : Z) (f : ifield) : option gfield :=
  match slot_of hg index with
  | None => None
  | Some slot =>
      let mk k := Some (GField slot k (if_required f)) in
      match if_ty f, if_default f with
      | IPrim p, None => mk (GScalar (prim_ty p) None)
      | IPrim p, Some (DScalar c) =>
          match const_value (prim_ty p) c with
          | Some v => mk (GScalar (prim_ty p) (Some v))
          | None => None
          end
      | ICustom _ (KEnum vs b), d =>
          match enum_default vs d with
          | Some d => if enum_compiles vs b then mk (GEnum (prim_ty b) (enum_values vs) d) else None
          | None => None
          end
      | ICustom _ (KUnion e vs), (None | Some (DIdent _) | Some (DScalar (CBool _))) =>
          match find_field 0 all (type_name (if_id f)) with
          | Some (j, tf) =>
              match if_ty tf with
              | ICustom q (KEnum evs b) =>
                  match union_arms evs vs, slot_of hg j, enum_default evs (if_default tf) with
                  | Some arms, Some tslot, Some td =>
                      if qident_eqb q e && Bool.eqb (if_required tf) (if_required f) && enum_compiles evs b
                         && union_exhaustive evs vs
                      then mk (GUnion tslot (prim_ty b) (enum_values evs) td arms)
                      else None
                  | _, _, _ => None
                  end
              | _ => None
              end
          | None => None
          end
      | (IString | IArray _ | ICustom _ KTable) as t, None =>
          match follow_ty t with Some t => mk (GRef t) | None => None end
      | _, _ => None
      end
  end.
Fixpoint gen_fields (hg : host) (all : list ifield) (index : Z) (fs : list ifield)
  : option (list gfield) :=
  match fs with
  | [] => Some []
  | f :: fs =>
      match gen_field hg all index f, gen_fields hg all (index + 1) fs with
      | Some g, Some gs => Some (g :: gs)
      | _, _ => None
      end
  end.
(** [<Enum>::default()] (codegen.rs:493) in the [Default] impl of [Args], there if
    no field is required but scalars, is not the [Default] of an enum with a
    variant [default]. *)
Definition default_hidden (f : ifield) : bool :=
  match if_ty f, if_default f with
  | ICustom _ (KEnum vs _), None => mem_ident (lit "default") (map iev_id vs)
  | _, _ => false
  end.
Definition args_default_compiles (fs : list ifield) : bool :=
  negb (forallb (fun f => negb (if_required f) || is_scalar (if_ty f)) fs && existsb default_hidden fs).
(** codegen.rs:556: the parameter of [add_x] is named like the field, and parameters
    cannot shadow the variants that are in scope everywhere. *)
Definition params_compile (fs : list ifield) : bool :=
  forallb (fun f => negb (mem_ident (if_id f) [lit "Some"; lit "None"; lit "Ok"; lit "Err"])) fs.
(** codegen.rs:359-825, and rustc: accessors with distinct names, none of them
    [create] (codegen.rs:744) or [get_root] (codegen.rs:762). *)
Definition gen_table (hg : host) (fs : list ifield) : option (list gfield) :=
  if nodup_ident (lit "create" :: lit "get_root" :: map (fun f => snake (if_id f)) fs) &&
     (args_default_compiles fs && params_compile fs)
  then gen_fields hg fs 0 fs else None.

End Gen.

(** An argument of the generated [Args] struct (codegen.rs:394-435): scalar
    and required fields are values, the others options. *)
Definition garg := option pval.

Definition is_scalar_kind (k : gkind) : bool :=
  match k with GScalar _ _ | GEnum _ _ _ => true | _ => false end.

(** The generated [add_x] methods, codegen.rs:512-560. *)
Definition gen_add (h : host) (b : builder) (f : gfield) (x : pval) : outcome builder :=
  match g_kind f with
  | GScalar t (Some d) | GEnum t _ (Some d) => push_slot h b (g_slot f) x (PScalar t d)
  | _ => push_slot_always h b (g_slot f) x
  end.

(** The calls emitted into [create], codegen.rs:373-391. *)
Fixpoint gen_adds (h : host) (b : builder) (fs : list gfield) (args : list garg) : outcome builder :=
  match fs, args with
  | f :: fs, a :: args =>
      let* b := match a with Some x => gen_add h b f x | None => Val b end in
      gen_adds h b fs args
  | _, _ => Val b
  end.

(** codegen.rs:710-719: one [required] call per required field. *)
Fixpoint gen_required (h : host) (b : builder) (o : Z) (fs : list gfield) : outcome unit :=
  match fs with
  | [] => Val tt
  | f :: fs =>
      let* _ := (if g_req f then required h b o (g_slot f) else Val tt) in
      gen_required h b o fs
  end.

(** [create], with the generated builder's [new] and [finish]:
    codegen.rs:744-751, 808-821. *)
Definition gen_create (h : host) (b : builder) (fs : list gfield) (args : list garg)
  : outcome (builder * Z) :=
  let* (b, start) := start_table h b in
  let* b := gen_adds h b fs args in
  let* (b, o) := end_table h b start in
  let* _ := gen_required h b o fs in
  Val (b, o).

(** The generated [Default] of the [Args] struct, codegen.rs:449-510: [None] when
    there is a required field that is not scalar. *)
Definition first_value (l : list Z) : Z := match l with v :: _ => v | [] => 0 end.
Definition default_arg (f : gfield) : garg :=
  match g_kind f with
  | GScalar t d => Some (PScalar t (match d with Some v => v | None => 0 end))
  | GEnum t vs d => Some (PScalar t (match d with Some v => v | None => first_value vs end))
  | _ => None
  end.
Definition default_args (fs : list gfield) : option (list garg) :=
  if forallb (fun f => negb (g_req f) || is_scalar_kind (g_kind f)) fs
  then Some (map default_arg fs) else None.

(** What a generated accessor returns: a plain value, or a union's variant
    (named by its type number) with its content. *)
Inductive gval := GPlain (v : fval) | GVariant (n : Z) (v : fval).

(** [.ok_or(RequiredFieldMissing(..))] of the required accessors. *)
Definition check_required {A} (req : bool) (x : option A) : outcome (option A) :=
  match x with
  | Some v => Val (Some v)
  | None => if req then Err RequiredFieldMissing else Val None
  end.

Fixpoint find_arm (n : Z) (arms : list (Z * fty)) : option fty :=
  match arms with [] => None | (m, t) :: arms => if n =? m then Some t else find_arm n arms end.

(** The generated accessors, codegen.rs:570-708. *)
Definition gen_get (h : host) (buf : list byte) (tab : Z) (f : gfield) : outcome (option gval) :=
  let plain t d :=
    let* v := table_get h buf tab (g_slot f) t d in
    let* v := check_required (g_req f) v in
    Val (option_map GPlain v) in
  match g_kind f with
  | GScalar t d => plain (FScalar t) (option_map VScalar d)
  | GEnum t vs d => plain (FEnum t vs) (option_map VEnum d)
  | GRef t => plain t None
  | GUnion tslot tb tvs td arms =>
      let* ty := table_get h buf tab tslot (FEnum tb tvs) (option_map VEnum td) in
      let* ty := check_required (g_req f) ty in
      match ty with
      | Some (VEnum n) =>
          match find_arm n arms with
          | Some t =>
              let* v := table_get h buf tab (g_slot f) t None in
              let* v := check_required (g_req f) v in
              Val (option_map (GVariant n) v)
          | None => if g_req f then Err RequiredFieldMissing else Val None
          end
      | _ => Val None
      end
  end.

(** The generated enum: [TryFrom] (codegen.rs:991-999), [From] (1001-1007),
    [enum_name_x] (1019-1023), [Default] (976-980).  A variant is its index. *)
Fixpoint index_of (n : Z) (l : list Z) : option nat :=
  match l with
  | [] => None
  | m :: l => if n =? m then Some O else option_map S (index_of n l)
  end.
Definition enum_try_from (vs : list ienumv) (n : Z) : outcome nat :=
  ok_or (index_of n (enum_values vs)) UnknownEnumVariant.
Definition enum_into (vs : list ienumv) (i : nat) : Z := nth i (enum_values vs) 0.
(** The generated union's [get_type], codegen.rs:1081-1087: a variant by index
    to the companion enum's variant of the same name. *)
Definition union_get_type (evs : list ienumv) (vs : list iunionv) (i : nat) : option Z :=
  match nth_error vs i with Some v => variant_value evs (iuv_id v) | None => None end.

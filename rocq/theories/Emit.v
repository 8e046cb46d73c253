(** The items that butte-build/src/codegen.rs emits, their names, the paths in
    their code, and where the generator panics.  What the code of the items does
    is in Codegen.v.

    Panics come from names, paths and literals that proc-macro2 and syn refuse;
    which ones they refuse is left open ([ident_ok], [path_ok], [literal_ok]). *)
From Coq Require Import Strings.String ZArith List Bool Strings.Byte.
From Verif Require Import Base Schema Ident Codegen.
Import ListNotations.
Local Open Scope Z_scope.

(** The kinds of types in emitted code: [Foo<B>], [FooArgs], [FooBuilder<'a, 'b>],
    the enum [Foo], the union [Foo<'a>]; nothing is emitted for a struct. *)
Inductive rkind := RTable | RArgs | RBuilder | REnum | RUnion | RStruct.
(** A type with the paths in its code, each with the kind of type its use there
    expects; a function; a module. *)
Inductive item :=
| XType (k : rkind) (name : ident) (paths : list (qident * rkind))
| XFn (name : ident)
| XMod (name : ident) (items : list item).

Definition rkind_of (c : icustom) : rkind :=
  match c with KTable => RTable | KStruct _ => RStruct | KEnum _ _ => REnum | KUnion _ _ => RUnion end.

(** codegen.rs:76-172: the paths in a type, inside the module [ns]. *)
Fixpoint ty_paths (ns : option qident) (t : ity) : list (qident * rkind) :=
  match t with
  | IPrim _ | IString => []
  | IArray t => ty_paths ns t
  | ICustom q c => [(relative q ns, rkind_of c)]
  end.

(** All of them, if there are all. *)
Fixpoint every {A} (l : list (option (list A))) : option (list A) :=
  match l with
  | [] => Some []
  | None :: _ => None
  | Some x :: l => option_map (app x) (every l)
  end.
Definition ensure {A} (b : bool) : option (list A) := if b then Some [] else None.

Section Emit.
(** heck's [to_snake_case] and [to_shouty_snake_case]. *)
Context (snake shouty : text -> text).
(** [format_ident!] does not panic; [syn::parse_str::<Path>] reads the path;
    [LitInt::new] or [LitFloat::new] takes the constant followed by the tokens of
    the type, printed inside a module and with or without a wrapper. *)
Context (ident_ok : ident -> bool) (path_ok : qident -> bool).
Context (literal_ok : scalar_const -> bool -> option qident -> ity -> bool).
(** The generator's own build. *)
Context (hg : host).

(** codegen.rs:76-172, 872-881: a type's tokens. *)
Definition type_tokens (ns : option qident) (t : ity) : option (list (qident * rkind)) :=
  if forallb (fun p => path_ok (fst p)) (ty_paths ns t) then Some (ty_paths ns t) else None.
(** codegen.rs:872-881. *)
Definition path_tokens (q : qident) (k : rkind) : option (list (qident * rkind)) :=
  if path_ok q then Some [(q, k)] else None.

(** codegen.rs:205-222. *)
Definition default_tokens (wrapped : bool) (ns : option qident) (t : ity) (d : default_value)
  : option (list (qident * rkind)) :=
  match d with
  | DScalar (CBool _) => Some []
  | DScalar c => ensure (literal_ok c wrapped ns t)
  | DIdent i => if ident_ok i then type_tokens ns t else None
  end.
(** codegen.rs:225-251: a doc comment, for which the type is printed as in no
    module. *)
Definition default_doc_ok (f : ifield) : bool :=
  match if_default f with
  | Some (DScalar (CInt _ as c)) | Some (DScalar (CFloat _ as c)) =>
      forallb (fun p => path_ok (fst p)) (ty_paths None (if_ty f)) && literal_ok c false None (if_ty f)
  | _ => true
  end.
(** codegen.rs:394-435: a field of [Args]. *)
Definition args_field (ns : option qident) (f : ifield) : option (list (qident * rkind)) :=
  every [ensure (ident_ok (if_id f)); ensure (default_doc_ok f);
         if is_union (if_ty f) then Some [] else type_tokens ns (if_ty f)].
(** codegen.rs:457-496: its value in the [Default] impl. *)
Definition is_enum (t : ity) : bool := match t with ICustom _ (KEnum _ _) => true | _ => false end.
Definition args_default (ns : option qident) (f : ifield) : option (list (qident * rkind)) :=
  every [type_tokens ns (if_ty f);
         if negb (is_scalar (if_ty f)) then Some []
         else match if_default f with
              | None => Some []
              | Some d =>
                  if is_enum (if_ty f)
                  then match d with DIdent i => ensure (ident_ok i) | DScalar _ => None end
                  else match d with
                       | DScalar (CBool _) => Some []
                       | DScalar c => ensure (literal_ok c false ns (if_ty f))
                       | DIdent _ => None
                       end
              end].
(** codegen.rs:512-560: the [add_x] method. *)
Definition builder_method (ns : option qident) (f : ifield) : option (list (qident * rkind)) :=
  every [ensure (ident_ok (lit "add_" ++ if_id f)); ensure (ident_ok (if_id f));
         ensure (ident_ok (lit "VT_" ++ shouty (if_id f)));
         if is_union (if_ty f) then Some [] else type_tokens ns (if_ty f);
         match if_default f with
         | Some d => if is_scalar (if_ty f) then default_tokens true ns (if_ty f) d else Some []
         | None => Some []
         end].
(** codegen.rs:570-708: the accessor. *)
Definition accessor (ns : option qident) (f : ifield) : option (list (qident * rkind)) :=
  every [ensure (ident_ok (snake (if_id f)));
         type_tokens ns (if_ty f);
         match if_default f with Some d => default_tokens true ns (if_ty f) d | None => Some [] end;
         match if_ty f with
         | ICustom q (KUnion e vs) =>
             every [path_tokens (relative q ns) RUnion; path_tokens (relative e ns) REnum;
                    ensure (ident_ok (snake (if_id f) ++ lit "_type"));
                    every (map (fun v => every [ensure (ident_ok (iuv_id v)); type_tokens ns (iuv_ty v)]) vs)]
         | _ => Some []
         end].
(** codegen.rs:562-568. *)
Definition offset_constant (index : Z) : option (list (qident * rkind)) :=
  match slot_of hg index with Some _ => Some [] | None => None end.
Fixpoint offset_constants (index : Z) (fs : list ifield) : option (list (qident * rkind)) :=
  match fs with
  | [] => Some []
  | _ :: fs => every [offset_constant index; offset_constants (index + 1) fs]
  end.

(** codegen.rs:359-826. *)
Definition emit_table (t : itable) : option (list item) :=
  let name := last (it_id t) [] in
  let ns := q_namespace (it_id t) in
  let fs := it_fields t in
  match every [ensure (ident_ok name); ensure (ident_ok (name ++ lit "Args")); ensure (ident_ok (name ++ lit "Builder"));
               every (map (args_field ns) fs);
               if forallb (fun f => negb (if_required f) || is_scalar (if_ty f)) fs
               then every (map (args_default ns) fs) else Some [];
               every (map (builder_method ns) fs);
               offset_constants 0 fs;
               every (map (accessor ns) fs)] with
  | Some paths => Some [XType RTable name paths; XType RArgs (name ++ lit "Args") []; XType RBuilder (name ++ lit "Builder") []]
  | None => None
  end.

(** codegen.rs:883-1027; the literals are those of [enum_values] with the base
    type. *)
Definition emit_enum (e : ienum) : option (list item) :=
  let name := last (ie_id e) [] in
  match every [ensure (ident_ok name); ensure (ident_ok (lit "enum_name_" ++ snake name));
               ensure (forallb (fun v => ident_ok (iev_id v)) (ie_variants e));
               ensure (forallb (fun n => literal_ok (CInt n) false None (IPrim (ie_base e))) (enum_values (ie_variants e)))] with
  | Some paths => Some [XType REnum name paths; XFn (lit "enum_name_" ++ snake name)]
  | None => None
  end.

(** codegen.rs:1029-1092. *)
Definition emit_union (u : iunion) : option (list item) :=
  let name := last (iu_id u) [] in
  let ns := q_namespace (iu_id u) in
  match every [ensure (ident_ok name); path_tokens (relative (iu_enum u) ns) REnum;
               every (map (fun v => every [ensure (ident_ok (iuv_id v)); type_tokens ns (iuv_ty v)]) (iu_variants u))] with
  | Some paths => Some [XType RUnion name paths]
  | None => None
  end.

(** codegen.rs:1099-1154 with no [RpcGenerator], as in compile.rs:72-77 and
    main.rs:40; a struct panics. *)
Fixpoint emit_node (n : node) : option (list item) :=
  match n with
  | NTable t => emit_table t
  | NEnum e => emit_enum e
  | NUnion u => emit_union u
  | NNamespace q ns =>
      let name := module_name snake (last q []) in
      match ensure (A := item) (ident_ok name),
            (fix all (l : list node) : option (list item) :=
               match l with
               | [] => Some []
               | n :: l => match emit_node n, all l with Some x, Some y => Some (x ++ y)%list | _, _ => None end
               end) ns with
      | Some _, Some items => Some [XMod name items]
      | _, _ => None
      end
  | NRpc _ => Some []
  | NStruct _ => None
  end.
Fixpoint emit (l : list node) : option (list item) :=
  match l with
  | [] => Some []
  | n :: l => match emit_node n, emit l with Some x, Some y => Some (x ++ y)%list | _, _ => None end
  end.
End Emit.

(** Vocabulary for statements about schemas that change over time. *)
From Coq Require Import Strings.String ZArith List Bool Strings.Byte.
From Verif Require Import Base Schema Reader Codegen SpecResolve SpecAccess.
Import ListNotations.
Local Open Scope string_scope.
Local Open Scope list_scope.

(** ** Schemas *)
(** A declaration and a later version of it: with fields appended to a table,
    variants to an enum or a union, methods to a service. *)
Inductive grows : element -> element -> Prop :=
| grows_not e : grows e e
| grows_table id fs more m d : grows (ETable (AProduct id fs m d)) (ETable (AProduct id (fs ++ more) m d))
| grows_enum id vs more b m d : grows (EEnum (AEnum id vs b m d)) (EEnum (AEnum id (vs ++ more) b m d))
| grows_union id vs more m d : grows (EUnion (AUnion id vs m d)) (EUnion (AUnion id (vs ++ more) m d))
| grows_rpc id ms more d : grows (ERpc (ARpc id ms d)) (ERpc (ARpc id (ms ++ more) d)).
(** A schema and a later version of it: every declaration is still there, in the
    same namespace, perhaps grown and anywhere in the file; there may be others. *)
Definition evolves (es es' : list element) : Prop :=
  forall i e, nth_error es i = Some e -> is_namespace e = false ->
    exists j e', nth_error es' j = Some e' /\ grows e e' /\ written_prefix es' j = written_prefix es i.
(** Every declaration is defined in the namespace in which it is written (C41):
    it stays there, or that is the last one.  So it is with one namespace, and if
    types are declared before their uses. *)
Definition settled (es : list element) : Prop :=
  forall i e, nth_error es i = Some e -> is_namespace e = false -> stays es i \/ written_prefix es i = last_prefix es.

(** ** Resolved schemas *)
(** What becomes of types, kinds, fields and variants. *)
Inductive ty_grown : ity -> ity -> Prop :=
| tg_prim p : ty_grown (IPrim p) (IPrim p)
| tg_string : ty_grown IString IString
| tg_array t t' : ty_grown t t' -> ty_grown (IArray t) (IArray t')
| tg_custom q c c' : kind_grown c c' -> ty_grown (ICustom q c) (ICustom q c')
with kind_grown : icustom -> icustom -> Prop :=
| kg_table : kind_grown KTable KTable
| kg_struct fs fs' : Forall2 field_grown fs fs' -> kind_grown (KStruct fs) (KStruct fs')
| kg_enum vs more b : kind_grown (KEnum vs b) (KEnum (vs ++ more) b)
| kg_union e vs vs' more : Forall2 variant_grown vs vs' -> kind_grown (KUnion e vs) (KUnion e (vs' ++ more))
with field_grown : ifield -> ifield -> Prop :=
| fg_field id t t' d r doc : ty_grown t t' -> field_grown (IField id t d r doc) (IField id t' d r doc)
with variant_grown : iunionv -> iunionv -> Prop :=
| vg_variant t t' id doc : ty_grown t t' -> variant_grown (IUnionV t id doc) (IUnionV t' id doc).
(** What becomes of definitions.  A table may become a root. *)
Inductive node_grown : node -> node -> Prop :=
| ng_table q fs fs' more r r' d : Forall2 field_grown fs fs' -> (r = true -> r' = true) ->
    node_grown (NTable (ITable q fs r d)) (NTable (ITable q (fs' ++ more) r' d))
| ng_struct q fs fs' d : Forall2 field_grown fs fs' -> node_grown (NStruct (IStruct q fs d)) (NStruct (IStruct q fs' d))
| ng_enum q vs more b d : node_grown (NEnum (IEnum q vs b d)) (NEnum (IEnum q (vs ++ more) b d))
| ng_union q e vs vs' more d : Forall2 variant_grown vs vs' ->
    node_grown (NUnion (IUnion q e vs d)) (NUnion (IUnion q e (vs' ++ more) d))
| ng_rpc q ms more d : node_grown (NRpc (IRpc q ms d)) (NRpc (IRpc q (ms ++ more) d)).

(** ** Values *)
(** The same value, where the elements of a vector may know more variants. *)
Inductive fval_grown : fval -> fval -> Prop :=
| fvg_not v : fval_grown v v
| fvg_vector t t' e e' l : ty_grown t t' -> follow_ty t = Some e -> follow_ty t' = Some e' ->
    fval_grown (VVector e l) (VVector e' l).
Inductive gval_grown : option gval -> option gval -> Prop :=
| gvg_none : gval_grown None None
| gvg_plain v v' : fval_grown v v' -> gval_grown (Some (GPlain v)) (Some (GPlain v'))
| gvg_variant n v v' : fval_grown v v' -> gval_grown (Some (GVariant n v)) (Some (GVariant n v')).
(** What code of the old schema and code of the new one make of the same bytes:
    the same, *)
Definition agree {A} (R : A -> A -> Prop) (old new : outcome A) : Prop :=
  match old, new with
  | Val x, Val y => R x y
  | Err e, Err e' => e = e'
  | Panic, Panic => True
  | _, _ => False
  end.
(** or the old code refuses a variant that only the new schema has. *)
Definition newer {A} (t : ity) (wrap : fval -> A) (old new : outcome A) : Prop :=
  old = Err UnknownEnumVariant /\
  exists q vs b n, t = ICustom q (KEnum vs b) /\ new = Val (wrap (VEnum n)) /\ ~ variant_number vs n.
(** What the accessors of a field [f], old and new, return for the same bytes: the
    same; or the field is an enum and the old one refuses a variant that only the new
    schema has; or it is a union and that happens to its type, read by its old
    companion accessor, or to its content. *)
Definition reads_alike (snake : text -> text) (fs : list ifield) (gs : list gfield) (h : host) (buf : list byte) (tab : Z) (f : ifield)
    (old new : outcome (option gval)) : Prop :=
  agree gval_grown old new \/ newer (if_ty f) (fun v => Some (GPlain v)) old new \/
  exists q e vs, if_ty f = ICustom q (KUnion e vs) /\
    ((exists j tf c gt, nth_error fs j = Some tf /\ snake (if_id tf) = snake (if_id f) ++ lit "_type" /\ if_ty tf = ICustom e c /\ nth_error gs j = Some gt /\
        old = Err UnknownEnumVariant /\ gen_get h buf tab gt = Err UnknownEnumVariant) \/
     exists u n, In u vs /\ newer (iuv_ty u) (fun v => Some (GVariant n v)) old new).

(** Vocabulary for statements about which schemas are accepted: well-formed
    schemas, without reference to how they get resolved. *)
From Coq Require Import Strings.String ZArith List Bool Strings.Byte.
From Verif Require Import Base Schema Ident SpecResolve.
Import ListNotations.

Section Formed.
Context (es : list element).
Notation at_ := (written_prefix es).

(** The [i]-th declaration declares the type [q]. *)
Definition gives_name (i : nat) (q : qident) : Prop := exists e, nth_error es i = Some e /\ In q (declared_names (at_ i) e).
(** The name [q] is that of a table; of a struct or an enum, be it that of a union. *)
Definition names_table (q : qident) : Prop := exists i t, nth_error es i = Some (ETable t) /\ q = local_name (at_ i) (ap_id t).
Definition names_plain (q : qident) : Prop :=
  exists i e, nth_error es i = Some e /\
    match e with
    | EStruct t => q = local_name (at_ i) (ap_id t)
    | EEnum e => q = local_name (at_ i) (ae_id e)
    | EUnion u => q = companion_name (at_ i) (au_id u)
    | _ => False
    end.

(** What a declaration may be made of: a service or a root names tables, a
    struct is made of scalars, enums and structs, an enum is based on an integral
    type, a streaming mode is a known one.  Nothing is asked of the names of
    fields, variants, methods and services. *)
Definition allowed (i : nat) (e : element) : Prop :=
  match e with
  | ENamespace _ _ | ETable _ | EUnion _ => True
  | EStruct t => forall f, In f (ap_fields t) ->
      match af_ty f with APrim _ => True | AIdent q => names_plain (full_name (at_ i) q) | _ => False end
  | EEnum e => exists b, ae_base e = APrim b /\ ~ In b [Bool; Float; Double; Float32; Float64]
  | ERoot id => names_table (local_name (at_ i) id)
  | ERpc r => forall m, In m (ar_methods r) ->
      names_table (full_name (at_ i) (am_request m)) /\ names_table (full_name (at_ i) (am_response m)) /\
      exists s, streaming_is (am_meta m) s
  | EFileExtension _ _ | EFileIdentifier _ _ | EAttribute _ | EObject _ _ => False
  end.

(** A declaration that refers to declared types only, and in no circle but
    through a table. *)
Inductive definable : nat -> Prop :=
| definable_at i e : nth_error es i = Some e ->
    (forall r, In r (refs e) -> exists j e', nth_error es j = Some e' /\ In (full_name (at_ i) r) (declared_names (at_ j) e') /\
       (definable j \/ needs_definition e = false /\ exists t, e' = ETable t)) ->
    definable i.

(** A declaration that uses nothing but tables declared so far, so that it can
    be the first to be defined. *)
Definition can_begin (i : nat) : Prop :=
  exists e, nth_error es i = Some e /\
  match e with
  | ERpc r => ar_methods r = []
  | ENamespace _ _ | ERoot _ => False
  | _ => forall r, In r (refs e) -> exists j t, (j <= i)%nat /\ nth_error es j = Some (ETable t) /\
           full_name (at_ i) r = local_name (at_ j) (ap_id t)
  end.

Record well_formed : Prop := WellFormed {
  wf_distinct : forall i j q, gives_name i q -> gives_name j q -> i = j;
  wf_allowed : forall i e, nth_error es i = Some e -> allowed i e;
  wf_definable : forall i e, nth_error es i = Some e -> definable i;
  wf_start : declarations es = [] \/ exists i, can_begin i }.
End Formed.

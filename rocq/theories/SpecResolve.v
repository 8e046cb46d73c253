(** Vocabulary for statements about schema resolution: what a resolved schema
    should be, without reference to the order in which things get resolved. *)
From Coq Require Import Strings.String ZArith List Bool Strings.Byte.
From Verif Require Import Base Schema Ident.
Import ListNotations.
Local Open Scope Z_scope.

(** The namespace in force after these elements, beginning with [ns]. *)
Fixpoint namespace_after (ns : option qident) (es : list element) : option qident :=
  match es with
  | [] => ns
  | ENamespace q _ :: es => namespace_after (Some q) es
  | _ :: es => namespace_after ns es
  end.
(** The namespace in force where the [i]-th element is written, and at the end. *)
Definition prefix_of (ns : option qident) : qident :=
  match ns with Some q => qident_of q | None => [] end.
Definition written_prefix (es : list element) (i : nat) : qident := prefix_of (namespace_after None (firstn i es)).
Definition last_prefix (es : list element) : qident := prefix_of (namespace_after None es).

(** What a name means inside a namespace: simple names are local, dotted names
    absolute. *)
Definition local_name (prefix : qident) (id : ident) : qident := (prefix ++ [fix_identifier id])%list.
Definition full_name (prefix : qident) (q : qident) : qident :=
  match q with [id] => local_name prefix id | _ => qident_of q end.

(** [view q c]: the name [q] is known to be a [c]. *)
Section Declares.
Context (snake : text -> text) (roots : qident -> bool) (view : qident -> icustom -> Prop) (prefix : qident).

Inductive resolves : aty -> ity -> Prop :=
| resolves_prim p : resolves (APrim p) (IPrim p)
| resolves_string : resolves AString IString
| resolves_array t u : resolves t u -> resolves (AArray t) (IArray u)
| resolves_name q c : view (full_name prefix q) c -> resolves (AIdent q) (ICustom (full_name prefix q) c).

Definition required_of (m : option metadata) : bool :=
  match m with
  | Some m => match meta_get m (lit "required") with Some None => true | _ => false end
  | None => false
  end.
Definition default_of (f : afield) : option default_value :=
  match af_default f with Some d => Some d | None => implicit_default (af_ty f) end.

(** The fields of a table: each field, preceded by its type field if it is a
    union. *)
Inductive table_fields_of : list afield -> list ifield -> Prop :=
| tf_nil : table_fields_of [] []
| tf_plain f fs ty l :
    resolves (af_ty f) ty -> is_union ty = false -> table_fields_of fs l ->
    table_fields_of (f :: fs)
      (IField (fix_identifier (af_id f)) ty (default_of f) (required_of (af_meta f)) (af_doc f) :: l)
| tf_union f fs q e vs c l :
    resolves (af_ty f) (ICustom q (KUnion e vs)) -> view e c -> table_fields_of fs l ->
    table_fields_of (f :: fs)
      (IField (fix_identifier (snake (af_id f) ++ lit "_type")) (ICustom e c) None (required_of (af_meta f)) (af_doc f) ::
       IField (fix_identifier (af_id f)) (ICustom q (KUnion e vs)) (default_of f) (required_of (af_meta f)) (af_doc f) :: l).

(** The fields of a struct: scalars, enums and structs. *)
Inductive struct_fields_of : list afield -> list ifield -> Prop :=
| sf_nil : struct_fields_of [] []
| sf_cons f fs ty l :
    resolves (af_ty f) ty -> is_scalar ty = true -> struct_fields_of fs l ->
    struct_fields_of (f :: fs) (IField (fix_identifier (af_id f)) ty (af_default f) false (af_doc f) :: l).

Definition enum_variants_of (vs : list avariant) : list ienumv :=
  map (fun v => IEnumV (fix_identifier (av_id v)) (av_value v) (av_doc v)) vs.
(** The companion of a union: its name, and None and the variants, numbered. *)
Definition companion_name (id : ident) : qident :=
  (prefix ++ [lit "butte_gen"; fix_identifier (id ++ lit "Type")])%list.
Definition companion_of (vs : list avariant) : list ienumv :=
  IEnumV (lit "None") (Some 0) [] :: map (fun v => IEnumV (fix_identifier (av_id v)) None (av_doc v)) vs.
Inductive union_variants_of : list avariant -> list iunionv -> Prop :=
| uv_nil : union_variants_of [] []
| uv_cons v vs ty l :
    resolves (AIdent [av_id v]) ty -> union_variants_of vs l ->
    union_variants_of (v :: vs) (IUnionV ty (fix_identifier (av_id v)) (av_doc v) :: l).

Inductive streaming_is : option metadata -> streaming -> Prop :=
| st_absent : streaming_is None StreamNone
| st_none m : meta_get m (lit "streaming") = None -> streaming_is (Some m) StreamNone
| st_client m : meta_get m (lit "streaming") = Some (Some (SString (lit "client"))) -> streaming_is (Some m) StreamClient
| st_server m : meta_get m (lit "streaming") = Some (Some (SString (lit "server"))) -> streaming_is (Some m) StreamServer
| st_bidi m : meta_get m (lit "streaming") = Some (Some (SString (lit "bidi"))) -> streaming_is (Some m) StreamBidi.
Inductive methods_of : list amethod -> list imethod -> Prop :=
| mo_nil : methods_of [] []
| mo_cons m ms s l :
    view (full_name prefix (am_request m)) KTable -> view (full_name prefix (am_response m)) KTable ->
    streaming_is (am_meta m) s -> methods_of ms l ->
    methods_of (m :: ms)
      (IMethod (fix_identifier (am_id m)) (fix_identifier (snake (am_id m)))
         (full_name prefix (am_request m)) (full_name prefix (am_response m)) s (am_doc m) :: l).

(** The definitions made by a declaration. *)
Inductive declares : element -> list node -> Prop :=
| declares_namespace q d : declares (ENamespace q d) []
| declares_root id : view (local_name prefix id) KTable -> declares (ERoot id) []
| declares_table t fs :
    table_fields_of (ap_fields t) fs ->
    declares (ETable t) [NTable (ITable (local_name prefix (ap_id t)) fs (roots (local_name prefix (ap_id t))) (ap_doc t))]
| declares_struct t fs :
    struct_fields_of (ap_fields t) fs ->
    declares (EStruct t) [NStruct (IStruct (local_name prefix (ap_id t)) fs (ap_doc t))]
| declares_enum e base :
    enum_base (ae_base e) = Some base ->
    declares (EEnum e) [NEnum (IEnum (local_name prefix (ae_id e)) (enum_variants_of (ae_variants e)) base (ae_doc e))]
| declares_union u vs :
    union_variants_of (au_variants u) vs ->
    declares (EUnion u)
      [NEnum (IEnum (companion_name (au_id u)) (companion_of (au_variants u)) UByte (au_doc u));
       NUnion (IUnion (local_name prefix (au_id u)) (companion_name (au_id u)) vs (au_doc u))]
| declares_rpc r ms :
    methods_of (ar_methods r) ms ->
    declares (ERpc r) [NRpc (IRpc (local_name prefix (ar_id r)) ms (ar_doc r))].
End Declares.

(** The types defined by nodes, with their kinds. *)
Definition defs_of (n : node) : list (qident * icustom) :=
  match n with
  | NTable t => [(it_id t, KTable)]
  | NStruct s => [(is_id s, KStruct (is_fields s))]
  | NEnum e => [(ie_id e, KEnum (ie_variants e) (ie_base e))]
  | NUnion u => [(iu_id u, KUnion (iu_enum u) (iu_variants u))]
  | NNamespace _ _ | NRpc _ => []
  end.
Definition definitions (ns : list node) : list (qident * icustom) := flat_map defs_of ns.

(** The definitions in a resolved schema, each with the path of modules around
    it. *)
Fixpoint contents (path : qident) (n : node) : list (qident * node) :=
  match n with
  | NNamespace q ns =>
      let inner := (path ++ [last q []])%list in
      (fix all (l : list node) : list (qident * node) :=
         match l with [] => [] | n :: l => (contents inner n ++ all l)%list end) ns
  | _ => [(path, n)]
  end.
Definition all_contents (root : list node) : list (qident * node) := flat_map (contents []) root.
(** The types a resolved schema defines. *)
Definition defined (root : list node) : list (qident * icustom) := definitions (map snd (all_contents root)).
(** How many definitions a declaration makes: a union also makes its companion. *)
Definition weight (e : element) : nat :=
  match e with
  | ENamespace _ _ | ERoot _ | EFileExtension _ _ | EFileIdentifier _ _ | EAttribute _ | EObject _ _ => 0
  | EUnion _ => 2
  | _ => 1
  end%nat.

(** What the compiler supports. *)
Definition supported (e : element) : bool :=
  match e with
  | EFileExtension _ _ | EFileIdentifier _ _ | EAttribute _ | EObject _ _ => false
  | _ => true
  end.
Definition is_namespace (e : element) : bool := match e with ENamespace _ _ => true | _ => false end.

(** All declarations are in one namespace. *)
Definition one_namespace (prefix : qident) (es : list element) : Prop :=
  last_prefix es = prefix /\
  forall i e, nth_error es i = Some e -> is_namespace e = false -> written_prefix es i = prefix.
(** The tables a declaration says are roots: by [root_type], or by use in a
    service. *)
Definition says_root (prefix : qident) (e : element) (q : qident) : Prop :=
  match e with
  | ERoot id => q = local_name prefix id
  | ERpc r => exists m, In m (ar_methods r) /\
                (q = full_name prefix (am_request m) \/ q = full_name prefix (am_response m))
  | _ => False
  end.

(** The name of a table, where it was written, that is not defined there
    because its declaration was moved to another namespace. *)
Definition moved (es : list element) (place : nat -> qident) (q : qident) : Prop :=
  exists j t, nth_error es j = Some (ETable t) /\ q = local_name (written_prefix es j) (ap_id t) /\
    place j <> written_prefix es j.

(** The types mentioned by a type and by a node. *)
Fixpoint ty_mentions (t : ity) : list (qident * icustom) :=
  match t with
  | ICustom q c => [(q, c)]
  | IArray t => ty_mentions t
  | _ => []
  end.
Definition mentions (n : node) : list (qident * icustom) :=
  match n with
  | NTable t => flat_map (fun f => ty_mentions (if_ty f)) (it_fields t)
  | NStruct s => flat_map (fun f => ty_mentions (if_ty f)) (is_fields s)
  | NUnion u => flat_map (fun v => ty_mentions (iuv_ty v)) (iu_variants u)
  | NRpc r => flat_map (fun m => [(im_request m, KTable); (im_response m, KTable)]) (ir_methods r)
  | NEnum _ | NNamespace _ _ => []
  end.

(** The names of the types declared by an element, if in this namespace. *)
Definition declared_names (prefix : qident) (e : element) : list qident :=
  match e with
  | ETable t | EStruct t => [local_name prefix (ap_id t)]
  | EEnum e => [local_name prefix (ae_id e)]
  | EUnion u => [local_name prefix (au_id u); companion_name prefix (au_id u)]
  | _ => []
  end.

(** What a declaration may refer to: a type defined in the schema, or a table
    that has moved away. *)
Definition known (es : list element) (place : nat -> qident) (outs : list (list node)) (e : element) (q : qident) (c : icustom) : Prop :=
  In (q, c) (definitions (concat outs)) \/
  match e with ERoot _ | ERpc _ => False | _ => c = KTable /\ moved es place q end.

(** [outs] are the definitions made by the declarations [es], one by one, each
    in the namespace [place i]. *)
Record resolution (snake : text -> text) (es : list element) (place : nat -> qident) (roots : qident -> bool)
    (outs : list (list node)) : Prop := Resolution {
  res_length : length outs = length es;
  res_place : forall i, (i < length es)%nat -> place i = written_prefix es i \/ place i = last_prefix es;
  res_declares : forall i e, nth_error es i = Some e ->
    exists out, nth_error outs i = Some out /\ declares snake roots (known es place outs e) (place i) e out;
  res_distinct : NoDup (map fst (definitions (concat outs)));
  res_marked : forall i e q, nth_error es i = Some e -> says_root (place i) e q -> roots q = true;
  res_root : forall q, roots q = true ->
    exists i e p, nth_error es i = Some e /\ (p = written_prefix es i \/ p = last_prefix es) /\ says_root p e q }.

(** The nodes of a resolved schema inside the modules [path], in order. *)
Definition nodes_under (path : qident) (root : list node) : list node :=
  map snd (filter (fun x => qident_eqb (fst x) path) (all_contents root)).
Definition module_of (n : node) : qident :=
  match n with
  | NNamespace q _ => removelast q
  | NTable t => removelast (it_id t)
  | NStruct s => removelast (is_id s)
  | NEnum e => removelast (ie_id e)
  | NUnion u => removelast (iu_id u)
  | NRpc r => removelast (ir_id r)
  end.

(** The types an element refers to. *)
Fixpoint ty_refs (t : aty) : list qident :=
  match t with AIdent q => [q] | AArray t => ty_refs t | _ => [] end.
Definition refs (e : element) : list qident :=
  match e with
  | ETable t | EStruct t => flat_map (fun f => ty_refs (af_ty f)) (ap_fields t)
  | EUnion u => map (fun v => [av_id v]) (au_variants u)
  | ERoot id => [[id]]
  | ERpc r => flat_map (fun m => [am_request m; am_response m]) (ar_methods r)
  | _ => []
  end.
(** Every type is declared before it is used, where a table may use itself. *)
Definition declared_before_use (es : list element) : Prop :=
  forall i e r, nth_error es i = Some e -> In r (refs e) ->
    exists j e', nth_error es j = Some e' /\ (j < i \/ j = i /\ exists t, e = ETable t)%nat /\
      In (full_name (written_prefix es i) r) (declared_names (written_prefix es j) e').

(** A root or a service needs the tables it names to be defined, others only
    need tables to be declared. *)
Definition needs_definition (e : element) : bool := match e with ERoot _ | ERpc _ => true | _ => false end.
(** The declarations that stay in their namespaces: those that refer, from where
    they are written, only to earlier ones that stay, and to tables declared so
    far whether they stay or not. *)
Inductive stays (es : list element) : nat -> Prop :=
| stays_at i e : nth_error es i = Some e ->
    (forall r, In r (refs e) -> exists j e', nth_error es j = Some e' /\
       In (full_name (written_prefix es i) r) (declared_names (written_prefix es j) e') /\
       (stays es j /\ (j < i)%nat \/ needs_definition e = false /\ (j <= i)%nat /\ exists t, e' = ETable t)) ->
    stays es i.

(** The names that a declaration gives: in its namespace if it stays, in the last
    one otherwise. *)
Definition gives (es : list element) (i : nat) (q : qident) : Prop :=
  exists e, nth_error es i = Some e /\
    (stays es i /\ In q (declared_names (written_prefix es i) e) \/ ~ stays es i /\ In q (declared_names (last_prefix es) e)).

(** The declarations of a schema. *)
Definition declarations (es : list element) : list element := filter (fun e => negb (is_namespace e)) es.
(** A declaration that uses nothing but tables declared so far, so that it can
    be the first to be defined. *)
Definition can_start (prefix : qident) (es : list element) (i : nat) : Prop :=
  match nth_error es i with
  | Some (ERpc r) => ar_methods r = []
  | Some (ENamespace _ _ | ERoot _) | None => False
  | Some e => forall r, In r (refs e) -> exists j t, (j <= i)%nat /\ nth_error es j = Some (ETable t) /\
                full_name prefix r = local_name prefix (ap_id t)
  end.

(** The tables that a declaration says are roots, from where it ends up: in its
    namespace if it stays, in the last one otherwise. *)
Definition makes_root (es : list element) (i : nat) (q : qident) : Prop :=
  exists e, nth_error es i = Some e /\
    (stays es i /\ says_root (written_prefix es i) e q \/ ~ stays es i /\ says_root (last_prefix es) e q).
(** The tables that a service names where it is written, one after the other, up
    to the first that no earlier declaration defines there. *)
Definition tries_root (es : list element) (i : nat) (q : qident) : Prop :=
  exists r before x after, nth_error es i = Some (ERpc r) /\ refs (ERpc r) = (before ++ x :: after)%list /\
    q = full_name (written_prefix es i) x /\
    forall y, In y (before ++ [x])%list -> exists j e', nth_error es j = Some e' /\ (j < i)%nat /\ stays es j /\
      In (full_name (written_prefix es i) y) (declared_names (written_prefix es j) e').

(** A declaration without what has no effect: the attributes, but for [required]
    of fields and [streaming] of methods, and the values of the variants of a
    union. *)
Definition bare_field (f : afield) : afield :=
  AField (af_id f) (af_ty f) (af_default f) (if required_of (af_meta f) then Some [(lit "required", None)] else None) (af_doc f).
Definition bare_method (m : amethod) : amethod :=
  AMethod (am_id m) (am_request m) (am_response m)
    (match am_meta m with
     | Some l => match meta_get l (lit "streaming") with Some v => Some [(lit "streaming", v)] | None => None end
     | None => None
     end) (am_doc m).
Definition bare_product (t : aproduct) : aproduct := AProduct (ap_id t) (map bare_field (ap_fields t)) None (ap_doc t).
Definition bare (e : element) : element :=
  match e with
  | ETable t => ETable (bare_product t)
  | EStruct t => EStruct (bare_product t)
  | EEnum e => EEnum (AEnum (ae_id e) (ae_variants e) (ae_base e) None (ae_doc e))
  | EUnion u => EUnion (AUnion (au_id u) (map (fun v => AVariant (av_id v) None (av_doc v)) (au_variants u)) None (au_doc u))
  | ERpc r => ERpc (ARpc (ar_id r) (map bare_method (ar_methods r)) (ar_doc r))
  | _ => e
  end.

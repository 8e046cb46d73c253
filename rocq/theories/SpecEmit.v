(** Vocabulary for statements about the emitted items. *)
From Coq Require Import Strings.String ZArith List Bool Strings.Byte.
From Verif Require Import Base Schema Ident SpecIdent SpecResolve Emit.
Import ListNotations.
Local Open Scope list_scope.

(** [module_at items path found]: among [items], the module [path] holds [found]. *)
Inductive module_at : list item -> qident -> list item -> Prop :=
| at_here items : module_at items [] items
| at_inner items name inner path found :
    In (XMod name inner) items -> module_at inner path found -> module_at items (name :: path) found.

(** The names of types and modules, which Rust keeps apart from those of
    functions. *)
Definition type_names (items : list item) : list ident :=
  flat_map (fun x => match x with XType _ name _ | XMod name _ => [name] | XFn _ => [] end) items.
Definition fn_names (items : list item) : list ident :=
  flat_map (fun x => match x with XFn name => [name] | _ => [] end) items.
(** No module defines a name twice. *)
Definition no_clash (items : list item) : Prop :=
  forall path found, module_at items path found -> NoDup (type_names found) /\ NoDup (fn_names found).

(** [p] is a namespace of the resolved schema: a definition is in it or in one
    inside it. *)
Definition namespace_in (root : list node) (p : qident) : Prop :=
  exists q n, In (q, n) (all_contents root) /\ encloses p q.
(** A name with an ending. *)
Definition suffixed (q : qident) (s : string) : qident := removelast q ++ [last q [] ++ lit s].
(** The schema gives Rust no reason to complain: no type is named like the
    [Args] or [Builder] of a table beside it; modules side by side have different
    names in snake case, and differ from the types beside them; enums in a module
    have different names in snake case. *)
Record clash_free (snake : text -> text) (root : list node) : Prop := ClashFree {
  cf_suffix : forall q s, In (q, KTable) (defined root) -> In s ["Args"; "Builder"]%string ->
    ~ In (suffixed q s) (map fst (defined root));
  cf_modules : forall p a b, namespace_in root (p ++ [a]) -> namespace_in root (p ++ [b]) ->
    module_name snake a = module_name snake b -> a = b;
  cf_types : forall p a q c, namespace_in root (p ++ [a]) -> In (q, c) (defined root) ->
    q <> p ++ [module_name snake a] /\
    (c = KTable -> forall s, In s ["Args"; "Builder"]%string -> suffixed q s <> p ++ [module_name snake a]);
  cf_enums : forall q1 q2 vs1 b1 vs2 b2, In (q1, KEnum vs1 b1) (defined root) -> In (q2, KEnum vs2 b2) (defined root) ->
    removelast q1 = removelast q2 -> snake (last q1 []) = snake (last q2 []) -> q1 = q2 }.

(** The path, followed from the module [here], arrives at a type of this kind. *)
Definition leads (items : list item) (here path : qident) (k : rkind) : Prop :=
  exists mods name found paths, walk here path = Some (mods ++ [name]) /\ module_at items mods found /\
    In (XType k name paths) found.

(** ** Schemas the generator copes with *)
(** A name with a letter in front, after any underscores; [try] is a keyword that
    is not substituted. *)
Definition usable (x : ident) : Prop := name_text x /\ starts_with_letter x /\ x <> lit "try".
(** The number can be written as a literal of the type. *)
Definition printable (literal_ok : scalar_const -> bool -> option qident -> ity -> bool) (c : scalar_const) (p : prim) : Prop :=
  forall wrapped ns, literal_ok c wrapped ns (IPrim p) = true.
Section Emittable.
Context (literal_ok : scalar_const -> bool -> option qident -> ity -> bool).
(** A default that goes with the type: a number or truth value for a scalar, a
    name for a type declared in the schema, none for strings and vectors. *)
Definition default_fits (t : aty) (d : option default_value) : Prop :=
  match t, d with
  | _, None => True
  | APrim p, Some (DScalar (CBool _)) => True
  | APrim p, Some (DScalar c) => printable literal_ok c p
  | AIdent _, Some (DIdent i) => usable i
  | _, _ => False
  end.
Definition emittable (e : element) : Prop :=
  match e with
  | ENamespace q _ => Forall usable q
  | ETable t => usable (ap_id t) /\ Forall (fun f => usable (af_id f) /\ default_fits (af_ty f) (af_default f)) (ap_fields t)
  | EStruct _ => False
  | EEnum e => usable (ae_id e) /\ Forall (fun v => usable (av_id v)) (ae_variants e)
  | EUnion u => usable (au_id u) /\ Forall (fun v => usable (av_id v)) (au_variants u)
  | _ => True
  end.
End Emittable.
(** proc-macro2 and syn take these names, paths and literals: ASCII names that
    begin with no digit; [super]s followed by names that are no keywords; integers
    and the float zero with a scalar type as the suffix. *)
Record accepts (ident_ok : ident -> bool) (path_ok : qident -> bool)
    (literal_ok : scalar_const -> bool -> option qident -> ity -> bool) : Prop := Accepts {
  ac_ident : forall c r, name_text (c :: r) -> ~ In c (lit "0123456789") -> ident_ok (c :: r) = true;
  ac_path : forall n q, q <> [] -> Forall rust_name q -> path_ok (repeat (lit "super") n ++ q) = true;
  ac_int : forall i p, printable literal_ok (CInt i) p;
  ac_zero : forall p, printable literal_ok (CFloat 0) p }.
(** The number of fields of which the slots can be computed without overflow. *)
Definition most_fields : Z := 32766.
(** A type of this name is declared, be it where it was written or in the last
    namespace (see C41). *)
Definition declared_in (es : list element) (q : qident) : Prop :=
  exists i e prefix, nth_error es i = Some e /\ In q (declared_names prefix e) /\
    (prefix = written_prefix es i \/ prefix = last_prefix es).
(** ... and refuse these: an identifier that is empty or begins with a digit; a
    number followed by anything but a scalar type. *)
Record rejects (ident_ok : ident -> bool) (literal_ok : scalar_const -> bool -> option qident -> ity -> bool) : Prop := Rejects {
  rj_empty : ident_ok [] = false;
  rj_digit : forall c r, In c (lit "0123456789") -> ident_ok (c :: r) = false;
  rj_literal : forall c wrapped ns t, (forall p, t <> IPrim p) -> literal_ok c wrapped ns t = false }.

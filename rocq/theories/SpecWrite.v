(** Vocabulary for the statement of exactly when code generation completes. *)
From Coq Require Import Strings.String ZArith List Bool Strings.Byte.
From Verif Require Import Base Schema Ident SpecIdent SpecResolve Emit SpecEmit SpecPaths.
Import ListNotations.
Local Open Scope list_scope.

(** An ASCII name that begins with no digit, as the parser reads them. *)
Definition ascii_name (x : ident) : Prop := name_text x /\ exists c r, x = c :: r /\ ~ In c (lit "0123456789").
(** The names written in a declaration, apart from references. *)
Definition field_names (f : afield) : list ident :=
  af_id f :: match af_default f with Some (DIdent i) => [i] | _ => [] end.
Definition names_in (e : element) : list ident :=
  match e with
  | ENamespace q _ => q
  | ETable t | EStruct t => ap_id t :: flat_map field_names (ap_fields t)
  | EEnum e => ae_id e :: map av_id (ae_variants e)
  | EUnion u => au_id u :: map av_id (au_variants u)
  | _ => []
  end.

(** A name that can be part of a path; whether [try] can be depends on the
    features that syn is built with. *)
Definition path_name (try_ok : bool) (x : ident) : Prop := x <> lit "_" /\ (keyword x -> x = lit "try" /\ try_ok = true).
(** What proc-macro2 and syn take.  An identifier is there and begins with no
    digit; a path is there and has such names, after any number of [super]s; a
    number literal has a scalar type as its suffix and, if it is a float, can be
    written ([float_ok], which is left open). *)
Record decides (try_ok : bool) (float_ok : Z -> prim -> bool) (ident_ok : ident -> bool) (path_ok : qident -> bool)
    (literal_ok : scalar_const -> bool -> option qident -> ity -> bool) : Prop := Decides {
  dc_ident : forall x, name_text x -> (ident_ok x = true <-> ascii_name x);
  dc_path : forall n q, Forall ascii_name q -> (forall x, In x (map lit ["self"; "Self"; "super"; "crate"]%string) -> ~ In x q) ->
    (path_ok (repeat (lit "super") n ++ q) = true <-> (0 < n \/ q <> []) /\ Forall (path_name try_ok) q);
  dc_int : forall i, forall w ns p, literal_ok (CInt i) w ns (IPrim p) = true;
  dc_float : forall b, forall w ns p, literal_ok (CFloat b) w ns (IPrim p) = float_ok b p;
  dc_other : forall c w ns t, (forall p, t <> IPrim p) -> literal_ok c w ns t = false }.

(** The [Args] of a table have a [Default]: no required field is a string, a
    vector, a table or a union. *)
Definition has_default (t : itable) : Prop :=
  forall f, In f (it_fields t) -> if_required f = false \/ is_scalar (if_ty f) = true.
(** A default that can be written: a number for a scalar only; a truth value for
    anything, and a name for anything, except that in [Default] an enum wants a
    name and a scalar wants none. *)
Definition default_written (float_ok : Z -> prim -> bool) (t : itable) (f : ifield) : Prop :=
  match if_default f with
  | None => True
  | Some (DScalar (CInt _)) => exists p, if_ty f = IPrim p
  | Some (DScalar (CFloat b)) => exists p, if_ty f = IPrim p /\ float_ok b p = true
  | Some (DScalar (CBool _)) => has_default t -> forall q vs b, if_ty f <> ICustom q (KEnum vs b)
  | Some (DIdent _) => has_default t -> forall p, if_ty f <> IPrim p
  end.
(** Nothing stands in the way of writing the code: there is no struct; every field
    and namespace has a letter in front; no type is named like the namespace it is
    used in, and the part of its name that is spelled there has no [_] and no
    [try]; defaults can be written; there are not too many fields for a debug
    build. *)
Record emits_all (try_ok : bool) (float_ok : Z -> prim -> bool) (hg : host) (root : list node) : Prop := EmitsAll {
  wr_structs : forall p s, ~ In (p, NStruct s) (all_contents root);
  wr_modules : forall p a, namespace_in root (p ++ [a]) -> starts_with_letter a;
  wr_fields : forall p t f, In (p, NTable t) (all_contents root) -> In f (it_fields t) ->
    starts_with_letter (if_id f) /\ default_written float_ok t f;
  wr_paths : forall p n q k, In (p, n) (all_contents root) -> In (q, k) (spelled n) ->
    q <> p /\ Forall (path_name try_ok) (skipn (common_prefix q p) q);
  wr_slots : forall p t, In (p, NTable t) (all_contents root) ->
    debug hg = false \/ (Z.of_nat (length (it_fields t)) <= most_fields)%Z }.

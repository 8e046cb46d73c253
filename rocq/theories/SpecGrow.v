(** What documents read as with the code of another version of their schema. *)
From Coq Require Import Strings.String ZArith List Bool Strings.Byte.
From Verif Require Import Base Scalar SpecWire Reader Schema Codegen SpecResolve SpecTable SpecDoc.
Import ListNotations.
Local Open Scope list_scope.
Local Open Scope Z_scope.

Section Grow.
Context (fl : floats) (snake : text -> text).
(** The definitions of a resolved schema and of a later version of it. *)
Context (early late : list node).

(** ** New code, old documents *)
(** What the accessor of a field returns that is not in the data at all: its default;
    or nothing, which is an error if it is required. *)
Definition absent (f : ifield) (r : outcome (option gval)) : Prop :=
  match if_ty f, if_default f with
  | IPrim p, Some (DScalar c) => exists d, const_value fl (prim_ty p) c = Some d /\ r = Val (Some (GPlain (VScalar d)))
  | ICustom _ (KEnum vs _), Some (DIdent id) =>
      exists i v, nth_error vs i = Some v /\ iev_id v = id /\ r = Val (Some (GPlain (VEnum (variant_number i v))))
  | _, _ => r = if if_required f then Err RequiredFieldMissing else Val None
  end.
(** [x] is a document in the words of the early schema, [t] a type of the late one,
    [r] what an accessor generated for the late one returned. *)
Fixpoint reads_late (hg hr : host) (D : list byte) (x : doc) (t : ity) (r : gval) {struct x} : Prop :=
  match x, t with
  | DNum v, IPrim p => exists u, r = GPlain (VScalar u) /\ (u = v \/ scalar_eq (prim_ty p) v u = true)
  | DName id, ICustom _ (KEnum vs _) =>
      exists i v, nth_error vs i = Some v /\ iev_id v = id /\ r = GPlain (VEnum (variant_number i v))
  | DText s, IString => r = GPlain (VStr s)
  | DList xs, IArray t =>
      exists e loc, r = GPlain (VVector e loc) /\ vec_len hr D loc = Val (blen xs) /\
      (fix all (i : Z) (xs : list doc) : Prop :=
         match xs with
         | [] => True
         | x :: xs => (exists w, vec_get hr e D loc i = Val w /\ reads_late hg hr D x t (GPlain w)) /\ all (i + 1) xs
         end) 0 xs
  | DVariant id x, ICustom _ (KUnion _ vs) =>
      exists i v w, nth_error vs i = Some v /\ iuv_id v = id /\ r = GVariant (Z.of_nat i + 1) w /\ reads_late hg hr D x (iuv_ty v) (GPlain w)
  | DTable given, ICustom q KTable =>
      exists fs fs' gs loc, table_named early q fs /\ table_named late q fs' /\ gen_table fl snake hg fs' = Some gs /\ r = GPlain (VTable loc) /\
        (* the fields given *)
        (fix all (l : list (ident * doc)) : Prop :=
           match l with
           | [] => True
           | (n, x) :: l =>
               (exists i f g w, (i < length fs)%nat /\ nth_error fs' i = Some f /\ if_id f = n /\ nth_error gs i = Some g /\
                  gen_get hr D loc g = Val (Some w) /\ reads_late hg hr D x (if_ty f) w) /\ all l
           end) given /\
        (* the types of the unions given *)
        (forall i f f' g u id y, nth_error fs i = Some f -> nth_error fs' i = Some f' -> nth_error gs i = Some g ->
           told snake fs f = Some u -> lookup given (if_id u) = Some (DVariant id y) ->
           exists q vs b k v, if_ty f' = ICustom q (KEnum vs b) /\ nth_error vs k = Some v /\ iev_id v = id /\
             gen_get hr D loc g = Val (Some (GPlain (VEnum (variant_number k v))))) /\
        (* the fields left out *)
        (forall i f f' g, nth_error fs i = Some f -> nth_error fs' i = Some f' -> nth_error gs i = Some g -> value_of snake fs given f = None ->
           exists r, gen_get hr D loc g = Val r /\ reads_left_out fl f' r) /\
        (* the fields that the early schema did not have *)
        (forall i f g, (length fs <= i)%nat -> nth_error fs' i = Some f -> nth_error gs i = Some g -> absent f (gen_get hr D loc g))
  | _, _ => False
  end.

(** ** Old code, new documents *)
(** The old accessor knows the variant and returns its number, or refuses it. *)
Definition reads_name (vs : list ienumv) (id : ident) (r : outcome (option gval)) : Prop :=
  (exists i v, nth_error vs i = Some v /\ iev_id v = id /\ r = Val (Some (GPlain (VEnum (variant_number i v))))) \/
  (~ In id (map iev_id vs) /\ r = Err UnknownEnumVariant).
Definition item (r : outcome fval) : outcome (option gval) := let* w := r in Val (Some (GPlain w)).
(** [x] is a document in the words of the late schema, [t] a type of the early one,
    [r] what an accessor generated for the early one returned.  Of the fields given,
    those that the early schema has are read. *)
Fixpoint reads_early (hg hr : host) (D : list byte) (x : doc) (t : ity) (r : outcome (option gval)) {struct x} : Prop :=
  match x, t with
  | DNum v, IPrim p => exists u, r = Val (Some (GPlain (VScalar u))) /\ (u = v \/ scalar_eq (prim_ty p) v u = true)
  | DName id, ICustom _ (KEnum vs _) => reads_name vs id r
  | DText s, IString => r = Val (Some (GPlain (VStr s)))
  | DList xs, IArray t =>
      exists e loc, r = Val (Some (GPlain (VVector e loc))) /\ vec_len hr D loc = Val (blen xs) /\
      (fix all (i : Z) (xs : list doc) : Prop :=
         match xs with
         | [] => True
         | x :: xs => reads_early hg hr D x t (item (vec_get hr e D loc i)) /\ all (i + 1) xs
         end) 0 xs
  | DVariant id x, ICustom _ (KUnion _ vs) =>
      (exists i v w, nth_error vs i = Some v /\ iuv_id v = id /\ r = Val (Some (GVariant (Z.of_nat i + 1) w)) /\
         reads_early hg hr D x (iuv_ty v) (Val (Some (GPlain w)))) \/
      (~ In id (map iuv_id vs) /\ r = Err UnknownEnumVariant)
  | DTable given, ICustom q KTable =>
      exists fs fs' gs loc, table_named early q fs /\ table_named late q fs' /\ gen_table fl snake hg fs = Some gs /\ r = Val (Some (GPlain (VTable loc))) /\
        (* the fields given *)
        (fix all (l : list (ident * doc)) : Prop :=
           match l with
           | [] => True
           | (n, x) :: l =>
               (forall i f g, nth_error fs i = Some f -> if_id f = n -> nth_error gs i = Some g -> reads_early hg hr D x (if_ty f) (gen_get hr D loc g)) /\ all l
           end) given /\
        (* the types of the unions given *)
        (forall i f f' g u id y, nth_error fs i = Some f -> nth_error fs' i = Some f' -> nth_error gs i = Some g ->
           told snake fs' f' = Some u -> lookup given (if_id u) = Some (DVariant id y) ->
           exists q vs b, if_ty f = ICustom q (KEnum vs b) /\ reads_name vs id (gen_get hr D loc g)) /\
        (* the fields left out *)
        (forall i f f' g, nth_error fs i = Some f -> nth_error fs' i = Some f' -> nth_error gs i = Some g -> value_of snake fs' given f' = None ->
           exists r, gen_get hr D loc g = Val r /\ reads_left_out fl f r)
  | _, _ => False
  end.
End Grow.

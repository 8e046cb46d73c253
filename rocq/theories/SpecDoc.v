(** Documents in the words of a schema, and what it means to write and to read them
    with the code generated for it. *)
From Coq Require Import Strings.String ZArith List Bool Strings.Byte.
From Verif Require Import Base Scalar SpecWire Utf8 Reader SpecReader Builder Ops Schema Codegen SpecGen SpecResolve SpecTable.
Import ListNotations.
Local Open Scope string_scope.
Local Open Scope list_scope.
Local Open Scope Z_scope.

(** A document names fields, enum variants and union variants as the schema does. *)
Inductive doc :=
| DNum (v : Z)                           (* a number, a bool, or the bits of a float *)
| DName (id : ident)                     (* a variant of an enum *)
| DText (s : list byte)
| DList (xs : list doc)
| DTable (given : list (ident * doc))    (* the fields given; the others are left out *)
| DVariant (id : ident) (x : doc).       (* a variant of a union, with its content *)

Fixpoint lookup {A} (l : list (ident * A)) (id : ident) : option A :=
  match l with [] => None | (n, x) :: l => if ident_eqb n id then Some x else lookup l id end.
Fixpoint all_some {A} (l : list (option A)) : option (list A) :=
  match l with
  | [] => Some []
  | Some x :: l => match all_some l with Some xs => Some (x :: xs) | None => None end
  | None :: _ => None
  end.

Section Docs.
Context (fl : floats) (snake : text -> text).
(** The definitions of a resolved schema. *)
Context (root : list node).

(** The fields of a table. *)
Definition table_named (q : qident) (fs : list ifield) : Prop :=
  exists path t, In (path, NTable t) (all_contents root) /\ it_id t = q /\ it_fields t = fs.

(** The union field [u] that [f] holds the type of. *)
Definition tells (u f : ifield) : bool :=
  is_union (if_ty u) && ident_eqb (snake (if_id f)) (snake (if_id u) ++ lit "_type").
Definition told (fs : list ifield) (f : ifield) : option ifield := find (fun u => tells u f) fs.
(** What a document has for a field; the type of a union is not given, but follows
    from its variant. *)
Definition value_of (fs : list ifield) (given : list (ident * doc)) (f : ifield) : option doc :=
  match told fs f with
  | Some u => match lookup given (if_id u) with Some (DVariant id _) => Some (DName id) | _ => None end
  | None => lookup given (if_id f)
  end.

(** The value is the field's default. *)
Definition is_its_default (f : ifield) (x : doc) : Prop :=
  match if_ty f, if_default f, x with
  | IPrim p, Some (DScalar c), DNum v => exists d, const_value fl (prim_ty p) c = Some d /\ scalar_eq (prim_ty p) v d = true
  | _, Some (DIdent id), DName id' => id = id'
  | _, _, _ => False
  end.

(** Strings, vectors, tables and unions.  Rust does not let a program leave out a
    required field of these. *)
Definition behind_offset (t : ity) : bool :=
  match t with IPrim _ | ICustom _ (KEnum _ _) => false | _ => true end.

(** The documents of the Rust types of a schema.  In a table, the fields given are
    fields of the table, each once, with documents of their types. *)
Fixpoint shaped (x : doc) (t : ity) {struct x} : Prop :=
  match x, t with
  | DNum v, IPrim p => valid_scalar (prim_ty p) v = true
  | DName id, ICustom _ (KEnum vs _) => In id (map iev_id vs)
  | DText s, IString => is_utf8 s /\ blen s < 2 ^ 63
  | DList xs, IArray t =>
      blen xs < 2 ^ 60 /\
      (fix all (xs : list doc) : Prop := match xs with [] => True | x :: xs => shaped x t /\ all xs end) xs
  | DVariant id x, ICustom _ (KUnion _ vs) =>
      exists v q, In v vs /\ iuv_id v = id /\ iuv_ty v = ICustom q KTable /\ shaped x (iuv_ty v)
  | DTable given, ICustom q KTable =>
      exists fs, table_named q fs /\ NoDup (map fst given) /\
        (fix all (l : list (ident * doc)) : Prop :=
           match l with
           | [] => True
           | (n, x) :: l => (exists f, In f fs /\ if_id f = n /\ told fs f = None /\ shaped x (if_ty f)) /\ all l
           end) given /\
        forall f, In f fs -> if_required f = true -> behind_offset (if_ty f) = true -> value_of fs given f <> None
  | _, _ => False
  end.

(** Leaving the field out passes its default; a default that is a number is passed
    as such, and equal to itself unless it is a NaN, which no schema can say. *)
Definition has_default (f : ifield) : Prop :=
  match if_ty f, if_default f with
  | IPrim p, Some (DScalar c) => exists d, const_value fl (prim_ty p) c = Some d /\ scalar_eq (prim_ty p) d d = true
  | _, Some _ => True
  | _, None => False
  end.
(** In all tables of the document, no required field is given its default or left out
    for it. *)
Fixpoint complete (x : doc) (t : ity) {struct x} : Prop :=
  match x, t with
  | DList xs, IArray t => (fix all (xs : list doc) : Prop := match xs with [] => True | x :: xs => complete x t /\ all xs end) xs
  | DVariant id x, ICustom _ (KUnion _ vs) => exists v, In v vs /\ iuv_id v = id /\ complete x (iuv_ty v)
  | DTable given, ICustom q KTable =>
      exists fs, table_named q fs /\
        (fix all (l : list (ident * doc)) : Prop :=
           match l with
           | [] => True
           | (n, x) :: l => (exists f, In f fs /\ if_id f = n /\ complete x (if_ty f)) /\ all l
           end) given /\
        forall f, In f fs -> if_required f = true ->
          match value_of fs given f with Some x => ~ is_its_default f x | None => ~ has_default f end
  | _, _ => True
  end.
Definition fits (x : doc) (t : ity) : Prop := shaped x t /\ complete x t.

(** ** Writing *)
(** The fields of the table with this name. *)
Definition fields_named (q : qident) : option (list ifield) :=
  match find (fun x => match snd x with NTable t => qident_eqb (it_id t) q | _ => false end) (all_contents root) with
  | Some (_, NTable t) => Some (it_fields t)
  | _ => None
  end.
Definition find_variant (vs : list iunionv) (id : ident) : option iunionv := find (fun v => ident_eqb (iuv_id v) id) vs.
(** What is passed for a field that is left out: its default, or 0, or the first
    variant, or nothing. *)
Definition left_out (g : gfield) : tree :=
  match default_arg g with Some (PScalar t v) => TreeNum t v | _ => TreeNone end.

Section Write.
(** The build of the generator. *)
Context (hg : host).
(** The arguments that a program passes to the [create] functions for a document. *)
Fixpoint calls_for (x : doc) (t : ity) {struct x} : option tree :=
  match x, t with
  | DNum v, IPrim p => Some (TreeNum (prim_ty p) v)
  | DName id, ICustom _ (KEnum vs b) => option_map (TreeNum (prim_ty b)) (variant_value vs id)
  | DText s, IString => Some (TreeStr s)
  | DList xs, IArray t =>
      match follow_ty t with
      | Some e =>
          match elem_pty e, all_some (map (fun x => calls_for x t) xs) with
          | Some p, Some ys => Some (TreeVec p ys)
          | _, _ => None
          end
      | None => None
      end
  | DVariant id x, ICustom _ (KUnion _ vs) =>
      match find_variant vs id with Some v => calls_for x (iuv_ty v) | None => None end
  | DTable given, ICustom q KTable =>
      match fields_named q with
      | Some fs =>
          match gen_table fl snake hg fs with
          | Some gs =>
              let made := map (fun p => match p with (n, x) => (n, calls_for x) end) given in
              let arg f g :=
                match told fs f with
                | Some u =>
                    match lookup given (if_id u), if_ty f with
                    | Some (DVariant id _), ICustom _ (KEnum vs b) => option_map (TreeNum (prim_ty b)) (variant_value vs id)
                    | _, _ => Some (left_out g)
                    end
                | None => match lookup made (if_id f) with Some call => call (if_ty f) | None => Some (left_out g) end
                end in
              option_map (TreeTable gs) (all_some (map (fun p => arg (fst p) (snd p)) (combine fs gs)))
          | None => None
          end
      | None => None
      end
  | _, _ => None
  end.

(** Every table has code that compiles, and few enough fields for its own size to fit
    in its vtable also in a release build; the float literals of its defaults are
    [f64]s. *)
Definition compiled_tables : Prop := forall path t, In (path, NTable t) (all_contents root) ->
  blen (it_fields t) <= 8190 /\ forallb (fun f => default_ok (if_default f)) (it_fields t) = true /\
  exists gs, gen_table fl snake hg (it_fields t) = Some gs.

(** A program that writes a document of a table type and finishes it. *)
Definition save (h : host) (capacity : Z) (x : doc) (q : qident) (ident : option (list byte)) (size_prefixed : bool) : outcome (list byte) :=
  match calls_for x (ICustom q KTable) with
  | None => Panic
  | Some y =>
      let* b := new_with_capacity capacity in
      let* (b, a) := put h b y in
      match a with
      | Some (POffset o) => let* b := finish_with_opts h b o ident size_prefixed in finished_data h b
      | _ => Panic
      end
  end.

(** ** Reading *)
(** What the accessor of a field that was left out returns. *)
Definition reads_left_out (f : ifield) (r : option gval) : Prop :=
  match if_ty f, if_default f with
  | IPrim p, Some (DScalar c) => exists d u, const_value fl (prim_ty p) c = Some d /\ (u = d \/ scalar_eq (prim_ty p) d u = true) /\ r = Some (GPlain (VScalar u))
  | IPrim p, _ => exists u, (u = 0 \/ scalar_eq (prim_ty p) 0 u = true) /\ r = Some (GPlain (VScalar u))
  | ICustom _ (KEnum vs _), Some (DIdent id) =>
      exists i v, nth_error vs i = Some v /\ iev_id v = id /\ r = Some (GPlain (VEnum (variant_number i v)))
  | ICustom _ (KEnum vs _), _ => exists v, nth_error vs 0 = Some v /\ r = Some (GPlain (VEnum (variant_number 0 v)))
  | _, _ => r = None
  end.

(** Reading gives the document back.  [r] is what an accessor returned.  Numbers are
    the same up to [==] of their type (0.0 and -0.0).  Variants are known by their
    numbers.  For a table, what the accessors of all of its fields return is said:
    of those given, of the types of unions given, and of those left out; and that
    the slots after theirs are empty. *)
Fixpoint reads (hr : host) (D : list byte) (x : doc) (t : ity) (r : gval) {struct x} : Prop :=
  match x, t with
  | DNum v, IPrim p => exists u, r = GPlain (VScalar u) /\ (u = v \/ scalar_eq (prim_ty p) v u = true)
  | DName id, ICustom _ (KEnum vs _) =>
      exists i v, nth_error vs i = Some v /\ iev_id v = id /\ r = GPlain (VEnum (variant_number i v))
  | DText s, IString => r = GPlain (VStr s)
  | DList xs, IArray t =>
      exists e loc, r = GPlain (VVector e loc) /\ vec_len hr D loc = Val (blen xs) /\
      (fix all (i : Z) (xs : list doc) : Prop :=
         match xs with
         | [] => True
         | x :: xs => (exists w, vec_get hr e D loc i = Val w /\ reads hr D x t (GPlain w)) /\ all (i + 1) xs
         end) 0 xs
  | DVariant id x, ICustom _ (KUnion _ vs) =>
      exists i v w, nth_error vs i = Some v /\ iuv_id v = id /\ r = GVariant (Z.of_nat i + 1) w /\ reads hr D x (iuv_ty v) (GPlain w)
  | DTable given, ICustom q KTable =>
      exists fs gs loc, table_named q fs /\ gen_table fl snake hg fs = Some gs /\ r = GPlain (VTable loc) /\
        (fix all (l : list (ident * doc)) : Prop :=
           match l with
           | [] => True
           | (n, x) :: l =>
               (exists i f g w, nth_error fs i = Some f /\ if_id f = n /\ nth_error gs i = Some g /\
                  gen_get hr D loc g = Val (Some w) /\ reads hr D x (if_ty f) w) /\ all l
           end) given /\
        (forall i f g u id y, nth_error fs i = Some f -> nth_error gs i = Some g -> told fs f = Some u -> lookup given (if_id u) = Some (DVariant id y) ->
           exists q vs b k v, if_ty f = ICustom q (KEnum vs b) /\ nth_error vs k = Some v /\ iev_id v = id /\
             gen_get hr D loc g = Val (Some (GPlain (VEnum (variant_number k v))))) /\
        (forall i f g, nth_error fs i = Some f -> nth_error gs i = Some g -> value_of fs given f = None ->
           exists r, gen_get hr D loc g = Val r /\ reads_left_out f r) /\
        (forall i t fd, blen fs <= i <= 32764 -> table_get hr D loc (4 + 2 * i) t fd = Val fd)
  | _, _ => False
  end.
End Write.
End Docs.

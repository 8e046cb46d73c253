(** Properties C33-C38 and C55: generated code.  Statements only; each theorem is
    closed by a lemma of the proof files.  Vocabulary: Codegen.v ([gen_table]:
    what the generator emits for a table; [gen_create], [gen_get]: what the
    emitted functions do; [enum_values], [enum_try_from], [enum_into]),
    SpecGen.v ([tree]: documents; [typed]: what rustc checks about one; [put]:
    handing one to the generated functions, children first; [shows]: reading
    gives the document back, all the way down), Ops.v (calls made before and
    after). *)
From Coq Require Import Strings.String ZArith List Bool Lia Strings.Byte.
From Verif Require Import Base Scalar Utf8 Utf8Facts Reader Builder Ops SpecBuilder SpecWire ReaderProofs3 Schema Codegen SpecGen
  GenProofs4 GenProofs5 GenProofs6 GenProofs7 GenProofs8 GenProofs9 GenProofs10
  Client SpecAccess AccessProofs.
Import ListNotations.
Local Open Scope Z_scope.

(** A schema used in the examples below:
    enum Color : ubyte { Red = 1, Green = 5, Blue = 2 }
    table Leaf { x : int = 3; }   table Other { }   union U { Leaf, Other }
    table Monster { hp : short = 100; color : Color = Green; name : string (required);
      inv : [ubyte]; leaves : [Leaf]; u : U; child : Monster; }
    The field [u_type] is the one the compiler adds. *)
Definition color : list ienumv := [ev "Red" (Some 1); ev "Green" (Some 5); ev "Blue" (Some 2)].
Definition u_types : list ienumv := [ev "None" (Some 0); ev "Leaf" None; ev "Other" None].
Definition named (name : string) (k : icustom) : ity := ICustom [lit name] k.
Definition u_kind : icustom :=
  KUnion [lit "UType"] [IUnionV (named "Leaf" KTable) (lit "Leaf") []; IUnionV (named "Other" KTable) (lit "Other") []].
Definition field (name : string) (t : ity) (d : option default_value) (r : bool) : ifield := IField (lit name) t d r [].
Definition leaf_fields : list ifield := [field "x" (IPrim Int) (Some (DScalar (CInt 3))) false].
Definition monster_fields : list ifield :=
  [field "hp" (IPrim Short) (Some (DScalar (CInt 100))) false;
   field "color" (named "Color" (KEnum color UByte)) (Some (DIdent (lit "Green"))) false;
   field "name" IString None true;
   field "inv" (IArray (IPrim UByte)) None false;
   field "leaves" (IArray (named "Leaf" KTable)) None false;
   field "u_type" (named "UType" (KEnum u_types UByte)) None false;
   field "u" (named "U" u_kind) None false;
   field "child" (named "Monster" KTable) None false].
Definition host0 : host := Host true false.
Definition gen (fs : list ifield) : list gfield :=
  match gen_table fl0 (fun x => x) host0 fs with Some gs => gs | None => [] end.
Definition leaf (n : Z) : tree := TreeTable (gen leaf_fields) [TreeNum TI32 n].
Definition monster (child : tree) : tree :=
  TreeTable (gen monster_fields)
    [TreeNum TI16 (-5); TreeNum TU8 2; TreeStr (lit "Orc"); TreeVec (PTScalar TU8) [TreeNum TU8 7; TreeNum TU8 255];
     TreeVec PTOffset [leaf 1; leaf 3]; TreeNum TU8 1; leaf 9; child].
Definition orcs : tree := monster (monster TreeNone).
Example leaf_typed n : valid_scalar TI32 n = true -> typed 8 (leaf n) (FUOffset FTable).
Proof.
  intros V. cbn [typed leaf]. split; [reflexivity|]. split.
  - exists fl0, (fun x => x), host0, leaf_fields. split; [exact fl0_ok|]. split; [reflexivity|]. split; [vm_compute; discriminate|reflexivity].
  - change (gen leaf_fields) with [GField 4 (GScalar TI32 (Some 3)) false]. cbn. auto.
Qed.
Example monster_typed child : child = TreeNone \/ typed 8 child (FUOffset FTable) -> typed 8 (monster child) (FUOffset FTable).
Proof.
  intros C. unfold monster. apply typed_table. split; [reflexivity|]. split.
  - exists fl0, (fun x => x), host0, monster_fields. split; [exact fl0_ok|]. split; [reflexivity|]. split; [vm_compute; discriminate|reflexivity].
  - let g := eval vm_compute in (gen monster_fields) in change (gen monster_fields) with g.
    repeat apply Forall2_cons; try apply Forall2_nil; unfold typed_field; cbn [g_kind g_req].
    + cbn; auto.
    + split; [reflexivity|]; right; eexists; split; [reflexivity|]; cbn; auto.
    + right; split; [apply utf8_valid_iff; vm_compute; reflexivity|]; split; [vm_compute; reflexivity|reflexivity].
    + right; eexists; split; [reflexivity|]; cbn; split; [reflexivity|]; split; [reflexivity|]; auto 10.
    + right; eexists; split; [reflexivity|]; split; [reflexivity|]; split; [vm_compute; reflexivity|];
        split; [apply leaf_typed; reflexivity|]; split; [apply leaf_typed; reflexivity|exact Logic.I].
    + split; [reflexivity|]; right; eexists; split; [reflexivity|]; cbn; auto.
    + right; exists 1, FTable; split; [vm_compute; reflexivity|]; split; [reflexivity|apply leaf_typed; reflexivity].
    + destruct C as [->|C]; [left; auto|right; exact C].
Qed.
(** The orcs written by a debug build, and where the last one is. *)
Definition written : outcome (builder * garg) :=
  let* b := new_with_capacity 0 in put host0 b orcs.
Definition orc_bytes : list byte := match written with Val (b, _) => unfinished_data b | _ => [] end.
Definition orc_at : Z := match written with Val (_, Some (POffset o)) => blen orc_bytes - o | _ => -1 end.

(** C33.  A document of any depth and size, of tables of any generated types,
    written after any finished history and followed by any further calls, reads
    back as itself, by a reader on any host.  [lim] bounds the number of fields of
    a table; release builds do not check that a table stays below 64 KiB. *)
Theorem C33_documents_round_trip h hr c lim before xs b0 u x b1 o later b zs :
  0 <= c -> lim <= 32765 -> debug h = true \/ lim <= 8190 ->
  calls_ok before = true -> closed before = true -> program h c before = Val (b0, xs) ->
  typed lim x (FUOffset u) -> put h b0 x = Val (b1, Some (POffset o)) ->
  calls_ok later = true -> no_reset later = true -> run h b1 later = Val (b, zs) ->
  blen (unfinished_data b) < 2 ^ 31 ->
  let D := unfinished_data b in
  exists w, follow hr u D (blen D - o) = Val w /\ shows hr D x w.
Proof. exact (document_round_trip h hr c lim before xs b0 u x b1 o later b zs). Qed.
Print Assumptions C33_documents_round_trip.

(** What is read determines the document: no two documents look the same, up to
    the identification of numbers by Rust's [==] (0.0 and -0.0). *)
Theorem C33_documents_determined hr D x y w : same_schema x y -> shows hr D x w -> shows hr D y w -> alike x y.
Proof. exact (shows_determined hr D x y w). Qed.
Print Assumptions C33_documents_determined.

Example C33_case : typed 8 orcs (FUOffset FTable) /\
  map (gen_get host0 orc_bytes orc_at) (firstn 3 (gen monster_fields)) =
    [Val (Some (GPlain (VScalar (-5)))); Val (Some (GPlain (VEnum 2))); Val (Some (GPlain (VStr (lit "Orc"))))] /\
  match gen_get host0 orc_bytes orc_at (nth 6 (gen monster_fields) (GField 0 (GRef FTable) false)) with
  | Val (Some (GVariant 1 (VTable l))) =>
      gen_get host0 orc_bytes l (nth 0 (gen leaf_fields) (GField 0 (GRef FTable) false)) = Val (Some (GPlain (VScalar 9)))
  | _ => False
  end.
Proof.
  split; [apply monster_typed; right; apply monster_typed; left; reflexivity|]. split; vm_compute; reflexivity.
Qed.

(** C34, exactly when [create] panics: given arguments of the right types and
    room, it completes if no required field is given its declared default, and
    panics if one is. *)
Theorem C34_create_exact h c before xs b0 gs args :
  0 <= c -> calls_ok before = true -> closed before = true -> program h c before = Val (b0, xs) ->
  nested b0 = false -> generated 8190 gs -> args_ok gs args = true ->
  (forall o, In (Some (POffset o)) args -> debug h = false \/ o <= blen (unfinished_data b0)) ->
  blen (unfinished_data b0) + 150000 < 2 ^ 31 ->
  (required_stored gs args = true -> exists b1 obj, gen_create h b0 gs args = Val (b1, obj) /\
     blen (unfinished_data b1) <= blen (unfinished_data b0) + 17 * blen gs + 16 /\ nested b1 = false) /\
  (required_stored gs args = false -> gen_create h b0 gs args = Panic).
Proof. exact (create_exact h c before xs b0 gs args). Qed.
Print Assumptions C34_create_exact.

(** The same for whole documents. *)
Theorem C34_documents_written h c lim before xs b0 u x :
  0 <= c -> lim <= 8190 ->
  calls_ok before = true -> closed before = true -> program h c before = Val (b0, xs) -> nested b0 = false ->
  typed lim x (FUOffset u) -> all_required_given x = true ->
  blen (unfinished_data b0) + tree_size x + 150000 < 2 ^ 31 ->
  exists b1 o, put h b0 x = Val (b1, Some (POffset o)) /\ blen (unfinished_data b1) <= blen (unfinished_data b0) + tree_size x.
Proof. exact (document_written h c lim before xs b0 u x). Qed.
Print Assumptions C34_documents_written.

(** All others are refused. *)
Theorem C34_documents_refused h c lim before xs b0 u x :
  0 <= c -> lim <= 8190 ->
  calls_ok before = true -> closed before = true -> program h c before = Val (b0, xs) -> nested b0 = false ->
  typed lim x (FUOffset u) -> all_required_given x = false ->
  blen (unfinished_data b0) + tree_size x + 150000 < 2 ^ 31 -> put h b0 x = Panic.
Proof. exact (document_refused h c lim before xs b0 u x). Qed.
Print Assumptions C34_documents_refused.

(** C34 as stated is false: [table T { x : int (required); }] has the default 0
    for [x] (transform.rs), [create] with [x: 0] panics, whatever was written before. *)
Theorem C34_required_given_refuted h c before xs b0 :
  0 <= c -> calls_ok before = true -> closed before = true -> program h c before = Val (b0, xs) ->
  nested b0 = false -> blen (unfinished_data b0) + 150000 < 2 ^ 31 ->
  exists gs args,
    gen_table fl0 (fun x => x) h required_int = Some gs /\ args_ok gs args = true /\ (forall a, In a args -> a <> None) /\
    gen_create h b0 gs args = Panic.
Proof. exact (required_refuted h c before xs b0). Qed.
Print Assumptions C34_required_given_refuted.

Example C34_case : all_required_given orcs = true /\ tree_size orcs < 2000 /\
  match written with Val (_, Some (POffset _)) => blen orc_bytes <= tree_size orcs | _ => False end.
Proof. vm_compute. repeat split; discriminate. Qed.

(** C35.  Generating for a schema and for the schema with fields appended gives
    the same accessors and slots for the old fields. *)
Theorem C35_generators_agree fl snake hg hg' fs more gs gs' : blen fs <= 32765 ->
  gen_table fl snake hg fs = Some gs -> gen_table fl snake hg' (fs ++ more) = Some gs' -> exists gm, gs' = gs ++ gm.
Proof. exact (evolution fl snake hg hg' fs more gs gs'). Qed.
Print Assumptions C35_generators_agree.

(** The old accessors read, from a table written with the new schema, what was
    written to the old fields. *)
Theorem C35_old_reads_new fl snake hg hg' fs more gs gs' h hr c before xs b0 ys b1 o later b zs :
  floats_ok fl -> forallb (fun f => default_ok (if_default f)) fs = true ->
  gen_table fl snake hg fs = Some gs -> gen_table fl snake hg' (fs ++ more) = Some gs' ->
  blen (fs ++ more) <= 32765 -> debug h = true \/ blen (fs ++ more) <= 8190 ->
  0 <= c -> calls_ok before = true -> closed before = true -> program h c before = Val (b0, xs) ->
  typed (blen (fs ++ more)) (TreeTable gs' ys) (FUOffset FTable) -> put h b0 (TreeTable gs' ys) = Val (b1, Some (POffset o)) ->
  calls_ok later = true -> no_reset later = true -> run h b1 later = Val (b, zs) ->
  blen (unfinished_data b) < 2 ^ 31 ->
  let D := unfinished_data b in
  exists w, follow hr FTable D (blen D - o) = Val w /\ shows hr D (TreeTable gs (firstn (length gs) ys)) w.
Proof. exact (old_reads_new fl snake hg hg' fs more gs gs' h hr c before xs b0 ys b1 o later b zs). Qed.
Print Assumptions C35_old_reads_new.

(** The new accessors of the appended fields return, from a table written with
    the old schema, the default, or nothing, or [RequiredFieldMissing] for a
    required field without default ([missing]); the others are the old ones. *)
Theorem C35_new_reads_old fl snake hg hg' fs more gs gs' h hr c before xs b0 ys b1 o later b zs i g :
  floats_ok fl -> forallb (fun f => default_ok (if_default f)) (fs ++ more) = true ->
  gen_table fl snake hg fs = Some gs -> gen_table fl snake hg' (fs ++ more) = Some gs' ->
  blen (fs ++ more) <= 32765 -> debug h = true \/ blen fs <= 8190 ->
  0 <= c -> calls_ok before = true -> closed before = true -> program h c before = Val (b0, xs) ->
  typed (blen fs) (TreeTable gs ys) (FUOffset FTable) -> put h b0 (TreeTable gs ys) = Val (b1, Some (POffset o)) ->
  calls_ok later = true -> no_reset later = true -> run h b1 later = Val (b, zs) ->
  blen (unfinished_data b) < 2 ^ 31 ->
  nth_error gs' i = Some g ->
  let D := unfinished_data b in
  ((length fs <= i)%nat -> gen_get hr D (blen D - o) g = missing g) /\
  ((i < length fs)%nat -> nth_error gs i = Some g).
Proof. exact (new_reads_old_schema fl snake hg hg' fs more gs gs' h hr c before xs b0 ys b1 o later b zs i g). Qed.
Print Assumptions C35_new_reads_old.

Example C35_case :
  let more := [field "mana" (IPrim Short) (Some (DScalar (CInt 150))) false; field "tag" IString None true] in
  let gm := skipn 8 (gen (monster_fields ++ more)) in
  gen (monster_fields ++ more) = gen monster_fields ++ gm /\
  map (gen_get host0 orc_bytes orc_at) gm = [Val (Some (GPlain (VScalar 150))); Err RequiredFieldMissing] /\
  map missing gm = [Val (Some (GPlain (VScalar 150))); Err RequiredFieldMissing].
Proof. vm_compute. repeat split. Qed.

(** C36.  Conversion to the base type and back; no number but a variant's own is accepted. *)
Theorem C36_enum_round_trip vs base : enum_compiles vs base = true ->
  (forall i, (i < length vs)%nat -> enum_try_from vs (enum_into vs i) = Val i) /\
  (forall n i, enum_try_from vs n = Val i -> (i < length vs)%nat /\ enum_into vs i = n) /\
  (forall n, ~ In n (enum_values vs) -> enum_try_from vs n = Err UnknownEnumVariant).
Proof. exact (enum_round_trip vs base). Qed.
Print Assumptions C36_enum_round_trip.

(** Reading an enum anywhere in any bytes is reading its base type and converting. *)
Theorem C36_enum_read h buf loc vs base n : enum_compiles vs base = true -> follow h (FScalar (prim_ty base)) buf loc = Val (VScalar n) ->
  follow h (FEnum (prim_ty base) (enum_values vs)) buf loc =
    let* i := enum_try_from vs n in Val (VEnum (enum_into vs i)).
Proof. exact (enum_follow h buf loc vs base n). Qed.
Print Assumptions C36_enum_read.

(** Where the base type cannot be read, neither can the enum. *)
Theorem C36_enum_read_fails h buf loc vs base : enum_compiles vs base = true -> (forall n, follow h (FScalar (prim_ty base)) buf loc <> Val (VScalar n)) ->
  match follow h (FScalar (prim_ty base)) buf loc with
  | Err e => follow h (FEnum (prim_ty base) (enum_values vs)) buf loc = Err e
  | Panic => follow h (FEnum (prim_ty base) (enum_values vs)) buf loc = Panic
  | Val _ => False
  end.
Proof. exact (enum_follow_fails h buf loc vs base). Qed.
Print Assumptions C36_enum_read_fails.

Example C36_case : enum_compiles color UByte = true /\
  map (enum_into color) [0; 1; 2]%nat = [1; 5; 2] /\ enum_try_from color 5 = Val 1%nat /\
  enum_try_from color 3 = Err UnknownEnumVariant /\
  follow host0 (FEnum TU8 (enum_values color)) (map z2b [9; 2; 3]) 1 = Val (VEnum 2) /\
  follow host0 (FEnum TU8 (enum_values color)) (map z2b [9; 2; 3]) 2 = Err UnknownEnumVariant.
Proof. vm_compute. repeat split. Qed.

(** C37 as stated is false: a variant without a value has its index as value.
    [enum E : ubyte { A = 5, B }] compiles with B = 1; [enum E : ubyte { A = 1, B }],
    whose documented values are distinct, does not compile. *)
Theorem C37_documented_refuted :
  (exists vs base, enum_compiles vs base = true /\ NoDup (documented_values vs) /\ enum_values vs <> documented_values vs) /\
  (exists vs, NoDup (map iev_id vs) /\ documented_values vs = [1; 2] /\ forall base, enum_compiles vs base = false).
Proof. exact documented_refuted. Qed.
Print Assumptions C37_documented_refuted.

(** What holds: an explicit value is kept, an implicit one is the index. *)
Theorem C37_values_exact vs i v : nth_error vs i = Some v ->
  nth_error (enum_values vs) i = Some (match iev_value v with Some x => x | None => Z.of_nat i end).
Proof. exact (enum_values_exact vs i v). Qed.
Print Assumptions C37_values_exact.

(** The values of an enum that compiles are distinct and fit the base type. *)
Theorem C37_distinct vs base : enum_compiles vs base = true ->
  NoDup (enum_values vs) /\ Forall (fun n => valid_scalar (prim_ty base) n = true) (enum_values vs).
Proof. exact (enum_distinct vs base). Qed.
Print Assumptions C37_distinct.

(** The values are the documented ones exactly when every later variant without
    a value follows one whose value is its index. *)
Theorem C37_documented_iff vs : enum_values vs = documented_values vs <->
  forall k v, nth_error vs (S k) = Some v -> iev_value v = None -> nth_error (enum_values vs) k = Some (Z.of_nat k).
Proof. exact (documented_iff vs). Qed.
Print Assumptions C37_documented_iff.

Example C37_case : enum_compiles color UByte = true /\ enum_values color = documented_values color /\
  enum_values u_types = documented_values u_types /\ enum_values u_types = [0; 1; 2].
Proof. vm_compute. repeat split. Qed.

(** C38.  For every byte string: the accessor of a union field [f] follows the
    accessor of the field named [f_type] (an error or panic of the latter is the
    result; an unknown type number is such an error by C36), and is the content of
    the one variant whose number it is, or absent for None. *)
Theorem C38_union_accessor fl snake hg fs gs i f g q e vs :
  blen fs <= 32765 -> gen_table fl snake hg fs = Some gs -> nth_error fs i = Some f -> nth_error gs i = Some g ->
  if_ty f = ICustom q (KUnion e vs) ->
  exists j tf evs b gt, nth_error fs j = Some tf /\ nth_error gs j = Some gt /\
    snake (if_id tf) = (snake (if_id f) ++ lit "_type")%list /\ if_ty tf = ICustom e (KEnum evs b) /\
    (forall m k k', union_get_type evs vs k = Some m -> union_get_type evs vs k' = Some m -> k = k') /\
    forall h buf tab, match gen_get h buf tab gt with
      | Err err => gen_get h buf tab g = Err err
      | Panic => gen_get h buf tab g = Panic
      | Val None => gen_get h buf tab g = Val None /\ if_required f = false
      | Val (Some (GPlain (VEnum n))) =>
          (exists k v t, nth_error vs k = Some v /\ union_get_type evs vs k = Some n /\ follow_ty (iuv_ty v) = Some t /\
             gen_get h buf tab g =
               let* x := table_get h buf tab (g_slot g) t None in
               match x with
               | Some x => Val (Some (GVariant n x))
               | None => if if_required f then Err RequiredFieldMissing else Val None
               end) \/
          (variant_value evs (lit "None") = Some n /\
             gen_get h buf tab g = if if_required f then Err RequiredFieldMissing else Val None)
      | Val (Some _) => False
      end.
Proof. exact (union_accessor fl snake hg fs gs i f g q e vs). Qed.
Print Assumptions C38_union_accessor.

Example C38_case : let u := nth 6 (gen monster_fields) (GField 0 (GRef FTable) false) in
  let ut := nth 5 (gen monster_fields) (GField 0 (GRef FTable) false) in
  gen_get host0 orc_bytes orc_at ut = Val (Some (GPlain (VEnum 1))) /\
  (match gen_get host0 orc_bytes orc_at u with Val (Some (GVariant 1 (VTable _))) => True | _ => False end) /\
  nth_error monster_fields 6 = Some (field "u" (named "U" u_kind) None false) /\
  union_get_type u_types [IUnionV (named "Leaf" KTable) (lit "Leaf") []; IUnionV (named "Other" KTable) (lit "Other") []] 1 = Some 2.
Proof. vm_compute. repeat split. Qed.

(** But a union may have an enum among its variants, and the accessor takes the
    reference to what was stored for the value itself: with
    enum Shade : ubyte { Red = 1, Green = 5, Blue = 7 }  union V { Leaf, Shade }
    table Pick { u : V; }, whichever shade is stored, Blue is read. *)
Definition shade : list ienumv := [ev "Red" (Some 1); ev "Green" (Some 5); ev "Blue" (Some 7)].
Definition pick_fields : list ifield :=
  [field "u_type" (named "VType" (KEnum [ev "None" (Some 0); ev "Leaf" None; ev "Shade" None] UByte)) None false;
   field "u" (named "V" (KUnion [lit "VType"] [IUnionV (named "Leaf" KTable) (lit "Leaf") [];
     IUnionV (named "Shade" (KEnum shade UByte)) (lit "Shade") []])) None false].
Definition picked (c : Z) : outcome (list byte * Z) :=
  let* b := new_with_capacity 0 in
  let* (b, o) := push host0 b (PScalar TU8 c) in
  let* (b, o) := gen_create host0 b (gen pick_fields) [Some (PScalar TU8 2); Some (POffset o)] in
  Val (unfinished_data b, blen (unfinished_data b) - o).
Lemma enum_variant_wrong : exists gs u, gen_table fl0 (fun x => x) host0 pick_fields = Some gs /\ nth_error gs 1 = Some u /\
  forall c, In c (enum_values shade) -> exists bytes tab, picked c = Val (bytes, tab) /\
    gen_get host0 bytes tab u = Val (Some (GVariant 2 (VEnum 7))).
Proof.
  eexists. eexists. split; [vm_compute; reflexivity|]. split; [reflexivity|].
  intros c [<-|[<-|[<-|[]]]]; eexists; eexists; (split; [vm_compute; reflexivity|vm_compute; reflexivity]).
Qed.
Theorem C38_enum_variant_refuted : exists gs u, gen_table fl0 (fun x => x) host0 pick_fields = Some gs /\ nth_error gs 1 = Some u /\
  forall c, In c (enum_values shade) -> exists bytes tab, picked c = Val (bytes, tab) /\
    gen_get host0 bytes tab u = Val (Some (GVariant 2 (VEnum 7))).
Proof. exact enum_variant_wrong. Qed.
Print Assumptions C38_enum_variant_refuted.

(** C55.  Any program of reader calls and generated accessors, on any bytes, in a
    release build ([gclient], SpecAccess.v). *)
Theorem C55_never_panics h buf cs :
  debug h = false -> blen buf < 2 ^ 63 -> Forall gcall_ok cs -> gclient h buf [] cs <> Panic.
Proof. exact (accessors_never_panic h buf cs). Qed.
Print Assumptions C55_never_panics.

(** What an accessor returns has the type the schema gives the field ([returns],
    SpecAccess.v), in any build, at any position of any bytes. *)
Theorem C55_typed fl snake hg fs gs i f g h buf tab v :
  floats_ok fl -> forallb (fun f => default_ok (if_default f)) fs = true ->
  gen_table fl snake hg fs = Some gs -> nth_error fs i = Some f -> nth_error gs i = Some g -> blen buf < 2 ^ 63 ->
  gen_get h buf tab g = Val (Some v) -> returns h buf (if_ty f) v.
Proof. exact (accessor_typed fl snake hg fs gs i f g h buf tab v). Qed.
Print Assumptions C55_typed.

(** Nothing is returned for optional fields only; a missing field is an error for
    required fields only. *)
Theorem C55_required fl snake hg fs gs i f g h buf tab :
  gen_table fl snake hg fs = Some gs -> nth_error fs i = Some f -> nth_error gs i = Some g ->
  (gen_get h buf tab g = Val None -> if_required f = false) /\
  (gen_get h buf tab g = Err RequiredFieldMissing -> if_required f = true).
Proof. exact (accessor_required fl snake hg fs gs i f g h buf tab). Qed.
Print Assumptions C55_required.

(** Accessors of a monster on bytes that are no monster. *)
Definition junk : list byte := map z2b [8; 0; 0; 0; 0; 0; 0; 0; 252; 255; 255; 255; 16; 0; 8; 0; 4; 0; 9; 0; 7; 0; 3; 0; 200; 255; 255; 255; 0].
Definition junk_calls : list gcall :=
  GRead (RRoot FTable) :: map (GAccess 0) (gen monster_fields) ++ [GRead (RVecGet 2 3)].
Example C55_case : Forall gcall_ok junk_calls /\
  gclient (Host false false) junk [] junk_calls = Val [VTable 8; VScalar 16; VVector (FScalar TU8) 134222090] /\
  map (gen_get (Host false false) junk 8) (gen monster_fields) =
    [Val (Some (GPlain (VScalar 16))); Err UnknownEnumVariant; Err OutOfBounds; Val (Some (GPlain (VVector (FScalar TU8) 134222090)));
     Err OutOfBounds; Err OutOfBounds; Err OutOfBounds; Val None].
Proof.
  split; [|split; vm_compute; reflexivity]. unfold junk_calls. apply Forall_cons; [exact Logic.I|]. apply Forall_app. split.
  - apply Forall_map, Forall_forall. intros f If. exists 8, (gen monster_fields). split; [|exact If].
    exists fl0, (fun x => x), host0, monster_fields. split; [exact fl0_ok|]. split; [reflexivity|]. split; [vm_compute; discriminate|reflexivity].
  - repeat constructor; vm_compute; discriminate.
Qed.

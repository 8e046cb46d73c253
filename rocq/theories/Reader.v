(** Model of the reading half of butte: the [Follow] impls of
    butte/src/primitives.rs, butte/src/vtable.rs, butte/src/table.rs and
    butte/src/vector.rs. *)
From Coq Require Import ZArith List Bool Strings.Byte.
From Verif Require Import Base Scalar Utf8.
Import ListNotations.
Local Open Scope Z_scope.

(** primitives.rs:27-52. *)
Definition MAX_BUFFER_SIZE : Z := 2 ^ 31.
Definition FILE_IDENTIFIER_LENGTH : Z := 4.
Definition SIZE_UOFFSET : Z := 4.
Definition SIZE_SOFFSET : Z := 4.
Definition SIZE_VOFFSET : Z := 2.

(** The types with a [Follow] impl.  [FTable] stands for [Table<&[u8]>] and for
    every generated table type (codegen.rs:768-776: a wrapper of the same
    (buf, loc)); [FEnum] for a generated enum with its base type and its
    variants' values (codegen.rs:883-1027). *)
Inductive fty :=
| FScalar (t : sty)
| FStr
| FSlice (t : sty)
| FVector (t : fty)
| FTable
| FVTable
| FUOffset (t : fty)
| FVOffset (t : fty)
| FSOffset (t : fty)
| FSkipSizePrefix (t : fty)
| FSkipRootOffset (t : fty)
| FSkipFileIdentifier (t : fty)
| FFileIdentifier
| FEnum (base : sty) (values : list Z).

(** What a [follow] returns.  All references are into the one buffer being
    read, so only the location is kept. *)
Inductive fval :=
| VScalar (v : Z)
| VStr (s : list byte)
| VSlice (vs : list Z)
| VVector (t : fty) (loc : Z)
| VTable (loc : Z)
| VVTable (loc : Z)
| VIdent (s : list byte)
| VEnum (v : Z).

(** [size_of::<T>()] of the [Follow] types: fat references are 16 bytes, the
    (buf, loc) structs 24, the skip markers zero-sized. *)
Definition size_of (t : fty) : Z :=
  match t with
  | FScalar t => ssize t
  | FStr | FSlice _ => 16
  | FVector _ | FTable | FVTable => 24
  | FUOffset _ => 4
  | FVOffset _ => 2
  | FSOffset _ => 4
  | FSkipSizePrefix _ | FSkipRootOffset _ | FSkipFileIdentifier _ => 0
  | FFileIdentifier => 0
  | FEnum b _ => ssize b
  end.

(** Reinterpreting a byte string as [&[T]]: the elements of [n] bytes each. *)
Fixpoint chunks (h : host) (t : sty) (count : nat) (l : list byte) : list Z :=
  match count with
  | O => []
  | S c => of_bits t (load h (firstn (snat t) l)) :: chunks h t c (skipn (snat t) l)
  end.

(** vector.rs:164-174 (and, for [Vector::safe_slice], 86-98). *)
Definition follow_slice_helper (h : host) (t : sty) (buf : list byte) (loc : Z)
  : outcome (list Z) :=
  let sz := ssize t in
  let* _ := debug_assert h (0 <? sz) in
  let* len := read_scalar_at h TU32 buf loc in
  let* a := usize_arith h (loc + SIZE_UOFFSET) in
  let* m := usize_arith h (len * sz) in
  let* b := usize_arith h (a + m) in
  let* data := ok_or (get_range buf a b) OutOfBounds in
  Val (chunks h t (Z.to_nat len) data).

(** vector.rs:137-161. *)
Definition follow_str (h : host) (buf : list byte) (loc : Z) : outcome (list byte) :=
  let* len := read_scalar_at h TU32 buf loc in
  let* start := usize_arith h (loc + SIZE_UOFFSET) in
  let* end_loc := usize_arith h (start + len) in
  if blen buf <=? end_loc then Err OutOfBounds
  else
    let* z := index buf end_loc in
    if negb (byte_eqb z x00) then Err NonNullTerminatedString
    else
      let* s := index_range buf start end_loc in
      if utf8_valid s then Val s else Err NonUtf8String.

(** All [Follow] impls. *)
Fixpoint follow (h : host) (t : fty) (buf : list byte) (loc : Z) : outcome fval :=
  match t with
  (* primitives.rs:334-340 *)
  | FScalar TBool =>
      let* v := read_scalar_at h TU8 buf loc in
      Val (VScalar (if v =? 0 then 0 else 1))
  (* primitives.rs:347-368 *)
  | FScalar s => let* v := read_scalar_at h s buf loc in Val (VScalar v)
  | FStr => let* s := follow_str h buf loc in Val (VStr s)
  (* vector.rs:178-183; exists on little-endian hosts only *)
  | FSlice s => let* vs := follow_slice_helper h s buf loc in Val (VSlice vs)
  (* vector.rs:186-191 *)
  | FVector e => Val (VVector e loc)
  (* table.rs:73-83, codegen.rs:768-776 *)
  | FTable => Val (VTable loc)
  (* vtable.rs:86-91 *)
  | FVTable => Val (VVTable loc)
  (* primitives.rs:169-182, 184-203 *)
  | FUOffset t =>
      let* e := usize_arith h (loc + SIZE_UOFFSET) in
      let* s := ok_or (get_range buf loc e) OutOfBounds in
      let* off := read_scalar h TU32 s in
      let* l := usize_arith h (loc + off) in
      follow h t buf l
  (* primitives.rs:225-233 *)
  | FVOffset t =>
      let* e := usize_arith h (loc + SIZE_VOFFSET) in
      let* s := ok_or (get_range buf loc e) OutOfBounds in
      let* off := read_scalar h TU16 s in
      let* l := usize_arith h (loc + off) in
      follow h t buf l
  (* primitives.rs:255-263 *)
  | FSOffset t =>
      let* e := usize_arith h (loc + SIZE_SOFFSET) in
      let* s := ok_or (get_range buf loc e) OutOfBounds in
      let* off := read_scalar h TI32 s in
      let* d := i32_arith h (as_i32 loc - off) in
      follow h t buf (i32_as_usize d)
  (* primitives.rs:277-297 *)
  | FSkipSizePrefix t =>
      let* l := usize_arith h (loc + SIZE_UOFFSET) in follow h t buf l
  (* primitives.rs:302-308 *)
  | FSkipRootOffset t =>
      let* l := usize_arith h (loc + SIZE_UOFFSET) in follow h t buf l
  (* primitives.rs:326-332 *)
  | FSkipFileIdentifier t =>
      let* l := usize_arith h (loc + FILE_IDENTIFIER_LENGTH) in follow h t buf l
  (* primitives.rs:313-320 *)
  | FFileIdentifier =>
      let* e := usize_arith h (loc + FILE_IDENTIFIER_LENGTH) in
      let* s := ok_or (get_range buf loc e) OutOfBounds in
      Val (VIdent s)
  (* codegen.rs:982-989: follow the base type, then [try_into] (991-999) *)
  | FEnum b vs =>
      let* v := read_scalar_at h b buf loc in
      if existsb (Z.eqb v) vs then Val (VEnum v) else Err UnknownEnumVariant
  end.

(** vtable.rs:41-43. *)
Definition vt_num_bytes (h : host) (buf : list byte) (vt : Z) : outcome Z :=
  read_scalar_at h TU16 buf vt.
(** vtable.rs:38-40. *)
Definition vt_num_fields (h : host) (buf : list byte) (vt : Z) : outcome Z :=
  let* n := vt_num_bytes h buf vt in
  usize_arith h (n / SIZE_VOFFSET - 2).
(** vtable.rs:44-47. *)
Definition vt_object_inline_num_bytes (h : host) (buf : list byte) (vt : Z) : outcome Z :=
  let* l := usize_arith h (vt + SIZE_VOFFSET) in
  read_scalar_at h TU16 buf l.
(** vtable.rs:48-57. *)
Definition vt_get_field (h : host) (buf : list byte) (vt idx : Z) : outcome (option Z) :=
  let* n := vt_num_fields h buf vt in
  if n <? idx then Val None
  else
    let* a := usize_arith h (vt + SIZE_VOFFSET) in
    let* b := usize_arith h (a + SIZE_VOFFSET) in
    let* m := usize_arith h (SIZE_VOFFSET * idx) in
    let* l := usize_arith h (b + m) in
    let* v := read_scalar_at h TU16 buf l in
    Val (Some v).
(** vtable.rs:58-63. *)
Definition vt_get (h : host) (buf : list byte) (vt byte_loc : Z) : outcome (option Z) :=
  let* n := vt_num_bytes h buf vt in
  if n <=? byte_loc then Val None
  else
    let* l := usize_arith h (vt + byte_loc) in
    let* v := read_scalar_at h TU16 buf l in
    Val (Some v).
(** vtable.rs:64-69. *)
Definition vt_as_bytes (h : host) (buf : list byte) (vt : Z) : outcome (list byte) :=
  let* len := vt_num_bytes h buf vt in
  let* e := usize_arith h (vt + len) in
  ok_or (get_range buf vt e) OutOfBounds.

(** vtable.rs:73-77. *)
Definition field_index_to_field_offset (h : host) (id : Z) : outcome Z :=
  let* a := u16_arith h (id + 2) in
  u16_arith h (a * SIZE_VOFFSET).
(** vtable.rs:80-84. *)
Definition field_offset_to_field_index (h : host) (o : Z) : outcome Z :=
  let* _ := debug_assert h (2 <=? o) in
  u16_arith h (o / SIZE_VOFFSET - 2).

(** table.rs:42-48 and 86-99: the location of the root. *)
Definition get_root (h : host) (t : fty) (buf : list byte) : outcome fval :=
  follow h (FUOffset t) buf 0.
Definition get_size_prefixed_root (h : host) (t : fty) (buf : list byte) : outcome fval :=
  follow h (FSkipSizePrefix (FUOffset t)) buf 0.

(** table.rs:50-52. *)
Definition table_vtable (h : host) (buf : list byte) (tab : Z) : outcome Z :=
  let* v := follow h (FSOffset FVTable) buf tab in
  match v with VVTable l => Val l | _ => Panic end.

(** table.rs:55-70. *)
Definition table_get (h : host) (buf : list byte) (tab slot : Z) (t : fty)
    (default : option fval) : outcome (option fval) :=
  let* vt := table_vtable h buf tab in
  let* vo := vt_get h buf vt slot in
  match vo with
  | Some off =>
      if off =? 0 then Val default
      else
        let* l := usize_arith h (tab + off) in
        let* v := follow h t buf l in
        Val (Some v)
  | None => Val default
  end.

(** table.rs:102-112. *)
Definition buffer_has_identifier (h : host) (data ident : list byte) (size_prefixed : bool)
  : outcome bool :=
  let* _ := assert_always (blen ident =? FILE_IDENTIFIER_LENGTH) in
  let* got := follow h (if size_prefixed
                        then FSkipSizePrefix (FSkipRootOffset FFileIdentifier)
                        else FSkipRootOffset FFileIdentifier) data 0 in
  match got with VIdent g => Val (bytes_eqb ident g) | _ => Panic end.

(** vector.rs:57-63. *)
Definition vec_len (h : host) (buf : list byte) (v : Z) : outcome Z :=
  read_scalar_at h TU32 buf v.
Definition vec_is_empty (h : host) (buf : list byte) (v : Z) : outcome bool :=
  let* n := vec_len h buf v in Val (n =? 0).

(** vector.rs:68-73: the [?] inside [debug_assert!] runs in debug builds only. *)
Definition vec_get (h : host) (t : fty) (buf : list byte) (v idx : Z) : outcome fval :=
  let* _ :=
    (if debug h then
       let* n := read_scalar_at h TU32 buf v in debug_assert h (idx <? n)
     else Val tt) in
  let sz := size_of t in
  let* _ := debug_assert h (0 <? sz) in
  let* a := usize_arith h (v + SIZE_UOFFSET) in
  let* m := usize_arith h (sz * idx) in
  let* l := usize_arith h (a + m) in
  follow h t buf l.

(** vector.rs:193-199. *)
Record viter := VIter { it_loc : Z; it_remaining : Z }.

(** vector.rs:76-81 and 203-213. *)
Definition vec_iter (h : host) (buf : list byte) (v : Z) : outcome viter :=
  let* len := match vec_len h buf v with Err _ => Val 0 | o => o end in
  let* l := usize_arith h (v + SIZE_UOFFSET) in
  Val (VIter l len).

(** What an iterator call returns: [None], or [Some] of the element's result. *)
Definition iter_item := option (outcome fval).

(** vector.rs:232-244.  A panic inside [T::follow] unwinds. *)
Definition iter_next (h : host) (t : fty) (buf : list byte) (it : viter)
  : outcome (iter_item * viter) :=
  let sz := size_of t in
  let* _ := debug_assert h (0 <? sz) in
  if it_remaining it =? 0 then Val (None, it)
  else
    match follow h t buf (it_loc it) with
    | Panic => Panic
    | r =>
        let* l := usize_arith h (it_loc it + sz) in
        let* n := usize_arith h (it_remaining it - 1) in
        Val (Some r, VIter l n)
    end.

(** vector.rs:247-258. *)
Definition iter_nth (h : host) (t : fty) (buf : list byte) (it : viter) (n : Z)
  : outcome (iter_item * viter) :=
  let sz := size_of t in
  let* _ := debug_assert h (0 <? sz) in
  let rem := Z.max 0 (it_remaining it - n) in
  let* m := usize_arith h (sz * n) in
  let l := (it_loc it + m) mod 2 ^ 64 in
  iter_next h t buf (VIter l rem).

(** vector.rs:268-278. *)
Definition iter_next_back (h : host) (t : fty) (buf : list byte) (it : viter)
  : outcome (iter_item * viter) :=
  let sz := size_of t in
  let* _ := debug_assert h (0 <? sz) in
  if it_remaining it =? 0 then Val (None, it)
  else
    let* n := usize_arith h (it_remaining it - 1) in
    let* m := usize_arith h (sz * n) in
    let* l := usize_arith h (it_loc it + m) in
    match follow h t buf l with
    | Panic => Panic
    | r => Val (Some r, VIter (it_loc it) n)
    end.

(** vector.rs:281-284. *)
Definition iter_nth_back (h : host) (t : fty) (buf : list byte) (it : viter) (n : Z)
  : outcome (iter_item * viter) :=
  iter_next_back h t buf (VIter (it_loc it) (Z.max 0 (it_remaining it - n))).

(** vector.rs:261-263 and 289-291. *)
Definition iter_size_hint (it : viter) : Z * option Z :=
  (it_remaining it, Some (it_remaining it)).
Definition iter_len (it : viter) : Z := it_remaining it.

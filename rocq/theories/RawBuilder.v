(** The unsafe code of the builder: the functions of Builder.v and Ops.v written
    out again with the slices they really hold and the accesses they make
    through raw pointers (see Raw.v).  Lemma [run_same] says that forgetting
    the accesses gives back Ops.v. *)
From Coq Require Import ZArith List Bool Strings.Byte.
From Verif Require Import Base Scalar Reader Client Raw Builder Ops.
Import ListNotations.
Local Open Scope Z_scope.

(** [&self.owned_buf[self.head..]]: builder.rs:331-333. *)
Definition w_unfinished (b : builder) : outcome region :=
  region_index (whole_of (owned_buf b)) (head b) (blen (owned_buf b)).

(** builder.rs:102-119. *)
Definition w_reset (h : host) (b : builder) : traced builder :=
  let+ to_clear := quiet (usize_arith h (blen (owned_buf b) - head b)) in
  let+ r := quiet (w_unfinished b) in
  let+ m := wipe r to_clear in
  quiet (Val (Builder m (blen m) (field_locs b) [] false false 0)).

(** builder.rs:527-559. *)
Definition w_grow_owned_buf (h : host) (b : builder) : traced builder :=
  let old_len := blen (owned_buf b) in
  let+ dbl := quiet (usize_arith h (old_len * 2)) in
  let new_len := Z.max 1 dbl in
  let+ diff := quiet (usize_arith h (new_len - old_len)) in
  let+ _ := quiet (assert_always (new_len <? 2 ^ 63)) in
  let resized := firstn (Z.to_nat new_len) (owned_buf b ++ zeros diff) in
  let+ hd := quiet (usize_arith h (head b + diff)) in
  let+ _ := quiet (debug_assert h (used_space b =? blen resized - hd)) in
  if new_len =? 1 then quiet (Val (set_buf b resized hd))
  else
    let middle := new_len / 2 in
    let left := firstn (Z.to_nat middle) resized in
    let+ copied := quiet (write_range resized middle (blen resized) left) in
    let+ r := quiet (region_index (whole_of copied) 0 middle) in
    let+ m := wipe r middle in
    quiet (Val (set_buf b m hd)).

(** builder.rs:628-648. *)
Fixpoint w_grow_loop (h : host) (fuel : nat) (b : builder) (want : Z) : traced builder :=
  if want <=? head b then quiet (Val b)
  else
    match fuel with
    | O => quiet Panic
    | S f => let+ b := w_grow_owned_buf h b in w_grow_loop h f b want
    end.
Definition w_ensure_capacity (h : host) (b : builder) (want : Z) : traced builder :=
  if want <=? head b then quiet (Val b)
  else
    let+ _ := quiet (assert_always (want <=? MAX_BUFFER_SIZE)) in
    w_grow_loop h 100 b want.
Definition w_make_space (h : host) (b : builder) (want : Z) : traced builder :=
  let+ b := w_ensure_capacity h b want in
  quiet (Val (set_buf b (owned_buf b) (head b - want))).
(** builder.rs:608-617. *)
Definition w_align (h : host) (b : builder) (len alignment : Z) : traced builder :=
  let b := set_min_align b (Z.max (min_align b) alignment) in
  let+ n := quiet (usize_arith h (used_space b + len)) in
  w_make_space h b (padding_bytes n alignment).

(** push.rs:65-67, primitives.rs:139-142; [rest] is the length of the rest. *)
Definition w_push_into (h : host) (p : pval) (dst : region) (rest : Z) : traced (list byte) :=
  match p with
  | PScalar t v => r_emplace_scalar h t dst v
  | POffset o =>
      let+ n := quiet (usize_arith h (SIZE_UOFFSET + rest - o)) in
      r_emplace_scalar h TU32 dst (as_u32 n)
  end.
(** builder.rs:132-141. *)
Definition w_push (h : host) (b : builder) (x : pval) : traced (builder * Z) :=
  let sz := push_size x in
  let+ b := w_align h b sz (push_alignment x) in
  let+ b := w_make_space h b sz in
  let+ d := quiet (w_unfinished b) in
  let+ _ := quiet (assert_always (sz <=? region_len d)) in
  let+ m := w_push_into h x (Region (mem d) (from d) (from d + sz)) (region_len d - sz) in
  let b := set_buf b m (head b) in
  quiet (Val (b, as_u32 (used_space b))).
(** builder.rs:619-625: safe but for the growth. *)
Definition w_push_bytes_unprefixed (h : host) (b : builder) (x : list byte) : traced builder :=
  let+ b := w_make_space h b (blen x) in
  let n := head b in
  let+ e := quiet (usize_arith h (n + blen x)) in
  let+ buf := quiet (write_range (owned_buf b) n e x) in
  quiet (Val (set_buf b buf n)).

(** builder.rs:147-162. *)
Definition w_push_slot_always (h : host) (b : builder) (slot : Z) (x : pval) : traced builder :=
  let+ _ := quiet (assert_nested h b) in
  let+ (b, off) := w_push h b x in
  quiet (Val (track_field b slot off)).
Definition w_push_slot (h : host) (b : builder) (slot : Z) (x default : pval) : traced builder :=
  let+ _ := quiet (assert_nested h b) in
  if pval_eq x default then quiet (Val b)
  else w_push_slot_always h b slot x.

(** vtable_writer.rs:45-88, on [&mut owned_buf[..]]; the slice afterwards. *)
Definition with_mem (r : region) (m : list byte) : region := Region m (from r) (upto r).
Definition w_vtw_write_byte_length (h : host) (vt : region) (n : Z) : traced region :=
  let+ d := quiet (region_index vt 0 SIZE_VOFFSET) in
  let+ m := r_emplace_scalar h TU16 d n in
  let+ _ := quiet (debug_assert h (n =? region_len vt)) in
  quiet (Val (with_mem vt m)).
Definition w_vtw_write_object_inline_size (h : host) (vt : region) (n : Z) : traced region :=
  let+ d := quiet (region_index vt SIZE_VOFFSET (2 * SIZE_VOFFSET)) in
  let+ m := r_emplace_scalar h TU16 d n in
  quiet (Val (with_mem vt m)).
Definition w_vtw_get_field_offset (h : host) (vt : region) (idx : Z) : traced Z :=
  tthen (r_read_scalar_at h TU16 vt idx) (fun o => quiet (expect o)).
Definition w_vtw_write_field_offset (h : host) (vt : region) (idx pos : Z) : traced region :=
  let+ d := quiet (region_index vt idx (idx + SIZE_VOFFSET)) in
  let+ m := r_emplace_scalar h TU16 d pos in
  quiet (Val (with_mem vt m)).
Definition w_vtw_clear (vt : region) : traced region :=
  let+ m := wipe vt (region_len vt) in
  quiet (Val (with_mem vt m)).

(** builder.rs:459-468. *)
Fixpoint w_write_fields (h : host) (vt : region) (obj : Z) (l : list field_loc) : traced region :=
  match l with
  | [] => quiet (Val vt)
  | fl :: l =>
      let+ d := quiet (u32_arith h (obj - fl_off fl)) in
      let pos := as_u16 d in
      let+ _ :=
        (if debug h then
           let+ old := w_vtw_get_field_offset h vt (fl_id fl) in quiet (debug_assert h (old =? 0))
         else quiet (Val tt)) in
      let+ vt := w_vtw_write_field_offset h vt (fl_id fl) pos in
      w_write_fields h vt obj l
  end.

(** vtable.rs:28-32. *)
Definition w_vt_eq (h : host) (r : region) (a b : Z) : traced bool :=
  tthen (r_vt_as_bytes h r a) (fun x =>
    match x with
    | Panic => quiet Panic
    | x =>
        tthen (r_vt_as_bytes h r b) (fun y =>
          quiet match x, y with
                | Panic, _ | _, Panic => Panic
                | Val x, Val y => Val (bytes_eqb (contents x) (contents y))
                | Err OutOfBounds, Err OutOfBounds => Val true
                | _, _ => Val false
                end)
    end).
(** builder.rs:512-523. *)
Fixpoint w_find_dup (h : host) (r : region) (needle : Z) (l : list Z) : traced (option Z) :=
  match l with
  | [] => quiet (Val None)
  | x :: l =>
      let+ o := quiet (usize_arith h (region_len r - x)) in
      let+ e := w_vt_eq h r needle o in
      if e then quiet (Val (Some x)) else w_find_dup h r needle l
  end.

(** builder.rs:400-509. *)
Definition w_write_vtable (h : host) (b : builder) (tail : Z) : traced (builder * Z) :=
  let+ _ := quiet (assert_nested h b) in
  let+ (b, obj) := w_push h b (PScalar TU32 0xF0F0F0F0) in
  let vlen := get_vtable_byte_len (field_locs b) in
  let+ b := w_make_space h b vlen in
  let+ size := quiet (u32_arith h (obj - tail)) in
  let+ _ := quiet (debug_assert h (size <? 0x10000)) in
  let vt_start := head b in
  let+ vt_end := quiet (usize_arith h (head b + vlen)) in
  let+ vt := quiet (region_index (whole_of (owned_buf b)) vt_start vt_end) in
  let+ vt := w_vtw_write_byte_length h vt (as_u16 vlen) in
  let+ vt := w_vtw_write_object_inline_size h vt (as_u16 size) in
  let+ vt := w_write_fields h vt obj (field_locs b) in
  let b := set_buf b (mem vt) (head b) in
  let+ dup := w_find_dup h (whole_of (owned_buf b)) (head b) (rev (written_vtable_revpos b)) in
  let+ (b, vt_use) :=
    match dup with
    | Some n =>
        let+ vt := quiet (region_index (whole_of (owned_buf b)) vt_start vt_end) in
        let+ vt := w_vtw_clear vt in
        let+ hd := quiet (usize_arith h (head b + vlen)) in
        quiet (Val (set_buf b (mem vt) hd, n))
    | None =>
        let n := as_u32 (used_space b) in
        quiet (Val (set_revpos b (written_vtable_revpos b ++ [n]), n))
    end in
  let+ n := quiet (usize_arith h (head b + used_space b - obj)) in
  let+ saw := tthen (r_read_scalar_at h TU32 (whole_of (owned_buf b)) n) (fun o => quiet (expect o)) in
  let+ _ := quiet (debug_assert h (saw =? 0xF0F0F0F0)) in
  let+ d := quiet (i32_arith h (as_i32 vt_use - as_i32 obj)) in
  let+ e := quiet (usize_arith h (n + SIZE_SOFFSET)) in
  let+ dst := quiet (region_index (whole_of (owned_buf b)) n e) in
  let+ m := r_emplace_scalar h TI32 dst d in
  let b := set_buf b m (head b) in
  quiet (Val (set_field_locs b [], obj)).

(** builder.rs:190-232. *)
Definition w_end_table (h : host) (b : builder) (off : Z) : traced (builder * Z) :=
  let+ _ := quiet (assert_nested h b) in
  let+ (b, o) := w_write_vtable h b off in
  quiet (Val (set_field_locs (set_nested b false) [], o)).
Definition w_start_vector (h : host) (b : builder) (sz al num_items : Z) : traced builder :=
  let+ _ := quiet (assert_not_nested h b) in
  let b := set_nested b true in
  let+ n := quiet (usize_arith h (num_items * sz)) in
  w_align h b n (Z.max al SIZE_UOFFSET).
Definition w_end_vector (h : host) (b : builder) (num_elems : Z) : traced (builder * Z) :=
  let+ _ := quiet (assert_nested h b) in
  let b := set_nested b false in
  w_push h b (PScalar TU32 (as_u32 num_elems)).

(** builder.rs:238-256. *)
Definition w_create_byte_string (h : host) (b : builder) (data : list byte) : traced (builder * Z) :=
  let+ _ := quiet (assert_not_nested h b) in
  let+ n := quiet (usize_arith h (blen data + 1)) in
  let+ b := w_align h b n SIZE_UOFFSET in
  let+ (b, _) := w_push h b (PScalar TU8 0) in
  let+ b := w_push_bytes_unprefixed h b data in
  let+ (b, _) := w_push h b (PScalar TU32 (as_u32 (blen data))) in
  quiet (Val (b, as_u32 (used_space b))).
Definition w_create_string (h : host) (b : builder) (s : list byte) : traced (builder * Z) :=
  let+ _ := quiet (assert_not_nested h b) in
  w_create_byte_string h b s.

(** builder.rs:265-283.  The items are [items.len()] values of
    [size_of::<T>()] bytes in memory of their own; their bytes are read through
    [from_raw_parts(ptr, items.len() * T::size())]. *)
Definition items_bytes (h : host) (t : sty) (items : list Z) : traced (list byte) :=
  let r := whole_of (slice_memory h t items) in
  ([Access Load TU8 (from r) (blen items * ssize t) (blen (mem r))],
   Val (slice (mem r) (from r) (from r + blen items * ssize t))).
Definition w_create_vector_direct (h : host) (b : builder) (t : sty) (items : list Z) : traced (builder * Z) :=
  let+ _ := quiet (assert_not_nested h b) in
  let+ n := quiet (usize_arith h (blen items * ssize t)) in
  let+ b := w_align h b n (Z.max (salign t) SIZE_UOFFSET) in
  let+ bytes := items_bytes h t items in
  let+ b := w_push_bytes_unprefixed h b bytes in
  let+ (b, _) := w_push h b (PScalar TU32 (as_u32 (blen items))) in
  quiet (Val (b, as_u32 (used_space b))).

(** builder.rs:316-326. *)
Fixpoint w_push_all (h : host) (b : builder) (l : list pval) : traced builder :=
  match l with
  | [] => quiet (Val b)
  | x :: l => let+ (b, _) := w_push h b x in w_push_all h b l
  end.
Definition w_create_vector (h : host) (b : builder) (sz al : Z) (items : list pval) : traced (builder * Z) :=
  let+ n := quiet (usize_arith h (blen items * sz)) in
  let+ b := w_align h b n (Z.max al SIZE_UOFFSET) in
  let+ b := w_push_all h b (rev items) in
  w_push h b (PScalar TU32 (as_u32 (blen items))).

(** builder.rs:290-309: [offsets] gets its length first ([set_len]) and its
    elements afterwards, last to first; [None] is an element not written yet.
    All of it is read at the end (listed before the pushes it feeds). *)
Fixpoint w_fill (h : host) (b : builder) (offsets : list (option Z)) (i : Z) (l : list (list byte))
  : traced (builder * list (option Z)) :=
  match l with
  | [] => quiet (Val (b, offsets))
  | s :: l =>
      let+ (b, o) := w_create_string h b s in
      let+ offsets := quiet (write_range offsets i (i + 1) [Some o]) in
      w_fill h b offsets (i - 1) l
  end.
Fixpoint w_read_all (i : Z) (offsets : list (option Z)) : traced (list Z) :=
  match offsets with
  | [] => quiet (Val [])
  | o :: offsets =>
      let+ x := match o with Some x => quiet (Val x) | None => ([Unwritten i], Val 0) end in
      let+ xs := w_read_all (i + 1) offsets in
      quiet (Val (x :: xs))
  end.
Definition w_create_vector_of_strings (h : host) (b : builder) (xs : list (list byte)) : traced (builder * Z) :=
  let+ _ := quiet (assert_not_nested h b) in
  let+ (b, offsets) := w_fill h b (repeat None (length xs)) (blen xs - 1) (rev xs) in
  let+ offs := w_read_all 0 offsets in
  w_create_vector h b 4 4 (map POffset offs).

(** builder.rs:345-361. *)
Definition w_required (h : host) (b : builder) (tab slot : Z) : traced unit :=
  let+ idx := quiet (usize_arith h (used_space b - tab)) in
  let+ r := quiet (w_unfinished b) in
  let+ vt := tthen (r_table_vtable h r idx) (fun o => quiet (expect o)) in
  let+ vo := tthen (r_vt_get h r vt slot) (fun o => quiet (expect o)) in
  let+ o := quiet (expect_some vo) in
  quiet (assert_always (negb (o =? 0))).

(** builder.rs:562-605. *)
Definition w_finish_with_opts (h : host) (b : builder) (root : Z) (ident : option (list byte))
    (size_prefixed : bool) : traced builder :=
  let+ _ := quiet (assert_not_finished h b) in
  let+ _ := quiet (assert_not_nested h b) in
  let b := set_revpos b [] in
  let to_align := SIZE_UOFFSET + (if size_prefixed then SIZE_UOFFSET else 0)
                  + (if ident then FILE_IDENTIFIER_LENGTH else 0) in
  let+ b := w_align h b to_align (min_align b) in
  let+ b :=
    match ident with
    | Some i =>
        let+ _ := quiet (debug_assert h (blen i =? FILE_IDENTIFIER_LENGTH)) in
        w_push_bytes_unprefixed h b i
    | None => quiet (Val b)
    end in
  let+ (b, _) := w_push h b (POffset root) in
  let+ b :=
    (if size_prefixed then
       let+ (b, _) := w_push h b (PScalar TU32 (as_u32 (used_space b))) in quiet (Val b)
     else quiet (Val b)) in
  quiet (Val (set_finished b true)).

(** Ops.v, with accesses. *)
Definition w_num (x : traced (builder * Z)) : traced (builder * obs) :=
  let+ (b, n) := x in quiet (Val (b, ONum n)).
Definition w_none (x : traced builder) : traced (builder * obs) :=
  let+ b := x in quiet (Val (b, ONone)).
Definition w_step (h : host) (b : builder) (o : op) : traced (builder * obs) :=
  match o with
  | OpReset => w_none (w_reset h b)
  | OpPush x => w_num (w_push h b x)
  | OpPushSlot s x d => w_none (w_push_slot h b s x d)
  | OpPushSlotAlways s x => w_none (w_push_slot_always h b s x)
  | OpNumVtables => quiet (Val (b, ONum (num_written_vtables b)))
  | OpStartTable => w_num (quiet (start_table h b))
  | OpEndTable off => w_num (w_end_table h b off)
  | OpStartVector t n => w_none (w_start_vector h b (pty_size t) (pty_align t) n)
  | OpEndVector n => w_num (w_end_vector h b n)
  | OpCreateString s => w_num (w_create_string h b s)
  | OpCreateByteString s => w_num (w_create_byte_string h b s)
  | OpCreateVectorDirect t items => w_num (w_create_vector_direct h b t items)
  | OpCreateVectorOfStrings xs => w_num (w_create_vector_of_strings h b xs)
  | OpCreateVector t items => w_num (w_create_vector h b (pty_size t) (pty_align t) items)
  | OpUnfinishedData => let+ r := quiet (w_unfinished b) in quiet (Val (b, OBytes (contents r)))
  | OpFinishedData =>
      let+ _ := quiet (assert_finished h b) in
      let+ r := quiet (w_unfinished b) in quiet (Val (b, OBytes (contents r)))
  | OpRequired tab slot => let+ _ := w_required h b tab slot in quiet (Val (b, ONone))
  | OpFinish root ident sp => w_none (w_finish_with_opts h b root ident sp)
  end.
Fixpoint w_run (h : host) (b : builder) (os : list op) : traced (builder * list obs) :=
  match os with
  | [] => quiet (Val (b, []))
  | o :: os =>
      let+ (b, x) := w_step h b o in
      let+ (b, xs) := w_run h b os in
      quiet (Val (b, x :: xs))
  end.
Definition w_program (h : host) (capacity : Z) (os : list op) : traced (builder * list obs) :=
  let+ b := quiet (new_with_capacity capacity) in w_run h b os.

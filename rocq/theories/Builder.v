(** Model of butte/src/builder.rs, butte/src/vtable_writer.rs and the offset
    [Push] impl of butte/src/primitives.rs. *)
From Coq Require Import ZArith List Bool Strings.Byte.
From Verif Require Import Base Scalar Reader.
Import ListNotations.
Local Open Scope Z_scope.

(** builder.rs:29-33 ([FieldLoc]: [off] is a u32, [id] a u16). *)
Record field_loc := FieldLoc { fl_off : Z; fl_id : Z }.

(** builder.rs:42-55. *)
Record builder := Builder {
  owned_buf : list byte;
  head : Z;
  field_locs : list field_loc;
  written_vtable_revpos : list Z;
  nested : bool;
  finished : bool;
  min_align : Z
}.

Definition set_buf (b : builder) (buf : list byte) (hd : Z) : builder :=
  Builder buf hd (field_locs b) (written_vtable_revpos b) (nested b) (finished b) (min_align b).
Definition set_field_locs (b : builder) (l : list field_loc) : builder :=
  Builder (owned_buf b) (head b) l (written_vtable_revpos b) (nested b) (finished b) (min_align b).
Definition set_revpos (b : builder) (l : list Z) : builder :=
  Builder (owned_buf b) (head b) (field_locs b) l (nested b) (finished b) (min_align b).
Definition set_nested (b : builder) (n : bool) : builder :=
  Builder (owned_buf b) (head b) (field_locs b) (written_vtable_revpos b) n (finished b) (min_align b).
Definition set_finished (b : builder) (f : bool) : builder :=
  Builder (owned_buf b) (head b) (field_locs b) (written_vtable_revpos b) (nested b) f (min_align b).
Definition set_min_align (b : builder) (m : Z) : builder :=
  Builder (owned_buf b) (head b) (field_locs b) (written_vtable_revpos b) (nested b) (finished b) m.

(** The values with a [Push] impl that client code can construct: scalars
    (push.rs:59-82), generated enums (codegen.rs:1009-1017, which store the base
    scalar) and offsets (primitives.rs:135-143). *)
Inductive pval :=
| PScalar (t : sty) (v : Z)
| POffset (o : Z).

(** [P::size()] and [P::alignment()]: push.rs:31-37; the [Output] of a
    [WIPOffset] is a [ForwardsUOffset], 4 bytes aligned to 4. *)
Definition push_size (p : pval) : Z :=
  match p with PScalar t _ => ssize t | POffset _ => 4 end.
Definition push_alignment (p : pval) : Z :=
  match p with PScalar t _ => salign t | POffset _ => 4 end.

(** [Push::push(&self, dst, rest)]: push.rs:65-67, primitives.rs:139-142.
    Returns the new contents of [dst]. *)
Definition push_into (h : host) (p : pval) (dst rest : list byte) : outcome (list byte) :=
  match p with
  | PScalar t v => emplace_scalar h t dst v
  | POffset o =>
      let* n := usize_arith h (SIZE_UOFFSET + blen rest - o) in
      emplace_scalar h TU32 dst (as_u32 n)
  end.

(** [PartialEq] on pushable values: scalars, and primitives.rs:99-103. *)
Definition pval_eq (a b : pval) : bool :=
  match a, b with
  | PScalar t x, PScalar _ y => scalar_eq t x y
  | POffset x, POffset y => x =? y
  | _, _ => false
  end.

(** builder.rs:67-89; always-on assertion. *)
Definition new_with_capacity (size : Z) : outcome builder :=
  let* _ := assert_always (size <=? MAX_BUFFER_SIZE) in
  Val (Builder (zeros size) size [] [] false false 0).

(** builder.rs:389-391.  [head <= len] always holds (theorem
    [run_invariant]), so the subtraction is not checked here. *)
Definition used_space (b : builder) : Z := blen (owned_buf b) - head b.

(** builder.rs:331-333: [&owned_buf[head..]]. *)
Definition unfinished_data (b : builder) : list byte :=
  skipn (Z.to_nat (head b)) (owned_buf b).

(** builder.rs:102-119.  [field_locs] is not cleared. *)
Definition reset (b : builder) : builder :=
  Builder (firstn (Z.to_nat (head b)) (owned_buf b) ++ zeros (used_space b))
          (blen (owned_buf b)) (field_locs b) [] false false 0.

(** builder.rs:653-675. *)
Definition assert_nested (h : host) (b : builder) := debug_assert h (nested b).
Definition assert_not_nested (h : host) (b : builder) := debug_assert h (negb (nested b)).
Definition assert_finished (h : host) (b : builder) := debug_assert h (finished b).
Definition assert_not_finished (h : host) (b : builder) := debug_assert h (negb (finished b)).

(** builder.rs:527-559.  [Vec::resize] panics beyond [isize::MAX] bytes;
    exhaustion of memory is not modelled. *)
Definition grow_owned_buf (h : host) (b : builder) : outcome builder :=
  let old_len := blen (owned_buf b) in
  let* dbl := usize_arith h (old_len * 2) in
  let new_len := Z.max 1 dbl in
  let* diff := usize_arith h (new_len - old_len) in
  let* _ := assert_always (new_len <? 2 ^ 63) in
  let resized := firstn (Z.to_nat new_len) (owned_buf b ++ zeros diff) in
  let* hd := usize_arith h (head b + diff) in
  let* _ := debug_assert h (used_space b =? blen resized - hd) in
  if new_len =? 1 then Val (set_buf b resized hd)
  else
    let middle := new_len / 2 in
    let left := firstn (Z.to_nat middle) resized in
    let* copied := write_range resized middle (blen resized) left in
    Val (set_buf b (zeros middle ++ skipn (Z.to_nat middle) copied) hd).

(** builder.rs:644-646, the [while] loop; [fuel] bounds the number of
    doublings and is never exhausted (lemma [grow_loop_fuel]). *)
Fixpoint grow_loop (h : host) (fuel : nat) (b : builder) (want : Z) : outcome builder :=
  if want <=? head b then Val b
  else
    match fuel with
    | O => Panic
    | S f => let* b := grow_owned_buf h b in grow_loop h f b want
    end.

(** builder.rs:635-648. *)
Definition ensure_capacity (h : host) (b : builder) (want : Z) : outcome builder :=
  if want <=? head b then Val b
  else
    let* _ := assert_always (want <=? MAX_BUFFER_SIZE) in
    grow_loop h 100 b want.

(** builder.rs:628-632. *)
Definition make_space (h : host) (b : builder) (want : Z) : outcome builder :=
  let* b := ensure_capacity h b want in
  Val (set_buf b (owned_buf b) (head b - want)).

(** builder.rs:690-693: [(!buf_size).wrapping_add(1) & scalar_size.wrapping_sub(1)]. *)
Definition padding_bytes (buf_size scalar_size : Z) : Z :=
  Z.land (((2 ^ 64 - 1 - buf_size) + 1) mod 2 ^ 64) ((scalar_size - 1) mod 2 ^ 64).

(** builder.rs:608-617. *)
Definition align (h : host) (b : builder) (len alignment : Z) : outcome builder :=
  let b := set_min_align b (Z.max (min_align b) alignment) in
  let* n := usize_arith h (used_space b + len) in
  make_space h b (padding_bytes n alignment).

(** builder.rs:132-141. *)
Definition push (h : host) (b : builder) (x : pval) : outcome (builder * Z) :=
  let sz := push_size x in
  let* b := align h b sz (push_alignment x) in
  let* b := make_space h b sz in
  let d := unfinished_data b in
  let* _ := assert_always (sz <=? blen d) in
  let* dst := push_into h x (firstn (Z.to_nat sz) d) (skipn (Z.to_nat sz) d) in
  let b := set_buf b (set_range (owned_buf b) (head b) dst) (head b) in
  Val (b, as_u32 (used_space b)).

(** builder.rs:619-625 (the returned index is never used). *)
Definition push_bytes_unprefixed (h : host) (b : builder) (x : list byte) : outcome builder :=
  let* b := make_space h b (blen x) in
  let n := head b in
  let* e := usize_arith h (n + blen x) in
  let* buf := write_range (owned_buf b) n e x in
  Val (set_buf b buf n).

(** builder.rs:394-397. *)
Definition track_field (b : builder) (slot off : Z) : builder :=
  set_field_locs b (field_locs b ++ [FieldLoc off slot]).

(** builder.rs:158-162. *)
Definition push_slot_always (h : host) (b : builder) (slot : Z) (x : pval) : outcome builder :=
  let* _ := assert_nested h b in
  let* (b, off) := push h b x in
  Val (track_field b slot off).

(** builder.rs:147-153. *)
Definition push_slot (h : host) (b : builder) (slot : Z) (x default : pval) : outcome builder :=
  let* _ := assert_nested h b in
  if pval_eq x default then Val b
  else push_slot_always h b slot x.

(** builder.rs:167-169. *)
Definition num_written_vtables (b : builder) : Z := blen (written_vtable_revpos b).

(** builder.rs:177-184. *)
Definition start_table (h : host) (b : builder) : outcome (builder * Z) :=
  let* _ := assert_not_nested h b in
  let b := set_nested b true in
  Val (b, as_u32 (used_space b)).

(** builder.rs:681-687. *)
Definition get_vtable_byte_len (l : list field_loc) : Z :=
  match l with
  | [] => 4
  | _ => fold_right Z.max 0 (map fl_id l) + SIZE_VOFFSET
  end.

(** vtable_writer.rs:45-48. *)
Definition vtw_write_byte_length (h : host) (vt : list byte) (n : Z) : outcome (list byte) :=
  let* d := index_range vt 0 SIZE_VOFFSET in
  let* x := emplace_scalar h TU16 d n in
  let vt := set_range vt 0 x in
  let* _ := debug_assert h (n =? blen vt) in
  Val vt.
(** vtable_writer.rs:52-54. *)
Definition vtw_write_object_inline_size (h : host) (vt : list byte) (n : Z) : outcome (list byte) :=
  let* d := index_range vt SIZE_VOFFSET (2 * SIZE_VOFFSET) in
  let* x := emplace_scalar h TU16 d n in
  Val (set_range vt SIZE_VOFFSET x).
(** vtable_writer.rs:61-64. *)
Definition vtw_get_field_offset (h : host) (vt : list byte) (idx : Z) : outcome Z :=
  expect (read_scalar_at h TU16 vt idx).
(** vtable_writer.rs:71-74. *)
Definition vtw_write_field_offset (h : host) (vt : list byte) (idx pos : Z) : outcome (list byte) :=
  let* d := index_range vt idx (idx + SIZE_VOFFSET) in
  let* x := emplace_scalar h TU16 d pos in
  Val (set_range vt idx x).

(** builder.rs:459-468: the loop over [field_locs]; [obj] is the table's
    reverse location. *)
Fixpoint write_fields (h : host) (vt : list byte) (obj : Z) (l : list field_loc)
  : outcome (list byte) :=
  match l with
  | [] => Val vt
  | fl :: l =>
      let* d := u32_arith h (obj - fl_off fl) in
      let pos := as_u16 d in
      let* _ :=
        (if debug h then
           let* old := vtw_get_field_offset h vt (fl_id fl) in debug_assert h (old =? 0)
         else Val tt) in
      let* vt := vtw_write_field_offset h vt (fl_id fl) pos in
      write_fields h vt obj l
  end.

(** vtable.rs:28-32: equality of the two [Result]s. *)
Definition vt_eq (h : host) (buf : list byte) (a b : Z) : outcome bool :=
  match vt_as_bytes h buf a, vt_as_bytes h buf b with
  | Panic, _ | _, Panic => Panic
  | Val x, Val y => Val (bytes_eqb x y)
  | Err OutOfBounds, Err OutOfBounds => Val true
  | _, _ => Val false
  end.

(** builder.rs:512-523, on the reversed list. *)
Fixpoint find_dup (h : host) (buf : list byte) (needle : Z) (l : list Z) : outcome (option Z) :=
  match l with
  | [] => Val None
  | r :: l =>
      let* o := usize_arith h (blen buf - r) in
      let* e := vt_eq h buf needle o in
      if e then Val (Some r) else find_dup h buf needle l
  end.

(** builder.rs:400-509. *)
Definition write_vtable (h : host) (b : builder) (tail : Z) : outcome (builder * Z) :=
  let* _ := assert_nested h b in
  let* (b, obj) := push h b (PScalar TU32 0xF0F0F0F0) in
  let vlen := get_vtable_byte_len (field_locs b) in
  let* b := make_space h b vlen in
  let* size := u32_arith h (obj - tail) in
  let* _ := debug_assert h (size <? 0x10000) in
  let vt_start := head b in
  let* vt_end := usize_arith h (head b + vlen) in
  let* vt := index_range (owned_buf b) vt_start vt_end in
  let* vt := vtw_write_byte_length h vt (as_u16 vlen) in
  let* vt := vtw_write_object_inline_size h vt (as_u16 size) in
  let* vt := write_fields h vt obj (field_locs b) in
  let b := set_buf b (set_range (owned_buf b) vt_start vt) (head b) in
  let* dup := find_dup h (owned_buf b) (head b) (rev (written_vtable_revpos b)) in
  let* (b, vt_use) :=
    match dup with
    | Some n =>
        let* _ := index_range (owned_buf b) vt_start vt_end in
        let buf := set_range (owned_buf b) vt_start (zeros (vt_end - vt_start)) in
        let* hd := usize_arith h (head b + vlen) in
        Val (set_buf b buf hd, n)
    | None =>
        let n := as_u32 (used_space b) in
        Val (set_revpos b (written_vtable_revpos b ++ [n]), n)
    end in
  let* n := usize_arith h (head b + used_space b - obj) in
  let* saw := expect (read_scalar_at h TU32 (owned_buf b) n) in
  let* _ := debug_assert h (saw =? 0xF0F0F0F0) in
  let* d := i32_arith h (as_i32 vt_use - as_i32 obj) in
  let* e := usize_arith h (n + SIZE_SOFFSET) in
  let* dst := index_range (owned_buf b) n e in
  let* x := emplace_scalar h TI32 dst d in
  let b := set_buf b (set_range (owned_buf b) n x) (head b) in
  Val (set_field_locs b [], obj).

(** builder.rs:190-202. *)
Definition end_table (h : host) (b : builder) (off : Z) : outcome (builder * Z) :=
  let* _ := assert_nested h b in
  let* (b, o) := write_vtable h b off in
  Val (set_field_locs (set_nested b false) [], o).

(** builder.rs:212-218; [sz] and [al] are [T::size()] and [T::alignment()]. *)
Definition start_vector (h : host) (b : builder) (sz al num_items : Z) : outcome builder :=
  let* _ := assert_not_nested h b in
  let b := set_nested b true in
  let* n := usize_arith h (num_items * sz) in
  align h b n (Z.max al SIZE_UOFFSET).

(** builder.rs:227-232. *)
Definition end_vector (h : host) (b : builder) (num_elems : Z) : outcome (builder * Z) :=
  let* _ := assert_nested h b in
  let b := set_nested b false in
  push h b (PScalar TU32 (as_u32 num_elems)).

(** builder.rs:247-256. *)
Definition create_byte_string (h : host) (b : builder) (data : list byte) : outcome (builder * Z) :=
  let* _ := assert_not_nested h b in
  let* n := usize_arith h (blen data + 1) in
  let* b := align h b n SIZE_UOFFSET in
  let* (b, _) := push h b (PScalar TU8 0) in
  let* b := push_bytes_unprefixed h b data in
  let* (b, _) := push h b (PScalar TU32 (as_u32 (blen data))) in
  Val (b, as_u32 (used_space b)).

(** builder.rs:238-243. *)
Definition create_string (h : host) (b : builder) (s : list byte) : outcome (builder * Z) :=
  let* _ := assert_not_nested h b in
  create_byte_string h b s.

(** The memory of a [&[T]] slice. *)
Definition slice_memory (h : host) (t : sty) (items : list Z) : list byte :=
  flat_map (fun v => store h (snat t) (bits_of t v)) items.

(** builder.rs:265-283. *)
Definition create_vector_direct (h : host) (b : builder) (t : sty) (items : list Z)
  : outcome (builder * Z) :=
  let* _ := assert_not_nested h b in
  let* n := usize_arith h (blen items * ssize t) in
  let* b := align h b n (Z.max (salign t) SIZE_UOFFSET) in
  let* b := push_bytes_unprefixed h b (slice_memory h t items) in
  let* (b, _) := push h b (PScalar TU32 (as_u32 (blen items))) in
  Val (b, as_u32 (used_space b)).

(** builder.rs:322-324: the loop of [create_vector], on the reversed items. *)
Fixpoint push_all (h : host) (b : builder) (l : list pval) : outcome builder :=
  match l with
  | [] => Val b
  | x :: l => let* (b, _) := push h b x in push_all h b l
  end.

(** builder.rs:316-326; [sz], [al] are [T::size()], [T::alignment()]. *)
Definition create_vector (h : host) (b : builder) (sz al : Z) (items : list pval)
  : outcome (builder * Z) :=
  let* n := usize_arith h (blen items * sz) in
  let* b := align h b n (Z.max al SIZE_UOFFSET) in
  let* b := push_all h b (rev items) in
  push h b (PScalar TU32 (as_u32 (blen items))).

(** builder.rs:304-307: strings created last to first; the offsets are returned
    first to last. *)
Fixpoint create_strings_rev (h : host) (b : builder) (l : list (list byte)) (acc : list Z)
  : outcome (builder * list Z) :=
  match l with
  | [] => Val (b, acc)
  | s :: l => let* (b, o) := create_string h b s in create_strings_rev h b l (o :: acc)
  end.

(** builder.rs:290-309. *)
Definition create_vector_of_strings (h : host) (b : builder) (xs : list (list byte))
  : outcome (builder * Z) :=
  let* _ := assert_not_nested h b in
  let* (b, offs) := create_strings_rev h b (rev xs) [] in
  create_vector h b 4 4 (map POffset offs).

(** builder.rs:337-340. *)
Definition finished_data (h : host) (b : builder) : outcome (list byte) :=
  let* _ := assert_finished h b in
  Val (unfinished_data b).

(** builder.rs:345-361. *)
Definition required (h : host) (b : builder) (tab slot : Z) : outcome unit :=
  let* idx := usize_arith h (used_space b - tab) in
  let* vt := expect (table_vtable h (unfinished_data b) idx) in
  let* vo := expect (vt_get h (unfinished_data b) vt slot) in
  let* o := expect_some vo in
  assert_always (negb (o =? 0)).

(** builder.rs:562-605; 367-386 are the three public variants. *)
Definition finish_with_opts (h : host) (b : builder) (root : Z) (ident : option (list byte))
    (size_prefixed : bool) : outcome builder :=
  let* _ := assert_not_finished h b in
  let* _ := assert_not_nested h b in
  let b := set_revpos b [] in
  let to_align := SIZE_UOFFSET + (if size_prefixed then SIZE_UOFFSET else 0)
                  + (if ident then FILE_IDENTIFIER_LENGTH else 0) in
  let* b := align h b to_align (min_align b) in
  let* b :=
    match ident with
    | Some i =>
        let* _ := debug_assert h (blen i =? FILE_IDENTIFIER_LENGTH) in
        push_bytes_unprefixed h b i
    | None => Val b
    end in
  let* (b, _) := push h b (POffset root) in
  let* b :=
    (if size_prefixed then
       let* (b, _) := push h b (PScalar TU32 (as_u32 (used_space b))) in Val b
     else Val b) in
  Val (set_finished b true).

(** An abstract builder: only the bytes written so far (front first) and the
    flags, no buffer, no capacity.  Used as the intermediate step of the
    builder proofs; [lim = true] refuses what a real buffer may refuse
    (requests beyond 2 GiB), [lim = false] refuses only what it must. *)
From Coq Require Import ZArith List Bool Strings.Byte.
From Verif Require Import Base Scalar Reader Builder Ops.
Import ListNotations.
Local Open Scope Z_scope.

Record astate := AState {
  a_data : list byte;
  a_fields : list field_loc;
  a_vts : list Z;
  a_nested : bool;
  a_fin : bool;
  a_align : Z
}.

Definition view (b : builder) : astate :=
  AState (unfinished_data b) (field_locs b) (written_vtable_revpos b) (nested b) (finished b) (min_align b).

Definition a_new : astate := AState [] [] [] false false 0.

Definition with_data (a : astate) (d : list byte) : astate :=
  AState d (a_fields a) (a_vts a) (a_nested a) (a_fin a) (a_align a).
Definition with_fields (a : astate) (l : list field_loc) : astate :=
  AState (a_data a) l (a_vts a) (a_nested a) (a_fin a) (a_align a).
Definition with_vts (a : astate) (l : list Z) : astate :=
  AState (a_data a) (a_fields a) l (a_nested a) (a_fin a) (a_align a).
Definition with_nested (a : astate) (n : bool) : astate :=
  AState (a_data a) (a_fields a) (a_vts a) n (a_fin a) (a_align a).
Definition with_fin (a : astate) (f : bool) : astate :=
  AState (a_data a) (a_fields a) (a_vts a) (a_nested a) f (a_align a).
Definition with_align (a : astate) (m : Z) : astate :=
  AState (a_data a) (a_fields a) (a_vts a) (a_nested a) (a_fin a) m.

Section Abs.
Context (lim : bool) (h : host).

Definition room (d : list byte) (want : Z) : outcome unit :=
  assert_always (if lim then (want <=? 2 ^ 31) && (blen d + want <=? 2 ^ 61)
                 else blen d + want <? 2 ^ 63).

Definition a_space (a : astate) (want : Z) : outcome astate :=
  let* _ := room (a_data a) want in
  Val (with_data a (zeros want ++ a_data a)).

Definition a_pad (a : astate) (len alignment : Z) : outcome astate :=
  let a := with_align a (Z.max (a_align a) alignment) in
  let* n := usize_arith h (blen (a_data a) + len) in
  a_space a (padding_bytes n alignment).

Definition a_push (a : astate) (x : pval) : outcome (astate * Z) :=
  let sz := push_size x in
  let* a := a_pad a sz (push_alignment x) in
  let* _ := room (a_data a) sz in
  let* w := push_into h x (zeros sz) (a_data a) in
  let a := with_data a (w ++ a_data a) in
  Val (a, as_u32 (blen (a_data a))).

Definition a_bytes (a : astate) (x : list byte) : outcome astate :=
  let* _ := room (a_data a) (blen x) in
  Val (with_data a (x ++ a_data a)).

Definition a_track (a : astate) (slot off : Z) : astate :=
  with_fields a (a_fields a ++ [FieldLoc off slot]).

Definition a_push_slot_always (a : astate) (slot : Z) (x : pval) : outcome astate :=
  let* _ := debug_assert h (a_nested a) in
  let* (a, off) := a_push a x in
  Val (a_track a slot off).

Definition a_push_slot (a : astate) (slot : Z) (x default : pval) : outcome astate :=
  let* _ := debug_assert h (a_nested a) in
  if pval_eq x default then Val a else a_push_slot_always a slot x.

Definition a_start_table (a : astate) : outcome (astate * Z) :=
  let* _ := debug_assert h (negb (a_nested a)) in
  let a := with_nested a true in
  Val (a, as_u32 (blen (a_data a))).

(** The bytes of the vtable. *)
Definition a_vtable (vlen size obj : Z) (fields : list field_loc) : outcome (list byte) :=
  let* vt := vtw_write_byte_length h (zeros vlen) (as_u16 vlen) in
  let* vt := vtw_write_object_inline_size h vt (as_u16 size) in
  write_fields h vt obj fields.

Definition a_write_vtable (a : astate) (tail : Z) : outcome (astate * Z) :=
  let* _ := debug_assert h (a_nested a) in
  let* (a, obj) := a_push a (PScalar TU32 0xF0F0F0F0) in
  let vlen := get_vtable_byte_len (a_fields a) in
  let* _ := room (a_data a) vlen in
  let* size := u32_arith h (obj - tail) in
  let* _ := debug_assert h (size <? 0x10000) in
  let* vt := a_vtable vlen size obj (a_fields a) in
  let* dup := find_dup h (vt ++ a_data a) 0 (rev (a_vts a)) in
  let (a, vt_use) :=
    match dup with
    | Some n => (a, n)
    | None =>
        let d := vt ++ a_data a in
        let n := as_u32 (blen d) in
        (with_vts (with_data a d) (a_vts a ++ [n]), n)
    end in
  let d := a_data a in
  let n := blen d - obj in
  let* saw := expect (read_scalar_at h TU32 d n) in
  let* _ := debug_assert h (saw =? 0xF0F0F0F0) in
  let* diff := i32_arith h (as_i32 vt_use - as_i32 obj) in
  let* dst := index_range d n (n + SIZE_SOFFSET) in
  let* x := emplace_scalar h TI32 dst diff in
  Val (with_fields (with_data a (set_range d n x)) [], obj).

Definition a_end_table (a : astate) (off : Z) : outcome (astate * Z) :=
  let* _ := debug_assert h (a_nested a) in
  let* (a, o) := a_write_vtable a off in
  Val (with_fields (with_nested a false) [], o).

Definition a_start_vector (a : astate) (sz al num_items : Z) : outcome astate :=
  let* _ := debug_assert h (negb (a_nested a)) in
  let a := with_nested a true in
  let* n := usize_arith h (num_items * sz) in
  a_pad a n (Z.max al SIZE_UOFFSET).

Definition a_end_vector (a : astate) (num_elems : Z) : outcome (astate * Z) :=
  let* _ := debug_assert h (a_nested a) in
  a_push (with_nested a false) (PScalar TU32 (as_u32 num_elems)).

Definition a_create_byte_string (a : astate) (data : list byte) : outcome (astate * Z) :=
  let* _ := debug_assert h (negb (a_nested a)) in
  let* n := usize_arith h (blen data + 1) in
  let* a := a_pad a n SIZE_UOFFSET in
  let* (a, _) := a_push a (PScalar TU8 0) in
  let* a := a_bytes a data in
  let* (a, _) := a_push a (PScalar TU32 (as_u32 (blen data))) in
  Val (a, as_u32 (blen (a_data a))).

Definition a_create_string (a : astate) (s : list byte) : outcome (astate * Z) :=
  let* _ := debug_assert h (negb (a_nested a)) in
  a_create_byte_string a s.

Definition a_create_vector_direct (a : astate) (t : sty) (items : list Z) : outcome (astate * Z) :=
  let* _ := debug_assert h (negb (a_nested a)) in
  let* n := usize_arith h (blen items * ssize t) in
  let* a := a_pad a n (Z.max (salign t) SIZE_UOFFSET) in
  let* a := a_bytes a (slice_memory h t items) in
  let* (a, _) := a_push a (PScalar TU32 (as_u32 (blen items))) in
  Val (a, as_u32 (blen (a_data a))).

Fixpoint a_push_all (a : astate) (l : list pval) : outcome astate :=
  match l with
  | [] => Val a
  | x :: l => let* (a, _) := a_push a x in a_push_all a l
  end.

Definition a_create_vector (a : astate) (sz al : Z) (items : list pval) : outcome (astate * Z) :=
  let* n := usize_arith h (blen items * sz) in
  let* a := a_pad a n (Z.max al SIZE_UOFFSET) in
  let* a := a_push_all a (rev items) in
  a_push a (PScalar TU32 (as_u32 (blen items))).

Fixpoint a_create_strings_rev (a : astate) (l : list (list byte)) (acc : list Z)
  : outcome (astate * list Z) :=
  match l with
  | [] => Val (a, acc)
  | s :: l => let* (a, o) := a_create_string a s in a_create_strings_rev a l (o :: acc)
  end.

Definition a_create_vector_of_strings (a : astate) (xs : list (list byte)) : outcome (astate * Z) :=
  let* _ := debug_assert h (negb (a_nested a)) in
  let* (a, offs) := a_create_strings_rev a (rev xs) [] in
  a_create_vector a 4 4 (map POffset offs).

Definition a_required (a : astate) (tab slot : Z) : outcome unit :=
  let* idx := usize_arith h (blen (a_data a) - tab) in
  let* vt := expect (table_vtable h (a_data a) idx) in
  let* vo := expect (vt_get h (a_data a) vt slot) in
  let* o := expect_some vo in
  assert_always (negb (o =? 0)).

Definition a_finish (a : astate) (root : Z) (ident : option (list byte)) (size_prefixed : bool)
  : outcome astate :=
  let* _ := debug_assert h (negb (a_fin a)) in
  let* _ := debug_assert h (negb (a_nested a)) in
  let a := with_vts a [] in
  let to_align := SIZE_UOFFSET + (if size_prefixed then SIZE_UOFFSET else 0)
                  + (if ident then FILE_IDENTIFIER_LENGTH else 0) in
  let* a := a_pad a to_align (a_align a) in
  let* a :=
    match ident with
    | Some i =>
        let* _ := debug_assert h (blen i =? FILE_IDENTIFIER_LENGTH) in
        a_bytes a i
    | None => Val a
    end in
  let* (a, _) := a_push a (POffset root) in
  let* a :=
    (if size_prefixed then
       let* (a, _) := a_push a (PScalar TU32 (as_u32 (blen (a_data a)))) in Val a
     else Val a) in
  Val (with_fin a true).

Definition a_num (x : outcome (astate * Z)) : outcome (astate * obs) :=
  let* (b, n) := x in Val (b, ONum n).
Definition a_unit (x : outcome astate) : outcome (astate * obs) :=
  let* b := x in Val (b, ONone).

Definition a_step (a : astate) (o : op) : outcome (astate * obs) :=
  match o with
  | OpReset => Val (AState [] (a_fields a) [] false false 0, ONone)
  | OpPush x => a_num (a_push a x)
  | OpPushSlot s x d => a_unit (a_push_slot a s x d)
  | OpPushSlotAlways s x => a_unit (a_push_slot_always a s x)
  | OpNumVtables => Val (a, ONum (blen (a_vts a)))
  | OpStartTable => a_num (a_start_table a)
  | OpEndTable off => a_num (a_end_table a off)
  | OpStartVector t n => a_unit (a_start_vector a (pty_size t) (pty_align t) n)
  | OpEndVector n => a_num (a_end_vector a n)
  | OpCreateString s => a_num (a_create_string a s)
  | OpCreateByteString s => a_num (a_create_byte_string a s)
  | OpCreateVectorDirect t items => a_num (a_create_vector_direct a t items)
  | OpCreateVectorOfStrings xs => a_num (a_create_vector_of_strings a xs)
  | OpCreateVector t items => a_num (a_create_vector a (pty_size t) (pty_align t) items)
  | OpUnfinishedData => Val (a, OBytes (a_data a))
  | OpFinishedData => let* _ := debug_assert h (a_fin a) in Val (a, OBytes (a_data a))
  | OpRequired tab slot => let* _ := a_required a tab slot in Val (a, ONone)
  | OpFinish root ident sp => a_unit (a_finish a root ident sp)
  end.

Fixpoint a_run (a : astate) (os : list op) : outcome (astate * list obs) :=
  match os with
  | [] => Val (a, [])
  | o :: os =>
      let* (a, x) := a_step a o in
      let* (a, xs) := a_run a os in
      Val (a, x :: xs)
  end.
End Abs.

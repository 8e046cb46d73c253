(** Programs over the builder API: any sequence of public calls with any
    arguments.  This is how the builder properties quantify over histories. *)
From Coq Require Import ZArith List Bool Strings.Byte.
From Verif Require Import Base Scalar Reader Builder.
Import ListNotations.
Local Open Scope Z_scope.

(** A pushable type: a scalar type or an offset. *)
Inductive pty := PTScalar (t : sty) | PTOffset.
Definition pty_of (p : pval) : pty :=
  match p with PScalar t _ => PTScalar t | POffset _ => PTOffset end.
(** [T::size()], [T::alignment()]: push.rs:31-37. *)
Definition pty_size (t : pty) : Z := match t with PTScalar t => ssize t | PTOffset => 4 end.
Definition pty_align (t : pty) : Z := match t with PTScalar t => salign t | PTOffset => 4 end.

(** The public methods of [FlatBufferBuilder], builder.rs:57-386. *)
Inductive op :=
| OpReset
| OpPush (x : pval)
| OpPushSlot (slot : Z) (x default : pval)
| OpPushSlotAlways (slot : Z) (x : pval)
| OpNumVtables
| OpStartTable
| OpEndTable (start : Z)
| OpStartVector (t : pty) (num_items : Z)
| OpEndVector (num_elems : Z)
| OpCreateString (s : list byte)
| OpCreateByteString (s : list byte)
| OpCreateVectorDirect (t : sty) (items : list Z)
| OpCreateVectorOfStrings (xs : list (list byte))
| OpCreateVector (t : pty) (items : list pval)
| OpUnfinishedData
| OpFinishedData
| OpRequired (tab slot : Z)
| OpFinish (root : Z) (ident : option (list byte)) (size_prefixed : bool).

(** What a call returns. *)
Inductive obs := ONone | ONum (n : Z) | OBytes (s : list byte).

Definition with_num (x : outcome (builder * Z)) : outcome (builder * obs) :=
  let* (b, n) := x in Val (b, ONum n).
Definition without (x : outcome builder) : outcome (builder * obs) :=
  let* b := x in Val (b, ONone).

Definition step (h : host) (b : builder) (o : op) : outcome (builder * obs) :=
  match o with
  | OpReset => Val (reset b, ONone)
  | OpPush x => with_num (push h b x)
  | OpPushSlot s x d => without (push_slot h b s x d)
  | OpPushSlotAlways s x => without (push_slot_always h b s x)
  | OpNumVtables => Val (b, ONum (num_written_vtables b))
  | OpStartTable => with_num (start_table h b)
  | OpEndTable off => with_num (end_table h b off)
  | OpStartVector t n => without (start_vector h b (pty_size t) (pty_align t) n)
  | OpEndVector n => with_num (end_vector h b n)
  | OpCreateString s => with_num (create_string h b s)
  | OpCreateByteString s => with_num (create_byte_string h b s)
  | OpCreateVectorDirect t items => with_num (create_vector_direct h b t items)
  | OpCreateVectorOfStrings xs => with_num (create_vector_of_strings h b xs)
  | OpCreateVector t items => with_num (create_vector h b (pty_size t) (pty_align t) items)
  | OpUnfinishedData => Val (b, OBytes (unfinished_data b))
  | OpFinishedData => let* d := finished_data h b in Val (b, OBytes d)
  | OpRequired tab slot => let* _ := required h b tab slot in Val (b, ONone)
  | OpFinish root ident sp => without (finish_with_opts h b root ident sp)
  end.

(** A program returns the final builder and what every call returned; a panic
    ends it. *)
Fixpoint run (h : host) (b : builder) (os : list op) : outcome (builder * list obs) :=
  match os with
  | [] => Val (b, [])
  | o :: os =>
      let* (b, x) := step h b o in
      let* (b, xs) := run h b os in
      Val (b, x :: xs)
  end.

(** What Rust's types guarantee about arguments: values of the scalar types,
    [u32] offsets, [u16] slots, [usize] counts, slices shorter than 2^63 bytes,
    vectors of one element type, [PartialEq] between values of one type. *)
Definition pval_ok (p : pval) : bool :=
  match p with PScalar t v => valid_scalar t v | POffset o => (0 <=? o) && (o <? 2 ^ 32) end.
Definition pty_eqb (a b : pty) : bool :=
  match a, b with
  | PTOffset, PTOffset => true
  | PTScalar a, PTScalar b =>
      match a, b with
      | TBool, TBool | TU8, TU8 | TI8, TI8 | TU16, TU16 | TI16, TI16 | TU32, TU32 | TI32, TI32
      | TU64, TU64 | TI64, TI64 | TF32, TF32 | TF64, TF64 => true
      | _, _ => false
      end
  | _, _ => false
  end.
Definition u32_ok (z : Z) : bool := (0 <=? z) && (z <? 2 ^ 32).
Definition u16_ok (z : Z) : bool := (0 <=? z) && (z <? 2 ^ 16).
Definition op_ok (o : op) : bool :=
  match o with
  | OpPush x => pval_ok x
  | OpPushSlot s x d => u16_ok s && pval_ok x && pval_ok d && pty_eqb (pty_of x) (pty_of d)
  | OpPushSlotAlways s x => u16_ok s && pval_ok x
  | OpEndTable off => u32_ok off
  | OpStartVector _ n | OpEndVector n => (0 <=? n) && (n <? 2 ^ 64)
  | OpCreateString s | OpCreateByteString s => blen s <? 2 ^ 63
  | OpCreateVectorDirect t items =>
      (blen items * ssize t <? 2 ^ 63) && forallb (valid_scalar t) items
  | OpCreateVectorOfStrings xs =>
      (blen xs * 16 <? 2 ^ 63) && forallb (fun s => blen s <? 2 ^ 63) xs
  | OpCreateVector t items =>
      (blen items * pty_size t <? 2 ^ 63) &&
      forallb (fun x => pval_ok x && pty_eqb (pty_of x) t) items
  | OpRequired tab slot => u32_ok tab && u16_ok slot
  | OpFinish root ident _ =>
      u32_ok root && match ident with Some i => blen i <? 2 ^ 63 | None => true end
  | _ => true
  end.

(** A fresh builder and a program. *)
Definition program (h : host) (capacity : Z) (os : list op) : outcome (builder * list obs) :=
  let* b := new_with_capacity capacity in run h b os.

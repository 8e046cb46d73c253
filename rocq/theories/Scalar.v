(** Model of butte/src/endian_scalar.rs and the scalar part of
    butte/src/push.rs. *)
From Coq Require Import ZArith List Bool Strings.Byte.
From Verif Require Import Base.
Import ListNotations.
Local Open Scope Z_scope.

(** The types with an [EndianScalar] impl: endian_scalar.rs:73-136. *)
Inductive sty :=
| TBool | TU8 | TI8 | TU16 | TI16 | TU32 | TI32 | TU64 | TI64 | TF32 | TF64.

(** [size_of::<T>()], and [align_of::<T>()] on 64-bit targets: push.rs:31-37. *)
Definition ssize (t : sty) : Z :=
  match t with
  | TBool | TU8 | TI8 => 1
  | TU16 | TI16 => 2
  | TU32 | TI32 | TF32 => 4
  | TU64 | TI64 | TF64 => 8
  end.
Definition salign (t : sty) : Z := ssize t.

Definition signed (t : sty) : bool :=
  match t with TI8 | TI16 | TI32 | TI64 => true | _ => false end.

(** Values are [Z]: the number for integers, 0/1 for [bool], the IEEE bit
    pattern for floats. *)
Definition valid_scalar (t : sty) (v : Z) : bool :=
  match t with
  | TBool => (v =? 0) || (v =? 1)
  | _ =>
      if signed t
      then (- 2 ^ (8 * ssize t - 1) <=? v) && (v <? 2 ^ (8 * ssize t - 1))
      else (0 <=? v) && (v <? 2 ^ (8 * ssize t))
  end.

(** The bits of a value, and the value of bits ([*p] through [*const T]). *)
Definition bits_of (t : sty) (v : Z) : Z := v mod 2 ^ (8 * ssize t).
Definition of_bits (t : sty) (b : Z) : Z :=
  if signed t && (2 ^ (8 * ssize t - 1) <=? b) then b - 2 ^ (8 * ssize t) else b.

(** [swap_bytes] on [n]-byte bit patterns. *)
Definition swap_bytes (n : nat) (b : Z) : Z := le_decode (rev (le_encode n b)).

Definition snat (t : sty) : nat := Z.to_nat (ssize t).

(** [to_little_endian] / [from_little_endian] on bit patterns:
    endian_scalar.rs:39-52 (one-byte types, no-op), 58-71 (integers, [to_le] /
    [from_le]), 84-136 (floats, byte_swap_f32/f64 of lines 141-150). *)
Definition to_little_endian (h : host) (t : sty) (b : Z) : Z :=
  match t with
  | TBool | TU8 | TI8 => b
  | _ => if big_endian h then swap_bytes (snat t) b else b
  end.
Definition from_little_endian (h : host) (t : sty) (b : Z) : Z :=
  match t with
  | TBool | TU8 | TI8 => b
  | _ => if big_endian h then swap_bytes (snat t) b else b
  end.

(** How the host stores an [n]-byte pattern in memory. *)
Definition store (h : host) (n : nat) (b : Z) : list byte :=
  if big_endian h then rev (le_encode n b) else le_encode n b.
Definition load (h : host) (l : list byte) : Z :=
  if big_endian h then le_decode (rev l) else le_decode l.

(** endian_scalar.rs:155-162: [&mut s[..sz]] panics when short; then the value
    is stored through the pointer (an unaligned store is modelled as a plain
    one). *)
Definition emplace_scalar (h : host) (t : sty) (s : list byte) (x : Z)
  : outcome (list byte) :=
  write_range s 0 (ssize t)
    (store h (snat t) (to_little_endian h t (bits_of t x))).

(** endian_scalar.rs:175-182. *)
Definition read_scalar (h : host) (t : sty) (s : list byte) : outcome Z :=
  let* p := ok_or (get_range s 0 (ssize t)) OutOfBounds in
  Val (of_bits t (from_little_endian h t (load h p))).

(** endian_scalar.rs:167-170. *)
Definition read_scalar_at (h : host) (t : sty) (s : list byte) (loc : Z)
  : outcome Z :=
  let* e := usize_arith h (loc + ssize t) in
  let* buf := ok_or (get_range s loc e) OutOfBounds in
  read_scalar h t buf.

(** Rust's [==] on scalars: IEEE comparison for floats (NaN differs from
    everything, the two zeros are equal). *)
Definition is_nan (t : sty) (b : Z) : bool :=
  match t with
  | TF32 => 0x7f800000 <? b mod 2 ^ 31
  | TF64 => 0x7ff0000000000000 <? b mod 2 ^ 63
  | _ => false
  end.
Definition is_zero (t : sty) (b : Z) : bool :=
  match t with
  | TF32 => b mod 2 ^ 31 =? 0
  | TF64 => b mod 2 ^ 63 =? 0
  | _ => false
  end.
Definition scalar_eq (t : sty) (a b : Z) : bool :=
  if is_nan t a || is_nan t b then false
  else (a =? b) || (is_zero t a && is_zero t b).

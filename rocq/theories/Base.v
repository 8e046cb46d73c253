(** Machine-level vocabulary shared by the whole model: builds, outcomes,
    fixed-width arithmetic, byte strings and the little-endian codec.
    Models no file of /repo by itself; it fixes the meaning of the Rust
    primitives that the modelled code uses (64-bit [usize]). *)
From Coq Require Import ZArith List Bool Strings.Byte.
Import ListNotations.
Local Open Scope Z_scope.

(** What differs between two builds of the crate: overflow checks and
    [debug_assert!] ([debug]), and [cfg(target_endian)] ([big_endian]). *)
Record host := Host { debug : bool; big_endian : bool }.

(** butte/src/error.rs:5-20 ([RequiredFieldMissing] without its name). *)
Inductive error :=
| OutOfBounds
| NonUtf8String
| RequiredFieldMissing
| NonNullTerminatedString
| UnknownEnumVariant
| UnknownUnionVariant
| NoTypeDefaultValue.

(** Result of a Rust call: a value, an [Err], or a panic. *)
Inductive outcome (A : Type) :=
| Val (a : A)
| Err (e : error)
| Panic.
Arguments Val {A} a.
Arguments Err {A} e.
Arguments Panic {A}.

(** The [?] operator; a panic unwinds. *)
Definition bind {A B} (x : outcome A) (f : A -> outcome B) : outcome B :=
  match x with
  | Val a => f a
  | Err e => Err e
  | Panic => Panic
  end.

Notation "'let*' x ':=' m 'in' k" := (bind m (fun x => k))
  (at level 200, x pattern, m at level 100, k at level 200, right associativity).

(** [debug_assert!(b)]. *)
Definition debug_assert (h : host) (b : bool) : outcome unit :=
  if debug h && negb b then Panic else Val tt.

(** [assert!(b)]. *)
Definition assert_always (b : bool) : outcome unit :=
  if b then Val tt else Panic.

(** [Result::expect] / [Option::expect]. *)
Definition expect {A} (x : outcome A) : outcome A :=
  match x with Err _ => Panic | _ => x end.
Definition expect_some {A} (x : option A) : outcome A :=
  match x with Some a => Val a | None => Panic end.
(** [Option::ok_or]. *)
Definition ok_or {A} (x : option A) (e : error) : outcome A :=
  match x with Some a => Val a | None => Err e end.

(** [+ - *] on an unsigned type of [w] bits: [v] is the mathematical result. *)
Definition unsigned_arith (h : host) (w : Z) (v : Z) : outcome Z :=
  if (0 <=? v) && (v <? 2 ^ w) then Val v
  else if debug h then Panic else Val (v mod 2 ^ w).

Definition usize_arith h v := unsigned_arith h 64 v.
Definition u32_arith h v := unsigned_arith h 32 v.
Definition u16_arith h v := unsigned_arith h 16 v.

(** [as u32], [as u16], [as i32]; [i32 as usize] sign-extends. *)
Definition as_u32 (v : Z) : Z := v mod 2 ^ 32.
Definition as_u16 (v : Z) : Z := v mod 2 ^ 16.
Definition as_i32 (v : Z) : Z :=
  let m := v mod 2 ^ 32 in if m <? 2 ^ 31 then m else m - 2 ^ 32.
Definition i32_as_usize (v : Z) : Z := v mod 2 ^ 64.

(** [-] on [i32]. *)
Definition i32_arith (h : host) (v : Z) : outcome Z :=
  if (- 2 ^ 31 <=? v) && (v <? 2 ^ 31) then Val v
  else if debug h then Panic else Val (as_i32 v).

(** Byte strings. *)
Definition blen {A} (l : list A) : Z := Z.of_nat (length l).
Definition b2z (b : byte) : Z := Z.of_N (Byte.to_N b).
Definition z2b (z : Z) : byte :=
  match Byte.of_N (Z.to_N (z mod 256)) with Some b => b | None => x00 end.
Definition zeros (n : Z) : list byte := repeat x00 (Z.to_nat n).

(** [&l[a..b]] for [a <= b <= len]. *)
Definition slice {A} (l : list A) (a b : Z) : list A :=
  firstn (Z.to_nat (b - a)) (skipn (Z.to_nat a) l).

(** [l.get(a..b)]. *)
Definition get_range {A} (l : list A) (a b : Z) : option (list A) :=
  if (a <=? b) && (b <=? blen l) then Some (slice l a b) else None.

(** [l[i]] and [l[a..b]], which panic out of bounds. *)
Definition index {A} (l : list A) (i : Z) : outcome A :=
  if 0 <=? i then expect_some (nth_error l (Z.to_nat i)) else Panic.
Definition index_range {A} (l : list A) (a b : Z) : outcome (list A) :=
  expect_some (get_range l a b).

(** Overwrite [l[a .. a + len x]] by [x]; the caller has checked the range. *)
Definition set_range {A} (l : list A) (a : Z) (x : list A) : list A :=
  firstn (Z.to_nat a) l ++ x ++ skipn (Z.to_nat (a + blen x)) l.

(** [l[a..b].copy_from_slice(x)], or writing [x] through the slice [l[a..b]]. *)
Definition write_range {A} (l : list A) (a b : Z) (x : list A) : outcome (list A) :=
  if (a <=? b) && (b <=? blen l) && (blen x =? b - a)
  then Val (set_range l a x) else Panic.

(** Little-endian codec on [n] bytes. *)
Fixpoint le_encode (n : nat) (v : Z) : list byte :=
  match n with
  | O => []
  | S n => z2b v :: le_encode n (v / 256)
  end.
Fixpoint le_decode (l : list byte) : Z :=
  match l with
  | [] => 0
  | b :: l => b2z b + 256 * le_decode l
  end.

Definition byte_eqb (a b : byte) : bool := Byte.eqb a b.
Fixpoint bytes_eqb (a b : list byte) : bool :=
  match a, b with
  | [], [] => true
  | x :: a, y :: b => byte_eqb x y && bytes_eqb a b
  | _, _ => false
  end.

(** Specification vocabulary for byte strings, independent of the codec and of
    the slicing functions of the model: it only uses [nth_error] and integer
    division. *)
From Coq Require Import ZArith List Bool Strings.Byte.
From Verif Require Import Base.
Import ListNotations.
Local Open Scope Z_scope.

(** Byte number [i] of the number [n]. *)
Definition digit256 (n : Z) (i : nat) : Z := (n / 256 ^ Z.of_nat i) mod 256.

(** The [k] bytes of [buf] from position [loc] are the little-endian form of
    the number [n], [0 <= n < 256^k]. *)
Definition le_at (buf : list byte) (loc : Z) (k : nat) (n : Z) : Prop :=
  0 <= loc /\ 0 <= n < 256 ^ Z.of_nat k /\
  forall i, (i < k)%nat ->
    exists b, nth_error buf (Z.to_nat loc + i) = Some b /\ b2z b = digit256 n i.

(** The bytes [s] stand in [buf] from position [loc]. *)
Definition bytes_at (buf : list byte) (loc : Z) (s : list byte) : Prop :=
  0 <= loc /\
  forall i, (i < length s)%nat -> nth_error buf (Z.to_nat loc + i) = nth_error s i.

(** A zero-terminated, length-prefixed string [s] stands at [loc]. *)
Definition string_at (buf : list byte) (loc : Z) (s : list byte) : Prop :=
  le_at buf loc 4 (blen s) /\ bytes_at buf (loc + 4) s /\
  nth_error buf (Z.to_nat (loc + 4 + blen s)) = Some x00.

(** A double-ended queue: the specification of iteration from both ends. *)
Definition dq_next {A} (l : list A) : option A * list A :=
  match l with [] => (None, []) | x :: l => (Some x, l) end.
Definition dq_next_back {A} (l : list A) : option A * list A :=
  match rev l with [] => (None, []) | x :: r => (Some x, rev r) end.
Definition dq_nth {A} (n : Z) (l : list A) : option A * list A :=
  dq_next (skipn (Z.to_nat n) l).
Definition dq_nth_back {A} (n : Z) (l : list A) : option A * list A :=
  dq_next_back (firstn (length l - Z.to_nat n) l).

(** A sequence of deque operations, and what it returns. *)
Inductive dqcall := DNext | DNextBack | DNth (n : Z) | DNthBack (n : Z).
Definition dq_call {A} (c : dqcall) (l : list A) : option A * list A :=
  match c with
  | DNext => dq_next l
  | DNextBack => dq_next_back l
  | DNth n => dq_nth n l
  | DNthBack n => dq_nth_back n l
  end.
Fixpoint dq_calls {A} (cs : list dqcall) (l : list A) : list (option A) * list A :=
  match cs with
  | [] => ([], l)
  | c :: cs =>
      let (x, l) := dq_call c l in
      let (xs, l) := dq_calls cs l in (x :: xs, l)
  end.

(** The numbers [a .. a+n-1]. *)
Fixpoint zseq (a : Z) (n : nat) : list Z :=
  match n with O => [] | S n => a :: zseq (a + 1) n end.

(** UTF-8 from the Unicode standard: the encoding of a code point, and the
    byte strings that are the encoding of some text (a list of code points
    without surrogates). *)
Definition code_point (c : Z) : Prop := 0 <= c <= 0x10FFFF /\ ~ (0xD800 <= c <= 0xDFFF).
Definition utf8_encode (c : Z) : list byte :=
  if c <? 0x80 then [z2b c]
  else if c <? 0x800 then [z2b (0xC0 + c / 64); z2b (0x80 + c mod 64)]
  else if c <? 0x10000 then
    [z2b (0xE0 + c / 4096); z2b (0x80 + c / 64 mod 64); z2b (0x80 + c mod 64)]
  else
    [z2b (0xF0 + c / 262144); z2b (0x80 + c / 4096 mod 64); z2b (0x80 + c / 64 mod 64);
     z2b (0x80 + c mod 64)].
Definition is_utf8 (s : list byte) : Prop :=
  exists cs, Forall code_point cs /\ s = flat_map utf8_encode cs.

(** [std::str::from_utf8]: which byte strings Rust accepts as [str].  Not code
    of /repo; called at butte/src/vector.rs:159. *)
From Coq Require Import ZArith List Bool Strings.Byte.
From Verif Require Import Base.
Import ListNotations.
Local Open Scope Z_scope.

Definition between (lo hi : Z) (b : byte) : bool := (lo <=? b2z b) && (b2z b <=? hi).
Definition cont (b : byte) : bool := between 0x80 0xBF b.

Fixpoint utf8_valid (l : list byte) : bool :=
  match l with
  | [] => true
  | a :: r =>
      if between 0x00 0x7F a then utf8_valid r
      else if between 0xC2 0xDF a then
        match r with b :: r => cont b && utf8_valid r | _ => false end
      else if between 0xE0 0xEF a then
        match r with
        | b :: c :: r =>
            (if between 0xE0 0xE0 a then between 0xA0 0xBF b
             else if between 0xED 0xED a then between 0x80 0x9F b
             else cont b)
            && cont c && utf8_valid r
        | _ => false
        end
      else if between 0xF0 0xF4 a then
        match r with
        | b :: c :: d :: r =>
            (if between 0xF0 0xF0 a then between 0x90 0xBF b
             else if between 0xF4 0xF4 a then between 0x80 0x8F b
             else cont b)
            && cont c && cont d && utf8_valid r
        | _ => false
        end
      else false
  end.

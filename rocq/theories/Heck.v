(** [to_snake_case] and [to_shouty_snake_case] of the heck crate (0.3.1,
    heck/src/lib.rs, [transform]), which codegen.rs:356, 580, 624, 714, 936 and 1134
    and transform.rs:119 and 396 call.  Not code of /repo.  Written for ASCII
    texts, where [unicode_words] does not cut an identifier and case is that of
    ASCII; what the crate does on other texts is not modelled. *)
From Coq Require Import Strings.String ZArith List Bool Strings.Byte.
From Verif Require Import Base Schema Parser.
Import ListNotations.
Local Open Scope Z_scope.

Definition is_lower (b : byte) : bool := between "a" "z" b.
Definition is_upper (b : byte) : bool := between "A" "Z" b.
Definition is_underscore (b : byte) : bool := Byte.eqb b "_".

Inductive word_mode := AtBoundary | Lowercase | Uppercase.
Definition mode_after (m : word_mode) (c : byte) : word_mode :=
  if is_lower c then Lowercase else if is_upper c then Uppercase else m.

(** The loop of [transform]: [m] is its [mode], [cur] the text from [init] to the
    current character. *)
Fixpoint words (m : word_mode) (cur s : text) : list text :=
  match s with
  | [] => []
  | c :: r =>
      if is_underscore c then words m (match cur with [] => [] | _ => cur ++ [c] end) r
      else
        match r with
        | [] => [cur ++ [c]]
        | d :: _ =>
            let m' := mode_after m c in
            if is_underscore d || match m' with Lowercase => is_upper d | _ => false end
            then (cur ++ [c]) :: words AtBoundary [] r
            else if match m with Uppercase => is_upper c && is_lower d | _ => false end
            then cur :: words AtBoundary [c] r
            else words m' (cur ++ [c]) r
        end
  end.

Definition to_lower (b : byte) : byte :=
  match Byte.of_N (Byte.to_N b + 32) with Some l => if is_upper b then l else b | None => b end.
Definition to_upper (b : byte) : byte :=
  match Byte.of_N (Byte.to_N b - 32) with Some u => if is_lower b then u else b | None => b end.

Fixpoint underscored (ws : list text) : text :=
  match ws with
  | [] => []
  | [w] => w
  | w :: ws => w ++ lit "_" ++ underscored ws
  end.
Definition snake_case (s : text) : text := underscored (map (map to_lower) (words AtBoundary [] s)).
Definition shouty_snake_case (s : text) : text := underscored (map (map to_upper) (words AtBoundary [] s)).

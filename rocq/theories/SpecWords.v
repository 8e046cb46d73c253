(** The words of a name, said without the loop that finds them (for C53 and C54). *)
From Coq Require Import Strings.String List Strings.Byte.
From Verif Require Import Base Schema Ident Parser SpecIdent.
Import ListNotations.
Local Open Scope list_scope.

Definition small_letter (c : byte) : Prop := In c (lit "abcdefghijklmnopqrstuvwxyz").
Definition big_letter (c : byte) : Prop := In c (lit "ABCDEFGHIJKLMNOPQRSTUVWXYZ").

(** The character [c] of the name [p ++ c :: r] begins a word: it is the first
    character, or follows an underscore; or it is a capital, and the letter nearest
    before it, with nothing but digits between, is small, or is a capital too while
    the next character is a small letter. *)
Definition word_start (p : text) (c : byte) (r : text) : Prop :=
  c <> "_"%byte /\
  (p = [] \/ (exists q, p = q ++ lit "_") \/
   (big_letter c /\ exists q l ds, p = q ++ l :: ds /\ Forall (fun d => In d (lit "0123456789")) ds /\
      (small_letter l \/ (big_letter l /\ exists d r', r = d :: r' /\ small_letter d)))).

(** The text [s], which comes after [p], is the rest [w] of a word, then the words [ws]. *)
Inductive in_words : text -> text -> text -> list text -> Prop :=
| words_end p : in_words p [] [] []
| words_gap p r ws : in_words (p ++ lit "_") r [] ws -> in_words p (lit "_" ++ r) [] ws
| words_start p c r w ws : word_start p c r -> in_words (p ++ [c]) r w ws -> in_words p (c :: r) [] ((c :: w) :: ws)
| words_inside p c r w ws : c <> "_"%byte -> ~ word_start p c r ->
    in_words (p ++ [c]) r w ws -> in_words p (c :: r) (c :: w) ws.

(** The name [x] has the words [ws]. *)
Definition has_words (x : text) (ws : list text) : Prop := in_words [] x [] ws.

(** Words in small letters, with underscores between them. *)
Fixpoint joined (ws : list text) : text :=
  match ws with
  | [] => []
  | [w] => map small w
  | w :: ws => map small w ++ lit "_" ++ joined ws
  end.

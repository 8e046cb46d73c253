(** Notions used to state what the parser does. *)
From Coq Require Import Strings.String ZArith List Bool Strings.Byte.
From Verif Require Import Base Schema.
Import ListNotations.
Local Open Scope Z_scope.

(** [p] splits its input into what it consumed and the rest. *)
Definition splits {A} (p : text -> option (A * text)) : Prop :=
  forall s a r, p s = Some (a, r) -> exists c, s = c ++ r.
(** [p] moreover consumes something. *)
Definition advances {A} (p : text -> option (A * text)) : Prop :=
  forall s a r, p s = Some (a, r) -> exists c, c <> [] /\ s = c ++ r.

(** What repeating [p] until it fails gives, with no bound on the number of
    rounds: [repeats p s l r] when the rounds give [l] and leave [r], where [p]
    fails. *)
Inductive repeats {A} (p : text -> option (A * text)) : text -> list A -> text -> Prop :=
| repeats_stop s : p s = None -> repeats p s [] s
| repeats_step s a r l r' : p s = Some (a, r) -> repeats p r l r' -> repeats p s (a :: l) r'.

(** What reading items between separators gives, with no bound on their number:
    the list ends, before the separator, where the separator or what follows it
    cannot be read. *)
Inductive listed {A B} (sep : text -> option (B * text)) (p : text -> option (A * text)) :
  text -> list A -> text -> Prop :=
| listed_no_sep s : sep s = None -> listed sep p s [] s
| listed_no_item s x r : sep s = Some (x, r) -> p r = None -> listed sep p s [] s
| listed_step s x r a r2 l r3 :
    sep s = Some (x, r) -> p r = Some (a, r2) -> listed sep p r2 l r3 ->
    listed sep p s (a :: l) r3.

(** The word [w] occurs in [t], with no word character (letter, digit or
    underscore) right before or after it. *)
Definition word_byte (c : byte) : Prop :=
  In c (lit "abcdefghijklmnopqrstuvwxyzABCDEFGHIJKLMNOPQRSTUVWXYZ0123456789_").
Definition mentions (w : text) (t : text) : Prop :=
  exists a b, t = a ++ w ++ b
    /\ (forall x c, a = x ++ [c] -> ~ word_byte c)
    /\ (forall c x, b = c :: x -> ~ word_byte c).
(** The text mentions none of the special float names. *)
Definition quiet (t : text) : Prop :=
  ~ mentions (lit "nan") t /\ ~ mentions (lit "inf") t /\ ~ mentions (lit "infinity") t.

(** [x] starts with [w]. *)
Definition starts_with (w x : text) : Prop := exists y, x = w ++ y.

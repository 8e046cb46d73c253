(** The schema compiler as a whole: butte-build/src/compile.rs:16-59
    ([compile_fbs_generic]), up to the call of the code generator. *)
From Coq Require Import Strings.String ZArith List Bool Strings.Byte.
From Verif Require Import Base Schema Parser Resolve.
Import ListNotations.
Local Open Scope Z_scope.

(** [&rest[..n]] (compile.rs:28-33): panics when [n] is past the end or inside a
    character, i.e. unless [str::is_char_boundary]. *)
Definition char_boundary (n : nat) (s : text) : bool :=
  match nth_error s n with
  | Some b => negb (is_continuation b)
  | None => Nat.eqb n (List.length s)
  end.

(** What a run does: it hands the resolved schema to the code generator, returns an
    error, or panics. *)
Inductive compiled := Generated (root : list node) | Rejected | Panicked.

Section Compile.
Context (uni_alphabetic uni_alphanumeric uni_word : text -> bool).
Context (parse_f64 parse_hexf64 : text -> option Z).
Context (has_stem : text -> bool).
Context (snake : text -> text).

(** compile.rs:22-36, [t] being the text read from the input.  Reading (an error
    when the input is not UTF-8) and what follows code generation (rustfmt, writing
    the output) are left out. *)
Definition compile (t : text) : compiled :=
  match schema_decl uni_alphabetic uni_alphanumeric uni_word parse_f64 parse_hexf64 has_stem t with
  | None => Rejected
  | Some (s, []) =>
      match build snake (sc_elements s) with
      | Done root => Generated root
      | Fail _ => Rejected
      | Crash => Panicked
      end
  | Some (_, rest) => if char_boundary 30 rest then Rejected else Panicked
  end.
End Compile.

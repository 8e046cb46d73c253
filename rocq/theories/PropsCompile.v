(** Property C52: the schema compiler on texts with syntax errors.  Vocabulary:
    Compile.v ([compile]: what a run comes to), SpecGrammar.v ([schema_text]: the
    language, [clear_text]: what of it is read, [cuts]: the text can be cut after so many bytes), Resolve.v
    ([build], [supported]: the declarations the compiler implements). *)
From Coq Require Import Strings.String ZArith List Bool Lia Strings.Byte.
From Verif Require Import Base Schema Parser Resolve Compile SpecParser SpecGrammar SpecResolve CompileProofs.
Import ListNotations.
Local Open Scope Z_scope.

(** A text that is no text of the language never reaches the code generator.  It is
    rejected if the error message, which quotes the first 30 bytes of what was not
    read, can be made; it panics exactly if there are no 30 bytes left, or if they
    end inside a character. *)
Theorem C52_syntax_error ua un uw f6 fh has_stem snake
  (alphabetic_wide : forall c, ua c = true -> wide c) (alphanumeric_wide : forall c, un c = true -> wide c)
  (hexf_range : forall t v, fh t = Some v -> 0 <= v < 2 ^ 64) t :
  (forall S, ~ schema_text ua un f6 fh has_stem t S) ->
  exists S a r, schema_decl ua un uw f6 fh has_stem t = Some (S, r) /\ t = a ++ r /\ r <> []
    /\ (cuts 30 r -> compile ua un uw f6 fh has_stem snake t = Rejected)
    /\ (~ cuts 30 r -> compile ua un uw f6 fh has_stem snake t = Panicked).
Proof. exact (compile_syntax_error ua un uw f6 fh has_stem snake alphabetic_wide alphanumeric_wide hexf_range t). Qed.
Print Assumptions C52_syntax_error.

(** What reaches the code generator is a text of the language whose declarations
    are all implemented, and what it gets is the resolution of those. *)
Theorem C52_generated ua un uw f6 fh has_stem snake
  (alphabetic_wide : forall c, ua c = true -> wide c) (alphanumeric_wide : forall c, un c = true -> wide c)
  (hexf_range : forall t v, fh t = Some v -> 0 <= v < 2 ^ 64) t root :
  compile ua un uw f6 fh has_stem snake t = Generated root ->
  exists S, schema_text ua un f6 fh has_stem t S /\ build snake (sc_elements S) = Done root
    /\ forall e, In e (sc_elements S) -> supported e = true.
Proof. exact (compile_generated ua un uw f6 fh has_stem snake alphabetic_wide alphanumeric_wide hexf_range t root). Qed.
Print Assumptions C52_generated.

(** A text of the language with implemented declarations only does not panic. *)
Theorem C52_no_syntax_error ua un uw f6 fh has_stem snake
  (hexf_range : forall t v, fh t = Some v -> 0 <= v < 2 ^ 64) t S :
  schema_text ua un f6 fh has_stem t S -> plain_schema S -> quiet t ->
  (forall e, In e (sc_elements S) -> supported e = true) ->
  (exists root, compile ua un uw f6 fh has_stem snake t = Generated root /\ build snake (sc_elements S) = Done root)
  \/ (compile ua un uw f6 fh has_stem snake t = Rejected /\ exists e, build snake (sc_elements S) = Fail e).
Proof. exact (compile_grammar ua un uw f6 fh has_stem snake hexf_range t S). Qed.
Print Assumptions C52_no_syntax_error.

(** Exactly when a text reaches the code generator, and with what, and exactly when
    compiling it panics; otherwise it is rejected. *)
Theorem C52_exact ua un uw f6 fh has_stem snake
  (alphabetic_wide : forall c, ua c = true -> wide c) (alphanumeric_wide : forall c, un c = true -> wide c)
  (hexf_range : forall t v, fh t = Some v -> 0 <= v < 2 ^ 64) t :
  (forall root, compile ua un uw f6 fh has_stem snake t = Generated root <->
     exists S, clear_text ua un uw f6 fh has_stem t S /\ plain_types S /\ build snake (sc_elements S) = Done root)
  /\ (compile ua un uw f6 fh has_stem snake t = Panicked <->
      (exists S, clear_text ua un uw f6 fh has_stem t S /\ plain_types S /\ build snake (sc_elements S) = Crash)
      \/ (exists S r, schema_decl ua un uw f6 fh has_stem t = Some (S, r) /\ r <> [] /\ ~ cuts 30 r)).
Proof. exact (compile_exact ua un uw f6 fh has_stem snake alphabetic_wide alphanumeric_wide hexf_range t). Qed.
Print Assumptions C52_exact.

(** As stated C52 is false: a short text with an error panics.  (A missing semicolon
    at the end of a longer file does too.) *)
Theorem C52_error_refuted ua un uw f6 fh has_stem snake :
  compile ua un uw f6 fh has_stem snake (lit "tabel T {}") = Panicked
  /\ compile ua un uw f6 fh has_stem snake (lit "table Monster { hp : short = 100; } table Weapon { damage : short } ")
     = Rejected
  /\ compile ua un uw f6 fh has_stem snake (lit "table Monster { hp : short = 100; } root_type Monster")
     = Panicked.
Proof. now repeat split. Qed.
Print Assumptions C52_error_refuted.

(** A text outside the language: a declaration with its end missing, in a text long
    enough for the message. *)
Example C52_case ua un f6 fh has_stem :
  (forall S, ~ schema_text ua un f6 fh has_stem (lit "root_type Monster_with_a_rather_long_name") S)
  /\ cuts 30 (lit "root_type Monster_with_a_rather_long_name").
Proof.
  split.
  - intros S. apply unclosed_text; [reflexivity|discriminate].
  - apply cuts_iff. reflexivity.
Qed.

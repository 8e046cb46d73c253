(** Property C72, of texts: which are accepted.  Statements only; each theorem is
    closed by a lemma of the proof files.  Vocabulary: Compile.v ([compile]: what a
    run comes to), SpecGrammar.v ([clear_text]: the texts that are read, and as
    what), SpecEvolve.v ([settled]: declarations stay in their namespaces),
    SpecFormed.v ([well_formed]). *)
From Coq Require Import Strings.String ZArith List Bool Lia Strings.Byte.
From Verif Require Import Base Schema Parser Resolve Compile SpecParser SpecGrammar SpecResolve SpecFormed SpecEvolve AcceptProofs.
Import ListNotations.
Local Open Scope Z_scope.

(** The code generator is reached exactly with the texts of well-formed schemas. *)
Theorem C72_texts ua un uw f6 fh has_stem snake
  (alphabetic_wide : forall c, ua c = true -> wide c) (alphanumeric_wide : forall c, un c = true -> wide c)
  (hexf_range : forall t v, fh t = Some v -> 0 <= v < 2 ^ 64) t :
  (forall S, clear_text ua un uw f6 fh has_stem t S -> settled (sc_elements S)) ->
  ((exists root, compile ua un uw f6 fh has_stem snake t = Generated root) <->
   exists S, clear_text ua un uw f6 fh has_stem t S /\ plain_types S /\ well_formed (sc_elements S)).
Proof. exact (compile_accepts ua un uw f6 fh has_stem snake alphabetic_wide alphanumeric_wide hexf_range t). Qed.
Print Assumptions C72_texts.

(** The texts of the others are rejected. *)
Theorem C72_texts_rejected ua un uw f6 fh has_stem snake
  (alphabetic_wide : forall c, ua c = true -> wide c) (alphanumeric_wide : forall c, un c = true -> wide c)
  (hexf_range : forall t v, fh t = Some v -> 0 <= v < 2 ^ 64) t S :
  clear_text ua un uw f6 fh has_stem t S -> plain_types S -> settled (sc_elements S) ->
  (forall e, In e (sc_elements S) -> supported e = true) -> ~ well_formed (sc_elements S) ->
  compile ua un uw f6 fh has_stem snake t = Rejected.
Proof. exact (compile_rejects ua un uw f6 fh has_stem snake alphabetic_wide alphanumeric_wide hexf_range t S). Qed.
Print Assumptions C72_texts_rejected.

(** A text that is accepted, and one that is not: the root is no table. *)
Example C72_texts_case :
  let none (_ : text) := false in let nothing (_ : text) := @None Z in
  let read t S := clear_text none none none nothing nothing none (lit t) S /\ plain_types S /\ settled (sc_elements S) in
  (exists S root, read "struct P { x : int; } table T { p : P; t : [T]; } root_type T;"%string S /\
     compile none none none nothing nothing none (fun x => x) (lit "struct P { x : int; } table T { p : P; t : [T]; } root_type T;") = Generated root) /\
  (exists S, read "struct P { x : int; } root_type P;"%string S /\ (forall e, In e (sc_elements S) -> supported e = true) /\ ~ well_formed (sc_elements S)).
Proof.
  intros none nothing read.
  assert (R : forall t S, schema_decl none none none nothing nothing none (lit t) = Some (S, []) -> settled (sc_elements S) -> read t S).
  { intros t S E Sd. apply text_exact in E as [C P]; try discriminate. repeat split; assumption. }
  split.
  - do 2 eexists. split; [apply R; [vm_compute; reflexivity|]|vm_compute; reflexivity].
    intros [|[|[|i]]] e N _; [right; reflexivity..|destruct i; discriminate N].
  - eexists. split; [apply R; [vm_compute; reflexivity|]|split].
    + intros [|[|i]] e N _; [right; reflexivity..|destruct i; discriminate N].
    + intros e [<-|[<-|[]]]; reflexivity.
    + intros [_ Al _ _]. destruct (Al 1%nat _ eq_refl) as (i & t & N & _). destruct i as [|[|i]]; [discriminate N..|destruct i; discriminate N].
Qed.

(** Which texts are accepted (C72). *)
From Coq Require Import Strings.String ZArith List Bool Lia Strings.Byte.
From Verif Require Import Base Schema Parser Resolve Compile SpecParser SpecGrammar SpecResolve SpecFormed SpecEvolve ResolveProofs13.
From Verif Require ExactProofs.
Import ListNotations.
Local Open Scope Z_scope.

Section Accept.
Context (ua un uw : text -> bool) (f6 fh : text -> option Z) (has_stem : text -> bool) (snake : text -> text).
Context (alphabetic_wide : forall c, ua c = true -> wide c) (alphanumeric_wide : forall c, un c = true -> wide c).
Context (hexf_range : forall t v, fh t = Some v -> 0 <= v < 2 ^ 64).
Notation compile := (compile ua un uw f6 fh has_stem snake).
Notation clear := (clear_text ua un uw f6 fh has_stem).

Lemma text_exact t S : schema_decl ua un uw f6 fh has_stem t = Some (S, []) <-> clear t S /\ plain_types S.
Proof. exact (ExactProofs.schema_exact _ _ uw _ _ _ hexf_range alphabetic_wide alphanumeric_wide t S). Qed.
Lemma compile_accepts t : (forall S, clear t S -> settled (sc_elements S)) ->
  ((exists root, compile t = Generated root) <-> exists S, clear t S /\ plain_types S /\ well_formed (sc_elements S)).
Proof.
  intros Sd. unfold Compile.compile. split.
  - intros (root & H). destruct (schema_decl ua un uw f6 fh has_stem t) as [[S [|c r]]|] eqn:E; [|destruct (char_boundary 30 _); discriminate H|discriminate H].
    apply text_exact in E as [C P]. exists S. split; [exact C|]. split; [exact P|]. apply (accepts_iff snake _ (Sd S C)). destruct (build snake (sc_elements S)) as [r| |]; try discriminate H. eauto.
  - intros (S & C & P & W). rewrite (proj2 (text_exact t S)) by auto. apply (accepts_iff snake _ (Sd S C)) in W as (r & ->). eauto.
Qed.
Lemma compile_rejects t S : clear t S -> plain_types S -> settled (sc_elements S) -> (forall e, In e (sc_elements S) -> supported e = true) ->
  ~ well_formed (sc_elements S) -> compile t = Rejected.
Proof.
  intros C P Sd Su N. unfold Compile.compile. rewrite (proj2 (text_exact t S)) by auto. destruct (rejects snake _ Sd Su N) as (x & ->). reflexivity.
Qed.
End Accept.

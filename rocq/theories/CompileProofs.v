(** What compiling a text comes to (C48, C50, C52). *)
From Coq Require Import Strings.String ZArith List Bool Lia Strings.Byte ZifyBool ZifyNat ZifyN.
From Verif Require Import Base Schema Parser Resolve Compile SpecParser SpecGrammar SpecResolve SpecPrint ParserProofs
  ParserProofs2 GrammarProofs SoundProofs2 PrintProofs ResolveProofs4 ResolveProofs12.
From Verif Require ExactProofs.
Import ListNotations.
Local Open Scope Z_scope.

Lemma cuts_iff n s : char_boundary n s = true <-> cuts n s.
Proof.
  unfold char_boundary, cuts. split.
  - intros H. exists (firstn n s), (skipn n s). rewrite firstn_skipn. split; [reflexivity|].
    destruct (nth_error s n) as [b|] eqn:E.
    + assert (L : (n < List.length s)%nat) by (apply nth_error_Some; congruence).
      split; [apply firstn_length_le; lia|]. intros c x Q K. apply continuation_iff in K.
      assert (nth_error (skipn n s) 0 = Some b).
      { rewrite <- E. clear. revert s. induction n as [|n IH]; intros [|a s]; cbn; auto. apply IH. }
      rewrite Q in H0. injection H0 as ->. rewrite K in H. discriminate.
    + apply Nat.eqb_eq in H. split; [apply firstn_length_le; lia|]. subst n. rewrite skipn_all. discriminate.
  - intros (a & b & -> & L & C). rewrite nth_error_app2 by lia. rewrite L, Nat.sub_diag. destruct b as [|c x]; cbn [nth_error].
    + rewrite app_nil_r, L. apply Nat.eqb_refl.
    + destruct (is_continuation c) eqn:K; auto. exfalso. apply (C c x eq_refl). now apply continuation_iff.
Qed.

Section Compile.
Context (uni_alphabetic uni_alphanumeric uni_word : text -> bool).
Context (parse_f64 parse_hexf64 : text -> option Z).
Context (has_stem : text -> bool).
Context (snake : text -> text).
Context (alphabetic_wide : forall c, uni_alphabetic c = true -> wide c).
Context (alphanumeric_wide : forall c, uni_alphanumeric c = true -> wide c).
Context (hexf_range : forall t v, parse_hexf64 t = Some v -> 0 <= v < 2 ^ 64).
Notation parse := (schema_decl uni_alphabetic uni_alphanumeric uni_word parse_f64 parse_hexf64 has_stem).
Notation grammar := (schema_text uni_alphabetic uni_alphanumeric parse_f64 parse_hexf64 has_stem).
Notation clear := (clear_text uni_alphabetic uni_alphanumeric uni_word parse_f64 parse_hexf64 has_stem).
Notation compile := (compile uni_alphabetic uni_alphanumeric uni_word parse_f64 parse_hexf64 has_stem snake).

Lemma unambiguous t S1 S2 : quiet t -> grammar t S1 -> grammar t S2 -> plain_schema S1 -> plain_schema S2 -> S1 = S2.
Proof.
  intros Q G1 G2 P1 P2.
  pose proof (ExactProofs.schema_ok _ _ uni_word _ _ _ hexf_range t S1 G1 P1 Q) as E1.
  pose proof (ExactProofs.schema_ok _ _ uni_word _ _ _ hexf_range t S2 G2 P2 Q) as E2. congruence.
Qed.
Lemma parse_iff t S : quiet t -> plain_schema S -> parse t = Some (S, []) <-> grammar t S.
Proof.
  intros Q P. split.
  - apply ExactProofs.schema_sound; auto.
  - intros G. apply ExactProofs.schema_ok; auto.
Qed.
Lemma clear_unambiguous t S1 S2 : clear t S1 -> clear t S2 -> plain_types S1 -> plain_types S2 -> S1 = S2.
Proof.
  intros C1 C2 P1 P2. assert (E1 : parse t = Some (S1, [])) by (now apply ExactProofs.schema_exact).
  assert (E2 : parse t = Some (S2, [])) by (now apply ExactProofs.schema_exact). congruence.
Qed.
Lemma printed_parses show_float S :
  writable uni_alphabetic uni_alphanumeric parse_f64 parse_hexf64 has_stem show_float S -> plain_schema S ->
  quiet (show_schema show_float S) -> parse (show_schema show_float S) = Some (S, []).
Proof. intros W P Q. apply ExactProofs.schema_ok; auto. now apply show_schema_text. Qed.

Lemma parse_some t : exists S r, parse t = Some (S, r) /\ exists a, t = a ++ r.
Proof.
  destruct (schema_runs uni_alphabetic uni_alphanumeric uni_word parse_f64 parse_hexf64 has_stem t)
    as (is_ & es & r1 & r2 & E & _).
  exists (Schema is_ es), r2. split; auto. eapply spl_schema; eauto.
Qed.
Lemma compile_syntax_error t : (forall S, ~ grammar t S) ->
  exists S a r, parse t = Some (S, r) /\ t = a ++ r /\ r <> []
    /\ (cuts 30 r -> compile t = Rejected) /\ (~ cuts 30 r -> compile t = Panicked).
Proof.
  intros N. destruct (parse_some t) as (S & r & E & a & A). exists S, a, r. split; auto. split; auto.
  assert (NE : r <> []).
  { intros ->. apply (N S). eapply ExactProofs.schema_sound; eauto. }
  split; auto. unfold Compile.compile. rewrite E. destruct r as [|c r]; [congruence|].
  rewrite <- cuts_iff. destruct (char_boundary 30 (c :: r)); split; intros; congruence.
Qed.
Lemma compile_exact t :
  (forall root, compile t = Generated root <-> exists S, clear t S /\ plain_types S /\ build snake (sc_elements S) = Done root)
  /\ (compile t = Panicked <->
      (exists S, clear t S /\ plain_types S /\ build snake (sc_elements S) = Crash)
      \/ (exists S r, parse t = Some (S, r) /\ r <> [] /\ ~ cuts 30 r)).
Proof.
  destruct (parse_some t) as (S & r & E & _). unfold Compile.compile. rewrite E. destruct r as [|c r].
  - pose proof E as K. apply ExactProofs.schema_exact in K as [C P]; auto.
    assert (U : forall S', clear t S' -> plain_types S' -> S' = S) by (intros; eapply clear_unambiguous; eauto).
    split; [intros root|]; (split; [intros H|]).
    + exists S. destruct (build snake _) as [n|f|]; try discriminate. injection H as ->. auto.
    + intros (S' & C' & P' & B). rewrite (U S' C' P') in B. now rewrite B.
    + left. exists S. destruct (build snake _) as [n|f|]; try discriminate. auto.
    + intros [(S' & C' & P' & B)|(S' & q & E' & N & _)]; [rewrite (U S' C' P') in B; now rewrite B|congruence].
  - assert (U : forall S', clear t S' -> plain_types S' -> False).
    { intros S' C' P'. assert (E' : parse t = Some (S', [])) by (now apply ExactProofs.schema_exact). congruence. }
    split; [intros root|]; (split; [intros H|]).
    + destruct (char_boundary 30 _); discriminate.
    + intros (S' & C' & P' & _). exfalso. eauto.
    + right. exists S, (c :: r). repeat split; try discriminate. rewrite <- cuts_iff. destruct (char_boundary 30 _); discriminate.
    + intros [(S' & C' & P' & _)|(S' & q & E' & N & K)]; [exfalso; eauto|]. injection E' as <- <-.
      rewrite <- cuts_iff in K. destruct (char_boundary 30 _); congruence.
Qed.
Lemma compile_alike t t' S S' : clear t S -> plain_types S -> clear t' S' -> plain_types S' ->
  map bare (sc_elements S) = map bare (sc_elements S') -> compile t = compile t'.
Proof.
  intros C P C' P' E. unfold Compile.compile. rewrite (proj2 (ExactProofs.schema_exact _ _ uni_word _ _ _ hexf_range alphabetic_wide alphanumeric_wide t S)) by auto.
  rewrite (proj2 (ExactProofs.schema_exact _ _ uni_word _ _ _ hexf_range alphabetic_wide alphanumeric_wide t' S')) by auto.
  pose proof (build_bare snake (sc_elements S)) as A. rewrite E, build_bare in A.
  destruct (build snake (sc_elements S)) as [r|[]|], (build snake (sc_elements S')) as [r'|[]|]; try discriminate A; try reflexivity. injection A as ->. reflexivity.
Qed.
Lemma compile_generated t root : compile t = Generated root ->
  exists S, grammar t S /\ build snake (sc_elements S) = Done root /\ forall e, In e (sc_elements S) -> supported e = true.
Proof.
  unfold Compile.compile. intros H. destruct (parse t) as [[S [|c r]]|] eqn:E; [| |discriminate].
  - exists S. split; [eapply ExactProofs.schema_sound; eauto|].
    destruct (build snake (sc_elements S)) as [n|f|] eqn:B; try discriminate. injection H as ->. split; auto.
    intros e I. destruct (supported e) eqn:U; auto. exfalso. eapply build_unsupported; eauto.
  - destruct (char_boundary 30 _); discriminate.
Qed.
Lemma compile_grammar t S : grammar t S -> plain_schema S -> quiet t -> (forall e, In e (sc_elements S) -> supported e = true) ->
  (exists root, compile t = Generated root /\ build snake (sc_elements S) = Done root)
  \/ (compile t = Rejected /\ exists e, build snake (sc_elements S) = Fail e).
Proof.
  intros G P Q U. unfold Compile.compile.
  rewrite (ExactProofs.schema_ok _ _ uni_word _ _ _ hexf_range t S G P Q).
  destruct (build_total snake _ U) as [(root & ->)|(e & ->)]; eauto.
Qed.
End Compile.

(** A text with no semicolon and no closing brace declares nothing. *)
Definition unclosed (t : text) : bool := forallb (fun c => negb (Byte.eqb c ";" || Byte.eqb c "}")) t.
Lemma unclosed_app a b : unclosed (a ++ b) = unclosed a && unclosed b.
Proof. apply forallb_app. Qed.
Section Unclosed.
Context (ua un : text -> bool) (f6 fh : text -> option Z) (has_stem : text -> bool).
Lemma closed_element r t e : element_text ua un f6 fh anything any_name r t e -> unclosed t = false.
Proof.
  intros H. destruct H as [r t q c H|r t p H|r t p H|r t en H|r t u H|r t x c H|r t x c H|r t x c H|r t x c H|r t rp H|r t kv c H]; destruct H;
  repeat match goal with H : variants_text _ _ _ _ |- _ => destruct H end;
  rewrite !unclosed_app; repeat match goal with |- context [unclosed (lit ?x)] => let v := eval compute in (unclosed (lit x)) in change (unclosed (lit x)) with v end;
  now rewrite !andb_false_r.
Qed.
Lemma unclosed_text t S : unclosed t = true -> t <> [] -> ~ schema_text ua un f6 fh has_stem t S.
Proof.
  intros U NE H. inversion H as [|b ti is_ te es e B TI TE E N]; subst.
  { congruence. }
  rewrite !unclosed_app in U. apply andb_true_iff in U as [_ U]. apply andb_true_iff in U as [U1 U].
  apply andb_true_iff in U as [U2 _]. apply N.
  inversion TI as [q|q x i b' t' l I]; subst.
  - inversion TE as [q|q x a b' t' l I]; subst; auto. rewrite !unclosed_app, (closed_element _ _ _ I) in U2. discriminate.
  - destruct I as [I _]. destruct I. rewrite !unclosed_app in U1. cbn in U1. rewrite !andb_false_r in U1. discriminate.
Qed.
End Unclosed.

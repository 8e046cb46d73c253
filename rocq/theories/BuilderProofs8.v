(** Protocol checks of debug builds, limits, and what the builder gets wrong. *)
From Coq Require Import ZArith List Bool Lia Strings.Byte ZifyBool ZifyNat ZifyN.
From Verif Require Import Base Scalar Reader Builder Ops SpecBuilder Abstract BaseFacts ScalarFacts
  ReaderFacts Refine Refine2 Build1 Build2 Build3 Build4 Build5 Build6 Build7 Build8 Build9 Build10 BuilderProofs1 BuilderProofs2 BuilderProofs3 BuilderProofs4.
Import ListNotations.
Local Open Scope Z_scope.

(** ** The flags *)
Definition same_flags (a a' : astate) : Prop := a_nested a' = a_nested a /\ a_fin a' = a_fin a.
Lemma sf_refl a : same_flags a a. Proof. split; reflexivity. Qed.
Lemma sf_trans a b c : same_flags a b -> same_flags b c -> same_flags a c.
Proof. unfold same_flags. intuition congruence. Qed.

Section Flags.
Context (lim : bool) (h : host).
Lemma a_pad_flags a len al a' : a_pad lim h a len al = Val a' -> same_flags a a'.
Proof. unfold a_pad, a_space. intros H. apply bind_Val in H as (n & _ & H). apply bind_Val in H as (u & _ & H). injection H as <-. split; reflexivity. Qed.
Lemma a_push_flags a x a' o : a_push lim h a x = Val (a', o) -> same_flags a a'.
Proof. intros H. apply a_push_val in H as (-> & _). split; reflexivity. Qed.
Lemma a_bytes_flags a x a' : a_bytes lim a x = Val a' -> same_flags a a'.
Proof. intros H. apply a_bytes_val in H as [-> _]. split; reflexivity. Qed.
Lemma a_push_all_flags l : forall a a', a_push_all lim h a l = Val a' -> same_flags a a'.
Proof.
  induction l as [|x l IH]; intros a a' H; cbn [a_push_all] in H; [injection H as <-; apply sf_refl|].
  apply bind_Val in H as ([a1 o] & H1 & H). eapply sf_trans; [eapply a_push_flags|]; eauto.
Qed.
Lemma a_create_byte_string_flags a s a' o : a_create_byte_string lim h a s = Val (a', o) -> same_flags a a'.
Proof. intros H. apply a_create_byte_string_val in H as (-> & _). split; reflexivity. Qed.
Lemma a_create_string_flags a s a' o : a_create_string lim h a s = Val (a', o) -> same_flags a a'.
Proof. intros H. apply a_create_string_val in H. eapply a_create_byte_string_flags; eauto. Qed.
Lemma a_create_vector_flags a sz al items a' o : a_create_vector lim h a sz al items = Val (a', o) -> same_flags a a'.
Proof.
  unfold a_create_vector. intros H. apply bind_Val in H as (n & _ & H). apply bind_Val in H as (a1 & H1 & H).
  apply bind_Val in H as (a2 & H2 & H). apply a_pad_flags in H1. apply a_push_all_flags in H2. apply a_push_flags in H.
  eauto using sf_trans.
Qed.
Lemma a_strings_flags l : forall a acc a' r, a_create_strings_rev lim h a l acc = Val (a', r) -> same_flags a a'.
Proof.
  induction l as [|s l IH]; intros a acc a' r H; cbn [a_create_strings_rev] in H; [injection H as <- <-; apply sf_refl|].
  apply bind_Val in H as ([a1 o] & H1 & H). eapply sf_trans; [eapply a_create_string_flags|]; eauto.
Qed.
Lemma a_finish_flags a root ident sp a' : a_finish lim h a root ident sp = Val a' ->
  a_nested a' = a_nested a /\ a_fin a' = true.
Proof.
  intros H. split; [|eapply a_finish_vts; eauto]. unfold a_finish in H.
  apply bind_Val in H as (u1 & _ & H). apply bind_Val in H as (u2 & _ & H).
  apply bind_Val in H as (a1 & H1 & H). apply bind_Val in H as (a2 & H2 & H).
  apply bind_Val in H as ([a3 o3] & H3 & H). apply bind_Val in H as (a4 & H4 & H). injection H as <-.
  apply a_pad_flags in H1. apply a_push_flags in H3. destruct H1 as [N1 _], H3 as [N3 _].
  assert (N2 : a_nested a2 = a_nested a1).
  { destruct ident; [|injection H2 as <-; reflexivity].
    apply bind_Val in H2 as (u & _ & H2). apply a_bytes_flags in H2. apply H2. }
  assert (N4 : a_nested a4 = a_nested a3).
  { destruct sp; [|injection H4 as <-; reflexivity].
    apply bind_Val in H4 as ([a5 o5] & H5 & H4). injection H4 as <-. apply a_push_flags in H5. apply H5. }
  cbn [with_fin a_nested]. rewrite N4, N3, N2, N1. reflexivity.
Qed.
Lemma a_write_vtable_flags a tail a' o : a_write_vtable lim h a tail = Val (a', o) -> same_flags a a'.
Proof.
  unfold a_write_vtable. intros H. apply bind_Val in H as (u1 & _ & H). apply bind_Val in H as ([a1 o1] & H1 & H).
  apply a_push_flags in H1. apply bind_Val in H as (u2 & _ & H). apply bind_Val in H as (sz & _ & H).
  apply bind_Val in H as (u3 & _ & H). apply bind_Val in H as (vt & _ & H). apply bind_Val in H as (dup & _ & H).
  eapply sf_trans; [exact H1|].
  destruct dup; apply bind_Val in H as (saw & _ & H); apply bind_Val in H as (u4 & _ & H);
    apply bind_Val in H as (df & _ & H); apply bind_Val in H as (dst & _ & H); apply bind_Val in H as (x & _ & H);
    injection H as <- <-; split; reflexivity.
Qed.

Lemma debug_assert_true b u : debug h = true -> debug_assert h b = Val u -> b = true.
Proof. unfold debug_assert. intros ->. destruct b; [auto|discriminate]. Qed.

Lemma a_step_flags a o a' x : debug h = true -> a_step lim h a o = Val (a', x) ->
  next_flags (a_nested a, a_fin a) o = Some (a_nested a', a_fin a').
Proof.
  intros Hd H. destruct o; cbn [a_step next_flags] in *; unfold a_num, a_unit in H.
  - injection H as <- <-. reflexivity.
  - apply bind_Val in H as ([a1 n] & H & E). injection E as <- <-. apply a_push_flags in H as [-> ->]. reflexivity.
  - apply bind_Val in H as (a1 & H & E). injection E as <- <-. unfold a_push_slot in H.
    apply bind_Val in H as (u & Hn & H). apply debug_assert_true in Hn; auto.
    destruct (pval_eq x0 default); [injection H as <-; rewrite Hn; reflexivity|].
    apply a_push_slot_always_val in H as (-> & _). rewrite Hn. cbn. rewrite Hn. reflexivity.
  - apply bind_Val in H as (a1 & H & E). injection E as <- <-.
    apply a_push_slot_always_val in H as (-> & _ & Hn). apply debug_assert_true in Hn; auto. rewrite Hn. cbn. rewrite Hn. reflexivity.
  - injection H as <- <-. reflexivity.
  - apply bind_Val in H as ([a1 n] & H & E). injection E as <- <-. unfold a_start_table in H.
    apply bind_Val in H as (u & Hn & H). apply debug_assert_true in Hn; auto. apply negb_true_iff in Hn. injection H as <- <-. rewrite Hn. reflexivity.
  - apply bind_Val in H as ([a1 n] & H & E). injection E as <- <-. unfold a_end_table in H.
    apply bind_Val in H as (u & Hn & H). apply debug_assert_true in Hn; auto.
    apply bind_Val in H as ([a2 o2] & H & E). injection E as <- <-. apply a_write_vtable_flags in H as [_ F].
    rewrite Hn. cbn. rewrite F. reflexivity.
  - apply bind_Val in H as (a1 & H & E). injection E as <- <-. unfold a_start_vector in H.
    apply bind_Val in H as (u & Hn & H). apply debug_assert_true in Hn; auto. apply negb_true_iff in Hn.
    apply bind_Val in H as (n & _ & H). apply a_pad_flags in H as [-> ->]. rewrite Hn. reflexivity.
  - apply bind_Val in H as ([a1 n] & H & E). injection E as <- <-. unfold a_end_vector in H.
    apply bind_Val in H as (u & Hn & H). apply debug_assert_true in Hn; auto. apply a_push_flags in H as [-> ->]. rewrite Hn. reflexivity.
  - apply bind_Val in H as ([a1 n] & H & E). injection E as <- <-. pose proof (a_create_string_val _ _ _ _ _ H) as H'.
    apply a_create_byte_string_val in H' as (_ & _ & _ & Hn & _). apply a_create_string_flags in H as [-> ->].
    apply debug_assert_true in Hn; auto. apply negb_true_iff in Hn. rewrite Hn. reflexivity.
  - apply bind_Val in H as ([a1 n] & H & E). injection E as <- <-. pose proof H as H'.
    apply a_create_byte_string_val in H' as (_ & _ & _ & Hn & _). apply a_create_byte_string_flags in H as [-> ->].
    apply debug_assert_true in Hn; auto. apply negb_true_iff in Hn. rewrite Hn. reflexivity.
  - apply bind_Val in H as ([a1 n] & H & E). injection E as <- <-.
    apply a_create_vector_direct_val in H as (-> & _ & _ & _ & Hn).
    apply debug_assert_true in Hn; auto. apply negb_true_iff in Hn. cbn. rewrite Hn. reflexivity.
  - apply bind_Val in H as ([a1 n] & H & E). injection E as <- <-. unfold a_create_vector_of_strings in H.
    apply bind_Val in H as (u & Hn & H). apply debug_assert_true in Hn; auto. apply negb_true_iff in Hn.
    apply bind_Val in H as ([a2 offs] & H1 & H). apply a_strings_flags in H1 as [N1 F1]. apply a_create_vector_flags in H as [N2 F2].
    rewrite N2, F2, N1, F1, Hn. reflexivity.
  - apply bind_Val in H as ([a1 n] & H & E). injection E as <- <-. apply a_create_vector_flags in H as [-> ->]. reflexivity.
  - injection H as <- <-. reflexivity.
  - apply bind_Val in H as (u & Hn & H). apply debug_assert_true in Hn; auto. injection H as <- <-. rewrite Hn. reflexivity.
  - apply bind_Val in H as (u & Hn & H). injection H as <- <-. reflexivity.
  - apply bind_Val in H as (a1 & H & E). injection E as <- <-. pose proof (a_finish_flags _ _ _ _ _ H) as [-> ->].
    unfold a_finish in H. apply bind_Val in H as (u1 & N1 & H). apply bind_Val in H as (u2 & N2 & H).
    apply debug_assert_true in N1; auto. apply debug_assert_true in N2; auto. apply negb_true_iff in N1, N2. rewrite N1, N2. reflexivity.
Qed.
End Flags.

Lemma run_bracketed h os : forall b, debug h = true -> inv b -> forallb op_ok os = true ->
  bracketed (nested b, finished b) os = false -> run h b os = Panic.
Proof.
  induction os as [|o os IH]; intros b Hd I Ho H; cbn [bracketed forallb run] in *; [discriminate|].
  apply andb_true_iff in Ho as [Ho Hos].
  pose proof (step_ref h b (view b) o (conj I eq_refl) Ho) as P. unfold ref in P.
  destruct (step h b o) as [[b1 x]| |] eqn:S; [|destruct P|reflexivity]. cbn [bind].
  apply (step_abstract _ _ _ _ _ I Ho) in S as [S I1].
  apply (a_step_flags _ _ _ _ _ _ Hd) in S. cbn [view a_nested a_fin] in S. rewrite S in H.
  rewrite (IH b1 Hd I1 Hos H). reflexivity.
Qed.

Lemma misuse_panics h c os : debug h = true -> 0 <= c -> forallb op_ok os = true ->
  bracketed (false, false) os = false -> program h c os = Panic.
Proof.
  intros Hd Hc Ho H. unfold program. destruct (new_with_capacity c) as [b| |] eqn:N; cbn [bind].
  - destruct (new_view c b Hc N) as [I E]. apply run_bracketed; auto.
    replace (nested b) with (a_nested (view b)) by reflexivity. replace (finished b) with (a_fin (view b)) by reflexivity.
    rewrite E. exact H.
  - unfold new_with_capacity, assert_always in N. destruct (_ <=? _); discriminate.
  - reflexivity.
Qed.

Lemma completes_bracketed h c os b xs : debug h = true -> 0 <= c -> forallb op_ok os = true ->
  program h c os = Val (b, xs) -> bracketed (false, false) os = true.
Proof.
  intros Hd Hc Ho H. destruct (bracketed (false, false) os) eqn:B; [reflexivity|].
  rewrite (misuse_panics h c os Hd Hc Ho B) in H. discriminate.
Qed.

(** Not all misuse is caught. *)
Definition completes {A} (m : outcome A) : bool := match m with Val _ => true | _ => false end.
Lemma completes_val {A} (m : outcome A) : completes m = true -> exists x, m = Val x.
Proof. destruct m; [eauto|discriminate|discriminate]. Qed.

Lemma misuse_unseen h :
  (exists os b xs, forallb op_ok os = true /\ nested_well None os = false /\ program h 0 os = Val (b, xs) /\
     In OpStartTable os /\ existsb is_end_table os = false) /\
  (exists os b xs, forallb op_ok os = true /\ nested_well None os = false /\ program h 0 os = Val (b, xs) /\
     existsb is_end_table os = true).
Proof.
  split.
  - exists [OpStartTable; OpEndVector 0].
    assert (E : completes (program h 0 [OpStartTable; OpEndVector 0]) = true) by (destruct h as [[|] [|]]; vm_compute; reflexivity).
    apply completes_val in E as ([b xs] & E). exists b, xs. repeat split; auto. left. reflexivity.
  - exists [OpStartTable; OpCreateVector (PTScalar TU8) [PScalar TU8 1]; OpEndTable 0].
    assert (E : completes (program h 0 [OpStartTable; OpCreateVector (PTScalar TU8) [PScalar TU8 1]; OpEndTable 0]) = true)
      by (destruct h as [[|] [|]]; vm_compute; reflexivity).
    apply completes_val in E as ([b xs] & E). exists b, xs. repeat split; auto.
Qed.

(** Below 2 GiB no request is refused: runs complete whatever the capacity. *)
From Coq Require Import ZArith List Bool Lia Strings.Byte ZifyBool ZifyNat ZifyN.
From Verif Require Import Base Scalar Reader Builder Ops SpecBuilder Abstract BaseFacts ScalarFacts ReaderFacts Refine Refine2 Build1 Build2 Build3 Build4 Build5 Build6 Build7 Build8.
Import ListNotations.
Local Open Scope Z_scope.

Section Strict.
Context (h : host).

Lemma room_strict d want : want <= 2 ^ 31 -> blen d + want <= 2 ^ 61 -> room true d want = Val tt.
Proof. intros. unfold room, assert_always. replace (_ && _) with true by lia. reflexivity. Qed.

Lemma room_unit lim d want u : room lim d want = Val u -> u = tt. Proof. destruct u. auto. Qed.

Lemma blen_app_le {A} (x y : list A) : blen y <= blen (x ++ y).
Proof. rewrite blen_app. pose proof (blen_nonneg x). lia. Qed.

Lemma a_space_strict a want a' : a_space false a want = Val a' -> blen (a_data a') <= 2 ^ 31 ->
  a_space true a want = Val a'.
Proof.
  unfold a_space. intros H L. apply bind_Val in H as ([] & Hr & H). injection H as <-.
  cbn [with_data a_data] in L. rewrite blen_app, blen_zeros in L. pose proof (blen_nonneg (a_data a)).
  rewrite room_strict by lia. reflexivity.
Qed.

Lemma a_pad_strict a len al a' : a_pad false h a len al = Val a' -> blen (a_data a') <= 2 ^ 31 ->
  a_pad true h a len al = Val a'.
Proof.
  unfold a_pad. intros H L. apply bind_Val in H as (n & Hn & H). rewrite Hn. cbn [bind].
  apply a_space_strict; auto.
Qed.

Lemma a_push_strict a x a' o : a_push false h a x = Val (a', o) -> blen (a_data a') <= 2 ^ 31 ->
  a_push true h a x = Val (a', o).
Proof.
  unfold a_push. intros H L. apply bind_Val in H as (a1 & H1 & H). apply bind_Val in H as ([] & Hr & H).
  apply bind_Val in H as (w & Hw & H). injection H as <- <-. cbn [with_data a_data] in L.
  pose proof (push_into_val h x (a_data a1) w Hw) as Ew.
  pose proof (blen_nonneg (a_data a1)).
  assert (Lw : blen w = push_size x) by (rewrite Ew; apply blen_pbytes).
  rewrite blen_app in L.
  assert (0 < push_size x) by (destruct x; cbn; [apply ssize_pos|lia]).
  rewrite (a_pad_strict _ _ _ _ H1) by lia. cbn [bind]. rewrite room_strict by lia. cbn [bind].
  rewrite Hw. reflexivity.
Qed.

Lemma a_bytes_strict a x a' : a_bytes false a x = Val a' -> blen (a_data a') <= 2 ^ 31 -> a_bytes true a x = Val a'.
Proof.
  unfold a_bytes. intros H L. apply bind_Val in H as ([] & Hr & H). injection H as <-.
  cbn [with_data a_data] in L. rewrite blen_app in L. pose proof (blen_nonneg (a_data a)). pose proof (blen_nonneg x).
  rewrite room_strict by lia. reflexivity.
Qed.

Lemma a_push_all_strict l : forall a a', a_push_all false h a l = Val a' -> blen (a_data a') <= 2 ^ 31 ->
  a_push_all true h a l = Val a'.
Proof.
  induction l as [|x l IH]; intros a a' H L; cbn [a_push_all] in *; [auto|].
  apply bind_Val in H as ([a1 o] & H1 & H). pose proof (grows_blen _ _ (a_push_all_grows _ _ _ _ _ H)).
  rewrite (a_push_strict _ _ _ _ H1) by lia. cbn [bind]. auto.
Qed.

Lemma a_create_byte_string_strict a s a' o : a_create_byte_string false h a s = Val (a', o) -> blen (a_data a') <= 2 ^ 31 ->
  a_create_byte_string true h a s = Val (a', o).
Proof.
  unfold a_create_byte_string. intros H L. apply bind_Val in H as (u & Hu & H).
  apply bind_Val in H as (n & Hn & H). apply bind_Val in H as (a1 & H1 & H).
  apply bind_Val in H as ([a2 o2] & H2 & H). apply bind_Val in H as (a3 & H3 & H).
  apply bind_Val in H as ([a4 o4] & H4 & H). injection H as <- <-.
  pose proof (grows_blen _ _ (a_push_grows _ _ _ _ _ _ H4)). pose proof (grows_blen _ _ (a_bytes_grows _ _ _ _ H3)).
  pose proof (grows_blen _ _ (a_push_grows _ _ _ _ _ _ H2)).
  rewrite Hu. cbn [bind]. rewrite Hn. cbn [bind].
  rewrite (a_pad_strict _ _ _ _ H1) by lia. cbn [bind]. rewrite (a_push_strict _ _ _ _ H2) by lia. cbn [bind].
  rewrite (a_bytes_strict _ _ _ H3) by lia. cbn [bind]. rewrite (a_push_strict _ _ _ _ H4) by lia. reflexivity.
Qed.

Lemma a_create_string_strict a s a' o : a_create_string false h a s = Val (a', o) -> blen (a_data a') <= 2 ^ 31 ->
  a_create_string true h a s = Val (a', o).
Proof.
  unfold a_create_string. intros H L. apply bind_Val in H as (u & Hu & H). rewrite Hu. cbn [bind].
  apply a_create_byte_string_strict; auto.
Qed.

Lemma a_create_vector_direct_strict a t items a' o : a_create_vector_direct false h a t items = Val (a', o) ->
  blen (a_data a') <= 2 ^ 31 -> a_create_vector_direct true h a t items = Val (a', o).
Proof.
  unfold a_create_vector_direct. intros H L. apply bind_Val in H as (u & Hu & H).
  apply bind_Val in H as (n & Hn & H). apply bind_Val in H as (a1 & H1 & H).
  apply bind_Val in H as (a3 & H3 & H).
  apply bind_Val in H as ([a4 o4] & H4 & H). injection H as <- <-.
  pose proof (grows_blen _ _ (a_push_grows _ _ _ _ _ _ H4)). pose proof (grows_blen _ _ (a_bytes_grows _ _ _ _ H3)).
  rewrite Hu. cbn [bind]. rewrite Hn. cbn [bind].
  rewrite (a_pad_strict _ _ _ _ H1) by lia. cbn [bind].
  rewrite (a_bytes_strict _ _ _ H3) by lia. cbn [bind]. rewrite (a_push_strict _ _ _ _ H4) by lia. reflexivity.
Qed.

Lemma a_create_vector_strict a sz al items a' o : a_create_vector false h a sz al items = Val (a', o) ->
  blen (a_data a') <= 2 ^ 31 -> a_create_vector true h a sz al items = Val (a', o).
Proof.
  unfold a_create_vector. intros H L. apply bind_Val in H as (n & Hn & H).
  apply bind_Val in H as (a1 & H1 & H). apply bind_Val in H as (a2 & H2 & H).
  pose proof (grows_blen _ _ (a_push_grows _ _ _ _ _ _ H)). pose proof (grows_blen _ _ (a_push_all_grows _ _ _ _ _ H2)).
  rewrite Hn. cbn [bind].
  rewrite (a_pad_strict _ _ _ _ H1) by lia. cbn [bind].
  rewrite (a_push_all_strict _ _ _ H2) by lia. cbn [bind]. apply a_push_strict; auto.
Qed.

Lemma a_create_strings_rev_strict l : forall a acc a' r, a_create_strings_rev false h a l acc = Val (a', r) ->
  blen (a_data a') <= 2 ^ 31 -> a_create_strings_rev true h a l acc = Val (a', r).
Proof.
  induction l as [|s l IH]; intros a acc a' r H L; cbn [a_create_strings_rev] in *; [auto|].
  apply bind_Val in H as ([a1 o] & H1 & H). pose proof (grows_blen _ _ (a_create_strings_rev_grows _ _ _ _ _ _ _ H)).
  rewrite (a_create_string_strict _ _ _ _ H1) by lia. cbn [bind]. auto.
Qed.

Lemma a_create_vector_of_strings_strict a xs a' o : a_create_vector_of_strings false h a xs = Val (a', o) ->
  blen (a_data a') <= 2 ^ 31 -> a_create_vector_of_strings true h a xs = Val (a', o).
Proof.
  unfold a_create_vector_of_strings. intros H L. apply bind_Val in H as (u & Hu & H).
  apply bind_Val in H as ([a1 offs] & H1 & H).
  pose proof (grows_blen _ _ (a_create_vector_grows _ _ _ PTOffset _ _ _ H)).
  rewrite Hu. cbn [bind]. rewrite (a_create_strings_rev_strict _ _ _ _ _ H1) by lia. cbn [bind].
  apply a_create_vector_strict; auto.
Qed.

Lemma a_finish_strict a root ident sp a' : a_finish false h a root ident sp = Val a' ->
  blen (a_data a') <= 2 ^ 31 -> a_finish true h a root ident sp = Val a'.
Proof.
  unfold a_finish. intros H L.
  apply bind_Val in H as (u1 & Hu1 & H). apply bind_Val in H as (u2 & Hu2 & H).
  apply bind_Val in H as (a1 & H1 & H). apply bind_Val in H as (a2 & H2 & H).
  apply bind_Val in H as ([a3 o3] & H3 & H). apply bind_Val in H as (a4 & H4 & H). injection H as <-.
  cbn [with_fin a_data] in L. rewrite Hu1. cbn [bind]. rewrite Hu2. cbn [bind].
  assert (G4 : blen (a_data a3) <= blen (a_data a4)).
  { destruct sp; [|injection H4 as <-; lia].
    apply bind_Val in H4 as ([a5 o5] & H5 & H4). injection H4 as <-. apply a_push_grows in H5. apply grows_blen; auto. }
  pose proof (grows_blen _ _ (a_push_grows _ _ _ _ _ _ H3)).
  assert (G2 : blen (a_data a1) <= blen (a_data a2)).
  { destruct ident; [|injection H2 as <-; lia].
    apply bind_Val in H2 as (u & _ & H2). apply a_bytes_grows in H2. apply grows_blen; auto. }
  rewrite (a_pad_strict _ _ _ _ H1) by lia. cbn [bind].
  assert (S2 : match ident with
     | Some i => let* _ := debug_assert h (blen i =? FILE_IDENTIFIER_LENGTH) in a_bytes true a1 i
     | None => Val a1 end = Val a2).
  { destruct ident; [|auto]. apply bind_Val in H2 as (u & Hu & H2). rewrite Hu. cbn [bind].
    apply a_bytes_strict; auto. lia. }
  rewrite S2. cbn [bind]. rewrite (a_push_strict _ _ _ _ H3) by lia. cbn [bind].
  destruct sp; [|injection H4 as <-; reflexivity].
  apply bind_Val in H4 as ([a5 o5] & H5 & H4). injection H4 as <-.
  rewrite (a_push_strict _ _ _ _ H5) by lia. reflexivity.
Qed.

Lemma vtable_len_max2 l : Forall field_ok l -> get_vtable_byte_len l <= 65538.
Proof.
  intros Hok. destruct l as [|f l]; [cbn; lia|].
  destruct (vtable_len_attained (f :: l)) as (g & I & E); [discriminate|auto|].
  rewrite Forall_forall in Hok. destruct (Hok g I). lia.
Qed.

Lemma a_end_table_strict a tail a' o : Forall field_ok (a_fields a) -> a_end_table false h a tail = Val (a', o) ->
  blen (a_data a') <= 2 ^ 31 -> a_end_table true h a tail = Val (a', o).
Proof.
  unfold a_end_table. intros Hok H L. apply bind_Val in H as (u & Hu & H).
  apply bind_Val in H as ([a1 o1] & H1 & H). injection H as <- <-. cbn [with_fields with_nested a_data] in L.
  pose proof (a_write_vtable_len _ _ _ _ _ _ Hok H1) as Lm. rewrite Hu. cbn [bind].
  cut (a_write_vtable true h a tail = Val (a1, o1)); [intros ->; reflexivity|].
  unfold a_write_vtable in *. apply bind_Val in H1 as (u1 & Hu1 & H). rewrite Hu1. cbn [bind].
  apply bind_Val in H as ([a2 o2] & H2 & H).
  pose proof (a_push_val _ _ _ _ _ _ H2) as (E2 & _ & _). fold marker in E2.
  rewrite (a_push_strict _ _ _ _ H2) by (rewrite E2; lia). cbn [bind].
  apply bind_Val in H as (u3 & _ & H).
  rewrite room_strict.
  - cbn [bind]. exact H.
  - rewrite E2. change (a_fields (pushed a marker)) with (a_fields a). pose proof (vtable_len_max2 _ Hok). lia.
  - rewrite E2 at 2. change (a_fields (pushed a marker)) with (a_fields a). pose proof (vtable_len_max2 _ Hok).
    rewrite E2. lia.
Qed.

Lemma a_step_strict a o a' x : Forall field_ok (a_fields a) -> a_step false h a o = Val (a', x) ->
  blen (a_data a') <= 2 ^ 31 -> a_step true h a o = Val (a', x).
Proof.
  intros Hok H L. destruct o; cbn [a_step] in *; unfold a_num, a_unit in *; auto.
  - apply bind_Val in H as ([a1 n] & H & E). injection E as <- <-. rewrite (a_push_strict _ _ _ _ H L). reflexivity.
  - apply bind_Val in H as (a1 & H & E). injection E as <- <-. unfold a_push_slot in *.
    apply bind_Val in H as (u & Hu & H). rewrite Hu. cbn [bind].
    destruct (pval_eq x0 default); [injection H as <-; reflexivity|].
    unfold a_push_slot_always in *. apply bind_Val in H as (u2 & Hu2 & H). rewrite Hu2. cbn [bind].
    apply bind_Val in H as ([a2 o2] & H & E). injection E as <-. rewrite (a_push_strict _ _ _ _ H L). reflexivity.
  - apply bind_Val in H as (a1 & H & E). injection E as <- <-.
    unfold a_push_slot_always in *. apply bind_Val in H as (u2 & Hu2 & H). rewrite Hu2. cbn [bind].
    apply bind_Val in H as ([a2 o2] & H & E). injection E as <-. rewrite (a_push_strict _ _ _ _ H L). reflexivity.
  - apply bind_Val in H as ([a1 n] & H & E). injection E as <- <-. rewrite (a_end_table_strict _ _ _ _ Hok H L). reflexivity.
  - apply bind_Val in H as (a1 & H & E). injection E as <- <-. unfold a_start_vector in *.
    apply bind_Val in H as (u & Hu & H). rewrite Hu. cbn [bind]. apply bind_Val in H as (n & Hn & H). rewrite Hn. cbn [bind].
    rewrite (a_pad_strict _ _ _ _ H L). reflexivity.
  - apply bind_Val in H as ([a1 n] & H & E). injection E as <- <-. unfold a_end_vector in *.
    apply bind_Val in H as (u & Hu & H). rewrite Hu. cbn [bind]. rewrite (a_push_strict _ _ _ _ H L). reflexivity.
  - apply bind_Val in H as ([a1 n] & H & E). injection E as <- <-. rewrite (a_create_string_strict _ _ _ _ H L). reflexivity.
  - apply bind_Val in H as ([a1 n] & H & E). injection E as <- <-. rewrite (a_create_byte_string_strict _ _ _ _ H L). reflexivity.
  - apply bind_Val in H as ([a1 n] & H & E). injection E as <- <-. rewrite (a_create_vector_direct_strict _ _ _ _ _ H L). reflexivity.
  - apply bind_Val in H as ([a1 n] & H & E). injection E as <- <-. rewrite (a_create_vector_of_strings_strict _ _ _ _ H L). reflexivity.
  - apply bind_Val in H as ([a1 n] & H & E). injection E as <- <-. rewrite (a_create_vector_strict _ _ _ _ _ _ H L). reflexivity.
  - apply bind_Val in H as (a1 & H & E). injection E as <- <-. rewrite (a_finish_strict _ _ _ _ _ H L). reflexivity.
Qed.
End Strict.

(** A run whose states stay below 2 GiB completes from any state with the same
    contents. *)
Lemma step_same h b1 b2 o b1' x : inv b1 -> inv b2 -> view b1 = view b2 -> op_ok o = true ->
  step h b1 o = Val (b1', x) -> blen (unfinished_data b1') <= 2 ^ 31 ->
  exists b2', step h b2 o = Val (b2', x) /\ inv b1' /\ inv b2' /\ view b1' = view b2'.
Proof.
  intros I1 I2 E Ho H L. pose proof (step_abstract _ _ _ _ _ I1 Ho H) as [S I1'].
  pose proof (a_step_strict h (view b1) _ _ _ (inv_fields b1 I1) S L) as St. rewrite E in St, S.
  pose proof (step_ref h b2 (view b2) o (conj I2 eq_refl) Ho) as P. unfold ref in P.
  destruct (step h b2 o) as [[b2' x2]| |]; [|destruct P|exfalso; eapply P; eauto].
  destruct P as ([a' x'] & [R' E'] & Hl & _). cbn [fst snd] in *. subst x'. destruct R' as [I2' ->].
  rewrite S in Hl. exists b2'. assert (x2 = x) by congruence. subst x2. assert (view b1' = view b2') by congruence. auto.
Qed.

Definition small_run (h : host) (b : builder) (os : list op) : Prop :=
  forall os1 os2 b1 xs, os = os1 ++ os2 -> run h b os1 = Val (b1, xs) -> blen (unfinished_data b1) <= 2 ^ 31.

Lemma run_same h os : forall b1 b2 b1' xs, inv b1 -> inv b2 -> view b1 = view b2 -> forallb op_ok os = true ->
  run h b1 os = Val (b1', xs) -> small_run h b1 os ->
  exists b2', run h b2 os = Val (b2', xs) /\ view b1' = view b2'.
Proof.
  induction os as [|o os IH]; intros b1 b2 b1' xs I1 I2 E Ho H L; cbn [run forallb] in *.
  - injection H as <- <-. eauto.
  - apply andb_true_iff in Ho as [Ho Hos].
    apply bind_Val in H as ([c1 x] & H1 & H). apply bind_Val in H as ([d1 ys] & H2 & H). injection H as <- <-.
    destruct (step_same h b1 b2 o c1 x I1 I2 E Ho H1) as (c2 & S2 & J1 & J2 & E2).
    { apply (L [o] os c1 [x]); [reflexivity|]. cbn [run]. rewrite H1. reflexivity. }
    destruct (IH c1 c2 d1 ys J1 J2 E2 Hos H2) as (d2 & R2 & E3).
    { intros os1 os2 e zs -> R. apply (L (o :: os1) os2 e (x :: zs)); [reflexivity|]. cbn [run]. rewrite H1. cbn [bind]. rewrite R. reflexivity. }
    exists d2. rewrite S2. cbn [bind]. rewrite R2. auto.
Qed.

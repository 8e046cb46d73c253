(** Growth of the written data over steps and programs; alignment; padding. *)
From Coq Require Import ZArith List Bool Lia Strings.Byte ZifyBool ZifyNat ZifyN.
From Verif Require Import Base Scalar Reader Builder Ops SpecBuilder Abstract BaseFacts ScalarFacts Refine Refine2 Build1 Build2 Build3.
Import ListNotations.
Local Open Scope Z_scope.

Definition align_ok (al : Z) : Prop := al = 0 \/ pow8 al.

(** [a'] has the bytes of [a] at its end, and aligns at least as much. *)
Definition grows (a a' : astate) : Prop :=
  (exists p, a_data a' = p ++ a_data a) /\ a_align a <= a_align a' /\
  (align_ok (a_align a) -> align_ok (a_align a')).

Lemma grows_refl a : grows a a.
Proof. split; [exists []; reflexivity|]. split; [lia|auto]. Qed.
Lemma grows_trans a b c : grows a b -> grows b c -> grows a c.
Proof.
  intros ((p & E) & L & K) ((q & F) & M & N). split; [|split; [lia|auto]].
  exists (q ++ p). rewrite F, E. apply app_assoc.
Qed.
Lemma grows_blen a b : grows a b -> blen (a_data a) <= blen (a_data b).
Proof. intros ((p & E) & _). rewrite E, blen_app. pose proof (blen_nonneg p). lia. Qed.
(** Only the written bytes and the alignment matter. *)
Lemma grows_same a b c d : grows a b -> a_data a = a_data c -> a_align a = a_align c ->
  a_data b = a_data d -> a_align b = a_align d -> grows c d.
Proof. intros (E & L & K) H1 H2 H3 H4. unfold grows. rewrite <- H1, <- H2, <- H3, <- H4. auto. Qed.

Lemma align_ok_max a b : align_ok a -> align_ok b -> align_ok (Z.max a b).
Proof. unfold align_ok, pow8. lia. Qed.

Section Grow.
Context (lim : bool) (h : host).

Lemma a_space_grows a want a' : a_space lim a want = Val a' -> grows a a'.
Proof.
  unfold a_space. intros H. apply bind_Val in H as (u & _ & H). injection H as <-.
  split; [exists (zeros want); reflexivity|]. cbn. split; [lia|auto].
Qed.

Lemma a_pad_grows a len al a' : (align_ok (a_align a) -> align_ok al) -> a_pad lim h a len al = Val a' -> grows a a'.
Proof.
  unfold a_pad. intros Hal H. apply bind_Val in H as (n & _ & H). apply a_space_grows in H.
  eapply grows_trans; [|exact H]. split; [exists []; reflexivity|]. cbn. split; [lia|].
  intros. apply align_ok_max; auto.
Qed.

Lemma pow8_align_ok al : pow8 al -> align_ok al. Proof. right. auto. Qed.

Lemma a_push_grows a x a' o : a_push lim h a x = Val (a', o) -> grows a a'.
Proof.
  intros H. apply a_push_val in H as (-> & _ & _). unfold pushed. cbv zeta.
  split; [|cbn [with_data with_align a_align]; split].
  - cbn [with_data with_align a_data]. eexists. rewrite app_assoc. reflexivity.
  - lia.
  - intros. apply align_ok_max; auto. right. apply push_alignment_pow8.
Qed.

Lemma a_bytes_grows a x a' : a_bytes lim a x = Val a' -> grows a a'.
Proof.
  intros H. apply a_bytes_val in H as [-> _]. split; [exists x; reflexivity|]. cbn. split; [lia|auto].
Qed.

Lemma a_push_all_grows l : forall a a', a_push_all lim h a l = Val a' -> grows a a'.
Proof.
  induction l as [|x l IH]; intros a a' H; cbn [a_push_all] in H.
  - injection H as <-. apply grows_refl.
  - apply bind_Val in H as ([a1 o] & H1 & H). eapply grows_trans; [eapply a_push_grows|]; eauto.
Qed.

Lemma a_push_slot_always_grows a s x a' : a_push_slot_always lim h a s x = Val a' -> grows a a'.
Proof.
  unfold a_push_slot_always. intros H. apply bind_Val in H as (u & _ & H).
  apply bind_Val in H as ([a1 o] & H1 & H). injection H as <-. apply a_push_grows in H1.
  eapply grows_same; eauto.
Qed.

Lemma a_create_byte_string_grows a s a' o : a_create_byte_string lim h a s = Val (a', o) -> grows a a'.
Proof.
  unfold a_create_byte_string. intros H. apply bind_Val in H as (u & _ & H).
  apply bind_Val in H as (n & _ & H). apply bind_Val in H as (a1 & H1 & H).
  apply bind_Val in H as ([a2 o2] & H2 & H). apply bind_Val in H as (a3 & H3 & H).
  apply bind_Val in H as ([a4 o4] & H4 & H). injection H as <- <-.
  apply a_pad_grows in H1; [|intros; right; exact pow8_4]. apply a_push_grows in H2, H4.
  apply a_bytes_grows in H3. eauto using grows_trans.
Qed.

Lemma a_create_string_grows a s a' o : a_create_string lim h a s = Val (a', o) -> grows a a'.
Proof. intros H. apply a_create_string_val in H. eapply a_create_byte_string_grows; eauto. Qed.

Lemma a_create_vector_direct_grows a t items a' o : a_create_vector_direct lim h a t items = Val (a', o) -> grows a a'.
Proof.
  unfold a_create_vector_direct. intros H. apply bind_Val in H as (u & _ & H).
  apply bind_Val in H as (n & _ & H). apply bind_Val in H as (a1 & H1 & H).
  apply bind_Val in H as (a3 & H3 & H).
  apply bind_Val in H as ([a4 o4] & H4 & H). injection H as <- <-.
  apply a_pad_grows in H1; [|intros; right; apply max4_pow8, salign_pow8]. apply a_push_grows in H4.
  apply a_bytes_grows in H3. eauto using grows_trans.
Qed.

Lemma a_create_vector_grows a t items a' o :
  a_create_vector lim h a (pty_size t) (pty_align t) items = Val (a', o) -> grows a a'.
Proof.
  unfold a_create_vector. intros H. apply bind_Val in H as (n & _ & H).
  apply bind_Val in H as (a1 & H1 & H). apply bind_Val in H as (a2 & H2 & H).
  apply a_pad_grows in H1; [|intros; right; apply max4_pow8, pty_align_pow8].
  apply a_push_all_grows in H2. apply a_push_grows in H. eauto using grows_trans.
Qed.

Lemma a_create_strings_rev_grows l : forall a acc a' r, a_create_strings_rev lim h a l acc = Val (a', r) -> grows a a'.
Proof.
  induction l as [|s l IH]; intros a acc a' r H; cbn [a_create_strings_rev] in H.
  - injection H as <- <-. apply grows_refl.
  - apply bind_Val in H as ([a1 o] & H1 & H). eapply grows_trans; [eapply a_create_string_grows|]; eauto.
Qed.

Lemma a_create_vector_of_strings_grows a xs a' o : a_create_vector_of_strings lim h a xs = Val (a', o) -> grows a a'.
Proof.
  unfold a_create_vector_of_strings. intros H. apply bind_Val in H as (u & _ & H).
  apply bind_Val in H as ([a1 offs] & H1 & H). apply a_create_strings_rev_grows in H1.
  apply (a_create_vector_grows _ PTOffset) in H. eauto using grows_trans.
Qed.

Lemma a_finish_grows a root ident sp a' : a_finish lim h a root ident sp = Val a' -> grows a a'.
Proof.
  unfold a_finish. intros H.
  apply bind_Val in H as (u1 & _ & H). apply bind_Val in H as (u2 & _ & H).
  apply bind_Val in H as (a1 & H1 & H). apply bind_Val in H as (a2 & H2 & H).
  apply bind_Val in H as ([a3 o3] & H3 & H). apply bind_Val in H as (a4 & H4 & H). injection H as <-.
  apply a_pad_grows in H1; [|auto].
  assert (G2 : grows a1 a2).
  { destruct ident; [|injection H2 as <-; apply grows_refl].
    apply bind_Val in H2 as (u & _ & H2). eapply a_bytes_grows; eauto. }
  apply a_push_grows in H3.
  assert (G4 : grows a3 a4).
  { destruct sp; [|injection H4 as <-; apply grows_refl].
    apply bind_Val in H4 as ([a5 o5] & H5 & H4). injection H4 as <-. eapply a_push_grows; eauto. }
  pose proof (grows_trans _ _ _ (grows_trans _ _ _ H1 G2) (grows_trans _ _ _ H3 G4)) as G.
  eapply grows_same; eauto.
Qed.

Lemma a_write_vtable_len a tail a' o : Forall field_ok (a_fields a) ->
  a_write_vtable lim h a tail = Val (a', o) ->
  blen (a_data (pushed a marker)) <= blen (a_data a').
Proof.
  intros Hok H. unfold a_write_vtable in H.
  apply bind_Val in H as ([] & Hn & H). apply bind_Val in H as ([a1 obj] & H1 & H).
  apply a_push_val in H1 as (E1 & Hobj & _). subst a1. fold marker in *.
  set (d1 := a_data (pushed a marker)) in *.
  apply bind_Val in H as (u & Hr & H). apply bind_Val in H as (size & Hsz & H).
  apply bind_Val in H as ([] & Hd & H). apply bind_Val in H as (vt & Hvt & H).
  apply bind_Val in H as (dup & Hdup & H).
  match type of H with (let (x, y) := ?m in _) = _ => destruct m as [a2 vr] eqn:E2 end.
  apply bind_Val in H as (saw & _ & H). apply bind_Val in H as (u2 & _ & H).
  apply bind_Val in H as (df & Hdf & H). apply bind_Val in H as (dst & Hdst & H).
  apply bind_Val in H as (x & Hx & H). injection H as <- <-.
  cbn [with_fields with_data a_data].
  assert (L2 : blen d1 <= blen (a_data a2)).
  { destruct dup; injection E2 as <- <-; cbn [with_vts with_data a_data]; fold d1; [lia|].
    rewrite blen_app. pose proof (blen_nonneg vt). lia. }
  assert (Ho : obj <= blen d1).
  { subst obj. unfold as_u32. pose proof (Z.mod_le (blen d1) (2 ^ 32)). pose proof (blen_nonneg d1). lia. }
  apply index_range_blen in Hdst; [|lia]. apply emplace_blen in Hx. unfold SIZE_SOFFSET in *.
  rewrite blen_set_range; lia.
Qed.

Lemma a_end_table_grows a tail a' o : Forall field_ok (a_fields a) ->
  a_end_table lim h a tail = Val (a', o) -> blen (a_data a') < 2 ^ 32 -> grows a a'.
Proof.
  unfold a_end_table. intros Hok H Hl. apply bind_Val in H as (u & _ & H).
  apply bind_Val in H as ([a1 o1] & H1 & H). injection H as <- <-.
  pose proof (a_write_vtable_len _ _ _ _ Hok H1). cbn [with_fields with_nested a_data] in Hl.
  apply a_write_vtable_val in H1; [|auto|lia].
  destruct H1 as (size & vt & dup & _ & _ & _ & _ & _ & _ & -> & _).
  unfold table_state. cbv zeta. split; [|cbn; split].
  - cbn [with_fields with_nested a_data]. eexists. rewrite !app_assoc. reflexivity.
  - lia.
  - intros. apply align_ok_max; auto. right. exact pow8_4.
Qed.
End Grow.

Lemma a_step_grows lim h a o a' x : Forall field_ok (a_fields a) -> is_reset o = false ->
  a_step lim h a o = Val (a', x) -> blen (a_data a') < 2 ^ 32 -> grows a a'.
Proof.
  intros Hok Hr H Hl. destruct o; cbn [is_reset] in Hr; try discriminate; cbn [a_step] in H;
    unfold a_num, a_unit in H.
  - apply bind_Val in H as ([a1 n] & H & E). injection E as <- <-. eapply a_push_grows; eauto.
  - apply bind_Val in H as (a1 & H & E). injection E as <- <-. unfold a_push_slot in H.
    apply bind_Val in H as (u & _ & H). destruct (pval_eq x0 default); [injection H as <-; apply grows_refl|].
    eapply a_push_slot_always_grows; eauto.
  - apply bind_Val in H as (a1 & H & E). injection E as <- <-. eapply a_push_slot_always_grows; eauto.
  - injection H as <- <-. apply grows_refl.
  - apply bind_Val in H as ([a1 n] & H & E). injection E as <- <-. unfold a_start_table in H.
    apply bind_Val in H as (u & _ & H). injection H as <- <-.
    eapply grows_same; [apply grows_refl|reflexivity..].
  - apply bind_Val in H as ([a1 n] & H & E). injection E as <- <-. eapply a_end_table_grows; eauto.
  - apply bind_Val in H as (a1 & H & E). injection E as <- <-. unfold a_start_vector in H.
    apply bind_Val in H as (u & _ & H). apply bind_Val in H as (n & _ & H).
    apply a_pad_grows in H; [|intros; right; apply max4_pow8, pty_align_pow8].
    eapply grows_same; [exact H|reflexivity..].
  - apply bind_Val in H as ([a1 n] & H & E). injection E as <- <-. unfold a_end_vector in H.
    apply bind_Val in H as (u & _ & H). apply a_push_grows in H. eapply grows_same; [exact H|reflexivity..].
  - apply bind_Val in H as ([a1 n] & H & E). injection E as <- <-. eapply a_create_string_grows; eauto.
  - apply bind_Val in H as ([a1 n] & H & E). injection E as <- <-. eapply a_create_byte_string_grows; eauto.
  - apply bind_Val in H as ([a1 n] & H & E). injection E as <- <-. eapply a_create_vector_direct_grows; eauto.
  - apply bind_Val in H as ([a1 n] & H & E). injection E as <- <-. eapply a_create_vector_of_strings_grows; eauto.
  - apply bind_Val in H as ([a1 n] & H & E). injection E as <- <-. eapply a_create_vector_grows; eauto.
  - injection H as <- <-. apply grows_refl.
  - apply bind_Val in H as (u & _ & H). injection H as <- <-. apply grows_refl.
  - apply bind_Val in H as (u & _ & H). injection H as <- <-. apply grows_refl.
  - apply bind_Val in H as (a1 & H & E). injection E as <- <-. eapply a_finish_grows; eauto.
Qed.

(** ** Concrete steps *)
Definition good (b : builder) : Prop := inv b /\ align_ok (min_align b).

Lemma step_abstract h b o b' x : inv b -> op_ok o = true -> step h b o = Val (b', x) ->
  a_step false h (view b) o = Val (view b', x) /\ inv b'.
Proof.
  intros I Ho H. pose proof (step_ref h b (view b) o (conj I eq_refl) Ho) as P. rewrite H in P. cbn [ref] in P.
  destruct P as ([a' x'] & [R' E] & Hl & _). cbn [fst snd] in *. subst x'. destruct R' as [I' ->]. auto.
Qed.

(** The alignment stays a power of two even beyond 4 GiB. *)
Lemma a_step_align lim h a o a' x : align_ok (a_align a) -> a_step lim h a o = Val (a', x) -> align_ok (a_align a').
Proof.
  intros Ha H. destruct o; cbn [a_step] in H; unfold a_num, a_unit in H.
  - injection H as <- <-. left. reflexivity.
  - apply bind_Val in H as ([a1 n] & H & E). injection E as <- <-. apply a_push_grows in H. apply H; auto.
  - apply bind_Val in H as (a1 & H & E). injection E as <- <-. unfold a_push_slot in H.
    apply bind_Val in H as (u & _ & H). destruct (pval_eq x0 default); [injection H as <-; auto|].
    apply a_push_slot_always_grows in H. apply H; auto.
  - apply bind_Val in H as (a1 & H & E). injection E as <- <-. apply a_push_slot_always_grows in H. apply H; auto.
  - injection H as <- <-. auto.
  - apply bind_Val in H as ([a1 n] & H & E). injection E as <- <-. unfold a_start_table in H.
    apply bind_Val in H as (u & _ & H). injection H as <- <-. auto.
  - apply bind_Val in H as ([a1 n] & H & E). injection E as <- <-. unfold a_end_table in H.
    apply bind_Val in H as (u & _ & H). apply bind_Val in H as ([a2 o2] & H & E). injection E as <- <-.
    unfold a_write_vtable in H.
    apply bind_Val in H as (u1 & _ & H). apply bind_Val in H as ([a3 obj] & H3 & H).
    apply bind_Val in H as (u3 & _ & H). apply bind_Val in H as (size & _ & H).
    apply bind_Val in H as (u4 & _ & H). apply bind_Val in H as (vt & _ & H).
    apply bind_Val in H as (dup & _ & H).
    match type of H with (let (x, y) := ?m in _) = _ => destruct m as [a4 vr] eqn:E4 end.
    apply bind_Val in H as (saw & _ & H). apply bind_Val in H as (u5 & _ & H).
    apply bind_Val in H as (df & _ & H). apply bind_Val in H as (dst & _ & H).
    apply bind_Val in H as (y & _ & H). injection H as <- <-. cbn.
    apply a_push_grows in H3. destruct H3 as (_ & _ & K).
    destruct dup; injection E4 as <- <-; cbn; auto.
  - apply bind_Val in H as (a1 & H & E). injection E as <- <-. unfold a_start_vector in H.
    apply bind_Val in H as (u & _ & H). apply bind_Val in H as (n & _ & H).
    apply a_pad_grows in H; [apply H; auto|intros; right; apply max4_pow8, pty_align_pow8].
  - apply bind_Val in H as ([a1 n] & H & E). injection E as <- <-. unfold a_end_vector in H.
    apply bind_Val in H as (u & _ & H). apply a_push_grows in H. apply H; auto.
  - apply bind_Val in H as ([a1 n] & H & E). injection E as <- <-. apply a_create_string_grows in H. apply H; auto.
  - apply bind_Val in H as ([a1 n] & H & E). injection E as <- <-. apply a_create_byte_string_grows in H. apply H; auto.
  - apply bind_Val in H as ([a1 n] & H & E). injection E as <- <-. apply a_create_vector_direct_grows in H. apply H; auto.
  - apply bind_Val in H as ([a1 n] & H & E). injection E as <- <-. apply a_create_vector_of_strings_grows in H. apply H; auto.
  - apply bind_Val in H as ([a1 n] & H & E). injection E as <- <-. apply a_create_vector_grows in H. apply H; auto.
  - injection H as <- <-. auto.
  - apply bind_Val in H as (u & _ & H). injection H as <- <-. auto.
  - apply bind_Val in H as (u & _ & H). injection H as <- <-. auto.
  - apply bind_Val in H as (a1 & H & E). injection E as <- <-. apply a_finish_grows in H. apply H; auto.
Qed.

Lemma step_good h b o b' x : good b -> op_ok o = true -> step h b o = Val (b', x) -> good b'.
Proof.
  intros [I A] Ho H. apply step_abstract in H as [H I']; auto. split; [auto|].
  apply a_step_align in H; auto.
Qed.

Lemma run_good h os : forall b b' xs, good b -> forallb op_ok os = true -> run h b os = Val (b', xs) -> good b'.
Proof.
  induction os as [|o os IH]; intros b b' xs G Ho H; cbn [run forallb] in *.
  - injection H as <- <-. auto.
  - apply andb_true_iff in Ho as [Ho Hos]. apply bind_Val in H as ([b1 x] & H1 & H).
    apply bind_Val in H as ([b2 ys] & H2 & H). injection H as <- <-.
    eapply IH; [|exact Hos|exact H2]. eapply step_good; eauto.
Qed.

Lemma new_good capacity b : 0 <= capacity -> new_with_capacity capacity = Val b -> good b.
Proof.
  intros Hc H. pose proof (new_Rb _ _ Hc H) as [I E]. split; [auto|]. apply (f_equal a_align) in E. left. symmetry. exact E.
Qed.

Lemma program_good h capacity os b xs :
  0 <= capacity -> forallb op_ok os = true -> program h capacity os = Val (b, xs) -> good b.
Proof.
  intros Hc Ho H. unfold program in H. apply bind_Val in H as (b0 & Hb & H).
  eapply run_good; [eapply new_good|..]; eauto.
Qed.

Lemma step_grows h b o b' x : inv b -> op_ok o = true -> is_reset o = false ->
  step h b o = Val (b', x) -> blen (unfinished_data b') < 2 ^ 32 -> grows (view b) (view b').
Proof.
  intros I Ho Hr H Hl. apply step_abstract in H as [H I']; auto.
  eapply a_step_grows; eauto. apply (inv_fields b I).
Qed.


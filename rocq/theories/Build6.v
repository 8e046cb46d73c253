(** What the operations do to the recorded fields and vtables; the vtable
    invariant along runs. *)
From Coq Require Import ZArith List Bool Lia Strings.Byte ZifyBool ZifyNat ZifyN.
From Verif Require Import Base Scalar Reader Builder Ops SpecBuilder Abstract BaseFacts ScalarFacts ReaderFacts Refine Refine2 Build1 Build2 Build3 Build4 Build5.
Import ListNotations.
Local Open Scope Z_scope.

Definition keeps (a a' : astate) : Prop :=
  a_vts a' = a_vts a /\ a_fields a' = a_fields a /\ a_fin a' = a_fin a.
Lemma keeps_refl a : keeps a a. Proof. repeat split. Qed.
Lemma keeps_trans a b c : keeps a b -> keeps b c -> keeps a c.
Proof. unfold keeps. intuition congruence. Qed.

Section Keep.
Context (lim : bool) (h : host).

Lemma a_space_keeps a want a' : a_space lim a want = Val a' -> keeps a a'.
Proof. unfold a_space. intros H. apply bind_Val in H as (u & _ & H). injection H as <-. repeat split. Qed.
Lemma a_pad_keeps a len al a' : a_pad lim h a len al = Val a' -> keeps a a'.
Proof.
  unfold a_pad. intros H. apply bind_Val in H as (n & _ & H). apply a_space_keeps in H.
  eapply keeps_trans; [|exact H]. repeat split.
Qed.
Lemma a_push_keeps a x a' o : a_push lim h a x = Val (a', o) -> keeps a a'.
Proof. intros H. apply a_push_val in H as (-> & _ & _). repeat split. Qed.
Lemma a_bytes_keeps a x a' : a_bytes lim a x = Val a' -> keeps a a'.
Proof. intros H. apply a_bytes_val in H as [-> _]. repeat split. Qed.
Lemma a_push_all_keeps l : forall a a', a_push_all lim h a l = Val a' -> keeps a a'.
Proof.
  induction l as [|x l IH]; intros a a' H; cbn [a_push_all] in H.
  - injection H as <-. apply keeps_refl.
  - apply bind_Val in H as ([a1 o] & H1 & H). eapply keeps_trans; [eapply a_push_keeps|]; eauto.
Qed.
Lemma a_create_byte_string_keeps a s a' o : a_create_byte_string lim h a s = Val (a', o) -> keeps a a'.
Proof.
  unfold a_create_byte_string. intros H. apply bind_Val in H as (u & _ & H).
  apply bind_Val in H as (n & _ & H). apply bind_Val in H as (a1 & H1 & H).
  apply bind_Val in H as ([a2 o2] & H2 & H). apply bind_Val in H as (a3 & H3 & H).
  apply bind_Val in H as ([a4 o4] & H4 & H). injection H as <- <-.
  apply a_pad_keeps in H1. apply a_push_keeps in H2, H4.
  apply a_bytes_keeps in H3. eauto using keeps_trans.
Qed.
Lemma a_create_string_keeps a s a' o : a_create_string lim h a s = Val (a', o) -> keeps a a'.
Proof. intros H. apply a_create_string_val in H. eapply a_create_byte_string_keeps; eauto. Qed.
Lemma a_create_vector_direct_keeps a t items a' o : a_create_vector_direct lim h a t items = Val (a', o) -> keeps a a'.
Proof.
  unfold a_create_vector_direct. intros H. apply bind_Val in H as (u & _ & H).
  apply bind_Val in H as (n & _ & H). apply bind_Val in H as (a1 & H1 & H).
  apply bind_Val in H as (a3 & H3 & H).
  apply bind_Val in H as ([a4 o4] & H4 & H). injection H as <- <-.
  apply a_pad_keeps in H1. apply a_push_keeps in H4.
  apply a_bytes_keeps in H3. eauto using keeps_trans.
Qed.
Lemma a_create_vector_keeps a sz al items a' o :
  a_create_vector lim h a sz al items = Val (a', o) -> keeps a a'.
Proof.
  unfold a_create_vector. intros H. apply bind_Val in H as (n & _ & H).
  apply bind_Val in H as (a1 & H1 & H). apply bind_Val in H as (a2 & H2 & H).
  apply a_pad_keeps in H1.
  apply a_push_all_keeps in H2. apply a_push_keeps in H. eauto using keeps_trans.
Qed.
Lemma a_create_strings_rev_keeps l : forall a acc a' r, a_create_strings_rev lim h a l acc = Val (a', r) -> keeps a a'.
Proof.
  induction l as [|s l IH]; intros a acc a' r H; cbn [a_create_strings_rev] in H.
  - injection H as <- <-. apply keeps_refl.
  - apply bind_Val in H as ([a1 o] & H1 & H). eapply keeps_trans; [eapply a_create_string_keeps|]; eauto.
Qed.
Lemma a_create_vector_of_strings_keeps a xs a' o : a_create_vector_of_strings lim h a xs = Val (a', o) -> keeps a a'.
Proof.
  unfold a_create_vector_of_strings. intros H. apply bind_Val in H as (u & _ & H).
  apply bind_Val in H as ([a1 offs] & H1 & H). apply a_create_strings_rev_keeps in H1.
  apply a_create_vector_keeps in H. eauto using keeps_trans.
Qed.

(** A pushed slot is recorded with its distance from the end. *)
Lemma a_push_slot_always_val a s x a' : a_push_slot_always lim h a s x = Val a' ->
  a' = a_track (pushed a x) s (as_u32 (blen (a_data (pushed a x)))) /\
  blen (a_data (pushed a x)) < 2 ^ 63 /\ debug_assert h (a_nested a) = Val tt.
Proof.
  unfold a_push_slot_always. intros H. apply bind_Val in H as ([] & Hn & H).
  apply bind_Val in H as ([a1 o] & H1 & H). injection H as <-.
  apply a_push_val in H1 as (-> & -> & L). auto.
Qed.

Lemma a_finish_vts a root ident sp a' : a_finish lim h a root ident sp = Val a' ->
  a_vts a' = [] /\ a_fields a' = a_fields a /\ a_fin a' = true.
Proof.
  unfold a_finish. intros H.
  apply bind_Val in H as (u1 & _ & H). apply bind_Val in H as (u2 & _ & H).
  apply bind_Val in H as (a1 & H1 & H). apply bind_Val in H as (a2 & H2 & H).
  apply bind_Val in H as ([a3 o3] & H3 & H). apply bind_Val in H as (a4 & H4 & H). injection H as <-.
  apply a_pad_keeps in H1.
  assert (G2 : keeps a1 a2).
  { destruct ident; [|injection H2 as <-; apply keeps_refl].
    apply bind_Val in H2 as (u & _ & H2). eapply a_bytes_keeps; eauto. }
  apply a_push_keeps in H3.
  assert (G4 : keeps a3 a4).
  { destruct sp; [|injection H4 as <-; apply keeps_refl].
    apply bind_Val in H4 as ([a5 o5] & H5 & H4). injection H4 as <-. eapply a_push_keeps; eauto. }
  pose proof (keeps_trans _ _ _ (keeps_trans _ _ _ H1 G2) (keeps_trans _ _ _ H3 G4)) as (K1 & K2 & K3).
  cbn. auto.
Qed.
End Keep.

(** Operations that touch neither fields nor vtables. *)
Definition plain (o : op) : bool :=
  match o with
  | OpReset | OpEndTable _ | OpFinish _ _ _ | OpPushSlot _ _ _ | OpPushSlotAlways _ _ => false
  | _ => true
  end.

Lemma a_step_keeps lim h a o a' x : plain o = true -> a_step lim h a o = Val (a', x) -> keeps a a'.
Proof.
  intros Hp H. destruct o; cbn [plain] in Hp; try discriminate; cbn [a_step] in H; unfold a_num, a_unit in H.
  - apply bind_Val in H as ([a1 n] & H & E). injection E as <- <-. eapply a_push_keeps; eauto.
  - injection H as <- <-. apply keeps_refl.
  - apply bind_Val in H as ([a1 n] & H & E). injection E as <- <-. unfold a_start_table in H.
    apply bind_Val in H as (u & _ & H). injection H as <- <-. repeat split.
  - apply bind_Val in H as (a1 & H & E). injection E as <- <-. unfold a_start_vector in H.
    apply bind_Val in H as (u & _ & H). apply bind_Val in H as (n & _ & H).
    apply a_pad_keeps in H. eapply keeps_trans; [|exact H]. repeat split.
  - apply bind_Val in H as ([a1 n] & H & E). injection E as <- <-. unfold a_end_vector in H.
    apply bind_Val in H as (u & _ & H). apply a_push_keeps in H. eapply keeps_trans; [|exact H]. repeat split.
  - apply bind_Val in H as ([a1 n] & H & E). injection E as <- <-. eapply a_create_string_keeps; eauto.
  - apply bind_Val in H as ([a1 n] & H & E). injection E as <- <-. eapply a_create_byte_string_keeps; eauto.
  - apply bind_Val in H as ([a1 n] & H & E). injection E as <- <-. eapply a_create_vector_direct_keeps; eauto.
  - apply bind_Val in H as ([a1 n] & H & E). injection E as <- <-. eapply a_create_vector_of_strings_keeps; eauto.
  - apply bind_Val in H as ([a1 n] & H & E). injection E as <- <-. eapply a_create_vector_keeps; eauto.
  - injection H as <- <-. apply keeps_refl.
  - apply bind_Val in H as (u & _ & H). injection H as <- <-. apply keeps_refl.
  - apply bind_Val in H as (u & _ & H). injection H as <- <-. apply keeps_refl.
Qed.

(** Every step but [reset], [end_table] and [finish] keeps the vtables. *)
Definition keeps_vts (o : op) : bool :=
  match o with OpReset | OpEndTable _ | OpFinish _ _ _ => false | _ => true end.
Lemma a_step_vts lim h a o a' x : keeps_vts o = true -> a_step lim h a o = Val (a', x) -> a_vts a' = a_vts a.
Proof.
  intros Hk H. destruct (plain o) eqn:P; [eapply a_step_keeps in H; eauto; apply H|].
  destruct o; cbn in Hk, P; try discriminate; cbn [a_step] in H; unfold a_unit in H.
  - apply bind_Val in H as (a1 & H & E). injection E as <- <-. unfold a_push_slot in H.
    apply bind_Val in H as (u & _ & H). destruct (pval_eq x0 default); [injection H as <-; auto|].
    apply a_push_slot_always_val in H as (-> & _). reflexivity.
  - apply bind_Val in H as (a1 & H & E). injection E as <- <-.
    apply a_push_slot_always_val in H as (-> & _). reflexivity.
Qed.

Lemma a_step_fits lim h a o a' x : Forall field_fits (a_fields a) -> op_slots o = true ->
  a_step lim h a o = Val (a', x) -> Forall field_fits (a_fields a').
Proof.
  intros F Hs H. destruct (plain o) eqn:P.
  { apply a_step_keeps in H as (_ & -> & _); auto. }
  destruct o; cbn in P; try discriminate; cbn [a_step op_slots] in H, Hs; unfold a_unit, a_num in H.
  - injection H as <- <-. auto.
  - apply bind_Val in H as (a1 & H & E). injection E as <- <-. unfold a_push_slot in H.
    apply bind_Val in H as (u & _ & H). destruct (pval_eq x0 default); [injection H as <-; auto|].
    apply a_push_slot_always_val in H as (-> & _). cbn. apply Forall_app. split; [auto|]. constructor; [|constructor]. exact Hs.
  - apply bind_Val in H as (a1 & H & E). injection E as <- <-.
    apply a_push_slot_always_val in H as (-> & _). cbn. apply Forall_app. split; [auto|]. constructor; [|constructor]. exact Hs.
  - apply bind_Val in H as ([a1 n] & H & E). injection E as <- <-. unfold a_end_table in H.
    apply bind_Val in H as (u & _ & H). apply bind_Val in H as ([a2 o2] & H & E). injection E as <- <-. constructor.
  - apply bind_Val in H as (a1 & H & E). injection E as <- <-. apply a_finish_vts in H as (_ & -> & _). auto.
Qed.

Lemma a_step_vts_inv lim h a o a' x : Forall field_ok (a_fields a) -> op_slots o = true ->
  vts_inv a -> a_step lim h a o = Val (a', x) -> vts_inv a'.
Proof.
  intros Hok Hs [F K] H. split; [eapply a_step_fits; eauto|]. intros L.
  destruct (is_reset o) eqn:R.
  { destruct o; cbn in R; try discriminate. cbn [a_step] in H. injection H as <- <-. cbn.
    split; [constructor|]. intros i j r s v Hi. destruct i; discriminate. }
  pose proof (a_step_grows _ _ _ _ _ _ Hok R H L) as G. pose proof (grows_blen _ _ G) as GL.
  destruct (K ltac:(lia)) as [K1 K2]. destruct G as ((p & E) & _).
  destruct (keeps_vts o) eqn:KV.
  { rewrite (a_step_vts _ _ _ _ _ _ KV H), E. apply vts_frame; [rewrite <- E; lia|auto]. }
  destruct o; cbn in KV, R; try discriminate; cbn [a_step] in H; unfold a_unit, a_num in H.
  - apply bind_Val in H as ([a1 n] & H & E2). injection E2 as <- <-.
    apply end_table_at in H; auto.
    destruct H as (size & vt & vr & _ & _ & _ & _ & T & _ & _ & [(Ev & I & V)|(Ev & Er & N)]); rewrite Ev.
    + rewrite E. apply vts_frame; [rewrite <- E; lia|auto].
    + destruct (vts_frame p (a_data a) (a_vts a)) as [F1 F2]; [rewrite <- E; lia|auto|]. rewrite <- E in F1, F2.
      assert (Back : forall r v, In r (a_vts a) -> vt_at (a_data a1) r v -> vt_at (a_data a) r v).
      { intros r v I V. rewrite Forall_forall in K1. destruct (K1 r I) as (w & W).
        pose proof (vt_at_app p _ _ _ W) as W2. rewrite <- E in W2.
        pose proof (vt_at_fun _ _ _ _ V W2). rewrite H by lia. auto. }
      split.
      * apply Forall_app. split; [auto|]. constructor; [|constructor]. exists vt. apply T.
      * destruct T as [_ T].
        assert (X : forall i r v, nth_error (a_vts a) i = Some r -> vt_at (a_data a1) r v -> vt_at (a_data a1) vr v -> False).
        { intros i r v Hi V1 V2. pose proof (vt_at_fun _ _ _ _ T V2 ltac:(lia)). subst v.
          apply nth_error_In in Hi. apply (N r Hi). auto. }
        assert (Last : forall i r, nth_error (a_vts a ++ [vr]) i = Some r ->
                   (nth_error (a_vts a) i = Some r) \/ (i = length (a_vts a) /\ r = vr)).
        { intros i r Hi. destruct (Nat.lt_ge_cases i (length (a_vts a))).
          - rewrite nth_error_app1 in Hi by auto. auto.
          - rewrite nth_error_app2 in Hi by auto. destruct (i - length (a_vts a))%nat as [|k] eqn:Q.
            + cbn in Hi. right. split; [lia|congruence].
            + destruct k; discriminate. }
        intros i j r s v Hi Hj V1 V2.
        apply Last in Hi as [Hi|[Hi ->]]; apply Last in Hj as [Hj|[Hj ->]].
        -- eapply F2; eauto.
        -- exfalso. eauto.
        -- exfalso. eauto.
        -- congruence.
  - apply bind_Val in H as (a1 & H & E2). injection E2 as <- <-. apply a_finish_vts in H as (-> & _).
    split; [constructor|]. intros i j r s v Hi. destruct i; discriminate.
Qed.

Lemma a_new_vts_inv : vts_inv a_new.
Proof.
  split; [constructor|]. intros _. split; [constructor|]. intros i j r s v Hi. destruct i; discriminate.
Qed.

(** ** Along concrete runs *)
Definition vgood (b : builder) : Prop := good b /\ vts_inv (view b).

Lemma step_vgood h b o b' x : vgood b -> op_ok o = true -> op_slots o = true ->
  step h b o = Val (b', x) -> vgood b'.
Proof.
  intros [G V] Ho Hs H. split; [eapply step_good; eauto|]. destruct G as [I _].
  apply step_abstract in H as [H I']; auto. eapply a_step_vts_inv; eauto. apply (inv_fields b I).
Qed.

Lemma run_app h os1 : forall os2 b, run h b (os1 ++ os2) =
  let* (b1, xs) := run h b os1 in let* (b2, ys) := run h b1 os2 in Val (b2, xs ++ ys).
Proof.
  induction os1 as [|o os1 IH]; intros os2 b; cbn [run app bind].
  - destruct (run h b os2) as [[b2 ys]| |]; reflexivity.
  - destruct (step h b o) as [[b1 x]| |]; cbn [bind]; [|reflexivity..]. rewrite IH.
    destruct (run h b1 os1) as [[b2 xs]| |]; cbn [bind]; [|reflexivity..].
    destruct (run h b2 os2) as [[b3 ys]| |]; reflexivity.
Qed.

Lemma run_vgood h os : forall b b' xs, vgood b -> forallb op_ok os = true -> forallb op_slots os = true ->
  run h b os = Val (b', xs) -> vgood b'.
Proof.
  induction os as [|o os IH]; intros b b' xs G Ho Hs H; cbn [run forallb] in *.
  - injection H as <- <-. auto.
  - apply andb_true_iff in Ho as [Ho Hos]. apply andb_true_iff in Hs as [Hs Hss].
    apply bind_Val in H as ([b1 x] & H1 & H).
    apply bind_Val in H as ([b2 ys] & H2 & H). injection H as <- <-.
    eapply IH; [|exact Hos|exact Hss|exact H2]. eapply step_vgood; eauto.
Qed.

Lemma new_vgood capacity b : 0 <= capacity -> new_with_capacity capacity = Val b -> vgood b.
Proof.
  intros Hc H. split; [eapply new_good; eauto|]. pose proof (new_Rb _ _ Hc H) as [I E]. rewrite <- E. apply a_new_vts_inv.
Qed.

(** Growth along a run without reset. *)
Lemma run_grows h os : forall b b' xs, inv b -> forallb op_ok os = true -> forallb (fun o => negb (is_reset o)) os = true ->
  run h b os = Val (b', xs) -> blen (unfinished_data b') < 2 ^ 32 -> grows (view b) (view b').
Proof.
  induction os as [|o os IH]; intros b b' xs I Ho Hs H L; cbn [run forallb] in *.
  - injection H as <- <-. apply grows_refl.
  - apply andb_true_iff in Ho as [Ho Hos]. apply andb_true_iff in Hs as [Hs Hss].
    apply bind_Val in H as ([b1 x] & H1 & H).
    apply bind_Val in H as ([b2 ys] & H2 & H). injection H as <- <-.
    pose proof (step_abstract _ _ _ _ _ I Ho H1) as [_ I1].
    pose proof (IH _ _ _ I1 Hos Hss H2 L) as G2. eapply grows_trans; [|exact G2].
    eapply step_grows; eauto; [destruct (is_reset o); auto; discriminate|].
    apply grows_blen in G2. cbn [view a_data] in G2. lia.
Qed.

Lemma run_inv h os : forall b b' xs, inv b -> forallb op_ok os = true -> run h b os = Val (b', xs) -> inv b'.
Proof.
  induction os as [|o os IH]; intros b b' xs I Ho H; cbn [run forallb] in *.
  - injection H as <- <-. auto.
  - apply andb_true_iff in Ho as [Ho Hos].
    apply bind_Val in H as ([b1 x] & H1 & H).
    apply bind_Val in H as ([b2 ys] & H2 & H). injection H as <- <-.
    pose proof (step_abstract _ _ _ _ _ I Ho H1) as [_ I1]. eauto.
Qed.

(** Documents can be written to finished buffers. *)
From Coq Require Import ZArith List Bool Lia Strings.Byte ZifyBool ZifyNat ZifyN.
From Verif Require Import Base Scalar Reader Builder Ops SpecBuilder Abstract BaseFacts ScalarFacts ReaderFacts
  Refine Refine2 Build1 Build2 Build3 Build4 Build5 Build6 Build7 Build8 Build10 Build11
  BuilderProofs1 BuilderProofs2 BuilderProofs3 BuilderProofs4
  Schema Codegen SpecGen GenProofs1 GenProofs2 GenProofs3 GenProofs4 GenProofs5 GenProofs6.
Import ListNotations.
Local Open Scope Z_scope.

(** ** What writing leaves alone *)
Section Kept.
Context (h : host).
Definition kept (b b' : builder) : Prop := finished b' = finished b /\ min_align b <= min_align b'.
Lemma kept_refl b : kept b b.
Proof. split; [reflexivity|lia]. Qed.
Lemma kept_trans b c d : kept b c -> kept c d -> kept b d.
Proof. intros [A B] [C D]. split; [congruence|lia]. Qed.
Ltac binds H := repeat (let x := fresh "x" in let E := fresh "E" in apply bind_Val in H as (x & E & H)).
Lemma grow_kept b b' : grow_owned_buf h b = Val b' -> kept b b'.
Proof.
  unfold grow_owned_buf. intros H. do 5 (apply bind_Val in H as (? & _ & H)). destruct (_ =? 1); [injection H as <-; split; cbn; [reflexivity|lia]|].
  apply bind_Val in H as (? & _ & H). injection H as <-. split; cbn; [reflexivity|lia].
Qed.
Lemma loop_kept n : forall b w b', grow_loop h n b w = Val b' -> kept b b'.
Proof.
  induction n as [|n IH]; intros b w b' H; cbn [grow_loop] in H; destruct (w <=? head b); try discriminate H; try (injection H as <-; apply kept_refl).
  apply bind_Val in H as (b1 & H1 & H). eapply kept_trans; [eapply grow_kept; eauto|eauto].
Qed.
Lemma space_kept b w b' : make_space h b w = Val b' -> kept b b'.
Proof.
  unfold make_space, ensure_capacity. intros H. apply bind_Val in H as (b1 & H1 & H). injection H as <-. apply (kept_trans _ b1); [|split; cbn; [reflexivity|lia]].
  destruct (w <=? head b); [injection H1 as <-; apply kept_refl|]. apply bind_Val in H1 as (? & _ & H1). eapply loop_kept; eauto.
Qed.
Lemma align_kept b n al b' : align h b n al = Val b' -> kept b b' /\ al <= min_align b'.
Proof.
  unfold align. intros H. apply bind_Val in H as (m & _ & H). apply space_kept in H as [F M]. cbn [set_min_align finished min_align] in *. repeat split; try congruence; lia.
Qed.
Lemma push_kept b x b' o : push h b x = Val (b', o) -> kept b b' /\ push_alignment x <= min_align b'.
Proof.
  unfold push. intros H. apply bind_Val in H as (b1 & H1 & H). apply bind_Val in H as (b2 & H2 & H). do 2 (apply bind_Val in H as (? & _ & H)).
  injection H as <- _. apply align_kept in H1 as [K1 A1]. apply space_kept in H2. pose proof (kept_trans _ _ _ K1 H2) as [F M]. destruct H2 as [_ M2].
  unfold kept. cbn [set_buf finished min_align]. split; [split; [exact F|exact M]|lia].
Qed.
Lemma bytes_kept b x b' : push_bytes_unprefixed h b x = Val b' -> kept b b'.
Proof.
  unfold push_bytes_unprefixed. intros H. apply bind_Val in H as (b1 & H1 & H). do 2 (apply bind_Val in H as (? & _ & H)). injection H as <-.
  apply space_kept in H1. destruct H1 as [F M]. split; cbn; auto.
Qed.
Lemma always_kept b s x b' : push_slot_always h b s x = Val b' -> kept b b'.
Proof. unfold push_slot_always. intros H. apply bind_Val in H as (? & _ & H). apply bind_Val in H as ([b1 o] & H1 & H). injection H as <-. apply push_kept in H1 as [[F M] _]. split; cbn; auto. Qed.
Lemma slot_kept b s x d b' : push_slot h b s x d = Val b' -> kept b b'.
Proof. unfold push_slot. intros H. apply bind_Val in H as (? & _ & H). destruct (pval_eq x d); [injection H as <-; apply kept_refl|eapply always_kept; eauto]. Qed.
Lemma add_kept b f x b' : gen_add h b f x = Val b' -> kept b b'.
Proof. unfold gen_add. destruct (g_kind f) as [t [d|]|t vs [d|]| |]; intros H; try (eapply slot_kept; eauto; fail); eapply always_kept; eauto. Qed.
Lemma adds_kept fs : forall b args b', gen_adds h b fs args = Val b' -> kept b b'.
Proof.
  induction fs as [|f fs IH]; intros b [|a args] b' H; cbn [gen_adds] in H; try (injection H as <-; apply kept_refl).
  apply bind_Val in H as (b1 & H1 & H). apply (kept_trans _ b1); [|eauto]. destruct a; [eapply add_kept; eauto|injection H1 as <-; apply kept_refl].
Qed.
Lemma vtable_kept b t b' o : write_vtable h b t = Val (b', o) -> kept b b' /\ 4 <= min_align b'.
Proof.
  unfold write_vtable. intros H. apply bind_Val in H as (? & _ & H). apply bind_Val in H as ([b1 obj] & H1 & H). apply push_kept in H1 as [K1 A1]. cbn [push_alignment salign] in A1.
  apply bind_Val in H as (b2 & H2 & H). apply space_kept in H2. do 7 (apply bind_Val in H as (? & _ & H)). apply bind_Val in H as (dup & _ & H).
  apply bind_Val in H as ([b3 n] & H3 & H). do 7 (apply bind_Val in H as (? & _ & H)). injection H as <- <-.
  assert (K : kept b b2 /\ 4 <= min_align b2) by (split; [eapply kept_trans; eauto|destruct H2; cbn in A1; lia]).
  assert (E3 : finished b3 = finished b2 /\ min_align b3 = min_align b2).
  { destruct dup as [n'|]; [do 2 (apply bind_Val in H3 as (? & _ & H3))|]; injection H3 as <- <-; split; reflexivity. }
  destruct K as [[F M] A], E3 as [E1 E2]. unfold kept. cbn [set_field_locs set_buf finished min_align]. rewrite E1, E2. auto.
Qed.
Lemma create_kept b gs l b' o : gen_create h b gs l = Val (b', o) -> kept b b' /\ 4 <= min_align b'.
Proof.
  unfold gen_create. intros H. apply bind_Val in H as ([b1 st] & H1 & H). apply bind_Val in H as (b2 & H2 & H). apply bind_Val in H as ([b3 o3] & H3 & H).
  apply bind_Val in H as (? & _ & H). injection H as <- <-.
  unfold start_table in H1. apply bind_Val in H1 as (? & _ & H1). injection H1 as <- _. apply adds_kept in H2 as [F2 M2]. cbn [set_nested finished min_align] in F2, M2.
  unfold end_table in H3. apply bind_Val in H3 as (? & _ & H3). apply bind_Val in H3 as ([b4 o4] & H4 & H3). injection H3 as <- <-. apply vtable_kept in H4 as [[F4 M4] A4].
  unfold kept. cbn [set_field_locs set_nested finished min_align]. repeat split; [congruence|lia|exact A4].
Qed.
Lemma string_kept b s b' o : create_string h b s = Val (b', o) -> kept b b' /\ 4 <= min_align b'.
Proof.
  unfold create_string, create_byte_string. intros H. do 3 (apply bind_Val in H as (? & _ & H)). apply bind_Val in H as (b1 & H1 & H). apply bind_Val in H as ([b2 ?] & H2 & H).
  apply bind_Val in H as (b3 & H3 & H). apply bind_Val in H as ([b4 ?] & H4 & H). injection H as <- _.
  apply align_kept in H1 as [K1 _]. apply push_kept in H2 as [K2 _]. apply bytes_kept in H3. apply push_kept in H4 as [K4 A4]. cbn in A4. eauto using kept_trans.
Qed.
Lemma push_all_kept l : forall b b', push_all h b l = Val b' -> kept b b'.
Proof.
  induction l as [|x l IH]; intros b b' H; cbn [push_all] in H; [injection H as <-; apply kept_refl|]. apply bind_Val in H as ([b1 o] & H1 & H).
  apply push_kept in H1 as [K1 _]. eauto using kept_trans.
Qed.
Lemma vector_kept b sz al items b' o : create_vector h b sz al items = Val (b', o) -> kept b b' /\ 4 <= min_align b'.
Proof.
  unfold create_vector. intros H. apply bind_Val in H as (? & _ & H). apply bind_Val in H as (b1 & H1 & H). apply bind_Val in H as (b2 & H2 & H).
  apply align_kept in H1 as [K1 _]. apply push_all_kept in H2. apply push_kept in H as [K3 A3]. cbn in A3. eauto using kept_trans.
Qed.
Lemma put_kept x : forall b b' a, put h b x = Val (b', a) -> kept b b' /\ match a with Some (POffset _) => 4 <= min_align b' | _ => True end.
Proof.
  assert (L : forall xs, Forall (fun x => forall b b' a, put h b x = Val (b', a) -> kept b b' /\ match a with Some (POffset _) => 4 <= min_align b' | _ => True end) xs ->
    forall b b' l, put_all h b xs = Val (b', l) -> kept b b').
  { induction 1 as [|y xs Hx _ IH]; intros b b' l H; cbn [put_all] in H; [injection H as <- <-; apply kept_refl|].
    apply bind_Val in H as ([b1 a] & H1 & H). apply bind_Val in H as ([b2 l2] & H2 & H). injection H as <- <-.
    apply Hx in H1 as [K1 _]. eauto using kept_trans. }
  induction x using tree_nested; intros b b' a P; [cbn [put] in P|cbn [put] in P|cbn [put] in P| |].
  - injection P as <- <-. split; [apply kept_refl|exact I].
  - injection P as <- <-. split; [apply kept_refl|exact I].
  - apply bind_Val in P as ([b1 o] & P & Q). injection Q as <- <-. eapply string_kept; eauto.
  - rewrite put_vec in P. apply bind_Val in P as ([b1 l] & P1 & P). apply bind_Val in P as ([b2 o] & P2 & P). injection P as <- <-. apply (L _ H) in P1. apply vector_kept in P2 as [K A].
    split; [eauto using kept_trans|exact A].
  - rewrite put_table in P. apply bind_Val in P as ([b1 l] & P1 & P). apply bind_Val in P as ([b2 o] & P2 & P). injection P as <- <-. apply (L _ H) in P1. apply create_kept in P2 as [K A].
    split; [eauto using kept_trans|exact A].
Qed.
End Kept.

(** ** Finishing *)
Lemma finish_fwd h b root ident sp : inv b -> nested b = false -> finished b = false -> pow8 (min_align b) -> 0 <= root <= blen (unfinished_data b) ->
  match ident with Some i => blen i = 4 | None => True end -> blen (unfinished_data b) + 200 <= 2 ^ 31 ->
  exists b', finish_with_opts h b root ident sp = Val b' /\ finished b' = true /\ blen (unfinished_data b') <= blen (unfinished_data b) + 30.
Proof.
  intros I N Fi P R Li L. pose proof (blen_nonneg (unfinished_data b)) as Bd.
  assert (Al : min_align b <= 8) by (unfold pow8 in P; lia).
  assert (exists a', a_finish true h (view b) root ident sp = Val a') as (a' & E).
  { unfold a_finish. cbn [view a_fin a_nested]. rewrite Fi, N. cbn [negb]. rewrite !debug_assert_true by reflexivity. cbn [bind]. unfold SIZE_UOFFSET, FILE_IDENTIFIER_LENGTH.
    set (n := 4 + (if sp then 4 else 0) + (if ident then 4 else 0)). assert (Hn : 0 <= n <= 12) by (unfold n; destruct sp, ident; lia).
    change (a_align (with_vts (view b) [])) with (min_align b).
    rewrite a_pad_fwd; [|exact P|lia|cbn [with_vts view a_data]; lia]. cbn [bind]. set (a1 := with_data _ _).
    assert (B1 : blen (unfinished_data b) <= blen (a_data a1) <= blen (unfinished_data b) + 8).
    { unfold a1. cbn [with_data a_data]. rewrite blen_app, blen_zeros. cbn [with_vts view a_data]. pose proof (gap_range (unfinished_data b) n _ P). lia. }
    clearbody a1.
    assert (exists a2, (match ident with Some i => let* _ := debug_assert h (blen i =? 4) in a_bytes true a1 i | None => Val a1 end) = Val a2 /\
       blen (a_data a1) <= blen (a_data a2) <= blen (a_data a1) + 4) as (a2 & E2 & B2).
    { destruct ident as [i|]; [|exists a1; split; [reflexivity|lia]]. rewrite debug_assert_true by lia. cbn [bind]. unfold a_bytes.
      rewrite room_fwd by lia. cbn [bind]. eexists. split; [reflexivity|]. cbn [with_data a_data]. rewrite blen_app. lia. }
    rewrite E2. cbn [bind]. rewrite a_push_fwd; [|cbn [pval_ok]; unfold u32_ok; lia|right; lia|lia]. cbn [bind].
    pose proof (blen_pushed_le a2 (POffset root)) as P1. destruct sp; [|cbn [bind]; eauto].
    rewrite a_push_fwd; [cbn [bind]; eauto| |exact Logic.I|lia].
    cbn [pval_ok valid_scalar signed ssize]. unfold as_u32. pose proof (Z.mod_pos_bound (blen (a_data (pushed a2 (POffset root)))) (2 ^ 32) ltac:(lia)) as Q. clear - Q. lia. }
  assert (Ok : op_ok (OpFinish root ident sp) = true).
  { cbn [op_ok]. unfold u32_ok. destruct ident as [i|]; [|clear - R L; lia]. clear - R L Li. lia. }
  assert (S : a_step true h (view b) (OpFinish root ident sp) = Val (a', ONone)) by (cbn [a_step]; unfold a_unit; rewrite E; reflexivity).
  destruct (strict_step _ _ _ _ _ I Ok S) as (b' & T & I' & E'). cbn [step] in T. apply bind_Val in T as (q1 & T & Q).
  exists b'. assert (q1 = b') by congruence. subst q1. split; [exact T|].
  apply a_finish_val in E as (_ & Ea & _); [|right; exact P|cbn [view a_data]; lia].
  change (finished b') with (a_fin (view b')). change (unfinished_data b') with (a_data (view b')). rewrite E', Ea. cbn [a_fin a_data]. split; [reflexivity|].
  rewrite blen_finish_data. pose proof (gap_range (finish_body (view b) ident sp) 4 4 pow8_4).
  unfold finish_gap. cbn [view a_data a_align]. pose proof (gap_range (unfinished_data b) (4 + (if sp then 4 else 0) + (if ident then 4 else 0)) _ P).
  assert (ident_len ident <= 4) by (destruct ident; cbn [ident_len]; lia). destruct sp; lia.
Qed.

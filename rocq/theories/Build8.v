(** Tables built by programs. *)
From Coq Require Import ZArith List Bool Lia Strings.Byte ZifyBool ZifyNat ZifyN.
From Verif Require Import Base Scalar Reader Builder Ops SpecBuilder Abstract BaseFacts ScalarFacts ReaderFacts Refine Refine2 Build1 Build2 Build3 Build4 Build5 Build6 Build7.
Import ListNotations.
Local Open Scope Z_scope.

Lemma run_length h os : forall b b' xs, run h b os = Val (b', xs) -> length xs = length os.
Proof.
  induction os as [|o os IH]; intros b b' xs H; cbn [run] in H.
  - injection H as <- <-. reflexivity.
  - apply bind_Val in H as ([b1 x] & H1 & H). apply bind_Val in H as ([b2 ys] & H2 & H). injection H as <- <-.
    cbn [length]. f_equal. eauto.
Qed.

Lemma run_split h os1 os2 b b' xs : run h b (os1 ++ os2) = Val (b', xs) ->
  exists b1 xs1 xs2, run h b os1 = Val (b1, xs1) /\ run h b1 os2 = Val (b', xs2) /\ xs = xs1 ++ xs2 /\
    length xs1 = length os1.
Proof.
  rewrite run_app. intros H. apply bind_Val in H as ([b1 xs1] & H1 & H).
  apply bind_Val in H as ([b2 xs2] & H2 & H). injection H as <- <-. exists b1, xs1, xs2.
  repeat split; auto. eapply run_length; eauto.
Qed.

Lemma run_one h b o b' x : run h b [o] = Val (b', x) -> exists r, step h b o = Val (b', r) /\ x = [r].
Proof.
  cbn [run]. intros H. apply bind_Val in H as ([b1 r] & H1 & H). cbn [bind] in H. injection H as <- <-. eauto.
Qed.

Lemma program_split h c os1 os2 b xs : program h c (os1 ++ os2) = Val (b, xs) ->
  exists b1 xs1 xs2, program h c os1 = Val (b1, xs1) /\ run h b1 os2 = Val (b, xs2) /\ xs = xs1 ++ xs2 /\
    length xs1 = length os1.
Proof.
  unfold program. intros H. apply bind_Val in H as (b0 & H0 & H). rewrite H0. cbn [bind].
  apply run_split in H. exact H.
Qed.

Lemma app_len_inj {A} (a b c d : list A) : a ++ b = c ++ d -> length a = length c -> a = c /\ b = d.
Proof.
  revert c. induction a as [|x a IH]; intros [|y c] E L; cbn in *; try discriminate; auto.
  injection E as -> E. destruct (IH c E ltac:(lia)) as [-> ->]. auto.
Qed.

Lemma calls_ok_split os : calls_ok os = true -> forallb op_ok os = true /\ forallb op_slots os = true.
Proof.
  unfold calls_ok. rewrite !forallb_forall. intros H. split; intros o I; specialize (H o I); apply andb_true_iff in H; tauto.
Qed.

Lemma program_vgood h c os b xs : 0 <= c -> calls_ok os = true -> program h c os = Val (b, xs) -> vgood b.
Proof.
  intros Hc Ho H. apply calls_ok_split in Ho as [Ho Hs]. unfold program in H.
  apply bind_Val in H as (b0 & H0 & H). eapply run_vgood; [eapply new_vgood|..]; eauto.
Qed.

Lemma program_inv h c os b xs : 0 <= c -> forallb op_ok os = true -> program h c os = Val (b, xs) -> inv b.
Proof. intros Hc Ho H. apply program_good in H; auto. apply H. Qed.

(** [closed] programs leave no recorded field. *)
Lemma a_step_no_fields lim h a o a' x : plain o = true \/ is_reset o = true \/ is_finish o = true ->
  a_step lim h a o = Val (a', x) -> a_fields a' = a_fields a.
Proof.
  intros [P|[P|P]] H.
  - apply a_step_keeps in H; auto. apply H.
  - destruct o; try discriminate. cbn in H. injection H as <- <-. reflexivity.
  - destruct o; try discriminate. cbn [a_step] in H. unfold a_unit in H.
    apply bind_Val in H as (a1 & H & E). injection E as <- <-. apply a_finish_vts in H. apply H.
Qed.

Lemma run_closed h os : forall b b' xs p, inv b -> forallb op_ok os = true -> run h b os = Val (b', xs) ->
  (p = false -> field_locs b = []) ->
  fold_left (fun p o => match o with
                              | OpPushSlot _ _ _ | OpPushSlotAlways _ _ => true
                              | OpEndTable _ => false
                              | _ => p
                              end) os p = false -> field_locs b' = [].
Proof.
  induction os as [|o os IH]; intros b b' xs p I Ho H Hp HF; cbn [run forallb fold_left] in *.
  - injection H as <- <-. auto.
  - apply andb_true_iff in Ho as [Ho Hos].
    apply bind_Val in H as ([b1 x] & H1 & H).
    apply bind_Val in H as ([b2 ys] & H2 & H). injection H as <- <-.
    pose proof (step_abstract _ _ _ _ _ I Ho H1) as [S1 I1].
    eapply IH; [exact I1|exact Hos|exact H2| |exact HF].
    assert (N : plain o = true \/ is_reset o = true \/ is_finish o = true ->
                field_locs b1 = field_locs b) by (intros N; apply (a_step_no_fields _ _ _ _ _ _ N S1)).
    destruct o; try discriminate; try (rewrite N by (cbn; auto); exact Hp).
    intros _. clear - S1. cbn [a_step] in S1. unfold a_num in S1.
    apply bind_Val in S1 as ([a1 n] & H & E).
    assert (E1 : a1 = view b1) by congruence. unfold a_end_table in H.
    apply bind_Val in H as (u & _ & H). apply bind_Val in H as ([a2 o2] & _ & H).
    assert (E2 : a1 = with_fields (with_nested a2 false) []) by congruence.
    change (a_fields (view b1) = []). rewrite <- E1, E2. reflexivity.
Qed.

Lemma program_closed h c os b xs : 0 <= c -> forallb op_ok os = true -> closed os = true ->
  program h c os = Val (b, xs) -> field_locs b = [].
Proof.
  intros Hc Ho Hcl H. unfold program in H. apply bind_Val in H as (b0 & H0 & H).
  pose proof (new_good _ _ Hc H0) as [I0 _]. eapply (run_closed h os b0 b xs false); eauto.
  - intros _. unfold new_with_capacity in H0. apply bind_Val in H0 as (u & _ & H0). injection H0 as <-. reflexivity.
  - unfold closed in Hcl. apply negb_true_iff in Hcl. exact Hcl.
Qed.

(** ** A table in a program *)
Lemma in_table_no_reset os : forallb in_table os = true -> no_reset os = true.
Proof.
  unfold no_reset. rewrite !forallb_forall. intros H o I. specialize (H o I). destruct o; auto.
Qed.

(** What is known about the finished table: where it stands, its vtable and the
    recorded fields. *)
Lemma table_program_facts h c before mid start later obj xs ys zs b :
  0 <= c -> calls_ok (table_program before mid start later) = true ->
  closed before = true -> forallb in_table mid = true -> no_reset later = true ->
  program h c (table_program before mid start later) = Val (b, xs ++ [ONum start] ++ ys ++ [ONum obj] ++ zs) ->
  length xs = length before -> length ys = length mid ->
  blen (unfinished_data b) < 2 ^ 32 ->
  exists size vr vt fs,
    table_at (unfinished_data b) obj vr vt /\ blen vt = get_vtable_byte_len fs /\
    u32_arith h (obj - start) = Val size /\ debug_assert h (size <? 0x10000) = Val tt /\
    a_vtable h (get_vtable_byte_len fs) size obj fs = Val vt /\
    Forall2 (fr start (unfinished_data b)) (added mid) fs /\
    Forall field_ok fs /\ Forall field_fits fs /\
    Forall (fun f => fl_off f + 4 <= obj) fs /\ 0 <= start /\ start + 4 <= obj /\ obj <= blen (unfinished_data b).
Proof.
  intros Hc Hok Hcl Hmid Hlat H Lx Ly L. unfold table_program in *.
  assert (Hok2 := Hok). unfold calls_ok in Hok2. rewrite !forallb_app in Hok2.
  fold (calls_ok before) (calls_ok [OpStartTable]) (calls_ok mid) (calls_ok [OpEndTable start]) (calls_ok later) in Hok2.
  repeat rewrite andb_true_iff in Hok2. destruct Hok2 as (OkB & _ & OkM & OkE & OkL).
  apply program_split in H as (b0 & xs1 & r1 & HB & H & E1 & L1).
  apply app_len_inj in E1 as [<- E1]; [|congruence].
  apply run_split in H as (b1 & xs2 & r2 & H1 & H & E2 & L2). rewrite E2 in E1.
  apply run_one in H1 as (r & H1 & ->). cbn [app] in E1.
  injection E1 as Er E1. subst r.
  apply run_split in H as (b2 & xs3 & r3 & H2 & H & E3 & L3). rewrite E3 in E1.
  apply (app_len_inj ys) in E1 as [<- E1]; [|congruence].
  change (OpEndTable start :: later) with ([OpEndTable start] ++ later) in H.
  apply run_split in H as (b3 & xs4 & r4 & H3 & H4 & E4 & L4). rewrite E4 in E1.
  apply run_one in H3 as (r & H3 & ->). cbn [app] in E1. injection E1 as Er E1. subst r. clear E1 E2 E3 E4 L1 L2 L3 L4.
  pose proof (program_vgood _ _ _ _ _ Hc OkB HB) as V0. apply calls_ok_split in OkB as [OkB SB].
  pose proof (program_closed _ _ _ _ _ Hc OkB Hcl HB) as F0.
  pose proof (step_vgood _ _ _ _ _ V0 (eq_refl : op_ok OpStartTable = true) eq_refl H1) as V1.
  apply calls_ok_split in OkM as [OkM SM]. apply calls_ok_split in OkL as [OkL SL].
  pose proof (run_vgood _ _ _ _ _ V1 OkM SM H2) as V2.
  assert (OkE1 : op_ok (OpEndTable start) = true).
  { unfold calls_ok in OkE. cbn [forallb op_slots] in OkE. rewrite !andb_true_r in OkE. exact OkE. }
  pose proof (step_vgood _ _ _ _ _ V2 OkE1 eq_refl H3) as V3.
  pose proof V0 as [[I0 _] _]. pose proof V1 as [[I1 _] _]. pose proof V2 as [[I2 _] [Fit2 K2]]. pose proof V3 as [[I3 _] _].
  pose proof (run_grows _ _ _ _ _ I3 OkL Hlat H4 L) as G3. pose proof (grows_blen _ _ G3) as G3L. cbn [view a_data] in G3L.
  destruct G3 as ((p3 & EP3) & _). cbn [view a_data] in EP3.
  assert (LL3 : blen (unfinished_data b3) < 2 ^ 32) by (clear - G3L L; lia).
  pose proof (step_grows _ _ _ _ _ I2 OkE1 eq_refl H3 LL3) as G2. pose proof (grows_blen _ _ G2) as G2L. cbn [view a_data] in G2L.
  assert (LL2 : blen (unfinished_data b2) < 2 ^ 32) by (clear - G2L LL3; lia).
  pose proof (run_grows _ _ _ _ _ I1 OkM (in_table_no_reset _ Hmid) H2 LL2) as G1.
  pose proof (grows_blen _ _ G1) as G1L. cbn [view a_data] in G1L.
  pose proof (step_abstract _ _ OpStartTable _ _ I0 eq_refl H1) as [S1 _]. cbn [a_step] in S1. unfold a_num, a_start_table in S1.
  apply bind_Val in S1 as ([a1 n1] & S1 & Q1). apply bind_Val in S1 as (u1 & _ & S1).
  assert (Ea1 : view b1 = with_nested (view b0) true) by congruence.
  assert (En1 : start = as_u32 (blen (unfinished_data b0))).
  { assert (n1 = as_u32 (blen (unfinished_data b0))) by (cbn [with_nested view a_data] in S1; congruence). congruence. }
  assert (D01 : unfinished_data b1 = unfinished_data b0) by (change (a_data (view b1) = unfinished_data b0); rewrite Ea1; reflexivity).
  assert (F1 : field_locs b1 = []) by (change (a_fields (view b1) = []); rewrite Ea1; exact F0).
  assert (LL0 : 0 <= blen (unfinished_data b0) < 2 ^ 32) by (rewrite <- D01 at 2; clear - G1L LL2; pose proof (blen_nonneg (unfinished_data b0)); lia).
  rewrite as_u32_small in En1 by (clear - LL0; lia).
  assert (FR : Forall2 (fr start (unfinished_data b2)) ([] ++ added mid) (field_locs b2)).
  { eapply run_fields; [exact I1|exact OkM|exact Hmid|exact H2|exact LL2| |rewrite F1; constructor].
    rewrite D01, En1. clear; lia. }
  cbn [app] in FR.
  pose proof (step_abstract _ _ _ _ _ I2 OkE1 H3) as [S3 _]. cbn [a_step] in S3. unfold a_num in S3.
  apply bind_Val in S3 as ([a3 n3] & S3 & Q3).
  assert (Ea3 : a3 = view b3) by congruence. assert (En3 : n3 = obj) by congruence. subst a3 n3.
  destruct (K2 LL2) as [K2a K2b].
  apply end_table_at in S3; [|apply (inv_fields b2 I2)|exact Fit2|exact K2a|exact K2b|exact LL3].
  destruct S3 as (size & vt & vr & Eo & Hsz & Hd & Hvt & T & _).
  cbn [view a_data a_fields] in *.
  exists size, vr, vt, (field_locs b2).
  split; [rewrite EP3; apply table_at_app; exact T|].
  split; [apply (a_vtable_shape h size obj _ vt (inv_fields b2 I2) Fit2 Hvt)|].
  split; [exact Hsz|]. split; [exact Hd|]. split; [exact Hvt|].
  destruct G2 as ((p2 & EP2) & _). cbn [view a_data] in EP2.
  split; [rewrite EP3, EP2, app_assoc; apply Forall2_fr_app; exact FR|].
  split; [apply (inv_fields b2 I2)|]. split; [exact Fit2|].
  rewrite blen_marker in Eo. cbn [view a_data] in Eo. pose proof (gap_range (unfinished_data b2) 4 4 pow8_4) as GR.
  split.
  - apply Forall_forall. intros f If.
    assert (X : exists sx, In sx (added mid) /\ fr start (unfinished_data b2) sx f).
    { clear - FR If. induction FR; [destruct If|]. destruct If as [->|If]; [eexists; split; [left; eauto|auto]|].
      destruct IHFR as (sx & I & F); auto. exists sx. split; [right|]; auto. }
    destruct X as (sx & _ & _ & A & _). apply At_range in A. clear - A Eo GR; lia.
  - destruct T as [T _]. apply At_range in T. rewrite EP3, blen_app. pose proof (blen_nonneg p3) as N3. rewrite D01 in G1L. clear - T LL0 En1 GR Eo N3 G1L. lia.
Qed.

(** Reading any slot of the table. *)
Lemma table_program_slot h hr c before mid start later obj xs ys zs b :
  0 <= c -> calls_ok (table_program before mid start later) = true ->
  closed before = true -> forallb in_table mid = true -> no_reset later = true ->
  program h c (table_program before mid start later) = Val (b, xs ++ [ONum start] ++ ys ++ [ONum obj] ++ zs) ->
  length xs = length before -> length ys = length mid ->
  blen (unfinished_data b) < 2 ^ 31 -> obj - start < 2 ^ 16 -> NoDup (map fst (added mid)) ->
  (forall slot x, In (slot, x) (added mid) -> exists off,
     At (unfinished_data b) off (fbytes x off) /\ start + push_size x <= off /\ off mod push_alignment x = 0 /\
     (exists vt, table_vtable hr (unfinished_data b) (blen (unfinished_data b) - obj) = Val vt /\
        vt_get hr (unfinished_data b) vt slot = Val (Some (obj - off)) /\ obj - off <> 0) /\
     forall t d, table_get hr (unfinished_data b) (blen (unfinished_data b) - obj) slot t d =
                 let* v := follow hr t (unfinished_data b) (blen (unfinished_data b) - off) in Val (Some v)) /\
  (forall slot, 4 <= slot < 2 ^ 16 -> slot mod 2 = 0 -> ~ In slot (map fst (added mid)) ->
     (exists vt vo, table_vtable hr (unfinished_data b) (blen (unfinished_data b) - obj) = Val vt /\
        vt_get hr (unfinished_data b) vt slot = Val vo /\ (vo = None \/ vo = Some 0)) /\
     forall t d, table_get hr (unfinished_data b) (blen (unfinished_data b) - obj) slot t d = Val d).
Proof.
  intros Hc Hok Hcl Hmid Hlat H Lx Ly L Hsz ND.
  destruct (table_program_facts _ _ _ _ _ _ _ _ _ _ _ Hc Hok Hcl Hmid Hlat H Lx Ly ltac:(lia))
    as (size & vr & vt & fs & T & Lv & _ & _ & Hvt & FR & Fok & Fit & Fo & Hst & Ho & HoL).
  set (D := unfinished_data b) in *.
  pose proof (Forall2_ids _ _ _ _ FR) as Ids. rewrite <- Ids in ND.
  assert (Lv2 : 0 <= get_vtable_byte_len fs /\ get_vtable_byte_len fs mod 2 = 0).
  { split; [pose proof (fits_len _ Fok Fit); lia|]. apply vtable_len_even; auto. apply fits_even; auto. }
  split.
  - intros slot x I. destruct (Forall2_In_l _ _ _ _ FR I) as (f & If & Ef & A & Hf & Hal). cbn [fst snd] in *.
    exists (fl_off f). split; [exact A|]. split; [exact Hf|]. split; [exact Hal|].
    assert (He : entry obj slot fs 0 = obj - fl_off f) by (rewrite <- Ef; apply entry_present; auto).
    pose proof Fit as Fit0. rewrite Forall_forall in Fo, Fit. pose proof (Fo f If) as Fof. specialize (Fit f If). unfold field_fits, slot_fits in Fit.
    assert (Hp : 0 < push_size x) by (destruct x; cbn; [apply ssize_pos|lia]).
    pose proof (vtable_len_max fs f If) as Mx.
    assert (G : get_range vt slot (slot + 2) = Some (wire TU16 (obj - fl_off f)) /\ 0 <= obj - fl_off f < 2 ^ 16).
    { split; [|lia]. rewrite <- He. apply (a_vtable_entry h (get_vtable_byte_len fs) size obj fs vt slot); auto; try lia.
      apply fits_even. exact Fit0. }
    split.
    + exists (blen D - vr). split; [eapply table_at_vtable; eauto|].
      split; [|lia]. destruct T as [_ T]. rewrite (vt_get_at hr D vr vt slot (obj - fl_off f) T); [|lia|lia|auto].
      replace (blen vt <=? slot) with false by lia. reflexivity.
    + intros t d. rewrite (table_get_at hr D obj vr vt slot (obj - fl_off f) t d T L); [|lia|auto].
      replace (blen vt <=? slot) with false by lia. replace (obj - fl_off f =? 0) with false by lia. cbn [orb].
      do 2 f_equal. lia.
  - intros slot Hs Hs2 N. rewrite <- Ids in N.
    assert (G : slot < blen vt -> get_range vt slot (slot + 2) = Some (wire TU16 0) /\ 0 <= 0 < 2 ^ 16).
    { intros Q. split; [|lia]. rewrite <- (entry_absent obj slot fs 0 N). apply (a_vtable_entry h (get_vtable_byte_len fs) size obj fs vt slot); auto; try lia.
      apply fits_even. auto. }
    split.
    + exists (blen D - vr). eexists. split; [eapply table_at_vtable; eauto|].
      destruct T as [_ T]. rewrite (vt_get_at hr D vr vt slot 0 T); [|lia|lia|auto]. split; [reflexivity|].
      destruct (_ <=? _); auto.
    + intros t d. rewrite (table_get_at hr D obj vr vt slot 0 t d T L); [|lia|auto].
      rewrite orb_true_r. reflexivity.
Qed.

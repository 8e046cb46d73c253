(** When the generated [create] succeeds. *)
From Coq Require Import ZArith List Bool Lia Strings.Byte ZifyBool ZifyNat ZifyN.
From Verif Require Import Base Scalar Reader Builder Ops SpecBuilder Abstract BaseFacts ScalarFacts ReaderFacts
  Refine Refine2 Build1 Build2 Build3 Build4 Build5 Build6 Build7 Build8 Build10 Build11 BuilderProofs2 BuilderProofs3 BuilderProofs4
  Schema Codegen SpecGen GenProofs1 GenProofs2 GenProofs3 GenProofs4.
Import ListNotations.
Local Open Scope Z_scope.

Lemma debug_assert_true h x : x = true -> debug_assert h x = Val tt.
Proof. intros ->. unfold debug_assert. destruct (debug h); reflexivity. Qed.

(** ** Adding the fields *)
Lemma add_fwd h a f x : a_nested a = true -> pval_ok x = true -> ready h x (blen (a_data a)) ->
  blen (a_data a) + 32 <= 2 ^ 61 ->
  exists a', a_step true h a (add_op f x) = Val (a', ONone) /\ a_nested a' = true /\ a_vts a' = a_vts a /\
    blen (a_data a) <= blen (a_data a') /\ up8 (blen (a_data a')) <= up8 (blen (a_data a)) + 8 /\
    exists new, a_fields a' = a_fields a ++ new /\ map fl_id new = map fst (added1 (add_op f x)) /\
      Forall (fun l => fl_off l <= blen (a_data a')) new.
Proof.
  intros N P R L.
  assert (K : forall o, o = OpPushSlotAlways (g_slot f) x \/ (exists d, o = OpPushSlot (g_slot f) x d) ->
    (exists a', a_step true h a o = Val (a', ONone) /\ a_nested a' = true /\ a_vts a' = a_vts a /\
    blen (a_data a) <= blen (a_data a') /\ up8 (blen (a_data a')) <= up8 (blen (a_data a)) + 8 /\
    exists new, a_fields a' = a_fields a ++ new /\ map fl_id new = map fst (added1 o) /\
      Forall (fun l => fl_off l <= blen (a_data a')) new)).
  { assert (Hd : debug_assert h (a_nested a) = Val tt) by (apply debug_assert_true; exact N).
    assert (Sz : blen (a_data a) <= blen (a_data (pushed a x)) /\ up8 (blen (a_data (pushed a x))) <= up8 (blen (a_data a)) + 8).
    { split; [|apply pushed_up8]. rewrite blen_pushed. pose proof (push_size_le8 x). pose proof (gap_range (a_data a) (push_size x) _ (push_alignment_pow8 x)) as G.
      assert (push_alignment x <= 8) by (pose proof (push_alignment_pow8 x) as Q; unfold pow8 in Q; clear - Q; lia). clear - G H H0. lia. }
    intros o [->|[d ->]]; cbn [a_step added1]; unfold a_unit.
    - rewrite a_push_slot_always_fwd by auto. cbn [bind]. eexists. split; [reflexivity|]. split; [exact N|]. split; [reflexivity|].
      split; [exact (proj1 Sz)|]. split; [exact (proj2 Sz)|]. eexists. split; [reflexivity|]. split; [reflexivity|]. constructor; [|constructor].
      cbn [fl_off]. apply as_u32_le. apply blen_nonneg.
    - unfold a_push_slot. rewrite Hd. cbn [bind]. destruct (pval_eq x d).
      + cbn [bind]. exists a. split; [reflexivity|]. split; [exact N|]. split; [reflexivity|]. split; [clear; lia|]. split; [clear; lia|].
        exists []. rewrite app_nil_r. split; [reflexivity|]. split; [reflexivity|constructor].
      + rewrite a_push_slot_always_fwd by auto. cbn [bind]. eexists. split; [reflexivity|]. split; [exact N|]. split; [reflexivity|].
        split; [exact (proj1 Sz)|]. split; [exact (proj2 Sz)|]. eexists. split; [reflexivity|]. split; [reflexivity|]. constructor; [|constructor].
        cbn [fl_off]. apply as_u32_le. apply blen_nonneg. }
  apply K. unfold add_op. destruct (g_kind f) as [t [d|]|t vs [d|]| |]; eauto.
Qed.

Lemma adds_fwd h fs : forall n args a, a_nested a = true -> fields_wf n fs -> args_ok fs args = true ->
  (forall o, In (Some (POffset o)) args -> debug h = false \/ o <= blen (a_data a)) ->
  blen (a_data a) + 15 * blen fs + 32 <= 2 ^ 61 ->
  exists a' xs, a_run true h a (add_ops fs args) = Val (a', xs) /\ a_nested a' = true /\ a_vts a' = a_vts a /\
    blen (a_data a) <= blen (a_data a') /\ up8 (blen (a_data a')) <= up8 (blen (a_data a)) + 8 * blen fs /\
    exists new, a_fields a' = a_fields a ++ new /\ map fl_id new = map fst (added (add_ops fs args)) /\
      Forall (fun l => fl_off l <= blen (a_data a')) new.
Proof.
  induction fs as [|f fs IH]; intros n [|x args] a N W A R L; cbn [args_ok add_ops] in *; try discriminate A.
  - exists a, []. change (blen (@nil gfield)) with 0. split; [reflexivity|]. split; [exact N|]. split; [reflexivity|].
    split; [lia|]. split; [lia|]. exists []. rewrite app_nil_r. split; [reflexivity|]. split; [reflexivity|constructor].
  - apply andb_true_iff in A as [A1 A2]. rewrite blen_cons in L |- *. pose proof (blen_nonneg fs) as Bn.
    pose proof (fields_wf_tail _ _ _ W) as W'. destruct (W O f eq_refl) as [_ Kw].
    destruct x as [x|].
    + destruct (add_fwd h a f x) as (a1 & S1 & N1 & V1 & L1 & U1 & new1 & F1 & I1 & O1); auto.
      * eapply arg_ok_pval; eauto.
      * unfold ready. destruct x; auto. apply R. left. reflexivity.
      * clear - L Bn. lia.
      * destruct (IH (n + 1) args a1) as (a2 & xs & S2 & N2 & V2 & L2 & U2 & new2 & F2 & I2 & O2); auto.
        -- intros o Io. destruct (R o (or_intror Io)) as [Q|Q]; [left; exact Q|right; clear - Q L1; lia].
        -- pose proof (up8_range (blen (a_data a))) as Ra. pose proof (up8_range (blen (a_data a1))) as Rb. clear - L U1 Ra Rb. lia.
        -- exists a2, (ONone :: xs). cbn [app a_run]. rewrite S1. cbn [bind]. rewrite S2. cbn [bind]. split; [reflexivity|].
           split; [exact N2|]. split; [congruence|]. split; [clear - L1 L2; lia|]. split; [clear - U1 U2; lia|]. exists (new1 ++ new2).
           rewrite F2, F1, app_assoc. split; [reflexivity|]. unfold added in *. cbn [app flat_map]. rewrite !map_app, I1, I2. split; [reflexivity|].
           apply Forall_app. split; [|exact O2]. eapply Forall_impl; [|exact O1]. intros l Hl. clear - Hl L2. cbv beta in *. lia.
    + destruct (IH (n + 1) args a) as (a2 & xs & S2 & N2 & V2 & L2 & U2 & new2 & F2 & I2 & O2); auto.
      * intros o Io. apply R. right. exact Io.
      * clear - L. lia.
      * exists a2, xs. cbn [app]. split; [exact S2|]. split; [exact N2|]. split; [exact V2|]. split; [exact L2|]. split; [clear - U2; lia|]. eauto.
Qed.

Lemma run_gen_adds h fs : forall args b b' ys, run h b (add_ops fs args) = Val (b', ys) -> gen_adds h b fs args = Val b'.
Proof.
  induction fs as [|f fs IH]; intros [|a args] b b' ys H; cbn [gen_adds add_ops] in *; try (cbn [run] in H; congruence).
  destruct a as [x|].
  - cbn [app run] in H. rewrite gen_add_step in H. destruct (gen_add h b f x) as [b1| |]; cbn [bind] in H; try discriminate H.
    destruct (run h b1 (add_ops fs args)) as [[b2 zs]| |] eqn:E; cbn [bind] in H; try discriminate H.
    assert (b2 = b') by congruence. subst. cbn [bind]. eapply IH; eauto.
  - cbn [app bind] in *. eapply IH; eauto.
Qed.

(** A required scalar that equals its default is not stored. *)
Lemma table_ends h c before xs b0 gs args :
  0 <= c -> calls_ok before = true -> closed before = true -> program h c before = Val (b0, xs) ->
  nested b0 = false -> fields_wf 0 gs -> blen gs <= 8190 -> args_ok gs args = true ->
  (forall o, In (Some (POffset o)) args -> debug h = false \/ o <= blen (unfinished_data b0)) ->
  blen (unfinished_data b0) + 150000 < 2 ^ 31 ->
  let start := as_u32 (blen (unfinished_data b0)) in
  exists b1 b2 b3 ys obj, start_table h b0 = Val (b1, start) /\ gen_adds h b1 gs args = Val b2 /\
    end_table h b2 start = Val (b3, obj) /\
    program h c (table_program before (add_ops gs args) start []) = Val (b3, xs ++ [ONum start] ++ ys ++ [ONum obj] ++ []) /\
    length ys = length (add_ops gs args) /\ obj - start < 2 ^ 16 /\
    blen (unfinished_data b3) <= blen (unfinished_data b0) + 17 * blen gs + 16 /\ nested b3 = false.
Proof.
  intros Hc Ho Hcl H N W Lg A R L start.
  pose proof (blen_nonneg (unfinished_data b0)) as B0. pose proof (blen_nonneg gs) as Bg.
  assert (Es : start = blen (unfinished_data b0)) by (apply as_u32_small; lia).
  pose proof (program_vgood _ _ _ _ _ Hc Ho H) as V0. pose proof (calls_ok_split _ Ho) as [Ho1 Ho2].
  pose proof (program_closed _ _ _ _ _ Hc Ho1 Hcl H) as F0. pose proof V0 as [[I0 _] _].
  assert (S1 : a_step true h (view b0) OpStartTable = Val (with_nested (view b0) true, ONum start)).
  { cbn [a_step]. unfold a_num, a_start_table. cbn [view a_nested]. rewrite N. cbn [negb]. rewrite debug_assert_true by reflexivity. reflexivity. }
  destruct (strict_step h b0 OpStartTable _ _ I0 eq_refl S1) as (b1 & T1 & I1 & E1).
  destruct (adds_fwd h gs 0 args (view b1)) as (a2 & ys & S2 & N2 & Vt2 & L2 & U2 & new & F2 & Id2 & O2); auto.
  { rewrite E1. reflexivity. }
  { rewrite E1. exact R. }
  { rewrite E1. cbn [with_nested a_data view]. lia. }
  pose proof (add_ops_ok gs 0 args ltac:(lia) ltac:(lia) W A) as Ka. pose proof (calls_ok_split _ Ka) as [Ka1 Ka2].
  destruct (strict_run h b1 _ _ _ I1 Ka1 S2) as (b2 & T2 & I2 & E2).
  pose proof (step_vgood _ _ _ _ _ V0 (eq_refl : op_ok OpStartTable = true) eq_refl T1) as V1.
  pose proof (run_vgood _ _ _ _ _ V1 Ka1 Ka2 T2) as [_ [Fit K2]].
  assert (Fi : a_fields a2 = new).
  { rewrite F2, E1. cbn [with_nested a_fields view]. rewrite F0. reflexivity. }
  rewrite E1 in L2, U2. cbn [with_nested a_data view] in L2, U2.
  assert (Bm : blen (a_data a2) <= blen (a_data (pushed a2 marker)) <= blen (unfinished_data b0) + 8 * blen gs + 11).
  { pose proof (up8_range (blen (unfinished_data b0))) as R0. pose proof (up8_range (blen (a_data a2))) as R1. rewrite blen_marker.
    pose proof (gap_range (a_data a2) 4 4 pow8_4) as G. pose proof (gap_aligns (a_data a2) 4 4 pow8_4) as Ga.
    assert (E : up8 (blen (a_data a2)) mod 4 = 0).
    { unfold up8. replace ((blen (a_data a2) + 7) / 8 * 8) with ((blen (a_data a2) + 7) / 8 * 2 * 4) by (clear; lia). apply Z.mod_mul. clear; lia. }
    clear - U2 R0 R1 G Ga E. lia. }
  rewrite E2 in Fit, K2.
  assert (LL : blen (a_data a2) < 2 ^ 32) by (clear - Bm L2 L Lg; lia). destruct (K2 LL) as [K3 _].
  pose proof (inv_fields b2 I2) as Fok. change (field_locs b2) with (a_fields (view b2)) in Fok. rewrite E2 in Fok.
  destruct (a_end_table_fwd h a2 start) as (a3 & S3 & L3).
  { apply debug_assert_true. exact N2. }
  { exact Fok. }
  { exact Fit. }
  { rewrite Fi. eapply Forall_impl; [|exact O2]. intros l Hl. cbv beta in *. clear - Hl Bm. lia. }
  { intros _. split; [rewrite Fi, Id2; eapply added_nodup; eauto|]. rewrite Es. clear - Bm L2 Lg. lia. }
  { exact K3. }
  { clear - Bm L2 L Lg. lia. }
  { rewrite Es. clear - B0 Bm L2. lia. }
  assert (Lv : get_vtable_byte_len (a_fields a2) <= 2 * blen gs + 4).
  { destruct (a_fields a2) as [|l0 ls] eqn:Ef; [change (get_vtable_byte_len []) with 4; clear - Bg; lia|].
    destruct (vtable_len_attained (l0 :: ls)) as (f & If & ->); [discriminate|exact Fok|].
    rewrite Fi in If. apply (in_map fl_id) in If. rewrite Id2 in If.
    destruct (added_slots gs 0 args _ W If) as (i & Hi & ->). unfold blen. clear - Hi. lia. }
  set (obj := blen (a_data (pushed a2 marker))) in *.
  assert (Oe : op_ok (OpEndTable start) = true).
  { cbn [op_ok]. unfold u32_ok. rewrite Es. clear - B0 L. lia. }
  assert (S3' : a_step true h (view b2) (OpEndTable start) = Val (a3, ONum obj)).
  { rewrite E2. cbn [a_step]. unfold a_num. rewrite S3. reflexivity. }
  destruct (strict_step h b2 _ _ _ I2 Oe S3') as (b3 & T3 & I3 & E3).
  exists b1, b2, b3, ys, obj.
  split. { cbn [step] in T1. unfold with_num in T1. apply bind_Val in T1 as ([q1 q2] & T1 & Q). rewrite T1. congruence. }
  split. { eapply run_gen_adds; eauto. }
  split. { cbn [step] in T3. unfold with_num in T3. apply bind_Val in T3 as ([q1 q2] & T3 & Q). rewrite T3. congruence. }
  split.
  { unfold table_program. eapply program_run; [exact H|]. rewrite run_app. cbn [run]. rewrite T1. cbn [bind].
    rewrite run_app, T2. cbn [bind app run]. rewrite T3. reflexivity. }
  split. { eapply run_length; eauto. }
  split. { rewrite Es. clear - Bm L2 Lg. lia. }
  split. { change (unfinished_data b3) with (a_data (view b3)). rewrite E3. clear - L3 Bm L2 Lv Bg. lia. }
  change (nested b3) with (a_nested (view b3)). rewrite E3. unfold a_end_table in S3. apply bind_Val in S3 as (? & _ & S3).
  apply bind_Val in S3 as ([a4 n4] & _ & S3). assert (E : a3 = with_fields (with_nested a4 false) []) by congruence. rewrite E. reflexivity.
Qed.

Lemma required_steps h b obj slot : step h b (OpRequired obj slot) = (let* _ := required h b obj slot in Val (b, ONone)).
Proof. reflexivity. Qed.

Lemma args_nth fs : forall args i f, args_ok fs args = true -> nth_error fs i = Some f ->
  exists a, nth_error args i = Some a /\ arg_ok f a = true.
Proof.
  induction fs as [|f0 fs IH]; intros [|a args] [|i] f A Hf; cbn [args_ok nth_error] in *; try discriminate.
  - apply andb_true_iff in A as [A _]. injection Hf as ->. eauto.
  - apply andb_true_iff in A as [_ A]. eauto.
Qed.

Lemma required_stored_nth fs : forall args, length args = length fs ->
  (required_stored fs args = true <-> forall i f a, nth_error fs i = Some f -> nth_error args i = Some a -> g_req f = true -> is_default f a = false).
Proof.
  induction fs as [|f fs IH]; intros [|a args] L; try discriminate L; cbn [required_stored].
  - split; [intros _ [|i]; discriminate|reflexivity].
  - rewrite andb_true_iff, IH by (cbn in L; lia). split.
    + intros [A B] [|i] f' a' Hf Ha R; cbn [nth_error] in *; [|eauto].
      injection Hf as <-. injection Ha as <-. rewrite R in A. cbn [andb] in A. apply negb_true_iff. exact A.
    + intros Q. split; [|intros i; exact (Q (S i))]. specialize (Q O f a eq_refl eq_refl). destruct (g_req f); [|reflexivity].
      rewrite (Q eq_refl). reflexivity.
Qed.

Lemma args_ok_length fs : forall args, args_ok fs args = true -> length args = length fs.
Proof.
  induction fs as [|f fs IH]; intros [|a args] A; cbn [args_ok length] in *; try discriminate; auto.
  apply andb_true_iff in A as [_ A]. f_equal. auto.
Qed.

Lemma gen_required_all h b o fs : (forall i f, nth_error fs i = Some f -> g_req f = true -> required h b o (g_slot f) = Val tt) ->
  gen_required h b o fs = Val tt.
Proof.
  induction fs as [|f fs IH]; intros H; cbn [gen_required]; auto.
  destruct (g_req f) eqn:R.
  - rewrite (H O f eq_refl R). cbn [bind]. apply IH. intros i. exact (H (S i)).
  - cbn [bind]. apply IH. intros i. exact (H (S i)).
Qed.
Lemma gen_required_none h b o fs : 
  (forall i f, nth_error fs i = Some f -> g_req f = true -> required h b o (g_slot f) = Val tt \/ required h b o (g_slot f) = Panic) ->
  (exists i f, nth_error fs i = Some f /\ g_req f = true /\ required h b o (g_slot f) = Panic) ->
  gen_required h b o fs = Panic.
Proof.
  induction fs as [|f fs IH]; intros H (i & g & Hg & Rg & P); [destruct i; discriminate|]. cbn [gen_required].
  destruct i as [|i]; cbn [nth_error] in Hg.
  - injection Hg as ->. rewrite Rg, P. reflexivity.
  - destruct (g_req f) eqn:R.
    + destruct (H O f eq_refl R) as [-> | ->]; [|reflexivity]. cbn [bind]. apply IH; [intros j; exact (H (S j))|eauto].
    + cbn [bind]. apply IH; [intros j; exact (H (S j))|eauto].
Qed.

Lemma stored_default f x : stored f x = negb (is_default f (Some x)).
Proof. unfold stored, is_default. destruct (g_kind f) as [t [d|]|t vs [d|]| |]; reflexivity. Qed.

Lemma create_exact h c before xs b0 gs args :
  0 <= c -> calls_ok before = true -> closed before = true -> program h c before = Val (b0, xs) ->
  nested b0 = false -> generated 8190 gs -> args_ok gs args = true ->
  (forall o, In (Some (POffset o)) args -> debug h = false \/ o <= blen (unfinished_data b0)) ->
  blen (unfinished_data b0) + 150000 < 2 ^ 31 ->
  (required_stored gs args = true -> exists b1 obj, gen_create h b0 gs args = Val (b1, obj) /\
     blen (unfinished_data b1) <= blen (unfinished_data b0) + 17 * blen gs + 16 /\ nested b1 = false) /\
  (required_stored gs args = false -> gen_create h b0 gs args = Panic).
Proof.
  intros Hc Ho Hcl H N G A R L. destruct (generated_facts h 8190 ltac:(lia) (or_intror (Z.le_refl 8190)) gs G) as (W & Lg & _).
  destruct (table_ends _ _ _ _ _ _ _ Hc Ho Hcl H N W Lg A R L) as (b1 & b2 & b3 & ys & obj & T1 & T2 & T3 & P & Ly & Sz & L3 & N3).
  set (start := as_u32 (blen (unfinished_data b0))) in *.
  assert (Lx : length xs = length before) by (eapply program_length; eauto).
  assert (Oe : calls_ok (table_program before (add_ops gs args) start []) = true).
  { unfold table_program. rewrite !calls_ok_app, Ho, (add_ops_ok gs 0 args ltac:(lia) ltac:(lia) W A). unfold calls_ok.
    cbn [forallb op_ok op_slots andb]. unfold u32_ok, start, as_u32.
    pose proof (Z.mod_pos_bound (blen (unfinished_data b0)) (2 ^ 32) ltac:(lia)) as Q. clear - Q. lia. }
  assert (L3' : blen (unfinished_data b3) < 2 ^ 31) by (clear - L3 L Lg; lia).
  assert (Rq : forall i f a, nth_error gs i = Some f -> nth_error args i = Some a -> g_req f = true ->
     required h b3 obj (g_slot f) = if is_default f a then Panic else Val tt).
  { intros i f a Hf Ha Hr. destruct (W _ _ Hf) as [Sl _].
    assert (Hi : Z.of_nat i < 8190).
    { assert (i < length gs)%nat by (apply nth_error_Some; congruence). unfold blen in Lg. clear - H0 Lg. lia. }
    destruct (required_exact h c before (add_ops gs args) start [] obj xs ys [] b3 (g_slot f) Hc Oe Hcl (add_ops_in_table _ _) eq_refl P Lx Ly L3')
      as [Yes No].
    { right. split; [exact Sz|]. eapply added_nodup; eauto. }
    { rewrite Sl. clear - Hi. lia. }
    { rewrite Sl. replace (4 + 2 * (0 + Z.of_nat i)) with ((2 + Z.of_nat i) * 2) by lia. apply Z.mod_mul. lia. }
    destruct (args_nth _ _ _ _ A Hf) as (a' & Ha' & Oa). assert (a' = a) by congruence. subst a'.
    destruct (added_here gs 0 args i f a W Hf Ha) as [In1 Out].
    destruct a as [x|].
    2: { exfalso. unfold arg_ok in Oa. rewrite Hr in Oa. destruct (g_kind f); discriminate Oa. }
    rewrite required_steps in Yes, No. pose proof (stored_default f x) as Sd. destruct (is_default f (Some x)) eqn:D.
    - assert (Q : (let* _ := required h b3 obj (g_slot f) in Val (b3, ONone)) = Panic).
      { apply No. apply Out. intros x' Ex. assert (x' = x) by congruence. subst. exact Sd. }
      destruct (required h b3 obj (g_slot f)) as [[]| |]; cbn [bind] in Q; congruence.
    - assert (Q : (let* _ := required h b3 obj (g_slot f) in Val (b3, ONone)) = Val (b3, ONone)).
      { apply Yes. apply in_map_iff. exists (g_slot f, x). split; [reflexivity|]. apply In1; auto. }
      destruct (required h b3 obj (g_slot f)) as [[]| |]; cbn [bind] in Q; congruence. }
  pose proof (args_ok_length _ _ A) as La. pose proof (required_stored_nth gs args La) as Rs.
  unfold gen_create. rewrite T1. cbn [bind]. rewrite T2. cbn [bind]. rewrite T3. cbn [bind]. split.
  - intros Q. rewrite gen_required_all.
    + cbn [bind]. exists b3, obj. split; [reflexivity|]. split; [clear - L3; lia|exact N3].
    + intros i f Hf Hr. destruct (args_nth _ _ _ _ A Hf) as (a & Ha & _). rewrite (Rq _ _ _ Hf Ha Hr).
      rewrite (proj1 Rs Q _ _ _ Hf Ha Hr). reflexivity.
  - intros Q. rewrite gen_required_none; [reflexivity| |].
    + intros i f Hf Hr. destruct (args_nth _ _ _ _ A Hf) as (a & Ha & _). rewrite (Rq _ _ _ Hf Ha Hr). destruct (is_default f a); auto.
    + clear - Q La Rq. assert (X : exists i f a, nth_error gs i = Some f /\ nth_error args i = Some a /\ g_req f = true /\ is_default f a = true).
      { clear Rq. revert args Q La. induction gs as [|f gs IH]; intros [|a args] Q La; try discriminate La; cbn [required_stored] in Q; [discriminate|].
        apply andb_false_iff in Q as [Q|Q].
        - exists O, f, a. apply negb_false_iff in Q. apply andb_true_iff in Q as [Q1 Q2]. auto.
        - destruct (IH args Q ltac:(cbn in La; lia)) as (i & X). exists (S i). exact X. }
      destruct X as (i & f & a & Hf & Ha & Hr & D). exists i, f. rewrite (Rq _ _ _ Hf Ha Hr), D. auto.
Qed.

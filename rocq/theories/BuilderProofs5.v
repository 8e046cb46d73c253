(** Shared vtables. *)
From Coq Require Import ZArith List Bool Lia Strings.Byte ZifyBool ZifyNat ZifyN.
From Verif Require Import Base Scalar Reader Builder Ops SpecBuilder Abstract BaseFacts ScalarFacts
  ReaderFacts Refine Refine2 Build1 Build2 Build3 Build4 Build5 Build6 Build7 Build8 Build9 BuilderProofs1 BuilderProofs2 BuilderProofs3.
Import ListNotations.
Local Open Scope Z_scope.

Lemma end_table_facts h b s b' o : vgood b -> op_ok (OpEndTable s) = true ->
  step h b (OpEndTable s) = Val (b', ONum o) -> blen (unfinished_data b') < 2 ^ 32 ->
  exists vr vt, table_at (unfinished_data b') o vr vt /\ In vr (written_vtable_revpos b') /\
    ((written_vtable_revpos b' = written_vtable_revpos b /\ In vr (written_vtable_revpos b) /\ vt_at (unfinished_data b) vr vt) \/
     (written_vtable_revpos b' = written_vtable_revpos b ++ [vr] /\
      forall r, In r (written_vtable_revpos b) -> ~ vt_at (unfinished_data b) r vt)).
Proof.
  intros [[I G] [Fit K]] Ho H L.
  pose proof (step_abstract _ _ _ _ _ I Ho H) as [S3 I'].
  pose proof (step_grows _ _ _ _ _ I Ho eq_refl H L) as GR. apply grows_blen in GR. cbn [view a_data] in GR.
  assert (L2 : blen (unfinished_data b) < 2 ^ 32) by (clear - GR L; lia).
  cbn [a_step] in S3. unfold a_num in S3. apply bind_Val in S3 as ([a3 n3] & S3 & Q3).
  assert (Ea3 : a3 = view b') by congruence. assert (En3 : n3 = o) by congruence. subst a3 n3.
  destruct (K L2) as [K2a K2b].
  apply end_table_at in S3; [|apply (inv_fields b I)|exact Fit|exact K2a|exact K2b|exact L].
  destruct S3 as (size & vt & vr & Eo & Hsz & Hd & Hvt & T & _ & _ & C).
  cbn [view a_data a_vts] in *. exists vr, vt. split; [exact T|]. 
  destruct C as [(E & In1 & V)|(E & Er & N)]; rewrite E; split; auto.
  apply in_or_app. right. left. reflexivity.
Qed.

Lemma step_revpos h b o b' x : vgood b -> op_ok o = true -> negb (is_reset o) && negb (is_finish o) = true ->
  step h b o = Val (b', x) -> blen (unfinished_data b') < 2 ^ 32 ->
  exists l, written_vtable_revpos b' = written_vtable_revpos b ++ l.
Proof.
  intros V Ho Hk H L. destruct (keeps_vts o) eqn:KV.
  - destruct V as [[I _] _]. pose proof (step_abstract _ _ _ _ _ I Ho H) as [S _].
    apply (a_step_vts _ _ _ _ _ _ KV) in S. cbn [view a_vts] in S. exists []. rewrite app_nil_r. exact S.
  - destruct o; try discriminate. destruct x as [|n|]; try (cbn [step] in H; unfold with_num in H;
      apply bind_Val in H as ([b1 n1] & _ & E); discriminate).
    destruct (end_table_facts _ _ _ _ _ V Ho H L) as (vr & vt & _ & _ & [(E & _)|(E & _)]); rewrite E; eauto.
    exists []. rewrite app_nil_r. reflexivity.
Qed.

Lemma run_revpos h os : forall b b' xs, vgood b -> calls_ok os = true -> keeps_tables os = true ->
  run h b os = Val (b', xs) -> blen (unfinished_data b') < 2 ^ 32 ->
  exists l, written_vtable_revpos b' = written_vtable_revpos b ++ l.
Proof.
  induction os as [|o os IH]; intros b b' xs V Ho Hk H L; cbn [run] in H.
  - injection H as <- <-. exists []. rewrite app_nil_r. reflexivity.
  - unfold calls_ok, keeps_tables in Ho, Hk. cbn [forallb] in Ho, Hk. fold (calls_ok os) (keeps_tables os) in Ho, Hk.
    apply andb_true_iff in Ho as [Ho Hos]. apply andb_true_iff in Hk as [Hk Hks]. apply andb_true_iff in Ho as [Ho Hsl].
    apply bind_Val in H as ([b1 x] & H1 & H). apply bind_Val in H as ([b2 ys] & H2 & H). injection H as <- <-.
    pose proof (step_vgood _ _ _ _ _ V Ho Hsl H1) as V1.
    assert (L1 : blen (unfinished_data b1) < 2 ^ 32).
    { apply calls_ok_split in Hos as [Hos _]. destruct V1 as [[I1 _] _].
      assert (R : no_reset os = true).
      { unfold no_reset, keeps_tables in *. rewrite forallb_forall in *. intros y Iy. specialize (Hks y Iy). apply andb_true_iff in Hks. apply Hks. }
      pose proof (grows_blen _ _ (run_grows _ _ _ _ _ I1 Hos R H2 L)) as G. cbn [view a_data] in G. clear - G L. lia. }
    destruct (step_revpos _ _ _ _ _ V Ho Hk H1 L1) as (l1 & E1).
    destruct (IH _ _ _ V1 Hos Hks H2 L) as (l2 & E2). exists (l1 ++ l2). rewrite E2, E1, app_assoc. reflexivity.
Qed.

Lemma calls_ok_app a b : calls_ok (a ++ b) = calls_ok a && calls_ok b.
Proof. apply forallb_app. Qed.

Lemma keeps_no_reset os : keeps_tables os = true -> no_reset os = true.
Proof.
  unfold no_reset, keeps_tables. rewrite !forallb_forall. intros H y Iy. specialize (H y Iy). apply andb_true_iff in H. apply H.
Qed.

Lemma vt_at_back q D r v : vt_known D r -> vt_at (q ++ D) r v -> blen (q ++ D) < 2 ^ 63 -> vt_at D r v.
Proof.
  intros (w & W) V L. pose proof (vt_at_fun _ _ _ _ (vt_at_app q _ _ _ W) V L). subst w. exact W.
Qed.

Lemma tables_share h hr c os1 s1 os2 s2 os3 o1 o2 xs ys zs b :
  0 <= c -> calls_ok (os1 ++ [OpEndTable s1] ++ os2 ++ [OpEndTable s2] ++ os3) = true ->
  keeps_tables os2 = true -> no_reset os3 = true ->
  program h c (os1 ++ [OpEndTable s1] ++ os2 ++ [OpEndTable s2] ++ os3)
    = Val (b, xs ++ [ONum o1] ++ ys ++ [ONum o2] ++ zs) ->
  length xs = length os1 -> length ys = length os2 -> blen (unfinished_data b) < 2 ^ 31 ->
  let D := unfinished_data b in
  exists v1 v2 t1 t2, table_vtable hr D (blen D - o1) = Val v1 /\ table_vtable hr D (blen D - o2) = Val v2 /\
    vt_as_bytes hr D v1 = Val t1 /\ vt_as_bytes hr D v2 = Val t2 /\ (v1 = v2 <-> t1 = t2).
Proof.
  intros Hc Hok Hk2 Hr3 H Lx Ly L D. fold D in L.
  rewrite !calls_ok_app in Hok. repeat rewrite andb_true_iff in Hok. destruct Hok as (OkA & OkE1 & OkB & OkE2 & OkC).
  apply program_split in H as (b0 & xs1 & r1 & HB & H & E1 & L1).
  apply app_len_inj in E1 as [<- E1]; [|congruence].
  apply run_split in H as (b1 & xs2 & r2 & H1 & H & E2 & L2). rewrite E2 in E1.
  apply run_one in H1 as (r & H1 & ->). cbn [app] in E1. injection E1 as Er E1. subst r.
  apply run_split in H as (b2 & xs3 & r3 & H2 & H & E3 & L3). rewrite E3 in E1.
  apply (app_len_inj ys) in E1 as [<- E1]; [|congruence].
  apply run_split in H as (b3 & xs4 & r4 & H3 & H4 & E4 & L4). rewrite E4 in E1.
  apply run_one in H3 as (r & H3 & ->). cbn [app] in E1. injection E1 as Er E1. subst r. clear E1 E2 E3 E4 L1 L2 L3 L4.
  pose proof (program_vgood _ _ _ _ _ Hc OkA HB) as V0.
  assert (OE : forall s, calls_ok [OpEndTable s] = true -> op_ok (OpEndTable s) = true).
  { intros s X. unfold calls_ok in X. cbn [forallb op_slots] in X. rewrite !andb_true_r in X. exact X. }
  apply OE in OkE1. apply OE in OkE2.
  pose proof (step_vgood _ _ _ _ _ V0 OkE1 eq_refl H1) as V1.
  pose proof OkB as OkB'. apply calls_ok_split in OkB' as [OkB1 OkB2].
  pose proof (run_vgood _ _ _ _ _ V1 OkB1 OkB2 H2) as V2.
  pose proof (step_vgood _ _ _ _ _ V2 OkE2 eq_refl H3) as V3.
  apply calls_ok_split in OkC as [OkC _].
  pose proof V1 as [[I1 _] _]. pose proof V2 as [[I2 _] [_ K2]]. pose proof V3 as [[I3 _] [_ K3]].
  assert (LD : blen D < 2 ^ 32) by (clear - L; lia).
  pose proof (run_grows _ _ _ _ _ I3 OkC Hr3 H4 LD) as G3. pose proof (grows_blen _ _ G3) as G3L. cbn [view a_data] in G3L.
  destruct G3 as ((p3 & EP3) & _). cbn [view a_data] in EP3. fold D in EP3, G3L.
  assert (LL3 : blen (unfinished_data b3) < 2 ^ 32) by (clear - G3L LD; lia).
  pose proof (step_grows _ _ _ _ _ I2 OkE2 eq_refl H3 LL3) as G2. pose proof (grows_blen _ _ G2) as G2L. cbn [view a_data] in G2L.
  destruct G2 as ((p2 & EP2) & _). cbn [view a_data] in EP2.
  assert (LL2 : blen (unfinished_data b2) < 2 ^ 32) by (clear - G2L LL3; lia).
  pose proof (run_grows _ _ _ _ _ I1 OkB1 (keeps_no_reset _ Hk2) H2 LL2) as G1. pose proof (grows_blen _ _ G1) as G1L. cbn [view a_data] in G1L.
  destruct G1 as ((p1 & EP1) & _). cbn [view a_data] in EP1.
  assert (LL1 : blen (unfinished_data b1) < 2 ^ 32) by (clear - G1L LL2; lia).
  destruct (end_table_facts _ _ _ _ _ V0 OkE1 H1 LL1) as (r1' & t1 & T1 & In1 & _).
  destruct (end_table_facts _ _ _ _ _ V2 OkE2 H3 LL3) as (r2' & t2 & T2 & In2 & C).
  destruct (run_revpos _ _ _ _ _ V1 OkB Hk2 H2 LL2) as (l & El).
  assert (In1' : In r1' (written_vtable_revpos b2)) by (rewrite El; apply in_or_app; auto).
  assert (T1b : table_at (unfinished_data b2) o1 r1' t1) by (rewrite EP1; apply table_at_app; exact T1).
  assert (T1D : table_at D o1 r1' t1) by (rewrite EP3, EP2; apply table_at_app, table_at_app; exact T1b).
  assert (T2D : table_at D o2 r2' t2) by (rewrite EP3; apply table_at_app; exact T2).
  assert (L63 : blen D < 2 ^ 63) by (clear - L; lia).
  exists (blen D - r1'), (blen D - r2'), t1, t2.
  split; [eapply table_at_vtable; eauto|]. split; [eapply table_at_vtable; eauto|].
  split; [apply vt_at_bytes; [apply T1D|exact L63]|]. split; [apply vt_at_bytes; [apply T2D|exact L63]|].
  split.
  - intros E. assert (r1' = r2') by (clear - E; lia). subst r2'. eapply vt_at_fun; [apply T1D|apply T2D|exact L63].
  - intros ->. destruct C as [(_ & In2' & Vt)|(_ & N)].
    + destruct (K2 LL2) as [_ Dst]. apply In_nth_error in In1' as (i & Hi). apply In_nth_error in In2' as (j & Hj).
      assert (i = j) by (eapply Dst; [exact Hi|exact Hj|apply T1b|exact Vt]). subst j. congruence.
    + exfalso. apply (N r1' In1'). apply T1b.
Qed.

Lemma vtables_counted h hr c os s b xs b' o :
  0 <= c -> calls_ok (os ++ [OpEndTable s]) = true ->
  program h c os = Val (b, xs) -> step h b (OpEndTable s) = Val (b', ONum o) ->
  blen (unfinished_data b') < 2 ^ 31 ->
  let D := unfinished_data b' in
  exists v t, table_vtable hr D (blen D - o) = Val v /\ vt_as_bytes hr D v = Val t /\
    ((num_written_vtables b' = num_written_vtables b /\
      exists r, In r (written_vtable_revpos b) /\ v = blen D - r /\
        vt_as_bytes hr (unfinished_data b) (blen (unfinished_data b) - r) = Val t) \/
     (num_written_vtables b' = num_written_vtables b + 1 /\
      forall r, In r (written_vtable_revpos b) ->
        vt_as_bytes hr (unfinished_data b) (blen (unfinished_data b) - r) <> Val t)).
Proof.
  intros Hc Hok H S L D. fold D in L. rewrite calls_ok_app in Hok. apply andb_true_iff in Hok as [Ok1 Ok2].
  unfold calls_ok in Ok2. cbn [forallb op_slots] in Ok2. rewrite !andb_true_r in Ok2.
  pose proof (program_vgood _ _ _ _ _ Hc Ok1 H) as V. pose proof V as [[I _] [_ K]].
  assert (L32 : blen D < 2 ^ 32) by (clear - L; lia).
  pose proof (step_grows _ _ _ _ _ I Ok2 eq_refl S L32) as G. pose proof (grows_blen _ _ G) as GL. cbn [view a_data] in GL. fold D in GL.
  destruct G as ((p & EP) & _). cbn [view a_data] in EP. fold D in EP.
  destruct (K ltac:(cbn [view a_data]; clear - GL L32; lia)) as [K1 _]. cbn [view a_data a_vts] in K1.
  destruct (end_table_facts _ _ _ _ _ V Ok2 S L32) as (vr & vt & T & _ & C). fold D in T.
  exists (blen D - vr), vt. split; [eapply table_at_vtable; eauto|].
  split; [apply vt_at_bytes; [apply T|clear - L; lia]|].
  unfold num_written_vtables. destruct C as [(E & Iv & Vt)|(E & N)]; rewrite E.
  - left. split; [reflexivity|]. exists vr. split; [exact Iv|]. split; [reflexivity|].
    apply vt_at_bytes; [exact Vt|clear - GL L; lia].
  - right. split; [rewrite blen_app; reflexivity|]. intros r Ir X.
    rewrite Forall_forall in K1. destruct (K1 r Ir) as (w & W).
    rewrite (vt_at_bytes hr _ _ _ W) in X by (clear - GL L; lia). injection X as ->. apply (N r Ir W).
Qed.

Lemma vtables_distinct h hr c os b xs i j r s :
  0 <= c -> calls_ok os = true -> program h c os = Val (b, xs) -> blen (unfinished_data b) < 2 ^ 32 ->
  nth_error (written_vtable_revpos b) i = Some r -> nth_error (written_vtable_revpos b) j = Some s -> i <> j ->
  exists x y, vt_as_bytes hr (unfinished_data b) (blen (unfinished_data b) - r) = Val x /\
    vt_as_bytes hr (unfinished_data b) (blen (unfinished_data b) - s) = Val y /\ x <> y.
Proof.
  intros Hc Hok H L Hi Hj Hn. pose proof (program_vgood _ _ _ _ _ Hc Hok H) as [_ [_ K]].
  destruct (K L) as [K1 K2]. cbn [view a_data a_vts] in *. rewrite Forall_forall in K1.
  destruct (K1 r (nth_error_In _ _ Hi)) as (x & X). destruct (K1 s (nth_error_In _ _ Hj)) as (y & Y).
  exists x, y. assert (L63 : blen (unfinished_data b) < 2 ^ 63) by (clear - L; lia).
  split; [apply vt_at_bytes; auto|]. split; [apply vt_at_bytes; auto|]. intros ->. apply Hn. eapply K2; eauto.
Qed.

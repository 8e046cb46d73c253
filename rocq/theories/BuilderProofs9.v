(** Tables too large for 16-bit offsets; slot numbers. *)
From Coq Require Import ZArith List Bool Lia Strings.Byte ZifyBool ZifyNat ZifyN.
From Verif Require Import Base Scalar Reader Builder Ops SpecBuilder Abstract BaseFacts ScalarFacts
  ReaderFacts Refine Refine2 Build1 Build2 Build3 Build4 Build5 Build6 Build7 Build8 Build9 Build10 Build11 BuilderProofs1 BuilderProofs2 BuilderProofs3 BuilderProofs4 BuilderProofs8.
Import ListNotations.
Local Open Scope Z_scope.

(** ** Slot numbers *)
Lemma slot_of_index h i : 0 <= i <= 32765 -> field_index_to_field_offset h i = Val (4 + 2 * i).
Proof.
  intros H. unfold field_index_to_field_offset, u16_arith, unsigned_arith, SIZE_VOFFSET.
  replace ((0 <=? i + 2) && (i + 2 <? 2 ^ 16)) with true by lia. cbn [bind].
  replace ((0 <=? (i + 2) * 2) && ((i + 2) * 2 <? 2 ^ 16)) with true by lia. f_equal. lia.
Qed.
Lemma index_of_slot h i : 0 <= i <= 32765 -> field_offset_to_field_index h (4 + 2 * i) = Val i.
Proof.
  intros H. unfold field_offset_to_field_index, u16_arith, unsigned_arith, SIZE_VOFFSET.
  replace (2 <=? 4 + 2 * i) with true by lia. rewrite debug_assert_ok by reflexivity. cbn [bind].
  replace ((4 + 2 * i) / 2) with (2 + i) by (replace (4 + 2 * i) with ((2 + i) * 2) by lia; rewrite Z.div_mul; lia).
  replace ((0 <=? 2 + i - 2) && (2 + i - 2 <? 2 ^ 16)) with true by lia. f_equal. lia.
Qed.
Lemma slots_bijective h :
  (forall i, 0 <= i <= 32765 -> exists s, field_index_to_field_offset h i = Val s /\ 4 <= s <= 65534 /\
     field_offset_to_field_index h s = Val i) /\
  (forall i j s, 0 <= i <= 32765 -> 0 <= j <= 32765 ->
     field_index_to_field_offset h i = Val s -> field_index_to_field_offset h j = Val s -> i = j) /\
  (forall s, 4 <= s < 2 ^ 16 -> s mod 2 = 0 -> exists i, 0 <= i <= 32765 /\
     field_offset_to_field_index h s = Val i /\ field_index_to_field_offset h i = Val s).
Proof.
  split; [|split].
  - intros i H. exists (4 + 2 * i). rewrite slot_of_index, index_of_slot by auto. repeat split; auto; lia.
  - intros i j s Hi Hj. rewrite !slot_of_index by auto. intros E F. assert (4 + 2 * i = 4 + 2 * j) by congruence. lia.
  - intros s H E. apply Z.mod_divide in E as (k & ->); [|lia]. exists (k - 2).
    replace (k * 2) with (4 + 2 * (k - 2)) by lia. rewrite index_of_slot, slot_of_index by lia. repeat split; lia.
Qed.
Lemma slots_overflow h i : 32766 <= i < 2 ^ 16 ->
  field_index_to_field_offset h i = if debug h then Panic else Val ((4 + 2 * i) mod 2 ^ 16).
Proof.
  intros H. unfold field_index_to_field_offset, u16_arith, unsigned_arith, SIZE_VOFFSET.
  destruct (Z.leb_spec 65534 i).
  - replace ((0 <=? i + 2) && (i + 2 <? 2 ^ 16)) with false by lia. destruct (debug h); [reflexivity|]. cbn [bind].
    replace ((i + 2) mod 2 ^ 16) with (i - 65534) by (apply (Z.mod_unique _ _ 1); lia).
    replace ((0 <=? (i - 65534) * 2) && ((i - 65534) * 2 <? 2 ^ 16)) with true by lia. f_equal.
    apply (Z.mod_unique _ _ 2); lia.
  - replace ((0 <=? i + 2) && (i + 2 <? 2 ^ 16)) with true by lia. cbn [bind].
    replace ((0 <=? (i + 2) * 2) && ((i + 2) * 2 <? 2 ^ 16)) with false by lia. destruct (debug h); [reflexivity|].
    do 2 f_equal. lia.
Qed.

(** ** What a debug build refuses *)
Lemma debug_refuses_oversized h c before mid start obj xs ys b :
  debug h = true -> 0 <= c -> forallb op_ok (table_program before mid start []) = true ->
  closed before = true -> forallb in_table mid = true ->
  program h c (table_program before mid start []) = Val (b, xs ++ [ONum start] ++ ys ++ [ONum obj]) ->
  length xs = length before -> length ys = length mid -> blen (unfinished_data b) < 2 ^ 32 ->
  obj - start < 2 ^ 16 /\ forall slot x, In (slot, x) (added mid) -> slot + 2 < 2 ^ 16.
Proof.
  intros Hdb Hc Hok Hcl Hmid H Lx Ly L. unfold table_program in *.
  rewrite !forallb_app in Hok. repeat rewrite andb_true_iff in Hok. destruct Hok as (OkB & _ & OkM & OkE & _).
  apply program_split in H as (b0 & xs1 & r1 & HB & H & E1 & L1).
  apply app_len_inj in E1 as [<- E1]; [|congruence].
  apply run_split in H as (b1 & xs2 & r2 & H1 & H & E2 & L2). rewrite E2 in E1.
  apply run_one in H1 as (r & H1 & ->). cbn [app] in E1. injection E1 as Er E1. subst r.
  apply run_split in H as (b2 & xs3 & r3 & H2 & H & E3 & L3). rewrite E3 in E1.
  apply (app_len_inj ys) in E1 as [<- E1]; [|congruence].
  rewrite app_nil_r in H. apply run_one in H as (r & H3 & ->). injection E1 as <-. clear E2 E3 L1 L2 L3.
  pose proof (program_inv _ _ _ _ _ Hc OkB HB) as I0. pose proof (program_closed _ _ _ _ _ Hc OkB Hcl HB) as F0.
  pose proof (step_abstract _ _ OpStartTable _ _ I0 eq_refl H1) as [S1 I1].
  pose proof (run_inv _ _ _ _ _ I1 OkM H2) as I2.
  assert (OkE1 : op_ok (OpEndTable start) = true) by (cbn [forallb] in OkE; rewrite andb_true_r in OkE; exact OkE).
  pose proof (step_grows _ _ _ _ _ I2 OkE1 eq_refl H3 L) as G2. pose proof (grows_blen _ _ G2) as G2L. cbn [view a_data] in G2L.
  assert (LL2 : blen (unfinished_data b2) < 2 ^ 32) by (clear - G2L L; lia).
  pose proof (run_grows _ _ _ _ _ I1 OkM (in_table_no_reset _ Hmid) H2 LL2) as G1.
  pose proof (grows_blen _ _ G1) as G1L. cbn [view a_data] in G1L.
  cbn [a_step] in S1. unfold a_num, a_start_table in S1.
  apply bind_Val in S1 as ([a1 n1] & S1 & Q1). apply bind_Val in S1 as (u1 & _ & S1).
  assert (Ea1 : view b1 = with_nested (view b0) true) by congruence.
  assert (D01 : unfinished_data b1 = unfinished_data b0) by (change (a_data (view b1) = unfinished_data b0); rewrite Ea1; reflexivity).
  assert (F1 : field_locs b1 = []) by (change (a_fields (view b1) = []); rewrite Ea1; exact F0).
  assert (FR : Forall2 (fr 0 (unfinished_data b2)) ([] ++ added mid) (field_locs b2)).
  { eapply run_fields; [exact I1|exact OkM|exact Hmid|exact H2|exact LL2|apply blen_nonneg|rewrite F1; constructor]. }
  cbn [app] in FR. apply Forall2_ids in FR.
  pose proof (step_abstract _ _ _ _ _ I2 OkE1 H3) as [S3 _]. cbn [a_step] in S3. unfold a_num in S3.
  apply bind_Val in S3 as ([a3 n3] & S3 & Q3).
  assert (Ea3 : a3 = view b) by congruence. assert (En3 : n3 = obj) by congruence. subst a3 n3.
  unfold a_end_table in S3. apply bind_Val in S3 as (u & _ & S3). apply bind_Val in S3 as ([a4 o4] & S3 & Q4).
  assert (E4 : o4 = obj) by congruence. subst o4.
  unfold a_write_vtable in S3. apply bind_Val in S3 as (u1' & _ & S3). apply bind_Val in S3 as ([a5 o5] & P5 & S3).
  apply a_push_val in P5 as (-> & _). change (a_fields (pushed (view b2) (PScalar TU32 4042322160))) with (field_locs b2) in S3.
  apply bind_Val in S3 as (u2 & _ & S3). apply bind_Val in S3 as (size & Hsz & S3). apply bind_Val in S3 as (u3 & Hs & S3).
  apply bind_Val in S3 as (vt & Hvt & S3).
  assert (Eobj : o5 = obj).
  { apply bind_Val in S3 as (dup & _ & S3).
    destruct dup; apply bind_Val in S3 as (? & _ & S3); apply bind_Val in S3 as (? & _ & S3);
    apply bind_Val in S3 as (? & _ & S3); apply bind_Val in S3 as (? & _ & S3); apply bind_Val in S3 as (? & _ & S3); congruence. }
  subst o5. apply debug_assert_true in Hs; [|exact Hdb].
  split.
  - clear - Hdb Hsz Hs. unfold u32_arith, unsigned_arith in Hsz. rewrite Hdb in Hsz. destruct (_ && _); [|discriminate].
    injection Hsz as <-. lia.
  - intros slot x Ix. unfold a_vtable in Hvt. apply bind_Val in Hvt as (v1 & W & _).
    apply write_header_val in W as (_ & _ & W). apply debug_assert_true in W; [|exact Hdb].
    rewrite blen_zeros in W.
    assert (If : In slot (map fl_id (field_locs b2))) by (rewrite FR; exact (in_map fst _ _ Ix)).
    apply in_map_iff in If as (f & <- & If). pose proof (vtable_len_max _ _ If) as M.
    clear - W M. unfold as_u16 in W. pose proof (Z.mod_pos_bound (get_vtable_byte_len (field_locs b2)) (2 ^ 16)). lia.
Qed.

(** ** What a release build writes instead *)
Lemma truncated_fields h hr c before mid start later obj xs ys zs b :
  0 <= c -> calls_ok (table_program before mid start later) = true ->
  closed before = true -> forallb in_table mid = true -> no_reset later = true ->
  program h c (table_program before mid start later) = Val (b, xs ++ [ONum start] ++ ys ++ [ONum obj] ++ zs) ->
  length xs = length before -> length ys = length mid ->
  blen (unfinished_data b) < 2 ^ 31 -> NoDup (map fst (added mid)) ->
  let D := unfinished_data b in
  forall slot x, In (slot, x) (added mid) -> exists off,
     At D off (fbytes x off) /\ start + push_size x <= off <= obj - 4 /\
     forall t d, table_get hr D (blen D - obj) slot t d =
       if (obj - off) mod 2 ^ 16 =? 0 then Val d
       else let* v := follow hr t D (blen D - obj + (obj - off) mod 2 ^ 16) in Val (Some v).
Proof.
  intros Hc Hok Hcl Hmid Hlat H Lx Ly L ND D slot x I.
  destruct (table_program_facts _ _ _ _ _ _ _ _ _ _ _ Hc Hok Hcl Hmid Hlat H Lx Ly ltac:(clear - L; lia))
    as (size & vr & vt & fs & T & Lv & _ & _ & Hvt & FR & Fok & Fit & Fo & Hst & Ho & HoL).
  fold D in T, FR, HoL, L. pose proof (Forall2_ids _ _ _ _ FR) as Ids. rewrite <- Ids in ND.
  destruct (Forall2_In_l _ _ _ _ FR I) as (f & If & Ef & A & Hf & Hal). cbn [fst snd] in *.
  exists (fl_off f). split; [exact A|].
  assert (He : entry obj slot fs 0 = obj - fl_off f) by (rewrite <- Ef; apply entry_present; auto).
  pose proof Fit as Fit0. rewrite Forall_forall in Fo, Fit. pose proof (Fo f If) as Fof. specialize (Fit f If). unfold field_fits, slot_fits in Fit.
  pose proof (vtable_len_max fs f If) as Mx.
  split; [clear - Hf Fof; lia|]. intros t d.
  assert (G : get_range vt slot (slot + 2) = Some (wire TU16 ((obj - fl_off f) mod 2 ^ 16))).
  { change ((obj - fl_off f) mod 2 ^ 16) with (as_u16 (obj - fl_off f)). rewrite wire_u16_as, <- He.
    apply (a_vtable_entry h (get_vtable_byte_len fs) size obj fs vt slot); auto.
    - pose proof (fits_len _ Fok Fit0) as Q. clear - Q. lia.
    - apply fits_even. exact Fit0.
    - clear - Fit Ef. lia.
    - clear - Fit Ef. lia.
    - clear - Mx Ef. lia. }
  rewrite (table_get_at hr D obj vr vt slot ((obj - fl_off f) mod 2 ^ 16) t d T L); [|clear - Fit Ef; lia|].
  - replace (blen vt <=? slot) with false by (clear - Lv Mx Ef; lia). cbn [orb].
    destruct ((obj - fl_off f) mod 2 ^ 16 =? 0); [reflexivity|]. do 2 f_equal. clear. lia.
  - intros _. split; [exact G|]. apply Z.mod_pos_bound. clear. lia.
Qed.

(** A table of 8193 eight-byte fields. *)
Definition wide_fields (n : nat) (v : nat -> Z) : list op :=
  map (fun i => OpPushSlotAlways (4 + 2 * Z.of_nat i) (PScalar TU64 (v i))) (seq 0 n).

Lemma pushed64 a v : blen (a_data a) mod 8 = 0 ->
  pushed a (PScalar TU64 v) = with_data (with_align a (Z.max (a_align a) 8)) (wire TU64 v ++ a_data a).
Proof.
  intros H. unfold pushed. cbn [push_alignment push_size ssize]. unfold salign. cbn [ssize]. unfold gap.
  replace (- (blen (a_data a) + 8)) with (- blen (a_data a) + (-1) * 8) by lia.
  rewrite Z.mod_add by lia. rewrite Z.mod_opp_l_z by (auto; lia). reflexivity.
Qed.

Lemma wide_run h v n : forall k a,
  debug_assert h (a_nested a) = Val tt -> blen (a_data a) = 8 * Z.of_nat k -> Z.of_nat (k + n) <= 10000 ->
  (forall i, valid_scalar TU64 (v i) = true) ->
  exists a', a_run true h a (map (fun i => OpPushSlotAlways (4 + 2 * Z.of_nat i) (PScalar TU64 (v i))) (seq k n))
             = Val (a', repeat ONone n) /\
    blen (a_data a') = 8 * Z.of_nat (k + n) /\
    (n <> O -> exists w, a_data a' = wire TU64 (v (k + n - 1)%nat) ++ w) /\ a_nested a' = a_nested a /\ a_vts a' = a_vts a /\
    a_fields a' = a_fields a ++ map (fun i => FieldLoc (8 + 8 * Z.of_nat i) (4 + 2 * Z.of_nat i)) (seq k n).
Proof.
  induction n as [|n IH]; intros k a Hn Hk Hb Hv; cbn [seq map a_run repeat].
  - exists a. rewrite app_nil_r, Nat.add_0_r. repeat split; auto. congruence.
  - cbn [a_step]. unfold a_unit.
    rewrite a_push_slot_always_fwd; [|exact Hn|apply Hv|exact Logic.I|lia]. cbn [bind].
    assert (M : blen (a_data a) mod 8 = 0) by (rewrite Hk, Z.mul_comm; apply Z.mod_mul; lia).
    rewrite pushed64 by exact M. cbn [with_data with_align a_data].
    rewrite blen_app, blen_wire, Hk. cbn [ssize]. rewrite as_u32_small by lia.
    set (a1 := a_track _ _ _).
    assert (B1 : blen (a_data a1) = 8 * Z.of_nat (S k)) by (unfold a1; cbn [a_track with_fields with_data a_data]; rewrite blen_app, blen_wire, Hk; cbn [ssize]; lia).
    destruct (IH (S k) a1) as (a' & R & B & W & N & V & F); [exact Hn|exact B1|lia|exact Hv|].
    exists a'. rewrite R. cbn [bind]. split; [reflexivity|].
    split; [rewrite B; f_equal; f_equal; lia|].
    split.
    { intros _. destruct n as [|n].
      - cbn [seq map a_run] in R. injection R as <-. exists (a_data a). unfold a1. cbn [a_track with_fields with_data a_data].
        replace (k + 1 - 1)%nat with k by lia. reflexivity.
      - destruct W as (w & E); [discriminate|]. exists w. rewrite E. do 3 f_equal. lia. }
    split; [exact N|]. split; [exact V|].
    rewrite F. unfold a1. cbn [a_track with_fields with_data with_align a_fields]. rewrite <- app_assoc. cbn [app]. do 4 f_equal; lia.
Qed.

Definition one_then_zeros (i : nat) : Z := match i with O => 1 | _ => 0 end.
Definition wide_count : nat := Z.to_nat 8193.
Definition wide_mid : list op := wide_fields wide_count one_then_zeros.

Lemma wide_ids n v : map fst (added (wide_fields n v)) = map (fun i => 4 + 2 * Z.of_nat i) (seq 0 n).
Proof.
  unfold wide_fields. generalize 0%nat. induction n as [|n IH]; intros k; [reflexivity|]. cbn [seq map added flat_map added1 app fst].
  f_equal. apply IH.
Qed.
Lemma NoDup_slots n k : NoDup (map (fun i => 4 + 2 * Z.of_nat i) (seq k n)).
Proof.
  revert k. induction n as [|n IH]; intros k; cbn [seq map]; constructor; [|apply IH].
  intros I. apply in_map_iff in I as (i & E & I). apply in_seq in I. lia.
Qed.
Lemma wide_ok n v : (Z.of_nat n <= 30000) -> (forall i, valid_scalar TU64 (v i) = true) -> calls_ok (wide_fields n v) = true.
Proof.
  intros Hn Hv. apply forallb_forall. intros o I. apply in_map_iff in I as (i & <- & I). apply in_seq in I.
  cbn [op_ok op_slots pval_ok]. rewrite Hv. unfold u16_ok, slot_fits. replace (4 + 2 * Z.of_nat i) with ((2 + Z.of_nat i) * 2) by lia.
  rewrite Z.mod_mul by lia. lia.
Qed.
Lemma one_then_zeros_ok i : valid_scalar TU64 (one_then_zeros i) = true.
Proof. destruct i; reflexivity. Qed.

Lemma wide_fields_ok fs : fs = map (fun i => FieldLoc (8 + 8 * Z.of_nat i) (4 + 2 * Z.of_nat i)) (seq 0 wide_count) ->
  Forall field_ok fs /\ Forall field_fits fs /\ Forall (fun f => fl_off f <= 65548) fs /\ NoDup (map fl_id fs) /\
  In (FieldLoc 8 4) fs.
Proof.
  intros ->. assert (X : forall i, In i (seq 0 wide_count) -> Z.of_nat i <= 8192) by (intros i I; apply in_seq in I; unfold wide_count in I; lia).
  repeat split.
  - apply Forall_forall. intros f I. apply in_map_iff in I as (i & <- & I). apply X in I.
    unfold field_ok. cbn [fl_off fl_id]. lia.
  - apply Forall_forall. intros f I. apply in_map_iff in I as (i & <- & I). apply X in I.
    unfold field_fits, slot_fits. cbn [fl_id]. replace (4 + 2 * Z.of_nat i) with ((2 + Z.of_nat i) * 2) by lia.
    rewrite Z.mod_mul by lia. lia.
  - apply Forall_forall. intros f I. apply in_map_iff in I as (i & <- & I). apply X in I. cbn [fl_off]. lia.
  - rewrite map_map. cbn [fl_id]. apply NoDup_slots.
  - apply in_map_iff. exists 0%nat. split; [reflexivity|]. apply in_seq. unfold wide_count. lia.
Qed.

Lemma wide_completes e c : 0 <= c <= 2 ^ 31 -> exists b,
  program (Host false e) c (table_program [] wide_mid 0 []) = Val (b, [] ++ [ONum 0] ++ repeat ONone wide_count ++ [ONum 65548]) /\
  forall hr d, table_get hr (unfinished_data b) (blen (unfinished_data b) - 65548) 4 (FScalar TU64) d = Val (Some (VScalar 0)).
Proof.
  intros Hc. set (h := Host false e).
  set (a1 := with_nested a_new true).
  destruct (wide_run h one_then_zeros wide_count 0 a1) as (a2 & R & B & W & N & V & F);
    [reflexivity|reflexivity|unfold wide_count; lia|exact one_then_zeros_ok|].
  cbn [a_fields a1 a_new with_nested app] in F. cbn [a_vts a1 a_new with_nested] in V.
  assert (B2 : blen (a_data a2) = 65544) by (rewrite B; unfold wide_count; lia).
  assert (BM : blen (a_data (pushed a2 marker)) = 65548).
  { rewrite blen_marker. unfold gap. rewrite B2. reflexivity. }
  destruct (wide_fields_ok _ F) as (Fok & Fit & Foff & FN & FI). clear F.
  destruct (a_end_table_fwd h a2 0) as (a3 & E & LE); [rewrite N; reflexivity|exact Fok|exact Fit|rewrite BM; exact Foff
    |discriminate|rewrite V; constructor|clear - B2; lia|clear - BM; lia|].
  rewrite BM in E, LE. assert (LV := proj2 (fits_len _ Fok Fit)).
  assert (A : a_run true h a_new (table_program [] wide_mid 0 []) = Val (a3, [] ++ [ONum 0] ++ repeat ONone wide_count ++ [ONum 65548])).
  { unfold table_program. cbn [app a_run a_step]. unfold a_num at 1, a_start_table. cbn [bind a_nested a_new negb].
    rewrite debug_assert_ok by reflexivity. cbn [bind]. fold a_new. fold a1.
    rewrite a_run_app. unfold wide_mid, wide_fields. rewrite R. cbn [bind a_run a_step]. unfold a_num. rewrite E. reflexivity. }
  apply (strict_program h c) in A as (b & P & I & Vb); [|exact Hc|].
  2: { unfold table_program. rewrite !forallb_app.
       destruct (calls_ok_split wide_mid) as [-> _]; [apply wide_ok; [unfold wide_count; lia|exact one_then_zeros_ok]|]. reflexivity. }
  exists b. split; [exact P|]. change (unfinished_data b) with (a_data (view b)). rewrite Vb. clear P I Vb b.
  assert (L3 : blen (a_data a3) < 2 ^ 31) by (clear - LE LV; lia).
  pose proof E as E'. apply end_table_at in E' as (size & vt & vr & _ & _ & _ & Hvt & T & _);
    [|exact Fok|exact Fit|rewrite V; constructor|rewrite V; intros [|?] ? ? ? ? X; discriminate|clear - L3; lia].
  assert (G3 : grows a2 a3) by (eapply a_end_table_grows; [exact Fok|exact E|clear - L3; lia]).
  destruct G3 as ((p & EP) & _). destruct W as (w & W); [unfold wide_count; lia|].
  replace (one_then_zeros (0 + wide_count - 1)) with 0 in W.
  2: { unfold wide_count. destruct (0 + Z.to_nat 8193 - 1)%nat eqn:Q; [clear - Q; lia|reflexivity]. }
  intros hr d.
  assert (Len : 6 <= blen vt).
  { rewrite (proj2 (a_vtable_shape _ _ _ _ _ Fok Fit Hvt)). exact (vtable_len_max _ _ FI). }
  assert (G : get_range vt 4 (4 + 2) = Some (wire TU16 4)).
  { replace (wire TU16 4) with (wire TU16 (entry 65548 4 (a_fields a2) 0)).
    - eapply (a_vtable_entry h _ size 65548 (a_fields a2) vt 4); [|exact Fok|apply fits_even; exact Fit|exact Hvt|clear; lia|reflexivity|].
      + pose proof (fits_len _ Fok Fit) as Q. clear - Q. lia.
      + exact (vtable_len_max _ _ FI).
    - assert (Q : entry 65548 4 (a_fields a2) 0 = 65548 - 8) by (apply (entry_present 65548 (a_fields a2) (FieldLoc 8 4)); auto).
      rewrite Q. apply wire_mod. reflexivity. }
  rewrite (table_get_at hr _ 65548 vr vt 4 4 (FScalar TU64) d T L3); [|clear; lia|intros _; split; [exact G|clear; lia]].
  replace (blen vt <=? 4) with false by (clear - Len; lia). cbn [orb]. change (4 =? 0) with false. cbv iota.
  assert (A : At (a_data a3) 65544 (wire TU64 0)).
  { rewrite EP, W. exists p, w. split; [reflexivity|]. rewrite W, blen_app, blen_wire in B2. rewrite blen_wire. clear - B2. lia. }
  change (65548 - 4) with 65544. rewrite (At_scalar hr TU64 _ 65544 0 A); [reflexivity|reflexivity|clear - L3; lia].
Qed.

Lemma wide_nested n v : nested_well None (table_program [] (wide_fields n v) 0 []) = true.
Proof.
  assert (X : forall l, nested_well (Some InTable) (map (fun i => OpPushSlotAlways (4 + 2 * Z.of_nat i) (PScalar TU64 (v i))) l ++ [OpEndTable 0]) = true).
  { induction l; cbn [map app nested_well next_open]; auto. }
  unfold table_program, wide_fields. cbn [app nested_well next_open]. apply X.
Qed.
Lemma wide_calls n v : (Z.of_nat n <= 30000) -> (forall i, valid_scalar TU64 (v i) = true) ->
  calls_ok (table_program [] (wide_fields n v) 0 []) = true.
Proof.
  intros Hn Hv. pose proof (wide_ok n v Hn Hv) as W. unfold table_program, calls_ok in *. rewrite !forallb_app, W. reflexivity.
Qed.
Lemma wide_first n v : (0 < n)%nat -> In (4, PScalar TU64 (v O)) (added (wide_fields n v)).
Proof.
  intros H. unfold added. apply in_flat_map. exists (OpPushSlotAlways (4 + 2 * Z.of_nat 0) (PScalar TU64 (v O))).
  split; [|left; reflexivity]. unfold wide_fields. apply in_map_iff. exists 0%nat. split; [reflexivity|]. apply in_seq. lia.
Qed.
Lemma wide_length n v : length (repeat ONone n) = length (wide_fields n v).
Proof. rewrite repeat_length. unfold wide_fields. rewrite map_length, seq_length. reflexivity. Qed.

(** The first field is lost: what is read back is the last one. *)
Lemma wide_table_corrupt e c : 0 <= c <= 2 ^ 31 -> exists mid b ys obj,
  calls_ok (table_program [] mid 0 []) = true /\ nested_well None (table_program [] mid 0 []) = true /\
  NoDup (map fst (added mid)) /\ In (4, PScalar TU64 1) (added mid) /\
  program (Host false e) c (table_program [] mid 0 []) = Val (b, [ONum 0] ++ ys ++ [ONum obj]) /\ length ys = length mid /\
  forall hr d, table_get hr (unfinished_data b) (blen (unfinished_data b) - obj) 4 (FScalar TU64) d = Val (Some (VScalar 0)).
Proof.
  intros Hc. destruct (wide_completes e c Hc) as (b & P & L).
  assert (Hn : (0 < wide_count)%nat /\ Z.of_nat wide_count <= 30000) by (unfold wide_count; lia).
  unfold wide_mid in P. revert P. generalize dependent wide_count. intros n [N1 N2] P.
  exists (wide_fields n one_then_zeros), b, (repeat ONone n), 65548.
  split; [apply wide_calls; [exact N2|exact one_then_zeros_ok]|]. split; [apply wide_nested|].
  split; [rewrite wide_ids; apply NoDup_slots|]. split; [exact (wide_first n one_then_zeros N1)|].
  split; [exact P|]. split; [apply wide_length|exact L].
Qed.

(** Proofs about tables, vtables and debug-build panics (C04, C06, C07). *)
From Coq Require Import ZArith List Bool Lia Strings.Byte ZifyBool ZifyNat ZifyN.
From Verif Require Import Base Scalar Utf8 Reader Client BaseFacts ScalarFacts SpecWire WireFacts
  ReaderFacts ReaderProofs.
From Verif Require Export SpecReader.
Import ListNotations.
Local Open Scope Z_scope.

Lemma u16_read h buf loc n :
  le_at buf loc 2 n -> blen buf < 2 ^ 63 ->
  read_scalar_at h TU16 buf loc = Val n /\ 0 <= n < 2 ^ 16 /\ loc + 2 <= blen buf.
Proof.
  intros H Hm. pose proof H as (Hl & Hn & _). apply le_at_decode in H; [|lia].
  destruct H as (_ & x & Hx & Hd). change (Z.of_nat 2) with 2 in Hx.
  split; [|split].
  - rewrite (read_scalar_at_ok h TU16 buf loc x) by (auto; lia).
    f_equal. exact Hd.
  - exact Hn.
  - apply get_range_blen in Hx; lia.
Qed.

Lemma u16_read_inv h buf loc n :
  0 <= loc < 2 ^ 64 -> blen buf < 2 ^ 63 ->
  read_scalar_at h TU16 buf loc = Val n -> le_at buf loc 2 n.
Proof.
  intros Hl Hm H. rewrite read_scalar_at_spec in H by auto.
  change (ssize TU16) with 2 in H.
  destruct (get_range buf loc (loc + 2)) as [x|] eqn:E.
  - injection H as <-. apply le_at_decode; [lia|]. split; [lia|].
    exists x. split; [auto|]. reflexivity.
  - destruct (_ && _); discriminate.
Qed.

Lemma soffset_unique buf tab s s' : soffset_at buf tab s -> soffset_at buf tab s' -> s = s'.
Proof.
  intros [R1 H1] [R2 H2]. assert (E : s mod 2 ^ 32 = s' mod 2 ^ 32)
    by (eapply le_at_det; [|exact H1|exact H2]; lia).
  assert (s mod 2 ^ 32 = if s <? 0 then s + 2 ^ 32 else s).
  { destruct (s <? 0) eqn:Es; [apply mod_neg; lia|apply Z.mod_small; lia]. }
  assert (s' mod 2 ^ 32 = if s' <? 0 then s' + 2 ^ 32 else s').
  { destruct (s' <? 0) eqn:Es; [apply mod_neg; lia|apply Z.mod_small; lia]. }
  destruct (s <? 0) eqn:?, (s' <? 0) eqn:?; lia.
Qed.

Lemma soffset_exists buf tab : 0 <= tab -> tab + 4 <= blen buf -> exists s, soffset_at buf tab s.
Proof.
  intros Ht Hb. destruct (proj2 (le_at_dec buf tab 4 ltac:(lia) Ht) ltac:(lia)) as [n Hn].
  pose proof Hn as (_ & Hr & _). change (256 ^ Z.of_nat 4) with (2 ^ 32) in Hr.
  destruct (Z.lt_ge_cases n (2 ^ 31)).
  - exists n. split; [lia|]. rewrite Z.mod_small by lia. auto.
  - exists (n - 2 ^ 32). split; [lia|]. rewrite mod_neg by lia. replace (n - 2 ^ 32 + 2 ^ 32) with n by lia. auto.
Qed.

Lemma soffset_read buf tab s :
  soffset_at buf tab s ->
  exists x, get_range buf tab (tab + 4) = Some x /\ scalar_of TI32 x = s /\ blen x = 4.
Proof.
  intros [Hr H]. pose proof H as (Ht & _ & _). apply le_at_decode in H; [|lia].
  destruct H as (_ & x & Hx & Hd). change (Z.of_nat 4) with 4 in Hx.
  exists x. pose proof (get_range_blen _ _ _ _ Ht Hx) as [Hbx _].
  split; [auto|]. split; [|lia].
  unfold scalar_of, of_bits. rewrite Hd. cbn [signed ssize andb].
  change (8 * 4 - 1) with 31. change (8 * 4) with 32.
  destruct (Z.lt_ge_cases s 0).
  - rewrite mod_neg by lia. replace (2 ^ 31 <=? s + 2 ^ 32) with true by lia. lia.
  - rewrite Z.mod_small by lia. replace (2 ^ 31 <=? s) with false by lia. reflexivity.
Qed.

(** [Table::vtable]: the location, for tables in the first 2 GiB. *)
Lemma table_vtable_spec h buf tab s :
  soffset_at buf tab s -> 0 <= tab < 2 ^ 31 -> blen buf < 2 ^ 63 ->
  table_vtable h buf tab =
    (let* d := i32_arith h (tab - s) in Val (i32_as_usize d)).
Proof.
  intros Hs Ht Hm. destruct (soffset_read _ _ _ Hs) as (x & Hx & Es & Hbx).
  unfold table_vtable. cbn [follow]. unfold SIZE_SOFFSET.
  rewrite usize_arith_ok by lia. cbn [bind]. rewrite Hx. cbn [ok_or bind].
  rewrite read_scalar_exact by (cbn [ssize]; lia). cbn [bind].
  rewrite Es, as_i32_small by lia.
  destruct (i32_arith h (tab - s)); reflexivity.
Qed.

Lemma table_vtable_short h buf tab :
  0 <= tab < 2 ^ 63 -> blen buf < tab + 4 -> table_vtable h buf tab = Err OutOfBounds.
Proof.
  intros Ht Hb. unfold table_vtable. cbn [follow]. unfold SIZE_SOFFSET.
  rewrite usize_arith_ok by lia. cbn [bind].
  replace (get_range buf tab (tab + 4)) with (@None (list byte)); [reflexivity|].
  symmetry. apply get_range_None_iff. lia.
Qed.

Lemma table_get_spec h buf tab s v slot t d :
  blen buf < 2 ^ 31 -> soffset_at buf tab s -> v = tab - s -> 0 <= v < 2 ^ 31 -> 0 <= slot < 2 ^ 16 ->
  (blen buf < v + 2 -> table_get h buf tab slot t d = Err OutOfBounds) /\
  forall n, le_at buf v 2 n ->
    (n <= slot -> table_get h buf tab slot t d = Val d) /\
    (slot < n -> blen buf < v + slot + 2 -> table_get h buf tab slot t d = Err OutOfBounds) /\
    (slot < n -> le_at buf (v + slot) 2 0 -> table_get h buf tab slot t d = Val d) /\
    (forall off, slot < n -> le_at buf (v + slot) 2 off -> off <> 0 ->
       table_get h buf tab slot t d = let* x := follow h t buf (tab + off) in Val (Some x)).
Proof.
  intros Hm Hs Hv Hv0 Hslot.
  assert (Ht : 0 <= tab < 2 ^ 31).
  { destruct Hs as [_ Hs]. pose proof Hs as (H0 & _ & _). destruct (u32_read h _ _ _ Hs ltac:(lia)) as (_ & _ & ?). lia. }
  assert (Hvt : table_vtable h buf tab = Val v).
  { rewrite (table_vtable_spec h buf tab s) by (auto; lia).
    rewrite i32_arith_ok by lia. cbn [bind]. f_equal. unfold i32_as_usize. rewrite Z.mod_small; lia. }
  unfold table_get. rewrite Hvt. cbn [bind]. unfold vt_get, vt_num_bytes. split.
  - intros Hb. rewrite read_out_of_bounds by (cbn [ssize]; lia). reflexivity.
  - intros n Hn. destruct (u16_read h _ _ _ Hn ltac:(lia)) as (Hrn & Hn16 & Hnb).
    rewrite Hrn. cbn [bind]. split; [|split; [|split]].
    + intros Hle. replace (n <=? slot) with true by lia. reflexivity.
    + intros Hlt Hb. replace (n <=? slot) with false by lia.
      rewrite usize_arith_ok by lia. cbn [bind].
      rewrite read_out_of_bounds by (cbn [ssize]; lia). reflexivity.
    + intros Hlt H0. replace (n <=? slot) with false by lia.
      rewrite usize_arith_ok by lia. cbn [bind].
      destruct (u16_read h _ _ _ H0 ltac:(lia)) as (-> & _). reflexivity.
    + intros off Hlt Hoff Hnz. replace (n <=? slot) with false by lia.
      rewrite usize_arith_ok by lia. cbn [bind].
      destruct (u16_read h _ _ _ Hoff ltac:(lia)) as (-> & ? & _). cbn [bind].
      replace (off =? 0) with false by lia.
      rewrite usize_arith_ok by lia. reflexivity.
Qed.

Lemma table_get_short h buf tab slot t d :
  0 <= tab < 2 ^ 63 -> blen buf < tab + 4 -> table_get h buf tab slot t d = Err OutOfBounds.
Proof. intros. unfold table_get. rewrite table_vtable_short; auto. Qed.

(** ** C04: what can panic in a debug build *)

Lemma read_scalar_at_no_panic h t buf loc :
  0 <= loc -> loc + ssize t < 2 ^ 64 -> blen buf < 2 ^ 63 ->
  safe (fun v => exists x, get_range buf loc (loc + ssize t) = Some x /\ v = scalar_of t x) (read_scalar_at h t buf loc).
Proof.
  intros Hl Hu Hm. pose proof (ssize_pos t). rewrite read_scalar_at_spec by lia.
  destruct (get_range _ _ _) eqn:E; [simpl; eauto|].
  replace (2 ^ 64 <=? loc + ssize t) with false by lia. rewrite andb_false_r. exact I.
Qed.

Lemma follow_plain_no_panic h t buf : forall loc,
  plain t = true -> 0 <= loc < 2 ^ 63 + 2 ^ 40 -> blen buf < 2 ^ 63 ->
  follow h t buf loc <> Panic.
Proof.
  induction t; intros loc Hp Hl Hm; cbn [plain] in Hp; try discriminate; cbn [follow]; try discriminate.
  - pose proof (ssize_le8 t).
    assert (forall t', ssize t' <= 8 -> forall (k : Z -> fval), (let* v := read_scalar_at h t' buf loc in Val (k v)) <> Panic).
    { intros t' Ht' k. pose proof (read_scalar_at_no_panic h t' buf loc ltac:(lia) ltac:(lia) Hm) as S.
      destruct (read_scalar_at h t' buf loc); cbn in *; congruence || contradiction. }
    destruct t; first [apply H0; cbn; lia | exact (H0 TU8 ltac:(cbn; lia) _)].
  - unfold follow_str.
    pose proof (read_scalar_at_no_panic h TU32 buf loc ltac:(lia) ltac:(cbn; lia) Hm) as S.
    destruct (read_scalar_at h TU32 buf loc) as [n| |] eqn:E; cbn [bind]; [|discriminate|contradiction].
    apply u32_read_inv in E; [|lia|auto].
    pose proof (follow_str_cases h buf loc n E Hm) as F. unfold follow_str in F.
    destruct (u32_read h _ _ _ E Hm) as (Hr & Hn & Hb). rewrite Hr in F. cbn [bind] in F. rewrite F.
    destruct (blen buf <=? _) eqn:El; [discriminate|].
    destruct (nth_error _ _) eqn:En.
    2:{ apply nth_error_None in En. unfold blen in *. lia. }
    destruct (negb _); [discriminate|]. destruct (utf8_valid _); discriminate.
  - unfold follow_slice_helper.
    pose proof (ssize_pos t). pose proof (ssize_le8 t).
    unfold debug_assert. replace (0 <? ssize t) with true by lia. rewrite andb_false_r. cbn [bind].
    pose proof (read_scalar_at_no_panic h TU32 buf loc ltac:(lia) ltac:(cbn; lia) Hm) as S.
    destruct (read_scalar_at h TU32 buf loc) as [n| |] eqn:E; cbn [bind]; [|discriminate|contradiction].
    apply u32_read_inv in E; [|lia|auto].
    destruct (u32_read h _ _ _ E Hm) as (_ & Hn & Hb). unfold SIZE_UOFFSET.
    rewrite usize_arith_ok by lia. cbn [bind]. rewrite usize_arith_ok by nia. cbn [bind].
    rewrite usize_arith_ok by nia. cbn [bind].
    clear S. destruct (get_range _ _ _); cbn [ok_or bind]; discriminate.
  - unfold SIZE_UOFFSET. rewrite usize_arith_ok by lia. cbn [bind].
    destruct (get_range buf loc (loc + 4)) as [x|] eqn:E; [|discriminate]. cbn [ok_or bind].
    destruct (get_range_blen buf loc (loc+4) x ltac:(lia) E) as [Hx Hr].
    rewrite read_scalar_exact by (cbn [ssize]; lia). cbn [bind].
    pose proof (scalar_of_unsigned_range TU32 x eq_refl ltac:(cbn [ssize]; lia)) as R.
    change (8 * ssize TU32) with 32 in R.
    rewrite usize_arith_ok by lia. cbn [bind]. apply IHt; auto. lia.
  - unfold SIZE_VOFFSET. rewrite usize_arith_ok by lia. cbn [bind].
    destruct (get_range buf loc (loc + 2)) as [x|] eqn:E; [|discriminate]. cbn [ok_or bind].
    destruct (get_range_blen buf loc (loc+2) x ltac:(lia) E) as [Hx Hr].
    rewrite read_scalar_exact by (cbn [ssize]; lia). cbn [bind].
    pose proof (scalar_of_unsigned_range TU16 x eq_refl ltac:(cbn [ssize]; lia)) as R.
    change (8 * ssize TU16) with 16 in R.
    rewrite usize_arith_ok by lia. cbn [bind]. apply IHt; auto. lia.
  - unfold FILE_IDENTIFIER_LENGTH. rewrite usize_arith_ok by lia. cbn [bind].
    destruct (get_range _ _ _); discriminate.
  - pose proof (ssize_le8 base).
    pose proof (read_scalar_at_no_panic h base buf loc ltac:(lia) ltac:(lia) Hm) as S.
    destruct (read_scalar_at h base buf loc); cbn [bind]; [|discriminate|contradiction].
    destruct (existsb _ _); discriminate.
Qed.

Lemma table_get_panic_iff h buf tab slot t d :
  debug h = true -> plain t = true -> blen buf < 2 ^ 31 -> 0 <= tab < 2 ^ 31 -> 0 <= slot < 2 ^ 16 ->
  (table_get h buf tab slot t d = Panic <->
   exists s, soffset_at buf tab s /\ (tab - s = -1 \/ tab - s = -2 \/ 2 ^ 31 <= tab - s)).
Proof.
  intros Hh Hp Hm Ht Hslot.
  destruct (Z.lt_ge_cases (blen buf) (tab + 4)) as [Hs|Hs].
  - rewrite table_get_short by lia. split; [discriminate|].
    intros (s & [_ H] & _). destruct (u32_read h _ _ _ H ltac:(lia)) as (_ & _ & ?). lia.
  - destruct (soffset_exists buf tab ltac:(lia) Hs) as [s Hso].
    assert (Hdet : forall s', soffset_at buf tab s' -> s' = s) by (intros; eapply soffset_unique; eauto).
    pose proof Hso as [Hsr _].
    unfold table_get. rewrite (table_vtable_spec h buf tab s) by (auto; lia).
    unfold i32_arith. rewrite Hh.
    destruct (Z.lt_ge_cases (tab - s) (2 ^ 31)) as [Hd|Hd].
    2:{ replace (_ && _) with false by lia. cbn [bind]. split; [|reflexivity].
        intros _. exists s. auto. }
    replace (_ && _) with true by lia. cbn [bind].
    assert (Hiff : (exists s', soffset_at buf tab s' /\ (tab - s' = -1 \/ tab - s' = -2 \/ 2 ^ 31 <= tab - s')) <->
                   (tab - s = -1 \/ tab - s = -2)).
    { split.
      - intros (s' & Hs' & C). apply Hdet in Hs'. subst s'. lia.
      - intros C. exists s. split; [auto|]. lia. }
    rewrite Hiff. clear Hiff Hdet.
    unfold vt_get, vt_num_bytes, i32_as_usize.
    destruct (Z.lt_ge_cases (tab - s) 0) as [Hneg|Hpos].
    + rewrite mod_neg by lia.
      rewrite read_scalar_at_spec by lia. change (ssize TU16) with 2.
      replace (get_range buf (tab - s + 2 ^ 64) (tab - s + 2 ^ 64 + 2)) with (@None (list byte)).
      2:{ symmetry. apply get_range_None_iff. lia. }
      rewrite Hh. cbn [andb].
      destruct (2 ^ 64 <=? tab - s + 2 ^ 64 + 2) eqn:E; cbn [bind]; split; try discriminate; try lia; reflexivity.
    + rewrite Z.mod_small by lia. split; [|lia].
      pose proof (read_scalar_at_no_panic h TU16 buf (tab - s) ltac:(lia) ltac:(cbn; lia) ltac:(lia)) as S.
      destruct (read_scalar_at h TU16 buf (tab - s)) as [n| |] eqn:E; cbn [bind]; [|discriminate|contradiction].
      destruct (n <=? slot); [discriminate|].
      rewrite usize_arith_ok by lia. cbn [bind].
      pose proof (read_scalar_at_no_panic h TU16 buf (tab - s + slot) ltac:(lia) ltac:(cbn; lia) ltac:(lia)) as S2.
      destruct (read_scalar_at h TU16 buf (tab - s + slot)) as [off| |] eqn:E2; cbn [bind]; [|discriminate|contradiction].
      apply u16_read_inv in E2; [|lia|lia].
      destruct (u16_read h _ _ _ E2 ltac:(lia)) as (_ & Ho & _).
      destruct (off =? 0); [discriminate|].
      rewrite usize_arith_ok by lia. cbn [bind].
      pose proof (follow_plain_no_panic h t buf (tab + off) Hp ltac:(lia) ltac:(lia)) as F.
      destruct (follow h t buf (tab + off)); cbn [bind]; congruence.
Qed.

(** ** C07 *)
Definition same_bytes (h : host) (buf1 buf2 : list byte) (vt : Z) : Prop :=
  exists bs, vt_as_bytes h buf1 vt = Val bs /\ vt_as_bytes h buf2 vt = Val bs.

Lemma as_bytes_inv h buf vt bs :
  0 <= vt < 2 ^ 63 -> blen buf < 2 ^ 63 -> vt_as_bytes h buf vt = Val bs ->
  vt_num_bytes h buf vt = Val (blen bs) /\ get_range buf vt (vt + blen bs) = Some bs /\ blen bs < 2 ^ 16.
Proof.
  intros Hv Hm H. unfold vt_as_bytes in H. apply bind_Val in H as (n & Hn & H).
  pose proof Hn as Hn'. unfold vt_num_bytes in Hn'. apply u16_read_inv in Hn'; [|lia|auto].
  destruct (u16_read h _ _ _ Hn' Hm) as (_ & R & _).
  rewrite usize_arith_ok in H by lia. cbn [bind] in H.
  destruct (get_range buf vt (vt + n)) as [x|] eqn:E; [|discriminate].
  injection H as <-. destruct (get_range_blen buf vt (vt + n) x ltac:(lia) E) as [Hx _].
  assert (Hb : blen x = n) by lia. rewrite Hb. split; [auto|]. split; [auto|lia].
Qed.

Lemma get_field_inside h buf1 buf2 vt idx nf :
  0 <= vt < 2 ^ 63 -> blen buf1 < 2 ^ 63 -> blen buf2 < 2 ^ 63 ->
  same_bytes h buf1 buf2 vt -> vt_num_fields h buf1 vt = Val nf -> nf < 2 ^ 16 -> 0 <= idx < nf ->
  exists r, vt_get_field h buf1 vt idx = Val (Some r) /\ vt_get_field h buf2 vt idx = Val (Some r).
Proof.
  intros Hv Hm1 Hm2 (bs & H1 & H2) Hnf Hnf16 Hidx.
  apply as_bytes_inv in H1 as (N1 & G1 & R1); auto.
  apply as_bytes_inv in H2 as (N2 & G2 & R2); auto.
  assert (Enf : vt_num_fields h buf2 vt = Val nf).
  { unfold vt_num_fields in *. rewrite N1 in Hnf. rewrite N2. exact Hnf. }
  assert (Hsz : 4 + 2 * idx + 2 <= blen bs).
  { unfold vt_num_fields in Hnf. rewrite N1 in Hnf. cbn [bind] in Hnf. unfold SIZE_VOFFSET in Hnf.
    unfold usize_arith, unsigned_arith in Hnf. pose proof (blen_nonneg bs).
    destruct (_ && _) eqn:E in Hnf.
    - injection Hnf as <-. lia.
    - destruct (debug h); [discriminate|]. injection Hnf as <-.
      assert (Hneg : - 2 ^ 64 <= blen bs / 2 - 2 < 0) by lia.
      rewrite mod_neg in Hnf16 by lia. lia. }
  assert (Hgen : forall buf, blen buf < 2 ^ 63 -> get_range buf vt (vt + blen bs) = Some bs ->
    vt_num_fields h buf vt = Val nf ->
    vt_get_field h buf vt idx = let* v := read_scalar_at h TU16 bs (4 + 2 * idx) in Val (Some v)).
  { intros buf Hm G N. unfold vt_get_field. rewrite N. cbn [bind].
    replace (nf <? idx) with false by lia. unfold SIZE_VOFFSET.
    repeat (rewrite usize_arith_ok by lia; cbn [bind]).
    pose proof (get_range_sub buf vt (vt + blen bs) bs (4 + 2 * idx) (4 + 2 * idx + 2) ltac:(lia) G ltac:(lia) ltac:(lia) ltac:(lia)) as S.
    assert (Hd : exists x, get_range bs (4 + 2 * idx) (4 + 2 * idx + 2) = Some x).
    { destruct (get_range bs _ _) eqn:E; [eauto|]. apply get_range_None_iff in E. lia. }
    destruct Hd as [x Hx]. rewrite Hx in S.
    rewrite (read_scalar_at_ok h TU16 buf (vt + 2 + 2 + 2 * idx) x); [|lia|lia|].
    - rewrite (read_scalar_at_ok h TU16 bs (4 + 2 * idx) x); [reflexivity|lia|lia|]. exact Hx.
    - replace (vt + 2 + 2 + 2 * idx + ssize TU16) with (vt + (4 + 2 * idx + 2)) by (cbn [ssize]; lia).
      replace (vt + 2 + 2 + 2 * idx) with (vt + (4 + 2 * idx)) by lia. exact S. }
  rewrite (Hgen buf1), (Hgen buf2) by auto.
  pose proof (read_in_bounds h TU16 bs (4 + 2 * idx) ltac:(lia) ltac:(cbn [ssize]; lia) ltac:(lia)) as (r & Hr & _).
  rewrite Hr. cbn [bind]. eauto.
Qed.

Lemma vt_get_inside h buf1 buf2 vt slot n :
  0 <= vt < 2 ^ 63 -> blen buf1 < 2 ^ 63 -> blen buf2 < 2 ^ 63 ->
  same_bytes h buf1 buf2 vt -> vt_num_bytes h buf1 vt = Val n -> 0 <= slot ->
  slot <> n - 1 ->
  vt_get h buf1 vt slot = vt_get h buf2 vt slot /\
  (n <= slot -> vt_get h buf1 vt slot = Val None) /\
  (slot < n -> exists r, vt_get h buf1 vt slot = Val (Some r)).
Proof.
  intros Hv Hm1 Hm2 (bs & H1 & H2) Hn Hslot Hne.
  apply as_bytes_inv in H1 as (N1 & G1 & R1); auto.
  apply as_bytes_inv in H2 as (N2 & G2 & R2); auto.
  rewrite N1 in Hn. injection Hn as <-.
  assert (Hgen : forall buf, blen buf < 2 ^ 63 -> get_range buf vt (vt + blen bs) = Some bs ->
    vt_num_bytes h buf vt = Val (blen bs) ->
    vt_get h buf vt slot = if blen bs <=? slot then Val None else let* v := read_scalar_at h TU16 bs slot in Val (Some v)).
  { intros buf Hm G N. unfold vt_get. rewrite N. cbn [bind].
    destruct (blen bs <=? slot) eqn:E; [reflexivity|].
    rewrite usize_arith_ok by lia. cbn [bind].
    pose proof (get_range_sub buf vt (vt + blen bs) bs slot (slot + 2) ltac:(lia) G ltac:(lia) ltac:(lia) ltac:(lia)) as S.
    assert (Hd : exists x, get_range bs slot (slot + 2) = Some x).
    { destruct (get_range bs slot _) eqn:Ex; [eauto|]. apply get_range_None_iff in Ex. lia. }
    destruct Hd as [x Hx]. rewrite Hx in S.
    rewrite (read_scalar_at_ok h TU16 buf (vt + slot) x); [|lia|lia|].
    - rewrite (read_scalar_at_ok h TU16 bs slot x); [reflexivity|lia|lia|]. exact Hx.
    - change (ssize TU16) with 2. rewrite <- Z.add_assoc. exact S. }
  rewrite (Hgen buf1), (Hgen buf2) by auto. split; [reflexivity|].
  destruct (blen bs <=? slot) eqn:E.
  - split; [reflexivity|lia].
  - split; [lia|]. intros _.
    pose proof (read_in_bounds h TU16 bs slot ltac:(lia) ltac:(cbn [ssize]; lia) ltac:(lia)) as (r & Hr & _).
    rewrite Hr. cbn [bind]. eauto.
Qed.

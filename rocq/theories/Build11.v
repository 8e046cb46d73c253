(** Calls complete, continued: tables, strings and finishing. *)
From Coq Require Import ZArith List Bool Lia Strings.Byte ZifyBool ZifyNat ZifyN.
From Verif Require Import Base Scalar Reader Builder Ops SpecBuilder Abstract BaseFacts ScalarFacts
  ReaderFacts Refine Refine2 Build1 Build2 Build3 Build4 Build5 Build6 Build7 Build8 Build9 Build10.
Import ListNotations.
Local Open Scope Z_scope.

Lemma index_range_fwd {A} (l : list A) a b : 0 <= a <= b -> b <= blen l ->
  exists s, index_range l a b = Val s /\ blen s = b - a.
Proof.
  intros H1 H2. unfold index_range, expect_some, get_range. replace (_ && _) with true by lia. eexists. split; [reflexivity|].
  unfold slice. unfold blen in *. rewrite firstn_length, skipn_length. lia.
Qed.

Lemma u32_arith_ok h n : 0 <= n < 2 ^ 32 -> u32_arith h n = Val n.
Proof. intros H. unfold u32_arith, unsigned_arith. replace (_ && _) with true by lia. reflexivity. Qed.

Lemma a_run_app lim h os1 : forall os2 a, a_run lim h a (os1 ++ os2) =
  let* (a, xs) := a_run lim h a os1 in let* (a, ys) := a_run lim h a os2 in Val (a, xs ++ ys).
Proof.
  induction os1 as [|o os1 IH]; intros os2 a; cbn [a_run app bind].
  - destruct (a_run lim h a os2) as [[a' ys]| |]; reflexivity.
  - destruct (a_step lim h a o) as [[a1 x]| |]; cbn [bind]; [|reflexivity..]. rewrite IH.
    destruct (a_run lim h a1 os1) as [[a2 xs]| |]; cbn [bind]; [|reflexivity..].
    destruct (a_run lim h a2 os2) as [[a3 ys]| |]; reflexivity.
Qed.

Section Forward.
Context (h : host).

Lemma write_field_fwd vt id pos : 0 <= id -> id + 2 <= blen vt ->
  vtw_write_field_offset h vt id pos = Val (set_range vt id (wire TU16 pos)).
Proof.
  intros Hi Hb. unfold vtw_write_field_offset, SIZE_VOFFSET.
  destruct (index_range_fwd vt id (id + 2)) as (s & -> & Ls); [lia|lia|]. cbn [bind].
  rewrite emplace_scalar_exact by (cbn [ssize]; lia). reflexivity.
Qed.

Lemma write_fields_fwd obj l : obj < 2 ^ 32 ->
  Forall field_ok l -> Forall (fun f => even_slot (fl_id f)) l -> Forall (fun f => fl_off f <= obj) l ->
  (debug h = true -> NoDup (map fl_id l)) ->
  forall vt, blen vt < 2 ^ 63 -> Forall (fun f => fl_id f + 2 <= blen vt) l ->
    (debug h = true -> Forall (fun f => get_range vt (fl_id f) (fl_id f + 2) = Some (wire TU16 0)) l) ->
    exists r, write_fields h vt obj l = Val r.
Proof.
  intros Ho. induction l as [|f l IH]; intros Hok Hev Hoff Hnd vt Lv Hb Hz; cbn [write_fields]; [eauto|].
  inversion Hok as [|? ? [F1 F2] Hok']; subst. inversion Hev as [|? ? [E1 E2] Hev']; subst.
  inversion Hoff; subst. inversion Hb; subst.
  rewrite u32_arith_ok by lia. cbn [bind].
  assert (D : (if debug h then let* old := vtw_get_field_offset h vt (fl_id f) in debug_assert h (old =? 0) else Val tt) = Val tt).
  { destruct (debug h) eqn:Hd; [|reflexivity]. specialize (Hz eq_refl). inversion Hz as [|? ? Z1 _]; subst.
    unfold vtw_get_field_offset. rewrite (read_scalar_at_ok h TU16 vt _ (wire TU16 0)); [|lia|lia|exact Z1].
    rewrite scalar_of_wire by (cbn; lia). cbn [expect bind]. unfold debug_assert. rewrite Hd. reflexivity. }
  rewrite D. cbn [bind]. rewrite write_field_fwd by lia. cbn [bind].
  assert (L2 : blen (set_range vt (fl_id f) (wire TU16 (as_u16 (obj - fl_off f)))) = blen vt)
    by (apply blen_set_range; rewrite ?blen_wire16; lia).
  apply IH; auto.
  - intros Hd. specialize (Hnd Hd). inversion Hnd; auto.
  - lia.
  - rewrite L2. auto.
  - intros Hd. specialize (Hnd Hd). specialize (Hz Hd). inversion Hnd as [|? ? Hn _]; subst. inversion Hz as [|? ? _ Hz']; subst.
    apply Forall_forall. intros g Ig. rewrite Forall_forall in Hz', Hev'. specialize (Hz' g Ig). destruct (Hev' g Ig) as [G1 G2].
    assert (fl_id g <> fl_id f) by (intros E; apply Hn; rewrite <- E; apply in_map; exact Ig).
    rewrite get_set_other; rewrite ?blen_wire16; auto; lia.
Qed.

Lemma debug_assert_ok b : b = true -> debug_assert h b = Val tt.
Proof. intros ->. unfold debug_assert. destruct (debug h); reflexivity. Qed.

Lemma a_vtable_fwd l size obj : obj < 2 ^ 32 ->
  Forall field_ok l -> Forall field_fits l -> Forall (fun f => fl_off f <= obj) l ->
  (debug h = true -> NoDup (map fl_id l)) ->
  exists vt, a_vtable h (get_vtable_byte_len l) size obj l = Val vt.
Proof.
  intros Ho Hok Hf Hoff Hnd. pose proof (fits_len l Hok Hf) as FL. set (n := get_vtable_byte_len l) in *.
  unfold a_vtable, vtw_write_byte_length, SIZE_VOFFSET.
  destruct (index_range_fwd (zeros n) 0 2) as (s & -> & Ls); [lia|rewrite blen_zeros; lia|]. cbn [bind].
  rewrite emplace_scalar_exact by (cbn [ssize]; lia). cbn [bind].
  assert (Lz : blen (zeros n) = n) by (rewrite blen_zeros; lia).
  assert (B1 : blen (set_range (zeros n) 0 (wire TU16 (as_u16 n))) = n) by (rewrite blen_set_range; rewrite ?blen_wire16; lia).
  rewrite B1. rewrite debug_assert_ok by (unfold as_u16; lia). cbn [bind].
  unfold vtw_write_object_inline_size, SIZE_VOFFSET.
  set (v1 := set_range (zeros n) 0 (wire TU16 (as_u16 n))) in *.
  destruct (index_range_fwd v1 2 (2 * 2)) as (s2 & -> & Ls2); [lia|lia|]. cbn [bind].
  rewrite emplace_scalar_exact by (cbn [ssize]; lia). cbn [bind].
  assert (B2 : blen (set_range v1 2 (wire TU16 (as_u16 size))) = n) by (rewrite blen_set_range; rewrite ?blen_wire16; lia).
  pose proof (fits_even l Hf) as Hev.
  apply write_fields_fwd; auto; [lia| |].
  - apply Forall_forall. intros f If. rewrite B2. apply vtable_len_max. exact If.
  - intros _. apply Forall_forall. intros f If. rewrite Forall_forall in Hev. destruct (Hev f If) as [E1 E2].
    pose proof (vtable_len_max l f If) as M. fold n in M.
    rewrite get_set_other; rewrite ?blen_wire16; try lia. unfold v1.
    rewrite get_set_other; rewrite ?blen_wire16; try lia.
    rewrite get_range_zeros by lia. rewrite wire_u16_0. f_equal. f_equal. lia.
Qed.

Lemma a_end_table_fwd a tail :
  let obj := blen (a_data (pushed a marker)) in
  debug_assert h (a_nested a) = Val tt ->
  Forall field_ok (a_fields a) -> Forall field_fits (a_fields a) -> Forall (fun f => fl_off f <= obj) (a_fields a) ->
  (debug h = true -> NoDup (map fl_id (a_fields a)) /\ obj - tail < 2 ^ 16) ->
  Forall (vt_known (a_data a)) (a_vts a) ->
  blen (a_data a) + 70000 < 2 ^ 31 -> 0 <= tail <= obj ->
  exists a', a_end_table true h a tail = Val (a', obj) /\ blen (a_data a') <= obj + get_vtable_byte_len (a_fields a).
Proof.
  intros obj Hn Hok Hf Hoff Hd Hk Hl Ht. subst obj.
  pose proof (blen_nonneg (a_data a)) as N0. pose proof (blen_marker a) as BM. pose proof (gap_range (a_data a) 4 4 pow8_4) as GR.
  pose proof (fits_len _ Hok Hf) as FL.
  unfold a_end_table. rewrite Hn. cbn [bind]. unfold a_write_vtable. rewrite Hn. cbn [bind]. fold marker.
  rewrite a_push_fwd; [|reflexivity|exact Logic.I|lia]. cbn [bind].
  set (d1 := a_data (pushed a marker)) in *.
  change (a_fields (pushed a marker)) with (a_fields a). change (a_vts (pushed a marker)) with (a_vts a).
  rewrite as_u32_small by lia. rewrite room_fwd by lia. cbn [bind].
  rewrite u32_arith_ok by lia. cbn [bind].
  assert (DA : debug_assert h (blen d1 - tail <? 65536) = Val tt).
  { destruct (debug h) eqn:E; [apply debug_assert_ok; destruct (Hd eq_refl); lia|]. unfold debug_assert. rewrite E. reflexivity. }
  rewrite DA. cbn [bind].
  destruct (a_vtable_fwd (a_fields a) (blen d1 - tail) (blen d1)) as (vt & Hvt); auto; [lia|intros E; apply Hd; exact E|].
  rewrite Hvt. cbn [bind].
  destruct (a_vtable_shape _ _ _ _ _ Hok Hf Hvt) as [Sh Lv].
  assert (Ed1 : d1 = wire TU32 0xF0F0F0F0 ++ zeros (gap (a_data a) 4 4) ++ a_data a) by reflexivity.
  set (w := zeros (gap (a_data a) 4 4) ++ a_data a) in *.
  assert (LD : blen (vt ++ d1) < 2 ^ 31) by (rewrite blen_app; lia).
  assert (Hk' : Forall (vt_known (vt ++ d1)) (rev (a_vts a))).
  { apply Forall_rev. eapply Forall_impl; [|exact Hk]. intros r (v & V). exists v.
    rewrite Ed1. unfold w. rewrite !app_assoc. apply vt_at_app. exact V. }
  assert (X : exists dup, find_dup h (vt ++ d1) 0 (rev (a_vts a)) = Val dup /\
     forall n, dup = Some n -> 0 <= n < 2 ^ 31).
  { destruct (find_dup_spec h (vt ++ d1) vt (rev (a_vts a))) as [[E _]|(n & E & _ & [A _])]; auto.
    - split; [|exact Sh]. exists [], d1. split; [reflexivity|rewrite blen_app; reflexivity].
    - lia.
    - exists None. split; [exact E|discriminate].
    - exists (Some n). split; [exact E|]. intros m Q. injection Q as <-. apply At_range in A. pose proof (blen_nonneg vt). lia. }
  destruct X as (dup & -> & Hdup). cbn [bind].
  set (vr := match dup with Some n => n | None => as_u32 (blen (vt ++ d1)) end).
  set (pre := match dup with Some _ => [] | None => vt end).
  set (vs := match dup with Some _ => a_vts a | None => a_vts a ++ [vr] end).
  replace (match dup with
    | Some n => (pushed a marker, n)
    | None => (with_vts (with_data (pushed a marker) (vt ++ d1)) (a_vts a ++ [as_u32 (blen (vt ++ d1))]),
               as_u32 (blen (vt ++ d1)))
    end) with (with_vts (with_data (pushed a marker) (pre ++ d1)) vs, vr)
    by (subst vs pre vr; destruct dup; reflexivity).
  cbn [with_vts with_data a_data].
  assert (Ln : blen (pre ++ d1) - blen d1 = blen pre) by (rewrite blen_app; lia). rewrite Ln.
  assert (G : get_range (pre ++ d1) (blen pre) (blen pre + 4) = Some (wire TU32 0xF0F0F0F0)).
  { rewrite Ed1. apply get_range_mid; [reflexivity|rewrite blen_wire; reflexivity]. }
  assert (LP : blen pre <= blen vt) by (subst pre; destruct dup; [change (blen (@nil byte)) with 0; apply blen_nonneg|lia]).
  pose proof (blen_nonneg pre).
  rewrite (read_scalar_at_ok h TU32 _ _ (wire TU32 0xF0F0F0F0)); [|lia|cbn [ssize]; lia|exact G].
  rewrite scalar_of_wire by reflexivity. cbn [expect bind]. rewrite debug_assert_ok by reflexivity. cbn [bind].
  assert (Vr : 0 <= vr < 2 ^ 31).
  { subst vr. destruct dup as [n|]; [apply Hdup; reflexivity|]. rewrite as_u32_small; [|pose proof (blen_nonneg (vt ++ d1)); lia].
    pose proof (blen_nonneg (vt ++ d1)). lia. }
  assert (LS : 0 <= blen d1 < 2 ^ 31) by lia.
  assert (AI : i32_arith h (as_i32 vr - as_i32 (blen d1)) = Val (vr - blen d1)).
  { rewrite !as_i32_small by lia. unfold i32_arith. replace (_ && _) with true by lia. reflexivity. }
  rewrite AI. cbn [bind]. unfold index_range, SIZE_SOFFSET. rewrite G. cbn [expect_some bind].
  rewrite emplace_scalar_exact by (rewrite blen_wire; reflexivity). cbn [bind]. eexists. split; [reflexivity|].
  cbn [with_fields with_nested with_data with_vts a_data].
  rewrite blen_set_range; rewrite ?blen_wire, ?blen_app; cbn [ssize]; lia.
Qed.

Lemma a_push_slot_always_fwd a slot x : debug_assert h (a_nested a) = Val tt -> pval_ok x = true ->
  ready h x (blen (a_data a)) -> blen (a_data a) + 32 <= 2 ^ 61 ->
  a_push_slot_always true h a slot x = Val (a_track (pushed a x) slot (as_u32 (blen (a_data (pushed a x))))).
Proof.
  intros Hn Hx R L. unfold a_push_slot_always. rewrite Hn. cbn [bind]. rewrite a_push_fwd by auto. reflexivity.
Qed.
End Forward.

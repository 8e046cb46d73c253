(** The builder refines the abstract machine: tables, vectors, strings, finish,
    and whole programs. *)
From Coq Require Import ZArith List Bool Lia Strings.Byte ZifyBool ZifyNat ZifyN.
From Verif Require Import Base Scalar Reader Builder Ops Abstract BaseFacts ScalarFacts WireFacts ReaderFacts Refine.
Import ListNotations.
Local Open Scope Z_scope.

(** ** Reading behind a prefix *)
Lemma read_scalar_at_shift h t p d loc :
  0 <= loc <= blen d -> blen (p ++ d) < 2 ^ 63 ->
  read_scalar_at h t (p ++ d) (blen p + loc) = read_scalar_at h t d loc.
Proof.
  intros Hl Hb. pose proof (ssize_pos t). pose proof (ssize_le8 t).
  rewrite blen_app in Hb. pose proof (blen_nonneg p). pose proof (blen_nonneg d).
  unfold read_scalar_at. rewrite !usize_arith_ok by lia. cbn [bind].
  replace (blen p + loc + ssize t) with (blen p + (loc + ssize t)) by lia.
  rewrite get_range_app_r by lia. reflexivity.
Qed.

Lemma read_u16_range h d loc n : read_scalar_at h TU16 d loc = Val n -> 0 <= n < 2 ^ 16.
Proof.
  unfold read_scalar_at. intros H. apply bind_Val in H as (e & _ & H).
  apply bind_Val in H as (s & _ & H).
  destruct (Z.lt_ge_cases (blen s) (ssize TU16)) as [L|L].
  { rewrite read_scalar_short in H by auto. discriminate. }
  destruct (split_at s (ssize TU16)) as (x & r & -> & Hx & _); [pose proof (ssize_pos TU16); lia|].
  rewrite read_scalar_ok in H by auto.
  assert (E : scalar_of TU16 x = n) by congruence. rewrite <- E.
  apply (scalar_of_unsigned_range TU16); auto.
Qed.

Lemma vt_as_bytes_shift h p d loc :
  0 <= loc <= blen d -> blen (p ++ d) < 2 ^ 63 ->
  vt_as_bytes h (p ++ d) (blen p + loc) = vt_as_bytes h d loc.
Proof.
  intros Hl Hb. unfold vt_as_bytes, vt_num_bytes. rewrite read_scalar_at_shift by auto.
  destruct (read_scalar_at h TU16 d loc) as [n|e|] eqn:R; cbn [bind]; auto.
  pose proof (read_u16_range _ _ _ _ R).
  rewrite blen_app in Hb. pose proof (blen_nonneg p). pose proof (blen_nonneg d).
  rewrite !usize_arith_ok by lia. cbn [bind].
  replace (blen p + loc + n) with (blen p + (loc + n)) by lia.
  rewrite get_range_app_r by lia. reflexivity.
Qed.

Lemma vt_eq_shift h p d x y :
  0 <= x <= blen d -> 0 <= y <= blen d -> blen (p ++ d) < 2 ^ 63 ->
  vt_eq h (p ++ d) (blen p + x) (blen p + y) = vt_eq h d x y.
Proof. intros. unfold vt_eq. rewrite !vt_as_bytes_shift by auto. reflexivity. Qed.

Lemma find_dup_shift h p d x l :
  0 <= x <= blen d -> blen (p ++ d) < 2 ^ 63 -> Forall (fun r => 0 <= r <= blen d) l ->
  find_dup h (p ++ d) (blen p + x) l = find_dup h d x l.
Proof.
  intros Hx Hb. rewrite blen_app in Hb. pose proof (blen_nonneg p).
  induction 1 as [|r l Hr _ IH]; [reflexivity|]. cbn [find_dup].
  rewrite blen_app, !usize_arith_ok by lia. cbn [bind].
  replace (blen p + blen d - r) with (blen p + (blen d - r)) by lia.
  rewrite vt_eq_shift by (rewrite ?blen_app; lia). rewrite IH. reflexivity.
Qed.

Lemma vt_as_bytes_err h d x e : vt_as_bytes h d x = Err e -> e = OutOfBounds.
Proof.
  unfold vt_as_bytes, vt_num_bytes. intros H.
  destruct (read_scalar_at h TU16 d x) as [n|e'|] eqn:R; cbn [bind] in H.
  - destruct (usize_arith h (x + n)) eqn:U; cbn [bind] in H; try discriminate.
    + unfold ok_or in H. destruct (get_range _ _ _); congruence.
    + exfalso. eapply unsigned_arith_not_err; eauto.
  - injection H as <-. unfold read_scalar_at in R.
    destruct (usize_arith h (x + ssize TU16)) eqn:U; cbn [bind] in R; try discriminate.
    + unfold ok_or in R. destruct (get_range _ _ _); cbn [bind] in R; [|congruence].
      unfold read_scalar, ok_or in R. destruct (get_range _ _ _); cbn [bind] in R; congruence.
    + exfalso. eapply unsigned_arith_not_err; eauto.
  - discriminate.
Qed.

Lemma find_dup_not_err h d x l : forall e, find_dup h d x l <> Err e.
Proof.
  induction l as [|r l IH]; cbn [find_dup]; [discriminate|]. intros e.
  apply bind_not_err; [intros; apply unsigned_arith_not_err|]. intros o e' _.
  apply bind_not_err.
  - intros e2. unfold vt_eq. destruct (vt_as_bytes h d x) as [|[]|], (vt_as_bytes h d o) as [|[]|]; discriminate.
  - intros [] e2 _; [discriminate|]. apply IH.
Qed.

Lemma find_dup_in h d x l n : find_dup h d x l = Val (Some n) -> In n l.
Proof.
  induction l as [|r l IH]; cbn [find_dup]; [discriminate|]. intros H.
  apply bind_Val in H as (o & _ & H). apply bind_Val in H as (e & _ & H).
  destruct e; [injection H as <-; left; auto|right; auto].
Qed.

(** ** The vtable bytes *)
Lemma index_range_blen {A} (l : list A) a b x :
  0 <= a -> index_range l a b = Val x -> blen x = b - a /\ a <= b <= blen l.
Proof.
  unfold index_range, expect_some. intros Ha H. destruct (get_range l a b) eqn:G; [|discriminate].
  injection H as <-. apply get_range_blen; auto.
Qed.

Lemma emplace_blen h t s v x : emplace_scalar h t s v = Val x -> blen x = blen s.
Proof.
  unfold emplace_scalar, write_range. pose proof (ssize_pos t). intros H'.
  destruct (_ && _ && _) eqn:E; [|discriminate]. injection H' as <-.
  apply blen_set_range; lia.
Qed.

Lemma write_fields_blen h obj l : Forall field_ok l ->
  forall vt r, write_fields h vt obj l = Val r -> blen r = blen vt.
Proof.
  induction 1 as [|f l [_ Hf] _ IH]; intros vt r H; cbn [write_fields] in H.
  { injection H as <-. reflexivity. }
  apply bind_Val in H as (d & _ & H). apply bind_Val in H as (u & _ & H).
  apply bind_Val in H as (vt' & Hw & H). apply IH in H. rewrite H.
  unfold vtw_write_field_offset in Hw. apply bind_Val in Hw as (s & Hs & Hw).
  apply bind_Val in Hw as (x & Hx & Hw). injection Hw as <-.
  apply index_range_blen in Hs; [|lia]. apply emplace_blen in Hx.
  unfold SIZE_VOFFSET in *. apply blen_set_range; lia.
Qed.

Lemma a_vtable_blen h vlen size obj l vt :
  0 <= vlen -> Forall field_ok l -> a_vtable h vlen size obj l = Val vt -> blen vt = vlen.
Proof.
  intros Hv Hf H. unfold a_vtable in H.
  apply bind_Val in H as (v1 & H1 & H). apply bind_Val in H as (v2 & H2 & H).
  apply write_fields_blen in H; auto. rewrite H. clear H.
  unfold vtw_write_byte_length in H1. apply bind_Val in H1 as (s & Hs & H1).
  apply bind_Val in H1 as (x & Hx & H1). apply bind_Val in H1 as (u & _ & H1). injection H1 as <-.
  apply index_range_blen in Hs; [|lia]. apply emplace_blen in Hx.
  unfold vtw_write_object_inline_size in H2. apply bind_Val in H2 as (s2 & Hs2 & H2).
  apply bind_Val in H2 as (x2 & Hx2 & H2). injection H2 as <-.
  apply index_range_blen in Hs2; [|unfold SIZE_VOFFSET; lia]. apply emplace_blen in Hx2.
  unfold SIZE_VOFFSET in *. rewrite blen_zeros in *.
  rewrite !blen_set_range; rewrite ?blen_zeros; lia || (rewrite ?blen_set_range; rewrite ?blen_zeros; lia).
Qed.

Lemma vtw_not_err h :
  (forall vt n e, vtw_write_byte_length h vt n <> Err e) /\
  (forall vt n e, vtw_write_object_inline_size h vt n <> Err e) /\
  (forall vt n p e, vtw_write_field_offset h vt n p <> Err e).
Proof.
  repeat split; intros; repeat (apply bind_not_err; intros); auto with noerr; try discriminate.
Qed.

Lemma write_fields_not_err h obj l : forall vt e, write_fields h vt obj l <> Err e.
Proof.
  induction l as [|f l IH]; intros vt e; cbn [write_fields]; [discriminate|].
  apply bind_not_err; intros; [apply unsigned_arith_not_err|].
  apply bind_not_err; intros.
  - destruct (debug h); [|discriminate].
    apply bind_not_err; intros; [apply expect_not_err|apply debug_assert_not_err].
  - apply bind_not_err; intros; auto. apply vtw_not_err.
Qed.

Lemma a_vtable_not_err h vlen size obj l e : a_vtable h vlen size obj l <> Err e.
Proof.
  unfold a_vtable. apply bind_not_err; intros; [apply vtw_not_err|].
  apply bind_not_err; intros; [apply vtw_not_err|]. apply write_fields_not_err.
Qed.

Lemma vtable_len_pos l : 0 <= get_vtable_byte_len l.
Proof.
  assert (H : forall l, 0 <= fold_right Z.max 0 l) by (induction l0; cbn; lia).
  unfold get_vtable_byte_len, SIZE_VOFFSET. destruct l; [lia|]. pose proof (H (map fl_id (f :: l))). lia.
Qed.

Lemma skipn_eq_head b : skipn (Z.to_nat (head b)) (owned_buf b) = unfinished_data b.
Proof. reflexivity. Qed.

Lemma a_push_track lim h a x a' o : a_push lim h a x = Val (a', o) ->
  o = as_u32 (blen (a_data a')) /\ push_size x <= blen (a_data a').
Proof.
  unfold a_push. intros H. apply bind_Val in H as (a1 & _ & H). apply bind_Val in H as (u & _ & H).
  apply bind_Val in H as (w & Hw & H). apply push_into_blen in Hw. injection H as <- <-.
  split; [reflexivity|]. cbn [with_data a_data]. rewrite blen_app. pose proof (blen_nonneg (a_data a1)). lia.
Qed.

Lemma push_ref_num h b a x :
  Rb b a ->
  ref (fun r s => Rp r s /\ snd r = as_u32 (blen (a_data (fst s))) /\ push_size x <= blen (a_data (fst s)))
    (push h b x) (a_push false h a x) (a_push true h a x).
Proof.
  intros R. pose proof (push_ref h b a x R) as P. destruct (push h b x) as [[b' o]|e|] eqn:E; auto.
  destruct P as (w & HR & Hl & Hs). exists w. split; [|auto]. split; [auto|].
  destruct w as [a' o']. pose proof HR as [Rb' Ho]. cbn [fst snd] in *. subst o'.
  eapply a_push_track; eauto.
Qed.

Lemma index_range_shift {A} (p d : list A) a b :
  0 <= a -> index_range (p ++ d) (blen p + a) (blen p + b) = index_range d a b.
Proof. intros. unfold index_range. rewrite get_range_app_r by auto. reflexivity. Qed.

Lemma write_vtable_ref h b a tail :
  Rb b a -> ref Rp (write_vtable h b tail) (a_write_vtable false h a tail) (a_write_vtable true h a tail).
Proof.
  intros R. unfold write_vtable, a_write_vtable, assert_nested.
  assert (En : nested b = a_nested a) by (destruct R as [_ ->]; reflexivity). rewrite En. clear En.
  eapply ref_bind; [apply ref_same; intros; apply debug_assert_not_err|]. intros ? ? _.
  eapply ref_bind; [apply push_ref_num; exact R|].
  intros [b1 obj] [a1 obj'] ([R1 Ho] & Hobj & Hsz). cbn [fst snd] in *. subst obj'.
  pose proof R1 as [I1 ->]. cbn [view a_fields a_data a_vts] in *.
  pose proof (vtable_len_pos (field_locs b1)) as Hvl. set (vlen := get_vtable_byte_len (field_locs b1)) in *.
  set (D1 := unfinished_data b1) in *.
  eapply ref_bind; [apply make_space_room; auto|].
  intros b2 [] [I2 V2]. fold D1 in V2.
  assert (E2 : unfinished_data b2 = zeros vlen ++ D1) by (apply (f_equal a_data) in V2; exact V2).
  assert (F2 : field_locs b2 = field_locs b1) by (apply (f_equal a_fields) in V2; exact V2).
  assert (W2 : written_vtable_revpos b2 = written_vtable_revpos b1) by (apply (f_equal a_vts) in V2; exact V2).
  pose proof (inv_blen b2 I2) as L2. pose proof (inv_len b2 I2). pose proof (inv_head b2 I2).
  rewrite E2, blen_app, blen_zeros in L2. pose proof (blen_nonneg D1).
  eapply ref_bind; [apply ref_same; intros; apply unsigned_arith_not_err|]. intros size ? <-.
  eapply ref_bind; [apply ref_same; intros; apply debug_assert_not_err|]. intros ? ? _.
  rewrite usize_arith_ok by lia. cbn [bind].
  assert (EI : index_range (owned_buf b2) (head b2) (head b2 + vlen) = Val (zeros vlen)).
  { rewrite (inv_buf b2 I2), E2. unfold index_range.
    rewrite get_range_mid; [reflexivity| |]; rewrite ?blen_zeros; lia. }
  rewrite EI. cbn [bind]. rewrite F2.
  (* the vtable *)
  match goal with |- ref _ ?lhs _ _ =>
    assert (EV : lhs = bind (a_vtable h vlen size obj (field_locs b1)) (fun vt =>
      let b0 := set_buf b2 (set_range (owned_buf b2) (head b2) vt) (head b2) in
      let* dup := find_dup h (owned_buf b0) (head b0) (rev (written_vtable_revpos b0)) in
      let* (b3, vt_use) :=
        match dup with
        | Some n =>
          let* _ := index_range (owned_buf b0) (head b2) (head b2 + vlen) in
          let buf := set_range (owned_buf b0) (head b2) (zeros (head b2 + vlen - head b2)) in
          let* hd := usize_arith h (head b0 + vlen) in
          Val (set_buf b0 buf hd, n)
        | None =>
          let n := as_u32 (used_space b0) in
          Val (set_revpos b0 (written_vtable_revpos b0 ++ [n]), n)
        end in
      let* n := usize_arith h (head b3 + used_space b3 - obj) in
      let* saw := expect (read_scalar_at h TU32 (owned_buf b3) n) in
      let* _ := debug_assert h (saw =? 0xF0F0F0F0) in
      let* d := i32_arith h (as_i32 vt_use - as_i32 obj) in
      let* e := usize_arith h (n + SIZE_SOFFSET) in
      let* dst := index_range (owned_buf b3) n e in
      let* x := emplace_scalar h TI32 dst d in
      let b4 := set_buf b3 (set_range (owned_buf b3) n x) (head b3) in
      Val (set_field_locs b4 [], obj)))
  end.
  { unfold a_vtable. rewrite !bind_assoc. destruct (vtw_write_byte_length _ _ _); cbn [bind]; auto.
    rewrite !bind_assoc. destruct (vtw_write_object_inline_size _ _ _); cbn [bind]; auto.
    }
  rewrite EV. clear EV.
  eapply ref_bind; [apply (ref_same_P (fun w => blen w = vlen))|].
  { intros. apply a_vtable_not_err. }
  { intros ?. apply a_vtable_blen; auto. apply (inv_fields b1 I1). }
  intros vt ? [<- Hvt]. cbv zeta.
  pose proof (patch b2 [] (zeros vlen) D1 vt (head b2) I2 E2) as P. cbn [app] in P.
  assert (R3 := P ltac:(rewrite blen_zeros; lia) ltac:(rewrite blen_nil; lia)). clear P.
  rewrite V2 in R3. set (b3 := set_buf b2 _ _) in *.
  pose proof R3 as [I3 V3].
  assert (E3 : unfinished_data b3 = vt ++ D1) by (apply (f_equal a_data) in V3; symmetry; exact V3).
  assert (W3 : written_vtable_revpos b3 = written_vtable_revpos b1) by (apply (f_equal a_vts) in V3; symmetry; exact V3).
  assert (F3 : field_locs b3 = field_locs b1) by (apply (f_equal a_fields) in V3; symmetry; exact V3).
  assert (N3 : nested b3 = nested b1) by (apply (f_equal a_nested) in V3; symmetry; exact V3).
  assert (Fi3 : finished b3 = finished b1) by (apply (f_equal a_fin) in V3; symmetry; exact V3).
  assert (M3 : min_align b3 = min_align b1) by (apply (f_equal a_align) in V3; symmetry; exact V3).
  change (head b2) with (head b3). rewrite <- V2 in V3. clearbody b3.
  pose proof (inv_blen b3 I3) as L3. rewrite E3, blen_app in L3.
  pose proof (inv_len b3 I3). pose proof (inv_head b3 I3).
  assert (ED : find_dup h (owned_buf b3) (head b3) (rev (written_vtable_revpos b3))
               = find_dup h (vt ++ D1) 0 (rev (written_vtable_revpos b1))).
  { rewrite W3, (inv_buf b3 I3), E3. rewrite <- (find_dup_shift h (zeros (head b3)) (vt ++ D1)).
    - f_equal. rewrite blen_zeros. lia.
    - rewrite blen_app. lia.
    - rewrite blen_app, blen_zeros, blen_app. lia.
    - apply Forall_rev. eapply Forall_impl; [|apply (inv_vts b1 I1)]. cbn. intros r Hr.
      rewrite blen_app. fold D1 in Hr. lia. }
  rewrite ED.
  eapply ref_bind; [apply (ref_same_P (fun d => match d with Some n => In n (written_vtable_revpos b1) | None => True end))|].
  { apply find_dup_not_err. }
  { intros [n|] Hn; [|auto]. apply find_dup_in in Hn. apply in_rev. exact Hn. }
  intros dup ? [<- Hdup].
  (* the builder after the choice *)
  pose (a5 := match dup with
    | Some n => (with_data (view b1) D1, n)
    | None => let d := vt ++ D1 in let n := as_u32 (blen d) in
              (with_vts (with_data (view b1) d) (written_vtable_revpos b1 ++ [n]), n)
    end).
  match goal with |- ref _ (bind ?x ?k) _ _ =>
    assert (exists b5, x = Val (b5, snd a5) /\ Rb b5 (fst a5) /\ blen D1 <= blen (a_data (fst a5)))
      as (b5 & EX & R5 & LD5)
  end.
  { destruct dup as [n|].
    - assert (EI3 : index_range (owned_buf b3) (head b3) (head b3 + vlen) = Val vt).
      { rewrite (inv_buf b3 I3), E3. unfold index_range.
        rewrite get_range_mid; [reflexivity| |]; rewrite ?blen_zeros; lia. }
      rewrite EI3. cbn [bind]. rewrite usize_arith_ok by lia. cbn [bind].
      eexists. split; [reflexivity|]. cbn [fst a5]. split; [|cbn; lia].
      replace (head b3 + vlen - head b3) with vlen by lia.
      assert (EB : set_range (owned_buf b3) (head b3) (zeros vlen) = zeros (head b3 + vlen) ++ D1).
      { rewrite (inv_buf b3 I3), E3. rewrite (set_range_mid (zeros (head b3)) vt (zeros vlen) D1).
        - rewrite app_assoc, zeros_app by lia. reflexivity.
        - rewrite blen_zeros. lia.
        - rewrite blen_zeros. lia. }
      unfold set_buf at 1. rewrite EB.
      destruct (inv_make (zeros (head b3 + vlen) ++ D1) (head b3 + vlen) (field_locs b3)
        (written_vtable_revpos b3) (nested b3) (finished b3) (min_align b3) D1) as [I4 V4]; auto.
      + lia.
      + rewrite blen_app, blen_zeros. lia.
      + rewrite W3. apply (inv_vts b1 I1).
      + apply (inv_fields b3 I3).
      + split; [exact I4|]. rewrite V4.
        unfold with_data, view. cbn [a_fields a_vts a_nested a_fin a_align]. congruence.
    - eexists. split; [rewrite (Rb_used _ _ R3); reflexivity|]. cbn [fst a5 with_data with_vts a_data]. split.
      + rewrite W3. pose proof (Rb_flags b3 _ (field_locs b3) (written_vtable_revpos b1 ++ [as_u32 (blen (vt ++ D1))])
          (nested b3) (finished b3) (min_align b3) R3) as RF. cbn [a_data with_data] in RF.
        unfold set_revpos.
        match type of RF with _ -> _ -> Rb _ ?x => match goal with |- Rb _ ?y => replace y with x end end.
        * apply RF; [apply (inv_fields b3 I3)|]. apply Forall_app. split.
          -- eapply Forall_impl; [|apply (inv_vts b1 I1)]. cbn. intros r Hr. rewrite blen_app. fold D1 in Hr. lia.
          -- constructor; [|constructor]. pose proof (blen_nonneg (vt ++ D1)).
             unfold as_u32. pose proof (Z.mod_pos_bound (blen (vt ++ D1)) (2 ^ 32)).
             pose proof (Z.mod_le (blen (vt ++ D1)) (2 ^ 32)). lia.
        * unfold with_vts, with_data, view. cbn [a_fields a_vts a_nested a_fin a_align a_data]. congruence.
      + rewrite blen_app. lia. }
  rewrite EX. cbn [bind].
  replace (match dup with
    | Some n => (view b1, n)
    | None => (with_vts (with_data (view b1) (vt ++ D1))
                (written_vtable_revpos b1 ++ [as_u32 (blen (vt ++ D1))]), as_u32 (blen (vt ++ D1)))
    end) with a5 by (subst a5; destruct dup; reflexivity).
  clearbody a5. clear EX. destruct a5 as [a5 vt_use]. cbn [fst snd] in *.
  pose proof R5 as [I5 V5]. subst a5. cbn [view a_data] in *.
  set (D5 := unfinished_data b5) in *.
  pose proof (inv_blen b5 I5) as L5. fold D5 in L5. pose proof (inv_len b5 I5). pose proof (inv_head b5 I5).
  assert (Ho : 0 <= obj <= blen D5).
  { subst obj. unfold as_u32. pose proof (Z.mod_pos_bound (blen D1) (2 ^ 32)).
    pose proof (Z.mod_le (blen D1) (2 ^ 32)). lia. }
  rewrite (inv_used b5 I5). fold D5. rewrite usize_arith_ok by lia. cbn [bind].
  assert (ER : read_scalar_at h TU32 (owned_buf b5) (head b5 + blen D5 - obj)
             = read_scalar_at h TU32 D5 (blen D5 - obj)).
  { rewrite (inv_buf b5 I5). fold D5.
    rewrite <- (read_scalar_at_shift h TU32 (zeros (head b5)) D5).
    - f_equal. rewrite blen_zeros. lia.
    - lia.
    - rewrite blen_app, blen_zeros. lia. }
  rewrite ER.
  eapply ref_bind; [apply ref_same; intros; apply expect_not_err|]. intros saw ? <-.
  eapply ref_bind; [apply ref_same; intros; apply debug_assert_not_err|]. intros ? ? _.
  eapply ref_bind; [apply ref_same; intros; apply i32_arith_not_err|]. intros d ? <-.
  rewrite usize_arith_ok by (unfold SIZE_SOFFSET; lia). cbn [bind].
  assert (EX : index_range (owned_buf b5) (head b5 + blen D5 - obj) (head b5 + blen D5 - obj + SIZE_SOFFSET)
             = index_range D5 (blen D5 - obj) (blen D5 - obj + SIZE_SOFFSET)).
  { rewrite (inv_buf b5 I5). fold D5.
    rewrite <- (index_range_shift (zeros (head b5)) D5) by lia.
    f_equal; rewrite blen_zeros; lia. }
  rewrite EX.
  eapply ref_bind; [apply (ref_same_P (fun s => exists p q, D5 = p ++ s ++ q /\ blen p = blen D5 - obj))|].
  { intros; apply index_range_not_err. }
  { intros sl Hv. unfold index_range, expect_some in Hv.
    destruct (get_range _ _ _) eqn:G; [|discriminate]. injection Hv as ->.
    apply get_range_split in G; [|lia]. destruct G as (p & q & ? & ? & ?). eauto. }
  intros dst ? [<- (p & q & HD5 & Hp)].
  eapply ref_bind; [apply (ref_same_P (fun s => blen s = blen dst))|].
  { intros; apply emplace_not_err. }
  { intros ?. apply emplace_blen. }
  intros x ? [<- Hx]. apply ref_ret. split; [|reflexivity]. cbn [fst].
  pose proof (patch b5 p dst q x (head b5 + blen D5 - obj) I5 HD5 Hx ltac:(lia)) as P.
  replace (set_range D5 (blen D5 - obj) x) with (p ++ x ++ q).
  2:{ rewrite <- Hp, HD5. rewrite (set_range_mid p dst x q); auto. }
  pose proof (Rb_flags _ _ [] (written_vtable_revpos b5) (nested b5) (finished b5) (min_align b5) P) as RF.
  apply RF; [constructor|]. apply (Rb_vts _ _ P).
Qed.

(** ** The other calls *)
Ltac rsame :=
  eapply ref_bind;
  [ apply ref_same; intros;
    first [apply debug_assert_not_err | apply unsigned_arith_not_err | apply assert_always_not_err
          | apply expect_not_err | apply expect_some_not_err]
  | intros ? ? <- ].

Lemma Rb_nested b a n : Rb b a -> Rb (set_nested b n) (with_nested a n).
Proof. intros R. pose proof R as [I ->]. rbflags R. Qed.
Lemma Rb_finished b a n : Rb b a -> Rb (set_finished b n) (with_fin a n).
Proof. intros R. pose proof R as [I ->]. rbflags R. Qed.
Lemma Rb_nofields b a : Rb b a -> Rb (set_field_locs b []) (with_fields a []).
Proof. intros R. pose proof R as [I ->]. apply Rb_flags; [exact R|constructor|apply (Rb_vts _ _ R)]. Qed.
Lemma Rb_novts b a : Rb b a -> Rb (set_revpos b []) (with_vts a []).
Proof. intros R. pose proof R as [I ->]. apply Rb_flags; [exact R|apply (Rb_fields _ _ R)|constructor]. Qed.
Lemma Rb_get_nested b a : Rb b a -> nested b = a_nested a.
Proof. intros [_ ->]. reflexivity. Qed.
Lemma Rb_get_fin b a : Rb b a -> finished b = a_fin a.
Proof. intros [_ ->]. reflexivity. Qed.
Lemma Rb_get_align b a : Rb b a -> min_align b = a_align a.
Proof. intros [_ ->]. reflexivity. Qed.
Lemma Rb_get_data b a : Rb b a -> unfinished_data b = a_data a.
Proof. intros [_ ->]. reflexivity. Qed.

Lemma start_table_ref h b a :
  Rb b a -> ref Rp (start_table h b) (a_start_table h a) (a_start_table h a).
Proof.
  intros R. unfold start_table, a_start_table, assert_not_nested. rewrite (Rb_get_nested _ _ R).
  rsame. apply ref_ret. pose proof (Rb_nested _ _ true R) as R'. split; [exact R'|].
  cbn [snd]. rewrite (Rb_used _ _ R'). reflexivity.
Qed.

Lemma end_table_ref h b a off :
  Rb b a -> ref Rp (end_table h b off) (a_end_table false h a off) (a_end_table true h a off).
Proof.
  intros R. unfold end_table, a_end_table, assert_nested. rewrite (Rb_get_nested _ _ R).
  rsame. eapply ref_bind; [apply write_vtable_ref; exact R|].
  intros [b1 o] [a1 o'] [R1 E]. cbn [fst snd] in *. subst o'. apply ref_ret. split; [|reflexivity].
  apply Rb_nofields, Rb_nested. exact R1.
Qed.

Lemma start_vector_ref h b a sz al n :
  Rb b a -> ref Rb (start_vector h b sz al n) (a_start_vector false h a sz al n) (a_start_vector true h a sz al n).
Proof.
  intros R. unfold start_vector, a_start_vector, assert_not_nested. rewrite (Rb_get_nested _ _ R).
  rsame. rsame. apply align_ref, Rb_nested. exact R.
Qed.

Lemma end_vector_ref h b a n :
  Rb b a -> ref Rp (end_vector h b n) (a_end_vector false h a n) (a_end_vector true h a n).
Proof.
  intros R. unfold end_vector, a_end_vector, assert_nested. rewrite (Rb_get_nested _ _ R).
  rsame. apply push_ref, Rb_nested. exact R.
Qed.

Lemma create_byte_string_ref h b a s :
  Rb b a -> ref Rp (create_byte_string h b s) (a_create_byte_string false h a s) (a_create_byte_string true h a s).
Proof.
  intros R. unfold create_byte_string, a_create_byte_string, assert_not_nested. rewrite (Rb_get_nested _ _ R).
  rsame. rsame. eapply ref_bind; [apply align_ref; exact R|]. intros b1 a1 R1.
  eapply ref_bind; [apply push_ref; exact R1|]. intros [b2 o2] [a2 o2'] [R2 _]. cbn [fst] in *.
  eapply ref_bind; [apply push_bytes_ref; exact R2|]. intros b3 a3 R3.
  eapply ref_bind; [apply push_ref; exact R3|]. intros [b4 o4] [a4 o4'] [R4 _]. cbn [fst] in *.
  apply ref_ret. split; [exact R4|]. cbn [snd]. rewrite (Rb_used _ _ R4). reflexivity.
Qed.

Lemma create_string_ref h b a s :
  Rb b a -> ref Rp (create_string h b s) (a_create_string false h a s) (a_create_string true h a s).
Proof.
  intros R. unfold create_string, a_create_string, assert_not_nested. rewrite (Rb_get_nested _ _ R).
  rsame. apply create_byte_string_ref. exact R.
Qed.

Lemma create_vector_direct_ref h b a t items :
  Rb b a -> ref Rp (create_vector_direct h b t items) (a_create_vector_direct false h a t items)
    (a_create_vector_direct true h a t items).
Proof.
  intros R. unfold create_vector_direct, a_create_vector_direct, assert_not_nested. rewrite (Rb_get_nested _ _ R).
  rsame. rsame. eapply ref_bind; [apply align_ref; exact R|]. intros b1 a1 R1.
  eapply ref_bind; [apply push_bytes_ref; exact R1|]. intros b3 a3 R3.
  eapply ref_bind; [apply push_ref; exact R3|]. intros [b4 o4] [a4 o4'] [R4 _]. cbn [fst] in *.
  apply ref_ret. split; [exact R4|]. cbn [snd]. rewrite (Rb_used _ _ R4). reflexivity.
Qed.

Lemma push_all_ref h l : forall b a,
  Rb b a -> ref Rb (push_all h b l) (a_push_all false h a l) (a_push_all true h a l).
Proof.
  induction l as [|x l IH]; intros b a R; cbn [push_all a_push_all].
  - apply ref_ret. exact R.
  - eapply ref_bind; [apply push_ref; exact R|]. intros [b1 o1] [a1 o1'] [R1 _]. apply IH. exact R1.
Qed.

Lemma create_vector_ref h b a sz al items :
  Rb b a -> ref Rp (create_vector h b sz al items) (a_create_vector false h a sz al items)
    (a_create_vector true h a sz al items).
Proof.
  intros R. unfold create_vector, a_create_vector.
  rsame. eapply ref_bind; [apply align_ref; exact R|]. intros b1 a1 R1.
  eapply ref_bind; [apply push_all_ref; exact R1|]. intros b2 a2 R2.
  apply push_ref. exact R2.
Qed.

Lemma create_strings_rev_ref h l : forall b a acc,
  Rb b a -> ref Rp (create_strings_rev h b l acc) (a_create_strings_rev false h a l acc)
    (a_create_strings_rev true h a l acc).
Proof.
  induction l as [|x l IH]; intros b a acc R; cbn [create_strings_rev a_create_strings_rev].
  - apply ref_ret. split; [exact R|reflexivity].
  - eapply ref_bind; [apply create_string_ref; exact R|].
    intros [b1 o1] [a1 o1'] [R1 E]. cbn [fst snd] in *. subst o1'. apply IH. exact R1.
Qed.

Lemma create_vector_of_strings_ref h b a xs :
  Rb b a -> ref Rp (create_vector_of_strings h b xs) (a_create_vector_of_strings false h a xs)
    (a_create_vector_of_strings true h a xs).
Proof.
  intros R. unfold create_vector_of_strings, a_create_vector_of_strings, assert_not_nested.
  rewrite (Rb_get_nested _ _ R). rsame.
  eapply ref_bind; [apply create_strings_rev_ref; exact R|].
  intros [b1 o1] [a1 o1'] [R1 E]. cbn [fst snd] in *. subst o1'. apply create_vector_ref. exact R1.
Qed.

Lemma required_ref h b a tab slot :
  Rb b a -> ref eq (required h b tab slot) (a_required h a tab slot) (a_required h a tab slot).
Proof.
  intros R. unfold required, a_required. rewrite (Rb_used _ _ R), (Rb_get_data _ _ R).
  rsame. rsame. rsame. rsame. apply ref_same. intros. apply assert_always_not_err.
Qed.

Lemma finish_ref h b a root ident sp :
  Rb b a -> ref Rb (finish_with_opts h b root ident sp) (a_finish false h a root ident sp)
    (a_finish true h a root ident sp).
Proof.
  intros R. unfold finish_with_opts, a_finish, assert_not_finished, assert_not_nested.
  rewrite (Rb_get_nested _ _ R), (Rb_get_fin _ _ R). rsame. rsame.
  pose proof (Rb_novts _ _ R) as R0.
  change (min_align (set_revpos b [])) with (min_align b). rewrite (Rb_get_align _ _ R).
  change (a_align (with_vts a [])) with (a_align a).
  eapply ref_bind; [apply align_ref; exact R0|]. intros b1 a1 R1.
  eapply ref_bind.
  { instantiate (1 := Rb). destruct ident as [i|].
    - rsame. apply push_bytes_ref. exact R1.
    - apply ref_ret. exact R1. }
  intros b2 a2 R2.
  eapply ref_bind; [apply push_ref; exact R2|]. intros [b3 o3] [a3 o3'] [R3 _]. cbn [fst] in *.
  eapply ref_bind.
  { instantiate (1 := Rb). destruct sp.
    - rewrite (Rb_used _ _ R3). eapply ref_bind; [apply push_ref; exact R3|].
      intros [b4 o4] [a4 o4'] [R4 _]. apply ref_ret. exact R4.
    - apply ref_ret. exact R3. }
  intros b4 a4 R4. apply ref_ret. apply Rb_finished. exact R4.
Qed.

Lemma reset_ref b a : Rb b a -> Rb (reset b) (AState [] (a_fields a) [] false false 0).
Proof.
  intros [I ->]. unfold reset. pose proof (inv_head b I). pose proof (inv_blen b I). pose proof (inv_len b I).
  assert (E : firstn (Z.to_nat (head b)) (owned_buf b) ++ zeros (used_space b) = zeros (blen (owned_buf b)) ++ []).
  { rewrite (inv_buf b I) at 1. rewrite firstn_app_exact by (rewrite blen_zeros; lia).
    rewrite (inv_used b I). pose proof (blen_nonneg (unfinished_data b)).
    rewrite zeros_app by lia. rewrite app_nil_r. f_equal. lia. }
  pose proof (blen_nonneg (owned_buf b)).
  rewrite E.
  destruct (inv_make (zeros (blen (owned_buf b)) ++ []) (blen (owned_buf b)) (field_locs b) [] false false 0 []) as [I2 V2]; auto.
  - rewrite app_nil_r, blen_zeros. lia.
  - apply (inv_fields b I).
  - split; [exact I2|]. rewrite V2. reflexivity.
Qed.

Lemma with_num_ref x l s : ref Rp x l s -> ref (@Rp obs) (with_num x) (a_num l) (a_num s).
Proof.
  intros H. unfold with_num, a_num. eapply ref_bind; [exact H|].
  intros [b1 o1] [a1 o1'] [R1 E]. cbn [fst snd] in *. subst. apply ref_ret. split; auto.
Qed.
Lemma without_ref x l s : ref Rb x l s -> ref (@Rp obs) (without x) (a_unit l) (a_unit s).
Proof.
  intros H. unfold without, a_unit. eapply ref_bind; [exact H|].
  intros b1 a1 R1. apply ref_ret. split; auto.
Qed.

Lemma u16_ok_range s : u16_ok s = true -> 0 <= s < 2 ^ 16.
Proof. unfold u16_ok. lia. Qed.
Lemma u32_ok_range s : u32_ok s = true -> 0 <= s < 2 ^ 32.
Proof. unfold u32_ok. lia. Qed.

Lemma step_ref h b a o :
  Rb b a -> op_ok o = true -> ref Rp (step h b o) (a_step false h a o) (a_step true h a o).
Proof.
  intros R Ho. destruct o; cbn [step a_step op_ok] in *;
    repeat (apply andb_true_iff in Ho as [Ho ?]).
  - apply ref_ret. split; [apply reset_ref; exact R|reflexivity].
  - apply with_num_ref, push_ref; auto.
  - apply without_ref, push_slot_ref; auto. lia.
  - apply without_ref, push_slot_always_ref; auto. lia.
  - apply ref_ret. split; [exact R|]. cbn. destruct R as [_ ->]. reflexivity.
  - apply with_num_ref, start_table_ref; auto.
  - apply with_num_ref, end_table_ref; auto.
  - apply without_ref, start_vector_ref; auto.
  - apply with_num_ref, end_vector_ref; auto.
  - apply with_num_ref, create_string_ref; auto.
  - apply with_num_ref, create_byte_string_ref; auto.
  - apply with_num_ref, create_vector_direct_ref; auto.
  - apply with_num_ref, create_vector_of_strings_ref; auto.
  - apply with_num_ref, create_vector_ref; auto.
  - apply ref_ret. split; [exact R|]. cbn. rewrite (Rb_get_data _ _ R). reflexivity.
  - unfold finished_data, assert_finished. rewrite bind_assoc, (Rb_get_fin _ _ R). rsame. cbn [bind].
    apply ref_ret. split; [exact R|]. cbn. rewrite (Rb_get_data _ _ R). reflexivity.
  - eapply ref_bind; [apply required_ref; exact R|]. intros ? ? _. apply ref_ret. split; auto.
  - apply without_ref, finish_ref; auto.
Qed.

Lemma run_ref h os : forall b a,
  Rb b a -> forallb op_ok os = true -> ref Rp (run h b os) (a_run false h a os) (a_run true h a os).
Proof.
  induction os as [|o os IH]; intros b a R Ho; cbn [run a_run forallb] in *.
  - apply ref_ret. split; auto.
  - apply andb_true_iff in Ho as [Ho Hos].
    eapply ref_bind; [apply step_ref; eauto|]. intros [b1 x] [a1 x'] [R1 E]. cbn [fst snd] in *. subst x'.
    eapply ref_bind; [apply IH; eauto|]. intros [b2 xs] [a2 xs'] [R2 E]. cbn [fst snd] in *. subst xs'.
    apply ref_ret. split; auto.
Qed.

Lemma new_Rb capacity b : 0 <= capacity -> new_with_capacity capacity = Val b -> Rb b a_new.
Proof.
  unfold new_with_capacity, MAX_BUFFER_SIZE, assert_always. intros Hc H.
  destruct (capacity <=? 2 ^ 31) eqn:E; [|discriminate]. cbn [bind] in H. injection H as <-.
  destruct (inv_make (zeros capacity) capacity [] [] false false 0 []) as [I V]; auto.
  - rewrite app_nil_r. reflexivity.
  - rewrite blen_zeros. lia.
  - split; [exact I|]. rewrite V. reflexivity.
Qed.

(** A program that completes does so as the abstract machine says. *)
Lemma run_abstract h b a os b' xs :
  Rb b a -> forallb op_ok os = true -> run h b os = Val (b', xs) ->
  a_run false h a os = Val (view b', xs) /\ inv b'.
Proof.
  intros R Ho H. pose proof (run_ref h os b a R Ho) as P. rewrite H in P. cbn [ref] in P.
  destruct P as ([a' xs'] & [R' E] & Hl & _). cbn [fst snd] in *. subst xs'.
  destruct R' as [I ->]. auto.
Qed.

Lemma program_abstract h capacity os b' xs :
  0 <= capacity -> forallb op_ok os = true -> program h capacity os = Val (b', xs) ->
  a_run false h a_new os = Val (view b', xs) /\ inv b'.
Proof.
  intros Hc Ho H. unfold program in H. apply bind_Val in H as (b & Hb & H).
  eapply run_abstract; eauto. eapply new_Rb; eauto.
Qed.

(** When the calls of the builder panic, continued: tables, required fields, finishing. *)
From Coq Require Import ZArith List Bool Lia Strings.Byte ZifyBool ZifyNat ZifyN.
From Verif Require Import Base Scalar Reader Builder Ops SpecWire SpecReader SpecBuilder SpecUse Abstract BaseFacts ScalarFacts
  WireFacts ReaderFacts ReaderProofs ReaderProofs2 SpecFollow ReaderProofs7 Refine Refine2 Build1 Build2 Build3 Build4 Build5 Build6 Build7 Build8 Build9 Build10 Build11 BuilderProofs4 UseProofs.
Import ListNotations.
Local Open Scope Z_scope.

(** ** Tables *)
Definition clash (obj : Z) (l : list field_loc) : Prop :=
  exists l1 f l2 g l3, l = l1 ++ f :: l2 ++ g :: l3 /\ fl_id f = fl_id g /\ (obj - fl_off f) mod 2 ^ 16 <> 0.

Section Decide.
Context (h : host).

Lemma u32_decides n : n < 2 ^ 32 -> decides (u32_arith h n) (debug h = true /\ n < 0).
Proof.
  intros H. unfold u32_arith, unsigned_arith. destruct (Z.lt_ge_cases n 0).
  - replace (_ && _) with false by lia. destruct (debug h); [left; auto|]. apply decides_val. intros [? _]. discriminate.
  - replace (_ && _) with true by lia. apply decides_val. lia.
Qed.

Definition entries (vt : list byte) (e : Z -> Z) : Prop :=
  forall s, even_slot s -> s + 2 <= blen vt ->
    get_range vt s (s + 2) = Some (wire TU16 (e s)) /\ 0 <= e s < 2 ^ 16.

Lemma write_fields_decides obj l : obj < 2 ^ 32 ->
  Forall field_ok l -> Forall (fun f => even_slot (fl_id f)) l ->
  forall vt e, blen vt < 2 ^ 63 -> Forall (fun f => fl_id f + 2 <= blen vt) l -> entries vt e ->
    decides (write_fields h vt obj l)
      (debug h = true /\ ((exists f, In f l /\ obj < fl_off f) \/ (exists f, In f l /\ e (fl_id f) <> 0) \/ clash obj l)).
Proof.
  intros Ho. induction l as [|f l IH]; intros Hok Hev vt e Lv Hb He; cbn [write_fields].
  { apply decides_val. intros (_ & [(f & [] & _)|[(f & [] & _)|(l1 & f & l2 & g & l3 & E & _)]]). destruct l1; discriminate. }
  inversion Hok as [|? ? [F1 F2] Hok']; subst. inversion Hev as [|? ? Ev Hev']; subst. inversion Hb as [|? ? Hb1 Hb']; subst.
  eapply decides_then; [apply u32_decides; lia|intros [Hd N]; split; [exact Hd|]; left; exists f; split; [left; reflexivity|lia]|].
  intros d Ed Nd. destruct (He _ Ev Hb1) as [G R]. pose proof Ev as [Ev1 Ev2].
  set (pos := as_u16 d).
  assert (Epos : pos = (obj - fl_off f) mod 2 ^ 16).
  { unfold pos, as_u16. clear - Ed. unfold u32_arith, unsigned_arith in Ed. set (n := obj - fl_off f) in *.
    destruct (_ && _); [congruence|]. destruct (debug h); [discriminate|].
    assert (E : d = n mod 2 ^ 32) by congruence. rewrite E. pose proof (Z.div_mod n (2 ^ 32)). replace (n mod 2 ^ 32) with (n + (- (2 ^ 16) * (n / 2 ^ 32)) * 2 ^ 16) by lia.
    apply Z.mod_add. lia. }
  pose proof (Z.mod_pos_bound (obj - fl_off f) (2 ^ 16) ltac:(lia)) as Rp. rewrite <- Epos in Rp.
  set (vt' := set_range vt (fl_id f) (wire TU16 pos)).
  assert (L2 : blen vt' = blen vt) by (apply blen_set_range; rewrite ?blen_wire16; lia).
  set (e' := fun s => if s =? fl_id f then pos else e s).
  assert (He' : entries vt' e').
  { intros s Hs Hl. rewrite L2 in Hl. unfold e', vt'. destruct (Z.eqb_spec s (fl_id f)) as [-> | Ne].
    - split; [|exact Rp]. apply get_set_same; rewrite ?blen_wire16; lia.
    - destruct (He s Hs Hl) as [G1 R1]. split; [|exact R1]. destruct Hs as [Hs1 Hs2].
      rewrite get_set_other; rewrite ?blen_wire16; auto; lia. }
  assert (Hb2 : Forall (fun f => fl_id f + 2 <= blen vt') l) by (rewrite L2; exact Hb').
  specialize (IH Hok' Hev' vt' e' ltac:(lia) Hb2 He').
  set (R' := debug h = true /\ _).
  assert (Step : decides (let* vt := vtw_write_field_offset h vt (fl_id f) pos in write_fields h vt obj l)
     (debug h = true /\ ((exists g, In g l /\ obj < fl_off g) \/ (exists g, In g l /\ e' (fl_id g) <> 0) \/ clash obj l))).
  { rewrite write_field_fwd by lia. cbn [bind]. exact IH. }
  assert (Old : decides (if debug h then let* old := vtw_get_field_offset h vt (fl_id f) in debug_assert h (old =? 0) else Val tt)
     (debug h = true /\ e (fl_id f) <> 0)).
  { destruct (debug h) eqn:Hd; [|apply decides_val; intros [? _]; discriminate].
    unfold vtw_get_field_offset. rewrite (read_scalar_at_ok h TU16 vt _ (wire TU16 (e (fl_id f)))); [|lia|lia|exact G].
    rewrite scalar_of_wire by (cbn; lia). cbn [expect bind]. eapply decides_iff; [apply debug_decides|]. rewrite Hd. lia. }
  eapply decides_then; [exact Old| |].
  - intros [Hd N]. split; [exact Hd|]. right. left. exists f. split; [left; reflexivity|exact N].
  - intros _ _ No. eapply decides_iff; [exact Step|]. unfold R'. split; intros (Hd & H); (split; [exact Hd|]).
    + destruct H as [(g & Ig & Hg)|[(g & Ig & Hg)|(l1 & g1 & l2 & g2 & l3 & E & Eid & Hp)]].
      * left. exists g. split; [right; exact Ig|exact Hg].
      * unfold e' in Hg. destruct (Z.eqb_spec (fl_id g) (fl_id f)) as [Eq|Ne].
        -- right. right. apply in_split in Ig as (m1 & m2 & ->). exists [], f, m1, g, m2. split; [reflexivity|]. split; [auto|congruence].
        -- right. left. exists g. split; [right; exact Ig|exact Hg].
      * right. right. exists (f :: l1), g1, l2, g2, l3. subst l. split; [reflexivity|]. auto.
    + destruct H as [(g & [<- | Ig] & Hg)|[(g & [<- | Ig] & Hg)|(l1 & g1 & l2 & g2 & l3 & E & Eid & Hp)]].
      * exfalso. apply Nd. split; [exact Hd|lia].
      * left. eauto.
      * exfalso. apply No. auto.
      * right. left. exists g. split; [exact Ig|]. unfold e'. destruct (Z.eqb_spec (fl_id g) (fl_id f)) as [Eq|Ne]; [|exact Hg].
        exfalso. apply No. rewrite <- Eq. auto.
      * destruct l1 as [|x l1]; cbn in E; injection E as E1 E2.
        -- subst g1 l. right. left. exists g2. split; [apply in_or_app; right; left; reflexivity|].
           unfold e'. rewrite <- Eid, Z.eqb_refl. rewrite Epos. exact Hp.
        -- subst x l. right. right. exists l1, g1, l2, g2, l3. auto.
Qed.

Lemma a_vtable_decides l size obj : obj < 2 ^ 32 -> Forall field_ok l -> Forall field_fits l ->
  decides (a_vtable h (get_vtable_byte_len l) size obj l)
    (debug h = true /\ ((exists f, In f l /\ obj < fl_off f) \/ clash obj l)).
Proof.
  intros Ho Hok Hf. pose proof (fits_len l Hok Hf) as FL. set (n := get_vtable_byte_len l) in *.
  unfold a_vtable, vtw_write_byte_length, SIZE_VOFFSET.
  destruct (index_range_fwd (zeros n) 0 2) as (s & -> & Ls); [lia|rewrite blen_zeros; lia|]. cbn [bind].
  rewrite emplace_scalar_exact by (cbn [ssize]; lia). cbn [bind].
  assert (Lz : blen (zeros n) = n) by (rewrite blen_zeros; lia).
  assert (B1 : blen (set_range (zeros n) 0 (wire TU16 (as_u16 n))) = n) by (rewrite blen_set_range; rewrite ?blen_wire16; lia).
  rewrite B1. rewrite debug_assert_ok by (unfold as_u16; lia). cbn [bind].
  unfold vtw_write_object_inline_size, SIZE_VOFFSET.
  set (v1 := set_range (zeros n) 0 (wire TU16 (as_u16 n))) in *.
  destruct (index_range_fwd v1 2 (2 * 2)) as (s2 & -> & Ls2); [lia|lia|]. cbn [bind].
  rewrite emplace_scalar_exact by (cbn [ssize]; lia). cbn [bind].
  assert (B2 : blen (set_range v1 2 (wire TU16 (as_u16 size))) = n) by (rewrite blen_set_range; rewrite ?blen_wire16; lia).
  pose proof (fits_even l Hf) as Hev.
  eapply decides_iff; [apply (write_fields_decides obj l Ho Hok Hev _ (fun _ => 0)); [lia| |]|].
  - apply Forall_forall. intros f If. rewrite B2. apply vtable_len_max. exact If.
  - intros x [E1 E2] Lx. rewrite B2 in Lx. split; [|lia].
    rewrite get_set_other; rewrite ?blen_wire16; try lia. unfold v1.
    rewrite get_set_other; rewrite ?blen_wire16; try lia.
    rewrite get_range_zeros by lia. rewrite wire_u16_0. f_equal. f_equal. lia.
  - split; intros (Hd & H); (split; [exact Hd|]); [destruct H as [H|[(f & _ & H)|H]]|]; tauto.
Qed.

Lemma a_end_table_decides a tail :
  let obj := up4 (blen (a_data a)) + 4 in
  Forall field_ok (a_fields a) -> Forall field_fits (a_fields a) -> Forall (vt_known (a_data a)) (a_vts a) ->
  blen (a_data a) + 65541 < 2 ^ 31 -> 0 <= tail ->
  decides (a_end_table false h a tail)
    (debug h = true /\ (a_nested a = false \/ obj < tail \/ 2 ^ 16 <= obj - tail \/
       (exists f, In f (a_fields a) /\ obj < fl_off f) \/ clash obj (a_fields a))).
Proof.
  intros obj Hok Hf Hk Hl Ht.
  pose proof (blen_nonneg (a_data a)) as N0. pose proof (blen_marker a) as BM. pose proof (gap_range (a_data a) 4 4 pow8_4) as GR.
  assert (Eobj : obj = blen (a_data (pushed a marker))) by (unfold obj; rewrite BM, (up4_gap (a_data a)) by reflexivity; lia).
  rewrite Eobj. clear Eobj obj.
  pose proof (fits_len _ Hok Hf) as FL.
  unfold a_end_table. eapply decides_then; [apply debug_decides|tauto|]. intros [] Hn Nn.
  match goal with |- decides (bind ?x _) ?R => cut (decides x R) end.
  { intros [[-> B]|([a1 o1] & -> & B)]; cbn [bind]; [left; auto|right; eauto]. }
  unfold a_write_vtable. rewrite Hn. cbn [bind]. fold marker.
  unfold marker at 1. rewrite a_push_scalar; [|reflexivity|lia]. cbn [bind]. fold marker.
  set (d1 := a_data (pushed a marker)) in *.
  change (a_fields (pushed a marker)) with (a_fields a). change (a_vts (pushed a marker)) with (a_vts a).
  rewrite as_u32_small by lia. rewrite room_false by lia. cbn [bind].
  eapply decides_then; [apply u32_decides; lia|intros [? ?]; split; [auto|right; left; lia]|]. intros size Hsize Ns.
  eapply decides_then; [apply debug_decides| |].
  { intros [Hd Hs]. split; [exact Hd|]. right. right. left.
    unfold u32_arith, unsigned_arith in Hsize. destruct (_ && _) eqn:Q in Hsize; [assert (size = blen d1 - tail) by congruence; lia|].
    rewrite Hd in Hsize. discriminate. }
  intros [] _ Nz.
  eapply decides_then; [apply a_vtable_decides; [lia|exact Hok|exact Hf]|tauto|]. intros vt Hvt Nv.
  destruct (a_vtable_shape _ _ _ _ _ Hok Hf Hvt) as [Sh Lv].
  assert (Ed1 : d1 = wire TU32 0xF0F0F0F0 ++ zeros (gap (a_data a) 4 4) ++ a_data a) by reflexivity.
  set (w := zeros (gap (a_data a) 4 4) ++ a_data a) in *.
  assert (LD : blen (vt ++ d1) < 2 ^ 31) by (rewrite blen_app; lia).
  assert (Hk' : Forall (vt_known (vt ++ d1)) (rev (a_vts a))).
  { apply Forall_rev. eapply Forall_impl; [|exact Hk]. intros r (v & V). exists v.
    rewrite Ed1. unfold w. rewrite !app_assoc. apply vt_at_app. exact V. }
  assert (X : exists dup, find_dup h (vt ++ d1) 0 (rev (a_vts a)) = Val dup /\
     forall n, dup = Some n -> 0 <= n < 2 ^ 31).
  { destruct (find_dup_spec h (vt ++ d1) vt (rev (a_vts a))) as [[E _]|(n & E & _ & [A _])]; auto.
    - split; [|exact Sh]. exists [], d1. split; [reflexivity|rewrite blen_app; reflexivity].
    - lia.
    - exists None. split; [exact E|discriminate].
    - exists (Some n). split; [exact E|]. intros m Q. injection Q as <-. apply At_range in A. pose proof (blen_nonneg vt). lia. }
  destruct X as (dup & -> & Hdup). cbn [bind].
  set (vr := match dup with Some n => n | None => as_u32 (blen (vt ++ d1)) end).
  set (pre := match dup with Some _ => [] | None => vt end).
  set (vs := match dup with Some _ => a_vts a | None => a_vts a ++ [vr] end).
  replace (match dup with
    | Some n => (pushed a marker, n)
    | None => (with_vts (with_data (pushed a marker) (vt ++ d1)) (a_vts a ++ [as_u32 (blen (vt ++ d1))]),
               as_u32 (blen (vt ++ d1)))
    end) with (with_vts (with_data (pushed a marker) (pre ++ d1)) vs, vr)
    by (subst vs pre vr; destruct dup; reflexivity).
  cbn [with_vts with_data a_data].
  assert (Ln : blen (pre ++ d1) - blen d1 = blen pre) by (rewrite blen_app; lia). rewrite Ln.
  assert (G : get_range (pre ++ d1) (blen pre) (blen pre + 4) = Some (wire TU32 0xF0F0F0F0)).
  { rewrite Ed1. apply get_range_mid; [reflexivity|rewrite blen_wire; reflexivity]. }
  assert (LP : blen pre <= blen vt) by (subst pre; destruct dup; [change (blen (@nil byte)) with 0; apply blen_nonneg|lia]).
  pose proof (blen_nonneg pre).
  rewrite (read_scalar_at_ok h TU32 _ _ (wire TU32 0xF0F0F0F0)); [|lia|cbn [ssize]; lia|exact G].
  rewrite scalar_of_wire by reflexivity. cbn [expect bind]. rewrite debug_assert_ok by reflexivity. cbn [bind].
  assert (Vr : 0 <= vr < 2 ^ 31).
  { subst vr. destruct dup as [n|]; [apply Hdup; reflexivity|]. rewrite as_u32_small; [|pose proof (blen_nonneg (vt ++ d1)); lia].
    pose proof (blen_nonneg (vt ++ d1)). lia. }
  assert (LS : 0 <= blen d1 < 2 ^ 31) by lia.
  assert (AI : i32_arith h (as_i32 vr - as_i32 (blen d1)) = Val (vr - blen d1)).
  { rewrite !as_i32_small by lia. unfold i32_arith. replace (_ && _) with true by lia. reflexivity. }
  rewrite AI. cbn [bind]. unfold index_range, SIZE_SOFFSET. rewrite G. cbn [expect_some bind].
  rewrite emplace_scalar_exact by (rewrite blen_wire; reflexivity). cbn [bind]. apply decides_val.
  intros (Hd & [B|[B|[B|[B|B]]]]).
  - apply Nn. auto.
  - apply Ns. split; [exact Hd|lia].
  - apply Nz. split; [exact Hd|]. unfold u32_arith, unsigned_arith in Hsize.
    destruct (_ && _) eqn:Q in Hsize; [assert (size = blen d1 - tail) by congruence; lia|]. rewrite Hd in Hsize. discriminate.
  - apply Nv. auto.
  - apply Nv. auto.
Qed.

(** ** Required fields *)
Lemma a_required_decides a tab slot : blen (a_data a) <= 2 ^ 31 -> 0 <= tab < 2 ^ 32 -> 0 <= slot < 2 ^ 16 ->
  decides (a_required h a tab slot) (~ field_present (a_data a) tab slot).
Proof.
  intros L Ht Hs. set (D := a_data a) in *. pose proof (blen_nonneg D). unfold a_required. fold D.
  set (t := blen D - tab).
  assert (Short : (t < 0 \/ blen D < t + 4) -> ~ field_present D tab slot).
  { intros Hb (s & n & off & Sf & _). fold t in Sf. pose proof (soffset_in _ _ _ Sf). destruct Sf as [_ (? & _)]. lia. }
  destruct (Z.lt_ge_cases t 0) as [Tn|Tn].
  { left. split; [|apply Short; lia]. unfold usize_arith, unsigned_arith. replace (_ && _) with false by lia.
    destruct (debug h); [reflexivity|]. cbn [bind]. set (i := t mod 2 ^ 64).
    assert (Ei : i = t + 2 ^ 64) by (apply mod_neg; lia).
    unfold table_vtable. cbn [follow]. unfold SIZE_SOFFSET.
    replace (expect _) with (@Panic Z); [reflexivity|].
    destruct (usize_arith h (i + 4)) as [e| |] eqn:Ee; cbn [bind expect]; [|unfold usize_arith, unsigned_arith in Ee; destruct (_ && _); [discriminate|]; destruct (debug h); discriminate|reflexivity].
    replace (get_range D i e) with (@None (list byte)); [reflexivity|]. symmetry. apply get_range_None_iff. lia. }
  rewrite usize_arith_ok by lia. cbn [bind].
  destruct (Z.lt_ge_cases (blen D) (t + 4)) as [Sh|Sh].
  { left. split; [|apply Short; lia]. rewrite table_vtable_short by lia. reflexivity. }
  destruct (soffset_exists D t Tn Sh) as (s & Sf). pose proof Sf as [Rs _].
  assert (Uniq : field_present D tab slot <-> exists n off, le_at D (t - s) 2 n /\ slot < n /\ le_at D (t - s + slot) 2 off /\ off <> 0).
  { split; [|intros (n & off & P); exists s, n, off; fold t; auto]. intros (s' & n & off & Sf' & P). fold t in Sf', P.
    rewrite (soffset_unique _ _ _ _ Sf Sf'). eauto. }
  rewrite (table_vtable_spec h D t s Sf) by lia.
  destruct (Z.lt_ge_cases (t - s) (2 ^ 31)) as [Vb|Vb].
  2:{ left. split.
      - unfold i32_arith. replace (_ && _) with false by lia. destruct (debug h) eqn:Hd; [reflexivity|]. cbn [bind expect].
        set (v := i32_as_usize _). assert (Hv : 2 ^ 63 <= v < 2 ^ 64).
        { unfold v, i32_as_usize, as_i32. rewrite (Z.mod_small (t - s) (2 ^ 32)) by lia.
          replace (_ <? _) with false by lia. rewrite mod_neg by lia. lia. }
        unfold vt_get, vt_num_bytes. rewrite read_scalar_at_spec by lia.
        replace (get_range D v (v + ssize TU16)) with (@None (list byte)); [destruct (_ && _); reflexivity|].
        symmetry. apply get_range_None_iff. cbn [ssize]. lia.
      - rewrite Uniq. intros (n & off & P & _). apply (le_at_in _ _ 2) in P; lia. }
  replace (i32_arith h (t - s)) with (Val (t - s)) by (unfold i32_arith; replace (_ && _) with true by lia; reflexivity).
  cbn [bind expect]. set (v := i32_as_usize (t - s)).
  destruct (Z.lt_ge_cases (t - s) 0) as [Vn|Vn].
  { left. split.
    - assert (Ev : v = t - s + 2 ^ 64) by (apply mod_neg; lia).
      unfold vt_get, vt_num_bytes. rewrite read_scalar_at_spec by lia.
      replace (get_range D v (v + ssize TU16)) with (@None (list byte)); [destruct (_ && _); reflexivity|].
      symmetry. apply get_range_None_iff. cbn [ssize]. lia.
    - rewrite Uniq. intros (n & off & [P _] & _). lia. }
  assert (Ev : v = t - s) by (unfold v, i32_as_usize; rewrite Z.mod_small; lia). rewrite <- Ev in Uniq, Vn, Vb. clearbody v. clear Ev.
  unfold vt_get, vt_num_bytes. rewrite read_scalar_at_spec by lia.
  destruct (get_range D v (v + ssize TU16)) as [x|] eqn:Gx.
  2:{ left. split; [destruct (_ && _); reflexivity|]. apply get_range_None_iff in Gx. rewrite Uniq. intros (n & off & P & _). apply (le_at_in _ _ 2) in P; cbn [ssize] in *; lia. }
  pose proof (range_cell _ TU16 _ _ Vn Gx) as Cx. apply cell_u16 in Cx. set (n := scalar_of TU16 x) in *. cbn [bind].
  destruct (n <=? slot) eqn:Q.
  { left. split; [reflexivity|]. rewrite Uniq. intros (n' & off & P & P2 & _). rewrite (le2 _ _ _ _ P Cx) in P2. lia. }
  rewrite usize_arith_ok by lia. cbn [bind]. rewrite read_scalar_at_spec by lia.
  destruct (get_range D (v + slot) (v + slot + ssize TU16)) as [y|] eqn:Gy.
  2:{ left. split; [destruct (_ && _); reflexivity|]. apply get_range_None_iff in Gy. rewrite Uniq. intros (n' & off & P & P2 & P3 & _). apply (le_at_in _ _ 2) in P3; cbn [ssize] in *; lia. }
  pose proof (range_cell D TU16 (v + slot) y ltac:(lia) Gy) as Cy. apply cell_u16 in Cy. set (off := scalar_of TU16 y) in *. cbn [bind expect expect_some].
  unfold assert_always. destruct (Z.eqb_spec off 0) as [E0|E0]; cbn [negb].
  - left. split; [reflexivity|]. rewrite Uniq. intros (n' & off' & _ & _ & P3 & P4). apply P4. rewrite (le2 _ _ _ _ P3 Cy). exact E0.
  - right. exists tt. split; [reflexivity|]. intros Nf. apply Nf. rewrite Uniq. exists n, off. split; [exact Cx|]. split; [lia|]. auto.
Qed.

(** ** Finishing *)
Lemma least_pad_gap d len al pad : pow8 al -> (least_pad (blen d) len al pad <-> pad = gap d len al).
Proof.
  intros P. pose proof (least_gap d len al P) as G. split; [|intros ->; exact G].
  intros (A1 & A2 & A3). destruct G as (B1 & B2 & B3). destruct (Z.lt_total pad (gap d len al)) as [Q|[Q|Q]]; [|exact Q|].
  - exfalso. apply (B3 pad); auto.
  - exfalso. apply (A3 (gap d len al)); auto.
Qed.

Lemma a_finish_decides a root ident sp : align_ok (a_align a) -> 0 <= root < 2 ^ 32 ->
  blen (a_data a) + match ident with Some i => blen i | None => 0 end <= 2 ^ 60 ->
  decides (a_finish false h a root ident sp)
    (a_align a = 0 \/ (debug h = true /\ misuse_debug (Usage (a_nested a) (a_fin a) [] (a_align a)) (a_data a) (OpFinish root ident sp))).
Proof.
  intros Hal Hr L. cbn [misuse_debug open done widest]. pose proof (blen_nonneg (a_data a)). unfold a_finish.
  assert (Hi : 0 <= match ident with Some i => blen i | None => 0 end) by (destruct ident as [i|]; [apply blen_nonneg|lia]).
  eapply decides_then; [apply debug_decides|intros [? K]; rewrite negb_false_iff in K; tauto|]. intros _ _ N1. rewrite negb_false_iff in N1.
  eapply decides_then; [apply debug_decides|intros [? K]; rewrite negb_false_iff in K; tauto|]. intros _ _ N2. rewrite negb_false_iff in N2.
  unfold SIZE_UOFFSET, FILE_IDENTIFIER_LENGTH. change (a_align (with_vts a [])) with (a_align a).
  set (len := 4 + (if sp then 4 else 0) + (if ident then 4 else 0)).
  assert (Hlen : 4 <= len <= 12) by (unfold len; destruct sp, ident; lia).
  destruct Hal as [Hal|Hal].
  { left. split; [|left; exact Hal]. rewrite Hal. destruct (a_pad_0 false h (with_vts a []) len) as [P|P]; [lia|rewrite P; reflexivity|cbn in P; lia]. }
  assert (Hz : a_align a <> 0) by (unfold pow8 in Hal; lia).
  rewrite a_pad_false by (auto; cbn [with_vts a_data]; lia). cbn [bind with_vts a_data].
  pose proof (pow8_le8 _ Hal) as BP. pose proof (gap_range (a_data a) len _ Hal) as GR.
  set (a1 := with_data _ _).
  assert (B1 : blen (a_data a1) = blen (a_data a) + gap (a_data a) len (a_align a)).
  { unfold a1. cbn [with_data a_data]. rewrite blen_app, blen_zeros. lia. }
  assert (Tail : forall a2 (Q : Prop), blen (a_data a2) <= 2 ^ 61 - 16 -> (debug h = true -> (Q <-> beyond_end (blen (a_data a2)) (POffset root))) ->
     decides (let* (a, _) := a_push false h a2 (POffset root) in
              let* a := (if sp then let* (a, _) := a_push false h a (PScalar TU32 (as_u32 (blen (a_data a)))) in Val a else Val a) in
              Val (with_fin a true)) (debug h = true /\ Q)).
  { intros a2 Q L2 HQ. assert (pval_ok (POffset root) = true) as Ok by (cbn [pval_ok]; lia).
    eapply decides_then; [apply a_push_decides; [auto|lia]|intros [Hd B]; split; [exact Hd|apply HQ; auto]|].
    intros [a3 o3] E3 N3. apply a_push_val in E3 as (E3 & _ & _). pose proof (blen_pushed16 a2 (POffset root)). rewrite <- E3 in *.
    destruct sp; [rewrite a_push_scalar; [|apply as_u32_valid|lia]|]; cbn [bind]; apply decides_val; intros [Hd B]; apply N3; split; auto; apply HQ; auto. }
  destruct ident as [i|].
  - eapply decides_iff with (P := debug h = true /\ (blen i <> 4 \/
      (exists pad, least_pad (blen (a_data a)) (8 + (if sp then 4 else 0)) (a_align a) pad /\ up4 (blen (a_data a) + pad + 4) + 4 < root))); [|tauto].
    rewrite bind_assoc.
    eapply decides_then; [apply debug_decides|intros [? ?]; split; [auto|left; lia]|]. intros _ _ N4.
    rewrite a_bytes_false by lia. cbn [bind]. apply Tail; [cbn [with_data a_data]; rewrite blen_app; lia|].
    intros Hd. cbn [beyond_end with_data a_data]. rewrite blen_app, B1.
    assert (I4 : blen i = 4) by (destruct (Z.eq_dec (blen i) 4) as [E|E]; [exact E|exfalso; apply N4; split; [exact Hd|lia]]).
    assert (El : 8 + (if sp then 4 else 0) = len) by (unfold len; lia). rewrite El. split.
    + intros [B|(pad & P & B)]; [lia|]. apply least_pad_gap in P; [|exact Hal]. subst pad.
      replace (blen i + (blen (a_data a) + gap (a_data a) len (a_align a))) with (blen (a_data a) + gap (a_data a) len (a_align a) + 4) by lia. exact B.
    + intros B. right. exists (gap (a_data a) len (a_align a)). split; [apply least_pad_gap; auto|].
      replace (blen (a_data a) + gap (a_data a) len (a_align a) + 4) with (blen i + (blen (a_data a) + gap (a_data a) len (a_align a))) by lia. exact B.
  - eapply decides_iff with (P := debug h = true /\
      (exists pad, least_pad (blen (a_data a)) (4 + (if sp then 4 else 0)) (a_align a) pad /\ up4 (blen (a_data a) + pad) + 4 < root)); [|tauto].
    cbn [bind]. apply Tail; [lia|]. intros Hd. cbn [beyond_end]. rewrite B1.
    assert (El : 4 + (if sp then 4 else 0) = len) by (unfold len; lia). rewrite El. split.
    + intros (pad & P & B). apply least_pad_gap in P; [|exact Hal]. subst pad. exact B.
    + intros B. exists (gap (a_data a) len (a_align a)). split; [apply least_pad_gap; auto|exact B].
Qed.
End Decide.

(** Reading back tables, strings, vectors and offsets from written data. *)
From Coq Require Import ZArith List Bool Lia Strings.Byte ZifyBool ZifyNat ZifyN.
From Verif Require Import Base Scalar Reader Builder Ops SpecBuilder Abstract BaseFacts ScalarFacts ReaderFacts Refine Refine2 Build1 Build2 Build3 Build4 Build5 Build6.
Import ListNotations.
Local Open Scope Z_scope.

(** ** Values *)
Definition fbytes (x : pval) (r : Z) : list byte :=
  match x with PScalar t v => wire t v | POffset o => wire TU32 (r - o) end.
Lemma blen_fbytes x r : blen (fbytes x r) = push_size x.
Proof. destruct x; cbn [fbytes push_size]; rewrite blen_wire; reflexivity. Qed.
Lemma pbytes_fbytes x n : pbytes x n = fbytes x (push_size x + n).
Proof. destruct x; reflexivity. Qed.

Lemma At_scalar h t D r v : At D r (wire t v) -> valid_scalar t v = true -> blen D < 2 ^ 63 ->
  follow h (FScalar t) D (blen D - r) = Val (VScalar v).
Proof.
  intros A V L. destruct t; cbn [follow].
  1: { rewrite (At_read h TU8 D r (wire TBool v)); [|auto|exact (blen_wire TBool v)|auto]. cbn [bind].
       cbn [valid_scalar] in V. assert (v = 0 \/ v = 1) as [->| ->] by lia; reflexivity. }
  all: rewrite (At_read h _ D r _ A (blen_wire _ _) L); rewrite scalar_of_wire by auto; reflexivity.
Qed.

Lemma At_enum h t D r v vs : At D r (wire t v) -> valid_scalar t v = true -> In v vs -> blen D < 2 ^ 63 ->
  follow h (FEnum t vs) D (blen D - r) = Val (VEnum v).
Proof.
  intros A V I L. cbn [follow]. rewrite (At_read h _ D r _ A (blen_wire _ _) L), scalar_of_wire by auto. cbn [bind].
  replace (existsb (Z.eqb v) vs) with true; [reflexivity|]. symmetry. apply existsb_exists. exists v. split; [auto|lia].
Qed.

Lemma At_offset h t D r o : At D r (wire TU32 (r - o)) -> 0 <= o <= r -> blen D < 2 ^ 32 ->
  follow h (FUOffset t) D (blen D - r) = follow h t D (blen D - o).
Proof.
  intros A Ho L. pose proof (At_range _ _ _ A) as R. rewrite blen_wire in R. cbn [ssize] in R.
  cbn [follow]. rewrite usize_arith_ok by (unfold SIZE_UOFFSET; lia). cbn [bind].
  pose proof (At_get _ _ _ A) as G. rewrite blen_wire in G. cbn [ssize] in G. unfold SIZE_UOFFSET. rewrite G.
  cbn [ok_or bind]. rewrite read_scalar_exact by apply blen_wire. rewrite scalar_of_wire by (cbn; lia). cbn [bind].
  rewrite usize_arith_ok by lia. cbn [bind]. f_equal. lia.
Qed.

(** ** Tables *)
Lemma table_at_vtable h D obj vr v : table_at D obj vr v -> blen D < 2 ^ 31 ->
  table_vtable h D (blen D - obj) = Val (blen D - vr).
Proof.
  intros [A [V _]] L. pose proof (At_range _ _ _ A) as R. rewrite blen_wire in R. cbn [ssize] in R.
  pose proof (At_range _ _ _ V) as R2. pose proof (blen_nonneg v).
  unfold table_vtable. cbn [follow]. unfold SIZE_SOFFSET. rewrite usize_arith_ok by lia. cbn [bind].
  pose proof (At_get _ _ _ A) as G. rewrite blen_wire in G. cbn [ssize] in G. rewrite G. cbn [ok_or bind].
  rewrite read_scalar_exact by apply blen_wire. rewrite scalar_of_wire by (cbn; lia). cbn [bind].
  rewrite as_i32_small by lia. replace (blen D - obj - (vr - obj)) with (blen D - vr) by lia.
  rewrite i32_arith_ok by lia. cbn [bind]. unfold i32_as_usize. f_equal. apply Z.mod_small. lia.
Qed.

Lemma vt_get_at h D vr v slot e : vt_at D vr v -> blen D < 2 ^ 63 -> 0 <= slot ->
  (slot < blen v -> get_range v slot (slot + 2) = Some (wire TU16 e) /\ 0 <= e < 2 ^ 16) ->
  vt_get h D (blen D - vr) slot = Val (if blen v <=? slot then None else Some e).
Proof.
  intros V L Hs He. unfold vt_get. rewrite (vt_at_len h D vr v V L). cbn [bind].
  destruct (blen v <=? slot) eqn:Q; [reflexivity|]. destruct (He ltac:(lia)) as [G B].
  pose proof V as [A _]. pose proof (At_range _ _ _ A).
  rewrite usize_arith_ok by lia. cbn [bind].
  rewrite (read_scalar_at_ok h TU16 D _ (wire TU16 e)).
  - rewrite scalar_of_wire by (cbn; lia). reflexivity.
  - lia.
  - cbn [ssize]. lia.
  - cbn [ssize]. pose proof (At_get _ _ _ A) as GD.
    destruct (get_range_blen v slot (slot + 2) _ Hs G) as [_ B2].
    destruct A as (p & s & -> & ->). rewrite !blen_app in *.
    replace (blen p + (blen v + blen s) - (blen v + blen s) + slot) with (blen p + slot) by lia.
    replace (blen p + slot + 2) with (blen p + (slot + 2)) by lia.
    rewrite get_range_app_r by lia. apply get_range_app_l; auto.
Qed.

Lemma table_get_at h D obj vr v slot e t d : table_at D obj vr v -> blen D < 2 ^ 31 -> 0 <= slot ->
  (slot < blen v -> get_range v slot (slot + 2) = Some (wire TU16 e) /\ 0 <= e < 2 ^ 16) ->
  table_get h D (blen D - obj) slot t d =
  if (blen v <=? slot) || (e =? 0) then Val d
  else let* x := follow h t D (blen D - (obj - e)) in Val (Some x).
Proof.
  intros T L Hs He. unfold table_get. rewrite (table_at_vtable h D obj vr v T L). cbn [bind].
  pose proof T as [A V]. pose proof (At_range _ _ _ A) as R. rewrite blen_wire in R. cbn [ssize] in R.
  rewrite (vt_get_at h D vr v slot e V) by (auto; lia). cbn [bind].
  destruct (blen v <=? slot) eqn:Q; [reflexivity|]. cbn [orb].
  destruct (e =? 0); [reflexivity|]. rewrite usize_arith_ok.
  - cbn [bind]. do 2 f_equal. lia.
  - destruct (He ltac:(lia)). lia.
Qed.

(** ** Fields recorded for a table *)
Definition fr (st : Z) (D : list byte) (sx : Z * pval) (f : field_loc) : Prop :=
  fl_id f = fst sx /\ At D (fl_off f) (fbytes (snd sx) (fl_off f)) /\ st + push_size (snd sx) <= fl_off f /\
  fl_off f mod push_alignment (snd sx) = 0.

Lemma fr_app st q D sx f : fr st D sx f -> fr st (q ++ D) sx f.
Proof. intros (A & B & C). split; [exact A|]. split; [apply At_app; exact B|exact C]. Qed.

Lemma Forall2_fr_app st q D l fs : Forall2 (fr st D) l fs -> Forall2 (fr st (q ++ D)) l fs.
Proof. intros F. induction F; constructor; auto using fr_app. Qed.

Lemma pushed_data a x :
  a_data (pushed a x) = fbytes x (blen (a_data (pushed a x)))
    ++ zeros (gap (a_data a) (push_size x) (push_alignment x)) ++ a_data a.
Proof.
  rewrite blen_pushed.
  unfold pushed. cbv zeta. cbn [with_data with_align a_data].
  rewrite pbytes_fbytes. f_equal. f_equal. rewrite blen_app, blen_zeros.
  pose proof (gap_range (a_data a) (push_size x) (push_alignment x) (push_alignment_pow8 x)). lia.
Qed.

Lemma a_step_fields lim h st a o a' r l : in_table o = true ->
  a_step lim h a o = Val (a', r) -> Forall field_ok (a_fields a) -> blen (a_data a') < 2 ^ 32 ->
  st <= blen (a_data a) ->
  Forall2 (fr st (a_data a)) l (a_fields a) -> Forall2 (fr st (a_data a')) (l ++ added1 o) (a_fields a').
Proof.
  intros Ht H Hok L Hst F.
  assert (R : is_reset o = false) by (destruct o; auto; discriminate).
  pose proof (a_step_grows _ _ _ _ _ _ Hok R H L) as ((p & E) & _).
  assert (Plain : a_fields a' = a_fields a -> added1 o = [] ->
          Forall2 (fr st (a_data a')) (l ++ added1 o) (a_fields a')).
  { intros E1 E2. rewrite E1, E2, app_nil_r, E. apply Forall2_fr_app. auto. }
  assert (Slot : forall s x, a' = a_track (pushed a x) s (as_u32 (blen (a_data (pushed a x)))) ->
             added1 o = [(s, x)] -> Forall2 (fr st (a_data a')) (l ++ added1 o) (a_fields a')).
  { intros s x E1 E2. rewrite E2. rewrite E at 1. rewrite E1. cbn [a_track with_fields a_fields pushed with_data with_align].
    apply Forall2_app; [apply Forall2_fr_app; auto|]. constructor; [|constructor].
    rewrite <- E, E1 in *. cbn [a_track with_fields a_data] in L.
    pose proof (blen_nonneg (a_data (pushed a x))). rewrite as_u32_small by lia.
    split; [reflexivity|]. cbn [fst snd fl_off]. split.
    - cbn [a_track with_fields a_data]. eapply At_here'; [apply pushed_data|reflexivity].
    - rewrite blen_pushed. pose proof (gap_range (a_data a) (push_size x) (push_alignment x) (push_alignment_pow8 x)). split; [lia|].
      rewrite <- (gap_aligns (a_data a) (push_size x) _ (push_alignment_pow8 x)). f_equal. lia. }
  destruct (plain o) eqn:P.
  { pose proof (a_step_keeps _ _ _ _ _ _ P H) as (_ & K & _). apply Plain; auto. destruct o; try discriminate; reflexivity. }
  destruct o; cbn in P, Ht; try discriminate; cbn [a_step] in H; unfold a_unit in H.
  - apply bind_Val in H as (a1 & H & E2). injection E2 as <- <-. unfold a_push_slot in H.
    apply bind_Val in H as (u & _ & H). destruct (pval_eq x default) eqn:Q.
    + apply Plain; [injection H as <-; auto|cbn; rewrite Q; auto].
    + apply a_push_slot_always_val in H as (E3 & _). eapply Slot; eauto. cbn. rewrite Q. auto.
  - apply bind_Val in H as (a1 & H & E2). injection E2 as <- <-.
    apply a_push_slot_always_val in H as (E3 & _). eapply Slot; eauto.
  - apply bind_Val in H as (a1 & H & E2). injection E2 as <- <-.
    apply Plain; [apply a_finish_vts in H as (_ & K & _); auto|reflexivity].
Qed.

Lemma run_fields h st os : forall b b' xs l, inv b -> forallb op_ok os = true -> forallb in_table os = true ->
  run h b os = Val (b', xs) -> blen (unfinished_data b') < 2 ^ 32 -> st <= blen (unfinished_data b) ->
  Forall2 (fr st (unfinished_data b)) l (field_locs b) ->
  Forall2 (fr st (unfinished_data b')) (l ++ added os) (field_locs b').
Proof.
  induction os as [|o os IH]; intros b b' xs l I Ho Ht H L Hst F; cbn [run forallb added flat_map] in *.
  - injection H as <- <-. rewrite app_nil_r. auto.
  - apply andb_true_iff in Ho as [Ho Hos]. apply andb_true_iff in Ht as [Ht Hts].
    apply bind_Val in H as ([b1 x] & H1 & H).
    apply bind_Val in H as ([b2 ys] & H2 & H). injection H as <- <-.
    assert (Hr : forallb (fun o => negb (is_reset o)) os = true).
    { apply forallb_forall. intros q Hq. rewrite forallb_forall in Hts. specialize (Hts q Hq). destruct q; auto. }
    pose proof (step_abstract _ _ _ _ _ I Ho H1) as [S1 I1].
    pose proof (run_grows _ _ _ _ _ I1 Hos Hr H2 L) as G. apply grows_blen in G. cbn [view a_data] in G.
    assert (G1 : grows (view b) (view b1)).
    { eapply step_grows; eauto; [destruct o; auto; discriminate|lia]. }
    apply grows_blen in G1. cbn [view a_data] in G1.
    rewrite app_assoc. eapply IH; eauto; [lia|].
    eapply (a_step_fields false h st (view b) o (view b1) x); eauto; [apply (inv_fields b I)|cbn; lia].
Qed.

(** ** The entry of a slot *)
Lemma entry_absent obj slot l : forall init, ~ In slot (map fl_id l) -> entry obj slot l init = init.
Proof.
  unfold entry. induction l as [|f l IH]; intros init N; cbn [fold_left map In] in *; [reflexivity|].
  rewrite IH by tauto. destruct (fl_id f =? slot) eqn:Q; [exfalso; apply N; left; lia|reflexivity].
Qed.

Lemma entry_present obj l f : NoDup (map fl_id l) -> In f l ->
  forall init, entry obj (fl_id f) l init = obj - fl_off f.
Proof.
  induction l as [|g l IH]; intros N I init; [destruct I|]. cbn [map] in N. inversion N as [|? ? N1 N2]; subst.
  unfold entry. cbn [fold_left]. fold (entry obj (fl_id f) l). destruct I as [->|I].
  - rewrite Z.eqb_refl. apply (entry_absent obj (fl_id f) l). auto.
  - apply IH; auto.
Qed.

Lemma Forall2_ids st D l fs : Forall2 (fr st D) l fs -> map fl_id fs = map fst l.
Proof. intros F. induction F as [|x f l fs (E & _) F IH]; cbn; [auto|]. rewrite E, IH. auto. Qed.

Lemma Forall2_In_l {A B} (R : A -> B -> Prop) l m x : Forall2 R l m -> In x l -> exists y, In y m /\ R x y.
Proof. intros F. induction F; intros []; subst; [eauto using in_eq|]. destruct IHF as (z & I & Z); auto. exists z. split; [right|]; auto. Qed.

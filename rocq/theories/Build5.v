(** Vtables recorded by the builder, and reading tables in written data. *)
From Coq Require Import ZArith List Bool Lia Strings.Byte ZifyBool ZifyNat ZifyN.
From Verif Require Import Base Scalar Reader Builder Ops SpecBuilder Abstract BaseFacts ScalarFacts ReaderFacts Refine Refine2 Build1 Build2 Build3 Build4.
Import ListNotations.
Local Open Scope Z_scope.

(** A vtable: its first two bytes are its length. *)
Definition vt_shape (v : list byte) : Prop :=
  4 <= blen v < 2 ^ 16 /\ get_range v 0 2 = Some (wire TU16 (blen v)).
Definition vt_at (D : list byte) (r : Z) (v : list byte) : Prop := At D r v /\ vt_shape v.

Lemma vt_at_app q D r v : vt_at D r v -> vt_at (q ++ D) r v.
Proof. intros [A S]. split; [apply At_app|]; auto. Qed.

Lemma vt_shape_split v : vt_shape v -> exists t, v = wire TU16 (blen v) ++ t.
Proof.
  intros [L H]. destruct (get_range_split v 0 2 _ (Z.le_refl 0) H) as (p & t & E & Hp & _).
  apply blen_0_nil in Hp. subst p. exists t. exact E.
Qed.

Lemma vt_at_len h D r v : vt_at D r v -> blen D < 2 ^ 63 ->
  vt_num_bytes h D (blen D - r) = Val (blen v).
Proof.
  intros [A S] HD. destruct (vt_shape_split _ S) as (t & E). destruct S as [L _].
  unfold vt_num_bytes. rewrite (At_read h TU16 D r (wire TU16 (blen v))); [|..|auto].
  - f_equal. apply scalar_of_wire. cbn [valid_scalar signed ssize]. lia.
  - apply (At_sub D r [] _ t); [|rewrite blen_nil; lia]. cbn [app]. rewrite <- E. exact A.
  - apply blen_wire.
Qed.

Lemma vt_at_bytes h D r v : vt_at D r v -> blen D < 2 ^ 63 -> vt_as_bytes h D (blen D - r) = Val v.
Proof.
  intros V HD. unfold vt_as_bytes. rewrite (vt_at_len h D r v V HD). cbn [bind].
  destruct V as [A [L _]]. pose proof (At_range _ _ _ A).
  rewrite usize_arith_ok by lia. cbn [bind]. rewrite (At_get _ _ _ A). reflexivity.
Qed.

Lemma vt_at_fun D r v w : vt_at D r v -> vt_at D r w -> blen D < 2 ^ 63 -> v = w.
Proof.
  intros V W HD. pose proof (vt_at_bytes (Host false false) D r v V HD) as E.
  rewrite (vt_at_bytes _ D r w W HD) in E. congruence.
Qed.

Definition vt_known (D : list byte) (r : Z) : Prop := exists v, vt_at D r v.

Lemma find_dup_spec h D v l : vt_at D (blen D) v -> blen D < 2 ^ 63 -> Forall (vt_known D) l ->
  (find_dup h D 0 l = Val None /\ forall r, In r l -> ~ vt_at D r v) \/
  (exists n, find_dup h D 0 l = Val (Some n) /\ In n l /\ vt_at D n v).
Proof.
  intros V HD F. induction F as [|r l [w W] F IH]; cbn [find_dup]; [left; split; [auto|intros ? []]|].
  pose proof W as [A _]. apply At_range in A. pose proof (blen_nonneg w).
  rewrite usize_arith_ok by lia. cbn [bind]. unfold vt_eq.
  replace 0 with (blen D - blen D) by lia. rewrite !(vt_at_bytes h D _ _ V HD), (vt_at_bytes h D _ _ W HD). cbn [bind].
  destruct (bytes_eqb v w) eqn:E.
  - apply bytes_eqb_eq in E. subst w. right. exists r. split; [auto|]. split; [left; auto|auto].
  - rewrite Z.sub_diag. destruct IH as [[E2 N]|(n & E2 & I & W2)].
    + left. split; [auto|]. intros s [->|I] X; [|eapply N; eauto].
      pose proof (vt_at_fun _ _ _ _ W X HD). subst w. rewrite bytes_eqb_refl in E. discriminate.
    + right. exists n. split; [auto|]. split; [right; auto|auto].
Qed.

(** ** Slots *)
Definition field_fits (f : field_loc) : Prop := slot_fits (fl_id f) = true.
Lemma fits_even l : Forall field_fits l -> Forall (fun f => even_slot (fl_id f)) l.
Proof. apply Forall_impl. intros f. unfold field_fits, slot_fits, even_slot. lia. Qed.

Lemma fits_len l : Forall field_ok l -> Forall field_fits l -> 4 <= get_vtable_byte_len l <= 65534.
Proof.
  intros Hok F. split.
  - apply vtable_len_ge4. eapply Forall_impl; [|exact F]. intros f. unfold field_fits, slot_fits. lia.
  - destruct l as [|f l]; [cbn; lia|].
    destruct (vtable_len_attained (f :: l)) as (g & I & E); [discriminate|auto|].
    rewrite Forall_forall in F. specialize (F g I). unfold field_fits, slot_fits in F. lia.
Qed.

Lemma a_vtable_shape h size obj l vt : Forall field_ok l -> Forall field_fits l ->
  a_vtable h (get_vtable_byte_len l) size obj l = Val vt ->
  vt_shape vt /\ blen vt = get_vtable_byte_len l.
Proof.
  intros Hok F H. pose proof (fits_len l Hok F).
  apply a_vtable_header in H; auto; [|lia|eapply Forall_impl; [|exact F]; intros f; unfold field_fits, slot_fits; lia].
  destruct H as (H1 & _ & L & _). rewrite <- L in *. split; [|auto]. split; [lia|auto].
Qed.

(** ** The recorded vtables stand in the data and are pairwise different *)
Definition vts_distinct (D : list byte) (l : list Z) : Prop :=
  forall i j r s v, nth_error l i = Some r -> nth_error l j = Some s -> vt_at D r v -> vt_at D s v -> i = j.
Definition vts_inv (a : astate) : Prop :=
  Forall field_fits (a_fields a) /\
  (blen (a_data a) < 2 ^ 32 -> Forall (vt_known (a_data a)) (a_vts a) /\ vts_distinct (a_data a) (a_vts a)).

Lemma vts_frame q D l : blen (q ++ D) < 2 ^ 63 ->
  Forall (vt_known D) l /\ vts_distinct D l -> Forall (vt_known (q ++ D)) l /\ vts_distinct (q ++ D) l.
Proof.
  intros HD [F N]. split.
  - eapply Forall_impl; [|exact F]. intros r (v & V). exists v. apply vt_at_app. auto.
  - assert (B : forall r v, In r l -> vt_at (q ++ D) r v -> vt_at D r v).
    { intros r v I V. rewrite Forall_forall in F. destruct (F r I) as (w & W).
      pose proof (vt_at_fun _ _ _ _ V (vt_at_app q _ _ _ W) HD). subst w. auto. }
    intros i j r s v Hi Hj V W. eapply N; eauto; apply B; eauto using nth_error_In.
Qed.

(** ** Ending a table *)
Definition table_vt (a : astate) (vt : list byte) (dup : option Z) : Z :=
  match dup with Some n => n | None => blen vt + blen (a_data (pushed a marker)) end.

Definition table_at (D : list byte) (obj vr : Z) (v : list byte) : Prop :=
  At D obj (wire TI32 (vr - obj)) /\ vt_at D vr v.
Lemma table_at_app q D obj vr v : table_at D obj vr v -> table_at (q ++ D) obj vr v.
Proof. intros [A V]. split; [apply At_app|apply vt_at_app]; auto. Qed.

Lemma table_state_data a vt dup :
  blen vt + blen (a_data (pushed a marker)) < 2 ^ 32 -> 
  a_data (table_state a vt dup) =
  (match dup with Some _ => [] | None => vt end)
    ++ wire TI32 (table_vt a vt dup - blen (a_data (pushed a marker)))
    ++ zeros (gap (a_data a) 4 4) ++ a_data a.
Proof.
  intros L. unfold table_state, table_vt. cbv zeta. cbn [a_data].
  destruct dup; [reflexivity|]. rewrite blen_app, as_u32_small; [reflexivity|].
  pose proof (blen_nonneg vt). pose proof (blen_nonneg (a_data (pushed a marker))). lia.
Qed.

Lemma blen_marker a : blen (a_data (pushed a marker)) = 4 + (gap (a_data a) 4 4 + blen (a_data a)).
Proof.
  rewrite blen_pushed. unfold marker. cbn [push_size push_alignment ssize salign]. unfold salign. cbn [ssize]. lia.
Qed.

Lemma end_table_at lim h a tail a' o :
  Forall field_ok (a_fields a) -> Forall field_fits (a_fields a) ->
  Forall (vt_known (a_data a)) (a_vts a) -> vts_distinct (a_data a) (a_vts a) ->
  a_end_table lim h a tail = Val (a', o) -> blen (a_data a') < 2 ^ 32 ->
  exists size vt vr,
    o = blen (a_data (pushed a marker)) /\ u32_arith h (o - tail) = Val size /\
    debug_assert h (size <? 0x10000) = Val tt /\
    a_vtable h (get_vtable_byte_len (a_fields a)) size o (a_fields a) = Val vt /\
    table_at (a_data a') o vr vt /\ a_fields a' = [] /\ a_nested a' = false /\
    ((a_vts a' = a_vts a /\ In vr (a_vts a) /\ vt_at (a_data a) vr vt) \/
     (a_vts a' = a_vts a ++ [vr] /\ vr = blen (a_data a') /\
      forall r, In r (a_vts a) -> ~ vt_at (a_data a) r vt)).
Proof.
  intros Hok Hf Hk Hdist H Hl. unfold a_end_table in H. apply bind_Val in H as (u & Hn & H).
  apply bind_Val in H as ([a1 o1] & H1 & H). injection H as <- <-.
  pose proof (a_write_vtable_len _ _ _ _ _ _ Hok H1) as Hm. cbn [with_fields with_nested a_data] in Hl |- *.
  apply a_write_vtable_val in H1; [|auto|lia].
  destruct H1 as (size & vt & dup & Ho & _ & Hs & Hd & Hvt & Hdup & -> & Hb).
  pose proof (a_vtable_shape _ _ _ _ _ Hok Hf Hvt) as [Sh Lv].
  set (d1 := a_data (pushed a marker)) in *.
  assert (E1 : d1 = pbytes marker (gap (a_data a) 4 4 + blen (a_data a)) ++ zeros (gap (a_data a) 4 4) ++ a_data a).
  { unfold d1, pushed. cbv zeta. cbn [with_data a_data with_align]. rewrite blen_app, blen_zeros.
    pose proof (gap_range (a_data a) 4 4 pow8_4). change (push_size marker) with 4. change (push_alignment marker) with 4.
    rewrite Z.max_r by lia. reflexivity. }
  set (w := zeros (gap (a_data a) 4 4) ++ a_data a) in *.
  assert (Lw : blen d1 = 4 + blen w) by (rewrite E1, blen_app, blen_pbytes; reflexivity).
  (* everything recorded is known in vt ++ d1 *)
  assert (K : Forall (vt_known (vt ++ d1)) (rev (a_vts a)) /\ vts_distinct (vt ++ d1) (a_vts a)).
  { assert (X : vt ++ d1 = (vt ++ pbytes marker (gap (a_data a) 4 4 + blen (a_data a)) ++ zeros (gap (a_data a) 4 4)) ++ a_data a).
    { rewrite E1. unfold w. rewrite !app_assoc. reflexivity. }
    rewrite X. destruct (vts_frame (vt ++ pbytes marker (gap (a_data a) 4 4 + blen (a_data a)) ++ zeros (gap (a_data a) 4 4)) (a_data a) (a_vts a)) as [K1 K2].
    - rewrite <- X, blen_app. lia.
    - auto.
    - split; [|auto]. rewrite Forall_forall in *. intros r Hr. apply K1. apply in_rev. auto. }
  destruct K as [K1 K2].
  assert (Back : forall r v, In r (a_vts a) -> vt_at (vt ++ d1) r v -> vt_at (a_data a) r v).
  { intros r v I V. rewrite Forall_forall in Hk. destruct (Hk r I) as (x & X).
    assert (Y : vt_at (vt ++ d1) r x).
    { rewrite E1. unfold w. rewrite !app_assoc. apply vt_at_app. auto. }
    pose proof (vt_at_fun _ _ _ _ V Y). rewrite blen_app in H. rewrite H by lia. auto. }
  destruct (find_dup_spec h (vt ++ d1) vt (rev (a_vts a))) as [[E N]|(n & E & I & V)]; auto.
  { split; [apply At_here|auto]. }
  { rewrite blen_app. lia. }
  - rewrite Hdup in E. injection E as ->.
    assert (L32 : blen vt + blen d1 < 2 ^ 32).
    { unfold table_state in Hl. cbv zeta in Hl. cbn [a_data] in Hl. fold d1 w in Hl.
      rewrite !blen_app, blen_wire in Hl. cbn [ssize] in Hl. lia. }
    pose proof (table_state_data a vt None L32) as ED. fold d1 w in ED. cbn [table_vt] in ED. fold d1 in ED.
    assert (LD : blen (a_data (table_state a vt None)) = blen vt + blen d1).
    { rewrite ED, !blen_app, blen_wire. cbn [ssize]. lia. }
    exists size, vt, (blen vt + blen d1). repeat (split; [first [assumption|reflexivity]|]).
    split; [|split; [reflexivity|split; [reflexivity|]]].
    + subst o1. rewrite ED. split.
      * apply At_app. eapply At_here'; [reflexivity|]. rewrite blen_app, blen_wire. cbn [ssize]. lia.
      * split; [|auto]. eapply At_here'; [reflexivity|]. rewrite !blen_app, blen_wire. cbn [ssize]. lia.
    + right. split; [|split].
      * unfold table_state. cbn [with_fields with_nested a_vts]. fold d1. rewrite blen_app, as_u32_small; [reflexivity|].
        pose proof (blen_nonneg vt). pose proof (blen_nonneg d1). lia.
      * rewrite LD. reflexivity.
      * intros r I V. apply (N r); [apply -> in_rev; auto|]. rewrite E1. unfold w. rewrite !app_assoc.
        apply vt_at_app. auto.
  - rewrite Hdup in E. injection E as ->. apply in_rev in I.
    pose proof (Back n vt I V) as V'.
    exists size, vt, n. repeat (split; [first [assumption|reflexivity]|]).
    split; [|split; [reflexivity|split; [reflexivity|]]].
    + unfold table_state. cbv zeta. cbn [a_data app]. fold d1 w. subst o1. split.
      * eapply At_here'; [reflexivity|]. rewrite blen_app, blen_wire. cbn [ssize]. lia.
      * unfold w. rewrite app_assoc. apply vt_at_app. auto.
    + left. auto.
Qed.

(** When the calls of the builder panic: exactly on misuse. *)
From Coq Require Import ZArith List Bool Lia Strings.Byte ZifyBool ZifyNat ZifyN.
From Verif Require Import Base Scalar Reader Builder Ops SpecWire SpecReader SpecBuilder SpecUse Abstract BaseFacts ScalarFacts
  WireFacts ReaderFacts ReaderProofs ReaderProofs2 ReaderProofs7 Refine Refine2 Build1 Build2 Build3 Build4 Build5 Build6 Build7 Build8 Build9 Build10 Build11.
Import ListNotations.
Local Open Scope Z_scope.

(** ** Outcomes decided by a condition *)
Definition decides {X} (x : outcome X) (bad : Prop) : Prop :=
  (x = Panic /\ bad) \/ (exists v, x = Val v /\ ~ bad).

Lemma decides_iff {X} (x : outcome X) P Q : decides x P -> (P <-> Q) -> decides x Q.
Proof. intros [[E H]|(v & E & H)] I; [left|right; exists v]; tauto. Qed.
Lemma decides_val {X} (v : X) P : ~ P -> decides (Val v) P.
Proof. right. eauto. Qed.
Lemma decides_then {X Y} (x : outcome X) (f : X -> outcome Y) (P R : Prop) :
  decides x P -> (P -> R) -> (forall v, x = Val v -> ~ P -> decides (f v) R) -> decides (bind x f) R.
Proof.
  intros [[E H]|(v & E & H)] I K; rewrite E; cbn [bind]; [left; auto|]. exact (K v E H).
Qed.
Lemma decides_ret {X Y} (x : outcome X) (f : X -> Y) P : decides x P -> decides (let* v := x in Val (f v)) P.
Proof. intros [[-> H]|(v & -> & H)]; cbn [bind]; [left; auto|right; eauto]. Qed.
Lemma decides_num x P : decides x P -> decides (a_num x) P.
Proof. unfold a_num. intros [[-> H]|([a n] & -> & H)]; cbn [bind]; [left; auto|right; eauto]. Qed.
Lemma decides_unit x P : decides x P -> decides (a_unit x) P.
Proof. unfold a_unit. intros [[-> H]|(a & -> & H)]; cbn [bind]; [left; auto|right; eauto]. Qed.

Section Decide.
Context (h : host).

Lemma debug_decides b : decides (debug_assert h b) (debug h = true /\ b = false).
Proof.
  unfold debug_assert. destruct (debug h), b; cbn; [right|left|right|right]; eauto; try (exists tt; split; [reflexivity|]; intros [? ?]; discriminate).
Qed.

Lemma usize_decides n : 0 <= n -> decides (usize_arith h n) (debug h = true /\ 2 ^ 64 <= n).
Proof.
  intros H. unfold usize_arith, unsigned_arith. destruct (Z.lt_ge_cases n (2 ^ 64)).
  - replace (_ && _) with true by lia. apply decides_val. lia.
  - replace (_ && _) with false by lia. destruct (debug h); [left; auto|]. apply decides_val. intros [? _]. discriminate.
Qed.

Lemma room_false d want : blen d + want < 2 ^ 63 -> room false d want = Val tt.
Proof. intros H. unfold room, assert_always. replace (_ <? _) with true by lia. reflexivity. Qed.

Lemma pow8_le8 al : pow8 al -> al <= 8. Proof. unfold pow8. lia. Qed.

Lemma a_pad_decides a len al : pow8 al -> 0 <= len -> blen (a_data a) <= 2 ^ 62 ->
  decides (a_pad false h a len al) (debug h = true /\ 2 ^ 64 <= blen (a_data a) + len).
Proof.
  intros P Hl L. unfold a_pad. cbn [with_align a_data]. pose proof (blen_nonneg (a_data a)).
  eapply decides_then; [apply usize_decides; lia|auto|].
  intros n E N. apply usize_arith_mod in E. subst n. rewrite padding_pow8 by auto. unfold a_space. cbn [with_align a_data].
  pose proof (gap_range (a_data a) len al P) as G. unfold gap in G. pose proof (pow8_le8 _ P).
  rewrite room_false by lia. apply decides_val. exact N.
Qed.

Lemma up4_gap d n : n = blen d -> up4 n = gap d 4 4 + n.
Proof. intros ->. unfold up4, gap. Z.div_mod_to_equations. lia. Qed.
Lemma up4_range n : n <= up4 n < n + 4.
Proof. unfold up4. Z.div_mod_to_equations. lia. Qed.
Lemma up4_multiple n : n mod 4 = 0 -> up4 n = n.
Proof. unfold up4. Z.div_mod_to_equations. lia. Qed.

Lemma push_into_decides x d : blen d <= 2 ^ 62 -> pval_ok x = true ->
  decides (push_into h x (zeros (push_size x)) d)
    (debug h = true /\ match x with POffset o => blen d + 4 < o | _ => False end).
Proof.
  intros L Hx. pose proof (blen_nonneg d). destruct (debug h) eqn:Hd.
  2:{ destruct (push_into_total h x d Hd) as (w & ->). apply decides_val. intros [? _]. discriminate. }
  destruct x as [t v|o]; cbn [push_into push_size].
  - rewrite emplace_scalar_exact; [apply decides_val; tauto|]. rewrite blen_zeros. pose proof (ssize_pos t). lia.
  - cbn [pval_ok] in Hx. unfold SIZE_UOFFSET. destruct (Z.lt_ge_cases (blen d + 4) o).
    + left. unfold usize_arith, unsigned_arith. replace (_ && _) with false by lia. rewrite Hd. auto.
    + rewrite usize_arith_ok by lia. cbn [bind]. rewrite (emplace_scalar_exact h TU32) by reflexivity. apply decides_val. lia.
Qed.

Lemma a_push_decides a x : pval_ok x = true -> blen (a_data a) <= 2 ^ 61 ->
  decides (a_push false h a x) (debug h = true /\ beyond_end (blen (a_data a)) x).
Proof.
  intros Hx L. unfold a_push. pose proof (blen_nonneg (a_data a)). pose proof (push_size_le8 x).
  pose proof (gap_range (a_data a) (push_size x) _ (push_alignment_pow8 x)) as G. pose proof (pow8_le8 _ (push_alignment_pow8 x)).
  eapply decides_then; [apply a_pad_decides; [apply push_alignment_pow8|lia|lia]|lia|].
  intros a1 E _. apply a_pad_val in E as [E _]; [|apply push_alignment_pow8].
  assert (B : blen (a_data a1) = gap (a_data a) (push_size x) (push_alignment x) + blen (a_data a)).
  { subst a1. cbn [with_data a_data]. rewrite blen_app, blen_zeros. lia. }
  rewrite room_false by lia. cbn [bind]. eapply decides_ret, decides_iff; [apply push_into_decides; [lia|exact Hx]|].
  destruct x as [t v|o]; cbn [beyond_end]; [tauto|]. rewrite B, (up4_gap (a_data a)) by reflexivity. reflexivity.
Qed.

Lemma a_push_scalar a t v : valid_scalar t v = true -> blen (a_data a) <= 2 ^ 61 ->
  a_push false h a (PScalar t v) = Val (pushed a (PScalar t v), as_u32 (blen (a_data (pushed a (PScalar t v))))).
Proof.
  intros Hv L. destruct (a_push_decides a (PScalar t v) Hv L) as [[_ [_ []]]|([a' o] & E & _)].
  rewrite E. apply a_push_val in E as (-> & -> & _). reflexivity.
Qed.

Lemma as_u32_valid n : valid_scalar TU32 (as_u32 n) = true.
Proof. unfold as_u32. cbn [valid_scalar signed ssize]. pose proof (Z.mod_pos_bound n (2 ^ 32)). lia. Qed.

Lemma a_push_slot_always_decides a s x : pval_ok x = true -> blen (a_data a) <= 2 ^ 61 ->
  decides (a_push_slot_always false h a s x)
    (debug h = true /\ (a_nested a = false \/ beyond_end (blen (a_data a)) x)).
Proof.
  intros Hx L. unfold a_push_slot_always. eapply decides_then; [apply debug_decides|tauto|]. intros _ _ N.
  destruct (a_push_decides a x Hx L) as [[E B]|([a1 o] & E & B)]; rewrite E; cbn [bind]; [left; tauto|right; eexists; split; [reflexivity|tauto]].
Qed.

Lemma a_push_slot_decides a s x d : pval_ok x = true -> blen (a_data a) <= 2 ^ 61 ->
  decides (a_push_slot false h a s x d)
    (debug h = true /\ (a_nested a = false \/ (pval_eq x d = false /\ beyond_end (blen (a_data a)) x))).
Proof.
  intros Hx L. unfold a_push_slot. eapply decides_then; [apply debug_decides|tauto|]. intros _ _ N.
  destruct (pval_eq x d).
  - apply decides_val. intros [Hd [H|[H _]]]; [tauto|discriminate].
  - eapply decides_iff; [apply a_push_slot_always_decides; auto|tauto].
Qed.

Lemma a_start_table_decides a : decides (a_start_table h a) (debug h = true /\ a_nested a = true).
Proof.
  unfold a_start_table. eapply decides_then; [apply debug_decides|intros [? H]; rewrite negb_false_iff in H; auto|].
  intros _ _ N. apply decides_val. rewrite negb_false_iff in N. exact N.
Qed.

Lemma a_start_vector_decides a t n : 0 <= n -> blen (a_data a) <= 2 ^ 61 ->
  decides (a_start_vector false h a (pty_size t) (pty_align t) n)
    (debug h = true /\ (a_nested a = true \/ 2 ^ 64 <= blen (a_data a) + n * natural t)).
Proof.
  intros Hn L. unfold a_start_vector. pose proof (blen_nonneg (a_data a)).
  assert (S : natural t = pty_size t) by (destruct t; reflexivity).
  assert (0 <= n * pty_size t) by (destruct t; cbn [pty_size]; [pose proof (ssize_pos t)|]; nia).
  eapply decides_then; [apply debug_decides|intros [? K]; rewrite negb_false_iff in K; tauto|].
  intros _ _ N1. rewrite negb_false_iff in N1.
  eapply decides_then; [apply usize_decides; lia|rewrite S; intros [? ?]; split; [auto|right; lia]|].
  intros m Em N2. apply usize_arith_mod in Em.
  destruct (debug h) eqn:Hd.
  - assert (n * pty_size t < 2 ^ 64) by (destruct (Z.lt_ge_cases (n * pty_size t) (2 ^ 64)); [auto|exfalso; auto]).
    rewrite Z.mod_small in Em by lia. subst m.
    eapply decides_iff; [apply a_pad_decides; [apply max4_pow8, pty_align_pow8|lia|cbn; lia]|]. cbn [with_nested a_data].
    rewrite S, Hd. tauto.
  - eapply decides_iff; [apply a_pad_decides; [apply max4_pow8, pty_align_pow8|pose proof (Z.mod_pos_bound (n * pty_size t) (2 ^ 64)); lia|cbn; lia]|].
    rewrite Hd. split; intros [? _]; discriminate.
Qed.

Lemma a_end_vector_decides a n : blen (a_data a) <= 2 ^ 61 ->
  decides (a_end_vector false h a n) (debug h = true /\ a_nested a = false).
Proof.
  intros L. unfold a_end_vector. eapply decides_then; [apply debug_decides|auto|]. intros _ _ N.
  rewrite a_push_scalar; [apply decides_val; exact N|apply as_u32_valid|exact L].
Qed.

Lemma a_bytes_false a x : blen (a_data a) + blen x < 2 ^ 63 -> a_bytes false a x = Val (with_data a (x ++ a_data a)).
Proof. intros L. unfold a_bytes. rewrite room_false by lia. reflexivity. Qed.

Lemma a_pad_false a len al : pow8 al -> 0 <= len -> blen (a_data a) + len <= 2 ^ 62 ->
  a_pad false h a len al = Val (with_data (with_align a (Z.max (a_align a) al)) (zeros (gap (a_data a) len al) ++ a_data a)).
Proof.
  intros P Hl L. pose proof (blen_nonneg (a_data a)).
  destruct (a_pad_decides a len al P Hl ltac:(lia)) as [[_ [_ B]]|(a' & E & _)]; [lia|].
  rewrite E. apply a_pad_val in E as [-> _]; auto.
Qed.
Lemma blen_pad d len al : pow8 al -> blen (zeros (gap d len al) ++ d) <= blen d + 8.
Proof. intros P. pose proof (gap_range d len al P). pose proof (pow8_le8 _ P). rewrite blen_app, blen_zeros. lia. Qed.

Lemma blen_pushed16 a x : blen (a_data (pushed a x)) <= blen (a_data a) + 16.
Proof. apply blen_pushed_le. Qed.

Lemma a_create_byte_string_decides a s : blen (a_data a) + blen s <= 2 ^ 60 ->
  decides (a_create_byte_string false h a s) (debug h = true /\ a_nested a = true).
Proof.
  intros L. pose proof (blen_nonneg (a_data a)). pose proof (blen_nonneg s). unfold a_create_byte_string.
  eapply decides_then; [apply debug_decides|intros [? K]; rewrite negb_false_iff in K; auto|].
  intros _ _ N. rewrite negb_false_iff in N. rewrite usize_arith_ok by lia. cbn [bind].
  pose proof (blen_pad (a_data a) (blen s + 1) 4 pow8_4) as P.
  rewrite a_pad_false by (unfold SIZE_UOFFSET; try apply pow8_4; lia). cbn [bind].
  set (a1 := with_data _ _). change (zeros _ ++ a_data a) with (a_data a1) in P.
  rewrite a_push_scalar; [|reflexivity|lia]. cbn [bind]. pose proof (blen_pushed16 a1 (PScalar TU8 0)).
  rewrite a_bytes_false by lia. cbn [bind].
  rewrite a_push_scalar; [|apply as_u32_valid|cbn [with_data a_data]; rewrite blen_app; lia]. cbn [bind]. apply decides_val. exact N.
Qed.

Lemma a_create_string_decides a s : blen (a_data a) + blen s <= 2 ^ 60 ->
  decides (a_create_string false h a s) (debug h = true /\ a_nested a = true).
Proof.
  intros L. unfold a_create_string.
  eapply decides_then; [apply debug_decides|intros [? K]; rewrite negb_false_iff in K; auto|].
  intros _ _ N. apply a_create_byte_string_decides. exact L.
Qed.

Lemma a_create_vector_direct_decides a t items : blen (a_data a) + blen items * ssize t <= 2 ^ 60 ->
  decides (a_create_vector_direct false h a t items) (debug h = true /\ a_nested a = true).
Proof.
  intros L. pose proof (blen_nonneg (a_data a)). pose proof (blen_nonneg items). pose proof (ssize_pos t).
  assert (0 <= blen items * ssize t) by nia. unfold a_create_vector_direct.
  eapply decides_then; [apply debug_decides|intros [? K]; rewrite negb_false_iff in K; auto|].
  intros _ _ N. rewrite negb_false_iff in N. rewrite usize_arith_ok by lia. cbn [bind].
  pose proof (blen_pad (a_data a) (blen items * ssize t) (Z.max (salign t) 4) (max4_pow8 _ (salign_pow8 t))) as P.
  rewrite a_pad_false by (try apply max4_pow8, salign_pow8; lia). cbn [bind]. unfold SIZE_UOFFSET.
  set (a1 := with_data _ _). change (zeros _ ++ a_data a) with (a_data a1) in P.
  rewrite a_bytes_false by (rewrite blen_slice_memory; lia). cbn [bind].
  rewrite a_push_scalar; [|apply as_u32_valid|cbn [with_data a_data]; rewrite blen_app, blen_slice_memory; lia].
  cbn [bind]. apply decides_val. exact N.
Qed.

(** ** Vectors *)
Lemma push_all_decides t l : Forall (of_type t) l -> forall a, forallb pval_ok l = true ->
  blen (a_data a) mod pty_align t = 0 -> blen (a_data a) + 16 * blen l <= 2 ^ 61 ->
  decides (a_push_all false h a l)
    (debug h = true /\ exists k o, nth_error l k = Some (POffset o) /\ blen (a_data a) + 4 * Z.of_nat k + 4 < o).
Proof.
  induction 1 as [|x l Hx Hl IH]; intros a Hok Hm L; cbn [a_push_all].
  { apply decides_val. intros (_ & k & o & E & _). destruct k; discriminate. }
  cbn [forallb] in Hok. apply andb_true_iff in Hok as [Ho Hos]. rewrite blen_cons in L. pose proof (blen_nonneg l).
  assert (U : forall o, x = POffset o -> up4 (blen (a_data a)) = blen (a_data a)).
  { intros o ->. unfold of_type in Hx. cbn in Hx. subst t. cbn [pty_align] in Hm. apply up4_multiple. exact Hm. }
  eapply decides_then; [apply a_push_decides; [exact Ho|lia]| |].
  - intros [Hd B]. split; [exact Hd|]. destruct x as [|o]; [destruct B|]. exists 0%nat, o. split; [reflexivity|].
    cbn [beyond_end] in B. rewrite (U o eq_refl) in B. lia.
  - intros [a1 o1] E N. apply a_push_val in E as (-> & _ & _).
    assert (G : gap (a_data a) (push_size x) (push_alignment x) = 0).
    { destruct (of_type_size _ _ Hx) as [Hs Ha]. apply gap_0; [apply push_alignment_pow8|]. rewrite Hs, Ha, pty_size_align.
      rewrite Zplus_mod, Hm, Z.mod_same; [reflexivity|]. pose proof (pty_align_pow8 t). unfold pow8 in *. lia. }
    assert (B : blen (a_data (pushed a x)) = blen (a_data a) + pty_size t).
    { rewrite blen_pushed, G. destruct (of_type_size _ _ Hx) as [Hs _]. lia. }
    eapply decides_iff; [apply IH; [exact Hos| |]|].
    + destruct (of_type_size _ _ Hx) as [_ Ha]. rewrite <- Ha. apply pushed_aligned.
    + rewrite B. assert (pty_size t <= 8) by (destruct t; cbn; [apply ssize_le8|lia]). lia.
    + split.
      * intros (Hd & k & o & Ek & Bk). split; [exact Hd|]. exists (S k), o. split; [exact Ek|].
        assert (pty_size t = 4).
        { apply nth_error_In in Ek. rewrite Forall_forall in Hl. apply Hl in Ek. unfold of_type in Ek. cbn in Ek. subst t. reflexivity. }
        lia.
      * intros (Hd & k & o & Ek & Bk). split; [exact Hd|]. destruct k as [|k].
        -- cbn in Ek. injection Ek as ->. exfalso. apply N. split; [exact Hd|]. cbn [beyond_end]. rewrite (U o eq_refl). lia.
        -- cbn in Ek. exists k, o. split; [exact Ek|].
           assert (pty_size t = 4).
           { apply nth_error_In in Ek. rewrite Forall_forall in Hl. apply Hl in Ek. unfold of_type in Ek. cbn in Ek. subst t. reflexivity. }
           lia.
Qed.

Lemma nth_error_rev {A} (l : list A) k x : nth_error (rev l) k = Some x <->
  exists i, nth_error l i = Some x /\ (i + k + 1 = length l)%nat.
Proof.
  split.
  - intros H. assert (k < length l)%nat by (rewrite <- rev_length; apply nth_error_Some; congruence).
    exists (length l - 1 - k)%nat. split; [|lia].
    rewrite (nth_error_nth' l x) by lia. rewrite (nth_error_nth' (rev l) x) in H by (rewrite rev_length; lia).
    injection H as H. rewrite rev_nth in H by lia. f_equal. rewrite <- H at 2. f_equal. lia.
  - intros (i & H & E). assert (i < length l)%nat by lia.
    rewrite (nth_error_nth' (rev l) x) by (rewrite rev_length; lia). f_equal. rewrite rev_nth by lia.
    apply nth_error_nth with (d := x) in H. rewrite <- H at 2. f_equal. lia.
Qed.

Lemma a_create_vector_decides t a items : forallb pval_ok items = true -> Forall (of_type t) items ->
  blen (a_data a) + 16 * blen items <= 2 ^ 60 ->
  decides (a_create_vector false h a (pty_size t) (pty_align t) items)
    (debug h = true /\ exists i o, nth_error items i = Some (POffset o) /\
       up4 (blen (a_data a)) + 4 * (blen items - Z.of_nat i) < o).
Proof.
  intros Hok Ht L. pose proof (blen_nonneg (a_data a)). pose proof (blen_nonneg items) as Bi. unfold a_create_vector.
  assert (0 < pty_size t <= 8) as S by (destruct t; cbn; [pose proof (ssize_pos t); pose proof (ssize_le8 t)|]; lia).
  assert (0 <= blen items * pty_size t <= blen items * 8) as M by (clear - Bi S; nia).
  rewrite usize_arith_ok by lia. cbn [bind].
  destruct (max4_ge _ (pty_align_pow8 t)) as (Hal1 & Hal2 & Hal3). unfold SIZE_UOFFSET.
  pose proof (blen_pad (a_data a) (blen items * pty_size t) _ Hal3) as P.
  rewrite a_pad_false by (auto; lia). cbn [bind].
  destruct (vector_pad t (blen items) (a_data a)) as [V1 V2].
  set (a1 := with_data _ _). change (zeros _ ++ a_data a) with (a_data a1) in P, V1, V2.
  assert (Hr : forallb pval_ok (rev items) = true).
  { rewrite forallb_forall in *. intros x I. apply Hok. apply in_rev. exact I. }
  assert (E1 : forall o, In (POffset o) items -> blen (a_data a1) = up4 (blen (a_data a))).
  { intros o I. rewrite Forall_forall in Ht. specialize (Ht _ I). unfold of_type in Ht. cbn in Ht. subst t.
    rewrite (up4_gap (a_data a)) by reflexivity. unfold a1. cbn [with_data a_data].
    rewrite blen_app, blen_zeros. cbn [pty_size pty_align]. change (Z.max 4 4) with 4.
    unfold gap. Z.div_mod_to_equations. lia. }
  eapply decides_then; [apply (push_all_decides t); [apply Forall_rev; exact Ht|exact Hr|exact V1|rewrite blen_rev; lia]| |].
  - intros (Hd & k & o & Ek & Bk). split; [exact Hd|]. apply nth_error_rev in Ek as (i & Ei & Ek). exists i, o. split; [exact Ei|].
    rewrite <- (E1 o) by (eapply nth_error_In; eauto). assert (blen items = Z.of_nat (length items)) by reflexivity. lia.
  - intros a2 E2 N. apply a_push_all_val in E2.
    assert (B2 : blen (a_data a2) <= blen (a_data a1) + 16 * blen items).
    { enough (Q : forall l c, blen (a_data (fold_left pushed l c)) <= blen (a_data c) + 16 * blen l).
      { specialize (Q (rev items) a1). rewrite blen_rev in Q. subst a2. lia. }
      clear. induction l as [|x l IH]; intros c; cbn [fold_left]; [change (blen (@nil pval)) with 0; lia|].
      rewrite blen_cons. specialize (IH (pushed c x)). pose proof (blen_pushed_le c x). lia. }
    rewrite a_push_scalar; [|apply as_u32_valid|lia]. apply decides_val. intros (Hd & i & o & Ei & Bo).
    apply N. split; [exact Hd|]. exists (length items - 1 - i)%nat, o.
    assert (i < length items)%nat by (apply nth_error_Some; congruence). split.
    + apply nth_error_rev. exists i. split; [exact Ei|lia].
    + rewrite (E1 o) by (eapply nth_error_In; eauto). assert (blen items = Z.of_nat (length items)) by reflexivity. lia.
Qed.

Definition strings_bytes (l : list (list byte)) : Z := fold_right (fun s n => blen s + 20 + n) 0 l.
Lemma strings_bytes_nonneg l : 20 * blen l <= strings_bytes l.
Proof. induction l as [|s l IH]; cbn [strings_bytes fold_right]; [change (blen (@nil (list byte))) with 0; lia|]. rewrite blen_cons. fold (strings_bytes l). pose proof (blen_nonneg s). lia. Qed.

Lemma strings_bytes_app l m : strings_bytes (l ++ m) = strings_bytes l + strings_bytes m.
Proof.
  induction l as [|s l IH]; [reflexivity|]. change ((s :: l) ++ m) with (s :: (l ++ m)).
  change (strings_bytes (s :: (l ++ m))) with (blen s + 20 + strings_bytes (l ++ m)).
  change (strings_bytes (s :: l)) with (blen s + 20 + strings_bytes l). lia.
Qed.

Lemma strings_rev_false l : forall a acc, (debug h = true -> a_nested a = false) ->
  blen (a_data a) + strings_bytes l < 2 ^ 32 -> Forall (fun o => 0 <= o <= blen (a_data a)) acc ->
  exists a' r, a_create_strings_rev false h a l acc = Val (a', r) /\ Forall (fun o => 0 <= o <= blen (a_data a')) r /\
    blen (a_data a') + 4 * blen l <= blen (a_data a) + strings_bytes l /\ length r = (length acc + length l)%nat.
Proof.
  induction l as [|s l IH]; intros a acc Hn L F; cbn [a_create_strings_rev].
  { exists a, acc. split; [reflexivity|]. split; [exact F|]. change (blen (@nil (list byte))) with 0. cbn [strings_bytes fold_right length]. split; lia. }
  cbn [strings_bytes fold_right] in L. fold (strings_bytes l) in L.
  pose proof (strings_bytes_nonneg l). pose proof (blen_nonneg l). pose proof (blen_nonneg s). pose proof (blen_nonneg (a_data a)).
  destruct (a_create_string_decides a s ltac:(lia)) as [[_ [Hd B]]|([a1 o1] & E & _)]; [rewrite (Hn Hd) in B; discriminate|].
  rewrite E. cbn [bind]. apply a_create_string_val in E. apply a_create_byte_string_val in E as (Ea & Eo & _).
  pose proof (blen_pad (a_data a) (blen s + 1) 4 pow8_4) as P.
  assert (B1 : blen (a_data a) <= blen (a_data a1) <= blen (a_data a) + blen s + 16).
  { subst a1. cbn [with_data a_data]. rewrite blen_app, blen_string_bytes.
    pose proof (blen_app_le (zeros (gap (a_data a) (blen s + 1) 4)) (a_data a)). lia. }
  assert (N1 : a_nested a1 = a_nested a) by (subst a1; reflexivity).
  rewrite as_u32_small in Eo by lia.
  destruct (IH a1 (o1 :: acc)) as (a' & r & E & F' & L' & Ln).
  - rewrite N1. exact Hn.
  - lia.
  - constructor; [lia|]. eapply Forall_impl; [|exact F]. intros o Ho. cbn beta in *. lia.
  - exists a', r. split; [exact E|]. split; [exact F'|]. cbn [strings_bytes fold_right length] in *. fold (strings_bytes l). rewrite blen_cons. split; lia.
Qed.

Lemma a_create_vector_of_strings_decides a xs : blen (a_data a) + strings_bytes xs < 2 ^ 32 ->
  decides (a_create_vector_of_strings false h a xs) (debug h = true /\ a_nested a = true).
Proof.
  intros L. unfold a_create_vector_of_strings.
  eapply decides_then; [apply debug_decides|intros [? K]; rewrite negb_false_iff in K; auto|].
  intros _ _ N. rewrite negb_false_iff in N.
  assert (SB : strings_bytes (rev xs) = strings_bytes xs).
  { clear. induction xs as [|s xs IH]; [reflexivity|]. cbn [rev]. rewrite strings_bytes_app, IH. cbn [strings_bytes fold_right]. fold (strings_bytes xs). lia. }
  pose proof (blen_nonneg (a_data a)).
  destruct (strings_rev_false (rev xs) a []) as (a' & r & E & F & L' & Ln).
  - intros Hd. destruct (a_nested a); [exfalso; auto|reflexivity].
  - rewrite SB. exact L.
  - constructor.
  - rewrite E. cbn [bind]. rewrite SB in *. rewrite rev_length in Ln. cbn [length Nat.add] in Ln.
    pose proof (strings_bytes_nonneg xs). pose proof (blen_nonneg xs).
    assert (blen (rev xs) = blen xs) by (unfold blen; rewrite rev_length; reflexivity).
    assert (Br : blen (map POffset r) = blen xs) by (unfold blen; rewrite map_length; lia).
    eapply decides_iff; [apply (a_create_vector_decides PTOffset)|].
    + apply forallb_forall. intros x Ix. apply in_map_iff in Ix as (o & <- & Io). rewrite Forall_forall in F. specialize (F o Io).
      cbn [pval_ok]. lia.
    + apply Forall_forall. intros x Ix. apply in_map_iff in Ix as (o & <- & _). reflexivity.
    + rewrite Br. lia.
    + split; [|tauto]. intros (_ & i & o & Ei & Bo). exfalso.
      assert (i < length (map POffset r))%nat by (apply nth_error_Some; congruence).
      apply nth_error_In in Ei. apply in_map_iff in Ei as (o' & Eo & Io). injection Eo as ->. rewrite Forall_forall in F. specialize (F o Io).
      pose proof (up4_range (blen (a_data a'))). cbn beta in F.
      assert (blen (map POffset r) = Z.of_nat (length (map POffset r))) by reflexivity. lia.
Qed.
End Decide.

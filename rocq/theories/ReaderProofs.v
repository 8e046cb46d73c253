(** Proofs about scalars, strings, vtables, tables and vectors on arbitrary
    bytes (properties C01-C10). *)
From Coq Require Import ZArith List Bool Lia Strings.Byte ZifyBool ZifyNat ZifyN.
From Verif Require Import Base Scalar Utf8 Reader Client BaseFacts ScalarFacts SpecWire WireFacts ReaderFacts.
Import ListNotations.
Local Open Scope Z_scope.

Lemma snat_pos t : (0 < snat t)%nat.
Proof. destruct t; cbn; lia. Qed.

Lemma get_range_le_at buf loc t x :
  0 <= loc -> get_range buf loc (loc + ssize t) = Some x ->
  le_at buf loc (snat t) (scalar_of t x mod 2 ^ (8 * ssize t)).
Proof.
  intros Hl Hx. apply le_at_decode; [apply snat_pos|]. split; [auto|].
  rewrite snat_size. exists x. split; [auto|].
  destruct (get_range_blen _ _ _ _ Hl Hx) as [Hbx _].
  pose proof (le_decode_range x) as R. rewrite Hbx in R.
  replace (loc + ssize t - loc) with (ssize t) in R by lia.
  unfold scalar_of, of_bits. destruct (signed t && _).
  - replace (le_decode x - 2 ^ (8 * ssize t)) with (le_decode x + (-1) * 2 ^ (8 * ssize t)) by lia.
    rewrite Z.mod_add by lia. rewrite Z.mod_small; auto.
  - rewrite Z.mod_small; auto.
Qed.

(** ** C01 *)
Lemma scalar_roundtrip hw hr t s v :
  valid_scalar t v = true -> ssize t <= blen s ->
  exists s', emplace_scalar hw t s v = Val s' /\
    le_at s' 0 (snat t) (v mod 2 ^ (8 * ssize t)) /\
    read_scalar hr t s' = Val v /\ follow hr (FScalar t) s' 0 = Val (VScalar v).
Proof.
  intros Hv Hs. pose proof (ssize_pos t).
  destruct (split_at s (ssize t)) as (d & r & -> & Hd & Hr); [lia|].
  exists (wire t v ++ r). split; [apply emplace_scalar_ok; auto|].
  pose proof (blen_wire t v) as Hw.
  assert (Hg : get_range (wire t v ++ r) 0 (0 + ssize t) = Some (wire t v))
    by (apply get_range_head; lia).
  assert (Hread : forall t', ssize t' = ssize t -> read_scalar_at hr t' (wire t v ++ r) 0 = Val (scalar_of t' (wire t v))).
  { intros t' Et. unfold read_scalar_at. rewrite usize_arith_ok by (pose proof (ssize_le8 t); lia).
    cbn [bind]. rewrite Et, Hg. cbn [ok_or bind]. apply read_scalar_exact. lia. }
  split; [|split].
  - pose proof (get_range_le_at _ 0 t _ ltac:(lia) Hg) as L.
    rewrite scalar_of_wire in L by auto. exact L.
  - rewrite read_scalar_ok, scalar_of_wire; auto.
  - assert (follow hr (FScalar t) (wire t v ++ r) 0 =
            if match t with TBool => true | _ => false end
            then let* v := read_scalar_at hr TU8 (wire t v ++ r) 0 in Val (VScalar (if v =? 0 then 0 else 1))
            else let* v := read_scalar_at hr t (wire t v ++ r) 0 in Val (VScalar v))
      as -> by (destruct t; reflexivity).
    destruct t; try (rewrite Hread by reflexivity; cbn [bind]; rewrite scalar_of_wire by auto; reflexivity).
    rewrite Hread by reflexivity. cbn [bind].
    unfold valid_scalar in Hv.
    assert (v = 0 \/ v = 1) as [-> | ->] by lia; reflexivity.
Qed.

(** ** C02 *)
Lemma read_in_bounds h t buf loc :
  0 <= loc -> loc + ssize t <= blen buf -> blen buf < 2 ^ 63 ->
  exists v, read_scalar_at h t buf loc = Val v /\
    le_at buf loc (snat t) (v mod 2 ^ (8 * ssize t)) /\
    (t <> TBool -> valid_scalar t v = true).
Proof.
  intros Hl Hb Hm. pose proof (ssize_pos t).
  destruct (get_range buf loc (loc + ssize t)) as [x|] eqn:E.
  2:{ apply get_range_None_iff in E. lia. }
  exists (scalar_of t x). split; [apply read_scalar_at_ok; auto; lia|].
  destruct (get_range_blen _ _ _ _ Hl E) as [Hbx _].
  split; [apply get_range_le_at; auto|].
  intros Ht. apply scalar_of_valid; auto. lia.
Qed.

Lemma read_out_of_bounds h t buf loc :
  0 <= loc -> loc + ssize t < 2 ^ 64 -> blen buf < loc + ssize t -> blen buf < 2 ^ 63 ->
  read_scalar_at h t buf loc = Err OutOfBounds.
Proof.
  intros Hl Hu Hb Hm. pose proof (ssize_pos t).
  rewrite read_scalar_at_spec by lia.
  replace (get_range buf loc (loc + ssize t)) with (@None (list byte)).
  - replace (2 ^ 64 <=? loc + ssize t) with false by lia. rewrite andb_false_r. reflexivity.
  - symmetry. apply get_range_None_iff. lia.
Qed.

Lemma read_release_total h t buf loc :
  debug h = false -> 0 <= loc < 2 ^ 64 -> blen buf < loc + ssize t -> blen buf < 2 ^ 63 ->
  read_scalar_at h t buf loc = Err OutOfBounds.
Proof.
  intros Hh Hl Hb Hm. pose proof (ssize_pos t).
  rewrite read_scalar_at_spec by lia.
  replace (get_range buf loc (loc + ssize t)) with (@None (list byte)).
  - rewrite Hh. reflexivity.
  - symmetry. apply get_range_None_iff. lia.
Qed.

Lemma emplace_frame h t s v :
  ssize t <= blen s ->
  exists s', emplace_scalar h t s v = Val s' /\ length s' = length s /\
    forall i, (snat t <= i)%nat -> nth_error s' i = nth_error s i.
Proof.
  intros Hs. pose proof (ssize_pos t).
  destruct (split_at s (ssize t)) as (d & r & -> & Hd & Hr); [lia|].
  exists (wire t v ++ r). split; [apply emplace_scalar_ok; auto|].
  pose proof (blen_wire t v) as Hw. pose proof (snat_size t) as Hn.
  unfold blen in *. split.
  - rewrite !app_length. lia.
  - intros i Hi. rewrite !nth_error_app2 by lia. f_equal. lia.
Qed.

Lemma read_panics_iff h t buf loc :
  0 <= loc < 2 ^ 64 -> blen buf < 2 ^ 63 ->
  (read_scalar_at h t buf loc = Panic <-> debug h = true /\ 2 ^ 64 <= loc + ssize t).
Proof.
  intros Hl Hm. rewrite read_scalar_at_spec by auto.
  destruct (get_range buf loc (loc + ssize t)) as [x|] eqn:E.
  - apply get_range_blen in E; [|lia]. split; [discriminate|lia].
  - destruct (debug h); cbn [andb].
    + destruct (2 ^ 64 <=? loc + ssize t) eqn:E2; split; try discriminate; auto; try lia.
    + split; [discriminate|]. intros [H _]. discriminate.
Qed.

Lemma write_panics_iff h t s v : emplace_scalar h t s v = Panic <-> blen s < ssize t.
Proof.
  split; [|apply emplace_scalar_short]. intros H.
  destruct (Z.lt_ge_cases (blen s) (ssize t)) as [|Hs]; [auto|].
  destruct (emplace_frame h t s v ltac:(lia)) as (s' & E & _). congruence.
Qed.

(** ** C05 *)
Definition u32_le_at buf loc n := le_at buf loc 4 n.

Lemma u32_get_range buf loc n :
  le_at buf loc 4 n -> exists x, get_range buf loc (loc + 4) = Some x /\ scalar_of TU32 x = n /\ 0 <= n < 2 ^ 32.
Proof.
  intros H. pose proof H as (Hl & Hn & _). apply le_at_decode in H; [|lia].
  destruct H as (_ & x & Hx & Hd). change (Z.of_nat 4) with 4 in Hx. exists x. split; [auto|]. split.
  - unfold scalar_of, of_bits. cbn. auto.
  - change (256 ^ Z.of_nat 4) with (2 ^ 32) in Hn. auto.
Qed.

Lemma u32_read h buf loc n :
  le_at buf loc 4 n -> blen buf < 2 ^ 63 ->
  read_scalar_at h TU32 buf loc = Val n /\ 0 <= n < 2 ^ 32 /\ loc + 4 <= blen buf.
Proof.
  intros H Hm. pose proof H as (Hl & _ & _).
  destruct (u32_get_range _ _ _ H) as (x & Hx & Hs & Hr).
  split; [|split]; auto.
  - rewrite <- Hs. apply read_scalar_at_ok; auto. lia.
  - apply get_range_blen in Hx; lia.
Qed.

Lemma u32_read_inv h buf loc n :
  0 <= loc < 2 ^ 64 -> blen buf < 2 ^ 63 ->
  read_scalar_at h TU32 buf loc = Val n -> le_at buf loc 4 n.
Proof.
  intros Hl Hm H. rewrite read_scalar_at_spec in H by auto.
  change (ssize TU32) with 4 in H.
  destruct (get_range buf loc (loc + 4)) as [x|] eqn:E.
  - injection H as <-. apply le_at_decode; [lia|]. split; [lia|].
    exists x. split; [auto|]. unfold scalar_of, of_bits. reflexivity.
  - destruct (_ && _); discriminate.
Qed.

(** The four outcomes of following a string whose length word is readable. *)
Lemma follow_str_cases h buf loc n :
  le_at buf loc 4 n -> blen buf < 2 ^ 63 ->
  follow_str h buf loc =
    if blen buf <=? loc + 4 + n then Err OutOfBounds
    else match nth_error buf (Z.to_nat (loc + 4 + n)) with
         | Some z => if negb (byte_eqb z x00) then Err NonNullTerminatedString
                     else if utf8_valid (slice buf (loc + 4) (loc + 4 + n))
                          then Val (slice buf (loc + 4) (loc + 4 + n)) else Err NonUtf8String
         | None => Panic
         end.
Proof.
  intros H Hm. pose proof H as (Hl & _ & _).
  destruct (u32_read h _ _ _ H Hm) as (Hr & Hn & Hb).
  unfold follow_str. rewrite Hr. cbn [bind]. unfold SIZE_UOFFSET.
  rewrite !usize_arith_ok by lia. cbn [bind].
  rewrite usize_arith_ok by lia. cbn [bind].
  destruct (blen buf <=? loc + 4 + n) eqn:E; [reflexivity|].
  unfold index. replace (0 <=? loc + 4 + n) with true by lia.
  destruct (nth_error buf (Z.to_nat (loc + 4 + n))) as [z|] eqn:En; [|reflexivity].
  cbn [expect_some bind]. destruct (negb (byte_eqb z x00)); [reflexivity|].
  unfold index_range, get_range. replace (_ && _) with true by lia. reflexivity.
Qed.

Lemma slice_bytes_at buf loc s :
  bytes_at buf loc s -> loc + blen s <= blen buf -> slice buf loc (loc + blen s) = s.
Proof.
  intros H1 H2. destruct (proj1 (bytes_at_get_range buf loc s) (conj H1 H2)) as [Hl H].
  unfold get_range in H. destruct (_ && _); congruence.
Qed.

Lemma bytes_at_slice buf a b :
  0 <= a -> a <= b -> b <= blen buf -> bytes_at buf a (slice buf a b) /\ blen (slice buf a b) = b - a.
Proof.
  intros Ha Hab Hb.
  assert (E : blen (slice buf a b) = b - a).
  { unfold slice. rewrite blen_firstn, blen_skipn. lia. }
  split; [|auto].
  assert (G : get_range buf a (a + blen (slice buf a b)) = Some (slice buf a b)).
  { rewrite E. replace (a + (b - a)) with b by lia. unfold get_range.
    replace (_ && _) with true by lia. reflexivity. }
  exact (proj1 (proj2 (bytes_at_get_range _ _ _) (conj Ha G))).
Qed.

Lemma string_read_iff h buf loc s :
  usize_ok loc -> blen buf < 2 ^ 63 ->
  (follow h FStr buf loc = Val (VStr s) <-> string_at buf loc s /\ utf8_valid s = true).
Proof.
  intros Hl Hm. unfold usize_ok in Hl. cbn [follow]. split.
  - intros H. apply bind_Val in H as (s' & H & E). injection E as ->.
    assert (Hlen : exists n, read_scalar_at h TU32 buf loc = Val n).
    { unfold follow_str in H. apply bind_Val in H as (n & Hn & _). eauto. }
    destruct Hlen as [n Hn]. apply u32_read_inv in Hn; auto.
    rewrite (follow_str_cases h _ _ n) in H by auto.
    destruct (u32_read h _ _ _ Hn Hm) as (_ & Hr & Hb).
    destruct (blen buf <=? loc + 4 + n) eqn:E; [discriminate|].
    destruct (nth_error buf (Z.to_nat (loc + 4 + n))) as [z|] eqn:En; [|discriminate].
    destruct (negb (byte_eqb z x00)) eqn:Ez; [discriminate|].
    destruct (utf8_valid _) eqn:Eu; [|discriminate].
    injection H as <-. apply negb_false_iff, byte_eqb_eq in Ez. subst z.
    destruct (bytes_at_slice buf (loc + 4) (loc + 4 + n)) as [B L]; try lia.
    split; [|exact Eu]. split; [|split].
    + rewrite L. replace (loc + 4 + n - (loc + 4)) with n by lia. exact Hn.
    + exact B.
    + rewrite L. replace (loc + 4 + (loc + 4 + n - (loc + 4))) with (loc + 4 + n) by lia. exact En.
  - intros [(Hn & Hb & Hz) Hu].
    rewrite (follow_str_cases h _ _ _ Hn Hm).
    assert (Hlt : (Z.to_nat (loc + 4 + blen s) < length buf)%nat)
      by (apply nth_error_Some; congruence).
    replace (blen buf <=? loc + 4 + blen s) with false by (pose proof (blen_nonneg s); unfold blen in *; lia).
    rewrite Hz. rewrite byte_eqb_refl. cbn [negb].
    rewrite slice_bytes_at; auto; [|unfold blen in *; lia].
    rewrite Hu. reflexivity.
Qed.

Lemma string_read_errors h buf loc e :
  usize_ok loc -> loc + 4 < 2 ^ 64 -> blen buf < 2 ^ 63 ->
  (follow h FStr buf loc = Err e <->
   (e = OutOfBounds /\
      (blen buf < loc + 4 \/ exists n, le_at buf loc 4 n /\ blen buf <= loc + 4 + n)) \/
   (exists n z, le_at buf loc 4 n /\ nth_error buf (Z.to_nat (loc + 4 + n)) = Some z /\
      ((e = NonNullTerminatedString /\ z <> x00) \/
       (e = NonUtf8String /\ z = x00 /\ exists s, blen s = n /\ bytes_at buf (loc + 4) s /\ utf8_valid s = false)))).
Proof.
  intros Hl H4 Hm. unfold usize_ok in Hl. cbn [follow].
  destruct (Z.lt_ge_cases (blen buf) (loc + 4)) as [Hs|Hs].
  - unfold follow_str. rewrite read_out_of_bounds by (cbn [ssize]; lia). cbn [bind]. split.
    + intros E. injection E as <-. left. auto.
    + intros [[-> _]|(n & z & Hn & _)]; [reflexivity|].
      exfalso. destruct (u32_read h _ _ _ Hn Hm) as (_ & _ & Hb). lia.
  - destruct (proj2 (le_at_dec buf loc 4 ltac:(lia) ltac:(lia)) ltac:(lia)) as [n Hn].
    destruct (u32_read h _ _ _ Hn Hm) as (_ & Hr & Hb).
    rewrite (follow_str_cases h _ _ n Hn Hm).
    assert (Hdet : forall m, le_at buf loc 4 m -> m = n) by (intros m Hmm; eapply le_at_det; [|eauto|eauto]; lia).
    destruct (blen buf <=? loc + 4 + n) eqn:E; cbn [bind].
    + split.
      * intros H. injection H as <-. left. split; [auto|]. right. exists n. split; [auto|lia].
      * intros [[-> _]|(m & z & Hmm & Hz & _)]; [reflexivity|]. apply Hdet in Hmm. subst m.
        exfalso. assert ((Z.to_nat (loc + 4 + n) < length buf)%nat) by (apply nth_error_Some; congruence).
        unfold blen in *; lia.
    + destruct (nth_error buf (Z.to_nat (loc + 4 + n))) as [z|] eqn:En.
      2:{ exfalso. apply nth_error_None in En. unfold blen in *. lia. }
      destruct (bytes_at_slice buf (loc + 4) (loc + 4 + n)) as [B L]; try lia.
      destruct (byte_eqb z x00) eqn:Ez; cbn [negb].
      * apply byte_eqb_eq in Ez. subst z.
        destruct (utf8_valid _) eqn:Eu; cbn [bind].
        -- split; [discriminate|].
           intros [[-> [?|(m & Hmm & ?)]]|(m & z & Hmm & Hz & [[-> Hz0]|(-> & -> & s & Hsl & Hsb & Hsu)])];
             try lia; apply Hdet in Hmm; subst m; try lia.
           ++ congruence.
           ++ exfalso. rewrite <- Hsl in Eu. rewrite slice_bytes_at in Eu by (auto; lia). congruence.
        -- split.
           ++ intros H. injection H as <-. right. exists n, x00. split; [auto|]. split; [auto|].
              right. split; [auto|]. split; [auto|]. eexists. split; [|split; [exact B|exact Eu]]. lia.
           ++ intros [[-> [?|(m & Hmm & ?)]]|(m & z & Hmm & Hz & [[-> Hz0]|(-> & _)])];
              try lia; try (apply Hdet in Hmm; subst m); try lia; try reflexivity.
              congruence.
      * assert (z <> x00) by (intros ->; rewrite byte_eqb_refl in Ez; discriminate).
        cbn [bind]. split.
        -- intros H0. injection H0 as <-. right. exists n, z. auto.
        -- intros [[-> [?|(m & Hmm & ?)]]|(m & z' & Hmm & Hz & [[-> Hz0]|(-> & -> & _)])];
             try lia; try (apply Hdet in Hmm; subst m); try lia; try reflexivity.
           congruence.
Qed.

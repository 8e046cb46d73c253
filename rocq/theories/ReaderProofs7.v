(** Proofs that every read returns exactly what stands in the buffer (C66). *)
From Coq Require Import ZArith List Bool Lia Strings.Byte ZifyBool ZifyNat ZifyN.
From Verif Require Import Base Scalar Utf8 Utf8Facts Reader Client BaseFacts ScalarFacts SpecWire WireFacts
  ReaderFacts ReaderProofs ReaderProofs2 ReaderProofs3 ReaderProofs4.
From Verif Require Export SpecFollow.
Import ListNotations.
Local Open Scope Z_scope.

Lemma release_arith h v : debug h = false -> usize_arith h v = Val (v mod 2 ^ 64).
Proof.
  intros Hh. unfold usize_arith, unsigned_arith. rewrite Hh.
  destruct (_ && _) eqn:E; [|reflexivity]. rewrite Z.mod_small by lia. reflexivity.
Qed.

(** ** Cells *)
Lemma pow_half t : 2 ^ (8 * ssize t) = 2 * 2 ^ (8 * ssize t - 1) /\ 0 < 2 ^ (8 * ssize t - 1).
Proof. destruct t; split; reflexivity. Qed.

Lemma cell_det buf t loc x y : cell buf t loc x -> cell buf t loc y -> x = y.
Proof.
  intros [H1 R1] [H2 R2].
  pose proof (le_at_det _ _ _ _ _ (snat_pos t) H1 H2) as E.
  destruct (pow_half t) as [Hp Hq]. set (P := 2 ^ (8 * ssize t)) in *. set (Q := 2 ^ (8 * ssize t - 1)) in *.
  destruct (signed t).
  - rewrite !(Z.mod_eq _ P) in E by lia.
    assert (Dx : x / P = if x <? 0 then -1 else 0).
    { destruct (x <? 0) eqn:?.
      - symmetry. apply Z.div_unique with (r := x + P); lia.
      - apply Z.div_small. lia. }
    assert (Dy : y / P = if y <? 0 then -1 else 0).
    { destruct (y <? 0) eqn:?.
      - symmetry. apply Z.div_unique with (r := y + P); lia.
      - apply Z.div_small. lia. }
    rewrite Dx, Dy in E. clear - E R1 R2 Hp Hq. destruct (x <? 0) eqn:?, (y <? 0) eqn:?; lia.
  - rewrite !Z.mod_small in E by lia. exact E.
Qed.

Lemma cell_in buf t loc x : cell buf t loc x -> 0 <= loc /\ loc + ssize t <= blen buf.
Proof.
  intros [H _]. pose proof H as (Hl & _). split; [auto|].
  rewrite <- snat_size. apply le_at_dec; [apply snat_pos|auto|eauto].
Qed.

Lemma range_cell buf t loc x :
  0 <= loc -> get_range buf loc (loc + ssize t) = Some x -> cell buf t loc (scalar_of t x).
Proof.
  intros Hl Hx. split; [apply get_range_le_at; auto|].
  destruct (get_range_blen _ _ _ _ Hl Hx) as [Hb _].
  destruct (signed t) eqn:Es.
  - pose proof (scalar_of_valid t x ltac:(intros ->; discriminate) ltac:(lia)) as V.
    destruct t; try discriminate; unfold valid_scalar, signed in V; lia.
  - apply scalar_of_unsigned_range; [auto|lia].
Qed.

Lemma cell_read h t buf loc x :
  cell buf t loc x -> blen buf < 2 ^ 63 -> read_scalar_at h t buf loc = Val x.
Proof.
  intros C Hm. destruct (cell_in _ _ _ _ C) as [Hl Hb].
  destruct (get_range buf loc (loc + ssize t)) as [y|] eqn:E.
  - rewrite (read_scalar_at_ok h t buf loc y) by (auto; lia). f_equal.
    eapply cell_det; [|exact C]. apply range_cell; auto.
  - apply get_range_None_iff in E. pose proof (ssize_pos t). lia.
Qed.

Lemma read_cases h t buf loc :
  debug h = false -> usize_ok loc -> blen buf < 2 ^ 63 ->
  (exists x, cell buf t loc x /\ read_scalar_at h t buf loc = Val x) \/
  (blen buf < loc + ssize t /\ read_scalar_at h t buf loc = Err OutOfBounds).
Proof.
  intros Hh Hl Hm. unfold usize_ok in Hl. rewrite read_scalar_at_spec by auto. rewrite Hh. cbn [andb].
  destruct (get_range buf loc (loc + ssize t)) as [x|] eqn:E.
  - left. exists (scalar_of t x). split; [apply range_cell; [lia|auto]|reflexivity].
  - right. apply get_range_None_iff in E. pose proof (ssize_pos t). split; [lia|reflexivity].
Qed.

Lemma cell_u32 buf loc n : cell buf TU32 loc n <-> le_at buf loc 4 n.
Proof.
  unfold cell. cbn [signed]. change (snat TU32) with 4%nat. change (8 * ssize TU32) with 32. split.
  - intros [H R]. rewrite Z.mod_small in H by lia. exact H.
  - intros H. pose proof H as (_ & R & _). change (256 ^ Z.of_nat 4) with (2 ^ 32) in R.
    rewrite Z.mod_small by lia. auto.
Qed.
Lemma cell_u16 buf loc n : cell buf TU16 loc n <-> le_at buf loc 2 n.
Proof.
  unfold cell. cbn [signed]. change (snat TU16) with 2%nat. change (8 * ssize TU16) with 16. split.
  - intros [H R]. rewrite Z.mod_small in H by lia. exact H.
  - intros H. pose proof H as (_ & R & _). change (256 ^ Z.of_nat 2) with (2 ^ 16) in R.
    rewrite Z.mod_small by lia. auto.
Qed.
Lemma cell_u8 buf loc n : cell buf TU8 loc n <-> le_at buf loc 1 n.
Proof.
  unfold cell. cbn [signed]. change (snat TU8) with 1%nat. change (8 * ssize TU8) with 8. split.
  - intros [H R]. rewrite Z.mod_small in H by lia. exact H.
  - intros H. pose proof H as (_ & R & _). change (256 ^ Z.of_nat 1) with (2 ^ 8) in R.
    rewrite Z.mod_small by lia. auto.
Qed.
Lemma cell_i32 buf loc n : cell buf TI32 loc n <-> soffset_at buf loc n.
Proof.
  unfold cell, soffset_at. cbn [signed]. change (snat TI32) with 4%nat.
  change (8 * ssize TI32) with 32. change (32 - 1) with 31. tauto.
Qed.

(** Reading the offset of an offset type. *)
Lemma offset_cases {A} h t w buf loc (k : Z -> outcome A) :
  debug h = false -> usize_ok loc -> blen buf < 2 ^ 63 -> w = ssize t ->
  let r := (let* e := usize_arith h (loc + w) in
            let* s := ok_or (get_range buf loc e) OutOfBounds in
            let* off := read_scalar h t s in k off) in
  (exists x, cell buf t loc x /\ loc + w <= blen buf /\ r = k x) \/
  (blen buf < loc + w /\ r = Err OutOfBounds).
Proof.
  intros Hh Hl Hm -> r. unfold usize_ok in Hl. subst r. rewrite release_arith by auto. cbn [bind].
  pose proof (ssize_pos t). pose proof (ssize_le8 t).
  destruct (Z.lt_ge_cases (blen buf) (loc + ssize t)) as [Hs|Hs].
  - right. split; [auto|]. replace (get_range buf loc _) with (@None (list byte)); [reflexivity|].
    symmetry. apply get_range_None_iff.
    destruct (Z.lt_ge_cases (loc + ssize t) (2 ^ 64)).
    + rewrite Z.mod_small by lia. lia.
    + left. replace ((loc + ssize t) mod 2 ^ 64) with (loc + ssize t - 2 ^ 64); [lia|].
      rewrite <- (Z.mod_small (loc + ssize t - 2 ^ 64) (2 ^ 64)) by lia.
      replace (loc + ssize t - 2 ^ 64) with (loc + ssize t + (-1) * 2 ^ 64) by lia.
      apply Z.mod_add. lia.
  - left. rewrite Z.mod_small by lia.
    destruct (get_range buf loc (loc + ssize t)) as [x|] eqn:E.
    + exists (scalar_of t x). split; [apply range_cell; [lia|auto]|]. split; [lia|].
      cbn [ok_or bind]. destruct (get_range_blen buf loc _ x ltac:(lia) E).
      rewrite read_scalar_exact by lia. reflexivity.
    + apply get_range_None_iff in E. lia.
Qed.

(** ** Slices *)

Lemma chunks_cells h t buf : negb (big_endian h) || (ssize t =? 1) = true ->
  forall count loc data, 0 <= loc ->
  get_range buf loc (loc + ssize t * Z.of_nat count) = Some data ->
  length (chunks h t count data) = count /\
  forall i x, nth_error (chunks h t count data) i = Some x -> cell buf t (loc + ssize t * Z.of_nat i) x.
Proof.
  intros He. pose proof (ssize_pos t) as Hp. pose proof (snat_size t) as Hn.
  induction count as [|c IH]; intros loc data Hl Hd; cbn [chunks length].
  - split; [reflexivity|]. intros [|i] x H; discriminate.
  - destruct (get_range_blen _ _ _ _ Hl Hd) as [Hb Hr].
    assert (Hf : get_range buf loc (loc + ssize t) = Some (firstn (snat t) data)).
    { pose proof (get_range_sub buf loc _ data 0 (ssize t) Hl Hd ltac:(lia) ltac:(lia) ltac:(nia)) as Sb.
      rewrite Z.add_0_r in Sb. rewrite Sb. unfold get_range. replace (_ && _) with true by nia.
      unfold slice. cbn [skipn]. f_equal. f_equal. unfold snat. f_equal. lia. }
    assert (Hs : get_range buf (loc + ssize t) (loc + ssize t + ssize t * Z.of_nat c) = Some (skipn (snat t) data)).
    { pose proof (get_range_sub buf loc _ data (ssize t) (ssize t * Z.of_nat (S c)) Hl Hd ltac:(lia) ltac:(nia) ltac:(nia)) as Sb.
      replace (loc + ssize t * Z.of_nat (S c)) with (loc + ssize t + ssize t * Z.of_nat c) in Sb by nia.
      rewrite Sb. unfold get_range. replace (_ && _) with true by nia.
      unfold slice. f_equal. rewrite firstn_all2; [reflexivity|].
      rewrite skipn_length. unfold blen in Hb. nia. }
    destruct (IH (loc + ssize t) _ ltac:(lia) Hs) as [IL IC].
    split; [rewrite IL; reflexivity|].
    intros [|i] x H; cbn [nth_error] in H.
    + injection H as <-. replace (loc + ssize t * Z.of_nat 0) with loc by lia.
      replace (of_bits t (load h (firstn (snat t) data))) with (scalar_of t (firstn (snat t) data));
        [apply range_cell; auto|].
      unfold scalar_of, load. f_equal. destruct (big_endian h); [|reflexivity].
      cbn [negb orb] in He. f_equal.
      destruct (get_range_blen _ _ _ _ Hl Hf) as [Hbf _].
      destruct (firstn (snat t) data) as [|a [|b l]]; try reflexivity.
      unfold blen in Hbf. cbn [length] in Hbf. lia.
    + apply IC in H. replace (loc + ssize t * Z.of_nat (S i)) with (loc + ssize t + ssize t * Z.of_nat i) by nia.
      exact H.
Qed.

Lemma cells_det buf t loc xs ys :
  length xs = length ys ->
  (forall i x, nth_error xs i = Some x -> cell buf t (loc + ssize t * Z.of_nat i) x) ->
  (forall i x, nth_error ys i = Some x -> cell buf t (loc + ssize t * Z.of_nat i) x) -> xs = ys.
Proof.
  intros L H1 H2. apply nth_error_ext. intros i.
  destruct (nth_error xs i) as [x|] eqn:E1, (nth_error ys i) as [y|] eqn:E2; auto.
  - f_equal. eapply cell_det; eauto.
  - apply nth_error_None in E2. assert (i < length xs)%nat by (apply nth_error_Some; congruence). lia.
  - apply nth_error_None in E1. assert (i < length ys)%nat by (apply nth_error_Some; congruence). lia.
Qed.

Lemma slice_cases h t buf loc :
  debug h = false -> usize_ok loc -> blen buf < 2 ^ 63 -> negb (big_endian h) || (ssize t =? 1) = true ->
  (exists xs, stands buf (FSlice t) loc (VSlice xs) /\ follow_slice_helper h t buf loc = Val xs) \/
  (fails buf (FSlice t) loc OutOfBounds /\ follow_slice_helper h t buf loc = Err OutOfBounds).
Proof.
  intros Hh Hl Hm He. pose proof (ssize_pos t). pose proof (ssize_le8 t).
  unfold follow_slice_helper, debug_assert. rewrite Hh. cbn [andb bind].
  destruct (read_cases h TU32 buf loc Hh Hl Hm) as [(n & C & E)|[Hs E]]; rewrite E; cbn [bind].
  2:{ right. split; [|reflexivity]. cbn [fails]. auto. }
  destruct (cell_in _ _ _ _ C) as [_ Hb]. change (ssize TU32) with 4 in Hb.
  apply cell_u32 in C. pose proof C as (_ & Hn & _). change (256 ^ Z.of_nat 4) with (2 ^ 32) in Hn.
  unfold usize_ok in Hl. unfold SIZE_UOFFSET.
  rewrite usize_arith_ok by lia. cbn [bind]. rewrite usize_arith_ok by nia. cbn [bind].
  rewrite usize_arith_ok by nia. cbn [bind].
  destruct (get_range buf (loc + 4) (loc + 4 + n * ssize t)) as [data|] eqn:Ed; cbn [ok_or bind].
  - left. replace (loc + 4 + n * ssize t) with (loc + 4 + ssize t * Z.of_nat (Z.to_nat n)) in Ed by (rewrite Z2Nat.id by lia; ring).
    destruct (chunks_cells h t buf He _ (loc + 4) _ ltac:(lia) Ed) as [L K].
    exists (chunks h t (Z.to_nat n) data). split; [|reflexivity].
    cbn [stands]. exists (chunks h t (Z.to_nat n) data). rewrite L.
    replace (Z.of_nat (Z.to_nat n)) with n by lia. split; [auto|]. split; [|reflexivity].
    exact K.
  - right. split; [|reflexivity]. apply get_range_None_iff in Ed. cbn [fails]. split; [reflexivity|].
    right. exists n. split; [auto|]. nia.
Qed.

(** ** The relations determine their results and exclude each other *)
Lemma le4 buf loc n m : le_at buf loc 4 n -> le_at buf loc 4 m -> n = m.
Proof. apply le_at_det. lia. Qed.
Lemma le2 buf loc n m : le_at buf loc 2 n -> le_at buf loc 2 m -> n = m.
Proof. apply le_at_det. lia. Qed.
Lemma le1 buf loc n m : le_at buf loc 1 n -> le_at buf loc 1 m -> n = m.
Proof. apply le_at_det. lia. Qed.
Lemma le_at_in buf loc k n : (0 < k)%nat -> le_at buf loc k n -> loc + Z.of_nat k <= blen buf.
Proof. intros Hk H. pose proof H as (Hl & _). apply le_at_dec; eauto. Qed.

Lemma bytes_at_det buf loc s s' : bytes_at buf loc s -> bytes_at buf loc s' -> length s = length s' -> s = s'.
Proof.
  intros [_ H1] [_ H2] L. apply nth_error_ext. intros i.
  destruct (Nat.lt_ge_cases i (length s)) as [Hi|Hi].
  - rewrite <- H1, <- H2 by lia. reflexivity.
  - rewrite (proj2 (nth_error_None s i)), (proj2 (nth_error_None s' i)) by lia. reflexivity.
Qed.

Lemma stands_scalar buf s loc v : stands buf (FScalar s) loc v ->
  (s = TBool /\ exists b, le_at buf loc 1 b /\ v = VScalar (if b =? 0 then 0 else 1)) \/
  (s <> TBool /\ exists x, cell buf s loc x /\ v = VScalar x).
Proof. destruct s; cbn [stands]; intros H; [left; auto|right; split; [discriminate|exact H]..]. Qed.

Lemma stands_det buf t : forall loc v w, stands buf t loc v -> stands buf t loc w -> v = w.
Proof.
  induction t; intros loc v w H1 H2.
  - apply stands_scalar in H1, H2.
    destruct H1 as [(-> & b & B & ->)|(Ht & x & X & ->)], H2 as [(E & b' & B' & ->)|(Ht' & x' & X' & ->)];
      try congruence.
    + rewrite (le1 _ _ _ _ B B'). reflexivity.
    + rewrite (cell_det _ _ _ _ _ X X'). reflexivity.
  - destruct H1 as (s & (A1 & A2 & _) & _ & ->), H2 as (s' & (B1 & B2 & _) & _ & ->).
    f_equal. eapply bytes_at_det; eauto. pose proof (le4 _ _ _ _ A1 B1). unfold blen in *. lia.
  - destruct H1 as (xs & A1 & A2 & ->), H2 as (ys & B1 & B2 & ->).
    f_equal. eapply cells_det; eauto. pose proof (le4 _ _ _ _ A1 B1). lia.
  - cbn [stands] in *. congruence.
  - cbn [stands] in *. congruence.
  - cbn [stands] in *. congruence.
  - destruct H1 as (o & A & H1), H2 as (o' & B & H2). rewrite <- (le4 _ _ _ _ A B) in H2. eauto.
  - destruct H1 as (o & A & H1), H2 as (o' & B & H2). rewrite <- (le2 _ _ _ _ A B) in H2. eauto.
  - destruct H1 as (o & A & H1), H2 as (o' & B & H2). rewrite <- (soffset_unique _ _ _ _ A B) in H2. eauto.
  - cbn [stands] in *. eauto.
  - cbn [stands] in *. eauto.
  - cbn [stands] in *. eauto.
  - destruct H1 as (s & L & A & ->), H2 as (s' & L' & B & ->).
    f_equal. eapply bytes_at_det; eauto. unfold blen in *. lia.
  - destruct H1 as (x & A & _ & ->), H2 as (y & B & _ & ->). f_equal. eapply cell_det; eauto.
Qed.

Lemma soffset_in buf loc s : soffset_at buf loc s -> loc + 4 <= blen buf.
Proof. intros [_ H]. apply (le_at_in _ _ 4) in H; lia. Qed.

Lemma blen_lt_nth {A} (l : list A) i x : 0 <= i -> nth_error l (Z.to_nat i) = Some x -> i < blen l.
Proof.
  intros Hi H. assert ((Z.to_nat i < length l)%nat) by (apply nth_error_Some; congruence). unfold blen. lia.
Qed.

Lemma stands_not_fails buf t : forall loc v e, stands buf t loc v -> fails buf t loc e -> False.
Proof.
  induction t; intros loc v e H1 H2.
  - destruct H2 as [_ H2]. apply stands_scalar in H1.
    destruct H1 as [(-> & b & B & ->)|(_ & x & X & ->)].
    + apply (le_at_in _ _ 1) in B; [|lia]. change (ssize TBool) with 1 in H2. lia.
    + apply cell_in in X. lia.
  - destruct H1 as (s & (A1 & A2 & A3) & U & ->). pose proof A1 as (Hl & _ & _).
    pose proof (le_at_in _ _ 4 _ ltac:(lia) A1). pose proof (blen_nonneg s).
    apply blen_lt_nth in A3 as A4; [|lia].
    destruct H2 as [[_ [H2|(n & N & H2)]]|(n & z & N & Z0 & H2)].
    + lia.
    + rewrite <- (le4 _ _ _ _ A1 N) in H2. lia.
    + rewrite <- (le4 _ _ _ _ A1 N) in *. rewrite A3 in Z0. injection Z0 as <-.
      destruct H2 as [[_ H2]|(_ & _ & s' & L & B & U')]; [congruence|].
      apply U'. replace s' with s; [exact U|]. eapply bytes_at_det; eauto. unfold blen in *. lia.
  - destruct H1 as (xs & A1 & A2 & ->). destruct H2 as [_ [H2|(n & N & H2)]].
    + apply (le_at_in _ _ 4) in A1; lia.
    + rewrite <- (le4 _ _ _ _ A1 N) in H2. pose proof A1 as (Hl & _ & _).
      apply (le_at_in _ _ 4) in A1; [|lia].
      destruct (length xs) as [|c] eqn:L; [lia|].
      destruct (nth_error xs c) as [x|] eqn:E.
      * apply A2, cell_in in E. nia.
      * apply nth_error_None in E. lia.
  - exact H2.
  - exact H2.
  - exact H2.
  - destruct H1 as (o & A & H1). destruct H2 as [[_ H2]|(o' & B & H2)].
    + apply (le_at_in _ _ 4) in A; lia.
    + rewrite <- (le4 _ _ _ _ A B) in H2. eauto.
  - destruct H1 as (o & A & H1). destruct H2 as [[_ H2]|(o' & B & H2)].
    + apply (le_at_in _ _ 2) in A; lia.
    + rewrite <- (le2 _ _ _ _ A B) in H2. eauto.
  - destruct H1 as (o & A & H1). destruct H2 as [[_ H2]|(o' & B & H2)].
    + apply soffset_in in A. lia.
    + rewrite <- (soffset_unique _ _ _ _ A B) in H2. eauto.
  - cbn [stands fails] in *. eauto.
  - cbn [stands fails] in *. eauto.
  - cbn [stands fails] in *. eauto.
  - destruct H1 as (s & L & A & ->), H2 as [_ H2].
    apply bytes_at_len in A; [lia|]. intros ->. discriminate.
  - destruct H1 as (x & A & I & ->), H2 as [[_ H2]|(_ & y & B & N)].
    + apply cell_in in A. lia.
    + apply N. rewrite <- (cell_det _ _ _ _ _ A B). exact I.
Qed.

Lemma fails_det buf t : forall loc e e', fails buf t loc e -> fails buf t loc e' -> e = e'.
Proof.
  induction t; intros loc e e' H1 H2.
  - destruct H1 as [-> _], H2 as [-> _]. reflexivity.
  - assert (K : forall e n z, le_at buf loc 4 n -> nth_error buf (Z.to_nat (loc + 4 + n)) = Some z ->
             (e = OutOfBounds /\ (blen buf < loc + 4 \/ exists n, le_at buf loc 4 n /\ blen buf <= loc + 4 + n)) -> False).
    { intros e0 n z N Z0 [_ H]. pose proof N as (Hl & Hn & _). apply blen_lt_nth in Z0; [|lia].
      destruct H as [H|(m & M & H)]; [apply (le_at_in _ _ 4) in N; lia|].
      rewrite (le4 _ _ _ _ M N) in H. lia. }
    destruct H1 as [H1|(n & z & N & Z0 & H1)], H2 as [H2|(n' & z' & N' & Z0' & H2)].
    + destruct H1, H2. congruence.
    + exfalso. eauto.
    + exfalso. eauto.
    + rewrite (le4 _ _ _ _ N' N) in *. rewrite Z0 in Z0'. injection Z0' as <-.
      destruct H1 as [[-> H1]|(-> & H1 & _)], H2 as [[-> H2]|(-> & H2 & _)]; congruence.
  - destruct H1 as [-> _], H2 as [-> _]. reflexivity.
  - contradiction.
  - contradiction.
  - contradiction.
  - destruct H1 as [[-> H1]|(o & A & H1)], H2 as [[-> H2]|(o' & B & H2)]; auto.
    + apply (le_at_in _ _ 4) in B; lia.
    + apply (le_at_in _ _ 4) in A; lia.
    + rewrite (le4 _ _ _ _ B A) in H2. eauto.
  - destruct H1 as [[-> H1]|(o & A & H1)], H2 as [[-> H2]|(o' & B & H2)]; auto.
    + apply (le_at_in _ _ 2) in B; lia.
    + apply (le_at_in _ _ 2) in A; lia.
    + rewrite (le2 _ _ _ _ B A) in H2. eauto.
  - destruct H1 as [[-> H1]|(o & A & H1)], H2 as [[-> H2]|(o' & B & H2)]; auto.
    + apply soffset_in in B. lia.
    + apply soffset_in in A. lia.
    + rewrite (soffset_unique _ _ _ _ B A) in H2. eauto.
  - cbn [fails] in *. eauto.
  - cbn [fails] in *. eauto.
  - cbn [fails] in *. eauto.
  - destruct H1 as [-> _], H2 as [-> _]. reflexivity.
  - destruct H1 as [[-> H1]|(-> & x & A & _)], H2 as [[-> H2]|(-> & y & B & _)]; auto.
    + apply cell_in in B. lia.
    + apply cell_in in A. lia.
Qed.

(** ** Following does one or the other *)
Lemma as_i32_eq v : as_i32 v = (v + 2 ^ 31) mod 2 ^ 32 - 2 ^ 31.
Proof.
  unfold as_i32. pose proof (Z.mod_pos_bound v (2 ^ 32) ltac:(lia)) as R.
  pose proof (Z.div_mod v (2 ^ 32) ltac:(lia)) as D.
  set (m := v mod 2 ^ 32) in *. set (q := v / 2 ^ 32) in *.
  destruct (m <? 2 ^ 31) eqn:E.
  - assert (H : (v + 2 ^ 31) mod 2 ^ 32 = m + 2 ^ 31).
    { symmetry. apply Z.mod_unique with (q := q); lia. }
    lia.
  - assert (H : (v + 2 ^ 31) mod 2 ^ 32 = m - 2 ^ 31).
    { symmetry. apply Z.mod_unique with (q := q + 1); lia. }
    lia.
Qed.

Lemma signed_location h loc s : debug h = false ->
  i32_arith h (as_i32 loc - s) = Val ((loc - s + 2 ^ 31) mod 2 ^ 32 - 2 ^ 31).
Proof.
  intros Hh. assert (K : as_i32 (as_i32 loc - s) = (loc - s + 2 ^ 31) mod 2 ^ 32 - 2 ^ 31).
  { rewrite as_i32_eq. do 1 f_equal.
    unfold as_i32. pose proof (Z.div_mod loc (2 ^ 32) ltac:(lia)) as D.
    set (m := loc mod 2 ^ 32) in *. set (q := loc / 2 ^ 32) in *.
    destruct (m <? 2 ^ 31).
    - replace (loc - s + 2 ^ 31) with (m - s + 2 ^ 31 + q * 2 ^ 32) by lia. rewrite Z.mod_add by lia. reflexivity.
    - replace (loc - s + 2 ^ 31) with (m - 2 ^ 32 - s + 2 ^ 31 + (q + 1) * 2 ^ 32) by lia. rewrite Z.mod_add by lia. reflexivity. }
  unfold i32_arith. rewrite Hh, K. destruct (_ && _) eqn:E; [|reflexivity]. f_equal.
  rewrite <- K. rewrite (as_i32_eq (as_i32 loc - s)). rewrite Z.mod_small by lia. lia.
Qed.

Lemma signed_target_ok loc s : usize_ok (signed_target loc s).
Proof. apply mod_usize_ok. Qed.

Lemma str_cases h buf loc :
  debug h = false -> usize_ok loc -> blen buf < 2 ^ 63 ->
  (exists s, stands buf FStr loc (VStr s) /\ follow_str h buf loc = Val s) \/
  (exists e, fails buf FStr loc e /\ follow_str h buf loc = Err e).
Proof.
  intros Hh Hl Hm.
  destruct (read_cases h TU32 buf loc Hh Hl Hm) as [(n & C & E)|[Hs E]].
  2:{ right. exists OutOfBounds. unfold follow_str. rewrite E. split; [|reflexivity]. cbn [fails]. auto. }
  destruct (cell_in _ _ _ _ C) as [Hl0 Hb]. change (ssize TU32) with 4 in Hb. apply cell_u32 in C.
  pose proof C as (_ & Hn & _).
  rewrite (follow_str_cases h _ _ n C Hm).
  destruct (blen buf <=? loc + 4 + n) eqn:El.
  { right. exists OutOfBounds. split; [|reflexivity]. cbn [fails]. left. split; [auto|]. right. exists n. split; [auto|lia]. }
  destruct (nth_error buf (Z.to_nat (loc + 4 + n))) as [z|] eqn:En.
  2:{ exfalso. apply nth_error_None in En. unfold blen in *. lia. }
  destruct (byte_eqb z x00) eqn:Ez; cbn [negb].
  2:{ right. exists NonNullTerminatedString. split; [|reflexivity]. cbn [fails]. right. exists n, z.
      split; [auto|]. split; [auto|]. left. split; [auto|]. intros ->. rewrite byte_eqb_refl in Ez. discriminate. }
  apply byte_eqb_eq in Ez. subst z.
  destruct (bytes_at_slice buf (loc + 4) (loc + 4 + n)) as [B L]; try lia.
  replace (loc + 4 + n - (loc + 4)) with n in L by lia.
  destruct (utf8_valid _) eqn:Eu.
  - left. exists (slice buf (loc + 4) (loc + 4 + n)). split; [|reflexivity].
    cbn [stands]. exists (slice buf (loc + 4) (loc + 4 + n)). split; [|split; [apply utf8_valid_iff; auto|reflexivity]].
    unfold string_at. rewrite L. auto.
  - right. exists NonUtf8String. split; [|reflexivity]. cbn [fails]. right. exists n, x00.
    split; [auto|]. split; [auto|]. right. split; [auto|]. split; [auto|].
    exists (slice buf (loc + 4) (loc + 4 + n)). split; [auto|]. split; [auto|]. apply not_utf8_iff. auto.
Qed.

Lemma follow_cases h t buf : debug h = false -> blen buf < 2 ^ 63 -> slices_ok h t = true ->
  forall loc, usize_ok loc ->
  (exists v, stands buf t loc v /\ follow h t buf loc = Val v) \/
  (exists e, fails buf t loc e /\ follow h t buf loc = Err e).
Proof.
  intros Hh Hm. induction t; intros Hs loc Hl.
  - destruct (match t with TBool => true | _ => false end) eqn:Et.
    + destruct t; try discriminate. cbn [follow].
      destruct (read_cases h TU8 buf loc Hh Hl Hm) as [(x & C & E)|[F E]]; rewrite E; cbn [bind].
      * left. eexists. split; [|reflexivity]. exists x. split; [apply cell_u8; auto|reflexivity].
      * right. eexists. split; [|reflexivity]. split; [reflexivity|exact F].
    + assert (E0 : follow h (FScalar t) buf loc = let* v := read_scalar_at h t buf loc in Val (VScalar v))
        by (destruct t; try reflexivity; discriminate).
      assert (S0 : forall v, (exists x, cell buf t loc x /\ v = VScalar x) -> stands buf (FScalar t) loc v)
        by (intros v H; destruct t; try exact H; discriminate).
      rewrite E0. destruct (read_cases h t buf loc Hh Hl Hm) as [(x & C & E)|[F E]]; rewrite E; cbn [bind].
      * left. eexists. split; [|reflexivity]. apply S0. eauto.
      * right. eexists. split; [|reflexivity]. split; [reflexivity|exact F].
  - cbn [follow]. destruct (str_cases h buf loc Hh Hl Hm) as [(s & S & E)|(e & F & E)]; rewrite E; cbn [bind].
    + left. eauto.
    + right. eauto.
  - cbn [follow]. destruct (slice_cases h t buf loc Hh Hl Hm Hs) as [(xs & S & E)|(F & E)]; rewrite E; cbn [bind].
    + left. eauto.
    + right. eauto.
  - left. eexists. split; reflexivity.
  - left. eexists. split; reflexivity.
  - left. eexists. split; reflexivity.
  - cbn [follow]. cbv zeta. 
    destruct (offset_cases h TU32 SIZE_UOFFSET buf loc (fun off => let* l := usize_arith h (loc + off) in follow h t buf l)
                Hh Hl Hm eq_refl) as [(x & C & B & E)|[F E]]; rewrite E.
    + apply cell_u32 in C. pose proof C as (? & R & _). change (256 ^ Z.of_nat 4) with (2 ^ 32) in R.
      unfold SIZE_UOFFSET in B. rewrite usize_arith_ok by lia. cbn [bind].
      destruct (IHt Hs (loc + x)) as [(v & S & ->)|(e & S & ->)]; [unfold usize_ok; lia| |].
      * left. exists v. split; [|reflexivity]. exists x. auto.
      * right. exists e. split; [|reflexivity]. right. exists x. auto.
    + right. eexists. split; [|reflexivity]. left. split; [reflexivity|exact F].
  - cbn [follow].
    destruct (offset_cases h TU16 SIZE_VOFFSET buf loc (fun off => let* l := usize_arith h (loc + off) in follow h t buf l)
                Hh Hl Hm eq_refl) as [(x & C & B & E)|[F E]]; rewrite E.
    + apply cell_u16 in C. pose proof C as (? & R & _). change (256 ^ Z.of_nat 2) with (2 ^ 16) in R.
      unfold SIZE_VOFFSET in B. rewrite usize_arith_ok by lia. cbn [bind].
      destruct (IHt Hs (loc + x)) as [(v & S & ->)|(e & S & ->)]; [unfold usize_ok; lia| |].
      * left. exists v. split; [|reflexivity]. exists x. auto.
      * right. exists e. split; [|reflexivity]. right. exists x. auto.
    + right. eexists. split; [|reflexivity]. left. split; [reflexivity|exact F].
  - cbn [follow].
    destruct (offset_cases h TI32 SIZE_SOFFSET buf loc (fun off => let* d := i32_arith h (as_i32 loc - off) in follow h t buf (i32_as_usize d))
                Hh Hl Hm eq_refl) as [(x & C & B & E)|[F E]]; rewrite E.
    + apply cell_i32 in C. rewrite signed_location by auto. cbn [bind].
      change (i32_as_usize _) with (signed_target loc x).
      destruct (IHt Hs (signed_target loc x) (signed_target_ok _ _)) as [(v & S & ->)|(e & S & ->)].
      * left. exists v. split; [|reflexivity]. exists x. auto.
      * right. exists e. split; [|reflexivity]. right. exists x. auto.
    + right. eexists. split; [|reflexivity]. left. split; [reflexivity|exact F].
  - cbn [follow stands fails]. rewrite release_arith by auto. apply IHt; [exact Hs|apply mod_usize_ok].
  - cbn [follow stands fails]. rewrite release_arith by auto. apply IHt; [exact Hs|apply mod_usize_ok].
  - cbn [follow stands fails]. rewrite release_arith by auto. apply IHt; [exact Hs|apply mod_usize_ok].
  - cbn [follow]. unfold FILE_IDENTIFIER_LENGTH. rewrite release_arith by auto. cbn [bind].
    unfold usize_ok in Hl. destruct (Z.lt_ge_cases (blen buf) (loc + 4)) as [F|F].
    + right. exists OutOfBounds. split; [split; [reflexivity|exact F]|].
      replace (get_range buf loc _) with (@None (list byte)); [reflexivity|].
      symmetry. apply get_range_None_iff.
      destruct (Z.lt_ge_cases (loc + 4) (2 ^ 64)).
      * rewrite Z.mod_small by lia. lia.
      * left. replace ((loc + 4) mod 2 ^ 64) with (loc + 4 - 2 ^ 64); [lia|].
        rewrite <- (Z.mod_small (loc + 4 - 2 ^ 64) (2 ^ 64)) by lia.
        replace (loc + 4 - 2 ^ 64) with (loc + 4 + (-1) * 2 ^ 64) by lia. apply Z.mod_add. lia.
    + left. rewrite Z.mod_small by lia.
      destruct (get_range buf loc (loc + 4)) as [x|] eqn:E.
      2:{ apply get_range_None_iff in E. lia. }
      destruct (get_range_blen buf loc _ x ltac:(lia) E) as [Bx _].
      exists (VIdent x). split; [|reflexivity]. exists x. split; [lia|]. split; [|reflexivity].
      replace (loc + 4) with (loc + blen x) in E by lia.
      exact (proj1 (proj2 (bytes_at_get_range buf loc x) (conj (proj1 Hl) E))).
  - cbn [follow]. destruct (read_cases h base buf loc Hh Hl Hm) as [(x & C & E)|[F E]]; rewrite E; cbn [bind].
    + destruct (existsb (Z.eqb x) values) eqn:Ei.
      * left. eexists. split; [|reflexivity]. exists x. split; [auto|]. split; [|reflexivity].
        apply existsb_exists in Ei as (y & Iy & Ey). apply Z.eqb_eq in Ey. subst y. exact Iy.
      * right. eexists. split; [|reflexivity]. right. split; [reflexivity|]. exists x. split; [auto|].
        intros I. assert (existsb (Z.eqb x) values = true); [|congruence].
        apply existsb_exists. exists x. split; [auto|apply Z.eqb_refl].
    + right. eexists. split; [|reflexivity]. left. split; [reflexivity|exact F].
Qed.

Lemma follow_exact h t buf loc :
  debug h = false -> blen buf < 2 ^ 63 -> slices_ok h t = true -> usize_ok loc ->
  (forall v, follow h t buf loc = Val v <-> stands buf t loc v) /\
  (forall e, follow h t buf loc = Err e <-> fails buf t loc e) /\
  follow h t buf loc <> Panic.
Proof.
  intros Hh Hm Hs Hl.
  destruct (follow_cases h t buf Hh Hm Hs loc Hl) as [(v & S & E)|(e & F & E)]; rewrite E.
  - split; [|split].
    + intros w. split; [intros [= <-]; auto|]. intros S'. f_equal. eapply stands_det; eauto.
    + intros e. split; [discriminate|]. intros F. exfalso. eapply stands_not_fails; eauto.
    + discriminate.
  - split; [|split].
    + intros w. split; [discriminate|]. intros S. exfalso. eapply stands_not_fails; eauto.
    + intros e'. split; [intros [= <-]; auto|]. intros F'. f_equal. eapply fails_det; eauto.
    + discriminate.
Qed.

(** ** Debug builds: the same result, or a panic *)
Definition release (h : host) : host := Host false (big_endian h).
Definition agrees {A} (d r : outcome A) : Prop := d = Panic \/ d = r.

Lemma agrees_refl {A} (x : outcome A) : agrees x x.
Proof. right. reflexivity. Qed.
Lemma agrees_bind {A B} (x y : outcome A) (f g : A -> outcome B) :
  agrees x y -> (forall a, agrees (f a) (g a)) -> agrees (bind x f) (bind y g).
Proof.
  intros [-> | ->] H; [left; reflexivity|]. destruct y; cbn [bind]; [apply H|right; reflexivity|left; reflexivity].
Qed.
Lemma agrees_usize h v : agrees (usize_arith h v) (usize_arith (release h) v).
Proof.
  unfold usize_arith, unsigned_arith, agrees. cbn [debug release]. destruct (_ && _); [auto|].
  destruct (debug h); auto.
Qed.
Lemma agrees_i32 h v : agrees (i32_arith h v) (i32_arith (release h) v).
Proof.
  unfold i32_arith, agrees. cbn [debug release]. destruct (_ && _); [auto|].
  destruct (debug h); auto.
Qed.
Lemma agrees_assert h b : agrees (debug_assert h b) (debug_assert (release h) b).
Proof. unfold debug_assert, agrees. cbn [debug release andb]. destruct (_ && _); auto. Qed.
Lemma agrees_read_at h t buf loc : agrees (read_scalar_at h t buf loc) (read_scalar_at (release h) t buf loc).
Proof.
  unfold read_scalar_at. apply agrees_bind; [apply agrees_usize|]. intros e. apply agrees_refl.
Qed.
Lemma agrees_chunks h t n l : chunks (release h) t n l = chunks h t n l.
Proof.
  revert l. induction n as [|n IH]; intros l; [reflexivity|]. cbn [chunks]. rewrite IH. reflexivity.
Qed.

Lemma follow_agrees h t buf : forall loc, agrees (follow h t buf loc) (follow (release h) t buf loc).
Proof.
  assert (K : forall s loc (k : Z -> fval),
            agrees (let* v := read_scalar_at h s buf loc in Val (k v)) (let* v := read_scalar_at (release h) s buf loc in Val (k v))).
  { intros. apply agrees_bind; [apply agrees_read_at|]. intros. apply agrees_refl. }
  induction t; intros loc; cbn [follow]; try apply agrees_refl.
  - destruct t; apply K.
  - apply agrees_bind; [|intros; apply agrees_refl]. unfold follow_str.
    apply agrees_bind; [apply agrees_read_at|]. intros n.
    apply agrees_bind; [apply agrees_usize|]. intros a.
    apply agrees_bind; [apply agrees_usize|]. intros b. apply agrees_refl.
  - apply agrees_bind; [|intros; apply agrees_refl]. unfold follow_slice_helper. cbv zeta.
    apply agrees_bind; [apply agrees_assert|]. intros _.
    apply agrees_bind; [apply agrees_read_at|]. intros n.
    do 3 (apply agrees_bind; [apply agrees_usize|]; intros ?).
    apply agrees_bind; [apply agrees_refl|]. intros l. rewrite agrees_chunks. apply agrees_refl.
  - apply agrees_bind; [apply agrees_usize|]. intros e. apply agrees_bind; [apply agrees_refl|]. intros s.
    apply agrees_bind; [apply agrees_refl|]. intros off. apply agrees_bind; [apply agrees_usize|]. exact IHt.
  - apply agrees_bind; [apply agrees_usize|]. intros e. apply agrees_bind; [apply agrees_refl|]. intros s.
    apply agrees_bind; [apply agrees_refl|]. intros off. apply agrees_bind; [apply agrees_usize|]. exact IHt.
  - apply agrees_bind; [apply agrees_usize|]. intros e. apply agrees_bind; [apply agrees_refl|]. intros s.
    apply agrees_bind; [apply agrees_refl|]. intros off. apply agrees_bind; [apply agrees_i32|]. intros d. apply IHt.
  - apply agrees_bind; [apply agrees_usize|]. exact IHt.
  - apply agrees_bind; [apply agrees_usize|]. exact IHt.
  - apply agrees_bind; [apply agrees_usize|]. exact IHt.
  - apply agrees_bind; [apply agrees_usize|]. intros e. apply agrees_refl.
  - apply agrees_bind; [apply agrees_read_at|]. intros v. apply agrees_refl.
Qed.

Lemma vt_get_agrees h buf vt slot : agrees (vt_get h buf vt slot) (vt_get (release h) buf vt slot).
Proof.
  unfold vt_get. apply agrees_bind; [apply agrees_read_at|]. intros n.
  destruct (n <=? slot); [apply agrees_refl|].
  apply agrees_bind; [apply agrees_usize|]. intros l.
  apply agrees_bind; [apply agrees_read_at|]. intros v. apply agrees_refl.
Qed.

Lemma table_get_agrees h buf tab slot t d :
  agrees (table_get h buf tab slot t d) (table_get (release h) buf tab slot t d).
Proof.
  unfold table_get, table_vtable. apply agrees_bind.
  { apply agrees_bind; [apply follow_agrees|]. intros v. apply agrees_refl. }
  intros vt. apply agrees_bind; [apply vt_get_agrees|]. intros [off|]; [|apply agrees_refl].
  destruct (off =? 0); [apply agrees_refl|].
  apply agrees_bind; [apply agrees_usize|]. intros l.
  apply agrees_bind; [apply follow_agrees|]. intros v. apply agrees_refl.
Qed.

(** ** Fields *)
Lemma table_vtable_release h buf tab :
  debug h = false -> blen buf < 2 ^ 63 -> usize_ok tab ->
  (exists s, soffset_at buf tab s /\ table_vtable h buf tab = Val (signed_target tab s)) \/
  (blen buf < tab + 4 /\ table_vtable h buf tab = Err OutOfBounds).
Proof.
  intros Hh Hm Ht. unfold table_vtable.
  destruct (follow_cases h (FSOffset FVTable) buf Hh Hm eq_refl tab Ht) as [(v & S & E)|(e & F & E)]; rewrite E; cbn [bind].
  - left. destruct S as (s & S & V). cbn [stands] in V. subst v. exists s. split; [exact S|reflexivity].
  - right. destruct F as [[-> F]|(s & _ & [])]. split; [exact F|reflexivity].
Qed.

Lemma field_det buf tab slot t d r r' :
  field_stands buf tab slot t d r -> field_stands buf tab slot t d r' -> r = r'.
Proof.
  intros (s & n & S & N & H) (s' & n' & S' & N' & H').
  rewrite (soffset_unique _ _ _ _ S' S) in *. rewrite (le2 _ _ _ _ N' N) in *.
  destruct H as [[? ->]|(? & o & O & H)], H' as [[? ->]|(? & o' & O' & H')]; try lia; auto.
  rewrite (le2 _ _ _ _ O' O) in *.
  destruct H as [[? ->]|(? & v & V & ->)], H' as [[? ->]|(? & v' & V' & ->)]; try lia; auto.
  f_equal. eapply stands_det; eauto.
Qed.

Lemma field_not_fails buf tab slot t d r e :
  field_stands buf tab slot t d r -> field_fails buf tab slot t e -> False.
Proof.
  intros (s & n & S & N & H) [[_ F]|(s' & S' & F)].
  { apply soffset_in in S. lia. }
  rewrite (soffset_unique _ _ _ _ S' S) in *.
  destruct F as [[_ F]|(n' & N' & L & F)].
  { apply (le_at_in _ _ 2) in N; lia. }
  rewrite (le2 _ _ _ _ N' N) in *.
  destruct H as [[? _]|(_ & o & O & H)]; [lia|].
  destruct F as [[_ F]|(o' & O' & Z0 & F)].
  { apply (le_at_in _ _ 2) in O; lia. }
  rewrite (le2 _ _ _ _ O' O) in *.
  destruct H as [[? _]|(_ & v & V & _)]; [lia|]. eapply stands_not_fails; eauto.
Qed.

Lemma field_fails_det buf tab slot t e e' :
  field_fails buf tab slot t e -> field_fails buf tab slot t e' -> e = e'.
Proof.
  intros [[-> F]|(s & S & F)] [[-> F']|(s' & S' & F')]; auto.
  { apply soffset_in in S'. lia. }
  { apply soffset_in in S. lia. }
  rewrite (soffset_unique _ _ _ _ S' S) in *.
  destruct F as [[-> F]|(n & N & L & F)], F' as [[-> F']|(n' & N' & L' & F')]; auto.
  { apply (le_at_in _ _ 2) in N'; lia. }
  { apply (le_at_in _ _ 2) in N; lia. }
  rewrite (le2 _ _ _ _ N' N) in *.
  destruct F as [[-> F]|(o & O & Z0 & F)], F' as [[-> F']|(o' & O' & Z0' & F')]; auto.
  { apply (le_at_in _ _ 2) in O'; lia. }
  { apply (le_at_in _ _ 2) in O; lia. }
  rewrite (le2 _ _ _ _ O' O) in *. eapply fails_det; eauto.
Qed.

Lemma table_get_cases h buf tab slot t d :
  debug h = false -> blen buf < 2 ^ 63 -> slices_ok h t = true -> usize_ok tab -> 0 <= slot < 2 ^ 16 ->
  (exists r, field_stands buf tab slot t d r /\ table_get h buf tab slot t d = Val r) \/
  (exists e, field_fails buf tab slot t e /\ table_get h buf tab slot t d = Err e).
Proof.
  intros Hh Hm Hs Ht Hslot. unfold table_get.
  destruct (table_vtable_release h buf tab Hh Hm Ht) as [(s & S & E)|[F E]]; rewrite E; cbn [bind].
  2:{ right. eexists. split; [|reflexivity]. left. auto. }
  pose proof (signed_target_ok tab s) as Hv. set (v := signed_target tab s) in *.
  unfold vt_get, vt_num_bytes.
  destruct (read_cases h TU16 buf v Hh Hv Hm) as [(n & C & E1)|[F E1]]; rewrite E1; cbn [bind].
  2:{ right. eexists. split; [|reflexivity]. right. exists s. split; [auto|]. left. split; [auto|exact F]. }
  pose proof (cell_in _ _ _ _ C) as [_ Hb]. change (ssize TU16) with 2 in Hb. apply cell_u16 in C.
  pose proof C as (? & Hn & _). change (256 ^ Z.of_nat 2) with (2 ^ 16) in Hn.
  destruct (n <=? slot) eqn:El; cbn [bind].
  { left. exists d. split; [|reflexivity]. exists s, n. split; [auto|]. split; [auto|]. left. split; [lia|reflexivity]. }
  rewrite usize_arith_ok by lia. cbn [bind].
  destruct (read_cases h TU16 buf (v + slot) Hh ltac:(unfold usize_ok; lia) Hm) as [(o & C2 & E2)|[F E2]]; rewrite E2; cbn [bind].
  2:{ right. eexists. split; [|reflexivity]. right. exists s. split; [auto|]. right. exists n. split; [auto|].
      split; [lia|]. left. split; [auto|]. exact F. }
  apply cell_u16 in C2. pose proof C2 as (_ & Ho & _). change (256 ^ Z.of_nat 2) with (2 ^ 16) in Ho.
  destruct (o =? 0) eqn:Eo.
  { left. exists d. split; [|reflexivity]. exists s, n. split; [auto|]. split; [auto|]. right. split; [lia|].
    exists o. split; [auto|]. left. split; [lia|reflexivity]. }
  pose proof (soffset_in _ _ _ S). unfold usize_ok in Ht.
  rewrite usize_arith_ok by lia. cbn [bind].
  destruct (follow_cases h t buf Hh Hm Hs (tab + o) ltac:(unfold usize_ok; lia)) as [(x & X & E3)|(e & F & E3)]; rewrite E3; cbn [bind].
  - left. exists (Some x). split; [|reflexivity]. exists s, n. split; [auto|]. split; [auto|]. right. split; [lia|].
    exists o. split; [auto|]. right. split; [lia|]. eauto.
  - right. exists e. split; [|reflexivity]. right. exists s. split; [auto|]. right. exists n. split; [auto|].
    split; [lia|]. right. exists o. split; [auto|]. split; [lia|auto].
Qed.

Lemma table_get_exact h buf tab slot t d :
  debug h = false -> blen buf < 2 ^ 63 -> slices_ok h t = true -> usize_ok tab -> 0 <= slot < 2 ^ 16 ->
  (forall r, table_get h buf tab slot t d = Val r <-> field_stands buf tab slot t d r) /\
  (forall e, table_get h buf tab slot t d = Err e <-> field_fails buf tab slot t e) /\
  table_get h buf tab slot t d <> Panic.
Proof.
  intros Hh Hm Hs Hl Hslot.
  destruct (table_get_cases h buf tab slot t d Hh Hm Hs Hl Hslot) as [(v & S & E)|(e & F & E)]; rewrite E.
  - split; [|split].
    + intros w. split; [intros [= <-]; auto|]. intros S'. f_equal. eapply field_det; eauto.
    + intros e. split; [discriminate|]. intros F. exfalso. eapply field_not_fails; eauto.
    + discriminate.
  - split; [|split].
    + intros w. split; [discriminate|]. intros S. exfalso. eapply field_not_fails; eauto.
    + intros e'. split; [intros [= <-]; auto|]. intros F'. f_equal. eapply field_fails_det; eauto.
    + discriminate.
Qed.

(** ** Elements, also past the end *)
Lemma vec_get_exact h t buf v i :
  debug h = false -> blen buf < 2 ^ 63 -> slices_ok h t = true ->
  let loc := (v + 4 + size_of t * i) mod 2 ^ 64 in
  (forall x, vec_get h t buf v i = Val x <-> stands buf t loc x) /\
  (forall e, vec_get h t buf v i = Err e <-> fails buf t loc e) /\
  vec_get h t buf v i <> Panic.
Proof.
  intros Hh Hm Hs loc.
  assert (E : vec_get h t buf v i = follow h t buf loc).
  { unfold vec_get, debug_assert. rewrite Hh. cbn [andb bind]. do 3 (rewrite release_arith by auto; cbn [bind]).
    unfold loc, SIZE_UOFFSET. f_equal. symmetry. apply Z.add_mod. lia. }
  rewrite E. apply follow_exact; auto. apply mod_usize_ok.
Qed.

(** ** The other calls on vtables *)
Lemma vt_num_bytes_exact h buf vt :
  debug h = false -> blen buf < 2 ^ 63 -> usize_ok vt ->
  (forall n, vt_num_bytes h buf vt = Val n <-> le_at buf vt 2 n) /\
  (forall e, vt_num_bytes h buf vt = Err e <-> e = OutOfBounds /\ blen buf < vt + 2) /\
  vt_num_bytes h buf vt <> Panic.
Proof.
  intros Hh Hm Hv. unfold vt_num_bytes.
  destruct (read_cases h TU16 buf vt Hh Hv Hm) as [(n & C & E)|[F E]]; rewrite E.
  - pose proof (cell_in _ _ _ _ C) as [_ Hb]. change (ssize TU16) with 2 in Hb. apply cell_u16 in C.
    split; [|split; [|discriminate]].
    + intros m. split; [intros [= <-]; auto|]. intros M. f_equal. eapply le2; eauto.
    + intros e. split; [discriminate|]. lia.
  - change (ssize TU16) with 2 in F. split; [|split; [|discriminate]].
    + intros m. split; [discriminate|]. intros M. apply (le_at_in _ _ 2) in M; lia.
    + intros e. split; [intros [= <-]; auto|]. intros [-> _]. reflexivity.
Qed.

Lemma vt_object_exact h buf vt :
  debug h = false -> blen buf < 2 ^ 63 -> usize_ok vt ->
  let loc := (vt + 2) mod 2 ^ 64 in
  (forall n, vt_object_inline_num_bytes h buf vt = Val n <-> le_at buf loc 2 n) /\
  (forall e, vt_object_inline_num_bytes h buf vt = Err e <-> e = OutOfBounds /\ blen buf < loc + 2) /\
  vt_object_inline_num_bytes h buf vt <> Panic.
Proof.
  intros Hh Hm Hv loc. unfold vt_object_inline_num_bytes, SIZE_VOFFSET. rewrite release_arith by auto. cbn [bind].
  apply (vt_num_bytes_exact h buf loc Hh Hm). apply mod_usize_ok.
Qed.

Lemma vt_get_exact h buf vt slot :
  debug h = false -> blen buf < 2 ^ 63 -> usize_ok vt -> 0 <= slot < 2 ^ 16 ->
  (forall r, vt_get h buf vt slot = Val r <->
     exists n, le_at buf vt 2 n /\
       ((n <= slot /\ r = None) \/ (slot < n /\ exists off, le_at buf (vt + slot) 2 off /\ r = Some off))) /\
  (forall e, vt_get h buf vt slot = Err e <->
     e = OutOfBounds /\ (blen buf < vt + 2 \/ exists n, le_at buf vt 2 n /\ slot < n /\ blen buf < vt + slot + 2)) /\
  vt_get h buf vt slot <> Panic.
Proof.
  intros Hh Hm Hv Hslot. unfold vt_get, vt_num_bytes.
  destruct (read_cases h TU16 buf vt Hh Hv Hm) as [(n & C & E)|[F E]]; rewrite E; cbn [bind].
  2:{ change (ssize TU16) with 2 in F. split; [|split; [|discriminate]].
      - intros r. split; [discriminate|]. intros (n & N & _). apply (le_at_in _ _ 2) in N; lia.
      - intros e. split; [intros [= <-]; auto|]. intros [-> _]. reflexivity. }
  pose proof (cell_in _ _ _ _ C) as [_ Hb]. change (ssize TU16) with 2 in Hb. apply cell_u16 in C.
  pose proof C as (? & Hn & _). change (256 ^ Z.of_nat 2) with (2 ^ 16) in Hn.
  destruct (n <=? slot) eqn:El.
  { split; [|split; [|discriminate]].
    - intros r. split; [intros [= <-]; exists n; split; [auto|]; left; split; [lia|auto]|].
      intros (m & M & H1). rewrite (le2 _ _ _ _ M C) in *. destruct H1 as [[_ ->]|[? _]]; [reflexivity|lia].
    - intros e. split; [discriminate|]. intros [_ [?|(m & M & ? & _)]]; [lia|].
      rewrite (le2 _ _ _ _ M C) in *. lia. }
  rewrite usize_arith_ok by lia. cbn [bind].
  destruct (read_cases h TU16 buf (vt + slot) Hh ltac:(unfold usize_ok; lia) Hm) as [(o & C2 & E2)|[F E2]]; rewrite E2; cbn [bind].
  - apply cell_u16 in C2. split; [|split; [|discriminate]].
    + intros r. split; [intros [= <-]; exists n; split; [auto|]; right; split; [lia|]; eauto|].
      intros (m & M & H1). rewrite (le2 _ _ _ _ M C) in *. destruct H1 as [[? _]|(_ & o' & O & ->)]; [lia|].
      rewrite (le2 _ _ _ _ O C2). reflexivity.
    + intros e. split; [discriminate|]. intros [_ [?|(m & M & ? & ?)]]; [lia|].
      apply (le_at_in _ _ 2) in C2; lia.
  - change (ssize TU16) with 2 in F. split; [|split; [|discriminate]].
    + intros r. split; [discriminate|]. intros (m & M & H1). rewrite (le2 _ _ _ _ M C) in *.
      destruct H1 as [[? _]|(_ & o' & O & ->)]; [lia|]. apply (le_at_in _ _ 2) in O; lia.
    + intros e. split; [intros [= <-]; split; [auto|]; right; exists n; split; [auto|lia]|]. intros [-> _]. reflexivity.
Qed.

Lemma vt_get_field_exact h buf vt idx :
  debug h = false -> blen buf < 2 ^ 63 -> usize_ok vt -> 0 <= idx < 2 ^ 16 ->
  (forall r, vt_get_field h buf vt idx = Val r <->
     exists n, le_at buf vt 2 n /\
       ((4 <= n /\ n / 2 - 2 < idx /\ r = None) \/
        ((n < 4 \/ idx <= n / 2 - 2) /\ exists off, le_at buf (vt + 4 + 2 * idx) 2 off /\ r = Some off))) /\
  vt_get_field h buf vt idx <> Panic.
Proof.
  intros Hh Hm Hv Hi. unfold vt_get_field, vt_num_fields, vt_num_bytes.
  destruct (read_cases h TU16 buf vt Hh Hv Hm) as [(n & C & E)|[F E]]; rewrite E; cbn [bind].
  2:{ change (ssize TU16) with 2 in F. split; [|discriminate].
      intros r. split; [discriminate|]. intros (n & N & _). apply (le_at_in _ _ 2) in N; lia. }
  pose proof (cell_in _ _ _ _ C) as [_ Hb]. change (ssize TU16) with 2 in Hb. apply cell_u16 in C.
  pose proof C as (? & Hn & _). change (256 ^ Z.of_nat 2) with (2 ^ 16) in Hn. unfold SIZE_VOFFSET.
  pose proof (Z.div_mod n 2 ltac:(lia)). pose proof (Z.mod_pos_bound n 2 ltac:(lia)).
  assert (K : (let* nf := usize_arith h (n / 2 - 2) in Val (nf <? idx)) = Val ((4 <=? n) && (n / 2 - 2 <? idx))).
  { rewrite release_arith by auto. cbn [bind]. f_equal. destruct (4 <=? n) eqn:E4.
    - rewrite Z.mod_small by lia. reflexivity.
    - rewrite mod_neg by lia. cbn [andb]. lia. }
  rewrite release_arith in * by auto. cbn [bind] in *.
  assert (K' : ((n / 2 - 2) mod 2 ^ 64 <? idx) = (4 <=? n) && (n / 2 - 2 <? idx)) by congruence.
  rewrite K'. clear K K'.
  destruct ((4 <=? n) && (n / 2 - 2 <? idx)) eqn:El.
  { split; [|discriminate].
    intros r. split; [intros [= <-]; exists n; split; [auto|]; left; split; [lia|split; [lia|auto]]|].
    intros (m & M & H3). rewrite (le2 _ _ _ _ M C) in *. destruct H3 as [(_ & _ & ->)|[? _]]; [reflexivity|lia]. }
  rewrite usize_arith_ok by lia. cbn [bind]. rewrite usize_arith_ok by lia. cbn [bind].
  rewrite usize_arith_ok by lia. cbn [bind]. rewrite usize_arith_ok by lia. cbn [bind].
  replace (vt + 2 + 2 + 2 * idx) with (vt + 4 + 2 * idx) by lia.
  destruct (read_cases h TU16 buf (vt + 4 + 2 * idx) Hh ltac:(unfold usize_ok; lia) Hm) as [(o & C2 & E2)|[F E2]]; rewrite E2; cbn [bind].
  - apply cell_u16 in C2. split; [|discriminate].
    intros r. split; [intros [= <-]; exists n; split; [auto|]; right; split; [lia|]; eauto|].
    intros (m & M & H3). rewrite (le2 _ _ _ _ M C) in *. destruct H3 as [(? & ? & _)|(_ & o' & O & ->)]; [lia|].
    rewrite (le2 _ _ _ _ O C2). reflexivity.
  - change (ssize TU16) with 2 in F. split; [|discriminate].
    intros r. split; [discriminate|]. intros (m & M & H3). rewrite (le2 _ _ _ _ M C) in *.
    destruct H3 as [(? & ? & _)|(_ & o' & O & ->)]; [lia|]. apply (le_at_in _ _ 2) in O; lia.
Qed.

Lemma vt_as_bytes_exact h buf vt :
  debug h = false -> blen buf < 2 ^ 63 -> usize_ok vt ->
  (forall bs, vt_as_bytes h buf vt = Val bs <-> le_at buf vt 2 (blen bs) /\ bytes_at buf vt bs) /\
  (forall e, vt_as_bytes h buf vt = Err e <->
     e = OutOfBounds /\ (blen buf < vt + 2 \/ exists n, le_at buf vt 2 n /\ blen buf < vt + n)) /\
  vt_as_bytes h buf vt <> Panic.
Proof.
  intros Hh Hm Hv. unfold vt_as_bytes, vt_num_bytes.
  destruct (read_cases h TU16 buf vt Hh Hv Hm) as [(n & C & E)|[F E]]; rewrite E; cbn [bind].
  2:{ change (ssize TU16) with 2 in F. split; [|split; [|discriminate]].
      - intros r. split; [discriminate|]. intros (N & _). apply (le_at_in _ _ 2) in N; lia.
      - intros e. split; [intros [= <-]; auto|]. intros [-> _]. reflexivity. }
  pose proof (cell_in _ _ _ _ C) as [_ Hb]. change (ssize TU16) with 2 in Hb. apply cell_u16 in C.
  pose proof C as (? & Hn & _). change (256 ^ Z.of_nat 2) with (2 ^ 16) in Hn.
  rewrite usize_arith_ok by lia. cbn [bind].
  destruct (get_range buf vt (vt + n)) as [x|] eqn:G; cbn [ok_or].
  - destruct (get_range_blen buf vt _ x ltac:(lia) G) as [Bx Rx].
    assert (Bn : n = blen x) by lia. subst n.
    destruct (proj2 (bytes_at_get_range buf vt x) (conj (proj1 Hv) G)) as [B _].
    split; [|split; [|discriminate]].
    + intros bs. split; [intros [= <-]; auto|]. intros [L1 L2]. f_equal.
      eapply bytes_at_det; eauto. pose proof (le2 _ _ _ _ C L1) as Q. unfold blen in Q. lia.
    + intros e. split; [discriminate|]. intros [_ [?|(m & M & ?)]]; [lia|].
      rewrite (le2 _ _ _ _ M C) in *. lia.
  - apply get_range_None_iff in G. split; [|split; [|discriminate]].
    + intros bs. split; [discriminate|]. intros [L1 L2]. pose proof (le2 _ _ _ _ C L1) as Q.
      destruct bs as [|b bs]; [change (blen (@nil byte)) with 0 in Q; lia|].
      apply bytes_at_len in L2; [lia|discriminate].
    + intros e. split; [intros [= <-]; split; [auto|]; right; exists n; split; [auto|lia]|]. intros [-> _]. reflexivity.
Qed.

(** ** File identifiers *)
Lemma has_identifier_exact h data ident (sized : bool) :
  blen ident = 4 -> blen data < 2 ^ 63 ->
  let loc := if sized then 8 else 4 in
  (buffer_has_identifier h data ident sized = Val true <-> bytes_at data loc ident) /\
  (buffer_has_identifier h data ident sized = Val false <-> loc + 4 <= blen data /\ ~ bytes_at data loc ident) /\
  (forall e, buffer_has_identifier h data ident sized = Err e <-> e = OutOfBounds /\ blen data < loc + 4) /\
  buffer_has_identifier h data ident sized <> Panic.
Proof.
  intros Hi Hm loc. unfold buffer_has_identifier, FILE_IDENTIFIER_LENGTH. rewrite Hi. cbn [assert_always bind Z.eqb].
  assert (E : follow h (if sized then FSkipSizePrefix (FSkipRootOffset FFileIdentifier) else FSkipRootOffset FFileIdentifier) data 0 =
              let* s := ok_or (get_range data loc (loc + 4)) OutOfBounds in Val (VIdent s)).
  { unfold loc. destruct sized; cbn [follow]; unfold SIZE_UOFFSET, FILE_IDENTIFIER_LENGTH;
      repeat (rewrite usize_arith_ok by lia; cbn [bind]); reflexivity. }
  change (Pos.eqb 4 4) with true. cbn [assert_always bind]. rewrite E. clear E.
  assert (Hl : 0 <= loc) by (unfold loc; destruct sized; lia).
  destruct (get_range data loc (loc + 4)) as [x|] eqn:G; cbn [ok_or bind].
  - destruct (get_range_blen _ _ _ _ Hl G) as [Bx Rx].
    assert (B : bytes_at data loc x).
    { replace (loc + 4) with (loc + blen x) in G by lia. exact (proj1 (proj2 (bytes_at_get_range data loc x) (conj Hl G))). }
    assert (K : bytes_eqb ident x = true <-> bytes_at data loc ident).
    { rewrite bytes_eqb_eq. split; [intros ->; auto|]. intros B'. eapply bytes_at_det; eauto. unfold blen in *. lia. }
    split; [|split; [|split; [|discriminate]]].
    + rewrite <- K. split; [intros [= ->]; auto|intros ->; auto].
    + rewrite <- K. destruct (bytes_eqb ident x); split.
      * discriminate.
      * intros [_ H]. exfalso. apply H. reflexivity.
      * intros _. split; [lia|discriminate].
      * reflexivity.
    + intros e. split; [discriminate|lia].
  - apply get_range_None_iff in G. split; [|split; [|split; [|discriminate]]].
    + split; [discriminate|]. intros B. apply bytes_at_len in B; [lia|]. intros ->. discriminate.
    + split; [discriminate|]. lia.
    + intros e. split; [intros [= <-]; split; [auto|lia]|]. intros [-> _]. reflexivity.
Qed.

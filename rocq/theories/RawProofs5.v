(** When the accesses of the builder are aligned. *)
From Coq Require Import ZArith List Bool Lia Strings.Byte ZifyBool ZifyNat ZifyN.
From Verif Require Import Base Scalar Utf8 Reader Client Raw Builder Ops RawBuilder SpecRaw SpecWire SpecBuilder BaseFacts ScalarFacts ReaderFacts
  Abstract Refine Refine2 Build1 Build3 Build6 GrowthProofs RawProofs1 RawProofs3 RawProofs4.
Import ListNotations.
Local Open Scope Z_scope.

Lemma ssize_cases t : ssize t = 1 \/ ssize t = 2 \/ ssize t = 4 \/ ssize t = 8.
Proof. destruct t; cbn; auto. Qed.
Lemma mod_of_mod8 x s : s = 1 \/ s = 2 \/ s = 4 \/ s = 8 -> x mod 8 = 0 -> x mod s = 0.
Proof.
  intros S X. apply Z.mod_divide in X; [|lia]. destruct X as [q ->]. destruct S as [->|[->|[->| ->]]].
  - apply Z.mod_1_r.
  - replace (q * 8) with (q * 4 * 2) by lia. apply Z.mod_mul; lia.
  - replace (q * 8) with (q * 2 * 4) by lia. apply Z.mod_mul; lia.
  - apply Z.mod_mul; lia.
Qed.
Lemma pow_mod k s : 0 <= k -> s = 1 \/ s = 2 \/ s = 4 \/ s = 8 -> s <= 2 ^ k -> 2 ^ k mod s = 0.
Proof.
  intros K S L.
  assert (X : exists j, 0 <= j /\ s = 2 ^ j).
  { destruct S as [->|[->|[->| ->]]]; [exists 0|exists 1|exists 2|exists 3]; split; try lia; reflexivity. }
  destruct X as (j & J & ->). assert (j <= k) by (apply (Z.pow_le_mono_r_iff 2); lia).
  replace (2 ^ k) with (2 ^ (k - j) * 2 ^ j) by (rewrite <- Z.pow_add_r by lia; f_equal; lia).
  apply Z.mod_mul. pose proof (Z.pow_pos_nonneg 2 j). lia.
Qed.
Lemma good_room c room s : good_capacity c -> doubles c room -> s = 1 \/ s = 2 \/ s = 4 \/ s = 8 -> s <= room -> room mod s = 0.
Proof.
  intros G (k & K & D) S L. assert (P : 0 < 2 ^ k) by (apply Z.pow_pos_nonneg; lia).
  assert (E : (exists j, 0 <= j /\ room = 2 ^ j) \/ room mod 8 = 0).
  { destruct D as [-> | [-> ->]]; [|left; exists k; auto].
    destruct G as [-> |[-> |[-> |[-> |G]]]].
    - right. reflexivity.
    - left. exists k. split; [auto|lia].
    - left. exists (1 + k). split; [lia|]. rewrite Z.pow_add_r by lia. reflexivity.
    - left. exists (2 + k). split; [lia|]. rewrite Z.pow_add_r by lia. reflexivity.
    - right. rewrite Zmult_mod, G. reflexivity. }
  destruct E as [(j & J & ->)|E]; [apply pow_mod; auto|apply mod_of_mod8; auto].
Qed.

Lemma build_aligned h c os : 0 <= c -> good_capacity c -> Forall plain_call os -> Forall aligned (did (w_program h c os)).
Proof.
  intros C G O. eapply (runs_did aligned eq). apply (program_runs h c true aligned); auto.
  - intros k at_ n room _ _ _ base _. cbn [aligned_at ssize]. apply Z.mod_1_r.
  - intros k t at_ room A B Q base Hb. destruct (Q eq_refl) as [Q1 Q2]. cbn [aligned_at].
    pose proof (ssize_cases t) as S. pose proof (ssize_pos t).
    pose proof (good_room c room (ssize t) G Q2 S ltac:(lia)) as R. pose proof (mod_of_mod8 base (ssize t) S Hb) as R2.
    rewrite Zplus_mod, R2, Z.add_0_l, Z.mod_mod by lia.
    replace at_ with (room - (room - at_)) by lia. rewrite Zminus_mod, R, Q1. apply Z.mod_0_l. lia.
  - discriminate.
  - clear - O. induction O as [|o os [Oo _] _ IH]; [reflexivity|]. cbn [forallb]. rewrite Oo. exact IH.
  - clear - O. eapply Forall_impl; [|exact O]. intros o [_ H] _. destruct o; cbn in *; auto; contradiction.
Qed.

(** One push into a fresh builder that is large enough. *)
Lemma tbind_val {A B} (a : A) (f : A -> traced B) : tbind (quiet (Val a)) f = f a.
Proof. unfold tbind, tthen, quiet, did, result. cbv zeta. cbn [fst snd app]. destruct (f a). reflexivity. Qed.
Lemma tbind_one {A B} x (a : A) (f : A -> traced B) : tbind (x, Val a) f = (x ++ did (f a), result (f a)).
Proof. reflexivity. Qed.
Lemma push_fresh h c t : ssize t <= c <= MAX_BUFFER_SIZE ->
  did (w_program h c [OpPush (PScalar t 0)]) = [Access Store t (c - ssize t) 1 c].
Proof.
  intros [L M]. pose proof (ssize_pos t) as S. pose proof (ssize_le8 t) as S8. unfold MAX_BUFFER_SIZE in M.
  unfold w_program, new_with_capacity. unfold MAX_BUFFER_SIZE. replace (c <=? _) with true by lia. cbn [assert_always bind].
  rewrite tbind_val. cbn [w_run w_step]. set (b := Builder (zeros c) c [] [] false false 0).
  assert (EP : exists b', w_push h b (PScalar t 0) = ([Access Store t (c - ssize t) 1 c], Val b')).
  { unfold w_push. cbv zeta. cbn [push_size push_alignment].
    assert (EA : w_align h b (ssize t) (salign t) = quiet (Val (set_buf (set_min_align b (Z.max 0 (salign t))) (zeros c) c))).
    { unfold w_align, used_space, b. cbn [set_min_align owned_buf head min_align]. rewrite blen_zeros.
      replace (Z.max 0 c - c + ssize t) with (ssize t) by lia. rewrite usize_arith_ok by lia.
      assert (P : padding_bytes (ssize t) (salign t) = 0) by (destruct t; reflexivity).
      rewrite tbind_val, P. unfold w_make_space, w_ensure_capacity. cbn [head set_min_align]. replace (0 <=? c) with true by lia. cbv iota.
      rewrite tbind_val. cbn [owned_buf head set_min_align]. rewrite Z.sub_0_r. reflexivity. }
    rewrite EA, tbind_val. clear EA. set (b1 := set_buf _ _ _).
    assert (ES : w_make_space h b1 (ssize t) = quiet (Val (set_buf b1 (zeros c) (c - ssize t)))).
    { unfold w_make_space, w_ensure_capacity. subst b1 b. cbn [head set_buf set_min_align]. replace (ssize t <=? c) with true by lia. cbv iota. rewrite tbind_val; reflexivity. }
    rewrite ES, tbind_val. clear ES. set (b2 := set_buf b1 _ _).
    assert (EU : w_unfinished b2 = Val (Region (zeros c) (c - ssize t) c)).
    { unfold w_unfinished, region_index, region_get, region_len, whole_of. cbn [mem from upto b2 set_buf owned_buf head]. rewrite blen_zeros.
      replace (_ && _) with true by lia. cbn [expect_some]. do 2 f_equal; lia. }
    rewrite EU, tbind_val. unfold region_len. cbn [from upto mem]. replace (ssize t <=? c - (c - ssize t)) with true by lia. cbn [assert_always]. rewrite tbind_val.
    cbn [w_push_into]. unfold r_emplace_scalar, region_index, region_get, region_len. cbn [from upto mem]. replace (_ && _) with true by lia. cbn [expect_some].
    rewrite tbind_val. unfold assign. cbn [from upto mem]. rewrite tbind_one. rewrite blen_zeros, Z.add_0_r. replace (Z.max 0 c) with c by lia.
    eexists. reflexivity. }
  destruct EP as ([b' o] & EP). unfold w_num. rewrite EP. reflexivity.
Qed.

Lemma aligned_capacity c : 0 <= c <= MAX_BUFFER_SIZE ->
  (forall h os, Forall plain_call os -> Forall aligned (did (w_program h c os))) -> good_capacity c.
Proof.
  intros C H.
  assert (W : forall t, ssize t <= c -> c mod ssize t = 0).
  { intros t L. assert (O : Forall plain_call [OpPush (PScalar t 0)]) by (constructor; [split; [destruct t; reflexivity|exact I]|constructor]).
    specialize (H (Host false false) _ O). rewrite push_fresh in H by lia. inversion H as [|? ? A _]; subst. specialize (A 0 eq_refl). cbn in A.
    pose proof (ssize_pos t). rewrite Zminus_mod, Z.mod_same, Z.sub_0_r, Z.mod_mod in A by lia. exact A. }
  pose proof (W TU16) as W2. pose proof (W TU32) as W4. pose proof (W TU64) as W8. cbn [ssize] in *. unfold good_capacity.
  destruct (Z_le_gt_dec 8 c) as [|g]; [auto 6|]. 
  assert (c = 0 \/ c = 1 \/ c = 2 \/ c = 3 \/ c = 4 \/ c = 5 \/ c = 6 \/ c = 7) as Q by (clear - C g; lia).
  destruct Q as [->|[->|[->|[->|[->|[->|[->| ->]]]]]]]; auto 6; exfalso; first [discriminate (W2 ltac:(lia)) | discriminate (W4 ltac:(lia))].
Qed.

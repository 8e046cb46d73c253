(** What each call of the abstract machine writes. *)
From Coq Require Import ZArith List Bool Lia Strings.Byte ZifyBool ZifyNat ZifyN.
From Verif Require Import Base Scalar Reader Builder Ops Abstract BaseFacts ScalarFacts Refine Refine2.
Import ListNotations.
Local Open Scope Z_scope.

(** The alignments in use. *)
Definition pow8 (al : Z) : Prop := al = 1 \/ al = 2 \/ al = 4 \/ al = 8.

Lemma salign_pow8 t : pow8 (salign t).
Proof. unfold pow8. destruct t; cbn; auto. Qed.
Lemma push_alignment_pow8 x : pow8 (push_alignment x).
Proof. destruct x; [apply salign_pow8|]. cbn. unfold pow8. lia. Qed.
Lemma pty_align_pow8 x : pow8 (pty_align x).
Proof. destruct x; [apply salign_pow8|]. cbn. unfold pow8. lia. Qed.
Lemma max4_pow8 al : pow8 al -> pow8 (Z.max al SIZE_UOFFSET).
Proof. unfold pow8, SIZE_UOFFSET. lia. Qed.

Lemma padding_pow n k : 0 <= k <= 63 -> padding_bytes (n mod 2 ^ 64) (2 ^ k) = (- n) mod 2 ^ k.
Proof.
  intros Hk. unfold padding_bytes.
  assert (H1 : 1 <= 2 ^ k) by (pose proof (Z.pow_pos_nonneg 2 k); lia).
  assert (H2 : 2 ^ k <= 2 ^ 63) by (apply Z.pow_le_mono_r; lia).
  rewrite (Z.mod_small (2 ^ k - 1)) by lia.
  replace (2 ^ k - 1) with (Z.ones k) by (rewrite Z.ones_equiv; lia).
  rewrite Z.land_ones by lia.
  assert (E : 2 ^ 64 = 2 ^ (64 - k) * 2 ^ k) by (rewrite <- Z.pow_add_r by lia; f_equal; lia).
  assert (D : forall x, (x mod 2 ^ 64) mod 2 ^ k = x mod 2 ^ k).
  { intros x. rewrite (Z.mod_eq x (2 ^ 64)) by lia. rewrite E at 1.
    replace (x - 2 ^ (64 - k) * 2 ^ k * (x / 2 ^ 64)) with (x + (- (2 ^ (64 - k)) * (x / 2 ^ 64)) * 2 ^ k) by ring.
    apply Z.mod_add. lia. }
  rewrite D.
  replace (2 ^ 64 - 1 - n mod 2 ^ 64 + 1) with (- (n mod 2 ^ 64) + 2 ^ (64 - k) * 2 ^ k) by lia.
  rewrite Z.mod_add by lia.
  rewrite <- !Z.sub_0_l. rewrite Zminus_mod, D, <- Zminus_mod. reflexivity.
Qed.

Lemma padding_pow8 n al : pow8 al -> padding_bytes (n mod 2 ^ 64) al = (- n) mod al.
Proof.
  intros [->|[->|[->| ->]]].
  - apply (padding_pow n 0). lia.
  - apply (padding_pow n 1). lia.
  - apply (padding_pow n 2). lia.
  - apply (padding_pow n 3). lia.
Qed.

Lemma usize_arith_mod h n x : usize_arith h n = Val x -> x = n mod 2 ^ 64.
Proof.
  unfold usize_arith, unsigned_arith. destruct (_ && _) eqn:E; intros H.
  - injection H as <-. rewrite Z.mod_small; lia.
  - destruct (debug h); [discriminate|]. injection H as <-. reflexivity.
Qed.

Section Effects.
Context (lim : bool) (h : host).

Lemma room_val d want u : room lim d want = Val u -> blen d + want < 2 ^ 63.
Proof.
  unfold room, assert_always. destruct lim.
  - destruct (_ && _) eqn:E; [|discriminate]. lia.
  - destruct (_ <? _) eqn:E; [|discriminate]. lia.
Qed.

(** The bytes of padding before [len] bytes aligned to [al]. *)
Definition gap (d : list byte) (len al : Z) : Z := (- (blen d + len)) mod al.

Lemma gap_range d len al : pow8 al -> 0 <= gap d len al < al.
Proof. intros H. apply Z.mod_pos_bound. unfold pow8 in H. lia. Qed.

Lemma gap_aligns d len al : pow8 al -> (gap d len al + blen d + len) mod al = 0.
Proof.
  intros H. unfold gap. assert (al <> 0) by (unfold pow8 in H; lia).
  replace ((- (blen d + len)) mod al + blen d + len) with ((- (blen d + len)) mod al + (blen d + len)) by lia.
  rewrite Zplus_mod_idemp_l. replace (- (blen d + len) + (blen d + len)) with 0 by lia.
  apply Z.mod_0_l. auto.
Qed.

Lemma a_space_val a want a' : a_space lim a want = Val a' ->
  a' = with_data a (zeros want ++ a_data a) /\ blen (a_data a) + want < 2 ^ 63.
Proof.
  unfold a_space. intros H. apply bind_Val in H as (u & Hr & H). injection H as <-.
  split; [reflexivity|]. eapply room_val; eauto.
Qed.

Lemma a_pad_val a len al a' : pow8 al -> a_pad lim h a len al = Val a' ->
  a' = with_data (with_align a (Z.max (a_align a) al)) (zeros (gap (a_data a) len al) ++ a_data a) /\
  blen (a_data a') < 2 ^ 63.
Proof.
  intros Hal H. unfold a_pad in H. apply bind_Val in H as (n & Hn & H).
  apply usize_arith_mod in Hn. subst n. apply a_space_val in H as [-> H].
  rewrite padding_pow8 in * by auto. cbn [with_align with_data a_data] in *. split; [reflexivity|].
  pose proof (gap_range (a_data a) len al Hal). unfold gap in *.
  rewrite blen_app, blen_zeros. lia.
Qed.

(** The bytes of a pushed value in front of [n] written bytes. *)
Definition pbytes (x : pval) (n : Z) : list byte :=
  match x with
  | PScalar t v => wire t v
  | POffset o => wire TU32 (4 + n - o)
  end.

Lemma blen_pbytes x n : blen (pbytes x n) = push_size x.
Proof. destruct x; cbn [pbytes push_size]; rewrite blen_wire; reflexivity. Qed.

Lemma wire_mod t v w : v mod 2 ^ (8 * ssize t) = w mod 2 ^ (8 * ssize t) -> wire t v = wire t w.
Proof.
  intros H. unfold wire. rewrite <- (le_encode_mod _ v), <- (le_encode_mod _ w), !snat_size.
  congruence.
Qed.

Lemma push_into_val x d w :
  push_into h x (zeros (push_size x)) d = Val w -> w = pbytes x (blen d).
Proof.
  assert (Hz : forall t, blen (zeros (ssize t)) = ssize t).
  { intros t. rewrite blen_zeros. pose proof (ssize_pos t). lia. }
  destruct x as [t v|o]; cbn [push_into push_size pbytes]; intros H.
  - rewrite emplace_scalar_exact in H by auto. congruence.
  - apply bind_Val in H as (n & Hn & H). apply usize_arith_mod in Hn.
    rewrite (emplace_scalar_exact h TU32) in H by auto.
    apply (f_equal (fun r => match r with Val x => x | _ => [] end)) in H. rewrite <- H.
    apply wire_mod. subst n. unfold as_u32, SIZE_UOFFSET. cbn [ssize]. change (8 * 4) with 32.
    rewrite Z.mod_mod by lia.
    set (k := 4 + blen d - o). pose proof (Z.div_mod k (2 ^ 64)).
    replace (k mod 2 ^ 64) with (k + (- (2 ^ 32) * (k / 2 ^ 64)) * 2 ^ 32) by lia.
    apply Z.mod_add. lia.
Qed.

Lemma push_into_total x d : debug h = false -> exists w, push_into h x (zeros (push_size x)) d = Val w.
Proof.
  intros Hd. assert (Hz : forall t, blen (zeros (ssize t)) = ssize t).
  { intros t. rewrite blen_zeros. pose proof (ssize_pos t). lia. }
  destruct x as [t v|o]; cbn [push_into push_size].
  - rewrite emplace_scalar_exact by auto. eauto.
  - unfold usize_arith, unsigned_arith. rewrite Hd.
    destruct (_ && _); cbn [bind]; rewrite (emplace_scalar_exact h TU32) by auto; eauto.
Qed.

Definition pushed (a : astate) (x : pval) : astate :=
  let al := push_alignment x in
  let d := zeros (gap (a_data a) (push_size x) al) ++ a_data a in
  with_data (with_align a (Z.max (a_align a) al)) (pbytes x (blen d) ++ d).

Lemma a_push_val a x a' o : a_push lim h a x = Val (a', o) ->
  a' = pushed a x /\ o = as_u32 (blen (a_data a')) /\ blen (a_data a') < 2 ^ 63.
Proof.
  intros H. unfold a_push in H. apply bind_Val in H as (a1 & H1 & H).
  apply bind_Val in H as (u & Hr & H). apply bind_Val in H as (w & Hw & H).
  apply push_into_val in Hw. subst w. injection H as <- <-.
  apply a_pad_val in H1 as [-> H1]; [|apply push_alignment_pow8].
  apply room_val in Hr. split; [reflexivity|]. split; [reflexivity|].
  cbn [with_data a_data] in *. rewrite blen_app, blen_pbytes. lia.
Qed.

Lemma blen_pushed a x :
  blen (a_data (pushed a x)) =
  push_size x + gap (a_data a) (push_size x) (push_alignment x) + blen (a_data a).
Proof.
  unfold pushed. cbn [with_data a_data]. rewrite !blen_app, blen_pbytes, blen_zeros.
  pose proof (gap_range (a_data a) (push_size x) _ (push_alignment_pow8 x)). lia.
Qed.

Lemma pushed_aligned a x : blen (a_data (pushed a x)) mod push_alignment x = 0.
Proof.
  rewrite blen_pushed.
  pose proof (gap_aligns (a_data a) (push_size x) _ (push_alignment_pow8 x)) as G.
  rewrite <- G. f_equal. lia.
Qed.

Lemma a_bytes_val a x a' : a_bytes lim a x = Val a' ->
  a' = with_data a (x ++ a_data a) /\ blen (a_data a') < 2 ^ 63.
Proof.
  unfold a_bytes. intros H. apply bind_Val in H as (u & Hr & H). injection H as <-.
  apply room_val in Hr. split; [reflexivity|]. cbn. rewrite blen_app. lia.
Qed.

Lemma a_push_all_val l : forall a a',
  a_push_all lim h a l = Val a' -> a' = fold_left pushed l a.
Proof.
  induction l as [|x l IH]; intros a a' H; cbn [a_push_all fold_left] in *.
  - congruence.
  - apply bind_Val in H as ([a1 o] & H1 & H). apply a_push_val in H1 as (-> & _). auto.
Qed.
End Effects.

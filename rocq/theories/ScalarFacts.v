(** Facts about Scalar.v. *)
From Coq Require Import ZArith List Bool Lia Strings.Byte ZifyBool ZifyNat ZifyN.
From Verif Require Import Base Scalar BaseFacts.
Import ListNotations.
Local Open Scope Z_scope.

Lemma ssize_cases t : ssize t = 1 \/ ssize t = 2 \/ ssize t = 4 \/ ssize t = 8.
Proof. destruct t; simpl; lia. Qed.
Lemma ssize_pos t : 0 < ssize t.
Proof. destruct t; simpl; lia. Qed.
Lemma ssize_le8 t : ssize t <= 8.
Proof. destruct t; simpl; lia. Qed.
Lemma snat_size t : Z.of_nat (snat t) = ssize t.
Proof. destruct t; reflexivity. Qed.

Lemma swap_length n b : length (rev (le_encode n b)) = n.
Proof. rewrite rev_length. apply le_encode_length. Qed.

Lemma le_encode_swap n b : le_encode n (swap_bytes n b) = rev (le_encode n b).
Proof.
  unfold swap_bytes. rewrite <- (swap_length n b) at 1. apply le_encode_decode.
Qed.

(** What reaches memory does not depend on the host. *)
Lemma store_to_le h t b : store h (snat t) (to_little_endian h t b) = le_encode (snat t) b.
Proof.
  unfold store, to_little_endian.
  destruct (big_endian h); [|destruct t; reflexivity].
  destruct t; try (rewrite le_encode_swap, rev_involutive; reflexivity);
    reflexivity.
Qed.

Lemma from_le_load h t l :
  length l = snat t -> from_little_endian h t (load h l) = le_decode l.
Proof.
  intros Hl. unfold load, from_little_endian.
  destruct (big_endian h); [|destruct t; reflexivity].
  assert (Hswap : swap_bytes (snat t) (le_decode (rev l)) = le_decode l).
  { unfold swap_bytes. rewrite <- Hl, <- (rev_length l), le_encode_decode, rev_involutive.
    reflexivity. }
  assert (H1 : snat t = 1%nat -> le_decode (rev l) = le_decode l).
  { intros E. rewrite E in Hl. destruct l as [|x [|y l]]; try discriminate. reflexivity. }
  destruct t; auto.
Qed.

Definition wire (t : sty) (v : Z) : list byte := le_encode (snat t) v.

Lemma blen_wire t v : blen (wire t v) = ssize t.
Proof. unfold wire. rewrite blen_le_encode. apply snat_size. Qed.

Lemma wire_bits t v : le_encode (snat t) (bits_of t v) = wire t v.
Proof. unfold bits_of, wire. rewrite <- snat_size. apply le_encode_mod. Qed.

Lemma emplace_scalar_ok h t d r v :
  blen d = ssize t -> emplace_scalar h t (d ++ r) v = Val (wire t v ++ r).
Proof.
  intros Hd. unfold emplace_scalar. rewrite store_to_le, wire_bits.
  change (d ++ r) with ([] ++ d ++ r).
  rewrite write_range_ok; auto; rewrite ?blen_wire, ?blen_nil; auto; lia.
Qed.

Lemma emplace_scalar_exact h t d v :
  blen d = ssize t -> emplace_scalar h t d v = Val (wire t v).
Proof.
  intros Hd. rewrite <- (app_nil_r d), emplace_scalar_ok by auto.
  rewrite app_nil_r. reflexivity.
Qed.

Lemma emplace_scalar_short h t d v :
  blen d < ssize t -> emplace_scalar h t d v = Panic.
Proof.
  intros Hd. unfold emplace_scalar, write_range.
  pose proof (ssize_pos t).
  replace (ssize t <=? blen d) with false by lia.
  rewrite andb_false_r. reflexivity.
Qed.

Definition scalar_of (t : sty) (x : list byte) : Z := of_bits t (le_decode x).

Lemma read_scalar_ok h t x r :
  blen x = ssize t -> read_scalar h t (x ++ r) = Val (scalar_of t x).
Proof.
  intros Hx. unfold read_scalar. rewrite get_range_head by auto. cbn.
  rewrite from_le_load; [reflexivity|].
  unfold blen in Hx. pose proof (snat_size t). lia.
Qed.

Lemma read_scalar_exact h t x :
  blen x = ssize t -> read_scalar h t x = Val (scalar_of t x).
Proof. intros. rewrite <- (app_nil_r x) at 1. apply read_scalar_ok. auto. Qed.

Lemma read_scalar_short h t x :
  blen x < ssize t -> read_scalar h t x = Err OutOfBounds.
Proof.
  intros. unfold read_scalar.
  replace (get_range x 0 (ssize t)) with (@None (list byte)); [reflexivity|].
  symmetry. apply get_range_None_iff. lia.
Qed.

Lemma read_scalar_at_ok h t buf loc x :
  0 <= loc -> blen buf < 2 ^ 64 -> get_range buf loc (loc + ssize t) = Some x ->
  read_scalar_at h t buf loc = Val (scalar_of t x).
Proof.
  intros Hl Hb H. pose proof (get_range_blen _ _ _ _ Hl H) as [Hx Hr].
  unfold read_scalar_at. rewrite usize_arith_ok by (pose proof (ssize_pos t); lia).
  cbn. rewrite H. cbn. apply read_scalar_exact. lia.
Qed.

(** Any location: a value inside, [OutOfBounds] outside, and a panic only when
    the end of the range overflows in a debug build. *)
Lemma read_scalar_at_spec h t buf loc :
  0 <= loc < 2 ^ 64 -> blen buf < 2 ^ 63 ->
  read_scalar_at h t buf loc =
    match get_range buf loc (loc + ssize t) with
    | Some x => Val (scalar_of t x)
    | None => if debug h && (2 ^ 64 <=? loc + ssize t) then Panic else Err OutOfBounds
    end.
Proof.
  intros Hl Hb.
  destruct (get_range buf loc (loc + ssize t)) as [x|] eqn:E.
  - apply read_scalar_at_ok; auto; lia.
  - apply get_range_None_iff in E. pose proof (ssize_pos t). pose proof (ssize_le8 t).
    unfold read_scalar_at, usize_arith, unsigned_arith.
    destruct (loc + ssize t <? 2 ^ 64) eqn:E1.
    + replace (0 <=? loc + ssize t) with true by lia. cbn [andb bind].
      replace (2 ^ 64 <=? loc + ssize t) with false by lia. rewrite andb_false_r.
      replace (get_range buf loc (loc + ssize t)) with (@None (list byte)); [reflexivity|].
      symmetry. apply get_range_None_iff. lia.
    + replace (0 <=? loc + ssize t) with true by lia. cbn [andb].
      replace (2 ^ 64 <=? loc + ssize t) with true by lia. rewrite andb_true_r.
      destruct (debug h); [reflexivity|]. cbn [bind].
      replace (get_range buf loc ((loc + ssize t) mod 2 ^ 64)) with (@None (list byte)); [reflexivity|].
      symmetry. apply get_range_None_iff. left.
      replace ((loc + ssize t) mod 2 ^ 64) with (loc + ssize t - 2 ^ 64);
        [lia|].
      rewrite <- (Z.mod_small (loc + ssize t - 2 ^ 64) (2 ^ 64)) by lia.
      replace (loc + ssize t - 2 ^ 64) with (loc + ssize t + (-1) * 2 ^ 64) by lia.
      apply Z.mod_add. lia.
Qed.

Lemma mod_neg v w : - w <= v < 0 -> v mod w = v + w.
Proof.
  intros. rewrite <- (Z.mod_small (v + w) w) by lia.
  replace (v + w) with (v + 1 * w) at 1 by lia. rewrite Z.mod_add by lia. reflexivity.
Qed.

Lemma scalar_of_wire t v : valid_scalar t v = true -> scalar_of t (wire t v) = v.
Proof.
  intros Hv. unfold scalar_of, wire. rewrite le_decode_encode, snat_size.
  unfold of_bits.
  assert (Hp : 2 ^ (8 * ssize t) = 2 * 2 ^ (8 * ssize t - 1)).
  { destruct t; reflexivity. }
  assert (Hq : 1 < 2 ^ (8 * ssize t)) by (destruct t; reflexivity).
  set (P := 2 ^ (8 * ssize t)) in *. set (Q := 2 ^ (8 * ssize t - 1)) in *.
  destruct (signed t) eqn:Es.
  - assert (Hr : - Q <= v < Q).
    { unfold Q. destruct t; try discriminate; unfold valid_scalar, signed in Hv; lia. }
    cbn [andb]. destruct (Z.lt_ge_cases v 0).
    + rewrite mod_neg by lia. replace (Q <=? v + P) with true by lia. lia.
    + rewrite Z.mod_small by lia. replace (Q <=? v) with false by lia. reflexivity.
  - cbn [andb]. apply Z.mod_small.
    unfold P in *. destruct t; try discriminate; unfold valid_scalar, signed in Hv; lia.
Qed.

(** Reading any bytes yields a value of the type, except for [bool]. *)
Lemma scalar_of_valid t x :
  t <> TBool -> blen x = ssize t -> valid_scalar t (scalar_of t x) = true.
Proof.
  intros Ht Hx. unfold scalar_of, of_bits.
  pose proof (le_decode_range x) as Hd. rewrite Hx in Hd.
  assert (Hp : 2 ^ (8 * ssize t) = 2 * 2 ^ (8 * ssize t - 1)) by (destruct t; reflexivity).
  destruct (signed t) eqn:Es; cbn [andb].
  - replace (valid_scalar t) with (fun v => (- 2 ^ (8 * ssize t - 1) <=? v) && (v <? 2 ^ (8 * ssize t - 1)))
      by (destruct t; try discriminate; reflexivity).
    cbv beta. destruct (2 ^ (8 * ssize t - 1) <=? le_decode x) eqn:E; lia.
  - replace (valid_scalar t) with (fun v => (0 <=? v) && (v <? 2 ^ (8 * ssize t)))
      by (destruct t; try discriminate; try congruence; reflexivity).
    cbv beta. lia.
Qed.

Lemma scalar_of_unsigned_range t x :
  signed t = false -> blen x = ssize t -> 0 <= scalar_of t x < 2 ^ (8 * ssize t).
Proof.
  intros Hs Hx. unfold scalar_of, of_bits. rewrite Hs. cbn [andb].
  rewrite <- Hx. apply le_decode_range.
Qed.

Lemma wire_scalar_of t x : blen x = ssize t -> wire t (scalar_of t x) = x.
Proof.
  intros Hx. unfold scalar_of, wire, of_bits.
  assert (Hn : snat t = length x) by (pose proof (snat_size t); unfold blen in Hx; lia).
  destruct (signed t && _).
  - rewrite <- le_encode_mod, snat_size.
    replace (le_decode x - 2 ^ (8 * ssize t)) with (le_decode x + (-1) * 2 ^ (8 * ssize t)) by lia.
    rewrite Z.mod_add by (pose proof (pow256_pos (snat t)) as H; rewrite snat_size in H; lia).
    rewrite <- (snat_size t), le_encode_mod, Hn. apply le_encode_decode.
  - rewrite Hn. apply le_encode_decode.
Qed.

(** Facts about the vocabulary of Base.v: byte conversions, the codec, slices. *)
From Coq Require Import ZArith List Bool Lia Strings.Byte ZifyBool ZifyNat ZifyN.
From Verif Require Import Base.
Import ListNotations.
Local Open Scope Z_scope.

(** ** Bytes *)
Lemma b2z_range b : 0 <= b2z b < 256.
Proof. unfold b2z. pose proof (Byte.to_N_bounded b). lia. Qed.

Lemma b2z_z2b z : b2z (z2b z) = z mod 256.
Proof.
  unfold z2b, b2z.
  destruct (Byte.of_N (Z.to_N (z mod 256))) eqn:E.
  - apply Byte.to_of_N in E. rewrite E.
    pose proof (Z.mod_pos_bound z 256 ltac:(lia)). lia.
  - apply Byte.of_N_None_iff in E.
    pose proof (Z.mod_pos_bound z 256 ltac:(lia)). lia.
Qed.

Lemma z2b_b2z b : z2b (b2z b) = b.
Proof.
  unfold z2b. rewrite Z.mod_small by apply b2z_range.
  unfold b2z. rewrite N2Z.id, Byte.of_to_N. reflexivity.
Qed.

Lemma b2z_inj a b : b2z a = b2z b -> a = b.
Proof. intros H. rewrite <- (z2b_b2z a), <- (z2b_b2z b). congruence. Qed.

Lemma b2z_0 : b2z x00 = 0. Proof. reflexivity. Qed.

Lemma byte_eqb_eq a b : byte_eqb a b = true <-> a = b.
Proof.
  unfold byte_eqb. split.
  - apply Byte.byte_dec_bl.
  - intros ->. apply Byte.byte_dec_lb. reflexivity.
Qed.

Lemma byte_eqb_refl a : byte_eqb a a = true.
Proof. apply byte_eqb_eq. reflexivity. Qed.

Lemma bytes_eqb_eq a b : bytes_eqb a b = true <-> a = b.
Proof.
  revert b. induction a as [|x a IH]; intros [|y b]; simpl; split; intros H;
    try congruence; try reflexivity.
  - apply andb_true_iff in H as [H1 H2]. apply byte_eqb_eq in H1.
    apply IH in H2. congruence.
  - injection H as -> ->. rewrite byte_eqb_refl. simpl. apply IH. reflexivity.
Qed.

Lemma bytes_eqb_refl a : bytes_eqb a a = true.
Proof. apply bytes_eqb_eq. reflexivity. Qed.

(** ** Codec *)
Lemma le_encode_length n v : length (le_encode n v) = n.
Proof. revert v. induction n; intros; simpl; auto. Qed.

Lemma pow256_S n : 2 ^ (8 * Z.of_nat (S n)) = 256 * 2 ^ (8 * Z.of_nat n).
Proof.
  replace (8 * Z.of_nat (S n)) with (8 + 8 * Z.of_nat n) by lia.
  rewrite Z.pow_add_r by lia. reflexivity.
Qed.

Lemma pow256_pos n : 0 < 2 ^ (8 * Z.of_nat n).
Proof. apply Z.pow_pos_nonneg; lia. Qed.

Lemma le_decode_encode n v : le_decode (le_encode n v) = v mod 2 ^ (8 * Z.of_nat n).
Proof.
  revert v. induction n as [|n IH]; intros v.
  - simpl. rewrite Z.mod_1_r. reflexivity.
  - cbn [le_encode le_decode]. rewrite b2z_z2b, IH.
    rewrite pow256_S.
    pose proof (pow256_pos n).
    rewrite Z.rem_mul_r by lia. reflexivity.
Qed.

Lemma le_decode_range l : 0 <= le_decode l < 2 ^ (8 * blen l).
Proof.
  unfold blen. induction l as [|b l IH].
  - simpl. lia.
  - cbn [le_decode length]. rewrite pow256_S.
    pose proof (b2z_range b). lia.
Qed.

Lemma le_encode_decode l : le_encode (length l) (le_decode l) = l.
Proof.
  induction l as [|b l IH]; [reflexivity|].
  cbn [le_decode le_encode length].
  pose proof (b2z_range b).
  f_equal.
  - apply b2z_inj. rewrite b2z_z2b.
    rewrite (Z.mul_comm 256), Z.mod_add by lia.
    apply Z.mod_small. lia.
  - rewrite (Z.mul_comm 256), Z.div_add by lia.
    rewrite Z.div_small by lia. exact IH.
Qed.

Lemma le_decode_inj a b : length a = length b -> le_decode a = le_decode b -> a = b.
Proof.
  intros Hl Hd. rewrite <- (le_encode_decode a), <- (le_encode_decode b).
  congruence.
Qed.

Lemma le_encode_mod n v : le_encode n (v mod 2 ^ (8 * Z.of_nat n)) = le_encode n v.
Proof.
  apply le_decode_inj; rewrite ?le_encode_length; auto.
  rewrite !le_decode_encode. pose proof (pow256_pos n).
  rewrite Z.mod_mod by lia. reflexivity.
Qed.

(** ** Lengths *)
Lemma blen_nonneg {A} (l : list A) : 0 <= blen l.
Proof. unfold blen. lia. Qed.
Lemma blen_nil {A} : blen (@nil A) = 0. Proof. reflexivity. Qed.
Lemma blen_cons {A} (x : A) l : blen (x :: l) = 1 + blen l.
Proof. unfold blen. cbn [length]. lia. Qed.
Lemma blen_app {A} (a b : list A) : blen (a ++ b) = blen a + blen b.
Proof. unfold blen. rewrite app_length. lia. Qed.
Lemma blen_zeros n : blen (zeros n) = Z.max 0 n.
Proof. unfold blen, zeros. rewrite repeat_length. lia. Qed.
Lemma blen_le_encode n v : blen (le_encode n v) = Z.of_nat n.
Proof. unfold blen. rewrite le_encode_length. reflexivity. Qed.
Lemma blen_rev {A} (l : list A) : blen (rev l) = blen l.
Proof. unfold blen. rewrite rev_length. reflexivity. Qed.
Lemma blen_map {A B} (f : A -> B) l : blen (map f l) = blen l.
Proof. unfold blen. rewrite map_length. reflexivity. Qed.
Lemma blen_firstn {A} (l : list A) n : blen (firstn (Z.to_nat n) l) = Z.min (Z.max 0 n) (blen l).
Proof. unfold blen. rewrite firstn_length. lia. Qed.
Lemma blen_skipn {A} (l : list A) n : blen (skipn (Z.to_nat n) l) = Z.max 0 (blen l - Z.max 0 n).
Proof. unfold blen. rewrite skipn_length. lia. Qed.
Lemma blen_0_nil {A} (l : list A) : blen l = 0 -> l = [].
Proof. destruct l; [auto|]. rewrite blen_cons. pose proof (blen_nonneg l). lia. Qed.

Lemma zeros_0 n : n <= 0 -> zeros n = [].
Proof. intros. unfold zeros. replace (Z.to_nat n) with O by lia. reflexivity. Qed.

Lemma zeros_app a b : 0 <= a -> 0 <= b -> zeros a ++ zeros b = zeros (a + b).
Proof.
  intros. unfold zeros. rewrite Z2Nat.inj_add by lia. rewrite repeat_app. reflexivity.
Qed.

Lemma skipn_zeros a b : skipn (Z.to_nat a) (zeros b) = zeros (b - Z.max 0 a).
Proof.
  unfold zeros. destruct (Z.le_gt_cases b (Z.max 0 a)) as [H|H].
  - rewrite skipn_all2 by (rewrite repeat_length; lia).
    replace (Z.to_nat (b - Z.max 0 a)) with O by lia. reflexivity.
  - replace (Z.to_nat b) with (Z.to_nat a + Z.to_nat (b - Z.max 0 a))%nat by lia.
    rewrite repeat_app, skipn_app, repeat_length.
    rewrite skipn_all2 by (rewrite repeat_length; lia).
    replace (Z.to_nat a - Z.to_nat a)%nat with O by lia. reflexivity.
Qed.

Lemma firstn_zeros a b : a <= b -> firstn (Z.to_nat a) (zeros b) = zeros a.
Proof.
  intros. unfold zeros.
  destruct (Z.le_gt_cases a 0).
  - replace (Z.to_nat a) with O by lia. reflexivity.
  - replace (Z.to_nat b) with (Z.to_nat a + Z.to_nat (b - a))%nat by lia.
    rewrite repeat_app, firstn_app, repeat_length.
    rewrite firstn_all2 by (rewrite repeat_length; lia).
    replace (Z.to_nat a - Z.to_nat a)%nat with O by lia. cbn. rewrite app_nil_r. reflexivity.
Qed.

(** ** Slices *)
Lemma firstn_app_exact {A} (a b : list A) n : n = blen a -> firstn (Z.to_nat n) (a ++ b) = a.
Proof.
  intros ->. unfold blen. rewrite Nat2Z.id, firstn_app, firstn_all.
  replace (length a - length a)%nat with O by lia. cbn. apply app_nil_r.
Qed.
Lemma skipn_app_exact {A} (a b : list A) n : n = blen a -> skipn (Z.to_nat n) (a ++ b) = b.
Proof.
  intros ->. unfold blen. rewrite Nat2Z.id, skipn_app, skipn_all.
  replace (length a - length a)%nat with O by lia. reflexivity.
Qed.
Lemma skipn_app_ge {A} (a b : list A) n :
  blen a <= n -> skipn (Z.to_nat n) (a ++ b) = skipn (Z.to_nat (n - blen a)) b.
Proof.
  intros. unfold blen in *. rewrite skipn_app, skipn_all2 by lia. cbn [app].
  f_equal. lia.
Qed.

Lemma slice_app_r {A} (p l : list A) a b :
  0 <= a -> slice (p ++ l) (blen p + a) (blen p + b) = slice l a b.
Proof.
  intros. unfold slice. rewrite skipn_app_ge by lia.
  f_equal; [lia|]. f_equal. lia.
Qed.

Lemma get_range_app_r {A} (p l : list A) a b :
  0 <= a -> get_range (p ++ l) (blen p + a) (blen p + b) = get_range l a b.
Proof.
  intros. unfold get_range. rewrite blen_app, slice_app_r by lia.
  replace (blen p + a <=? blen p + b) with (a <=? b) by lia.
  replace (blen p + b <=? blen p + blen l) with (b <=? blen l) by lia.
  reflexivity.
Qed.

Lemma get_range_app_l {A} (l s : list A) a b x :
  0 <= a -> get_range l a b = Some x -> get_range (l ++ s) a b = Some x.
Proof.
  unfold get_range. intros Ha H.
  destruct ((a <=? b) && (b <=? blen l)) eqn:E; [|discriminate].
  rewrite blen_app. pose proof (blen_nonneg s).
  replace ((a <=? b) && (b <=? blen l + blen s)) with true by lia.
  injection H as <-. f_equal. unfold slice.
  unfold blen in *.
  rewrite skipn_app, firstn_app.
  replace (Z.to_nat (b - a) - length (skipn (Z.to_nat a) l))%nat with O
    by (rewrite skipn_length; lia).
  cbn. apply app_nil_r.
Qed.

Lemma get_range_mid {A} (p x s : list A) a b :
  a = blen p -> b = blen p + blen x -> get_range (p ++ x ++ s) a b = Some x.
Proof.
  intros -> ->. unfold get_range.
  rewrite !blen_app. pose proof (blen_nonneg p). pose proof (blen_nonneg x).
  pose proof (blen_nonneg s).
  replace (_ && _) with true by lia.
  unfold slice. rewrite skipn_app_exact by reflexivity.
  replace (blen p + blen x - blen p) with (blen x) by lia.
  rewrite firstn_app_exact by reflexivity. reflexivity.
Qed.

Lemma get_range_head {A} (x s : list A) b :
  b = blen x -> get_range (x ++ s) 0 b = Some x.
Proof. intros. apply (get_range_mid [] x s); rewrite ?blen_nil; auto; lia. Qed.

Lemma get_range_whole {A} (x : list A) b : b = blen x -> get_range x 0 b = Some x.
Proof. intros. rewrite <- (app_nil_r x) at 1. apply get_range_head. auto. Qed.

Lemma get_range_blen {A} (l : list A) a b x :
  0 <= a -> get_range l a b = Some x -> blen x = b - a /\ a <= b <= blen l.
Proof.
  unfold get_range. intros Ha H.
  destruct ((a <=? b) && (b <=? blen l)) eqn:E; [|discriminate].
  injection H as <-. unfold slice. rewrite blen_firstn, blen_skipn. lia.
Qed.

Lemma skipn_skipn {A} (l : list A) a b : skipn a (skipn b l) = skipn (a + b) l.
Proof.
  revert l. induction b as [|b IH]; intros l.
  - rewrite Nat.add_0_r. reflexivity.
  - rewrite Nat.add_succ_r. destruct l; cbn [skipn].
    + apply skipn_nil.
    + apply IH.
Qed.

(** A successful [get] splits the buffer. *)
Lemma get_range_split {A} (l : list A) a b x :
  0 <= a -> get_range l a b = Some x ->
  exists p s, l = p ++ x ++ s /\ blen p = a /\ blen x = b - a.
Proof.
  intros Ha H. pose proof (get_range_blen _ _ _ _ Ha H) as [Hx Hb].
  exists (firstn (Z.to_nat a) l), (skipn (Z.to_nat b) l).
  unfold get_range in H. destruct (_ && _) eqn:E; [|discriminate].
  injection H as <-. unfold slice. split; [|split].
  - rewrite <- (firstn_skipn (Z.to_nat a) l) at 1. f_equal.
    rewrite <- (firstn_skipn (Z.to_nat (b - a)) (skipn (Z.to_nat a) l)) at 1. f_equal.
    rewrite skipn_skipn. f_equal. lia.
  - rewrite blen_firstn. lia.
  - rewrite blen_firstn, blen_skipn. lia.
Qed.

Lemma get_range_None_iff {A} (l : list A) a b :
  get_range l a b = None <-> (b < a \/ blen l < b).
Proof.
  unfold get_range. destruct ((a <=? b) && (b <=? blen l)) eqn:E; split; intros; try discriminate; auto; lia.
Qed.

(** Sub-ranges of a range. *)
Lemma get_range_sub {A} (l : list A) a b x i j :
  0 <= a -> get_range l a b = Some x -> 0 <= i -> i <= j -> j <= b - a ->
  get_range l (a + i) (a + j) = get_range x i j.
Proof.
  intros Ha H Hi Hij Hj.
  destruct (get_range_split _ _ _ _ Ha H) as (p & s & -> & Hp & Hx).
  subst a.
  rewrite get_range_app_r by lia.
  destruct (get_range x i j) as [y|] eqn:E.
  - apply get_range_app_l; auto.
  - apply get_range_None_iff in E. lia.
Qed.

Lemma set_range_mid {A} (p x y s : list A) a :
  a = blen p -> blen y = blen x -> set_range (p ++ x ++ s) a y = p ++ y ++ s.
Proof.
  intros -> Hy. unfold set_range. rewrite firstn_app_exact by reflexivity.
  f_equal. f_equal. rewrite Hy, app_assoc.
  rewrite skipn_app_exact by (rewrite blen_app; lia). reflexivity.
Qed.

Lemma blen_set_range {A} (l : list A) a y :
  0 <= a -> a + blen y <= blen l -> blen (set_range l a y) = blen l.
Proof.
  intros. unfold set_range. rewrite !blen_app, blen_firstn, blen_skipn.
  pose proof (blen_nonneg y). lia.
Qed.

Lemma split_at {A} (l : list A) n :
  0 <= n <= blen l -> exists a b, l = a ++ b /\ blen a = n /\ blen b = blen l - n.
Proof.
  intros. exists (firstn (Z.to_nat n) l), (skipn (Z.to_nat n) l).
  rewrite firstn_skipn, blen_firstn, blen_skipn. repeat split; lia.
Qed.

Lemma write_range_ok {A} (p x s y : list A) a b :
  a = blen p -> b = blen p + blen x -> blen y = blen x ->
  write_range (p ++ x ++ s) a b y = Val (p ++ y ++ s).
Proof.
  intros -> -> Hy. unfold write_range. rewrite !blen_app.
  pose proof (blen_nonneg p). pose proof (blen_nonneg x). pose proof (blen_nonneg s).
  replace (_ && _ && _) with true by lia.
  rewrite (set_range_mid p x) by auto. reflexivity.
Qed.

(** ** Arithmetic in range *)
Lemma unsigned_arith_ok h w v : 0 <= v < 2 ^ w -> unsigned_arith h w v = Val v.
Proof. intros. unfold unsigned_arith. replace (_ && _) with true by lia. reflexivity. Qed.
Lemma usize_arith_ok h v : 0 <= v < 2 ^ 64 -> usize_arith h v = Val v.
Proof. apply unsigned_arith_ok. Qed.
Lemma u32_arith_ok h v : 0 <= v < 2 ^ 32 -> u32_arith h v = Val v.
Proof. apply unsigned_arith_ok. Qed.
Lemma u16_arith_ok h v : 0 <= v < 2 ^ 16 -> u16_arith h v = Val v.
Proof. apply unsigned_arith_ok. Qed.
Lemma i32_arith_ok h v : - 2 ^ 31 <= v < 2 ^ 31 -> i32_arith h v = Val v.
Proof. intros. unfold i32_arith. replace (_ && _) with true by lia. reflexivity. Qed.

Lemma unsigned_arith_range h w v x : 0 <= w -> unsigned_arith h w v = Val x -> 0 <= x < 2 ^ w.
Proof.
  unfold unsigned_arith. intros Hw H. destruct (_ && _) eqn:E.
  - injection H as <-. lia.
  - destruct (debug h); [discriminate|]. injection H as <-.
    apply Z.mod_pos_bound. apply Z.pow_pos_nonneg; lia.
Qed.
Lemma unsigned_arith_not_err h w v e : unsigned_arith h w v <> Err e.
Proof. unfold unsigned_arith. destruct (_ && _), (debug h); discriminate. Qed.

Lemma as_u32_small v : 0 <= v < 2 ^ 32 -> as_u32 v = v.
Proof. intros. unfold as_u32. apply Z.mod_small. lia. Qed.
Lemma as_u16_small v : 0 <= v < 2 ^ 16 -> as_u16 v = v.
Proof. intros. unfold as_u16. apply Z.mod_small. lia. Qed.
Lemma as_i32_small v : 0 <= v < 2 ^ 31 -> as_i32 v = v.
Proof.
  intros. unfold as_i32. rewrite Z.mod_small by lia.
  destruct (v <? 2 ^ 31) eqn:E; lia.
Qed.
Lemma as_i32_range v : - 2 ^ 31 <= as_i32 v < 2 ^ 31.
Proof.
  unfold as_i32. pose proof (Z.mod_pos_bound v (2 ^ 32) ltac:(lia)).
  destruct (_ <? _) eqn:E; lia.
Qed.

(** ** The outcome monad *)
Lemma bind_Val {A B} (x : outcome A) (f : A -> outcome B) b :
  bind x f = Val b <-> exists a, x = Val a /\ f a = Val b.
Proof.
  destruct x; simpl; split; intros H; try discriminate; eauto.
  - destruct H as (a0 & E & H). injection E as <-. auto.
  - destruct H as (a0 & E & H). discriminate.
  - destruct H as (a0 & E & H). discriminate.
Qed.

Lemma bind_assoc {A B C} (x : outcome A) (f : A -> outcome B) (g : B -> outcome C) :
  bind (bind x f) g = bind x (fun a => bind (f a) g).
Proof. destruct x; reflexivity. Qed.

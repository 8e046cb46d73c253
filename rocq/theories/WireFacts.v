(** Relating the model's slices and codec to SpecWire.v. *)
From Coq Require Import ZArith List Bool Lia Strings.Byte ZifyBool ZifyNat ZifyN.
From Verif Require Import Base Scalar BaseFacts ScalarFacts SpecWire.
Import ListNotations.
Local Open Scope Z_scope.

Lemma pow256 n : 256 ^ Z.of_nat n = 2 ^ (8 * Z.of_nat n).
Proof. change 256 with (2 ^ 8). rewrite <- Z.pow_mul_r by lia. reflexivity. Qed.

Lemma nth_le_encode k : forall n i, (i < k)%nat ->
  exists b, nth_error (le_encode k n) i = Some b /\ b2z b = digit256 n i.
Proof.
  induction k as [|k IH]; intros n i Hi; [lia|].
  destruct i as [|i]; cbn [le_encode nth_error].
  - eexists; split; [reflexivity|]. rewrite b2z_z2b. unfold digit256.
    cbn [Z.of_nat]. rewrite Z.pow_0_r, Z.div_1_r. reflexivity.
  - destruct (IH (n / 256) i ltac:(lia)) as (b & Hb & Eb).
    exists b. split; [exact Hb|]. rewrite Eb. unfold digit256.
    rewrite Nat2Z.inj_succ, Z.pow_succ_r by lia.
    rewrite Z.div_div; [reflexivity|lia|apply Z.pow_pos_nonneg; lia].
Qed.

Lemma nth_error_ext {A} : forall (a b : list A), (forall i, nth_error a i = nth_error b i) -> a = b.
Proof.
  induction a as [|x a IH]; intros [|y b] H; auto.
  - specialize (H O). discriminate.
  - specialize (H O). discriminate.
  - f_equal.
    + specialize (H O). cbn in H. congruence.
    + apply IH. intros i. exact (H (S i)).
Qed.

Lemma bytes_at_get_range buf loc s :
  bytes_at buf loc s /\ loc + blen s <= blen buf <->
  0 <= loc /\ get_range buf loc (loc + blen s) = Some s.
Proof.
  split.
  - intros [[Hl H] Hle]. split; [auto|].
    unfold get_range. pose proof (blen_nonneg s).
    replace (_ && _) with true by lia. f_equal.
    unfold slice. replace (Z.to_nat (loc + blen s - loc)) with (length s) by (unfold blen; lia).
    apply nth_error_ext. intros i.
    destruct (Nat.lt_ge_cases i (length s)) as [Hi|Hi].
    + rewrite <- H by auto.
      rewrite <- (firstn_skipn (Z.to_nat loc) buf) at 2.
      rewrite nth_error_app2; rewrite firstn_length; [|lia].
      rewrite <- (firstn_skipn (length s) (skipn (Z.to_nat loc) buf)) at 2.
      rewrite nth_error_app1.
      * f_equal. unfold blen in *. lia.
      * rewrite firstn_length, skipn_length. unfold blen in *. lia.
    + rewrite (proj2 (nth_error_None s i)) by lia.
      apply nth_error_None. rewrite firstn_length. lia.
  - intros [Hl H]. destruct (get_range_blen _ _ _ _ Hl H) as [_ Hr].
    destruct (get_range_split _ _ _ _ Hl H) as (p & r & -> & Hp & _).
    split; [|rewrite !blen_app in *; pose proof (blen_nonneg r); lia].
    split; [auto|]. intros i Hi.
    rewrite nth_error_app2 by (unfold blen in Hp; lia).
    rewrite nth_error_app1 by (unfold blen in Hp; lia).
    f_equal. unfold blen in Hp. lia.
Qed.

Lemma bytes_at_len buf loc s :
  bytes_at buf loc s -> s <> [] -> loc + blen s <= blen buf.
Proof.
  intros [Hl H] Hs. destruct s as [|x s] using rev_ind; [congruence|]. clear IHs.
  specialize (H (length s)). rewrite app_length in H. cbn in H.
  specialize (H ltac:(lia)).
  rewrite nth_error_app2, Nat.sub_diag in H by lia. cbn in H.
  assert (nth_error buf (Z.to_nat loc + length s) <> None) by congruence.
  apply nth_error_Some in H0. rewrite blen_app. unfold blen in *. cbn. lia.
Qed.

(** [le_at] in terms of the codec. *)
Lemma le_at_decode buf loc k n :
  (0 < k)%nat ->
  (le_at buf loc k n <->
   0 <= loc /\ exists x, get_range buf loc (loc + Z.of_nat k) = Some x /\ le_decode x = n).
Proof.
  intros Hk. split.
  - intros (Hl & Hn & H). split; [auto|].
    exists (le_encode k n).
    assert (Hb : bytes_at buf loc (le_encode k n)).
    { split; [auto|]. rewrite le_encode_length. intros i Hi.
      destruct (H i Hi) as (b & Eb & Vb). rewrite Eb.
      destruct (nth_le_encode k n i Hi) as (b' & Eb' & Vb'). rewrite Eb'.
      f_equal. apply b2z_inj. congruence. }
    split.
    + assert (blen (le_encode k n) = Z.of_nat k) by (apply blen_le_encode).
      rewrite <- H0. apply bytes_at_get_range. split; [auto|].
      apply bytes_at_len; auto. intros E. rewrite E in H0. cbn in H0. lia.
    + rewrite le_decode_encode. apply Z.mod_small. rewrite <- pow256. auto.
  - intros (Hl & x & Hx & Hd).
    destruct (get_range_blen _ _ _ _ Hl Hx) as [Hbx _].
    assert (Hlx : length x = k) by (unfold blen in Hbx; lia).
    replace (loc + Z.of_nat k) with (loc + blen x) in Hx by lia.
    destruct (proj2 (bytes_at_get_range buf loc x) (conj Hl Hx)) as [[_ Hba] _].
    split; [auto|]. split.
    + subst n. pose proof (le_decode_range x) as R. rewrite Hbx in R.
      rewrite pow256. replace (loc + Z.of_nat k - loc) with (Z.of_nat k) in R by lia. exact R.
    + intros i Hi. rewrite Hba by lia.
      assert (Ex : x = le_encode k n) by (subst n k; symmetry; apply le_encode_decode).
      rewrite Ex. apply nth_le_encode. auto.
Qed.

Lemma le_at_det buf loc k n m : (0 < k)%nat -> le_at buf loc k n -> le_at buf loc k m -> n = m.
Proof.
  intros Hk H1 H2. apply le_at_decode in H1, H2; auto.
  destruct H1 as (_ & x & Hx & <-), H2 as (_ & y & Hy & <-). congruence.
Qed.

Lemma le_at_dec buf loc k : (0 < k)%nat -> 0 <= loc ->
  (exists n, le_at buf loc k n) <-> loc + Z.of_nat k <= blen buf.
Proof.
  intros Hk Hl. split.
  - intros [n H]. apply le_at_decode in H; auto. destruct H as (_ & x & Hx & _).
    apply get_range_blen in Hx; auto. lia.
  - intros H. destruct (get_range buf loc (loc + Z.of_nat k)) as [x|] eqn:E.
    + exists (le_decode x). apply le_at_decode; auto. eauto.
    + apply get_range_None_iff in E. lia.
Qed.


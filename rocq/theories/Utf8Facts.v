(** The byte automaton of Utf8.v accepts exactly the encodings of texts. *)
From Coq Require Import ZArith List Bool Lia Strings.Byte ZifyBool ZifyNat ZifyN.
From Verif Require Import Base Utf8 BaseFacts SpecWire.
Import ListNotations.
Local Open Scope Z_scope.

Lemma b2z_z2b_small c : 0 <= c < 256 -> b2z (z2b c) = c.
Proof. intros. rewrite b2z_z2b. apply Z.mod_small. lia. Qed.

Lemma between_z2b lo hi c : 0 <= c < 256 -> between lo hi (z2b c) = (lo <=? c) && (c <=? hi).
Proof. intros. unfold between. rewrite b2z_z2b_small by auto. reflexivity. Qed.

Ltac eucl := Z.to_euclidean_division_equations; lia.

Lemma utf8_valid_encode c s : code_point c -> utf8_valid (utf8_encode c ++ s) = utf8_valid s.
Proof.
  intros [Hr Hs]. unfold utf8_encode.
  destruct (c <? 0x80) eqn:E1.
  { cbn [app utf8_valid]. rewrite between_z2b by lia. replace (_ && _) with true by lia. reflexivity. }
  destruct (c <? 0x800) eqn:E2.
  { cbn [app utf8_valid]. unfold cont. rewrite !between_z2b by eucl.
    replace ((0 <=? 192 + c / 64) && (192 + c / 64 <=? 127)) with false by eucl.
    replace ((194 <=? 192 + c / 64) && (192 + c / 64 <=? 223)) with true by eucl.
    replace ((128 <=? 128 + c mod 64) && (128 + c mod 64 <=? 191)) with true by eucl.
    reflexivity. }
  destruct (c <? 0x10000) eqn:E3.
  { cbn [app utf8_valid]. unfold cont. rewrite !between_z2b by eucl.
    replace ((0 <=? 224 + c / 4096) && (224 + c / 4096 <=? 127)) with false by eucl.
    replace ((194 <=? 224 + c / 4096) && (224 + c / 4096 <=? 223)) with false by eucl.
    replace ((224 <=? 224 + c / 4096) && (224 + c / 4096 <=? 239)) with true by eucl.
    replace ((128 <=? 128 + c mod 64) && (128 + c mod 64 <=? 191)) with true by eucl.
    match goal with |- (?x && true) && _ = _ => replace x with true; [reflexivity|] end.
    destruct ((224 <=? 224 + c / 4096) && (224 + c / 4096 <=? 224)) eqn:?; [eucl|].
    destruct ((237 <=? 224 + c / 4096) && (224 + c / 4096 <=? 237)) eqn:?; eucl. }
  cbn [app utf8_valid]. unfold cont. rewrite !between_z2b by eucl.
  replace ((0 <=? 240 + c / 262144) && (240 + c / 262144 <=? 127)) with false by eucl.
  replace ((194 <=? 240 + c / 262144) && (240 + c / 262144 <=? 223)) with false by eucl.
  replace ((224 <=? 240 + c / 262144) && (240 + c / 262144 <=? 239)) with false by eucl.
  replace ((240 <=? 240 + c / 262144) && (240 + c / 262144 <=? 244)) with true by eucl.
  replace ((128 <=? 128 + c mod 64) && (128 + c mod 64 <=? 191)) with true by eucl.
  replace ((128 <=? 128 + c / 64 mod 64) && (128 + c / 64 mod 64 <=? 191)) with true by eucl.
  match goal with |- (?x && true && true) && _ = _ => replace x with true; [reflexivity|] end.
  destruct ((240 <=? 240 + c / 262144) && (240 + c / 262144 <=? 240)) eqn:?; [eucl|].
  destruct ((244 <=? 240 + c / 262144) && (240 + c / 262144 <=? 244)) eqn:?; eucl.
Qed.

Lemma z2b_is b c : b2z b = c -> z2b c = b.
Proof. intros <-. apply z2b_b2z. Qed.

Lemma utf8_head a r :
  utf8_valid (a :: r) = true ->
  exists c s, code_point c /\ a :: r = utf8_encode c ++ s /\ utf8_valid s = true.
Proof.
  intros H. cbn [utf8_valid] in H. pose proof (b2z_range a).
  unfold code_point.
  destruct (between 0 127 a) eqn:E1.
  { exists (b2z a), r. unfold between in *. unfold utf8_encode.
    replace (b2z a <? 128) with true by lia. rewrite z2b_b2z. repeat split; auto; lia. }
  destruct (between 194 223 a) eqn:E2.
  { destruct r as [|b r]; [discriminate|]. pose proof (b2z_range b).
    exists ((b2z a - 192) * 64 + (b2z b - 128)), r. unfold between, cont, between in *.
    apply andb_prop in H as [Hb Hr].
    unfold utf8_encode. set (c := _ + _).
    replace (c <? 128) with false by lia. replace (c <? 2048) with true by lia.
    rewrite (z2b_is a), (z2b_is b) by (subst c; eucl). repeat split; auto; lia. }
  destruct (between 224 239 a) eqn:E3.
  { destruct r as [|b [|c0 r]]; try discriminate. pose proof (b2z_range b). pose proof (b2z_range c0).
    exists ((b2z a - 224) * 4096 + (b2z b - 128) * 64 + (b2z c0 - 128)), r.
    unfold between, cont, between in *.
    apply andb_prop in H as [Hb Hr]. apply andb_prop in Hb as [Hb Hc].
    unfold utf8_encode. set (c := _ + _).
    assert (2048 <= c < 65536 /\ ~ (55296 <= c <= 57343) /\ 128 <= b2z b <= 191) as (C1 & C2 & C3).
    { subst c. destruct ((224 <=? b2z a) && (b2z a <=? 224)) eqn:?; [lia|].
      destruct ((237 <=? b2z a) && (b2z a <=? 237)) eqn:?; lia. }
    replace (c <? 128) with false by lia. replace (c <? 2048) with false by lia.
    replace (c <? 65536) with true by lia.
    rewrite (z2b_is a), (z2b_is b), (z2b_is c0) by (subst c; eucl). repeat split; auto; lia. }
  destruct (between 240 244 a) eqn:E4; [|discriminate].
  destruct r as [|b [|c0 [|d r]]]; try discriminate.
  pose proof (b2z_range b). pose proof (b2z_range c0). pose proof (b2z_range d).
  exists ((b2z a - 240) * 262144 + (b2z b - 128) * 4096 + (b2z c0 - 128) * 64 + (b2z d - 128)), r.
  unfold between, cont, between in *.
  apply andb_prop in H as [Hb Hr]. apply andb_prop in Hb as [Hb Hd]. apply andb_prop in Hb as [Hb Hc].
  unfold utf8_encode. set (c := _ + _).
  assert (65536 <= c <= 1114111 /\ 128 <= b2z b <= 191) as (C1 & C3).
  { subst c. destruct ((240 <=? b2z a) && (b2z a <=? 240)) eqn:?; [lia|].
    destruct ((244 <=? b2z a) && (b2z a <=? 244)) eqn:?; lia. }
  replace (c <? 128) with false by lia. replace (c <? 2048) with false by lia.
  replace (c <? 65536) with false by lia.
  rewrite (z2b_is a), (z2b_is b), (z2b_is c0), (z2b_is d) by (subst c; eucl). repeat split; auto; lia.
Qed.

Lemma utf8_encode_nonempty c : (0 < length (utf8_encode c))%nat.
Proof. unfold utf8_encode. repeat destruct (_ <? _); cbn; lia. Qed.

Theorem utf8_valid_iff s : utf8_valid s = true <-> is_utf8 s.
Proof.
  split.
  - remember (length s) as n eqn:En. revert s En.
    induction n as [n IH] using (well_founded_induction lt_wf). intros s -> H.
    destruct s as [|a r].
    + exists []. split; [constructor|reflexivity].
    + destruct (utf8_head a r H) as (c & s & Hc & E & Hs).
      pose proof (utf8_encode_nonempty c).
      destruct (IH (length s)) with (s := s) as (cs & Hcs & ->); auto.
      { rewrite E, app_length. lia. }
      exists (c :: cs). split; [constructor; auto|]. exact E.
  - intros (cs & Hcs & ->). induction Hcs as [|c cs Hc Hcs IH]; [reflexivity|].
    cbn [flat_map]. rewrite utf8_valid_encode by auto. auto.
Qed.

(** How large the buffer of a builder gets. *)
From Coq Require Import ZArith List Bool Lia Strings.Byte ZifyBool ZifyNat.
From Verif Require Import Base Scalar Reader Builder Ops SpecBuilder BaseFacts ScalarFacts Abstract Refine Refine2 Build1 Build6.
Import ListNotations.
Local Open Scope Z_scope.

Lemma usize_arith_range h z n : usize_arith h z = Val n -> 0 <= n.
Proof. intros E. apply unsigned_arith_range in E; lia. Qed.
Definition cap (b : builder) : Z := blen (owned_buf b).
Definition fit (b : builder) : Prop := 0 <= head b <= cap b /\ cap b < 2 ^ 63.
Definition slots (b : builder) : Prop := Forall field_ok (field_locs b).
(** The buffer was doubled some number of times. *)
Definition doubles (n m : Z) : Prop := exists k, 0 <= k /\ (m = n * 2 ^ k \/ n = 0 /\ m = 2 ^ k).
Lemma doubles_refl n : doubles n n. Proof. exists 0. split; [lia|]. left. change (2 ^ 0) with 1. lia. Qed.
Lemma doubles_trans a b c : doubles a b -> doubles b c -> doubles a c.
Proof.
  intros (j & Hj & [-> |[-> ->]]) (k & Hk & [-> |[E ->]]).
  - exists (j + k). split; [lia|]. left. rewrite Z.pow_add_r by lia. lia.
  - assert (a = 0). { assert (0 < 2 ^ j) by (apply Z.pow_pos_nonneg; lia). nia. } subst. exists k. auto.
  - exists (j + k). split; [lia|]. right. rewrite Z.pow_add_r by lia. auto.
  - assert (0 < 2 ^ j) by (apply Z.pow_pos_nonneg; lia). lia.
Qed.

(** [s]: what may have been given back. *)
Record grew (s : Z) (b b' : builder) : Prop := Grew {
  gr_fit : fit b';
  gr_used : used_space b <= used_space b';
  gr_cap : cap b' <= Z.max (cap b) (2 * (used_space b' + s));
  gr_dbl : doubles (cap b) (cap b') }.
Lemma grew_refl s b : fit b -> 0 <= s -> grew s b b.
Proof. intros F S. constructor; auto using doubles_refl; lia. Qed.
Lemma grew_trans s b c d : grew s b c -> grew s c d -> grew s b d.
Proof. intros [F1 U1 C1 D1] [F2 U2 C2 D2]. constructor; auto; try lia. eapply doubles_trans; eauto. Qed.
Lemma grew_more s t b c : s <= t -> grew s b c -> grew t b c.
Proof. intros L [F U C D]. constructor; auto. lia. Qed.
(** Same buffer and head. *)
Lemma grew_same s b c : fit b -> 0 <= s -> cap c = cap b -> head c = head b -> grew s b c.
Proof. intros F S C H. constructor; unfold used_space, fit in *; fold (cap b) (cap c) in *; rewrite ?C, ?H; auto using doubles_refl; lia. Qed.

Lemma grow_cap h b b' : fit b -> grow_owned_buf h b = Val b' ->
  fit b' /\ used_space b' = used_space b /\ cap b' = Z.max 1 (2 * cap b).
Proof.
  intros [H1 H2] G. unfold grow_owned_buf in G. fold (cap b) in G. pose proof (blen_nonneg (owned_buf b)) as P. fold (cap b) in P.
  rewrite usize_arith_ok in G by lia. cbn [bind] in G. rewrite usize_arith_ok in G by lia. cbn [bind] in G.
  destruct (Z.max 1 (cap b * 2) <? 2 ^ 63) eqn:L; [|discriminate]. cbn [assert_always bind] in G.
  rewrite usize_arith_ok in G by lia. cbn [bind] in G. apply bind_Val in G as (? & _ & G).
  set (diff := Z.max 1 (cap b * 2) - cap b) in *. set (r := firstn _ _) in G.
  assert (Lr : blen r = Z.max 1 (cap b * 2)).
  { subst r. rewrite blen_firstn, blen_app, blen_zeros. fold (cap b). lia. }
  destruct (Z.max 1 (cap b * 2) =? 1) eqn:E.
  - injection G as <-. unfold fit, used_space, cap in *. cbn [set_buf owned_buf head]. rewrite Lr. lia.
  - apply bind_Val in G as (cp & W & G). injection G as <-. unfold write_range in W. destruct (_ && _) eqn:Q; [|discriminate]. injection W as <-.
    assert (M : 0 <= Z.max 1 (cap b * 2) / 2 <= Z.max 1 (cap b * 2)) by (split; [apply Z.div_pos; lia|apply Z.div_le_upper_bound; lia]).
    set (m := Z.max 1 (cap b * 2) / 2) in *.
    assert (Lc : blen (set_range r m (firstn (Z.to_nat m) r)) = blen r) by (apply blen_set_range; lia).
    unfold fit, used_space, cap in *. cbn [set_buf owned_buf head]. rewrite blen_app, blen_zeros, blen_skipn, Lc, Lr. lia.
Qed.

Lemma grow_loop_cap h n : forall b want b', fit b -> 0 <= want -> grow_loop h n b want = Val b' ->
  fit b' /\ used_space b' = used_space b /\ want <= head b' /\ cap b' <= Z.max (cap b) (2 * (used_space b + want))
  /\ doubles (cap b) (cap b') /\ field_locs b' = field_locs b.
Proof.
  induction n as [|n IH]; intros b want b' F W G; cbn [grow_loop] in G; destruct (want <=? head b) eqn:L;
    try (injection G as <-; split; [auto|]; split; [auto|]; split; [lia|]; split; [lia|]; split; [apply doubles_refl|auto]); [discriminate|].
  apply bind_Val in G as (b1 & G1 & G). pose proof (grow_cap _ _ _ F G1) as (F1 & U1 & C1).
  assert (FL : field_locs b1 = field_locs b).
  { clear - G1. unfold grow_owned_buf in G1. repeat (apply bind_Val in G1 as (? & _ & G1)). cbv zeta in G1.
    destruct (_ =? 1); [injection G1 as <-; auto|]. apply bind_Val in G1 as (? & _ & G1). injection G1 as <-. auto. }
  apply IH in G as (F2 & U2 & H2 & C2 & D2 & FL2); auto. rewrite U1 in *.
  split; auto. split; auto. split; auto. split; [|split; [|congruence]].
  - destruct F. unfold used_space in *. fold (cap b) in *. lia.
  - eapply doubles_trans; [|apply D2]. rewrite C1. pose proof (blen_nonneg (owned_buf b)) as P. fold (cap b) in P.
    destruct (Z.eq_dec (cap b) 0) as [->|N].
    + exists 0. split; [lia|]. right. auto.
    + exists 1. split; [lia|]. left. change (2 ^ 1) with 2. lia.
Qed.
Lemma grew_space h b want b' : fit b -> 0 <= want -> make_space h b want = Val b' ->
  grew 0 b b' /\ used_space b' = used_space b + want /\ field_locs b' = field_locs b.
Proof.
  intros F W M. unfold make_space, ensure_capacity in M. apply bind_Val in M as (b1 & E & M). injection M as <-.
  assert (X : fit b1 /\ used_space b1 = used_space b /\ want <= head b1 /\ cap b1 <= Z.max (cap b) (2 * (used_space b + want))
    /\ doubles (cap b) (cap b1) /\ field_locs b1 = field_locs b).
  { destruct (want <=? head b) eqn:L.
    - injection E as <-. split; [auto|]. split; [auto|]. split; [lia|]. split; [lia|]. split; [apply doubles_refl|auto].
    - apply bind_Val in E as (? & _ & E). eapply grow_loop_cap; eauto. }
  destruct X as (F1 & U1 & H1 & C1 & D1 & L1). unfold fit, used_space, cap in *.
  split; [constructor|split]; unfold fit, used_space, cap; cbn [set_buf owned_buf head field_locs]; auto; lia.
Qed.

(** Every call keeps the recorded slots in range too. *)
Definition good (b b' : builder) : Prop := grew 65537 b b' /\ (slots b -> slots b').
Lemma good_refl b : fit b -> good b b. Proof. split; auto. apply grew_refl; [auto|lia]. Qed.
Lemma good_trans a b c : good a b -> good b c -> good a c.
Proof. intros [G S] [G' S']. split; auto. eapply grew_trans; eauto. Qed.
Lemma good_fit a b : good a b -> fit b. Proof. intros [[] _]. auto. Qed.
Lemma good_same b c : fit b -> cap c = cap b -> head c = head b -> field_locs c = field_locs b -> good b c.
Proof. intros F C H L. split; [apply grew_same; auto; lia|]. unfold slots. rewrite L. auto. Qed.
Lemma good_space h b want b' : fit b -> 0 <= want -> make_space h b want = Val b' -> good b b'.
Proof.
  intros F W M. destruct (grew_space _ _ _ _ F W M) as (G & _ & L). split; [apply (grew_more 0); [lia|auto]|].
  unfold slots. rewrite L. auto.
Qed.
Lemma good_align h b n a b' : fit b -> align h b n a = Val b' -> good b b'.
Proof.
  intros F E. unfold align in E. apply bind_Val in E as (m & _ & E).
  eapply good_trans; [|eapply good_space; [|apply padding_bytes_nonneg|apply E]].
  - apply good_same; auto.
  - exact F.
Qed.
Lemma good_push h b x b' o : fit b -> push h b x = Val (b', o) -> good b b'.
Proof.
  intros F E. unfold push in E. apply bind_Val in E as (b1 & A & E). apply bind_Val in E as (b2 & S & E).
  apply bind_Val in E as ([] & Q & E). apply bind_Val in E as (w & W & E). injection E as <- _.
  assert (P : 0 < push_size x) by (destruct x; cbn [push_size]; [apply ssize_pos|lia]).
  pose proof (good_align _ _ _ _ _ F A) as G1. pose proof (good_fit _ _ G1) as F1.
  pose proof (good_space _ _ _ _ F1 (Z.lt_le_incl _ _ P) S) as G2. pose proof (good_fit _ _ G2) as F2.
  eapply good_trans; [exact G1|]. eapply good_trans; [exact G2|]. apply good_same; auto.
  destruct (push_size x <=? _) eqn:L; [|discriminate].
  assert (Lw : blen w = push_size x).
  { assert (blen (firstn (Z.to_nat (push_size x)) (unfinished_data b2)) = push_size x) by (rewrite blen_firstn; lia).
    destruct x; cbn [push_into] in W; [|apply bind_Val in W as (? & _ & W)]; apply emplace_blen in W; congruence. }
  unfold cap. cbn [set_buf owned_buf]. destruct F2 as [F2 _]. unfold unfinished_data in L. rewrite blen_skipn in L. unfold cap in F2.
  apply blen_set_range; lia.
Qed.
Lemma good_bytes h b s b' : fit b -> push_bytes_unprefixed h b s = Val b' -> good b b'.
Proof.
  intros F E. unfold push_bytes_unprefixed in E. apply bind_Val in E as (b1 & S & E). apply bind_Val in E as (e & U & E).
  apply bind_Val in E as (buf & W & E). injection E as <-.
  pose proof (good_space _ _ _ _ F (blen_nonneg s) S) as G1. pose proof (good_fit _ _ G1) as F1.
  eapply good_trans; [exact G1|]. apply good_same; auto. unfold write_range in W. destruct (_ && _) eqn:Q; [|discriminate]. injection W as <-.
  unfold cap. cbn [set_buf owned_buf]. destruct F1. apply blen_set_range; unfold cap in *; lia.
Qed.
Lemma good_push_all h l : forall b b', fit b -> push_all h b l = Val b' -> good b b'.
Proof.
  induction l as [|x l IH]; intros b b' F E; cbn [push_all] in E.
  - injection E as <-. apply good_refl; auto.
  - apply bind_Val in E as ([b1 o] & P & E). pose proof (good_push _ _ _ _ _ F P) as G.
    eapply good_trans; [exact G|]. eapply IH; [eapply good_fit; eauto|eauto].
Qed.
Lemma good_slot h b s x b' : fit b -> 0 <= s < 2 ^ 16 -> push_slot_always h b s x = Val b' -> good b b'.
Proof.
  intros F R E. unfold push_slot_always in E. apply bind_Val in E as (? & _ & E). apply bind_Val in E as ([b1 o] & P & E). injection E as <-.
  pose proof (good_push _ _ _ _ _ F P) as [G S]. split.
  - eapply grew_trans; [exact G|]. apply grew_same; auto; [destruct G; auto|lia].
  - intros Q. unfold slots, track_field. cbn [set_field_locs field_locs]. apply Forall_app. split; [apply S; auto|].
    constructor; [|constructor]. split; [|exact R]. cbn. unfold push in P. repeat (apply bind_Val in P as (? & _ & P)).
    injection P as _ <-. unfold as_u32. apply Z.mod_pos_bound. lia.
Qed.
Lemma vlen_range l : Forall field_ok l -> 2 <= get_vtable_byte_len l <= 65537.
Proof.
  intros H. unfold get_vtable_byte_len. destruct l as [|f l]; [lia|].
  assert (0 <= fold_right Z.max 0 (map fl_id (f :: l)) <= 65535); [|unfold SIZE_VOFFSET; lia].
  induction H as [|? ? [_ Hx] _ IH]; cbn [map fold_right]; lia.
Qed.

Lemma good_vtable h b tail b' o : fit b -> slots b -> write_vtable h b tail = Val (b', o) -> good b b'.
Proof.
  intros F SL E. unfold write_vtable in E. apply bind_Val in E as (? & _ & E). apply bind_Val in E as ([b1 obj] & P & E).
  pose proof (good_push _ _ _ _ _ F P) as [G1 S1]. pose proof (gr_fit _ _ _ G1) as F1. specialize (S1 SL).
  pose proof (vlen_range _ S1) as V. set (vlen := get_vtable_byte_len (field_locs b1)) in *.
  apply bind_Val in E as (b2 & S & E). assert (V0 : 0 <= vlen) by lia. destruct (grew_space _ _ _ _ F1 V0 S) as (G2 & U2 & L2). pose proof (gr_fit _ _ _ G2) as F2.
  apply bind_Val in E as (size & _ & E). apply bind_Val in E as (? & _ & E). apply bind_Val in E as (ve & VE & E).
  apply bind_Val in E as (v0 & I0 & E). apply bind_Val in E as (v1 & I1 & E). apply bind_Val in E as (v2 & I2 & E).
  apply bind_Val in E as (v3 & I3 & E).
  assert (HE : ve = head b2 + vlen). { destruct F2. rewrite usize_arith_ok in VE by (unfold cap in *; unfold used_space in *; lia). congruence. }
  subst ve.
  assert (L0 : blen v0 = vlen /\ head b2 + vlen <= cap b2).
  { assert (Hd : 0 <= head b2) by (destruct F2; lia). clear - I0 V Hd. split; [apply index_range_blen in I0; lia|].
    unfold index_range, get_range, expect_some in I0. fold (cap b2) in I0. destruct (_ && _) eqn:Q; [lia|discriminate]. }
  destruct L0 as [L0 LC].
  assert (L3 : blen v3 = vlen).
  { apply write_fields_blen in I3; [|rewrite L2; exact S1]. rewrite I3.
    clear - I1 I2 L0 V. unfold vtw_write_byte_length in I1. apply bind_Val in I1 as (s & Hs & H1).
    apply bind_Val in H1 as (x & Hx & H1). apply bind_Val in H1 as (u & _ & H1). injection H1 as <-.
    apply index_range_blen in Hs; [|lia]. apply emplace_blen in Hx.
    unfold vtw_write_object_inline_size in I2. apply bind_Val in I2 as (s2 & Hs2 & H2).
    apply bind_Val in H2 as (x2 & Hx2 & H2). injection H2 as <-.
    apply index_range_blen in Hs2; [|unfold SIZE_VOFFSET; lia]. apply emplace_blen in Hx2.
    unfold SIZE_VOFFSET in *. assert (blen (set_range v0 0 x) = blen v0) by (apply blen_set_range; lia).
    rewrite blen_set_range; lia. }
  clear I0 I1 I2 I3.
  assert (Fb : blen (set_range (owned_buf b2) (head b2) v3) = cap b2) by (destruct F2; apply blen_set_range; unfold cap in *; lia).
  cbv zeta in E. cbn [set_buf owned_buf head written_vtable_revpos] in E.
  apply bind_Val in E as (dup & _ & E). apply bind_Val in E as ([b4 vu] & D & E).
  assert (G4 : cap b4 = cap b2 /\ (head b4 = head b2 \/ head b4 = head b2 + vlen)).
  { destruct dup as [n|].
    - apply bind_Val in D as (? & _ & D). apply bind_Val in D as (hd & HD & D). injection D as <- _. unfold cap in *. cbn [set_buf owned_buf head].
      rewrite HD in VE. injection VE as ->. split; [|auto]. rewrite blen_set_range; [auto|destruct F2; lia|rewrite blen_zeros; lia].
    - injection D as <- _. unfold cap. cbn [set_revpos set_buf owned_buf head]. auto. }
  destruct G4 as [C4 H4]. clear D.
  apply bind_Val in E as (n & EN & E). apply bind_Val in E as (? & RD & E). apply bind_Val in E as (? & _ & E).
  apply bind_Val in E as (? & _ & E). apply bind_Val in E as (e & EE & E). apply bind_Val in E as (dst & ID & E). apply bind_Val in E as (xx & EM & E).
  injection E as <- _.
  apply usize_arith_range in EN. apply index_range_blen in ID; [|lia]. apply emplace_blen in EM.
  assert (C5 : blen (set_range (owned_buf b4) n xx) = cap b2) by (rewrite blen_set_range; fold (cap b4); unfold cap in *; lia).
  split; [|intros _; constructor]. eapply grew_trans; [exact G1|]. destruct G2 as [_ GU GC GD].
  constructor; unfold fit, used_space, cap in *; cbn [set_field_locs set_buf owned_buf head]; rewrite ?C5; auto; lia.
Qed.

Ltac go := repeat match goal with
  | E : bind _ _ = Val _ |- _ => let x := fresh "x" in let H := fresh "H" in apply bind_Val in E as (x & H & E)
  | p : (builder * Z)%type |- _ => destruct p
  | p : (builder * list Z)%type |- _ => destruct p
  | E : Val _ = Val _ |- _ => injection E as E
  end; subst.

Lemma good_end_table h b off b' o : fit b -> slots b -> end_table h b off = Val (b', o) -> good b b'.
Proof.
  intros F S E. unfold end_table in E. go. pose proof (good_vtable _ _ _ _ _ F S H0) as [G Q].
  split; [|intros _; constructor]. eapply grew_trans; [exact G|]. apply grew_same; auto; [destruct G; auto|lia].
Qed.
Lemma good_byte_string h b s b' o : fit b -> create_byte_string h b s = Val (b', o) -> good b b'.
Proof.
  intros F E. unfold create_byte_string in E. go.
  pose proof (good_align _ _ _ _ _ F H1) as G1. pose proof (good_push _ _ _ _ _ (good_fit _ _ G1) H2) as G2.
  pose proof (good_bytes _ _ _ _ (good_fit _ _ G2) H3) as G3. pose proof (good_push _ _ _ _ _ (good_fit _ _ G3) H4) as G4.
  eauto using good_trans.
Qed.
Lemma good_string h b s b' o : fit b -> create_string h b s = Val (b', o) -> good b b'.
Proof. intros F E. unfold create_string in E. apply bind_Val in E as (? & _ & E). eapply good_byte_string; eauto. Qed.
Lemma good_strings h l : forall b acc b' r, fit b -> create_strings_rev h b l acc = Val (b', r) -> good b b'.
Proof.
  induction l as [|s l IH]; intros b acc b' r F E; cbn [create_strings_rev] in E.
  - injection E as <- _. apply good_refl; auto.
  - apply bind_Val in E as ([b1 o] & P & E). pose proof (good_string _ _ _ _ _ F P) as G.
    eapply good_trans; [exact G|]. eapply IH; [eapply good_fit; eauto|eauto].
Qed.
Lemma good_vector h b sz al items b' o : fit b -> create_vector h b sz al items = Val (b', o) -> good b b'.
Proof.
  intros F E. unfold create_vector in E. go.
  pose proof (good_align _ _ _ _ _ F H0) as G1. pose proof (good_push_all _ _ _ _ (good_fit _ _ G1) H1) as G2.
  pose proof (good_push _ _ _ _ _ (good_fit _ _ G2) E) as G3. eauto using good_trans.
Qed.
Lemma good_vector_direct h b t items b' o : fit b -> create_vector_direct h b t items = Val (b', o) -> good b b'.
Proof.
  intros F E. unfold create_vector_direct in E. go.
  pose proof (good_align _ _ _ _ _ F H1) as G1. pose proof (good_bytes _ _ _ _ (good_fit _ _ G1) H2) as G2.
  pose proof (good_push _ _ _ _ _ (good_fit _ _ G2) H3) as G3. eauto using good_trans.
Qed.
Lemma good_finish h b root i sp b' : fit b -> finish_with_opts h b root i sp = Val b' -> good b b'.
Proof.
  intros F E. unfold finish_with_opts in E. apply bind_Val in E as (? & _ & E). apply bind_Val in E as (? & _ & E).
  apply bind_Val in E as (b1 & A & E). apply bind_Val in E as (b2 & I & E). apply bind_Val in E as ([b3 o] & P & E).
  apply bind_Val in E as (b4 & Q & E). injection E as <-.
  assert (G0 : good b (set_revpos b [])) by (apply good_same; auto).
  pose proof (good_align _ _ _ _ _ (good_fit _ _ G0) A) as G1.
  assert (G2 : good b1 b2).
  { destruct i; [apply bind_Val in I as (? & _ & I); eapply good_bytes; eauto using good_fit|injection I as <-; apply good_refl; eauto using good_fit]. }
  pose proof (good_push _ _ _ _ _ (good_fit _ _ G2) P) as G3.
  assert (G4 : good b3 b4).
  { destruct sp; [apply bind_Val in Q as ([b5 o5] & Q1 & Q); injection Q as <-; eapply good_push; eauto using good_fit|injection Q as <-; apply good_refl; eauto using good_fit]. }
  assert (G5 : good b4 (set_finished b4 true)) by (apply good_same; eauto using good_fit).
  exact (good_trans _ _ _ G0 (good_trans _ _ _ G1 (good_trans _ _ _ G2 (good_trans _ _ _ G3 (good_trans _ _ _ G4 G5))))).
Qed.

Lemma good_step h b o b' x : fit b -> slots b -> op_ok o = true -> is_reset o = false -> step h b o = Val (b', x) -> good b b'.
Proof.
  intros F S O R E. unfold step, with_num, without in E. destruct o; try discriminate R; cbn [op_ok] in O;
    repeat (apply bind_Val in E as (?p & ?H & E)); repeat match goal with p : (builder * Z)%type |- _ => destruct p end;
    injection E as <- _; try (apply good_refl; assumption).
  - eapply good_push; eauto.
  - unfold push_slot in H. apply bind_Val in H as (? & _ & H). destruct (pval_eq _ _); [injection H as <-; apply good_refl; auto|].
    eapply good_slot; [auto| |eauto]. unfold u16_ok in O. clear - O. lia.
  - eapply good_slot; [auto| |eauto]. unfold u16_ok in O. clear - O. lia.
  - unfold start_table in H. apply bind_Val in H as (? & _ & H). injection H as <- _. apply good_same; auto.
  - eapply good_end_table; eauto.
  - unfold start_vector in H. apply bind_Val in H as (? & _ & H). apply bind_Val in H as (n & _ & H).
    eapply good_trans; [|eapply good_align; [|eauto]]; [apply good_same; auto|exact F].
  - unfold end_vector in H. apply bind_Val in H as (? & _ & H).
    eapply good_trans; [|eapply good_push; [|eauto]]; [apply good_same; auto|exact F].
  - eapply good_string; eauto.
  - eapply good_byte_string; eauto.
  - eapply good_vector_direct; eauto.
  - unfold create_vector_of_strings in H. apply bind_Val in H as (? & _ & H). apply bind_Val in H as ([b1 offs] & H1 & H).
    eapply good_trans; [eapply good_strings; eauto|]. eapply good_vector; [|eauto]. eapply good_fit. eapply good_strings; eauto.
  - eapply good_vector; eauto.
  - eapply good_finish; eauto.
Qed.

(** The builder after [os], for a fresh one and any program, resets included:
    the capacity never exceeds twice what some moment of the run used. *)
Lemma grown_run h os : forall b b' xs, fit b -> slots b -> forallb op_ok os = true -> run h b os = Val (b', xs) ->
  fit b' /\ slots b' /\ doubles (cap b) (cap b') /\
  (cap b' = cap b \/ exists os1 os2 b1 xs1, os = os1 ++ os2 /\ run h b os1 = Val (b1, xs1) /\ cap b' <= 2 * (used_space b1 + 65537)).
Proof.
  induction os as [|o os IH]; intros b b' xs F S O E; cbn [run forallb] in *.
  - injection E as <- <-. auto using doubles_refl.
  - apply andb_true_iff in O as [O Os]. apply bind_Val in E as ([b1 x] & E1 & E). apply bind_Val in E as ([b2 ys] & E2 & E). injection E as <- <-.
    assert (F1 : fit b1 /\ slots b1 /\ doubles (cap b) (cap b1) /\ (cap b1 = cap b \/ cap b1 <= 2 * (used_space b1 + 65537))).
    { destruct (is_reset o) eqn:R.
      - destruct o; try discriminate R. cbn [step] in E1. injection E1 as <- <-.
        assert (C : cap (reset b) = cap b).
        { unfold cap, reset. cbn [owned_buf]. rewrite blen_app, blen_zeros, blen_firstn. unfold used_space. destruct F. unfold cap in *. lia. }
        split; [|split; [exact S|split; [rewrite C; apply doubles_refl|auto]]].
        unfold fit. rewrite C. unfold reset. cbn [head]. fold (cap b). destruct F. lia.
      - destruct (good_step _ _ _ _ _ F S O R E1) as [[G1 G2 G3 G4] GS]. split; auto. split; auto. split; auto.
        destruct G4 as (k & Hk & D). assert (1 <= 2 ^ k) by (pose proof (Z.pow_pos_nonneg 2 k); lia).
        pose proof (blen_nonneg (owned_buf b)) as P. fold (cap b) in P. assert (cap b <= cap b1) by (destruct D as [->|[-> ->]]; nia).
        lia. }
    destruct F1 as (F1 & S1 & D1 & C1). destruct (IH _ _ _ F1 S1 Os E2) as (F2 & S2 & D2 & C2).
    split; auto. split; auto. split; [eapply doubles_trans; eauto|].
    destruct C2 as [C2|(os1 & os2 & b3 & xs3 & -> & R & C2)].
    + destruct C1 as [C1|C1]; [left; congruence|]. right. exists [o], os, b1, [x]. split; auto. cbn [run]. rewrite E1. cbn [bind]. split; auto. lia.
    + right. exists (o :: os1), os2, b3, (x :: xs3). split; auto. cbn [run]. rewrite E1. cbn [bind]. rewrite R. auto.
Qed.
Lemma grown_no_reset h os : forall b b' xs, fit b -> slots b -> forallb op_ok os = true -> no_reset os = true -> run h b os = Val (b', xs) -> good b b'.
Proof.
  induction os as [|o os IH]; intros b b' xs F S O N E; cbn [run forallb no_reset] in *.
  - injection E as <- <-. apply good_refl; auto.
  - apply andb_true_iff in O as [O Os]. apply andb_true_iff in N as [N Ns]. apply negb_true_iff in N.
    apply bind_Val in E as ([b1 x] & E1 & E). apply bind_Val in E as ([b2 ys] & E2 & E). injection E as <- <-.
    pose proof (good_step _ _ _ _ _ F S O N E1) as G. eapply good_trans; [exact G|]. eapply IH; eauto using good_fit. apply G. auto.
Qed.
Lemma fit_new c b : 0 <= c -> new_with_capacity c = Val b -> fit b /\ slots b /\ cap b = c /\ used_space b = 0.
Proof.
  intros C E. unfold new_with_capacity in E. destruct (c <=? MAX_BUFFER_SIZE) eqn:L; [|discriminate]. injection E as <-.
  unfold fit, slots, cap, used_space. cbn [owned_buf head field_locs]. rewrite blen_zeros. unfold MAX_BUFFER_SIZE in L. repeat split; try lia. constructor.
Qed.
Lemma fit_used b : fit b -> used_space b = blen (unfinished_data b).
Proof. intros [F _]. unfold used_space, unfinished_data, cap in *. rewrite blen_skipn. lia. Qed.

Lemma buffer_bounded h c os b xs : 0 <= c -> forallb op_ok os = true -> program h c os = Val (b, xs) ->
  blen (owned_buf b) = c \/ exists os1 os2 b1 xs1, os = os1 ++ os2 /\ program h c os1 = Val (b1, xs1) /\
    blen (owned_buf b) <= 2 * (blen (unfinished_data b1) + 65537).
Proof.
  intros C O E. unfold program in E. apply bind_Val in E as (b0 & N & E). destruct (fit_new _ _ C N) as (F & S & C0 & _).
  destruct (grown_run _ _ _ _ _ F S O E) as (F' & _ & _ & [Q|(os1 & os2 & b1 & xs1 & -> & R & Q)]); fold (cap b); [left; congruence|right].
  exists os1, os2, b1, xs1. split; auto. unfold program. rewrite N. cbn [bind]. split; auto.
  rewrite forallb_app in O. apply andb_true_iff in O as [O _]. destruct (grown_run _ _ _ _ _ F S O R) as (F1 & _).
  rewrite <- fit_used; auto.
Qed.
Lemma buffer_bounded_no_reset h c os b xs : 0 <= c -> forallb op_ok os = true -> no_reset os = true -> program h c os = Val (b, xs) ->
  blen (owned_buf b) <= Z.max c (2 * (blen (unfinished_data b) + 65537)).
Proof.
  intros C O NR E. unfold program in E. apply bind_Val in E as (b0 & N & E). destruct (fit_new _ _ C N) as (F & S & C0 & _).
  destruct (grown_no_reset _ _ _ _ _ F S O NR E) as [[F' _ G _] _]. rewrite <- fit_used; auto. fold (cap b). lia.
Qed.
Lemma buffer_doubles h c os b xs : 0 <= c -> forallb op_ok os = true -> program h c os = Val (b, xs) ->
  exists k, 0 <= k /\ (blen (owned_buf b) = c * 2 ^ k \/ c = 0 /\ blen (owned_buf b) = 2 ^ k).
Proof.
  intros C O E. unfold program in E. apply bind_Val in E as (b0 & N & E). destruct (fit_new _ _ C N) as (F & S & C0 & _).
  destruct (grown_run _ _ _ _ _ F S O E) as (_ & _ & D & _). unfold doubles in D. rewrite C0 in D. exact D.
Qed.

(** The accesses of the builder, up to pushes. *)
From Coq Require Import ZArith List Bool Lia Strings.Byte ZifyBool ZifyNat ZifyN.
From Verif Require Import Base Scalar Utf8 Reader Client Raw Builder Ops RawBuilder SpecRaw SpecWire SpecBuilder BaseFacts ScalarFacts ReaderFacts
  Abstract Refine Refine2 Build1 Build6 GrowthProofs RawProofs1.
Import ListNotations.
Local Open Scope Z_scope.

Lemma set_range_inner {A} (m : list A) a b y : 0 <= a <= b -> b <= blen m -> blen y <= b - a ->
  set_range m a (set_range (slice m a b) 0 y) = set_range m a y.
Proof.
  intros Ha Hb Hy. pose proof (blen_nonneg y).
  destruct (split_at m a) as (p & q & -> & Lp & Lq); [lia|]. rewrite blen_app in *.
  destruct (split_at q (b - a)) as (x & s & -> & Lx & Ls); [lia|]. rewrite blen_app in *.
  destruct (split_at x (blen y)) as (x1 & x2 & -> & L1 & L2); [lia|]. rewrite blen_app in *.
  assert (E : slice (p ++ (x1 ++ x2) ++ s) a b = x1 ++ x2).
  { replace a with (blen p + 0) by lia. replace b with (blen p + (b - a)) by lia. rewrite slice_app_r by lia.
    unfold slice. cbn [Z.to_nat skipn]. apply firstn_app_exact. rewrite blen_app. lia. }
  rewrite E. pose proof (set_range_mid [] x1 y x2 0 eq_refl ltac:(lia)) as S1. cbn [app] in S1. rewrite S1.
  rewrite (set_range_mid p (x1 ++ x2) (y ++ x2) s) by (rewrite ?blen_app; lia).
  rewrite <- (app_assoc x1). rewrite (set_range_mid p x1 y (x2 ++ s)) by lia. rewrite <- app_assoc. reflexivity.
Qed.

Lemma runs_val {A A' B} (P : access -> Prop) (R : A' -> B -> Prop) (a : A) f o : runs P R (f a) o -> runs P R (tbind (quiet (Val a)) f) o.
Proof. intros H. exact H. Qed.

(** The allocation after the contents of [r] became [x]. *)
Definition written (r : region) (m : list byte) (x : list byte) : Prop :=
  m = set_range (mem r) (from r) x /\ blen x = region_len r.
Lemma blen_store h n b : blen (store h n b) = Z.of_nat n.
Proof. unfold store. destruct (big_endian h); rewrite ?blen_rev; apply blen_le_encode. Qed.

Lemma emplace_runs (P : access -> Prop) h t r v : rok r ->
  (ssize t <= region_len r -> P (Access Store t (from r) 1 (blen (mem r)))) ->
  runs P (written r) (r_emplace_scalar h t r v) (emplace_scalar h t (contents r) v).
Proof.
  intros K HP. unfold r_emplace_scalar, emplace_scalar, write_range, region_index, region_get.
  rewrite blen_contents by auto. pose proof (ssize_pos t) as S.
  set (y := store h (snat t) _).
  assert (Ly : blen y = ssize t) by (subst y; rewrite blen_store, snat_size; reflexivity).
  replace (0 <=? ssize t) with true by lia. cbn [andb].
  destruct (ssize t <=? region_len r) eqn:L; cbn [andb].
  - replace (blen y =? ssize t - 0) with true by lia. split.
    + cbn. constructor; [|constructor]. rewrite Z.add_0_r. apply HP. lia.
    + unfold tbind, tthen, assign, quiet, did, result. cbv zeta. cbn [expect_some fst snd app mem from same_end]. unfold written. rewrite Z.add_0_r. pose proof K as [K1 K2]. unfold region_len in *.
      assert (Lc : blen (set_range (contents r) 0 y) = blen (contents r)) by (apply blen_set_range; [lia|rewrite blen_contents by auto; unfold region_len; lia]).
      split; [|rewrite Lc, blen_contents by auto; reflexivity].
      unfold contents. rewrite set_range_inner by lia. reflexivity.
  - apply runs_quiet. exact I.
Qed.

Lemma push_aligned h b n al b' : fit b -> pow8 al -> 0 <= n -> align h b n al = Val b' -> (used_space b' + n) mod al = 0.
Proof.
  intros F A N E. unfold align in E. apply bind_Val in E as (m & M & E). apply usize_arith_mod in M. subst m.
  assert (F0 : fit (set_min_align b (Z.max (min_align b) al))) by exact F.
  destruct (grew_space _ _ _ _ F0 (padding_bytes_nonneg _ _) E) as (_ & U & _). rewrite padding_pow8 in U by auto.
  change (used_space (set_min_align b (Z.max (min_align b) al))) with (used_space b) in U.
  rewrite U. assert (0 < al) by (destruct A as [->|[->|[->| ->]]]; lia).
  replace (used_space b + (- (used_space b + n)) mod al + n) with (used_space b + n + (- (used_space b + n)) mod al) by lia.
  rewrite Z.add_mod_idemp_r by lia. rewrite Z.add_opp_diag_r. apply Z.mod_0_l. lia.
Qed.
Lemma push_size_align x : push_size x = push_alignment x /\ 0 < push_size x.
Proof. destruct x as [t v|]; cbn [push_size push_alignment]; [|lia]. split; [destruct t; reflexivity|apply ssize_pos]. Qed.

Section B.
Context (h : host) (c : Z) (strict : bool) (P : access -> Prop).
(** Bytes anywhere in the allocation; other types in it, and in the strict case
    at a multiple of their size from its end. *)
Context (PB : forall k at_ n room, 0 <= at_ -> 0 <= n -> at_ + n <= room -> P (Access k TU8 at_ n room)).
Context (PT : forall k t at_ room, 0 <= at_ -> at_ + ssize t <= room ->
   (strict = true -> (room - at_) mod ssize t = 0 /\ doubles c room) -> P (Access k t at_ 1 room)).

Lemma wipe_runs r n m : rok r -> 0 <= n <= region_len r -> m = set_range (mem r) (from r) (zeros n) ->
  runs P eq (wipe r n) (Val m).
Proof.
  intros [K1 K2] N ->. unfold region_len in N. split; [|reflexivity]. constructor; [|constructor]. apply PB; lia.
Qed.

(** ** Growth *)
Lemma grow_runs b : runs P eq (w_grow_owned_buf h b) (grow_owned_buf h b).
Proof.
  unfold w_grow_owned_buf, grow_owned_buf. apply runs_let. intros dbl _. apply runs_let. intros diff _. go_let.
  apply runs_let. intros hd _. go_let. set (rs := firstn _ _). destruct (_ =? 1); [apply runs_same|].
  apply runs_let. intros cp W. set (mid := Z.max 1 dbl / 2) in *.
  assert (M : 0 <= mid) by (apply Z.div_pos; lia).
  unfold write_range in W. destruct (_ && _) eqn:Q; [|discriminate]. injection W as <-.
  set (cp := set_range _ _ _) in *. assert (L : blen cp = blen rs) by (apply blen_set_range; lia).
  unfold region_index, region_get, region_len, whole_of. cbn [mem from upto].
  replace ((0 <=? mid) && (mid <=? blen cp - 0)) with true by lia. cbn [expect_some].
  apply runs_val.
  assert (Z : set_range cp 0 (zeros mid) = zeros mid ++ skipn (Z.to_nat mid) cp).
  { unfold set_range. rewrite blen_zeros. change (Z.to_nat 0) with 0%nat. cbn [firstn app].
    f_equal. f_equal. lia. }
  rewrite <- Z.
  apply (runs_bind P eq eq _ (Val (set_range cp 0 (zeros mid))) _ (fun m => Val (set_buf b m hd))).
  - apply wipe_runs; [unfold rok; cbn [mem from upto]; lia|unfold region_len; cbn [from upto]; lia|reflexivity].
  - intros ? ? <- _. apply runs_same.
Qed.

Lemma grow_loop_runs n : forall b want, runs P eq (w_grow_loop h n b want) (grow_loop h n b want).
Proof.
  induction n as [|n IH]; intros; cbn [w_grow_loop grow_loop]; destruct (_ <=? _); try apply runs_same.
  eapply runs_bind; [apply grow_runs|]. intros ? ? <- _. apply IH.
Qed.
Lemma space_runs b want : runs P eq (w_make_space h b want) (make_space h b want).
Proof.
  unfold w_make_space, make_space. eapply runs_bind; [|intros ? ? <- _; apply runs_same].
  unfold w_ensure_capacity, ensure_capacity. destruct (_ <=? _); [apply runs_same|]. go_let. apply grow_loop_runs.
Qed.
Lemma align_runs b n al : runs P eq (w_align h b n al) (align h b n al).
Proof. unfold w_align, align. go_let. apply space_runs. Qed.

Definition dbl (b : builder) : Prop := strict = true -> doubles c (cap b).
Definition fine (b : builder) : Prop := fit b /\ dbl b.
Lemma fine_grew s b b' : fine b -> grew s b b' -> fine b'.
Proof. intros [F D] [F' _ _ D']. split; auto. intros S. eapply doubles_trans; eauto. Qed.
Lemma fine_good b b' : fine b -> good b b' -> fine b'.
Proof. intros F [G _]. eapply fine_grew; eauto. Qed.

Lemma unfinished_runs b : fine b ->
  runs P (fun r l => r = Region (owned_buf b) (head b) (cap b) /\ l = unfinished_data b /\ contents r = l)
    (quiet (w_unfinished b)) (Val (unfinished_data b)).
Proof.
  intros [[F _] _]. unfold w_unfinished, region_index, region_get, region_len, whole_of. cbn [mem from upto]. unfold cap in *.
  replace ((head b <=? blen (owned_buf b)) && _) with true by lia. apply runs_quiet. cbn.
  split; [unfold cap; f_equal; lia|]. split; auto. unfold contents, slice, unfinished_data. cbn [mem from upto].
  apply firstn_all2. rewrite skipn_length. unfold blen. lia.
Qed.

Lemma push_runs b x : fine b -> runs P eq (w_push h b x) (push h b x).
Proof.
  intros F. unfold w_push, push. cbv zeta. eapply runs_bind; [apply align_runs|]. intros b1 ? <- A.
  eapply runs_bind; [apply space_runs|]. intros b2 ? <- S.
  pose proof (push_size_align x) as [SA SP].
  pose proof (fine_good _ _ F (good_align _ _ _ _ _ (proj1 F) A)) as F1.
  pose proof (push_aligned _ _ _ _ _ (proj1 F) (push_alignment_pow8 x) (Z.lt_le_incl _ _ SP) A) as U1.
  destruct (grew_space _ _ _ _ (proj1 F1) (Z.lt_le_incl _ _ SP) S) as (G2 & U2 & _). pose proof (fine_grew _ _ _ F1 G2) as F2.
  rewrite <- U2 in U1. clear A S G2 U2 F F1 b b1. rewrite <- SA in U1.
  change (runs P eq
    (let+ d := quiet (w_unfinished b2) in
     let+ _ := quiet (assert_always (push_size x <=? region_len d)) in
     let+ m := w_push_into h x (Region (mem d) (from d) (from d + push_size x)) (region_len d - push_size x) in
     quiet (Val (set_buf b2 m (head b2), as_u32 (used_space (set_buf b2 m (head b2))))))
    (let* d := Val (unfinished_data b2) in
     let* _ := assert_always (push_size x <=? blen d) in
     let* dst := push_into h x (firstn (Z.to_nat (push_size x)) d) (skipn (Z.to_nat (push_size x)) d) in
     Val (set_buf b2 (set_range (owned_buf b2) (head b2) dst) (head b2),
         as_u32 (used_space (set_buf b2 (set_range (owned_buf b2) (head b2) dst) (head b2)))))).
  eapply runs_bind; [apply unfinished_runs; auto|]. intros r l (-> & -> & C) _.
  destruct F2 as [F D]. pose proof F as [Fh _].
  set (r := Region _ _ _) in *. assert (Kr : rok r) by (unfold rok, r, cap in *; cbn; lia).
  assert (EL : blen (unfinished_data b2) = region_len r) by (rewrite <- C; apply blen_contents; auto).
  rewrite EL. destruct (push_size x <=? region_len r) eqn:L; [|apply runs_quiet; exact I].
  unfold assert_always. go_let. cbn [mem from r]. set (r' := Region _ _ _).
  assert (Kr' : rok r') by (unfold rok, r', r, region_len, cap in *; cbn in *; lia).
  assert (Lr' : region_len r' = push_size x) by (unfold region_len, r'; cbn; lia).
  assert (EC : firstn (Z.to_nat (push_size x)) (unfinished_data b2) = contents r').
  { unfold contents, slice, r', unfinished_data. cbn [mem from upto]. f_equal. lia. }
  rewrite EC.
  assert (W : runs P (written r') (w_push_into h x r' (region_len r - push_size x))
    (push_into h x (contents r') (skipn (Z.to_nat (push_size x)) (unfinished_data b2)))).
  { assert (PP : forall t, ssize t = push_size x -> P (Access Store t (from r') 1 (blen (mem r')))).
    { intros t T. apply PT; unfold r', r, region_len in *; cbn [from mem upto] in *; fold (cap b2) in *; try lia.
      intros Q. split; [|auto]. rewrite T. exact U1. }
    destruct x as [t v|o]; cbn [w_push_into push_into push_size] in *.
    - apply emplace_runs; auto.
    - rewrite blen_skipn, EL. replace (Z.max 0 (region_len r - Z.max 0 4)) with (region_len r - 4) by lia.
      go_let. apply emplace_runs; auto. }
  eapply runs_bind; [exact W|]. intros m dst (-> & _) _. apply runs_ret. cbn [mem from r']. reflexivity.
Qed.

Lemma slot_runs b s x : fine b -> runs P eq (w_push_slot_always h b s x) (push_slot_always h b s x).
Proof.
  intros F. unfold w_push_slot_always, push_slot_always. go_let. eapply runs_bind; [apply push_runs; auto|].
  intros [b1 o] ? <- _. apply runs_same.
Qed.
Lemma bytes_runs b x : runs P eq (w_push_bytes_unprefixed h b x) (push_bytes_unprefixed h b x).
Proof.
  unfold w_push_bytes_unprefixed, push_bytes_unprefixed. eapply runs_bind; [apply space_runs|]. intros b1 ? <- _.
  cbv zeta. go_let. go_let. apply runs_same.
Qed.
End B.

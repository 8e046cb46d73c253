(** The builder refines the abstract machine of Abstract.v. *)
From Coq Require Import ZArith List Bool Lia Strings.Byte ZifyBool ZifyNat ZifyN.
From Verif Require Import Base Scalar Reader Builder Ops Abstract BaseFacts ScalarFacts.
Import ListNotations.
Local Open Scope Z_scope.

(** The Rust types of a [FieldLoc]. *)
Definition field_ok (f : field_loc) : Prop := 0 <= fl_off f < 2 ^ 32 /\ 0 <= fl_id f < 2 ^ 16.

(** Every reachable builder: the unused part of the buffer is zero, the buffer
    is a Rust allocation, the recorded vtables lie in the written part. *)
Record inv (b : builder) : Prop := Inv {
  inv_buf : owned_buf b = zeros (head b) ++ unfinished_data b;
  inv_head : 0 <= head b;
  inv_len : blen (owned_buf b) < 2 ^ 63;
  inv_vts : Forall (fun r => 0 <= r <= blen (unfinished_data b)) (written_vtable_revpos b);
  inv_fields : Forall field_ok (field_locs b)
}.

Lemma inv_used b : inv b -> used_space b = blen (unfinished_data b).
Proof.
  intros I. unfold used_space. rewrite (inv_buf b I) at 1. rewrite blen_app, blen_zeros.
  pose proof (inv_head b I). lia.
Qed.

Lemma inv_blen b : inv b -> blen (owned_buf b) = head b + blen (unfinished_data b).
Proof. intros I. pose proof (inv_used b I). unfold used_space in *. lia. Qed.

(** A builder given by its parts. *)
Lemma inv_make buf hd fl vts ne fi ma d :
  buf = zeros hd ++ d -> 0 <= hd -> blen buf < 2 ^ 63 ->
  Forall (fun r => 0 <= r <= blen d) vts -> Forall field_ok fl ->
  inv (Builder buf hd fl vts ne fi ma) /\
  view (Builder buf hd fl vts ne fi ma) = AState d fl vts ne fi ma.
Proof.
  intros -> Hh Hl Hv Hf.
  assert (E : unfinished_data (Builder (zeros hd ++ d) hd fl vts ne fi ma) = d).
  { unfold unfinished_data. cbn [head owned_buf]. apply skipn_app_exact. rewrite blen_zeros. lia. }
  split.
  - constructor; rewrite ?E; auto.
  - unfold view. rewrite E. reflexivity.
Qed.

(** ** Refinement of outcomes *)
Definition ref {X Y} (R : X -> Y -> Prop) (x : outcome X) (lax strict : outcome Y) : Prop :=
  match x with
  | Val v => exists w, R v w /\ lax = Val w /\ (forall r, strict = Val r -> r = w)
  | Err _ => False
  | Panic => forall r, strict <> Val r
  end.

Lemma ref_bind {X Y X' Y'} (R : X -> Y -> Prop) (R' : X' -> Y' -> Prop) x l s f fl fs :
  ref R x l s -> (forall v w, R v w -> ref R' (f v) (fl w) (fs w)) ->
  ref R' (bind x f) (bind l fl) (bind s fs).
Proof.
  intros H K. destruct x as [v|e|]; cbn in H; [|contradiction|].
  - destruct H as (w & HR & -> & Hs). cbn [bind]. specialize (K v w HR).
    unfold ref in *. destruct (f v) as [v'|e|]; [|auto|].
    + destruct K as (w' & HR' & Hl & Hs'). exists w'. split; [auto|]. split; [auto|].
      intros r Hr. destruct s as [w0|e|]; cbn [bind] in Hr; try discriminate.
      rewrite (Hs w0 eq_refl) in *. auto.
    + intros r Hr. destruct s as [w0|e|]; cbn [bind] in Hr; try discriminate.
      rewrite (Hs w0 eq_refl) in *. eapply K. exact Hr.
  - cbn. intros r Hr. destruct s as [w0|e|]; cbn [bind] in Hr; try discriminate.
    eapply H. reflexivity.
Qed.

Lemma ref_ret {X Y} (R : X -> Y -> Prop) v w : R v w -> ref R (Val v) (Val w) (Val w).
Proof. intros. exists w. split; [auto|]. split; [auto|]. congruence. Qed.

Lemma ref_same {X} (x : outcome X) : (forall e, x <> Err e) -> ref eq x x x.
Proof.
  intros H. destruct x; cbn.
  - exists a. split; auto. split; auto. congruence.
  - exact (H e eq_refl).
  - discriminate.
Qed.

Lemma ref_same_P {X} (P : X -> Prop) (x : outcome X) :
  (forall e, x <> Err e) -> (forall v, x = Val v -> P v) -> ref (fun a b => a = b /\ P a) x x x.
Proof.
  intros H HP. destruct x; cbn.
  - exists a. split; auto. split; auto. congruence.
  - exact (H e eq_refl).
  - discriminate.
Qed.

Lemma ref_eq {X Y} (R : X -> Y -> Prop) x x' l l' s s' :
  ref R x' l' s' -> x = x' -> l = l' -> s = s' -> ref R x l s.
Proof. intros; subst; auto. Qed.

Lemma ref_weaken {X Y} (R R' : X -> Y -> Prop) x l s :
  ref R x l s -> (forall v w, R v w -> R' v w) -> ref R' x l s.
Proof.
  intros H K. destruct x; cbn in *; auto. destruct H as (w & ? & ? & ?). exists w. auto.
Qed.

Definition Rb (b : builder) (a : astate) : Prop := inv b /\ a = view b.
Definition Rp {A} (x : builder * A) (y : astate * A) : Prop := Rb (fst x) (fst y) /\ snd x = snd y.

Lemma debug_assert_not_err h c e : debug_assert h c <> Err e.
Proof. unfold debug_assert. destruct (_ && _); discriminate. Qed.
Lemma assert_always_not_err c e : assert_always c <> Err e.
Proof. unfold assert_always. destruct c; discriminate. Qed.
Lemma i32_arith_not_err h v e : i32_arith h v <> Err e.
Proof. unfold i32_arith. destruct (_ && _), (debug h); discriminate. Qed.
Lemma expect_not_err {A} (x : outcome A) e : expect x <> Err e.
Proof. destruct x; discriminate. Qed.
Lemma expect_some_not_err {A} (x : option A) e : expect_some x <> Err e.
Proof. destruct x; discriminate. Qed.
Lemma write_range_not_err {A} (l : list A) a b x e : write_range l a b x <> Err e.
Proof. unfold write_range. destruct (_ && _); discriminate. Qed.
Lemma index_range_not_err {A} (l : list A) a b e : index_range l a b <> Err e.
Proof. apply expect_some_not_err. Qed.
Lemma emplace_not_err h t s x e : emplace_scalar h t s x <> Err e.
Proof. apply write_range_not_err. Qed.
Lemma bind_not_err {A B} (x : outcome A) (f : A -> outcome B) e :
  (forall e, x <> Err e) -> (forall a e, x = Val a -> f a <> Err e) -> bind x f <> Err e.
Proof. intros H K. destruct x; cbn; auto; try discriminate. exfalso. eapply H. reflexivity. Qed.

Create HintDb noerr.
#[export] Hint Resolve debug_assert_not_err assert_always_not_err i32_arith_not_err expect_not_err
  expect_some_not_err write_range_not_err index_range_not_err emplace_not_err unsigned_arith_not_err : noerr.

(** ** Buffer growth *)
Lemma grow_owned_buf_ok h b :
  inv b -> blen (owned_buf b) < 2 ^ 62 ->
  exists b', grow_owned_buf h b = Val b' /\ inv b' /\ view b' = view b /\
    blen (owned_buf b') = Z.max 1 (2 * blen (owned_buf b)).
Proof.
  intros I Hl. pose proof (inv_blen b I) as HL. pose proof (blen_nonneg (unfinished_data b)).
  pose proof (inv_head b I). pose proof (blen_nonneg (owned_buf b)).
  pose proof (inv_buf b I) as HB.
  unfold grow_owned_buf. set (L := blen (owned_buf b)) in *.
  rewrite usize_arith_ok by lia. cbn [bind]. rewrite usize_arith_ok by lia. cbn [bind].
  replace (Z.max 1 (L * 2) <? 2 ^ 63) with true by lia. cbn [assert_always bind].
  set (diff := Z.max 1 (L * 2) - L).
  assert (E1 : firstn (Z.to_nat (Z.max 1 (L * 2))) (owned_buf b ++ zeros diff) = owned_buf b ++ zeros diff).
  { apply firstn_all2. assert (blen (owned_buf b ++ zeros diff) = Z.max 1 (L * 2)).
    { rewrite blen_app, blen_zeros. fold L. lia. } unfold blen in *. lia. }
  rewrite E1. rewrite usize_arith_ok by lia. cbn [bind].
  assert (HbR : blen (owned_buf b ++ zeros diff) = L + diff).
  { rewrite blen_app, blen_zeros. fold L. lia. }
  unfold debug_assert. rewrite HbR. unfold used_space. fold L.
  replace (L - head b =? L + diff - (head b + diff)) with true by lia.
  cbn [negb]. rewrite andb_false_r. cbn [bind].
  destruct (Z.max 1 (L * 2) =? 1) eqn:E2.
  - assert (L = 0) by lia. assert (HZ : owned_buf b = []) by (apply blen_0_nil; auto).
    assert (HD : unfinished_data b = []) by (apply blen_0_nil; lia).
    eexists. split; [reflexivity|].
    destruct (inv_make (owned_buf b ++ zeros diff) (head b + diff) (field_locs b)
      (written_vtable_revpos b) (nested b) (finished b) (min_align b) []) as [I' V'].
    + rewrite HZ, app_nil_r. cbn [app]. f_equal. lia.
    + lia.
    + lia.
    + pose proof (inv_vts b I) as Iv. rewrite HD in Iv. exact Iv.
    + exact (inv_fields b I).
    + split; [exact I'|]. split; [|cbn [set_buf owned_buf]; lia].
      change (view (set_buf b (owned_buf b ++ zeros diff) (head b + diff)) = view b).
      unfold set_buf. rewrite V'. unfold view. rewrite HD. reflexivity.
  - assert (EM : Z.max 1 (L * 2) / 2 = L) by (replace (Z.max 1 (L * 2)) with (L * 2) by lia; apply Z.div_mul; lia).
    rewrite EM. rewrite firstn_app_exact by reflexivity.
    assert (Hdiff : diff = L) by lia.
    pose proof (write_range_ok (owned_buf b) (zeros diff) [] (owned_buf b) L (L + diff)) as W.
    rewrite !app_nil_r in W. rewrite W; [| reflexivity | rewrite blen_zeros; fold L; lia | rewrite blen_zeros; fold L; lia].
    cbn [bind]. rewrite skipn_app_exact by reflexivity.
    eexists. split; [reflexivity|].
    destruct (inv_make (zeros L ++ owned_buf b) (head b + diff) (field_locs b)
      (written_vtable_revpos b) (nested b) (finished b) (min_align b) (unfinished_data b)) as [I' V'].
    + rewrite HB at 1. rewrite app_assoc, zeros_app by lia. do 2 f_equal. lia.
    + lia.
    + rewrite blen_app, blen_zeros. fold L. lia.
    + exact (inv_vts b I).
    + exact (inv_fields b I).
    + split; [exact I'|]. split; [exact V'|]. cbn [set_buf owned_buf]. rewrite blen_app, blen_zeros. fold L. lia.
Qed.

Lemma grow_owned_buf_big h b :
  inv b -> 2 ^ 62 <= blen (owned_buf b) -> grow_owned_buf h b = Panic.
Proof.
  intros I Hl. pose proof (inv_len b I). unfold grow_owned_buf.
  rewrite usize_arith_ok by lia. cbn [bind]. rewrite usize_arith_ok by lia. cbn [bind].
  replace (Z.max 1 (blen (owned_buf b) * 2) <? 2 ^ 63) with false by lia. reflexivity.
Qed.

Lemma grow_loop_spec h want : 0 <= want -> forall fuel b, inv b ->
  match grow_loop h fuel b want with
  | Val b' => inv b' /\ view b' = view b /\ want <= head b'
  | Err _ => False
  | Panic => True
  end.
Proof.
  intros Hw. induction fuel as [|f IH]; intros b I; cbn [grow_loop];
    destruct (want <=? head b) eqn:E; auto.
  - split; [auto|]. split; [auto|lia].
  - split; [auto|]. split; [auto|lia].
  - destruct (Z.lt_ge_cases (blen (owned_buf b)) (2 ^ 62)) as [H|H].
    + destruct (grow_owned_buf_ok h b I H) as (b' & -> & I' & V' & _). cbn [bind].
      specialize (IH b' I'). destruct (grow_loop h f b' want); auto. rewrite <- V'. auto.
    + rewrite grow_owned_buf_big by auto. exact Logic.I.
Qed.

Lemma grow_loop_succeeds h want : 0 <= want -> forall fuel b, inv b ->
  1 <= blen (owned_buf b) -> blen (unfinished_data b) + want <= 2 ^ 61 ->
  blen (unfinished_data b) + want <= blen (owned_buf b) * 2 ^ Z.of_nat fuel ->
  exists b', grow_loop h fuel b want = Val b'.
Proof.
  intros Hw. induction fuel as [|f IH]; intros b I HL H61 Hf; cbn [grow_loop]; pose proof (inv_blen b I).
  - change (2 ^ Z.of_nat 0) with 1 in Hf. replace (want <=? head b) with true by lia. eauto.
  - destruct (want <=? head b) eqn:E; [eauto|].
    destruct (grow_owned_buf_ok h b I) as (b' & -> & I' & V' & L'); [lia|]. cbn [bind].
    assert (Ed : unfinished_data b' = unfinished_data b) by (apply (f_equal a_data) in V'; exact V').
    apply IH; auto; rewrite ?Ed; try lia.
    rewrite Nat2Z.inj_succ, Z.pow_succ_r in Hf by lia. rewrite L'. nia.
Qed.

(** The fuel of [grow_loop] never decides: more fuel changes nothing. *)
Lemma grow_loop_fuel h want k : forall fuel b, inv b ->
  1 <= blen (owned_buf b) -> 2 ^ 63 <= blen (owned_buf b) * 2 ^ Z.of_nat fuel ->
  grow_loop h (fuel + k) b want = grow_loop h fuel b want.
Proof.
  induction fuel as [|f IH]; intros b I HL Hf.
  - change (2 ^ Z.of_nat 0) with 1 in Hf. pose proof (inv_len b I). lia.
  - cbn [Nat.add grow_loop]. destruct (want <=? head b); [reflexivity|].
    destruct (Z.lt_ge_cases (blen (owned_buf b)) (2 ^ 62)) as [H|H].
    + destruct (grow_owned_buf_ok h b I H) as (b' & -> & I' & V' & L'). cbn [bind].
      apply IH; auto; rewrite ?L'; try lia.
      rewrite Nat2Z.inj_succ, Z.pow_succ_r in Hf by lia. nia.
    + rewrite grow_owned_buf_big by auto. reflexivity.
Qed.

Lemma grow_loop_fuel_100 h want k b : inv b ->
  grow_loop h (100 + k) b want = grow_loop h 100 b want.
Proof.
  intros I. pose proof (blen_nonneg (owned_buf b)).
  destruct (Z.eq_dec (blen (owned_buf b)) 0) as [E|E].
  - change (100 + k)%nat with (S (99 + k)). change 100%nat with (S 99). cbn [grow_loop].
    destruct (want <=? head b); [reflexivity|].
    destruct (grow_owned_buf_ok h b I) as (b' & -> & I' & V' & L'); [lia|]. cbn [bind].
    apply grow_loop_fuel; auto; rewrite L', E; cbn; lia.
  - apply grow_loop_fuel; auto; try lia.
Qed.

Lemma grow_loop_S h f b want :
  grow_loop h (S f) b want =
  if want <=? head b then Val b else let* b := grow_owned_buf h b in grow_loop h f b want.
Proof. reflexivity. Qed.

Lemma ensure_capacity_spec h b want :
  inv b -> 0 <= want ->
  match ensure_capacity h b want with
  | Val b' => inv b' /\ view b' = view b /\ want <= head b'
  | Err _ => False
  | Panic => ~ (want <= 2 ^ 31 /\ blen (unfinished_data b) + want <= 2 ^ 61)
  end.
Proof.
  intros I Hw. unfold ensure_capacity. destruct (want <=? head b) eqn:E.
  { split; [auto|]. split; [auto|lia]. }
  unfold MAX_BUFFER_SIZE, assert_always. destruct (want <=? 2 ^ 31) eqn:E2; cbn [bind].
  2:{ lia. }
  pose proof (grow_loop_spec h want Hw 100 b I) as GS.
  destruct (grow_loop h 100 b want) eqn:G; auto.
  intros [_ H]. pose proof (blen_nonneg (owned_buf b)).
  assert (exists b', grow_loop h 100 b want = Val b') as [b' Hb']; [|congruence].
  destruct (Z.eq_dec (blen (owned_buf b)) 0) as [E0|E0].
  - change 100%nat with (S 99). rewrite grow_loop_S. rewrite E.
    destruct (grow_owned_buf_ok h b I) as (b' & -> & I' & V' & L'); [lia|]. cbn [bind].
    assert (Ed : unfinished_data b' = unfinished_data b) by (apply (f_equal a_data) in V'; exact V').
    apply grow_loop_succeeds; auto; rewrite ?Ed; try lia.
  - apply grow_loop_succeeds; auto; try lia.
Qed.

(** Space for [want] bytes: the builder gets it when [room] says so. *)
Lemma make_space_room h b want :
  inv b -> 0 <= want ->
  ref (fun b' _ => inv b' /\ view b' = with_data (view b) (zeros want ++ unfinished_data b))
    (make_space h b want) (room false (unfinished_data b) want) (room true (unfinished_data b) want).
Proof.
  intros I Hw. unfold make_space.
  pose proof (ensure_capacity_spec h b want I Hw) as S.
  destruct (ensure_capacity h b want) as [b'|e|]; cbn [bind ref]; [|auto|].
  - destruct S as (I' & V' & Hh).
    assert (Ed : unfinished_data b' = unfinished_data b) by (apply (f_equal a_data) in V'; exact V').
    destruct (inv_make (owned_buf b') (head b' - want) (field_locs b')
      (written_vtable_revpos b') (nested b') (finished b') (min_align b') (zeros want ++ unfinished_data b')) as [I2 V2].
    + rewrite (inv_buf b' I') at 1. rewrite app_assoc, zeros_app by lia. do 2 f_equal. lia.
    + lia.
    + apply (inv_len b' I').
    + pose proof (inv_vts b' I') as Iv. eapply Forall_impl; [|exact Iv]. cbn. intros r Hr.
      rewrite blen_app, blen_zeros. lia.
    + exact (inv_fields b' I').
    + exists tt. split; [|split].
      * split; [exact I2|]. unfold set_buf. rewrite V2. rewrite <- V', Ed. unfold view, with_data. reflexivity.
      * unfold room.
        pose proof (inv_blen b' I'). pose proof (inv_len b' I'). rewrite Ed in *.
        replace (_ <? _) with true by lia. reflexivity.
      * intros [] _. reflexivity.
  - intros r Hr. unfold room, assert_always in Hr.
    destruct (_ && _) eqn:E; [|discriminate]. lia.
Qed.

Lemma make_space_ref h b a want :
  Rb b a -> 0 <= want ->
  ref Rb (make_space h b want) (a_space false a want) (a_space true a want).
Proof.
  intros [I ->] Hw. unfold a_space.
  replace (make_space h b want) with (let* b := make_space h b want in Val b)
    by (destruct (make_space h b want); reflexivity).
  eapply ref_bind; [apply make_space_room; auto|].
  intros v w [I' V']. apply ref_ret. split; auto.
Qed.

Lemma padding_bytes_nonneg n a : 0 <= padding_bytes n a.
Proof.
  unfold padding_bytes. apply Z.land_nonneg. left. apply Z.mod_pos_bound. lia.
Qed.

Lemma Rb_used b a : Rb b a -> used_space b = blen (a_data a).
Proof. intros [I ->]. apply inv_used. exact I. Qed.

Lemma Rb_flags b a fl vts ne fi ma :
  Rb b a -> Forall field_ok fl -> Forall (fun r => 0 <= r <= blen (a_data a)) vts ->
  Rb (Builder (owned_buf b) (head b) fl vts ne fi ma) (AState (a_data a) fl vts ne fi ma).
Proof.
  intros [I ->] Hf Hv.
  destruct (inv_make (owned_buf b) (head b) fl vts ne fi ma (unfinished_data b)) as [I2 V2]; auto.
  - apply (inv_buf b I).
  - apply (inv_head b I).
  - apply (inv_len b I).
  - split; auto.
Qed.

Lemma Rb_vts b a : Rb b a -> Forall (fun r => 0 <= r <= blen (a_data a)) (a_vts a).
Proof. intros [I ->]. apply (inv_vts b I). Qed.
Lemma Rb_fields b a : Rb b a -> Forall field_ok (a_fields a).
Proof. intros [I ->]. apply (inv_fields b I). Qed.

Ltac rbflags H :=
  apply Rb_flags; [exact H | apply (Rb_fields _ _ H) | apply (Rb_vts _ _ H)].

Lemma align_ref h b a len al :
  Rb b a -> ref Rb (align h b len al) (a_pad false h a len al) (a_pad true h a len al).
Proof.
  intros R. unfold align, a_pad.
  assert (R' : Rb (set_min_align b (Z.max (min_align b) al)) (with_align a (Z.max (a_align a) al))).
  { pose proof R as [I ->]. unfold set_min_align, with_align.
    rbflags R. }
  rewrite (Rb_used _ _ R').
  eapply ref_bind; [apply ref_same; apply unsigned_arith_not_err|].
  intros v w <-. apply make_space_ref; [exact R'|apply padding_bytes_nonneg].
Qed.

(** Overwriting bytes of the written part. *)
Lemma patch b p x s y n :
  inv b -> unfinished_data b = p ++ x ++ s -> blen y = blen x -> n = head b + blen p ->
  Rb (set_buf b (set_range (owned_buf b) n y) (head b)) (with_data (view b) (p ++ y ++ s)).
Proof.
  intros I Hd Hy ->. pose proof (inv_head b I).
  assert (E : set_range (owned_buf b) (head b + blen p) y = zeros (head b) ++ (p ++ y ++ s)).
  { rewrite (inv_buf b I), Hd, !(app_assoc _ p).
    rewrite (set_range_mid (zeros (head b) ++ p) x y s); auto.
    rewrite blen_app, blen_zeros. lia. }
  assert (EL : blen (p ++ y ++ s) = blen (unfinished_data b)).
  { rewrite Hd, !blen_app. lia. }
  destruct (inv_make (zeros (head b) ++ (p ++ y ++ s)) (head b) (field_locs b)
      (written_vtable_revpos b) (nested b) (finished b) (min_align b) (p ++ y ++ s)) as [I2 V2]; auto.
  - rewrite blen_app, blen_zeros, EL. pose proof (inv_blen b I). pose proof (inv_len b I). lia.
  - rewrite EL. apply (inv_vts b I).
  - apply (inv_fields b I).
  - unfold set_buf. rewrite E. split; auto.
Qed.

Lemma push_into_not_err h x dst rest e : push_into h x dst rest <> Err e.
Proof.
  destruct x; cbn [push_into]; [apply emplace_not_err|].
  apply bind_not_err; intros; [apply unsigned_arith_not_err|apply emplace_not_err].
Qed.

Lemma push_into_blen h x rest w :
  push_into h x (zeros (push_size x)) rest = Val w -> blen w = push_size x.
Proof.
  assert (Hz : forall t, blen (zeros (ssize t)) = ssize t).
  { intros t. rewrite blen_zeros. pose proof (ssize_pos t). lia. }
  destruct x as [t v|o]; cbn [push_into push_size]; intros H.
  - rewrite emplace_scalar_exact in H by auto. injection H as <-. apply blen_wire.
  - apply bind_Val in H as (n & _ & H). rewrite (emplace_scalar_exact h TU32) in H by auto.
    injection H as <-. apply blen_wire.
Qed.

Lemma push_size_nonneg x : 0 <= push_size x.
Proof. destruct x; cbn; [pose proof (ssize_pos t)|]; lia. Qed.

Lemma push_ref h b a x :
  Rb b a -> ref Rp (push h b x) (a_push false h a x) (a_push true h a x).
Proof.
  intros R. unfold push, a_push. pose proof (push_size_nonneg x) as Hs.
  eapply ref_bind; [apply align_ref; exact R|].
  intros b1 a1 [I1 ->]. cbn [a_data view].
  eapply ref_bind; [apply make_space_room; auto|].
  intros b2 [] [I2 V2].
  assert (E2 : unfinished_data b2 = zeros (push_size x) ++ unfinished_data b1)
    by (apply (f_equal a_data) in V2; exact V2).
  rewrite E2. rewrite blen_app, blen_zeros. pose proof (blen_nonneg (unfinished_data b1)).
  replace (push_size x <=? _) with true by lia. cbn [assert_always bind].
  rewrite firstn_app_exact, skipn_app_exact by (rewrite blen_zeros; lia).
  eapply ref_bind; [apply (ref_same_P (fun w => blen w = push_size x))|].
  - intros e. apply push_into_not_err.
  - intros w. apply push_into_blen.
  - intros w ? [<- Hw]. 
    pose proof (patch b2 [] (zeros (push_size x)) (unfinished_data b1) w (head b2) I2 E2) as P.
    cbn [app] in P.
    assert (P' := P ltac:(rewrite blen_zeros; lia) ltac:(rewrite blen_nil; lia)). clear P.
    rewrite (Rb_used _ _ P'). apply ref_ret. split; cbn [fst snd]; [|reflexivity].
    rewrite V2 in P'. exact P'.
Qed.

Lemma push_bytes_ref h b a x :
  Rb b a -> ref Rb (push_bytes_unprefixed h b x) (a_bytes false a x) (a_bytes true a x).
Proof.
  intros [I ->]. unfold push_bytes_unprefixed, a_bytes. pose proof (blen_nonneg x) as Hx. cbn [a_data view].
  eapply ref_bind; [apply make_space_room; auto|].
  intros b2 [] [I2 V2].
  assert (E2 : unfinished_data b2 = zeros (blen x) ++ unfinished_data b)
    by (apply (f_equal a_data) in V2; exact V2).
  pose proof (inv_blen b2 I2) as L2. pose proof (inv_len b2 I2). pose proof (inv_head b2 I2).
  rewrite E2, blen_app, blen_zeros in L2. pose proof (blen_nonneg (unfinished_data b)).
  rewrite usize_arith_ok by lia. cbn [bind].
  unfold write_range. replace (_ && _ && _) with true by lia. cbn [bind].
  pose proof (patch b2 [] (zeros (blen x)) (unfinished_data b) x (head b2) I2 E2) as P.
  cbn [app] in P.
  assert (P' := P ltac:(rewrite blen_zeros; lia) ltac:(rewrite blen_nil; lia)). clear P.
  apply ref_ret. rewrite V2 in P'. exact P'.
Qed.

Lemma push_num_range lim h a x a' o : a_push lim h a x = Val (a', o) -> 0 <= o < 2 ^ 32.
Proof.
  unfold a_push. intros H. apply bind_Val in H as (a1 & _ & H). apply bind_Val in H as (u & _ & H).
  apply bind_Val in H as (w & _ & H). injection H as _ <-. unfold as_u32. apply Z.mod_pos_bound. lia.
Qed.

Lemma push_ref' h b a x :
  Rb b a ->
  ref (fun r s => Rp r s /\ 0 <= snd r < 2 ^ 32 /\ field_locs (fst r) = field_locs b)
    (push h b x) (a_push false h a x) (a_push true h a x).
Proof.
  intros R. pose proof (push_ref h b a x R) as P. destruct (push h b x) as [[b' o]|e|] eqn:E; auto.
  destruct P as (w & HR & Hl & Hs). exists w. split; [|auto]. split; [auto|].
  destruct w as [a' o']. pose proof HR as [Rb' Ho]. cbn [fst snd] in *. subst o'. split.
  - eapply push_num_range; eauto.
  - destruct R as [_ ->]. destruct Rb' as [_ ->].
    unfold a_push in Hl. apply bind_Val in Hl as (a1 & H1 & H). apply bind_Val in H as (u & _ & H).
    apply bind_Val in H as (z & _ & H).
    apply (f_equal (fun r => match r with Val p => a_fields (fst p) | _ => [] end)) in H.
    cbn [fst a_fields with_data view] in H. rewrite <- H. unfold a_pad in H1. apply bind_Val in H1 as (n & _ & H1).
    unfold a_space in H1. apply bind_Val in H1 as (v & _ & H1). injection H1 as <-. reflexivity.
Qed.

Lemma push_slot_always_ref h b a slot x :
  Rb b a -> 0 <= slot < 2 ^ 16 ->
  ref Rb (push_slot_always h b slot x) (a_push_slot_always false h a slot x) (a_push_slot_always true h a slot x).
Proof.
  intros R Hs. unfold push_slot_always, a_push_slot_always, assert_nested.
  assert (En : nested b = a_nested a) by (destruct R as [_ ->]; reflexivity). rewrite En.
  eapply ref_bind; [apply ref_same; intros; apply debug_assert_not_err|]. intros ? ? _.
  eapply ref_bind; [apply push_ref'; exact R|].
  intros [b' o] [a' o'] ([R' Ho] & Hr & Hf). cbn [fst snd] in *. subst o'. apply ref_ret.
  unfold track_field, set_field_locs, a_track, with_fields.
  pose proof R' as [I' ->]. apply Rb_flags; auto.
  - apply Forall_app. split; [apply (Rb_fields _ _ R')|]. constructor; [|constructor]. split; cbn; lia.
  - apply (Rb_vts _ _ R').
Qed.

Lemma push_slot_ref h b a slot x d :
  Rb b a -> 0 <= slot < 2 ^ 16 ->
  ref Rb (push_slot h b slot x d) (a_push_slot false h a slot x d) (a_push_slot true h a slot x d).
Proof.
  intros R Hs. unfold push_slot, a_push_slot, assert_nested.
  assert (En : nested b = a_nested a) by (destruct R as [_ ->]; reflexivity). rewrite En.
  eapply ref_bind; [apply ref_same; intros; apply debug_assert_not_err|]. intros ? ? _.
  destruct (pval_eq x d).
  - apply ref_ret. exact R.
  - apply push_slot_always_ref; auto.
Qed.

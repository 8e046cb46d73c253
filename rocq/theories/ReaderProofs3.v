(** Proofs about vectors and their iterators (C08, C09, C10). *)
From Coq Require Import ZArith List Bool Lia Strings.Byte ZifyBool ZifyNat ZifyN.
From Verif Require Import Base Scalar Utf8 Reader Client BaseFacts ScalarFacts SpecWire WireFacts
  ReaderFacts ReaderProofs ReaderProofs2.
Import ListNotations.
Local Open Scope Z_scope.

Lemma size_of_le t : 0 <= size_of t <= 24.
Proof.
  destruct t as [t| | | | | | | | | | | | |t vs]; cbn [size_of]; try lia;
    pose proof (ssize_pos t); pose proof (ssize_le8 t); lia.
Qed.

Lemma vec_get_cell h t buf v n i :
  le_at buf v 4 n -> 0 <= i < n -> 0 < size_of t -> blen buf < 2 ^ 63 ->
  vec_get h t buf v i = follow h t buf (v + 4 + size_of t * i).
Proof.
  intros Hn Hi Hs Hm. destruct (u32_read h _ _ _ Hn Hm) as (Hr & Hr32 & Hb).
  pose proof Hn as (Hv & _). pose proof (size_of_le t).
  unfold vec_get. rewrite Hr. cbn [bind]. unfold debug_assert.
  replace (i <? n) with true by lia. replace (0 <? size_of t) with true by lia. cbn [negb].
  rewrite !andb_false_r.
  replace (if debug h then Val tt else Val tt) with (Val tt) by (destruct (debug h); reflexivity).
  cbn [bind]. unfold SIZE_UOFFSET.
  rewrite usize_arith_ok by lia. cbn [bind].
  rewrite usize_arith_ok by nia. cbn [bind].
  rewrite usize_arith_ok by nia. reflexivity.
Qed.

Lemma vec_get_past_end_debug h t buf v n i :
  le_at buf v 4 n -> n <= i -> debug h = true -> blen buf < 2 ^ 63 ->
  vec_get h t buf v i = Panic.
Proof.
  intros Hn Hi Hh Hm. destruct (u32_read h _ _ _ Hn Hm) as (Hr & Hr32 & Hb).
  unfold vec_get. rewrite Hh, Hr. cbn [bind]. unfold debug_assert. rewrite Hh.
  replace (i <? n) with false by lia. reflexivity.
Qed.

Lemma follow_scalar_iff h t buf loc x :
  t <> TBool -> 0 <= loc -> loc < 2 ^ 63 + 2 ^ 40 -> blen buf < 2 ^ 63 -> valid_scalar t x = true ->
  (follow h (FScalar t) buf loc = Val (VScalar x) <->
   le_at buf loc (snat t) (x mod 2 ^ (8 * ssize t))).
Proof.
  intros Ht Hl Hl2 Hm Hx. pose proof (ssize_le8 t). pose proof (ssize_pos t).
  assert (E : follow h (FScalar t) buf loc = let* v := read_scalar_at h t buf loc in Val (VScalar v)).
  { destruct t; try reflexivity. congruence. }
  rewrite E. clear E.
  pose proof (read_scalar_at_no_panic h t buf loc Hl ltac:(lia) Hm) as S.
  rewrite le_at_decode by (pose proof (snat_size t); lia).
  rewrite snat_size.
  destruct (read_scalar_at h t buf loc) as [v| |] eqn:E; cbn [bind].
  - destruct S as (y & Hy & ->).
    destruct (get_range_blen _ _ _ _ Hl Hy) as [Hb _].
    assert (Hby : blen y = ssize t) by lia. split.
    + intros [= <-]. split; [auto|]. exists y. split; [auto|].
      pose proof (wire_scalar_of t y Hby) as W. apply (f_equal le_decode) in W.
      rewrite <- W. unfold wire. rewrite le_decode_encode, snat_size.
      reflexivity.
    + intros (_ & y' & Hy' & Hd). rewrite Hy in Hy'. injection Hy' as <-. do 2 f_equal.
      rewrite <- (scalar_of_wire t x Hx). f_equal.
      unfold wire. rewrite <- (le_encode_mod (snat t) x), snat_size, <- Hd.
      replace (snat t) with (length y) by (unfold blen in Hby; pose proof (snat_size t); lia).
      symmetry. apply le_encode_decode.
  - split; [discriminate|]. intros (_ & y & Hy & _).
    rewrite (read_scalar_at_ok h t buf loc y) in E by (auto; lia). discriminate.
  - contradiction.
Qed.

Lemma follow_bool_iff h buf loc x :
  0 <= loc -> loc < 2 ^ 63 + 2 ^ 40 -> blen buf < 2 ^ 63 ->
  (follow h (FScalar TBool) buf loc = Val (VScalar x) <->
   exists b, le_at buf loc 1 b /\ x = if b =? 0 then 0 else 1).
Proof.
  intros Hl Hl2 Hm. cbn [follow].
  assert (K : forall b, le_at buf loc 1 b <-> read_scalar_at h TU8 buf loc = Val b).
  { intros b. destruct (valid_scalar TU8 b) eqn:V.
    - pose proof (follow_scalar_iff h TU8 buf loc b ltac:(discriminate) Hl Hl2 Hm V) as F.
      cbn [follow] in F. change (snat TU8) with 1%nat in F. change (8 * ssize TU8) with 8 in F.
      cbn in V. rewrite Z.mod_small in F by lia. rewrite <- F.
      destruct (read_scalar_at h TU8 buf loc); cbn [bind]; split; intros H; inversion H; reflexivity.
    - cbn in V. split; [intros (_ & R & _); cbn in R; lia|].
      intros E. pose proof (read_scalar_at_no_panic h TU8 buf loc Hl ltac:(cbn; lia) Hm) as S.
      rewrite E in S. destruct S as (y & Hy & ->).
      destruct (get_range_blen _ _ _ _ Hl Hy) as [Hb _].
      pose proof (scalar_of_unsigned_range TU8 y eq_refl ltac:(lia)). cbn in *. lia. }
  split.
  - intros H. apply bind_Val in H as (b & E & H). apply K in E. exists b. split; [auto|congruence].
  - intros (b & E & ->). apply K in E. rewrite E. reflexivity.
Qed.

Lemma follow_uoffset_at h t buf loc off :
  le_at buf loc 4 off -> blen buf < 2 ^ 63 ->
  follow h (FUOffset t) buf loc = follow h t buf (loc + off).
Proof.
  intros H Hm. pose proof H as (Hl & Ho & _). change (256 ^ Z.of_nat 4) with (2 ^ 32) in Ho.
  apply le_at_decode in H; [|lia]. destruct H as (_ & x & Hx & Hd). change (Z.of_nat 4) with 4 in Hx.
  destruct (get_range_blen _ _ _ _ Hl Hx) as [Hb Hr].
  cbn [follow]. unfold SIZE_UOFFSET. rewrite usize_arith_ok by lia. cbn [bind].
  rewrite Hx. cbn [ok_or bind]. rewrite read_scalar_exact by (cbn [ssize]; lia). cbn [bind].
  replace (scalar_of TU32 x) with off by (rewrite <- Hd; reflexivity).
  rewrite usize_arith_ok by lia. reflexivity.
Qed.

(** ** Iteration *)
Lemma zseq_app a n m : zseq a (n + m) = zseq a n ++ zseq (a + Z.of_nat n) m.
Proof.
  revert a. induction n; intros a; cbn [Nat.add zseq app].
  - f_equal. lia.
  - f_equal. rewrite IHn. do 2 f_equal. lia.
Qed.
Lemma zseq_length a n : length (zseq a n) = n.
Proof. revert a. induction n; intros a; cbn; auto. Qed.
Lemma zseq_firstn a n k : (k <= n)%nat -> firstn k (zseq a n) = zseq a k.
Proof.
  intros H. replace n with (k + (n - k))%nat by lia. rewrite zseq_app.
  rewrite firstn_app, zseq_length, Nat.sub_diag, firstn_O, app_nil_r.
  rewrite <- (zseq_length a k) at 1. apply firstn_all.
Qed.
Lemma zseq_skipn a n k : (k <= n)%nat -> skipn k (zseq a n) = zseq (a + Z.of_nat k) (n - k).
Proof.
  intros H. replace n with (k + (n - k))%nat at 1 by lia. rewrite zseq_app.
  rewrite skipn_app, zseq_length, Nat.sub_diag. cbn [skipn].
  rewrite <- (zseq_length a k) at 1. rewrite skipn_all. reflexivity.
Qed.
Lemma zseq_snoc a n : zseq a (S n) = zseq a n ++ [a + Z.of_nat n].
Proof. rewrite <- Nat.add_1_r, zseq_app. reflexivity. Qed.

Section Iter.
Context (h : host) (t : fty) (buf : list byte) (v n : Z).
Context (Hm : blen buf < 2 ^ 63) (Hp : plain t = true) (Hs : 0 < size_of t) (Hn : le_at buf v 4 n).

Let elem i := vec_get h t buf v i.

Definition at_elems (it : viter) (l : list (outcome fval)) : Prop :=
  exists a k, 0 <= a /\ a + Z.of_nat k <= n /\ l = map elem (zseq a k) /\ it_remaining it = Z.of_nat k /\
    (k <> O -> it_loc it = v + 4 + size_of t * a).

Lemma n_range : 0 <= v /\ v + 4 <= blen buf /\ 0 <= n < 2 ^ 32.
Proof. destruct (u32_read h _ _ _ Hn Hm) as (_ & R & B). pose proof Hn as (? & _). lia. Qed.

Lemma elem_follow i : 0 <= i < n -> elem i = follow h t buf (v + 4 + size_of t * i) /\ elem i <> Panic.
Proof.
  intros Hi. pose proof n_range. pose proof (size_of_le t). unfold elem.
  assert (E : vec_get h t buf v i = follow h t buf (v + 4 + size_of t * i))
    by (apply (vec_get_cell h t buf v n); auto).
  rewrite E. split; [auto|].
  apply follow_plain_no_panic; auto. nia.
Qed.

Lemma iter_next_dq it l :
  at_elems it l ->
  exists it', iter_next h t buf it = Val (fst (dq_next l), it') /\ at_elems it' (snd (dq_next l)).
Proof.
  intros (a & k & Ha & Hk & -> & Hr & Hl). pose proof n_range. pose proof (size_of_le t).
  unfold iter_next, debug_assert. replace (0 <? size_of t) with true by lia. rewrite andb_false_r. cbn [bind].
  rewrite Hr. destruct k as [|k].
  - cbn. exists it. split; [reflexivity|]. exists a, O. repeat split; auto; try lia.
  - replace (Z.of_nat (S k) =? 0) with false by lia. rewrite Hl by lia.
    destruct (elem_follow a ltac:(lia)) as [E N]. rewrite <- E.
    cbn [zseq map dq_next fst snd].
    destruct (elem a) eqn:Ea; try congruence; (
      rewrite usize_arith_ok by nia; cbn [bind]; rewrite usize_arith_ok by lia; cbn [bind];
      eexists; split; [reflexivity|];
      exists (a + 1), k; cbn [it_remaining it_loc]; repeat split; auto; try lia).
Qed.

Lemma iter_next_back_dq it l :
  at_elems it l ->
  exists it', iter_next_back h t buf it = Val (fst (dq_next_back l), it') /\ at_elems it' (snd (dq_next_back l)).
Proof.
  intros (a & k & Ha & Hk & -> & Hr & Hl). pose proof n_range. pose proof (size_of_le t).
  unfold iter_next_back, debug_assert. replace (0 <? size_of t) with true by lia. rewrite andb_false_r. cbn [bind].
  rewrite Hr. destruct k as [|k].
  - cbn. exists it. split; [reflexivity|]. exists a, O. repeat split; auto; try lia.
  - replace (Z.of_nat (S k) =? 0) with false by lia.
    rewrite zseq_snoc, map_app. unfold dq_next_back. rewrite rev_app_distr. cbn [map rev app].
    rewrite rev_involutive. cbn [fst snd].
    rewrite usize_arith_ok by lia. cbn [bind].
    rewrite usize_arith_ok by nia. cbn [bind].
    rewrite Hl by lia.
    rewrite usize_arith_ok by nia. cbn [bind].
    destruct (elem_follow (a + Z.of_nat k) ltac:(lia)) as [E N].
    replace (v + 4 + size_of t * a + size_of t * (Z.of_nat (S k) - 1))
      with (v + 4 + size_of t * (a + Z.of_nat k)) by nia.
    rewrite <- E.
    destruct (elem (a + Z.of_nat k)) eqn:Ea; try congruence; (
      eexists; split; [reflexivity|];
      exists a, k; cbn [it_remaining it_loc]; repeat split; auto; try lia).
Qed.

Lemma at_elems_len it l : at_elems it l -> iter_len it = Z.of_nat (length l) /\ length l = Z.to_nat (it_remaining it).
Proof.
  intros (a & k & _ & _ & -> & Hr & _). unfold iter_len. rewrite map_length, zseq_length. lia.
Qed.

Lemma iter_nth_dq it l x :
  0 <= x < 2 ^ 64 -> (debug h = true -> size_of t * x < 2 ^ 64) -> at_elems it l ->
  exists it', iter_nth h t buf it x = Val (fst (dq_nth x l), it') /\ at_elems it' (snd (dq_nth x l)).
Proof.
  intros Hx Hd (a & k & Ha & Hk & -> & Hr & Hl). pose proof n_range. pose proof (size_of_le t).
  unfold iter_nth, debug_assert. replace (0 <? size_of t) with true by lia. rewrite andb_false_r. cbn [bind].
  assert (Em : exists m, usize_arith h (size_of t * x) = Val m /\ (size_of t * x < 2 ^ 64 -> m = size_of t * x)).
  { destruct (Z.lt_ge_cases (size_of t * x) (2 ^ 64)).
    - exists (size_of t * x). rewrite usize_arith_ok by nia. auto.
    - unfold usize_arith, unsigned_arith. replace (_ && _) with false by lia.
      destruct (debug h); [lia|]. eexists. split; [reflexivity|]. lia. }
  destruct Em as (m & -> & Hmm). cbn [bind].
  unfold dq_nth. apply iter_next_dq.
  destruct (Z.lt_ge_cases x (Z.of_nat k)) as [Hlt|Hge].
  - exists (a + x), (k - Z.to_nat x)%nat. rewrite skipn_map, zseq_skipn by lia.
    rewrite Z2Nat.id by lia. cbn [it_remaining it_loc]. repeat split; auto; try lia.
    intros _. rewrite Hl, Hmm by (lia || nia).
    rewrite Z.mod_small by nia. lia.
  - exists a, O. rewrite skipn_all2 by (rewrite map_length, zseq_length; lia).
    cbn [it_remaining it_loc]. repeat split; auto; try lia.
Qed.

Lemma iter_nth_back_dq it l x :
  0 <= x < 2 ^ 64 -> at_elems it l ->
  exists it', iter_nth_back h t buf it x = Val (fst (dq_nth_back x l), it') /\ at_elems it' (snd (dq_nth_back x l)).
Proof.
  intros Hx (a & k & Ha & Hk & -> & Hr & Hl). unfold iter_nth_back, dq_nth_back.
  apply iter_next_back_dq. rewrite map_length, zseq_length.
  exists a, (k - Z.to_nat x)%nat. rewrite firstn_map, zseq_firstn by lia.
  cbn [it_remaining it_loc]. repeat split; auto; try lia.
Qed.

Lemma iter_calls_dq cs : forall it l,
  Forall (itcall_fits h t) cs -> at_elems it l ->
  exists it', iter_calls h t buf cs it = Val (fst (dq_calls (map to_dq cs) l), it') /\
              at_elems it' (snd (dq_calls (map to_dq cs) l)).
Proof.
  induction cs as [|c cs IH]; intros it l Hc Hat; cbn [iter_calls map dq_calls].
  - exists it. auto.
  - inversion_clear Hc as [|? ? Hc1 Hc2].
    assert (S : exists it', iter_call h t buf c it = Val (fst (dq_call (to_dq c) l), it') /\ at_elems it' (snd (dq_call (to_dq c) l))).
    { destruct c; cbn [iter_call to_dq dq_call itcall_fits] in *.
      - apply iter_next_dq; auto.
      - apply iter_next_back_dq; auto.
      - destruct Hc1. apply iter_nth_dq; auto.
      - apply iter_nth_back_dq; auto. }
    destruct S as (it1 & -> & Hat1). cbn [bind].
    destruct (dq_call (to_dq c) l) as [x l1] eqn:Ec. cbn [fst snd] in *.
    destruct (IH it1 l1 Hc2 Hat1) as (it2 & -> & Hat2). cbn [bind].
    destruct (dq_calls (map to_dq cs) l1) as [xs l2]. cbn [fst snd] in *.
    exists it2. auto.
Qed.

Lemma vec_iter_elems : exists it, vec_iter h buf v = Val it /\ at_elems it (elements h t buf v n).
Proof.
  pose proof n_range. destruct (u32_read h _ _ _ Hn Hm) as (Hr & _).
  unfold vec_iter, vec_len. rewrite Hr. cbn [bind]. unfold SIZE_UOFFSET.
  rewrite usize_arith_ok by lia. cbn [bind]. eexists. split; [reflexivity|].
  exists 0, (Z.to_nat n). unfold elements. cbn [it_remaining it_loc]. repeat split; auto; lia.
Qed.
End Iter.

Lemma iteration_deque h t buf v n cs :
  blen buf < 2 ^ 63 -> plain t = true -> 0 < size_of t -> le_at buf v 4 n ->
  Forall (itcall_fits h t) cs ->
  exists it, vec_iter h buf v = Val it /\
  exists it', iter_calls h t buf cs it = Val (fst (dq_calls (map to_dq cs) (elements h t buf v n)), it') /\
    iter_len it' = Z.of_nat (length (snd (dq_calls (map to_dq cs) (elements h t buf v n)))) /\
    iter_size_hint it' = (iter_len it', Some (iter_len it')).
Proof.
  intros Hm Hp Hs Hn Hcs.
  destruct (vec_iter_elems h t buf v n Hm Hp Hn) as (it & E & Hat).
  exists it. split; [auto|].
  destruct (iter_calls_dq h t buf v n Hm Hp Hs Hn cs it _ Hcs Hat) as (it' & E' & Hat').
  exists it'. split; [auto|]. split; [|reflexivity]. apply (at_elems_len h t buf v n Hp _ _ Hat').
Qed.

Lemma iteration_unreadable h t buf v cs :
  0 <= v < 2 ^ 64 - 4 -> blen buf < 2 ^ 63 -> blen buf < v + 4 -> 0 < size_of t ->
  Forall (itcall_fits h t) cs ->
  exists it, vec_iter h buf v = Val it /\
  exists it', iter_calls h t buf cs it = Val (map (fun _ => None) cs, it') /\ iter_len it' = 0.
Proof.
  intros Hv Hm Hb Hs Hcs. unfold vec_iter, vec_len.
  rewrite read_out_of_bounds by (change (ssize TU32) with 4; lia). cbn [bind].
  unfold SIZE_UOFFSET. rewrite usize_arith_ok by lia. cbn [bind]. eexists. split; [reflexivity|].
  generalize (v + 4). induction cs as [|c cs IH]; intros l.
  - cbn. eexists. split; reflexivity.
  - inversion_clear Hcs as [|? ? Hc1 Hc2]. specialize (IH Hc2).
    assert (S : exists l', iter_call h t buf c (VIter l 0) = Val (None, VIter l' 0)).
    { destruct c; cbn [iter_call];
        unfold iter_nth, iter_nth_back, iter_next, iter_next_back, debug_assert; cbn [it_remaining it_loc];
        replace (0 <? size_of t) with true by lia; rewrite ?andb_false_r; cbn [bind].
      - cbn. eauto.
      - cbn. eauto.
      - destruct Hc1 as [Hx Hd]. unfold usize_ok in Hx.
        replace (Z.max 0 (0 - n)) with 0 by lia. cbn [Z.eqb].
        unfold usize_arith, unsigned_arith. destruct (_ && _) eqn:E; [cbn; eauto|].
        destruct (debug h); [specialize (Hd eq_refl); nia|cbn; eauto].
      - cbn in Hc1. unfold usize_ok in Hc1. replace (Z.max 0 (0 - n)) with 0 by lia. cbn. eauto. }
    destruct S as (l' & E). cbn [iter_calls]. rewrite E. cbn [bind].
    destruct (IH l') as (it' & -> & Hl'). cbn [bind map]. eauto.
Qed.

(** ** C10 *)
Lemma nth_far_release h t buf it x :
  debug h = false -> it_remaining it <= x -> 
  exists it', iter_nth h t buf it x = Val (None, it') /\ iter_len it' = 0.
Proof.
  intros Hh Hx. unfold iter_nth, iter_next, debug_assert. rewrite Hh. cbn [andb bind].
  unfold usize_arith, unsigned_arith. rewrite Hh.
  replace (Z.max 0 (it_remaining it - x)) with 0 by lia.
  destruct (_ && _); cbn; eauto.
Qed.

Lemma nth_far_panics_iff h t buf it x :
  debug h = true -> 0 < size_of t -> 0 <= x -> it_remaining it <= x ->
  (size_of t * x < 2 ^ 64 -> exists it', iter_nth h t buf it x = Val (None, it') /\ iter_len it' = 0) /\
  (2 ^ 64 <= size_of t * x -> iter_nth h t buf it x = Panic).
Proof.
  intros Hh Hs H0 Hx. unfold iter_nth, iter_next, debug_assert.
  replace (0 <? size_of t) with true by lia. rewrite Hh. cbn [andb negb bind].
  unfold usize_arith, unsigned_arith. rewrite Hh.
  replace (Z.max 0 (it_remaining it - x)) with 0 by lia. split; intros.
  - replace (_ && _) with true by nia. cbn. eauto.
  - replace (_ && _) with false by lia. reflexivity.
Qed.

Lemma nth_back_far h t buf it x :
  0 < size_of t -> it_remaining it <= x ->
  exists it', iter_nth_back h t buf it x = Val (None, it') /\ iter_len it' = 0.
Proof.
  intros Hs Hx. unfold iter_nth_back, iter_next_back, debug_assert.
  replace (0 <? size_of t) with true by lia. rewrite andb_false_r. cbn [bind].
  replace (Z.max 0 (it_remaining it - x)) with 0 by lia. cbn. eauto.
Qed.

(** The length of a vector, and whether it is zero. *)
Lemma vec_len_exact h buf v n : 0 <= v < 2 ^ 64 -> blen buf < 2 ^ 63 ->
  (vec_len h buf v = Val n <-> le_at buf v 4 n)
  /\ (le_at buf v 4 n -> exists e, vec_is_empty h buf v = Val e /\ (e = true <-> n = 0)).
Proof.
  intros Hv Hm. split; [split|].
  - intros H. apply u32_read_inv in H; auto.
  - intros H. now destruct (u32_read h _ _ _ H Hm) as (Hr & _).
  - intros H. destruct (u32_read h _ _ _ H Hm) as (Hr & _). unfold vec_is_empty, vec_len. rewrite Hr. cbn [bind].
    exists (n =? 0). split; [reflexivity|]. apply Z.eqb_eq.
Qed.

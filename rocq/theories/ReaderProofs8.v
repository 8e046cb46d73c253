(** Proofs that debug builds panic exactly where SpecFollow.v says (C04, C66). *)
From Coq Require Import ZArith List Bool Lia Strings.Byte ZifyBool ZifyNat ZifyN.
From Verif Require Import Base Scalar Utf8 Utf8Facts Reader Client BaseFacts ScalarFacts SpecWire WireFacts
  ReaderFacts ReaderProofs ReaderProofs2 ReaderProofs3 ReaderProofs4 ReaderProofs7.
Import ListNotations.
Local Open Scope Z_scope.

Section Dbg.
Context (h : host) (Hh : debug h = true) (buf : list byte) (Hm : blen buf < 2 ^ 63).

Lemma arith_dbg v : 0 <= v -> usize_arith h v = if v <? 2 ^ 64 then Val v else Panic.
Proof.
  intros Hv. unfold usize_arith, unsigned_arith. rewrite Hh. replace (0 <=? v) with true by lia. reflexivity.
Qed.

Lemma read_dbg t loc : usize_ok loc ->
  (2 ^ 64 <= loc + ssize t /\ read_scalar_at h t buf loc = Panic) \/
  (exists x, cell buf t loc x /\ loc + ssize t <= blen buf /\ read_scalar_at h t buf loc = Val x) \/
  (blen buf < loc + ssize t < 2 ^ 64 /\ read_scalar_at h t buf loc = Err OutOfBounds).
Proof.
  intros Hl. destruct (Z.le_gt_cases (2 ^ 64) (loc + ssize t)) as [O|O].
  - left. split; [auto|]. apply read_panics_iff; auto.
  - right. assert (N : read_scalar_at h t buf loc <> Panic).
    { intros P. apply read_panics_iff in P; auto. lia. }
    destruct (agrees_read_at h t buf loc) as [P|E]; [contradiction|]. rewrite E.
    destruct (read_cases (release h) t buf loc eq_refl Hl Hm) as [(x & C & E')|[F E']]; rewrite E'.
    + left. exists x. split; [auto|]. split; [apply (cell_in _ _ _ _ C)|reflexivity].
    + right. auto.
Qed.

Lemma offset_dbg {A} t w loc (k : Z -> outcome A) : usize_ok loc -> w = ssize t ->
  let r := (let* e := usize_arith h (loc + w) in
            let* s := ok_or (get_range buf loc e) OutOfBounds in
            let* off := read_scalar h t s in k off) in
  (2 ^ 64 <= loc + w /\ r = Panic) \/
  (exists x, cell buf t loc x /\ loc + w <= blen buf /\ r = k x) \/
  (blen buf < loc + w < 2 ^ 64 /\ r = Err OutOfBounds).
Proof.
  intros Hl -> r.
  assert (E : r = let* off := read_scalar_at h t buf loc in k off).
  { unfold r, read_scalar_at. destruct (usize_arith h (loc + ssize t)); cbn [bind]; try reflexivity.
    destruct (ok_or _ _); reflexivity. }
  rewrite E. destruct (read_dbg t loc Hl) as [[O ->]|[(x & C & B & ->)|[F ->]]]; cbn [bind]; eauto 6.
Qed.

Lemma signed_dbg loc s :
  i32_arith h (as_i32 loc - s) = Panic /\ ~ difference_fits loc s \/
  (exists d, i32_arith h (as_i32 loc - s) = Val d /\ i32_as_usize d = signed_target loc s) /\ difference_fits loc s.
Proof.
  pose proof (signed_location (release h) loc s eq_refl) as R. unfold i32_arith in *. rewrite Hh. cbn [debug release] in R.
  unfold difference_fits. rewrite <- as_i32_eq. destruct (_ && _) eqn:E.
  - right. split; [|lia]. eexists. split; [reflexivity|]. injection R as ->. reflexivity.
  - left. split; [reflexivity|]. lia.
Qed.

Lemma bind_val {A B} (x : outcome A) (f : A -> B) : (let* a := x in Val (f a)) = Panic <-> x = Panic.
Proof. destruct x; cbn [bind]; split; congruence. Qed.

Lemma read_dbg_iff t loc : usize_ok loc -> (read_scalar_at h t buf loc = Panic <-> 2 ^ 64 <= loc + ssize t).
Proof. intros Hl. rewrite read_panics_iff by auto. tauto. Qed.

Lemma str_dbg loc : usize_ok loc -> (follow_str h buf loc = Panic <-> 2 ^ 64 <= loc + 4).
Proof.
  intros Hl. destruct (read_dbg TU32 loc Hl) as [[O E]|[(n & C & B & E)|[F E]]]; change (ssize TU32) with 4 in *.
  - unfold follow_str. rewrite E. cbn [bind]. tauto.
  - apply cell_u32 in C. rewrite (follow_str_cases h _ _ n C Hm). split; [|lia]. intros P. exfalso.
    destruct (blen buf <=? loc + 4 + n) eqn:El; [discriminate|].
    destruct (nth_error buf _) as [z|] eqn:En.
    + destruct (negb _); [discriminate|]. destruct (utf8_valid _); discriminate.
    + apply nth_error_None in En. pose proof C as (? & ? & _). unfold blen in *. lia.
  - unfold follow_str. rewrite E. cbn [bind]. split; [discriminate|lia].
Qed.

Lemma slice_dbg t loc : usize_ok loc -> (follow_slice_helper h t buf loc = Panic <-> 2 ^ 64 <= loc + 4).
Proof.
  intros Hl. unfold follow_slice_helper, debug_assert. pose proof (ssize_pos t) as Hp.
  assert (Hs : ssize t <= 8) by (destruct t; cbn; lia).
  replace (0 <? ssize t) with true by lia. rewrite andb_false_r. cbn [bind].
  destruct (read_dbg TU32 loc Hl) as [[O E]|[(n & C & B & E)|[F E]]]; change (ssize TU32) with 4 in *; rewrite E; cbn [bind].
  - tauto.
  - apply cell_u32 in C. pose proof C as (? & R & _). change (256 ^ Z.of_nat 4) with (2 ^ 32) in R. unfold SIZE_UOFFSET.
    assert (0 <= n * ssize t <= 2 ^ 35) by nia.
    rewrite usize_arith_ok by lia. cbn [bind]. rewrite usize_arith_ok by lia. cbn [bind].
    rewrite usize_arith_ok by lia. cbn [bind]. destruct (ok_or _ _) eqn:G; cbn [bind]; split; try discriminate; try lia.
    destruct (get_range _ _ _); discriminate.
  - split; [discriminate|lia].
Qed.

Lemma follow_dbg t : forall loc, usize_ok loc -> (follow h t buf loc = Panic <-> overflows buf t loc).
Proof.
  induction t; intros loc Hl; cbn [overflows].
  - destruct (match t with TBool => true | _ => false end) eqn:Et.
    + destruct t; try discriminate. cbn [follow]. rewrite bind_val. exact (read_dbg_iff TU8 loc Hl).
    + replace (follow h (FScalar t) buf loc) with (let* v := read_scalar_at h t buf loc in Val (VScalar v))
        by (destruct t; try reflexivity; discriminate).
      rewrite bind_val. apply read_dbg_iff; auto.
  - cbn [follow]. rewrite bind_val. apply str_dbg; auto.
  - cbn [follow]. rewrite bind_val. apply slice_dbg; auto.
  - cbn [follow]. split; [discriminate|tauto].
  - cbn [follow]. split; [discriminate|tauto].
  - cbn [follow]. split; [discriminate|tauto].
  - cbn [follow].
    destruct (offset_dbg TU32 SIZE_UOFFSET loc (fun off => let* l := usize_arith h (loc + off) in follow h t buf l) Hl eq_refl)
      as [[O E]|[(x & C & B & E)|[F E]]]; rewrite E; unfold SIZE_UOFFSET in *.
    + tauto.
    + apply cell_u32 in C. pose proof C as (? & R & _). change (256 ^ Z.of_nat 4) with (2 ^ 32) in R.
      rewrite usize_arith_ok by lia. cbn [bind]. rewrite IHt by (unfold usize_ok; lia). split.
      * intros H1. right. eauto.
      * intros [?|(y & Y & H1)]; [lia|]. rewrite (le4 _ _ _ _ C Y). exact H1.
    + split; [discriminate|]. intros [?|(y & Y & _)]; [lia|]. apply (le_at_in _ _ 4) in Y; lia.
  - cbn [follow].
    destruct (offset_dbg TU16 SIZE_VOFFSET loc (fun off => let* l := usize_arith h (loc + off) in follow h t buf l) Hl eq_refl)
      as [[O E]|[(x & C & B & E)|[F E]]]; rewrite E; unfold SIZE_VOFFSET in *.
    + tauto.
    + apply cell_u16 in C. pose proof C as (? & R & _). change (256 ^ Z.of_nat 2) with (2 ^ 16) in R.
      rewrite usize_arith_ok by lia. cbn [bind]. rewrite IHt by (unfold usize_ok; lia). split.
      * intros H1. right. eauto.
      * intros [?|(y & Y & H1)]; [lia|]. rewrite (le2 _ _ _ _ C Y). exact H1.
    + split; [discriminate|]. intros [?|(y & Y & _)]; [lia|]. apply (le_at_in _ _ 2) in Y; lia.
  - cbn [follow].
    destruct (offset_dbg TI32 SIZE_SOFFSET loc (fun off => let* d := i32_arith h (as_i32 loc - off) in follow h t buf (i32_as_usize d)) Hl eq_refl)
      as [[O E]|[(x & C & B & E)|[F E]]]; rewrite E; unfold SIZE_SOFFSET in *.
    + tauto.
    + apply cell_i32 in C. destruct (signed_dbg loc x) as [[E2 D]|[(d & E2 & L) D]]; rewrite E2; cbn [bind].
      * split; [|reflexivity]. intros _. right. eauto.
      * rewrite L, IHt by apply signed_target_ok. split.
        -- intros H1. right. eauto.
        -- intros [?|(y & Y & H1)]; [lia|]. rewrite (soffset_unique _ _ _ _ Y C) in H1. tauto.
    + split; [discriminate|]. intros [?|(y & Y & _)]; [lia|]. apply soffset_in in Y. lia.
  - cbn [follow]. unfold SIZE_UOFFSET, usize_ok in *. rewrite arith_dbg by lia. destruct (loc + 4 <? 2 ^ 64) eqn:E; cbn [bind].
    + rewrite IHt by (unfold usize_ok; lia). split; [tauto|]. intros [?|H1]; [lia|exact H1].
    + split; [|reflexivity]. intros _. left. lia.
  - cbn [follow]. unfold SIZE_UOFFSET, usize_ok in *. rewrite arith_dbg by lia. destruct (loc + 4 <? 2 ^ 64) eqn:E; cbn [bind].
    + rewrite IHt by (unfold usize_ok; lia). split; [tauto|]. intros [?|H1]; [lia|exact H1].
    + split; [|reflexivity]. intros _. left. lia.
  - cbn [follow]. unfold FILE_IDENTIFIER_LENGTH, usize_ok in *. rewrite arith_dbg by lia. destruct (loc + 4 <? 2 ^ 64) eqn:E; cbn [bind].
    + rewrite IHt by (unfold usize_ok; lia). split; [tauto|]. intros [?|H1]; [lia|exact H1].
    + split; [|reflexivity]. intros _. left. lia.
  - cbn [follow]. unfold FILE_IDENTIFIER_LENGTH, usize_ok in *. rewrite arith_dbg by lia. destruct (loc + 4 <? 2 ^ 64) eqn:E; cbn [bind].
    + rewrite bind_val. split; [|lia]. destruct (get_range _ _ _); discriminate.
    + split; [|reflexivity]. lia.
  - cbn [follow]. destruct (read_dbg base loc Hl) as [[O ->]|[(x & C & B & ->)|[F ->]]]; cbn [bind].
    + tauto.
    + split; [destruct (existsb _ _); discriminate|lia].
    + split; [discriminate|lia].
Qed.

Lemma vtable_dbg tab : usize_ok tab ->
  (table_vtable h buf tab = Panic /\ overflows buf (FSOffset FVTable) tab) \/
  (exists s, soffset_at buf tab s /\ table_vtable h buf tab = Val (signed_target tab s) /\ ~ overflows buf (FSOffset FVTable) tab) \/
  (blen buf < tab + 4 /\ table_vtable h buf tab = Err OutOfBounds /\ ~ overflows buf (FSOffset FVTable) tab).
Proof.
  intros Ht. pose proof (follow_dbg (FSOffset FVTable) tab Ht) as D.
  destruct (follow_agrees h (FSOffset FVTable) buf tab) as [P|E].
  { left. split; [|tauto]. unfold table_vtable. rewrite P. reflexivity. }
  assert (A : table_vtable h buf tab = table_vtable (release h) buf tab) by (unfold table_vtable; rewrite E; reflexivity).
  assert (N : ~ overflows buf (FSOffset FVTable) tab).
  { rewrite <- D, E. apply (follow_exact (release h) (FSOffset FVTable) buf tab eq_refl Hm eq_refl Ht). }
  right. rewrite A. destruct (table_vtable_release (release h) buf tab eq_refl Hm Ht) as [(s & S1 & E1)|[F E1]]; rewrite E1; eauto 6.
Qed.

Lemma field_dbg tab slot t d : usize_ok tab -> 0 <= slot < 2 ^ 16 ->
  (table_get h buf tab slot t d = Panic <-> field_overflows buf tab slot t).
Proof.
  intros Ht Hslot. unfold table_get, field_overflows.
  destruct (vtable_dbg tab Ht) as [[E O]|[(s & S1 & E & N)|[F [E N]]]]; rewrite E; cbn [bind].
  { tauto. }
  2:{ split; [discriminate|]. intros [?|(s & S1 & _)]; [tauto|]. apply soffset_in in S1. lia. }
  pose proof (signed_target_ok tab s) as Hv. pose proof (soffset_in _ _ _ S1) as Ht2. unfold usize_ok in Ht.
  assert (K : forall P : Z -> Prop, (exists s', soffset_at buf tab s' /\ P s') <-> P s).
  { intros P. split; [intros (s' & S2 & H1); rewrite <- (soffset_unique _ _ _ _ S2 S1); exact H1|eauto]. }
  rewrite (K (fun s => 2 ^ 64 <= signed_target tab s + 2 \/ _)). clear K.
  set (v := signed_target tab s) in *.
  transitivity (2 ^ 64 <= v + 2 \/ exists n off, le_at buf v 2 n /\ slot < n /\ le_at buf (v + slot) 2 off /\ off <> 0 /\ overflows buf t (tab + off)); [|tauto].
  unfold vt_get, vt_num_bytes.
  destruct (read_dbg TU16 v Hv) as [[O E1]|[(n & C & B & E1)|[F E1]]]; rewrite E1; cbn [bind]; change (ssize TU16) with 2 in *.
  { tauto. }
  2:{ split; [discriminate|]. intros [?|(n & off & M & _)]; [lia|]. apply (le_at_in _ _ 2) in M; lia. }
  apply cell_u16 in C. pose proof C as (? & Hn & _). change (256 ^ Z.of_nat 2) with (2 ^ 16) in Hn.
  destruct (n <=? slot) eqn:El; cbn [bind].
  { split; [discriminate|]. intros [?|(n' & off & M & L & _)]; [lia|]. rewrite (le2 _ _ _ _ M C) in L. lia. }
  rewrite usize_arith_ok by lia. cbn [bind].
  destruct (read_dbg TU16 (v + slot) ltac:(unfold usize_ok; lia)) as [[O E2]|[(o & C2 & B2 & E2)|[F E2]]]; rewrite E2; cbn [bind];
    change (ssize TU16) with 2 in *.
  { lia. }
  2:{ split; [discriminate|]. intros [?|(n' & off & _ & _ & M & _)]; [lia|]. apply (le_at_in _ _ 2) in M; lia. }
  apply cell_u16 in C2. pose proof C2 as (_ & Ho & _). change (256 ^ Z.of_nat 2) with (2 ^ 16) in Ho.
  destruct (o =? 0) eqn:Eo.
  { split; [discriminate|]. intros [?|(n' & off & _ & _ & M & L & _)]; [lia|]. rewrite (le2 _ _ _ _ M C2) in L. lia. }
  rewrite usize_arith_ok by lia. cbn [bind]. rewrite bind_val, follow_dbg by (unfold usize_ok; lia). split.
  - intros H1. right. exists n, o. repeat (split; [first [assumption|lia]|]). exact H1.
  - intros [?|(n' & off & _ & _ & M & _ & H1)]; [lia|]. rewrite (le2 _ _ _ _ M C2) in H1. exact H1.
Qed.

(** ** Vectors *)
Lemma vec_len_dbg v : usize_ok v -> (vec_len h buf v = Panic <-> 2 ^ 64 <= v + 4).
Proof. intros Hv. exact (read_dbg_iff TU32 v Hv). Qed.

Lemma element_dbg t v i : usize_ok v -> usize_ok i ->
  (vec_get h t buf v i = Panic <->
   2 ^ 64 <= v + 4 \/
   exists n, le_at buf v 4 n /\ (n <= i \/ size_of t = 0 \/ overflows buf t (v + 4 + size_of t * i))).
Proof.
  intros Hv Hi. unfold vec_get. rewrite Hh. pose proof (size_of_le t) as Hs.
  destruct (read_dbg TU32 v Hv) as [[O E]|[(n & C & B & E)|[F E]]]; change (ssize TU32) with 4 in *; rewrite E; cbn [bind].
  - tauto.
  - apply cell_u32 in C. pose proof C as (? & R & _). change (256 ^ Z.of_nat 4) with (2 ^ 32) in R.
    assert (K : forall P : Z -> Prop, (exists n, le_at buf v 4 n /\ P n) <-> P n).
    { intros P. split; [intros (n' & M & H1); rewrite (le4 _ _ _ _ C M); exact H1|eauto]. }
    rewrite (K (fun n => n <= i \/ _)). clear K. unfold debug_assert. rewrite Hh. cbn [andb]. unfold usize_ok in *.
    destruct (i <? n) eqn:Ei; cbn [negb bind].
    2:{ split; [|reflexivity]. intros _. right. left. lia. }
    destruct (0 <? size_of t) eqn:Ez; cbn [negb bind].
    2:{ split; [|reflexivity]. intros _. right. right. left. lia. }
    unfold SIZE_UOFFSET. assert (0 <= size_of t * i <= 2 ^ 37) by nia.
    rewrite usize_arith_ok by lia. cbn [bind]. rewrite usize_arith_ok by lia. cbn [bind].
    rewrite usize_arith_ok by lia. cbn [bind]. rewrite follow_dbg by (unfold usize_ok; lia). split; [tauto|].
    intros [?|[?|[?|H1]]]; [lia|lia|lia|exact H1].
  - split; [discriminate|]. intros [?|(n & M & _)]; [lia|]. apply (le_at_in _ _ 4) in M; lia.
Qed.

Section Iter.
Context (t : fty) (Hs : 0 < size_of t) (v n : Z) (Hn : 0 <= n < 2 ^ 32) (Hv : n = 0 \/ 0 <= v < 2 ^ 63).

Definition at_ix (it : viter) (l : list Z) : Prop :=
  exists a k, 0 <= a /\ a + Z.of_nat k <= n /\ l = zseq a k /\ it_remaining it = Z.of_nat k /\
    (k <> O -> it_loc it = v + 4 + size_of t * a).
Definition bad_ix (i : Z) : Prop := overflows buf t (v + 4 + size_of t * i).
Definition bad_item (o : option Z) : Prop := exists i, o = Some i /\ bad_ix i.

(** One call: it panics at a bad element, or goes on without one. *)
Definition step (r : outcome (iter_item * viter)) (d : option Z * list Z) : Prop :=
  (r = Panic /\ bad_item (fst d)) \/ (exists x it, r = Val (x, it) /\ at_ix it (snd d) /\ ~ bad_item (fst d)).

Lemma follow_ix i : 0 <= i < n ->
  follow h t buf (v + 4 + size_of t * i) = Panic /\ bad_ix i \/
  follow h t buf (v + 4 + size_of t * i) <> Panic /\ ~ bad_ix i.
Proof.
  intros Hi. unfold bad_ix. pose proof (size_of_le t). assert (0 <= size_of t * i <= 2 ^ 37) by nia.
  rewrite <- follow_dbg by (unfold usize_ok; lia). destruct (follow h t buf _); [right|right|left]; split; congruence.
Qed.

Lemma next_dbg it l : at_ix it l -> step (iter_next h t buf it) (dq_next l).
Proof.
  intros (a & k & Ha & Hk & -> & Hr & Hl). pose proof (size_of_le t).
  unfold iter_next, debug_assert. replace (0 <? size_of t) with true by lia. rewrite andb_false_r. cbn [bind].
  rewrite Hr. destruct k as [|k].
  - right. exists None, it. cbn [zseq dq_next fst snd]. split; [reflexivity|]. split; [|intros (i & ? & _); discriminate].
    exists a, O. repeat split; auto; lia.
  - replace (Z.of_nat (S k) =? 0) with false by lia. rewrite Hl by lia. cbn [zseq dq_next fst snd].
    assert (0 <= size_of t * a <= 2 ^ 37) by nia.
    destruct (follow_ix a ltac:(lia)) as [[E D]|[E D]].
    + left. rewrite E. split; [reflexivity|]. exists a. auto.
    + right. destruct (follow h t buf _) eqn:Ef; [| |congruence];
        (rewrite usize_arith_ok by lia; cbn [bind]; rewrite usize_arith_ok by lia; cbn [bind];
         eexists _, _; split; [reflexivity|]; split;
           [exists (a + 1), k; cbn [it_remaining it_loc]; repeat split; auto; lia
           |intros (i & [= <-] & D'); contradiction]).
Qed.

Lemma next_back_dbg it l : at_ix it l -> step (iter_next_back h t buf it) (dq_next_back l).
Proof.
  intros (a & k & Ha & Hk & -> & Hr & Hl). pose proof (size_of_le t).
  unfold iter_next_back, debug_assert. replace (0 <? size_of t) with true by lia. rewrite andb_false_r. cbn [bind].
  rewrite Hr. destruct k as [|k].
  - right. exists None, it. cbn. split; [reflexivity|]. split; [|intros (i & ? & _); discriminate].
    exists a, O. repeat split; auto; lia.
  - replace (Z.of_nat (S k) =? 0) with false by lia.
    rewrite zseq_snoc. unfold dq_next_back. rewrite rev_app_distr. cbn [rev app]. rewrite rev_involutive.
    assert (0 <= size_of t * a <= 2 ^ 37) by nia.
    assert (0 <= size_of t * (Z.of_nat (S k) - 1) <= 2 ^ 37) by nia.
    unfold step. cbn [fst snd].
    rewrite usize_arith_ok by lia. cbn [bind]. rewrite usize_arith_ok by lia. cbn [bind].
    rewrite Hl by lia. rewrite usize_arith_ok by lia. cbn [bind].
    replace (v + 4 + size_of t * a + size_of t * (Z.of_nat (S k) - 1))
      with (v + 4 + size_of t * (a + Z.of_nat k)) by nia.
    destruct (follow_ix (a + Z.of_nat k) ltac:(lia)) as [[E D]|[E D]].
    + left. rewrite E. split; [reflexivity|]. eexists. split; [reflexivity|exact D].
    + right. destruct (follow h t buf _) eqn:Ef; [| |congruence];
        (eexists _, _; split; [reflexivity|]; split;
           [exists a, k; cbn [it_remaining it_loc]; repeat split; auto; lia
           |intros (i & [= <-] & D'); contradiction]).
Qed.

Lemma call_dbg c it l : itcall_ok c -> (forall x, c = INth x -> size_of t * x < 2 ^ 64) -> at_ix it l ->
  step (iter_call h t buf c it) (dq_call (to_dq c) l).
Proof.
  intros Hc Hx A. destruct c as [| |x|x]; cbn [iter_call to_dq dq_call itcall_ok] in *.
  - apply next_dbg; auto.
  - apply next_back_dbg; auto.
  - specialize (Hx x eq_refl). destruct A as (a & k & Ha & Hk & -> & Hr & Hl). unfold usize_ok in Hc. pose proof (size_of_le t).
    unfold iter_nth, debug_assert. replace (0 <? size_of t) with true by lia. rewrite andb_false_r. cbn [bind].
    assert (0 <= size_of t * x) by nia. rewrite usize_arith_ok by lia. cbn [bind]. unfold dq_nth. apply next_dbg.
    destruct (Z.lt_ge_cases x (Z.of_nat k)) as [Hlt|Hge].
    + exists (a + x), (k - Z.to_nat x)%nat. rewrite zseq_skipn by lia. rewrite Z2Nat.id by lia.
      cbn [it_remaining it_loc]. repeat split; auto; try lia.
      intros _. rewrite Hl by lia. assert (0 <= size_of t * a <= 2 ^ 37) by nia. assert (size_of t * x <= 2 ^ 37) by nia.
      rewrite Z.mod_small by lia. lia.
    + exists a, O. rewrite skipn_all2 by (rewrite zseq_length; lia).
      cbn [it_remaining it_loc]. repeat split; auto; lia.
  - destruct A as (a & k & Ha & Hk & -> & Hr & Hl). unfold usize_ok in Hc. unfold iter_nth_back, dq_nth_back.
    apply next_back_dbg. rewrite zseq_length.
    exists a, (k - Z.to_nat x)%nat. rewrite zseq_firstn by lia.
    cbn [it_remaining it_loc]. repeat split; auto; try lia.
Qed.

Lemma calls_dbg cs : forall it l, Forall itcall_ok cs -> at_ix it l ->
  (iter_calls h t buf cs it = Panic <->
   (exists x, In (INth x) cs /\ 2 ^ 64 <= size_of t * x) \/
   (exists i, In (Some i) (fst (dq_calls (map to_dq cs) l)) /\ bad_ix i)).
Proof.
  induction cs as [|c cs IH]; intros it l Hc A; cbn [iter_calls map dq_calls].
  - split; [discriminate|]. intros [(x & [] & _)|(i & [] & _)].
  - inversion_clear Hc as [|? ? Hc1 Hc2].
    assert (D : (exists x, c = INth x /\ 2 ^ 64 <= size_of t * x) \/ (forall x, c = INth x -> size_of t * x < 2 ^ 64)).
    { destruct c as [| |x|x]; try (right; discriminate). destruct (Z.le_gt_cases (2 ^ 64) (size_of t * x)); [left; eauto|].
      right. intros y [= <-]. auto. }
    destruct D as [(x & -> & O)|D].
    + cbn [iter_call itcall_ok] in *. unfold usize_ok in Hc1.
      unfold iter_nth, debug_assert. replace (0 <? size_of t) with true by lia. rewrite andb_false_r. cbn [bind].
      rewrite arith_dbg by nia. replace (size_of t * x <? 2 ^ 64) with false by lia. cbn [bind].
      split; [|reflexivity]. intros _. left. exists x. split; [left; reflexivity|exact O].
    + pose proof (call_dbg c it l Hc1 D A) as St. unfold step in St. destruct (dq_call (to_dq c) l) as [o l1]. cbn [fst snd] in St.
      destruct St as [[E (i & -> & B)]|(x & it1 & E & A1 & B)]; rewrite E; cbn [bind].
      * split; [|reflexivity]. intros _. right. exists i. destruct (dq_calls (map to_dq cs) l1). split; [left; reflexivity|exact B].
      * specialize (IH it1 l1 Hc2 A1).
        destruct (dq_calls (map to_dq cs) l1) as [os l2]. cbn [fst] in *.
        transitivity (iter_calls h t buf cs it1 = Panic).
        { destruct (iter_calls h t buf cs it1) as [[? ?]| |]; cbn [bind]; split; congruence. }
        rewrite IH. split.
        -- intros [(y & I & O)|(i & I & O)]; [left; exists y; split; [right; exact I|exact O]|].
           right. exists i. split; [right; exact I|exact O].
        -- intros [(y & [Ey|I] & O)|(i & [Ei|I] & O)].
           ++ specialize (D y Ey). lia.
           ++ left. eauto.
           ++ exfalso. apply B. exists i. auto.
           ++ right. eauto.
Qed.
End Iter.

Lemma iter_dbg t v cs : usize_ok v -> Forall itcall_ok cs ->
  ((let* it := vec_iter h buf v in let* (xs, _) := iter_calls h t buf cs it in Val (item_vals xs)) = Panic <->
   2 ^ 64 <= v + 4 \/ (size_of t = 0 /\ cs <> []) \/
   (exists n, In (INth n) cs /\ 2 ^ 64 <= size_of t * n) \/
   (exists n k, le_at buf v 4 n /\ In (Some k) (fst (dq_calls (map to_dq cs) (zseq 0 (Z.to_nat n)))) /\
      overflows buf t (v + 4 + size_of t * k))).
Proof.
  intros Hv Hc. unfold vec_iter, vec_len. pose proof (size_of_le t) as Hz.
  assert (P : forall it, (let* (xs, _) := iter_calls h t buf cs it in Val (item_vals xs)) = Panic <-> iter_calls h t buf cs it = Panic).
  { intros it. destruct (iter_calls h t buf cs it) as [[? ?]| |]; cbn [bind]; split; congruence. }
  assert (Z0 : size_of t = 0 -> forall it, iter_calls h t buf cs it = Panic <-> cs <> []).
  { intros Ez it. destruct cs as [|c cs']; cbn [iter_calls]; [split; congruence|].
    split; [intros _; discriminate|]. intros _.
    replace (iter_call h t buf c it) with (@Panic (iter_item * viter)); [reflexivity|].
    destruct c; cbn [iter_call]; unfold iter_nth, iter_nth_back, iter_next, iter_next_back, debug_assert;
      rewrite Hh, Ez; reflexivity. }
  destruct (read_dbg TU32 v Hv) as [[O E]|[(n & C & B & E)|[F E]]]; change (ssize TU32) with 4 in *; rewrite E; cbn [bind];
    unfold SIZE_UOFFSET, usize_ok in *.
  - tauto.
  - apply cell_u32 in C. pose proof C as (? & R & _). change (256 ^ Z.of_nat 4) with (2 ^ 32) in R.
    rewrite usize_arith_ok by lia. cbn [bind]. rewrite P.
    assert (K : forall Q : Z -> Z -> Prop, (exists n k, le_at buf v 4 n /\ Q n k) <-> exists k, Q n k).
    { intros Q. split; [intros (m & k & M & H1); exists k; rewrite (le4 _ _ _ _ C M); exact H1|]. intros (k & H1). eauto. }
    rewrite (K (fun n k => In (Some k) (fst (dq_calls (map to_dq cs) (zseq 0 (Z.to_nat n)))) /\ overflows buf t (v + 4 + size_of t * k))).
    destruct (Z.eq_dec (size_of t) 0) as [Ez|Ez].
    + rewrite (Z0 Ez). split; [tauto|]. intros [?|[[_ ?]|[(x & I & _)|(k & I & _)]]]; [lia|assumption| |].
      * intros ->. destruct I.
      * intros ->. destruct I.
    + rewrite (calls_dbg t ltac:(lia) v n R ltac:(lia) cs (VIter (v + 4) n) (zseq 0 (Z.to_nat n)) Hc).
      * unfold bad_ix. split; [tauto|]. intros [?|[[? _]|H1]]; [lia|lia|exact H1].
      * exists 0, (Z.to_nat n). cbn [it_remaining it_loc]. repeat split; auto; lia.
  - rewrite usize_arith_ok by lia. cbn [bind]. rewrite P.
    destruct (Z.eq_dec (size_of t) 0) as [Ez|Ez].
    + rewrite (Z0 Ez). split; [tauto|]. intros [?|[[_ ?]|[(x & I & _)|(m & k & M & _)]]]; [lia|assumption| |].
      * intros ->. destruct I.
      * apply (le_at_in _ _ 4) in M; lia.
    + rewrite (calls_dbg t ltac:(lia) v 0 ltac:(lia) ltac:(lia) cs (VIter (v + 4) 0) [] Hc).
      * split.
        -- intros [H1|(i & I & _)]; [tauto|]. exfalso. clear - I. induction cs as [|c cs' IH]; [exact I|].
           cbn [map dq_calls] in I.
           assert (N : dq_call (to_dq c) (@nil Z) = (None, [])).
           { destruct c; cbn [to_dq dq_call]; unfold dq_nth, dq_nth_back; rewrite ?skipn_nil, ?firstn_nil; reflexivity. }
           rewrite N in I. destruct (dq_calls (map to_dq cs') []) as [os l] eqn:Ed. destruct I as [I|I]; [discriminate|]. apply IH. exact I.
        -- intros [?|[[? _]|[H1|(m & k & M & _)]]]; [lia|lia|left; exact H1|]. apply (le_at_in _ _ 4) in M; lia.
      * exists 0, O. cbn [it_remaining it_loc]. repeat split; auto; lia.
Qed.

(** ** One call of a program *)
Lemma num_bytes_dbg l : usize_ok l -> (vt_num_bytes h buf l = Panic <-> 2 ^ 64 <= l + 2).
Proof. intros Hl. exact (read_dbg_iff TU16 l Hl). Qed.

Lemma num_fields_dbg l : usize_ok l -> (vt_num_fields h buf l = Panic <-> 2 ^ 64 <= l + 2 \/ exists n, le_at buf l 2 n /\ n < 4).
Proof.
  intros Hl. unfold vt_num_fields, vt_num_bytes.
  destruct (read_dbg TU16 l Hl) as [[O E]|[(n & C & B & E)|[F E]]]; change (ssize TU16) with 2 in *; rewrite E; cbn [bind].
  - tauto.
  - apply cell_u16 in C. pose proof C as (? & R & _). change (256 ^ Z.of_nat 2) with (2 ^ 16) in R.
    unfold SIZE_VOFFSET, usize_arith, unsigned_arith. rewrite Hh.
    pose proof (Z.div_mod n 2 ltac:(lia)). pose proof (Z.mod_pos_bound n 2 ltac:(lia)).
    destruct (_ && _) eqn:El.
    + split; [discriminate|]. intros [?|(m & M & L)]; [lia|]. rewrite (le2 _ _ _ _ M C) in L. lia.
    + split; [|reflexivity]. intros _. right. exists n. split; [auto|lia].
  - split; [discriminate|]. intros [?|(m & M & _)]; [lia|]. apply (le_at_in _ _ 2) in M; lia.
Qed.

Lemma get_field_dbg l idx : usize_ok l -> usize_ok idx ->
  (vt_get_field h buf l idx = Panic <-> 2 ^ 64 <= l + 2 \/ exists n, le_at buf l 2 n /\ n < 4).
Proof.
  intros Hl Hi. rewrite <- num_fields_dbg by auto. unfold vt_get_field.
  destruct (vt_num_fields h buf l) as [nf| |] eqn:E; cbn [bind]; [|split; congruence|split; congruence].
  split; [|discriminate]. intros P. exfalso. revert P.
  assert (R : nf < 2 ^ 16 /\ l + 2 <= blen buf).
  { unfold vt_num_fields, vt_num_bytes in E.
    destruct (read_dbg TU16 l Hl) as [[O E1]|[(n & C & B & E1)|[F E1]]]; change (ssize TU16) with 2 in *; rewrite E1 in E; cbn [bind] in E; try discriminate.
    apply cell_u16 in C. pose proof C as (? & R & _). change (256 ^ Z.of_nat 2) with (2 ^ 16) in R.
    unfold SIZE_VOFFSET, usize_arith, unsigned_arith in E. rewrite Hh in E.
    pose proof (Z.div_mod n 2 ltac:(lia)). pose proof (Z.mod_pos_bound n 2 ltac:(lia)).
    destruct (_ && _) eqn:El in E; [|discriminate]. injection E as <-. lia. }
  destruct (nf <? idx) eqn:El; [discriminate|]. unfold SIZE_VOFFSET, usize_ok in *.
  rewrite usize_arith_ok by lia. cbn [bind]. rewrite usize_arith_ok by lia. cbn [bind].
  rewrite usize_arith_ok by lia. cbn [bind]. rewrite usize_arith_ok by lia. cbn [bind].
  rewrite bind_val, read_dbg_iff by (unfold usize_ok; lia). change (ssize TU16) with 2. lia.
Qed.

Lemma vt_get_dbg l slot : usize_ok l -> 0 <= slot < 2 ^ 16 -> (vt_get h buf l slot = Panic <-> 2 ^ 64 <= l + 2).
Proof.
  intros Hl Hslot. unfold vt_get, vt_num_bytes, usize_ok in *.
  destruct (read_dbg TU16 l Hl) as [[O E]|[(n & C & B & E)|[F E]]]; change (ssize TU16) with 2 in *; rewrite E; cbn [bind].
  - tauto.
  - destruct (n <=? slot); [split; [discriminate|lia]|]. rewrite usize_arith_ok by lia. cbn [bind].
    rewrite bind_val, read_dbg_iff by (unfold usize_ok; lia). change (ssize TU16) with 2. lia.
  - split; [discriminate|lia].
Qed.

Lemma as_bytes_dbg l : usize_ok l -> (vt_as_bytes h buf l = Panic <-> 2 ^ 64 <= l + 2).
Proof.
  intros Hl. unfold vt_as_bytes, vt_num_bytes, usize_ok in *.
  destruct (read_dbg TU16 l Hl) as [[O E]|[(n & C & B & E)|[F E]]]; change (ssize TU16) with 2 in *; rewrite E; cbn [bind].
  - tauto.
  - apply cell_u16 in C. pose proof C as (? & R & _). change (256 ^ Z.of_nat 2) with (2 ^ 16) in R.
    rewrite usize_arith_ok by lia. cbn [bind]. split; [|lia]. destruct (get_range _ _ _); discriminate.
  - split; [discriminate|lia].
Qed.

Lemma object_dbg l : usize_ok l -> (vt_object_inline_num_bytes h buf l = Panic <-> 2 ^ 64 <= l + 4).
Proof.
  intros Hl. unfold vt_object_inline_num_bytes, SIZE_VOFFSET, usize_ok in *. rewrite arith_dbg by lia.
  destruct (l + 2 <? 2 ^ 64) eqn:E; cbn [bind].
  - rewrite read_dbg_iff by (unfold usize_ok; lia). change (ssize TU16) with 2. lia.
  - split; [|reflexivity]. lia.
Qed.

Lemma exec_dbg hs c : Forall fval_ok hs -> rcall_ok c -> (exec h buf hs c = Panic <-> trips buf hs c).
Proof.
  intros Hhs Hc.
  assert (Hok : forall i x, nth_error hs i = Some x -> fval_ok x).
  { intros i x E. rewrite Forall_forall in Hhs. apply Hhs. eapply nth_error_In; eauto. }
  assert (T : forall A (d : list A) i k (Q : Z -> Prop), (forall l, usize_ok l -> (k l = Panic <-> Q l)) ->
            (on_table hs i k d = Panic <-> exists l, nth_error hs i = Some (VTable l) /\ Q l)).
  { intros A d i k Q HQ. unfold on_table. destruct (nth_error hs i) as [[]|] eqn:E;
      try (split; [discriminate|]; intros (? & ? & _); discriminate).
    rewrite HQ by exact (Hok i _ E). split; [eauto|]. intros (l & [= <-] & H1). exact H1. }
  assert (V : forall A (d : list A) i k (Q : Z -> Prop), (forall l, usize_ok l -> (k l = Panic <-> Q l)) ->
            (on_vtable hs i k d = Panic <-> exists l, nth_error hs i = Some (VVTable l) /\ Q l)).
  { intros A d i k Q HQ. unfold on_vtable. destruct (nth_error hs i) as [[]|] eqn:E;
      try (split; [discriminate|]; intros (? & ? & _); discriminate).
    rewrite HQ by exact (Hok i _ E). split; [eauto|]. intros (l & [= <-] & H1). exact H1. }
  assert (W : forall A (d : list A) i k (Q : fty -> Z -> Prop), (forall t l, usize_ok l -> (k t l = Panic <-> Q t l)) ->
            (on_vector hs i k d = Panic <-> exists t l, nth_error hs i = Some (VVector t l) /\ Q t l)).
  { intros A d i k Q HQ. unfold on_vector. destruct (nth_error hs i) as [[]|] eqn:E;
      try (split; [discriminate|]; intros (? & ? & ? & _); discriminate).
    rewrite HQ by exact (Hok i _ E). split; [eauto|]. intros (t' & l & [= <- <-] & H1). exact H1. }
  destruct c; cbn [exec trips rcall_ok] in *.
  - rewrite bind_val. apply follow_dbg; auto.
  - rewrite bind_val. apply (follow_dbg (FUOffset t)). unfold usize_ok. lia.
  - rewrite bind_val. unfold get_size_prefixed_root. cbn [follow]. unfold SIZE_UOFFSET at 1. rewrite usize_arith_ok by lia. cbn [bind].
    apply (follow_dbg (FUOffset t) 4). unfold usize_ok. lia.
  - rewrite bind_val. split; [|tauto]. intros P. exfalso. exact (proj2 (proj2 (proj2 (has_identifier_exact h buf ident size_prefixed Hc Hm))) P).
  - apply T. intros l Hl. rewrite bind_val. apply field_dbg; tauto.
  - apply T. intros l Hl. rewrite bind_val. unfold table_vtable. rewrite <- follow_dbg by auto.
    destruct (vtable_dbg l Hl) as [[E O]|[(s & S1 & E & N)|[F [E N]]]]; unfold table_vtable in E; rewrite E; rewrite follow_dbg by auto.
    + tauto.
    + split; [discriminate|tauto].
    + split; [discriminate|tauto].
  - apply V. intros l Hl. rewrite bind_val. apply num_fields_dbg; auto.
  - apply V. intros l Hl. rewrite bind_val. apply num_bytes_dbg; auto.
  - apply V. intros l Hl. rewrite bind_val. apply object_dbg; auto.
  - apply V. intros l Hl. rewrite bind_val. apply get_field_dbg; auto.
  - apply V. intros l Hl. rewrite bind_val. apply vt_get_dbg; auto.
  - apply V. intros l Hl. rewrite bind_val. apply as_bytes_dbg; auto.
  - apply (W _ _ _ _ (fun _ l => _)). intros t l Hl. rewrite bind_val. apply vec_len_dbg; auto.
  - apply (W _ _ _ _ (fun _ l => _)). intros t l Hl. rewrite bind_val. unfold vec_is_empty. rewrite bind_val. apply vec_len_dbg; auto.
  - apply (W _ _ _ _ (fun t l => _)). intros t l Hl. rewrite bind_val. apply element_dbg; auto.
  - apply (W _ _ _ _ (fun _ l => _)). intros t' l Hl. rewrite bind_val. apply slice_dbg; auto.
  - apply (W _ _ _ _ (fun t l => _)). intros t l Hl. apply iter_dbg; auto.
Qed.
End Dbg.

(** ** Programs *)
Section Handles.
Context (h : host) (buf : list byte) (Hm : blen buf < 2 ^ 63).

Lemma arith_ok v x : usize_arith h v = Val x -> usize_ok x.
Proof.
  unfold usize_arith, unsigned_arith, usize_ok. destruct (_ && _) eqn:E; [intros [= <-]; lia|].
  destruct (debug h); [discriminate|]. intros [= <-]. apply Z.mod_pos_bound. lia.
Qed.

Lemma follow_val_ok t loc v : usize_ok loc -> follow h t buf loc = Val v -> fval_ok v.
Proof.
  intros Hl E. pose proof (safe_follow (release h) t buf loc eq_refl Hl Hm) as K.
  destruct (follow_agrees h t buf loc) as [P|A]; [congruence|]. rewrite <- A, E in K. exact K.
Qed.

Lemma table_vtable_val tab v : usize_ok tab -> table_vtable h buf tab = Val v -> usize_ok v.
Proof.
  intros Ht E. unfold table_vtable in E. destruct (follow h (FSOffset FVTable) buf tab) as [x| |] eqn:F; cbn [bind] in E; try discriminate.
  apply follow_val_ok in F; [|auto]. destruct x; try discriminate. injection E as <-. exact F.
Qed.

Lemma table_get_val tab slot t d v :
  usize_ok tab -> (forall v, d = Some v -> fval_ok v) -> table_get h buf tab slot t d = Val (Some v) -> fval_ok v.
Proof.
  intros Ht Hd. unfold table_get. destruct (table_vtable h buf tab) as [vt| |]; cbn [bind]; try discriminate.
  destruct (vt_get h buf vt slot) as [[off|]| |]; cbn [bind]; try discriminate.
  - destruct (off =? 0); [intros [= ->]; auto|]. destruct (usize_arith h (tab + off)) as [l| |] eqn:El; cbn [bind]; try discriminate.
    destruct (follow h t buf l) as [x| |] eqn:F; cbn [bind]; try discriminate. intros [= <-].
    apply follow_val_ok in F; [exact F|]. eapply arith_ok; eauto.
  - intros [= ->]. auto.
Qed.

Lemma vec_get_val t v i x : vec_get h t buf v i = Val x -> fval_ok x.
Proof.
  unfold vec_get. destruct (if debug h then _ else _); cbn [bind]; try discriminate.
  destruct (debug_assert _ _); cbn [bind]; try discriminate.
  destruct (usize_arith _ _); cbn [bind]; try discriminate.
  destruct (usize_arith _ _); cbn [bind]; try discriminate.
  destruct (usize_arith _ (_ + _)) eqn:E; cbn [bind]; try discriminate.
  apply follow_val_ok. eapply arith_ok; eauto.
Qed.

Definition item_ok (x : iter_item) : Prop := forall v, x = Some (Val v) -> fval_ok v.

Lemma next_val t it x it' : usize_ok (it_loc it) -> iter_next h t buf it = Val (x, it') -> usize_ok (it_loc it') /\ item_ok x.
Proof.
  intros Hl. unfold iter_next. destruct (debug_assert _ _); cbn [bind]; try discriminate.
  destruct (it_remaining it =? 0); [intros [= <- <-]; split; [auto|intros ? ?; discriminate]|].
  destruct (follow h t buf (it_loc it)) as [v|e|] eqn:F; try discriminate;
    destruct (usize_arith h (it_loc it + _)) as [l| |] eqn:E; cbn [bind]; try discriminate;
    destruct (usize_arith h (it_remaining it - 1)) as [n| |]; cbn [bind]; try discriminate; intros [= <- <-];
    (split; [eapply arith_ok; eauto|]); intros w [= <-]. apply follow_val_ok in F; auto.
Qed.

Lemma next_back_val t it x it' : usize_ok (it_loc it) -> iter_next_back h t buf it = Val (x, it') -> usize_ok (it_loc it') /\ item_ok x.
Proof.
  intros Hl. unfold iter_next_back. destruct (debug_assert _ _); cbn [bind]; try discriminate.
  destruct (it_remaining it =? 0); [intros [= <- <-]; split; [auto|intros ? ?; discriminate]|].
  destruct (usize_arith _ _); cbn [bind]; try discriminate.
  destruct (usize_arith _ _); cbn [bind]; try discriminate.
  destruct (usize_arith _ (it_loc it + _)) as [l| |] eqn:E; cbn [bind]; try discriminate.
  destruct (follow h t buf l) as [v|e|] eqn:F; try discriminate; intros [= <- <-]; (split; [exact Hl|]); intros w [= <-].
  apply follow_val_ok in F; auto. eapply arith_ok; eauto.
Qed.

Lemma call_val t c it x it' : usize_ok (it_loc it) -> iter_call h t buf c it = Val (x, it') -> usize_ok (it_loc it') /\ item_ok x.
Proof.
  intros Hl. destruct c; cbn [iter_call].
  - apply next_val; auto.
  - apply next_back_val; auto.
  - unfold iter_nth. destruct (debug_assert _ _); cbn [bind]; try discriminate.
    destruct (usize_arith _ _); cbn [bind]; try discriminate. apply next_val. apply mod_usize_ok.
  - unfold iter_nth_back. apply next_back_val. exact Hl.
Qed.

Lemma calls_val t cs : forall it xs it', usize_ok (it_loc it) -> iter_calls h t buf cs it = Val (xs, it') -> Forall fval_ok (item_vals xs).
Proof.
  induction cs as [|c cs IH]; intros it xs it' Hl; cbn [iter_calls].
  - intros [= <- _]. constructor.
  - destruct (iter_call h t buf c it) as [[x it1]| |] eqn:E; cbn [bind]; try discriminate.
    apply call_val in E as [L1 X]; [|auto].
    destruct (iter_calls h t buf cs it1) as [[xs1 it2]| |] eqn:E1; cbn [bind]; try discriminate.
    intros [= <- _]. apply IH in E1; [|auto]. cbn [item_vals]. destruct x as [[v| |]|]; auto.
Qed.

Lemma exec_val hs c new : Forall fval_ok hs -> rcall_ok c -> exec h buf hs c = Val new -> Forall fval_ok new.
Proof.
  intros Hhs Hc.
  assert (Hok : forall i x, nth_error hs i = Some x -> fval_ok x).
  { intros i x E. rewrite Forall_forall in Hhs. apply Hhs. eapply nth_error_In; eauto. }
  assert (N : forall A (x : outcome A), (let* _ := x in Val (@nil fval)) = Val new -> Forall fval_ok new).
  { intros A x. destruct x; cbn [bind]; try discriminate. intros [= <-]. constructor. }
  assert (F : forall t loc, usize_ok loc -> (let* v := follow h t buf loc in Val [v]) = Val new -> Forall fval_ok new).
  { intros t loc Hl. destruct (follow h t buf loc) eqn:E; cbn [bind]; try discriminate. intros [= <-].
    constructor; [|constructor]. eapply follow_val_ok; eauto. }
  assert (Nil : Val (@nil fval) = Val new -> Forall fval_ok new) by (intros [= <-]; constructor).
  destruct c; cbn [exec rcall_ok] in *; unfold on_table, on_vtable, on_vector;
    try (destruct (nth_error hs i) as [[]|] eqn:E; try exact Nil); try apply N.
  - apply F. auto.
  - apply F. unfold usize_ok. lia.
  - apply F. unfold usize_ok. lia.
  - destruct (table_get h buf loc slot t default) as [[v|]| |] eqn:G; cbn [bind opt_list]; try discriminate; [|exact Nil].
    intros [= <-]. constructor; [|constructor]. eapply table_get_val; [| |exact G]; [exact (Hok _ _ E)|tauto].
  - destruct (table_vtable h buf loc) as [v| |] eqn:G; cbn [bind]; try discriminate. intros [= <-].
    constructor; [|constructor]. apply table_vtable_val in G; [exact G|exact (Hok _ _ E)].
  - destruct (vec_get h t buf loc idx) eqn:G; cbn [bind]; try discriminate. intros [= <-].
    constructor; [|constructor]. eapply vec_get_val; eauto.
  - unfold vec_iter. destruct (match vec_len h buf loc with Err _ => _ | o => o end); cbn [bind]; try discriminate.
    destruct (usize_arith h (loc + SIZE_UOFFSET)) as [l| |] eqn:El; cbn [bind]; try discriminate.
    destruct (iter_calls h t buf cs _) as [[xs it]| |] eqn:G; cbn [bind]; try discriminate. intros [= <-].
    eapply calls_val; [|exact G]. cbn [it_loc]. eapply arith_ok; eauto.
Qed.

Lemma client_val cs : forall hs hs', Forall fval_ok hs -> Forall rcall_ok cs -> client h buf hs cs = Val hs' -> Forall fval_ok hs'.
Proof.
  induction cs as [|c cs IH]; intros hs hs' Hhs Hcs E; cbn [client] in E; [injection E as <-; auto|].
  inversion_clear Hcs as [|? ? H1 H2]. destruct (exec h buf hs c) as [new| |] eqn:G; [|eapply IH; eauto|discriminate].
  eapply IH; [|exact H2|exact E]. apply Forall_app. split; [auto|]. eapply exec_val; eauto.
Qed.

Lemma client_app cs1 : forall cs2 hs, client h buf hs (cs1 ++ cs2) = let* hs' := client h buf hs cs1 in client h buf hs' cs2.
Proof.
  induction cs1 as [|c cs1 IH]; intros cs2 hs; [reflexivity|]. cbn [app client].
  destruct (exec h buf hs c); [apply IH|apply IH|reflexivity].
Qed.
Lemma client_dbg cs : debug h = true -> Forall rcall_ok cs -> forall hs, Forall fval_ok hs ->
  (client h buf hs cs = Panic <->
   exists pre c post hs', cs = pre ++ c :: post /\ client h buf hs pre = Val hs' /\ trips buf hs' c).
Proof.
  intros Hh. induction cs as [|c cs IH]; intros Hcs hs Hhs.
  - cbn [client]. split; [discriminate|]. intros ([|? ?] & ? & ? & ? & ? & _); discriminate.
  - inversion_clear Hcs as [|? ? H1 H2]. cbn [client]. pose proof (exec_dbg h Hh buf Hm hs c Hhs H1) as D.
    split.
    + intros P. destruct (exec h buf hs c) as [new|e|] eqn:E.
      * apply IH in P as (pre & c' & post & hs' & -> & E' & T); [|auto|apply Forall_app; split; [auto|]; eapply exec_val; eauto].
        exists (c :: pre), c', post, hs'. split; [reflexivity|]. split; [|exact T]. cbn [client]. rewrite E. exact E'.
      * apply IH in P as (pre & c' & post & hs' & -> & E' & T); [|auto|auto].
        exists (c :: pre), c', post, hs'. split; [reflexivity|]. split; [|exact T]. cbn [client]. rewrite E. exact E'.
      * exists [], c, cs, hs. split; [reflexivity|]. split; [reflexivity|]. apply D. reflexivity.
    + intros ([|c0 pre] & c' & post & hs' & Q & E' & T); cbn [app client] in *.
      * injection Q as <- <-. injection E' as <-. rewrite (proj2 D T). reflexivity.
      * injection Q as <- ->. destruct (exec h buf hs c) as [new|e|] eqn:E; [| |reflexivity].
        -- apply IH; [auto|apply Forall_app; split; [auto|]; eapply exec_val; eauto|]. eauto 8.
        -- apply IH; [auto|auto|]. eauto 8.
Qed.
End Handles.

(** ** Debug builds, every result *)
Lemma follow_debug_exact h t buf loc :
  debug h = true -> blen buf < 2 ^ 63 -> slices_ok h t = true -> usize_ok loc ->
  (forall v, follow h t buf loc = Val v <-> stands buf t loc v /\ ~ overflows buf t loc) /\
  (forall e, follow h t buf loc = Err e <-> fails buf t loc e /\ ~ overflows buf t loc) /\
  (follow h t buf loc = Panic <-> overflows buf t loc).
Proof.
  intros Hh Hm Hs Hl. pose proof (follow_dbg h Hh buf Hm t loc Hl) as D.
  assert (Hs' : slices_ok (release h) t = true) by (rewrite <- Hs; clear; induction t; auto).
  destruct (follow_exact (release h) t buf loc eq_refl Hm Hs' Hl) as (V & E & N).
  destruct (follow_agrees h t buf loc) as [P|A].
  - rewrite P in *. split; [|split]; [intros v|intros e|exact D]; (split; [discriminate|tauto]).
  - rewrite <- A in *. split; [|split]; [intros v; rewrite V|intros e; rewrite E|exact D]; tauto.
Qed.

Lemma field_debug_exact h buf tab slot t d :
  debug h = true -> blen buf < 2 ^ 63 -> slices_ok h t = true -> usize_ok tab -> 0 <= slot < 2 ^ 16 ->
  (forall r, table_get h buf tab slot t d = Val r <-> field_stands buf tab slot t d r /\ ~ field_overflows buf tab slot t) /\
  (forall e, table_get h buf tab slot t d = Err e <-> field_fails buf tab slot t e /\ ~ field_overflows buf tab slot t) /\
  (table_get h buf tab slot t d = Panic <-> field_overflows buf tab slot t).
Proof.
  intros Hh Hm Hs Hl Hslot. pose proof (field_dbg h Hh buf Hm tab slot t d Hl Hslot) as D.
  assert (Hs' : slices_ok (release h) t = true) by (rewrite <- Hs; clear; induction t; auto).
  destruct (table_get_exact (release h) buf tab slot t d eq_refl Hm Hs' Hl Hslot) as (V & E & N).
  destruct (table_get_agrees h buf tab slot t d) as [P|A].
  - rewrite P in *. split; [|split]; [intros v|intros e|exact D]; (split; [discriminate|tauto]).
  - rewrite <- A in *. split; [|split]; [intros v; rewrite V|intros e; rewrite E|exact D]; tauto.
Qed.

Lemma element_debug_exact h t buf v i :
  debug h = true -> blen buf < 2 ^ 63 -> slices_ok h t = true -> usize_ok v -> usize_ok i ->
  let loc := v + 4 + size_of t * i in
  (forall x, vec_get h t buf v i = Val x <->
     exists n, le_at buf v 4 n /\ i < n /\ size_of t <> 0 /\ stands buf t loc x /\ ~ overflows buf t loc) /\
  (forall e, vec_get h t buf v i = Err e <->
     (e = OutOfBounds /\ blen buf < v + 4 < 2 ^ 64) \/
     exists n, le_at buf v 4 n /\ i < n /\ size_of t <> 0 /\ fails buf t loc e /\ ~ overflows buf t loc) /\
  (vec_get h t buf v i = Panic <->
     2 ^ 64 <= v + 4 \/ exists n, le_at buf v 4 n /\ (n <= i \/ size_of t = 0 \/ overflows buf t loc)).
Proof.
  intros Hh Hm Hs Hv Hi loc. pose proof (element_dbg h Hh buf Hm t v i Hv Hi) as D. fold loc in D.
  pose proof (size_of_le t) as Hz. unfold usize_ok in Hv, Hi.
  enough (((forall x, vec_get h t buf v i = Val x <->
     exists n, le_at buf v 4 n /\ i < n /\ size_of t <> 0 /\ stands buf t loc x /\ ~ overflows buf t loc) /\
  (forall e, vec_get h t buf v i = Err e <->
     (e = OutOfBounds /\ blen buf < v + 4 < 2 ^ 64) \/
     exists n, le_at buf v 4 n /\ i < n /\ size_of t <> 0 /\ fails buf t loc e /\ ~ overflows buf t loc))) by tauto.
  clear D. unfold vec_get. rewrite Hh.
  destruct (read_dbg h Hh buf Hm TU32 v Hv) as [[O E]|[(n & C & B & E)|[F E]]]; change (ssize TU32) with 4 in *; rewrite E; cbn [bind].
  - split; [intros x|intros e]; (split; [discriminate|]).
    + intros (n & M & _). apply (le_at_in _ _ 4) in M; lia.
    + intros [?|(n & M & _)]; [lia|]. apply (le_at_in _ _ 4) in M; lia.
  - apply cell_u32 in C. pose proof C as (? & R & _). change (256 ^ Z.of_nat 4) with (2 ^ 32) in R.
    assert (K : forall P : Z -> Prop, (exists n, le_at buf v 4 n /\ P n) <-> P n).
    { intros P. split; [intros (n' & M & H1); rewrite (le4 _ _ _ _ C M); exact H1|eauto]. }
    assert (G : (let* _ := debug_assert h (i <? n) in
                 let* _ := debug_assert h (0 <? size_of t) in
                 let* a := usize_arith h (v + SIZE_UOFFSET) in
                 let* m := usize_arith h (size_of t * i) in let* l := usize_arith h (a + m) in follow h t buf l) =
                if (i <? n) && (0 <? size_of t) then follow h t buf loc else Panic).
    { unfold debug_assert. rewrite Hh. cbn [andb]. destruct (i <? n) eqn:Ei; cbn [negb bind andb]; [|reflexivity].
      destruct (0 <? size_of t) eqn:Ez; cbn [negb bind]; [|reflexivity]. unfold SIZE_UOFFSET, loc.
      assert (0 <= size_of t * i <= 2 ^ 37) by nia.
      do 3 (rewrite usize_arith_ok by lia; cbn [bind]). reflexivity. }
    unfold debug_assert in *. cbn [bind] in G |- *. rewrite G. clear G.
    destruct ((i <? n) && (0 <? size_of t)) eqn:Eb.
    + assert (0 <= size_of t * i <= 2 ^ 37) by nia.
      destruct (follow_debug_exact h t buf loc Hh Hm Hs ltac:(unfold usize_ok, loc; lia)) as (V & W & _).
      split; [intros x|intros e].
      * rewrite (K (fun n => i < n /\ _)), V. split; [|tauto]. intros ?. repeat (split; [lia|]). auto.
      * rewrite (K (fun n => i < n /\ _)), W. split; [|intros [?|?]; [lia|tauto]]. intros ?. right. repeat (split; [lia|]). auto.
    + split; [intros x|intros e]; (split; [discriminate|]).
      * rewrite (K (fun n => i < n /\ _)). lia.
      * rewrite (K (fun n => i < n /\ _)). lia.
  - split; [intros x|intros e].
    + split; [discriminate|]. intros (n & M & _). apply (le_at_in _ _ 4) in M; lia.
    + split; [intros [= <-]; left; split; [reflexivity|lia]|]. intros [[-> _]|(n & M & _)]; [reflexivity|]. apply (le_at_in _ _ 4) in M; lia.
Qed.

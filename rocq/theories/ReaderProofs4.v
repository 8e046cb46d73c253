(** The reader lemmas in the form in which PropsReader.v states them, and the
    witnesses of the refuted claims. *)
From Coq Require Import ZArith List Bool Lia Strings.Byte ZifyBool ZifyNat ZifyN.
From Verif Require Import Base Scalar Utf8 Reader Client BaseFacts ScalarFacts SpecWire WireFacts
  ReaderFacts ReaderProofs ReaderProofs2 ReaderProofs3 Utf8Facts.
Import ListNotations.
Local Open Scope Z_scope.

Lemma string_read_utf8 h buf loc s :
  usize_ok loc -> blen buf < 2 ^ 63 ->
  (follow h FStr buf loc = Val (VStr s) <-> string_at buf loc s /\ is_utf8 s).
Proof. intros. rewrite string_read_iff by auto. rewrite utf8_valid_iff. reflexivity. Qed.

Lemma not_utf8_iff s : utf8_valid s = false <-> ~ is_utf8 s.
Proof. rewrite <- utf8_valid_iff. destruct (utf8_valid s); split; congruence. Qed.

Lemma string_read_errors_utf8 h buf loc e :
  usize_ok loc -> loc + 4 < 2 ^ 64 -> blen buf < 2 ^ 63 ->
  (follow h FStr buf loc = Err e <->
   (e = OutOfBounds /\
      (blen buf < loc + 4 \/ exists n, le_at buf loc 4 n /\ blen buf <= loc + 4 + n)) \/
   (exists n z, le_at buf loc 4 n /\ nth_error buf (Z.to_nat (loc + 4 + n)) = Some z /\
      ((e = NonNullTerminatedString /\ z <> x00) \/
       (e = NonUtf8String /\ z = x00 /\ exists s, blen s = n /\ bytes_at buf (loc + 4) s /\ ~ is_utf8 s)))).
Proof.
  intros. rewrite string_read_errors by auto.
  assert (K : (exists n z, le_at buf loc 4 n /\ nth_error buf (Z.to_nat (loc + 4 + n)) = Some z /\
      ((e = NonNullTerminatedString /\ z <> x00) \/
       (e = NonUtf8String /\ z = x00 /\ exists s, blen s = n /\ bytes_at buf (loc + 4) s /\ utf8_valid s = false))) <->
   (exists n z, le_at buf loc 4 n /\ nth_error buf (Z.to_nat (loc + 4 + n)) = Some z /\
      ((e = NonNullTerminatedString /\ z <> x00) \/
       (e = NonUtf8String /\ z = x00 /\ exists s, blen s = n /\ bytes_at buf (loc + 4) s /\ ~ is_utf8 s)))).
  { split; intros (n & z & H2 & H3 & C); exists n, z; (split; [auto|]); (split; [auto|]);
      destruct C as [C|(C1 & C2 & s & S1 & S2 & S3)]; [left; auto| |left; auto|]; right; (split; [auto|]); (split; [auto|]);
      exists s; (split; [auto|]); (split; [auto|]); apply not_utf8_iff; auto. }
  rewrite K. reflexivity.
Qed.

Lemma reader_never_panics_release h buf cs :
  debug h = false -> blen buf < 2 ^ 63 -> Forall rcall_ok cs -> client h buf [] cs <> Panic.
Proof.
  intros Hh Hm Hcs E. pose proof (safe_client h Hh buf Hm cs [] (Forall_nil _) Hcs) as S.
  rewrite E in S. exact S.
Qed.

Lemma reader_panics_debug :
  exists buf cs, Forall rcall_ok cs /\ client (Host true false) buf [] cs = Panic.
Proof.
  exists (map z2b [4;0;0;0; 5;0;0;0]), [RRoot FTable; RGet 0 4 (FScalar TU8) None].
  split; [|vm_compute; reflexivity].
  constructor; [exact I|]. constructor; [|constructor]. cbn. split; [lia|]. discriminate.
Qed.

(** Concrete numbers and bytes. *)
Lemma le_at_literal buf loc k n : 0 <= loc -> 0 <= n < 256 ^ Z.of_nat k ->
  forallb (fun i => match nth_error buf (Z.to_nat loc + i) with Some b => b2z b =? digit256 n i | None => false end) (seq 0 k) = true -> le_at buf loc k n.
Proof.
  intros L N F. split; [exact L|]. split; [exact N|]. intros i I. rewrite forallb_forall in F. specialize (F i). rewrite in_seq in F. specialize (F ltac:(lia)).
  destruct (nth_error _ _) as [b|]; [|discriminate]. exists b. split; [reflexivity|lia].
Qed.
Lemma nth_error_skip {A} n : forall (l : list A) i, nth_error (skipn n l) i = nth_error l (n + i).
Proof. induction n; intros [|x l] i; cbn; auto. destruct i; reflexivity. Qed.
Lemma nth_error_first {A} n : forall (l : list A) i, (i < n)%nat -> nth_error (firstn n l) i = nth_error l i.
Proof. induction n; intros l i H; [lia|]. destruct l, i; cbn; auto. apply IHn. lia. Qed.
Lemma bytes_at_literal buf loc s : 0 <= loc -> firstn (length s) (skipn (Z.to_nat loc) buf) = s -> bytes_at buf loc s.
Proof.
  intros L E. split; [exact L|]. intros i I. rewrite <- (nth_error_skip (Z.to_nat loc) buf i). transitivity (nth_error (firstn (length s) (skipn (Z.to_nat loc) buf)) i); [symmetry; apply nth_error_first; exact I|rewrite E; reflexivity].
Qed.
Ltac le_literal := apply le_at_literal; [lia|vm_compute; intuition congruence|vm_compute; reflexivity].
Ltac bytes_literal := apply bytes_at_literal; [lia|vm_compute; reflexivity].
Ltac same_vtable_tac bs := exists bs; split; [le_literal|split; [bytes_literal|split; [le_literal|bytes_literal]]].
Lemma same_vtable_bytes h buf1 buf2 vt : blen buf1 < 2 ^ 63 -> blen buf2 < 2 ^ 63 -> same_vtable buf1 buf2 vt -> same_bytes h buf1 buf2 vt.
Proof.
  intros H1 H2 (bs & L1 & B1 & L2 & B2).
  assert (G : forall buf, blen buf < 2 ^ 63 -> le_at buf vt 2 (blen bs) -> bytes_at buf vt bs -> vt_as_bytes h buf vt = Val bs).
  { intros buf Hm L B. unfold vt_as_bytes, vt_num_bytes. destruct (u16_read h _ _ _ L Hm) as (R & N & Bd). rewrite R. cbn [bind]. pose proof L as (Hv & _).
    assert (E : vt + blen bs <= blen buf). { destruct bs as [|b bs]; [cbn; lia|]. apply bytes_at_len; [exact B|discriminate]. }
    rewrite usize_arith_ok by (unfold blen in *; lia). cbn [bind]. destruct (proj1 (bytes_at_get_range buf vt bs) (conj B E)) as [_ ->]. reflexivity. }
  exists bs. split; apply G; assumption.
Qed.
Lemma get_field_same h buf1 buf2 vt idx nf :
  0 <= vt < 2 ^ 63 -> blen buf1 < 2 ^ 63 -> blen buf2 < 2 ^ 63 ->
  same_vtable buf1 buf2 vt -> vt_num_fields h buf1 vt = Val nf -> nf < 2 ^ 16 -> 0 <= idx < nf ->
  exists r, vt_get_field h buf1 vt idx = Val (Some r) /\ vt_get_field h buf2 vt idx = Val (Some r).
Proof. intros V H1 H2 S. apply get_field_inside; auto. apply same_vtable_bytes; auto. Qed.
Lemma vt_get_same h buf1 buf2 vt slot n :
  0 <= vt < 2 ^ 63 -> blen buf1 < 2 ^ 63 -> blen buf2 < 2 ^ 63 ->
  same_vtable buf1 buf2 vt -> vt_num_bytes h buf1 vt = Val n -> 0 <= slot ->
  slot <> n - 1 ->
  vt_get h buf1 vt slot = vt_get h buf2 vt slot /\
  (n <= slot -> vt_get h buf1 vt slot = Val None) /\
  (slot < n -> exists r, vt_get h buf1 vt slot = Val (Some r)).
Proof. intros V H1 H2 S. apply vt_get_inside; auto. apply same_vtable_bytes; auto. Qed.
Lemma get_field_past_end :
  forall h, exists buf1 buf2 vt idx,
    same_vtable buf1 buf2 vt /\ vt_num_fields h buf1 vt = Val idx /\
    vt_get_field h buf1 vt idx <> vt_get_field h buf2 vt idx.
Proof.
  intros [[] []]; exists (map z2b [4;0;4;0;1;0]), (map z2b [4;0;4;0;2;0]), 0, 0;
    (split; [same_vtable_tac (map z2b [4;0;4;0])|]);
    (split; [vm_compute; reflexivity|]); vm_compute; discriminate.
Qed.
Lemma get_last_byte :
  forall h, exists buf1 buf2 vt n,
    same_vtable buf1 buf2 vt /\ vt_num_bytes h buf1 vt = Val n /\
    vt_get h buf1 vt (n - 1) <> vt_get h buf2 vt (n - 1).
Proof.
  intros [[] []]; exists (map z2b [5;0;4;0;1;0]), (map z2b [5;0;4;0;1;2]), 0, 5;
    (split; [same_vtable_tac (map z2b [5;0;4;0;1])|]);
    (split; [vm_compute; reflexivity|]); vm_compute; discriminate.
Qed.

Lemma num_fields_exact h buf vt n :
  le_at buf vt 2 n -> blen buf < 2 ^ 63 ->
  vt_num_bytes h buf vt = Val n /\
  (4 <= n -> vt_num_fields h buf vt = Val (n / 2 - 2)) /\
  (n < 4 -> vt_num_fields h buf vt = if debug h then Panic else Val (2 ^ 64 + n / 2 - 2)).
Proof.
  intros Hn Hm. destruct (u16_read h _ _ _ Hn Hm) as (Hr & R & _).
  unfold vt_num_fields, vt_num_bytes. rewrite Hr. cbn [bind]. unfold SIZE_VOFFSET.
  split; [auto|]. split; intros.
  - apply usize_arith_ok. lia.
  - unfold usize_arith, unsigned_arith. replace (_ && _) with false by lia.
    destruct (debug h); [reflexivity|]. f_equal. rewrite mod_neg by lia. lia.
Qed.

Lemma vec_scalar_exact h t buf v n i x :
  le_at buf v 4 n -> 0 <= i < n -> blen buf < 2 ^ 63 -> t <> TBool -> valid_scalar t x = true ->
  (vec_get h (FScalar t) buf v i = Val (VScalar x) <->
   le_at buf (v + 4 + ssize t * i) (snat t) (x mod 2 ^ (8 * ssize t))).
Proof.
  intros Hn Hi Hm Ht Hx. pose proof (ssize_pos t). pose proof (ssize_le8 t).
  destruct (u32_read h _ _ _ Hn Hm) as (_ & R & B). pose proof Hn as (Hv & _).
  rewrite (vec_get_cell h (FScalar t) buf v n i) by (auto; cbn [size_of]; lia).
  cbn [size_of]. apply follow_scalar_iff; auto; nia.
Qed.

Lemma vec_bool_exact h buf v n i x :
  le_at buf v 4 n -> 0 <= i < n -> blen buf < 2 ^ 63 ->
  (vec_get h (FScalar TBool) buf v i = Val (VScalar x) <->
   exists b, le_at buf (v + 4 + i) 1 b /\ x = if b =? 0 then 0 else 1).
Proof.
  intros Hn Hi Hm.
  destruct (u32_read h _ _ _ Hn Hm) as (_ & R & B). pose proof Hn as (Hv & _).
  rewrite (vec_get_cell h (FScalar TBool) buf v n i) by (auto; cbn [size_of ssize]; lia).
  change (size_of (FScalar TBool)) with 1. rewrite Z.mul_1_l. apply follow_bool_iff; auto; lia.
Qed.

Lemma vec_string_exact h buf v n i off s :
  le_at buf v 4 n -> 0 <= i < n -> blen buf < 2 ^ 63 ->
  le_at buf (v + 4 + 4 * i) 4 off ->
  (vec_get h (FUOffset FStr) buf v i = Val (VStr s) <->
   string_at buf (v + 4 + 4 * i + off) s /\ is_utf8 s).
Proof.
  intros Hn Hi Hm Ho.
  destruct (u32_read h _ _ _ Hn Hm) as (_ & R & B). pose proof Hn as (Hv & _).
  destruct (u32_read h _ _ _ Ho Hm) as (_ & R2 & B2).
  rewrite (vec_get_cell h (FUOffset FStr) buf v n i) by (auto; cbn [size_of]; lia).
  change (size_of (FUOffset FStr)) with 4.
  rewrite (follow_uoffset_at h FStr buf _ off) by auto.
  apply string_read_utf8; auto. unfold usize_ok. lia.
Qed.

Lemma vec_table_exact h buf v n i off :
  le_at buf v 4 n -> 0 <= i < n -> blen buf < 2 ^ 63 ->
  le_at buf (v + 4 + 4 * i) 4 off ->
  vec_get h (FUOffset FTable) buf v i = Val (VTable (v + 4 + 4 * i + off)).
Proof.
  intros Hn Hi Hm Ho.
  rewrite (vec_get_cell h (FUOffset FTable) buf v n i) by (auto; cbn [size_of]; lia).
  change (size_of (FUOffset FTable)) with 4.
  rewrite (follow_uoffset_at h FTable buf _ off) by auto. reflexivity.
Qed.

Lemma vec_get_past_end_release :
  exists h t buf v n x, debug h = false /\ le_at buf v 4 n /\ vec_get h t buf v n = Val x.
Proof.
  exists (Host false false), (FScalar TU8), (map z2b [1;0;0;0;7;9]), 0, 1, (VScalar 9).
  split; [reflexivity|]. split; [|vm_compute; reflexivity].
  split; [lia|]. split; [cbn; lia|]. intros i Hi.
  do 4 (destruct i as [|i]; [eexists; split; vm_compute; reflexivity|]). lia.
Qed.

Lemma nth_far_panics_debug :
  exists buf it n, vec_iter (Host true false) buf 0 = Val it /\ usize_ok n /\
    it_remaining it <= n /\ iter_nth (Host true false) (FScalar TU64) buf it n = Panic.
Proof.
  exists (map z2b [1;0;0;0;7;0;0;0;0;0;0;0]), (VIter 4 1), (2 ^ 61).
  split; [vm_compute; reflexivity|]. split; [unfold usize_ok; lia|]. split; [cbn; lia|].
  vm_compute. reflexivity.
Qed.

Lemma read_debug_huge_loc : exists buf loc,
  usize_ok loc /\ read_scalar_at (Host true false) TU16 buf loc = Panic.
Proof. exists [], (2 ^ 64 - 1). split; [unfold usize_ok; lia|]. vm_compute. reflexivity. Qed.

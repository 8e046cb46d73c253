(** Properties C01-C10: reading buffers.  Statements only; each theorem is
    closed by a lemma of the proof files.  Vocabulary: SpecWire.v (bytes at a
    position), SpecReader.v, Client.v (programs over the reader API), Reader.v (the calls). *)
From Coq Require Import ZArith List Bool Lia Strings.Byte.
From Verif Require Import Base Scalar Utf8 Reader Client SpecWire SpecReader
  ReaderProofs ReaderProofs2 ReaderProofs3 ReaderProofs4 ReaderProofs5 ReaderProofs6.
Import ListNotations.
Local Open Scope Z_scope.

(** C01.  Writer and reader may be different hosts. *)
Theorem C01_scalar_roundtrip hw hr t s v :
  valid_scalar t v = true -> ssize t <= blen s ->
  exists s', emplace_scalar hw t s v = Val s' /\
    le_at s' 0 (snat t) (v mod 2 ^ (8 * ssize t)) /\
    read_scalar hr t s' = Val v /\ follow hr (FScalar t) s' 0 = Val (VScalar v).
Proof. exact (scalar_roundtrip hw hr t s v). Qed.
Print Assumptions C01_scalar_roundtrip.

Example C01_case :
  emplace_scalar (Host true true) TI16 (map z2b [9;9;9]) (-2) = Val (map z2b [254;255;9]) /\
  read_scalar (Host false false) TI16 (map z2b [254;255;9]) = Val (-2).
Proof. vm_compute. auto. Qed.

(** C02.  [blen buf < 2^63]: no Rust slice is longer. *)
Theorem C02_read_in_bounds h t buf loc :
  0 <= loc -> loc + ssize t <= blen buf -> blen buf < 2 ^ 63 ->
  exists v, read_scalar_at h t buf loc = Val v /\
    le_at buf loc (snat t) (v mod 2 ^ (8 * ssize t)) /\
    (t <> TBool -> valid_scalar t v = true).
Proof. exact (read_in_bounds h t buf loc). Qed.
Print Assumptions C02_read_in_bounds.

Theorem C02_read_out_of_bounds h t buf loc :
  0 <= loc -> loc + ssize t < 2 ^ 64 -> blen buf < loc + ssize t -> blen buf < 2 ^ 63 ->
  read_scalar_at h t buf loc = Err OutOfBounds.
Proof. exact (read_out_of_bounds h t buf loc). Qed.
Print Assumptions C02_read_out_of_bounds.

(** Locations where [loc + size] overflows: fine in a release build ... *)
Theorem C02_read_out_of_bounds_release h t buf loc :
  debug h = false -> 0 <= loc < 2 ^ 64 -> blen buf < loc + ssize t -> blen buf < 2 ^ 63 ->
  read_scalar_at h t buf loc = Err OutOfBounds.
Proof. exact (read_release_total h t buf loc). Qed.
Print Assumptions C02_read_out_of_bounds_release.

(** ... but a debug build panics there, and only there, instead of returning the error. *)
Theorem C02_read_panics_iff h t buf loc :
  0 <= loc < 2 ^ 64 -> blen buf < 2 ^ 63 ->
  (read_scalar_at h t buf loc = Panic <-> debug h = true /\ 2 ^ 64 <= loc + ssize t).
Proof. exact (read_panics_iff h t buf loc). Qed.
Print Assumptions C02_read_panics_iff.

Theorem C02_debug_huge_location_refuted : exists buf loc,
  usize_ok loc /\ read_scalar_at (Host true false) TU16 buf loc = Panic.
Proof. exact read_debug_huge_loc. Qed.
Print Assumptions C02_debug_huge_location_refuted.

Theorem C02_write_frame h t s v :
  ssize t <= blen s ->
  exists s', emplace_scalar h t s v = Val s' /\ length s' = length s /\
    forall i, (snat t <= i)%nat -> nth_error s' i = nth_error s i.
Proof. exact (emplace_frame h t s v). Qed.
Print Assumptions C02_write_frame.

(** A slice that is too short is not written: the call panics. *)
Theorem C02_write_panics_iff h t s v :
  emplace_scalar h t s v = Panic <-> blen s < ssize t.
Proof. exact (write_panics_iff h t s v). Qed.
Print Assumptions C02_write_panics_iff.

Example C02_case :
  read_scalar_at (Host true false) TU16 (map z2b [1;2;3]) 1 = Val 770 /\
  read_scalar_at (Host true false) TU16 (map z2b [1;2;3]) 2 = Err OutOfBounds.
Proof. vm_compute. auto. Qed.

(** C03. *)
Theorem C03_reader_never_panics_release h buf cs :
  debug h = false -> blen buf < 2 ^ 63 -> Forall rcall_ok cs -> client h buf [] cs <> Panic.
Proof. exact (reader_never_panics_release h buf cs). Qed.
Print Assumptions C03_reader_never_panics_release.

(** A chain that reaches a table, a vector in it and its elements. *)
Definition sample : list byte :=
  map z2b [12;0;0;0; 0;0; 6;0;8;0;4;0;
           6;0;0;0; 4;0;0;0;
           2;0;0;0; 7;0;0;0; 9;0;0;0].
Definition sample_calls : list rcall :=
  [RRoot FTable; RGet 0 4 (FUOffset (FVector (FScalar TU32))) None;
   RVecGet 1 1; RVecGet 1 77; RVecIter 1 [INext; INthBack 5; INext];
   RVTable 0; RVtNumFields 5; RVtGet 5 4].
Example C03_case :
  Forall rcall_ok sample_calls /\
  client (Host false false) sample [] sample_calls =
    Val [VTable 12; VVector (FScalar TU32) 20; VScalar 9; VScalar 7; VVTable 6].
Proof.
  split; [|vm_compute; reflexivity].
  repeat constructor; cbn; unfold usize_ok; try lia; try discriminate.
Qed.

(** C04 is false: *)
Theorem C04_reader_never_panics_debug_refuted :
  exists buf cs, Forall rcall_ok cs /\ client (Host true false) buf [] cs = Panic.
Proof. exact reader_panics_debug. Qed.
Print Assumptions C04_reader_never_panics_debug_refuted.

(** What is true: with a buffer of up to 2 GiB a debug build panics exactly if the
    program comes to one of the calls listed by [hazard] (SpecReader.v): a vtable
    position that overflows, a vtable without a header, an index past the end, a
    skip that overflows. *)
Theorem C04_debug_panics_iff h buf cs :
  debug h = true -> blen buf < 2 ^ 31 -> Forall call_ok cs ->
  (client h buf [] cs = Panic <->
   exists pre c post hs, cs = pre ++ c :: post /\ client h buf [] pre = Val hs /\ hazard buf hs c).
Proof. exact (fun D B => client_panics_iff h D buf B cs). Qed.
Print Assumptions C04_debug_panics_iff.

(** For a single field access. *)
Theorem C04_field_access_panics_iff h buf tab slot t d :
  debug h = true -> plain t = true -> blen buf < 2 ^ 31 -> 0 <= tab < 2 ^ 31 -> 0 <= slot < 2 ^ 16 ->
  (table_get h buf tab slot t d = Panic <->
   exists s, soffset_at buf tab s /\ (tab - s = -1 \/ tab - s = -2 \/ 2 ^ 31 <= tab - s)).
Proof. exact (table_get_panic_iff h buf tab slot t d). Qed.
Print Assumptions C04_field_access_panics_iff.

Example C04_case :
  client (Host true false) sample [] sample_calls = Panic /\
  client (Host true false) sample [] (firstn 3 sample_calls) =
    Val [VTable 12; VVector (FScalar TU32) 20; VScalar 9].
Proof. vm_compute. auto. Qed.

(** C05. *)
Theorem C05_string_read_iff h buf loc s :
  usize_ok loc -> blen buf < 2 ^ 63 ->
  (follow h FStr buf loc = Val (VStr s) <-> string_at buf loc s /\ is_utf8 s).
Proof. exact (string_read_utf8 h buf loc s). Qed.
Print Assumptions C05_string_read_iff.

Theorem C05_string_read_errors h buf loc e :
  usize_ok loc -> loc + 4 < 2 ^ 64 -> blen buf < 2 ^ 63 ->
  (follow h FStr buf loc = Err e <->
   (e = OutOfBounds /\
      (blen buf < loc + 4 \/ exists n, le_at buf loc 4 n /\ blen buf <= loc + 4 + n)) \/
   (exists n z, le_at buf loc 4 n /\ nth_error buf (Z.to_nat (loc + 4 + n)) = Some z /\
      ((e = NonNullTerminatedString /\ z <> x00) \/
       (e = NonUtf8String /\ z = x00 /\ exists s, blen s = n /\ bytes_at buf (loc + 4) s /\ ~ is_utf8 s)))).
Proof. exact (string_read_errors_utf8 h buf loc e). Qed.
Print Assumptions C05_string_read_errors.

Example C05_case :
  follow (Host true false) FStr (map z2b [2;0;0;0;0xC3;0xA9;0]) 0 = Val (VStr (map z2b [0xC3;0xA9])) /\
  follow (Host true false) FStr (map z2b [2;0;0;0;0xA9;0xC3;0]) 0 = Err NonUtf8String /\
  follow (Host true false) FStr (map z2b [2;0;0;0;65;66;67]) 0 = Err NonNullTerminatedString /\
  follow (Host true false) FStr (map z2b [2;0;0;0;65;66]) 0 = Err OutOfBounds.
Proof. vm_compute. auto. Qed.

(** C06: [v] is the vtable's position, [n] its declared length. *)
Theorem C06_field_access_follows_vtable h buf tab s v slot t d :
  blen buf < 2 ^ 31 -> soffset_at buf tab s -> v = tab - s -> 0 <= v < 2 ^ 31 -> 0 <= slot < 2 ^ 16 ->
  (blen buf < v + 2 -> table_get h buf tab slot t d = Err OutOfBounds) /\
  forall n, le_at buf v 2 n ->
    (n <= slot -> table_get h buf tab slot t d = Val d) /\
    (slot < n -> blen buf < v + slot + 2 -> table_get h buf tab slot t d = Err OutOfBounds) /\
    (slot < n -> le_at buf (v + slot) 2 0 -> table_get h buf tab slot t d = Val d) /\
    (forall off, slot < n -> le_at buf (v + slot) 2 off -> off <> 0 ->
       table_get h buf tab slot t d = let* x := follow h t buf (tab + off) in Val (Some x)).
Proof. exact (table_get_spec h buf tab s v slot t d). Qed.
Print Assumptions C06_field_access_follows_vtable.

Theorem C06_table_outside_buffer h buf tab slot t d :
  0 <= tab < 2 ^ 63 -> blen buf < tab + 4 -> table_get h buf tab slot t d = Err OutOfBounds.
Proof. exact (table_get_short h buf tab slot t d). Qed.
Print Assumptions C06_table_outside_buffer.

Example C06_case :
  table_get (Host true false) sample 12 4 (FUOffset FTable) None = Val (Some (VTable 20)) /\
  table_get (Host true false) sample 12 6 (FScalar TU8) (Some (VScalar 5)) = Val (Some (VScalar 5)).
Proof. vm_compute. auto. Qed.

(** C07 is false at index = field count, in every build: *)
Theorem C07_get_field_past_end_refuted :
  forall h, exists buf1 buf2 vt idx,
    same_vtable buf1 buf2 vt /\ vt_num_fields h buf1 vt = Val idx /\
    vt_get_field h buf1 vt idx <> vt_get_field h buf2 vt idx.
Proof. exact get_field_past_end. Qed.
Print Assumptions C07_get_field_past_end_refuted.

(** True below the field count, and for the lookup by slot away from the last
    byte: the answer is determined by the vtable's own bytes. *)
Theorem C07_get_field_inside h buf1 buf2 vt idx nf :
  0 <= vt < 2 ^ 63 -> blen buf1 < 2 ^ 63 -> blen buf2 < 2 ^ 63 ->
  same_vtable buf1 buf2 vt -> vt_num_fields h buf1 vt = Val nf -> nf < 2 ^ 16 -> 0 <= idx < nf ->
  exists r, vt_get_field h buf1 vt idx = Val (Some r) /\ vt_get_field h buf2 vt idx = Val (Some r).
Proof. exact (get_field_same h buf1 buf2 vt idx nf). Qed.
Print Assumptions C07_get_field_inside.

Theorem C07_get_inside h buf1 buf2 vt slot n :
  0 <= vt < 2 ^ 63 -> blen buf1 < 2 ^ 63 -> blen buf2 < 2 ^ 63 ->
  same_vtable buf1 buf2 vt -> vt_num_bytes h buf1 vt = Val n -> 0 <= slot ->
  slot <> n - 1 ->
  vt_get h buf1 vt slot = vt_get h buf2 vt slot /\
  (n <= slot -> vt_get h buf1 vt slot = Val None) /\
  (slot < n -> exists r, vt_get h buf1 vt slot = Val (Some r)).
Proof. exact (vt_get_same h buf1 buf2 vt slot n). Qed.
Print Assumptions C07_get_inside.

(** At the last byte it is not. *)
Theorem C07_get_last_byte_refuted :
  forall h, exists buf1 buf2 vt n,
    same_vtable buf1 buf2 vt /\ vt_num_bytes h buf1 vt = Val n /\
    vt_get h buf1 vt (n - 1) <> vt_get h buf2 vt (n - 1).
Proof. exact get_last_byte. Qed.
Print Assumptions C07_get_last_byte_refuted.

Theorem C07_num_fields_exact h buf vt n :
  le_at buf vt 2 n -> blen buf < 2 ^ 63 ->
  vt_num_bytes h buf vt = Val n /\
  (4 <= n -> vt_num_fields h buf vt = Val (n / 2 - 2)) /\
  (n < 4 -> vt_num_fields h buf vt = if debug h then Panic else Val (2 ^ 64 + n / 2 - 2)).
Proof. exact (num_fields_exact h buf vt n). Qed.
Print Assumptions C07_num_fields_exact.

Example C07_case :
  same_vtable sample (sample ++ sample) 6 /\
  vt_num_fields (Host true false) sample 6 = Val 1 /\
  vt_get_field (Host true false) sample 6 0 = Val (Some 4).
Proof.
  split; [same_vtable_tac (map z2b [6;0;8;0;4;0])|]. vm_compute. auto.
Qed.

(** C08: the length of a vector is the number that stands at its start. *)
Theorem C08_length_exact h buf v n : 0 <= v < 2 ^ 64 -> blen buf < 2 ^ 63 ->
  (vec_len h buf v = Val n <-> le_at buf v 4 n) /\
  (le_at buf v 4 n -> exists e, vec_is_empty h buf v = Val e /\ (e = true <-> n = 0)).
Proof. exact (vec_len_exact h buf v n). Qed.
Print Assumptions C08_length_exact.

(** The element is what stands in the cell [v + 4 + size * i]. *)
Theorem C08_scalar_element_exact h t buf v n i x :
  le_at buf v 4 n -> 0 <= i < n -> blen buf < 2 ^ 63 -> t <> TBool -> valid_scalar t x = true ->
  (vec_get h (FScalar t) buf v i = Val (VScalar x) <->
   le_at buf (v + 4 + ssize t * i) (snat t) (x mod 2 ^ (8 * ssize t))).
Proof. exact (vec_scalar_exact h t buf v n i x). Qed.
Print Assumptions C08_scalar_element_exact.

Theorem C08_bool_element_exact h buf v n i x :
  le_at buf v 4 n -> 0 <= i < n -> blen buf < 2 ^ 63 ->
  (vec_get h (FScalar TBool) buf v i = Val (VScalar x) <->
   exists b, le_at buf (v + 4 + i) 1 b /\ x = if b =? 0 then 0 else 1).
Proof. exact (vec_bool_exact h buf v n i x). Qed.
Print Assumptions C08_bool_element_exact.

Theorem C08_string_element_exact h buf v n i off s :
  le_at buf v 4 n -> 0 <= i < n -> blen buf < 2 ^ 63 ->
  le_at buf (v + 4 + 4 * i) 4 off ->
  (vec_get h (FUOffset FStr) buf v i = Val (VStr s) <->
   string_at buf (v + 4 + 4 * i + off) s /\ is_utf8 s).
Proof. exact (vec_string_exact h buf v n i off s). Qed.
Print Assumptions C08_string_element_exact.

Theorem C08_table_element_exact h buf v n i off :
  le_at buf v 4 n -> 0 <= i < n -> blen buf < 2 ^ 63 ->
  le_at buf (v + 4 + 4 * i) 4 off ->
  vec_get h (FUOffset FTable) buf v i = Val (VTable (v + 4 + 4 * i + off)).
Proof. exact (vec_table_exact h buf v n i off). Qed.
Print Assumptions C08_table_element_exact.

(** Past the end: a debug build panics; a release build returns whatever
    stands there. *)
Theorem C08_past_end_debug h t buf v n i :
  le_at buf v 4 n -> n <= i -> debug h = true -> blen buf < 2 ^ 63 ->
  vec_get h t buf v i = Panic.
Proof. exact (vec_get_past_end_debug h t buf v n i). Qed.
Print Assumptions C08_past_end_debug.

Theorem C08_past_end_release_refuted :
  exists h t buf v n x, debug h = false /\ le_at buf v 4 n /\ vec_get h t buf v n = Val x.
Proof. exact vec_get_past_end_release. Qed.
Print Assumptions C08_past_end_release_refuted.

Example C08_case :
  vec_get (Host true false) (FScalar TU32) sample 20 0 = Val (VScalar 7) /\
  vec_get (Host true false) (FScalar TU32) sample 20 1 = Val (VScalar 9).
Proof. vm_compute. auto. Qed.

(** C09: any sequence of iterator calls gives what the same calls give on the
    deque of the elements. *)
Theorem C09_iteration_is_a_deque h t buf v n cs :
  blen buf < 2 ^ 63 -> plain t = true -> 0 < size_of t -> le_at buf v 4 n ->
  Forall (itcall_fits h t) cs ->
  exists it, vec_iter h buf v = Val it /\
  exists it', iter_calls h t buf cs it = Val (fst (dq_calls (map to_dq cs) (elements h t buf v n)), it') /\
    iter_len it' = Z.of_nat (length (snd (dq_calls (map to_dq cs) (elements h t buf v n)))) /\
    iter_size_hint it' = (iter_len it', Some (iter_len it')).
Proof. exact (iteration_deque h t buf v n cs). Qed.
Print Assumptions C09_iteration_is_a_deque.

Theorem C09_unreadable_vector_is_empty h t buf v cs :
  0 <= v < 2 ^ 64 - 4 -> blen buf < 2 ^ 63 -> blen buf < v + 4 -> 0 < size_of t ->
  Forall (itcall_fits h t) cs ->
  exists it, vec_iter h buf v = Val it /\
  exists it', iter_calls h t buf cs it = Val (map (fun _ => None) cs, it') /\ iter_len it' = 0.
Proof. exact (iteration_unreadable h t buf v cs). Qed.
Print Assumptions C09_unreadable_vector_is_empty.

Example C09_case :
  dq_calls (map to_dq [INext; INthBack 0; INext; INext]) (elements (Host true false) (FScalar TU32) sample 20 2) =
    ([Some (Val (VScalar 7)); Some (Val (VScalar 9)); None; None], []) /\
  iter_calls (Host true false) (FScalar TU32) sample [INext; INthBack 0; INext; INext] (VIter 24 2) =
    Val ([Some (Val (VScalar 7)); Some (Val (VScalar 9)); None; None], VIter 28 0).
Proof. vm_compute. auto. Qed.

(** C10. *)
Theorem C10_nth_far_release h t buf it x :
  debug h = false -> it_remaining it <= x ->
  exists it', iter_nth h t buf it x = Val (None, it') /\ iter_len it' = 0.
Proof. exact (nth_far_release h t buf it x). Qed.
Print Assumptions C10_nth_far_release.

Theorem C10_nth_far_debug h t buf it x :
  debug h = true -> 0 < size_of t -> 0 <= x -> it_remaining it <= x ->
  (size_of t * x < 2 ^ 64 -> exists it', iter_nth h t buf it x = Val (None, it') /\ iter_len it' = 0) /\
  (2 ^ 64 <= size_of t * x -> iter_nth h t buf it x = Panic).
Proof. exact (nth_far_panics_iff h t buf it x). Qed.
Print Assumptions C10_nth_far_debug.

Theorem C10_nth_far_debug_refuted :
  exists buf it n, vec_iter (Host true false) buf 0 = Val it /\ usize_ok n /\
    it_remaining it <= n /\ iter_nth (Host true false) (FScalar TU64) buf it n = Panic.
Proof. exact nth_far_panics_debug. Qed.
Print Assumptions C10_nth_far_debug_refuted.

Theorem C10_nth_back_far h t buf it x :
  0 < size_of t -> it_remaining it <= x ->
  exists it', iter_nth_back h t buf it x = Val (None, it') /\ iter_len it' = 0.
Proof. exact (nth_back_far h t buf it x). Qed.
Print Assumptions C10_nth_back_far.

Example C10_case :
  iter_nth (Host false false) (FScalar TU64) [] (VIter 4 1) (2 ^ 61) = Val (None, VIter 4 0).
Proof. vm_compute. reflexivity. Qed.

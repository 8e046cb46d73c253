(** Properties C11-C32 and C56: building buffers.  Statements only; each theorem is
    closed by a lemma of the proof files.  Vocabulary: Ops.v (programs over the
    builder API and what Rust's types guarantee about arguments: [op_ok]),
    SpecBuilder.v (syntactic conditions on programs), SpecWire.v (bytes at a
    position), Reader.v (reading).  A program is [program host capacity calls];
    it returns the final builder and what every call returned.

    Bounds such as [blen (unfinished_data b) < 2 ^ 32] are on the finished
    buffer, not on the history: the format cannot address more. *)
From Coq Require Import ZArith List Bool Lia Strings.Byte.
From Verif Require Import Base Scalar Utf8 Reader Client Builder Ops SpecWire SpecReader SpecBuilder ReaderProofs3 Build2 Build7
  BuilderProofs1 BuilderProofs2 BuilderProofs3 BuilderProofs4 BuilderProofs5 BuilderProofs6
  BuilderProofs7 BuilderProofs8 BuilderProofs9 BuilderProofs10 GrowthProofs.
Import ListNotations.
Local Open Scope Z_scope.

(** Programs used in the examples below: a string, a vector, a table with
    three fields (one equal to its default), finished with an identifier. *)
Definition hello : list byte := map z2b [104; 105; 33].
Definition before_table : list op :=
  [OpPush (PScalar TU8 9); OpCreateString hello; OpCreateVector (PTScalar TI16) [PScalar TI16 (-2); PScalar TI16 5]].
Definition table_fields : list op :=
  [OpPushSlot 4 (PScalar TU16 7) (PScalar TU16 1); OpPushSlot 6 (PScalar TI8 3) (PScalar TI8 3);
   OpPushSlotAlways 8 (POffset 12)].
Definition after_table : list op := [OpCreateString []; OpFinish 32 (Some (map z2b [65; 66; 67; 68])) false].
Definition whole : list op := table_program before_table table_fields 20 after_table.
Definition returned (x : outcome (builder * list obs)) : list obs := match x with Val (_, xs) => xs | _ => [] end.
Definition bytes_of (x : outcome (builder * list obs)) : list byte :=
  match x with Val (b, _) => unfinished_data b | _ => [] end.

(** C11.  Below 4 GiB, every history and every further calls without reset. *)
Theorem C11_data_kept h c os b xs later b' ys :
  0 <= c -> forallb op_ok (os ++ later) = true -> no_reset later = true ->
  program h c os = Val (b, xs) -> run h b later = Val (b', ys) -> blen (unfinished_data b') < 2 ^ 32 ->
  exists new, unfinished_data b' = new ++ unfinished_data b.
Proof. exact (data_kept h c os b xs later b' ys). Qed.
Print Assumptions C11_data_kept.

(** A release build beyond 4 GiB overwrites bytes written earlier. *)
Theorem C11_beyond_4gib_refuted e c : 0 <= c <= 2 ^ 31 -> exists os later b xs b' ys,
  forallb op_ok (os ++ later) = true /\ no_reset (os ++ later) = true /\ nested_well None (os ++ later) = true /\
  program (Host false e) c os = Val (b, xs) /\ run (Host false e) b later = Val (b', ys) /\
  ~ exists new, unfinished_data b' = new ++ unfinished_data b.
Proof. exact (overwrites e c). Qed.
Print Assumptions C11_beyond_4gib_refuted.

Example C11_case :
  forallb op_ok whole = true /\ no_reset whole = true /\
  returned (program (Host true false) 0 whole) =
    [ONum 1; ONum 12; ONum 20; ONum 20; ONone; ONone; ONone; ONum 32; ONum 48; ONone] /\
  blen (bytes_of (program (Host true false) 0 whole)) = 56.
Proof. vm_compute. repeat split. Qed.

(** C12. *)
Theorem C12_capacity_irrelevant h c1 c2 os b1 b2 xs1 xs2 :
  0 <= c1 -> 0 <= c2 -> forallb op_ok os = true ->
  program h c1 os = Val (b1, xs1) -> program h c2 os = Val (b2, xs2) ->
  xs1 = xs2 /\ unfinished_data b1 = unfinished_data b2.
Proof. exact (capacity_irrelevant h c1 c2 os b1 b2 xs1 xs2). Qed.
Print Assumptions C12_capacity_irrelevant.

(** Completion does not depend on the capacity either, as long as the data never exceeds 2 GiB. *)
Theorem C12_capacity_completes h c1 c2 os b1 xs1 :
  0 <= c1 -> 0 <= c2 <= 2 ^ 31 -> forallb op_ok os = true ->
  program h c1 os = Val (b1, xs1) ->
  (forall p q b ys, os = p ++ q -> program h c1 p = Val (b, ys) -> blen (unfinished_data b) <= 2 ^ 31) ->
  exists b2, program h c2 os = Val (b2, xs1) /\ unfinished_data b1 = unfinished_data b2.
Proof. exact (capacity_completes h c1 c2 os b1 xs1). Qed.
Print Assumptions C12_capacity_completes.

Example C12_case : bytes_of (program (Host true false) 0 whole) = bytes_of (program (Host true false) 1000 whole).
Proof. vm_compute. reflexivity. Qed.

(** C13.  [OpReset] may occur anywhere in [os]; padding is taken from the unused part. *)
Theorem C13_unused_zero h c os b xs : 0 <= c -> forallb op_ok os = true -> program h c os = Val (b, xs) ->
  0 <= head b <= blen (owned_buf b) /\
  forall i, (i < Z.to_nat (head b))%nat -> nth_error (owned_buf b) i = Some x00.
Proof. exact (unused_zero h c os b xs). Qed.
Print Assumptions C13_unused_zero.

Example C13_case : match program (Host true false) 0 (whole ++ [OpReset; OpPush (PScalar TU8 255); OpPush (PScalar TU64 255)]) with
  | Val (b, _) => unfinished_data b = map z2b [255; 0; 0; 0; 0; 0; 0; 0;  0; 0; 0; 0; 0; 0; 0; 255] /\ 0 < head b
  | _ => False end.
Proof. vm_compute. repeat split. Qed.

(** C14.  [placed] lists where a call put its scalars, elements and lengths. *)
Theorem C14_objects_aligned h c os o later root ident sp b xs x ys :
  0 <= c -> forallb op_ok (os ++ [o] ++ later ++ [OpFinish root ident sp]) = true -> no_reset later = true ->
  program h c (os ++ [o] ++ later ++ [OpFinish root ident sp]) = Val (b, xs ++ [x] ++ ys) ->
  length xs = length os -> blen (unfinished_data b) < 2 ^ 32 -> (debug h = true \/ match ident with Some i => blen i = 4 | None => True end) ->
  let D := unfinished_data b in
  blen D mod op_align o = 0 /\
  forall r al, In (r, al) (placed o x) -> (blen D - r) mod al = 0.
Proof. exact (objects_aligned h c os o later root ident sp b xs x ys). Qed.
Print Assumptions C14_objects_aligned.

Theorem C14_fields_aligned h hr c before mid start later root ident sp obj xs ys zs b :
  0 <= c -> calls_ok (table_program before mid start (later ++ [OpFinish root ident sp])) = true ->
  closed before = true -> forallb in_table mid = true -> no_reset later = true ->
  program h c (table_program before mid start (later ++ [OpFinish root ident sp])) =
    Val (b, xs ++ [ONum start] ++ ys ++ [ONum obj] ++ zs) ->
  length xs = length before -> length ys = length mid ->
  blen (unfinished_data b) < 2 ^ 31 ->
  (debug h = true \/ obj - start < 2 ^ 16 /\ NoDup (map fst (added mid))) -> (debug h = true \/ match ident with Some i => blen i = 4 | None => True end) ->
  let D := unfinished_data b in
  forall slot x, In (slot, x) (added mid) ->
    exists vt e, table_vtable hr D (blen D - obj) = Val vt /\ vt_get hr D vt slot = Val (Some e) /\ e <> 0 /\
      (blen D - obj + e) mod natural (pty_of x) = 0.
Proof. exact (fields_aligned h hr c before mid start later root ident sp obj xs ys zs b). Qed.
Print Assumptions C14_fields_aligned.

Example C14_case :
  placed (OpCreateVector (PTScalar TI16) [PScalar TI16 (-2); PScalar TI16 5]) (ONum 20) = [(20, 4); (16, 2); (16, 2); (14, 2)] /\
  firstn 8 (skipn (56 - 20) (bytes_of (program (Host true false) 0 whole))) = map z2b [2; 0; 0; 0; 254; 255; 5; 0].
Proof. vm_compute. repeat split. Qed.

(** C15.  [padding_bytes] for every used size and every power of two. *)
Theorem C15_padding_least n k : 0 <= n < 2 ^ 64 -> 0 <= k <= 63 ->
  let p := padding_bytes n (2 ^ k) in
  0 <= p < 2 ^ k /\ (n + p) mod 2 ^ k = 0 /\ forall q, 0 <= q < p -> (n + q) mod 2 ^ k <> 0.
Proof. exact (padding_least n k). Qed.
Print Assumptions C15_padding_least.

(** Every call that writes one object uses the least padding. *)
Theorem C15_padding_minimal h c os o b xs b' x :
  0 <= c -> forallb op_ok (os ++ [o]) = true -> program h c os = Val (b, xs) -> step h b o = Val (b', x) ->
  blen (unfinished_data b') < 2 ^ 32 -> one_object o = true ->
  exists vtable body pad, unfinished_data b' = vtable ++ body ++ zeros pad ++ unfinished_data b /\
    (is_end_table o = false -> vtable = []) /\ blen body = body_len o /\
    least_pad (blen (unfinished_data b)) (aligned_len o) (op_align o) pad.
Proof. exact (padding_minimal h c os o b xs b' x). Qed.
Print Assumptions C15_padding_minimal.

Example C15_case : padding_bytes 13 8 = 3 /\ padding_bytes 16 8 = 0 /\
  bytes_of (program (Host true false) 0 [OpPush (PScalar TU8 1); OpPush (PScalar TU16 2)]) = map z2b [2; 0; 0; 1].
Proof. vm_compute. repeat split. Qed.

(** C16.  When no table is half built at the reset. *)
Theorem C16_reset_like_new h c c' os b xs later b1 ys1 b2 ys2 :
  0 <= c -> 0 <= c' -> forallb op_ok (os ++ later) = true -> closed os = true ->
  program h c os = Val (b, xs) -> run h (reset b) later = Val (b1, ys1) ->
  program h c' later = Val (b2, ys2) ->
  ys1 = ys2 /\ unfinished_data b1 = unfinished_data b2.
Proof. exact (reset_like_new h c c' os b xs later b1 ys1 b2 ys2). Qed.
Print Assumptions C16_reset_like_new.

Theorem C16_reset_completes h c c' os b xs later b2 ys2 :
  0 <= c -> 0 <= c' -> forallb op_ok (os ++ later) = true -> closed os = true ->
  program h c os = Val (b, xs) -> program h c' later = Val (b2, ys2) ->
  (forall p q b ys, later = p ++ q -> program h c' p = Val (b, ys) -> blen (unfinished_data b) <= 2 ^ 31) ->
  exists b1, run h (reset b) later = Val (b1, ys2) /\ unfinished_data b1 = unfinished_data b2.
Proof. exact (reset_completes h c c' os b xs later b2 ys2). Qed.
Print Assumptions C16_reset_completes.

(** [reset] keeps the recorded fields of a half-built table; they end up in the next table. *)
Theorem C16_reset_mid_table_refuted h : exists b xs b1 ys1 b2 ys2,
  program h 0 open_table = Val (b, xs) /\ run h (reset b) empty_table = Val (b1, ys1) /\
  program h 0 empty_table = Val (b2, ys2) /\ unfinished_data b1 <> unfinished_data b2.
Proof. exact (reset_mid_table h). Qed.
Print Assumptions C16_reset_mid_table_refuted.

Example C16_case : closed whole = true /\
  match program (Host true false) 0 whole with
  | Val (b, _) => bytes_of (run (Host true false) (reset b) whole) = unfinished_data b
  | _ => False end.
Proof. vm_compute. repeat split. Qed.

(** C17.  What is limited to 2 GiB: the initial capacity and every single request ... *)
Theorem C17_capacity_limit c : 0 <= c -> (exists b, new_with_capacity c = Val b) <-> c <= 2 ^ 31.
Proof. exact (capacity_limit c). Qed.
Print Assumptions C17_capacity_limit.

Theorem C17_request_limit h b want b' : make_space h b want = Val b' -> want <= head b \/ want <= 2 ^ 31.
Proof. exact (request_limit h b want b'). Qed.
Print Assumptions C17_request_limit.

(** ... but not the buffer: for every limit up to 2^59 some well-formed history passes it. *)
Theorem C17_total_size_refuted h c limit : 0 <= c <= 2 ^ 31 -> 0 <= limit <= 2 ^ 59 -> exists os b xs,
  forallb op_ok os = true /\ nested_well None os = true /\ program h c os = Val (b, xs) /\ limit < blen (unfinished_data b).
Proof. exact (unlimited_total h c limit). Qed.
Print Assumptions C17_total_size_refuted.

Example C17_case : completes (new_with_capacity 100) = true /\ completes (new_with_capacity (2 ^ 31 + 1)) = false.
Proof. vm_compute. repeat split. Qed.

(** C18. *)
Theorem C18_tables_share h hr c os1 s1 os2 s2 os3 o1 o2 xs ys zs b :
  0 <= c -> calls_ok (os1 ++ [OpEndTable s1] ++ os2 ++ [OpEndTable s2] ++ os3) = true ->
  keeps_tables os2 = true -> no_reset os3 = true ->
  program h c (os1 ++ [OpEndTable s1] ++ os2 ++ [OpEndTable s2] ++ os3)
    = Val (b, xs ++ [ONum o1] ++ ys ++ [ONum o2] ++ zs) ->
  length xs = length os1 -> length ys = length os2 -> blen (unfinished_data b) < 2 ^ 31 ->
  let D := unfinished_data b in
  exists v1 v2 t1 t2, table_vtable hr D (blen D - o1) = Val v1 /\ table_vtable hr D (blen D - o2) = Val v2 /\
    vt_as_bytes hr D v1 = Val t1 /\ vt_as_bytes hr D v2 = Val t2 /\ (v1 = v2 <-> t1 = t2).
Proof. exact (tables_share h hr c os1 s1 os2 s2 os3 o1 o2 xs ys zs b). Qed.
Print Assumptions C18_tables_share.

Theorem C18_vtables_counted h hr c os s b xs b' o :
  0 <= c -> calls_ok (os ++ [OpEndTable s]) = true ->
  program h c os = Val (b, xs) -> step h b (OpEndTable s) = Val (b', ONum o) ->
  blen (unfinished_data b') < 2 ^ 31 ->
  let D := unfinished_data b' in
  exists v t, table_vtable hr D (blen D - o) = Val v /\ vt_as_bytes hr D v = Val t /\
    ((num_written_vtables b' = num_written_vtables b /\
      exists r, In r (written_vtable_revpos b) /\ v = blen D - r /\
        vt_as_bytes hr (unfinished_data b) (blen (unfinished_data b) - r) = Val t) \/
     (num_written_vtables b' = num_written_vtables b + 1 /\
      forall r, In r (written_vtable_revpos b) ->
        vt_as_bytes hr (unfinished_data b) (blen (unfinished_data b) - r) <> Val t)).
Proof. exact (vtables_counted h hr c os s b xs b' o). Qed.
Print Assumptions C18_vtables_counted.

Theorem C18_vtables_distinct h hr c os b xs i j r s :
  0 <= c -> calls_ok os = true -> program h c os = Val (b, xs) -> blen (unfinished_data b) < 2 ^ 32 ->
  nth_error (written_vtable_revpos b) i = Some r -> nth_error (written_vtable_revpos b) j = Some s -> i <> j ->
  exists x y, vt_as_bytes hr (unfinished_data b) (blen (unfinished_data b) - r) = Val x /\
    vt_as_bytes hr (unfinished_data b) (blen (unfinished_data b) - s) = Val y /\ x <> y.
Proof. exact (vtables_distinct h hr c os b xs i j r s). Qed.
Print Assumptions C18_vtables_distinct.

Example C18_case :
  returned (program (Host true false) 0
    [OpStartTable; OpPushSlotAlways 4 (PScalar TU32 7); OpEndTable 0; OpNumVtables;
     OpPush (PScalar TU16 1);
     OpStartTable; OpPushSlotAlways 4 (PScalar TU32 8); OpEndTable 16; OpNumVtables;
     OpStartTable; OpPushSlotAlways 6 (PScalar TU32 8); OpEndTable 24; OpNumVtables]) =
    [ONum 0; ONone; ONum 8; ONum 1; ONum 16; ONum 16; ONone; ONum 24; ONum 1; ONum 24; ONone; ONum 32; ONum 2].
Proof. vm_compute. reflexivity. Qed.

(** C19.  [later] is any further building.  A debug build itself refuses double slots and tables over 64 KiB; in a release build they are excluded by hypothesis (see C31). *)
Theorem C19_fields_round_trip h hr c before mid start later obj xs ys zs b :
  0 <= c -> calls_ok (table_program before mid start later) = true ->
  closed before = true -> forallb in_table mid = true -> no_reset later = true ->
  program h c (table_program before mid start later) = Val (b, xs ++ [ONum start] ++ ys ++ [ONum obj] ++ zs) ->
  length xs = length before -> length ys = length mid ->
  blen (unfinished_data b) < 2 ^ 31 ->
  (debug h = true \/ obj - start < 2 ^ 16 /\ NoDup (map fst (added mid))) ->
  let D := unfinished_data b in
  (forall slot t v d, In (slot, PScalar t v) (added mid) ->
     table_get hr D (blen D - obj) slot (FScalar t) d = Val (Some (VScalar v)) /\
     forall allowed, In v allowed ->
       table_get hr D (blen D - obj) slot (FEnum t allowed) d = Val (Some (VEnum v))) /\
  (forall slot o t d, In (slot, POffset o) (added mid) -> o <= start ->
     table_get hr D (blen D - obj) slot (FUOffset t) d =
     (let* v := follow hr t D (blen D - o) in Val (Some v))) /\
  (forall slot t d, 4 <= slot < 2 ^ 16 -> slot mod 2 = 0 -> ~ In slot (map fst (added mid)) ->
     table_get hr D (blen D - obj) slot t d = Val d).
Proof. exact (fields_round_trip h hr c before mid start later obj xs ys zs b). Qed.
Print Assumptions C19_fields_round_trip.

Example C19_case :
  calls_ok whole = true /\ closed before_table = true /\ forallb in_table table_fields = true /\ no_reset after_table = true /\
  returned (program (Host true false) 0 whole) =
    [ONum 1; ONum 12; ONum 20] ++ [ONum 20] ++ [ONone; ONone; ONone] ++ [ONum 32] ++ [ONum 48; ONone] /\
  added table_fields = [(4, PScalar TU16 7); (8, POffset 12)] /\
  let D := bytes_of (program (Host true false) 0 whole) in
  table_get (Host false true) D (blen D - 32) 4 (FScalar TU16) None = Val (Some (VScalar 7)) /\
  table_get (Host false true) D (blen D - 32) 6 (FScalar TI8) None = Val None /\
  table_get (Host false true) D (blen D - 32) 8 (FUOffset FStr) None = Val (Some (VStr hello)).
Proof. vm_compute. repeat split. Qed.

(** C20.  [scalar_eq] is [==]: a NaN differs from every default and is stored; -0.0 equals the default 0.0 and reads back as 0.0. *)
Theorem C20_default_round_trip h hr c before m1 slot t v d m2 start later obj xs ys zs b :
  let mid := m1 ++ [OpPushSlot slot (PScalar t v) (PScalar t d)] ++ m2 in
  0 <= c -> calls_ok (table_program before mid start later) = true ->
  closed before = true -> forallb in_table mid = true -> no_reset later = true ->
  program h c (table_program before mid start later) = Val (b, xs ++ [ONum start] ++ ys ++ [ONum obj] ++ zs) ->
  length xs = length before -> length ys = length mid ->
  blen (unfinished_data b) < 2 ^ 31 ->
  (debug h = true \/ obj - start < 2 ^ 16 /\ NoDup (map fst (added mid))) ->
  ~ In slot (map fst (added (m1 ++ m2))) ->
  let D := unfinished_data b in
  (table_get hr D (blen D - obj) slot (FScalar t) None =
     Val (if scalar_eq t v d then None else Some (VScalar v))) /\
  exists w, table_get hr D (blen D - obj) slot (FScalar t) (Some (VScalar d)) = Val (Some (VScalar w)) /\
    (w = v \/ scalar_eq t v w = true).
Proof. exact (default_round_trip h hr c before m1 slot t v d m2 start later obj xs ys zs b). Qed.
Print Assumptions C20_default_round_trip.

Example C20_case :
  let D := bytes_of (program (Host true false) 0 whole) in
  table_get (Host false true) D (blen D - 32) 6 (FScalar TI8) (Some (VScalar 3)) = Val (Some (VScalar 3)) /\
  scalar_eq TI8 3 3 = true /\ scalar_eq TF32 0x80000000 0 = true /\ scalar_eq TF32 0x7fc00000 0x7fc00000 = false.
Proof. vm_compute. repeat split. Qed.

(** C21.  [string_at]: the length, the bytes and a zero terminator. *)
Theorem C21_string_round_trip h hr c os s later b xs r ys :
  0 <= c -> forallb op_ok (os ++ [OpCreateString s] ++ later) = true -> no_reset later = true ->
  program h c (os ++ [OpCreateString s] ++ later) = Val (b, xs ++ [ONum r] ++ ys) -> length xs = length os ->
  blen (unfinished_data b) < 2 ^ 32 ->
  let D := unfinished_data b in
  string_at D (blen D - r) s /\ (is_utf8 s -> follow hr FStr D (blen D - r) = Val (VStr s)).
Proof. exact (string_round_trip h hr c os s later b xs r ys). Qed.
Print Assumptions C21_string_round_trip.

Theorem C21_byte_string_round_trip h c os s later b xs r ys :
  0 <= c -> forallb op_ok (os ++ [OpCreateByteString s] ++ later) = true -> no_reset later = true ->
  program h c (os ++ [OpCreateByteString s] ++ later) = Val (b, xs ++ [ONum r] ++ ys) -> length xs = length os ->
  blen (unfinished_data b) < 2 ^ 32 ->
  let D := unfinished_data b in string_at D (blen D - r) s.
Proof. exact (byte_string_round_trip h c os s later b xs r ys). Qed.
Print Assumptions C21_byte_string_round_trip.

Example C21_case :
  let D := bytes_of (program (Host true false) 0 whole) in
  follow (Host true true) FStr D (blen D - 12) = Val (VStr hello) /\ length [ONum 1] = length [OpPush (PScalar TU8 9)].
Proof. vm_compute. repeat split. Qed.

(** C22. *)
Theorem C22_vector_round_trip h hr c os t vs later b xs r ys :
  0 <= c -> forallb op_ok (os ++ [OpCreateVector (PTScalar t) (map (PScalar t) vs)] ++ later) = true -> no_reset later = true ->
  program h c (os ++ [OpCreateVector (PTScalar t) (map (PScalar t) vs)] ++ later) = Val (b, xs ++ [ONum r] ++ ys) ->
  length xs = length os -> blen (unfinished_data b) < 2 ^ 32 ->
  let D := unfinished_data b in
  le_at D (blen D - r) 4 (blen vs) /\
  elements hr (FScalar t) D (blen D - r) (blen vs) = map (fun v => Val (VScalar v)) vs /\
  (forall allowed, Forall (fun v => In v allowed) vs ->
   elements hr (FEnum t allowed) D (blen D - r) (blen vs) = map (fun v => Val (VEnum v)) vs).
Proof. exact (vector_round_trip h hr c os t vs later b xs r ys). Qed.
Print Assumptions C22_vector_round_trip.

Theorem C22_offset_vector_round_trip h hr c os offs later b xs r ys :
  0 <= c -> forallb op_ok (os ++ [OpCreateVector PTOffset (map POffset offs)] ++ later) = true -> no_reset later = true ->
  program h c (os ++ [OpCreateVector PTOffset (map POffset offs)] ++ later) = Val (b, xs ++ [ONum r] ++ ys) ->
  length xs = length os -> blen (unfinished_data b) < 2 ^ 32 ->
  (forall b0 ys, program h c os = Val (b0, ys) -> Forall (fun o => o <= blen (unfinished_data b0)) offs) ->
  let D := unfinished_data b in
  le_at D (blen D - r) 4 (blen offs) /\
  forall T, elements hr (FUOffset T) D (blen D - r) (blen offs) = map (fun o => follow hr T D (blen D - o)) offs.
Proof. exact (offset_vector_round_trip h hr c os offs later b xs r ys). Qed.
Print Assumptions C22_offset_vector_round_trip.

(** On a big-endian host the wider types have no [SafeSliceAccess] impl (vector.rs:103-116), so the call does not exist there. *)
Theorem C22_vector_direct_round_trip h hr c os t vs later b xs r ys :
  big_endian h = false \/ ssize t = 1 ->
  0 <= c -> forallb op_ok (os ++ [OpCreateVectorDirect t vs] ++ later) = true -> no_reset later = true ->
  program h c (os ++ [OpCreateVectorDirect t vs] ++ later) = Val (b, xs ++ [ONum r] ++ ys) ->
  length xs = length os -> blen (unfinished_data b) < 2 ^ 32 ->
  let D := unfinished_data b in
  le_at D (blen D - r) 4 (blen vs) /\
  elements hr (FScalar t) D (blen D - r) (blen vs) = map (fun v => Val (VScalar v)) vs /\
  (forall allowed, Forall (fun v => In v allowed) vs ->
   elements hr (FEnum t allowed) D (blen D - r) (blen vs) = map (fun v => Val (VEnum v)) vs).
Proof. exact (vector_direct_round_trip h hr c os t vs later b xs r ys). Qed.
Print Assumptions C22_vector_direct_round_trip.

Example C22_case :
  let D := bytes_of (program (Host true false) 0 whole) in
  elements (Host false true) (FScalar TI16) D (blen D - 20) 2 = [Val (VScalar (-2)); Val (VScalar 5)].
Proof. vm_compute. reflexivity. Qed.

(** C23. *)
Theorem C23_direct_general h c os t vs b xs :
  big_endian h = false \/ ssize t = 1 ->
  0 <= c -> forallb op_ok (os ++ [OpCreateVectorDirect t vs]) = true -> program h c os = Val (b, xs) ->
  let direct := OpCreateVectorDirect t vs in
  let general := OpCreateVector (PTScalar t) (map (PScalar t) vs) in
  (forall b1 x1 b2 x2, step h b direct = Val (b1, x1) -> step h b general = Val (b2, x2) ->
     x1 = x2 /\ unfinished_data b1 = unfinished_data b2 /\ min_align b1 = min_align b2) /\
  (blen vs * ssize t <= 2 ^ 31 -> blen (unfinished_data b) <= 2 ^ 60 -> debug h = false \/ nested b = false ->
   exists b1 b2 x, step h b direct = Val (b1, x) /\ step h b general = Val (b2, x)).
Proof. exact (direct_general h c os t vs b xs). Qed.
Print Assumptions C23_direct_general.

Example C23_case :
  bytes_of (program (Host true false) 0 [OpPush (PScalar TU8 1); OpCreateVectorDirect TU16 [1; 2; 3]]) =
  bytes_of (program (Host true false) 0 [OpPush (PScalar TU8 1); OpCreateVector (PTScalar TU16) (map (PScalar TU16) [1; 2; 3])]).
Proof. vm_compute. reflexivity. Qed.

(** C24. *)
Theorem C24_strings_vector_round_trip h hr c os ss later b xs r ys :
  0 <= c -> forallb op_ok (os ++ [OpCreateVectorOfStrings ss] ++ later) = true -> no_reset later = true ->
  program h c (os ++ [OpCreateVectorOfStrings ss] ++ later) = Val (b, xs ++ [ONum r] ++ ys) ->
  length xs = length os -> blen (unfinished_data b) < 2 ^ 32 -> Forall is_utf8 ss ->
  let D := unfinished_data b in
  le_at D (blen D - r) 4 (blen ss) /\
  elements hr (FUOffset FStr) D (blen D - r) (blen ss) = map (fun s => Val (VStr s)) ss.
Proof. exact (strings_vector_round_trip h hr c os ss later b xs r ys). Qed.
Print Assumptions C24_strings_vector_round_trip.

Example C24_case :
  let D := bytes_of (program (Host true false) 0 [OpCreateVectorOfStrings [hello; []; hello]]) in
  returned (program (Host true false) 0 [OpCreateVectorOfStrings [hello; []; hello]]) = [ONum 40] /\
  elements (Host false true) (FUOffset FStr) D (blen D - 40) 3 = [Val (VStr hello); Val (VStr []); Val (VStr hello)].
Proof. vm_compute. repeat split. Qed.

(** C25.  Equal outcomes, panics included; the offset is what the last call returned. *)
Theorem C25_by_elements h b t items : nested b = false ->
  (let* (b', xs) := run h b ([OpStartVector t (blen items)] ++ map OpPush (rev items) ++ [OpEndVector (blen items)]) in
   Val (b', last xs ONone)) = step h b (OpCreateVector t items).
Proof. exact (by_elements h b t items). Qed.
Print Assumptions C25_by_elements.

Example C25_case :
  bytes_of (program (Host true false) 0 [OpStartVector (PTScalar TU16) 3; OpPush (PScalar TU16 3); OpPush (PScalar TU16 2); OpPush (PScalar TU16 1); OpEndVector 3])
  = map z2b [3; 0; 0; 0; 1; 0; 2; 0; 3; 0; 0; 0].
Proof. vm_compute. reflexivity. Qed.

(** C26. *)
Theorem C26_finish_root h hr c os root ident sp b zs t :
  0 <= c -> forallb op_ok (os ++ [OpFinish root ident sp]) = true ->
  program h c (os ++ [OpFinish root ident sp]) = Val (b, zs) -> blen (unfinished_data b) < 2 ^ 32 ->
  (debug h = true \/ match ident with Some i => blen i = 4 | None => True end) ->
  (forall b0 ys, program h c os = Val (b0, ys) -> root <= blen (unfinished_data b0)) ->
  let D := unfinished_data b in
  (if sp then get_size_prefixed_root hr t D else get_root hr t D) = follow hr t D (blen D - root) /\
  (sp = true -> le_at D 0 4 (blen D - 4)) /\
  blen D mod 4 = 0.
Proof. exact (finish_root h hr c os root ident sp b zs t). Qed.
Print Assumptions C26_finish_root.

(** The identifier is found if anything aligned to 4 was written before ([o]) ... *)
Theorem C26_finish_identifier h hr c os o later root i sp b zs :
  0 <= c -> forallb op_ok ((os ++ [o] ++ later) ++ [OpFinish root (Some i) sp]) = true ->
  no_reset later = true -> 4 <= op_align o ->
  program h c ((os ++ [o] ++ later) ++ [OpFinish root (Some i) sp]) = Val (b, zs) -> blen (unfinished_data b) < 2 ^ 32 ->
  (debug h = true \/ blen i = 4) ->
  forall j, blen j = 4 -> buffer_has_identifier hr (unfinished_data b) j sp = Val (bytes_eqb j i).
Proof. exact (finish_identifier h hr c os o later root i sp b zs). Qed.
Print Assumptions C26_finish_identifier.

(** ... and is misplaced if nothing was. *)
Theorem C26_identifier_misplaced_refuted h : exists b xs,
  program h 0 [OpPush (PScalar TU8 7); OpFinish 1 (Some ident4) false] = Val (b, xs) /\
  forall hr, buffer_has_identifier hr (unfinished_data b) ident4 false = Val false.
Proof. exact (identifier_misplaced h). Qed.
Print Assumptions C26_identifier_misplaced_refuted.

(** Finishing an empty builder panics, in every build. *)
Theorem C26_finish_empty_refuted h c root ident sp : 0 <= c -> program h c [OpFinish root ident sp] = Panic.
Proof. exact (finish_empty h c root ident sp). Qed.
Print Assumptions C26_finish_empty_refuted.

Example C26_case :
  let D := bytes_of (program (Host true false) 0 whole) in
  op_align (OpCreateString hello) = 4 /\
  buffer_has_identifier (Host false true) D (map z2b [65; 66; 67; 68]) false = Val true /\
  buffer_has_identifier (Host false true) D (map z2b [65; 66; 67; 69]) false = Val false.
Proof. vm_compute. repeat split. Qed.

(** C27. *)
Theorem C27_required_exact h c before mid start later obj xs ys zs b slot :
  0 <= c -> calls_ok (table_program before mid start later) = true ->
  closed before = true -> forallb in_table mid = true -> no_reset later = true ->
  program h c (table_program before mid start later) = Val (b, xs ++ [ONum start] ++ ys ++ [ONum obj] ++ zs) ->
  length xs = length before -> length ys = length mid ->
  blen (unfinished_data b) < 2 ^ 31 ->
  (debug h = true \/ obj - start < 2 ^ 16 /\ NoDup (map fst (added mid))) ->
  4 <= slot < 2 ^ 16 -> slot mod 2 = 0 ->
  (In slot (map fst (added mid)) -> step h b (OpRequired obj slot) = Val (b, ONone)) /\
  (~ In slot (map fst (added mid)) -> step h b (OpRequired obj slot) = Panic).
Proof. exact (required_exact h c before mid start later obj xs ys zs b slot). Qed.
Print Assumptions C27_required_exact.

Example C27_case :
  returned (program (Host true false) 0 (whole ++ [OpRequired 32 8])) <> [] /\
  returned (program (Host true false) 0 (whole ++ [OpRequired 32 6])) = [].
Proof. vm_compute. split; [discriminate|reflexivity]. Qed.

(** C28.  [bracketed]: the protocol of SpecBuilder.v; "panics" also excludes errors. *)
Theorem C28_misuse_panics h c os : debug h = true -> 0 <= c -> forallb op_ok os = true ->
  bracketed (false, false) os = false -> program h c os = Panic.
Proof. exact (misuse_panics h c os). Qed.
Print Assumptions C28_misuse_panics.

Theorem C28_completes_bracketed h c os b xs : debug h = true -> 0 <= c -> forallb op_ok os = true ->
  program h c os = Val (b, xs) -> bracketed (false, false) os = true.
Proof. exact (completes_bracketed h c os b xs). Qed.
Print Assumptions C28_completes_bracketed.

(** What debug builds do not notice: a table ended as a vector, and [create_vector] inside a table. *)
Theorem C28_misuse_unseen_refuted h :
  (exists os b xs, forallb op_ok os = true /\ nested_well None os = false /\ program h 0 os = Val (b, xs) /\
     In OpStartTable os /\ existsb is_end_table os = false) /\
  (exists os b xs, forallb op_ok os = true /\ nested_well None os = false /\ program h 0 os = Val (b, xs) /\
     existsb is_end_table os = true).
Proof. exact (misuse_unseen h). Qed.
Print Assumptions C28_misuse_unseen_refuted.

Example C28_case : bracketed (false, false) whole = true /\ bracketed (false, false) [OpStartTable; OpCreateString []] = false.
Proof. vm_compute. repeat split. Qed.

(** C29. *)
Theorem C29_release_agrees e c os b xs :
  program (Host true e) c os = Val (b, xs) -> program (Host false e) c os = Val (b, xs).
Proof. exact (release_agrees e c os b xs). Qed.
Print Assumptions C29_release_agrees.

(** Nor do the bytes depend on the byte order of the host. *)
Theorem C29_endianness_irrelevant d c os : existsb wide_direct os = false ->
  program (Host d true) c os = program (Host d false) c os.
Proof. exact (endianness_irrelevant d c os). Qed.
Print Assumptions C29_endianness_irrelevant.

Example C29_case : completes (program (Host true false) 0 whole) = true /\ existsb wide_direct whole = false.
Proof. vm_compute. repeat split. Qed.

(** C30.  Vector elements and table fields holding offsets: [C22_offset_vector_round_trip], [C19_fields_round_trip]; the root: [C26_finish_root]. *)
Theorem C30_offset_reaches h hr c os o later b xs r ys t :
  0 <= c -> forallb op_ok (os ++ [OpPush (POffset o)] ++ later) = true -> no_reset later = true ->
  program h c (os ++ [OpPush (POffset o)] ++ later) = Val (b, xs ++ [ONum r] ++ ys) -> length xs = length os ->
  blen (unfinished_data b) < 2 ^ 32 ->
  (forall b0 ys, program h c os = Val (b0, ys) -> o <= blen (unfinished_data b0)) ->
  let D := unfinished_data b in
  follow hr (FUOffset t) D (blen D - r) = follow hr t D (blen D - o).
Proof. exact (offset_reaches h hr c os o later b xs r ys t). Qed.
Print Assumptions C30_offset_reaches.

Example C30_case :
  let D := bytes_of (program (Host true false) 0 [OpCreateString hello; OpPush (PScalar TU8 1); OpPush (POffset 8); OpPush (PScalar TU64 1)]) in
  returned (program (Host true false) 0 [OpCreateString hello; OpPush (PScalar TU8 1); OpPush (POffset 8); OpPush (PScalar TU64 1)])
    = [ONum 8; ONum 9; ONum 16; ONum 24] /\
  follow (Host false true) (FUOffset FStr) D (24 - 16) = Val (VStr hello).
Proof. vm_compute. repeat split. Qed.

(** C31.  Debug builds refuse both kinds of oversized tables. *)
Theorem C31_debug_refuses_oversized h c before mid start obj xs ys b :
  debug h = true -> 0 <= c -> forallb op_ok (table_program before mid start []) = true ->
  closed before = true -> forallb in_table mid = true ->
  program h c (table_program before mid start []) = Val (b, xs ++ [ONum start] ++ ys ++ [ONum obj]) ->
  length xs = length before -> length ys = length mid -> blen (unfinished_data b) < 2 ^ 32 ->
  obj - start < 2 ^ 16 /\ forall slot x, In (slot, x) (added mid) -> slot + 2 < 2 ^ 16.
Proof. exact (debug_refuses_oversized h c before mid start obj xs ys b). Qed.
Print Assumptions C31_debug_refuses_oversized.

(** What every build, in particular a release build, makes of any table: a field is looked up at its distance modulo 2^16 ([At D r x]: the bytes [x] stand in [D] from [r] before its end; [fbytes]: the bytes of a field). *)
Theorem C31_truncated_fields h hr c before mid start later obj xs ys zs b :
  0 <= c -> calls_ok (table_program before mid start later) = true ->
  closed before = true -> forallb in_table mid = true -> no_reset later = true ->
  program h c (table_program before mid start later) = Val (b, xs ++ [ONum start] ++ ys ++ [ONum obj] ++ zs) ->
  length xs = length before -> length ys = length mid ->
  blen (unfinished_data b) < 2 ^ 31 -> NoDup (map fst (added mid)) ->
  let D := unfinished_data b in
  forall slot x, In (slot, x) (added mid) -> exists off,
     At D off (fbytes x off) /\ start + push_size x <= off <= obj - 4 /\
     forall t d, table_get hr D (blen D - obj) slot t d =
       if (obj - off) mod 2 ^ 16 =? 0 then Val d
       else let* v := follow hr t D (blen D - obj + (obj - off) mod 2 ^ 16) in Val (Some v).
Proof. exact (truncated_fields h hr c before mid start later obj xs ys zs b). Qed.
Print Assumptions C31_truncated_fields.

(** A release build writes a wrong table for 8193 distinct eight-byte fields ... *)
Theorem C31_release_wide_table_refuted e c : 0 <= c <= 2 ^ 31 -> exists mid b ys obj,
  calls_ok (table_program [] mid 0 []) = true /\ nested_well None (table_program [] mid 0 []) = true /\
  NoDup (map fst (added mid)) /\ In (4, PScalar TU64 1) (added mid) /\
  program (Host false e) c (table_program [] mid 0 []) = Val (b, [ONum 0] ++ ys ++ [ONum obj]) /\ length ys = length mid /\
  forall hr d, table_get hr (unfinished_data b) (blen (unfinished_data b) - obj) 4 (FScalar TU64) d = Val (Some (VScalar 0)).
Proof. exact (wide_table_corrupt e c). Qed.
Print Assumptions C31_release_wide_table_refuted.

(** ... and for a field in the last slot, which is lost. *)
Theorem C31_release_last_slot_refuted e : exists b obj,
  program (Host false e) 0 last_slot = Val (b, [ONum 0; ONone; ONum obj]) /\
  forall hr, table_get hr (unfinished_data b) (blen (unfinished_data b) - obj) 65534 (FScalar TU8) None = Val None.
Proof. exact (last_slot_corrupt e). Qed.
Print Assumptions C31_release_last_slot_refuted.

Example C31_case : returned (program (Host true false) 0 (table_program [] table_fields 0 [])) = [] /\
  returned (program (Host true false) 0 (table_program before_table table_fields 20 [])) =
    [ONum 1; ONum 12; ONum 20] ++ [ONum 20] ++ [ONone; ONone; ONone] ++ [ONum 32].
Proof. vm_compute. repeat split. Qed.

(** C32. *)
Theorem C32_slots_bijective h :
  (forall i, 0 <= i <= 32765 -> exists s, field_index_to_field_offset h i = Val s /\ 4 <= s <= 65534 /\
     field_offset_to_field_index h s = Val i) /\
  (forall i j s, 0 <= i <= 32765 -> 0 <= j <= 32765 ->
     field_index_to_field_offset h i = Val s -> field_index_to_field_offset h j = Val s -> i = j) /\
  (forall s, 4 <= s < 2 ^ 16 -> s mod 2 = 0 -> exists i, 0 <= i <= 32765 /\
     field_offset_to_field_index h s = Val i /\ field_index_to_field_offset h i = Val s).
Proof. exact (slots_bijective h). Qed.
Print Assumptions C32_slots_bijective.

(** Beyond index 32765 a debug build panics and a release build wraps around, index 32766 onto the vtable header. *)
Theorem C32_slots_overflow_refuted h i : 32766 <= i < 2 ^ 16 ->
  field_index_to_field_offset h i = if debug h then Panic else Val ((4 + 2 * i) mod 2 ^ 16).
Proof. exact (slots_overflow h i). Qed.
Print Assumptions C32_slots_overflow_refuted.

Example C32_case : field_index_to_field_offset (Host true false) 32765 = Val 65534 /\
  field_index_to_field_offset (Host false false) 32766 = Val 0.
Proof. vm_compute. repeat split. Qed.

(** C56.  65537 bytes is the largest vtable; it is written before an equal one
    is looked for, and given back then.  Resets keep the buffer, so with them
    the bound is on the largest content so far. *)
Theorem C56_buffer_bounded h c os b xs : 0 <= c -> forallb op_ok os = true -> program h c os = Val (b, xs) ->
  blen (owned_buf b) = c \/ exists os1 os2 b1 xs1, os = os1 ++ os2 /\ program h c os1 = Val (b1, xs1) /\
    blen (owned_buf b) <= 2 * (blen (unfinished_data b1) + 65537).
Proof. exact (buffer_bounded h c os b xs). Qed.
Print Assumptions C56_buffer_bounded.

Theorem C56_buffer_bounded_no_reset h c os b xs :
  0 <= c -> forallb op_ok os = true -> no_reset os = true -> program h c os = Val (b, xs) ->
  blen (owned_buf b) <= Z.max c (2 * (blen (unfinished_data b) + 65537)).
Proof. exact (buffer_bounded_no_reset h c os b xs). Qed.
Print Assumptions C56_buffer_bounded_no_reset.

Theorem C56_buffer_doubles h c os b xs : 0 <= c -> forallb op_ok os = true -> program h c os = Val (b, xs) ->
  exists k, 0 <= k /\ (blen (owned_buf b) = c * 2 ^ k \/ c = 0 /\ blen (owned_buf b) = 2 ^ k).
Proof. exact (buffer_doubles h c os b xs). Qed.
Print Assumptions C56_buffer_doubles.

Definition sizes_of (x : outcome (builder * list obs)) : Z * Z :=
  match x with Val (b, _) => (blen (owned_buf b), blen (unfinished_data b)) | _ => (0, 0) end.
Example C56_case : sizes_of (program (Host true false) 0 whole) = (64, 56) /\
  sizes_of (program (Host true false) 3 (table_program (OpPush (PScalar TU64 1) :: before_table) table_fields 28 [])) = (96, 50) /\
  sizes_of (program (Host true false) 0 (whole ++ [OpReset; OpPush (PScalar TU8 1)])) = (64, 1).
Proof. vm_compute. repeat split. Qed.

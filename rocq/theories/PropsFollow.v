(** Property C66: every read returns exactly what stands in the buffer.  Statements only.
    Vocabulary: SpecFollow.v ([stands], [fails], [field_stands], [field_fails]) and
    SpecWire.v.  The buffer is any list of bytes, the location any machine word. *)
From Coq Require Import ZArith List Bool Lia Strings.Byte.
From Verif Require Import Base Scalar Utf8 Reader Client SpecWire SpecReader SpecFollow ReaderProofs7 ReaderProofs8.
Import ListNotations.
Local Open Scope Z_scope.

(** Release builds, every type. *)
Theorem C66_follow_exact h t buf loc :
  debug h = false -> blen buf < 2 ^ 63 -> slices_ok h t = true -> usize_ok loc ->
  (forall v, follow h t buf loc = Val v <-> stands buf t loc v) /\
  (forall e, follow h t buf loc = Err e <-> fails buf t loc e) /\
  follow h t buf loc <> Panic.
Proof. exact (follow_exact h t buf loc). Qed.
Print Assumptions C66_follow_exact.

(** Debug builds return the same, or panic. *)
Theorem C66_follow_debug h t buf loc :
  follow h t buf loc = Panic \/ follow h t buf loc = follow (Host false (big_endian h)) t buf loc.
Proof. exact (follow_agrees h t buf loc). Qed.
Print Assumptions C66_follow_debug.

(** Exactly when: a position overflows. *)
Theorem C66_follow_debug_exact h t buf loc :
  debug h = true -> blen buf < 2 ^ 63 -> slices_ok h t = true -> usize_ok loc ->
  (forall v, follow h t buf loc = Val v <-> stands buf t loc v /\ ~ overflows buf t loc) /\
  (forall e, follow h t buf loc = Err e <-> fails buf t loc e /\ ~ overflows buf t loc) /\
  (follow h t buf loc = Panic <-> overflows buf t loc).
Proof. exact (follow_debug_exact h t buf loc). Qed.
Print Assumptions C66_follow_debug_exact.

(** Fields, with any bytes as the vtable. *)
Theorem C66_field_exact h buf tab slot t d :
  debug h = false -> blen buf < 2 ^ 63 -> slices_ok h t = true -> usize_ok tab -> 0 <= slot < 2 ^ 16 ->
  (forall r, table_get h buf tab slot t d = Val r <-> field_stands buf tab slot t d r) /\
  (forall e, table_get h buf tab slot t d = Err e <-> field_fails buf tab slot t e) /\
  table_get h buf tab slot t d <> Panic.
Proof. exact (table_get_exact h buf tab slot t d). Qed.
Print Assumptions C66_field_exact.

Theorem C66_field_debug h buf tab slot t d :
  table_get h buf tab slot t d = Panic \/
  table_get h buf tab slot t d = table_get (Host false (big_endian h)) buf tab slot t d.
Proof. exact (table_get_agrees h buf tab slot t d). Qed.
Print Assumptions C66_field_debug.

Theorem C66_field_debug_exact h buf tab slot t d :
  debug h = true -> blen buf < 2 ^ 63 -> slices_ok h t = true -> usize_ok tab -> 0 <= slot < 2 ^ 16 ->
  (forall r, table_get h buf tab slot t d = Val r <-> field_stands buf tab slot t d r /\ ~ field_overflows buf tab slot t) /\
  (forall e, table_get h buf tab slot t d = Err e <-> field_fails buf tab slot t e /\ ~ field_overflows buf tab slot t) /\
  (table_get h buf tab slot t d = Panic <-> field_overflows buf tab slot t).
Proof. exact (field_debug_exact h buf tab slot t d). Qed.
Print Assumptions C66_field_debug_exact.

(** Elements: a release build reads the cell of the index, wherever the vector ends. *)
Theorem C66_element_exact h t buf v i :
  debug h = false -> blen buf < 2 ^ 63 -> slices_ok h t = true ->
  let loc := (v + 4 + size_of t * i) mod 2 ^ 64 in
  (forall x, vec_get h t buf v i = Val x <-> stands buf t loc x) /\
  (forall e, vec_get h t buf v i = Err e <-> fails buf t loc e) /\
  vec_get h t buf v i <> Panic.
Proof. exact (vec_get_exact h t buf v i). Qed.
Print Assumptions C66_element_exact.

(** A debug build reads the length first. *)
Theorem C66_element_debug_exact h t buf v i :
  debug h = true -> blen buf < 2 ^ 63 -> slices_ok h t = true -> usize_ok v -> usize_ok i ->
  let loc := v + 4 + size_of t * i in
  (forall x, vec_get h t buf v i = Val x <->
     exists n, le_at buf v 4 n /\ i < n /\ size_of t <> 0 /\ stands buf t loc x /\ ~ overflows buf t loc) /\
  (forall e, vec_get h t buf v i = Err e <->
     (e = OutOfBounds /\ blen buf < v + 4 < 2 ^ 64) \/
     exists n, le_at buf v 4 n /\ i < n /\ size_of t <> 0 /\ fails buf t loc e /\ ~ overflows buf t loc) /\
  (vec_get h t buf v i = Panic <->
     2 ^ 64 <= v + 4 \/ exists n, le_at buf v 4 n /\ (n <= i \/ size_of t = 0 \/ overflows buf t loc)).
Proof. exact (element_debug_exact h t buf v i). Qed.
Print Assumptions C66_element_debug_exact.

(** The calls on vtables. *)
Theorem C66_vtable_length_exact h buf vt :
  debug h = false -> blen buf < 2 ^ 63 -> usize_ok vt ->
  (forall n, vt_num_bytes h buf vt = Val n <-> le_at buf vt 2 n) /\
  (forall e, vt_num_bytes h buf vt = Err e <-> e = OutOfBounds /\ blen buf < vt + 2) /\
  vt_num_bytes h buf vt <> Panic.
Proof. exact (vt_num_bytes_exact h buf vt). Qed.
Print Assumptions C66_vtable_length_exact.

Theorem C66_object_length_exact h buf vt :
  debug h = false -> blen buf < 2 ^ 63 -> usize_ok vt ->
  let loc := (vt + 2) mod 2 ^ 64 in
  (forall n, vt_object_inline_num_bytes h buf vt = Val n <-> le_at buf loc 2 n) /\
  (forall e, vt_object_inline_num_bytes h buf vt = Err e <-> e = OutOfBounds /\ blen buf < loc + 2) /\
  vt_object_inline_num_bytes h buf vt <> Panic.
Proof. exact (vt_object_exact h buf vt). Qed.
Print Assumptions C66_object_length_exact.

Theorem C66_vtable_get_exact h buf vt slot :
  debug h = false -> blen buf < 2 ^ 63 -> usize_ok vt -> 0 <= slot < 2 ^ 16 ->
  (forall r, vt_get h buf vt slot = Val r <->
     exists n, le_at buf vt 2 n /\
       ((n <= slot /\ r = None) \/ (slot < n /\ exists off, le_at buf (vt + slot) 2 off /\ r = Some off))) /\
  (forall e, vt_get h buf vt slot = Err e <->
     e = OutOfBounds /\ (blen buf < vt + 2 \/ exists n, le_at buf vt 2 n /\ slot < n /\ blen buf < vt + slot + 2)) /\
  vt_get h buf vt slot <> Panic.
Proof. exact (vt_get_exact h buf vt slot). Qed.
Print Assumptions C66_vtable_get_exact.

(** [get_field] takes an index; one past the last field, and anything with a vtable
    shorter than its header, reads the two bytes after the vtable. *)
Theorem C66_vtable_get_field_exact h buf vt idx :
  debug h = false -> blen buf < 2 ^ 63 -> usize_ok vt -> 0 <= idx < 2 ^ 16 ->
  (forall r, vt_get_field h buf vt idx = Val r <->
     exists n, le_at buf vt 2 n /\
       ((4 <= n /\ n / 2 - 2 < idx /\ r = None) \/
        ((n < 4 \/ idx <= n / 2 - 2) /\ exists off, le_at buf (vt + 4 + 2 * idx) 2 off /\ r = Some off))) /\
  vt_get_field h buf vt idx <> Panic.
Proof. exact (vt_get_field_exact h buf vt idx). Qed.
Print Assumptions C66_vtable_get_field_exact.

Theorem C66_vtable_bytes_exact h buf vt :
  debug h = false -> blen buf < 2 ^ 63 -> usize_ok vt ->
  (forall bs, vt_as_bytes h buf vt = Val bs <-> le_at buf vt 2 (blen bs) /\ bytes_at buf vt bs) /\
  (forall e, vt_as_bytes h buf vt = Err e <->
     e = OutOfBounds /\ (blen buf < vt + 2 \/ exists n, le_at buf vt 2 n /\ blen buf < vt + n)) /\
  vt_as_bytes h buf vt <> Panic.
Proof. exact (vt_as_bytes_exact h buf vt). Qed.
Print Assumptions C66_vtable_bytes_exact.

(** File identifiers, in every build. *)
Theorem C66_identifier_exact h data ident (sized : bool) :
  blen ident = 4 -> blen data < 2 ^ 63 ->
  let loc := if sized then 8 else 4 in
  (buffer_has_identifier h data ident sized = Val true <-> bytes_at data loc ident) /\
  (buffer_has_identifier h data ident sized = Val false <-> loc + 4 <= blen data /\ ~ bytes_at data loc ident) /\
  (forall e, buffer_has_identifier h data ident sized = Err e <-> e = OutOfBounds /\ blen data < loc + 4) /\
  buffer_has_identifier h data ident sized <> Panic.
Proof. exact (has_identifier_exact h data ident sized). Qed.
Print Assumptions C66_identifier_exact.

(** A size prefix, an offset to a slice of two signed numbers after an identifier, an
    enum, and a negative offset from a table to a vtable after it. *)
Definition mixed : list byte :=
  map z2b [99;0;0;0; 8;0;0;0; 65;66;67;68; 2;0;0;0; 254;255; 7;0; 3;0; 248;255;255;255].
Example C66_case :
  follow (Host false false) (FSkipSizePrefix (FUOffset (FSlice TI16))) mixed 0 = Val (VSlice [-2; 7]) /\
  follow (Host false false) (FSkipSizePrefix (FSkipRootOffset FFileIdentifier)) mixed 0 = Val (VIdent (map z2b [65;66;67;68])) /\
  follow (Host false false) (FEnum TU16 [1; 3]) mixed 20 = Val (VEnum 3) /\
  follow (Host false false) (FEnum TU16 [1; 2]) mixed 20 = Err UnknownEnumVariant /\
  follow (Host false false) (FSOffset FVTable) mixed 22 = Val (VVTable 30) /\
  follow (Host false false) (FVOffset (FScalar TI16)) mixed 0 = Err OutOfBounds /\
  vec_get (Host false false) (FScalar TI16) mixed 12 2 = Val (VScalar 3) /\
  vec_get (Host true false) (FScalar TI16) mixed 12 2 = Panic /\
  buffer_has_identifier (Host true false) mixed (map z2b [65;66;67;68]) true = Val true.
Proof. vm_compute. repeat split; reflexivity. Qed.

(** C04 for every program: any types, locations, defaults and iterator calls, any buffer
    an allocation can hold.  A debug build panics exactly if the program comes to a call
    that [trips] (SpecFollow.v). *)
Theorem C04_debug_panics_exact h buf cs :
  debug h = true -> blen buf < 2 ^ 63 -> Forall rcall_ok cs ->
  (client h buf [] cs = Panic <->
   exists pre c post hs, cs = pre ++ c :: post /\ client h buf [] pre = Val hs /\ trips buf hs c).
Proof. exact (fun D B R => client_dbg h buf B cs D R [] (Forall_nil _)). Qed.
Print Assumptions C04_debug_panics_exact.

(** A table three bytes before the end of the address space; a vector of signed offsets
    whose second element leads past 2 GiB, walked from either end. *)
Definition signed_offsets : list byte := map z2b [2;0;0;0; 2;0;0;0; 0;0;0;128; 9;0].
Example C04_exact_case :
  client (Host true false) mixed [] [RFollow FTable (2 ^ 64 - 3)] = Val [VTable (2 ^ 64 - 3)] /\
  client (Host true false) mixed [] [RFollow FTable (2 ^ 64 - 3); RVTable 0] = Panic /\
  client (Host true false) signed_offsets [] [RFollow (FVector (FSOffset (FScalar TU16))) 0; RVecIter 0 [INext; INthBack 1]] =
    Val [VVector (FSOffset (FScalar TU16)) 0; VScalar 0] /\
  client (Host true false) signed_offsets [] [RFollow (FVector (FSOffset (FScalar TU16))) 0; RVecIter 0 [INext; INextBack]] = Panic /\
  client (Host true false) signed_offsets [] [RFollow (FVector FFileIdentifier) 0; RVecIter 0 [INext]] = Panic.
Proof. vm_compute. repeat split; reflexivity. Qed.

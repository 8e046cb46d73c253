(** What stands in a buffer at a location, for every type that can be followed, and why
    nothing may stand there.  Only [nth_error] and integer division are used, through
    SpecWire.v. *)
From Coq Require Import ZArith List Bool Strings.Byte.
From Verif Require Import Base Scalar Reader Client SpecWire SpecReader.
Import ListNotations.
Local Open Scope Z_scope.

(** The number [x] stands at [loc]; any byte counts as a number of type [bool]. *)
Definition cell (buf : list byte) (t : sty) (loc x : Z) : Prop :=
  le_at buf loc (snat t) (x mod 2 ^ (8 * ssize t)) /\
  if signed t then - 2 ^ (8 * ssize t - 1) <= x < 2 ^ (8 * ssize t - 1) else 0 <= x < 2 ^ (8 * ssize t).

(** Where a signed offset leads: the difference is a number of 32 bits with a sign, and
    locations have 64 bits without. *)
Definition signed_target (loc s : Z) : Z := ((loc - s + 2 ^ 31) mod 2 ^ 32 - 2 ^ 31) mod 2 ^ 64.

Section Stands.
Context (buf : list byte).

Fixpoint stands (t : fty) (loc : Z) (v : fval) : Prop :=
  match t with
  | FScalar TBool => exists b, le_at buf loc 1 b /\ v = VScalar (if b =? 0 then 0 else 1)
  | FScalar s => exists x, cell buf s loc x /\ v = VScalar x
  | FStr => exists s, string_at buf loc s /\ is_utf8 s /\ v = VStr s
  | FSlice s =>
      exists xs, le_at buf loc 4 (Z.of_nat (length xs)) /\
        (forall i x, nth_error xs i = Some x -> cell buf s (loc + 4 + ssize s * Z.of_nat i) x) /\
        v = VSlice xs
  | FVector e => v = VVector e loc
  | FTable => v = VTable loc
  | FVTable => v = VVTable loc
  | FUOffset t => exists off, le_at buf loc 4 off /\ stands t (loc + off) v
  | FVOffset t => exists off, le_at buf loc 2 off /\ stands t (loc + off) v
  | FSOffset t => exists s, soffset_at buf loc s /\ stands t (signed_target loc s) v
  | FSkipSizePrefix t | FSkipRootOffset t | FSkipFileIdentifier t => stands t ((loc + 4) mod 2 ^ 64) v
  | FFileIdentifier => exists s, blen s = 4 /\ bytes_at buf loc s /\ v = VIdent s
  | FEnum b vs => exists x, cell buf b loc x /\ In x vs /\ v = VEnum x
  end.

(** Nothing readable stands there: bytes are missing, a string is not terminated or not
    UTF-8, a number is not that of a variant. *)
Fixpoint fails (t : fty) (loc : Z) (e : error) : Prop :=
  match t with
  | FScalar s => e = OutOfBounds /\ blen buf < loc + ssize s
  | FStr =>
      (e = OutOfBounds /\ (blen buf < loc + 4 \/ exists n, le_at buf loc 4 n /\ blen buf <= loc + 4 + n)) \/
      (exists n z, le_at buf loc 4 n /\ nth_error buf (Z.to_nat (loc + 4 + n)) = Some z /\
         ((e = NonNullTerminatedString /\ z <> x00) \/
          (e = NonUtf8String /\ z = x00 /\ exists s, blen s = n /\ bytes_at buf (loc + 4) s /\ ~ is_utf8 s)))
  | FSlice s =>
      e = OutOfBounds /\ (blen buf < loc + 4 \/ exists n, le_at buf loc 4 n /\ blen buf < loc + 4 + ssize s * n)
  | FVector _ | FTable | FVTable => False
  | FUOffset t => (e = OutOfBounds /\ blen buf < loc + 4) \/ exists off, le_at buf loc 4 off /\ fails t (loc + off) e
  | FVOffset t => (e = OutOfBounds /\ blen buf < loc + 2) \/ exists off, le_at buf loc 2 off /\ fails t (loc + off) e
  | FSOffset t => (e = OutOfBounds /\ blen buf < loc + 4) \/ exists s, soffset_at buf loc s /\ fails t (signed_target loc s) e
  | FSkipSizePrefix t | FSkipRootOffset t | FSkipFileIdentifier t => fails t ((loc + 4) mod 2 ^ 64) e
  | FFileIdentifier => e = OutOfBounds /\ blen buf < loc + 4
  | FEnum b vs => (e = OutOfBounds /\ blen buf < loc + ssize b) \/ (e = UnknownEnumVariant /\ exists x, cell buf b loc x /\ ~ In x vs)
  end.
End Stands.

(** Slices of numbers of several bytes exist on little-endian hosts only (vector.rs:176). *)
Fixpoint slices_ok (h : host) (t : fty) : bool :=
  match t with
  | FSlice s => negb (big_endian h) || (ssize s =? 1)
  | FUOffset t | FVOffset t | FSOffset t | FSkipSizePrefix t | FSkipRootOffset t | FSkipFileIdentifier t => slices_ok h t
  | _ => true
  end.

(** The field at byte [slot] of the vtable of the table at [tab]: [d] when the vtable is
    too short for it or holds 0 there, what stands at the offset it holds otherwise. *)
Definition field_stands (buf : list byte) (tab slot : Z) (t : fty) (d r : option fval) : Prop :=
  exists s n, soffset_at buf tab s /\ le_at buf (signed_target tab s) 2 n /\
    ((n <= slot /\ r = d) \/
     (slot < n /\ exists off, le_at buf (signed_target tab s + slot) 2 off /\
        ((off = 0 /\ r = d) \/ (off <> 0 /\ exists v, stands buf t (tab + off) v /\ r = Some v)))).

Definition field_fails (buf : list byte) (tab slot : Z) (t : fty) (e : error) : Prop :=
  (e = OutOfBounds /\ blen buf < tab + 4) \/
  exists s, soffset_at buf tab s /\
    ((e = OutOfBounds /\ blen buf < signed_target tab s + 2) \/
     exists n, le_at buf (signed_target tab s) 2 n /\ slot < n /\
       ((e = OutOfBounds /\ blen buf < signed_target tab s + slot + 2) \/
        exists off, le_at buf (signed_target tab s + slot) 2 off /\ off <> 0 /\ fails buf t (tab + off) e)).

(** ** Where a debug build gives up
    The position of an offset, of a number or of a length must end before 2^64; the
    difference that a signed offset leads to must be a number of 32 bits with a sign. *)
Definition difference_fits (loc s : Z) : Prop :=
  - 2 ^ 31 <= (loc + 2 ^ 31) mod 2 ^ 32 - 2 ^ 31 - s < 2 ^ 31.

Section Overflows.
Context (buf : list byte).

Fixpoint overflows (t : fty) (loc : Z) : Prop :=
  match t with
  | FScalar s => 2 ^ 64 <= loc + ssize s
  | FEnum b _ => 2 ^ 64 <= loc + ssize b
  | FStr | FSlice _ | FFileIdentifier => 2 ^ 64 <= loc + 4
  | FVector _ | FTable | FVTable => False
  | FUOffset t => 2 ^ 64 <= loc + 4 \/ exists off, le_at buf loc 4 off /\ overflows t (loc + off)
  | FVOffset t => 2 ^ 64 <= loc + 2 \/ exists off, le_at buf loc 2 off /\ overflows t (loc + off)
  | FSOffset t =>
      2 ^ 64 <= loc + 4 \/
      exists s, soffset_at buf loc s /\ (~ difference_fits loc s \/ overflows t (signed_target loc s))
  | FSkipSizePrefix t | FSkipRootOffset t | FSkipFileIdentifier t => 2 ^ 64 <= loc + 4 \/ overflows t (loc + 4)
  end.

Definition field_overflows (tab slot : Z) (t : fty) : Prop :=
  overflows (FSOffset FVTable) tab \/
  exists s, soffset_at buf tab s /\
    (2 ^ 64 <= signed_target tab s + 2 \/
     exists n off, le_at buf (signed_target tab s) 2 n /\ slot < n /\
       le_at buf (signed_target tab s + slot) 2 off /\ off <> 0 /\ overflows t (tab + off)).

(** The calls that a debug build answers with a panic: beside the overflows, vtables
    without a header, indices past the end, elements without a size, and skips whose
    length in bytes is no machine word. *)
Definition trips (hs : list fval) (c : rcall) : Prop :=
  match c with
  | RFollow t loc => overflows t loc
  | RRoot t => overflows (FUOffset t) 0
  | RSizedRoot t => overflows (FUOffset t) 4
  | RHasIdent _ _ => False
  | RGet i slot t _ => exists l, nth_error hs i = Some (VTable l) /\ field_overflows l slot t
  | RVTable i => exists l, nth_error hs i = Some (VTable l) /\ overflows (FSOffset FVTable) l
  | RVtNumBytes i | RVtGet i _ | RVtBytes i => exists l, nth_error hs i = Some (VVTable l) /\ 2 ^ 64 <= l + 2
  | RVtObject i => exists l, nth_error hs i = Some (VVTable l) /\ 2 ^ 64 <= l + 4
  | RVtNumFields i | RVtGetField i _ =>
      exists l, nth_error hs i = Some (VVTable l) /\ (2 ^ 64 <= l + 2 \/ exists n, le_at buf l 2 n /\ n < 4)
  | RVecLen i | RVecIsEmpty i | RVecSlice i _ => exists t l, nth_error hs i = Some (VVector t l) /\ 2 ^ 64 <= l + 4
  | RVecGet i idx =>
      exists t l, nth_error hs i = Some (VVector t l) /\
        (2 ^ 64 <= l + 4 \/
         exists n, le_at buf l 4 n /\ (n <= idx \/ size_of t = 0 \/ overflows t (l + 4 + size_of t * idx)))
  | RVecIter i cs =>
      exists t l, nth_error hs i = Some (VVector t l) /\
        (2 ^ 64 <= l + 4 \/ (size_of t = 0 /\ cs <> []) \/
         (exists n, In (INth n) cs /\ 2 ^ 64 <= size_of t * n) \/
         (exists n k, le_at buf l 4 n /\ In (Some k) (fst (dq_calls (map to_dq cs) (zseq 0 (Z.to_nat n)))) /\
            overflows t (l + 4 + size_of t * k)))
  end.
End Overflows.

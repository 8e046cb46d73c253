(** Vocabulary for statements about the reader. *)
From Coq Require Import ZArith List Bool Strings.Byte.
From Verif Require Import Base Scalar Reader Client SpecWire.
Import ListNotations.
Local Open Scope Z_scope.

(** The signed vtable offset of a table. *)
Definition soffset_at (buf : list byte) (tab s : Z) : Prop :=
  - 2 ^ 31 <= s < 2 ^ 31 /\ le_at buf tab 4 (s mod 2 ^ 32).

(** Types whose [follow] contains no signed offset and no skip marker: all the
    field and element types of generated code. *)
Fixpoint plain (t : fty) : bool :=
  match t with
  | FUOffset t | FVOffset t => plain t
  | FSOffset _ | FSkipSizePrefix _ | FSkipRootOffset _ | FSkipFileIdentifier _ => false
  | _ => true
  end.

(** Two buffers hold the same vtable at [vt]: its length in the first two bytes,
    and as many bytes. *)
Definition same_vtable (buf1 buf2 : list byte) (vt : Z) : Prop :=
  exists bs, le_at buf1 vt 2 (blen bs) /\ bytes_at buf1 vt bs /\ le_at buf2 vt 2 (blen bs) /\ bytes_at buf2 vt bs.

Definition to_dq (c : itcall) : dqcall :=
  match c with INext => DNext | INextBack => DNextBack | INth n => DNth n | INthBack n => DNthBack n end.

(** The elements of the vector at [v], as the results of [get]. *)
Definition elements (h : host) (t : fty) (buf : list byte) (v n : Z) : list (outcome fval) :=
  map (fun i => vec_get h t buf v i) (zseq 0 (Z.to_nat n)).

(** Skips that do not overflow in a debug build. *)
Definition itcall_fits (h : host) (t : fty) (c : itcall) : Prop :=
  match c with
  | INth x => usize_ok x /\ (debug h = true -> size_of t * x < 2 ^ 64)
  | INthBack x => usize_ok x
  | _ => True
  end.

(** The types generated code uses: no signed offsets, no skip markers, no
    zero-sized elements. *)
Fixpoint wire_type (t : fty) : bool :=
  match t with
  | FUOffset t | FVOffset t | FVector t => wire_type t
  | FSOffset _ | FSkipSizePrefix _ | FSkipRootOffset _ | FSkipFileIdentifier _
  | FFileIdentifier => false
  | _ => true
  end.

Definition handle_ok (v : fval) : Prop :=
  match v with
  | VTable l => 0 <= l < 2 ^ 40
  | VVector t l => 0 <= l < 2 ^ 40 /\ wire_type t = true
  | VVTable l => usize_ok l
  | _ => True
  end.

Definition call_ok (c : rcall) : Prop :=
  rcall_ok c /\
  match c with
  | RFollow t loc => wire_type t = true /\ loc < 2 ^ 32
  | RRoot t | RSizedRoot t => wire_type t = true
  | RGet _ _ t d => wire_type t = true /\ (forall v, d = Some v -> handle_ok v)
  | _ => True
  end.

(** The calls that a debug build answers with a panic, by what is in the
    buffer: vtable locations that overflow, vtables with no header, indices
    past the end, skips that overflow. *)
Definition hazard (buf : list byte) (hs : list fval) (c : rcall) : Prop :=
  match c with
  | RGet i _ _ _ =>
      exists l s, nth_error hs i = Some (VTable l) /\ soffset_at buf l s /\
        (l - s = -1 \/ l - s = -2 \/ 2 ^ 31 <= l - s)
  | RVTable i =>
      exists l s, nth_error hs i = Some (VTable l) /\ soffset_at buf l s /\ 2 ^ 31 <= l - s
  | RVtNumBytes i | RVtGet i _ | RVtBytes i =>
      exists l, nth_error hs i = Some (VVTable l) /\ 2 ^ 64 - 2 <= l
  | RVtObject i => exists l, nth_error hs i = Some (VVTable l) /\ 2 ^ 64 - 4 <= l
  | RVtNumFields i | RVtGetField i _ =>
      exists l, nth_error hs i = Some (VVTable l) /\
        (2 ^ 64 - 2 <= l \/ exists n, le_at buf l 2 n /\ n < 4)
  | RVecGet i idx =>
      exists t l n, nth_error hs i = Some (VVector t l) /\ le_at buf l 4 n /\ n <= idx
  | RVecIter i cs =>
      exists t l n, nth_error hs i = Some (VVector t l) /\ In (INth n) cs /\ 2 ^ 64 <= size_of t * n
  | _ => False
  end.


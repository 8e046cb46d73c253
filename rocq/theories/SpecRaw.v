(** Vocabulary for the memory accesses of unsafe code. *)
From Coq Require Import ZArith List Bool Strings.Byte.
From Verif Require Import Base Scalar Reader Client Raw Builder Ops.
Import ListNotations.
Local Open Scope Z_scope.

(** The access stays in its allocation, and reads nothing unwritten. *)
Definition in_bounds (a : access) : Prop :=
  match a with
  | Access _ t at_ n room => 0 <= at_ /\ 0 <= n /\ at_ + n * ssize t <= room
  | Unwritten _ => False
  end.
(** Even inside a part of it, from byte [lo] up to byte [hi]. *)
Definition in_part (lo hi : Z) (a : access) : Prop :=
  match a with
  | Access _ t at_ n _ => lo <= at_ /\ 0 <= n /\ at_ + n * ssize t <= hi
  | Unwritten _ => False
  end.
(** The alignment of the types: their size, on the usual 64-bit targets. *)
Definition aligned_at (base : Z) (a : access) : Prop :=
  match a with
  | Access _ t at_ _ _ => (base + at_) mod ssize t = 0
  | Unwritten _ => True
  end.
(** The accesses of type [bool] find 0 or 1 there. *)
Definition bools_valid (m : list byte) (a : access) : Prop :=
  match a with
  | Access Load TBool at_ n _ =>
      forall i, 0 <= i < n -> nth_error m (Z.to_nat (at_ + i)) = Some x00 \/ nth_error m (Z.to_nat (at_ + i)) = Some x01
  | _ => True
  end.

(** A slice: 0 <= from <= upto, inside its allocation. *)
Definition is_slice (r : region) : Prop := 0 <= from r <= upto r /\ upto r <= blen (mem r).

(** What Rust's types guarantee about the arguments of a reader call. *)
Definition typed (c : rcall) : Prop :=
  match c with
  | RFollow _ loc => usize_ok loc
  | RGet _ _ _ d => forall v, d = Some v -> fval_ok v
  | _ => True
  end.

(** Aligned wherever allocations start at multiples of 8 (the accesses of a
    run may be to several allocations). *)
Definition aligned (a : access) : Prop := forall base, base mod 8 = 0 -> aligned_at base a.

(** Capacities a builder may start with. *)
Definition good_capacity (c : Z) : Prop := c = 0 \/ c = 1 \/ c = 2 \/ c = 4 \/ c mod 8 = 0.
(** Calls whose slots are even, as those of tables are, and that look at
    nothing they are told to look at. *)
Definition plain_call (o : op) : Prop :=
  op_ok o = true /\
  match o with
  | OpPushSlot s _ _ | OpPushSlotAlways s _ => s mod 2 = 0
  | OpRequired _ _ => False
  | _ => True
  end.

(** Types and calls that make no slice of [bool]. *)
Fixpoint no_bools (t : fty) : Prop :=
  match t with
  | FSlice s | FEnum s _ => s <> TBool
  | FVector t | FUOffset t | FVOffset t | FSOffset t
  | FSkipSizePrefix t | FSkipRootOffset t | FSkipFileIdentifier t => no_bools t
  | _ => True
  end.
Definition no_bool_value (v : fval) : Prop := match v with VVector t _ => no_bools t | _ => True end.
Definition no_bool_slice (c : rcall) : Prop :=
  match c with
  | RFollow t _ | RRoot t | RSizedRoot t => no_bools t
  | RGet _ _ t d => no_bools t /\ forall v, d = Some v -> no_bool_value v
  | RVecSlice _ t => t <> TBool
  | _ => True
  end.

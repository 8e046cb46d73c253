(** When calls of the builder must not be made: what a caller knows from its own calls and
    from the lengths of the data, and the calls that panic. *)
From Coq Require Import ZArith List Bool Strings.Byte.
From Verif Require Import Base Scalar Reader Builder Ops SpecWire SpecReader SpecBuilder.
Import ListNotations.
Local Open Scope Z_scope.

(** What the calls so far amount to: is an object open, is the buffer finished, the fields
    not yet in a table (how many bytes were written after each, and its slot), and the largest
    alignment since the last reset, 0 if nothing was aligned. *)
Record usage := Usage {
  open : bool;
  done : bool;
  pending : list (Z * Z);
  widest : Z
}.
Definition unused : usage := Usage false false [] 0.

(** Calls that put something into the buffer or align it. *)
Definition writes (o : op) : bool :=
  match o with
  | OpReset | OpNumVtables | OpStartTable | OpUnfinishedData | OpFinishedData | OpRequired _ _ => false
  | OpPushSlot _ x d => negb (pval_eq x d)
  | _ => true
  end.

(** After a call, with [used] bytes in the buffer.  A reset does not forget pending fields:
    builder.rs:102-119 clears everything but [field_locs]. *)
Definition next_usage (used : Z) (u : usage) (o : op) : usage :=
  let w := if writes o then Z.max (widest u) (op_align o) else widest u in
  match o with
  | OpReset => Usage false false (pending u) 0
  | OpStartTable | OpStartVector _ _ => Usage true (done u) (pending u) w
  | OpEndTable _ => Usage false (done u) [] w
  | OpEndVector _ => Usage false (done u) (pending u) w
  | OpFinish _ _ _ => Usage (open u) true (pending u) w
  | _ => Usage (open u) (done u) (pending u ++ map (fun sx => (used, fst sx)) (added1 o)) w
  end.

(** The usage after some calls on a builder. *)
Fixpoint usage_after (h : host) (b : builder) (u : usage) (os : list op) : usage :=
  match os with
  | [] => u
  | o :: os =>
      match step h b o with
      | Val (b', _) => usage_after h b' (next_usage (blen (unfinished_data b')) u o) os
      | _ => u
      end
  end.

(** The next multiple of 4. *)
Definition up4 (n : Z) : Z := 4 * ((n + 3) / 4).

(** An offset to beyond the place where it would be stored. *)
Definition beyond_end (used : Z) (x : pval) : Prop :=
  match x with POffset o => up4 used + 4 < o | PScalar _ _ => False end.

(** A table with the field in [slot], as it stands in the data. *)
Definition field_present (D : list byte) (tab slot : Z) : Prop :=
  let t := blen D - tab in
  exists s n off, soffset_at D t s /\ le_at D (t - s) 2 n /\ slot < n /\ le_at D (t - s + slot) 2 off /\ off <> 0.

(** The calls that panic in every build. *)
Definition misuse_always (u : usage) (D : list byte) (o : op) : Prop :=
  match o with
  | OpFinish _ _ _ => widest u = 0
  | OpRequired tab slot => ~ field_present D tab slot
  | _ => False
  end.

(** The calls that panic in a debug build only. *)
Definition misuse_debug (u : usage) (D : list byte) (o : op) : Prop :=
  let used := blen D in
  match o with
  | OpPush x => beyond_end used x
  | OpPushSlot _ x d => open u = false \/ (pval_eq x d = false /\ beyond_end used x)
  | OpPushSlotAlways _ x => open u = false \/ beyond_end used x
  | OpStartTable | OpCreateString _ | OpCreateByteString _ | OpCreateVectorDirect _ _
  | OpCreateVectorOfStrings _ => open u = true
  | OpEndVector _ => open u = false
  | OpStartVector t n => open u = true \/ 2 ^ 64 <= used + n * natural t
  | OpEndTable start =>
      let tab := up4 used + 4 in
      open u = false \/ tab < start \/ 2 ^ 16 <= tab - start \/
      (exists off slot, In (off, slot) (pending u) /\ tab < off) \/
      (exists l1 l2 l3 off1 off2 slot, pending u = l1 ++ (off1, slot) :: l2 ++ (off2, slot) :: l3 /\
         (tab - off1) mod 2 ^ 16 <> 0)
  | OpCreateVector _ items =>
      exists i o, nth_error items i = Some (POffset o) /\ up4 used + 4 * (blen items - Z.of_nat i) < o
  | OpFinishedData => done u = false
  | OpFinish root ident sp =>
      done u = true \/ open u = true \/
      match ident with
      | Some i =>
          blen i <> 4 \/
          (exists pad, least_pad used (8 + if sp then 4 else 0) (widest u) pad /\ up4 (used + pad + 4) + 4 < root)
      | None => exists pad, least_pad used (4 + if sp then 4 else 0) (widest u) pad /\ up4 (used + pad) + 4 < root
      end
  | OpReset | OpNumVtables | OpUnfinishedData | OpRequired _ _ => False
  end.

Definition misuse (h : host) (u : usage) (D : list byte) (o : op) : Prop :=
  misuse_always u D o \/ (debug h = true /\ misuse_debug u D o).

(** No more bytes than this are written by one call. *)
Definition op_bytes (o : op) : Z :=
  match o with
  | OpReset | OpNumVtables | OpStartTable | OpUnfinishedData | OpFinishedData | OpRequired _ _ => 0
  | OpPush _ | OpPushSlot _ _ _ | OpPushSlotAlways _ _ | OpStartVector _ _ | OpEndVector _ => 16
  | OpEndTable _ => 2 ^ 16 + 16
  | OpCreateString s | OpCreateByteString s => blen s + 16
  | OpCreateVectorDirect t items => blen items * ssize t + 16
  | OpCreateVector t items => blen items * natural t + 16
  | OpCreateVectorOfStrings xs => fold_right (fun s n => blen s + 20 + n) 16 xs
  | OpFinish _ ident _ => match ident with Some i => blen i | None => 0 end + 32
  end.

(** No call is made that could take the buffer beyond 2 GiB. *)
Definition room_for_all (h : host) (c : Z) (os : list op) : Prop :=
  forall pre o post b xs, os = pre ++ o :: post -> program h c pre = Val (b, xs) ->
    blen (unfinished_data b) + op_bytes o <= 2 ^ 31.

(** Some call of the program must not be made where it is made. *)
Definition misused (h : host) (c : Z) (os : list op) : Prop :=
  exists pre o post b0 b xs, os = pre ++ o :: post /\ new_with_capacity c = Val b0 /\ program h c pre = Val (b, xs) /\
    misuse h (usage_after h b0 unused pre) (unfinished_data b) o.

(** Vocabulary for statements about builder programs: syntactic conditions on
    the calls, and where things stand in a buffer. *)
From Coq Require Import ZArith List Bool Strings.Byte.
From Verif Require Import Base Scalar Reader Builder Ops.
Import ListNotations.
Local Open Scope Z_scope.

Definition is_reset (o : op) : bool := match o with OpReset => true | _ => false end.
Definition is_finish (o : op) : bool := match o with OpFinish _ _ _ => true | _ => false end.
Definition no_reset (os : list op) : bool := forallb (fun o => negb (is_reset o)) os.

(** The slots of real tables: [field_index_to_field_offset] of some index, such
    that the vtable's length fits 16 bits. *)
Definition slot_fits (s : Z) : bool := (4 <=? s) && (s <=? 65532) && (s mod 2 =? 0).
Definition op_slots (o : op) : bool :=
  match o with
  | OpPushSlot s _ _ | OpPushSlotAlways s _ => slot_fits s
  | _ => true
  end.
(** Arguments as Rust's types and real tables have them. *)
Definition calls_ok (os : list op) : bool := forallb (fun o => op_ok o && op_slots o) os.

(** What the calls between [start_table] and [end_table] add to the table: a
    field equal to its default is left out. *)
Definition added1 (o : op) : list (Z * pval) :=
  match o with
  | OpPushSlotAlways s x => [(s, x)]
  | OpPushSlot s x d => if pval_eq x d then [] else [(s, x)]
  | _ => []
  end.
Definition added (os : list op) : list (Z * pval) := flat_map added1 os.

(** Calls that neither end the table nor reset the builder. *)
Definition in_table (o : op) : bool :=
  match o with OpReset | OpEndTable _ => false | _ => true end.

(** A program that builds a table somewhere: the calls [mid] add its fields. *)
Definition table_program (before mid : list op) (start : Z) (later : list op) : list op :=
  before ++ [OpStartTable] ++ mid ++ [OpEndTable start] ++ later.

(** No field was added after the last [end_table]. *)
Definition closed (os : list op) : bool :=
  negb (fold_left (fun p o => match o with
                              | OpPushSlot _ _ _ | OpPushSlotAlways _ _ => true
                              | OpEndTable _ => false
                              | _ => p
                              end) os false).

(** The natural alignment of a value: its size. *)
Definition natural (t : pty) : Z := match t with PTScalar t => ssize t | PTOffset => 4 end.

(** The largest alignment among the things a call writes. *)
Definition op_align (o : op) : Z :=
  match o with
  | OpPush x | OpPushSlotAlways _ x => natural (pty_of x)
  | OpPushSlot _ x d => if pval_eq x d then 1 else natural (pty_of x)
  | OpStartVector t _ | OpCreateVector t _ => Z.max (natural t) 4
  | OpCreateVectorDirect t _ => Z.max (ssize t) 4
  | OpEndTable _ | OpEndVector _ | OpCreateString _ | OpCreateByteString _
  | OpCreateVectorOfStrings _ | OpFinish _ _ _ => 4
  | _ => 1
  end.

(** The things a call that returned [x] has placed: distance from the end of
    the buffer, and natural alignment.  Fields are found through their table; the
    elements of a vector start 4 bytes into it, even if there are none. *)
Definition vector_cells (n size : Z) (count : nat) : list (Z * Z) :=
  (n, 4) :: (n - 4, size) :: map (fun i => (n - 4 - size * Z.of_nat i, size)) (seq 0 count).
Definition placed (o : op) (x : obs) : list (Z * Z) :=
  match x with
  | ONum n =>
      match o with
      | OpPush v => [(n, natural (pty_of v))]
      | OpEndTable _ | OpEndVector _ | OpCreateString _ | OpCreateByteString _ => [(n, 4)]
      | OpCreateVectorDirect t items => vector_cells n (ssize t) (length items)
      | OpCreateVector t items => vector_cells n (natural t) (length items)
      | OpCreateVectorOfStrings xs => vector_cells n 4 (length xs)
      | _ => []
      end
  | _ => []
  end.

(** [pad] is the least number of bytes that puts [len] more bytes behind [used]
    ones at a multiple of [al]. *)
Definition least_pad (used len al pad : Z) : Prop :=
  0 <= pad /\ (used + pad + len) mod al = 0 /\
  forall p, 0 <= p < pad -> (used + p + len) mod al <> 0.

(** What a call aligns: the number of bytes that must end on a multiple of
    [op_align]. *)
Definition aligned_len (o : op) : Z :=
  match o with
  | OpPush x | OpPushSlotAlways _ x | OpPushSlot _ x _ => natural (pty_of x)
  | OpEndTable _ => 4
  | OpEndVector _ => 4
  | OpStartVector t n => n * natural t
  | OpCreateString s | OpCreateByteString s => blen s + 1
  | OpCreateVectorDirect t items => blen items * ssize t
  | OpCreateVector t items => blen items * natural t
  | _ => 0
  end.

(** The number of bytes the object itself takes; the new vtable of a table
    comes on top. *)
Definition body_len (o : op) : Z :=
  match o with
  | OpStartVector _ _ => 0
  | OpCreateString s | OpCreateByteString s => 4 + blen s + 1
  | OpCreateVectorDirect t items => 4 + blen items * ssize t
  | OpCreateVector t items => 4 + blen items * natural t
  | _ => aligned_len o
  end.

(** Calls that write exactly one object. *)
Definition one_object (o : op) : bool :=
  match o with
  | OpPush _ | OpPushSlotAlways _ _ | OpEndTable _ | OpEndVector _ | OpStartVector _ _ | OpCreateString _
  | OpCreateByteString _ | OpCreateVectorDirect _ _ | OpCreateVector _ _ => true
  | OpPushSlot _ x d => negb (pval_eq x d)
  | _ => false
  end.
Definition is_end_table (o : op) : bool := match o with OpEndTable _ => true | _ => false end.

(** Calls after which all recorded vtables are still remembered. *)
Definition keeps_tables (os : list op) : bool :=
  forallb (fun o => negb (is_reset o) && negb (is_finish o)) os.

(** Calls that copy the memory of elements wider than a byte. *)
Definition wide_direct (o : op) : bool :=
  match o with OpCreateVectorDirect t _ => 1 <? ssize t | _ => false end.

(** The protocol a debug build enforces.  The state says whether an object is
    open and whether the buffer is finished. *)
Definition next_flags (s : bool * bool) (o : op) : option (bool * bool) :=
  let (open, done) := s in
  match o with
  | OpReset => Some (false, false)
  | OpStartTable | OpStartVector _ _ => if open then None else Some (true, done)
  | OpEndTable _ | OpEndVector _ => if open then Some (false, done) else None
  | OpPushSlot _ _ _ | OpPushSlotAlways _ _ => if open then Some s else None
  | OpCreateString _ | OpCreateByteString _ | OpCreateVectorDirect _ _ | OpCreateVectorOfStrings _ =>
      if open then None else Some s
  | OpFinish _ _ _ => if open || done then None else Some (false, true)
  | OpFinishedData => if done then Some s else None
  | OpPush _ | OpNumVtables | OpCreateVector _ _ | OpUnfinishedData | OpRequired _ _ => Some s
  end.
Fixpoint bracketed (s : bool * bool) (os : list op) : bool :=
  match os with
  | [] => true
  | o :: os => match next_flags s o with Some s => bracketed s os | None => false end
  end.

(** Full bracketing: what is ended is what was started, and nothing is created
    inside something else. *)
Inductive container := InTable | InVector.
Definition next_open (s : option container) (o : op) : option (option container) :=
  match o, s with
  | OpReset, _ => Some None
  | OpStartTable, None => Some (Some InTable)
  | OpStartVector _ _, None => Some (Some InVector)
  | OpEndTable _, Some InTable | OpEndVector _, Some InVector => Some None
  | OpPushSlot _ _ _, Some InTable | OpPushSlotAlways _ _, Some InTable => Some s
  | (OpCreateString _ | OpCreateByteString _ | OpCreateVectorDirect _ _ | OpCreateVectorOfStrings _
    | OpCreateVector _ _ | OpFinish _ _ _), None => Some s
  | (OpPush _ | OpNumVtables | OpUnfinishedData | OpFinishedData | OpRequired _ _), _ => Some s
  | _, _ => None
  end.
Fixpoint nested_well (s : option container) (os : list op) : bool :=
  match os with
  | [] => true
  | o :: os => match next_open s o with Some s => nested_well s os | None => false end
  end.

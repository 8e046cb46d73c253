(** Programs over the reader API of butte: any sequence of public reader calls
    on one buffer, each using values ("handles") obtained by earlier calls.
    This is how the properties quantify over client code; the calls themselves
    are the functions of Reader.v. *)
From Coq Require Import ZArith List Bool Strings.Byte.
From Verif Require Import Base Scalar Reader.
Import ListNotations.
Local Open Scope Z_scope.

Inductive itcall := INext | INextBack | INth (n : Z) | INthBack (n : Z).

Definition iter_call (h : host) (t : fty) (buf : list byte) (c : itcall) (it : viter)
  : outcome (iter_item * viter) :=
  match c with
  | INext => iter_next h t buf it
  | INextBack => iter_next_back h t buf it
  | INth n => iter_nth h t buf it n
  | INthBack n => iter_nth_back h t buf it n
  end.

(** The items returned by a sequence of iterator calls. *)
Fixpoint iter_calls (h : host) (t : fty) (buf : list byte) (cs : list itcall) (it : viter)
  : outcome (list iter_item * viter) :=
  match cs with
  | [] => Val ([], it)
  | c :: cs =>
      let* (x, it) := iter_call h t buf c it in
      let* (xs, it) := iter_calls h t buf cs it in
      Val (x :: xs, it)
  end.

Inductive rcall :=
| RFollow (t : fty) (loc : Z)
| RRoot (t : fty)
| RSizedRoot (t : fty)
| RHasIdent (ident : list byte) (size_prefixed : bool)
| RGet (i : nat) (slot : Z) (t : fty) (default : option fval)
| RVTable (i : nat)
| RVtNumFields (i : nat)
| RVtNumBytes (i : nat)
| RVtObject (i : nat)
| RVtGetField (i : nat) (idx : Z)
| RVtGet (i : nat) (slot : Z)
| RVtBytes (i : nat)
| RVecLen (i : nat)
| RVecIsEmpty (i : nat)
| RVecGet (i : nat) (idx : Z)
| RVecSlice (i : nat) (t : sty)
| RVecIter (i : nat) (cs : list itcall).

(** The values named by a handle, if it exists and has the right type. *)
Definition on_table {A} (hs : list fval) (i : nat) (k : Z -> outcome A) (d : A) : outcome A :=
  match nth_error hs i with Some (VTable l) => k l | _ => Val d end.
Definition on_vtable {A} (hs : list fval) (i : nat) (k : Z -> outcome A) (d : A) : outcome A :=
  match nth_error hs i with Some (VVTable l) => k l | _ => Val d end.
Definition on_vector {A} (hs : list fval) (i : nat) (k : fty -> Z -> outcome A) (d : A) : outcome A :=
  match nth_error hs i with Some (VVector t l) => k t l | _ => Val d end.

(** Values yielded by iterator items. *)
Fixpoint item_vals (l : list iter_item) : list fval :=
  match l with
  | Some (Val v) :: l => v :: item_vals l
  | _ :: l => item_vals l
  | [] => []
  end.

Definition opt_list {A} (o : option A) : list A :=
  match o with Some a => [a] | None => [] end.

(** New handles produced by one call. *)
Definition exec (h : host) (buf : list byte) (hs : list fval) (c : rcall) : outcome (list fval) :=
  match c with
  | RFollow t loc => let* v := follow h t buf loc in Val [v]
  | RRoot t => let* v := get_root h t buf in Val [v]
  | RSizedRoot t => let* v := get_size_prefixed_root h t buf in Val [v]
  | RHasIdent i sp => let* _ := buffer_has_identifier h buf i sp in Val []
  | RGet i slot t d =>
      on_table hs i (fun l => let* o := table_get h buf l slot t d in Val (opt_list o)) []
  | RVTable i => on_table hs i (fun l => let* v := table_vtable h buf l in Val [VVTable v]) []
  | RVtNumFields i => on_vtable hs i (fun l => let* _ := vt_num_fields h buf l in Val []) []
  | RVtNumBytes i => on_vtable hs i (fun l => let* _ := vt_num_bytes h buf l in Val []) []
  | RVtObject i =>
      on_vtable hs i (fun l => let* _ := vt_object_inline_num_bytes h buf l in Val []) []
  | RVtGetField i idx => on_vtable hs i (fun l => let* _ := vt_get_field h buf l idx in Val []) []
  | RVtGet i slot => on_vtable hs i (fun l => let* _ := vt_get h buf l slot in Val []) []
  | RVtBytes i => on_vtable hs i (fun l => let* _ := vt_as_bytes h buf l in Val []) []
  | RVecLen i => on_vector hs i (fun _ l => let* _ := vec_len h buf l in Val []) []
  | RVecIsEmpty i => on_vector hs i (fun _ l => let* _ := vec_is_empty h buf l in Val []) []
  | RVecGet i idx => on_vector hs i (fun t l => let* v := vec_get h t buf l idx in Val [v]) []
  | RVecSlice i t =>
      on_vector hs i (fun _ l => let* _ := follow_slice_helper h t buf l in Val []) []
  | RVecIter i cs =>
      on_vector hs i
        (fun t l =>
           let* it := vec_iter h buf l in
           let* (xs, _) := iter_calls h t buf cs it in
           Val (item_vals xs)) []
  end.

(** A program: an [Err] is returned to the client, which goes on. *)
Fixpoint client (h : host) (buf : list byte) (hs : list fval) (cs : list rcall)
  : outcome (list fval) :=
  match cs with
  | [] => Val hs
  | c :: cs =>
      match exec h buf hs c with
      | Val new => client h buf (hs ++ new) cs
      | Err _ => client h buf hs cs
      | Panic => Panic
      end
  end.

(** What Rust's types guarantee about the arguments: [usize] locations and
    indices, [u16] slots, defaults that are values; [buffer_has_identifier]
    documents a four-byte identifier. *)
Definition usize_ok (z : Z) : Prop := 0 <= z < 2 ^ 64.
Definition fval_ok (v : fval) : Prop :=
  match v with VVector _ l | VTable l | VVTable l => usize_ok l | _ => True end.
Definition itcall_ok (c : itcall) : Prop :=
  match c with INth n | INthBack n => usize_ok n | _ => True end.
Definition rcall_ok (c : rcall) : Prop :=
  match c with
  | RFollow _ loc => usize_ok loc
  | RHasIdent i _ => blen i = 4
  | RGet _ slot _ d => 0 <= slot < 2 ^ 16 /\ (forall v, d = Some v -> fval_ok v)
  | RVtGetField _ idx => usize_ok idx
  | RVtGet _ slot => 0 <= slot < 2 ^ 16
  | RVecGet _ idx => usize_ok idx
  | RVecIter _ cs => Forall itcall_ok cs
  | _ => True
  end.

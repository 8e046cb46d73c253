(** Builder programs that make misaligned accesses. *)
From Coq Require Import ZArith List Bool Lia Strings.Byte.
From Verif Require Import Base Scalar Reader Client Raw Builder Ops RawBuilder SpecRaw.
Import ListNotations.
Local Open Scope Z_scope.

Definition odd_slot_program : list op := [OpStartTable; OpPushSlotAlways 5 (PScalar TU8 1); OpEndTable 0].
Lemma odd_slot : exists os, forallb op_ok os = true /\ Forall (fun o => plain_call o \/ exists slot x, o = OpPushSlotAlways slot x) os /\
  forall h, exists b xs, program h 0 os = Val (b, xs) /\ ~ Forall aligned (did (w_program h 0 os)).
Proof.
  exists odd_slot_program. split; [reflexivity|]. split.
  - unfold odd_slot_program. constructor; [left; repeat split|]. constructor; [right; eauto|]. constructor; [left; repeat split|constructor].
  - intros h. assert (I : In (Access Store TU16 1 1 16) (did (w_program h 0 odd_slot_program))) by (destruct h as [[] []]; vm_compute; tauto).
    assert (E : exists b xs, program h 0 odd_slot_program = Val (b, xs)) by (destruct h as [[] []]; vm_compute; eexists _, _; reflexivity).
    destruct E as (b & xs & E). exists b, xs. split; [exact E|]. intros F. rewrite Forall_forall in F. discriminate (F _ I 0 eq_refl).
Qed.
Definition odd_required_program : list op :=
  [OpCreateByteString [x00; x00; x00; x06; x00; x04; x00; x04; x00; x06; x00; x00; x00; x00; x00]; OpRequired 7 4].
Lemma odd_required : exists os, forallb op_ok os = true /\ Forall (fun o => plain_call o \/ exists tab slot, o = OpRequired tab slot) os /\
  forall h, exists b xs, program h 0 os = Val (b, xs) /\ ~ Forall aligned (did (w_program h 0 os)).
Proof.
  exists odd_required_program. split; [reflexivity|]. split.
  - unfold odd_required_program. constructor; [left; repeat split|]. constructor; [right; eauto|constructor].
  - intros h. assert (I : In (Access Load TI32 25 1 32) (did (w_program h 0 odd_required_program))) by (destruct h as [[] []]; vm_compute; tauto).
    assert (E : exists b xs, program h 0 odd_required_program = Val (b, xs)) by (destruct h as [[] []]; vm_compute; eexists _, _; reflexivity).
    destruct E as (b & xs & E). exists b, xs. split; [exact E|]. intros F. rewrite Forall_forall in F. discriminate (F _ I 0 eq_refl).
Qed.

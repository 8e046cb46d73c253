(** What the unsafe code touches: properties C68 and C69. *)
From Coq Require Import ZArith List Bool Lia Strings.Byte ZifyBool.
From Verif Require Import Base Scalar Reader Client Raw Builder Ops RawBuilder SpecRaw RawProofs2 RawProofs4 RawProofs5 RawProofs6 RawProofs7.
Import ListNotations.
Local Open Scope Z_scope.

(** ** C68 *)

(** The traced reader is the reader: same values, errors and panics, for every
    slice of every allocation and every client program. *)
Theorem C68_reader_same : forall h r cs, is_slice r -> Forall typed cs ->
  result (r_client h r [] cs) = client h (contents r) [] cs.
Proof. exact client_same. Qed.
Print Assumptions C68_reader_same.
(** And every access it makes lies in that slice and in the allocation. *)
Theorem C68_reader_in_bounds : forall h r cs, is_slice r -> Forall typed cs ->
  Forall (fun a => in_bounds a /\ in_part (from r) (upto r) a) (did (r_client h r [] cs)).
Proof. exact client_in_part. Qed.
Print Assumptions C68_reader_in_bounds.

Definition C68_slice : region := Region ([xff; xff] ++ odd_table ++ [xff]) 2 22.
Example C68_reader_case : is_slice C68_slice /\ Forall typed odd_reads /\
  did (r_client (Host true false) C68_slice [] odd_reads) =
    [Access Load TU32 2 1 23; Access Load TI32 7 1 23; Access Load TU16 16 1 23; Access Load TU16 20 1 23; Access Load TU32 11 1 23].
Proof.
  split; [vm_compute; repeat split; discriminate|]. split; [repeat constructor; discriminate|vm_compute; reflexivity].
Qed.

(** The same for the builder, with any capacity and any calls. *)
Theorem C68_builder_same : forall h c os, 0 <= c -> forallb op_ok os = true ->
  result (w_program h c os) = program h c os.
Proof. exact build_same. Qed.
Print Assumptions C68_builder_same.
Theorem C68_builder_in_bounds : forall h c os, 0 <= c -> forallb op_ok os = true ->
  Forall in_bounds (did (w_program h c os)).
Proof. exact build_in_bounds. Qed.
Print Assumptions C68_builder_in_bounds.

Definition C68_program : list op :=
  [OpCreateVectorOfStrings [[x61]; [x62; x63]]; OpStartTable; OpPushSlotAlways 4 (PScalar TU16 7); OpEndTable 24; OpReset].
Example C68_builder_case : forallb op_ok C68_program = true /\
  (exists b xs, program (Host true false) 0 C68_program = Val (b, xs)) /\
  length (did (w_program (Host true false) 0 C68_program)) = 22%nat /\
  In (Access Store TU16 26 1 64) (did (w_program (Host true false) 0 C68_program)).
Proof.
  split; [vm_compute; reflexivity|]. split; [|split; [vm_compute; reflexivity|vm_compute; tauto]].
  vm_compute. eexists _, _. reflexivity.
Qed.

(** ** C69 *)

(** As stated it is false of the reader: reading these bytes is misaligned
    wherever they are, and succeeds. *)
Theorem C69_reader_refuted : exists m cs, Forall rcall_ok cs /\ Forall no_bool_slice cs /\ forall h base,
  result (r_client h (whole_of m) [] cs) = Val [VTable 5; VScalar 42] /\
  ~ Forall (aligned_at base) (did (r_client h (whole_of m) [] cs)).
Proof. exact odd_misaligned. Qed.
Print Assumptions C69_reader_refuted.

(** The builder is aligned, whatever is called, exactly for these capacities. *)
Theorem C69_builder_exact : forall c, 0 <= c <= 2 ^ 31 ->
  (forall h os, Forall plain_call os -> Forall aligned (did (w_program h c os))) <-> good_capacity c.
Proof.
  intros c C. split; [exact (aligned_capacity c C)|]. intros G h os O. exact (build_aligned h c os (proj1 C) G O).
Qed.
Print Assumptions C69_builder_exact.
(** [FlatBufferBuilder::new] and [Default] start from nothing. *)
Theorem C69_builder_new : forall h os, Forall plain_call os -> Forall aligned (did (w_program h 0 os)).
Proof. intros h os O. exact (build_aligned h 0 os (Z.le_refl 0) (or_introl eq_refl) O). Qed.
Print Assumptions C69_builder_new.
(** The two other hypotheses are needed too. *)
Theorem C69_odd_slot_refuted : exists os, forallb op_ok os = true /\
  Forall (fun o => plain_call o \/ exists slot x, o = OpPushSlotAlways slot x) os /\
  forall h, exists b xs, program h 0 os = Val (b, xs) /\ ~ Forall aligned (did (w_program h 0 os)).
Proof. exact odd_slot. Qed.
Print Assumptions C69_odd_slot_refuted.
Theorem C69_required_refuted : exists os, forallb op_ok os = true /\
  Forall (fun o => plain_call o \/ exists tab slot, o = OpRequired tab slot) os /\
  forall h, exists b xs, program h 0 os = Val (b, xs) /\ ~ Forall aligned (did (w_program h 0 os)).
Proof. exact odd_required. Qed.
Print Assumptions C69_required_refuted.

Example C69_builder_case :
  Forall plain_call C68_program /\ good_capacity 0 /\ good_capacity 1024 /\ ~ good_capacity 100 /\
  did (w_program (Host true false) 6 [OpPush (PScalar TU32 1)]) = [Access Store TU32 2 1 6] /\
  ~ aligned (Access Store TU32 2 1 6).
Proof.
  split; [repeat constructor|]. unfold good_capacity. split; [lia|]. split; [right; right; right; right; reflexivity|].
  split; [intros [H|[H|[H|[H|H]]]]; discriminate H|]. split; [vm_compute; reflexivity|]. intros H. discriminate (H 0 eq_refl).
Qed.

(** A [bool] slice shows bytes that are no [bool]; nothing else does. *)
Theorem C69_bool_refuted : exists m cs, Forall rcall_ok cs /\ forall h, big_endian h = false ->
  result (r_client h (whole_of m) [] cs) = Val [VSlice [2]] /\ ~ Forall (bools_valid m) (did (r_client h (whole_of m) [] cs)).
Proof. exact bad_bool. Qed.
Print Assumptions C69_bool_refuted.
Theorem C69_bools_valid : forall h r cs, Forall no_bool_slice cs -> Forall (bools_valid (mem r)) (did (r_client h r [] cs)).
Proof. exact client_bools. Qed.
Print Assumptions C69_bools_valid.
Example C69_bool_case : Forall no_bool_slice [RFollow (FScalar TBool) 0] /\
  r_client (Host true false) (whole_of [x02]) [] [RFollow (FScalar TBool) 0] = ([Access Load TU8 0 1 1], Val [VScalar 1]).
Proof. split; [repeat constructor|reflexivity]. Qed.

(** Property C67: which programs over the builder complete and which panic.  Statements only;
    vocabulary in SpecUse.v.

    [usage] is what a caller knows from its own calls; [misuse] lists, call by call, what must
    not be done.  The theorems say that nothing else ever panics and that all of it does. *)
From Coq Require Import ZArith List Bool Lia Strings.Byte.
From Verif Require Import Base Scalar Reader Builder Ops SpecWire SpecReader SpecBuilder SpecUse UseProofs UseProofs2 UseProofs3 UseProofs4 PropsBuilder.
Import ListNotations.
Local Open Scope Z_scope.

(** C67. *)
Theorem C67_panics_exactly h c os : 0 <= c <= 2 ^ 31 -> calls_ok os = true -> room_for_all h c os ->
  (program h c os = Panic <-> misused h c os).
Proof. exact (panics_exactly h c os). Qed.
Print Assumptions C67_panics_exactly.

Theorem C67_completes_exactly h c os : 0 <= c <= 2 ^ 31 -> calls_ok os = true -> room_for_all h c os ->
  ((exists b xs, program h c os = Val (b, xs)) <-> ~ misused h c os).
Proof. exact (completes_exactly h c os). Qed.
Print Assumptions C67_completes_exactly.

(** In a release build only two calls panic: [finish] when nothing was ever aligned, and
    [required] when the field is not there. *)
Theorem C67_release h c os : debug h = false -> 0 <= c <= 2 ^ 31 -> calls_ok os = true -> room_for_all h c os ->
  (program h c os = Panic <->
   exists pre o post b0 b xs, os = pre ++ o :: post /\ new_with_capacity c = Val b0 /\ program h c pre = Val (b, xs) /\
     match o with
     | OpFinish _ _ _ => widest (usage_after h b0 unused pre) = 0
     | OpRequired tab slot => ~ field_present (unfinished_data b) tab slot
     | _ => False
     end).
Proof. exact (release_exactly h c os). Qed.
Print Assumptions C67_release.

(** One call: it panics or it returns, never both, and what it leads to. *)
Theorem C67_call h c os b0 b xs o : 0 <= c <= 2 ^ 31 -> calls_ok (os ++ [o]) = true -> room_for_all h c (os ++ [o]) ->
  new_with_capacity c = Val b0 -> program h c os = Val (b, xs) ->
  (step h b o = Panic <-> misuse h (usage_after h b0 unused os) (unfinished_data b) o) /\
  ((exists b' x, step h b o = Val (b', x)) <-> ~ misuse h (usage_after h b0 unused os) (unfinished_data b) o).
Proof. exact (call_exactly h c os b0 b xs o). Qed.
Print Assumptions C67_call.

(** The bound on the bytes of a call is one: no call writes more. *)
Theorem C67_bytes h c os b0 b xs o b' x : 0 <= c <= 2 ^ 31 -> calls_ok (os ++ [o]) = true -> room_for_all h c (os ++ [o]) ->
  new_with_capacity c = Val b0 -> program h c os = Val (b, xs) -> step h b o = Val (b', x) ->
  blen (unfinished_data b') <= blen (unfinished_data b) + op_bytes o.
Proof. intros Hc Ho L E0 H. exact (bytes_bound h c os b0 b xs o Hc Ho L E0 H b' x). Qed.
Print Assumptions C67_bytes.

(** A field pending at a reset is still pending after it: the fields of the next table then
    lie before it, and ending that table panics in a debug build. *)
Definition stale : list op :=
  [OpCreateString hello; OpCreateString hello; OpStartTable; OpPushSlotAlways 4 (PScalar TU32 7); OpReset; OpStartTable; OpEndTable 0].

Example C67_case :
  calls_ok whole = true /\ calls_ok stale = true /\
  (exists b xs, program (Host true false) 0 whole = Val (b, xs)) /\
  program (Host true false) 0 stale = Panic /\
  (exists b xs, program (Host false false) 0 stale = Val (b, xs)) /\
  program (Host false false) 0 [OpFinish 0 None false] = Panic /\
  match new_with_capacity 0 with
  | Val b0 => usage_after (Host true false) b0 unused (firstn 6 stale) = Usage true false [(20, 4)] 0
  | _ => False
  end.
Proof.
  split; [vm_compute; reflexivity|]. split; [vm_compute; reflexivity|].
  split; [eexists; eexists; vm_compute; reflexivity|]. split; [vm_compute; reflexivity|].
  split; [eexists; eexists; vm_compute; reflexivity|]. split; vm_compute; reflexivity.
Qed.

(** [misused] is not empty talk: the program above is misused at its last call. *)
Example C67_stale : misused (Host true false) 0 stale.
Proof.
  eexists (firstn 6 stale), (OpEndTable 0), [], _, _, _. split; [reflexivity|]. split; [vm_compute; reflexivity|].
  split; [vm_compute; reflexivity|]. right. split; [reflexivity|].
  right. right. right. left. exists 20, 4. split; [vm_compute; left; reflexivity|vm_compute; reflexivity].
Qed.

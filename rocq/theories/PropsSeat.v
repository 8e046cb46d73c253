(** What generated code touches: more of properties C68 and C69. *)
From Coq Require Import Strings.String ZArith List Bool Lia Strings.Byte ZifyBool.
From Verif Require Import Base Scalar Reader Client Raw SpecRaw Builder Ops SpecBuilder Schema Codegen RawGen SpecGen SpecSeat RawProofs8 RawProofs10 PropsGen.
Import ListNotations.
Local Open Scope Z_scope.

(** ** C68 *)

(** The traced accessors are the accessors, and stay in the slice. *)
Theorem C68_generated_same : forall h r tab g, is_slice r -> usize_ok tab ->
  result (r_gen_get h r tab g) = gen_get h (contents r) tab g.
Proof. exact gen_get_same. Qed.
Print Assumptions C68_generated_same.
Theorem C68_generated_in_bounds : forall h r tab g, is_slice r -> usize_ok tab ->
  Forall (fun a => in_bounds a /\ in_part (from r) (upto r) a) (did (r_gen_get h r tab g)).
Proof. exact gen_get_in_part. Qed.
Print Assumptions C68_generated_in_bounds.

(** ** C69 *)

(** A document of any depth and size, of tables of any generated types, written
    after any calls and finished after any others, is read with aligned accesses
    only: from the root, through every generated accessor and every vector. *)
Theorem C69_documents_aligned : forall h hr c lim before xs b0 u x b1 o later ident sp b zs,
  0 <= c -> lim <= 32765 -> debug h = true \/ lim <= 8190 ->
  calls_ok before = true -> closed before = true -> program h c before = Val (b0, xs) ->
  typed lim x (FUOffset u) -> put h b0 x = Val (b1, Some (POffset o)) ->
  calls_ok (later ++ [OpFinish o ident sp]) = true -> no_reset later = true -> run h b1 (later ++ [OpFinish o ident sp]) = Val (b, zs) ->
  blen (unfinished_data b) < 2 ^ 31 -> (debug h = true \/ match ident with Some i => blen i = 4 | None => True end) ->
  let D := unfinished_data b in
  exists w, result (r_root hr sp u D) = Val w /\ Forall aligned (did (r_root hr sp u D)) /\ shows hr D x w /\ reads_aligned hr D x w.
Proof. exact document_aligned. Qed.
Print Assumptions C69_documents_aligned.

(** Two orcs, between a byte before them and an identifier behind, with a size
    prefix. *)
Definition C69_before : list op := [OpPush (PScalar TU8 7)].
Definition C69_orcs : outcome (builder * Z) :=
  let* (b0, _) := program host0 0 C69_before in
  let* (b1, a) := put host0 b0 orcs in
  match a with
  | Some (POffset o) => let* (b, _) := run host0 b1 [OpPush (PScalar TU8 7); OpFinish o (Some (lit "ORCS")) true] in Val (b, o)
  | _ => Panic
  end.
Definition C69_bytes : list byte := match C69_orcs with Val (b, _) => unfinished_data b | _ => [] end.
Definition C69_root : traced fval := Eval vm_compute in r_root host0 true FTable C69_bytes.
Definition C69_tab : Z := match result C69_root with Val (VTable l) => l | _ => -1 end.
Example C69_documents_case : calls_ok C69_before = true /\ closed C69_before = true /\ typed 8 orcs (FUOffset FTable) /\
  (exists b o, C69_orcs = Val (b, o)) /\ C69_root = ([Access Load TU32 4 1 232], Val (VTable 36)) /\
  did (r_gen_get host0 (whole_of C69_bytes) C69_tab (nth 2 (gen monster_fields) (GField 0 (GRef FTable) false))) =
    [Access Load TI32 36 1 232; Access Load TU16 16 1 232; Access Load TU16 24 1 232; Access Load TU32 60 1 232; Access Load TU32 220 1 232].
Proof.
  split; [reflexivity|]. split; [reflexivity|]. split; [apply monster_typed; right; apply monster_typed; left; reflexivity|].
  split; [vm_compute; eexists _, _; reflexivity|]. split; vm_compute; reflexivity.
Qed.

(** Before it is finished the same need not hold. *)
Theorem C69_unfinished_refuted : exists x u later, typed 8 x (FUOffset u) /\ calls_ok later = true /\ no_reset later = true /\ forall h hr,
  exists b0 b1 o b zs w, program h 0 [] = Val (b0, []) /\ put h b0 x = Val (b1, Some (POffset o)) /\ run h b1 later = Val (b, zs) /\
    let D := unfinished_data b in
    result (r_follow hr u (whole_of D) (blen D - o)) = Val w /\ shows hr D x w /\
    ~ Forall aligned (did (r_follow hr u (whole_of D) (blen D - o))).
Proof. exact unfinished_misaligned. Qed.
Print Assumptions C69_unfinished_refuted.

(** Vocabulary for statements about the paths in generated code. *)
From Coq Require Import Strings.String ZArith List Bool Strings.Byte.
From Verif Require Import Base Schema Ident SpecIdent SpecResolve Emit SpecEmit.
Import ListNotations.
Local Open Scope list_scope.

(** The types whose names the code of a definition spells, with their kinds: the
    types of its fields or variants; for a union, be it a definition or the type of
    a field, also those of its companion and of its members. *)
Definition ty_uses (t : ity) : list (qident * rkind) := map (fun m => (fst m, rkind_of (snd m))) (ty_mentions t).
Definition union_uses (e : qident) (vs : list iunionv) : list (qident * rkind) :=
  (e, REnum) :: flat_map (fun v => ty_uses (iuv_ty v)) vs.
Definition spelled (n : node) : list (qident * rkind) :=
  match n with
  | NTable t => flat_map (fun f => ty_uses (if_ty f) ++ match if_ty f with ICustom _ (KUnion e vs) => union_uses e vs | _ => [] end) (it_fields t)
  | NUnion u => union_uses (iu_enum u) (iu_variants u)
  | _ => []
  end.
(** What a path written for [q] inside the namespace [p] amounts to: the modules
    that are around both, under the names they have in the generated code, and the
    rest of [q] as it is. *)
Definition seen_as (snake : text -> text) (p q r : qident) : Prop :=
  exists around p' q', p = around ++ p' /\ q = around ++ q' /\
    (forall a p2 q2, p' = a :: p2 -> q' = a :: q2 -> False) /\ r = emitted_modules snake around ++ q'.

(** Property C65: documents and the growth of their schema.  Statements only; each
    theorem is closed by a lemma of the proof files.  Vocabulary: SpecEvolve.v
    ([evolves]: a schema and a later version of it; [settled]), SpecDoc.v ([doc],
    [fits], [save], [reads]: what the accessors of the schema a document was written
    with return for it), SpecGrow.v ([reads_late]: what those of a later version
    return, [reads_early]: what those of an earlier one return). *)
From Coq Require Import Strings.String ZArith List Bool Strings.Byte.
From Verif Require Import Base Scalar SpecWire Reader SpecReader Builder Ops SpecBuilder Schema Codegen Resolve Compile Heck SpecResolve SpecEvolve SpecGen SpecTable SpecDoc SpecGrow
  GenProofs9 DocProofs5 DocCase GrowProofs3 GrowCase.
Import ListNotations.
Local Open Scope string_scope.
Local Open Scope list_scope.
Local Open Scope Z_scope.

(** Whatever document is saved with the code of a schema, the code generated for a
    later version reads it: every value given is read as given, what was left out
    reads as its default, and the fields that were added read as their defaults, or
    nothing, or, when required, are reported missing. *)
Theorem C65_new_reads_old fl snake es es' r r' hg hg' x q : settled es -> settled es' -> evolves es es' -> build snake es = Done r -> build snake es' = Done r' ->
  floats_ok fl -> compiled_tables fl snake r hg -> compiled_tables fl snake r' hg' ->
  fits fl snake r x (ICustom q KTable) -> exists y, calls_for fl snake r hg x (ICustom q KTable) = Some y /\
  forall h c ident sp, 0 <= c <= MAX_BUFFER_SIZE -> match ident with Some i => blen i = 4 | None => True end -> tree_size y + 150000 < 2 ^ 31 ->
    exists D, save fl snake r hg h c x q ident sp = Val D /\
      forall hr, exists w, (if sp then get_size_prefixed_root hr FTable D else get_root hr FTable D) = Val w /\
        reads fl snake r hg hr D x (ICustom q KTable) (GPlain w) /\ reads_late fl snake r r' hg' hr D x (ICustom q KTable) (GPlain w).
Proof. exact (fun S S' E B B' F C C' => new_reads_old fl snake es es' r r' S S' E B B' F hg hg' C C' x q). Qed.
Print Assumptions C65_new_reads_old.

(** Whatever document of a table that the schema has is saved with the code of a later
    version, the code generated for the schema reads of it all that its words can say:
    the values of its fields as given, their defaults where left out, and exactly the
    enum values and unions whose variant was added are refused, each on its own. *)
Theorem C65_old_reads_new fl snake es es' r r' hg hg' x q fs : settled es -> settled es' -> evolves es es' -> build snake es = Done r -> build snake es' = Done r' ->
  floats_ok fl -> compiled_tables fl snake r hg -> compiled_tables fl snake r' hg' ->
  table_named r q fs -> fits fl snake r' x (ICustom q KTable) -> exists y, calls_for fl snake r' hg' x (ICustom q KTable) = Some y /\
  forall h c ident sp, 0 <= c <= MAX_BUFFER_SIZE -> match ident with Some i => blen i = 4 | None => True end -> tree_size y + 150000 < 2 ^ 31 ->
    exists D, save fl snake r' hg' h c x q ident sp = Val D /\
      forall hr, exists w, (if sp then get_size_prefixed_root hr FTable D else get_root hr FTable D) = Val w /\
        reads fl snake r' hg' hr D x (ICustom q KTable) (GPlain w) /\ reads_early fl snake r r' hg hr D x (ICustom q KTable) (Val (Some (GPlain w))).
Proof. exact (fun S S' E B B' F C C' => old_reads_new fl snake es es' r r' S S' E B B' F hg hg' C C' x q fs). Qed.
Print Assumptions C65_old_reads_new.

(** Two versions of a schema.  The orc of the first one, read by the second: its new
    level, title and eyes are missing.  The violet troll with the potion of the second
    one, read by the first. *)
Example C65_case : elements game = game_es /\ elements sequel = sequel_es /\ settled game_es /\ settled sequel_es /\ evolves game_es sequel_es /\
  build snake_case game_es = Done game_root /\ build snake_case sequel_es = Done sequel_root /\
  (forall fl hg, compiled_tables fl snake_case game_root hg) /\ (forall fl hg, compiled_tables fl snake_case sequel_root hg) /\
  (forall fl, fits fl snake_case game_root orc (ICustom monster KTable)) /\ (forall fl, fits fl snake_case sequel_root troll (ICustom monster KTable)) /\
  save fl0 snake_case sequel_root (Host true false) (Host true false) 0 troll monster None true = Val troll_file /\
  skipn 7 (get_all sequel_root orc_file (get_root (Host false false) FTable orc_file)) = [Val (Some (GPlain (VScalar 3))); Val None; Err RequiredFieldMissing] /\
  firstn 7 (get_all sequel_root orc_file (get_root (Host false false) FTable orc_file)) = get_all game_root orc_file (get_root (Host false false) FTable orc_file) /\
  get_all game_root troll_file (get_size_prefixed_root (Host false false) FTable troll_file) =
    [Val (Some (GPlain (VScalar 100))); Val (Some (GPlain (VStr (lit "Troll")))); Val (Some (GPlain (VVector (FUOffset FTable) 80)));
     Err UnknownEnumVariant; Err UnknownEnumVariant; Err UnknownEnumVariant; Val None].
Proof.
  split; [exact (proj1 game_read)|]. split; [exact (proj2 game_read)|]. split; [exact (proj1 both_settled)|]. split; [exact (proj2 both_settled)|]. split; [exact game_evolves|].
  split; [exact (proj1 both_build)|]. split; [exact (proj2 both_build)|]. split; [exact game_fine|]. split; [exact sequel_fine|]. split; [exact orc_fits|]. split; [exact troll_fits|].
  split; [exact troll_saved|]. split; [vm_compute; reflexivity|]. split; vm_compute; reflexivity.
Qed.

(** Property C61: which tables get code that compiles.  Statements only; each theorem
    is closed by a lemma of the proof files.  Vocabulary: SpecTable.v ([fine_table]),
    SpecEmit.v ([most_fields], [usable]), SpecEvolve.v ([settled]), Resolve.v
    ([build]), Codegen.v ([gen_table]: the table's accessors, or nothing if the
    generator panics or rustc refuses its output), Heck.v ([snake_case]). *)
From Coq Require Import Strings.String ZArith List Bool Strings.Byte.
From Verif Require Import Base Scalar Schema Ident Heck Codegen SpecResolve SpecEmit SpecEvolve SpecTable Resolve TableProofs2 TableProofs3 TableProofs4.
Import ListNotations.
Local Open Scope string_scope.
Local Open Scope list_scope.
Local Open Scope Z_scope.

(** A table of a resolved schema gets code that compiles if and only if it is fine;
    in debug builds of the generator it must not have more than 32766 fields. *)
Theorem C61_compiles_iff fl snake hg es root path t : build snake es = Done root -> In (path, NTable t) (all_contents root) ->
  ((exists gs, gen_table fl snake hg (it_fields t) = Some gs) <->
   fine_table fl snake (it_fields t) /\ (debug hg = false \/ Z.of_nat (length (it_fields t)) <= most_fields)).
Proof. exact (resolved_table_fine fl snake hg es root path t). Qed.
Print Assumptions C61_compiles_iff.

(** The accessors of unions find their type fields, unless the union field has an odd
    name or is named [type]. *)
Theorem C61_type_fields es root path t : settled es -> build snake_case es = Done root ->
  (forall a f, In (ETable a) es -> In f (ap_fields a) -> usable (af_id f) /\ af_id f <> lit "type") ->
  In (path, NTable t) (all_contents root) -> forall f, In f (it_fields t) -> type_field snake_case (it_fields t) f.
Proof. exact (type_fields es root path t). Qed.
Print Assumptions C61_type_fields.

(** Not every table of a resolved schema gets code that compiles: each of these
    schemas resolves, and in each, for one reason, some table does not. *)
Theorem C61_refuted fl hg es : In es odd_schemas -> exists root path t,
  build snake_case es = Done root /\ In (path, NTable t) (all_contents root) /\ gen_table fl snake_case hg (it_fields t) = None.
Proof. exact (odd_refuted fl hg es). Qed.
Print Assumptions C61_refuted.

(** A schema in which all is fine. *)
Example C61_case fl hg : exists root, build snake_case whole = Done root /\ length (all_contents root) = 5%nat /\
  forall path t, In (path, NTable t) (all_contents root) -> fine_table fl snake_case (it_fields t) /\ exists gs, gen_table fl snake_case hg (it_fields t) = Some gs.
Proof. exact (whole_case fl hg). Qed.
Example C61_type_fields_case : settled whole /\ (forall a f, In (ETable a) whole -> In f (ap_fields a) -> usable (af_id f) /\ af_id f <> lit "type").
Proof. exact whole_usable. Qed.

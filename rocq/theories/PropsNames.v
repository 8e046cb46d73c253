(** Property C62: whether names in the generated code mean what they should.
    Statements only; each theorem is closed by a lemma of the proof files.
    Vocabulary: Names.v ([node_uses]: every name the code of a definition relies on,
    with the type parameters in scope there), SpecNames.v ([hidden]: a name is taken
    for something else; [hides_nothing], [free_names]), Emit.v ([emit]), Resolve.v. *)
From Coq Require Import Strings.String ZArith List Bool Strings.Byte.
From Verif Require Import Base Schema Ident Heck Resolve SpecResolve Emit SpecEmit SpecTable Names SpecNames EmitProofs9 NameProofs NameProofs2 NameProofs3.
Import ListNotations.
Local Open Scope string_scope.
Local Open Scope list_scope.

(** In no module of the generated code a name is hidden, by a type parameter or by a
    type or module beside it, if and only if the schema hides nothing. *)
Theorem C62_hidden_iff snake shouty ident_ok path_ok literal_ok hg es root items : build snake es = Done root ->
  emit snake shouty ident_ok path_ok literal_ok hg root = Some items ->
  ((forall p nodes its n u, module_nodes root p nodes -> emit snake shouty ident_ok path_ok literal_ok hg nodes = Some its ->
     In n nodes -> In u (node_uses n) -> ~ hidden its u) <-> hides_nothing snake root).
Proof. exact (fun B E => hidden_iff snake shouty ident_ok path_ok literal_ok hg es root B items E). Qed.
Print Assumptions C62_hidden_iff.

(** A name meant as a type of the generated code is the name of a type of this kind
    beside it, or one of the paths that C59 is about. *)
Theorem C62_items snake shouty ident_ok path_ok literal_ok hg nodes its n u k : emit snake shouty ident_ok path_ok literal_ok hg nodes = Some its ->
  In n nodes -> In u (node_uses n) -> u_means u = Item k ->
  (exists x paths, u_path u = [x] /\ In (XType k x paths) its) \/ exists k0 x paths, In (XType k0 x paths) its /\ In (u_path u, k) paths.
Proof. exact (item_meant snake shouty ident_ok path_ok literal_ok hg nodes its n u k). Qed.
Print Assumptions C62_items.
Example C62_items_case : exists root its n, build snake_case [en "E" Byte [vr "X"]; uses "T" (nm "E")] = Done root /\ sample_emit (Host true false) root = Some its /\
  In n root /\ In (Use [] [lit "TBuilder"] (Item RBuilder)) (node_uses n) /\ In (Use [] [lit "E"] (Item REnum)) (node_uses n) /\ In (Use param [lit "E"] (Item REnum)) (node_uses n).
Proof. exact items_case. Qed.

(** So it is if no type and no namespace is named [B] or has one of the nineteen
    names that Rust provides and the code uses. *)
Theorem C62_free_names es root : build snake_case es = Done root -> (forall e, In e es -> free_names e) -> hides_nothing snake_case root.
Proof. exact (free_hides_nothing es root). Qed.
Print Assumptions C62_free_names.

(** Names are hidden in the code of each of these schemas. *)
Theorem C62_refuted hg es : In es hiding -> exists root p nodes its n u, build snake_case es = Done root /\ module_nodes root p nodes /\
  sample_emit hg nodes = Some its /\ In n nodes /\ In u (node_uses n) /\ hidden its u.
Proof. exact (hiding_refuted hg es). Qed.
Print Assumptions C62_refuted.

Example C62_case : build snake_case host_schema = Done host_root /\ (exists items, sample_emit (Host true false) host_root = Some items) /\
  (forall e, In e host_schema -> free_names e) /\ hides_nothing snake_case host_root.
Proof. exact host_names. Qed.

(** Properties C57-C59: the generated code as a whole.  Statements only; each
    theorem is closed by a lemma of the proof files.  Vocabulary: Emit.v ([emit]:
    the items [CodeGenerator::build_tokens] writes, [None] for a panic),
    SpecEmit.v ([emittable]: a declaration the generator copes with; [accepts] and
    [rejects]: what is taken for granted of proc-macro2 and syn; [no_clash]: no
    module defines a name twice; [leads]: where a path leads), SpecPaths.v,
    SpecWrite.v ([emits_all]: nothing stands in the way of writing the code;
    [decides]: what proc-macro2 and syn take and what they refuse), SpecResolve.v. *)
From Coq Require Import Strings.String ZArith List Bool Lia Strings.Byte.
From Verif Require Import Base Schema Ident SpecIdent Resolve SpecResolve Heck Emit SpecEmit SpecPaths EmitProofs1 EmitProofs2 EmitProofs3 EmitProofs5 EmitProofs6 EmitProofs7 EmitProofs8 EmitProofs9 EmitProofs10 EmitProofs11 EmitCase SpecWrite EmitProofs12 EmitProofs13 EmitCase2.
Import ListNotations.
Local Open Scope string_scope.
Local Open Scope list_scope.
Local Open Scope nat_scope.

(** C57.  A resolved schema without structs, whose names have a letter in front
    and whose defaults go with their types, and in which no type has the name of a
    namespace, is written out without a panic. *)
Theorem C57_completes ident_ok path_ok literal_ok hg es root : accepts ident_ok path_ok literal_ok ->
  build snake_case es = Done root -> (forall e, In e es -> emittable literal_ok e) ->
  (forall q, declared_in es q -> ~ namespace_in root q) ->
  (forall p t, In (p, NTable t) (all_contents root) -> debug hg = false \/ (Z.of_nat (length (it_fields t)) <= most_fields)%Z) ->
  exists items, emit snake_case shouty_snake_case ident_ok path_ok literal_ok hg root = Some items.
Proof. exact (fun A B E D S => completes ident_ok path_ok literal_ok hg A es root B E D S). Qed.
Print Assumptions C57_completes.

(** Each of these is enough for a panic: a struct, be it used or not; ... *)
Theorem C57_struct_panics shouty ident_ok path_ok literal_ok hg es root t : build snake_case es = Done root -> In (EStruct t) es ->
  emit snake_case shouty ident_ok path_ok literal_ok hg root = None.
Proof. exact (fun B => struct_panics shouty ident_ok path_ok literal_ok hg es root B t). Qed.
Print Assumptions C57_struct_panics.
(** ... a field whose name has no letter in front; ... *)
Theorem C57_field_panics shouty ident_ok path_ok literal_ok hg es root t f : build snake_case es = Done root -> rejects ident_ok literal_ok ->
  In (ETable t) es -> In f (ap_fields t) -> name_text (af_id f) -> ~ starts_with_letter (af_id f) ->
  emit snake_case shouty ident_ok path_ok literal_ok hg root = None.
Proof. exact (fun B R => field_panics shouty ident_ok path_ok literal_ok hg es root B R t f). Qed.
Print Assumptions C57_field_panics.
(** ... a number as the default of a field that is no scalar by its written type,
    which includes enum fields. *)
Theorem C57_default_panics shouty ident_ok path_ok literal_ok hg es root t f c : build snake_case es = Done root -> rejects ident_ok literal_ok ->
  In (ETable t) es -> In f (ap_fields t) -> af_default f = Some (DScalar c) -> (forall b, c <> CBool b) -> (forall p, af_ty f <> APrim p) ->
  emit snake_case shouty ident_ok path_ok literal_ok hg root = None.
Proof. exact (fun B R => default_panics shouty ident_ok path_ok literal_ok hg es root B R t f c). Qed.
Print Assumptions C57_default_panics.
(** So C57 as stated is false. *)
Theorem C57_refuted snake shouty ident_ok path_ok literal_ok hg : exists es root, build snake es = Done root /\
  emit snake shouty ident_ok path_ok literal_ok hg root = None.
Proof. exact (struct_refuted snake shouty ident_ok path_ok literal_ok hg). Qed.
Print Assumptions C57_refuted.
Example C57_case : accepts sample_ident sample_path sample_literal /\ rejects sample_ident sample_literal /\
  build snake_case host_schema = Done host_root /\ (forall e, In e host_schema -> emittable sample_literal e) /\
  (forall q, declared_in host_schema q -> ~ namespace_in host_root q) /\
  (forall p t, In (p, NTable t) (all_contents host_root) -> (Z.of_nat (length (it_fields t)) <= most_fields)%Z).
Proof. exact (conj sample_accepts (conj sample_rejects (conj host_build (conj host_emittable (conj host_declared host_slots))))). Qed.

(** Exactly: with the names the parser reads, code generation completes if and only
    if there is no struct, namespaces and fields have a letter in front, no type is
    used in a namespace of its very name or spelled with [_] (or [try]), defaults
    can be written where they go, and the slots can be computed. *)
Theorem C57_exact try_ok float_ok ident_ok path_ok literal_ok hg es root : decides try_ok float_ok ident_ok path_ok literal_ok ->
  build snake_case es = Done root -> (forall e x, In e es -> In x (names_in e) -> ascii_name x) ->
  (emit snake_case shouty_snake_case ident_ok path_ok literal_ok hg root <> None <-> emits_all try_ok float_ok hg root).
Proof. exact (fun D B N => writes_exactly try_ok float_ok ident_ok path_ok literal_ok hg D es root B N). Qed.
Print Assumptions C57_exact.
Example C57_exact_case hg : decides false any_float sample_ident plain_path sample_literal /\
  (forall es, In es written -> (forall e x, In e es -> In x (names_in e) -> ascii_name x) /\ exists root items, build snake_case es = Done root /\ plain_emit hg root = Some items) /\
  (forall es, In es unwritten -> (forall e x, In e es -> In x (names_in e) -> ascii_name x) /\ exists root, build snake_case es = Done root /\ plain_emit hg root = None).
Proof. exact (conj plain_decides (conj (written_emits hg) (unwritten_panics hg))). Qed.

(** C58.  The generated code defines no name twice exactly if the schema has no
    type named like the [Args] or [Builder] of a table beside it, no two namespaces
    side by side and no two enums in one module that are the same in snake case,
    and no namespace that in snake case is a type beside it. *)
Theorem C58_no_clash_iff snake shouty ident_ok path_ok literal_ok hg es root items : build snake es = Done root ->
  emit snake shouty ident_ok path_ok literal_ok hg root = Some items -> (no_clash items <-> clash_free snake root).
Proof. exact (fun B E => no_clash_iff snake shouty ident_ok path_ok literal_ok hg es root B items E). Qed.
Print Assumptions C58_no_clash_iff.
(** So C58 as stated is false: there is a schema against each of the four
    conditions, and none of them is noticed. *)
Theorem C58_refuted hg : forall es, In es clashing -> exists root items, build snake_case es = Done root /\ sample_emit hg root = Some items /\ ~ no_clash items.
Proof. exact (clash_refuted hg). Qed.
Print Assumptions C58_refuted.
Example C58_case : option_map (fun l => map type_names (l :: flat_map (fun x => match x with XMod _ i => i :: flat_map (fun y => match y with XMod _ j => [j] | _ => [] end) i | _ => [] end) l)) (sample_emit (Host true false) host_root) =
  Some [[lit "a"]; [lit "b"]; [lit "butte_gen"; lit "Color"; lit "U"; lit "Orc"; lit "OrcArgs"; lit "OrcBuilder"; lit "Elf"; lit "ElfArgs"; lit "ElfBuilder"]].
Proof. exact host_emits. Qed.

(** C59.  In a schema with one namespace every path in the generated code leads to
    an item of the right kind. *)
Theorem C59_one_namespace shouty ident_ok path_ok literal_ok hg es root items ns : build snake_case es = Done root ->
  emit snake_case shouty ident_ok path_ok literal_ok hg root = Some items -> one_namespace ns es ->
  forall here found k name paths path k', module_at items here found -> In (XType k name paths) found -> In (path, k') paths ->
  leads items here path k'.
Proof. exact (fun B E One => paths_one_namespace snake_case shouty ident_ok path_ok literal_ok hg es root B items E ns One eq_refl). Qed.
Print Assumptions C59_one_namespace.
(** With several namespaces it is enough that types are declared before they are
    used, that no type has the name of a namespace, and that namespaces are
    written in snake case. *)
Theorem C59_declared_before_use snake shouty ident_ok path_ok literal_ok hg es root items : build snake es = Done root ->
  emit snake shouty ident_ok path_ok literal_ok hg root = Some items -> declared_before_use es ->
  (forall p n q c, In (p, n) (all_contents root) -> In (q, c) (defined root) -> ~ encloses q p) ->
  (forall q c x, In (q, c) (defined root) -> In x (removelast q) -> module_name snake x = x) ->
  forall here found k name paths path k', module_at items here found -> In (XType k name paths) found -> In (path, k') paths ->
  leads items here path k'.
Proof. exact (fun B E => paths_before_use snake shouty ident_ok path_ok literal_ok hg es root B items E). Qed.
Print Assumptions C59_declared_before_use.
(** In general all paths lead where they should exactly if every type that the code
    of a definition spells is, as it is seen from there, the place in the generated
    code of a definition of its kind. *)
Theorem C59_exact snake shouty ident_ok path_ok literal_ok hg es root items : build snake es = Done root ->
  emit snake shouty ident_ok path_ok literal_ok hg root = Some items ->
  (forall here found k name paths path k', module_at items here found -> In (XType k name paths) found -> In (path, k') paths -> leads items here path k') <->
  (forall p n q k, In (p, n) (all_contents root) -> In (q, k) (spelled n) ->
    exists q' c, In (q', c) (defined root) /\ rkind_of c = k /\ seen_as snake p q (emitted_item snake q')).
Proof. exact (fun B E => all_lead_iff snake shouty ident_ok path_ok literal_ok hg es root B items E). Qed.
Print Assumptions C59_exact.
(** Where no names clash (C58) and no mention dangles (C44), that is: no type is
    used inside a namespace of its own name, and the namespaces that a path goes
    down into are in snake case. *)
Theorem C59_exact_defined snake shouty ident_ok path_ok literal_ok hg es root items : build snake es = Done root ->
  emit snake shouty ident_ok path_ok literal_ok hg root = Some items ->
  clash_free snake root -> (forall d a, namespace_in root (d ++ [a]) -> snake (snake a) = snake a) ->
  (forall p n q c, In (p, n) (all_contents root) -> In (q, c) (mentions n) -> In (q, c) (defined root)) ->
  (forall here found k name paths path k', module_at items here found -> In (XType k name paths) found -> In (path, k') paths -> leads items here path k') <->
  (forall p n q k, In (p, n) (all_contents root) -> In (q, k) (spelled n) ->
    ~ encloses q p /\ forall x, In x (skipn (common_prefix q p) (removelast q)) -> module_name snake x = x).
Proof. exact (fun B E => all_lead_defined snake shouty ident_ok path_ok literal_ok hg es root B items E). Qed.
Print Assumptions C59_exact_defined.
Example C59_exact_case : build snake_case game = Done game_root /\ (exists items, sample_emit (Host true false) game_root = Some items) /\
  clash_free snake_case game_root /\ (forall d a, namespace_in game_root (d ++ [a]) -> snake_case (snake_case a) = snake_case a) /\
  (forall p n q c, In (p, n) (all_contents game_root) -> In (q, c) (mentions n) -> In (q, c) (defined game_root)) /\
  flat_map (fun x => map (fun u => (fst x, u)) (spelled (snd x))) (all_contents game_root) =
    [([lit "my_game"; lit "maps"], ([lit "my_game"; lit "units"; lit "Orc"], RTable)); ([lit "my_game"; lit "maps"], ([lit "my_game"; lit "maps"; lit "Kind"], REnum))].
Proof. exact (conj game_build (conj (game_emits _) (conj game_clash_free (conj game_idempotent (conj game_mentions game_spelled))))). Qed.
(** As stated C59 is false: a namespace that is not in snake case is referred to by
    the name it does not have. *)
Theorem C59_refuted hg : exists root items here f name paths path k, build snake_case two_spaces = Done root /\ sample_emit hg root = Some items /\
  module_at items here f /\ In (XType RTable name paths) f /\ In (path, k) paths /\ ~ leads items here path k.
Proof. exact (path_refuted hg). Qed.
Print Assumptions C59_refuted.
Example C59_case : one_namespace [lit "a"; lit "b"] host_schema /\ build snake_case host_schema = Done host_root /\
  (exists items, sample_emit (Host true false) host_root = Some items /\
   exists inner found paths, In (XMod (lit "a") inner) items /\ In (XMod (lit "b") found) inner /\ In (XType RTable (lit "Orc") paths) found /\
     In ([lit "butte_gen"; lit "UType"], REnum) paths /\ In ([lit "Elf"], RTable) paths).
Proof. exact host_paths. Qed.

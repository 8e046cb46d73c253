(** Property C71: what of a schema text has no effect.  Statements only; each theorem
    is closed by a lemma of the proof files.  Vocabulary: SpecResolve.v ([bare]: a
    declaration without attributes, but for [required] of fields and [streaming] of
    methods, and without the values of union variants), SpecGrammar.v ([clear_text]:
    the texts that are read, and as what), Compile.v ([compile]: what a run comes
    to), SpecTable.v ([variant_number]: the number of a variant at a position). *)
From Coq Require Import Strings.String ZArith List Bool Lia Strings.Byte.
From Verif Require Import Base Schema Parser Resolve Compile SpecParser SpecGrammar SpecTable SpecResolve ResolveProofs12 CompileProofs.
Import ListNotations.
Local Open Scope Z_scope.

(** C71, exactly: attributes other than [required] and [streaming], and values of
    union variants, have no effect at all.  A schema and the same without them are
    resolved to the same definitions, or rejected for the same reason, or panic
    both. *)
Theorem C71_no_effect snake es :
  build snake (map bare es) = match build snake es with Fail (Unresolved l) => Fail (Unresolved (map bare l)) | r => r end.
Proof. exact (build_bare snake es). Qed.
Print Assumptions C71_no_effect.

(** So two texts that read as the same declarations but for these, with whatever
    includes, compile to the same. *)
Theorem C71_texts ua un uw f6 fh has_stem snake
  (alphabetic_wide : forall c, ua c = true -> wide c) (alphanumeric_wide : forall c, un c = true -> wide c)
  (hexf_range : forall t v, fh t = Some v -> 0 <= v < 2 ^ 64) t t' S S' :
  clear_text ua un uw f6 fh has_stem t S -> plain_types S -> clear_text ua un uw f6 fh has_stem t' S' -> plain_types S' ->
  map bare (sc_elements S) = map bare (sc_elements S') ->
  compile ua un uw f6 fh has_stem snake t = compile ua un uw f6 fh has_stem snake t'.
Proof. exact (compile_alike ua un uw f6 fh has_stem snake alphabetic_wide alphanumeric_wide hexf_range t t' S S'). Qed.
Print Assumptions C71_texts.

(** A variant of a union always has its position, counted from 1, as its number. *)
Theorem C71_union_numbers snake es root path u k v : build snake es = Done root ->
  In (path, NUnion u) (all_contents root) -> nth_error (iu_variants u) k = Some v ->
  exists vs w, In (iu_enum u, KEnum vs UByte) (defined root) /\ nth_error vs (S k) = Some w /\ iev_id w = iuv_id v /\
    variant_number (S k) w = Z.of_nat (S k).
Proof. exact (union_numbers snake es root path u k v). Qed.
Print Assumptions C71_union_numbers.

(** C71 as stated is false: the field [a] is the first although its id is 1, the
    flags have the numbers 0, 1 and 2, and the variant [A] has not the number 5. *)
Theorem C71_refuted ua un uw f6 fh has_stem snake :
  (exists fs, compile ua un uw f6 fh has_stem snake (lit "table T { a : int (id: 1); b : int (id: 0); }") =
     Generated [NTable (ITable [lit "T"] fs false [])] /\ map if_id fs = [lit "a"; lit "b"]) /\
  (exists vs, compile ua un uw f6 fh has_stem snake (lit "enum E : ubyte(bit_flags) { A, B, C }") =
     Generated [NEnum (IEnum [lit "E"] vs UByte [])] /\
     map (fun x => variant_number (fst x) (snd x)) (combine (seq 0 3) vs) = [0; 1; 2]) /\
  (exists vs u, compile ua un uw f6 fh has_stem snake (lit "table A { } union U { A = 5 }") =
     Generated [NNamespace [lit "butte_gen"] [NEnum (IEnum [lit "butte_gen"; lit "UType"] vs UByte [])]; NTable (ITable [lit "A"] [] false []); NUnion u] /\
     map (fun x => variant_number (fst x) (snd x)) (combine (seq 0 2) vs) = [0; 1]).
Proof.
  split; [eexists; split; [vm_compute; reflexivity|reflexivity]|]. split; [eexists; split; [vm_compute; reflexivity|reflexivity]|].
  do 2 eexists. split; [vm_compute; reflexivity|reflexivity].
Qed.
Print Assumptions C71_refuted.

(** Includes are read and ignored: a type of an included file is not known. *)
Theorem C71_include_refuted ua un uw f6 fh snake :
  compile ua un uw f6 fh (fun _ => true) snake (lit "include ""other.fbs""; table T { x : Other; }") = Rejected /\
  compile ua un uw f6 fh (fun _ => true) snake (lit "include ""other.fbs""; table T { }") =
  compile ua un uw f6 fh (fun _ => true) snake (lit "table T { }").
Proof. split; vm_compute; reflexivity. Qed.
Print Assumptions C71_include_refuted.

(** [required] and [streaming] are kept, the rest is forgotten; and a schema with
    all of these. *)
Example C71_case :
  bare (ETable (AProduct (lit "T") [AField (lit "a") AString None (Some [(lit "id", Some (SScalar (CInt 1))); (lit "required", None)]) []] (Some [(lit "original_order", None)]) [])) =
    ETable (AProduct (lit "T") [AField (lit "a") AString None (Some [(lit "required", None)]) []] None []) /\
  (exists root, build (fun x => x) [ETable (AProduct (lit "T") [AField (lit "a") AString None (Some [(lit "id", Some (SScalar (CInt 1))); (lit "required", None)]) []] (Some [(lit "original_order", None)]) []);
     EUnion (AUnion (lit "U") [AVariant (lit "T") (Some 7) []] None [])] = Done root /\
     exists path u v, In (path, NUnion u) (all_contents root) /\ nth_error (iu_variants u) 0 = Some v /\ iuv_id v = lit "T").
Proof.
  split; [reflexivity|]. eexists. split; [vm_compute; reflexivity|]. do 3 eexists. split; [vm_compute; right; right; left; reflexivity|]. split; reflexivity.
Qed.

(** Property C64: documents in the words of a schema.  Statements only; each theorem is
    closed by a lemma of the proof files.  Vocabulary: SpecDoc.v ([doc]: documents that
    name fields and variants as the schema does; [shaped]: the documents of a Rust type;
    [complete]: no required field is given its default, or left out for it; [fits]: both;
    [calls_for]: the arguments a program passes for one; [save]: writing and finishing
    one; [reads]: what the accessors return for one; [compiled_tables]), SpecGen.v
    ([put], [tree_size]), SpecBuilder.v. *)
From Coq Require Import Strings.String ZArith List Bool Strings.Byte.
From Verif Require Import Base Scalar SpecWire Reader SpecReader Builder Ops SpecBuilder Schema Codegen Resolve Compile Heck SpecResolve SpecGen SpecTable SpecDoc
  GenProofs9 DocProofs5 DocCase.
Import ListNotations.
Local Open Scope string_scope.
Local Open Scope list_scope.
Local Open Scope Z_scope.

(** Every document that fits a table of a schema can be saved, with any identifier and
    any start capacity, with and without a size prefix, in debug and release builds,
    on hosts of either byte order; read on any host, what the accessors return for it
    is the document, left-out fields reading as their defaults.  The identifier is
    there, and so is the size. *)
Theorem C64_saved fl snake root hg es x q : build snake es = Done root -> floats_ok fl -> compiled_tables fl snake root hg ->
  fits fl snake root x (ICustom q KTable) -> exists y, calls_for fl snake root hg x (ICustom q KTable) = Some y /\
  forall h c ident sp, 0 <= c <= MAX_BUFFER_SIZE -> match ident with Some i => blen i = 4 | None => True end -> tree_size y + 150000 < 2 ^ 31 ->
    exists D, save fl snake root hg h c x q ident sp = Val D /\
      (forall hr, exists w, (if sp then get_size_prefixed_root hr FTable D else get_root hr FTable D) = Val w /\
         reads fl snake root hg hr D x (ICustom q KTable) (GPlain w)) /\
      (forall hr i j, ident = Some i -> blen j = 4 -> buffer_has_identifier hr D j sp = Val (bytes_eqb j i)) /\
      (sp = true -> le_at D 0 4 (blen D - 4)).
Proof. exact (fun B F A => doc_saved fl snake root hg es B F A x q). Qed.
Print Assumptions C64_saved.

(** The same between any other calls, for documents of all types that are stored
    behind an offset. *)
Theorem C64_between fl snake root hg es x t u : build snake es = Done root -> floats_ok fl -> compiled_tables fl snake root hg ->
  follow_ty t = Some (FUOffset u) -> fits fl snake root x t -> exists y, calls_for fl snake root hg x t = Some y /\
  forall h c before xs b0, 0 <= c -> calls_ok before = true -> closed before = true -> program h c before = Val (b0, xs) -> nested b0 = false ->
    blen (unfinished_data b0) + tree_size y + 150000 < 2 ^ 31 ->
    exists b1 o, put h b0 y = Val (b1, Some (POffset o)) /\
      forall hr later b zs, calls_ok later = true -> no_reset later = true -> run h b1 later = Val (b, zs) -> blen (unfinished_data b) < 2 ^ 31 ->
        exists w, follow hr u (unfinished_data b) (blen (unfinished_data b) - o) = Val w /\ reads fl snake root hg hr (unfinished_data b) x t (GPlain w).
Proof. exact (fun B F A => doc_between fl snake root hg es B F A x t u). Qed.
Print Assumptions C64_between.

(** Exactly: the others of the right Rust types, in which some required field is given
    its default or left out for it, make the generated code panic. *)
Theorem C64_exact fl snake root hg es x q : build snake es = Done root -> floats_ok fl -> compiled_tables fl snake root hg ->
  shaped snake root x (ICustom q KTable) -> exists y, calls_for fl snake root hg x (ICustom q KTable) = Some y /\
  forall h c ident sp, 0 <= c <= MAX_BUFFER_SIZE -> match ident with Some i => blen i = 4 | None => True end -> tree_size y + 150000 < 2 ^ 31 ->
    (complete fl snake root x (ICustom q KTable) /\ exists D, save fl snake root hg h c x q ident sp = Val D) \/
    (~ complete fl snake root x (ICustom q KTable) /\ save fl snake root hg h c x q ident sp = Panic).
Proof. exact (fun B F A => doc_exact fl snake root hg es B F A x q). Qed.
Print Assumptions C64_exact.

Theorem C64_refused fl snake root hg es x t u : build snake es = Done root -> floats_ok fl -> compiled_tables fl snake root hg ->
  follow_ty t = Some (FUOffset u) -> shaped snake root x t -> exists y, calls_for fl snake root hg x t = Some y /\
  (complete fl snake root x t \/ ~ complete fl snake root x t /\
   forall h c before xs b0, 0 <= c -> calls_ok before = true -> closed before = true -> program h c before = Val (b0, xs) -> nested b0 = false ->
     blen (unfinished_data b0) + tree_size y + 150000 < 2 ^ 31 -> put h b0 y = Panic).
Proof. exact (fun B F A => doc_refused fl snake root hg es B F A x t u). Qed.
Print Assumptions C64_refused.

(** From the text of the schema to the bytes of the document and back. *)
Theorem C64_from_text ua un uw f6 fh has_stem snake t root fl hg x q : compile ua un uw f6 fh has_stem snake t = Generated root ->
  floats_ok fl -> compiled_tables fl snake root hg -> fits fl snake root x (ICustom q KTable) -> exists y, calls_for fl snake root hg x (ICustom q KTable) = Some y /\
  forall h c ident sp, 0 <= c <= MAX_BUFFER_SIZE -> match ident with Some i => blen i = 4 | None => True end -> tree_size y + 150000 < 2 ^ 31 ->
    exists D, save fl snake root hg h c x q ident sp = Val D /\
      forall hr, exists w, (if sp then get_size_prefixed_root hr FTable D else get_root hr FTable D) = Val w /\
        reads fl snake root hg hr D x (ICustom q KTable) (GPlain w).
Proof. exact (doc_from_text ua un uw f6 fh has_stem snake t root fl hg x q). Qed.
Print Assumptions C64_from_text.

(** A schema, and an orc with a sword and two friends in its words. *)
Example C64_case : compile (fun _ => false) (fun _ => false) (fun _ => false) (fun _ => None) (fun _ => None) (fun _ => true) snake_case game = Generated game_root /\
  (forall fl hg, compiled_tables fl snake_case game_root hg) /\ (forall fl, fits fl snake_case game_root orc (ICustom monster KTable)) /\
  (forall hg, match calls_for fl0 snake_case game_root hg orc (ICustom monster KTable) with Some y => tree_size y <? 3000 | None => false end = true) /\
  save fl0 snake_case game_root (Host true false) (Host true false) 0 orc monster (Some (lit "GAME")) false = Val orc_file /\ blen orc_file = 208.
Proof. exact (conj game_compiles (conj game_fine (conj orc_fits (conj orc_size orc_saved)))). Qed.

(** A coin that is worth nothing. *)
Example C64_refused_case : compile (fun _ => false) (fun _ => false) (fun _ => false) (fun _ => None) (fun _ => None) (fun _ => true) snake_case mint = Generated mint_root /\
  (forall fl hg, compiled_tables fl snake_case mint_root hg) /\ (forall edge, shaped snake_case mint_root (worthless edge) (ICustom coin KTable)) /\
  save fl0 snake_case mint_root (Host true false) (Host true false) 0 (worthless true) coin None false = Panic.
Proof. exact (conj mint_compiles (conj mint_fine (conj worthless_shaped worthless_panics))). Qed.

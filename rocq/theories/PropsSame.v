(** Property C73: a document has one file and a file one document.  Statements only;
    each theorem is closed by a lemma of the proof files.  Vocabulary: SpecDoc.v
    ([fits], [shaped], [calls_for], [save], [reads], [compiled_tables]), SpecSame.v
    ([same]: equal field by field, numbers by [==], a field given its default or left
    out, whatever the order; [same_bits]: numbers bit by bit), SpecGen.v ([tree_size]). *)
From Coq Require Import Strings.String ZArith List Bool Strings.Byte.
From Verif Require Import Base Scalar SpecWire Reader SpecReader Builder Ops Schema Codegen Resolve Compile Heck SpecResolve SpecGen SpecTable SpecDoc SpecSame
  GenProofs9 DocProofs5 DocProofs7 DocProofs8 DocProofs9 DocCase SameCase.
Import ListNotations.
Local Open Scope string_scope.
Local Open Scope list_scope.
Local Open Scope Z_scope.

(** The file of a document is the same in debug and release builds, on hosts of
    either byte order and for all start capacities. *)
Theorem C73_one_file fl snake root hg es x q : build snake es = Done root -> floats_ok fl -> compiled_tables fl snake root hg ->
  fits fl snake root x (ICustom q KTable) -> exists y, calls_for fl snake root hg x (ICustom q KTable) = Some y /\
  forall ident sp, match ident with Some i => blen i = 4 | None => True end -> tree_size y + 150000 < 2 ^ 31 ->
    exists D, forall h c, 0 <= c <= MAX_BUFFER_SIZE -> save fl snake root hg h c x q ident sp = Val D.
Proof. exact (fun B F A => doc_one_file fl snake root hg es B F A x q). Qed.
Print Assumptions C73_one_file.

(** Without bounds: two programs that complete, for one document, have one file. *)
Theorem C73_no_two_files fl snake root hg es x q h h' c c' ident sp D D' : build snake es = Done root -> floats_ok fl -> compiled_tables fl snake root hg ->
  shaped snake root x (ICustom q KTable) -> 0 <= c -> 0 <= c' ->
  save fl snake root hg h c x q ident sp = Val D -> save fl snake root hg h' c' x q ident sp = Val D' -> D = D'.
Proof. exact (fun B F A => save_one fl snake root hg es B F A x q h h' c c' ident sp D D'). Qed.
Print Assumptions C73_no_two_files.

(** The documents that a file reads as, on any host, are exactly those that say the
    same as the one it was written for. *)
Theorem C73_exact fl snake root hg es x x' q y h c ident sp D hr : build snake es = Done root -> floats_ok fl -> compiled_tables fl snake root hg ->
  shaped snake root x (ICustom q KTable) -> shaped snake root x' (ICustom q KTable) ->
  calls_for fl snake root hg x (ICustom q KTable) = Some y -> tree_size y + 150000 < 2 ^ 31 ->
  0 <= c <= MAX_BUFFER_SIZE -> match ident with Some i => blen i = 4 | None => True end -> save fl snake root hg h c x q ident sp = Val D ->
  ((exists w, (if sp then get_size_prefixed_root hr FTable D else get_root hr FTable D) = Val w /\ reads fl snake root hg hr D x' (ICustom q KTable) (GPlain w)) <->
   same fl root (ICustom q KTable) x x').
Proof. exact (fun B F A => doc_of_file fl snake root hg es B F A x x' q y h c ident sp D hr). Qed.
Print Assumptions C73_exact.

(** So documents that do not say the same have different files. *)
Theorem C73_one_document fl snake root hg es x x' q y y' h h' c c' ident ident' sp D : build snake es = Done root -> floats_ok fl -> compiled_tables fl snake root hg ->
  shaped snake root x (ICustom q KTable) -> shaped snake root x' (ICustom q KTable) ->
  calls_for fl snake root hg x (ICustom q KTable) = Some y -> tree_size y + 150000 < 2 ^ 31 ->
  calls_for fl snake root hg x' (ICustom q KTable) = Some y' -> tree_size y' + 150000 < 2 ^ 31 ->
  0 <= c <= MAX_BUFFER_SIZE -> 0 <= c' <= MAX_BUFFER_SIZE ->
  match ident with Some i => blen i = 4 | None => True end -> match ident' with Some i => blen i = 4 | None => True end ->
  save fl snake root hg h c x q ident sp = Val D -> save fl snake root hg h' c' x' q ident' sp = Val D -> same fl root (ICustom q KTable) x x'.
Proof. exact (fun B F A => files_differ fl snake root hg es B F A x x' q y y' h h' c c' ident ident' sp D). Qed.
Print Assumptions C73_one_document.

(** Documents that say the same with numbers of the same bits have the same file. *)
Theorem C73_same_file fl snake root hg es x x' q : build snake es = Done root ->
  shaped snake root x (ICustom q KTable) -> shaped snake root x' (ICustom q KTable) -> same_bits fl root (ICustom q KTable) x x' ->
  forall h c ident sp, save fl snake root hg h c x q ident sp = save fl snake root hg h c x' q ident sp.
Proof. exact (fun B => same_file fl snake root hg es B x x' q). Qed.
Print Assumptions C73_same_file.

(** An elf with the default of one field, and with that of another. *)
Example C73_same_file_case : (exists es, build snake_case es = Done game_root) /\ elf <> elf_again /\
  fits fl0 snake_case game_root elf (ICustom monster KTable) /\ fits fl0 snake_case game_root elf_again (ICustom monster KTable) /\
  same_bits fl0 game_root (ICustom monster KTable) elf elf_again.
Proof. exact (conj game_built (conj elves_differ (conj (elf_fits fl0) (conj (elf_again_fits fl0) (elves_same fl0))))). Qed.

(** Where no number is -0.0, two documents have the same file exactly if they say the
    same. *)
Theorem C73_same_exactly fl snake root hg es x x' q y y' h h' c c' ident sp : build snake es = Done root -> floats_ok fl -> compiled_tables fl snake root hg ->
  no_minus_zero_defaults fl root -> fits fl snake root x (ICustom q KTable) -> fits fl snake root x' (ICustom q KTable) ->
  no_minus_zero root x (ICustom q KTable) -> no_minus_zero root x' (ICustom q KTable) ->
  calls_for fl snake root hg x (ICustom q KTable) = Some y -> tree_size y + 150000 < 2 ^ 31 ->
  calls_for fl snake root hg x' (ICustom q KTable) = Some y' -> tree_size y' + 150000 < 2 ^ 31 ->
  0 <= c <= MAX_BUFFER_SIZE -> 0 <= c' <= MAX_BUFFER_SIZE -> match ident with Some i => blen i = 4 | None => True end ->
  (save fl snake root hg h c x q ident sp = save fl snake root hg h' c' x' q ident sp <-> same fl root (ICustom q KTable) x x').
Proof. exact (fun B F A P => same_exactly fl snake root hg es B F A P x x' q y y' h h' c c' ident sp). Qed.
Print Assumptions C73_same_exactly.

(** A place whose x is 0.0, given or left out. *)
Example C73_same_exactly_case : (exists es, build snake_case es = Done places_root) /\ compiled_tables fl0 snake_case places_root (Host true false) /\
  no_minus_zero_defaults fl0 places_root /\ here <> here_again /\
  fits fl0 snake_case places_root here (ICustom place_name KTable) /\ fits fl0 snake_case places_root here_again (ICustom place_name KTable) /\
  (no_minus_zero places_root here (ICustom place_name KTable) /\ no_minus_zero places_root here_again (ICustom place_name KTable)) /\
  exists D, save fl0 snake_case places_root (Host true false) (Host true false) 0 here place_name None false = Val D /\
    save fl0 snake_case places_root (Host true false) (Host false true) 1000 here_again place_name None false = Val D /\ blen D = 48.
Proof.
  exact (conj places_built (conj (places_fine (Host true false)) (conj places_defaults (conj heres_differ (conj here_fits (conj here_again_fits (conj heres_plain heres_saved))))))).
Qed.

(** Equal numbers are not enough: 0.0 and -0.0. *)
Theorem C73_same_bytes_refuted : exists t root x x' q,
  compile (fun _ => false) (fun _ => false) (fun _ => false) (fun _ => None) (fun _ => None) (fun _ => true) snake_case t = Generated root /\
  compiled_tables fl0 snake_case root (Host true false) /\
  fits fl0 snake_case root x (ICustom q KTable) /\ fits fl0 snake_case root x' (ICustom q KTable) /\ same fl0 root (ICustom q KTable) x x' /\
  exists D D', save fl0 snake_case root (Host true false) (Host true false) 0 x q None false = Val D /\
    save fl0 snake_case root (Host true false) (Host true false) 0 x' q None false = Val D' /\ D <> D'.
Proof.
  exact (ex_intro _ points (ex_intro _ points_root (ex_intro _ (zero_point false) (ex_intro _ (zero_point true) (ex_intro _ points_name
    (conj points_compiles (conj (points_fine fl0 _) (conj (zero_point_fits fl0 false) (conj (zero_point_fits fl0 true) (conj (zero_points_same fl0) zero_points_differ)))))))))).
Qed.
Print Assumptions C73_same_bytes_refuted.

(** An orc written in two orders, with defaults given here and left out there, by a
    debug build of a little endian host and a release build of a big endian one: one
    file, so the two say the same; the file does not read as another orc. *)
Example C73_case : exists es, build snake_case es = Done game_root /\ compiled_tables fl0 snake_case game_root (Host true false) /\
  fits fl0 snake_case game_root orc (ICustom monster KTable) /\ fits fl0 snake_case game_root same_orc (ICustom monster KTable) /\ orc <> same_orc /\
  save fl0 snake_case game_root (Host true false) (Host true false) 0 orc monster (Some (lit "GAME")) false = Val orc_file /\
  save fl0 snake_case game_root (Host true false) (Host false true) 1000 same_orc monster (Some (lit "GAME")) false = Val orc_file /\
  same fl0 game_root (ICustom monster KTable) orc same_orc /\
  fits fl0 snake_case game_root other_orc (ICustom monster KTable) /\ ~ same fl0 game_root (ICustom monster KTable) orc other_orc.
Proof. exact same_orc_case. Qed.

(** Property C63: runs of the schema compiler on files.  Statements only; each theorem
    is closed by a lemma of the proof files.  Vocabulary: Files.v ([compile_fbs] and
    [main]: the files after a run and how it ends; [locate]: the file a path leads
    to), SpecGrammar.v ([schema_text]), Resolve.v, Emit.v. *)
From Coq Require Import Strings.String ZArith List Bool Strings.Byte.
From Verif Require Import Base Schema Utf8 Parser Resolve SpecGrammar Emit Heck Files FilesProofs.
Import ListNotations.
Local Open Scope list_scope.

Section Run.
Context (ua un uw : text -> bool) (f6 fh : text -> option Z) (has_stem : text -> bool).
Context (snake shouty : text -> text) (ident_ok : ident -> bool) (path_ok : qident -> bool).
Context (literal_ok : scalar_const -> bool -> option qident -> ity -> bool) (hg : host).
Context (code : list node -> text) (rustfmt : text -> option (list byte)) (interrupted : list byte -> option (list byte)).
Context (locate : text -> Z) (creatable : Z -> bool) (out_dir : option text).
Notation compile_fbs := (compile_fbs ua un uw f6 fh has_stem snake shouty ident_ok path_ok literal_ok hg code rustfmt interrupted locate creatable out_dir).
Notation main := (main ua un uw f6 fh has_stem snake shouty ident_ok path_ok literal_ok hg code rustfmt interrupted locate creatable).
Notation makes := (makes ua un uw f6 fh has_stem snake shouty ident_ok path_ok literal_ok hg code rustfmt).
Notation emit := (emit snake shouty ident_ok path_ok literal_ok hg).

(** No run touches a file other than its output. *)
Theorem C63_others fs p fs' e : compile_fbs fs p = (fs', e) -> forall f, fs' f <> fs f ->
  exists dir name, out_dir = Some dir /\ output_name p = Some name /\ f = locate (join dir name).
Proof. exact (run_others ua un uw f6 fh has_stem snake shouty ident_ok path_ok literal_ok hg code rustfmt interrupted locate creatable out_dir fs p fs' e). Qed.
Theorem C63_main_others fs stdin i o ugly fs' w e : main fs stdin i o ugly = (fs', w, e) -> forall f, fs' f <> fs f -> exists p, o = Some p /\ f = locate p.
Proof. exact (main_others ua un uw f6 fh has_stem snake shouty ident_ok path_ok literal_ok hg code rustfmt interrupted locate creatable fs stdin i o ugly fs' w e). Qed.

(** After a successful run, if the input is not its own output, the input was a text of
    the language that resolves, and the output is what [rustfmt] made of the code
    generated for it. *)
Theorem C63_success fs p fs' t dir name
  (alphabetic_wide : forall c, ua c = true -> wide c) (alphanumeric_wide : forall c, un c = true -> wide c)
  (hexf_range : forall t v, fh t = Some v -> (0 <= v < 2 ^ 64)%Z) :
  compile_fbs fs p = (fs', Succeeds) -> out_dir = Some dir -> output_name p = Some name -> fs (locate p) = Some t ->
  locate p <> locate (join dir name) ->
  utf8_valid t = true /\ exists S root items out, schema_text ua un f6 fh has_stem t S /\ build snake (sc_elements S) = Done root /\
    emit root = Some items /\ rustfmt (code root) = Some out /\ fs' (locate (join dir name)) = Some out.
Proof. exact (run_success ua un uw f6 fh has_stem snake shouty ident_ok path_ok literal_ok hg code rustfmt interrupted locate creatable out_dir alphabetic_wide alphanumeric_wide hexf_range fs p fs' t dir name). Qed.

(** Exactly when it succeeds, and what it leaves then: [makes]: the text is UTF-8 and
    one of those read (C48), it resolves, and code is generated and formatted;
    [contents]: nothing, if the input is the output too; [written]: the output, and
    nothing else. *)
Theorem C63_exact fs p fs' e
  (alphabetic_wide : forall c, ua c = true -> wide c) (alphanumeric_wide : forall c, un c = true -> wide c)
  (hexf_range : forall t v, fh t = Some v -> (0 <= v < 2 ^ 64)%Z) :
  compile_fbs fs p = (fs', e) -> (e = Succeeds <-> exists dir name t out, out_dir = Some dir /\ output_name p = Some name /\
    contents fs (locate p) (Some (locate (join dir name))) = Some t /\ creatable (locate (join dir name)) = true /\
    makes false t out /\ interrupted out = None /\ written fs fs' (locate (join dir name)) out).
Proof. exact (run_exact ua un uw f6 fh has_stem snake shouty ident_ok path_ok literal_ok hg code rustfmt interrupted locate creatable out_dir alphabetic_wide alphanumeric_wide hexf_range fs p fs' e). Qed.
(** The same of the command: the code goes to the output file or else to the standard
    output, never to both; so does what is written before a failure. *)
Theorem C63_main_exact fs stdin i o ugly fs' w e
  (alphabetic_wide : forall c, ua c = true -> wide c) (alphanumeric_wide : forall c, un c = true -> wide c)
  (hexf_range : forall t v, fh t = Some v -> (0 <= v < 2 ^ 64)%Z) :
  main fs stdin i o ugly = (fs', w, e) -> (e = Succeeds <-> exists t out,
    (match i with None => Some stdin | Some p => contents fs (locate p) (option_map locate o) end) = Some t /\ makes ugly t out /\ interrupted out = None /\
    match o with None => w = out /\ fs' = fs | Some q => w = [] /\ creatable (locate q) = true /\ written fs fs' (locate q) out end) /\
  (e <> Succeeds -> match o with
    | None => fs' = fs /\ (w = [] \/ exists out, interrupted out = Some w)
    | Some q => w = [] /\ (fs' = fs \/ exists v, written fs fs' (locate q) v /\ (v = [] \/ exists out, interrupted out = Some v))
    end).
Proof. exact (main_exact ua un uw f6 fh has_stem snake shouty ident_ok path_ok literal_ok hg code rustfmt interrupted locate creatable alphabetic_wide alphanumeric_wide hexf_range fs stdin i o ugly fs' w e). Qed.

(** After any other run, either no file has changed, as there was no input to read or
    no output to write, or the output is empty, or as far as it could be written. *)
Theorem C63_failure fs p fs' e : compile_fbs fs p = (fs', e) -> e <> Succeeds ->
  (forall f, fs' f = fs f) /\ (out_dir = None \/ output_name p = None \/ fs (locate p) = None \/
     exists dir name, out_dir = Some dir /\ output_name p = Some name /\ creatable (locate (join dir name)) = false) \/
  exists dir name w, out_dir = Some dir /\ output_name p = Some name /\ fs' (locate (join dir name)) = Some w /\
    (w = [] \/ exists out, interrupted out = Some w).
Proof. exact (run_failure ua un uw f6 fh has_stem snake shouty ident_ok path_ok literal_ok hg code rustfmt interrupted locate creatable out_dir fs p fs' e). Qed.

(** A schema that is its own output is lost, and the run succeeds. *)
Theorem C63_own_output fs p dir name t : out_dir = Some dir -> output_name p = Some name -> locate p = locate (join dir name) ->
  fs (locate p) = Some t -> creatable (locate p) = true -> rustfmt (code []) = Some [] -> interrupted [] = None ->
  exists fs', compile_fbs fs p = (fs', Succeeds) /\ fs' (locate p) = Some [].
Proof. exact (run_own ua un uw f6 fh has_stem snake shouty ident_ok path_ok literal_ok hg code rustfmt interrupted locate creatable out_dir fs p dir name t). Qed.
Theorem C63_main_own_output fs stdin i o ugly t : locate i = locate o -> fs (locate i) = Some t -> creatable (locate i) = true ->
  code [] = [] -> rustfmt [] = Some [] -> interrupted [] = None ->
  exists fs', main fs stdin (Some i) (Some o) ugly = (fs', [], Succeeds) /\ fs' (locate i) = Some [].
Proof. exact (main_own ua un uw f6 fh has_stem snake shouty ident_ok path_ok literal_ok hg code rustfmt interrupted locate creatable fs stdin i o ugly t). Qed.
End Run.
Print Assumptions C63_others.
Print Assumptions C63_main_others.
Print Assumptions C63_success.
Print Assumptions C63_exact.
Print Assumptions C63_main_exact.
Print Assumptions C63_failure.
Print Assumptions C63_own_output.
Print Assumptions C63_main_own_output.

(** The output of a file [s.e] is [s.rs], whatever the directory it is in, so files of
    the same name in different directories have the same output. *)
Theorem C63_output_name d s e : ~ In "/"%byte s -> ~ In "/"%byte e -> ~ In "."%byte e -> s <> [] -> s ++ lit "." ++ e <> lit ".." ->
  output_name (in_dir d (s ++ lit "." ++ e)) = Some (s ++ lit ".rs").
Proof. exact (output_of d s e). Qed.
Print Assumptions C63_output_name.

(** Which name the output has, for every path: the last name of the path, up to its
    last dot unless that is its first character, and [.rs]; none if the last name is
    [..], or there is none. *)
Theorem C63_output_exact p n : output_name p = Some n <->
  exists x, ends_in p x /\ x <> lit ".." /\
    ((exists s e, x = s ++ lit "." ++ e /\ s <> [] /\ ~ In "."%byte e /\ n = s ++ lit ".rs")
     \/ (exists c e, x = c :: e /\ ~ In "."%byte e /\ n = x ++ lit ".rs")).
Proof. exact (output_exact p n). Qed.
Print Assumptions C63_output_exact.

(** The output is the file of that name in the output directory. *)
Theorem C63_output_place p dir name : output_name p = Some name -> ends_in (join dir name) name /\
  exists sep, join dir name = dir ++ sep ++ name /\ (sep = [] \/ sep = lit "/" /\ dir <> [] /\ forall d, dir <> d ++ lit "/").
Proof. exact (output_place p dir name). Qed.
Print Assumptions C63_output_place.

(** As stated C63 is false: a syntax error destroys the output of the last run, ... *)
Theorem C63_lost_refuted ua un uw f6 fh has_stem snake shouty ident_ok path_ok literal_ok hg code rustfmt interrupted old :
  exists fs', compile_fbs ua un uw f6 fh has_stem snake shouty ident_ok path_ok literal_ok hg code rustfmt interrupted two_places (fun _ => true) (Some (lit "out"))
    (two_files (lit "tabel T {}") old) (lit "a.fbs") = (fs', Panics) /\ fs' (two_places (lit "out/a.rs")) = Some [].
Proof. exact (output_lost ua un uw f6 fh has_stem snake shouty ident_ok path_ok literal_ok hg code rustfmt interrupted old). Qed.
Print Assumptions C63_lost_refuted.
(** ... and if [rustfmt] fails, and so writes nothing, the run succeeds with no code. *)
Theorem C63_rustfmt_refuted ua un uw f6 fh has_stem snake shouty path_ok literal_ok hg code interrupted old : interrupted [] = None ->
  exists fs', compile_fbs ua un uw f6 fh has_stem snake shouty (fun _ => true) path_ok literal_ok hg code (fun _ => Some []) interrupted two_places (fun _ => true) (Some (lit "out"))
    (two_files (lit "table T {}") old) (lit "a.fbs") = (fs', Succeeds) /\ fs' (two_places (lit "out/a.rs")) = Some [].
Proof. exact (silent_failure ua un uw f6 fh has_stem snake shouty path_ok literal_ok hg code interrupted old). Qed.
Print Assumptions C63_rustfmt_refuted.

Example C63_case : exists fs', compile_fbs never never never (fun _ => None) (fun _ => None) never snake_case shouty_snake_case (fun _ => true) (fun _ => true) (fun _ _ _ _ => true) (Host true false)
    (fun _ => lit "code") (fun t => Some (t ++ lit ";")) (fun _ => None) two_places (fun _ => true) (Some (lit "out")) (two_files (lit "table T {}") (lit "old")) (lit "a.fbs") = (fs', Succeeds) /\
  output_name (lit "a.fbs") = Some (lit "a.rs") /\ two_places (lit "a.fbs") <> two_places (join (lit "out") (lit "a.rs")) /\
  fs' (two_places (lit "out/a.rs")) = Some (lit "code;") /\ fs' (two_places (lit "a.fbs")) = Some (lit "table T {}").
Proof. exact compiled_case. Qed.
Example C63_output_case : output_name (lit "fbs/greeter/greeter.fbs") = Some (lit "greeter.rs") /\ output_name (lit "a/.hidden/") = Some (lit ".hidden.rs") /\
  output_name (lit "a/..") = None /\ output_name (lit "x.y.fbs/.") = Some (lit "x.y.rs") /\ join (lit "out/") (lit "a.rs") = lit "out/a.rs".
Proof. repeat split; reflexivity. Qed.
(** From the standard input to the standard output, and to a file. *)
Example C63_main_case :
  let run o := main never never never (fun _ => None) (fun _ => None) never snake_case shouty_snake_case (fun _ => true) (fun _ => true) (fun _ _ _ _ => true) (Host true false)
    (fun _ => lit "code") (fun t => Some (t ++ lit ";")) (fun _ => None) two_places (fun _ => true) (two_files (lit "old") (lit "old")) (lit "table T {}") None o false in
  (exists fs', run None = (fs', lit "code;", Succeeds) /\ fs' 2%Z = Some (lit "old")) /\
  (exists fs', run (Some (lit "b.rs")) = (fs', [], Succeeds) /\ fs' 2%Z = Some (lit "code;") /\ fs' 1%Z = Some (lit "old")).
Proof. split; eexists; (split; [vm_compute; reflexivity|]); vm_compute; auto. Qed.

(** Running the schema compiler on files: butte-build/src/compile.rs and main.rs, and
    the functions of [std::path] they use, on Unix. *)
From Coq Require Import Strings.String ZArith List Bool Strings.Byte.
From Verif Require Import Base Schema Utf8 Parser Resolve Compile Emit.
Import ListNotations.
Local Open Scope list_scope.

(** ** std::path *)
(** The parts of a path between slashes. *)
Fixpoint split_slash (p : text) : list text :=
  match p with
  | [] => [[]]
  | c :: p =>
      if Byte.eqb c "/" then [] :: split_slash p
      else match split_slash p with x :: l => (c :: x) :: l | [] => [[c]] end
  end.
(** [Path::file_name]: the last component, unless it is [..]; empty components and
    [.] are skipped. *)
Definition file_name (p : text) : option text :=
  match rev (filter (fun x => negb (ident_eqb x [] || ident_eqb x (lit "."))) (split_slash p)) with
  | [] => None
  | x :: _ => if ident_eqb x (lit "..") then None else Some x
  end.
(** The text before the last dot. *)
Fixpoint before_dot (x : text) : option text :=
  match x with
  | [] => None
  | c :: x => match before_dot x with
              | Some s => Some (c :: s)
              | None => if Byte.eqb c "." then Some [] else None
              end
  end.
(** [file_stem] of a file name: a leading dot starts no extension. *)
Definition stem (x : text) : text :=
  match before_dot x with Some (c :: s) => c :: s | _ => x end.
(** compile.rs:65-67: [with_extension("rs")] and [file_name]. *)
Definition output_name (p : text) : option text :=
  match file_name p with Some x => Some (stem x ++ lit ".rs") | None => None end.
(** [Path::join] with a name that is not absolute. *)
Definition join (dir name : text) : text :=
  match rev dir with
  | [] => name
  | c :: _ => if Byte.eqb c "/" then dir ++ name else dir ++ lit "/" ++ name
  end.

(** ** The file system *)
(** The contents of the files.  Several paths may lead to the same file. *)
Definition files := Z -> option (list byte).
Definition store (fs : files) (f : Z) (content : list byte) : files :=
  fun g => if Z.eqb g f then Some content else fs g.

Inductive ending := Succeeds | Fails | Panics.

Section Run.
Context (uni_alphabetic uni_alphanumeric uni_word : text -> bool).
Context (parse_f64 parse_hexf64 : text -> option Z).
Context (has_stem : text -> bool).
Context (snake shouty : text -> text) (ident_ok : ident -> bool) (path_ok : qident -> bool).
Context (literal_ok : scalar_const -> bool -> option qident -> ity -> bool) (hg : host).
(** The text of the generated code, when there is one. *)
Context (code : list node -> text).
(** What [rustfmt] writes to its standard output, if it can be run.  Its exit status
    plays no part in compile.rs. *)
Context (rustfmt : text -> option (list byte)).
(** Writing: all is written, or there is an error after some of it. *)
Context (interrupted : list byte -> option (list byte)).
(** Which file a path leads to, and whether it can be created or truncated. *)
Context (locate : text -> Z) (creatable : Z -> bool).
Context (out_dir : option text).

(** compile.rs:16-59: how the run ends, and what it has written. *)
Definition compile_fbs_generic (ugly : bool) (input : list byte) : ending * list byte :=
  if negb (utf8_valid input) then (Fails, []) else
  match compile uni_alphabetic uni_alphanumeric uni_word parse_f64 parse_hexf64 has_stem snake input with
  | Rejected => (Fails, [])
  | Panicked => (Panics, [])
  | Generated root =>
      match emit snake shouty ident_ok path_ok literal_ok hg root with
      | None => (Panics, [])
      | Some _ =>
          match (if ugly then Some (code root) else rustfmt (code root)) with
          | None => (Fails, [])
          | Some out => match interrupted out with None => (Succeeds, out) | Some part => (Fails, part) end
          end
      end
  end.

(** compile.rs:72-77 and main.rs:26-38: the input is opened, the output is created
    or truncated, and then the input is read. *)
Definition open_both (fs : files) (input output : Z) : option (files * list byte) :=
  match fs input with
  | None => None
  | Some _ =>
      if creatable output then
        let fs := store fs output [] in
        match fs input with Some text => Some (fs, text) | None => None end
      else None
  end.
(** compile.rs:62-79. *)
Definition compile_fbs (fs : files) (path : text) : files * ending :=
  match out_dir with
  | None => (fs, Fails)
  | Some dir =>
      match output_name path with
      | None => (fs, Fails)
      | Some name =>
          let output := locate (join dir name) in
          match open_both fs (locate path) output with
          | None => (fs, Fails)
          | Some (fs, input) => let (e, written) := compile_fbs_generic false input in (store fs output written, e)
          end
      end
  end.

(** main.rs:24-41: the files afterwards, the standard output, how the run ends. *)
Definition main (fs : files) (stdin : list byte) (input output : option text) (ugly : bool) : files * list byte * ending :=
  match input, output with
  | None, None => let (e, written) := compile_fbs_generic ugly stdin in (fs, written, e)
  | None, Some output =>
      let output := locate output in
      if creatable output then let (e, written) := compile_fbs_generic ugly stdin in (store fs output written, [], e)
      else (fs, [], Fails)
  | Some input, None =>
      match fs (locate input) with
      | None => (fs, [], Fails)
      | Some text => let (e, written) := compile_fbs_generic ugly text in (fs, written, e)
      end
  | Some input, Some output =>
      match open_both fs (locate input) (locate output) with
      | None => (fs, [], Fails)
      | Some (fs, text) => let (e, written) := compile_fbs_generic ugly text in (store fs (locate output) written, [], e)
      end
  end.
End Run.

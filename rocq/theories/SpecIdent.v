(** Vocabulary for statements about names in generated code. *)
From Coq Require Import Strings.String ZArith List Bool Strings.Byte.
From Verif Require Import Base Schema Ident.
Import ListNotations.

(** Following a Rust path from a module: [super] goes up, other names go down. *)
Fixpoint walk (here path : qident) : option qident :=
  match path with
  | [] => Some here
  | c :: path =>
      if ident_eqb c (lit "super")
      then match here with [] => None | _ => walk (removelast here) path end
      else walk (here ++ [c])%list path
  end.
(** The modules emitted for a namespace, and the item emitted for a type: inside
    the modules of its namespace. *)
Definition emitted_modules (snake : text -> text) (ns : qident) : qident := map (module_name snake) ns.
Definition emitted_item (snake : text -> text) (q : qident) : qident :=
  (emitted_modules snake (removelast q) ++ [last q []])%list.
Definition modules_around (ns : option qident) : qident := match ns with Some l => l | None => [] end.
(** [q] is [ns] or a namespace around it. *)
Definition encloses (q ns : qident) : Prop := exists l, ns = (q ++ l)%list.

(** The keywords of Rust 2018 (Rust reference, "Keywords": strict and reserved). *)
Definition rust_keywords : list string :=
  ["as"; "break"; "const"; "continue"; "crate"; "else"; "enum"; "extern"; "false"; "fn"; "for"; "if"; "impl"; "in"; "let";
   "loop"; "match"; "mod"; "move"; "mut"; "pub"; "ref"; "return"; "self"; "Self"; "static"; "struct"; "super"; "trait";
   "true"; "type"; "unsafe"; "use"; "where"; "while"; "async"; "await"; "dyn";
   "abstract"; "become"; "box"; "do"; "final"; "macro"; "override"; "priv"; "typeof"; "unsized"; "virtual"; "yield"; "try"]%string.
Definition keyword (x : ident) : Prop := In x (map lit rust_keywords).

(** ASCII identifiers, and the shape of names in snake case: small letters and
    digits, with single underscores inside. *)
Definition name_text (x : text) : Prop :=
  Forall (fun c => In c (lit "abcdefghijklmnopqrstuvwxyzABCDEFGHIJKLMNOPQRSTUVWXYZ0123456789_")) x.
Definition snake_shaped (x : text) : Prop :=
  Forall (fun c => In c (lit "abcdefghijklmnopqrstuvwxyz0123456789_")) x /\
  (forall r, x <> (lit "_" ++ r)%list) /\ (forall r, x <> (r ++ lit "_")%list) /\
  (forall a b, x <> (a ++ lit "__" ++ b)%list).
(** What rustc takes as the name of a function or module (ASCII names). *)
Definition rust_name (x : text) : Prop :=
  name_text x /\ (exists c r, x = c :: r /\ ~ In c (lit "0123456789")) /\ x <> lit "_" /\ ~ keyword x.
(** The first character other than underscores is there, and is no digit. *)
Definition starts_with_letter (x : text) : Prop :=
  exists u c r, x = (u ++ c :: r)%list /\ Forall (fun b => In b (lit "_")) u /\ ~ In c (lit "_0123456789").
(** Two names with the same letters and digits, apart from case and underscores. *)
Definition small (c : byte) : byte :=
  match find (fun p => Byte.eqb (fst p) c) (combine (lit "ABCDEFGHIJKLMNOPQRSTUVWXYZ") (lit "abcdefghijklmnopqrstuvwxyz")) with
  | Some p => snd p
  | None => c
  end.
Definition same_letters (x y : text) : Prop :=
  map small (filter (fun c => negb (Byte.eqb c "_")) x) = map small (filter (fun c => negb (Byte.eqb c "_")) y).

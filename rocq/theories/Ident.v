(** Identifiers of the resolved schema: butte-build/src/ir/keywords.rs and
    butte-build/src/ir/types.rs:435-590. *)
From Coq Require Import ZArith List Bool Strings.Byte Strings.String.
From Verif Require Import Base Schema.
Import ListNotations.
Local Open Scope Z_scope.
Local Open Scope string_scope.

(** keywords.rs:1-59. *)
Definition substitutions : list (string * string) :=
  [
   ("as", "as_"); ("async", "async_"); ("await", "await_"); ("break", "break_"); ("const", "const_");
   ("continue", "continue_"); ("crate", "crate_"); ("dyn", "dyn_"); ("else", "else_"); ("enum", "enum_");
   ("extern", "extern_"); ("false", "false_"); ("fn", "fn_"); ("for", "for_"); ("if", "if_");
   ("impl", "impl_"); ("in", "in_"); ("let", "let_"); ("loop", "loop_"); ("match", "match_");
   ("mod", "mod_"); ("move", "move_"); ("mut", "mut_"); ("pub", "pub_"); ("ref", "ref_");
   ("return", "return_"); ("self", "self_"); ("Self", "Self_"); ("static", "static_"); ("struct", "struct_");
   ("super", "super_"); ("trait", "trait_"); ("true", "true_"); ("type", "ty"); ("unsafe", "unsafe_");
   ("use", "use_"); ("where", "where_"); ("while", "while_"); ("abstract", "abstract_"); ("become", "become_");
   ("box", "box_"); ("do", "do_"); ("final", "final_"); ("macro", "macro_"); ("override", "override_");
   ("priv", "priv_"); ("typeof", "typeof_"); ("unsized", "unsized_"); ("virtual", "virtual_"); ("yield", "yield_")].
Fixpoint substitute (l : list (string * string)) (x : ident) : option ident :=
  match l with
  | [] => None
  | (k, s) :: l => if ident_eqb x (lit k) then Some (lit s) else substitute l x
  end.
Definition substitute_keyword (x : ident) : option ident := substitute substitutions x.

(** ir/types.rs:443-452 ([fix_identifier]), applied by every conversion into
    [Ident] (ir/types.rs:463-491). *)
Definition fix_identifier (x : ident) : ident :=
  match substitute_keyword x with Some s => s | None => x end.
(** ir/types.rs:570-584. *)
Definition qident_of (q : qident) : qident := map fix_identifier q.

(** ir/types.rs:513-521. *)
Definition q_namespace (q : qident) : option qident :=
  match q with
  | [] | [_] => None
  | _ => Some (removelast q)
  end.
(** ir/types.rs:525-530: the length of the common prefix. *)
Fixpoint common_prefix (a b : qident) : nat :=
  match a, b with
  | x :: a, y :: b => if ident_eqb x y then S (common_prefix a b) else O
  | _, _ => O
  end.
(** ir/types.rs:523-540. *)
Definition relative (q : qident) (namespace : option qident) : qident :=
  match namespace with
  | Some ns =>
      let n := common_prefix q ns in
      (repeat (lit "super") (List.length ns - n) ++ skipn n q)%list
  | None => q
  end.

(** codegen.rs:1133-1145: the module emitted for a namespace; codegen.rs:580: the
    accessor emitted for a field, and codegen.rs:354-357: the constant with its
    offset is [VT_] and the name in capitals (not modelled).  [snake] is heck's
    [to_snake_case]. *)
Definition module_name (snake : text -> text) (id : ident) : ident := snake id.
Definition accessor_name (snake : text -> text) (field_id : ident) : ident := snake (fix_identifier field_id).

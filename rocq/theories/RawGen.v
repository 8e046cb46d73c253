(** The generated accessors once more, with the accesses the reader makes for
    them; Codegen.v has them without. *)
From Coq Require Import ZArith List Bool Strings.Byte.
From Verif Require Import Base Scalar Reader Builder Schema Codegen Raw.
Import ListNotations.
Local Open Scope Z_scope.

(** codegen.rs:570-708. *)
Definition r_gen_get (h : host) (r : region) (tab : Z) (f : gfield) : traced (option gval) :=
  let plain t d :=
    let+ v := r_table_get h r tab (g_slot f) t d in
    let+ v := quiet (check_required (g_req f) v) in
    quiet (Val (option_map GPlain v)) in
  match g_kind f with
  | GScalar t d => plain (FScalar t) (option_map VScalar d)
  | GEnum t vs d => plain (FEnum t vs) (option_map VEnum d)
  | GRef t => plain t None
  | GUnion tslot tb tvs td arms =>
      let+ ty := r_table_get h r tab tslot (FEnum tb tvs) (option_map VEnum td) in
      let+ ty := quiet (check_required (g_req f) ty) in
      match ty with
      | Some (VEnum n) =>
          match find_arm n arms with
          | Some t =>
              let+ v := r_table_get h r tab (g_slot f) t None in
              let+ v := quiet (check_required (g_req f) v) in
              quiet (Val (option_map (GVariant n) v))
          | None => quiet (if g_req f then Err RequiredFieldMissing else Val None)
          end
      | _ => quiet (Val None)
      end
  end.

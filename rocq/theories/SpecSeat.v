(** Vocabulary for reading whole documents with aligned accesses. *)
From Coq Require Import ZArith List Bool Strings.Byte.
From Verif Require Import Base Scalar Reader Client Raw Builder Ops SpecRaw Schema Codegen RawGen SpecGen.
Import ListNotations.
Local Open Scope Z_scope.

Definition gval_value (v : gval) : fval := match v with GPlain w | GVariant _ w => w end.

(** [w] was read from [D] where the document [x] is: whatever is read further,
    all the way down, is read with aligned accesses.  Tables are read with the
    generated accessors, vectors by length, element, iterator and, if of scalars,
    as a slice. *)
Fixpoint reads_aligned (hr : host) (D : list byte) (x : tree) (w : fval) : Prop :=
  match x, w with
  | TreeVec _ xs, VVector e loc =>
      Forall aligned (did (r_vec_len hr (whole_of D) loc)) /\
      (forall cs, Forall itcall_ok cs ->
         Forall aligned (did (let+ it := r_vec_iter hr (whole_of D) loc in r_iter_calls hr e (whole_of D) cs it))) /\
      (forall t, e = FScalar t -> Forall aligned (did (r_follow_slice_helper hr t (whole_of D) loc))) /\
      (fix all (i : Z) (xs : list tree) {struct xs} : Prop :=
         match xs with
         | [] => True
         | x :: xs =>
             Forall aligned (did (r_vec_get hr e (whole_of D) loc i)) /\
             (forall v, result (r_vec_get hr e (whole_of D) loc i) = Val v -> reads_aligned hr D x v) /\
             all (i + 1) xs
         end) 0 xs
  | TreeTable gs xs, VTable loc =>
      (fix all (gs : list gfield) (xs : list tree) {struct xs} : Prop :=
         match gs, xs with
         | g :: gs, x :: xs =>
             Forall aligned (did (r_gen_get hr (whole_of D) loc g)) /\
             (forall v, result (r_gen_get hr (whole_of D) loc g) = Val (Some v) -> reads_aligned hr D x (gval_value v)) /\
             all gs xs
         | _, _ => True
         end) gs xs
  | _, _ => True
  end.

(** Reading the root, as it was finished. *)
Definition r_root (hr : host) (sp : bool) (u : fty) (D : list byte) : traced fval :=
  if sp then r_get_size_prefixed_root hr u (whole_of D) else r_get_root hr u (whole_of D).

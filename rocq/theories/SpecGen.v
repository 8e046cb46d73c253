(** Vocabulary for statements about generated code. *)
From Coq Require Import ZArith List Bool Strings.Byte.
From Verif Require Import Base Scalar SpecWire Utf8 Reader SpecReader Builder Ops Schema Codegen.
Import ListNotations.
Local Open Scope Z_scope.

(** What rustc checks about the fields of an [Args] value: scalars and enums
    have a value of their type, required references an offset, other references
    an offset or nothing. *)
Definition arg_ok (f : gfield) (a : garg) : bool :=
  match a, g_kind f with
  | Some (PScalar t v), GScalar t' _ => pty_eqb (PTScalar t) (PTScalar t') && valid_scalar t v
  | Some (PScalar t v), GEnum t' vs _ => pty_eqb (PTScalar t) (PTScalar t') && mem_z v vs
  | Some (POffset o), (GRef _ | GUnion _ _ _ _ _) => u32_ok o
  | None, (GRef _ | GUnion _ _ _ _ _) => negb (g_req f)
  | _, _ => false
  end.
Fixpoint args_ok (fs : list gfield) (args : list garg) : bool :=
  match fs, args with
  | [], [] => true
  | f :: fs, a :: args => arg_ok f a && args_ok fs args
  | _, _ => false
  end.

(** All offsets among the arguments lead to something already written. *)
Definition offsets_within (n : Z) (args : list garg) : bool :=
  forallb (fun a => match a with Some (POffset o) => o <=? n | _ => true end) args.

(** The conversions of literals yield bit patterns of the right width. *)
Definition floats_ok (fl : floats) : Prop :=
  (forall i, valid_scalar TF32 (int_to_f32 fl i) = true) /\
  (forall i, valid_scalar TF64 (int_to_f64 fl i) = true) /\
  (forall i, valid_scalar TF32 (f64_to_f32 fl i) = true).
(** Constants of the schema: [f64] bit patterns. *)
Definition default_ok (d : option default_value) : bool :=
  match d with Some (DScalar (CFloat b)) => valid_scalar TF64 b | _ => true end.

(** [gs] is what the generator emits for some table of at most [lim] fields. *)
Definition generated (lim : Z) (gs : list gfield) : Prop :=
  exists fl snake hg fs, floats_ok fl /\ forallb (fun f => default_ok (if_default f)) fs = true /\
    blen fs <= lim /\ gen_table fl snake hg fs = Some gs.

(** Documents: what a program hands to the generated code, as a tree. *)
Inductive tree :=
| TreeNone                                          (* an option left out *)
| TreeNum (t : sty) (v : Z)                         (* a scalar or an enum value *)
| TreeStr (s : list byte)
| TreeVec (t : pty) (xs : list tree)                (* elements of one type *)
| TreeTable (gs : list gfield) (xs : list tree).    (* one tree per field *)

(** Writing a document: children first, in order, then the table or vector. *)
Fixpoint put (h : host) (b : builder) (x : tree) : outcome (builder * garg) :=
  let fix put_all (b : builder) (xs : list tree) : outcome (builder * list garg) :=
    match xs with
    | [] => Val (b, [])
    | x :: xs =>
        let* (b, a) := put h b x in
        let* (b, l) := put_all b xs in
        Val (b, a :: l)
    end in
  match x with
  | TreeNone => Val (b, None)
  | TreeNum t v => Val (b, Some (PScalar t v))
  | TreeStr s => let* (b, o) := create_string h b s in Val (b, Some (POffset o))
  | TreeVec t xs =>
      let* (b, l) := put_all b xs in
      let items := map (fun a => match a with Some v => v | None => POffset 0 end) l in
      let* (b, o) := create_vector h b (pty_size t) (pty_align t) items in
      Val (b, Some (POffset o))
  | TreeTable gs xs =>
      let* (b, l) := put_all b xs in
      let* (b, o) := gen_create h b gs l in
      Val (b, Some (POffset o))
  end.
Fixpoint put_all (h : host) (b : builder) (xs : list tree) : outcome (builder * list garg) :=
  match xs with
  | [] => Val (b, [])
  | x :: xs =>
      let* (b, a) := put h b x in
      let* (b, l) := put_all h b xs in
      Val (b, a :: l)
  end.

(** The number in the field with this slot. *)
Fixpoint tag (gs : list gfield) (xs : list tree) (slot : Z) : option Z :=
  match gs, xs with
  | g :: gs, x :: xs =>
      if g_slot g =? slot then match x with TreeNum _ n => Some n | _ => None end else tag gs xs slot
  | _, _ => None
  end.

(** The type a vector element of wire type [e] is pushed with. *)
Definition elem_pty (e : fty) : option pty :=
  match e with
  | FScalar t | FEnum t _ => Some (PTScalar t)
  | FUOffset _ => Some PTOffset
  | _ => None
  end.

(** What rustc checks: [x] may be stored where wire type [ty] is expected. *)
Fixpoint typed (lim : Z) (x : tree) (ty : fty) : Prop :=
  match x with
  | TreeNone => False
  | TreeNum t v => valid_scalar t v = true /\ (ty = FScalar t \/ exists al, ty = FEnum t al /\ In v al)
  | TreeStr s => is_utf8 s /\ blen s < 2 ^ 63 /\ ty = FUOffset FStr
  | TreeVec t xs =>
      exists e, ty = FUOffset (FVector e) /\ elem_pty e = Some t /\ blen xs * pty_size t < 2 ^ 63 /\
        (fix all (xs : list tree) : Prop := match xs with [] => True | x :: xs => typed lim x e /\ all xs end) xs
  | TreeTable gs xs =>
      ty = FUOffset FTable /\ generated lim gs /\
        (fix all (gs' : list gfield) (xs' : list tree) {struct xs'} : Prop :=
           match gs', xs' with
           | [], [] => True
           | g :: gs', x :: xs' =>
               match g_kind g with
               | GScalar t _ => typed lim x (FScalar t)
               | GEnum t vs _ => typed lim x (FEnum t vs)
               | GRef ty => (x = TreeNone /\ g_req g = false) \/ typed lim x ty
               | GUnion tslot _ _ _ arms =>
                   (x = TreeNone /\ g_req g = false) \/
                   exists n u, tag gs xs tslot = Some n /\ find_arm n arms = Some (FUOffset u) /\ typed lim x (FUOffset u)
               end /\ all gs' xs'
           | _, _ => False
           end) gs xs
  end.

(** [w], read from [D], is the document [x], all the way down. *)
Fixpoint shows (hr : host) (D : list byte) (x : tree) (w : fval) : Prop :=
  match x with
  | TreeNone => False
  | TreeNum t v => w = VEnum v \/ exists u, w = VScalar u /\ (u = v \/ scalar_eq t v u = true)
  | TreeStr s => w = VStr s
  | TreeVec t xs =>
      exists e loc, w = VVector e loc /\ vec_len hr D loc = Val (blen xs) /\
        (fix all (xs : list tree) (rs : list (outcome fval)) {struct xs} : Prop :=
           match xs, rs with
           | [], [] => True
           | x :: xs, r :: rs => (exists w, r = Val w /\ shows hr D x w) /\ all xs rs
           | _, _ => False
           end) xs (elements hr e D loc (blen xs))
  | TreeTable gs xs =>
      exists loc, w = VTable loc /\
        (fix all (gs' : list gfield) (xs' : list tree) {struct xs'} : Prop :=
           match gs', xs' with
           | [], [] => True
           | g :: gs', x :: xs' =>
               (gen_get hr D loc g = Val None /\ x = TreeNone \/
                exists w, shows hr D x w /\
                  gen_get hr D loc g =
                    Val (Some (match g_kind g with
                               | GUnion tslot _ _ _ _ =>
                                   match tag gs xs tslot with Some n => GVariant n w | None => GPlain w end
                               | _ => GPlain w
                               end))) /\ all gs' xs'
           | _, _ => False
           end) gs xs
  end.

(** The argument is the field's declared default, so that nothing is stored. *)
Definition is_default (f : gfield) (a : garg) : bool :=
  match g_kind f, a with
  | GScalar t (Some d), Some x | GEnum t _ (Some d), Some x => pval_eq x (PScalar t d)
  | _, _ => false
  end.
(** No required field is given its declared default. *)
Fixpoint required_stored (fs : list gfield) (args : list garg) : bool :=
  match fs, args with
  | f :: fs, a :: args => negb (g_req f && is_default f a) && required_stored fs args
  | _, _ => true
  end.

(** The same, for a document. *)
Fixpoint required_given (fs : list gfield) (xs : list tree) : bool :=
  match fs, xs with
  | f :: fs, x :: xs =>
      negb (g_req f && match x with TreeNum t v => is_default f (Some (PScalar t v)) | _ => false end) &&
      required_given fs xs
  | _, _ => true
  end.
Fixpoint all_required_given (x : tree) : bool :=
  match x with
  | TreeNone | TreeNum _ _ | TreeStr _ => true
  | TreeVec _ xs => forallb all_required_given xs
  | TreeTable gs xs => required_given gs xs && forallb all_required_given xs
  end.

(** No more bytes than this are needed for a document. *)
Fixpoint tree_size (x : tree) : Z :=
  match x with
  | TreeNone | TreeNum _ _ => 0
  | TreeStr s => blen s + 8
  | TreeVec t xs => fold_right (fun x n => tree_size x + n) 0 xs + pty_size t * blen xs + 11
  | TreeTable gs xs => fold_right (fun x n => tree_size x + n) 0 xs + 17 * blen gs + 16
  end.

(** What an accessor returns for a field the data does not have. *)
Definition missing (g : gfield) : outcome (option gval) :=
  match g_kind g with
  | GScalar _ (Some d) => Val (Some (GPlain (VScalar d)))
  | GEnum _ _ (Some d) => Val (Some (GPlain (VEnum d)))
  | _ => if g_req g then Err RequiredFieldMissing else Val None
  end.

(** The documented values of an enum: the explicit one, or one more than the
    previous, starting at 0. *)
Fixpoint documented_from (next : Z) (vs : list ienumv) : list Z :=
  match vs with
  | [] => []
  | v :: vs =>
      let x := match iev_value v with Some x => x | None => next end in
      x :: documented_from (x + 1) vs
  end.
Definition documented_values (vs : list ienumv) : list Z := documented_from 0 vs.

(** Two documents of the same schema: at the same places, tables of the same
    type, numbers of the same type, vectors of the same element type.  A union's
    contents need only agree when its type fields do. *)
Fixpoint same_schema (x y : tree) : Prop :=
  match x, y with
  | TreeNum t _, TreeNum t' _ => t = t'
  | TreeVec t xs, TreeVec t' ys =>
      t = t' /\
        (fix all (xs ys : list tree) {struct xs} : Prop :=
           match xs, ys with x :: xs, y :: ys => same_schema x y /\ all xs ys | _, _ => True end) xs ys
  | TreeTable gs xs, TreeTable gs' ys =>
      gs = gs' /\
        (fix all (gs0 : list gfield) (xs0 ys0 : list tree) {struct xs0} : Prop :=
           match gs0, xs0, ys0 with
           | g :: gs0, x :: xs0, y :: ys0 =>
               match g_kind g with
               | GUnion tslot _ _ _ _ => tag gs xs tslot = tag gs ys tslot -> same_schema x y
               | _ => same_schema x y
               end /\ all gs0 xs0 ys0
           | _, _, _ => True
           end) gs xs ys
  | _, _ => True
  end.
(** Equal up to the identification of numbers by [==]. *)
Fixpoint alike (x y : tree) : Prop :=
  match x, y with
  | TreeNone, TreeNone => True
  | TreeNum t v, TreeNum t' v' => t = t' /\ (v = v' \/ scalar_eq t v v' = true)
  | TreeStr s, TreeStr s' => s = s'
  | TreeVec t xs, TreeVec t' ys =>
      t = t' /\
        (fix all (xs ys : list tree) {struct xs} : Prop :=
           match xs, ys with [], [] => True | x :: xs, y :: ys => alike x y /\ all xs ys | _, _ => False end) xs ys
  | TreeTable gs xs, TreeTable gs' ys =>
      gs = gs' /\
        (fix all (xs ys : list tree) {struct xs} : Prop :=
           match xs, ys with [], [] => True | x :: xs, y :: ys => alike x y /\ all xs ys | _, _ => False end) xs ys
  | _, _ => False
  end.

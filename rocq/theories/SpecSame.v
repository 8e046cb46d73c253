(** When two documents say the same. *)
From Coq Require Import ZArith List Bool Strings.Byte.
From Verif Require Import Base Scalar Schema Codegen SpecGen SpecTable SpecDoc.
Import ListNotations.
Local Open Scope Z_scope.

Section Same.
Context (fl : floats) (root : list node).

(** When two numbers are taken to be the same. *)
Section By.
Context (eqn : sty -> Z -> Z -> Prop).
(** Giving a field this value is as good as leaving it out. *)
Definition as_left_out (f : ifield) (x : doc) : Prop :=
  match if_ty f, if_default f, x with
  | IPrim p, Some (DScalar c), DNum v => exists d, const_value fl (prim_ty p) c = Some d /\ eqn (prim_ty p) v d
  | IPrim p, None, DNum v => eqn (prim_ty p) v 0
  | ICustom _ (KEnum vs _), Some (DIdent id), DName id' => id' = id
  | ICustom _ (KEnum vs _), None, DName id => exists v, nth_error vs 0 = Some v /\ iev_id v = id
  | _, _, _ => False
  end.

(** Numbers are the same, names, texts and variants equal, vectors the same element by
    element, tables field by field, whatever order the fields are given in. *)
Inductive same_by : ity -> doc -> doc -> Prop :=
| same_num p v v' : eqn (prim_ty p) v v' -> same_by (IPrim p) (DNum v) (DNum v')
| same_name q vs b id : same_by (ICustom q (KEnum vs b)) (DName id) (DName id)
| same_text s : same_by IString (DText s) (DText s)
| same_list t xs xs' : Forall2 (same_by t) xs xs' -> same_by (IArray t) (DList xs) (DList xs')
| same_variant q e vs v x x' : In v vs -> same_by (iuv_ty v) x x' -> same_by (ICustom q (KUnion e vs)) (DVariant (iuv_id v) x) (DVariant (iuv_id v) x')
| same_table q fs given given' : table_named root q fs ->
    (forall f x x', In f fs -> lookup given (if_id f) = Some x -> lookup given' (if_id f) = Some x' -> same_by (if_ty f) x x') ->
    (forall f x, In f fs -> lookup given (if_id f) = Some x -> lookup given' (if_id f) = None -> as_left_out f x) ->
    (forall f x, In f fs -> lookup given (if_id f) = None -> lookup given' (if_id f) = Some x -> as_left_out f x) ->
    same_by (ICustom q KTable) (DTable given) (DTable given').
End By.

(** Numbers are equal in the sense of [==], so that 0.0 is -0.0; a NaN is itself. *)
Definition equal_numbers (t : sty) (a b : Z) : Prop := a = b \/ scalar_eq t a b = true.
Definition same : ity -> doc -> doc -> Prop := same_by equal_numbers.
(** Numbers have the same bits. *)
Definition same_bits : ity -> doc -> doc -> Prop := same_by (fun _ a b => a = b).

(** No number of the document is -0.0. *)
Fixpoint no_minus_zero (x : doc) (t : ity) {struct x} : Prop :=
  match x, t with
  | DNum v, IPrim p => is_zero (prim_ty p) v = true -> v = 0
  | DList xs, IArray t => (fix all (xs : list doc) : Prop := match xs with [] => True | x :: xs => no_minus_zero x t /\ all xs end) xs
  | DVariant id x, ICustom _ (KUnion _ vs) => forall v, In v vs -> iuv_id v = id -> no_minus_zero x (iuv_ty v)
  | DTable given, ICustom q KTable =>
      forall fs, table_named root q fs ->
        (fix all (l : list (ident * doc)) : Prop :=
           match l with
           | [] => True
           | (n, x) :: l => (forall f, In f fs -> if_id f = n -> no_minus_zero x (if_ty f)) /\ all l
           end) given
  | _, _ => True
  end.
(** And none of the defaults in the schema is. *)
Definition no_minus_zero_defaults : Prop :=
  forall q fs f p c d, table_named root q fs -> In f fs -> if_ty f = IPrim p -> if_default f = Some (DScalar c) ->
    const_value fl (prim_ty p) c = Some d -> is_zero (prim_ty p) d = true -> d = 0.
End Same.

(** Property C60: schemas that grow.  Statements only; each theorem is closed by a
    lemma of the proof files.  Vocabulary: SpecEvolve.v ([evolves]: a schema and a
    later version of it, with fields, variants, methods and declarations added and
    declarations reordered; [settled]: declarations stay in the namespaces they
    are written in, C41; [node_grown]: what becomes of a definition; [reads_alike]:
    what accessors of both versions return for the same bytes), Resolve.v ([build]),
    Codegen.v ([gen_table], [gen_get]), SpecGen.v ([missing]). *)
From Coq Require Import Strings.String ZArith List Bool Lia Strings.Byte.
From Verif Require Import Base Scalar Reader Builder Ops SpecBuilder Schema Ident Codegen SpecGen GenProofs4 GenProofs5 GenProofs6 GenProofs9 GenProofs10 SpecAccess Resolve SpecResolve SpecEvolve
  EvolveProofs1 EvolveProofs2 EvolveProofs3.
Import ListNotations.
Local Open Scope string_scope.
Local Open Scope list_scope.
Local Open Scope Z_scope.

(** Every definition is still there, in the same module, with the same parts in the
    same places; what was added comes after them. *)
Theorem C60_definitions_grow snake es es' r r' : settled es -> settled es' -> evolves es es' ->
  build snake es = Done r -> build snake es' = Done r' ->
  forall path n, In (path, n) (all_contents r) -> exists n', In (path, n') (all_contents r') /\ node_grown n n'.
Proof. exact (grown snake es es' r r'). Qed.
Print Assumptions C60_definitions_grow.

(** Every accessor is still there, with its slot, and on any bytes, in any build,
    returns what the old one returns, unless the old one meets an enum or union
    variant that was added. *)
Theorem C60_accessors fl snake es es' r r' : settled es -> settled es' -> evolves es es' ->
  build snake es = Done r -> build snake es' = Done r' ->
  forall path t, In (path, NTable t) (all_contents r) -> exists t' fs' more, In (path, NTable t') (all_contents r') /\
  it_id t' = it_id t /\ it_fields t' = fs' ++ more /\ Forall2 field_grown (it_fields t) fs' /\
  forall hg hg' gs gs', blen (it_fields t') <= 32765 -> gen_table fl snake hg (it_fields t) = Some gs -> gen_table fl snake hg' (it_fields t') = Some gs' ->
  forall i f g, nth_error (it_fields t) i = Some f -> nth_error gs i = Some g -> exists g', nth_error gs' i = Some g' /\
    g_slot g' = g_slot g /\ g_req g' = g_req g /\
    forall h buf tab, reads_alike snake (it_fields t) gs h buf tab f (gen_get h buf tab g) (gen_get h buf tab g').
Proof. exact (tables_grow fl snake es es' r r'). Qed.
Print Assumptions C60_accessors.

(** So do the elements of the vectors they return. *)
Theorem C60_elements t t' e e' h buf l i : ty_grown t t' -> follow_ty t = Some e -> follow_ty t' = Some e' ->
  agree fval_grown (vec_get h e buf l i) (vec_get h e' buf l i) \/
  newer t (fun v => v) (vec_get h e buf l i) (vec_get h e' buf l i).
Proof. exact (elements_grown t t' e e' h buf l i). Qed.
Print Assumptions C60_elements.

(** The accessors of added fields return, from a table written with the old schema,
    the default, or nothing, or [RequiredFieldMissing]. *)
Theorem C60_added_fields fl snake hg hg' fs fs' more gs gs' h hr c before xs b0 ys b1 o later b zs i g :
  Forall2 field_grown fs fs' ->
  floats_ok fl -> forallb (fun f => default_ok (if_default f)) fs = true ->
  gen_table fl snake hg fs = Some gs -> gen_table fl snake hg' (fs' ++ more) = Some gs' ->
  blen (fs' ++ more) <= 32765 -> debug h = true \/ blen fs <= 8190 ->
  0 <= c -> calls_ok before = true -> closed before = true -> program h c before = Val (b0, xs) ->
  typed (blen fs) (TreeTable gs ys) (FUOffset FTable) -> put h b0 (TreeTable gs ys) = Val (b1, Some (POffset o)) ->
  calls_ok later = true -> no_reset later = true -> run h b1 later = Val (b, zs) ->
  blen (unfinished_data b) < 2 ^ 31 ->
  (length fs <= i)%nat -> nth_error gs' i = Some g ->
  let D := unfinished_data b in gen_get hr D (blen D - o) g = missing g.
Proof. exact (old_data fl snake hg hg' fs fs' more gs gs' h hr c before xs b0 ys b1 o later b zs i g). Qed.
Print Assumptions C60_added_fields.

(** Schemas for the examples. *)
Definition tb (name : string) (fs : list (string * aty)) : element :=
  ETable (AProduct (lit name) (map (fun f => AField (lit (fst f)) (snd f) None None []) fs) None []).
Definition un (name : string) (vs : list string) : element :=
  EUnion (AUnion (lit name) (map (fun v => AVariant (lit v) None []) vs) None []).
Definition en (name : string) (vs : list string) : element :=
  EEnum (AEnum (lit name) (map (fun v => AVariant (lit v) None []) vs) (APrim UByte) None []).
Definition ns (q : list string) : element := ENamespace (map lit q) [].
Definition nm (q : list string) : aty := AIdent (map lit q).

(** Without [settled] it is false: a field added to a table in one namespace, of a
    type declared in a later one, moves the table there (C41), and nothing is left
    in its place. *)
Definition apart : list element := [ns ["A"]; tb "T" [("x", APrim Int)]; ns ["B"]; tb "U" []].
Definition joined : list element := [ns ["A"]; tb "T" [("x", APrim Int); ("u", nm ["B"; "U"])]; ns ["B"]; tb "U" []].
Theorem C60_any_schema_refuted snake : settled apart /\ evolves apart joined /\ exists r r' path n,
  build snake apart = Done r /\ build snake joined = Done r' /\ In (path, n) (all_contents r) /\ forall n', ~ In (path, n') (all_contents r').
Proof.
  split; [|split].
  - apply before_settled. intros [|[|[|[|i]]]] e q N I; try (injection N as <-; destruct I). destruct i; discriminate N.
  - intros [|[|[|[|i]]]] e N Ns; try (injection N as <-); try discriminate Ns.
    + exists 1%nat. eexists. split; [reflexivity|]. split; [|reflexivity].
      exact (grows_table (lit "T") [AField (lit "x") (APrim Int) None None []] [AField (lit "u") (nm ["B"; "U"]) None None []] None []).
    + exists 3%nat. eexists. split; [reflexivity|]. split; [constructor|reflexivity].
    + destruct i; discriminate N.
  - eexists _, _, [lit "A"], _. split; [reflexivity|]. split; [reflexivity|]. split; [left; reflexivity|].
    intros n' [I|[I|[]]]; discriminate I.
Qed.
Print Assumptions C60_any_schema_refuted.

(** [namespace game; enum Color : ubyte { Red, Green } table Sword { damage : short; }
    union Weapon { Sword } table Monster { color : Color; weapon : Weapon; colors : [Color]; }]
    and a later version, reordered, with a color, a weapon, and a field. *)
Definition early : list element :=
  [ns ["game"]; en "Color" ["Red"; "Green"]; tb "Sword" [("damage", APrim Short)]; un "Weapon" ["Sword"];
   tb "Monster" [("color", nm ["Color"]); ("weapon", nm ["Weapon"]); ("colors", AArray (nm ["Color"]))]].
Definition late : list element :=
  [ns ["game"]; tb "Monster" [("color", nm ["Color"]); ("weapon", nm ["Weapon"]); ("colors", AArray (nm ["Color"])); ("name", AString)];
   tb "Axe" [("weight", APrim Int)]; un "Weapon" ["Sword"; "Axe"]; tb "Sword" [("damage", APrim Short); ("gold", nm ["Color"])];
   en "Color" ["Red"; "Green"; "Blue"]].
Definition fields_of (es : list element) (name : string) : list ifield :=
  match build (fun x => x) es with
  | Done r => flat_map (fun x => match snd x with NTable t => if qident_eqb (it_id t) [lit "game"; lit name] then it_fields t else [] | _ => [] end) (all_contents r)
  | _ => []
  end.
Definition gen (es : list element) (name : string) : list gfield :=
  match gen_table fl0 (fun x => x) (Host true false) (fields_of es name) with Some gs => gs | None => [] end.
(** A blue monster with an axe and a green and a blue color, and a red one with a sword. *)
Definition save (es : list element) (x : tree) : list byte * Z :=
  match (let* b := new_with_capacity 0 in put (Host true false) b x) with
  | Val (b, Some (POffset o)) => (unfinished_data b, blen (unfinished_data b) - o)
  | _ => ([], 0)
  end.
Definition blue : list byte * Z :=
  save late (TreeTable (gen late "Monster")
    [TreeNum TU8 2; TreeNum TU8 2; TreeTable (gen late "Axe") [TreeNum TI32 70]; TreeVec (PTScalar TU8) [TreeNum TU8 1; TreeNum TU8 2]; TreeStr (lit "Ork")]).
Definition red : list byte * Z :=
  save early (TreeTable (gen early "Monster") [TreeNum TU8 0; TreeNum TU8 1; TreeTable (gen early "Sword") [TreeNum TI16 9]; TreeNone]).
Definition get_all (d : list byte * Z) (gs : list gfield) := map (gen_get (Host false false) (fst d) (snd d)) gs.

Example C60_case : settled early /\ settled late /\ evolves early late /\
  (match build (fun x => x) early, build (fun x => x) late with Done _, Done _ => True | _, _ => False end) /\
  (* the new code and the old code on what the new code wrote *)
  (match get_all blue (gen late "Monster") with
   | [c; k; Val (Some (GVariant 2 (VTable _))); Val (Some (GPlain (VVector e l))); n] =>
       c = Val (Some (GPlain (VEnum 2))) /\ k = Val (Some (GPlain (VEnum 2))) /\ n = Val (Some (GPlain (VStr (lit "Ork")))) /\
       vec_get (Host false false) e (fst blue) l 0 = Val (VEnum 1) /\ vec_get (Host false false) e (fst blue) l 1 = Val (VEnum 2)
   | _ => False end) /\
  (match get_all blue (gen early "Monster") with
   | [c; k; u; Val (Some (GPlain (VVector e l)))] =>
       c = Err UnknownEnumVariant /\ k = Err UnknownEnumVariant /\ u = Err UnknownEnumVariant /\
       vec_get (Host false false) e (fst blue) l 0 = Val (VEnum 1) /\ vec_get (Host false false) e (fst blue) l 1 = Err UnknownEnumVariant
   | _ => False end) /\
  (* the old code and the new code on what the old code wrote *)
  firstn 4 (get_all red (gen late "Monster")) = get_all red (gen early "Monster") /\
  nth_error (get_all red (gen late "Monster")) 4 = Some (Val None) /\
  match get_all red (gen early "Monster") with [Val (Some (GPlain (VEnum 0))); Val (Some (GPlain (VEnum 1))); Val (Some (GVariant 1 (VTable _))); Val None] => True | _ => False end.
Proof.
  assert (One : forall es, es = early \/ es = late -> settled es).
  { intros es [-> | ->]; apply (one_settled _ [lit "game"]); (split; [reflexivity|]); intros [|[|[|[|[|[|i]]]]]] e N Ns; try reflexivity;
      try (injection N as <-; discriminate Ns); destruct i; discriminate N. }
  split; [apply One; left; reflexivity|]. split; [apply One; right; reflexivity|]. split.
  { intros [|[|[|[|[|i]]]]] e N Ns; try (injection N as <-); try discriminate Ns.
    - exists 5%nat. eexists. split; [reflexivity|]. split; [|reflexivity].
      exact (grows_enum (lit "Color") [AVariant (lit "Red") None []; AVariant (lit "Green") None []] [AVariant (lit "Blue") None []] (APrim UByte) None []).
    - exists 4%nat. eexists. split; [reflexivity|]. split; [|reflexivity].
      exact (grows_table (lit "Sword") [AField (lit "damage") (APrim Short) None None []] [AField (lit "gold") (nm ["Color"]) None None []] None []).
    - exists 3%nat. eexists. split; [reflexivity|]. split; [|reflexivity].
      exact (grows_union (lit "Weapon") [AVariant (lit "Sword") None []] [AVariant (lit "Axe") None []] None []).
    - exists 1%nat. eexists. split; [reflexivity|]. split; [|reflexivity].
      exact (grows_table (lit "Monster") [AField (lit "color") (nm ["Color"]) None None []; AField (lit "weapon") (nm ["Weapon"]) None None []; AField (lit "colors") (AArray (nm ["Color"])) None None []]
        [AField (lit "name") AString None None []] None []).
    - destruct i; discriminate N. }
  split; [vm_compute; exact Logic.I|].
  split; [vm_compute; repeat split; reflexivity|].
  split; [vm_compute; repeat split; reflexivity|].
  split; [vm_compute; reflexivity|]. split; [vm_compute; reflexivity|vm_compute; exact Logic.I].
Qed.

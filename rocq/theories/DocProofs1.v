(** Documents in the words of a schema: names, fields and shapes. *)
From Coq Require Import Strings.String ZArith List Bool Lia Strings.Byte ZifyBool ZifyNat ZifyN.
From Verif Require Import Base Scalar Utf8 SpecWire Reader SpecReader Builder Ops BaseFacts Schema Ident Codegen Resolve SpecResolve SpecGen SpecTable SpecDoc
  GenProofs1 GenProofs2 GenProofs3 GenProofs4 GenProofs8 TableProofs1 TableProofs2 ResolveProofs9.
Import ListNotations.
Local Open Scope list_scope.
Local Open Scope Z_scope.

(** ** Documents, by induction *)
Section Ind.
  Context (P : doc -> Prop).
  Context (P1 : forall v, P (DNum v)) (P2 : forall id, P (DName id)) (P3 : forall s, P (DText s))
    (P4 : forall xs, Forall P xs -> P (DList xs)) (P5 : forall given, Forall (fun p => P (snd p)) given -> P (DTable given))
    (P6 : forall id x, P x -> P (DVariant id x)).
  Fixpoint doc_nested (x : doc) : P x :=
    match x with
    | DNum v => P1 v | DName id => P2 id | DText s => P3 s
    | DList xs => P4 xs ((fix all (xs : list doc) : Forall P xs :=
        match xs with [] => Forall_nil _ | x :: xs => Forall_cons _ (doc_nested x) (all xs) end) xs)
    | DTable given => P5 given ((fix all (l : list (ident * doc)) : Forall (fun p => P (snd p)) l :=
        match l with [] => Forall_nil _ | p :: l => Forall_cons _ (match p as p return P (snd p) with (n, x) => doc_nested x end) (all l) end) given)
    | DVariant id x => P6 id x (doc_nested x)
    end.
End Ind.

(** ** Lists *)
Lemma ident_eqb_iff a b : ident_eqb a b = true <-> a = b.
Proof. unfold ident_eqb. apply bytes_eqb_eq. Qed.
Lemma lookup_In {A} (l : list (ident * A)) id x : lookup l id = Some x -> In (id, x) l.
Proof.
  induction l as [|[n y] l IH]; cbn [lookup]; [discriminate|]. destruct (ident_eqb n id) eqn:E.
  - apply ident_eqb_iff in E. subst. intros [= ->]. left. reflexivity.
  - right. auto.
Qed.
Lemma In_lookup {A} (l : list (ident * A)) id x : NoDup (map fst l) -> In (id, x) l -> lookup l id = Some x.
Proof.
  induction l as [|[n y] l IH]; intros N I; [destruct I|]. cbn [lookup]. cbn [map fst] in N. inversion N as [|? ? Ni N']; subst.
  destruct I as [I|I].
  - injection I as -> ->. replace (ident_eqb id id) with true by (symmetry; apply ident_eqb_iff; reflexivity). reflexivity.
  - destruct (ident_eqb n id) eqn:E; [|auto]. apply ident_eqb_iff in E. subst. exfalso. apply Ni. apply in_map_iff. exists (id, x). auto.
Qed.
Lemma lookup_map {A B} (f : A -> B) (l : list (ident * A)) id :
  lookup (map (fun p => match p with (n, x) => (n, f x) end) l) id = option_map f (lookup l id).
Proof. induction l as [|[n x] l IH]; [reflexivity|]. cbn [map lookup]. destruct (ident_eqb n id); [reflexivity|exact IH]. Qed.
Lemma all_some_Forall2 {A B} (f : A -> option B) (R : A -> B -> Prop) l : (forall x, In x l -> exists y, f x = Some y /\ R x y) ->
  exists ys, all_some (map f l) = Some ys /\ Forall2 (fun x y => f x = Some y /\ R x y) l ys.
Proof.
  induction l as [|x l IH]; intros H; [exists []; split; [reflexivity|constructor]|].
  destruct (H x (or_introl eq_refl)) as (y & E & Rx). destruct IH as (ys & E' & F); [intros z I; apply H; right; exact I|].
  exists (y :: ys). cbn [map all_some]. rewrite E, E'. split; [reflexivity|constructor; auto].
Qed.
Lemma combine_nth {A B} (l : list A) (l' : list B) : forall i x y, nth_error l i = Some x -> nth_error l' i = Some y -> nth_error (combine l l') i = Some (x, y).
Proof. revert l'. induction l as [|a l IH]; intros [|b l'] [|i] x y Hx Hy; cbn in *; try discriminate; [congruence|eauto]. Qed.
Lemma combine_In {A B} (l : list A) (l' : list B) x y : In (x, y) (combine l l') -> exists i, nth_error l i = Some x /\ nth_error l' i = Some y.
Proof.
  revert l'. induction l as [|a l IH]; intros [|b l'] I; cbn in I; try destruct I.
  - exists O. cbn. split; congruence.
  - destruct (IH _ H) as (i & E1 & E2). exists (S i). auto.
Qed.

(** ** The tables of a schema *)
Lemma named_once (l : list node) n n' q : NoDup (map fst (flat_map defs_of l)) -> In n l -> In n' l ->
  In q (map fst (defs_of n)) -> In q (map fst (defs_of n')) -> n = n'.
Proof.
  induction l as [|m l IH]; intros N I I' Q Q'; [destruct I|]. cbn [flat_map] in N. rewrite map_app in N.
  assert (D : forall q, In q (map fst (defs_of m)) -> ~ In q (map fst (flat_map defs_of l))).
  { clear - N. intros q A C. induction (map fst (defs_of m)) as [|x k IHk]; [destruct A|].
    cbn [app] in N. inversion N; subst. destruct A as [->|A]; [apply H1, in_or_app; auto|auto]. }
  assert (M : forall k, In k l -> In q (map fst (defs_of k)) -> In q (map fst (flat_map defs_of l))).
  { intros k Ik Qk. apply in_map_iff in Qk as (p & Ep & Ip). apply in_map_iff. exists p. split; [exact Ep|]. apply in_flat_map. eauto. }
  assert (N' : NoDup (map fst (flat_map defs_of l))).
  { clear - N. induction (map fst (defs_of m)); [exact N|]. cbn [app] in N. inversion N; auto. }
  clear N. rename N' into N.
  destruct I as [<-|I]; destruct I' as [<-|I']; [reflexivity| | |eauto].
  - exfalso. apply (D q Q). eauto.
  - exfalso. apply (D q Q'). eauto.
Qed.
Lemma table_once snake es root q fs fs' : build snake es = Done root -> table_named root q fs -> table_named root q fs' -> fs = fs'.
Proof.
  intros B (p & t & I & <- & <-) (p' & t' & I' & E & <-). pose proof (defined_once snake es root B) as N. unfold defined, definitions in N.
  assert (X : NTable t = NTable t').
  { eapply (named_once _ _ _ (it_id t) N).
    - apply in_map_iff. exists (p, NTable t). split; [reflexivity|exact I].
    - apply in_map_iff. exists (p', NTable t'). split; [reflexivity|exact I'].
    - left. reflexivity.
    - left. exact E. }
  congruence.
Qed.
Lemma qident_eqb_iff a b : qident_eqb a b = true <-> a = b.
Proof.
  revert b. induction a as [|x a IH]; intros [|y b]; cbn; try (split; [discriminate|discriminate]); [tauto|].
  rewrite andb_true_iff, ident_eqb_iff, IH. split; [intros [-> ->]; reflexivity|intros [= -> ->]; auto].
Qed.
Lemma fields_found snake es root q fs : build snake es = Done root -> table_named root q fs -> fields_named root q = Some fs.
Proof.
  intros B T. unfold fields_named. destruct (find _ _) as [[p n]|] eqn:E.
  - apply find_some in E as [I K]. cbn [snd] in K. destruct n as [|t| | | |]; try discriminate K. apply qident_eqb_iff in K.
    f_equal. eapply (table_once snake es root q); [exact B| |exact T]. exists p, t. auto.
  - destruct T as (p & t & I & Eq & _). exfalso. apply (find_none _ _ E) in I. cbn [snd] in I.
    apply qident_eqb_iff in Eq. congruence.
Qed.

(** ** What is generated for a field *)
Lemma field_kinds fl snake hg fs i f g : gen_field fl snake hg fs i f = Some g -> g_req g = if_required f /\
  match if_ty f with
  | IPrim p => exists d, g_kind g = GScalar (prim_ty p) d /\
      match if_default f with None => d = None | Some (DScalar c) => const_value fl (prim_ty p) c = d /\ d <> None | Some (DIdent _) => False end
  | ICustom _ (KEnum vs b) => exists d, g_kind g = GEnum (prim_ty b) (enum_values vs) d /\ enum_default vs (if_default f) = Some d /\ enum_compiles vs b = true
  | ICustom _ (KUnion e vs) => exists tslot j tf evs b td arms, g_kind g = GUnion tslot (prim_ty b) (enum_values evs) td arms /\
      find_field snake 0 fs (type_name snake (if_id f)) = Some (j, tf) /\ if_ty tf = ICustom e (KEnum evs b) /\ slot_of hg j = Some tslot /\
      union_arms evs vs = Some arms /\ enum_compiles evs b = true /\ union_exhaustive evs vs = true
  | ICustom _ (KStruct _) => False
  | t => if_default f = None /\ exists ft, follow_ty t = Some ft /\ g_kind g = GRef ft
  end.
Proof.
  unfold gen_field. destruct (slot_of hg i) as [s|]; [|discriminate].
  destruct (if_ty f) as [p| |t|q [|fs'|vs b|e vs]].
  - destruct (if_default f) as [[c|id]|]; [|discriminate|].
    + destruct (const_value fl (prim_ty p) c) eqn:E; [|discriminate]. intros [= <-]. cbn [g_req g_kind]. split; [reflexivity|]. eexists. split; [reflexivity|]. split; [reflexivity|discriminate].
    + intros [= <-]. cbn [g_req g_kind]. eauto.
  - destruct (if_default f) as [d|]; [discriminate|]. cbn [follow_ty]. intros [= <-]. cbn [g_req g_kind]. eauto.
  - destruct (if_default f) as [d|]; [discriminate|]. destruct (follow_ty (IArray t)); [|discriminate]. intros [= <-]. cbn [g_req g_kind]. eauto.
  - destruct (if_default f) as [d|]; [discriminate|]. cbn [follow_ty]. intros [= <-]. cbn [g_req g_kind]. eauto.
  - destruct (if_default f) as [d|]; discriminate.
  - destruct (enum_default vs (if_default f)) as [d|] eqn:Ed; [|destruct (if_default f); discriminate].
    destruct (enum_compiles vs b) eqn:Ec; [|destruct (if_default f); discriminate].
    intros H. assert (E : g = GField s (GEnum (prim_ty b) (enum_values vs) d) (if_required f)) by (destruct (if_default f); congruence).
    subst g. cbn [g_req g_kind]. eauto 6.
  - intros H.
    assert (E : exists j tf q' evs b arms tslot td, find_field snake 0 fs (type_name snake (if_id f)) = Some (j, tf) /\ if_ty tf = ICustom q' (KEnum evs b) /\
      union_arms evs vs = Some arms /\ slot_of hg j = Some tslot /\ qident_eqb q' e && Bool.eqb (if_required tf) (if_required f) && enum_compiles evs b && union_exhaustive evs vs = true /\
      g = GField s (GUnion tslot (prim_ty b) (enum_values evs) td arms) (if_required f)).
    { destruct (find_field snake 0 fs (type_name snake (if_id f))) as [[j tf]|]; [|destruct (if_default f) as [[[]|]|]; discriminate].
      destruct (if_ty tf) as [ | | | q' [ | | evs b | ]] eqn:Et; try (destruct (if_default f) as [[[]|]|]; discriminate).
      destruct (union_arms evs vs) as [arms|] eqn:Ea; [|destruct (if_default f) as [[[]|]|]; discriminate].
      destruct (slot_of hg j) as [tslot|] eqn:Es; [|destruct (if_default f) as [[[]|]|]; discriminate].
      destruct (enum_default evs (if_default tf)) as [td|]; [|destruct (if_default f) as [[[]|]|]; discriminate].
      destruct (qident_eqb q' e && _ && _ && _) eqn:Q; [|destruct (if_default f) as [[[]|]|]; discriminate].
      exists j, tf, q', evs, b, arms, tslot, td. repeat (split; [first [reflexivity|assumption]|]). destruct (if_default f) as [[[]|]|]; congruence. }
    destruct E as (j & tf & q' & evs & b & arms & tslot & td & E1 & E2 & E3 & E4 & E5 & ->). apply andb_true_iff in E5 as [E5 E8]. apply andb_true_iff in E5 as [E5 E7].
    apply andb_true_iff in E5 as [E5 _]. apply qident_eqb_iff in E5. subst q'. cbn [g_req g_kind]. split; [reflexivity|]. exists tslot, j, tf, evs, b, td, arms. auto 10.
Qed.

(** ** Variants *)
Lemma variant_value_at vs id : forall i n, variant_value_from i vs id = Some n ->
  exists k v, nth_error vs k = Some v /\ iev_id v = id /\ n = match iev_value v with Some x => x | None => i + Z.of_nat k end.
Proof.
  induction vs as [|v vs IH]; intros i n H; cbn [variant_value_from] in H; [discriminate|]. destruct (ident_eqb (iev_id v) id) eqn:E.
  - apply ident_eqb_iff in E. exists O, v. split; [reflexivity|]. split; [exact E|]. injection H as <-. destruct (iev_value v); [reflexivity|]. cbn. lia.
  - destruct (IH _ _ H) as (k & w & N & Ew & ->). exists (S k), w. split; [exact N|]. split; [exact Ew|]. destruct (iev_value w); [reflexivity|]. lia.
Qed.
Lemma variant_numbered vs id n : variant_value vs id = Some n -> exists k v, nth_error vs k = Some v /\ iev_id v = id /\ n = variant_number k v.
Proof. intros H. apply variant_value_at in H as (k & v & N & E & ->). exists k, v. split; [exact N|]. split; [exact E|]. unfold variant_number. destruct (iev_value v); [reflexivity|lia]. Qed.
Lemma variant_exists vs id : In id (map iev_id vs) -> exists n, variant_value vs id = Some n.
Proof. intros I. apply (variant_found vs id 0) in I. unfold variant_value. destruct (variant_value_from 0 vs id) as [n|]; [eauto|congruence]. Qed.
Lemma variant_typed vs b id n lim : enum_compiles vs b = true -> variant_value vs id = Some n ->
  typed lim (TreeNum (prim_ty b) n) (FEnum (prim_ty b) (enum_values vs)).
Proof.
  intros C H. apply variant_numbered in H as (k & v & N & _ & E).
  assert (I : In n (enum_values vs)) by (eapply nth_error_In; apply values_nth; exists v; eauto).
  cbn [typed]. split; [|right; eauto]. unfold enum_compiles in C. repeat (apply andb_true_iff in C as [C ?]).
  match goal with X : forallb (valid_scalar _) _ = true |- _ => rewrite forallb_forall in X; auto end.
Qed.

(** ** The kind of value an accessor returns *)
Definition shape (t : fty) (w : fval) : Prop :=
  match t with
  | FScalar _ => exists v, w = VScalar v
  | FEnum _ _ => exists v, w = VEnum v
  | FUOffset FStr => exists s, w = VStr s
  | FUOffset (FVector e) => exists loc, w = VVector e loc
  | FUOffset FTable => exists loc, w = VTable loc
  | _ => True
  end.
Lemma follow_shape h t buf loc w : follow h t buf loc = Val w -> shape t w.
Proof.
  destruct t as [[]| | | | | |t| | | | | | |b vs]; cbn [shape]; try (intros _; exact Logic.I).
  1-11: intros H; cbn [follow] in H; apply bind_Val in H as (v & _ & H); injection H as <-; eauto.
  - destruct t; try (intros _; exact Logic.I); intros H; cbn [follow] in H; repeat (apply bind_Val in H as (? & _ & H)); injection H as <-; eauto.
  - intros H. cbn [follow] in H. apply bind_Val in H as (v & _ & H).
    repeat (match type of H with (if ?c then _ else _) = _ => destruct c | (match ?m with _ => _ end) = _ => destruct m end; try discriminate H);
      injection H as <-; eauto.
Qed.
Lemma table_get_shape h buf tab slot t d w : table_get h buf tab slot t d = Val (Some w) -> shape t w \/ d = Some w.
Proof.
  unfold table_get. intros H. apply bind_Val in H as (vt & _ & H). apply bind_Val in H as (vo & _ & H). destruct vo as [off|].
  - destruct (off =? 0); [right; congruence|]. apply bind_Val in H as (l & _ & H). apply bind_Val in H as (v & F & H). injection H as <-. left. eapply follow_shape; eauto.
  - right. congruence.
Qed.
Definition kind_shape (k : gkind) (r : gval) : Prop :=
  match k with
  | GScalar _ _ => exists v, r = GPlain (VScalar v)
  | GEnum _ _ _ => exists v, r = GPlain (VEnum v)
  | GRef t => exists w, r = GPlain w /\ shape t w
  | GUnion _ _ _ _ arms => exists n w t, r = GVariant n w /\ find_arm n arms = Some t /\ shape t w
  end.
Lemma get_shape h buf tab g r : gen_get h buf tab g = Val (Some r) -> kind_shape (g_kind g) r.
Proof.
  unfold gen_get, kind_shape. destruct (g_kind g) as [t d|t vs d|t|tslot tb tvs td arms]; intros H.
  1-3: apply bind_Val in H as (v & T & H); apply bind_Val in H as (v' & C & H); injection H as H;
    destruct v' as [w|]; [|discriminate H]; cbn [option_map] in H; injection H as <-;
    destruct v as [w0|]; cbn [check_required] in C; [|destruct (g_req g); discriminate C]; injection C as ->;
    apply table_get_shape in T as [T|T].
  - destruct T as (v & ->). eauto.
  - destruct d; [|discriminate T]. injection T as <-. eauto.
  - destruct T as (v & ->). eauto.
  - destruct d; [|discriminate T]. injection T as <-. eauto.
  - eauto.
  - discriminate T.
  - apply bind_Val in H as (ty & _ & H). apply bind_Val in H as (ty' & _ & H). destruct ty' as [[| | | | | | |n]|]; try discriminate H.
    destruct (find_arm n arms) as [t|] eqn:Fa; [|destruct (g_req g); discriminate H].
    apply bind_Val in H as (v & T & H). apply bind_Val in H as (v' & C & H). injection H as H. destruct v' as [w|]; [|discriminate H].
    cbn [option_map] in H. injection H as <-. destruct v as [w0|]; cbn [check_required] in C; [|destruct (g_req g); discriminate C]. injection C as ->.
    apply table_get_shape in T as [T|T]; [eauto 6|discriminate T].
Qed.
Lemma vec_get_shape h t buf v i w : vec_get h t buf v i = Val w -> shape t w.
Proof. unfold vec_get. intros H. repeat (apply bind_Val in H as (? & _ & H)). eapply follow_shape; eauto. Qed.

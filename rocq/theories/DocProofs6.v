(** What is read determines the document. *)
From Coq Require Import Strings.String ZArith List Bool Lia Strings.Byte ZifyBool ZifyNat ZifyN.
From Verif Require Import Base Scalar Utf8 SpecWire Reader SpecReader Builder Ops BaseFacts Schema Ident Codegen Resolve SpecResolve SpecGen SpecTable SpecDoc SpecSame
  GenProofs1 GenProofs3 GenProofs8 GenProofs10 TableProofs1 TableProofs2 DocProofs1 DocProofs2 DocProofs3 GrowProofs1.
Import ListNotations.
Local Open Scope list_scope.
Local Open Scope Z_scope.

Section Determined.
Context (fl : floats) (snake : text -> text) (root : list node) (hg : host) (es : list element).
Context (B : build snake es = Done root) (C : compiled_tables fl snake root hg).
Context (hr : host) (D : list byte).
Local Notation reads := (SpecDoc.reads fl snake root hg hr D).
Local Notation shaped := (SpecDoc.shaped snake root).
Local Notation same := (SpecSame.same fl root).

(** The enums in a type are those of code that compiles. *)
Definition enums_ok (t : ity) : Prop := match t with ICustom _ (KEnum vs b) => enum_compiles vs b = true | IArray t => exists e, follow_ty t = Some e | ICustom _ (KUnion _ vs) => NoDup (map iuv_id vs) | _ => True end.
Lemma follow_enums t e : follow_ty t = Some e -> enums_ok t.
Proof. destruct t as [p| |t|q [| |vs b|]]; cbn; intros H; auto; [destruct (follow_ty t); [eauto|discriminate]|destruct (enum_compiles vs b); [reflexivity|discriminate]|discriminate]. Qed.
Lemma field_enums q fs gs f : table_named root q fs -> gen_table fl snake hg fs = Some gs -> In f fs -> enums_ok (if_ty f).
Proof.
  intros (path & tb & It & _ & Ef) G I. pose proof I as If. apply In_nth_error in I as (i & N). unfold gen_table in G. destruct (_ && _); [|discriminate G].
  destruct (gen_fields_back _ _ _ _ _ _ _ _ _ G N) as (g & _ & K). apply field_kinds in K as [_ K].
  destruct (if_ty f) as [p| |t|q0 [| |vs b|e vs]] eqn:Tf; cbn [enums_ok]; auto.
  - destruct K as (_ & ft & Ft & _). exact (follow_enums _ _ Ft).
  - destruct K as (d & _ & _ & K). exact K.
  - destruct K as (tslot & j & tf & evs & b & td & arms & _ & Ff & Tt & _ & _ & K & _). apply find_field_nth in Ff as (k & _ & Nk).
    destruct (resolved_companions snake es root path tb B It f q0 e vs tf evs b) as (_ & cvs & -> & Ids & _); rewrite ?Ef; auto; [eapply nth_error_In; exact Nk|].
    apply enum_fine in K. pose proof (fe_names _ _ K) as Nd. cbn [map iev_id] in Nd. apply NoDup_cons_iff in Nd as [_ Nd]. rewrite Ids in Nd. exact Nd.
Qed.
Lemma number_once vs b i j v w : enum_compiles vs b = true -> nth_error vs i = Some v -> nth_error vs j = Some w -> variant_number i v = variant_number j w -> i = j.
Proof. intros H. apply enum_fine in H. exact (fe_numbers _ _ H i j v w). Qed.

Lemma table_given given q : shaped (DTable given) (ICustom q KTable) -> NoDup (map fst given) /\ exists fs, table_named root q fs /\
  forall n x, In (n, x) given -> exists f, In f fs /\ if_id f = n /\ told snake fs f = None /\ shaped x (if_ty f).
Proof.
  cbn [SpecDoc.shaped]. intros (fs & T & Nd & Each & _). split; [exact Nd|]. exists fs. split; [exact T|].
  clear - Each. induction given as [|[n x] l IHl]; intros n' x' I; [destruct I|]. destruct Each as [E1 Es]. destruct I as [I|I]; [injection I as <- <-; exact E1|auto].
Qed.
(** A field that is given to one table and left out in another. *)
Lemma given_left f x w : enums_ok (if_ty f) -> reads x (if_ty f) w -> reads_left_out fl f (Some w) ->
  match if_ty f, if_default f with IPrim _, Some (DIdent _) | ICustom _ (KEnum _ _), Some (DScalar _) => False | _, _ => True end -> as_left_out fl equal_numbers f x.
Proof.
  intros E R L Ok. unfold reads_left_out in L. unfold as_left_out, equal_numbers. destruct (if_ty f) as [p| |t|q [| |vs b|]]; try discriminate L.
  - destruct x; cbn [SpecDoc.reads] in R; try contradiction. destruct R as (u & -> & Ru). destruct (if_default f) as [[c|id]|].
    + destruct L as (d & u' & Ed & Lu & Eu). injection Eu as <-. exists d. split; [exact Ed|]. exact (scalar_eq_meet _ _ _ _ Ru Lu).
    + contradiction.
    + destruct L as (u' & Lu & Eu). injection Eu as <-. exact (scalar_eq_meet _ _ _ _ Ru Lu).
  - destruct x; cbn [SpecDoc.reads] in R; try contradiction. destruct R as (i & v & N & <- & ->). destruct (if_default f) as [[c|d]|].
    + contradiction.
    + destruct L as (j & v' & N' & <- & Ev). injection Ev as Ev. assert (i = j) by (eapply number_once; eauto). congruence.
    + destruct L as (v' & N' & Ev). injection Ev as Ev. assert (i = 0%nat) by (eapply number_once; eauto). subst i. eauto.
Qed.

Definition determined (x : doc) : Prop := forall x' t w, enums_ok t -> shaped x t -> shaped x' t -> reads x t w -> reads x' t w -> same t x x'.
Lemma table_determined given : Forall (fun p => determined (snd p)) given -> determined (DTable given).
Proof.
  intros IH x' t w _ S S' R R'. destruct t as [p| | |q [| | |]]; try (cbn in S; contradiction). destruct x' as [| | | |given'|]; try (cbn in S'; contradiction).
  apply table_given in S as (Nd & fs & T & Each). apply table_given in S' as (Nd' & fs2 & T2 & Each').
  apply reads_table in R as (fs3 & gs & loc & T3 & G & -> & TR). apply reads_table in R' as (fs4 & gs' & loc' & T4 & G' & E & TR').
  rewrite (table_once snake es root q fs2 fs B T2 T) in *. rewrite (table_once snake es root q fs3 fs B T3 T) in *. rewrite (table_once snake es root q fs4 fs B T4 T) in *.
  injection E as <-. assert (gs' = gs) by congruence. subst gs'.
  assert (Len : forall i f, nth_error fs i = Some f -> exists g, nth_error gs i = Some g /\ gen_field fl snake hg fs (Z.of_nat i) f = Some g).
  { intros i f N. pose proof G as K. unfold gen_table in K. destruct (_ && _); [|discriminate K]. destruct (gen_fields_back _ _ _ _ _ _ _ _ _ K N) as (g & Ng & Kg). exists g. split; [exact Ng|exact Kg]. }
  assert (Fst : forall i j f f', nth_error fs i = Some f -> nth_error fs j = Some f' -> if_id f = if_id f' -> i = j /\ f = f').
  { intros i j f f' Ni Nj E. assert (i = j) by (eapply gen_names; [exact G|exact Ni|exact Nj|congruence]). subst j. split; [reflexivity|congruence]. }
  (* a field given *)
  assert (Giv : forall gv, (forall n x, In (n, x) gv -> exists f, In f fs /\ if_id f = n /\ told snake fs f = None /\ shaped x (if_ty f)) ->
    table_reads fl snake root hg hr D fs gs loc gv ->
    forall i f g x, nth_error fs i = Some f -> nth_error gs i = Some g -> lookup gv (if_id f) = Some x ->
      In (if_id f, x) gv /\ told snake fs f = None /\ shaped x (if_ty f) /\ exists w, gen_get hr D loc g = Val (Some w) /\ reads x (if_ty f) w).
  { intros gv Ea Tr i f g x N Ng L. apply lookup_In in L. split; [exact L|]. destruct (Ea _ _ L) as (f1 & I1 & E1 & To & Sx).
    apply In_nth_error in I1 as (i1 & N1). destruct (Fst _ _ _ _ N1 N E1) as [-> ->]. split; [exact To|]. split; [exact Sx|].
    destruct (tr_given _ _ _ _ _ _ _ _ _ _ Tr _ _ L) as (i2 & f2 & g2 & w & N2 & E2 & Ng2 & Gw & Rw). destruct (Fst _ _ _ _ N2 N E2) as [-> ->]. assert (g2 = g) by congruence. subst g2. eauto. }
  (* a field given here and left out there *)
  assert (One : forall gv gv', (forall n x, In (n, x) gv -> exists f, In f fs /\ if_id f = n /\ told snake fs f = None /\ shaped x (if_ty f)) ->
    table_reads fl snake root hg hr D fs gs loc gv -> table_reads fl snake root hg hr D fs gs loc gv' ->
    forall f x, In f fs -> lookup gv (if_id f) = Some x -> lookup gv' (if_id f) = None -> as_left_out fl equal_numbers f x).
  { intros gv gv' Ea Tr Tr' f x I L L'. apply In_nth_error in I as (i & N). destruct (Len i f N) as (g & Ng & Kg).
    destruct (Giv gv Ea Tr i f g x N Ng L) as (_ & To & Sx & w & Gw & Rw).
    destruct (tr_left _ _ _ _ _ _ _ _ _ _ Tr' i f g N Ng) as (r & Gr & Lr); [unfold value_of; rewrite To; exact L'|].
    assert (r = Some w) by congruence. subst r. apply (given_left f x w); [eapply field_enums; [exact T|exact G|eapply nth_error_In; exact N]|exact Rw|exact Lr|].
    apply field_kinds in Kg as [_ Kg]. destruct (if_ty f) as [p| |t|q0 [| |vs b|]]; try exact Logic.I.
    - destruct Kg as (d & _ & Kg). destruct (if_default f) as [[]|]; [exact Logic.I|contradiction|exact Logic.I].
    - destruct Kg as (d & _ & Kg & _). destruct (if_default f) as [[]|]; [discriminate Kg|exact Logic.I..]. }
  apply (SpecSame.same_table fl root equal_numbers q fs); [exact T| | |].
  - intros f x x' I L L'. apply In_nth_error in I as (i & N). destruct (Len i f N) as (g & Ng & Kg).
    destruct (Giv given Each TR i f g x N Ng L) as (Ix & _ & Sx & w & Gw & Rw). destruct (Giv given' Each' TR' i f g x' N Ng L') as (_ & _ & Sx' & w' & Gw' & Rw').
    assert (w' = w) by congruence. subst w'. rewrite Forall_forall in IH. apply (IH _ Ix x' (if_ty f) w); auto. eapply field_enums; [exact T|exact G|eapply nth_error_In; exact N].
  - exact (One given given' Each TR TR').
  - intros f x I L L'. exact (One given' given Each' TR' TR f x I L' L).
Qed.
Lemma list_determined xs : Forall determined xs -> determined (DList xs).
Proof.
  intros IH x' t w E S S' R R'. destruct t as [p| |t|]; try (cbn in S; contradiction). destruct x' as [| | |xs'| |]; try (cbn in S'; contradiction).
  cbn [SpecDoc.shaped] in S, S'. destruct S as [_ S], S' as [_ S']. apply shaped_all in S. apply shaped_all in S'. cbn [SpecDoc.reads] in R, R'.
  destruct R as (e & loc & -> & L & R), R' as (e' & loc' & Ew & L' & R'). injection Ew as <- <-. destruct E as (ft & Ft). apply follow_enums in Ft.
  assert (Len : length xs' = length xs) by (assert (blen xs' = blen xs) by congruence; unfold blen in *; lia).
  apply SpecSame.same_list. clear L L'. revert R R'. generalize 0 as i. revert xs' S' Len. induction IH as [|x xs H IH IH2]; intros xs' S' Len i R R'.
  - destruct xs'; [constructor|discriminate Len].
  - destruct xs' as [|x' xs']; [discriminate Len|]. inversion S; subst. inversion S'; subst. destruct R as [(w & Gw & Rw) R], R' as [(w' & Gw' & Rw') R'].
    constructor; [|eapply IH2; eauto; cbn in Len; lia]. assert (w' = w) by congruence. subst w'. eapply H; eauto.
Qed.
Lemma all_determined : forall x, determined x.
Proof.
  refine (doc_nested determined _ _ _ _ _ _).
  - intros v x' t w _ S S' R R'. destruct t as [p| | |]; try (cbn in S; contradiction). destruct x'; try (cbn in S'; contradiction). cbn [SpecDoc.reads] in R, R'.
    destruct R as (u & -> & Ru), R' as (u' & Eu & Ru'). injection Eu as <-. apply SpecSame.same_num. exact (scalar_eq_meet _ _ _ _ Ru Ru').
  - intros id x' t w E S S' R R'. destruct t as [p| | |q [| |vs b|]]; try (cbn in S; contradiction). destruct x'; try (cbn in S'; contradiction). cbn [SpecDoc.reads] in R, R'.
    destruct R as (i & v & N & <- & ->), R' as (j & v' & N' & <- & Ev). injection Ev as Ev. assert (i = j) by (eapply number_once; eauto). subst j. assert (v' = v) by congruence. subst v'. apply SpecSame.same_name.
  - intros s x' t w _ S S' R R'. destruct t as [p| | |]; try (cbn in S; contradiction). destruct x'; try (cbn in S'; contradiction). cbn [SpecDoc.reads] in R, R'. subst w. injection R' as <-. apply SpecSame.same_text.
  - exact list_determined.
  - exact table_determined.
  - intros id x IH x' t w E S S' R R'. destruct t as [p| | |q [| | |e vs]]; try (cbn in S; contradiction). destruct x' as [| | | | |id' x']; try (cbn in S'; contradiction). cbn [SpecDoc.reads SpecDoc.shaped] in R, R', S, S'.
    destruct S as (v1 & q1 & I1 & E1 & T1 & S), S' as (v2 & q2 & I2 & E2 & T2 & S'). destruct R as (i & v & w1 & N & Ev & -> & R), R' as (i' & v' & w2 & N' & Ev' & Ew & R').
    injection Ew as Ei <-. assert (i = i') by lia. subst i'. assert (v' = v) by congruence. subst v'.
    assert (v1 = v) by (apply (NoDup_map_In iuv_id vs); eauto using nth_error_In; congruence). assert (v2 = v) by (apply (NoDup_map_In iuv_id vs); eauto using nth_error_In; congruence). subst v1 v2 id'.
    rewrite <- Ev. apply SpecSame.same_variant; [exact I1|]. apply (IH x' (iuv_ty v) (GPlain w1)); auto. rewrite T1. exact Logic.I.
Qed.

(** ** Documents that say the same read the same *)
Lemma scalar_eq_sym t a b : scalar_eq t a b = scalar_eq t b a.
Proof. unfold scalar_eq. rewrite (orb_comm (is_nan t a)), (Z.eqb_sym a), (andb_comm (is_zero t a)). reflexivity. Qed.
Lemma num_keeps t v v' u : u = v \/ scalar_eq t v u = true -> v = v' \/ scalar_eq t v v' = true -> u = v' \/ scalar_eq t v' u = true.
Proof.
  intros H K. destruct (scalar_eq_meet t v' u v) as [E|E]; auto.
  - destruct K as [K|K]; [left; exact K|right; rewrite scalar_eq_sym; exact K].
  - destruct H as [H|H]; [left; congruence|right; rewrite scalar_eq_sym; exact H].
Qed.
Lemma left_reads f x r : shaped x (if_ty f) -> as_left_out fl equal_numbers f x -> reads_left_out fl f r -> exists w, r = Some w /\ reads x (if_ty f) w.
Proof.
  unfold as_left_out, equal_numbers, reads_left_out. intros S A L. destruct (if_ty f) as [p| |t|q [| |vs b|]]; try (destruct (if_default f) as [[]|]; destruct x; contradiction).
  - destruct (if_default f) as [[c|id]|]; destruct x as [v| | | | |]; try contradiction; cbn [SpecDoc.reads].
    + destruct A as (d & Ed & A). destruct L as (d' & u & Ed' & L & ->). assert (d' = d) by congruence. subst d'. eexists. split; [reflexivity|]. exists u. split; [reflexivity|].
      apply (num_keeps _ d v u L). destruct A as [A|A]; [left; congruence|right; rewrite scalar_eq_sym; exact A].
    + destruct L as (u & L & ->). eexists. split; [reflexivity|]. exists u. split; [reflexivity|].
      apply (num_keeps _ 0 v u L). destruct A as [A|A]; [left; congruence|right; rewrite scalar_eq_sym; exact A].
  - destruct (if_default f) as [[c|id]|]; destruct x as [|id'| | | |]; try contradiction; cbn [SpecDoc.reads].
    + subst id'. destruct L as (i & v & N & E & ->). eauto 8.
    + destruct A as (v & N & E). destruct L as (v' & N' & ->). assert (v' = v) by congruence. subst v'. exists (GPlain (VEnum (variant_number 0 v))). split; [reflexivity|]. exists 0%nat, v. auto.
Qed.
Lemma reads_left f x w : enums_ok (if_ty f) -> as_left_out fl equal_numbers f x -> reads x (if_ty f) w -> reads_left_out fl f (Some w).
Proof.
  unfold as_left_out, equal_numbers, reads_left_out. intros Ok A R. destruct (if_ty f) as [p| |t|q [| |vs b|]]; try (destruct (if_default f) as [[]|]; destruct x; contradiction).
  - destruct (if_default f) as [[c|id]|]; destruct x as [v| | | | |]; try contradiction; cbn [SpecDoc.reads] in R; destruct R as (u & -> & R).
    + destruct A as (d & Ed & A). exists d, u. split; [exact Ed|]. split; [|reflexivity]. exact (num_keeps _ v d u R A).
    + exists u. split; [|reflexivity]. exact (num_keeps _ v 0 u R A).
  - destruct (if_default f) as [[c|id]|]; destruct x as [|id'| | | |]; try contradiction; cbn [SpecDoc.reads] in R; destruct R as (i & v & N & E & ->).
    + exists i, v. split; [exact N|]. split; [congruence|reflexivity].
    + destruct A as (v0 & N0 & E0). exists v0. split; [exact N0|]. cbn [enums_ok] in Ok. apply enum_fine in Ok. pose proof (fe_names _ _ Ok) as Nd.
      assert (i = 0%nat) by (eapply NoDup_nth_error; [exact Nd|apply nth_error_Some; rewrite nth_error_map, N; discriminate|rewrite !nth_error_map, N, N0; cbn; congruence]).
      subst i. congruence.
Qed.

Definition carries (x : doc) : Prop := forall x' t w, enums_ok t -> shaped x t -> shaped x' t -> same t x x' -> reads x t w -> reads x' t w.
Lemma table_carries given : Forall (fun p => carries (snd p)) given -> carries (DTable given).
Proof.
  intros IH x' t w _ S S' M R. unfold SpecSame.same in M; inversion M as [| | | | |q fs g g' T Both Only Only' Et Ex Ex']; subst. 
  apply table_given in S as (Nd & fs1 & T1 & Each). apply table_given in S' as (Nd' & fs2 & T2 & Each').
  apply reads_table in R as (fs3 & gs & loc & T3 & G & -> & TR).
  rewrite (table_once snake es root q fs1 fs B T1 T) in *. rewrite (table_once snake es root q fs2 fs B T2 T) in *. rewrite (table_once snake es root q fs3 fs B T3 T) in *.
  assert (Fst : forall i j f f', nth_error fs i = Some f -> nth_error fs j = Some f' -> if_id f = if_id f' -> i = j /\ f = f').
  { intros i j f f' Ni Nj E. assert (i = j) by (eapply gen_names; [exact G|exact Ni|exact Nj|congruence]). subst j. split; [reflexivity|congruence]. }
  assert (Len : forall i f, nth_error fs i = Some f -> exists g, nth_error gs i = Some g).
  { intros i f N. pose proof G as K. unfold gen_table in K. destruct (_ && _); [|discriminate K]. destruct (gen_fields_back _ _ _ _ _ _ _ _ _ K N) as (g & Ng & Kg). eauto. }
  assert (En : forall f, In f fs -> enums_ok (if_ty f)) by (intros f I; eapply field_enums; eauto).
  assert (Giv : forall i f g x, nth_error fs i = Some f -> nth_error gs i = Some g -> lookup given (if_id f) = Some x ->
      In (if_id f, x) given /\ told snake fs f = None /\ shaped x (if_ty f) /\ exists w, gen_get hr D loc g = Val (Some w) /\ reads x (if_ty f) w).
  { intros i f g0 x N Ng L. apply lookup_In in L. split; [exact L|]. destruct (Each _ _ L) as (f1 & I1 & E1 & To & Sx).
    apply In_nth_error in I1 as (i1 & N1). destruct (Fst _ _ _ _ N1 N E1) as [-> ->]. split; [exact To|]. split; [exact Sx|].
    destruct (tr_given _ _ _ _ _ _ _ _ _ _ TR _ _ L) as (i2 & f2 & g2 & w & N2 & E2 & Ng2 & Gw & Rw). destruct (Fst _ _ _ _ N2 N E2) as [-> ->]. assert (g2 = g0) by congruence. subst g2. eauto. }
  assert (TGiv : forall n x, In (n, x) g' -> exists i f g w, nth_error fs i = Some f /\ if_id f = n /\ nth_error gs i = Some g /\ gen_get hr D loc g = Val (Some w) /\ reads x (if_ty f) w).
  { intros n x' Ix'. destruct (Each' _ _ Ix') as (f & If & En' & To & Sx'). pose proof If as If'. apply In_nth_error in If' as (i & N). destruct (Len _ _ N) as (g & Ng).
    pose proof (In_lookup _ _ _ Nd' Ix') as L'. rewrite <- En' in L'. destruct (lookup given (if_id f)) as [x|] eqn:L.
    - destruct (Giv _ _ _ _ N Ng L) as (Ix & _ & Sx & w & Gw & Rw). exists i, f, g, w. repeat (split; [assumption|]).
      rewrite Forall_forall in IH. exact (IH _ Ix x' (if_ty f) w (En f If) Sx Sx' (Both f x x' If L L') Rw).
    - destruct (tr_left _ _ _ _ _ _ _ _ _ _ TR i f g N Ng) as (r & Gr & Lr); [unfold SpecDoc.value_of; rewrite To; exact L|].
      destruct (left_reads f x' r Sx' (Only' f x' If L L') Lr) as (w & -> & Rw). exists i, f, g, w. auto. }
  cbn [SpecDoc.reads]. exists fs, gs, loc. split; [exact T|]. split; [exact G|]. split; [reflexivity|]. split; [|split; [|split]].
  - clear - TGiv. induction g' as [|[n x] l IH]; [exact Logic.I|]. split; [apply TGiv; left; reflexivity|apply IH; intros; apply TGiv; right; assumption].
  - intros i f g u id y N Ng To L'. assert (Iu : In u fs) by (apply find_some in To; tauto). destruct (lookup given (if_id u)) as [x|] eqn:L.
    + pose proof (Both u x _ Iu L L') as Mu. unfold SpecSame.same in M; unfold SpecSame.same in Mu; inversion Mu; subst. eapply (tr_told _ _ _ _ _ _ _ _ _ _ TR); eauto.
    + exfalso. pose proof (Only' u _ Iu L L') as A. unfold as_left_out in A. destruct (if_ty u) as [| | |? []]; try contradiction; destruct (if_default u) as [[]|]; contradiction.
  - intros i f g N Ng V. assert (If : In f fs) by (eapply nth_error_In; exact N). unfold SpecDoc.value_of in V. destruct (told snake fs f) as [u|] eqn:To.
    + apply (tr_left _ _ _ _ _ _ _ _ _ _ TR i f g N Ng). unfold SpecDoc.value_of. rewrite To. assert (Iu : In u fs) by (apply find_some in To; tauto).
      destruct (lookup given (if_id u)) as [x|] eqn:L; [|reflexivity]. destruct x as [| | | | |id x]; try reflexivity. exfalso. destruct (lookup g' (if_id u)) as [x'|] eqn:L'.
      * pose proof (Both u _ _ Iu L L') as Mu. unfold SpecSame.same in M; unfold SpecSame.same in Mu; inversion Mu; subst. discriminate V.
      * pose proof (Only u _ Iu L L') as A. unfold as_left_out in A. destruct (if_ty u) as [| | |? []]; try contradiction; destruct (if_default u) as [[]|]; contradiction.
    + destruct (lookup given (if_id f)) as [x|] eqn:L.
      * destruct (Giv _ _ _ _ N Ng L) as (_ & _ & _ & w & Gw & Rw). exists (Some w). split; [exact Gw|]. exact (reads_left f x w (En f If) (Only f x If L V) Rw).
      * apply (tr_left _ _ _ _ _ _ _ _ _ _ TR i f g N Ng). unfold SpecDoc.value_of. rewrite To. exact L.
  - exact (tr_beyond _ _ _ _ _ _ _ _ _ _ TR).
Qed.
Lemma list_carries xs : Forall carries xs -> carries (DList xs).
Proof.
  intros IH x' t w E S S' M R. unfold SpecSame.same in M; inversion M as [| | |t0 ys xs' F Et Ex Ex'| |]; subst. cbn [SpecDoc.shaped] in S, S'. destruct S as [_ S], S' as [_ S']. apply shaped_all in S. apply shaped_all in S'.
  cbn [SpecDoc.reads] in *. destruct R as (e & loc & -> & L & R). destruct E as (ft & Ft). apply follow_enums in Ft.
  exists e, loc. split; [reflexivity|]. split; [rewrite L; f_equal; unfold blen; f_equal; clear - F; induction F; cbn [length]; congruence|].
  clear L M. revert R. generalize 0 as i. revert S S' IH. induction F as [|x x' xs xs' Mx _ IHF]; intros S S' IH i R; [exact Logic.I|].
  inversion S; subst. inversion S'; subst. inversion IH; subst. destruct R as [(w & Gw & Rw) R]. split; [exists w; split; [exact Gw|]|apply IHF; assumption].
  match goal with H : carries x |- _ => exact (H x' t0 (GPlain w) Ft ltac:(assumption) ltac:(assumption) Mx Rw) end.
Qed.
Lemma all_carries : forall x, carries x.
Proof.
  refine (doc_nested carries _ _ _ _ _ _).
  - intros v x' t w _ S S' M R. unfold SpecSame.same in M; inversion M; subst. cbn [SpecDoc.reads] in *. destruct R as (u & -> & R). exists u. split; [reflexivity|]. eapply num_keeps; eauto.
  - intros id x' t w _ S S' M R. unfold SpecSame.same in M; inversion M; subst. exact R.
  - intros s x' t w _ S S' M R. unfold SpecSame.same in M; inversion M; subst. exact R.
  - exact list_carries.
  - exact table_carries.
  - intros id x IH x' t w E S S' M R. unfold SpecSame.same in M; inversion M as [| | | |q e vs v y y' Iv My Et Ex Ex'|]; subst. cbn [SpecDoc.reads SpecDoc.shaped enums_ok] in *.
    destruct R as (i & v1 & w1 & N & Ev & -> & R). destruct S as (v2 & q2 & I2 & E2 & T2 & S), S' as (v3 & q3 & I3 & E3 & T3 & S').
    assert (v1 = v) by (apply (NoDup_map_In iuv_id vs); eauto using nth_error_In). assert (v2 = v) by (apply (NoDup_map_In iuv_id vs); eauto). assert (v3 = v) by (apply (NoDup_map_In iuv_id vs); eauto). subst v1 v2 v3.
    exists i, v, w1. repeat (split; [first [assumption|reflexivity]|]). apply (IH y' (iuv_ty v) (GPlain w1)); auto. rewrite T2. exact Logic.I.
Qed.
End Determined.

(** Old code reads new documents. *)
From Coq Require Import Strings.String ZArith List Bool Lia Strings.Byte ZifyBool ZifyNat.
From Verif Require Import Base BaseFacts Scalar Reader Builder Schema Codegen SpecGen GenProofs1 GenProofs2 GenProofs3 GenProofs4 GenProofs8 GenProofs9 SpecAccess AccessProofs
  Ident Resolve SpecResolve SpecEvolve ResolveProofs9 EvolveProofs1 EvolveProofs2 EvolveProofs3 SpecTable TableProofs1 TableProofs2 SpecDoc DocProofs1 SpecGrow GrowProofs1.
Import ListNotations.
Local Open Scope list_scope.
Local Open Scope Z_scope.

(** ** Values that old and new code read *)
(** More than [shape]: an enum value is one of the variants. *)
Definition proper (e : fty) (w : fval) : Prop := shape e w /\ match e, w with FEnum _ vs, VEnum n => In n vs | _, _ => True end.
Lemma follow_proper h e buf loc w : follow h e buf loc = Val w -> proper e w.
Proof.
  intros H. split; [eapply follow_shape; eauto|]. destruct e as [| | | | | | | | | | | | |b vs]; try exact Logic.I. cbn [follow] in H. apply bind_Val in H as (v & _ & H).
  repeat match type of H with context [if ?c then _ else _] => destruct c eqn:? end; try discriminate H; injection H as <-; try exact Logic.I.
  apply existsb_In. assumption.
Qed.
Lemma table_get_proper h buf tab slot t d w : table_get h buf tab slot t d = Val (Some w) -> proper t w \/ d = Some w.
Proof.
  unfold table_get. intros H. apply bind_Val in H as (vt & _ & H). apply bind_Val in H as (vo & _ & H). destruct vo as [off|].
  - destruct (off =? 0); [right; congruence|]. apply bind_Val in H as (l & _ & H). apply bind_Val in H as (v & F & H). injection H as <-. left. eapply follow_proper; eauto.
  - right. congruence.
Qed.
Lemma vec_get_proper h t buf v i w : vec_get h t buf v i = Val w -> proper t w.
Proof. unfold vec_get. intros H. repeat (apply bind_Val in H as (? & _ & H)). eapply follow_proper; eauto. Qed.

Lemma default_known vs d n : enum_default vs d = Some (Some n) -> In n (enum_values vs).
Proof.
  destruct d as [[c|id]|]; cbn [enum_default]; try discriminate. destruct (variant_value vs id) as [m|] eqn:V; [|discriminate]. intros [= ->].
  apply variant_numbered in V as (k & v & N & _ & ->). eapply nth_error_In. apply values_nth. eauto.
Qed.
Lemma plain_follow fl snake hg all i f g : gen_field fl snake hg all i f = Some g -> is_union (if_ty f) = false -> exists e, follow_ty (if_ty f) = Some e.
Proof.
  intros G U. apply field_kinds in G as [_ G]. destruct (if_ty f) as [p| |t|q [|x|vs b|e vs]]; try discriminate U; cbn [follow_ty]; eauto.
  - destruct G as (_ & ft & F & _). eauto.
  - destruct G.
  - destruct G as (d & _ & _ & C). rewrite C. eauto.
Qed.
Lemma plain_proper fl snake hg all i f g e hr D loc r : gen_field fl snake hg all i f = Some g -> follow_ty (if_ty f) = Some e -> gen_get hr D loc g = Val (Some r) ->
  exists w, r = GPlain w /\ proper e w.
Proof.
  intros G Fe H. apply field_kinds in G as [_ G]. unfold gen_get in H.
  assert (K : match g_kind g with GScalar t d => e = FScalar t | GEnum t vs d => e = FEnum t vs /\ (forall n, d = Some n -> In n vs) | GRef t => e = t | GUnion _ _ _ _ _ => False end).
  { destruct (if_ty f) as [p| |t|q [|x|vs b|e0 vs]]; cbn [follow_ty] in Fe.
    - destruct G as (d & K & _). rewrite K. congruence.
    - destruct G as (_ & ft & F & K). rewrite K. cbn [follow_ty] in F. congruence.
    - destruct G as (_ & ft & F & K). rewrite K. cbn [follow_ty] in F. congruence.
    - destruct G as (_ & ft & F & K). rewrite K. cbn [follow_ty] in F. congruence.
    - destruct G.
    - destruct G as (d & K & Ed & C). rewrite K. rewrite C in Fe. split; [congruence|]. intros n ->. eapply default_known; eauto.
    - discriminate Fe. }
  destruct (g_kind g) as [t d|t vs d|t|tslot tb tvs td arms]; [| | |contradiction];
    apply bind_Val in H as (v & T & H); apply bind_Val in H as (v' & C & H); injection H as H;
    (destruct v' as [w|]; [|discriminate H]); cbn [option_map] in H; injection H as <-;
    (destruct v as [w0|]; cbn [check_required] in C; [|destruct (g_req g); discriminate C]); injection C as ->;
    exists w; (split; [reflexivity|]); apply table_get_proper in T as [T|T].
  - subst e. exact T.
  - subst e. destruct d; [|discriminate T]. injection T as <-. split; [cbn; eauto|exact Logic.I].
  - destruct K as [-> _]. exact T.
  - destruct K as [-> K]. destruct d as [n|]; [|discriminate T]. injection T as <-. split; [cbn; eauto|apply K; reflexivity].
  - subst e. exact T.
  - discriminate T.
Qed.

(** What old code returned, and new code, for the same place. *)
Definition like (e e' : fty) (o : outcome (option gval)) (r' : gval) : Prop :=
  (exists w w', o = Val (Some (GPlain w)) /\ r' = GPlain w' /\ fval_grown w w' /\ proper e w /\ proper e' w') \/
  (o = Err UnknownEnumVariant /\ exists t vs n, e = FEnum t vs /\ r' = GPlain (VEnum n) /\ ~ In n vs).
Lemma newer_enum t e n : follow_ty t = Some e -> (exists q vs b, t = ICustom q (KEnum vs b) /\ ~ SpecAccess.variant_number vs n) -> exists s vs, e = FEnum s vs /\ ~ In n vs.
Proof.
  intros Fe (q & vs & b & -> & N). cbn [follow_ty] in Fe. destruct (enum_compiles vs b); [|discriminate Fe]. injection Fe as <-. exists (prim_ty b), (enum_values vs). split; [reflexivity|].
  rewrite values_number. exact N.
Qed.
Lemma field_like fl snake hg hg' all all' i f f' g g' e e' hr D loc r' : field_grown f f' -> 0 <= i <= 32764 ->
  gen_field fl snake hg all i f = Some g -> gen_field fl snake hg' all' i f' = Some g' -> follow_ty (if_ty f) = Some e -> follow_ty (if_ty f') = Some e' ->
  gen_get hr D loc g' = Val (Some r') -> like e e' (gen_get hr D loc g) r'.
Proof.
  intros Gr Hi G G' Fe Fe' H'. assert (U : is_union (if_ty f) = false) by (destruct (if_ty f) as [| | |q []]; try reflexivity; discriminate Fe).
  destruct (field_plain fl snake _ _ _ _ _ _ _ _ _ Gr Hi U G G') as (_ & _ & P). specialize (P hr D loc). rewrite H' in P. destruct P as [P|(P & q & vs & b & n & T & Er & N)].
  - left. destruct (gen_get hr D loc g) as [y| |] eqn:H; cbn in P; try contradiction. destruct y as [r|]; [|inversion P].
    destruct (plain_proper _ _ _ _ _ _ _ _ _ _ _ _ G Fe H) as (w & -> & K). destruct (plain_proper _ _ _ _ _ _ _ _ _ _ _ _ G' Fe' H') as (w' & -> & K').
    inversion P; subst. exists w, w'. auto.
  - right. split; [exact P|]. injection Er as ->. destruct (newer_enum _ _ n Fe) as (s & l & -> & Nn); [eauto 6|]. eauto 6.
Qed.
Lemma element_like t t' e e' hr D l i w' : ty_grown t t' -> follow_ty t = Some e -> follow_ty t' = Some e' -> vec_get hr e' D l i = Val w' -> like e e' (item (vec_get hr e D l i)) (GPlain w').
Proof.
  intros Ty Fe Fe' H'. destruct (elements_grown t t' e e' hr D l i Ty Fe Fe') as [A|(A & q & vs & b & n & T & Er & N)].
  - left. rewrite H' in A. destruct (vec_get hr e D l i) as [w| |] eqn:H; cbn in A; try contradiction. exists w, w'. cbn [item bind]. split; [reflexivity|]. split; [reflexivity|]. split; [exact A|].
    split; eapply vec_get_proper; eauto.
  - right. rewrite A. cbn [item bind]. split; [reflexivity|]. rewrite H' in Er. injection Er as ->. destruct (newer_enum _ _ n Fe) as (s & k & -> & Nn); [eauto 6|]. eauto 6.
Qed.
(** A variant that new code read, under its name. *)
Lemma name_read vs more b k v o : enum_compiles (vs ++ more) b = true -> nth_error (vs ++ more) k = Some v ->
  like (FEnum (prim_ty b) (enum_values vs)) (FEnum (prim_ty b) (enum_values (vs ++ more))) o (GPlain (VEnum (variant_number k v))) -> reads_name vs (iev_id v) o.
Proof.
  intros C N K. apply enum_fine in C.
  assert (At : forall j w, nth_error vs j = Some w -> nth_error (vs ++ more) j = Some w) by (intros j w Nj; rewrite nth_error_app1; [exact Nj|apply nth_error_Some; congruence]).
  destruct K as [(w & w' & -> & E & G & [_ P] & _)|(-> & t & l & n & E & En & Nn)].
  - left. injection E as <-. inversion G; subst. apply In_nth_error in P as (j & Nj). apply values_nth in Nj as (v0 & Nj & E).
    assert (k = j) by (eapply (fe_numbers _ _ C); [exact N|apply At; exact Nj|exact E]). subst j. exists k, v0. assert (v0 = v) by (pose proof (At _ _ Nj); congruence). subst v0. auto.
  - right. split; [|reflexivity]. injection E as <- <-. injection En as <-. intros I. apply in_map_iff in I as (v0 & E & I). apply In_nth_error in I as (j & Nj).
    assert (j = k).
    { apply (proj1 (NoDup_nth_error _) (fe_names _ _ C)); [rewrite map_length; apply nth_error_Some; rewrite (At _ _ Nj); discriminate|]. rewrite !nth_error_map, (At _ _ Nj), N. cbn [option_map]. congruence. }
    subst j. apply Nn. eapply nth_error_In. apply values_nth. exists v0. split; [exact Nj|]. pose proof (At _ _ Nj). congruence.
Qed.
(** The old accessor of an enum knows a variant of the old enum. *)
Lemma name_not_refused vs more b k v o : enum_compiles (vs ++ more) b = true -> nth_error (vs ++ more) k = Some v -> In (iev_id v) (map iev_id vs) ->
  like (FEnum (prim_ty b) (enum_values vs)) (FEnum (prim_ty b) (enum_values (vs ++ more))) o (GPlain (VEnum (variant_number k v))) ->
  nth_error vs k = Some v /\ o = Val (Some (GPlain (VEnum (variant_number k v)))).
Proof.
  intros C N I K. destruct (name_read _ _ _ _ _ _ C N K) as [(j & v0 & Nj & E & ->)|[Nn _]]; [|contradiction]. apply enum_fine in C.
  assert (At : nth_error (vs ++ more) j = Some v0) by (rewrite nth_error_app1; [exact Nj|apply nth_error_Some; congruence]).
  assert (j = k).
  { apply (proj1 (NoDup_nth_error _) (fe_names _ _ C)); [rewrite map_length; apply nth_error_Some; congruence|]. rewrite !nth_error_map, At, N. cbn [option_map]. congruence. }
  subst j. assert (v0 = v) by congruence. subst v0. auto.
Qed.

Section Early.
Context (fl : floats) (snake : text -> text) (es1 es2 : list element) (r1 r2 : list node).
Context (S1 : settled es1) (S2 : settled es2) (E : evolves es1 es2) (B1 : build snake es1 = Done r1) (B2 : build snake es2 = Done r2).
Context (hg1 hg2 : host) (C1 : compiled_tables fl snake r1 hg1) (C2 : compiled_tables fl snake r2 hg2).
Context (hr : host) (D : list byte).
Local Notation early := (reads_early fl snake r1 r2 hg1 hr D).
Local Notation reads2 := (SpecDoc.reads fl snake r2 hg2 hr D).

(** Types that the old schema mentions. *)
Definition there (t : ity) : Prop := forall q c, In (q, c) (ty_mentions t) -> In (q, c) (defined r1).
Lemma there_node path n q c : In (path, n) (all_contents r1) -> In (q, c) (mentions n) -> In (q, c) (defined r1).
Proof. intros I M. exact (mentioned_settled snake es1 r1 _ _ _ _ S1 B1 I M). Qed.
Lemma there_field path t f : In (path, NTable t) (all_contents r1) -> In f (it_fields t) -> there (if_ty f).
Proof. intros I J q c M. eapply (there_node path (NTable t)); [exact I|]. cbn [mentions]. apply in_flat_map. eauto. Qed.
Lemma there_def q c : In (q, c) (defined r1) -> exists path n, In (path, n) (all_contents r1) /\ In (q, c) (defs_of n).
Proof. unfold defined, definitions. intros I. apply in_flat_map in I as (n & I & J). apply in_map_iff in I as ([path n'] & En & I). cbn [snd] in En. subst n'. eauto. Qed.
Lemma there_variant q e vs v : there (ICustom q (KUnion e vs)) -> In v vs -> there (iuv_ty v).
Proof.
  intros T I q' c M. destruct (there_def q (KUnion e vs)) as (path & n & In_ & Dn); [apply T; left; reflexivity|].
  destruct n as [|t0|s0|e0|u|r0]; cbn [defs_of In] in Dn; try (exfalso; intuition discriminate). destruct Dn as [Dn|[]]. injection Dn as _ _ Dv.
  eapply (there_node path (NUnion u)); [exact In_|]. cbn [mentions]. apply in_flat_map. exists v. rewrite Dv. auto.
Qed.
Lemma there_table q : there (ICustom q KTable) -> exists path t, In (path, NTable t) (all_contents r1) /\ it_id t = q.
Proof.
  intros T. destruct (there_def q KTable) as (path & n & In_ & Dn); [apply T; left; reflexivity|].
  destruct n as [|t0|s0|e0|u|r0]; cbn [defs_of In] in Dn; try (exfalso; intuition discriminate). destruct Dn as [Dn|[]]. injection Dn as <-. eauto.
Qed.

Definition back (x : doc) : Prop := forall t t' e e' o r', ty_grown t t' -> follow_ty t = Some e -> follow_ty t' = Some e' -> there t ->
  like e e' o r' -> shaped snake r2 x t' -> reads2 x t' r' -> early x t o.

(** ** Tables *)
Section Table.
Context (path path' : qident) (tb tb' : itable) (It : In (path, NTable tb) (all_contents r1)) (It' : In (path', NTable tb') (all_contents r2)).
Context (fs fs' more : list ifield) (Efs : (it_fields tb, it_fields tb') = (fs, fs' ++ more)).
Context (Fg : Forall2 field_grown fs fs') (L : blen (fs' ++ more) <= 8190) (gs gs' : list gfield).
Context (G : gen_table fl snake hg1 fs = Some gs) (G' : gen_table fl snake hg2 (fs' ++ more) = Some gs').
Context (Acc : forall i f g, nth_error fs i = Some f -> nth_error gs i = Some g -> exists g', nth_error gs' i = Some g' /\
    g_slot g' = g_slot g /\ g_req g' = g_req g /\ forall h buf tab, reads_alike snake fs gs h buf tab f (gen_get h buf tab g) (gen_get h buf tab g')).
Context (loc : Z) (given : list (ident * doc)) (TR : table_reads fl snake r2 hg2 hr D (fs' ++ more) gs' loc given).

Lemma pair i f g : nth_error fs i = Some f -> nth_error gs i = Some g -> exists f' g', nth_error (fs' ++ more) i = Some f' /\ nth_error gs' i = Some g' /\ field_grown f f' /\
  0 <= Z.of_nat i <= 32764 /\ gen_field fl snake hg1 fs (Z.of_nat i) f = Some g /\ gen_field fl snake hg2 (fs' ++ more) (Z.of_nat i) f' = Some g' /\
  reads_alike snake fs gs hr D loc f (gen_get hr D loc g) (gen_get hr D loc g').
Proof.
  intros Nf Ng. destruct (grown_nth fs fs' more Fg i f Nf) as (f' & Nf' & Gr). destruct (Acc i f g Nf Ng) as (g' & Ng' & _ & _ & Al).
  exists f', g'. split; [exact Nf'|]. split; [exact Ng'|]. split; [exact Gr|]. destruct (old_field fl snake hg1 fs fs' more gs Fg ltac:(lia) G i f g Nf Ng) as [Hi Gf].
  split; [exact Hi|]. split; [exact Gf|]. destruct (new_field fl snake hg2 fs' more gs' G' i f' Nf') as (g0 & Ng0 & Gf'). assert (g0 = g') by congruence. subst g0. split; [exact Gf'|apply Al].
Qed.
Lemma pair_like i f g f' g' r' e : nth_error fs i = Some f -> nth_error gs i = Some g -> nth_error (fs' ++ more) i = Some f' -> nth_error gs' i = Some g' ->
  follow_ty (if_ty f) = Some e -> gen_get hr D loc g' = Val (Some r') -> exists e', follow_ty (if_ty f') = Some e' /\ like e e' (gen_get hr D loc g) r'.
Proof.
  intros Nf Ng Nf' Ng' Fe H'. destruct (pair i f g Nf Ng) as (f0 & g0 & N0 & M0 & Gr & Hi & Gf & Gf' & _). assert (f0 = f') by congruence. assert (g0 = g') by congruence. subst f0 g0.
  assert (U : is_union (if_ty f') = false).
  { rewrite (grown_union _ _ (grown_ty _ _ Gr)). destruct (if_ty f) as [| | |q []]; try reflexivity; discriminate Fe. }
  destruct (plain_follow _ _ _ _ _ _ _ Gf' U) as (e' & Fe'). exists e'. split; [exact Fe'|]. eapply field_like; eauto.
Qed.
Lemma told_at i f u : nth_error (fs' ++ more) i = Some f -> (told snake (fs' ++ more) f = Some u <-> In u (fs' ++ more) /\ is_union (if_ty u) = true /\ snake (if_id f) = snake (if_id u) ++ lit "_type").
Proof.
  intros N. unfold told. split.
  - intros H. apply find_some in H as [I H]. unfold tells in H. apply andb_true_iff in H as [U H]. apply ident_eqb_iff in H. auto.
  - intros (I & U & S). destruct (find _ _) as [u'|] eqn:Q.
    + apply find_some in Q as [I' H]. unfold tells in H. apply andb_true_iff in H as [_ H]. apply ident_eqb_iff in H. rewrite S in H. apply app_inv_tail in H.
      apply In_nth_error in I as (a & Na). apply In_nth_error in I' as (b & Nb). assert (a = b) by (eapply gen_names; [exact G'|exact Na|exact Nb|exact H]). congruence.
    + exfalso. apply (find_none _ _ Q) in I. unfold tells in I. rewrite U in I. cbn [andb] in I. assert (X : ident_eqb (snake (if_id f)) (snake (if_id u) ++ lit "_type") = true) by (apply ident_eqb_iff; exact S). congruence.
Qed.
(** An enum field whose new accessor returned a variant of this name. *)
Lemma enum_back i f g f' g' q vs b k v : nth_error fs i = Some f -> nth_error gs i = Some g -> nth_error (fs' ++ more) i = Some f' -> nth_error gs' i = Some g' ->
  if_ty f' = ICustom q (KEnum vs b) -> nth_error vs k = Some v -> gen_get hr D loc g' = Val (Some (GPlain (VEnum (variant_number k v)))) ->
  exists vs0 m, if_ty f = ICustom q (KEnum vs0 b) /\ vs = vs0 ++ m /\ enum_compiles vs b = true /\ reads_name vs0 (iev_id v) (gen_get hr D loc g) /\
    (In (iev_id v) (map iev_id vs0) -> nth_error vs0 k = Some v /\ gen_get hr D loc g = Val (Some (GPlain (VEnum (variant_number k v))))).
Proof.
  intros Nf Ng Nf' Ng' T' Nv H'. destruct (pair i f g Nf Ng) as (f0 & g0 & N0 & M0 & Gr & Hi & Gf & Gf' & _). assert (f0 = f') by congruence. assert (g0 = g') by congruence. subst f0 g0.
  pose proof (grown_ty _ _ Gr) as Ty. rewrite T' in Ty. inversion Ty as [| | |q0 c c' K Eq]; subst. inversion K as [| |vs0 m b0 Eq2|]; subst. symmetry in Eq.
  pose proof (enum_field fl snake _ _ _ _ _ _ _ _ Gf Eq) as Ce. pose proof (enum_field fl snake _ _ _ _ _ _ _ _ Gf' T') as Ce'.
  assert (Fe : follow_ty (if_ty f) = Some (FEnum (prim_ty b) (enum_values vs0))) by (rewrite Eq; cbn [follow_ty]; rewrite Ce; reflexivity).
  destruct (pair_like i f g f' g' _ _ Nf Ng Nf' Ng' Fe H') as (e' & Fe' & K'). rewrite T' in Fe'. cbn [follow_ty] in Fe'. rewrite Ce' in Fe'. injection Fe' as <-.
  exists vs0, m. split; [first [exact Eq|reflexivity]|]. split; [reflexivity|]. split; [exact Ce'|]. split; [eapply name_read; eauto|]. intros I. eapply name_not_refused; eauto.
Qed.
Lemma told_back i f f' g u id y : nth_error fs i = Some f -> nth_error (fs' ++ more) i = Some f' -> nth_error gs i = Some g ->
  told snake (fs' ++ more) f' = Some u -> lookup given (if_id u) = Some (DVariant id y) -> exists q vs b, if_ty f = ICustom q (KEnum vs b) /\ reads_name vs id (gen_get hr D loc g).
Proof.
  intros Nf Nf' Ng T Lu. destruct (pair i f g Nf Ng) as (f0 & g' & N0 & Ng' & _). assert (f0 = f') by congruence. subst f0.
  destruct (tr_told _ _ _ _ _ _ _ _ _ _ TR i f' g' u id y Nf' Ng' T Lu) as (q & vs & b & k & v & Tf & Nv & <- & Gw).
  destruct (enum_back i f g f' g' q vs b k v Nf Ng Nf' Ng' Tf Nv Gw) as (vs0 & m & T0 & _ & _ & R & _). eauto.
Qed.
(** Fields left out. *)
Lemma left_back i f f' g : nth_error fs i = Some f -> nth_error (fs' ++ more) i = Some f' -> nth_error gs i = Some g -> SpecDoc.value_of snake (fs' ++ more) given f' = None ->
  exists r, gen_get hr D loc g = Val r /\ reads_left_out fl f r.
Proof.
  assert (Plain : forall i f f' g, nth_error fs i = Some f -> nth_error (fs' ++ more) i = Some f' -> nth_error gs i = Some g -> SpecDoc.value_of snake (fs' ++ more) given f' = None ->
    is_union (if_ty f) = false -> exists r, gen_get hr D loc g = Val r /\ reads_left_out fl f r).
  { clear i f f' g. intros i f f' g Nf Nf' Ng V U. destruct (pair i f g Nf Ng) as (f0 & g' & N0 & Ng' & Gr & Hi & Gf & Gf' & Al). assert (f0 = f') by congruence. subst f0.
    destruct (tr_left _ _ _ _ _ _ _ _ _ _ TR i f' g' Nf' Ng' V) as (r' & Er' & Lo). pose proof (grown_ty _ _ Gr) as Ty. pose proof (grown_default _ _ Gr) as Df.
    unfold reads_left_out in *. rewrite Df in Lo.
    assert (Sc : forall p u, if_ty f = IPrim p -> gen_get hr D loc g' = Val (Some (GPlain (VScalar u))) -> gen_get hr D loc g = Val (Some (GPlain (VScalar u)))).
    { intros p u Tp Eu. destruct (pair_like i f g f' g' _ _ Nf Ng Nf' Ng' ltac:(rewrite Tp; reflexivity) Eu) as (e' & _ & [(w & w' & -> & Ew & Gw & _)|(_ & t & l & n & _ & En & _)]); [|discriminate En].
      injection Ew as <-. inversion Gw; subst. reflexivity. }
    assert (No : gen_get hr D loc g' = Val None -> gen_get hr D loc g = Val None).
    { intros En. rewrite En in Al. destruct Al as [A|[(A & q & vs & b & n & _ & X & _)|(q & e & vs & Tq & _)]]; [|discriminate X|rewrite Tq in U; discriminate U].
      destruct (gen_get hr D loc g) as [y| |]; cbn in A; try contradiction. inversion A; subst. reflexivity. }
    destruct (if_ty f) as [p| |t|q c] eqn:T; inversion Ty as [p0 Eq1 Eq2|Eq2|t0 t1 Tt Eq1 Eq2|q0 c0 c' K Eq1 Eq2]; subst; try rewrite <- Eq2 in Lo; try match goal with H : IString = if_ty f' |- _ => rewrite <- H in Lo end.
    - destruct (if_default f) as [[c|c]|].
      + destruct Lo as (d & u & Cv & Eu & ->). exists (Some (GPlain (VScalar u))). split; [eapply Sc; eauto|eauto].
      + destruct Lo as (u & Eu & ->). exists (Some (GPlain (VScalar u))). split; [eapply Sc; eauto|eauto].
      + destruct Lo as (u & Eu & ->). exists (Some (GPlain (VScalar u))). split; [eapply Sc; eauto|eauto].
    - subst r'. exists None. split; [apply No; exact Er'|reflexivity].
    - subst r'. exists None. split; [apply No; exact Er'|reflexivity].
    - inversion K as [|gs0 gs1 Fgs|vs m b|e vs vs' m Fv]; subst.
      + subst r'. exists None. split; [apply No; exact Er'|reflexivity].
      + exfalso. apply field_kinds in Gf as [_ Gf]. rewrite T in Gf. exact Gf.
      + pose proof (enum_field fl snake _ _ _ _ _ _ _ _ Gf T) as Ce. apply enum_fine in Ce.
        assert (Kn : forall k v, nth_error (vs ++ m) k = Some v -> In (iev_id v) (map iev_id vs) -> r' = Some (GPlain (VEnum (variant_number k v))) ->
          nth_error vs k = Some v /\ gen_get hr D loc g = Val (Some (GPlain (VEnum (variant_number k v))))).
        { intros k v Nv I ->. destruct (enum_back i f g f' g' q (vs ++ m) b k v Nf Ng Nf' Ng' (eq_sym Eq2) Nv Er') as (vs0 & m0 & T0 & _ & _ & _ & X).
          rewrite T in T0. injection T0 as <-. apply X. exact I. }
        assert (First : (exists v, nth_error (vs ++ m) 0 = Some v /\ r' = Some (GPlain (VEnum (variant_number 0 v)))) ->
          exists r, gen_get hr D loc g = Val r /\ exists v, nth_error vs 0 = Some v /\ r = Some (GPlain (VEnum (variant_number 0 v)))).
        { intros (v & Nv & Er). destruct vs as [|v0 vs]; [destruct (fe_some _ _ Ce); reflexivity|]. cbn [app nth_error] in Nv. injection Nv as ->.
          destruct (Kn 0%nat v eq_refl (or_introl eq_refl) Er) as [Nv Gv]. eauto. }
        destruct (if_default f) as [[c|id]|] eqn:Dff; [apply First; exact Lo| |apply First; exact Lo].
        destruct Lo as (k & v & Nv & Ev & Er). apply field_kinds in Gf as [_ Gf]. rewrite T, Dff in Gf. destruct Gf as (d & _ & Ed & _). cbn [enum_default] in Ed.
        destruct (variant_value vs id) as [n|] eqn:Vn; [|discriminate Ed]. apply variant_numbered in Vn as (k0 & v0 & N0' & E0 & _).
        destruct (Kn k v Nv) as [Nk Gk]; [rewrite Ev, <- E0; apply in_map; eapply nth_error_In; exact N0'|exact Er|]. eauto 7.
      + discriminate U. }
  intros Nf Nf' Ng V. destruct (is_union (if_ty f)) eqn:U; [|eapply Plain; eauto].
  destruct (pair i f g Nf Ng) as (f0 & g' & N0 & Ng' & Gr & Hi & Gf & Gf' & Al). assert (f0 = f') by congruence. subst f0.
  destruct (if_ty f) as [p| |t|q [|x|vs0 b0|e vs]] eqn:T; try discriminate U.
  pose proof (grown_ty _ _ Gr) as Ty. rewrite T in Ty. inversion Ty as [| | |q0 c c' K Eq1 Eq2]; subst. inversion K as [| | |e0 vs0 vs' m Fv]; subst.
  destruct (tr_left _ _ _ _ _ _ _ _ _ _ TR i f' g' Nf' Ng' V) as (r' & Er' & Lo). unfold reads_left_out in *. rewrite <- Eq2 in Lo. rewrite T.
  assert (r' = None) by (destruct (if_default f') as [[]|]; exact Lo). subst r'. exists None. split; [|destruct (if_default f) as [[]|]; reflexivity].
  rewrite Er' in Al. destruct Al as [A|[(A & q1 & vs1 & b & n & _ & X & _)|(q1 & e1 & vs1 & Tq & [(j & tf & c1 & gt & Nt & Sn & Tt & Ngt & A & At)|(u & n & _ & _ & q2 & vs2 & b2 & n2 & _ & X & _)])]];
    [|discriminate X| |discriminate X].
  - destruct (gen_get hr D loc g) as [y| |]; cbn in A; try contradiction. inversion A; subst. reflexivity.
  - exfalso. (* the type was left out too *)
    assert (Te : exists evs b, if_ty tf = ICustom e (KEnum evs b)).
    { destruct (union_accessor _ _ _ _ _ _ _ _ _ _ _ (old_short fs fs' more Fg ltac:(lia)) G Nf Ng T) as (j' & tf' & evs & b & gt' & Nj & Mj & Sj & Tj & _).
      assert (j' = j) by (eapply gen_names; [exact G|exact Nj|exact Nt|congruence]). subst j'. assert (tf' = tf) by congruence. subst tf'. eauto. }
    destruct Te as (evs & b & Te). destruct (grown_nth fs fs' more Fg j tf Nt) as (tf' & Nt' & Grt).
    assert (Tol : told snake (fs' ++ more) tf' = Some f').
    { apply (told_at j tf' f' Nt'). split; [eapply nth_error_In; exact Nf'|]. split; [rewrite <- Eq2; reflexivity|]. rewrite (grown_id _ _ Grt), (grown_id _ _ Gr). exact Sn. }
    assert (Vt : SpecDoc.value_of snake (fs' ++ more) given tf' = None).
    { unfold SpecDoc.value_of. rewrite Tol. unfold SpecDoc.value_of in V.
      assert (Tf : told snake (fs' ++ more) f' = None).
      { destruct (told snake (fs' ++ more) f') as [u|] eqn:Tu; [|reflexivity]. exfalso. apply (told_at i f' u Nf') in Tu as (Iu & Uu & Su).
        apply In_nth_error in Iu as (a & Na). destruct (new_field fl snake hg2 fs' more gs' G' a u Na) as (gu & Ma & _).
        destruct (if_ty u) as [| | |qu [| | |eu vu]] eqn:Tyu; try discriminate Uu.
        destruct (union_accessor _ _ _ _ _ _ _ _ _ _ _ (ltac:(lia) : blen (fs' ++ more) <= 32765) G' Na Ma Tyu) as (j' & tf2 & evs2 & b2 & gt2 & Nj & _ & Sj & Tj & _).
        assert (j' = i) by (eapply gen_names; [exact G'|exact Nj|exact Nf'|congruence]). subst j'. congruence. }
      rewrite Tf in V. rewrite V. reflexivity. }
    destruct (Plain j tf tf' gt Nt Nt' Ngt Vt ltac:(rewrite Te; reflexivity)) as (r & Er & _). congruence.
Qed.
(** Fields given. *)
Lemma given_back n x i f g : Forall (fun p => back (snd p) /\ match snd p with DVariant _ y => back y | _ => True end) given -> NoDup (map fst given) ->
  In (n, x) given -> (exists f', In f' (fs' ++ more) /\ if_id f' = n /\ shaped snake r2 x (if_ty f')) ->
  nth_error fs i = Some f -> if_id f = n -> nth_error gs i = Some g -> early x (if_ty f) (gen_get hr D loc g).
Proof.
  intros IH Nd I (fx & Ix & En & Sx) Nf Ei Ng. destruct (pair i f g Nf Ng) as (f' & g' & Nf' & Ng' & Gr & Hi & Gf & Gf' & Al).
  assert (fx = f').
  { apply In_nth_error in Ix as (a & Na). assert (a = i) by (eapply gen_names; [exact G'|exact Na|exact Nf'|rewrite (grown_id _ _ Gr); congruence]). congruence. }
  subst fx. destruct (tr_given _ _ _ _ _ _ _ _ _ _ TR n x I) as (i0 & f0 & g0 & r' & N0 & E0 & M0 & H' & R').
  assert (i0 = i) by (eapply gen_names; [exact G'|exact N0|exact Nf'|congruence]). subst i0. assert (f0 = f') by congruence. assert (g0 = g') by congruence. subst f0 g0.
  rewrite Forall_forall in IH. destruct (IH (n, x) I) as [Bx By]. cbn [snd] in Bx, By.
  assert (Th : there (if_ty f)) by (eapply there_field; [exact It|change (it_fields tb) with (fst (it_fields tb, it_fields tb')); rewrite Efs; cbn [fst]; eapply nth_error_In; exact Nf]).
  pose proof (grown_ty _ _ Gr) as Ty. destruct (is_union (if_ty f)) eqn:U.
  2: { destruct (plain_follow _ _ _ _ _ _ _ Gf U) as (e & Fe). destruct (pair_like i f g f' g' r' e Nf Ng Nf' Ng' Fe H') as (e' & Fe' & K). eapply Bx; eauto. }
  destruct (if_ty f) as [p| |t|q [|l|vs0 b0|e vs]] eqn:T; try discriminate U.
  inversion Ty as [| | |q0 c c' K Eq1 Eq2]; subst. inversion K as [| | |e0 vs0 vs' m Fv Eq3 Eq4]; subst. symmetry in Eq2. rewrite Eq2 in Sx, R'. rename Eq2 into T'.
  destruct x as [ | | | | |id y]; cbn [shaped] in Sx; try contradiction. destruct Sx as (v1 & q1 & Iv1 & Ev1 & Tv1 & Sy). destruct R' as (k & v' & w' & Nv' & Ev' & -> & Ry).
  destruct (union_accessor _ _ _ _ _ _ _ _ _ _ _ (old_short fs fs' more Fg ltac:(lia)) G Nf Ng T) as (j & tf & evs & b & gt & Nj & Mj & Sj & Tj & _ & Ua).
  destruct (pair j tf gt Nj Mj) as (tf' & gt' & Nj' & Mj' & Grt & _ & _ & Gt' & _).
  assert (Tol : told snake (fs' ++ more) tf' = Some f').
  { apply (told_at j tf' f' Nj'). split; [eapply nth_error_In; exact Nf'|]. split; [rewrite T'; reflexivity|]. rewrite (grown_id _ _ Grt), (grown_id _ _ Gr). exact Sj. }
  assert (Lu : lookup given (if_id f') = Some (DVariant id y)) by (apply In_lookup; [exact Nd|exact I]).
  destruct (tr_told _ _ _ _ _ _ _ _ _ _ TR j tf' gt' f' id y Nj' Mj' Tol Lu) as (qe & evs' & b' & k1 & ev & Tt' & Nk1 & Eev & Gt).
  destruct (enum_back j tf gt tf' gt' qe evs' b' k1 ev Nj Mj Nj' Mj' Tt' Nk1 Gt) as (evs0 & me & T0 & -> & Ce' & Rn & Kn). rewrite Tj in T0. injection T0 as <- <- <-.
  destruct (resolved_companions snake es1 r1 path tb B1 It f q e vs tf evs b) as (_ & cvs & Ecvs & Ids & _); rewrite ?(f_equal fst Efs : it_fields tb = fs); auto; try (eapply nth_error_In; eauto).
  destruct (resolved_companions snake es2 r2 path' tb' B2 It' f' q e (vs' ++ m) tf' (evs ++ me) b) as (_ & cvs' & Ecvs' & Ids' & _); rewrite ?(f_equal snd Efs : it_fields tb' = fs' ++ more); auto; try (eapply nth_error_In; eauto).
  apply enum_fine in Ce'. pose proof (fe_names _ _ Ce') as Nm. rewrite Ecvs' in Nm. cbn [map iev_id] in Nm. rewrite Ids' in Nm. apply NoDup_cons_iff in Nm as [Nn Nm].
  assert (Iid : In id (map iuv_id (vs' ++ m))) by (rewrite <- Ev'; apply in_map; eapply nth_error_In; exact Nv').
  assert (v1 = v') by (apply In_nth_error in Iv1 as (a & Na); assert (a = k) by (apply (proj1 (NoDup_nth_error _) Nm); [rewrite map_length; apply nth_error_Some; congruence|rewrite !nth_error_map, Na, Nv'; cbn [option_map]; congruence]); congruence).
  subst v1. cbn [reads_early]. specialize (Ua hr D loc). destruct Rn as [(k2 & v2 & Nk2 & Ev2 & Egt)|[Nin Egt]].
  - left. assert (Old : In id (map iuv_id vs)).
    { assert (In id (map iev_id evs)) as J by (rewrite <- Eev, <- Ev2; apply in_map; eapply nth_error_In; exact Nk2). rewrite Ecvs in J. cbn [map iev_id] in J. rewrite Ids in J.
      destruct J as [J|J]; [exfalso; apply Nn; rewrite J; exact Iid|exact J]. }
    apply in_map_iff in Old as (v & Ev & Iv). apply In_nth_error in Iv as (a & Na). destruct (Forall2_at _ _ _ m Fv a v Na) as (va & Na' & Gv).
    assert (Eva : iuv_id va = iuv_id v) by (destruct Gv; reflexivity).
    assert (a = k) by (apply (proj1 (NoDup_nth_error _) Nm); [rewrite map_length; apply nth_error_Some; congruence|rewrite !nth_error_map, Na', Nv'; cbn [option_map]; congruence]). subst a.
    assert (va = v') by congruence. subst va. assert (Tv : iuv_ty v = ICustom q1 KTable).
    { destruct Gv as [t0 t0' id0 doc0 Tg]. cbn [iuv_ty] in *. subst t0'. inversion Tg as [| | |q3 c3 c4 K3]; subst. inversion K3; subst. reflexivity. }
    assert (Yt : exists loc0, w' = VTable loc0).
    { rewrite Tv1 in Sy, Ry. destruct y; cbn [shaped] in Sy; try contradiction. apply reads_table in Ry as (? & ? & loc0 & _ & _ & X & _). injection X as ->. eauto. }
    destruct Yt as (loc0 & ->). rewrite H' in Al.
    destruct Al as [A|[(A & q3 & vs3 & b3 & n3 & X & _)|(q3 & e3 & vs3 & _ & [(j2 & tf2 & c2 & gt2 & N2 & Sn2 & _ & M2 & _ & A)|(u & n3 & _ & _ & q4 & vs4 & b4 & n4 & _ & X & _)])]].
    + destruct (gen_get hr D loc g) as [o| |]; cbn in A; try contradiction. inversion A as [| |n w w0 Gw]; subst. inversion Gw; subst.
      exists k, v, (VTable loc0). split; [exact Na|]. split; [congruence|]. split; [reflexivity|].
      assert (Thv : there (iuv_ty v)) by (eapply there_variant; [exact Th|eapply nth_error_In; exact Na]).
      eapply (By (iuv_ty v) (iuv_ty v') (FUOffset FTable) (FUOffset FTable)); [destruct Gv; assumption|rewrite Tv; reflexivity|rewrite Tv1; reflexivity|exact Thv| |exact Sy|exact Ry].
      left. exists (VTable loc0), (VTable loc0). split; [reflexivity|]. split; [reflexivity|]. split; [constructor|]. split; (split; [cbn; eauto|exact Logic.I]).
    + rewrite T in X. discriminate X.
    + exfalso. assert (j2 = j) by (eapply gen_names; [exact G|exact N2|exact Nj|congruence]). subst j2. assert (gt2 = gt) by congruence. subst gt2. congruence.
    + discriminate X.
  - right. rewrite Egt in Ua. split; [|exact Ua]. intros J. apply Nin. rewrite Eev, Ecvs. cbn [map]. right. rewrite Ids. exact J.
Qed.
End Table.

Lemma back_all x : back x /\ match x with DVariant _ y => back y | _ => True end.
Proof.
  apply (doc_nested (fun x => back x /\ match x with DVariant _ y => back y | _ => True end)); clear x.
  - intros v. split; [|exact Logic.I]. intros t t' e e' o r' Ty Fe Fe' Th K Sx R. destruct Ty as [p| | |]; try contradiction. destruct R as (u & -> & Eu). cbn [reads_early].
    destruct K as [(w & w' & -> & Ew & G & _)|(_ & s & vs & n & _ & X & _)]; [|discriminate X]. injection Ew as <-. inversion G; subst. eauto.
  - intros id. split; [|exact Logic.I]. intros t t' e e' o r' Ty Fe Fe' Th K Sx R. destruct Ty as [| | |q c c' Kc]; try contradiction. destruct Kc as [| |vs more b|]; try contradiction.
    destruct R as (i & v & Nv & <- & ->). cbn [reads_early]. cbn [follow_ty] in Fe, Fe'. destruct (enum_compiles vs b); [|discriminate Fe]. destruct (enum_compiles (vs ++ more) b) eqn:C; [|discriminate Fe'].
    injection Fe as <-. injection Fe' as <-. eapply name_read; eauto.
  - intros s. split; [|exact Logic.I]. intros t t' e e' o r' Ty Fe Fe' Th K Sx R. destruct Ty as [| | |]; try contradiction. cbn [SpecDoc.reads] in R. subst r'. cbn [reads_early].
    destruct K as [(w & w' & -> & Ew & G & _)|(_ & s0 & vs & n & _ & X & _)]; [|discriminate X]. injection Ew as <-. inversion G; subst. reflexivity.
  - intros xs IH. split; [|exact Logic.I]. intros t t' e e' o r' Ty Fe Fe' Th K Sx R. destruct Ty as [| |t t' Ty|]; try contradiction. destruct R as (e1 & loc & -> & Vl & R).
    cbn [follow_ty] in Fe, Fe'. destruct (follow_ty t) as [a|] eqn:Fa; [|discriminate Fe]. destruct (follow_ty t') as [a'|] eqn:Fa'; [|discriminate Fe']. injection Fe as <-. injection Fe' as <-.
    destruct K as [(w & w' & -> & Ew & G & [P _] & [P' _])|(_ & s0 & vs & n & X & _)]; [|discriminate X]. injection Ew as <-. cbn [shape] in P, P'. destruct P as (l1 & ->). destruct P' as (l2 & P'). injection P' as -> ->.
    assert (l1 = l2) by (inversion G; congruence). subst l1. cbn [reads_early]. exists a, l2. split; [reflexivity|]. split; [exact Vl|]. cbn [shaped] in Sx. destruct Sx as [_ Sx].
    clear Vl G. revert R. generalize 0 as i. induction IH as [|x xs [Hx _] _ IHxs]; intros i R; [exact Logic.I|]. destruct R as [(w & Ew & Rx) R]. destruct Sx as [Sx1 Sx].
    split; [|apply IHxs; assumption]. eapply (Hx t t' a a'); eauto. eapply element_like; eauto.
  - intros given IH. split; [|exact Logic.I]. intros t t' e e' o r' Ty Fe Fe' Th K Sx R. destruct Ty as [| | |q c c' Kc]; try contradiction. destruct Kc; try contradiction.
    apply reads_table in R as (fs2 & gs2 & loc & T2 & G2 & -> & TR).
    assert (o = Val (Some (GPlain (VTable loc)))).
    { destruct K as [(w & w' & -> & Ew & G & _)|(_ & s0 & vs & n & _ & X & _)]; [|discriminate X]. injection Ew as <-. inversion G; subst. reflexivity. }
    subst o. clear K. destruct (there_table q Th) as (path & tb & It & Eq).
    destruct (old_named fl snake es1 es2 r1 r2 S1 S2 E B1 B2 hg2 C2 q (it_fields tb)) as (fs' & more & gs' & T' & Fg & L & G' & Acc); [exists path, tb; auto|].
    assert (fs2 = fs' ++ more) by (eapply table_once; [exact B2|exact T2|exact T']). subst fs2. assert (gs2 = gs') by congruence. subst gs2.
    destruct (C1 _ _ It) as (_ & _ & gs & G). specialize (Acc hg1 gs G). pose proof T' as (path' & tb' & It' & Eq' & Ef').
    cbn [reads_early]. exists (it_fields tb), (fs' ++ more), gs, loc. split; [exists path, tb; auto|]. split; [exact T'|]. split; [exact G|]. split; [reflexivity|].
    cbn [shaped] in Sx. destruct Sx as (fs3 & T3 & Nd & Each & _). assert (fs3 = fs' ++ more) by (eapply table_once; [exact B2|exact T3|exact T']). subst fs3.
    split; [|split].
    + assert (Sub : forall n x, In (n, x) given -> forall i f g, nth_error (it_fields tb) i = Some f -> if_id f = n -> nth_error gs i = Some g -> early x (if_ty f) (gen_get hr D loc g)).
      { intros n x I i f g Nf En Ng. eapply (given_back path path' tb tb' It It' (it_fields tb) fs' more (f_equal (fun l => (it_fields tb, l)) Ef') Fg L gs gs' G G' Acc loc given TR n x i f g IH Nd I); auto.
        clear - Each I. induction given as [|[n' x'] l IHl]; [destruct I|]. destruct Each as [(f1 & I1 & E1 & _ & Sh) Es]. destruct I as [I|I]; [injection I as <- <-; eauto|auto]. }
      clear - Sub. induction given as [|[n x] l IHl]; [exact Logic.I|]. split; [intros i f g; apply (Sub n x); left; reflexivity|]. apply IHl. intros n' x' I. apply Sub. right. exact I.
    + intros i f f' g u id y. eapply told_back; eauto.
    + intros i f f' g. eapply left_back; eauto.
  - intros id x [Q _]. split; [|exact Q]. intros t t' e e' o r' Ty Fe Fe' Th K Sx R. destruct Ty as [| | |q c c' Kc]; try contradiction. destruct Kc; try contradiction. discriminate Fe.
Qed.
Theorem early_reads x q w : In (q, KTable) (defined r1) -> shaped snake r2 x (ICustom q KTable) -> reads2 x (ICustom q KTable) (GPlain w) -> early x (ICustom q KTable) (Val (Some (GPlain w))).
Proof.
  intros I Sx R. destruct (back_all x) as [Bx _]. eapply (Bx (ICustom q KTable) (ICustom q KTable) (FUOffset FTable) (FUOffset FTable)); eauto; try reflexivity.
  - constructor. constructor.
  - intros q' c [M|[]]. injection M as <- <-. exact I.
  - left. exists w, w. split; [reflexivity|]. split; [reflexivity|]. split; [constructor|].
    destruct x; cbn [shaped] in Sx; try contradiction. apply reads_table in R as (? & ? & loc & _ & _ & X & _). injection X as ->. split; (split; [cbn; eauto|exact Logic.I]).
Qed.
End Early.

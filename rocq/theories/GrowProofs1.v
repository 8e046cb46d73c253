(** New code reads old documents. *)
From Coq Require Import Strings.String ZArith List Bool Lia Strings.Byte ZifyBool ZifyNat.
From Verif Require Import Base BaseFacts Scalar Reader Builder Schema Codegen SpecGen GenProofs1 GenProofs2 GenProofs3 GenProofs4 GenProofs8 GenProofs9 SpecAccess AccessProofs
  Ident Resolve SpecResolve SpecEvolve EvolveProofs1 EvolveProofs2 EvolveProofs3 SpecTable SpecDoc DocProofs1 SpecGrow.
Import ListNotations.
Local Open Scope list_scope.
Local Open Scope Z_scope.

Lemma find_field_at snake fs name j tf : find_field snake 0 fs name = Some (j, tf) -> exists k, j = Z.of_nat k /\ nth_error fs k = Some tf.
Proof. intros H. apply find_field_nth in H as (k & -> & N). exists k. split; [lia|exact N]. Qed.

(** ** Fields that the data does not have *)
Section Appended.
Context (fl : floats) (snake : text -> text).
Context (hg hg' : host) (fs fs' more : list ifield) (gs gs' : list gfield) (F : Forall2 field_grown fs fs').
Context (L : blen (fs' ++ more) <= 32765) (H : gen_table fl snake hg fs = Some gs) (H' : gen_table fl snake hg' (fs' ++ more) = Some gs').
Context (hr : host) (D : list byte) (loc : Z).
Context (Bey : forall i t fd, blen fs <= i <= 32764 -> table_get hr D loc (4 + 2 * i) t fd = Val fd).
Context (Old : forall j g, nth_error gs j = Some g -> exists r, gen_get hr D loc g = Val r).

Lemma beyond_missing i f g : (length fs <= i)%nat -> nth_error (fs' ++ more) i = Some f -> nth_error gs' i = Some g -> is_union (if_ty f) = false ->
  gen_get hr D loc g = missing g.
Proof.
  intros Hi N M U. destruct (new_field fl snake hg' fs' more gs' H' i f N) as (g0 & M0 & G). assert (g0 = g) by congruence. subst g0.
  assert (i < length (fs' ++ more))%nat by (apply nth_error_Some; congruence).
  assert (Ab : forall t fd, table_get hr D loc (4 + 2 * Z.of_nat i) t fd = Val fd) by (intros t fd; apply Bey; unfold blen in *; lia).
  unfold gen_field in G. rewrite slot_of_eq in G by (unfold blen in L; lia).
  assert (K : g_slot g = 4 + 2 * Z.of_nat i /\ match g_kind g with GUnion _ _ _ _ _ => False | _ => True end).
  { destruct (if_ty f) as [p| |t|q [|x|vs b|e vs]]; try discriminate U; destruct (if_default f) as [[c|c]|]; try discriminate G;
    repeat match type of G with context [match ?x with _ => _ end] => destruct x; try discriminate G end; injection G as <-; cbn; auto. }
  destruct K as [S K]. unfold gen_get, missing. destruct (g_kind g) as [t d|t vs d|t|]; [..|contradiction]; rewrite S, Ab; cbn [bind].
  - destruct d; cbn [option_map check_required]; [reflexivity|]. destruct (g_req g); reflexivity.
  - destruct d; cbn [option_map check_required]; [reflexivity|]. destruct (g_req g); reflexivity.
  - cbn [option_map check_required]. destruct (g_req g); reflexivity.
Qed.
Lemma tag_known j tf g e evs b : nth_error (fs' ++ more) j = Some tf -> nth_error gs' j = Some g -> if_ty tf = ICustom e (KEnum evs b) ->
  match gen_get hr D loc g with Val None => True | Val (Some (GPlain (VEnum _))) => True | Err x => x = RequiredFieldMissing | _ => False end.
Proof.
  intros N M T. destruct (new_field fl snake hg' fs' more gs' H' j tf N) as (g0 & M0 & G). assert (g0 = g) by congruence. subst g0.
  assert (Lj : (j < length (fs' ++ more))%nat) by (apply nth_error_Some; congruence).
  destruct (Nat.lt_ge_cases j (length fs)) as [Lt|Ge].
  - destruct (nth_error fs j) as [f|] eqn:Nf; [|apply nth_error_None in Nf; lia]. destruct (grown_nth fs fs' more F j f Nf) as (f' & Nf' & Gr).
    assert (f' = tf) by congruence. subst f'. pose proof (gen_table_length _ _ _ _ _ H) as Lg.
    destruct (nth_error gs j) as [g0|] eqn:Ng; [|apply nth_error_None in Ng; lia].
    destruct (old_field fl snake hg fs fs' more gs F L H j f g0 Nf Ng) as [Hj Gf].
    pose proof (grown_ty _ _ Gr) as Tg. rewrite T in Tg. inversion Tg as [| | |q c c' Kg Eq]; subst. inversion Kg as [| |vs m b0 Eq3|]; subst. symmetry in Eq.
    destruct (field_plain fl snake _ _ _ _ _ _ _ _ _ Gr Hj ltac:(rewrite Eq; reflexivity) Gf G) as (_ & _ & P). specialize (P hr D loc).
    destruct (Old j g0 Ng) as (r & Er). rewrite Er in P. destruct P as [P|(P & _)]; [|discriminate P].
    apply field_kinds in G as [_ G]. rewrite T in G. destruct G as (d & K & _).
    destruct (gen_get hr D loc g) as [[w|]| |] eqn:Gw; cbn in P; try contradiction; [|exact Logic.I].
    apply get_shape in Gw. rewrite K in Gw. destruct Gw as (v & ->). exact Logic.I.
  - rewrite (beyond_missing j tf g Ge N M) by (rewrite T; reflexivity). unfold missing. apply field_kinds in G as [_ G]. rewrite T in G. destruct G as (d & K & _).
    rewrite K. destruct d; [exact Logic.I|]. destruct (g_req g); [reflexivity|exact Logic.I].
Qed.
Lemma added_missing i g : (length fs <= i)%nat -> nth_error gs' i = Some g -> gen_get hr D loc g = missing g.
Proof.
  intros Hi M. pose proof (gen_table_length _ _ _ _ _ H') as Lg. destruct (nth_error (fs' ++ more) i) as [f|] eqn:N.
  2: { exfalso. apply nth_error_None in N. assert (i < length gs')%nat by (apply nth_error_Some; congruence). lia. }
  destruct (is_union (if_ty f)) eqn:U; [|eapply beyond_missing; eauto]. destruct (if_ty f) as [p| |t|q [|x|vs0 b0|e vs]] eqn:T; try discriminate U.
  destruct (new_field fl snake hg' fs' more gs' H' i f N) as (g0 & M0 & G). assert (g0 = g) by congruence. subst g0.
  assert (Li : (i < length (fs' ++ more))%nat) by (apply nth_error_Some; congruence). assert (Hi' : 0 <= Z.of_nat i <= 32764) by (unfold blen in L; lia).
  destruct (union_slot fl snake _ _ _ _ _ _ _ _ Hi' T G) as [S R].
  assert (Mi : missing g = if if_required f then Err RequiredFieldMissing else Val None).
  { unfold missing. rewrite R. apply field_kinds in G as [_ G]. rewrite T in G. destruct G as (tslot & j & tf & evs & b & td & arms & K & _). rewrite K. reflexivity. }
  destruct (union_accessor _ _ _ _ _ _ _ _ _ _ _ L H' N M T) as (j & tf & evs & b & gt & Nj & Mj & Sj & Tj & _ & Acc).
  pose proof (tag_known j tf gt e evs b Nj Mj Tj) as Q. specialize (Acc hr D loc).
  destruct (gen_get hr D loc gt) as [[[[]|]|]| |]; try contradiction.
  - rewrite Mi. destruct Acc as [(k & v1 & t & _ & _ & _ & ->)|(_ & ->)]; [|reflexivity].
    rewrite S. rewrite Bey; [reflexivity|]. unfold blen in *. lia.
  - destruct Acc as [-> E]. rewrite Mi, E. reflexivity.
  - subst e0. rewrite Mi. destruct (accessor_required _ _ _ _ _ _ _ _ hr D loc H' N M) as [_ X]. rewrite (X Acc). exact Acc.
Qed.
End Appended.

Lemma missing_absent fl snake hg all i f g : gen_field fl snake hg all i f = Some g -> absent fl f (missing g).
Proof.
  intros G. apply field_kinds in G as [R G]. unfold absent, missing. rewrite R.
  destruct (if_ty f) as [p| |t|q [|x|vs b|e vs]].
  - destruct G as (d & K & Dd). rewrite K. destruct (if_default f) as [[c|c]|]; [|destruct Dd|subst d; reflexivity]. destruct Dd as [E Nn]. destruct d as [d|]; [eauto|congruence].
  - destruct G as (_ & ft & _ & K). rewrite K. reflexivity.
  - destruct G as (_ & ft & _ & K). rewrite K. reflexivity.
  - destruct G as (_ & ft & _ & K). rewrite K. reflexivity.
  - destruct G.
  - destruct G as (d & K & Ed & _). rewrite K. destruct (if_default f) as [[c|id]|]; cbn [enum_default] in Ed; [discriminate Ed| |injection Ed as <-; reflexivity].
    destruct (variant_value vs id) as [n|] eqn:Vn; [|discriminate Ed]. injection Ed as <-. apply variant_numbered in Vn as (k & v & Nk & Ev & ->). eauto.
  - destruct G as (tslot & j & tf & evs & b & td & arms & K & _). rewrite K. reflexivity.
Qed.

(** ** Old documents *)
Lemma gen_names fl snake hg fs gs i j f f' : gen_table fl snake hg fs = Some gs -> nth_error fs i = Some f -> nth_error fs j = Some f' -> snake (if_id f) = snake (if_id f') -> i = j.
Proof.
  intros H Ni Nj E. unfold gen_table in H. destruct (_ && _) eqn:D; [|discriminate H]. apply andb_true_iff in D as [D _]. apply nodup_ident_NoDup in D. apply NoDup_cons_iff in D as [_ D]. apply NoDup_cons_iff in D as [_ D].
  apply (proj1 (NoDup_nth_error _) D); [rewrite map_length; apply nth_error_Some; congruence|]. rewrite !nth_error_map, Ni, Nj. cbn [option_map]. congruence.
Qed.
Section Read.
Context (fl : floats) (snake : text -> text) (root : list node) (hg hr : host) (D : list byte).
Local Notation reads := (SpecDoc.reads fl snake root hg hr D).
(** What [reads] says of a table, without recursion. *)
Record table_reads (fs : list ifield) (gs : list gfield) (loc : Z) (given : list (ident * doc)) : Prop := TableReads {
  tr_given : forall n x, In (n, x) given -> exists i f g w, nth_error fs i = Some f /\ if_id f = n /\ nth_error gs i = Some g /\ gen_get hr D loc g = Val (Some w) /\ reads x (if_ty f) w;
  tr_told : forall i f g u id y, nth_error fs i = Some f -> nth_error gs i = Some g -> told snake fs f = Some u -> lookup given (if_id u) = Some (DVariant id y) ->
    exists q vs b k v, if_ty f = ICustom q (KEnum vs b) /\ nth_error vs k = Some v /\ iev_id v = id /\ gen_get hr D loc g = Val (Some (GPlain (VEnum (variant_number k v))));
  tr_left : forall i f g, nth_error fs i = Some f -> nth_error gs i = Some g -> SpecDoc.value_of snake fs given f = None -> exists r, gen_get hr D loc g = Val r /\ reads_left_out fl f r;
  tr_beyond : forall i t fd, blen fs <= i <= 32764 -> table_get hr D loc (4 + 2 * i) t fd = Val fd }.
Lemma reads_table given q r : reads (DTable given) (ICustom q KTable) r -> exists fs gs loc, table_named root q fs /\ gen_table fl snake hg fs = Some gs /\ r = GPlain (VTable loc) /\
  table_reads fs gs loc given.
Proof.
  cbn [SpecDoc.reads]. intros (fs & gs & loc & T & G & E & A & B & C & Bey). exists fs, gs, loc. split; [exact T|]. split; [exact G|]. split; [exact E|].
  constructor; [|exact B|exact C|exact Bey]. clear - A. induction given as [|[n x] l IH]; intros n' x' I; [destruct I|]. destruct A as [A1 A2].
  destruct I as [I|I]; [injection I as <- <-; exact A1|apply IH; assumption].
Qed.
Lemma all_val fs gs loc given : gen_table fl snake hg fs = Some gs -> table_reads fs gs loc given -> forall j g, nth_error gs j = Some g -> exists r, gen_get hr D loc g = Val r.
Proof.
  intros G [A B C _] j g Ng. pose proof (gen_table_length _ _ _ _ _ G) as Lg.
  destruct (nth_error fs j) as [f|] eqn:Nf; [|exfalso; apply nth_error_None in Nf; assert (j < length gs)%nat by (apply nth_error_Some; congruence); lia].
  destruct (SpecDoc.value_of snake fs given f) as [x|] eqn:V; [|destruct (C j f g Nf Ng V) as (r & E & _); eauto].
  unfold SpecDoc.value_of in V. destruct (told snake fs f) as [u|] eqn:T.
  - destruct (lookup given (if_id u)) as [[]|] eqn:Lu; try discriminate V. destruct (B j f g u _ _ Nf Ng T Lu) as (? & ? & ? & ? & ? & _ & _ & _ & E). eauto.
  - apply lookup_In in V. destruct (A _ _ V) as (i & f0 & g0 & w & N0 & Ei & Ng0 & E & _).
    assert (i = j) by (eapply gen_names; [exact G|exact N0|exact Nf|congruence]). subst i. assert (g0 = g) by congruence. subst g0. eauto.
Qed.
End Read.

Section Late.
Context (fl : floats) (snake : text -> text) (es1 es2 : list element) (r1 r2 : list node).
Context (S1 : settled es1) (S2 : settled es2) (E : evolves es1 es2) (B1 : build snake es1 = Done r1) (B2 : build snake es2 = Done r2).
Context (hg1 hg2 : host) (C2 : compiled_tables fl snake r2 hg2).
Context (hr : host) (D : list byte).

Lemma old_named q fs : table_named r1 q fs -> exists fs' more gs', table_named r2 q (fs' ++ more) /\ Forall2 field_grown fs fs' /\ blen (fs' ++ more) <= 8190 /\
  gen_table fl snake hg2 (fs' ++ more) = Some gs' /\
  forall hg gs, gen_table fl snake hg fs = Some gs -> forall i f g, nth_error fs i = Some f -> nth_error gs i = Some g -> exists g', nth_error gs' i = Some g' /\
    g_slot g' = g_slot g /\ g_req g' = g_req g /\ forall h buf tab, reads_alike snake fs gs h buf tab f (gen_get h buf tab g) (gen_get h buf tab g').
Proof.
  intros (path & t & I & Eq & Ef). destruct (tables_grow fl snake es1 es2 r1 r2 S1 S2 E B1 B2 path t I) as (t' & fs' & more & I' & Eq' & Ef' & Fg & Acc).
  destruct (C2 _ _ I') as (L & _ & gs' & G'). exists fs', more, gs'. rewrite Ef' in *. rewrite Ef in *. split; [exists path, t'; split; [exact I'|]; split; [congruence|exact Ef']|].
  split; [exact Fg|]. split; [exact L|]. split; [exact G'|]. intros hg gs G. apply (Acc hg hg2 gs gs'); [lia|exact G|exact G'].
Qed.
Lemma alike_val fs gs loc f x g' : reads_alike snake fs gs hr D loc f (Val x) (gen_get hr D loc g') -> exists x', gen_get hr D loc g' = Val x' /\ gval_grown x x'.
Proof.
  intros [A|[[A _]|(q & e & vs & _ & [(j & tf & c & gt & _ & _ & _ & _ & A & _)|(u & n & _ & A & _)])]]; try discriminate A.
  destruct (gen_get hr D loc g') as [x'| |]; cbn in A; try contradiction. eauto.
Qed.
Lemma left_out_grown f f' r r' : field_grown f f' -> reads_left_out fl f r -> gval_grown r r' -> reads_left_out fl f' r'.
Proof.
  intros [id t t' d rq doc T]. unfold reads_left_out. cbn [if_ty if_default].
  assert (Plain : forall n, gval_grown (Some (GPlain (VScalar n))) r' -> r' = Some (GPlain (VScalar n))) by (intros n G; inversion G as [|? ? V|]; subst; inversion V; subst; reflexivity).
  assert (Enum : forall n, gval_grown (Some (GPlain (VEnum n))) r' -> r' = Some (GPlain (VEnum n))) by (intros n G; inversion G as [|? ? V|]; subst; inversion V; subst; reflexivity).
  assert (None_ : gval_grown None r' -> r' = None) by (intros G; inversion G; reflexivity).
  destruct T as [p| |t t' T|q c c' K].
  - destruct d as [[c|c]|].
    + intros (x & u & Cv & Eu & ->) G. exists x, u. auto.
    + intros (u & Eu & ->) G. exists u. auto.
    + intros (u & Eu & ->) G. exists u. auto.
  - intros ->. apply None_.
  - intros ->. apply None_.
  - destruct K as [|gs0 gs1 Fg|vs more b|e vs vs' more Fv]; [intros ->; apply None_|intros ->; apply None_| |intros ->; apply None_].
    destruct d as [[c|id0]|].
    + intros (v & Nv & ->) G. exists v. split; [|apply Enum; exact G]. destruct vs as [|v0 vs]; [discriminate Nv|exact Nv].
    + intros (i & v & Nv & Ev & ->) G. exists i, v. split; [rewrite nth_error_app1; [exact Nv|apply nth_error_Some; congruence]|]. split; [exact Ev|apply Enum; exact G].
    + intros (v & Nv & ->) G. exists v. split; [|apply Enum; exact G]. destruct vs as [|v0 vs]; [discriminate Nv|exact Nv].
Qed.

Theorem late_reads x : forall t t' r r', ty_grown t t' -> gval_grown (Some r) (Some r') -> SpecDoc.reads fl snake r1 hg1 hr D x t r -> reads_late fl snake r1 r2 hg2 hr D x t' r'.
Proof.
  induction x as [v|id|s|xs IH|given IH|id x IH] using doc_nested; intros t t' r r' Ty G R.
  - destruct Ty as [p| | |]; try contradiction. destruct R as (u & -> & Eu). inversion G as [|? ? V|]; subst. inversion V; subst. cbn [reads_late]. eauto.
  - destruct Ty as [| | |q c c' K]; try contradiction. destruct K as [| |vs more b|]; try contradiction. destruct R as (i & v & Nv & Ev & ->).
    inversion G as [|? ? V|]; subst. inversion V; subst. cbn [reads_late]. exists i, v. split; [rewrite nth_error_app1; [exact Nv|apply nth_error_Some; congruence]|]. auto.
  - destruct Ty as [| | |]; try contradiction. cbn [SpecDoc.reads] in R. subst r. inversion G as [|? ? V|]; subst. inversion V; subst. reflexivity.
  - destruct Ty as [| |t t' Ty|]; try contradiction. destruct R as (e & loc & -> & Vl & R). inversion G as [|? w V|]; subst.
    assert (X : exists e', w = VVector e' loc /\ forall i y, vec_get hr e D loc i = Val y -> exists y', vec_get hr e' D loc i = Val y' /\ fval_grown y y').
    { inversion V as [|t1 t1' e1 e' l1 T1 F1 F1']; subst.
      - exists e. split; [reflexivity|]. intros i y Ey. exists y. split; [exact Ey|constructor].
      - exists e'. split; [reflexivity|]. intros i y Ey. destruct (elements_grown t1 t1' e e' hr D loc i T1 F1 F1') as [A|(A & _)]; [|congruence].
        rewrite Ey in A. destruct (vec_get hr e' D loc i) as [y'| |]; cbn in A; try contradiction. eauto. }
    destruct X as (e' & -> & El). cbn [reads_late]. exists e', loc. split; [reflexivity|]. split; [exact Vl|]. clear Vl G V. revert R. generalize 0 as i.
    induction IH as [|x xs Hx _ IHxs]; intros i R; [exact Logic.I|]. destruct R as [(y & Ey & Rx) R]. split; [|apply IHxs; exact R].
    destruct (El i y Ey) as (y' & Ey' & Gy). exists y'. split; [exact Ey'|]. eapply Hx; [exact Ty| |exact Rx]. constructor. exact Gy.
  - destruct Ty as [| | |q c c' K]; try contradiction. destruct K; try contradiction. apply reads_table in R as (fs & gs & loc & T & Gs & -> & TR).
    inversion G as [|? w V|]; subst. inversion V; subst. clear G V.
    destruct (old_named q fs T) as (fs' & more & gs' & T' & Fg & L & Gs' & Acc). specialize (Acc hg1 gs Gs).
    assert (New : forall i f, nth_error fs i = Some f -> exists f', nth_error (fs' ++ more) i = Some f' /\ field_grown f f') by (apply grown_nth; exact Fg).
    destruct TR as [A Bt C Bey] eqn:Etr. cbn [reads_late]. exists fs, (fs' ++ more), gs', loc. split; [exact T|]. split; [exact T'|]. split; [exact Gs'|]. split; [reflexivity|].
    assert (Pair : forall i f f' g', nth_error fs i = Some f -> nth_error (fs' ++ more) i = Some f' -> nth_error gs' i = Some g' ->
       exists g, nth_error gs i = Some g /\ field_grown f f' /\ forall x, gen_get hr D loc g = Val x -> exists x', gen_get hr D loc g' = Val x' /\ gval_grown x x').
    { intros i f f' g' Nf Nf' Ng'. destruct (New i f Nf) as (f0 & N0 & Gr). assert (f0 = f') by congruence. subst f0.
      pose proof (gen_table_length _ _ _ _ _ Gs) as Lg. destruct (nth_error gs i) as [g|] eqn:Ng; [|exfalso; apply nth_error_None in Ng; assert (i < length fs)%nat by (apply nth_error_Some; congruence); lia].
      exists g. split; [reflexivity|]. split; [exact Gr|]. intros x Ex. destruct (Acc i f g Nf Ng) as (g0 & Ng0 & _ & _ & Al). assert (g0 = g') by congruence. subst g0.
      specialize (Al hr D loc). rewrite Ex in Al. eapply alike_val; exact Al. }
    split; [|split; [|split]].
    + assert (Sub : forall n x, In (n, x) given -> exists i f g w, (i < length fs)%nat /\ nth_error (fs' ++ more) i = Some f /\ if_id f = n /\ nth_error gs' i = Some g /\
                  gen_get hr D loc g = Val (Some w) /\ reads_late fl snake r1 r2 hg2 hr D x (if_ty f) w).
      { intros n x I. destruct (A n x I) as (i & f & g & w & Nf & En & Ng & Gw & Rx). destruct (New i f Nf) as (f' & Nf' & Gr).
        destruct (Acc i f g Nf Ng) as (g' & Ng' & _ & _ & Al). specialize (Al hr D loc). rewrite Gw in Al. apply alike_val in Al as (x' & Ex & Gx).
        destruct x' as [w'|]; [|inversion Gx]. exists i, f', g', w'. split; [apply nth_error_Some; congruence|]. split; [exact Nf'|]. split; [rewrite (grown_id _ _ Gr); exact En|]. split; [exact Ng'|]. split; [exact Ex|].
        rewrite Forall_forall in IH. eapply (IH (n, x) I); [apply grown_ty; exact Gr|exact Gx|exact Rx]. }
      clear - Sub. induction given as [|[n x] l IHl]; [exact Logic.I|]. split; [apply Sub; left; reflexivity|]. apply IHl. intros n' x' I. apply Sub. right. exact I.
    + intros i f f' g' u id y Nf Nf' Ng' Tu Lu. destruct (Pair i f f' g' Nf Nf' Ng') as (g & Ng & Gr & P).
      destruct (Bt i f g u id y Nf Ng Tu Lu) as (qe & vs & b & k & v & Tf & Nv & Ev & Gw). apply P in Gw as (x' & Ex & Gx).
      pose proof (grown_ty _ _ Gr) as Tg. rewrite Tf in Tg. inversion Tg as [| | |q0 c c' K Eq1 Eq2]; subst. inversion K as [| |vs0 m b0 Eq3|]; subst.
      exists qe, (vs ++ m), b, k, v. split; [congruence|]. split; [rewrite nth_error_app1; [exact Nv|apply nth_error_Some; congruence]|]. split; [reflexivity|].
      rewrite Ex. inversion Gx as [|? ? V|]; subst. inversion V; subst. reflexivity.
    + intros i f f' g' Nf Nf' Ng' V. destruct (Pair i f f' g' Nf Nf' Ng') as (g & Ng & Gr & P).
      destruct (C i f g Nf Ng V) as (r & Er & Lo). apply P in Er as (x' & Ex & Gx). exists x'. split; [exact Ex|]. eapply left_out_grown; eauto.
    + intros i f g Hi Nf Ng. destruct (new_field fl snake hg2 fs' more gs' Gs' i f Nf) as (g0 & Ng0 & Gf). assert (g0 = g) by congruence. subst g0.
      rewrite (added_missing fl snake hg1 hg2 fs fs' more gs gs' Fg ltac:(lia) Gs Gs' hr D loc Bey (all_val fl snake r1 hg1 hr D fs gs loc given Gs TR) i g Hi Ng).
      eapply missing_absent; exact Gf.
  - destruct Ty as [| | |q c c' K]; try contradiction. destruct K as [| | |e vs vs' more Fv]; try contradiction. destruct R as (i & v & w & Nv & Ev & -> & Rx).
    inversion G as [| |n w0 w' V]; subst. destruct (Forall2_at _ _ _ more Fv i v Nv) as (v' & Nv' & Gv). cbn [reads_late].
    exists i, v', w'. split; [exact Nv'|]. destruct Gv as [t0 t0' id doc T0]. split; [reflexivity|]. split; [reflexivity|]. cbn [iuv_ty] in *. eapply IH; [exact T0| |exact Rx]. constructor. exact V.
Qed.
End Late.

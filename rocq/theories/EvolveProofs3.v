(** Schemas that grow: fields that old data does not have, and the whole. *)
From Coq Require Import Strings.String ZArith List Bool Lia Strings.Byte Permutation ZifyBool ZifyNat.
From Verif Require Import Base BaseFacts Scalar Reader Builder Ops SpecBuilder Abstract ScalarFacts ReaderFacts
  Refine Refine2 Build1 Build2 Build3 Build4 Build5 Build6 Build7 Build8
  BuilderProofs1 BuilderProofs2 BuilderProofs3 BuilderProofs4
  Schema Codegen SpecGen GenProofs1 GenProofs2 GenProofs3 GenProofs4 GenProofs7 GenProofs8 GenProofs9 SpecAccess AccessProofs
  Ident Resolve SpecResolve SpecEvolve ResolveProofs7 ResolveProofs9 EvolveProofs1 EvolveProofs2.
Import ListNotations.
Local Open Scope list_scope.
Local Open Scope Z_scope.

(** ** Appended fields *)
Section Appended.
Context (fl : floats) (snake : ident -> ident).
Context (hg hg' : host) (fs fs' more : list ifield) (gs gs' : list gfield) (F : Forall2 field_grown fs fs').
Context (L : blen (fs' ++ more) <= 32765) (H : gen_table fl snake hg fs = Some gs) (H' : gen_table fl snake hg' (fs' ++ more) = Some gs').
Context (h hr : host) (D : list byte) (start o : Z) (l : list garg) (C : Created h hr D start o gs l) (W : fields_wf 0 gs) (A : args_ok gs l = true).

Lemma beyond i f g : (length fs <= i)%nat -> nth_error (fs' ++ more) i = Some f -> nth_error gs' i = Some g -> is_union (if_ty f) = false ->
  gen_get hr D (blen D - o) g = missing g.
Proof.
  intros Hi N M U. destruct (new_field fl snake hg' fs' more gs' H' i f N) as (g0 & M0 & G). assert (g0 = g) by congruence. subst g0.
  assert (i < length (fs' ++ more))%nat by (apply nth_error_Some; congruence).
  assert (Ab : forall t fd, table_get hr D (blen D - o) (4 + 2 * Z.of_nat i) t fd = Val fd).
  { intros t fd. apply (cr_beyond _ _ _ _ _ _ _ C (Z.of_nat i)). pose proof (gen_table_length _ _ _ _ _ H). unfold blen in *. lia. }
  unfold gen_field in G. rewrite slot_of_eq in G by (unfold blen in L; lia).
  assert (K : g_slot g = 4 + 2 * Z.of_nat i /\ match g_kind g with GUnion _ _ _ _ _ => False | _ => True end).
  { destruct (if_ty f) as [p| |t|q [|x|vs b|e vs]]; try discriminate U; destruct (if_default f) as [[c|c]|]; try discriminate G;
    repeat match type of G with context [match ?x with _ => _ end] => destruct x; try discriminate G end; injection G as <-; cbn; auto. }
  destruct K as [S K]. unfold gen_get, missing. destruct (g_kind g) as [t d|t vs d|t|]; [..|contradiction]; rewrite S, Ab; cbn [bind].
  - destruct d; cbn [option_map check_required]; [reflexivity|]. destruct (g_req g); reflexivity.
  - destruct d; cbn [option_map check_required]; [reflexivity|]. destruct (g_req g); reflexivity.
  - cbn [option_map check_required]. destruct (g_req g); reflexivity.
Qed.

Lemma tag_read j tf g e evs b : nth_error (fs' ++ more) j = Some tf -> nth_error gs' j = Some g -> if_ty tf = ICustom e (KEnum evs b) ->
  match gen_get hr D (blen D - o) g with Val None => True | Val (Some (GPlain (VEnum _))) => True | Err x => x = RequiredFieldMissing | _ => False end.
Proof.
  intros N M T. destruct (new_field fl snake hg' fs' more gs' H' j tf N) as (g0 & M0 & G). assert (g0 = g) by congruence. subst g0.
  assert (Lj : (j < length (fs' ++ more))%nat) by (apply nth_error_Some; congruence).
  destruct (Nat.lt_ge_cases j (length fs)) as [Lt|Ge].
  - destruct (nth_error fs j) as [f|] eqn:Nf; [|apply nth_error_None in Nf; lia]. destruct (grown_nth fs fs' more F j f Nf) as (f' & Nf' & Gr).
    assert (f' = tf) by congruence. subst f'. pose proof (gen_table_length _ _ _ _ _ H) as Lg.
    destruct (nth_error gs j) as [g0|] eqn:Ng; [|apply nth_error_None in Ng; lia].
    destruct (old_field fl snake hg fs fs' more gs F L H j f g0 Nf Ng) as [Hj Gf].
    pose proof (grown_ty _ _ Gr) as Tg. rewrite T in Tg. inversion Tg as [| | |q c c' Kg Eq]; subst. inversion Kg as [| |vs m b0 Eq3|]; subst. symmetry in Eq.
    destruct (field_plain fl snake _ _ _ _ _ _ _ _ _ Gr Hj ltac:(rewrite Eq; reflexivity) Gf G) as (_ & _ & P). specialize (P hr D (blen D - o)).
    assert (Q : match gen_get hr D (blen D - o) g0 with Val None => True | Val (Some (GPlain (VEnum _))) => True | Err x => x = RequiredFieldMissing | _ => False end).
    { unfold gen_field in Gf. rewrite slot_of_eq in Gf by exact Hj. rewrite Eq in Gf.
      assert (X : exists d, g0 = GField (4 + 2 * Z.of_nat j) (GEnum (prim_ty b) (enum_values vs) d) (if_required f)).
      { destruct (enum_default vs (if_default f)); [|destruct (if_default f) as [[]|]; discriminate Gf]. destruct (enum_compiles vs b); [|destruct (if_default f) as [[]|]; discriminate Gf].
        exists o0. destruct (if_default f) as [[]|]; congruence. }
      destruct X as (d & ->). destruct (args_ok_nth _ _ _ _ A Ng) as (a & Ha & Oa). unfold arg_ok in Oa. cbn [g_kind] in Oa. destruct a as [[t v|]|]; try discriminate Oa.
      destruct (reads_enum_raw C W A j _ (prim_ty b) (enum_values vs) d t v (option_map VEnum d) Ng eq_refl Ha eq_refl) as (_ & _ & Q). unfold gen_get. cbn [g_kind].
      rewrite Q. cbn [bind check_required option_map]. exact Logic.I. }
    destruct P as [P|(P & _)]; [|rewrite P in Q; discriminate Q].
    destruct (gen_get hr D (blen D - o) g0) as [[[[]|]|]| |]; try contradiction; destruct (gen_get hr D (blen D - o) g) as [[]| |]; cbn in P; try contradiction; try exact Logic.I; try congruence.
    + inversion P as [|? ? X|]; subst. inversion X; subst. exact Logic.I.
    + inversion P.
  - rewrite (beyond j tf g Ge N M) by (rewrite T; reflexivity). unfold missing. unfold gen_field in G. rewrite slot_of_eq in G by (unfold blen in L; lia). rewrite T in G.
    assert (X : exists d, g = GField (4 + 2 * Z.of_nat j) (GEnum (prim_ty b) (enum_values evs) d) (if_required tf)).
    { destruct (enum_default evs (if_default tf)); [|destruct (if_default tf) as [[]|]; discriminate G]. destruct (enum_compiles evs b); [|destruct (if_default tf) as [[]|]; discriminate G].
      exists o0. destruct (if_default tf) as [[]|]; congruence. }
    destruct X as (d & ->). cbn [g_kind g_req]. destruct d; [exact Logic.I|]. destruct (if_required tf); [reflexivity|exact Logic.I].
Qed.

Lemma appended i g : (length fs <= i)%nat -> nth_error gs' i = Some g -> gen_get hr D (blen D - o) g = missing g.
Proof.
  intros Hi M. pose proof (gen_table_length _ _ _ _ _ H') as Lg. destruct (nth_error (fs' ++ more) i) as [f|] eqn:N.
  2: { exfalso. apply nth_error_None in N. assert (i < length gs')%nat by (apply nth_error_Some; congruence). lia. }
  destruct (is_union (if_ty f)) eqn:U; [|eapply beyond; eauto]. destruct (if_ty f) as [p| |t|q [|x|vs0 b0|e vs]] eqn:T; try discriminate U.
  destruct (new_field fl snake hg' fs' more gs' H' i f N) as (g0 & M0 & G). assert (g0 = g) by congruence. subst g0.
  assert (Li : (i < length (fs' ++ more))%nat) by (apply nth_error_Some; congruence). assert (Hi' : 0 <= Z.of_nat i <= 32764) by (unfold blen in L; lia).
  destruct (union_slot fl snake _ _ _ _ _ _ _ _ Hi' T G) as [S R].
  assert (Mi : missing g = if if_required f then Err RequiredFieldMissing else Val None).
  { unfold missing. rewrite R. unfold gen_field in G. rewrite slot_of_eq in G by exact Hi'. rewrite T in G.
    destruct (if_default f) as [[[]|]|]; try discriminate G;
    (destruct (find_field snake 0 (fs' ++ more) (type_name snake (if_id f))) as [[j tf]|]; [|discriminate G]; destruct (if_ty tf) as [| | |? []]; try discriminate G;
     destruct (union_arms _ _); [|discriminate G]; destruct (slot_of hg' j); [|discriminate G]; destruct (enum_default _ _); [|discriminate G];
     destruct (_ && _); [|discriminate G]; injection G as <-; reflexivity). }
  destruct (union_accessor _ _ _ _ _ _ _ _ _ _ _ L H' N M T) as (j & tf & evs & b & gt & Nj & Mj & Sj & Tj & _ & Acc).
  pose proof (tag_read j tf gt e evs b Nj Mj Tj) as Q. specialize (Acc hr D (blen D - o)).
  destruct (gen_get hr D (blen D - o) gt) as [[[[]|]|]| |]; try contradiction.
  - rewrite Mi. destruct Acc as [(k & v1 & t & _ & _ & _ & ->)|(_ & ->)]; [|reflexivity].
    rewrite S. rewrite (cr_beyond _ _ _ _ _ _ _ C (Z.of_nat i)); [reflexivity|]. pose proof (gen_table_length _ _ _ _ _ H). unfold blen in *. lia.
  - destruct Acc as [-> E]. rewrite Mi, E. reflexivity.
  - subst e0. rewrite Mi. destruct (accessor_required _ _ _ _ _ _ _ _ hr D (blen D - o) H' N M) as [_ X]. rewrite (X Acc). exact Acc.
Qed.
End Appended.

(** ** The whole *)
Section Whole.
Context (fl : floats) (snake : text -> text).
(** No union of a schema whose code compiles has a variant named None. *)
Lemma no_none es root hg path t gs : settled es -> build snake es = Done root -> In (path, NTable t) (all_contents root) -> blen (it_fields t) <= 32765 ->
  gen_table fl snake hg (it_fields t) = Some gs ->
  forall f q e vs, In f (it_fields t) -> if_ty f = ICustom q (KUnion e vs) -> ~ In (lit "None") (map iuv_id vs).
Proof.
  intros S B I L G f q e vs If T Hn.
  assert (Known : forall f q c, In f (it_fields t) -> if_ty f = ICustom q c -> In (q, c) (defined root)).
  { intros f0 q0 c0 I0 T0. assert (M : In (q0, c0) (mentions (NTable t))).
    { cbn [mentions]. apply in_flat_map. exists f0. split; [exact I0|]. rewrite T0. left. reflexivity. }
    eapply mentioned_settled; eauto. }
  apply In_nth_error in If as (i & N). pose proof (gen_table_length _ _ _ _ _ G) as Lg.
  destruct (nth_error gs i) as [g|] eqn:M; [|apply nth_error_None in M; assert (i < length (it_fields t))%nat by (apply nth_error_Some; congruence); lia].
  destruct (union_accessor _ _ _ _ _ _ _ _ _ _ _ L G N M T) as (j & tf & evs & b & gt & Nj & Mj & _ & Tj & _).
  assert (Ku : In (q, KUnion e vs) (defined root)) by (eapply Known; [eapply nth_error_In; exact N|exact T]).
  assert (Ke : In (e, KEnum evs b) (defined root)) by (eapply Known; [eapply nth_error_In; exact Nj|exact Tj]).
  unfold defined, definitions in Ku. apply in_flat_map in Ku as (nd & Ind & Dn). apply in_map_iff in Ind as ([path' nd'] & En & Ind). cbn [snd] in En. subst nd'.
  destruct nd as [|t0|s0|e0|u|r0]; cbn [defs_of In] in Dn; try (exfalso; intuition discriminate). destruct Dn as [Dn|[]]. injection Dn as _ De Dv.
  destruct (companion_defined snake es root path' u B Ind) as (cvs & Dc & Ids & _). rewrite De in Dc. rewrite Dv in Ids.
  pose proof (functional_of _ (defined_once snake es root B) _ _ _ Ke Dc) as X. injection X as -> ->.
  unfold gen_table in G. destruct (_ && _); [|discriminate G]. destruct (gen_fields_nth _ _ _ _ _ _ _ _ _ G Mj) as (tf' & Nj' & Gt).
  assert (tf' = tf) by congruence. subst tf'. pose proof (enum_field fl snake _ _ _ _ _ _ _ _ Gt Tj) as Ce.
  unfold enum_compiles in Ce. repeat (apply andb_true_iff in Ce as [Ce ?]).
  match goal with X : nodup_ident _ = true |- _ => apply nodup_ident_NoDup in X; cbn [map iev_id] in X; rewrite Ids in X; inversion X; subst; contradiction end.
Qed.

Context (es1 es2 : list element) (r1 r2 : list node) (S1 : settled es1) (S2 : settled es2) (E : evolves es1 es2).
Context (B1 : build snake es1 = Done r1) (B2 : build snake es2 = Done r2).
Theorem tables_grow path t : In (path, NTable t) (all_contents r1) -> exists t' fs' more, In (path, NTable t') (all_contents r2) /\
  it_id t' = it_id t /\ it_fields t' = fs' ++ more /\ Forall2 field_grown (it_fields t) fs' /\
  forall hg hg' gs gs', blen (it_fields t') <= 32765 -> gen_table fl snake hg (it_fields t) = Some gs -> gen_table fl snake hg' (it_fields t') = Some gs' ->
  forall i f g, nth_error (it_fields t) i = Some f -> nth_error gs i = Some g -> exists g', nth_error gs' i = Some g' /\
    g_slot g' = g_slot g /\ g_req g' = g_req g /\ forall h buf tab, reads_alike snake (it_fields t) gs h buf tab f (gen_get h buf tab g) (gen_get h buf tab g').
Proof.
  intros I. destruct (grown snake es1 es2 r1 r2 S1 S2 E B1 B2 path _ I) as (nd & I' & G). inversion G as [q fs fs' more r r' d F _ Eq1 Eq2| | | |]; subst.
  eexists _, fs', more. split; [exact I'|]. cbn [it_id it_fields]. split; [reflexivity|]. split; [reflexivity|]. split; [exact F|].
  intros hg hg' gs gs' L H H' i f g. eapply field_grown_reads; eauto. eapply (no_none es2 r2 hg' path _ gs' S2 B2 I'); [exact L|exact H'].
Qed.

End Whole.

(** What new accessors make of old data. *)
Theorem old_data fl snake hg hg' fs fs' more gs gs' h hr c before xs b0 ys b1 o later b zs i g :
  Forall2 field_grown fs fs' ->
  floats_ok fl -> forallb (fun f => default_ok (if_default f)) fs = true ->
  gen_table fl snake hg fs = Some gs -> gen_table fl snake hg' (fs' ++ more) = Some gs' ->
  blen (fs' ++ more) <= 32765 -> debug h = true \/ blen fs <= 8190 ->
  0 <= c -> calls_ok before = true -> closed before = true -> program h c before = Val (b0, xs) ->
  typed (blen fs) (TreeTable gs ys) (FUOffset FTable) -> put h b0 (TreeTable gs ys) = Val (b1, Some (POffset o)) ->
  calls_ok later = true -> no_reset later = true -> run h b1 later = Val (b, zs) ->
  blen (unfinished_data b) < 2 ^ 31 ->
  (length fs <= i)%nat -> nth_error gs' i = Some g ->
  let D := unfinished_data b in gen_get hr D (blen D - o) g = missing g.
Proof.
  intros F Fl Fd H H' L Hs Hc Ho Hcl Hp T P Hl Hr R Lb Hi M D.
  assert (Ls : blen fs <= 32765) by (apply (old_short _ _ _ F L)).
  destruct (table_created h hr c (blen fs) Hc Ls Hs gs ys before xs b0 b1 o later b zs Ho Hcl Hp T P Hl Hr R Lb) as (start & l & A & C).
  assert (G0 : generated (blen fs) gs).
  { exists fl, snake, hg, fs. split; [exact Fl|]. split; [exact Fd|]. split; [lia|exact H]. }
  destruct (generated_facts h (blen fs) Ls Hs _ G0) as (W & _ & _).
  eapply appended; eauto.
Qed.

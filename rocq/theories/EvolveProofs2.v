(** Schemas that grow: what the generated accessors return. *)
From Coq Require Import Strings.String ZArith List Bool Lia Strings.Byte ZifyBool ZifyNat.
From Verif Require Import Base BaseFacts Scalar Reader Schema Codegen SpecResolve SpecGen SpecAccess SpecEvolve
  GenProofs1 GenProofs2 GenProofs3 GenProofs7 GenProofs8 AccessProofs.
Import ListNotations.
Local Open Scope list_scope.
Local Open Scope Z_scope.

(** ** Enums *)
Lemma enum_values_more vs more : forall i, exists l, enum_values_from i (vs ++ more) = enum_values_from i vs ++ l.
Proof.
  induction vs as [|v vs IH]; intros i; cbn [enum_values_from app]; [eexists; reflexivity|]. destruct (IH (i + 1)) as (l & ->). eexists. reflexivity.
Qed.
Lemma variant_value_more vs more id : forall i n, variant_value_from i vs id = Some n -> variant_value_from i (vs ++ more) id = Some n.
Proof.
  induction vs as [|v vs IH]; intros i n H; cbn [variant_value_from app] in *; [discriminate|]. destruct (ident_eqb (iev_id v) id); auto.
Qed.
Lemma enum_default_more vs more d x x' : enum_default vs d = Some x -> enum_default (vs ++ more) d = Some x' -> x' = x.
Proof.
  unfold enum_default. destruct d as [[]|]; try congruence. unfold variant_value. destruct (variant_value_from 0 vs _) as [n|] eqn:E; [|discriminate].
  rewrite (variant_value_more _ more _ _ _ E). congruence.
Qed.

(** ** Values *)
Lemma existsb_In n l : existsb (Z.eqb n) l = true <-> In n l.
Proof. rewrite existsb_exists. split; [intros (x & I & E); assert (n = x) by lia; subst; exact I|intros I; exists n; split; [exact I|lia]]. Qed.
Definition reads t (old new : outcome fval) : Prop := agree fval_grown old new \/ newer t (fun v => v) old new.
Lemma agree_same {A} (R : A -> A -> Prop) x : (forall a, R a a) -> agree R x x.
Proof. intros H. destruct x; cbn; auto. Qed.
Lemma reads_bind {A} t (x : outcome A) f f' : (forall a, reads t (f a) (f' a)) -> reads t (bind x f) (bind x f').
Proof. intros H. destruct x as [a| |]; cbn [bind]; [apply H| |]; left; cbn; auto. Qed.
Lemma reads_same t x : reads t x x.
Proof. left. apply agree_same. constructor. Qed.

Lemma follow_reads t t' e e' h buf loc : ty_grown t t' -> follow_ty t = Some e -> follow_ty t' = Some e' -> reads t (follow h e buf loc) (follow h e' buf loc).
Proof.
  intros G. destruct G as [p| |t t' G|q c c' G]; cbn [follow_ty]; intros E E'.
  - assert (e' = e) by congruence. subst. apply reads_same.
  - assert (e' = e) by congruence. subst. apply reads_same.
  - destruct (follow_ty t) as [x|] eqn:Ex; [|discriminate E]. destruct (follow_ty t') as [x'|] eqn:Ex'; [|discriminate E'].
    cbn [option_map] in *. injection E as <-. injection E' as <-. cbn [follow].
    repeat (apply reads_bind; intros). left. cbn. econstructor; eauto.
  - destruct G as [|fs fs' F|vs more b|q' vs vs' more F]; try discriminate E.
    + assert (e' = e) by congruence. subst. apply reads_same.
    + destruct (enum_compiles vs b); [|discriminate E]. destruct (enum_compiles (vs ++ more) b); [|discriminate E'].
      injection E as <-. injection E' as <-. cbn [follow]. apply reads_bind. intros n.
      destruct (existsb (Z.eqb n) (enum_values vs)) eqn:X.
      * apply existsb_In in X. unfold enum_values in *. destruct (enum_values_more vs more 0) as (l & ->).
        rewrite (proj2 (existsb_In _ _) (in_or_app _ _ _ (or_introl X))). left. constructor.
      * destruct (existsb (Z.eqb n) (enum_values (vs ++ more))); [|left; reflexivity]. right. split; [reflexivity|].
        exists q, vs, b, n. split; [reflexivity|]. split; [reflexivity|]. rewrite <- values_number. intros I. apply existsb_In in I. congruence.
Qed.
Lemma size_grown t t' e e' : ty_grown t t' -> follow_ty t = Some e -> follow_ty t' = Some e' -> size_of e' = size_of e.
Proof.
  intros G. destruct G as [p| |t t' G|q c c' G]; cbn [follow_ty]; intros E E'; try (assert (e' = e) by congruence; subst; reflexivity).
  - destruct (follow_ty t); [|discriminate E]. destruct (follow_ty t'); [|discriminate E']. injection E as <-. injection E' as <-. reflexivity.
  - destruct G as [|fs fs' F|vs more b|q' vs vs' more F]; try discriminate E; [assert (e' = e) by congruence; subst; reflexivity|].
    destruct (enum_compiles vs b); [|discriminate E]. destruct (enum_compiles (vs ++ more) b); [|discriminate E'].
    injection E as <-. injection E' as <-. reflexivity.
Qed.
Lemma elements_grown t t' e e' h buf l i : ty_grown t t' -> follow_ty t = Some e -> follow_ty t' = Some e' ->
  agree fval_grown (vec_get h e buf l i) (vec_get h e' buf l i) \/ newer t (fun v => v) (vec_get h e buf l i) (vec_get h e' buf l i).
Proof.
  intros G E E'. unfold vec_get. rewrite (size_grown _ _ _ _ G E E').
  lazymatch goal with |- agree _ ?x ?y \/ _ => change (reads t x y) end.
  cbv zeta. repeat (apply reads_bind; intros). eapply follow_reads; eauto.
Qed.

(** ** Fields *)
Lemma table_get_reads t t' e e' h buf tab slot d : ty_grown t t' -> follow_ty t = Some e -> follow_ty t' = Some e' ->
  agree (fun x y => x = None /\ y = None \/ exists v w, x = Some v /\ y = Some w /\ fval_grown v w) (table_get h buf tab slot e d) (table_get h buf tab slot e' d) \/
  newer t Some (table_get h buf tab slot e d) (table_get h buf tab slot e' d).
Proof.
  intros G E E'. unfold table_get. destruct (table_vtable h buf tab) as [vt| |]; cbn [bind]; [|left; cbn; auto..].
  assert (D : agree (fun x y => x = None /\ y = None \/ exists v w, x = Some v /\ y = Some w /\ fval_grown v w) (Val d) (Val d)).
  { cbn. destruct d as [v|]; [right|left; auto]. exists v, v. repeat split; constructor. }
  destruct (vt_get h buf vt slot) as [[off|]| |]; cbn [bind]; [|left; exact D|left; cbn; auto..].
  destruct (off =? 0); [left; exact D|]. destruct (usize_arith h (tab + off)) as [l| |]; cbn [bind]; [|left; cbn; auto..].
  destruct (follow_reads t t' e e' h buf l G E E') as [A|(Q & q & vs & b & n & Q1 & Q2 & Q3)].
  - left. destruct (follow h e buf l), (follow h e' buf l); cbn in *; try contradiction; auto. right. eauto.
  - right. rewrite Q, Q2. cbn [bind]. split; [reflexivity|]. exists q, vs, b, n. auto.
Qed.

Lemma grown_req f f' : field_grown f f' -> if_required f' = if_required f.
Proof. destruct 1; reflexivity. Qed.
Lemma grown_id f f' : field_grown f f' -> if_id f' = if_id f.
Proof. destruct 1; reflexivity. Qed.
Lemma grown_default f f' : field_grown f f' -> if_default f' = if_default f.
Proof. destruct 1; reflexivity. Qed.
Lemma grown_ty f f' : field_grown f f' -> ty_grown (if_ty f) (if_ty f').
Proof. destruct 1; assumption. Qed.

Section Gen.
Context (fl : floats) (snake : ident -> ident).
Lemma plain_get t t' e e' h buf tab g g' d : ty_grown t t' -> follow_ty t = Some e -> follow_ty t' = Some e' -> g_slot g' = g_slot g -> g_req g' = g_req g ->
  let get g e := let* v := table_get h buf tab (g_slot g) e d in let* v := check_required (g_req g) v in Val (option_map GPlain v) in
  agree gval_grown (get g e) (get g' e') \/ newer t (fun v => Some (GPlain v)) (get g e) (get g' e').
Proof.
  intros G E E' S R get. unfold get. rewrite S, R. destruct (table_get_reads t t' e e' h buf tab (g_slot g) d G E E') as [A|(Q & q & vs & b & n & Q1 & Q2 & Q3)].
  - left. destruct (table_get h buf tab (g_slot g) e d), (table_get h buf tab (g_slot g) e' d); cbn in A; try contradiction; cbn [bind]; [|cbn; auto..].
    destruct A as [[-> ->]|(v & w & -> & -> & A)]; cbn [check_required bind option_map]; [|cbn; constructor; exact A].
    destruct (g_req g); cbn; [reflexivity|constructor].
  - right. rewrite Q, Q2. cbn [bind check_required option_map]. split; [reflexivity|]. exists q, vs, b, n. auto.
Qed.

Lemma field_plain all all' hg hg' i f f' g g' : field_grown f f' -> 0 <= i <= 32764 -> is_union (if_ty f) = false ->
  gen_field fl snake hg all i f = Some g -> gen_field fl snake hg' all' i f' = Some g' ->
  g_slot g' = g_slot g /\ g_req g' = g_req g /\ forall h buf tab,
  agree gval_grown (gen_get h buf tab g) (gen_get h buf tab g') \/ newer (if_ty f) (fun v => Some (GPlain v)) (gen_get h buf tab g) (gen_get h buf tab g').
Proof.
  intros G Hi U H H'. unfold gen_field in *. rewrite slot_of_eq in H, H' by exact Hi.
  pose proof (grown_ty _ _ G) as T. rewrite (grown_default _ _ G), (grown_req _ _ G) in H'. clear G.
  destruct T as [p| |t t' T|q c c' T].
  - assert (g' = g) by (destruct (if_default f) as [[x|x]|]; try discriminate H; try congruence; destruct (const_value fl (prim_ty p) x); congruence). subst g'.
    split; [reflexivity|]. split; [reflexivity|]. intros h buf tab. left. apply agree_same. intros [[]|]; repeat constructor.
  - assert (g' = g) by (destruct (if_default f); congruence). subst g'. split; [reflexivity|]. split; [reflexivity|]. intros h buf tab. left. apply agree_same. intros [[]|]; repeat constructor.
  - destruct (if_default f); [discriminate H|]. destruct (follow_ty (IArray t)) as [e|] eqn:E; [|discriminate H]. destruct (follow_ty (IArray t')) as [e'|] eqn:E'; [|discriminate H'].
    injection H as <-. injection H' as <-. split; [reflexivity|]. split; [reflexivity|]. intros h buf tab. unfold gen_get. cbn [g_kind].
    apply (plain_get (IArray t) (IArray t') e e' h buf tab (GField (4 + 2 * i) (GRef e) (if_required f)) (GField (4 + 2 * i) (GRef e') (if_required f)) None); auto. constructor. exact T.
  - destruct T as [|fs fs' F|vs more b|q' vs vs' more F].
    + assert (g' = g) by (destruct (if_default f); congruence). subst g'. split; [reflexivity|]. split; [reflexivity|]. intros h buf tab. left. apply agree_same. intros [[]|]; repeat constructor.
    + destruct (if_default f); discriminate H.
    + destruct (enum_default vs (if_default f)) as [d|] eqn:D; [|discriminate H]. destruct (enum_default (vs ++ more) (if_default f)) as [d'|] eqn:D'; [|discriminate H'].
      rewrite (enum_default_more _ _ _ _ _ D D') in H'. destruct (enum_compiles vs b) eqn:C; [|discriminate H]. destruct (enum_compiles (vs ++ more) b) eqn:C'; [|discriminate H'].
      injection H as <-. injection H' as <-. split; [reflexivity|]. split; [reflexivity|]. intros h buf tab. unfold gen_get. cbn [g_kind].
      apply (plain_get (ICustom q (KEnum vs b)) (ICustom q (KEnum (vs ++ more) b)) (FEnum (prim_ty b) (enum_values vs)) (FEnum (prim_ty b) (enum_values (vs ++ more))) h buf tab
        (GField (4 + 2 * i) (GEnum (prim_ty b) (enum_values vs) d) (if_required f)) (GField (4 + 2 * i) (GEnum (prim_ty b) (enum_values (vs ++ more)) d) (if_required f)) (option_map VEnum d));
        [constructor; constructor|cbn [follow_ty]; rewrite C; reflexivity|cbn [follow_ty]; rewrite C'; reflexivity|reflexivity|reflexivity].
    + discriminate U.
Qed.
Lemma union_slot all hg i f g q e vs : 0 <= i <= 32764 -> if_ty f = ICustom q (KUnion e vs) -> gen_field fl snake hg all i f = Some g -> g_slot g = 4 + 2 * i /\ g_req g = if_required f.
Proof.
  intros Hi T H. unfold gen_field in H. rewrite slot_of_eq in H by exact Hi. rewrite T in H.
  destruct (if_default f) as [[[]|]|]; try discriminate H;
  (destruct (find_field snake 0 all (type_name snake (if_id f))) as [[j tf]|]; [|discriminate H]; destruct (if_ty tf) as [| | |? []]; try discriminate H;
   destruct (union_arms _ _); [|discriminate H]; destruct (slot_of hg j); [|discriminate H]; destruct (enum_default _ _); [|discriminate H];
   destruct (_ && _); [|discriminate H]; injection H as <-; split; reflexivity).
Qed.
Lemma enum_field all hg i f g q vs b : gen_field fl snake hg all i f = Some g -> if_ty f = ICustom q (KEnum vs b) -> enum_compiles vs b = true.
Proof.
  intros H T. unfold gen_field in H. destruct (slot_of hg i); [|discriminate H]. rewrite T in H. destruct (enum_default vs (if_default f)); [|destruct (if_default f) as [[]|]; discriminate H].
  destruct (enum_compiles vs b); [reflexivity|]. destruct (if_default f) as [[]|]; discriminate H.
Qed.
Lemma compiles_values vs b : enum_compiles vs b = true -> NoDup (enum_values vs).
Proof. unfold enum_compiles. intros H. repeat (apply andb_true_iff in H as [H ?]). apply nodup_z_NoDup. assumption. Qed.

(** ** Tables *)
Lemma Forall2_long {A B} (R : A -> B -> Prop) l l' : Forall2 R l l' -> length l = length l'.
Proof. induction 1; cbn; congruence. Qed.
Lemma Forall2_at {A} (R : A -> A -> Prop) l l' more : Forall2 R l l' -> forall i x, nth_error l i = Some x -> exists y, nth_error (l' ++ more) i = Some y /\ R x y.
Proof.
  induction 1 as [|x y l l' G _ IH]; intros i z N; [destruct i; discriminate N|]. destruct i as [|i]; cbn [nth_error app] in *; [|apply IH; exact N].
  injection N as <-. eauto.
Qed.
Section Table.
Context (hg hg' : host) (fs fs' more : list ifield) (gs gs' : list gfield) (F : Forall2 field_grown fs fs').
Context (L : blen (fs' ++ more) <= 32765) (H : gen_table fl snake hg fs = Some gs) (H' : gen_table fl snake hg' (fs' ++ more) = Some gs').

Lemma grown_length : length fs' = length fs.
Proof. symmetry. exact (Forall2_long _ _ _ F). Qed.
Lemma grown_nth i f : nth_error fs i = Some f -> exists f', nth_error (fs' ++ more) i = Some f' /\ field_grown f f'.
Proof. apply Forall2_at. exact F. Qed.
Lemma old_short : blen fs <= 32765.
Proof. pose proof grown_length as E. unfold blen in *. rewrite app_length in L. lia. Qed.
Lemma old_field i f g : nth_error fs i = Some f -> nth_error gs i = Some g -> 0 <= Z.of_nat i <= 32764 /\ gen_field fl snake hg fs (Z.of_nat i) f = Some g.
Proof.
  intros N M. pose proof old_short as S. assert (i < length fs)%nat by (apply nth_error_Some; congruence). split; [unfold blen in S; lia|].
  unfold gen_table in H. destruct (_ && _); [|discriminate H]. destruct (gen_fields_nth _ _ _ _ _ _ _ _ _ H M) as (x & Nx & Gx). cbn in Gx. congruence.
Qed.
Lemma new_field i f : nth_error (fs' ++ more) i = Some f -> exists g, nth_error gs' i = Some g /\ gen_field fl snake hg' (fs' ++ more) (Z.of_nat i) f = Some g.
Proof.
  intros N. unfold gen_table in H'. destruct (_ && _); [|discriminate H']. destruct (gen_fields_back _ _ _ _ _ _ _ _ _ H' N) as (g & Ng & Gg). cbn in Gg. eauto.
Qed.
Lemma names_apart i j f f' : nth_error (fs' ++ more) i = Some f -> nth_error (fs' ++ more) j = Some f' -> snake (if_id f) = snake (if_id f') -> i = j.
Proof.
  intros Ni Nj E. unfold gen_table in H'. destruct (_ && _) eqn:D; [|discriminate H']. apply andb_true_iff in D as [D _]. apply nodup_ident_NoDup in D. apply NoDup_cons_iff in D as [_ D]. apply NoDup_cons_iff in D as [_ D].
  apply (proj1 (NoDup_nth_error _) D); [rewrite map_length; apply nth_error_Some; congruence|]. rewrite !nth_error_map, Ni, Nj. cbn [option_map]. congruence.
Qed.

Context (Nn : forall f q e vs, In f (fs' ++ more) -> if_ty f = ICustom q (KUnion e vs) -> ~ In (lit "None") (map iuv_id vs)).
Lemma field_grown_reads i f g : nth_error fs i = Some f -> nth_error gs i = Some g -> exists g', nth_error gs' i = Some g' /\
  g_slot g' = g_slot g /\ g_req g' = g_req g /\ forall h buf tab, reads_alike snake fs gs h buf tab f (gen_get h buf tab g) (gen_get h buf tab g').
Proof.
  intros N M. destruct (old_field i f g N M) as [Hi Gf]. destruct (grown_nth i f N) as (f' & N' & Gr). destruct (new_field i f' N') as (g' & M' & Gf').
  exists g'. split; [exact M'|]. destruct (is_union (if_ty f)) eqn:U.
  2: { destruct (field_plain _ _ _ _ _ _ _ _ _ Gr Hi U Gf Gf') as (S & R & P). split; [exact S|]. split; [exact R|]. intros h buf tab. destruct (P h buf tab) as [A|A]; [left; exact A|right; left; exact A]. }
  destruct (if_ty f) as [p| |t|q [|l|vs0 b0|e vs]] eqn:T; try discriminate U.
  pose proof (grown_ty _ _ Gr) as Tg. rewrite T in Tg. inversion Tg as [| | |q0 c c' Kg Eq1 Eq2]; subst. inversion Kg as [| | |e0 vs1 vs' moreu Fv Eq3 Eq4]; subst.
  symmetry in Eq2. destruct (union_slot _ _ _ _ _ _ _ _ Hi T Gf) as [S R]. destruct (union_slot _ _ _ _ _ _ _ _ Hi Eq2 Gf') as [S' R'].
  split; [congruence|]. split; [rewrite R, R'; apply (grown_req _ _ Gr)|]. intros h buf tab.
  destruct (union_accessor _ _ _ _ _ _ _ _ _ _ _ old_short H N M T) as (j & tf & evs & b & gt & Nj & Mj & Sj & Tj & Inj & Acc).
  destruct (union_accessor _ _ _ _ _ _ _ _ _ _ _ L H' N' M' Eq2) as (j' & tf' & evs' & b' & gt' & Nj' & Mj' & Sj' & Tj' & Inj' & Acc').
  destruct (grown_nth j tf Nj) as (tf2 & Nj2 & Grt).
  assert (j' = j). { eapply names_apart; eauto. rewrite Sj', (grown_id _ _ Grt), Sj, (grown_id _ _ Gr). reflexivity. } subst j'.
  assert (tf2 = tf') by congruence. subst tf2. destruct (old_field j tf gt Nj Mj) as [Hj Gt]. destruct (new_field j tf' Nj2) as (gt2 & Mj2 & Gt').
  assert (gt2 = gt') by congruence. subst gt2.
  pose proof (grown_ty _ _ Grt) as Tt. rewrite Tj, Tj' in Tt. inversion Tt as [| | |q1 c1 c1' Kt]; subst. inversion Kt as [| |vs2 moree b2|]; subst.
  pose proof (enum_field _ _ _ _ _ _ _ _ Gt' Tj') as Ce. apply compiles_values in Ce.
  destruct (field_plain _ _ _ _ _ _ _ _ _ Grt Hj ltac:(rewrite Tj; reflexivity) Gt Gt') as (_ & _ & P).
  specialize (P h buf tab). specialize (Acc h buf tab). specialize (Acc' h buf tab).
  assert (No : ~ In (lit "None") (map iuv_id (vs' ++ moreu))) by (eapply Nn; [eapply nth_error_In; exact N'|exact Eq2]).
  assert (Same : forall k v, nth_error vs k = Some v -> exists v', nth_error (vs' ++ moreu) k = Some v' /\ variant_grown v v') by (apply Forall2_at; exact Fv).
  destruct P as [P|(Q & _)].
  2: { right. right. exists q, e, vs. split; [exact T|]. left. exists j, tf, (KEnum evs b'), gt. rewrite Q in Acc. auto 7. }
  destruct (gen_get h buf tab gt) as [[x|]|err|], (gen_get h buf tab gt') as [[x'|]|err'|]; cbn in P; try contradiction.
  - destruct x as [[]|]; try contradiction. inversion P as [|w w' Pw|]; subst. inversion Pw; subst. clear P Pw. rename v into n.
    assert (Named : forall id, variant_value evs id = Some n -> variant_value (evs ++ moree) id = Some n) by (intros id; apply variant_value_more).
    assert (Apart : forall id, variant_value (evs ++ moree) id = Some n -> In id (map iuv_id (vs' ++ moreu)) -> variant_value (evs ++ moree) (lit "None") = Some n -> False).
    { intros id V I V0. rewrite (variant_value_inj _ _ _ _ _ Ce V0 V) in No. exact (No I). }
    assert (Id : forall k v, nth_error (vs' ++ moreu) k = Some v -> In (iuv_id v) (map iuv_id (vs' ++ moreu))) by (intros k v Nk; apply in_map; eapply nth_error_In; eauto).
    destruct Acc as [(k & v & t & Nk & Gk & Tk & A)|(V & A)], Acc' as [(k' & v' & t' & Nk' & Gk' & Tk' & A')|(V' & A')].
    + destruct (Same k v Nk) as (v1 & Nk1 & Gv). assert (Vid : iuv_id v1 = iuv_id v) by (destruct Gv; reflexivity).
      assert (k' = k).
      { apply (Inj' n); [exact Gk'|]. unfold union_get_type in *. rewrite Nk1, Vid. rewrite Nk in Gk. apply Named. exact Gk. }
      subst k'. assert (v1 = v') by congruence. subst v1. assert (Tv : ty_grown (iuv_ty v) (iuv_ty v')) by (destruct Gv; assumption).
      rewrite A, A', S', S, (grown_req _ _ Gr).
      destruct (table_get_reads _ _ _ _ h buf tab (4 + 2 * Z.of_nat i) None Tv Tk Tk') as [B|(Q & q2 & vs3 & b3 & m & Q1 & Q2 & Q3)].
      * left. destruct (table_get h buf tab (4 + 2 * Z.of_nat i) t None), (table_get h buf tab (4 + 2 * Z.of_nat i) t' None); cbn in B; try contradiction; cbn [bind]; [|cbn; auto..].
        destruct B as [[-> ->]|(y & y' & -> & -> & B)]; [destruct (if_required f); cbn; [reflexivity|constructor]|cbn; constructor; exact B].
      * right. right. exists q, e, vs. split; [exact T|]. right. exists v, n. split; [eapply nth_error_In; eauto|]. rewrite Q, Q2. cbn [bind]. split; [reflexivity|].
        exists q2, vs3, b3, m. auto.
    + exfalso. destruct (Same k v Nk) as (v1 & Nk1 & Gv). assert (Vid : iuv_id v1 = iuv_id v) by (destruct Gv; reflexivity).
      unfold union_get_type in Gk. rewrite Nk in Gk. apply (Apart (iuv_id v)); [apply Named; exact Gk|rewrite <- Vid; eapply Id; exact Nk1|exact V'].
    + exfalso. unfold union_get_type in Gk'. rewrite Nk' in Gk'. apply (Apart (iuv_id v')); [exact Gk'|eapply Id; exact Nk'|apply Named; exact V].
    + left. rewrite A, A', (grown_req _ _ Gr). destruct (if_required f); cbn; [reflexivity|constructor].
  - inversion P.
  - inversion P.
  - destruct Acc as [-> _]. destruct Acc' as [-> _]. left. constructor.
  - rewrite Acc, Acc'. left. exact P.
  - rewrite Acc, Acc'. left. exact Logic.I.
Qed.
End Table.
End Gen.

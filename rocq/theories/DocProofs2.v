(** Documents in the words of a schema: they can be written, and read back. *)
From Coq Require Import Strings.String ZArith List Bool Lia Strings.Byte ZifyBool ZifyNat ZifyN.
From Verif Require Import Base Scalar Utf8 SpecWire Reader SpecReader Builder Ops BaseFacts Schema Ident Codegen Resolve SpecResolve SpecGen SpecTable SpecDoc
  GenProofs1 GenProofs2 GenProofs3 GenProofs4 GenProofs8 TableProofs1 TableProofs2 ResolveProofs9 DocProofs1.
Import ListNotations.
Local Open Scope list_scope.
Local Open Scope Z_scope.

Lemma tag_at gs : forall n xs j g t v, fields_wf n gs -> length xs = length gs -> nth_error gs j = Some g -> nth_error xs j = Some (TreeNum t v) ->
  tag gs xs (g_slot g) = Some v.
Proof.
  induction gs as [|g0 gs IH]; intros n [|x xs] j g t v W L Ng Nx; destruct j; cbn [nth_error] in *; try discriminate.
  - injection Ng as <-. injection Nx as ->. cbn [tag]. rewrite Z.eqb_refl. reflexivity.
  - cbn [tag]. destruct (W O g0 eq_refl) as [S0 _]. destruct (W (S j) g Ng) as [Sj _].
    replace (g_slot g0 =? g_slot g) with false by lia. apply (IH (n + 1) xs j g t v); auto.
    intros i f Hi. destruct (W (S i) f Hi) as [Si K]. split; [lia|exact K].
Qed.
Lemma NoDup_map_In {A B} (f : A -> B) l x y : NoDup (map f l) -> In x l -> In y l -> f x = f y -> x = y.
Proof.
  induction l as [|z l IH]; intros N I J E; [destruct I|]. cbn [map] in N. apply NoDup_cons_iff in N as [N1 N2].
  destruct I as [<-|I]; destruct J as [<-|J]; auto; exfalso; apply N1; apply in_map_iff; eauto.
Qed.
Lemma names_once evs : NoDup (enum_values evs) -> NoDup (map iev_id evs) -> forall a b n, variant_value evs a = Some n -> variant_value evs b = Some n -> a = b.
Proof.
  intros N1 N2 a b n A C. apply variant_numbered in A as (i & v & Nv & <- & ->). apply variant_numbered in C as (j & w & Nw & <- & E).
  assert (X : nth_error (enum_values evs) i = Some (variant_number i v)) by (apply values_nth; eauto).
  assert (Y : nth_error (enum_values evs) j = Some (variant_number i v)) by (rewrite E; apply values_nth; eauto).
  assert (i = j).
  { apply (proj1 (NoDup_nth_error (enum_values evs)) N1); [|congruence]. apply nth_error_Some. congruence. }
  subst j. congruence.
Qed.

Section Write.
Context (fl : floats) (snake : text -> text) (root : list node) (hg : host) (es : list element).
Context (B : build snake es = Done root) (F : floats_ok fl).
Context (All : forall path t, In (path, NTable t) (all_contents root) ->
  blen (it_fields t) <= 8190 /\ forallb (fun f => default_ok (if_default f)) (it_fields t) = true /\ exists gs, gen_table fl snake hg (it_fields t) = Some gs).

Definition good (x : doc) (t : ity) (ft : fty) (y : tree) : Prop :=
  calls_for fl snake root hg x t = Some y /\ typed 8190 y ft /\ (all_required_given y = true <-> complete fl snake root x t) /\
  forall hr D w, shape ft w -> shows_all hr D y w -> reads fl snake root hg hr D x t (GPlain w).
Definition can (x : doc) : Prop := forall t ft, follow_ty t = Some ft -> shaped snake root x t -> exists y, good x t ft y.

(** ** A table *)
Section Table.
Context (q : qident) (fs : list ifield) (gs : list gfield) (given : list (ident * doc)).
Context (path : qident) (tb : itable) (It : In (path, NTable tb) (all_contents root)) (Eq : it_id tb = q) (Ef : it_fields tb = fs).
Context (G : gen_table fl snake hg fs = Some gs) (Nd : NoDup (map fst given)).
Context (Each : forall n x, In (n, x) given -> exists f, In f fs /\ if_id f = n /\ told snake fs f = None /\ shaped snake root x (if_ty f)).
Context (Req : forall f, In f fs -> if_required f = true -> behind_offset (if_ty f) = true -> value_of snake fs given f <> None).
Context (IH : forall n x, In (n, x) given -> can x /\ match x with DVariant _ y => can y | _ => True end).

Let Lf : blen fs <= 8190. Proof. destruct (All _ _ It) as [L _]. rewrite <- Ef. exact L. Qed.
Let Ok : forallb (fun f => default_ok (if_default f)) fs = true. Proof. destruct (All _ _ It) as (_ & D & _). rewrite <- Ef. exact D. Qed.
Lemma parts : NoDup (map (fun f => snake (if_id f)) fs) /\ gen_fields fl snake hg fs 0 fs = Some gs /\ fields_wf 0 gs /\ length gs = length fs.
Proof.
  unfold gen_table in G. destruct (_ && _) eqn:C; [|discriminate G]. apply andb_true_iff in C as [C _]. apply nodup_ident_NoDup in C.
  apply NoDup_cons_iff in C as [_ C]. apply NoDup_cons_iff in C as [_ C]. split; [exact C|]. split; [exact G|].
  destruct (gen_fields_wf fl snake hg fs fs F 0 gs Ok ltac:(lia) ltac:(pose proof Lf; lia) G) as (W & L & _). auto.
Qed.
Lemma gen_at i f g : nth_error fs i = Some f -> nth_error gs i = Some g -> gen_field fl snake hg fs (Z.of_nat i) f = Some g.
Proof.
  intros Nf Ng. destruct parts as (_ & Gf & _). destruct (gen_fields_back _ _ _ _ _ _ _ _ _ Gf Nf) as (g' & Ng' & E).
  assert (g' = g) by congruence. subst g'. exact E.
Qed.
Lemma same_field f f' : In f fs -> In f' fs -> snake (if_id f) = snake (if_id f') -> f = f'.
Proof. intros I I' E. destruct parts as (N & _). exact (NoDup_map_In (fun f => snake (if_id f)) fs f f' N I I' E). Qed.
Lemma given_field f x : In f fs -> lookup given (if_id f) = Some x -> shaped snake root x (if_ty f) /\ can x /\ match x with DVariant _ y => can y | _ => True end.
Proof.
  intros I E. apply lookup_In in E. destruct (Each _ _ E) as (f' & I' & En & _ & Fx). destruct (IH _ _ E) as [H1 H2].
  assert (f' = f) by (apply same_field; auto; congruence). subst f'. auto.
Qed.
(** The union whose type is in [f], and its parts. *)
Lemma told_union f u : In f fs -> told snake fs f = Some u -> exists q e vs evs b, In u fs /\ if_ty u = ICustom q (KUnion e vs) /\ if_ty f = ICustom e (KEnum evs b) /\
  enum_compiles evs b = true /\ map iev_id evs = lit "None" :: map iuv_id vs.
Proof.
  intros I T. apply find_some in T as [Iu K]. unfold tells in K. apply andb_true_iff in K as [Ku Kn]. apply ident_eqb_iff in Kn.
  destruct (if_ty u) as [| | |qu [| | |e vs]] eqn:Tu; try discriminate Ku. apply In_nth_error in Iu as (i & Ni).
  destruct parts as (N & Gf & _). destruct (gen_fields_back _ _ _ _ _ _ _ _ _ Gf Ni) as (g & Ng & Gg).
  apply field_kinds in Gg as [_ Gg]. rewrite Tu in Gg. destruct Gg as (tslot & j & tf & evs & b & td & arms & _ & Ff & Tt & _ & _ & C & _).
  pose proof (name_found snake _ _ _ _ _ Ff) as En. apply find_field_nth in Ff as (k & _ & Nk).
  assert (tf = f) by (apply same_field; [eapply nth_error_In; exact Nk|exact I|unfold type_name in En; congruence]). subst tf.
  exists qu, e, vs, evs, b. split; [eapply nth_error_In; exact Ni|]. split; [reflexivity|]. split; [exact Tt|]. split; [exact C|].
  destruct (resolved_companions snake es root path tb B It u qu e vs f evs b) as (_ & cvs & -> & Ids & _); rewrite ?Ef; auto.
  - eapply nth_error_In; exact Ni.
  - cbn [map iev_id]. rewrite Ids. reflexivity.
Qed.
Lemma companion i u g q' e vs : nth_error fs i = Some u -> nth_error gs i = Some g -> if_ty u = ICustom q' (KUnion e vs) ->
  exists j tf gt evs b td arms, nth_error fs j = Some tf /\ nth_error gs j = Some gt /\ told snake fs tf = Some u /\
    g_kind g = GUnion (g_slot gt) (prim_ty b) (enum_values evs) td arms /\ if_ty tf = ICustom e (KEnum evs b) /\
    union_arms evs vs = Some arms /\ enum_compiles evs b = true /\ union_exhaustive evs vs = true.
Proof.
  intros Nu Ng Tu. pose proof (gen_at _ _ _ Nu Ng) as Gg. apply field_kinds in Gg as [_ Gg]. rewrite Tu in Gg.
  destruct Gg as (tslot & j & tf & evs & b & td & arms & K & Ff & Tt & Sl & A & C & X). pose proof (name_found snake _ _ _ _ _ Ff) as En.
  apply find_field_nth in Ff as (k & -> & Nk). destruct parts as (N & Gf & W & L).
  destruct (gen_fields_back _ _ _ _ _ _ _ _ _ Gf Nk) as (gt & Ngt & _). exists k, tf, gt, evs, b, td, arms.
  destruct (W _ _ Ngt) as [Sg _]. assert (Lk : (k < length fs)%nat) by (apply nth_error_Some; congruence).
  rewrite slot_of_eq in Sl by (pose proof Lf; unfold blen in *; lia).
  split; [exact Nk|]. split; [exact Ngt|]. split.
  - unfold told. destruct (find _ fs) as [u'|] eqn:E.
    + apply find_some in E as [Iu' K']. unfold tells in K'. apply andb_true_iff in K' as [_ K']. apply ident_eqb_iff in K'. f_equal.
      apply same_field; [exact Iu'|eapply nth_error_In; exact Nu|]. unfold type_name in En. rewrite En in K'. apply app_inv_tail in K'. congruence.
    + exfalso. pose proof (find_none _ _ E u (nth_error_In _ _ Nu)) as Q. unfold tells in Q. rewrite Tu in Q. cbn [is_union andb] in Q.
      unfold type_name in En. rewrite En in Q. rewrite (proj2 (ident_eqb_iff _ _) eq_refl) in Q. discriminate Q.
  - split; [|auto]. rewrite K. f_equal. rewrite Sg. congruence.
Qed.

(** What becomes of each field. *)
Inductive filled (f : ifield) (g : gfield) (y : tree) : Prop :=
| filled_plain x ft : told snake fs f = None -> lookup given (if_id f) = Some x -> is_union (if_ty f) = false -> follow_ty (if_ty f) = Some ft ->
    good x (if_ty f) ft y -> filled f g y
| filled_union id x q' e vs v : told snake fs f = None -> lookup given (if_id f) = Some (DVariant id x) -> if_ty f = ICustom q' (KUnion e vs) -> In v vs -> iuv_id v = id ->
    good x (iuv_ty v) (FUOffset FTable) y -> follow_ty (iuv_ty v) = Some (FUOffset FTable) -> filled f g y
| filled_type u id x e evs b n : told snake fs f = Some u -> lookup given (if_id u) = Some (DVariant id x) -> if_ty f = ICustom e (KEnum evs b) ->
    enum_compiles evs b = true -> variant_value evs id = Some n -> y = TreeNum (prim_ty b) n -> filled f g y
| filled_out : value_of snake fs given f = None -> if_required f && behind_offset (if_ty f) = false -> y = left_out g -> filled f g y.

Definition arg (f : ifield) (g : gfield) : option tree :=
  match told snake fs f with
  | Some u =>
      match lookup given (if_id u), if_ty f with
      | Some (DVariant id _), ICustom _ (KEnum vs b) => option_map (TreeNum (prim_ty b)) (variant_value vs id)
      | _, _ => Some (left_out g)
      end
  | None => match lookup (map (fun p => match p with (n, x) => (n, calls_for fl snake root hg x) end) given) (if_id f) with Some call => call (if_ty f) | None => Some (left_out g) end
  end.
Lemma not_required f : In f fs -> value_of snake fs given f = None -> if_required f && behind_offset (if_ty f) = false.
Proof. intros I V. destruct (if_required f) eqn:R; [|reflexivity]. destruct (behind_offset (if_ty f)) eqn:O; [|reflexivity]. destruct (Req f I R O V). Qed.
Lemma arg_filled i f g : nth_error fs i = Some f -> nth_error gs i = Some g -> exists y, arg f g = Some y /\ filled f g y.
Proof.
  intros Nf Ng. pose proof (nth_error_In _ _ Nf) as I. unfold arg. destruct (told snake fs f) as [u|] eqn:T.
  - destruct (told_union f u I T) as (qu & e & vs & evs & b & Iu & Tu & Tf & C & Ids). rewrite Tf.
    destruct (lookup given (if_id u)) as [x|] eqn:L.
    + destruct (given_field u x Iu L) as (Fx & _). rewrite Tu in Fx. destruct x as [| | | | |id x]; try destruct Fx. destruct H as (q0 & Iv & Ev & _).
      destruct (variant_exists evs id) as (n & En); [rewrite Ids; right; apply in_map_iff; eauto|]. rewrite En. cbn [option_map].
      eexists. split; [reflexivity|]. eapply filled_type; eauto.
    + eexists. split; [reflexivity|]. apply filled_out; [|apply not_required; [exact I|]|reflexivity]; unfold value_of; rewrite T, L; reflexivity.
  - rewrite lookup_map. destruct (lookup given (if_id f)) as [x|] eqn:L; cbn [option_map].
    + destruct (given_field f x I L) as (Fx & Cx & Cy). pose proof (gen_at _ _ _ Nf Ng) as Gg. apply field_kinds in Gg as [_ Gg].
      destruct (is_union (if_ty f)) eqn:U.
      * destruct (if_ty f) as [| | |qf [| | |e vs]] eqn:Tf; try discriminate U. destruct x as [| | | | |id x]; try destruct Fx.
        rename x0 into v. destruct H as (q0 & Iv & Ev & Tv & Fx). destruct (Cy (iuv_ty v) (FUOffset FTable)) as (y & Gy); [rewrite Tv; reflexivity|exact Fx|].
        exists y. split.
        -- cbn [calls_for]. assert (Fv : find_variant vs id = Some v).
           { unfold find_variant. destruct (find _ vs) as [v'|] eqn:E.
             - apply find_some in E as [Iv' E]. apply ident_eqb_iff in E. f_equal.
               destruct Gg as (tslot & j & tf & evs & b & td & arms & _ & _ & _ & _ & _ & _ & X).
               unfold union_exhaustive in X. repeat (apply andb_true_iff in X as [X ?]).
               match goal with Y : nodup_ident (map iuv_id vs) = true |- _ => apply nodup_ident_NoDup in Y; eapply (NoDup_map_In iuv_id); eauto; congruence end.
             - exfalso. pose proof (find_none _ _ E v Iv) as Q. apply ident_eqb_iff in Ev. congruence. }
           rewrite Fv. exact (proj1 Gy).
        -- eapply filled_union; eauto. rewrite Tv. reflexivity.
      * assert (X : exists ft, follow_ty (if_ty f) = Some ft).
        { destruct (if_ty f) as [p| |t|qf [|fs'|vs b|e vs]]; try discriminate U; cbn [follow_ty]; eauto.
          - destruct Gg as (_ & ft & E & _). cbn [follow_ty] in E. eauto.
          - destruct Gg.
          - destruct Gg as (d & _ & _ & C). rewrite C. eauto. }
        destruct X as (ft & E). destruct (Cx _ _ E Fx) as (y & Gy). exists y. split; [exact (proj1 Gy)|]. eapply filled_plain; eauto.
    + eexists. split; [reflexivity|]. apply filled_out; [|apply not_required; [exact I|]|reflexivity]; unfold value_of; rewrite T, L; reflexivity.
Qed.

Lemma left_out_typed i f g : nth_error fs i = Some f -> nth_error gs i = Some g -> if_required f && behind_offset (if_ty f) = false -> forall xs, typed_field 8190 gs xs g (left_out g).
Proof.
  intros Nf Ng R xs. pose proof (gen_at _ _ _ Nf Ng) as Gg. apply field_kinds in Gg as [Rq Gg]. destruct parts as (_ & _ & W & _).
  destruct (W _ _ Ng) as [_ K]. unfold typed_field, left_out, default_arg in *. destruct (g_kind g) as [t d|t vs d|t|tslot b tvs td arms] eqn:Ek.
  - cbn [kind_wf] in K. cbn [typed]. split; [|left; reflexivity]. destruct d; [exact K|destruct t; reflexivity].
  - destruct (if_ty f) as [p| |ty|qf [|fs'|evs b|e uvs]].
    + destruct Gg as (d0 & Q & _). discriminate Q.
    + destruct Gg as (_ & ft & _ & Q). discriminate Q.
    + destruct Gg as (_ & ft & _ & Q). discriminate Q.
    + destruct Gg as (_ & ft & _ & Q). discriminate Q.
    + destruct Gg.
    + destruct Gg as (d' & Q & Ed & C). injection Q as -> -> ->. pose proof C as C'. apply enum_compiles_facts in C' as (_ & V & _).
      rewrite forallb_forall in V.
      assert (In_ : In (match d' with Some v => v | None => first_value (enum_values evs) end) (enum_values evs)).
      { destruct (if_default f) as [[c|id]|]; cbn [enum_default] in Ed; [discriminate Ed| |].
        - unfold variant_value in Ed. destruct (variant_value_from 0 evs id) as [n|] eqn:En; cbn [option_map] in Ed; [|discriminate Ed]. injection Ed as <-.
          apply variant_value_In in En. exact En.
        - injection Ed as <-. apply enum_fine in C. destruct evs as [|v evs]; [destruct (fe_some _ _ C); reflexivity|]. left. reflexivity. }
      cbn [typed]. split; [apply V; exact In_|right; eauto].
    + destruct Gg as (? & ? & ? & ? & ? & ? & ? & Q & _). discriminate Q.
  - left. split; [reflexivity|]. rewrite Rq. destruct (if_ty f) as [p| |ty|qf [|fs'|evs b|e uvs]]; cbn [behind_offset] in R; rewrite ?andb_true_r in R; auto.
    + destruct Gg as (d0 & Q & _). discriminate Q.
    + destruct Gg as (d0 & Q & _). discriminate Q.
  - left. split; [reflexivity|]. rewrite Rq. destruct (if_ty f) as [p| |ty|qf [|fs'|evs b0|e uvs]]; cbn [behind_offset] in R; rewrite ?andb_true_r in R; auto.
    + destruct Gg as (d0 & Q & _). discriminate Q.
    + destruct Gg as (d0 & Q & _). discriminate Q.
Qed.

Lemma plain_kind i f g ft : gen_field fl snake hg fs i f = Some g -> is_union (if_ty f) = false -> follow_ty (if_ty f) = Some ft ->
  match g_kind g with GScalar t _ => ft = FScalar t | GEnum t vs _ => ft = FEnum t vs | GRef t => ft = t | GUnion _ _ _ _ _ => False end.
Proof.
  intros Gg U E. apply field_kinds in Gg as [_ Gg]. destruct (if_ty f) as [p| |ty|qf [|fs'|evs b|e uvs]]; cbn [follow_ty] in E; try discriminate U; try discriminate E.
  - destruct Gg as (d0 & -> & _). congruence.
  - destruct Gg as (_ & ft' & E' & ->). cbn [follow_ty] in E'. congruence.
  - destruct Gg as (_ & ft' & E' & ->). cbn [follow_ty] in E'. congruence.
  - destruct Gg as (_ & ft' & E' & ->). cbn [follow_ty] in E'. congruence.
  - destruct Gg as (d0 & -> & _ & C). rewrite C in E. congruence.
Qed.
Lemma enum_int_eq t a b : int_ty t = true -> scalar_eq t a b = true -> a = b.
Proof. unfold scalar_eq. destruct t; intros I H; try discriminate I; cbn in H; lia. Qed.
Lemma int_eq_refl t v : int_ty t = true -> scalar_eq t v v = true.
Proof. unfold scalar_eq. destruct t; intros I; try discriminate I; cbn; lia. Qed.
Definition stored (f : ifield) : Prop :=
  if_required f = true -> match value_of snake fs given f with Some x => ~ is_its_default fl f x | None => ~ has_default fl f end.
Lemma filled_stored i f g y : nth_error fs i = Some f -> nth_error gs i = Some g -> filled f g y ->
  (negb (g_req g && match y with TreeNum t v => is_default g (Some (PScalar t v)) | _ => false end) = true <-> stored f).
Proof.
  intros Nf Ng Fl. pose proof (gen_at _ _ _ Nf Ng) as Gg. apply field_kinds in Gg as [Rq Gg].
  unfold stored. rewrite <- Rq. destruct (g_req g) eqn:R; cbn [andb]; [|split; [discriminate|reflexivity]].
  rewrite negb_true_iff. unfold value_of.
  enough (E : match y with TreeNum t v => is_default g (Some (PScalar t v)) | _ => false end = true <->
     match match told snake fs f with Some u => match lookup given (if_id u) with Some (DVariant id _) => Some (DName id) | _ => None end | None => lookup given (if_id f) end with
     | Some x => is_its_default fl f x | None => has_default fl f end).
  { match type of E with ?b = true <-> _ => destruct b end.
    - split; [discriminate|]. intros Q. exfalso. specialize (Q eq_refl). apply proj1 in E. specialize (E eq_refl). destruct (match told snake fs f with Some _ => _ | None => _ end); exact (Q E).
    - split; [|reflexivity]. intros _ _. apply proj2 in E. destruct (match told snake fs f with Some _ => _ | None => _ end); intros Q; specialize (E Q); discriminate E. }
  assert (En : forall id q' evs b n, if_ty f = ICustom q' (KEnum evs b) -> variant_value evs id = Some n ->
     (is_default g (Some (PScalar (prim_ty b) n)) = true <-> is_its_default fl f (DName id))).
  { intros id q' evs b n Tf Vn. rewrite Tf in Gg. destruct Gg as (d & K & Ed & C). unfold is_default, is_its_default. rewrite K, Tf.
    apply enum_compiles_facts in C as C'. destruct C' as (Ci & _ & Cn).
    assert (Cm : NoDup (map iev_id evs)) by (apply enum_fine in C; exact (fe_names _ _ C)).
    destruct (if_default f) as [[c|id']|]; cbn [enum_default] in Ed; try discriminate Ed.
    - destruct (variant_value evs id') as [m|] eqn:Em; cbn [option_map] in Ed; [|discriminate Ed]. injection Ed as <-. cbn [pval_eq]. split.
      + intros D. apply (enum_int_eq _ _ _ Ci) in D. subst m. exact (names_once evs Cn Cm _ _ _ Em Vn).
      + intros <-. assert (m = n) by congruence. subst m. apply int_eq_refl. exact Ci.
    - injection Ed as <-. split; [discriminate|intros []]. }
  destruct Fl as [x ft T L U E Gy|id x q' e vs w T L Tf Iw Ew Gy Ft|u id x e evs b n T L Tf C Vn ->|V' R' ->].
  - rewrite T, L. destruct (given_field f x (nth_error_In _ _ Nf) L) as (Fx & _).
    destruct Gy as (Cy & _). destruct x as [v'|id|s|xs|given'|id x]; cbn [calls_for] in Cy.
    + destruct (if_ty f) as [p| |ty|qf [|fs'|evs b|e uvs]] eqn:Tf; try discriminate Cy. injection Cy as <-.
      destruct Gg as (d & K & Ed). unfold is_default, is_its_default. rewrite K, Tf.
      destruct (if_default f) as [[c|]|] eqn:Df; [|destruct Ed|subst d; split; [discriminate|intros []]]. destruct Ed as [Ed Nn]. destruct d as [d|]; [|congruence]. cbn [pval_eq]. split; [eauto|].
      intros (d' & Ed' & S). assert (d' = d) by congruence. subst d'. exact S.
    + destruct (if_ty f) as [p| |ty|qf [|fs'|evs b|e uvs]] eqn:Tf; try discriminate Cy.
      destruct (variant_value evs id) as [n|] eqn:Vn; [|discriminate Cy]. cbn [option_map] in Cy. injection Cy as <-. eapply En; eauto.
    + destruct (if_ty f) as [p| |ty|qf [|fs'|evs b|e uvs]] eqn:Tf; try discriminate Cy. injection Cy as <-. split; [discriminate|]. unfold is_its_default. rewrite Tf. destruct (if_default f) as [[]|]; intros [].
    + destruct (if_ty f) as [p| |ty|qf [|fs'|evs b|e uvs]] eqn:Tf; try discriminate Cy. destruct (follow_ty ty) as [e0|]; [|discriminate Cy].
      destruct (elem_pty e0) as [p0|]; [|discriminate Cy]. match type of Cy with context [all_some ?l] => destruct (all_some l) end; [|discriminate Cy]. injection Cy as <-.
      split; [discriminate|]. unfold is_its_default. rewrite Tf. destruct (if_default f) as [[]|]; intros [].
    + destruct (if_ty f) as [p| |ty|qf [|fs'|evs b|e uvs]] eqn:Tf; try discriminate Cy. destruct (fields_named root qf); [|discriminate Cy].
      match type of Cy with context [gen_table ?a ?b ?c ?d] => destruct (gen_table a b c d) end; [|discriminate Cy]. match type of Cy with context [all_some ?l] => destruct (all_some l) end; [|discriminate Cy]. injection Cy as <-.
      split; [discriminate|]. unfold is_its_default. rewrite Tf. destruct (if_default f) as [[]|]; intros [].
    + destruct (if_ty f) as [p| |ty|qf [|fs'|evs b|e uvs]]; try destruct Fx. discriminate U.
  - rewrite T, L. destruct Gy as (_ & Ty & _). destruct y; try (split; [discriminate|]; unfold is_its_default; rewrite Tf; destruct (if_default f) as [[]|]; intros []).
    cbn [typed] in Ty. destruct Ty as [_ [Ty|(al & Ty & _)]]; discriminate Ty.
  - rewrite T, L. eapply En; eauto.
  - unfold value_of in V'. rewrite V'. unfold left_out, default_arg, has_default.
    destruct (if_ty f) as [p| |ty|qf [|fs'|evs b|e uvs]]; cbn [behind_offset andb] in R'; rewrite ?andb_true_r in R'; try congruence.
    + destruct Gg as (d & K & Ed). unfold is_default. rewrite K. destruct (if_default f) as [[c|]|]; [|destruct Ed|subst d; split; [discriminate|intros []]].
      destruct Ed as [Ed Nn]. destruct d as [d|]; [|congruence]. cbn [pval_eq]. split; [eauto|]. intros (d' & Ed' & S). assert (d' = d) by congruence. subst d'. exact S.
    + destruct Gg as (d & K & Ed & C). unfold is_default. rewrite K. apply enum_compiles_facts in C as (Ci & _).
      destruct (if_default f) as [[c|id']|]; cbn [enum_default] in Ed; try discriminate Ed.
      * destruct (variant_value evs id') as [m|]; cbn [option_map] in Ed; [|discriminate Ed]. injection Ed as <-. cbn [pval_eq]. split; [auto|]. intros _. apply int_eq_refl. exact Ci.
      * injection Ed as <-. split; [discriminate|intros []].
Qed.
(** What is below a field. *)
Definition below (f : ifield) : Prop := told snake fs f = None -> forall x, lookup given (if_id f) = Some x -> complete fl snake root x (if_ty f).
Lemma filled_required i f g y : nth_error fs i = Some f -> nth_error gs i = Some g -> filled f g y -> (all_required_given y = true <-> below f).
Proof.
  intros Nf Ng [x ft T L U E Gy|id x q' e vs w T L Tf Iw Ew Gy Ft|u id x e evs b n T L Tf C Vn ->|V' R' ->]; unfold below.
  - destruct Gy as (_ & _ & Ry & _). rewrite Ry. split; [|auto]. intros Q _ x' E'. congruence.
  - destruct Gy as (_ & _ & Ry & _). rewrite Ry. split.
    + intros Q _ x' E'. assert (x' = DVariant id x) by congruence. subst x'. rewrite Tf. cbn [complete]. eauto.
    + intros Q. specialize (Q T _ L). rewrite Tf in Q. cbn [complete] in Q. destruct Q as (w' & Iw' & Ew' & Q).
      destruct (companion i f g q' e vs Nf Ng Tf) as (j & tf & gt & evs & b & td & arms & _ & _ & _ & _ & _ & _ & _ & X).
      assert (w' = w); [|subst w'; exact Q].
      unfold union_exhaustive in X. repeat (apply andb_true_iff in X as [X ?]).
      match goal with Y : nodup_ident (map iuv_id vs) = true |- _ => apply nodup_ident_NoDup in Y; eapply (NoDup_map_In iuv_id); eauto; congruence end.
  - split; [congruence|reflexivity].
  - split.
    + intros _ T x L. unfold value_of in V'. rewrite T, L in V'. discriminate V'.
    + intros _. unfold left_out. destruct (default_arg g) as [[]|]; reflexivity.
Qed.
Lemma required_given_nth gs0 : forall xs, length xs = length gs0 -> (required_given gs0 xs = true <-> forall i g x, nth_error gs0 i = Some g -> nth_error xs i = Some x ->
  negb (g_req g && match x with TreeNum t v => is_default g (Some (PScalar t v)) | _ => false end) = true).
Proof.
  induction gs0 as [|g gs0 IHg]; intros [|x xs] L; try discriminate L; cbn [required_given].
  - split; [intros _ [|i] g x H; discriminate H|reflexivity].
  - rewrite andb_true_iff, IHg by (cbn [length] in L; congruence). split.
    + intros [H1 H2] [|i] g' x' Hg Hx; cbn [nth_error] in *; [injection Hg as <-; injection Hx as <-; exact H1|eauto].
    + intros H. split; [exact (H O g x eq_refl eq_refl)|]. intros i g' x'. exact (H (S i) g' x').
Qed.
(** What is said of a table as a whole. *)
Lemma table_complete : complete fl snake root (DTable given) (ICustom q KTable) <-> (forall f, In f fs -> stored f) /\ (forall f, In f fs -> below f).
Proof.
  assert (Tn : table_named root q fs) by (exists path, tb; auto).
  cbn [complete]. split.
  - intros (fs' & Tn' & C & R). assert (fs' = fs).
    { pose proof (fields_found _ _ _ _ _ B Tn) as E1. pose proof (fields_found _ _ _ _ _ B Tn') as E2. congruence. }
    subst fs'. split; [intros f I Rq; exact (R f I Rq)|]. intros f I T x L. apply lookup_In in L.
    assert (exists f', In f' fs /\ if_id f' = if_id f /\ complete fl snake root x (if_ty f')) as (f' & I' & En & Cx).
    { clear - C L. induction given as [|[n y] l IHl]; [destruct L|]. destruct C as [C1 C2]. destruct L as [L|L]; [injection L as -> ->; exact C1|auto]. }
    assert (f' = f) by (apply same_field; auto; congruence). subst f'. exact Cx.
  - intros [St Be]. exists fs. split; [exact Tn|]. split; [|intros f I Rq; exact (St f I Rq)].
    assert (Sub : forall n x, In (n, x) given -> exists f, In f fs /\ if_id f = n /\ complete fl snake root x (if_ty f)).
    { intros n x I. destruct (Each n x I) as (f & If & En & T & _). pose proof (In_lookup given n x Nd I) as L. rewrite <- En in L.
      exists f. split; [exact If|]. split; [exact En|]. exact (Be f If T x L). }
    clear - Sub. induction given as [|[n x] l IHl]; [exact Logic.I|]. split; [apply Sub; left; reflexivity|]. apply IHl. intros n' x' I. apply Sub. right. exact I.
Qed.

(** The content of a union that is given. *)
Lemma union_arm evs vs b arms v n t : enum_compiles evs b = true -> union_arms evs vs = Some arms -> union_exhaustive evs vs = true ->
  map iev_id evs = lit "None" :: map iuv_id vs -> In v vs -> variant_value evs (iuv_id v) = Some n -> follow_ty (iuv_ty v) = Some t -> find_arm n arms = Some t.
Proof.
  intros C A X Ids Iv Vn Ft. pose proof (enum_compiles_facts _ _ C) as (_ & _ & Cn). apply enum_fine in C. pose proof (fe_names _ _ C) as Cm.
  assert (In_ : In n (enum_values evs)) by (apply variant_numbered in Vn as (k & w & Nk & _ & ->); eapply nth_error_In; apply values_nth; eauto).
  rewrite Ids in Cm. pose proof Cm as Cm'. apply NoDup_cons_iff in Cm' as [Nn Nv].
  assert (Cm2 : NoDup (map iev_id evs)) by (rewrite Ids; exact Cm).
  destruct (arms_of evs vs arms n Cn Cm2 A X In_) as [(k & w & t' & Nk & Gt & Ft' & Fa)|[None_ Fa]].
  - unfold union_get_type in Gt. rewrite Nk in Gt. pose proof (names_once evs Cn Cm2 _ _ _ Gt Vn) as E.
    assert (w = v) by (eapply (NoDup_map_In iuv_id); eauto; eapply nth_error_In; exact Nk). subst w. congruence.
  - exfalso. pose proof (names_once evs Cn Cm2 _ _ _ None_ Vn) as E. apply Nn. rewrite E. apply in_map. exact Iv.
Qed.
Lemma union_number u tf q' e vs evs b v n : In u fs -> In tf fs -> if_ty u = ICustom q' (KUnion e vs) -> if_ty tf = ICustom e (KEnum evs b) -> enum_compiles evs b = true ->
  In v vs -> variant_value evs (iuv_id v) = Some n -> map iev_id evs = lit "None" :: map iuv_id vs /\ exists k, nth_error vs k = Some v /\ n = Z.of_nat k + 1.
Proof.
  intros Iu Itf Tu Tt C Iv Vn. destruct (resolved_companions snake es root path tb B It u q' e vs tf evs b) as (_ & cvs & -> & Ids & Vals); rewrite ?Ef; auto.
  split; [cbn [map iev_id]; rewrite Ids; reflexivity|]. apply enum_fine in C. pose proof (fe_names _ _ C) as Cm. cbn [map iev_id] in Cm.
  apply NoDup_cons_iff in Cm as [Nn Nv]. rewrite Ids in Nn, Nv.
  apply variant_numbered in Vn as (k & w & Nk & Ew & ->). destruct k as [|k]; cbn [nth_error] in Nk.
  - injection Nk as <-. cbn [iev_id] in Ew. exfalso. apply Nn. rewrite Ew. apply in_map. exact Iv.
  - exists k. assert (Hk : nth_error (map iuv_id vs) k = Some (iuv_id v)) by (rewrite <- Ids, nth_error_map, Nk; cbn; congruence).
    rewrite nth_error_map in Hk. destruct (nth_error vs k) as [v'|] eqn:Nv'; [|discriminate Hk]. cbn [option_map] in Hk. injection Hk as Hk. split.
    + f_equal. eapply (NoDup_map_In iuv_id); eauto. eapply nth_error_In; exact Nv'.
    + unfold variant_number. assert (Hv : nth_error (map iev_value cvs) k = Some None) by (rewrite Vals, nth_error_map, Nk; reflexivity).
      rewrite nth_error_map, Nk in Hv. cbn [option_map] in Hv. injection Hv as ->. lia.
Qed.

Section Filled.
Context (xs : list tree) (Lx : length xs = length gs).
Context (At : forall i f g y, nth_error fs i = Some f -> nth_error gs i = Some g -> nth_error xs i = Some y -> filled f g y).
Lemma at_index i g : nth_error gs i = Some g -> exists f y, nth_error fs i = Some f /\ nth_error xs i = Some y.
Proof.
  intros Ng. assert (L : (i < length gs)%nat) by (apply nth_error_Some; congruence). destruct parts as (_ & _ & _ & Lg).
  destruct (nth_error fs i) as [f|] eqn:Nf; [|apply nth_error_None in Nf; lia]. destruct (nth_error xs i) as [y|] eqn:Nx; [|apply nth_error_None in Nx; lia]. eauto.
Qed.
(** The tag of a union that is given. *)
Lemma union_tag i f g y id x q' e vs v : nth_error fs i = Some f -> nth_error gs i = Some g -> nth_error xs i = Some y ->
  lookup given (if_id f) = Some (DVariant id x) -> if_ty f = ICustom q' (KUnion e vs) -> In v vs -> iuv_id v = id -> follow_ty (iuv_ty v) = Some (FUOffset FTable) ->
  exists tslot b tvs td arms k, g_kind g = GUnion tslot b tvs td arms /\ nth_error vs k = Some v /\
    tag gs xs tslot = Some (Z.of_nat k + 1) /\ find_arm (Z.of_nat k + 1) arms = Some (FUOffset FTable).
Proof.
  intros Nf Ng Nx L Tf Iv Ev Ft. destruct (companion i f g q' e vs Nf Ng Tf) as (j & tf & gt & evs & b & td & arms & Nj & Ngt & T & K & Tt & A & C & X).
  destruct (at_index j gt Ngt) as (tf' & yt & Nj' & Nxt). assert (tf' = tf) by congruence. subst tf'.
  pose proof (At j tf gt yt Nj Ngt Nxt) as [x1 ft1 T1 _ _ _ _|id1 x1 q1 e1 vs1 v1 T1 _ _ _ _ _ _|u1 id1 x1 e1 evs1 b1 n T1 L1 Tf1 C1 Vn Ey|V1 _ _].
  - congruence.
  - congruence.
  - assert (u1 = f) by congruence. subst u1. assert (id1 = id) by congruence. subst id1. assert (evs1 = evs) by congruence. subst evs1. assert (b1 = b) by congruence. subst b1.
    rewrite <- Ev in Vn.
    destruct (union_number f tf q' e vs evs b v n (nth_error_In _ _ Nf) (nth_error_In _ _ Nj) Tf Tt C Iv Vn) as (Ids & k & Nk & ->).
    exists (g_slot gt), (prim_ty b), (enum_values evs), td, arms, k. split; [exact K|]. split; [exact Nk|]. split.
    + destruct parts as (_ & _ & W & _). apply (tag_at gs 0 xs j gt (prim_ty b)); auto. rewrite Nxt. congruence.
    + eapply union_arm; eauto.
  - unfold value_of in V1. rewrite T, L in V1. discriminate V1.
Qed.
Lemma filled_typed : typed 8190 (TreeTable gs xs) (FUOffset FTable).
Proof.
  apply typed_table. split; [reflexivity|]. split.
  - exists fl, snake, hg, fs. split; [exact F|]. split; [exact Ok|]. split; [exact Lf|exact G].
  - apply nth_Forall2; [congruence|]. intros i g y Ng Nx. destruct (at_index i g Ng) as (f & y' & Nf & Nx'). assert (y' = y) by congruence. subst y'.
    pose proof (At i f g y Nf Ng Nx) as [x1 ft1 T1 L1 U E Gy|id1 x1 q1 e1 vs1 v1 T1 L1 Tf Iv Ev Gy Ft|u1 id1 x1 e1 evs1 b1 n T1 L1 Tf1 C1 Vn Ey|V1 R1 ->].
    + pose proof (plain_kind _ _ _ _ (gen_at _ _ _ Nf Ng) U E) as K. destruct Gy as (_ & Ty & _). unfold typed_field.
      destruct (g_kind g); [subst; exact Ty|subst; exact Ty|subst; right; exact Ty|destruct K].
    + destruct (union_tag i f g y id1 x1 q1 e1 vs1 v1 Nf Ng Nx L1 Tf Iv Ev Ft) as (tslot & b & tvs & td & arms & k & K & _ & Tg & Fa).
      unfold typed_field. rewrite K. right. exists (Z.of_nat k + 1), FTable. split; [exact Tg|]. split; [exact Fa|apply Gy].
    + pose proof (gen_at _ _ _ Nf Ng) as Gg. apply field_kinds in Gg as [_ Gg]. rewrite Tf1 in Gg. destruct Gg as (d & K & _ & C).
      unfold typed_field. rewrite K, Ey. eapply variant_typed; eauto.
    + eapply left_out_typed; eauto.
Qed.
Lemma filled_all_required : all_required_given (TreeTable gs xs) = true <-> complete fl snake root (DTable given) (ICustom q KTable).
Proof.
  cbn [all_required_given]. rewrite andb_true_iff, table_complete, (required_given_nth gs xs Lx), forallb_forall.
  assert (Idx : forall f, In f fs -> exists i g y, nth_error fs i = Some f /\ nth_error gs i = Some g /\ nth_error xs i = Some y).
  { intros f I. apply In_nth_error in I as (i & Nf). assert (L : (i < length fs)%nat) by (apply nth_error_Some; congruence). destruct parts as (_ & _ & _ & Lg).
    destruct (nth_error gs i) as [g|] eqn:Ng; [|apply nth_error_None in Ng; lia]. destruct (nth_error xs i) as [y|] eqn:Nx; [|apply nth_error_None in Nx; lia]. eauto 6. }
  split; intros [H1 H2]; split.
  - intros f I. destruct (Idx f I) as (i & g & y & Nf & Ng & Nx). apply (filled_stored i f g y); eauto.
  - intros f I. destruct (Idx f I) as (i & g & y & Nf & Ng & Nx). apply (filled_required i f g y); eauto. apply H2. eapply nth_error_In; exact Nx.
  - intros i g y Ng Nx. destruct (at_index i g Ng) as (f & y' & Nf & Nx'). assert (y' = y) by congruence. subst y'. apply (filled_stored i f g y); eauto. apply H1. eapply nth_error_In; exact Nf.
  - intros y I. apply In_nth_error in I as (i & Nx).
    assert (L : (i < length xs)%nat) by (apply nth_error_Some; congruence). destruct (nth_error gs i) as [g|] eqn:Ng; [|apply nth_error_None in Ng; lia].
    destruct (at_index i g Ng) as (f & y' & Nf & Nx'). assert (y' = y) by congruence. subst y'. apply (filled_required i f g y); eauto. apply H2. eapply nth_error_In; exact Nf.
Qed.
Lemma left_out_reads i f g hr D r : nth_error fs i = Some f -> nth_error gs i = Some g ->
  shows_all_field hr D r gs xs g (left_out g) -> exists r', gen_get hr D r g = Val r' /\ reads_left_out fl f r'.
Proof.
  intros Nf Ng S. pose proof (gen_at _ _ _ Nf Ng) as Gg. apply field_kinds in Gg as [_ Gg]. unfold shows_all_field in S.
  unfold left_out, default_arg in S. unfold reads_left_out.
  destruct (if_ty f) as [p| |ty|qf [|fs'|evs b|e uvs]].
  - destruct Gg as (d & K & Ed). rewrite K in S. destruct S as [[_ S]|(w & S & Gw)]; [discriminate S|]. exists (Some (GPlain w)). split; [exact Gw|].
    apply get_shape in Gw. rewrite K in Gw. destruct Gw as (v & Gw). injection Gw as ->. cbn [shows_all] in S.
    destruct S as [S|(u & S & Su)]; [discriminate S|]. injection S as <-.
    destruct (if_default f) as [[c|id]|]; [|destruct Ed|].
    + destruct Ed as [Ed Nn]. destruct d as [d|]; [|congruence]. eauto 6.
    + subst d. eauto.
  - destruct Gg as (_ & ft & _ & K). rewrite K in S. destruct S as [[S _]|(w & S & _)]; [eauto|destruct S].
  - destruct Gg as (_ & ft & _ & K). rewrite K in S. destruct S as [[S _]|(w & S & _)]; [eauto|destruct S].
  - destruct Gg as (_ & ft & _ & K). rewrite K in S. destruct S as [[S _]|(w & S & _)]; [eauto|destruct S].
  - destruct Gg.
  - destruct Gg as (d & K & Ed & C). rewrite K in S. destruct S as [[_ S]|(w & S & Gw)]; [discriminate S|]. exists (Some (GPlain w)). split; [exact Gw|].
    apply get_shape in Gw. rewrite K in Gw. destruct Gw as (v & Gw). injection Gw as ->. cbn [shows_all] in S.
    destruct S as [S|(u & S & _)]; [|discriminate S]. injection S as ->.
    destruct (if_default f) as [[c|id]|]; cbn [enum_default] in Ed; [discriminate Ed| |].
    + destruct (variant_value evs id) as [n|] eqn:Vn; [|discriminate Ed]. injection Ed as <-. apply variant_numbered in Vn as (k & v & Nk & Ev & ->). eauto.
    + injection Ed as <-. apply enum_fine in C. destruct evs as [|v evs]; [destruct (fe_some _ _ C); reflexivity|]. exists v. split; reflexivity.
  - destruct Gg as (tslot & j & tf & evs & b & td & arms & K & _). rewrite K in S. destruct S as [[S _]|(w & S & _)]; [eauto|destruct S].
Qed.
Lemma filled_reads hr D w : shape (FUOffset FTable) w -> shows_all hr D (TreeTable gs xs) w -> reads fl snake root hg hr D (DTable given) (ICustom q KTable) (GPlain w).
Proof.
  intros _ S. apply shows_all_table in S as (loc & -> & Bey & S). cbn [reads]. exists fs, gs, loc. split; [exists path, tb; auto|]. split; [exact G|]. split; [reflexivity|].
  assert (Field : forall i f g, nth_error fs i = Some f -> nth_error gs i = Some g -> exists y, nth_error xs i = Some y /\ filled f g y /\ shows_all_field hr D loc gs xs g y).
  { intros i f g Nf Ng. destruct (at_index i g Ng) as (f' & y & _ & Nx). exists y. split; [exact Nx|]. split; [eauto|]. exact (Forall2_nth _ _ _ S i g y Ng Nx). }
  assert (Gs : forall i f, nth_error fs i = Some f -> exists g, nth_error gs i = Some g).
  { intros i f Nf. destruct parts as (_ & Gf & _). destruct (gen_fields_back _ _ _ _ _ _ _ _ _ Gf Nf) as (g & Ng & _). eauto. }
  split; [|split; [|split]].
  - assert (Sub : forall n x, In (n, x) given -> exists i f g w, nth_error fs i = Some f /\ if_id f = n /\ nth_error gs i = Some g /\
                  gen_get hr D loc g = Val (Some w) /\ reads fl snake root hg hr D x (if_ty f) w).
    { intros n x I. destruct (Each n x I) as (f & If & En & T & Fx). pose proof (In_lookup given n x Nd I) as L. rewrite <- En in L.
      apply In_nth_error in If as (i & Nf). destruct (Gs i f Nf) as (g & Ng). destruct (Field i f g Nf Ng) as (y & Nx & Fl & Sf).
      exists i, f, g. unfold shows_all_field in Sf.
      destruct Fl as [x1 ft1 T1 L1 U E Gy|id1 x1 q1 e1 vs1 v1 T1 L1 Tf Iv Ev Gy Ft|u1 id1 x1 e1 evs1 b1 n1 T1 L1 Tf1 C1 Vn Ey|V1 R1 Ey].
      - assert (x1 = x) by congruence. subst x1. pose proof (plain_kind _ _ _ _ (gen_at _ _ _ Nf Ng) U E) as K. destruct Gy as (_ & Ty & _ & Rd).
        destruct Sf as [[_ ->]|(w & Sy & Gw)]; [destruct Ty|]. pose proof (get_shape _ _ _ _ _ Gw) as Sh. unfold kind_shape in Sh.
        exists (GPlain w). destruct (g_kind g) as [t d|t vs d|t|tslot b tvs td arms]; [| | |destruct K];
          (split; [exact Nf|]; split; [exact En|]; split; [exact Ng|]; split; [exact Gw|]; apply Rd; [subst ft1|exact Sy]).
        + destruct Sh as (v & Sh). injection Sh as ->. cbn [shape]. eauto.
        + destruct Sh as (v & Sh). injection Sh as ->. cbn [shape]. eauto.
        + destruct Sh as (w' & Sh & Q). injection Sh as <-. exact Q.
      - assert (x = DVariant id1 x1) by congruence. subst x.
        destruct (union_tag i f g y id1 x1 q1 e1 vs1 v1 Nf Ng Nx L1 Tf Iv Ev Ft) as (tslot & b & tvs & td & arms & k & K & Nk & Tg & Fa).
        destruct Gy as (_ & Ty & _ & Rd). rewrite K, Tg in Sf. destruct Sf as [[_ ->]|(w & Sy & Gw)]; [destruct Ty|].
        exists (GVariant (Z.of_nat k + 1) w). split; [exact Nf|]. split; [exact En|]. split; [exact Ng|]. split; [exact Gw|]. rewrite Tf. cbn [reads].
        exists k, v1, w. split; [exact Nk|]. split; [exact Ev|]. split; [reflexivity|]. apply Rd; [|exact Sy].
        apply get_shape in Gw. rewrite K in Gw. destruct Gw as (n' & w' & t & E' & Fa' & Sh). injection E' as <- <-. rewrite Fa in Fa'. injection Fa' as <-. exact Sh.
      - congruence.
      - unfold value_of in V1. rewrite T, L in V1. discriminate V1. }
    clear - Sub. induction given as [|[n x] l IHl]; [exact Logic.I|]. split; [apply Sub; left; reflexivity|]. apply IHl. intros n' x' I. apply Sub. right. exact I.
  - intros i f g u id y0 Nf Ng T L. destruct (Field i f g Nf Ng) as (y & Nx & Fl & Sf). unfold shows_all_field in Sf.
    destruct Fl as [x1 ft1 T1 L1 U E Gy|id1 x1 q1 e1 vs1 v1 T1 L1 Tf Iv Ev Gy Ft|u1 id1 x1 e1 evs1 b1 n1 T1 L1 Tf1 C1 Vn Ey|V1 R1 Ey].
    + congruence.
    + congruence.
    + assert (u1 = u) by congruence. subst u1. assert (id1 = id) by congruence. subst id1. pose proof (gen_at _ _ _ Nf Ng) as Gg. apply field_kinds in Gg as [_ Gg]. rewrite Tf1 in Gg.
      destruct Gg as (d & K & _ & _). rewrite K in Sf. destruct Sf as [[_ Sf]|(w & Sy & Gw)]; [congruence|].
      apply variant_numbered in Vn as (k & v & Nk & Ev & ->). exists e1, evs1, b1, k, v. split; [exact Tf1|]. split; [exact Nk|]. split; [exact Ev|].
      pose proof (get_shape _ _ _ _ _ Gw) as Sh. rewrite K in Sh. destruct Sh as (v' & Sh). injection Sh as ->. rewrite Gw. rewrite Ey in Sy. cbn [shows_all] in Sy.
      destruct Sy as [Sy|(u' & Sy & _)]; congruence.
    + unfold value_of in V1. rewrite T, L in V1. discriminate V1.
  - intros i f g Nf Ng V. destruct (Field i f g Nf Ng) as (y & Nx & Fl & Sf).
    destruct Fl as [x1 ft1 T1 L1 U E Gy|id1 x1 q1 e1 vs1 v1 T1 L1 Tf Iv Ev Gy Ft|u1 id1 x1 e1 evs1 b1 n1 T1 L1 Tf1 C1 Vn Ey|V1 R1 Ey];
      try (unfold value_of in V; rewrite T1, L1 in V; discriminate V). subst y. eapply left_out_reads; eauto.
  - intros i t fd Hi. apply Bey. destruct parts as (_ & _ & _ & Lg). unfold blen in *. lia.
Qed.
End Filled.

Lemma table_good : exists y, good (DTable given) (ICustom q KTable) (FUOffset FTable) y.
Proof.
  destruct (all_some_Forall2 (fun p => arg (fst p) (snd p)) (fun p y => filled (fst p) (snd p) y) (combine fs gs)) as (xs & E & A).
  { intros [f g] I. apply combine_In in I as (i & Nf & Ng). cbn [fst snd]. eapply arg_filled; eauto. }
  destruct parts as (_ & _ & _ & Lg).
  assert (Lx : length xs = length gs).
  { assert (Ln : length (combine fs gs) = length xs) by (clear - A; induction A; cbn [length]; congruence). rewrite combine_length in Ln. lia. }
  assert (At : forall i f g y, nth_error fs i = Some f -> nth_error gs i = Some g -> nth_error xs i = Some y -> filled f g y).
  { intros i f g y Nf Ng Nx. destruct (Forall2_nth _ _ _ A i (f, g) y (combine_nth _ _ _ _ _ Nf Ng) Nx) as [_ Q]. exact Q. }
  exists (TreeTable gs xs). split; [|split; [|split]].
  - cbn [calls_for]. rewrite (fields_found snake es root q fs B (ex_intro _ path (ex_intro _ tb (conj It (conj Eq Ef))))), G.
    unfold arg in E. rewrite E. reflexivity.
  - apply filled_typed; assumption.
  - apply filled_all_required; assumption.
  - intros hr D w. apply filled_reads; assumption.
Qed.
End Table.
End Write.

(** Schemas that grow: what they resolve to. *)
From Coq Require Import Strings.String ZArith List Bool Lia Strings.Byte Permutation.
From Verif Require Import Base BaseFacts Schema Ident Reader Codegen GenProofs1 GenProofs8 Resolve SpecResolve SpecEvolve
  ResolveProofs1 ResolveProofs2 ResolveProofs3 ResolveProofs4 ResolveProofs5 ResolveProofs6 ResolveProofs7 ResolveProofs8 ResolveProofs9.
Import ListNotations.
Local Open Scope list_scope.
Local Open Scope nat_scope.

(** ** Sizes, for induction *)
Fixpoint ty_size (t : ity) : nat :=
  match t with IPrim _ | IString => 0 | IArray t => S (ty_size t) | ICustom _ c => S (kind_size c) end
with kind_size (c : icustom) : nat :=
  match c with
  | KTable | KEnum _ _ => 0
  | KStruct fs => S (list_sum (map field_size fs))
  | KUnion _ vs => S (list_sum (map variant_size vs))
  end
with field_size (f : ifield) : nat := match f with IField _ t _ _ _ => S (ty_size t) end
with variant_size (v : iunionv) : nat := match v with IUnionV t _ _ => S (ty_size t) end.

Lemma sum_cons {A} (f : A -> nat) x l : list_sum (map f (x :: l)) = f x + list_sum (map f l).
Proof. reflexivity. Qed.

Section Facts.
Context (snake : text -> text).

(** When declarations stay. *)
Lemma one_settled es p : one_namespace p es -> settled es.
Proof. intros [L W] i e N Ns. right. rewrite L. eapply W; eauto. Qed.
Lemma before_settled es : declared_before_use es -> settled es.
Proof. intros B i e N _. left. exact (before_use_stays es B (S i) i e ltac:(lia) N). Qed.
Lemma mentioned_settled es root path n q c : settled es -> build snake es = Done root -> In (path, n) (all_contents root) -> In (q, c) (mentions n) ->
  In (q, c) (defined root).
Proof.
  intros S B I M. destruct (mentioned snake es root path n q c B I M) as [K|(_ & j & t & N & _ & Ns & Ne)]; [exact K|].
  destruct (S j _ N eq_refl); tauto.
Qed.

(** Then roots are named from where they are written. *)
Lemma run_roots es st' q : run snake es st' -> settled es -> roots_of (r_roots st') q = true ->
  exists i e, nth_error es i = Some e /\ says_root (written_prefix es i) e q.
Proof.
  intros U B R. apply roots_of_In in R. destruct (tries_roots snake _ _ _ (run_tries snake es st' U) q R) as [[]|(a & i & e & ok & b & s & E & Ta & S)].
  destruct (run_prefix snake _ _ U _ _ _ _ _ _ E Ta) as (N & [[Q _]|[Q [I Ns]]]); exists i, e; (split; [exact N|]); [rewrite <- Q; exact S|].
  destruct (B i e N Ns) as [St|Eq]; [apply (first_stays snake es st' U i e false I) in St; discriminate St|]. rewrite Eq, <- Q. exact S.
Qed.
(** What a settled schema resolves to. *)
Lemma settled_declares es root : settled es -> build snake es = Done root -> exists roots outs,
  (forall i e, nth_error es i = Some e -> is_namespace e = false -> exists out, nth_error outs i = Some out /\
     declares snake roots (fun q c => In (q, c) (defined root)) (written_prefix es i) e out) /\
  (forall i out, nth_error outs i = Some out -> out <> [] -> exists e, nth_error es i = Some e /\ is_namespace e = false) /\
  Permutation (all_contents root) (map (fun n => (module_of n, n)) (concat outs)) /\
  (forall q, roots q = true <-> exists i e, nth_error es i = Some e /\ says_root (written_prefix es i) e q).
Proof.
  intros S B. apply build_run in B as (st' & (U & _) & Er). destruct (run_resolution snake es st' U) as (place & outs & R & E & _ & W).
  assert (Nu : forall path, nodes_under path root = filter (fun n => qident_eqb (module_of n) path) (concat outs)).
  { subst root. intros path. rewrite E. apply arrange_under. apply Forall_concat. apply Forall_forall. intros out I. apply In_nth_error in I as (i & N).
    assert (L : i < length es) by (rewrite <- (res_length _ _ _ _ _ R); apply nth_error_Some; congruence).
    destruct (nth_error es i) as [e|] eqn:Ne; [|apply nth_error_None in Ne; lia]. destruct (res_declares _ _ _ _ _ R i e Ne) as (out' & No & D).
    assert (out' = out) by congruence. subst. eapply declares_plain; eauto. }
  pose proof (contents_perm _ _ Nu) as P.
  assert (Pl : forall i e, nth_error es i = Some e -> is_namespace e = false -> place i = written_prefix es i).
  { intros i e N Ns. destruct (proj2 W i) as [[_ Q]|[Nst Q]]; [apply nth_error_Some; congruence|exact Q|]. destruct (S i e N Ns); [tauto|congruence]. }
  exists (roots_of (r_roots st')), outs. split; [|split; [|split; [exact P|]]].
  - intros i e N Ns. destruct (res_declares _ _ _ _ _ R i e N) as (out & No & D). exists out. split; [exact No|]. rewrite <- (Pl i e N Ns).
    eapply declares_mono; [|exact D]. intros q c [K|K]; [apply (defined_In _ _ _ P); exact K|].
    assert (M : moved es place q) by (destruct e; tauto). destruct M as (j & t & Nj & _ & M). exfalso. apply M. exact (Pl j _ Nj eq_refl).
  - intros i out No Ne. assert (L : i < length es) by (rewrite <- (res_length _ _ _ _ _ R); apply nth_error_Some; congruence).
    destruct (nth_error es i) as [e|] eqn:N; [|apply nth_error_None in N; lia]. exists e. split; [reflexivity|].
    destruct (is_namespace e) eqn:Ns; [|reflexivity]. destruct e; try discriminate Ns. destruct (res_declares _ _ _ _ _ R i _ N) as (o & No' & D).
    inversion D; subst. congruence.
  - intros q. split.
    + intros T. eapply run_roots; eauto.
    + intros (i & e & N & Sr). assert (Ns : is_namespace e = false) by (destruct e; try reflexivity; destruct Sr). rewrite <- (Pl i e N Ns) in Sr.
      eapply (res_marked _ _ _ _ _ R); eauto.
Qed.

Lemma grows_names p e e' : grows e e' -> declared_names p e' = declared_names p e.
Proof. destruct 1; reflexivity. Qed.
Lemma grows_namespace e e' : grows e e' -> is_namespace e' = is_namespace e.
Proof. destruct 1; reflexivity. Qed.
Lemma grows_root p e e' q : grows e e' -> says_root p e q -> says_root p e' q.
Proof.
  destruct 1; auto. cbn [says_root ar_methods]. intros (m0 & I & H). exists m0. split; [apply in_or_app; auto|exact H].
Qed.

(** ** Two views *)
Section Views.
Context (v1 v2 : qident -> icustom -> Prop).

Section Bounded.
Context (n : nat) (K : forall q c c', kind_size c < n -> v1 q c -> v2 q c' -> kind_grown c c').
Lemma resolves_bounded p t u : resolves v1 p t u -> ty_size u <= n -> forall u', resolves v2 p t u' -> ty_grown u u'.
Proof.
  induction 1 as [x| |t u R IH|q c V]; intros L u' R'; inversion R'; subst; try constructor.
  - apply IH; [cbn [ty_size] in L; lia|assumption].
  - eapply K; eauto.
Qed.
Lemma struct_bounded p fs l : struct_fields_of v1 p fs l -> list_sum (map field_size l) <= n -> forall l', struct_fields_of v2 p fs l' -> Forall2 field_grown l l'.
Proof.
  induction 1 as [|f fs ty l R Sc F IH]; intros L l' F'; inversion F'; subst; constructor.
  - constructor. eapply resolves_bounded; eauto. rewrite sum_cons in L. cbn [field_size variant_size] in L. lia.
  - apply IH; [rewrite sum_cons in L; lia|assumption].
Qed.
Lemma union_bounded p vs l : union_variants_of v1 p vs l -> list_sum (map variant_size l) <= n -> forall more l', union_variants_of v2 p (vs ++ more) l' ->
  exists l1 l2, l' = l1 ++ l2 /\ Forall2 variant_grown l l1.
Proof.
  induction 1 as [|v vs ty l R F IH]; intros L more l' F'.
  - exists [], l'. split; [reflexivity|constructor].
  - cbn [app] in F'. inversion F' as [|v0 vs0 ty' l0 R' F0]; subst. destruct (IH ltac:(rewrite sum_cons in L; lia) more l0 F0) as (l1 & l2 & -> & G).
    exists (IUnionV ty' (fix_identifier (av_id v)) (av_doc v) :: l1), l2. split; [reflexivity|]. constructor; [|exact G].
    constructor. eapply resolves_bounded; eauto. rewrite sum_cons in L. cbn [field_size variant_size] in L. lia.
Qed.
End Bounded.

Context (K : forall q c c', v1 q c -> v2 q c' -> kind_grown c c').
Lemma resolves_grown p t u u' : resolves v1 p t u -> resolves v2 p t u' -> ty_grown u u'.
Proof. intros R R'. eapply (resolves_bounded (ty_size u)); eauto. Qed.
Lemma union_grown p vs more l l' : union_variants_of v1 p vs l -> union_variants_of v2 p (vs ++ more) l' -> exists l1 l2, l' = l1 ++ l2 /\ Forall2 variant_grown l l1.
Proof. intros R R'. eapply (union_bounded (list_sum (map variant_size l))); eauto. Qed.
Lemma struct_grown p fs l l' : struct_fields_of v1 p fs l -> struct_fields_of v2 p fs l' -> Forall2 field_grown l l'.
Proof. intros R R'. eapply (struct_bounded (list_sum (map field_size l))); eauto. Qed.
Lemma grown_union t t' : ty_grown t t' -> is_union t' = is_union t.
Proof. destruct 1 as [| | |q c c' H]; try reflexivity. destruct H; reflexivity. Qed.
Lemma table_grown p fs l : table_fields_of snake v1 p fs l -> forall more l', table_fields_of snake v2 p (fs ++ more) l' ->
  exists l1 l2, l' = l1 ++ l2 /\ Forall2 field_grown l l1.
Proof.
  induction 1 as [|f fs ty l R Nu F IH|f fs q e vs c l R Ve F IH]; intros more l' F'.
  - exists [], l'. split; [reflexivity|constructor].
  - cbn [app] in F'. inversion F' as [|f0 fs0 ty' l0 R' Nu' F0|f0 fs0 q' e' vs' c' l0 R' Ve' F0]; subst.
    + destruct (IH more l0 F0) as (l1 & l2 & -> & G). pose proof (resolves_grown _ _ _ _ R R') as Tg.
      exists (IField (fix_identifier (af_id f)) ty' (default_of f) (required_of (af_meta f)) (af_doc f) :: l1), l2. split; [reflexivity|]. constructor; [constructor; exact Tg|exact G].
    + exfalso. pose proof (grown_union _ _ (resolves_grown _ _ _ _ R R')) as E. rewrite Nu in E. discriminate E.
  - cbn [app] in F'. inversion F' as [|f0 fs0 ty' l0 R' Nu' F0|f0 fs0 q' e' vs' c' l0 R' Ve' F0]; subst.
    + exfalso. pose proof (grown_union _ _ (resolves_grown _ _ _ _ R R')) as E. rewrite Nu' in E. discriminate E.
    + destruct (IH more l0 F0) as (l1 & l2 & -> & G). pose proof (resolves_grown _ _ _ _ R R') as Tg.
      assert (Ee : e' = e) by (inversion Tg as [| | |? ? ? Kg]; subst; inversion Kg; subst; reflexivity). subst e'.
      exists (IField (fix_identifier (snake (af_id f) ++ lit "_type")) (ICustom e c') None (required_of (af_meta f)) (af_doc f) ::
       IField (fix_identifier (af_id f)) (ICustom q' (KUnion e vs')) (default_of f) (required_of (af_meta f)) (af_doc f) :: l1), l2. split; [reflexivity|].
      constructor; [constructor; constructor; eapply K; eauto|]. constructor; [constructor; exact Tg|exact G].
Qed.
Lemma methods_grown p ms l : methods_of snake v1 p ms l -> forall more l', methods_of snake v2 p (ms ++ more) l' ->
  exists l2, l' = l ++ l2.
Proof.
  induction 1 as [|m ms s l Q1 Q2 St F IH]; intros more l' F'; [exists l'; reflexivity|].
  cbn [app] in F'. inversion F' as [|m0 ms0 s' l0 Q1' Q2' St' F0]; subst. destruct (IH more l0 F0) as (l2 & ->).
  rewrite <- (streaming_fun _ _ St _ St') in *. exists l2. reflexivity.
Qed.
End Views.

(** ** The definitions *)
Section Two.
Context (es1 es2 : list element) (r1 r2 : list node) (S1 : settled es1) (S2 : settled es2) (E : evolves es1 es2).
Context (B1 : build snake es1 = Done r1) (B2 : build snake es2 = Done r2).
Let v1 q c := In (q, c) (defined r1).
Let v2 q c := In (q, c) (defined r2).
Lemma F1 q c c' : v1 q c -> v1 q c' -> c = c'.
Proof. apply functional_of. eapply defined_once; eauto. Qed.
Lemma F2 q c c' : v2 q c -> v2 q c' -> c = c'.
Proof. apply functional_of. eapply defined_once; eauto. Qed.

(** Declarations and their definitions, side by side. *)
Lemma pairs : exists roots1 roots2, (forall q, roots1 q = true -> roots2 q = true) /\
  (forall q c, v1 q c -> exists p e e' out out', grows e e' /\ declares snake roots1 v1 p e out /\ declares snake roots2 v2 p e' out' /\ In (q, c) (definitions out) /\
     (forall q c, In (q, c) (definitions out') -> v2 q c)) /\
  (forall path n, In (path, n) (all_contents r1) -> path = module_of n /\ exists p e e' out out', grows e e' /\ declares snake roots1 v1 p e out /\ declares snake roots2 v2 p e' out' /\ In n out /\
     (forall n, In n out' -> In (module_of n, n) (all_contents r2))).
Proof.
  destruct (settled_declares es1 r1 S1 B1) as (roots1 & outs1 & D1 & Ne1 & P1 & M1). destruct (settled_declares es2 r2 S2 B2) as (roots2 & outs2 & D2 & Ne2 & P2 & M2).
  exists roots1, roots2. split.
  { intros q T. apply M1 in T as (i & e & N & Sr). apply M2. assert (Ns : is_namespace e = false) by (destruct e; try reflexivity; destruct Sr).
    destruct (E i e N Ns) as (j & e' & Nj & Gr & W). exists j, e'. split; [exact Nj|]. rewrite W. eapply grows_root; eauto. }
  assert (G : forall n, In n (concat outs1) -> exists p e e' out out', grows e e' /\ declares snake roots1 v1 p e out /\ declares snake roots2 v2 p e' out' /\ In n out /\ In out outs1 /\ In out' outs2).
  { intros n I. apply in_concat in I as (out & Io & I). apply In_nth_error in Io as (i & No). destruct (Ne1 i out No) as (e & N & Ns); [intros ->; destruct I|].
    destruct (D1 i e N Ns) as (o & No' & D). assert (o = out) by congruence. subst o. destruct (E i e N Ns) as (j & e' & Nj & Gr & W).
    destruct (D2 j e' Nj ltac:(rewrite (grows_namespace _ _ Gr); exact Ns)) as (out' & No2 & Dd). rewrite W in Dd.
    exists (written_prefix es1 i), e, e', out, out'. repeat split; auto; eapply nth_error_In; eauto. }
  split.
  - intros q c V. apply (defined_In _ _ _ P1) in V. unfold definitions in V. apply in_flat_map in V as (n & I & V).
    destruct (G n I) as (p & e & e' & out & out' & Gr & Da & Db & In1 & Io & Io'). exists p, e, e', out, out'. repeat split; auto.
    + unfold definitions. apply in_flat_map. eauto.
    + intros q' c' Q. apply (defined_In _ _ _ P2). eapply definitions_In; eauto.
  - intros path n I. apply (Permutation_in _ P1) in I. apply in_map_iff in I as (n' & Eq & I). injection Eq as <- <-. split; [reflexivity|].
    destruct (G n' I) as (p & e & e' & out & out' & Gr & Da & Db & In1 & Io & Io'). exists p, e, e', out, out'. repeat split; auto.
    intros m J. eapply in_contents; [exact P2|]. apply in_concat. eauto.
Qed.

(** A definition is still there. *)
Lemma still_defined q c : v1 q c -> exists c', v2 q c'.
Proof.
  intros V. destruct pairs as (ro1 & ro2 & _ & D & _). destruct (D q c V) as (p & e & e' & out & out' & Gr & D1 & D2 & I & O).
  assert (N : In q (declared_names p e)) by (eapply declares_name; eauto). rewrite <- (grows_names p _ _ Gr) in N.
  apply (declares_name _ _ _ _ _ _ _ D2) in N as (c' & I'). exists c'. apply O. exact I'.
Qed.
Lemma enum_more vs more : enum_variants_of (vs ++ more) = enum_variants_of vs ++ enum_variants_of more.
Proof. unfold enum_variants_of. apply map_app. Qed.
Lemma companion_more vs more : exists l, companion_of (vs ++ more) = companion_of vs ++ l.
Proof. unfold companion_of. rewrite map_app. eexists. reflexivity. Qed.
Lemma kind_same vs b : kind_grown (KEnum vs b) (KEnum vs b).
Proof. rewrite <- (app_nil_r vs) at 2. constructor. Qed.
(** Kinds grow: by induction on the size of the old one. *)
Lemma kinds_bounded n : forall q c c', kind_size c < n -> v1 q c -> v2 q c' -> kind_grown c c'.
Proof.
  induction n as [|n IH]; intros q c c' L V V'; [lia|].
  destruct pairs as (ro1 & ro2 & _ & D & _). destruct (D q c V) as (p & e & e' & out & out' & Gr & D1 & D2 & I & O).
  assert (K : forall u, In (q, u) (definitions out') -> kind_grown c u -> kind_grown c c').
  { intros u J H. rewrite (F2 _ _ _ V' (O _ _ J)). exact H. }
  clear O V V'. destruct D1 as [q0 d|id Vt|t fs F|t fs F|en base Eb|u vs F|r ms F]; cbn [definitions flat_map defs_of app In] in I.
  - destruct I.
  - destruct I.
  - destruct I as [I|[]]. cbn [it_id] in I. injection I as <- <-. inversion Gr; subst; inversion D2; subst; (eapply K; [left; reflexivity|constructor]).
  - destruct I as [I|[]]. cbn [is_id is_fields] in I. injection I as <- <-. inversion Gr; subst. inversion D2 as [| | |t0 fs' F'| | |]; subst.
    eapply K; [left; reflexivity|]. constructor. cbn [kind_size] in L. eapply (struct_bounded v1 v2 n IH); eauto. lia.
  - destruct I as [I|[]]. cbn [ie_id ie_base ie_variants] in I. injection I as <- <-. inversion Gr; subst; inversion D2 as [| | | |e0 b0 Eb'| |]; subst;
      (eapply K; [left; reflexivity|]); cbn [ie_variants ie_base ae_variants ae_base] in *; replace b0 with base by congruence; [apply kind_same|].
    rewrite enum_more. constructor.
  - destruct I as [I|[I|[]]]; cbn [ie_id ie_base ie_variants iu_id iu_enum iu_variants] in I; injection I as <- <-.
    + inversion Gr; subst; inversion D2; subst; (eapply K; [left; reflexivity|]); cbn [ie_variants ie_base au_variants]; [apply kind_same|].
      destruct (companion_more vs0 more) as (l & ->). constructor.
    + cbn [kind_size] in L. inversion Gr; subst; inversion D2 as [| | | | |u0 l F'|]; subst; (eapply K; [right; left; reflexivity|]); cbn [iu_enum iu_variants au_variants au_id] in *.
      * rewrite <- (app_nil_r (au_variants u)) in F'. destruct (union_bounded v1 v2 n IH _ _ _ F ltac:(lia) _ _ F') as (l1 & l2 & -> & G). constructor. exact G.
      * destruct (union_bounded v1 v2 n IH _ _ _ F ltac:(lia) _ _ F') as (l1 & l2 & -> & G). constructor. exact G.
  - destruct I.
Qed.
Lemma kinds_grown q c c' : v1 q c -> v2 q c' -> kind_grown c c'.
Proof. eapply (kinds_bounded (S (kind_size c))). lia. Qed.

(** What becomes of the definitions. *)
Theorem grown path nd : In (path, nd) (all_contents r1) -> exists nd', In (path, nd') (all_contents r2) /\ node_grown nd nd'.
Proof.
  intros I. destruct pairs as (ro1 & ro2 & M & _ & D). destruct (D path nd I) as (-> & p & e & e' & out & out' & Gr & D1 & D2 & J & O). clear D I.
  assert (K : forall nd', In nd' out' -> module_of nd' = module_of nd -> node_grown nd nd' -> exists nd', In (module_of nd, nd') (all_contents r2) /\ node_grown nd nd').
  { intros nd' I' Q G. exists nd'. split; [rewrite <- Q; apply O; exact I'|exact G]. }
  clear O. destruct D1 as [q0 d|id Vt|t fs F|t fs F|en base Eb|u vs F|r ms F]; cbn [In] in J.
  - destruct J.
  - destruct J.
  - destruct J as [<-|[]]. inversion Gr; subst; inversion D2 as [| |t0 l F'| | | |]; subst; (eapply K; [left; reflexivity|reflexivity|]); cbn [ap_fields ap_id ap_doc] in *.
    + rewrite <- (app_nil_r (ap_fields t)) in F'. destruct (table_grown v1 v2 kinds_grown _ _ _ F _ _ F') as (l1 & l2 & -> & G). constructor; [exact G|apply M].
    + destruct (table_grown v1 v2 kinds_grown _ _ _ F _ _ F') as (l1 & l2 & -> & G). constructor; [exact G|apply M].
  - destruct J as [<-|[]]. inversion Gr; subst. inversion D2 as [| | |t0 fs' F'| | |]; subst. eapply K; [left; reflexivity|reflexivity|].
    constructor. eapply (struct_grown v1 v2 kinds_grown); eauto.
  - destruct J as [<-|[]]. inversion Gr; subst; inversion D2 as [| | | |e0 b0 Eb'| |]; subst; (eapply K; [left; reflexivity|reflexivity|]);
      cbn [ae_variants ae_base ae_doc ae_id] in *; replace b0 with base by congruence.
    + rewrite <- (app_nil_r (enum_variants_of (ae_variants en))) at 2. constructor.
    + rewrite enum_more. constructor.
  - destruct J as [<-|[<-|[]]].
    + inversion Gr; subst; inversion D2; subst; (eapply K; [left; reflexivity|reflexivity|]); cbn [au_variants au_id au_doc].
      * rewrite <- (app_nil_r (companion_of (au_variants u))) at 2. constructor.
      * destruct (companion_more vs0 more) as (l & ->). constructor.
    + inversion Gr; subst; inversion D2 as [| | | | |u0 l F'|]; subst; (eapply K; [right; left; reflexivity|reflexivity|]); cbn [au_variants au_id au_doc] in *.
      * rewrite <- (app_nil_r (au_variants u)) in F'. destruct (union_grown v1 v2 kinds_grown _ _ _ _ _ F F') as (l1 & l2 & -> & G). constructor. exact G.
      * destruct (union_grown v1 v2 kinds_grown _ _ _ _ _ F F') as (l1 & l2 & -> & G). constructor. exact G.
  - destruct J as [<-|[]]. inversion Gr; subst; inversion D2 as [| | | | | |r0 l F']; subst; (eapply K; [left; reflexivity|reflexivity|]); cbn [ar_methods ar_id ar_doc] in *.
    + rewrite <- (app_nil_r (ar_methods r)) in F'. destruct (methods_grown v1 v2 _ _ _ F _ _ F') as (l2 & ->). constructor.
    + destruct (methods_grown v1 v2 _ _ _ F _ _ F') as (l2 & ->). constructor.
Qed.
End Two.
End Facts.

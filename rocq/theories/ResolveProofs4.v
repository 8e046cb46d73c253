(** Schema resolution: the result of a run as a resolution; no crashes. *)
From Coq Require Import Strings.String ZArith List Bool Lia Strings.Byte Permutation Sorting.Sorted.
From Verif Require Import Base BaseFacts Schema Ident Codegen GenProofs1 GenProofs8 Resolve SpecResolve ResolveProofs1 ResolveProofs2 ResolveProofs3.
Import ListNotations.
Local Open Scope nat_scope.

Definition roots_of (l : list qident) (q : qident) : bool := existsb (qident_eqb q) l.
Lemma roots_of_In l q : roots_of l q = true <-> In q l.
Proof.
  unfold roots_of. rewrite existsb_exists. split.
  - intros (x & I & E). apply qident_eqb_eq in E. subst. exact I.
  - intros I. exists q. split; [exact I|apply qident_eqb_refl].
Qed.
Lemma definitions_mark roots l : definitions (map (mark_root roots) l) = definitions l.
Proof.
  unfold definitions. induction l as [|n l IH]; [reflexivity|]. cbn [map flat_map]. rewrite IH. f_equal.
  destruct n; try reflexivity. cbn [mark_root]. destruct (existsb _ _); reflexivity.
Qed.
Lemma concat_map_map {A B} (f : A -> B) l : concat (map (map f) l) = map f (concat l).
Proof. induction l as [|x l IH]; cbn [map concat]; [reflexivity|]. rewrite IH, map_app. reflexivity. Qed.

Section Facts.
Context (snake : text -> text).
Notation new_element := (new_element snake).
Notation passes := (passes snake).
Notation tries := (tries snake).

Lemma declares_mark roots v p e out : declares snake unmarked v p e out ->
  declares snake (roots_of roots) v p e (map (mark_root roots) out).
Proof.
  destruct 1; cbn [map mark_root it_id it_fields it_doc]; try (constructor; assumption).
  replace (if existsb _ roots then _ else _) with (NTable (ITable (local_name p (ap_id t)) fs (roots_of roots (local_name p (ap_id t))) (ap_doc t))); [constructor; assumption|].
  unfold roots_of, unmarked. destruct (existsb _ roots); reflexivity.
Qed.

(** ** Roots *)
Lemma methods_roots ms : forall st st' r, rpc_methods snake st ms = Done (st', r) -> forall q, In q (r_roots st') ->
  In q (r_roots st) \/ exists m, In m ms /\ (q = full_name (current_prefix st) (am_request m) \/ q = full_name (current_prefix st) (am_response m)).
Proof.
  induction ms as [|m ms IH]; intros st st' r H q I; cbn [rpc_methods] in H; [injection H as <- _; auto|].
  apply rbind_Done in H as ([s1 o1] & H1 & H). pose proof (root_grows _ _ _ _ H1) as G1. apply root_frame in H1 as (N1 & _ & _).
  destruct o1.
  2:{ injection H as <- _. apply G1 in I as [I|[I _]]; [auto|discriminate]. }
  apply rbind_Done in H as ([s2 o2] & H2 & H). pose proof (root_grows _ _ _ _ H2) as G2. apply root_frame in H2 as (N2 & _ & _).
  assert (I2 : In q (r_roots s2) \/ exists m', In m' ms /\ (q = full_name (current_prefix st) (am_request m') \/ q = full_name (current_prefix st) (am_response m'))).
  { destruct o2; [|injection H as <- _; auto]. apply rbind_Done in H as (s & _ & H). apply rbind_Done in H as ([s3 o3] & H3 & H). injection H as <- _.
    apply IH with (q := q) in H3; [|exact I]. replace (current_prefix s2) with (current_prefix st) in H3 by (rewrite !current_prefix_of; congruence). exact H3. }
  destruct I2 as [I2|(m' & Im & E)]; [|right; exists m'; cbn; auto].
  apply G2 in I2 as [I2|[_ ->]]; [|right; exists m; cbn; auto]. apply G1 in I2 as [I2|[_ ->]]; [auto|right; exists m; cbn; auto].
Qed.
Ltac nr := cbn; split; [auto|split; [auto|intros _ ? []]].
Lemma step_roots st pos e st' ok : new_element st (pos, e) = Done (st', ok) ->
  (forall q, In q (r_roots st') -> In q (r_roots st) \/ says_root (current_prefix st) e q) /\
  (forall q, In q (r_roots st) -> In q (r_roots st')) /\
  (ok = true -> forall q, says_root (current_prefix st) e q -> In q (r_roots st')).
Proof.
  intros H. destruct e as [q d|t|t|e|u|id|x d|x d|x|r|x d]; cbn [Resolve.new_element] in H; try discriminate H; cbn [says_root].
  - injection H as <- _. nr.
  - unfold new_table in H. apply rbind_Done in H as (u & _ & H). apply rbind_Done in H as ([fs|] & _ & H); injection H as <- _; nr.
  - unfold new_struct in H. apply rbind_Done in H as (u & _ & H). apply rbind_Done in H as ([fs|] & _ & H); injection H as <- _; nr.
  - unfold new_enum in H. apply rbind_Done in H as (u & _ & H). destruct (enum_base (ae_base e)); [|discriminate]. injection H as <- _. nr.
  - unfold new_union in H. apply rbind_Done in H as (u0 & _ & H). destruct (union_variants st (au_variants u)).
    + apply rbind_Done in H as (u1 & _ & H). injection H as <- _. nr.
    + injection H as <- _. nr.
  - unfold new_root in H. pose proof (root_grows _ _ _ _ H) as G. split; [|split].
    + intros q I. apply G in I as [I|[_ ->]]; [auto|]. right. reflexivity.
    + intros q I. apply G. auto.
    + intros -> q ->. apply G. right. auto.
  - unfold new_rpc in H. apply rbind_Done in H as ([s ms] & M & H). pose proof (methods_roots _ _ _ _ M) as R.
    assert (Mono : forall ms st st' r, rpc_methods snake st ms = Done (st', r) -> forall q, In q (r_roots st) -> In q (r_roots st')).
    { clear. induction ms as [|m ms IH]; intros st st' r H q I; cbn [rpc_methods] in H; [injection H as <- _; exact I|].
      apply rbind_Done in H as ([s1 o1] & H1 & H). assert (I1 : In q (r_roots s1)) by (apply (root_grows _ _ _ _ H1); auto).
      destruct o1; [|injection H as <- _; exact I1].
      apply rbind_Done in H as ([s2 o2] & H2 & H). assert (I2 : In q (r_roots s2)) by (apply (root_grows _ _ _ _ H2); auto).
      destruct o2; [|injection H as <- _; exact I2].
      apply rbind_Done in H as (s & _ & H). apply rbind_Done in H as ([s3 o3] & H3 & H). injection H as <- _. eauto. }
    specialize (Mono _ _ _ _ M). destruct ms as [ms|]; injection H as <- <-.
    + cbn [set_nodes r_roots]. split; [exact R|]. split; [exact Mono|]. intros _ q (m & Im & E).
      apply methods_spec in M as [_ M]. destruct (M m Im) as [A B]. destruct E as [->| ->]; assumption.
    + split; [exact R|]. split; [exact Mono|discriminate].
Qed.
Lemma tries_roots st l st' : tries st l st' -> forall q, In q (r_roots st') -> In q (r_roots st) \/
  exists a i e ok b s, l = a ++ ((i, e), ok) :: b /\ tries st a s /\ says_root (current_prefix s) e q.
Proof.
  induction 1 as [|st [pos e] ok st1 l st2 H T IH]; intros q I; [auto|]. destruct (IH q I) as [J|(a & i & f & o & b & s & -> & Ta & R)].
  - apply step_roots in H as (G & _). destruct (G q J) as [K|K]; [auto|]. right. exists [], pos, e, ok, l, st. split; [reflexivity|]. split; [constructor|exact K].
  - right. exists (((pos, e), ok) :: a), i, f, o, b, s. split; [reflexivity|]. split; [econstructor; eauto|exact R].
Qed.
Lemma tries_roots_grow st l st' : tries st l st' -> forall q, In q (r_roots st) -> In q (r_roots st').
Proof. induction 1 as [|st [pos e] ok st1 l st2 H T IH]; intros q I; [auto|]. apply step_roots in H as (_ & G & _). auto. Qed.

(** ** The result of a run *)
Lemma lookup_view st e q c : view_of (lookup_state st e) q c ->
  view_of st q c \/ exists t, e = ETable t /\ q = local_name (current_prefix st) (ap_id t) /\ c = KTable.
Proof.
  destruct e; cbn [lookup_state]; auto. unfold view_of.
  destruct (qident_dec (local_name (current_prefix st) (ap_id t)) q) as [<-|N].
  - rewrite !tget_same. intros [E|[_ ->]]; [discriminate|]. right. eauto.
  - rewrite !tget_other by exact N. auto.
Qed.

(** Everything succeeds at once if all it needs is defined. *)
Lemma try_known st t : (forall r, In r (ty_refs t) -> exists c, tget (r_types st) (full_name (current_prefix st) r) = Some c) -> try_type st t <> None.
Proof.
  induction t as [p| |t IH|q]; intros K; cbn [try_type ty_refs] in *; try discriminate.
  - destruct (try_type st t); [discriminate|]. exfalso. apply IH; auto.
  - destruct (K q (or_introl eq_refl)) as (c & E). rewrite qualify_q_full. unfold find_custom_type. rewrite E. destruct c; discriminate.
Qed.
Lemma table_fields_known st fs :
  (forall r, In r (flat_map (fun f => ty_refs (af_ty f)) fs) -> exists c, tget (r_types st) (full_name (current_prefix st) r) = Some c) ->
  table_fields snake st fs <> Done None.
Proof.
  induction fs as [|f fs IH]; intros K; cbn [table_fields]; [discriminate|]. cbn [flat_map] in K.
  pose proof (try_known st (af_ty f)) as T. destruct (try_type st (af_ty f)) as [ty|]; [|exfalso; apply T; [intros r I; apply K; apply in_or_app; auto|reflexivity]].
  intros H. apply rbind_Done in H as (x & _ & H). apply rbind_Done in H as ([y|] & H0 & H); [discriminate|]. apply IH in H0; [auto|]. intros r I. apply K. apply in_or_app. auto.
Qed.
Lemma struct_fields_known st q fs :
  (forall r, In r (flat_map (fun f => ty_refs (af_ty f)) fs) -> exists c, tget (r_types st) (full_name (current_prefix st) r) = Some c) ->
  struct_fields st q fs <> Done None.
Proof.
  induction fs as [|f fs IH]; intros K; cbn [struct_fields]; [discriminate|]. cbn [flat_map] in K.
  pose proof (try_known st (af_ty f)) as T. destruct (try_type st (af_ty f)) as [ty|]; [|exfalso; apply T; [intros r I; apply K; apply in_or_app; auto|reflexivity]].
  destruct (is_scalar ty); [|discriminate].
  intros H. apply rbind_Done in H as ([y|] & H0 & H); [discriminate|]. apply IH in H0; [auto|]. intros r I. apply K. apply in_or_app. auto.
Qed.
Lemma union_variants_known st vs :
  (forall r, In r (map (fun v => [av_id v]) vs) -> exists c, tget (r_types st) (full_name (current_prefix st) r) = Some c) -> union_variants st vs <> None.
Proof.
  induction vs as [|v vs IH]; intros K; cbn [union_variants]; [discriminate|]. cbn [map] in K.
  pose proof (try_known st (AIdent [av_id v])) as T. destruct (try_type st (AIdent [av_id v])) as [ty|].
  - assert (Q : union_variants st vs <> None) by (apply IH; intros r I; apply K; right; exact I). destruct (union_variants st vs); [discriminate|congruence].
  - exfalso. apply T; [|reflexivity]. intros r [<-|[]]. apply K. left. reflexivity.
Qed.
Lemma root_known st q c : tget (r_types st) q = Some (Defined c) -> forall st', new_root_ident st q <> Done (st', false).
Proof. intros E st'. unfold new_root_ident. rewrite E. destruct c; discriminate. Qed.
Lemma methods_known ms : forall st,
  (forall r, In r (flat_map (fun m => [am_request m; am_response m]) ms) -> exists c, tget (r_types st) (full_name (current_prefix st) r) = Some (Defined c)) ->
  forall st', rpc_methods snake st ms <> Done (st', None).
Proof.
  induction ms as [|m ms IH]; intros st K st' H; cbn [rpc_methods] in H; [discriminate|]. cbn [flat_map app] in K.
  apply rbind_Done in H as ([s1 o1] & H1 & H). pose proof (root_frame _ _ _ _ H1) as (N1 & T1 & _).
  destruct (K (am_request m)) as (c1 & K1); [cbn; auto|]. rewrite <- qualify_q_full in K1. destruct o1; [|eapply root_known; eauto].
  apply rbind_Done in H as ([s2 o2] & H2 & H). pose proof (root_frame _ _ _ _ H2) as (N2 & T2 & _).
  destruct (K (am_response m)) as (c2 & K2); [cbn; auto|]. rewrite <- qualify_q_full, <- T1 in K2. destruct o2; [|eapply root_known; eauto].
  apply rbind_Done in H as (s & _ & H). apply rbind_Done in H as ([s3 [y|]] & H3 & H); [discriminate|]. eapply IH; [|exact H3].
  intros r I. rewrite T2, T1. replace (current_prefix s2) with (current_prefix st) by (rewrite !current_prefix_of; congruence). apply K. cbn [In]. auto.
Qed.
Lemma step_known st pos e : (forall r, In r (refs e) ->
    (exists c, tget (r_types st) (full_name (current_prefix st) r) = Some (Defined c)) \/
    (match e with ERoot _ | ERpc _ => False | _ => True end /\ tget (r_types st) (full_name (current_prefix st) r) = Some TableDeclared) \/
    exists t, e = ETable t /\ full_name (current_prefix st) r = local_name (current_prefix st) (ap_id t)) ->
  forall st', new_element st (pos, e) <> Done (st', false).
Proof.
  intros K st' H. destruct e as [q d|t|t|e|u|id|x d|x d|x|r|x d]; cbn [Resolve.new_element] in H; try discriminate H; cbn [refs] in K.
  - unfold new_table in H. apply rbind_Done in H as (u & _ & H). apply rbind_Done in H as ([fs|] & Hf & H); [discriminate H|].
    revert Hf. apply table_fields_known. intros r I. change (current_prefix (set_type st (qualify st (ap_id t)) TableDeclared)) with (current_prefix st).
    destruct (qident_dec (qualify st (ap_id t)) (full_name (current_prefix st) r)) as [E|N]; [rewrite <- E, tget_same; eauto|]. rewrite tget_other by exact N.
    destruct (K r I) as [(c & E)|[(_ & E)|(t0 & E & Q)]]; eauto. injection E as <-. exfalso. apply N. rewrite Q. reflexivity.
  - unfold new_struct in H. apply rbind_Done in H as (u & _ & H). apply rbind_Done in H as ([fs|] & Hf & H); [discriminate H|].
    revert Hf. apply struct_fields_known. intros r I. destruct (K r I) as [(c & E)|[(_ & E)|(t0 & E & Q)]]; eauto. discriminate.
  - unfold new_enum in H. apply rbind_Done in H as (u & _ & H). destruct (enum_base (ae_base e)); discriminate H.
  - unfold new_union in H. apply rbind_Done in H as (u0 & _ & H).
    assert (Q : union_variants st (au_variants u) <> None).
    { apply union_variants_known. intros r I. destruct (K r I) as [(c & E)|[(_ & E)|(t0 & E & Q)]]; eauto. discriminate. }
    destruct (union_variants st (au_variants u)); [|congruence]. apply rbind_Done in H as (u1 & _ & H). discriminate H.
  - unfold new_root in H. destruct (K [id] (or_introl eq_refl)) as [(c & E)|[([] & _)|(t0 & E & _)]]; [|discriminate E]. eapply root_known; [exact E|exact H].
  - unfold new_rpc in H. apply rbind_Done in H as ([s [ms|]] & M & H); [discriminate|]. revert M. apply methods_known. intros r0 I.
    destruct (K r0 I) as [(c & E)|[([] & _)|(t0 & E & _)]]; [eauto|discriminate E].
Qed.

(** The names a declaration declares. *)
Lemma declares_names v roots p e out : declares snake roots v p e out -> map fst (definitions out) = match e with EUnion u => rev (declared_names p e) | _ => declared_names p e end.
Proof. destruct 1; reflexivity. Qed.
Lemma declares_name v roots p e out q : declares snake roots v p e out -> In q (declared_names p e) <-> exists c, In (q, c) (definitions out).
Proof.
  intros D. apply declares_names in D. transitivity (In q (map fst (definitions out))).
  - rewrite D. destruct e; try reflexivity. rewrite <- in_rev. reflexivity.
  - rewrite in_map_iff. split; [intros ([q' c] & <- & I); exists c; exact I|]. intros (c & I). exists (q, c). auto.
Qed.
Lemma tries_uncons st pe ok l st2 : tries st ((pe, ok) :: l) st2 -> exists st1, new_element st pe = Done (st1, ok) /\ tries st1 l st2.
Proof. intros T. inversion T; subst. eauto. Qed.

(** Every reference of a declaration is looked up. *)
Lemma resolves_refs v p t u r : resolves v p t u -> In r (ty_refs t) -> exists c, v (full_name p r) c.
Proof. induction 1; cbn [ty_refs In]; intros I; try tauto. destruct I as [<-|[]]. eauto. Qed.
Lemma declares_refs roots v p e out r : declares snake roots v p e out -> In r (refs e) -> exists c, v (full_name p r) c.
Proof.
  intros D I. destruct D as [|id K|t fs F|t fs F|e base _|u vs F|m ms F]; cbn [refs In] in I; try tauto.
  - destruct I as [<-|[]]. eauto.
  - induction F as [|f fs ty l T N F IH|f fs q' e vs c' l T K F IH]; cbn [flat_map] in I; [destruct I|apply in_app_or in I as [I|I]; [eapply resolves_refs; eauto|auto]..].
  - induction F as [|f fs ty l T N F IH]; cbn [flat_map] in I; [destruct I|apply in_app_or in I as [I|I]; [eapply resolves_refs; eauto|auto]].
  - induction F as [|f fs ty l T F IH]; cbn [map In] in I; [destruct I|]. destruct I as [<-|I]; [eapply resolves_refs; [exact T|cbn; auto]|auto].
  - induction F as [|x ms s l K1 K2 S F IH]; cbn [flat_map app In] in I; [destruct I|]. destruct I as [<-|[<-|I]]; eauto.
Qed.

(** Where defined types come from. *)
Lemma tries_sources st l st' : tries st l st' -> forall q c, tget (r_types st') q = Some (Defined c) ->
  tget (r_types st) q = Some (Defined c) \/
  exists a i e b s, l = a ++ ((i, e), true) :: b /\ tries st a s /\ In q (declared_names (current_prefix s) e).
Proof.
  induction 1 as [|st [pos e] ok st1 l st2 H T IH]; intros q c Q; [auto|]. destruct (IH q c Q) as [D|(a & i & f & b & s & -> & Ta & Iq)].
  - destruct ok.
    + apply step_declares in H as (out & Dc & _ & Ty & _). apply Ty in D as [D|D]; [auto|]. right. exists [], pos, e, l, st. split; [reflexivity|]. split; [constructor|].
      apply (declares_name _ _ _ _ _ q Dc). eauto.
    + apply step_fails in H as (_ & _ & Ty & _). apply Ty in D. auto.
  - right. exists (((pos, e), ok) :: a), i, f, b, s. split; [reflexivity|]. split; [econstructor; eauto|exact Iq].
Qed.

Lemma step_known_some s pe s' ok q : new_element s pe = Done (s', ok) -> (exists c, tget (r_types s) q = Some c) -> exists c, tget (r_types s') q = Some c.
Proof.
  intros H (c & Q). destruct c as [|c]; [|exists (Defined c); apply step_keeps in H as [K _]; auto]. clear - H Q. destruct pe as [pos e].
  assert (Some' : forall s t u w, (u = t \/ exists c, tget (r_types s) u = Some c) -> exists c, tget (r_types (set_type s t w)) u = Some c).
  { intros s0 t u w K. destruct (qident_dec t u) as [->|N]; [rewrite tget_same; eauto|]. rewrite tget_other by exact N. destruct K; [congruence|assumption]. }
  assert (Q' : exists c, tget (r_types s) q = Some c) by eauto.
  destruct e as [x d|t|t|e|x|id|x d|x d|x|r|x d]; cbn [Resolve.new_element] in H; try discriminate H.
  - injection H as <- _. exact Q'.
  - unfold new_table in H. apply rbind_Done in H as (u0 & _ & H). apply rbind_Done in H as ([fs|] & _ & H); injection H as <- _; cbn [set_nodes r_types]; repeat (apply Some'; right); exact Q'.
  - unfold new_struct in H. apply rbind_Done in H as (u0 & _ & H). apply rbind_Done in H as ([fs|] & _ & H); injection H as <- _; cbn [set_nodes r_types]; repeat (apply Some'; right); exact Q'.
  - unfold new_enum in H. apply rbind_Done in H as (u0 & _ & H). destruct (enum_base (ae_base e)); [|discriminate]. injection H as <- _. cbn [set_nodes r_types]; repeat (apply Some'; right); exact Q'.
  - unfold new_union in H. apply rbind_Done in H as (u0 & _ & H). destruct (union_variants s (au_variants x)).
    + apply rbind_Done in H as (u1 & _ & H). injection H as <- _. cbn [set_nodes r_types]; repeat (apply Some'; right); exact Q'.
    + injection H as <- _. exact Q'.
  - unfold new_root in H. apply root_frame in H as (_ & -> & _). exact Q'.
  - unfold new_rpc in H. apply rbind_Done in H as ([s1 ms] & M & H). apply methods_frame in M as (_ & M & _). destruct ms; injection H as <- _; cbn [set_nodes r_types]; rewrite M; exact Q'.
Qed.

(** What stays is what succeeds in the first pass. *)
Lemma first_split es x i e y : indexed 0 es = x ++ (i, e) :: y -> prefix_of (namespace_after None (map snd x)) = written_prefix es i /\ i = length x.
Proof. intros E. apply indexed_split in E as [Ei M]. cbn [Nat.add] in Ei. split; [|exact Ei]. unfold written_prefix. rewrite M, Ei. reflexivity. Qed.
Lemma tries_known_some st l st' q : tries st l st' -> (exists c, tget (r_types st) q = Some c) -> exists c, tget (r_types st') q = Some c.
Proof. induction 1 as [|st pe ok st1 l st2 H T IH]; intros K; [exact K|]. apply IH. eapply step_known_some; eauto. Qed.
Section Start.
Context (es : list element) (l : list ((nat * element) * bool)) (sm : rstate) (Tl : tries initial l sm) (Ml : map fst l = indexed 0 es).
Lemma start_at  x i e ok y s : l = x ++ ((i, e), ok) :: y -> tries initial x s ->
  nth_error es i = Some e /\ i = length x /\ current_prefix s = written_prefix es i.
Proof.
  intros X Tx. pose proof Ml as A. rewrite X, map_app in A. cbn [map fst] in A. symmetry in A.
  assert (I : In (i, e) (indexed 0 es)) by (rewrite A; apply in_elt). apply indexed_nth in I as [_ I]. rewrite Nat.sub_0_r in I. split; [exact I|].
  apply first_split in A as [W L]. rewrite map_length in L. split; [exact L|]. rewrite current_prefix_of, (tries_namespace _ _ _ _ Tx). cbn [initial r_namespace].
  rewrite map_map in W. exact W.
Qed.
Lemma start_before  x i e ok y j e' : l = x ++ ((i, e), ok) :: y -> nth_error es j = Some e' -> j < i ->
  exists x1 ok' x2, x = x1 ++ ((j, e'), ok') :: x2.
Proof.
  intros X Nj L. pose proof Tl as T. rewrite X in T. apply tries_split in T as (s & Tx & _).
  destruct (start_at _ _ _ _ _ _ X Tx) as (_ & Li & _). destruct (nth_error x j) as [[[k f] ok']|] eqn:Q; [|apply nth_error_None in Q; lia].
  apply nth_error_split in Q as (x1 & x2 & E & Lj). exists x1, ok', x2. rewrite E in X, Tx. rewrite <- app_assoc in X. apply tries_split in Tx as (s1 & Tx1 & _).
  destruct (start_at _ _ _ _ _ _ X Tx1) as (Nk & Lk & _). assert (k = j) by lia. subst k. assert (f = e') by congruence. subst f. rewrite Lj in E. exact E.
Qed.
Lemma start_exact  : forall n x i e ok y, length x < n -> l = x ++ ((i, e), ok) :: y ->
  (ok = true <-> stays es i).
Proof.
  induction n as [|n IH]; intros x i e ok y L X; [lia|].
  pose proof Tl as T. rewrite X in T. apply tries_split in T as (s & Tx & T). apply tries_uncons in T as (s1 & H & _).
  destruct (start_at _ _ _ _ _ _ X Tx) as (Ni & Li & Pi).
  assert (IH' : forall x1 j e' ok' x2, x = x1 ++ ((j, e'), ok') :: x2 -> (ok' = true <-> stays es j) /\ j < i /\ nth_error es j = Some e' /\
    forall s2, tries initial x1 s2 -> current_prefix s2 = written_prefix es j).
  { intros x1 j e' ok' x2 E. pose proof X as X1. rewrite E, <- app_assoc in X1. cbn [app] in X1. rewrite E in Tx. apply tries_split in Tx as (s2 & Tx1 & _).
    destruct (start_at _ _ _ _ _ _ X1 Tx1) as (Nj & Lj & _). rewrite E, app_length in L, Li. cbn [length] in L, Li.
    split; [apply (IH x1 j e' ok' (x2 ++ ((i, e), ok) :: y)); [lia|exact X1]|]. split; [lia|]. split; [exact Nj|].
    intros s3 T3. apply (start_at _ _ _ _ _ _ X1 T3). }
  split.
  - intros ->. apply step_declares in H as (out & D & _). rewrite Pi in D. apply (stays_at es i e Ni). intros r Ir.
    destruct (declares_refs _ _ _ _ _ _ D Ir) as (c & V).
    assert (Df : tget (r_types s) (full_name (written_prefix es i) r) = Some (Defined c) -> exists j e', nth_error es j = Some e' /\
      In (full_name (written_prefix es i) r) (declared_names (written_prefix es j) e') /\ stays es j /\ j < i).
    { intros K. destruct (tries_sources _ _ _ Tx _ _ K) as [K0|(a & j & e' & b & s2 & E & Ta & Iq)]; [discriminate K0|].
      destruct (IH' _ _ _ _ _ E) as (S & Lj & Nj & P). rewrite (P _ Ta) in Iq. exists j, e'. split; [exact Nj|]. split; [exact Iq|]. split; [apply S; reflexivity|exact Lj]. }
    assert (Vw : view_of (lookup_state s e) (full_name (written_prefix es i) r) c -> needs_definition e = false -> exists j e', nth_error es j = Some e' /\
      In (full_name (written_prefix es i) r) (declared_names (written_prefix es j) e') /\
      (stays es j /\ j < i \/ needs_definition e = false /\ j <= i /\ exists t, e' = ETable t)).
    { intros V' Nd. apply lookup_view in V' as [[V'|[V' _]]|(t & -> & Q & _)].
      - destruct (Df V') as (j & e' & A & B & C & D'). exists j, e'. auto.
      - destruct (tries_declared _ _ _ _ Tx _ V') as [K0|(a & j & t & b & s2 & s3 & E & Ta & _ & Q)]; [discriminate K0|].
        destruct (IH' _ _ _ _ _ E) as (_ & Lj & Nj & P). rewrite (P _ Ta) in Q. exists j, (ETable t). split; [exact Nj|]. split; [rewrite Q; cbn; auto|].
        right. split; [exact Nd|]. split; [lia|eauto].
      - exists i, (ETable t). split; [exact Ni|]. rewrite Pi in Q. split; [rewrite Q; cbn; auto|]. right. split; [reflexivity|]. split; [lia|eauto]. }
    assert (Vd : tget (r_types s) (full_name (written_prefix es i) r) = Some (Defined c) -> exists j e', nth_error es j = Some e' /\
      In (full_name (written_prefix es i) r) (declared_names (written_prefix es j) e') /\
      (stays es j /\ j < i \/ needs_definition e = false /\ j <= i /\ exists t, e' = ETable t)).
    { intros K. destruct (Df K) as (j & e' & A & B & C & D'). exists j, e'. auto. }
    destruct e; cbn [view_for lookup_state needs_definition] in *; try (apply Vw; [exact V|reflexivity]); apply Vd; exact V.
  - intros S. destruct ok; [reflexivity|exfalso]. revert H. apply step_known. intros r Ir. rewrite Pi.
    inversion S as [i' e0 N0 K E0]. subst i'. assert (e0 = e) by congruence. subst e0. destruct (K r Ir) as (j & e' & Nj & Iq & [[Sj Lj]|(Nd & Lj & t & ->)]).
    + left. destruct (start_before _ _ _ _ _ _ _ X Nj Lj) as (x1 & ok' & x2 & E). destruct (IH' _ _ _ _ _ E) as (S' & _ & _ & P). apply S' in Sj. subst ok'.
      rewrite E in Tx. apply tries_split in Tx as (s2 & Tx1 & Tx2). apply tries_uncons in Tx2 as (s3 & H2 & Tx3).
      apply step_declares in H2 as (out & D & _ & Ty & _). rewrite (P _ Tx1) in D. pose proof (proj1 (declares_name _ _ _ _ _ _ D) Iq) as (c & Ic).
      exists c. eapply tries_keeps; [exact Tx3|]. apply Ty. auto.
    + cbn [declared_names] in Iq. destruct Iq as [Iq|[]]. destruct (Nat.eq_dec j i) as [->|Ne].
      * right. right. exists t. split; [congruence|]. congruence.
      * assert (Lt : j < i) by lia. destruct (start_before _ _ _ _ _ _ _ X Nj Lt) as (x1 & ok' & x2 & E). destruct (IH' _ _ _ _ _ E) as (_ & _ & _ & P).
        rewrite E in Tx. apply tries_split in Tx as (s2 & Tx1 & Tx2). apply tries_uncons in Tx2 as (s3 & H2 & Tx3).
        apply step_keeps in H2 as [_ K2]. specialize (K2 t eq_refl). rewrite (P _ Tx1), Iq in K2.
        destruct (tries_known_some _ _ _ _ Tx3 K2) as ([|c] & Q); [right; left|left; eauto]. split; [|exact Q]. destruct e; try discriminate Nd; exact Logic.I.
Qed.
End Start.
Lemma first_at es st' (U : run snake es st') x i e ok y s : u_first _ _ _ U = x ++ ((i, e), ok) :: y -> tries initial x s ->
  nth_error es i = Some e /\ i = length x /\ current_prefix s = written_prefix es i.
Proof. exact (start_at es _ (u_all _ _ _ U) x i e ok y s). Qed.
Lemma first_before es st' (U : run snake es st') x i e ok y j e' : u_first _ _ _ U = x ++ ((i, e), ok) :: y -> nth_error es j = Some e' -> j < i ->
  exists x1 ok' x2, x = x1 ++ ((j, e'), ok') :: x2.
Proof. exact (start_before es _ _ (u_tries1 _ _ _ U) (u_all _ _ _ U) x i e ok y j e'). Qed.
Lemma first_exact es st' (U : run snake es st') n x i e ok y : length x < n -> u_first _ _ _ U = x ++ ((i, e), ok) :: y -> (ok = true <-> stays es i).
Proof. exact (start_exact es _ _ (u_tries1 _ _ _ U) (u_all _ _ _ U) n x i e ok y). Qed.
Lemma first_stays es st' (U : run snake es st') i e ok : In ((i, e), ok) (u_first _ _ _ U) -> (ok = true <-> stays es i).
Proof. intros I. apply in_split in I as (x & y & X). exact (first_exact _ _ U (S (length x)) x i e ok y ltac:(lia) X). Qed.
Lemma before_use_stays es : declared_before_use es -> forall n i e, i < n -> nth_error es i = Some e -> stays es i.
Proof.
  intros B. induction n as [|n IH]; intros i e L N; [lia|]. apply (stays_at es i e N). intros r Ir. destruct (B i e r N Ir) as (j & e' & Nj & [Lj|[-> (t & ->)]] & Iq).
  - exists j, e'. split; [exact Nj|]. split; [exact Iq|]. left. split; [|exact Lj]. apply (IH j e'); [lia|exact Nj].
  - exists i, e'. split; [exact Nj|]. split; [exact Iq|]. right. split; [reflexivity|]. split; [lia|]. exists t. congruence.
Qed.
Lemma first_succeeds es st' (U : run snake es st') i e : declared_before_use es -> In ((i, e), false) (u_first _ _ _ U) -> False.
Proof.
  intros B I. assert (Ij : In (i, e) (indexed 0 es)) by (rewrite <- (u_all _ _ _ U); apply in_map_iff; exists ((i, e), false); auto).
  apply indexed_nth in Ij as [_ N]. rewrite Nat.sub_0_r in N. apply first_stays in I. pose proof (before_use_stays es B (S i) i e ltac:(lia) N) as St. apply I in St. discriminate St.
Qed.

Lemma run_resolution es st' : run snake es st' -> exists place outs,
  resolution snake es place (roots_of (r_roots st')) outs /\ marked_nodes st' = concat outs /\
  (forall q c, tget (r_types st') q = Some (Defined c) <-> In (q, c) (definitions (concat outs))) /\
  (declared_before_use es -> forall i, i < length es -> place i = written_prefix es i) /\
  (forall i, i < length es -> stays es i /\ place i = written_prefix es i \/ ~ stays es i /\ place i = last_prefix es).
Proof.
  intros U.
  assert (Choose : exists place : nat -> qident, forall i e, nth_error es i = Some e -> exists a b s s1,
    u_first _ _ _ U ++ u_later _ _ _ U = a ++ ((i, e), true) :: b /\ tries initial a s /\ new_element s (i, e) = Done (s1, true) /\ tries s1 b st' /\
    place i = current_prefix s).
  { assert (G : forall n, exists place : nat -> qident, forall i e, i < n -> nth_error es i = Some e -> exists a b s s1,
      u_first _ _ _ U ++ u_later _ _ _ U = a ++ ((i, e), true) :: b /\ tries initial a s /\ new_element s (i, e) = Done (s1, true) /\ tries s1 b st' /\
      place i = current_prefix s).
    { induction n as [|n (place & IH)]; [exists (fun _ => []); intros; lia|]. destruct (nth_error es n) as [e|] eqn:N.
      - destruct (run_event snake _ _ U n e N) as (a & b & s & s1 & E & Ta & H & Tb).
        exists (fun i => if Nat.eqb i n then current_prefix s else place i). intros i e' L N'.
        destruct (Nat.eqb i n) eqn:Q; [apply Nat.eqb_eq in Q; subst i|apply Nat.eqb_neq in Q; apply IH; [lia|exact N']].
        assert (e' = e) by congruence. subst e'. exists a, b, s, s1. auto.
      - exists place. intros i e' L N'. apply IH; [|exact N']. destruct (Nat.eq_dec i n); [congruence|lia]. }
    destruct (G (length es)) as (place & P). exists place. intros i e N. apply P; [|exact N]. apply nth_error_Some. congruence. }
  destruct Choose as (place & P). set (roots := r_roots st').
  exists place, (map (map (mark_root roots)) (outs es st')).
  assert (Cc : concat (map (map (mark_root roots)) (outs es st')) = map (mark_root roots) (all_nodes st')).
  { rewrite concat_map_map. f_equal. symmetry. eapply run_nodes. exact U. }
  assert (Df : forall q c, tget (r_types st') q = Some (Defined c) <-> In (q, c) (definitions (map (mark_root roots) (all_nodes st')))).
  { intros q c. rewrite definitions_mark. rewrite (run_nodes snake es st' U). apply (run_defined snake es st' U). }
  rewrite Cc. split; [|split; [reflexivity|split; [exact Df|split]]].
  3:{ intros i L. destruct (nth_error es i) as [e|] eqn:N; [|apply nth_error_None in N; lia].
      destruct (P i e N) as (a & b & s & s1 & E & Ta & H & Tb & ->). destruct (run_prefix snake _ _ U _ _ _ _ _ _ E Ta) as (_ & [[Q (x & y & X & _)]|[Q [I _]]]).
      - left. split; [|exact Q]. apply (first_stays es st' U i e true); [rewrite X; apply in_elt|reflexivity].
      - right. split; [|exact Q]. intros St. apply (first_stays es st' U i e false I) in St. discriminate St. }
  2:{ intros B i L. destruct (nth_error es i) as [e|] eqn:N; [|apply nth_error_None in N; lia].
      destruct (P i e N) as (a & b & s & s1 & E & Ta & H & Tb & ->). destruct (run_prefix snake _ _ U _ _ _ _ _ _ E Ta) as (_ & [[Q _]|[_ [Q _]]]); [exact Q|].
      exfalso. eapply first_succeeds; eauto. }
  constructor.
  - rewrite map_length. unfold outs. rewrite map_length, seq_length. reflexivity.
  - intros i L. destruct (nth_error es i) as [e|] eqn:N; [|apply nth_error_None in N; lia].
    destruct (P i e N) as (a & b & s & s1 & E & Ta & H & Tb & ->). destruct (run_prefix snake _ _ U _ _ _ _ _ _ E Ta) as (_ & [[-> _]|[-> _]]); auto.
  - intros i e N. assert (L : i < length es) by (apply nth_error_Some; congruence).
    exists (map (mark_root roots) (out_at (r_nodes st') i)). split.
    { rewrite nth_error_map. unfold outs. rewrite nth_error_map.
      rewrite (nth_error_nth' _ 0) by (rewrite seq_length; exact L). rewrite seq_nth by exact L. reflexivity. }
    destruct (P i e N) as (a & b & s & s1 & E & Ta & H & Tb & ->).
    destruct (run_out snake _ _ U _ _ _ _ _ _ E Ta H Tb) as [D Ty]. apply declares_mark with (roots := roots) in D.
    eapply declares_mono; [|exact D]. intros q c V. unfold known. rewrite Cc, <- Df.
    assert (G : view_of s q c -> tget (r_types st') q = Some (Defined c) \/ c = KTable /\ moved es place q).
    { intros W. destruct (run_view snake _ _ U a _ s E Ta (tries_cons _ _ _ _ _ _ _ H Tb) q c W) as [|(-> & j & t & Nj & -> & Ij & Nl)]; [auto|].
      right. split; [reflexivity|]. exists j, t. split; [exact Nj|]. split; [reflexivity|].
      destruct (P j _ Nj) as (a' & b' & s' & s1' & E' & Ta' & _ & _ & ->). rewrite (run_failed snake _ _ U _ _ _ _ _ Ij E' Ta'). congruence. }
    assert (K : view_of (lookup_state s e) q c -> tget (r_types st') q = Some (Defined c) \/ c = KTable /\ moved es place q).
    { intros V'. apply lookup_view in V' as [V'|(t & -> & -> & ->)]; [auto|]. left. eapply tries_keeps; [exact Tb|]. apply Ty. right.
      pose proof (run_out snake _ _ U _ _ _ _ _ _ E Ta H Tb) as [D' _]. inversion D'; subst. cbn. auto. }
    destruct e; cbn [view_for lookup_state] in V; try (destruct (K V); auto); left; eapply tries_keeps; try exact Tb; apply Ty; left; exact V.
  - rewrite Cc, definitions_mark. rewrite (run_nodes snake es st' U). apply (run_distinct snake es st' U).
  - intros i e q N R. destruct (P i e N) as (a & b & s & s1 & E & Ta & H & Tb & Pl). rewrite Pl in R.
    apply roots_of_In. eapply tries_roots_grow; [exact Tb|]. apply step_roots in H as (_ & _ & H). auto.
  - intros q R. apply roots_of_In in R. destruct (tries_roots _ _ _ (run_tries snake es st' U) q R) as [[]|(a & i & e & ok & b & s & E & Ta & S)].
    destruct (run_prefix snake _ _ U _ _ _ _ _ _ E Ta) as (N & [[Q _]|[Q _]]); exists i, e, (current_prefix s); auto.
Qed.

(** ** No crashes *)
Definition unions_fine (st : rstate) : Prop :=
  forall q e vs, view_of st q (KUnion e vs) -> exists c, view_of st e c.

Lemma table_fields_safe st fs : unions_fine st -> table_fields snake st fs <> Crash.
Proof.
  intros F. induction fs as [|f fs IH]; cbn [table_fields]; [discriminate|]. destruct (try_type st (af_ty f)) as [ty|] eqn:T; [|discriminate].
  assert (C : exists comp, match ty with
            | ICustom _ (KUnion e _) =>
                match find_custom_type st e with
                | Some t => Done [IField (fix_identifier (snake (af_id f) ++ lit "_type")%list) t None (is_required (af_meta f)) (af_doc f)]
                | None => Crash
                end
            | _ => Done []
            end = Done comp).
  { destruct ty as [| | |q [| | |e vs]]; eauto. apply try_resolves in T. inversion T; subst.
    destruct (F _ _ _ H1) as (c & [V|[V _]]); unfold find_custom_type; rewrite V; eauto. }
  destruct C as (comp & ->). cbn [rbind]. destruct (table_fields snake st fs); cbn [rbind]; congruence.
Qed.
Lemma struct_fields_safe st q fs : struct_fields st q fs <> Crash.
Proof.
  induction fs as [|f fs IH]; cbn [struct_fields]; [discriminate|]. destruct (try_type st (af_ty f)) as [ty|]; [|discriminate].
  destruct (is_scalar ty); [|discriminate]. destruct (struct_fields st q fs); cbn [rbind]; congruence.
Qed.
Lemma check_safe st q : check_new st q <> Crash.
Proof. unfold check_new. destruct (tget _ _) as [[]|]; discriminate. Qed.
Lemma root_safe st q : new_root_ident st q <> Crash.
Proof. unfold new_root_ident. destruct (tget _ _) as [[|[]]|]; discriminate. Qed.
Lemma streaming_safe m : streaming_of m <> Crash.
Proof.
  unfold streaming_of. destruct m as [m|]; [|discriminate]. destruct (meta_get m (lit "streaming")) as [[[c|s]|]|]; try discriminate.
  destruct (bytes_eqb _ _); [discriminate|]. destruct (bytes_eqb _ _); [discriminate|]. destruct (bytes_eqb _ _); discriminate.
Qed.
Lemma methods_safe ms : forall st, rpc_methods snake st ms <> Crash.
Proof.
  induction ms as [|m ms IH]; intros st; cbn [rpc_methods]; [discriminate|].
  pose proof (root_safe st (qualify_q st (am_request m))) as A. destruct (new_root_ident st (qualify_q st (am_request m))) as [[s1 [|]]|e|]; cbn [rbind]; try congruence; try discriminate.
  pose proof (root_safe s1 (qualify_q st (am_response m))) as B. destruct (new_root_ident s1 (qualify_q st (am_response m))) as [[s2 [|]]|e|]; cbn [rbind]; try congruence; try discriminate.
  pose proof (streaming_safe (am_meta m)) as C. destruct (streaming_of (am_meta m)); cbn [rbind]; try congruence; try discriminate.
  specialize (IH s2). destruct (rpc_methods snake s2 ms) as [[s3 r]|e|]; cbn [rbind]; congruence.
Qed.
Lemma step_safe st pos e : supported e = true -> unions_fine st -> new_element st (pos, e) <> Crash.
Proof.
  intros S F. destruct e as [q d|t|t|e|u|id|x d|x d|x|r|x d]; try discriminate S; cbn [Resolve.new_element].
  - discriminate.
  - unfold new_table. pose proof (check_safe st (qualify st (ap_id t))) as A. destruct (check_new st (qualify st (ap_id t))) eqn:C; cbn [rbind]; try congruence.
    assert (F' : unions_fine (set_type st (qualify st (ap_id t)) TableDeclared)).
    { intros q e vs V. unfold view_of in *. destruct (qident_dec (qualify st (ap_id t)) e) as [<-|Ne].
      - exists KTable. rewrite tget_same. auto.
      - destruct (qident_dec (qualify st (ap_id t)) q) as [<-|Nq]; [rewrite tget_same in V; destruct V as [V|[_ V]]; discriminate|].
        rewrite tget_other in V by exact Nq. destruct (F _ _ _ V) as (c & W). exists c. unfold view_of in W. rewrite tget_other by exact Ne. exact W. }
    pose proof (table_fields_safe _ (ap_fields t) F') as B.
    destruct (table_fields snake _ (ap_fields t)) as [[fs|]|e|]; cbn [rbind]; congruence.
  - unfold new_struct. pose proof (check_safe st (qualify st (ap_id t))) as A. destruct (check_new st (qualify st (ap_id t))) eqn:C; cbn [rbind]; try congruence.
    pose proof (struct_fields_safe st (qualify st (ap_id t)) (ap_fields t)) as B. destruct (struct_fields st (qualify st (ap_id t)) (ap_fields t)) as [[fs|]|e|]; cbn [rbind]; congruence.
  - unfold new_enum. pose proof (check_safe st (qualify st (ae_id e))) as A. destruct (check_new st (qualify st (ae_id e))) eqn:C; cbn [rbind]; try congruence.
    destruct (enum_base (ae_base e)); discriminate.
  - unfold new_union. pose proof (check_safe st (qualify st (au_id u))) as A. destruct (check_new st (qualify st (au_id u))) eqn:C; cbn [rbind]; try congruence.
    destruct (union_variants st (au_variants u)); [|discriminate].
    pose proof (check_safe st (companion_ident st (au_id u))) as B. destruct (check_new st (companion_ident st (au_id u))); cbn [rbind]; congruence.
  - apply root_safe.
  - unfold new_rpc. pose proof (methods_safe (ar_methods r) st) as A. destruct (rpc_methods snake st (ar_methods r)) as [[s [ms|]]|e|]; cbn [rbind]; congruence.
Qed.
Lemma step_fine st pos e st' ok : new_element st (pos, e) = Done (st', ok) -> unions_fine st -> unions_fine st'.
Proof.
  intros H F q u vs V. destruct V as [V|[_ V]]; [|discriminate V].
  assert (Keep : forall c, view_of st u c -> exists c', view_of st' u c').
  { intros c [W|[W _]]; [exists c; left; apply (step_keeps _ _ _ _ _ H); exact W|].
    destruct (tget (r_types st') u) as [[|c']|] eqn:E; [exists KTable; right; auto|exists c'; left; auto|]. exfalso.
    assert (Some' : forall s t u w, (u = t \/ tget (r_types s) u <> None) -> tget (r_types (set_type s t w)) u <> None).
    { intros s t u0 w K. destruct (qident_dec t u0) as [->|N]; [rewrite tget_same; discriminate|]. rewrite tget_other by exact N. destruct K; congruence. }
    assert (Wn : tget (r_types st) u <> None) by congruence. clear W V F c q vs. revert E. change (tget (r_types st') u <> None).
    destruct e as [q d|t|t|e|x|id|x d|x d|x|r|x d]; cbn [Resolve.new_element] in H; try discriminate H.
    - injection H as <- _. exact Wn.
    - unfold new_table in H. apply rbind_Done in H as (u0 & _ & H). apply rbind_Done in H as ([fs|] & _ & H); injection H as <- _; cbn [set_nodes r_types]; repeat (apply Some'; right); exact Wn.
    - unfold new_struct in H. apply rbind_Done in H as (u0 & _ & H). apply rbind_Done in H as ([fs|] & _ & H); injection H as <- _; cbn [set_nodes r_types]; repeat (apply Some'; right); exact Wn.
    - unfold new_enum in H. apply rbind_Done in H as (u0 & _ & H). destruct (enum_base (ae_base e)); [|discriminate]. injection H as <- _. cbn [set_nodes r_types]; repeat (apply Some'; right); exact Wn.
    - unfold new_union in H. apply rbind_Done in H as (u0 & _ & H). destruct (union_variants st (au_variants x)).
      + apply rbind_Done in H as (u1 & _ & H). injection H as <- _. cbn [set_nodes r_types]; repeat (apply Some'; right); exact Wn.
      + injection H as <- _. exact Wn.
    - unfold new_root in H. apply root_frame in H as (_ & -> & _). exact Wn.
    - unfold new_rpc in H. apply rbind_Done in H as ([s ms] & M & H). apply methods_frame in M as (_ & M & _). destruct ms; injection H as <- _; cbn [set_nodes r_types]; rewrite M; exact Wn. }
  destruct ok.
  - apply step_declares in H as (out & D & _ & T & _). apply T in V as [V|V].
    + destruct (F q u vs) as (c & W); [left; exact V|]. eauto.
    + assert (W : exists c, In (u, c) (definitions out)).
      { inversion D; subst; cbn in V; try tauto.
        - destruct V as [V|[]]; discriminate V.
        - destruct V as [V|[]]; discriminate V.
        - destruct V as [V|[]]; discriminate V.
        - destruct V as [V|[V|[]]]; [discriminate V|]. eexists. left. assert (u = companion_name (current_prefix st) (au_id u0)) as -> by congruence. reflexivity. }
      destruct W as (c & W). exists c. left. apply T. auto.
  - apply step_fails in H as (_ & _ & T & _). apply T in V. destruct (F q u vs) as (c & W); [left; exact V|]. eauto.
Qed.
Lemma pass_safe input : forall st, unions_fine st -> (forall pe, In pe input -> supported (snd pe) = true) ->
  pass snake st input <> Crash /\ (forall st' un, pass snake st input = Done (st', un) -> unions_fine st').
Proof.
  induction input as [|[pos e] input IH]; intros st F S; cbn [Resolve.pass].
  - split; [discriminate|]. intros st' un H. injection H as <- _. exact F.
  - pose proof (step_safe st pos e (S _ (or_introl eq_refl)) F) as A. destruct (new_element st (pos, e)) as [[s1 ok]|x|] eqn:H; cbn [rbind]; try congruence; [|split; discriminate].
    pose proof (step_fine _ _ _ _ _ H F) as F1. destruct (IH s1 F1 (fun pe I => S pe (or_intror I))) as [B C].
    destruct (pass snake s1 input) as [[s2 un]|x|]; cbn [rbind]; try congruence; [|split; discriminate].
    split; [discriminate|]. intros st' un' Q. injection Q as <- _. eauto.
Qed.
Lemma passes_safe fuel : forall st input, unions_fine st -> (forall pe, In pe input -> supported (snd pe) = true) -> passes fuel st input <> Some Crash.
Proof.
  induction fuel as [|fuel IH]; intros st input F S; cbn [Resolve.passes]; [discriminate|].
  destruct (pass_safe input st F S) as [A B]. destruct (pass snake st input) as [[s1 un]|e|] eqn:P; try congruence.
  specialize (B s1 un eq_refl). destruct un as [|pe un]; [discriminate|]. destruct (Nat.eqb _ _); [discriminate|]. apply IH; [exact B|].
  intros x I. apply S. apply pass_tries in P as (l & _ & M & Fl). rewrite <- Fl in I. apply failed_In in I. rewrite <- M. apply in_map_iff. exists (x, false). auto.
Qed.

(** A schema of supported declarations resolves or is rejected. *)
Lemma build_total es : (forall e, In e es -> supported e = true) ->
  (exists root, build snake es = Done root) \/ (exists e, build snake es = Fail e).
Proof.
  intros S. unfold build. destruct (terminates snake es) as (r & T). rewrite T by lia.
  pose proof (passes_safe (Datatypes.S (length es)) initial (indexed 0 es)) as C. rewrite T in C by lia.
  destruct r as [st|e|]; cbn [rbind]; eauto. exfalso. apply C; [intros q e vs [V|[V _]]; discriminate V| |reflexivity].
  intros pe I. apply S. rewrite <- (indexed_snd es 0). apply in_map_iff. exists pe. auto.
Qed.
(** One with others never resolves. *)
Lemma build_unsupported es e : In e es -> supported e = false -> forall root, build snake es <> Done root.
Proof.
  intros I S root B. unfold build in B. destruct (terminates snake es) as (r & T). rewrite T in B by lia.
  apply rbind_Done in B as (st & -> & _). specialize (T (Datatypes.S (length es)) ltac:(lia)). apply passes_run in T as (U & _).
  apply In_nth_error in I as (i & N). destruct (run_event snake _ _ U i e N) as (a & b & s & s1 & _ & _ & H & _).
  destruct e; try discriminate S; discriminate H.
Qed.
Lemma build_run es root : build snake es = Done root -> exists st', (exists _ : run snake es st', True) /\ root = arrange (marked_nodes st').
Proof.
  intros B. unfold build in B. destruct (terminates snake es) as (r & T). rewrite T in B by lia.
  apply rbind_Done in B as (st & -> & B). injection B as <-. specialize (T (Datatypes.S (length es)) ltac:(lia)). apply passes_run in T. eauto.
Qed.
End Facts.

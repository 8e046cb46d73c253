(** Schema resolution: whole runs.  What is defined in the end, by which
    declaration, under which namespace. *)
From Coq Require Import Strings.String ZArith List Bool Lia Strings.Byte Permutation Sorting.Sorted.
From Verif Require Import Base BaseFacts Schema Ident Codegen GenProofs1 GenProofs8 Resolve SpecResolve ResolveProofs1 ResolveProofs2.
Import ListNotations.
Local Open Scope nat_scope.

Lemma qident_dec (a b : qident) : {a = b} + {a <> b}.
Proof. apply list_eq_dec. apply list_eq_dec. apply Byte.byte_eq_dec. Qed.

(** ** Lists *)
Lemma NoDup_app_intro {A} (a b : list A) : NoDup a -> NoDup b -> (forall x, In x a -> ~ In x b) -> NoDup (a ++ b).
Proof.
  induction a as [|x a IH]; intros Na Nb D; cbn [app]; [exact Nb|]. inversion Na; subst. constructor.
  - rewrite in_app_iff. intros [I|I]; [auto|]. apply (D x (or_introl eq_refl) I).
  - apply IH; auto. intros y Iy. apply D. right. exact Iy.
Qed.
Lemma nget_notin ns p : ~ In p (keys ns) -> nget ns p = None.
Proof. intros H. destruct (nget ns p) eqn:E; [|reflexivity]. exfalso. apply H. apply nget_keys. congruence. Qed.
Lemma nput_perm ns pos v : ~ In pos (keys ns) -> Permutation (concat (map snd (nput ns pos v))) (v ++ concat (map snd ns)).
Proof.
  induction ns as [|[k w] ns IH]; intros F; cbn [nput map snd concat].
  - reflexivity.
  - cbn [keys map fst In] in F. destruct (Nat.ltb pos k); cbn [map snd concat]; [reflexivity|].
    destruct (Nat.eqb pos k) eqn:E; [apply Nat.eqb_eq in E; exfalso; apply F; auto|]. cbn [map snd concat].
    rewrite IH by (intros I; apply F; auto). rewrite !app_assoc. apply Permutation_app_tail. apply Permutation_app_comm.
Qed.
Definition out_at (ns : list (nat * list node)) (i : nat) : list node := match nget ns i with Some v => v | None => [] end.
Lemma concat_from ns : forall n a, sorted ns -> (forall p, In p (keys ns) -> a <= p < a + n) ->
  concat (map snd ns) = concat (map (out_at ns) (seq a n)).
Proof.
  unfold sorted. intros n. revert ns. induction n as [|n IH]; intros ns a S B; cbn [seq map concat].
  - destruct ns as [|[k v] ns]; [reflexivity|]. specialize (B k (or_introl eq_refl)). lia.
  - destruct ns as [|[k v] ns]; [rewrite <- (IH [] (Datatypes.S a)); [reflexivity|constructor|intros ? []]|].
    cbn [keys map fst] in S. apply StronglySorted_inv in S as [S F]. rewrite Forall_forall in F.
    unfold out_at at 1. cbn [nget]. destruct (Nat.eqb k a) eqn:E.
    + apply Nat.eqb_eq in E. subst k. cbn [map snd concat]. f_equal.
      rewrite (IH ns (Datatypes.S a) S).
      2:{ intros p Hp. pose proof (F p Hp). specialize (B p (or_intror Hp)). lia. }
      f_equal. apply map_ext_in. intros i Hi. apply in_seq in Hi. unfold out_at. cbn [nget]. rewrite (proj2 (Nat.eqb_neq a i)) by lia. reflexivity.
    + apply Nat.eqb_neq in E. assert (Lk : a < k) by (specialize (B k (or_introl eq_refl)); lia).
      rewrite nget_notin by (intros I; specialize (F a I); lia). cbn [app]. apply IH.
      * cbn [keys map fst]. constructor; [exact S|apply Forall_forall; exact F].
      * intros p Hp. pose proof (B p Hp). cbn [keys map fst In] in Hp. destruct Hp as [<-|Hp]; [lia|]. specialize (F p Hp). lia.
Qed.
Lemma indexed_nth es : forall a i e, In (i, e) (indexed a es) <-> a <= i /\ nth_error es (i - a) = Some e.
Proof.
  induction es as [|x es IH]; intros a i e; cbn [indexed In].
  - split; [intros []|]. intros [_ H]. destruct (i - a); discriminate H.
  - rewrite IH. split.
    + intros [H|[L H]]; [injection H as <- <-; rewrite Nat.sub_diag; cbn; auto|]. split; [lia|]. replace (i - a) with (S (i - S a)) by lia. exact H.
    + intros [L H]. destruct (Nat.eq_dec i a) as [->|N]; [rewrite Nat.sub_diag in H; injection H as <-; auto|].
      right. split; [lia|]. replace (i - a) with (S (i - S a)) in H by lia. exact H.
Qed.
Lemma indexed_split es : forall a x i e y, indexed a es = x ++ (i, e) :: y ->
  i = a + length x /\ map snd x = firstn (length x) es.
Proof.
  induction es as [|e0 es IH]; intros a x i e y H; [destruct x; discriminate H|]. cbn [indexed] in H.
  destruct x as [|[j f] x]; cbn [app] in H.
  - injection H as <- <- _. cbn. split; [lia|reflexivity].
  - injection H as <- <- H. apply IH in H as [-> M]. cbn [length map snd firstn]. split; [lia|congruence].
Qed.
Lemma indexed_snd es : forall a, map snd (indexed a es) = es.
Proof. induction es as [|e es IH]; intros a; cbn [indexed map snd]; [reflexivity|]. rewrite IH. reflexivity. Qed.
Lemma indexed_fst es : forall a, map fst (indexed a es) = seq a (length es).
Proof. induction es as [|e es IH]; intros a; cbn [indexed map fst length seq]; [reflexivity|]. rewrite IH. reflexivity. Qed.
Lemma definitions_app a b : definitions (a ++ b) = definitions a ++ definitions b.
Proof. unfold definitions. apply flat_map_app. Qed.
Lemma definitions_perm a b : Permutation a b -> Permutation (definitions a) (definitions b).
Proof. intros P. unfold definitions. rewrite P. reflexivity. Qed.
Lemma namespace_after_app a : forall ns b, namespace_after ns (a ++ b) = namespace_after (namespace_after ns a) b.
Proof. induction a as [|e a IH]; intros ns b; [reflexivity|]. destruct e; cbn [app namespace_after]; apply IH. Qed.
Lemma namespace_after_none l : forall ns, (forall e, In e l -> is_namespace e = false) -> namespace_after ns l = ns.
Proof.
  induction l as [|e l IH]; intros ns H; [reflexivity|]. pose proof (H e (or_introl eq_refl)) as N.
  destruct e; try discriminate N; cbn [namespace_after]; apply IH; intros f F; apply H; right; exact F.
Qed.

(** ** Declaring under more knowledge *)
Section Mono.
Context (snake : text -> text) (v1 v2 : qident -> icustom -> Prop) (M : forall q c, v1 q c -> v2 q c) (p : qident).
Lemma resolves_mono t u : resolves v1 p t u -> resolves v2 p t u.
Proof. induction 1; constructor; auto. Qed.
Lemma table_fields_mono fs l : table_fields_of snake v1 p fs l -> table_fields_of snake v2 p fs l.
Proof. induction 1; [constructor|apply tf_plain; auto using resolves_mono|apply tf_union; auto using resolves_mono]. Qed.
Lemma struct_fields_mono fs l : struct_fields_of v1 p fs l -> struct_fields_of v2 p fs l.
Proof. induction 1; constructor; auto using resolves_mono. Qed.
Lemma union_variants_mono fs l : union_variants_of v1 p fs l -> union_variants_of v2 p fs l.
Proof. induction 1; constructor; auto using resolves_mono. Qed.
Lemma methods_mono fs l : methods_of snake v1 p fs l -> methods_of snake v2 p fs l.
Proof. induction 1; constructor; auto. Qed.
Lemma declares_mono roots e out : declares snake roots v1 p e out -> declares snake roots v2 p e out.
Proof. destruct 1; constructor; auto using table_fields_mono, struct_fields_mono, union_variants_mono, methods_mono. Qed.

(** Only one thing can be declared. *)
Context (F : forall q c c', v2 q c -> v2 q c' -> c = c').
Lemma resolves_fun t u : resolves v1 p t u -> forall u', resolves v2 p t u' -> u = u'.
Proof.
  induction 1; intros u' R; inversion R; subst; try reflexivity; [f_equal; auto|]. f_equal. eapply F; eauto.
Qed.
Lemma table_fields_fun fs l : table_fields_of snake v1 p fs l -> forall l', table_fields_of snake v2 p fs l' -> l = l'.
Proof.
  induction 1 as [|f fs ty l R N T IH|f fs q e vs c l R V T IH]; intros l' H; inversion H; subst; [reflexivity|..];
    match goal with H : resolves v2 _ _ _ |- _ => pose proof (resolves_fun _ _ R _ H) as Q end.
  - subst. f_equal. auto.
  - subst. discriminate.
  - subst. discriminate.
  - assert (q0 = q /\ e0 = e /\ vs0 = vs) as (-> & -> & ->) by (split; [|split]; congruence).
    match goal with H : v2 e ?c' |- _ => assert (c' = c) as -> by (eapply F; eauto) end. f_equal. f_equal. auto.
Qed.
Lemma struct_fields_fun fs l : struct_fields_of v1 p fs l -> forall l', struct_fields_of v2 p fs l' -> l = l'.
Proof.
  induction 1 as [|f fs ty l R N T IH]; intros l' H; inversion H; subst; [reflexivity|].
  f_equal; [f_equal; eapply resolves_fun; eauto|auto].
Qed.
Lemma union_variants_fun fs l : union_variants_of v1 p fs l -> forall l', union_variants_of v2 p fs l' -> l = l'.
Proof.
  induction 1 as [|f fs ty l R T IH]; intros l' H; inversion H; subst; [reflexivity|].
  f_equal; [f_equal; eapply resolves_fun; eauto|auto].
Qed.
Lemma streaming_fun m s : streaming_is m s -> forall s', streaming_is m s' -> s = s'.
Proof.
  destruct 1 as [|m G|m G|m G|m G]; intros s' H'; inversion H' as [|m' G'|m' G'|m' G'|m' G']; subst; try reflexivity;
    exfalso; rewrite G in G'; revert G'; clear; cbv; discriminate.
Qed.
Lemma methods_fun fs l : methods_of snake v1 p fs l -> forall l', methods_of snake v2 p fs l' -> l = l'.
Proof.
  induction 1 as [|m ms s l V1 V2 S T IH]; intros l' H; inversion H; subst; [reflexivity|].
  f_equal; [f_equal; eapply streaming_fun; eauto|auto].
Qed.
Lemma declares_fun roots e out : declares snake roots v1 p e out -> forall out', declares snake roots v2 p e out' -> out = out'.
Proof.
  destruct 1; intros out' H'; inversion H'; subst; try reflexivity.
  - repeat f_equal. eapply table_fields_fun; eauto.
  - repeat f_equal. eapply struct_fields_fun; eauto.
  - repeat f_equal. congruence.
  - repeat f_equal. eapply union_variants_fun; eauto.
  - repeat f_equal. eapply methods_fun; eauto.
Qed.
End Mono.

Section Facts.
Context (snake : text -> text).
Notation new_element := (new_element snake).
Notation passes := (passes snake).
Notation tries := (tries snake).

(** ** Along a sequence of attempts *)
Lemma tries_namespace st l st' : tries st l st' ->
  r_namespace st' = namespace_after (r_namespace st) (map (fun x => snd (fst x)) l).
Proof.
  induction 1 as [st|st [pos e] ok st1 l st2 H T IH]; [reflexivity|]. apply step_namespace in H. cbn [map fst snd].
  rewrite IH, H. rewrite <- namespace_after_app. reflexivity.
Qed.
Lemma tries_keeps st l st' : tries st l st' ->
  forall q c, tget (r_types st) q = Some (Defined c) -> tget (r_types st') q = Some (Defined c).
Proof. induction 1 as [|st pe ok st1 l st2 H T IH]; intros q c Q; [exact Q|]. apply step_keeps in H as [K _]. auto. Qed.

(** Tables known only by name come from failed attempts. *)
Lemma tries_declared st l st' : tries st l st' -> forall q, tget (r_types st') q = Some TableDeclared ->
  tget (r_types st) q = Some TableDeclared \/
  exists a j t b s s', l = a ++ ((j, ETable t), false) :: b /\ tries st a s /\ new_element s (j, ETable t) = Done (s', false) /\
    q = local_name (current_prefix s) (ap_id t).
Proof.
  induction 1 as [|st [pos e] ok st1 l st2 H T IH]; intros q Q; [auto|]. destruct (IH q Q) as [D|(a & j & t & b & s & s' & -> & Ta & E & Eq)].
  - destruct ok.
    + apply step_declares in H as (_ & _ & _ & _ & _ & _ & K). auto.
    + pose proof H as H0. apply step_fails in H as (_ & _ & _ & K). destruct (K q D) as [|(t & -> & Eq)]; [auto|].
      right. exists [], pos, t, l, st, st1. repeat split; auto. constructor.
  - right. exists (((pos, e), ok) :: a), j, t, b, s, s'. split; [reflexivity|]. split; [econstructor; eauto|]. auto.
Qed.

(** The nodes and the known types agree. *)
Definition good (st : rstate) : Prop :=
  sorted (r_nodes st) /\ NoDup (map fst (definitions (all_nodes st))) /\
  (forall q c, tget (r_types st) q = Some (Defined c) <-> In (q, c) (definitions (all_nodes st))).

Lemma good_initial : good initial.
Proof. split; [constructor|]. split; [constructor|]. intros q c. cbn. split; [discriminate|intros []]. Qed.

Lemma step_good st pos e st' ok : new_element st (pos, e) = Done (st', ok) -> good st -> (ok = true -> ~ In pos (keys (r_nodes st))) -> good st'.
Proof.
  intros H (S & N & D) F. destruct ok.
  - apply step_declares in H as (out & _ & Nd & T & No & Fr & _). specialize (F eq_refl).
    assert (P : Permutation (all_nodes st') (out ++ all_nodes st)).
    { unfold all_nodes. rewrite Nd. destruct out as [|n out]; [reflexivity|]. apply nput_perm. exact F. }
    split; [rewrite Nd; destruct out; [exact S|apply sorted_nput; exact S]|].
    apply definitions_perm in P. rewrite definitions_app in P. split.
    + apply Permutation_map with (f := fst) in P. rewrite P, map_app. apply NoDup_app_intro; auto.
      intros q I1 I2. apply in_map_iff in I1 as ([q1 c1] & E1 & I1). apply in_map_iff in I2 as ([q2 c2] & E2 & I2). cbn [fst] in *. subst q1 q2.
      apply D in I2. exact (Fr _ _ I1 _ I2).
    + intros q c. rewrite T, D, P, in_app_iff. tauto.
  - apply step_fails in H as (Nd & _ & T & _). unfold good, all_nodes. rewrite Nd. split; [exact S|]. split; [exact N|]. intros q c. rewrite T. apply D.
Qed.
Lemma succeeded_cons x ok l : succeeded ((x, ok) :: l) = if ok then x :: succeeded l else succeeded l.
Proof. unfold succeeded. cbn [filter snd]. destruct ok; reflexivity. Qed.

Lemma tries_good st l st' : tries st l st' -> good st -> NoDup (map fst (succeeded l)) ->
  (forall p, In p (map fst (succeeded l)) -> ~ In p (keys (r_nodes st))) -> good st'.
Proof.
  induction 1 as [|st [pos e] ok st1 l st2 H T IH]; intros G N F; [exact G|]. rewrite succeeded_cons in N, F.
  assert (G1 : good st1).
  { eapply step_good; eauto. intros ->. apply F. cbn. auto. }
  apply IH; auto.
  - destruct ok; [inversion N; auto|exact N].
  - pose proof H as H0. apply nodes_step in H as [K K0]. intros p Hp Ip. destruct ok.
    + destruct K as [K|(v & K)]; rewrite K in Ip; [eapply F; [right; exact Hp|exact Ip]|].
      apply keys_nput in Ip as [->|Ip]; [inversion N; auto|]. eapply F; [right; exact Hp|exact Ip].
    + rewrite K0 in Ip by reflexivity. eapply F; eauto.
Qed.
(** A position only changes when its element succeeds. *)
Lemma tries_nget st l st' p : tries st l st' -> sorted (r_nodes st) -> ~ In p (map fst (succeeded l)) -> nget (r_nodes st') p = nget (r_nodes st) p.
Proof.
  induction 1 as [|st [pos e] ok st1 l st2 H T IH]; intros S N; [reflexivity|]. rewrite succeeded_cons in N.
  assert (S1 : sorted (r_nodes st1)) by (apply nodes_step in H as [[->|(v & ->)] _]; [exact S|apply sorted_nput; exact S]).
  rewrite IH; [|exact S1|intros I; apply N; destruct ok; [right|]; exact I].
  apply nodes_step in H as [K K0]. destruct ok; [|rewrite K0; reflexivity]. destruct K as [->|(v & ->)]; [reflexivity|].
  rewrite nget_nput by exact S. rewrite (proj2 (Nat.eqb_neq pos p)); [reflexivity|]. intros ->. apply N. left. reflexivity.
Qed.

(** ** Whole runs *)
Record run (es : list element) (st' : rstate) : Type := Run {
  u_first : list ((nat * element) * bool);
  u_later : list ((nat * element) * bool);
  u_mid : rstate;
  u_tries1 : tries initial u_first u_mid;
  u_tries2 : tries u_mid u_later st';
  u_all : map fst u_first = indexed 0 es;
  u_again : forall pe ok, In (pe, ok) u_later -> In (pe, false) u_first;
  u_done : Permutation (succeeded (u_first ++ u_later)) (indexed 0 es) }.

Lemma passes_run fuel es st' : passes fuel initial (indexed 0 es) = Some (Done st') -> exists _ : run es st', True.
Proof.
  intros H. apply passes_tries in H as (l1 & l2 & s & T1 & T2 & M & A & P). assert (u : run es st') by (econstructor; eauto). exists u. exact Logic.I.
Qed.

Section Run.
Context (es : list element) (st' : rstate) (U : run es st').
Let l := u_first _ _ U ++ u_later _ _ U.

Lemma run_tries : tries initial l st'.
Proof. eapply tries_app; [apply (u_tries1 _ _ U)|apply (u_tries2 _ _ U)]. Qed.
Lemma run_nodup : NoDup (map fst (succeeded l)).
Proof.
  eapply Permutation_NoDup; [apply Permutation_map; symmetry; apply (u_done _ _ U)|]. rewrite indexed_fst. apply seq_NoDup.
Qed.
Lemma run_good a b s : l = a ++ b -> tries initial a s -> good s.
Proof.
  intros E T. eapply tries_good; [exact T|apply good_initial| |intros p _ []].
  pose proof run_nodup as N. rewrite E, succeeded_app, map_app in N. clear - N. induction (map fst (succeeded a)) as [|x m IH]; [constructor|].
  cbn [app] in N. inversion N; subst. constructor; [rewrite in_app_iff in H1; tauto|auto].
Qed.

(** The namespace at an attempt. *)
Lemma run_prefix a i e ok b s : l = a ++ ((i, e), ok) :: b -> tries initial a s ->
  nth_error es i = Some e /\
  ((current_prefix s = written_prefix es i /\ exists x y, u_first _ _ U = x ++ ((i, e), ok) :: y /\ a = x) \/
   (current_prefix s = last_prefix es /\ In ((i, e), false) (u_first _ _ U) /\ is_namespace e = false)).
Proof.
  intros E T. apply tries_namespace in T. cbn [initial r_namespace] in T.
  assert (Nth : forall i e ok, In ((i, e), ok) (u_first _ _ U) -> nth_error es i = Some e).
  { intros i0 e0 ok0 I. assert (I0 : In (i0, e0) (indexed 0 es)) by (rewrite <- (u_all _ _ U); apply in_map_iff; exists ((i0, e0), ok0); auto).
    apply indexed_nth in I0 as [_ I0]. rewrite Nat.sub_0_r in I0. exact I0. }
  assert (Later : forall e, In e (map (fun x => snd (fst x)) (u_later _ _ U)) -> is_namespace e = false).
  { intros e0 I. apply in_map_iff in I as ([[j f] o] & <- & I). cbn [fst snd]. apply (u_again _ _ U) in I.
    apply in_split in I as (x & y & X). pose proof (u_tries1 _ _ U) as T1. rewrite X in T1. apply tries_split in T1 as (s1 & _ & T1).
    inversion T1; subst. eapply step_fails; eauto. }
  unfold l in E.
  assert (C : (exists y, u_first _ _ U = a ++ ((i, e), ok) :: y) \/ (exists x, a = u_first _ _ U ++ x /\ u_later _ _ U = x ++ ((i, e), ok) :: b)).
  { clear - E. revert a E. induction (u_first _ _ U) as [|y m IH]; intros a E; [right; exists a; auto|].
    destruct a as [|z a]; cbn [app] in E; [left; exists m; injection E as -> _; reflexivity|]. injection E as <- E.
    destruct (IH a E) as [(y0 & ->)|(x & -> & Q)]; [left; exists y0; reflexivity|right; exists x; split; [reflexivity|exact Q]]. }
  destruct C as [(y & X)|(x & Xa & X)].
  - split; [eapply Nth; rewrite X; apply in_elt|]. left. split; [|eauto].
    pose proof (u_all _ _ U) as A. rewrite X, map_app in A. cbn [map fst] in A. symmetry in A. apply indexed_split in A as [Ei A].
    cbn [Nat.add] in Ei. rewrite current_prefix_of. unfold written_prefix. f_equal. rewrite T, Ei, <- A, map_map. reflexivity.
  - assert (I : In ((i, e), false) (u_first _ _ U)) by (apply (u_again _ _ U) with (ok := ok); rewrite X; apply in_elt).
    split; [eapply Nth; exact I|]. right. split; [|split; [exact I|apply Later; rewrite X, map_app; cbn [map fst snd]; apply in_elt]].
    rewrite current_prefix_of. unfold last_prefix. f_equal. rewrite T, Xa, map_app, namespace_after_app.
    rewrite namespace_after_none.
    + f_equal. rewrite <- (indexed_snd es 0), <- (u_all _ _ U), map_map. reflexivity.
    + intros f F. apply Later. rewrite X, map_app. apply in_or_app. auto.
Qed.

(** Every declaration succeeds once. *)
Lemma run_event i e : nth_error es i = Some e -> exists a b s s1,
  l = a ++ ((i, e), true) :: b /\ tries initial a s /\ new_element s (i, e) = Done (s1, true) /\ tries s1 b st'.
Proof.
  intros H. assert (I : In (i, e) (indexed 0 es)) by (apply indexed_nth; rewrite Nat.sub_0_r; auto with arith).
  apply (Permutation_in _ (Permutation_sym (u_done _ _ U))) in I. apply succeeded_In in I. fold l in I.
  apply in_split in I as (a & b & E). pose proof run_tries as T. rewrite E in T. apply tries_split in T as (s & Ta & Tb).
  inversion Tb; subst. exists a, b, s, st1. auto.
Qed.

(** What it declares is there in the end. *)
Lemma run_out i e a b s s1 : l = a ++ ((i, e), true) :: b -> tries initial a s -> new_element s (i, e) = Done (s1, true) -> tries s1 b st' ->
  declares snake unmarked (view_for e (lookup_state s e)) (current_prefix s) e (out_at (r_nodes st') i) /\
  (forall q c, tget (r_types s1) q = Some (Defined c) <-> tget (r_types s) q = Some (Defined c) \/ In (q, c) (definitions (out_at (r_nodes st') i))).
Proof.
  intros E Ta H Tb. pose proof run_nodup as N. rewrite E, succeeded_app, succeeded_cons, map_app in N. cbn [map fst] in N.
  apply NoDup_remove_2 in N. rewrite in_app_iff in N.
  pose proof (run_good a _ s E Ta) as (S & _).
  assert (S1 : sorted (r_nodes s1)) by (apply nodes_step in H as [[->|(v & ->)] _]; [exact S|apply sorted_nput; exact S]).
  assert (G0 : nget (r_nodes s) i = None).
  { rewrite (tries_nget _ _ _ i Ta); [reflexivity|constructor|tauto]. }
  assert (G1 : nget (r_nodes st') i = nget (r_nodes s1) i) by (apply (tries_nget _ _ _ i Tb S1); tauto).
  apply step_declares in H as (out & D & Nd & Ty & _).
  assert (O : out_at (r_nodes st') i = out).
  { unfold out_at. rewrite G1, Nd. destruct out as [|n out]; [rewrite G0; reflexivity|]. rewrite nget_nput by exact S. rewrite Nat.eqb_refl. reflexivity. }
  rewrite O. auto.
Qed.

(** What fails in the first pass is defined in the last namespace. *)
Lemma run_failed a i e b s : In ((i, e), false) (u_first _ _ U) -> l = a ++ ((i, e), true) :: b -> tries initial a s ->
  current_prefix s = last_prefix es.
Proof.
  intros I1 E Ta. destruct (run_prefix _ _ _ _ _ _ E Ta) as (_ & [[_ (x & y & X & _)]|[P _]]); [|exact P].
  exfalso. pose proof (u_all _ _ U) as A.
  assert (Nd : NoDup (map fst (map fst (u_first _ _ U)))) by (rewrite A, indexed_fst; apply seq_NoDup).
  rewrite X in I1, Nd. rewrite !map_app in Nd. cbn [map fst] in Nd. apply NoDup_remove_2 in Nd. apply Nd. rewrite <- !map_app.
  apply in_app_or in I1 as [I1|[I1|I1]]; [|discriminate I1|]; apply in_map_iff; exists (i, e); (split; [reflexivity|]); apply in_map_iff;
    exists ((i, e), false); (split; [reflexivity|]); apply in_or_app; auto.
Qed.

(** What was looked up is defined in the end, unless it is a table whose
    declaration moved away. *)
Lemma run_view a b s : l = a ++ b -> tries initial a s -> tries s b st' -> forall q c, view_of s q c ->
  tget (r_types st') q = Some (Defined c) \/
  c = KTable /\ exists j t, nth_error es j = Some (ETable t) /\ q = local_name (written_prefix es j) (ap_id t) /\
    In ((j, ETable t), false) (u_first _ _ U) /\ written_prefix es j <> last_prefix es.
Proof.
  intros E Ta Tb q c [V|[V ->]]; [left; eapply tries_keeps; eauto|].
  destruct (tries_declared _ _ _ Ta q V) as [D|(a1 & j & t & b1 & s0 & s0' & Ea & Ta1 & H0 & Eq)]; [discriminate D|].
  assert (E0 : l = a1 ++ ((j, ETable t), false) :: (b1 ++ b)) by (rewrite E, Ea, <- app_assoc; reflexivity).
  pose proof (run_prefix _ _ _ _ _ _ E0 Ta1) as (Nj & C).
  assert (I1 : In ((j, ETable t), false) (u_first _ _ U)).
  { destruct C as [[_ (x' & y' & X' & _)]|[_ [I _]]]; [rewrite X'; apply in_elt|exact I]. }
  destruct (qident_dec (current_prefix s0) (last_prefix es)) as [El|Nl].
  - (* it is defined where it was declared *)
    left. destruct (run_event j (ETable t) Nj) as (a2 & b2 & s2 & s3 & E2 & Ta2 & H2 & Tb2).
    assert (P : current_prefix s2 = current_prefix s0) by (rewrite El; eapply run_failed; eauto).
    eapply tries_keeps; [exact Tb2|]. apply (run_out _ _ _ _ _ _ E2 Ta2 H2 Tb2).
    destruct (run_out _ _ _ _ _ _ E2 Ta2 H2 Tb2) as [D _]. inversion D; subst. right. cbn. rewrite P. auto.
  - right. split; [reflexivity|]. destruct C as [[P _]|[P _]]; [|contradiction]. exists j, t. rewrite <- P. auto.
Qed.

Definition outs : list (list node) := map (out_at (r_nodes st')) (seq 0 (length es)).
Lemma run_nodes : all_nodes st' = concat outs.
Proof.
  pose proof (run_good l [] st' (eq_sym (app_nil_r _)) run_tries) as (S & _). apply concat_from; [exact S|].
  intros p Hp. pose proof (tries_nodes _ _ _ _ run_tries) as (_ & _ & K). destruct (K p Hp) as [[]|I].
  rewrite <- map_map with (f := fst) (g := fst) in I. apply in_map_iff in I as (x & <- & I).
  assert (In x (indexed 0 es)).
  { unfold l in I. rewrite map_app in I. apply in_app_or in I as [I|I]; [rewrite (u_all _ _ U) in I; exact I|].
    apply in_map_iff in I as ([y o] & <- & I). apply (u_again _ _ U) in I. rewrite <- (u_all _ _ U). apply in_map_iff. exists (y, false). auto. }
  apply indexed_In in H. lia.
Qed.
Lemma run_defined q c : tget (r_types st') q = Some (Defined c) <-> In (q, c) (definitions (concat outs)).
Proof. rewrite <- run_nodes. apply (run_good l [] st' (eq_sym (app_nil_r _)) run_tries). Qed.
Lemma run_distinct : NoDup (map fst (definitions (concat outs))).
Proof. rewrite <- run_nodes. apply (run_good l [] st' (eq_sym (app_nil_r _)) run_tries). Qed.

End Run.
End Facts.

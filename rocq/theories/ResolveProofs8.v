(** Schema resolution: the same declarations in another order. *)
From Coq Require Import Strings.String ZArith List Bool Lia Strings.Byte Permutation.
From Verif Require Import Base BaseFacts Schema Ident Codegen GenProofs1 GenProofs8 Resolve SpecResolve SpecFormed SpecEvolve ResolveProofs1 ResolveProofs2 ResolveProofs3 ResolveProofs4 ResolveProofs5 ResolveProofs6 ResolveProofs7.
Import ListNotations.
Local Open Scope nat_scope.

Section Facts.
Context (snake : text -> text).
Notation new_element := (new_element snake).
Notation passes := (passes snake).
Notation tries := (tries snake).
Notation pass := (pass snake).

(** ** The first pass *)
Section First.
Context (es : list element).
Notation at_ := (written_prefix es).
Context (l : list ((nat * element) * bool)) (s1 : rstate) (Tl : tries initial l s1) (M : map fst l = indexed 0 es).

Lemma first_attempt a i e ok b : l = a ++ ((i, e), ok) :: b -> exists s0 s, tries initial a s0 /\ new_element s0 (i, e) = Done (s, ok) /\ tries s b s1 /\
  nth_error es i = Some e /\ length a = i /\ current_prefix s0 = at_ i.
Proof.
  intros E. pose proof Tl as T. rewrite E in T. apply tries_split in T as (s0 & Ta & Tb). apply tries_uncons in Tb as (st1 & H0 & Tb). exists s0, st1.
  assert (A : indexed 0 es = map fst a ++ (i, e) :: map fst b) by (rewrite <- M, E, map_app; reflexivity).
  assert (N : nth_error es i = Some e).
  { assert (I : In (i, e) (indexed 0 es)) by (rewrite A; apply in_elt). apply indexed_nth in I as [_ I]. rewrite Nat.sub_0_r in I. exact I. }
  pose proof (first_split _ _ _ _ _ A) as [W Li]. rewrite map_length in Li.
  split; [exact Ta|]. split; [assumption|]. split; [assumption|]. split; [exact N|]. split; [congruence|].
  apply tries_namespace in Ta. rewrite current_prefix_of, Ta. cbn [initial r_namespace]. rewrite map_map in W. exact W.
Qed.
Lemma first_table a s j t : tries initial a s -> (exists b, l = a ++ b) -> j < length a -> nth_error es j = Some (ETable t) ->
  exists c, tget (r_types s) (local_name (at_ j) (ap_id t)) = Some c.
Proof.
  intros Ta (b & E) L N.
  assert (I : exists a1 ok a2, a = a1 ++ ((j, ETable t), ok) :: a2).
  { destruct (nth_error a j) as [[[k f] ok]|] eqn:Q; [|apply nth_error_None in Q; lia].
    apply nth_error_split in Q as (a1 & a2 & -> & La). exists a1, ok, a2. f_equal. f_equal.
    rewrite <- app_assoc in E. destruct (first_attempt a1 k f ok (a2 ++ b) E) as (_ & _ & _ & _ & _ & Nk & Lk & _). assert (k = j) by lia. subst k. congruence. }
  destruct I as (a1 & ok & a2 & ->). rewrite <- app_assoc in E. destruct (first_attempt _ _ _ _ _ E) as (_ & _ & _ & _ & _ & _ & _ & _).
  apply tries_split in Ta as (s0 & Ta1 & Ta2).
  assert (C : current_prefix s0 = at_ j).
  { pose proof M as M'. rewrite E, map_app in M'. cbn [map fst] in M'. symmetry in M'. apply first_split in M' as [W _]. apply tries_namespace in Ta1. rewrite current_prefix_of, Ta1. cbn [initial r_namespace].
    rewrite map_map in W. exact W. }
  apply tries_uncons in Ta2 as (st1 & H0 & T2).
  pose proof (step_keeps _ _ _ _ _ H0) as [_ K]. rewrite C in K. specialize (K t eq_refl). clear - K T2. induction T2; [exact K|]. apply IHT2. eapply step_known_some; eauto.
Qed.
(** What can start does. *)
Lemma start_defines i : can_begin es i -> existsb defining l = true.
Proof.
  intros (e & N & S).
  assert (I : In (i, e) (map fst l)) by (rewrite M; apply indexed_nth; rewrite Nat.sub_0_r; auto with arith).
  apply in_map_iff in I as ([x ok] & Ex & I). cbn [fst] in Ex. subst x. apply in_split in I as (a & b & E).
  destruct (first_attempt _ _ _ _ _ E) as (s0 & s & Ta & H & _ & _ & Li & C).
  assert (D : defines e = true /\ is_namespace e = false) by (destruct e; try tauto; auto). destruct D as [D Ns].
  assert (Ok : ok = true).
  { destruct ok; [reflexivity|exfalso]. revert H. apply step_known. rewrite C. intros r Ir.
    assert (K : match e with ERpc _ => False | _ => True end -> forall j t, j <= i -> nth_error es j = Some (ETable t) -> full_name (at_ i) r = local_name (at_ j) (ap_id t) ->
      (exists c, tget (r_types s0) (full_name (at_ i) r) = Some (Defined c)) \/ tget (r_types s0) (full_name (at_ i) r) = Some TableDeclared \/
      exists t, e = ETable t /\ full_name (at_ i) r = local_name (at_ i) (ap_id t)).
    { intros _ j t Lj Nj Q. destruct (Nat.eq_dec j i) as [->|Ne].
      - right. right. exists t. split; [congruence|exact Q].
      - destruct (first_table a s0 j t Ta) as ([|c] & T); [eauto|lia|exact Nj|right; left; congruence|left; exists c; congruence]. }
    destruct e; try contradiction; try (destruct (S r Ir) as (j & t' & Lj & Nj & Q); destruct (K Logic.I j t' Lj Nj Q) as [|[|]]; auto).
    cbn [refs] in Ir. rewrite S in Ir. destruct Ir. }
  subst ok. rewrite E, existsb_app. cbn [existsb]. unfold defining at 2. cbn [fst snd]. rewrite D. cbn. apply orb_true_r.
Qed.
(** The first to be defined could start. *)
Lemma defines_start : existsb defining l = true -> exists i, can_begin es i.
Proof.
  intros X. apply existsb_first in X as (a & [[i e] ok] & b & E & D & Na). unfold defining in D. cbn [fst snd] in D. apply andb_true_iff in D as [-> D].
  destruct (first_attempt _ _ _ _ _ E) as (s0 & s & Ta & H & _ & N & Li & C).
  assert (Ns : is_namespace e = false) by (destruct e; try reflexivity; discriminate D). 
  destruct (tries_same _ _ _ _ Ta Na) as [_ Same]. apply step_declares in H as (out & Dc & _). rewrite C in Dc. exists i, e. split; [exact N|].
  assert (Tab : forall q c, view_of (lookup_state s0 e) q c -> exists j t, j <= i /\ nth_error es j = Some (ETable t) /\ q = local_name (at_ j) (ap_id t)).
  { intros q c V. apply lookup_view in V as [[V|[V ->]]|(t & -> & -> & ->)].
    - apply Same in V. discriminate V.
    - destruct (tries_declared _ _ _ _ Ta q V) as [V'|(a1 & j & t & b1 & s2 & s3 & Ea & Ta1 & H2 & ->)]; [discriminate V'|].
      rewrite Ea, <- app_assoc in E. cbn [app] in E. destruct (first_attempt _ _ _ _ _ E) as (s0' & s' & Ta' & H' & _ & Nj & Lj & C'). exists j, t. split; [|split; [exact Nj|]].
      + rewrite <- Li, <- Lj, Ea, app_length. lia.
      + assert (Cs : current_prefix s2 = current_prefix s0') by (rewrite !current_prefix_of, (tries_namespace _ _ _ _ Ta1), (tries_namespace _ _ _ _ Ta'); reflexivity).
        rewrite Cs, C'. reflexivity.
    - exists i, t. split; [lia|]. split; [exact N|]. rewrite C. reflexivity. }
  assert (R : forall r, In r (refs e) -> exists c, view_for e (lookup_state s0 e) (full_name (at_ i) r) c) by (intros r; eapply declares_refs; exact Dc).
  destruct e; try discriminate D; try (intros r Ir; destruct (R r Ir) as (c & V); destruct (Tab _ _ V) as (j & t' & K); exists j, t'; exact K).
  destruct (ar_methods r) as [|m ms] eqn:Em; [reflexivity|exfalso]. destruct (R (am_request m)) as (c & V); [cbn [refs]; rewrite Em; cbn; auto|].
  cbn [view_for lookup_state] in V. unfold defined_in in V. apply Same in V. discriminate V.
Qed.
(** Roots need something defined. *)
Lemma all_succeed : failed l = [] -> declarations es <> [] -> existsb defining l = true.
Proof.
  intros F N. destruct (existsb defining l) eqn:X; [reflexivity|exfalso]. destruct (tries_same _ _ _ _ Tl X) as [_ Same].
  destruct (declarations es) as [|e es'] eqn:Dc; [congruence|]. assert (I : In e (declarations es)) by (rewrite Dc; left; reflexivity).
  apply filter_In in I as [I Ns]. apply negb_true_iff in Ns. rewrite <- (indexed_snd es 0), <- M in I. apply in_map_iff in I as (pe & Ee & I). apply in_map_iff in I as ([[i e'] ok] & Ex & I). cbn [fst] in Ex. subst pe. cbn [snd] in Ee. subst e'.
  assert (Ok : ok = true).
  { destruct ok; [reflexivity|]. assert (J : In (i, e) (failed l)) by (unfold failed; apply in_map_iff; exists ((i, e), false); split; [reflexivity|]; apply filter_In; auto). rewrite F in J. destruct J. }
  subst ok. apply in_split in I as (a & b & E). destruct (first_attempt _ _ _ _ _ E) as (s0 & s & Ta & H & Tb & _ & _ & _).
  assert (Ne : defines e = false).
  { rewrite E, existsb_app in X. apply orb_false_iff in X as [_ X]. cbn [existsb] in X. apply orb_false_iff in X as [X _]. exact X. }
  destruct e; try discriminate Ne; try discriminate Ns. pose proof H as H0. cbn [Resolve.new_element] in H. unfold new_root in H. apply root_spec in H as [H _].
  assert (Q : tget (r_types s1) (qualify s0 typename) = Some (Defined KTable)).
  { eapply tries_keeps; [exact Tb|]. cbn [Resolve.new_element] in H0. unfold new_root in H0. apply root_frame in H0 as (_ & -> & _). exact H. }
  apply Same in Q. discriminate Q.
Qed.
End First.

(** ** Two orders *)
Lemma declared_names_distinct p es outs roots v : Forall2 (fun e out => declares snake roots v p e out) es outs ->
  NoDup (map fst (definitions (concat outs))) -> NoDup (flat_map (declared_names p) es).
Proof.
  intros F N. eapply Permutation_NoDup; [|exact N]. clear N. induction F as [|e out es outs D F IH]; [constructor|].
  cbn [concat flat_map]. rewrite definitions_app, map_app. apply Permutation_app; [|exact IH]. rewrite (declares_names _ _ _ _ _ _ D).
  destruct e; try reflexivity. symmetry. apply Permutation_rev.
Qed.
Lemma names_declarations p es : flat_map (declared_names p) es = flat_map (declared_names p) (declarations es).
Proof. unfold declarations. induction es as [|e es IH]; [reflexivity|]. cbn [flat_map filter]. destruct e; cbn [is_namespace negb flat_map declared_names app]; rewrite IH; reflexivity. Qed.
Lemma NoDup_flat_nth {A B} (f : A -> list B) l : NoDup (flat_map f l) -> forall i j a b x, nth_error l i = Some a -> nth_error l j = Some b -> In x (f a) -> In x (f b) -> i = j.
Proof.
  induction l as [|y l IH]; intros N i j a b x Ni Nj Ia Ib; [destruct i; discriminate Ni|]. cbn [flat_map] in N.
  assert (D : forall c k, nth_error l k = Some c -> In x (f c) -> In x (f y) -> False).
  { intros c k Nk Ic Iy. assert (J : In x (flat_map f l)) by (apply in_flat_map; exists c; split; [eapply nth_error_In; eauto|exact Ic]).
    clear - N Iy J. induction (f y) as [|z m IH]; [destruct Iy|]. cbn [app] in N. inversion N; subst. destruct Iy as [->|Iy]; [apply H1; apply in_or_app; auto|auto]. }
  assert (N' : NoDup (flat_map f l)) by (clear - N; induction (f y) as [|z m IH]; [exact N|cbn [app] in N; inversion N; auto]).
  destruct i as [|i], j as [|j]; cbn [nth_error] in Ni, Nj.
  - reflexivity.
  - exfalso. injection Ni as ->. eapply D; eauto.
  - exfalso. injection Nj as ->. eapply D; eauto.
  - f_equal. eapply IH; eauto.
Qed.
Lemma declarations_In es e : In e (declarations es) <-> In e es /\ is_namespace e = false.
Proof. unfold declarations. rewrite filter_In, negb_true_iff. reflexivity. Qed.

Lemma nput_some ns k v : length (nput ns k v) <> 0.
Proof. destruct ns as [|[k' w] ns]; cbn [nput]; [discriminate|]. destruct (Nat.ltb k k'); [discriminate|]. destruct (Nat.eqb k k'); discriminate. Qed.

(** A schema whose declarations all have a place among the definitions. *)
Lemma placed_iff (V : qident -> icustom -> Prop) roots es : settled es -> (forall q c c', V q c -> V q c' -> c = c') ->
  (forall i e, nth_error es i = Some e -> placed snake (written_prefix es i) V roots e) ->
  (forall i j e e' q, nth_error es i = Some e -> nth_error es j = Some e' -> In q (declared_names (written_prefix es i) e) -> In q (declared_names (written_prefix es j) e') -> i = j) ->
  (forall i e, nth_error es i = Some e -> is_namespace e = false -> definable es i) ->
  ((exists r2, build snake es = Done r2) <-> declarations es = [] \/ exists i, can_begin es i).
Proof.
  intros Sd Vfun Placed Distinct Definable.
  (* the first pass *)
  assert (Up0 : upto V es initial (fun i => i < length es)).
  { constructor.
    - intros q c [Q|[Q _]]; discriminate Q.
    - intros q e vs [Q|[Q _]]; discriminate Q.
    - intros q c Q. discriminate Q.
    - intros i e q N Ni. exfalso. apply Ni. apply nth_error_Some. congruence.
    - intros i [].
    - intros i. lia. }
  destruct (upto_pass snake V roots Vfun es Placed Distinct (indexed 0 es) initial _ (fun _ => False) Up0) as (s1 & un & P & U1 & KT & Iu & Nu).
  { intros j t []. }
  { rewrite indexed_fst. apply seq_NoDup. }
  { intros i e I. pose proof (indexed_In _ _ _ I) as L. cbn [fst] in L. apply indexed_nth in I as [_ I]. rewrite Nat.sub_0_r in I. split; [exact I|lia]. }
  { intros x i e y E Ns. cbn [initial r_namespace]. pose proof E as E0. apply first_split in E as [-> _]. reflexivity. }
  pose proof P as P0. apply pass_tries in P0 as (l & Tl & M & Fl).
  assert (Len : existsb defining l = true <-> length (r_nodes s1) <> 0).
  { split.
    - intros X. apply existsb_first in X as (a & [[i e] ok] & b & E & D & _). unfold defining in D. cbn [fst snd] in D. apply andb_true_iff in D as [-> D].
      pose proof Tl as T. rewrite E in T. apply tries_split in T as (s0 & Ta & Tb). apply tries_uncons in Tb as (s2 & H & Tb).
      pose proof (tries_nodes _ _ _ _ Tb) as (L & _). apply step_declares in H as (out & Dc & En & _).
      assert (Nz : length (r_nodes s2) <> 0); [|lia]. rewrite En. inversion Dc; subst; try discriminate D; apply nput_some.
    - intros L. destruct (existsb defining l) eqn:X; [reflexivity|]. destruct (tries_same _ _ _ _ Tl X) as [E _]. rewrite E in L. cbn in L. congruence. }
  assert (Key : (exists r2, build snake es = Done r2) <-> un = [] \/ length (r_nodes s1) <> 0).
  { unfold build. assert (T : exists r, passes (S (length es)) initial (indexed 0 es) = Some r) by (destruct (terminates snake es) as (r & T); exists r; apply T; lia).
    destruct T as (r & T). rewrite T. pose proof T as T0. cbn [Resolve.passes] in T0. rewrite P in T0. cbn [initial r_nodes length] in T0.
    destruct un as [|x un]; [injection T0 as <-; cbn [rbind]; split; [auto|eauto]|]. destruct (Nat.eqb (length (r_nodes s1)) 0) eqn:E.
    - apply Nat.eqb_eq in E. injection T0 as <-. cbn [rbind]. split; [intros (r2 & X); discriminate X|]. intros [X|X]; [discriminate X|congruence].
    - apply Nat.eqb_neq in E. split; [auto|]. intros _.
      destruct (finish snake V roots Vfun es Placed Distinct Definable (length es) s1 (x :: un)) as (st & Fs).
      + eapply upto_ext; [|exact U1]. intros i. cbn beta. rewrite indexed_fst. rewrite in_seq. split; [intros [A B]; apply B; lia|]. intros J. split; [|auto].
        apply in_map_iff in J as (y & <- & J). apply Iu in J. apply indexed_In in J. lia.
      + intros j t _ N. apply (KT j t); [|exact N]. right. rewrite indexed_fst. apply in_seq. split; [lia|]. apply nth_error_Some. cbn. congruence.
      + intros i e J. rewrite current_prefix_of, (tries_namespace _ _ _ _ Tl). cbn [initial r_namespace]. rewrite <- map_map with (f := fst) (g := snd), M, indexed_snd.
        assert (N : nth_error es i = Some e) by (apply Iu in J; apply indexed_nth in J as [_ J]; rewrite Nat.sub_0_r in J; exact J).
        rewrite <- Fl in J. apply failed_In in J. apply in_split in J as (a & b & E').
        assert (Ns : is_namespace e = false).
        { pose proof Tl as T'. rewrite E' in T'. apply tries_split in T' as (s0 & _ & Tb). apply tries_uncons in Tb as (s2 & H & _). eapply step_fails; eauto. }
        destruct (Sd i e N Ns) as [St|St]; [|symmetry; exact St]. apply (start_exact snake es l s1 Tl M (S (length a)) a i e false b ltac:(lia) E') in St. discriminate St.
      + exact Nu.
      + intros i e J. split.
        * apply Iu in J. apply indexed_nth in J as [_ J]. rewrite Nat.sub_0_r in J. exact J.
        * rewrite <- Fl in J. apply failed_In in J. apply in_split in J as (a & b & E'). pose proof Tl as T'. rewrite E' in T'. apply tries_split in T' as (s0 & _ & Tb). apply tries_uncons in Tb as (s2 & H & _). eapply step_fails; eauto.
      + rewrite T0. discriminate.
      + rewrite Fs in T0. injection T0 as <-. cbn [rbind]. eauto. }
  rewrite Key. split.
  - intros K. destruct (declarations es) as [|d ds] eqn:Dq; [auto|right]. apply (defines_start es l s1 Tl M).
    destruct K as [K|K]; [|apply Len; exact K]. apply (all_succeed es l s1 Tl M); [congruence|congruence].
  - intros [K|(i & K)].
    + left. destruct un as [|[i e] un]; [reflexivity|exfalso]. assert (J : In (i, e) (failed l)) by (rewrite Fl; left; reflexivity). apply failed_In in J.
      apply in_split in J as (a & b & E'). pose proof Tl as T'. rewrite E' in T'. apply tries_split in T' as (s0 & _ & Tb). apply tries_uncons in Tb as (s2 & H & _). apply step_fails in H as (_ & Ns & _).
      assert (I : In e (declarations es)); [|rewrite K in I; destruct I]. apply declarations_In. split; [|exact Ns].
      rewrite <- (indexed_snd es 0), <- M, E', !map_app. cbn [map fst snd]. apply in_elt.
    + right. apply Len. eapply start_defines; eauto.
Qed.

Lemma begin_iff p es i : one_namespace p es -> (can_start p es i <-> can_begin es i).
Proof.
  intros [_ W]. unfold can_start, can_begin.
  assert (T : forall j t, nth_error es j = Some (ETable t) -> written_prefix es j = p) by (intros j t N; exact (W j _ N eq_refl)).
  assert (R : forall e, nth_error es i = Some e -> is_namespace e = false -> forall r,
    (exists j t, (j <= i)%nat /\ nth_error es j = Some (ETable t) /\ full_name p r = local_name p (ap_id t)) <->
    (exists j t, (j <= i)%nat /\ nth_error es j = Some (ETable t) /\ full_name (written_prefix es i) r = local_name (written_prefix es j) (ap_id t))).
  { intros e N Ns r. rewrite (W i e N Ns). split; intros (j & t & L & Nj & Q); exists j, t; (split; [exact L|]); (split; [exact Nj|]); rewrite (T j t Nj) in *; exact Q. }
  split.
  - destruct (nth_error es i) as [e|] eqn:N; [|intros []]. intros S. exists e. split; [reflexivity|].
    destruct e; try exact S; try contradiction; intros r Ir; apply (R _ eq_refl eq_refl); exact (S r Ir).
  - intros (e & N & S). rewrite N. rewrite N in R. destruct e; try exact S; try contradiction; intros r Ir; apply (R _ eq_refl eq_refl); exact (S r Ir).
Qed.
Lemma settled_one es p : one_namespace p es -> settled es.
Proof. intros [L W] i e N Ns. right. rewrite L. eapply W; eauto. Qed.

Section Two.
Context (p : qident) (es1 es2 : list element) (O1 : one_namespace p es1) (O2 : one_namespace p es2).
Context (Pm : Permutation (declarations es1) (declarations es2)).

Lemma other e : is_namespace e = false -> (In e es1 <-> In e es2).
Proof.
  intros N. assert (A : forall es, In e es <-> In e (declarations es)) by (intros es; rewrite declarations_In; tauto). rewrite (A es1), (A es2).
  split; apply Permutation_in; [exact Pm|symmetry; exact Pm].
Qed.

(** The order in which the first is resolved. *)
Lemma run_order st' : run snake es1 st' -> exists order : list (nat * element),
  (forall i e, nth_error es2 i = Some e -> is_namespace e = false -> exists k, In (k, e) order) /\
  (forall x k e y, order = x ++ (k, e) :: y -> forall r, In r (refs e) ->
     (exists k' e', In (k', e') x /\ In e' es2 /\ In (full_name p r) (declared_names p e')) \/
     (match e with ERoot _ | ERpc _ => False | _ => True end /\ exists t, In (ETable t) es2 /\ full_name p r = local_name p (ap_id t))).
Proof.
  intros U. set (l := u_first _ _ _ U ++ u_later _ _ _ U). exists (succeeded l). split.
  - intros i e N Ns. apply nth_error_In in N. apply (other e Ns) in N. apply In_nth_error in N as (k & N). exists k.
    apply (Permutation_in _ (Permutation_sym (u_done _ _ _ U))). apply indexed_nth. rewrite Nat.sub_0_r. auto with arith.
  - intros x k e y E r Ir.
    assert (Sp : exists a b, l = a ++ ((k, e), true) :: b /\ succeeded a = x).
    { clear - E. revert x E. induction l as [|[pe ok] l IH]; intros x E; [destruct x; discriminate E|]. rewrite succeeded_cons in E. destruct ok.
      - destruct x as [|z x]; cbn [app] in E.
        + injection E as -> _. exists [], l. auto.
        + injection E as -> E. destruct (IH x E) as (a & b & -> & S). exists ((z, true) :: a), b. split; [reflexivity|]. rewrite succeeded_cons, S. reflexivity.
      - destruct (IH x E) as (a & b & -> & S). exists ((pe, false) :: a), b. split; [reflexivity|]. rewrite succeeded_cons. exact S. }
    destruct Sp as (a & b & El & Sa). pose proof (run_tries snake _ _ U) as T. fold l in T. rewrite El in T. apply tries_split in T as (s & Ta & Tb). apply tries_uncons in Tb as (s1 & H & Tb).
    assert (Pre : forall a i e ok b s, l = a ++ ((i, e), ok) :: b -> tries initial a s -> nth_error es1 i = Some e /\ (is_namespace e = false -> current_prefix s = p)).
    { intros a0 i0 e0 ok0 b0 s0 E0 T0. destruct (run_prefix snake _ _ U _ _ _ _ _ _ E0 T0) as (N0 & C0). split; [exact N0|]. intros Ns. destruct O1 as [L W].
      destruct C0 as [[-> _]|[-> _]]; [eapply W; eauto|exact L]. }
    destruct (Pre _ _ _ _ _ _ El Ta) as [Nk Ck].
    assert (Ns : is_namespace e = false) by (destruct e; try reflexivity; destruct Ir). specialize (Ck Ns).
    pose proof H as H0. apply step_declares in H as (out & D & _). rewrite Ck in D. destruct (declares_refs _ _ _ _ _ _ r D Ir) as (c & V).
    assert (Src : forall q c, tget (r_types s) q = Some (Defined c) -> exists k' e', In (k', e') x /\ In e' es2 /\ In q (declared_names p e')).
    { intros q c' Q. destruct (tries_sources _ _ _ _ Ta q c' Q) as [X|(a1 & i1 & e1 & b1 & s2 & Ea & Ta1 & Iq)]; [discriminate X|].
      assert (El1 : l = a1 ++ ((i1, e1), true) :: (b1 ++ ((k, e), true) :: b)) by (rewrite El, Ea, <- app_assoc; reflexivity).
      destruct (Pre _ _ _ _ _ _ El1 Ta1) as [N1 C1]. assert (Ns1 : is_namespace e1 = false) by (destruct e1; try reflexivity; destruct Iq). specialize (C1 Ns1).
      exists i1, e1. split; [rewrite <- Sa; apply succeeded_In; rewrite Ea; apply in_elt|]. split; [apply (other e1 Ns1); eapply nth_error_In; eauto|congruence]. }
    assert (V' : defined_in s (full_name p r) c \/ (match e with ERoot _ | ERpc _ => False | _ => True end /\ view_of (lookup_state s e) (full_name p r) c)) by (destruct e; auto).
    destruct V' as [V'|[Ne V']]; [left; eapply Src; exact V'|]. apply lookup_view in V' as [[V'|[V' ->]]|(t & -> & Eq & ->)].
    + left. eapply Src; exact V'.
    + right. split; [exact Ne|]. destruct (tries_declared _ _ _ _ Ta _ V') as [X|(a1 & j & t & b1 & s2 & s3 & Ea & Ta1 & H2 & Eq)]; [discriminate X|].
      assert (El1 : l = a1 ++ ((j, ETable t), false) :: (b1 ++ ((k, e), true) :: b)) by (rewrite El, Ea, <- app_assoc; reflexivity).
      destruct (Pre _ _ _ _ _ _ El1 Ta1) as [N1 C1]. specialize (C1 eq_refl). exists t. split; [apply (other (ETable t) eq_refl); eapply nth_error_In; eauto|congruence].
    + right. split; [exact Logic.I|]. exists t. split; [apply (other (ETable t) eq_refl); eapply nth_error_In; eauto|congruence].
Qed.

Lemma resolves_iff r1 : build snake es1 = Done r1 ->
  ((exists r2, build snake es2 = Done r2) <-> declarations es2 = [] \/ exists i, can_start p es2 i).
Proof.
  intros B. apply build_run in B as (st' & (U & _) & _). destruct (run_resolution snake es1 st' U) as (place & outs & R & _ & _ & _).
  set (roots := roots_of (r_roots st')) in *. pose proof (one_namespace_declares _ _ _ _ _ _ O1 R) as F. set (V := fun q c => In (q, c) (definitions (concat outs))) in *.
  assert (Vfun : forall q c c', V q c -> V q c' -> c = c') by (apply functional_of; apply (res_distinct _ _ _ _ _ R)).
  assert (Placed : forall e, In e es2 -> placed snake p V roots e).
  { intros e I. destruct (is_namespace e) eqn:Ns; [left; exact Ns|right]. apply (other e Ns) in I. destruct (Forall2_In_l _ _ _ _ F I) as (out & Io & D). exists out. split; [exact D|].
    intros q c Q. eapply definitions_In; eauto. }
  assert (Distinct : forall i j e e' q, nth_error es2 i = Some e -> nth_error es2 j = Some e' -> In q (declared_names p e) -> In q (declared_names p e') -> i = j).
  { intros i j e e' q. apply NoDup_flat_nth. rewrite names_declarations. apply Permutation_NoDup with (l := flat_map (declared_names p) (declarations es1)); [rewrite Pm; reflexivity|].
    rewrite <- names_declarations. eapply declared_names_distinct; [exact F|apply (res_distinct _ _ _ _ _ R)]. }
  pose proof (run_order st' U) as Order.
  assert (At : forall i e, nth_error es2 i = Some e -> is_namespace e = false -> written_prefix es2 i = p) by (destruct O2 as [_ W]; exact W).
  assert (Names : forall i e q, nth_error es2 i = Some e -> In q (declared_names (written_prefix es2 i) e) -> In q (declared_names p e)).
  { intros i e q N I. destruct (is_namespace e) eqn:Ns; [destruct e; try discriminate Ns; destruct I|]. rewrite (At i e N Ns) in I. exact I. }
  assert (Names' : forall i e q, nth_error es2 i = Some e -> In q (declared_names p e) -> In q (declared_names (written_prefix es2 i) e)).
  { intros i e q N I. destruct (is_namespace e) eqn:Ns; [destruct e; try discriminate Ns; destruct I|]. rewrite (At i e N Ns). exact I. }
  rewrite (placed_iff V roots es2).
  - split; (intros [K|(i & K)]; [left; exact K|right; exists i; apply (begin_iff p es2 i O2); exact K]).
  - exact (settled_one es2 p O2).
  - exact Vfun.
  - intros i e N. destruct (Placed e (nth_error_In _ _ N)) as [Ns|Pl]; [left; exact Ns|]. destruct (is_namespace e) eqn:Ns; [left; exact Ns|]. rewrite (At i e N Ns). right. exact Pl.
  - intros i j e e' q Ni Nj Ii Ij. exact (Distinct i j e e' q Ni Nj (Names _ _ _ Ni Ii) (Names _ _ _ Nj Ij)).
  - destruct Order as (order & Oall & Odep).
    assert (All : forall n x k e y i, length x < n -> order = x ++ (k, e) :: y -> nth_error es2 i = Some e -> is_namespace e = false -> definable es2 i).
    { induction n as [|n IH]; intros x k e y i L E N Ns; [lia|]. apply (definable_at es2 i e N). rewrite (At i e N Ns). intros q Iq.
      destruct (Odep _ _ _ _ E q Iq) as [(k' & e' & Ix & I' & Nm)|(Ne & t & It & Eq)].
      - apply In_nth_error in I' as (j & Nj). exists j, e'. split; [exact Nj|]. split; [eapply Names'; eauto|]. left. apply in_split in Ix as (x1 & x2 & ->).
        rewrite app_length in L. cbn [length] in L. rewrite <- app_assoc in E. apply (IH x1 k' e' _ j ltac:(lia) E Nj). destruct e'; try reflexivity; destruct Nm.
      - apply In_nth_error in It as (j & Nj). exists j, (ETable t). split; [exact Nj|]. split; [apply (Names' j (ETable t) _ Nj); cbn; auto|]. right. split; [|eauto]. destruct e; try reflexivity; destruct Ne. }
    intros i e N Ns. destruct (Oall i e N Ns) as (k & Ik). apply in_split in Ik as (x & y & E). eapply (All (S (length x))); eauto.
Qed.

(** The same definitions. *)
Lemma same_known st1 place1 roots1 outs1 place2 roots2 outs2 : run snake es1 st1 ->
  resolution snake es1 place1 roots1 outs1 -> (forall q c, tget (r_types st1) q = Some (Defined c) <-> In (q, c) (definitions (concat outs1))) ->
  resolution snake es2 place2 roots2 outs2 ->
  forall q c, In (q, c) (definitions (concat outs1)) -> In (q, c) (definitions (concat outs2)).
Proof.
  intros U R1 D1 R2. pose proof (one_namespace_declares _ _ _ _ _ _ O2 R2) as F. set (V := fun q c => In (q, c) (definitions (concat outs2))) in *.
  assert (Vfun : forall q c c', V q c -> V q c' -> c = c') by (apply functional_of; apply (res_distinct _ _ _ _ _ R2)).
  assert (Placed : forall e, In e es1 -> placed snake p V roots2 e).
  { intros e I. destruct (is_namespace e) eqn:Ns; [left; exact Ns|right]. apply (other e Ns) in I. destruct (Forall2_In_l _ _ _ _ F I) as (out & Io & D). exists out. split; [exact D|].
    intros q c Q. eapply definitions_In; eauto. }
  set (l := u_first _ _ _ U ++ u_later _ _ _ U).
  assert (W : forall a b s, l = a ++ b -> tries initial a s -> within V s).
  { induction a as [|[[i e] ok] a IH] using rev_ind; intros b s E Ta.
    - inversion Ta; subst. intros q c [Q|[Q _]]; discriminate Q.
    - apply tries_split in Ta as (s0 & Ta & Tb). apply tries_uncons in Tb as (s1 & H & Tb). inversion Tb; subst. rewrite <- app_assoc in E. cbn [app] in E.
      destruct (run_prefix snake _ _ U _ _ _ _ _ _ E Ta) as (N & C). eapply (within_step snake p V roots2 Vfun s0 i e s ok); [apply Placed; eapply nth_error_In; eauto| |eapply IH; eauto|exact H].
      intros Ns. destruct O1 as [L W]. destruct C as [[-> _]|[-> _]]; [eapply W; eauto|exact L]. }
  intros q c I. apply D1 in I. apply (W l [] st1); [symmetry; apply app_nil_r|apply (run_tries snake _ _ U)|left; exact I].
Qed.
End Two.

Lemma roots_iff p es place roots outs : one_namespace p es -> resolution snake es place roots outs ->
  forall q, roots q = true <-> exists e, In e (declarations es) /\ says_root p e q.
Proof.
  intros O R q. pose proof (one_namespace_place _ _ _ _ _ _ O R) as P. split.
  - intros T. destruct (res_root _ _ _ _ _ R q T) as (i & e & p' & N & C & S). assert (Ns : is_namespace e = false) by (destruct e; try reflexivity; destruct S).
    exists e. split; [apply declarations_In; split; [eapply nth_error_In; eauto|exact Ns]|]. destruct O as [L W]. replace p with p'; [exact S|]. destruct C as [->| ->]; [eapply W; eauto|exact L].
  - intros (e & I & S). apply declarations_In in I as [I Ns]. apply In_nth_error in I as (i & N). eapply (res_marked _ _ _ _ _ R); [exact N|]. rewrite (P i e N Ns). exact S.
Qed.

Lemma Forall2_drop p roots v es outs : Forall2 (fun e out => declares snake roots v p e out) es outs ->
  exists outs', Forall2 (fun e out => declares snake roots v p e out) (declarations es) outs' /\ concat outs' = concat outs.
Proof.
  induction 1 as [|e out es outs D F (outs' & F' & E)]; [exists []; split; [constructor|reflexivity]|]. unfold declarations. cbn [filter]. destruct (is_namespace e) eqn:Ns; cbn [negb].
  - exists outs'. split; [exact F'|]. destruct e; try discriminate Ns. inversion D; subst. exact E.
  - exists (out :: outs'). split; [constructor; assumption|]. cbn [concat]. rewrite E. reflexivity.
Qed.
Lemma Forall2_perm {A B} (P : A -> B -> Prop) : (forall a b b', P a b -> P a b' -> b = b') ->
  forall l l', Permutation l l' -> forall m m', Forall2 P l m -> Forall2 P l' m' -> Permutation m m'.
Proof.
  intros Fn. induction 1 as [|a l l' H IH|a b l|l l' l'' H1 IH1 H2 IH2]; intros m m' F F'.
  - inversion F; inversion F'; subst. constructor.
  - inversion F as [|? x ? n Px Fn1]; inversion F' as [|? x' ? n' Px' Fn2]; subst. rewrite (Fn _ _ _ Px Px'). constructor. eauto.
  - inversion F as [|? x ? n Px F1]; subst. inversion F1 as [|? y ? n1 Py F2]; subst. inversion F' as [|? x' ? n' Px' F1']; subst. inversion F1' as [|? y' ? n1' Py' F2']; subst.
    rewrite (Fn _ _ _ Px Py'), (Fn _ _ _ Py Px'). assert (n1 = n1'); [|subst; constructor].
    clear - Fn F2 F2'. revert n1' F2'. induction F2 as [|? ? ? ? Q F2 IH]; intros n F'; inversion F'; subst; [reflexivity|]. f_equal; eauto.
  - assert (Ex : exists n, Forall2 P l' n).
    { assert (A1 : Forall (fun a => exists b, P a b) l) by (clear - F; induction F; constructor; eauto).
      apply (Permutation_Forall H1) in A1. clear - A1. induction A1 as [|a l' (b & Q) _ (n & IH)]; [exists []; constructor|exists (b :: n); constructor; auto]. }
    destruct Ex as (n & Fn'). transitivity n; eauto.
Qed.
Lemma concat_perm {A} (l l' : list (list A)) : Permutation l l' -> Permutation (concat l) (concat l').
Proof.
  induction 1 as [|x l l' H IH|x y l|l l' l'' H1 IH1 H2 IH2]; cbn [concat].
  - constructor.
  - apply Permutation_app_head. exact IH.
  - rewrite !app_assoc. apply Permutation_app_tail. apply Permutation_app_comm.
  - transitivity (concat l'); assumption.
Qed.

Lemma same_definitions p es1 es2 r1 r2 : one_namespace p es1 -> one_namespace p es2 -> Permutation (declarations es1) (declarations es2) ->
  build snake es1 = Done r1 -> build snake es2 = Done r2 -> Permutation (all_contents r1) (all_contents r2).
Proof.
  intros O1 O2 Pm B1 B2.
  assert (G : forall es r, build snake es = Done r -> exists st place roots outs, (exists _ : run snake es st, True) /\ resolution snake es place roots outs /\
    (forall q c, tget (r_types st) q = Some (Defined c) <-> In (q, c) (definitions (concat outs))) /\ Permutation (all_contents r) (map (fun n => (module_of n, n)) (concat outs))).
  { intros es r B. pose proof (build_run snake es r B) as (st & (U & _) & ->). destruct (run_resolution snake es st U) as (place & outs & R & E & D & _).
    exists st, place, (roots_of (r_roots st)), outs. split; [exists U; exact Logic.I|]. split; [exact R|]. split; [exact D|]. apply contents_perm. intros path. rewrite E. apply arrange_under.
    apply Forall_concat. apply Forall_forall. intros out I. apply In_nth_error in I as (i & N).
    assert (L : i < length es) by (rewrite <- (res_length _ _ _ _ _ R); apply nth_error_Some; congruence).
    destruct (nth_error es i) as [e|] eqn:Ne; [|apply nth_error_None in Ne; lia]. destruct (res_declares _ _ _ _ _ R i e Ne) as (out' & No & Dc).
    assert (out' = out) by congruence. subst. eapply declares_plain; eauto. }
  destruct (G _ _ B1) as (st1 & place1 & roots1 & outs1 & (U1 & _) & R1 & D1 & C1). destruct (G _ _ B2) as (st2 & place2 & roots2 & outs2 & (U2 & _) & R2 & D2 & C2). clear G.
  rewrite C1, C2. apply Permutation_map.
  assert (E : forall q c, In (q, c) (definitions (concat outs1)) <-> In (q, c) (definitions (concat outs2))).
  { intros q c. split; [eapply (same_known p es1 es2 O1 O2 Pm); eauto|eapply (same_known p es2 es1 O2 O1 (Permutation_sym Pm)); eauto]. }
  assert (Er : forall q, roots1 q = roots2 q).
  { intros q. apply eq_true_iff_eq. rewrite (roots_iff p es1 _ _ _ O1 R1), (roots_iff p es2 _ _ _ O2 R2). split; intros (e & I & S); exists e; (split; [|exact S]); eapply Permutation_in; try exact I; [exact Pm|symmetry; exact Pm]. }
  pose proof (one_namespace_declares _ _ _ _ _ _ O1 R1) as F1. pose proof (one_namespace_declares _ _ _ _ _ _ O2 R2) as F2.
  set (V := fun q c => In (q, c) (definitions (concat outs2))) in *.
  assert (F1' : Forall2 (fun e out => declares snake roots2 V p e out) es1 outs1).
  { assert (Im : forall e out, declares snake roots1 (fun q c => In (q, c) (definitions (concat outs1))) p e out -> declares snake roots2 V p e out); [|clear - F1 Im; induction F1; constructor; auto].
    intros e out D. eapply declares_roots_ext; [exact Er|]. eapply declares_mono; [|exact D]. intros q c. apply E. }
  destruct (Forall2_drop _ _ _ _ _ F1') as (o1 & G1 & <-). destruct (Forall2_drop _ _ _ _ _ F2) as (o2 & G2 & E2). rewrite <- E2. apply concat_perm.
  eapply Forall2_perm; [|exact Pm|exact G1|exact G2]. intros e o o' A B.
  eapply (declares_fun snake V V (fun _ _ H => H) p); [apply functional_of; apply (res_distinct _ _ _ _ _ R2)|exact A|exact B].
Qed.
End Facts.

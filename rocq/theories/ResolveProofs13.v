(** Schema resolution: exactly which schemas are accepted. *)
From Coq Require Import Strings.String ZArith List Bool Lia Strings.Byte Permutation.
From Verif Require Import Base BaseFacts Schema Ident Codegen GenProofs1 GenProofs8 Resolve SpecResolve SpecFormed SpecEvolve ResolveProofs1 ResolveProofs2 ResolveProofs3 ResolveProofs4 ResolveProofs5 ResolveProofs6 ResolveProofs7 ResolveProofs8.
Import ListNotations.
Local Open Scope nat_scope.

Section Facts.
Context (snake : text -> text).

(** ** Making definitions *)
Section Make.
Context (p : qident) (view : qident -> icustom -> Prop) (roots : qident -> bool).
Lemma resolves_make t : (forall r, In r (ty_refs t) -> exists c, view (full_name p r) c) -> exists u, resolves view p t u.
Proof.
  induction t as [| |t IH|q]; intros R.
  - eexists; constructor.
  - eexists; constructor.
  - destruct IH as (u & U); [exact R|]. eexists; constructor; exact U.
  - destruct (R q) as (c & C); [left; reflexivity|]. eexists; constructor; exact C.
Qed.
Lemma table_make fs : (forall r, In r (flat_map (fun f => ty_refs (af_ty f)) fs) -> exists c, view (full_name p r) c) ->
  (forall q e vs, view q (KUnion e vs) -> exists c, view e c) -> exists l, table_fields_of snake view p fs l.
Proof.
  induction fs as [|f fs IH]; intros R U; [eexists; constructor|]. cbn [flat_map] in R.
  destruct IH as (l & L); [intros r I; apply R; apply in_or_app; auto|exact U|].
  destruct (resolves_make (af_ty f)) as (ty & T); [intros r I; apply R; apply in_or_app; auto|].
  destruct (is_union ty) eqn:N.
  - destruct ty as [| | |q [| | |e vs]]; try discriminate N.
    assert (V : exists c, view e c). { inversion T; subst. eapply U; eauto. }
    destruct V as (c & V). eexists. eapply tf_union; eauto.
  - eexists. eapply tf_plain; eauto.
Qed.
Lemma union_make vs : (forall r, In r (map (fun v => [av_id v]) vs) -> exists c, view (full_name p r) c) -> exists l, union_variants_of view p vs l.
Proof.
  induction vs as [|v vs IH]; intros R; [eexists; constructor|]. cbn [map] in R. destruct IH as (l & L); [intros r I; apply R; right; exact I|].
  destruct (resolves_make (AIdent [av_id v])) as (ty & T); [intros r [<-|[]]; apply R; left; reflexivity|]. eexists. econstructor; eauto.
Qed.
Lemma struct_make fs : (forall f, In f fs -> exists ty, resolves view p (af_ty f) ty /\ is_scalar ty = true) -> exists l, struct_fields_of view p fs l.
Proof.
  induction fs as [|f fs IH]; intros R; [eexists; constructor|]. destruct IH as (l & L); [intros g I; apply R; right; exact I|].
  destruct (R f) as (ty & T & S); [left; reflexivity|]. eexists. econstructor; eauto.
Qed.
Lemma methods_make ms : (forall m, In m ms -> view (full_name p (am_request m)) KTable /\ view (full_name p (am_response m)) KTable /\ exists s, streaming_is (am_meta m) s) ->
  exists l, methods_of snake view p ms l.
Proof.
  induction ms as [|m ms IH]; intros R; [eexists; constructor|]. destruct IH as (l & L); [intros g I; apply R; right; exact I|].
  destruct (R m) as (A & B & s & S); [left; reflexivity|]. eexists. econstructor; eauto.
Qed.
End Make.

Lemma enum_base_iff t : (exists b, enum_base t = Some b) <-> exists b, t = APrim b /\ ~ In b [Bool; Float; Double; Float32; Float64].
Proof.
  split.
  - intros (b & E). destruct t as [x| | |]; try discriminate E. exists x. split; [reflexivity|]. intros I. cbn [In] in I. decompose [or] I; subst; try discriminate E; auto.
  - intros (b & -> & N). cbn [In] in N. destruct b; cbn; eauto; tauto.
Qed.

(** ** Definitions in levels *)
Section Levels.
Context (es : list element).
Notation at_ := (written_prefix es).
Context (Nd : forall i j q, gives_name es i q -> gives_name es j q -> i = j) (Al : forall i e, nth_error es i = Some e -> allowed es i e).

Fixpoint level (n : nat) (q : qident) (c : icustom) : Prop :=
  match n with
  | O => c = KTable /\ names_table es q
  | S n => level n q c \/ exists i e out, nth_error es i = Some e /\ declares snake unmarked (level n) (at_ i) e out /\ In (q, c) (definitions out)
  end.
Lemma level_le n m q c : n <= m -> level n q c -> level m q c.
Proof. induction 1; [auto|]. intros L. left. auto. Qed.
Lemma level_source n q c : level n q c ->
  exists i e, nth_error es i = Some e /\ In q (declared_names (at_ i) e) /\
    ((exists t, e = ETable t) /\ c = KTable \/ exists m out, m < n /\ declares snake unmarked (level m) (at_ i) e out /\ In (q, c) (definitions out)).
Proof.
  induction n as [|n IH]; cbn [level].
  - intros (-> & i & t & I & ->). exists i, (ETable t). split; [exact I|]. split; [cbn; auto|]. left. split; [eauto|reflexivity].
  - intros [L|(i & e & out & I & D & J)].
    + destruct (IH L) as (i & e & I & N & K). exists i, e. split; [exact I|]. split; [exact N|]. destruct K as [K|(m & out & Lm & K)]; [auto|]. right. exists m, out. split; [lia|exact K].
    + exists i, e. split; [exact I|]. split; [apply (declares_name _ _ _ _ _ _ q D); eauto|]. right. exists n, out. auto.
Qed.
Lemma same_place i j e e' q : nth_error es i = Some e -> nth_error es j = Some e' -> In q (declared_names (at_ i) e) -> In q (declared_names (at_ j) e') -> i = j /\ e = e'.
Proof.
  intros I I' N N'. assert (i = j) by (apply (Nd i j q); [exists e|exists e']; auto). subst j. split; [reflexivity|congruence].
Qed.
Lemma names_once p e : NoDup (declared_names p e).
Proof.
  destruct e; cbn [declared_names]; repeat constructor; cbn; try tauto. intros [E|[]]. unfold local_name, companion_name in E. apply app_inv_head in E. discriminate E.
Qed.
Lemma out_functional v p e out q c c' : declares snake unmarked v p e out -> In (q, c) (definitions out) -> In (q, c') (definitions out) -> c = c'.
Proof.
  intros D. apply functional_of. rewrite (declares_names _ _ _ _ _ _ D). pose proof (names_once p e) as N. destruct e; try exact N. apply NoDup_rev. exact N.
Qed.
Lemma level_functional n : forall q c c', level n q c -> level n q c' -> c = c'.
Proof.
  induction n as [n IH] using lt_wf_ind. intros q c c' L L'.
  apply level_source in L as (i & e & I & N & K). apply level_source in L' as (i' & e' & I' & N' & K'). destruct (same_place i i' e e' q I I' N N') as [<- <-].
  destruct K as [[(t & ->) ->]|(m & out & Lm & D & J)], K' as [[(t' & E') ->]|(m' & out' & Lm' & D' & J')].
  - reflexivity.
  - inversion D'; subst. cbn in J'. destruct J' as [J'|[]]. congruence.
  - subst e. inversion D; subst. cbn in J. destruct J as [J|[]]. congruence.
  - assert (D1 : declares snake unmarked (level (max m m')) (at_ i) e out) by (eapply declares_mono; [|exact D]; intros; eapply level_le; [|eassumption]; lia).
    assert (D2 : declares snake unmarked (level (max m m')) (at_ i) e out') by (eapply declares_mono; [|exact D']; intros; eapply level_le; [|eassumption]; lia).
    assert (out = out').
    { eapply (declares_fun snake (level (max m m')) (level (max m m')) (fun _ _ H => H) (at_ i)); [|exact D1|exact D2]. apply IH. lia. }
    subst out'. eapply out_functional; eauto.
Qed.
Definition defs (q : qident) (c : icustom) : Prop := exists n, level n q c.
Lemma defs_functional q c c' : defs q c -> defs q c' -> c = c'.
Proof. intros (n & L) (m & M). apply (level_functional (max n m) q); eapply level_le; try eassumption; lia. Qed.
Lemma level_companion n q e vs : level n q (KUnion e vs) -> exists c, level n e c.
Proof.
  induction n as [|n IH]; cbn [level]; [intros [X _]; discriminate X|]. intros [L|(i & x & out & I & D & J)].
  - destruct (IH L) as (c & K). eauto.
  - destruct D; cbn in J; try tauto; try (destruct J as [J|[]]; discriminate J). destruct J as [J|[J|[]]]; [discriminate J|]. injection J as <- <- <-.
    eexists. right. exists i, (EUnion u). eexists. split; [exact I|]. split; [econstructor; eassumption|]. cbn. left. reflexivity.
Qed.
Lemma table_level n q : names_table es q -> level n q KTable.
Proof. intros T. apply (level_le 0); [lia|]. split; [reflexivity|exact T]. Qed.

(** What is definable is at some level. *)
Lemma refs_level (rs : list qident) (P : nat -> qident -> Prop) : (forall n m r, n <= m -> P n r -> P m r) ->
  (forall r, In r rs -> exists n, P n r) -> exists n, forall r, In r rs -> P n r.
Proof.
  intros M. induction rs as [|r rs IH]; intros H; [exists 0; intros r []|]. destruct IH as (n & N); [intros x I; apply H; right; exact I|].
  destruct (H r) as (m & K); [left; reflexivity|]. exists (max n m). intros x [<-|I]; [eapply M; [|exact K]; lia|eapply M; [|exact (N x I)]; lia].
Qed.
Lemma definable_level i : definable es i -> exists n e out, nth_error es i = Some e /\ declares snake unmarked (level n) (at_ i) e out.
Proof.
  revert i. refine (definable_rec es _ _). intros i e I R.
  assert (K : exists n, forall r, In r (refs e) -> exists c, level n (full_name (at_ i) r) c).
  { apply (refs_level (refs e) (fun n r => exists c, level n (full_name (at_ i) r) c)); [intros n m r L (c & C); exists c; eapply level_le; eauto|].
    intros r Ir. destruct (R r Ir) as (j & e' & I' & N & [[_ (n & e2 & out & I2 & D)]|[_ (t & ->)]]).
    - assert (e2 = e') by congruence. subst e2. apply (declares_name _ _ _ _ _ _ _ D) in N as (c & N). exists (S n), c. right. exists j, e', out. auto.
    - exists 0, KTable. cbn [declared_names In] in N. destruct N as [N|[]]. split; [reflexivity|]. exists j, t. auto. }
  destruct K as (n & K). pose proof (Al i e I) as A. exists n, e. destruct e; cbn [allowed] in A; try contradiction; cbn [refs] in K.
  - eexists. split; [exact I|]. constructor.
  - destruct (table_make (at_ i) (level n) (ap_fields t) K) as (l & L); [intros; eapply level_companion; eauto|]. eexists. split; [exact I|]. constructor. exact L.
  - destruct (struct_make (at_ i) (level n) (ap_fields t)) as (l & L); [|eexists; split; [exact I|]; constructor; exact L]. intros f If. specialize (A f If).
    destruct (resolves_make (at_ i) (level n) (af_ty f)) as (ty & T).
    { intros r Ir. apply K. apply in_flat_map. eauto. }
    exists ty. split; [exact T|]. destruct T as [| | |q c V]; try contradiction; [reflexivity|].
    destruct A as (k & x & Ix & X). apply level_source in V as (j & e' & I' & N & S).
    assert (Ne : In (full_name (at_ i) q) (declared_names (at_ k) x)) by (destruct x; try contradiction; rewrite X; cbn; auto).
    destruct (same_place j k e' x _ I' Ix N Ne) as [-> ->]. destruct S as [[(t' & ->) _]|(m & out & _ & D & J)]; [contradiction X|].
    destruct D; try contradiction; cbn in J.
    + destruct J as [J|[]]. injection J as _ <-. reflexivity.
    + destruct J as [J|[]]. injection J as _ <-. reflexivity.
    + destruct J as [J|[J|[]]]; [injection J as _ <-; reflexivity|]. injection J as J _. rewrite X in J. exfalso. unfold local_name, companion_name in J. apply app_inv_head in J. discriminate J.
  - apply enum_base_iff in A as (b & B). eexists. split; [exact I|]. constructor. exact B.
  - destruct (union_make (at_ i) (level n) (au_variants u) K) as (l & L). eexists. split; [exact I|]. constructor. exact L.
  - eexists. split; [exact I|]. constructor. apply table_level. exact A.
  - destruct (methods_make (at_ i) (level n) (ar_methods r)) as (l & L); [|eexists; split; [exact I|]; constructor; exact L]. intros m Im. destruct (A m Im) as (T1 & T2 & S). auto using table_level.
Qed.
End Levels.

Lemma well_formed_builds es : settled es -> well_formed es -> exists r, build snake es = Done r.
Proof.
  intros Sd [Nd Al Df St]. apply (placed_iff snake (defs es) unmarked es Sd); [| | | |exact St].
  - exact (defs_functional es Nd Al).
  - intros i e I. right. destruct (definable_level es Nd Al i (Df i e I)) as (n & e' & out & I' & D). assert (e' = e) by congruence. subst e'. exists out. split.
    + eapply declares_mono; [|exact D]. intros q c L. exists n. exact L.
    + intros q c J. exists (S n). right. exists i, e, out. auto.
  - intros i j e e' q Ni Nj Ii Ij. apply (Nd i j q); [exists e|exists e']; auto.
  - intros i e N _. eauto.
Qed.

(** ** What is accepted is well-formed *)
Lemma view_names v roots p e out q c : declares snake roots v p e out -> In (q, c) (definitions out) -> c = KTable -> exists t, e = ETable t /\ q = local_name p (ap_id t).
Proof.
  intros D J ->. destruct D; cbn in J; try tauto; try (destruct J as [J|[]]; discriminate J).
  - destruct J as [J|[]]. injection J as <-. eauto.
  - destruct J as [J|[J|[]]]; discriminate J.
Qed.
(** Definitions of the same name are in the same place. *)
Lemma outs_once (outs : list (list node)) : NoDup (map fst (definitions (concat outs))) -> forall i j oi oj q c c',
  nth_error outs i = Some oi -> nth_error outs j = Some oj -> In (q, c) (definitions oi) -> In (q, c') (definitions oj) -> i = j.
Proof.
  intros N i j oi oj q c c' Ni Nj Ii Ij. apply (NoDup_flat_nth (fun o => map fst (definitions o)) outs) with (a := oi) (b := oj) (x := q); auto.
  - clear - N. induction outs as [|o outs IH]; [constructor|]. cbn [concat flat_map] in *. rewrite definitions_app, map_app in N.
    replace (flat_map (fun o => map fst (definitions o)) outs) with (map fst (definitions (concat outs))); [exact N|]. clear. induction outs as [|o outs IH]; [reflexivity|]. cbn [concat flat_map]. rewrite definitions_app, map_app, IH. reflexivity.
  - apply in_map_iff. exists (q, c). auto.
  - apply in_map_iff. exists (q, c'). auto.
Qed.
Lemma run_definable es st' : settled es -> run snake es st' -> forall i e, nth_error es i = Some e -> definable es i.
Proof.
  intros Sd U. set (l := u_first _ _ _ U ++ u_later _ _ _ U).
  assert (Pre : forall a i e ok b s, l = a ++ ((i, e), ok) :: b -> tries snake initial a s -> nth_error es i = Some e /\ current_prefix s = written_prefix es i).
  { intros a i e ok b s E T. destruct (run_prefix snake _ _ U _ _ _ _ _ _ E T) as (N & C). split; [exact N|]. destruct C as [[C _]|(C & If & Ns)]; [exact C|].
    destruct (Sd i e N Ns) as [St|St]; [apply (first_stays snake es st' U i e false If) in St; discriminate St|congruence]. }
  assert (All : forall n a i e b, length a < n -> l = a ++ ((i, e), true) :: b -> definable es i).
  { induction n as [|n IH]; intros a i e b L El; [lia|]. pose proof (run_tries snake _ _ U) as T. fold l in T. rewrite El in T. apply tries_split in T as (s & Ta & Tb). apply tries_uncons in Tb as (s1 & H & Tb).
    destruct (Pre _ _ _ _ _ _ El Ta) as [N C]. apply (definable_at es i e N). intros r Ir.
    apply step_declares in H as (out & D & _). rewrite C in D. destruct (declares_refs _ _ _ _ _ _ r D Ir) as (c & V).
    assert (Src : forall q c, tget (r_types s) q = Some (Defined c) -> exists j e', nth_error es j = Some e' /\ In q (declared_names (written_prefix es j) e') /\ definable es j).
    { intros q c' Q. destruct (tries_sources _ _ _ _ Ta q c' Q) as [X|(a1 & i1 & e1 & b1 & s2 & Ea & Ta1 & Iq)]; [discriminate X|].
      assert (El1 : l = a1 ++ ((i1, e1), true) :: (b1 ++ ((i, e), true) :: b)) by (rewrite El, Ea, <- app_assoc; reflexivity).
      destruct (Pre _ _ _ _ _ _ El1 Ta1) as [N1 C1]. exists i1, e1. split; [exact N1|]. split; [congruence|]. apply (IH a1 i1 e1 _) with (2 := El1). rewrite Ea, app_length in L. cbn [length] in L. lia. }
    assert (V' : defined_in s (full_name (written_prefix es i) r) c \/ (needs_definition e = false /\ view_of (lookup_state s e) (full_name (written_prefix es i) r) c)) by (destruct e; auto).
    destruct V' as [V'|[Ne V']]; [destruct (Src _ _ V') as (j & e' & Nj & Iq & Dj); exists j, e'; auto|]. apply lookup_view in V' as [[V'|[V' ->]]|(t & -> & Eq & ->)].
    - destruct (Src _ _ V') as (j & e' & Nj & Iq & Dj). exists j, e'. auto.
    - destruct (tries_declared _ _ _ _ Ta _ V') as [X|(a1 & j & t & b1 & s2 & s3 & Ea & Ta1 & H2 & Eq)]; [discriminate X|].
      assert (El1 : l = a1 ++ ((j, ETable t), false) :: (b1 ++ ((i, e), true) :: b)) by (rewrite El, Ea, <- app_assoc; reflexivity).
      destruct (Pre _ _ _ _ _ _ El1 Ta1) as [N1 C1]. exists j, (ETable t). split; [exact N1|]. split; [rewrite Eq, C1; cbn; auto|]. right. eauto.
    - exists i, (ETable t). split; [exact N|]. rewrite C in Eq. split; [rewrite Eq; cbn; auto|]. right. eauto. }
  intros i e N. destruct (run_event snake _ _ U i e N) as (a & b & s & s1 & E & _). exact (All (S (length a)) a i e b ltac:(lia) E).
Qed.
Lemma builds_well_formed es r : settled es -> build snake es = Done r -> well_formed es.
Proof.
  intros Sd B. pose proof B as B0. apply build_run in B as (st' & (U & _) & _). destruct (run_resolution snake es st' U) as (place & outs & R & _ & _ & W).
  set (roots := roots_of (r_roots st')) in *. set (V := fun q c => In (q, c) (definitions (concat outs))) in *.
  assert (Pl : forall i e, nth_error es i = Some e -> is_namespace e = false -> place i = written_prefix es i).
  { intros i e N Ns. destruct (proj2 W i) as [[_ Q]|[Nst Q]]; [apply nth_error_Some; congruence|exact Q|]. destruct (Sd i e N Ns); [tauto|congruence]. }
  assert (F : forall i e, nth_error es i = Some e -> exists out, nth_error outs i = Some out /\ declares snake roots V (written_prefix es i) e out).
  { intros i e N. destruct (res_declares _ _ _ _ _ R i e N) as (out & No & D). exists out. split; [exact No|].
    assert (D' : declares snake roots V (place i) e out).
    { eapply declares_mono; [|exact D]. intros q c [K|K]; [exact K|]. assert (M : moved es place q) by (destruct e; tauto). destruct M as (j & t & Nj & _ & M). exfalso. apply M. exact (Pl j _ Nj eq_refl). }
    destruct (is_namespace e) eqn:Ns; [destruct e; try discriminate Ns; inversion D'; subst; constructor|]. rewrite <- (Pl i e N Ns). exact D'. }
  assert (Src : forall q c, V q c -> exists i e out, nth_error es i = Some e /\ declares snake roots V (written_prefix es i) e out /\ In (q, c) (definitions out)).
  { intros q c K. unfold V, definitions in K. apply in_flat_map in K as (n & In1 & K). apply in_concat in In1 as (out & Io & In1). apply In_nth_error in Io as (i & No).
    assert (L : i < length es) by (rewrite <- (res_length _ _ _ _ _ R); apply nth_error_Some; congruence).
    destruct (nth_error es i) as [e|] eqn:N; [|apply nth_error_None in N; lia]. destruct (F i e N) as (out' & No' & D). assert (out' = out) by congruence. subst out'.
    exists i, e, out. split; [exact N|]. split; [exact D|]. apply in_flat_map. eauto. }
  assert (Tab : forall q, V q KTable -> names_table es q).
  { intros q K. apply Src in K as (i & e & out & I & D & J). destruct (view_names _ _ _ _ _ _ _ D J eq_refl) as (t & -> & ->). exists i, t. auto. }
  assert (Once : forall i j q, gives_name es i q -> gives_name es j q -> i = j).
  { intros i j q (e & Ni & Ii) (e' & Nj & Ij). destruct (F i e Ni) as (oi & Oi & Di). destruct (F j e' Nj) as (oj & Oj & Dj).
    apply (declares_name _ _ _ _ _ _ q Di) in Ii as (c & Ii). apply (declares_name _ _ _ _ _ _ q Dj) in Ij as (c' & Ij).
    exact (outs_once outs (res_distinct _ _ _ _ _ R) i j oi oj q c c' Oi Oj Ii Ij). }
  pose proof (run_definable es st' Sd U) as Df.
  constructor; [exact Once| |exact Df|].
  - intros i e I. destruct (F i e I) as (out & _ & D). destruct D as [|id K|t fs Df'|t fs Df'|e base Db|u vs Du|m ms Dr]; cbn [allowed]; auto.
    + clear I. induction Df' as [|f fs ty l T Sc F' IH]; intros g J; [destruct J|]. destruct J as [<-|J]; [|exact (IH g J)].
      destruct T as [| | |q c K]; try exact Logic.I; try discriminate Sc. apply Src in K as (k & e & out & I & D & J). exists k, e. split; [exact I|].
      destruct D; cbn in J; try tauto; try (destruct J as [J|[]]; injection J as J <-; try discriminate Sc; auto).
      destruct J as [J|[J|[]]]; injection J as J <-; [auto|discriminate Sc].
    + apply enum_base_iff. eauto.
    + clear I. induction Dr as [|m0 ms s l K1 K2 S F' IH]; intros g J; [destruct J|]. destruct J as [<-|J]; [|exact (IH g J)]. split; [auto|]. split; [auto|eauto].
  - apply (placed_iff snake V roots es Sd); [| | | |eauto].
    + apply functional_of. apply (res_distinct _ _ _ _ _ R).
    + intros i e N. right. destruct (F i e N) as (out & No & D). exists out. split; [exact D|]. intros q c Q. eapply definitions_In; [eapply nth_error_In; exact No|exact Q].
    + intros i j e e' q Ni Nj Ii Ij. apply (Once i j q); [exists e|exists e']; auto.
    + intros i e N _. eauto.
Qed.

Lemma accepts_iff es : settled es -> ((exists r, build snake es = Done r) <-> well_formed es).
Proof. intros O. split; [intros (r & B); eapply builds_well_formed; eauto|apply well_formed_builds; exact O]. Qed.
Lemma accepts_one p es : one_namespace p es -> ((exists r, build snake es = Done r) <-> well_formed es).
Proof. intros O. apply accepts_iff. exact (settled_one es p O). Qed.
Lemma accepts_before es : declared_before_use es -> ((exists r, build snake es = Done r) <-> well_formed es).
Proof. intros B. apply accepts_iff. intros i e N _. left. exact (before_use_stays es B (S i) i e ltac:(lia) N). Qed.
Lemma rejects es : settled es -> (forall e, In e es -> supported e = true) -> ~ well_formed es -> exists x, build snake es = Fail x.
Proof. intros O Su N. destruct (build_total snake es Su) as [B|B]; [|exact B]. exfalso. apply N. apply accepts_iff; assumption. Qed.

Lemma formed_refuted :
  (exists tab f root, build snake [ETable tab] = Done root /\ ap_fields tab = [f; f]) /\
  (exists r m root, build snake [ETable (AProduct (lit "T") [] None []); ERpc r; ERpc r] = Done root /\ ar_methods r = [m; m]) /\
  (exists es x, one_namespace [] es /\ build snake es = Fail x /\ (forall i j q, gives_name es i q -> gives_name es j q -> i = j) /\
     (forall i e, nth_error es i = Some e -> allowed es i e /\ definable es i)).
Proof.
  split; [|split].
  - set (f := AField (lit "a") AString None None []). exists (AProduct (lit "T") [f; f] None []), f. eexists. split; reflexivity.
  - set (m := AMethod (lit "call") [lit "T"] [lit "T"] None []). set (r := ARpc (lit "S") [m; m] []). set (t := ETable (AProduct (lit "T") [] None [])).
    assert (At : forall i e, nth_error [t; ERpc r; ERpc r] i = Some e -> i = 0 /\ e = t \/ (i = 1 \/ i = 2) /\ e = ERpc r).
    { intros [|[|[|i]]] e N; [injection N as <-; auto|injection N as <-; auto|injection N as <-; auto|destruct i; discriminate N]. }
    assert (One : one_namespace [] [t; ERpc r; ERpc r]).
    { split; [reflexivity|]. intros i e N _. apply At in N as [[-> _]|[[->| ->] _]]; reflexivity. }
    assert (Tn : forall i, i = 1 \/ i = 2 -> full_name (written_prefix [t; ERpc r; ERpc r] i) [lit "T"] = local_name (written_prefix [t; ERpc r; ERpc r] 0) (lit "T")) by (intros i [->| ->]; vm_compute; reflexivity).
    assert (D0 : definable [t; ERpc r; ERpc r] 0) by (apply (definable_at [t; ERpc r; ERpc r] 0 t eq_refl); intros q []).
    enough (W : well_formed [t; ERpc r; ERpc r]) by (apply (proj2 (accepts_one _ _ One)) in W as (root & W); exists r, m, root; split; [exact W|reflexivity]).
    split.
    + intros i j q (e & Ni & Ii) (e' & Nj & Ij). apply At in Ni as [[-> ->]|[_ ->]]; [|destruct Ii]. apply At in Nj as [[-> ->]|[_ ->]]; [reflexivity|destruct Ij].
    + intros i e N. apply At in N as [[-> ->]|[Hi ->]]; [exact Logic.I|]. intros m' I. assert (Nt : names_table [t; ERpc r; ERpc r] (full_name (written_prefix [t; ERpc r; ERpc r] i) [lit "T"])) by (eexists 0, _; split; [reflexivity|apply Tn; exact Hi]).
      assert (m' = m) by (destruct I as [<-|[<-|[]]]; reflexivity). subst m'. split; [exact Nt|]. split; [exact Nt|]. eexists. constructor.
    + intros i e N. apply At in N as [[-> ->]|[Hi ->]]; [exact D0|]. apply (definable_at [t; ERpc r; ERpc r] i (ERpc r)); [destruct Hi as [->| ->]; reflexivity|].
      intros q I. assert (q = [lit "T"]) by (repeat (destruct I as [<-|I]; [reflexivity|]); destruct I). subst q. exists 0, t. split; [reflexivity|]. split; [rewrite (Tn i Hi); left; reflexivity|left; exact D0].
    + right. exists 0, t. split; [reflexivity|]. intros q [].
  - set (u := EUnion (AUnion (lit "U") [AVariant (lit "X") None []] None [])).
    set (x := ETable (AProduct (lit "X") [AField (lit "u") (AIdent [lit "U"]) None None []] None [])).
    assert (Du : definable [u; x] 0).
    { apply (definable_at [u; x] 0 u eq_refl). intros r [<-|[]]. exists 1, x. split; [reflexivity|]. split; [cbv; auto|]. right. split; [reflexivity|]. eexists. reflexivity. }
    assert (At : forall i e, nth_error [u; x] i = Some e -> i = 0 /\ e = u \/ i = 1 /\ e = x).
    { intros [|[|i]] e N; [injection N as <-; auto|injection N as <-; auto|destruct i; discriminate N]. }
    exists [u; x]. eexists. split; [split; [reflexivity|]|split; [reflexivity|split]].
    + intros i e N _. apply At in N as [[-> _]|[-> _]]; reflexivity.
    + intros i j q (e & Ni & Ii) (e' & Nj & Ij). apply At in Ni as [[-> ->]|[-> ->]]; apply At in Nj as [[-> ->]|[-> ->]]; try reflexivity; exfalso; cbv in Ii, Ij; intuition congruence.
    + intros i e N. apply At in N as [[-> ->]|[-> ->]]; (split; [exact Logic.I|]); [exact Du|]. apply (definable_at [u; x] 1 x eq_refl). intros r [<-|[]]. exists 0, u. split; [reflexivity|]. split; [cbv; auto|]. left. exact Du.
Qed.
End Facts.

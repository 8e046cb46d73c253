(** Exactly when code generation completes. *)
From Coq Require Import Strings.String ZArith List Bool Lia Strings.Byte Permutation.
From Verif Require Import Base BaseFacts Schema Ident SpecIdent IdentProofs Parser Heck HeckProofs Codegen GenProofs1 GenProofs8 Resolve SpecResolve ResolveProofs1 ResolveProofs4 ResolveProofs5 ResolveProofs6 ResolveProofs7 ResolveProofs8 ResolveProofs9 Emit SpecEmit SpecPaths SpecWrite EmitProofs1 EmitProofs2 EmitProofs4 EmitProofs5 EmitProofs6 EmitProofs7 EmitProofs10 EmitProofs12.
Import ListNotations.
Local Open Scope nat_scope.

Section Exactly.
Context (try_ok : bool) (float_ok : Z -> prim -> bool) (ident_ok : ident -> bool) (path_ok : qident -> bool).
Context (literal_ok : scalar_const -> bool -> option qident -> ity -> bool) (hg : host).
Context (Dc : decides try_ok float_ok ident_ok path_ok literal_ok).
Notation emit_node := (emit_node snake_case shouty_snake_case ident_ok path_ok literal_ok hg).
Notation emit := (emit snake_case shouty_snake_case ident_ok path_ok literal_ok hg).
Context (es : list element) (root : list node) (B : build snake_case es = Done root).
Context (Nm : forall e x, In e es -> In x (names_in e) -> ascii_name x).

Lemma ascii_fixed x : ascii_name x -> fixed (fix_identifier x).
Proof. intros A. exists x. auto. Qed.
Lemma butte_gen_fixed : fixed (lit "butte_gen").
Proof. exists (lit "butte_gen"). split; [apply ascii_check; reflexivity|reflexivity]. Qed.
Lemma prefix_fixed i prefix : prefix = written_prefix es i \/ prefix = last_prefix es -> Forall fixed prefix.
Proof.
  intros P. assert (E : exists l, incl l es /\ prefix = prefix_of (namespace_after None l)).
  { destruct P as [->| ->]; [exists (firstn i es); split; [intros x; apply In_firstn|reflexivity]|exists es; split; [apply incl_refl|reflexivity]]. }
  destruct E as (l & I & ->). destruct (namespace_after None l) as [q|] eqn:N; [|constructor]. apply namespace_after_in in N as [N|(d & N)]; [discriminate|].
  cbn [prefix_of]. unfold qident_of. apply Forall_forall. intros x J. apply in_map_iff in J as (y & <- & J). apply ascii_fixed. eapply Nm; [apply I; exact N|exact J].
Qed.
Lemma declared_fixed q : declared_in es q -> q <> [] /\ Forall fixed q.
Proof.
  intros (i & e & prefix & N & I & P). pose proof (prefix_fixed i prefix P) as G. pose proof (fun x => Nm e x (nth_error_In _ _ N)) as U.
  assert (L : forall id, ascii_name id -> local_name prefix id <> [] /\ Forall fixed (local_name prefix id)).
  { intros id Ui. unfold local_name. split; [destruct prefix; discriminate|]. apply Forall_app. split; [exact G|]. constructor; [apply ascii_fixed; exact Ui|constructor]. }
  destruct e; cbn [declared_names In names_in] in *; try contradiction.
  - destruct I as [<-|[]]. apply L. apply U. left. reflexivity.
  - destruct I as [<-|[]]. apply L. apply U. left. reflexivity.
  - destruct I as [<-|[]]. apply L. apply U. left. reflexivity.
  - destruct I as [<-|[<-|[]]]; [apply L; apply U; left; reflexivity|]. unfold companion_name. split; [destruct prefix; discriminate|]. apply Forall_app. split; [exact G|].
    constructor; [exact butte_gen_fixed|]. constructor; [|constructor]. apply ascii_fixed, ascii_app; [apply U; left; reflexivity|reflexivity].
Qed.
Lemma declared_last q : declared_in es q -> ascii_name (last q []).
Proof.
  intros D. destruct (declared_fixed q D) as [Ne G]. rewrite (app_removelast_last [] Ne) in G. apply Forall_app in G as [_ G]. inversion G; subst. apply fixed_ascii. assumption.
Qed.
Lemma spelled_needs n q k : In (q, k) (spelled n) -> In (q, k) (needs n).
Proof.
  assert (U : forall t, In (q, k) (ty_uses t) -> In (q, k) (flat_map needs_of (ty_mentions t))).
  { intros t I. apply in_uses in I as (c & I & ->). apply mention_need. exact I. }
  assert (V : forall r e vs, In (q, k) (union_uses e vs) -> In (q, k) (needs_of (r, KUnion e vs))).
  { intros r e vs [I|I]; [right; left; exact I|]. apply in_flat_map in I as (v & Iv & I). apply in_uses in I as (c & I & ->). eapply member_need; eauto. }
  destruct n as [| t| | |u|]; cbn [spelled needs]; try contradiction; [|apply V].
  intros I. apply in_flat_map in I as (f & If & I). apply in_flat_map. exists f. split; [exact If|]. apply in_app_or in I as [I|I]; [apply U; exact I|].
  destruct (if_ty f) as [| | |r [| | |e vs]]; try contradiction. cbn [ty_mentions flat_map]. rewrite app_nil_r. apply V. exact I.
Qed.
Lemma spelled_fixed p n q k : In (p, n) (all_contents root) -> In (q, k) (spelled n) -> Forall fixed q.
Proof. intros I J. apply declared_fixed. eapply needs_source; eauto. apply spelled_needs. exact J. Qed.
Lemma members_named p u v : In (p, NUnion u) (all_contents root) -> In v (iu_variants u) -> ascii_name (iuv_id v).
Proof.
  intros I J. destruct (node_source snake_case es root B) as (place & roots & outs & R & _ & _ & S). destruct (S p _ I) as (i & e & out & N & D & In_ & _).
  apply nth_error_In in N. pose proof (fun x => Nm e x N) as U. inversion D; subst; cbn [In] in In_; repeat match goal with H : _ \/ _ |- _ => destruct H as [H|H] end; try discriminate; try contradiction.
  injection In_ as <-. cbn [iu_variants names_in] in *.
  assert (G : forall w, In w (au_variants u0) -> ascii_name (av_id w)) by (intros w Iw; apply U; right; apply in_map; exact Iw).
  revert J. clear - H G. induction H as [|w ws ty l Rw T IH]; intros J; [destruct J|]. destruct J as [<-|J].
  - cbn [iuv_id]. apply fix_ascii, G. left. reflexivity.
  - apply IH; [intros x Ix; apply G; right; exact Ix|exact J].
Qed.
Lemma fields_named view prefix fs l : table_fields_of snake_case view prefix fs l -> (forall f x, In f fs -> In x (field_names f) -> ascii_name x) ->
  forall f, In f l -> name_text (if_id f) /\ forall i, if_default f = Some (DIdent i) -> ascii_name i.
Proof.
  assert (Df : forall f i, default_of f = Some (DIdent i) -> In i (field_names f)).
  { intros f i. unfold default_of, field_names. destruct (af_default f) as [d|]; [intros E; injection E as ->; right; left; reflexivity|].
    destruct (af_ty f) as [[]| | |]; cbn [implicit_default]; discriminate. }
  intros T. induction T as [|f fs ty l R U T IH|f fs q e vs c l R V T IH]; intros G g I; [destruct I| |].
  - destruct I as [<-|I]; [|apply IH; [intros; eapply G; [right|]; eauto|exact I]]. cbn [if_id if_default]. split.
    + apply fix_ascii. apply (G f); [left; reflexivity|left; reflexivity].
    + intros i E. eapply G; [left; reflexivity|]. apply Df. exact E.
  - destruct I as [<-|[<-|I]]; [| |apply IH; [intros; eapply G; [right|]; eauto|exact I]]; cbn [if_id if_default].
    + split; [|discriminate]. assert (A : ascii_name (af_id f)) by (apply (G f); [left; reflexivity|left; reflexivity]).
      apply fix_letter. apply name_app; [apply snake_name, A|apply lit_name; reflexivity].
    + split; [apply fix_ascii; apply (G f); [left; reflexivity|left; reflexivity]|]. intros i E. eapply G; [left; reflexivity|]. apply Df. exact E.
Qed.
Lemma table_named p t f : In (p, NTable t) (all_contents root) -> In f (it_fields t) -> named_field f.
Proof.
  intros I If. destruct (node_source snake_case es root B) as (place & roots & outs & R & _ & _ & S). destruct (S p _ I) as (i & e & out & N & D & In_ & _).
  apply nth_error_In in N. pose proof (fun x => Nm e x N) as U. inversion D; subst; cbn [In] in In_; repeat match goal with H : _ \/ _ |- _ => destruct H as [H|H] end; try discriminate; try contradiction.
  injection In_ as <-. cbn [it_fields names_in] in *. destruct (fields_named _ _ _ _ H) with (f := f) as [Ni Nd].
  - intros g x Ig Ix. apply U. right. apply in_flat_map. eauto.
  - exact If.
  - constructor; [exact Ni|exact Nd| |].
    + intros q k J. eapply spelled_fixed; [exact I|]. cbn [spelled it_fields]. apply in_flat_map. exists f. split; [exact If|exact J].
    + intros q e vs v T Iv. match type of I with In (_, ?n) _ => assert (M : In (q, KUnion e vs) (mentions n)) end.
      { cbn [mentions it_fields]. apply in_flat_map. exists f. split; [exact If|]. rewrite T. left. reflexivity. }
      destruct (mention_source es root B _ _ _ _ I M) as [K|[K _]]; [|discriminate]. destruct (union_node root _ _ _ K) as (pu & nu & Iu & <- & <-). eapply members_named; eauto.
Qed.
Lemma node_named p n q c : In (p, n) (all_contents root) -> In (q, c) (defs_of n) -> ascii_name (last q []).
Proof. intros I D. apply declared_last. eapply defined_declared; [exact B|]. apply defined_contents. eauto. Qed.
Lemma enum_named p e : In (p, NEnum e) (all_contents root) -> Forall (fun v => ascii_name (iev_id v)) (ie_variants e).
Proof.
  intros I. destruct (node_source snake_case es root B) as (place & roots & outs & R & _ & _ & S). destruct (S p _ I) as (i & el & out & N & D & In_ & _).
  apply nth_error_In in N. pose proof (fun x => Nm el x N) as U. inversion D; subst; cbn [In] in In_; repeat match goal with H : _ \/ _ |- _ => destruct H as [H|H] end; try discriminate; try contradiction;
    injection In_ as <-; cbn [ie_variants names_in] in *.
  - unfold enum_variants_of. apply Forall_forall. intros v J. apply in_map_iff in J as (w & <- & J). cbn [iev_id]. apply fix_ascii, U. right. apply in_map. exact J.
  - unfold companion_of. constructor; [apply ascii_check; reflexivity|]. apply Forall_forall. intros v J. apply in_map_iff in J as (w & <- & J). cbn [iev_id]. apply fix_ascii, U. right. apply in_map. exact J.
Qed.
Lemma contents_fixed p n : In (p, n) (all_contents root) -> Forall fixed p.
Proof.
  intros I. destruct (node_source snake_case es root B) as (place & roots & outs & R & _ & _ & S). destruct (S p n I) as (i & e & out & N & D & In_ & <-).
  assert (G : Forall fixed (place i)).
  { apply (prefix_fixed i). apply (res_place _ _ _ _ _ R). apply nth_error_Some. congruence. }
  inversion D; subst; cbn [In] in In_; repeat match goal with H : _ \/ _ |- _ => destruct H as [<-|H] end; try contradiction; cbn [module_of it_id is_id ie_id iu_id ir_id]; unfold local_name;
    try (rewrite removelast_last; exact G).
  unfold companion_name. replace (place i ++ [lit "butte_gen"; fix_identifier (au_id u ++ lit "Type")]) with ((place i ++ [lit "butte_gen"]) ++ [fix_identifier (au_id u ++ lit "Type")]) by (rewrite <- app_assoc; reflexivity).
  rewrite removelast_last. apply Forall_app. split; [exact G|]. constructor; [exact butte_gen_fixed|constructor].
Qed.
Lemma module_iff p a : namespace_in root (p ++ [a]) -> (ident_ok (module_name snake_case a) = true <-> starts_with_letter a).
Proof.
  intros (q & n & I & r & ->). apply contents_fixed in I. apply Forall_app in I as [I _]. apply Forall_app in I as [_ I]. inversion I as [|x l F _ E]; subst. apply fixed_ascii in F as [N _].
  unfold module_name. rewrite (ident_iff _ _ _ _ _ Dc) by (apply snake_name; exact N). apply snake_ascii. exact N.
Qed.
Lemma level_split p a r : forall l found, level l (p ++ a :: r) found -> exists mid q sub, level l p mid /\ In (NNamespace q sub) mid /\ last q [] = a.
Proof.
  induction p as [|x p IH]; intros l found L; cbn [app] in L; inversion L as [|? q sub ? ? I L' E]; subst.
  - exists l, q, sub. split; [constructor|auto].
  - destruct (IH _ _ L') as (mid & q' & sub' & L2 & I2 & E2). exists mid, q', sub'. split; [econstructor; eauto|auto].
Qed.
Lemma modules_accepted p a : emit root <> None -> namespace_in root (p ++ [a]) -> ident_ok (module_name snake_case a) = true.
Proof.
  intros E (q & n & I & r & ->). apply contents_at in I as (found & L & _). rewrite <- app_assoc in L. cbn [app] in L.
  destruct (level_split _ _ _ _ _ L) as (mid & q & sub & L' & J & <-). destruct (emit root) as [items|] eqn:X; [|congruence].
  destruct (level_module _ _ _ _ _ _ _ _ _ L' items X) as (f & Ef & _). destruct (ident_ok _) eqn:Y; [reflexivity|].
  rewrite (emit_bad _ _ _ _ _ _ mid (NNamespace q sub) J) in Ef; [discriminate|]. rewrite emit_namespace, Y. reflexivity.
Qed.
Lemma struct_free p t f q gs : (forall p s, ~ In (p, NStruct s) (all_contents root)) -> In (p, NTable t) (all_contents root) -> In f (it_fields t) -> if_ty f <> ICustom q (KStruct gs).
Proof.
  intros NS I If T. assert (M : In (q, KStruct gs) (mentions (NTable t))) by (cbn [mentions]; apply in_flat_map; exists f; split; [exact If|rewrite T; left; reflexivity]).
  destruct (mention_source es root B _ _ _ _ I M) as [K|[K _]]; [|discriminate]. apply defined_contents in K as (p' & n & J & D).
  destruct n; cbn [defs_of In] in D; try (destruct D as [D|[]]; discriminate D); try contradiction. eapply NS. exact J.
Qed.
Lemma around p n : In (p, n) (all_contents root) -> modules_around (q_namespace (node_ident n)) = p.
Proof.
  intros I. rewrite modules_around_module. destruct (node_source snake_case es root B) as (place & roots & outs & R & _ & _ & S). destruct (S p _ I) as (i & e & out & _ & _ & _ & E). exact E.
Qed.
Lemma writes_exactly : emit root <> None <-> emits_all try_ok float_ok hg root.
Proof.
  split.
  - intros E. assert (En : forall p n, In (p, n) (all_contents root) -> emit_node n <> None).
    { intros p n I X. apply E. eapply emit_some_node; eauto. }
    assert (NS : forall p s, ~ In (p, NStruct s) (all_contents root)) by (intros p s I; apply (En _ _ I); reflexivity).
    pose proof (fun p t I => proj1 (table_iff _ _ _ _ _ hg Dc t p (around p (NTable t) I) (node_named _ _ (it_id t) KTable I (or_introl eq_refl)) (fun f => table_named p t f I) (fun f q gs => struct_free p t f q gs NS I)) (En _ _ I)) as Tb.
    constructor.
    + exact NS.
    + intros p a Na. apply (module_iff p a Na). eapply modules_accepted; eauto.
    + intros p t f I If. apply (Tb p t I). exact If.
    + intros p n q k I J. destruct n as [| t| | |u|]; try contradiction.
      * apply (Tb p t I) in J. exact J.
      * eapply (union_iff _ _ _ _ _ hg Dc u p (around p (NUnion u) I)); [eapply node_named; [exact I|left; reflexivity]| | |apply (En _ _ I)|exact J].
        -- intros q' k' J'. eapply spelled_fixed; eauto.
        -- intros v Iv. eapply members_named; eauto.
    + intros p t I. apply (Tb p t I).
  - intros W. apply (emit_levels _ _ _ _ _ _ es root B).
    + intros p n I. destruct n as [q l|t|s|e|u|r].
      * apply contents_at in I as (_ & _ & _ & []).
      * apply (table_iff _ _ _ _ _ hg Dc t p (around p (NTable t) I) (node_named _ _ (it_id t) KTable I (or_introl eq_refl)) (fun f => table_named p t f I) (fun f q gs => struct_free p t f q gs (wr_structs _ _ _ _ W) I)).
        split; [intros f If; eapply wr_fields; eauto|]. split; [intros q k J; eapply (wr_paths _ _ _ _ W); eauto|eapply wr_slots; eauto].
      * destruct (wr_structs _ _ _ _ W _ _ I).
      * eapply enum_ok; [exact Dc|eapply node_named; [exact I|left; reflexivity]|eapply enum_named; exact I].
      * eapply (union_iff _ _ _ _ _ hg Dc u p (around p (NUnion u) I)); [eapply node_named; [exact I|left; reflexivity]| | |].
        -- intros q' k' J'. eapply spelled_fixed; eauto.
        -- intros v Iv. eapply members_named; eauto.
        -- intros q k J. eapply (wr_paths _ _ _ _ W); eauto.
      * cbn [Emit.emit_node]. discriminate.
    + intros p a Na. apply (module_iff p a Na). eapply wr_modules; eauto.
Qed.
End Exactly.

(** Code generation completes, from the source. *)
From Coq Require Import Strings.String ZArith List Bool Lia Strings.Byte Permutation.
From Verif Require Import Base BaseFacts Schema Ident SpecIdent IdentProofs Parser Heck HeckProofs Codegen GenProofs1 GenProofs8 Resolve SpecResolve ResolveProofs1 ResolveProofs4 ResolveProofs5 ResolveProofs6 ResolveProofs7 ResolveProofs8 ResolveProofs9 Emit SpecEmit EmitProofs1 EmitProofs2 EmitProofs4 EmitProofs5 EmitProofs6.
Import ListNotations.
Local Open Scope nat_scope.

(** ** All the nodes *)
Section All.
Context (snake shouty : text -> text) (ident_ok : ident -> bool) (path_ok : qident -> bool).
Context (literal_ok : scalar_const -> bool -> option qident -> ity -> bool) (hg : host).
Notation emit_node := (emit_node snake shouty ident_ok path_ok literal_ok hg).
Notation emit := (emit snake shouty ident_ok path_ok literal_ok hg).
Lemma emit_ok l : (forall n, In n l -> emit_node n <> None) -> emit l <> None.
Proof.
  induction l as [|n l IH]; intros H; cbn [Emit.emit]; [discriminate|]. pose proof (H n (or_introl eq_refl)) as N. destruct (emit_node n); [|congruence].
  assert (L : emit l <> None) by (apply IH; intros m I; apply H; right; exact I). destruct (emit l); [discriminate|congruence].
Qed.
Lemma emit_bad l n : In n l -> emit_node n = None -> emit l = None.
Proof.
  induction l as [|m l IH]; intros I E; [destruct I|]. cbn [Emit.emit]. destruct I as [->|I]; [rewrite E; reflexivity|]. rewrite (IH I E). destruct (emit_node m); reflexivity.
Qed.
Lemma level_snoc root p l : level root p l -> forall q sub, In (NNamespace q sub) l -> level root (p ++ [last q []]) sub.
Proof. induction 1 as [l|l q0 sub0 p found I L IH]; intros q sub J; cbn [app]; econstructor; eauto. constructor. Qed.

Context (es : list element) (root : list node) (B : build snake es = Done root).
Lemma emit_levels : (forall p n, In (p, n) (all_contents root) -> emit_node n <> None) ->
  (forall p a, namespace_in root (p ++ [a]) -> ident_ok (module_name snake a) = true) -> emit root <> None.
Proof.
  intros H M. assert (G : forall s p l, level root p l -> (forall n, In n l -> node_size n <= s) -> emit l <> None).
  { induction s as [|s IH]; intros p l L S.
    - apply emit_ok. intros n I. specialize (S n I). destruct n; cbn [node_size] in S; lia.
    - apply emit_ok. intros n I. destruct n as [q sub| | | | |]; [|apply (H p); eapply contents_from; eauto; exact Logic.I..].
      rewrite emit_namespace. destruct (root_at snake es root B p l L) as (subt & E & W & K). pose proof I as I'. rewrite E, in_app_iff in I'.
      destruct I' as [J|J]; [|apply (under_plain snake es root B) in J as [[] _]].
      destruct (subs_in _ _ _ _ W J) as (k & s1 & n1 & T & -> & _). rewrite last_snoc.
      assert (Ik : In k (map fst subt)) by (destruct (in_dec (list_eq_dec Byte.byte_eq_dec) k (map fst subt)) as [Y|Y]; [exact Y|rewrite (tfind_notin _ _ Y) in T; discriminate]).
      rewrite (M p k) by (apply K; exact Ik). assert (X : emit sub <> None); [|destruct (emit sub); [discriminate|congruence]].
      eapply IH; [eapply level_snoc; eauto|]. intros m Im. specialize (S _ I). cbn [node_size] in S. pose proof (size_in _ _ Im). lia. }
  apply (G (list_max (map node_size root)) [] root); [constructor|]. intros n I. pose proof (proj1 (list_max_le (map node_size root) _) (le_n _)) as F. rewrite Forall_forall in F. apply F. apply in_map. exact I.
Qed.
Lemma emit_some_node p n : In (p, n) (all_contents root) -> emit_node n = None -> emit root = None.
Proof.
  intros I E. destruct (emit root) as [items|] eqn:X; [|reflexivity]. apply contents_at in I as (l & L & Im & _).
  destruct (level_module _ _ _ _ _ _ _ _ _ L items X) as (f & Ef & _). rewrite (emit_bad _ _ Im E) in Ef. discriminate.
Qed.
End All.

(** ** Names in the source *)
Lemma namespace_after_in es : forall ns q, namespace_after ns es = Some q -> ns = Some q \/ exists d, In (ENamespace q d) es.
Proof.
  induction es as [|e es IH]; intros ns q E; [auto|]. cbn [namespace_after] in E.
  assert (D : ns = Some q \/ (exists d, e = ENamespace q d) \/ exists d, In (ENamespace q d) es).
  { destruct e; destruct (IH _ _ E) as [I|(d & I)]; auto; try (right; right; eauto; fail). injection I as ->. eauto. }
  destruct D as [D|[(d & ->)|(d & D)]]; [auto|right; exists d; left; reflexivity|right; exists d; right; exact D].
Qed.
Lemma In_firstn {T} n (l : list T) x : In x (firstn n l) -> In x l.
Proof. intros I. rewrite <- (firstn_skipn n l). apply in_or_app. auto. Qed.

Section Completes.
Context (ident_ok : ident -> bool) (path_ok : qident -> bool) (literal_ok : scalar_const -> bool -> option qident -> ity -> bool) (hg : host).
Context (A : accepts ident_ok path_ok literal_ok).
Notation emit_node := (emit_node snake_case shouty_snake_case ident_ok path_ok literal_ok hg).
Notation emit := (emit snake_case shouty_snake_case ident_ok path_ok literal_ok hg).
Context (es : list element) (root : list node) (B : build snake_case es = Done root).
Context (Em : forall e, In e es -> emittable literal_ok e).

Definition good_name (x : ident) : Prop := valid x /\ rust_name x.
Lemma usable_good x : usable x -> good_name (fix_identifier x).
Proof. intros U. split; [apply usable_valid|apply usable_rust]; exact U. Qed.
Lemma butte_gen_good : good_name (lit "butte_gen").
Proof.
  assert (V : valid (lit "butte_gen")).
  { split; [apply lit_name; reflexivity|]. exists [], "b"%byte, (lit "utte_gen"). split; [reflexivity|]. split; [constructor|]. intros I. cbn in I. intuition discriminate. }
  split; [exact V|]. apply valid_rust; [exact V|]. apply not_keyword. reflexivity.
Qed.
Lemma prefix_good i prefix : prefix = written_prefix es i \/ prefix = last_prefix es -> Forall good_name prefix.
Proof.
  intros P. assert (E : exists l, incl l es /\ prefix = prefix_of (namespace_after None l)).
  { destruct P as [->| ->]; [exists (firstn i es); split; [intros x; apply In_firstn|reflexivity]|exists es; split; [apply incl_refl|reflexivity]]. }
  destruct E as (l & I & ->). destruct (namespace_after None l) as [q|] eqn:N; [|constructor]. apply namespace_after_in in N as [N|(d & N)]; [discriminate|].
  pose proof (Em _ (I _ N)) as U. cbn [emittable] in U. cbn [prefix_of]. unfold qident_of. apply Forall_forall. intros x J. apply in_map_iff in J as (y & <- & J).
  rewrite Forall_forall in U. apply usable_good. auto.
Qed.
Lemma declared_good q : declared_in es q -> q <> [] /\ Forall good_name q.
Proof.
  intros (i & e & prefix & N & I & P). pose proof (prefix_good i prefix P) as G. pose proof (Em e (nth_error_In _ _ N)) as U.
  assert (L : forall id, usable id -> local_name prefix id <> [] /\ Forall good_name (local_name prefix id)).
  { intros id Ui. unfold local_name. split; [destruct prefix; discriminate|]. apply Forall_app. split; [exact G|]. constructor; [apply usable_good; exact Ui|constructor]. }
  destruct e; cbn [declared_names In emittable] in *; try contradiction.
  - destruct I as [<-|[]]. apply L. tauto.
  - destruct I as [<-|[]]. apply L. tauto.
  - destruct I as [<-|[<-|[]]]; [apply L; tauto|]. unfold companion_name. split; [destruct prefix; discriminate|]. apply Forall_app. split; [exact G|].
    constructor; [exact butte_gen_good|]. constructor; [|constructor]. apply usable_good, type_usable. tauto.
Qed.
Lemma defined_declared q c : In (q, c) (defined root) -> declared_in es q.
Proof. intros I. destruct (def_source snake_case es root B q c I) as (i & e & prefix & N & D & P). exists i, e, prefix. auto. Qed.
Lemma defined_no_struct q fs : ~ In (q, KStruct fs) (defined root).
Proof.
  intros I. destruct (node_source snake_case es root B) as (place & roots & outs & R & _ & _ & S). apply defined_contents in I as (p & n & I & D).
  destruct (S p n I) as (i & e & out & N & Dc & In_ & _). destruct n; cbn [defs_of In] in D; try (destruct D as [D|[]]; discriminate D); try contradiction.
  apply nth_error_In in N. apply Em in N. inversion Dc; subst; cbn [In] in In_; repeat match goal with H : _ \/ _ |- _ => destruct H as [H|H] end; try discriminate; try contradiction.
Qed.
Lemma mention_source p n q c : In (p, n) (all_contents root) -> In (q, c) (mentions n) -> In (q, c) (defined root) \/ c = KTable /\ declared_in es q.
Proof.
  intros I M. destruct (mentioned snake_case es root p n q c B I M) as [D|(-> & j & t & N & -> & _)]; [auto|]. right. split; [reflexivity|].
  exists j, (ETable t), (written_prefix es j). split; [exact N|]. split; [left; reflexivity|auto].
Qed.
Lemma needs_source p n q k : In (p, n) (all_contents root) -> In (q, k) (needs n) -> declared_in es q.
Proof.
  assert (N : forall d, In d (defined root) \/ snd d = KTable /\ declared_in es (fst d) -> forall q k, In (q, k) (needs_of d) -> declared_in es q).
  { intros [u cu] Id q' k' [J|J].
    - injection J as <- <-. destruct Id as [Id|[_ Id]]; [eapply defined_declared; eauto|exact Id].
    - cbn [snd fst] in *. destruct cu as [| | |e vs]; try contradiction. destruct Id as [Id|[Id _]]; [|discriminate].
      destruct (union_node root _ _ _ Id) as (pu & nu & Iu & <- & <-). destruct J as [J|J].
      + injection J as <- <-. destruct (companion_defined snake_case es root pu nu B Iu) as (vs & Ic & _). eapply defined_declared; eauto.
      + apply in_flat_map in J as (v & Iv & J). apply in_map_iff in J as ([q2 c2] & J & M). cbn [fst snd] in J. injection J as <- <-.
        destruct (mention_source pu (NUnion nu) q2 c2 Iu) as [D|[_ D]]; [cbn [mentions]; apply in_flat_map; eauto|eapply defined_declared; eauto|exact D]. }
  intros I J. destruct n as [| t| | |u|]; try contradiction.
  - cbn [needs] in J. apply in_flat_map in J as (f & If & J). apply in_flat_map in J as ([u cu] & M & J). eapply N; [|exact J].
    cbn [snd fst]. apply (mention_source p (NTable t)); [exact I|]. cbn [mentions]. apply in_flat_map. eauto.
  - cbn [needs] in J. eapply N; [|exact J]. left. apply defined_contents. exists p, (NUnion u). split; [exact I|left; reflexivity].
Qed.

Context (Enc : forall q, declared_in es q -> ~ namespace_in root q).
Lemma declared_fine p n q : In (p, n) (all_contents root) -> declared_in es q -> fine p q.
Proof.
  intros I D. destruct (declared_good q D) as [Ne G]. split; [exact Ne|]. split; [eapply Forall_impl; [|exact G]; unfold good_name; tauto|].
  intros E. apply (Enc q D). exists p, n. auto.
Qed.
Lemma last_valid q : declared_in es q -> valid (last q []).
Proof.
  intros D. destruct (declared_good q D) as [Ne G]. rewrite (app_removelast_last [] Ne) in G. apply Forall_app in G as [_ G]. inversion G; subst. unfold good_name in *. tauto.
Qed.

(** ** Fields *)
Lemma table_fields_good view prefix fs l : (forall q gs, ~ view q (KStruct gs)) -> table_fields_of snake_case view prefix fs l ->
  Forall (fun f => usable (af_id f) /\ default_fits literal_ok (af_ty f) (af_default f)) fs ->
  Forall (fun f => valid (if_id f) /\ good_default ident_ok literal_ok (if_ty f) (if_default f)) l.
Proof.
  intros NS T. induction T as [|f fs ty l R U T IH|f fs q e vs c l R V T IH]; intros F; [constructor| |]; inversion F as [|? ? [Uf Df] F']; subst.
  - constructor; [|auto]. cbn [if_id if_ty if_default]. split; [apply usable_valid; exact Uf|]. unfold default_of, default_fits in *. destruct R as [p| |t u R|q c K].
    + destruct (af_default f) as [[[i|b|b]|i]|]; try contradiction; try exact Df.
      cbn [implicit_default]. destruct p; cbn [good_default]; try exact Logic.I; try (apply (ac_int _ _ _ A)); apply (ac_zero _ _ _ A).
    + destruct (af_default f); [contradiction|exact Logic.I].
    + destruct (af_default f); [contradiction|exact Logic.I].
    + destruct (af_default f) as [[s|i]|]; try contradiction; [|destruct c; exact Logic.I].
      destruct Df as (N & L & _). pose proof (valid_accepted ident_ok path_ok literal_ok A i (conj N L)) as X. destruct c; try exact X. exact (NS _ _ K).
  - constructor; [|constructor; [|auto]]; cbn [if_id if_ty if_default].
    + split; [apply usable_valid, snake_type_usable; exact Uf|]. destruct c; exact Logic.I.
    + split; [apply usable_valid; exact Uf|]. unfold default_of, default_fits in *. remember (ICustom q (KUnion e vs)) as u eqn:Eu. destruct R as [p| |t u R|q' c' K]; try discriminate Eu. injection Eu as -> ->. destruct (af_default f) as [[s|i]|]; try contradiction; [|exact Logic.I].
      destruct Df as (N & L & _). exact (valid_accepted ident_ok path_ok literal_ok A i (conj N L)).
Qed.
Lemma members_good view prefix vs l : union_variants_of view prefix vs l -> Forall (fun v => usable (av_id v)) vs -> Forall (fun v => ident_ok (iuv_id v) = true) l.
Proof.
  induction 1 as [|v vs ty l R T IH]; intros F; [constructor|]. inversion F; subst. constructor; [|auto]. cbn [iuv_id]. eapply valid_accepted; [exact A|]. apply usable_valid. assumption.
Qed.
Lemma union_members p u v : In (p, NUnion u) (all_contents root) -> In v (iu_variants u) -> ident_ok (iuv_id v) = true.
Proof.
  intros I J. destruct (node_source snake_case es root B) as (place & roots & outs & R & _ & _ & S). destruct (S p _ I) as (i & e & out & N & Dc & In_ & _).
  apply nth_error_In in N. apply Em in N. inversion Dc; subst; cbn [In] in In_; repeat match goal with H : _ \/ _ |- _ => destruct H as [H|H] end; try discriminate; try contradiction.
  injection In_ as <-. cbn [iu_variants emittable] in *. pose proof (members_good _ _ _ _ H (proj2 N)) as F. rewrite Forall_forall in F. auto.
Qed.
Lemma module_q_namespace n : In (module_of n, n) (all_contents root) -> q_namespace (node_ident n) = None \/ q_namespace (node_ident n) = Some (module_of n).
Proof. intros _. rewrite module_of_ident. destruct (node_ident n) as [|a [|b l]]; auto. Qed.

Context (Sl : forall p t, In (p, NTable t) (all_contents root) -> debug hg = false \/ (Z.of_nat (length (it_fields t)) <= most_fields)%Z).
Lemma node_completes p n : In (p, n) (all_contents root) -> emit_node n <> None.
Proof.
  intros I. pose proof I as I'. destruct (node_source snake_case es root B) as (place & roots & outs & R & _ & Def & S). destruct (S p n I) as (i & e & out & N & Dc & In_ & Mn).
  pose proof (Em e (nth_error_In _ _ N)) as U. rewrite <- Mn in I'. pose proof (module_q_namespace n I') as Q. rewrite Mn in Q.
  assert (Dec : forall q c, In (q, c) (defs_of n) -> declared_in es q).
  { intros q c D. eapply defined_declared. apply defined_contents. eauto. }
  inversion Dc; subst; cbn [In] in In_; repeat match goal with H : _ \/ _ |- _ => destruct H as [<-|H] end; try contradiction; cbn [emittable] in U.
  - eapply emit_table_ok with (ns := q_namespace (it_id _)); [exact A|exact Q|reflexivity|apply last_valid; eapply Dec; left; reflexivity| |eapply Sl; exact I].
    cbn [it_fields]. assert (NS : forall q gs, ~ known es place outs (ETable t) q (KStruct gs)).
    { intros q gs [K|[K _]]; [|discriminate]. apply Def in K. eapply defined_no_struct; eauto. }
    pose proof (table_fields_good _ _ _ _ NS H (proj2 U)) as G. rewrite Forall_forall in G |- *. intros f If. destruct (G f If) as [V D]. constructor; [exact V| | |exact D].
    + intros q k J. apply (declared_fine _ _ q I). eapply needs_source; [exact I|]. cbn [needs it_fields]. apply in_flat_map. eauto.
    + intros q e vs v T Iv. assert (M : In (q, KUnion e vs) (mentions (NTable (ITable (local_name (place i) (ap_id t)) fs (roots (local_name (place i) (ap_id t))) (ap_doc t))))).
      { cbn [mentions it_fields]. apply in_flat_map. exists f. split; [exact If|]. rewrite T. left. reflexivity. }
      destruct (mention_source _ _ _ _ I M) as [K|[K _]]; [|discriminate]. destruct (union_node root _ _ _ K) as (pu & nu & Iu & <- & <-). eapply union_members; eauto.
  - eapply emit_enum_ok; [exact A|apply last_valid; eapply Dec; left; reflexivity|]. cbn [ie_variants]. unfold enum_variants_of. apply Forall_forall. intros v J.
    apply in_map_iff in J as (w & <- & J). cbn [iev_id]. destruct U as [_ U]. rewrite Forall_forall in U. eapply valid_accepted; [exact A|]. apply usable_valid. auto.
  - eapply emit_enum_ok; [exact A|apply last_valid; eapply Dec; left; reflexivity|]. cbn [ie_variants]. unfold companion_of. constructor.
    + eapply valid_accepted; [exact A|]. split; [apply lit_name; reflexivity|]. exists [], "N"%byte, (lit "one"). split; [reflexivity|]. split; [constructor|]. intros J. cbn in J. intuition discriminate.
    + apply Forall_forall. intros v J. apply in_map_iff in J as (w & <- & J). cbn [iev_id]. destruct U as [_ U]. rewrite Forall_forall in U. eapply valid_accepted; [exact A|]. apply usable_valid. auto.
  - eapply emit_union_ok with (ns := q_namespace (iu_id _)); [exact A|exact Q|reflexivity|apply last_valid; eapply Dec; left; reflexivity| | | |].
    + intros q k J. right. apply (declared_fine _ _ q I). eapply needs_source; eauto.
    + intros v Iv. eapply union_members; eauto.
    + cbn [iu_enum iu_id]. unfold companion_name, local_name. intros E. apply app_inv_head in E. discriminate.
    + intros v q c Iv Im. apply (declared_fine _ _ q I). eapply needs_source; [exact I|]. cbn [needs]. eapply member_need; eauto.
  - cbn [Emit.emit_node]. discriminate.
Qed.
Lemma contents_names p n : In (p, n) (all_contents root) -> Forall good_name p.
Proof.
  intros I. destruct (node_source snake_case es root B) as (place & roots & outs & R & _ & _ & S). destruct (S p n I) as (i & e & out & N & Dc & In_ & <-).
  assert (G : Forall good_name (place i)).
  { apply (prefix_good i). apply (res_place _ _ _ _ _ R). apply nth_error_Some. congruence. }
  inversion Dc; subst; cbn [In] in In_; repeat match goal with H : _ \/ _ |- _ => destruct H as [<-|H] end; try contradiction; cbn [module_of it_id is_id ie_id iu_id ir_id]; unfold local_name;
    try (rewrite removelast_last; exact G).
  unfold companion_name. replace (place i ++ [lit "butte_gen"; fix_identifier (au_id u ++ lit "Type")]) with ((place i ++ [lit "butte_gen"]) ++ [fix_identifier (au_id u ++ lit "Type")]) by (rewrite <- app_assoc; reflexivity).
  rewrite removelast_last. apply Forall_app. split; [exact G|]. constructor; [exact butte_gen_good|constructor].
Qed.
Lemma completes : exists items, emit root = Some items.
Proof.
  destruct (emit root) as [items|] eqn:E; [eauto|]. exfalso. revert E. apply (emit_levels _ _ _ _ _ _ es root B); [exact node_completes|].
  intros p a (q & n & I & r & ->). apply contents_names in I. apply Forall_app in I as [I _]. apply Forall_app in I as [_ I]. inversion I; subst.
  unfold module_name. eapply snake_accepted; [exact A|]. unfold good_name in *. tauto.
Qed.
End Completes.

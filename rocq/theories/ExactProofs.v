(** The grammar under different demands on the words of the file, and exactly what
    the parser reads (C48, C50). *)
From Coq Require Import Strings.String ZArith List Bool Lia Strings.Byte ZifyBool ZifyNat ZifyN.
From Verif Require Import Base Schema Parser SpecParser SpecGrammar ParserProofs ParserProofs2 GrammarProofs
  GrammarProofs2 GrammarProofs3 WordProofs GrammarProofs4 GrammarProofs5 GrammarProofs6 GrammarProofs8 GrammarProofs9
  SoundProofs SoundProofs2.
Import ListNotations.
Local Open Scope Z_scope.

Section Shift.
Context (ua un : text -> bool) (f6 fh : text -> option Z) (has_stem : text -> bool).
Context (P P' : text -> Prop) (Q Q' : ident -> text -> Prop) (F : text -> Prop) (okd : ident -> Prop).
Context (F_app : forall a s, F (a ++ s) -> F s).
Context (F_at : forall c b v, F (c :: b ++ v) -> ~ word_byte c -> blank b -> P' v).
Context (okd_name : forall x s, okd x -> Q' x s).
Definition named (d : option default_value) : Prop := match d with Some (DIdent x) => okd x | _ => True end.

Lemma F_mark s c b (v : text) : lit s = [c] -> In c delims -> F (lit s ++ b ++ v) -> blank b -> P' v.
Proof. intros E D H B. rewrite E in H. apply (F_at c b v H); auto. now destruct (delim_char c D) as (_ & _ & W). Qed.
Lemma default_shift r r' t v : default_text ua un f6 fh P Q r t v -> P' (t ++ r') -> named (Some v) ->
  default_text ua un f6 fh P' Q' r' t v.
Proof. destruct 1; intros K N; constructor; auto. Qed.
Lemma meta_item_shift r r' t a : meta_item ua un f6 fh P r t a -> F (t ++ r') -> meta_item ua un f6 fh P' r' t a.
Proof.
  destruct 1 as [r x X|r x b1 b2 t v X B1 B2 V K]; intros H; constructor; auto.
  rewrite <- !app_assoc in H. do 2 apply F_app in H. eapply (F_mark ":" ":" b2); eauto. in_delims.
Qed.
Section Items.
Context {A : Type} (item item' : text -> text -> A -> Prop) (ok : A -> Prop) (pre : text -> Prop).
Context (pre_F : forall s, pre s -> F s) (pre_comma : forall b s, F (lit "," ++ b ++ s) -> blank b -> pre s).
Lemma listing_shift n r r' t l :
  (forall r r' t a, (List.length t <= n)%nat -> item r t a -> pre (t ++ r') -> item' r' t a) ->
  listing item r t l -> (List.length t <= n)%nat -> pre (t ++ r') -> listing item' r' t l.
Proof.
  intros I L. induction L as [r t a H|r t a b1 b2 t' l H B1 B2 L IH]; intros N K.
  - constructor. eauto.
  - rewrite !app_length in N. rewrite <- !app_assoc in K. constructor; auto.
    + eapply I; eauto. lia.
    + apply IH; [cbn in N; lia|]. apply pre_F in K. do 2 apply F_app in K. now apply pre_comma in K.
Qed.
Lemma series_shift r r' t l :
  (forall r r' t a, item r t a -> ok a -> F (t ++ r') -> item' r' t a) ->
  series item r t l -> Forall ok l -> F (t ++ r') -> series item' r' t l.
Proof.
  intros I L. induction L as [r|r t a b t' l H B L IH]; intros O K; [constructor|].
  inversion O; subst. rewrite <- !app_assoc in K. constructor; eauto.
Qed.
End Items.
Lemma meta_shift r r' t m : meta_text ua un f6 fh P r t m -> F (t ++ r') -> meta_text ua un f6 fh P' r' t m.
Proof.
  destruct 1 as [r|r b B|r b1 b2 t m B1 B2 L]; intros K; constructor; auto.
  rewrite <- !app_assoc in K. do 2 apply F_app in K.
  eapply (listing_shift _ _ (fun _ => True) F); eauto. intros; eapply meta_item_shift; eauto.
Qed.
Notation VT := (value_text ua un f6 fh).
Lemma value_shift_n : forall n r r' t v, (List.length t < n)%nat -> VT P r t v -> F (t ++ r') -> P' (t ++ r') -> VT P' r' t v.
Proof.
  induction n as [|n IH]; intros r r' t v L H K A; [lia|]. destruct H as [r t v H _|r t kv c H _|r b B _|r b1 b2 t l B1 B2 H _].
  - now constructor.
  - constructor; auto. destruct H as [r d c b D B|r d c b1 b2 t kv D B1 B2 H]; constructor; auto.
    rewrite !app_length in L. rewrite <- !app_assoc in K. do 3 apply F_app in K.
    eapply (listing_shift _ _ (fun _ => True) F) with (n := List.length t); eauto.
    + intros q q' u a Lu I G. destruct I as [q x c1 c2 u v X C1 C2 V]. constructor; auto. rewrite <- !app_assoc in G.
      do 2 apply F_app in G. rewrite !app_length in Lu. eapply IH; eauto.
      * cbn in Lu. lia.
      * eapply (F_mark ":" ":" c2); eauto. in_delims.
  - now constructor.
  - constructor; auto. rewrite !app_length in L. rewrite <- !app_assoc in K.
    assert (A' : P' (t ++ b2 ++ lit "]" ++ r')) by (eapply (F_mark "[" "[" b1); eauto; in_delims).
    do 2 apply F_app in K.
    eapply (listing_shift _ _ (fun _ => True) (fun s => F s /\ P' s)) with (n := List.length t); eauto.
    + now intros s [].
    + intros b s W Bb. split; [apply F_app in W; now apply F_app in W|]. eapply (F_mark "," ","); eauto. in_delims.
    + intros q q' u a Lu I [G1 G2]. eapply IH; eauto. cbn in L. lia.
Qed.
Lemma object_shift r r' t kv c : object_text ua un (VT P) r t kv c -> F (t ++ r') -> object_text ua un (VT P') r' t kv c.
Proof.
  destruct 1 as [r d c b D B|r d c b1 b2 t kv D B1 B2 H]; intros K; constructor; auto.
  rewrite <- !app_assoc in K. do 3 apply F_app in K.
  eapply (listing_shift _ _ (fun _ => True) F) with (n := List.length t); eauto.
  - intros q q' u a Lu I G. destruct I as [q x c1 c2 u v X C1 C2 V]. constructor; auto. rewrite <- !app_assoc in G.
    do 2 apply F_app in G. eapply value_shift_n; eauto. eapply (F_mark ":" ":" c2); eauto. in_delims.
Qed.
Lemma field_shift r r' t f : field_text ua un f6 fh P Q r t f -> named (af_default f) -> F (t ++ r') ->
  field_text ua un f6 fh P' Q' r' t f.
Proof.
  destruct 1 as [r d c x b1 b2 t ty dt dv b3 mt m b4 D X B1 B2 T DT B3 M B4]. cbn [af_default]. intros N K.
  rewrite <- !app_assoc in K. do 6 apply F_app in K. constructor; auto.
  - inversion DT as [|q c1 c2 u a C1 C2 I]; subst; constructor; auto. rewrite <- !app_assoc in K. apply F_app in K.
    eapply default_shift; eauto. eapply (F_mark "=" "=" c2); eauto. in_delims.
  - eapply meta_shift; eauto.
Qed.
Lemma product_shift kw r r' t p : product_text ua un f6 fh P Q kw r t p -> Forall (fun f => named (af_default f)) (ap_fields p) ->
  F (t ++ r') -> product_text ua un f6 fh P' Q' kw r' t p.
Proof.
  destruct 1 as [r d c b1 x b2 mt m b3 b4 t fs D B1 X B2 M B3 B4 H]. cbn [ap_fields]. intros N K.
  rewrite <- !app_assoc in K. do 5 apply F_app in K. constructor; auto.
  - eapply meta_shift; eauto.
  - do 4 apply F_app in K. eapply series_shift with (ok := fun f => named (af_default f)); eauto. intros. eapply field_shift; eauto.
Qed.
Lemma enum_shift r r' t e : enum_text ua un f6 fh P r t e -> F (t ++ r') -> enum_text ua un f6 fh P' r' t e.
Proof.
  destruct 1. intros K. rewrite <- !app_assoc in K. do 8 apply F_app in K. constructor; auto. eapply meta_shift; eauto.
Qed.
Lemma union_shift r r' t e : union_text ua un f6 fh P r t e -> F (t ++ r') -> union_text ua un f6 fh P' r' t e.
Proof.
  destruct 1. intros K. rewrite <- !app_assoc in K. do 5 apply F_app in K. constructor; auto. eapply meta_shift; eauto.
Qed.
Lemma method_shift r r' t e : method_text ua un f6 fh P r t e -> F (t ++ r') -> method_text ua un f6 fh P' r' t e.
Proof.
  destruct 1. intros K. rewrite <- !app_assoc in K. do 12 apply F_app in K. constructor; auto. eapply meta_shift; eauto.
Qed.
Lemma rpc_shift r r' t e : rpc_text ua un f6 fh P r t e -> F (t ++ r') -> rpc_text ua un f6 fh P' r' t e.
Proof.
  destruct 1. intros K. rewrite <- !app_assoc in K. do 7 apply F_app in K. constructor; auto.
  eapply series_shift with (ok := fun _ => True); eauto.
  - intros. eapply method_shift; eauto.
  - now apply Forall_forall.
Qed.
Definition names_ok (e : element) : Prop :=
  match e with ETable p | EStruct p => Forall (fun f => named (af_default f)) (ap_fields p) | _ => True end.
Lemma element_shift r r' t e : element_text ua un f6 fh P Q r t e -> names_ok e -> F (t ++ r') ->
  element_text ua un f6 fh P' Q' r' t e.
Proof.
  destruct 1; intros N K; try (econstructor; eassumption).
  - constructor. eapply product_shift; eauto.
  - constructor. eapply product_shift; eauto.
  - constructor. eapply enum_shift; eauto.
  - constructor. eapply union_shift; eauto.
  - constructor. eapply rpc_shift; eauto.
  - constructor. eapply object_shift; eauto.
Qed.
Lemma file_shift t S : file_text ua un f6 fh has_stem P Q t S -> Forall names_ok (sc_elements S) -> F t ->
  file_text ua un f6 fh has_stem P' Q' t S.
Proof.
  destruct 1 as [|b ti is_ te es e B TI TE E N]; intros O K; constructor; auto. cbn [sc_elements] in O.
  do 2 apply F_app in K. eapply series_shift with (ok := names_ok); eauto. intros. eapply element_shift; eauto.
Qed.
End Shift.

Section Exact.
Context (ua un uw : text -> bool) (f6 fh : text -> option Z) (has_stem : text -> bool).
Lemma any_names es : Forall (names_ok (fun _ => True)) es.
Proof.
  apply Forall_forall. intros e _. destruct e; cbn; auto; apply Forall_forall; intros f _; unfold named;
  destruct (af_default f) as [[]|]; auto.
Qed.
(** Nothing demanded is less demanded. *)
Lemma clear_schema t S : clear_text ua un uw f6 fh has_stem t S -> schema_text ua un f6 fh has_stem t S.
Proof.
  intros H. apply (file_shift ua un f6 fh has_stem _ anything _ any_name (fun _ => True) (fun _ => True)) in H; auto;
  first [apply any_names|intros; exact I].
Qed.
Lemma element_anywhere r t e : declaration_text ua un f6 fh t e -> element_text ua un f6 fh anything any_name r t e.
Proof.
  intros H. unfold declaration_text in H. eapply element_shift with (F := fun _ => True) (okd := fun _ => True); eauto;
  try (intros; exact I). pose proof (any_names [e]) as K. now inversion K.
Qed.
Lemma calm_fit c b v : calm (c :: b ++ v) -> ~ word_byte c -> blank b -> no_special uw v.
Proof. intros C W B. apply quiet_no_special. eapply calm_quiet; eauto. Qed.
(** A quiet text meets every demand, if no name given as default starts with [true]
    or [false]. *)
Lemma quiet_clear t S : schema_text ua un f6 fh has_stem t S -> plain_schema S -> quiet t -> clear_text ua un uw f6 fh has_stem t S.
Proof.
  intros H Pl Qt. eapply (file_shift ua un f6 fh has_stem _ (no_special uw) _ (no_boolean uw) calm
    (fun x => plain_default (DIdent x))); eauto.
  - exact calm_app.
  - exact calm_fit.
  - intros x s K w y W E. exfalso. apply K. destruct W as [->| ->]; [left|right]; eauto.
  - eapply Forall_impl; [|exact Pl]. intros e. destruct e; cbn; auto; intros Fe; (eapply Forall_impl; [|exact Fe]);
    intros f [_ D]; unfold named; destruct (af_default f) as [[]|]; auto.
  - now apply quiet_calm.
Qed.
Lemma plain_plain S : plain_schema S -> plain_types S.
Proof.
  intros H. eapply Forall_impl; [|exact H]. intros e. destruct e; cbn; auto; intros Fe; (eapply Forall_impl; [|exact Fe]);
  now intros f [T _].
Qed.
Context (hexf_range : forall t v, fh t = Some v -> 0 <= v < 2 ^ 64).
Lemma schema_ok t S : schema_text ua un f6 fh has_stem t S -> plain_schema S -> quiet t ->
  schema_decl ua un uw f6 fh has_stem t = Some (S, []).
Proof. intros H Pl Qt. apply clear_ok; auto; [now apply quiet_clear|now apply plain_plain]. Qed.

(** * The types read are none of the mistaken ones *)
Lemma builtin_none (x r : text) : builtin_type (x ++ r) = None -> ~ builtin_like x.
Proof.
  intros E (w & y & -> & B). assert (K : exists t, In (w, t) builtin_names).
  { destruct B as [->|(p & ->)]; eexists; apply names_builtin; [left|right]; eauto. }
  destruct K as (t & K). rewrite <- app_assoc in E. exact (alt_tags_none _ _ _ _ K E).
Qed.
Context (alphabetic_wide : forall c, ua c = true -> wide c) (alphanumeric_wide : forall c, un c = true -> wide c).
Lemma type_n_plain : forall n s ty r, type_n ua un n s = Some (ty, r) -> plain_type ty.
Proof.
  induction n as [|n IH]; intros s ty r E; [discriminate|]. cbn [type_n] in E.
  apply alt_cons_case in E as [E|[B E]]; [|apply alt_cons_inv in E as [E|E]; [|apply alt_cons_inv in E as [E|E]; [|discriminate E]]].
  - apply alt_tags_some in E as (w & I & _). cbn in I.
    repeat destruct I as [I|I]; try contradiction; injection I as _ <-; exact Logic.I.
  - pinv. subst ty. cbn. eauto.
  - pinv. subst ty. unfold qualified_ident in E.
    apply (nonempty_list_inv _ _ _ _ _ adv_dot (adv_ident ua un)) in E as (a & q & l' & -> & E & L). cbn.
    apply ident_exact in E as (y & -> & -> & _); auto. eapply builtin_none; eauto.
Qed.
Lemma field_plain s f r : field_decl ua un uw f6 fh s = Some (f, r) -> plain_type (af_ty f).
Proof. intros E. unfold field_decl in E. pinv. subst. cbn. unfold type_ in *. eauto using type_n_plain. Qed.
Lemma repeats_all {A} (p : parser A) (R : A -> Prop) s l r :
  (forall s a r, p s = Some (a, r) -> R a) -> repeats p s l r -> Forall R l.
Proof. intros H K. induction K; constructor; eauto. Qed.
Lemma fields_plain s l r : many0 (delimited comment_or_space0 (field_decl ua un uw f6 fh) comment_or_space0) s = Some (l, r) ->
  Forall (fun f => plain_type (af_ty f)) l.
Proof.
  intros E. apply many0_inv in E; [|apply adv_around, adv_field]. eapply repeats_all; [|exact E].
  intros q f q' F. pinv. eauto using field_plain.
Qed.
Lemma element_plain s e r : p_element ua un uw f6 fh s = Some (e, r) -> typed e.
Proof.
  intros E. unfold p_element in E.
  repeat (apply alt_cons_inv in E as [E|E]); try discriminate E;
    apply pmap_inv in E as (x & E & ->); try exact I; try (destruct x as [? ?]; exact I).
  - unfold table_decl, product_type_body in E. pinv. subst. cbn. eauto using fields_plain.
  - unfold struct_decl, product_type_body in E. pinv. subst. cbn. eauto using fields_plain.
  - unfold enum_decl in E. pinv. subst. cbn. unfold type_ in *. eauto using type_n_plain.
Qed.
Lemma schema_plain s S r : schema_decl ua un uw f6 fh has_stem s = Some (S, r) -> plain_types S.
Proof.
  intros E. unfold schema_decl in E. pinv. subst S. cbn. apply many0_inv in E; [|apply adv_around, adv_element].
  unfold plain_types. cbn. eapply repeats_all; [|exact E]. intros q e q' F. pinv. eapply element_plain; eauto.
Qed.

(** Exactly what is read. *)
Lemma schema_exact t S : schema_decl ua un uw f6 fh has_stem t = Some (S, []) <->
  clear_text ua un uw f6 fh has_stem t S /\ plain_types S.
Proof.
  split; [|intros [C T]; now apply clear_ok]. intros E. split; [now apply clear_sound in E|eapply schema_plain; eauto].
Qed.
Lemma schema_sound t S : schema_decl ua un uw f6 fh has_stem t = Some (S, []) -> schema_text ua un f6 fh has_stem t S.
Proof. intros E. apply schema_exact in E as [E _]. eapply clear_schema; eauto. Qed.
End Exact.

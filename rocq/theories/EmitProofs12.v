(** Exactly when a definition is written without a panic. *)
From Coq Require Import Strings.String ZArith List Bool Lia Strings.Byte Permutation.
From Verif Require Import Base BaseFacts Schema Ident SpecIdent IdentProofs Parser Heck HeckProofs Codegen GenProofs1 GenProofs8 Reader Builder BuilderProofs9 Resolve SpecResolve ResolveProofs1 ResolveProofs4 ResolveProofs5 ResolveProofs6 ResolveProofs9 Emit SpecEmit SpecPaths SpecWrite EmitProofs1 EmitProofs2 EmitProofs4 EmitProofs5 EmitProofs6 EmitProofs10.
Import ListNotations.
Local Open Scope nat_scope.

Lemma every_iff {A} (l : list (option (list A))) : every l <> None <-> forall o, In o l -> o <> None.
Proof.
  split.
  - intros E o I ->. apply E. apply every_bad. exact I.
  - intros H. apply every_ok. apply Forall_forall. exact H.
Qed.
Lemma every_map_iff {A B} (g : B -> option (list A)) l : every (map g l) <> None <-> forall x, In x l -> g x <> None.
Proof.
  rewrite every_iff. split.
  - intros H x I. apply H. apply in_map. exact I.
  - intros H o I. apply in_map_iff in I as (x & <- & I). auto.
Qed.
Lemma every_cons_iff {A} (o : option (list A)) l : every (o :: l) <> None <-> o <> None /\ every l <> None.
Proof. rewrite !every_iff. cbn [In]. split; [intros H; split; auto|intros [H K] x [<-|I]; auto]. Qed.
Lemma every_nil_iff {A} : @every A [] <> None <-> True.
Proof. split; [auto|intros _; discriminate]. Qed.
Lemma ensure_iff {A} b : @ensure A b <> None <-> b = true.
Proof. unfold ensure. destruct b; split; congruence. Qed.
Lemma some_iff {A} (x : A) : Some x <> None <-> True.
Proof. split; [auto|discriminate]. Qed.
Lemma none_iff {A} : @None A <> None <-> False.
Proof. split; [congruence|tauto]. Qed.

Ltac rws := repeat rewrite every_cons_iff; repeat rewrite ensure_iff; rewrite ?every_nil_iff.

(** ** Names *)
Definition fixed (x : ident) : Prop := exists y, ascii_name y /\ x = fix_identifier y.
Lemma fix_ascii x : ascii_name x -> ascii_name (fix_identifier x).
Proof.
  intros [N P]. destruct (fix_letter x N) as [N' L]. split; [exact N'|]. unfold fix_identifier, substitute_keyword in *.
  destruct (substitute substitutions x) as [y|] eqn:E; [|exact P]. apply letter_plain. apply L.
  apply substitute_some in E as (k & s & I & -> & ->).
  pose proof substitutions_letter as H. rewrite forallb_forall in H. specialize (H _ I). unfold substitution_letter in H. cbn [fst snd] in H.
  destruct (lit k) as [|c k'] eqn:Ek; [discriminate|]. destruct (lit s) as [|d s'] eqn:Es; [discriminate|].
  apply andb_true_iff in H as [H F]. apply andb_true_iff in H as [H1 H2]. rewrite negb_true_iff in H1, H2.
  exists [], c, k'. split; [reflexivity|]. split; [constructor|]. rewrite under_digit_iff, H1. discriminate.
Qed.
Lemma fixed_ascii x : fixed x -> ascii_name x.
Proof. intros (y & A & ->). apply fix_ascii. exact A. Qed.
Lemma fixed_keyword x : fixed x -> keyword x -> x = lit "try".
Proof. intros (y & _ & ->) K. apply fix_keyword_iff in K. subst. reflexivity. Qed.
Lemma fixed_special x : fixed x -> ~ In x (map lit ["self"; "Self"; "super"; "crate"]%string).
Proof.
  intros F I. assert (K : keyword x) by (cbn [map In] in I; repeat destruct I as [<-|I]; try contradiction; apply mem_text_In; vm_compute; reflexivity).
  rewrite (fixed_keyword x F K) in I. cbn [map In] in I. repeat destruct I as [I|I]; try discriminate I. exact I.
Qed.
Lemma ascii_app x s : ascii_name x -> forallb namec (lit s) = true -> ascii_name (x ++ lit s).
Proof. intros [N P] S. split; [apply name_app; [exact N|apply lit_name; exact S]|apply plain_app; exact P]. Qed.
Lemma ascii_lit s x : forallb namec (lit s) = true -> ascii_name (lit s) -> name_text x -> ascii_name (lit s ++ x).
Proof. intros S [_ P] N. split; [apply name_app; [apply lit_name; exact S|exact N]|apply plain_app; exact P]. Qed.
Lemma ascii_check s : forallb namec (lit s) = true -> match lit s with [] => false | c :: _ => negb (is_digit c) end = true -> ascii_name (lit s).
Proof.
  intros S D. split; [apply lit_name; exact S|]. destruct (lit s) as [|c r]; [discriminate|]. exists c, r. split; [reflexivity|]. intros I.
  revert D. cbn in I. repeat destruct I as [<-|I]; try discriminate. destruct I.
Qed.
Lemma snake_name x : name_text x -> name_text (snake_case x).
Proof.
  intros N. pose proof (snake_shape _ N) as (S & _). eapply Forall_impl; [|exact S]. intros b. rewrite snake_char_iff, name_char_iff. unfold lowc, namec.
  destruct (is_lower b), (is_digit b), (is_underscore b), (is_upper b); cbn; congruence.
Qed.
Lemma snake_ascii x : name_text x -> (ascii_name (snake_case x) <-> starts_with_letter x).
Proof.
  intros N. split.
  - intros [_ (c & r & E & D)]. destruct (first_letter x) as [U|(u & d & s & -> & U0 & C)].
    + apply snake_empty in U. congruence.
    + assert (U : Forall (fun b => b = usc) u) by (eapply Forall_impl; [|exact U0]; intros ? [_ X]; exact X).
      destruct (snake_first _ N u d s eq_refl U C) as (s' & E'). rewrite E' in E. injection E as <- <-.
      exists u, d, s. split; [reflexivity|]. split; [eapply Forall_impl; [|exact U]; intros a ->; left; reflexivity|].
      intros J. destruct J as [J|J]; [apply C; symmetry; exact J|]. apply D. replace (to_lower d) with d; [exact J|].
      cbn in J. repeat destruct J as [<-|J]; try reflexivity. destruct J.
  - intros L. destruct (snake_valid x (conj N L)) as [N' L']. split; [exact N'|apply letter_plain; exact L'].
Qed.

Section Writes.
Context (try_ok : bool) (float_ok : Z -> prim -> bool) (ident_ok : ident -> bool) (path_ok : qident -> bool).
Context (literal_ok : scalar_const -> bool -> option qident -> ity -> bool) (hg : host).
Context (Dc : decides try_ok float_ok ident_ok path_ok literal_ok).
Notation emit_node := (emit_node snake_case shouty_snake_case ident_ok path_ok literal_ok hg).

Lemma ident_iff x : name_text x -> (ident_ok x = true <-> ascii_name x).
Proof. apply (dc_ident _ _ _ _ _ Dc). Qed.
Lemma ident_true x : ascii_name x -> ident_ok x = true.
Proof. intros A. apply ident_iff; [apply A|exact A]. Qed.

(** The path to [q] can be written inside [p]. *)
Definition can_spell (p q : qident) : Prop := q <> p /\ Forall (path_name try_ok) (skipn (common_prefix q p) q).
Lemma common_full q : forall p, skipn (common_prefix q p) q = [] -> common_prefix q p = length p -> q = p.
Proof.
  induction q as [|x q IH]; intros [|y p]; cbn [common_prefix length skipn]; try discriminate; try reflexivity.
  destruct (ident_eqb x y) eqn:E; [|discriminate]. apply ident_eqb_eq in E as ->. intros S L. injection L as L. f_equal. auto.
Qed.
Lemma common_self q : common_prefix q q = length q.
Proof. induction q as [|x q IH]; [reflexivity|]. cbn [common_prefix length]. rewrite (proj2 (ident_eqb_eq x x) eq_refl), IH. reflexivity. Qed.
Lemma spell_iff p q : Forall fixed q -> (path_ok (relative q (Some p)) = true <-> can_spell p q).
Proof.
  intros F. cbn [relative]. destruct (common_prefix_le q p) as (L0 & L1 & L2). rewrite (dc_path _ _ _ _ _ Dc).
  - unfold can_spell. split; intros [A B]; (split; [|exact B]).
    + intros ->. rewrite common_self, skipn_all, Nat.sub_diag in A. destruct A as [A|A]; [lia|congruence].
    + destruct (Nat.eq_dec (common_prefix q p) (length p)) as [E|E]; [right|left; lia]. intros Z. apply A. apply common_full; assumption.
  - apply Forall_skipn. eapply Forall_impl; [|exact F]. exact fixed_ascii.
  - intros x I J. rewrite Forall_forall in F. eapply fixed_special; [|exact I]. apply F. rewrite <- (firstn_skipn (common_prefix q p) q). apply in_or_app. auto.
Qed.

Section Within.
Context (p : qident) (ns : option qident) (Ns : modules_around ns = p).
Definition known_names (l : list (qident * rkind)) : Prop := forall q k, In (q, k) l -> Forall fixed q.
Definition spellable (l : list (qident * rkind)) : Prop := forall q k, In (q, k) l -> can_spell p q.
Lemma known_app l m : known_names (l ++ m) -> known_names l /\ known_names m.
Proof. intros K. split; intros q k I; apply (K q k); apply in_or_app; auto. Qed.
Lemma spellable_app l m : spellable (l ++ m) <-> spellable l /\ spellable m.
Proof.
  split.
  - intros K. split; intros q k I; apply (K q k); apply in_or_app; auto.
  - intros [A B] q k I. apply in_app_or in I as [I|I]; eauto.
Qed.
Lemma relative_iff q : Forall fixed q -> (path_ok (relative q ns) = true <-> can_spell p q).
Proof. intros F. rewrite relative_around, Ns. apply spell_iff. exact F. Qed.
Lemma type_iff t : known_names (ty_uses t) -> (type_tokens path_ok ns t <> None <-> spellable (ty_uses t)).
Proof.
  intros K. unfold type_tokens. transitivity (forallb (fun x => path_ok (fst x)) (ty_paths ns t) = true); [destruct (forallb _ _); split; congruence|].
  rewrite forallb_forall. split.
  - intros H q k I. apply relative_iff; [eapply K; exact I|]. apply (H (relative q ns, k)). apply ty_paths_all. exact I.
  - intros H [path k] I. apply ty_paths_from in I as (q & I & ->). cbn [fst]. apply relative_iff; [eapply K; exact I|]. eapply H. exact I.
Qed.
Lemma path_iff q k : Forall fixed q -> (path_tokens path_ok (relative q ns) k <> None <-> can_spell p q).
Proof. intros F. unfold path_tokens. rewrite <- (relative_iff q F). destruct (path_ok _); split; congruence. Qed.
Lemma members_iff vs : (forall v, In v vs -> ascii_name (iuv_id v)) -> known_names (flat_map (fun v => ty_uses (iuv_ty v)) vs) ->
  (every (map (fun v => every [ensure (ident_ok (iuv_id v)); type_tokens path_ok ns (iuv_ty v)]) vs) <> None <-> spellable (flat_map (fun v => ty_uses (iuv_ty v)) vs)).
Proof.
  intros N K. rewrite every_map_iff. split.
  - intros H q k I. apply in_flat_map in I as (v & Iv & I). specialize (H v Iv). repeat rewrite every_cons_iff in H. destruct H as (_ & H & _).
    apply type_iff in H; [eapply H; exact I|]. intros q' k' J. eapply K. apply in_flat_map. eauto.
  - intros H v Iv. rws. split; [apply ident_true; auto|]. split; [|exact I].
    apply type_iff; intros q k J; [eapply K|eapply H]; apply in_flat_map; eauto.
Qed.

(** ** Fields *)
Record named_field (f : ifield) : Prop := NamedField {
  nf_id : name_text (if_id f);
  nf_default : forall i, if_default f = Some (DIdent i) -> ascii_name i;
  nf_uses : known_names (field_uses f);
  nf_members : forall q e vs v, if_ty f = ICustom q (KUnion e vs) -> In v vs -> ascii_name (iuv_id v) }.
(** The default apart from [Default]. *)
Definition number_written (f : ifield) : Prop :=
  match if_default f with
  | Some (DScalar (CInt _)) => exists p, if_ty f = IPrim p
  | Some (DScalar (CFloat b)) => exists p, if_ty f = IPrim p /\ float_ok b p = true
  | _ => True
  end.
Lemma prim_or t : (exists p, t = IPrim p) \/ forall p, t <> IPrim p.
Proof. destruct t; eauto; right; intros ?; discriminate. Qed.
Lemma default_doc_iff f : default_doc_ok path_ok literal_ok f = true <-> number_written f.
Proof.
  unfold default_doc_ok, number_written. destruct (if_default f) as [[[i|b|b]|i]|]; try tauto.
  - destruct (prim_or (if_ty f)) as [[pr ->]|Np].
    + cbn [ty_paths forallb andb]. rewrite (dc_int _ _ _ _ _ Dc). split; eauto.
    + rewrite (dc_other _ _ _ _ _ Dc) by exact Np. rewrite andb_false_r. split; [discriminate|]. intros [pr E]. destruct (Np _ E).
  - destruct (prim_or (if_ty f)) as [[pr ->]|Np].
    + cbn [ty_paths forallb andb]. rewrite (dc_float _ _ _ _ _ Dc). split; [eauto|]. intros (pr' & E & W). injection E as <-. exact W.
    + rewrite (dc_other _ _ _ _ _ Dc) by exact Np. rewrite andb_false_r. split; [discriminate|]. intros (pr & E & _). destruct (Np _ E).
Qed.
Lemma default_iff w f d : if_default f = Some d -> named_field f -> number_written f -> spellable (ty_uses (if_ty f)) ->
  default_tokens ident_ok path_ok literal_ok w ns (if_ty f) d <> None.
Proof.
  intros E N W S. unfold number_written in W. rewrite E in W. unfold default_tokens. destruct d as [[i|b|b]|i].
  - destruct W as [pr ->]. rewrite (dc_int _ _ _ _ _ Dc). discriminate.
  - destruct W as (pr & -> & W). rewrite (dc_float _ _ _ _ _ Dc), W. discriminate.
  - discriminate.
  - rewrite (ident_true i) by (eapply nf_default; eauto). apply type_iff; [|exact S]. apply (known_app _ _ (nf_uses f N)).
Qed.
Definition field_written (f : ifield) : Prop := starts_with_letter (if_id f) /\ number_written f /\ spellable (field_uses f).
Lemma field_iff f : named_field f ->
  (args_field ident_ok path_ok literal_ok ns f <> None /\ builder_method shouty_snake_case ident_ok path_ok literal_ok ns f <> None /\
   accessor snake_case ident_ok path_ok literal_ok ns f <> None <-> field_written f).
Proof.
  intros N. pose proof (nf_id f N) as Ni. destruct (known_app _ _ (nf_uses f N)) as [K1 K2]. unfold field_written. rewrite <- default_doc_iff. split.
  - intros (A & _ & C). unfold args_field in A. unfold accessor in C. repeat rewrite every_cons_iff in A. repeat rewrite every_cons_iff in C. repeat rewrite ensure_iff in A. repeat rewrite ensure_iff in C.
    destruct A as (_ & A & _). destruct C as (Cs & Ct & _ & Cu & _). rewrite (ident_iff _ (snake_name _ Ni)), (snake_ascii _ Ni) in Cs.
    split; [exact Cs|]. split; [exact A|]. unfold field_uses in *. apply spellable_app. split; [apply type_iff; assumption|].
    destruct (if_ty f) as [| | |q [| | |e vs]] eqn:T; try solve [intros ? ? []].
    repeat rewrite every_cons_iff in Cu. destruct Cu as (_ & Ce & _ & Cm & _).
    change (union_uses e vs) with ([(e, REnum)] ++ flat_map (fun v => ty_uses (iuv_ty v)) vs) in *. destruct (known_app _ _ K2) as [Ke Kv].
    apply spellable_app. split.
    + intros q' k' [I|[]]. injection I as <- <-. eapply path_iff; [eapply Ke; left; reflexivity|exact Ce].
    + apply members_iff in Cm; [exact Cm| |exact Kv]. intros v Iv. eapply nf_members; eauto.
  - intros (L & Dd & S). pose proof (proj1 (default_doc_iff f) Dd) as W. apply spellable_app in S as [S1 S2].
    assert (Ai : ascii_name (if_id f)) by (split; [exact Ni|apply letter_plain; exact L]).
    assert (T : type_tokens path_ok ns (if_ty f) <> None) by (apply type_iff; assumption).
    split; [|split].
    + unfold args_field. rws. split; [apply ident_true; exact Ai|]. split; [exact Dd|]. split; [|exact I].
      destruct (is_union _); [discriminate|exact T].
    + unfold builder_method. rws.
      split; [apply ident_true, ascii_lit; [reflexivity|apply ascii_check; reflexivity|exact Ni]|]. split; [apply ident_true; exact Ai|].
      split; [apply ident_true, ascii_lit; [reflexivity|apply ascii_check; reflexivity|apply shouty_name; exact Ni]|].
      split; [destruct (is_union _); [discriminate|exact T]|]. split; [|exact I].
      destruct (if_default f) as [d|] eqn:E; [|discriminate]. destruct (is_scalar _); [|discriminate]. eapply default_iff; eauto.
    + unfold accessor. rws.
      split; [apply ident_iff; [apply snake_name; exact Ni|apply snake_ascii; assumption]|]. split; [exact T|].
      split; [destruct (if_default f) as [d|] eqn:E; [|discriminate]; eapply default_iff; eauto|]. split; [|exact I].
      destruct (if_ty f) as [| | |q [| | |e vs]] eqn:Ty; try discriminate.
      change (union_uses e vs) with ([(e, REnum)] ++ flat_map (fun v => ty_uses (iuv_ty v)) vs) in *. destruct (known_app _ _ K2) as [Ke Kv]. apply spellable_app in S2 as [Se Sv].
      rws.
      split; [apply path_iff; [eapply K1; left; reflexivity|eapply S1; left; reflexivity]|].
      split; [apply path_iff; [eapply Ke; left; reflexivity|eapply Se; left; reflexivity]|].
      split; [apply ident_true, ascii_app; [apply snake_ascii; assumption|reflexivity]|]. split; [|exact I].
      apply members_iff; [intros v Iv; eapply nf_members; eauto|exact Kv|exact Sv].
Qed.
(** In [Default]. *)
Definition kind_written (f : ifield) : Prop :=
  match if_default f with
  | Some (DScalar (CBool _)) => forall q vs b, if_ty f <> ICustom q (KEnum vs b)
  | Some (DIdent _) => forall p, if_ty f <> IPrim p
  | _ => True
  end.
Lemma args_default_iff f : named_field f -> field_written f -> (forall q gs, if_ty f <> ICustom q (KStruct gs)) ->
  (args_default ident_ok path_ok literal_ok ns f <> None <-> kind_written f).
Proof.
  intros N (L & W & S) Ns0. destruct (known_app _ _ (nf_uses f N)) as [K1 K2]. apply spellable_app in S as [S1 S2].
  unfold args_default. rws. rewrite (type_iff _ K1). unfold kind_written, number_written in *.
  pose proof (nf_default f N) as Nd.
  destruct (if_default f) as [[[i|b|b]|i]|] eqn:E.
  - destruct W as [pr ->]. cbn [is_scalar negb is_enum]. rewrite (dc_int _ _ _ _ _ Dc). split; [tauto|]. intros _. split; [intros ? ? []|]. split; [discriminate|exact I].
  - destruct W as (pr & -> & W). cbn [is_scalar negb is_enum]. rewrite (dc_float _ _ _ _ _ Dc), W. split; [tauto|]. intros _. split; [intros ? ? []|]. split; [discriminate|exact I].
  - split.
    + intros (_ & H & _) q vs b' T. rewrite T in H. cbn in H. congruence.
    + intros H. split; [exact S1|]. split; [|exact I]. destruct (if_ty f) as [| | |q [| | |]]; try discriminate. exfalso. eapply H. reflexivity.
  - split.
    + intros (_ & H & _) pr T. rewrite T in H. cbn in H. congruence.
    + intros H. split; [exact S1|]. split; [|exact I]. destruct (if_ty f) as [pr| | |q [| | |]]; try discriminate; cbn [is_scalar negb is_enum].
      * exfalso. eapply H. reflexivity.
      * exfalso. eapply Ns0. reflexivity.
      * rewrite ensure_iff. apply ident_true. eapply Nd. reflexivity.
  - split; [tauto|]. intros _. split; [exact S1|]. split; [destruct (negb _); discriminate|exact I].
Qed.
End Within.

(** ** Slots *)
Lemma slot_iff i : debug hg = true -> (most_fields <= i < 65536)%Z -> offset_constant hg i = None.
Proof.
  intros D H. unfold most_fields in H. unfold offset_constant, slot_of, field_index_to_field_offset, as_u16, u16_arith, unsigned_arith, SIZE_VOFFSET. rewrite D.
  rewrite Z.mod_small by lia. destruct ((0 <=? i + 2) && (i + 2 <? 2 ^ 16))%Z eqn:E; cbn [bind]; [|reflexivity].
  replace ((0 <=? (i + 2) * 2) && ((i + 2) * 2 <? 2 ^ 16))%Z with false by lia. reflexivity.
Qed.
Lemma offsets_bad fs : forall i, debug hg = true -> (0 <= i <= most_fields)%Z -> (most_fields < i + Z.of_nat (length fs))%Z -> offset_constants hg i fs = None.
Proof.
  induction fs as [|f fs IH]; intros i D H L; cbn [length] in L; [lia|]. cbn [offset_constants].
  destruct (Z.eq_dec i most_fields) as [->|E]; [rewrite slot_iff; [reflexivity|exact D|unfold most_fields; lia]|].
  apply every_bad. right. left. apply IH; [exact D|lia|lia].
Qed.
Lemma offsets_iff fs : offset_constants hg 0 fs <> None <-> debug hg = false \/ (Z.of_nat (length fs) <= most_fields)%Z.
Proof.
  split.
  - intros H. destruct (debug hg) eqn:D; [right|auto]. destruct (Z_le_gt_dec (Z.of_nat (length fs)) most_fields) as [L|L]; [exact L|].
    exfalso. apply H. apply offsets_bad; [exact D|unfold most_fields; lia|lia].
  - intros H. apply offsets_ok. destruct H as [H|H]; [auto|right; lia].
Qed.

(** ** Definitions *)
Lemma table_iff t p : modules_around (q_namespace (it_id t)) = p -> ascii_name (last (it_id t) []) -> (forall f, In f (it_fields t) -> named_field f) ->
  (forall f q gs, In f (it_fields t) -> if_ty f <> ICustom q (KStruct gs)) ->
  (emit_node (NTable t) <> None <->
   (forall f, In f (it_fields t) -> starts_with_letter (if_id f) /\ default_written float_ok t f) /\
   (forall q k, In (q, k) (spelled (NTable t)) -> can_spell p q) /\
   (debug hg = false \/ (Z.of_nat (length (it_fields t)) <= most_fields)%Z)).
Proof.
  intros Ns A N S. cbn [Emit.emit_node]. unfold emit_table. match goal with |- context [every ?l] => transitivity (every l <> None); [destruct (every l); split; congruence|] end.
  rws. repeat rewrite every_map_iff. rewrite offsets_iff.
  assert (Fw : (forall f, In f (it_fields t) -> field_written p f) <->
    ((forall f, In f (it_fields t) -> args_field ident_ok path_ok literal_ok (q_namespace (it_id t)) f <> None) /\
     (forall f, In f (it_fields t) -> builder_method shouty_snake_case ident_ok path_ok literal_ok (q_namespace (it_id t)) f <> None) /\
     (forall f, In f (it_fields t) -> accessor snake_case ident_ok path_ok literal_ok (q_namespace (it_id t)) f <> None))).
  { split.
    - intros H. repeat split; intros f I; destruct (proj2 (field_iff p _ Ns f (N f I)) (H f I)) as (X & Y & Z); assumption.
    - intros (X & Y & Z) f I. apply (field_iff p _ Ns f (N f I)). auto. }
  assert (Sp : (forall q k, In (q, k) (spelled (NTable t)) -> can_spell p q) <-> forall f, In f (it_fields t) -> spellable p (field_uses f)).
  { cbn [spelled]. split.
    - intros H f If q k I. eapply H. apply in_flat_map. eauto.
    - intros H q k I. apply in_flat_map in I as (f & If & I). eapply H; eauto. }
  assert (Dw : forall f, default_written float_ok t f <-> number_written f /\ (has_default t -> kind_written f)).
  { intros f. unfold default_written, number_written, kind_written. destruct (if_default f) as [[[i|b|b]|i]|]; tauto. }
  assert (Hd : forallb (fun f => negb (if_required f) || is_scalar (if_ty f)) (it_fields t) = true <-> has_default t).
  { rewrite forallb_forall. unfold has_default. split; intros H f I; specialize (H f I).
    - apply orb_prop in H as [H|H]; [left; apply negb_true_iff; exact H|auto].
    - apply orb_true_iff. destruct H as [H|H]; [left; apply negb_true_iff; exact H|auto]. }
  rewrite Sp. split.
  - intros (_ & _ & _ & Ga & Gd & Gb & Go & Gc & _). pose proof (proj2 Fw (conj Ga (conj Gb Gc))) as W.
    split; [|split; [intros f I; apply (W f I)|exact Go]]. intros f I. split; [apply (W f I)|]. apply Dw. split; [apply (W f I)|]. intros H. apply Hd in H. rewrite H in Gd.
    rewrite every_map_iff in Gd. eapply (args_default_iff p _ Ns f); eauto.
  - intros (F & Sf & Go). assert (W : forall f, In f (it_fields t) -> field_written p f).
    { intros f I. split; [apply F; exact I|]. split; [apply (proj1 (Dw f)), F; exact I|auto]. }
    destruct (proj1 Fw W) as (Ga & Gb & Gc).
    split; [apply ident_true; exact A|]. split; [apply ident_true, ascii_app; [exact A|reflexivity]|]. split; [apply ident_true, ascii_app; [exact A|reflexivity]|].
    split; [exact Ga|]. split; [|split; [exact Gb|split; [exact Go|split; [exact Gc|exact I]]]].
    destruct (forallb _ _) eqn:E; [|discriminate]. rewrite every_map_iff. intros f I. eapply (args_default_iff p _ Ns f); eauto.
    apply (proj1 (Dw f)); [apply F; exact I|]. apply Hd. reflexivity.
Qed.
Lemma union_iff u p : modules_around (q_namespace (iu_id u)) = p -> ascii_name (last (iu_id u) []) -> known_names (spelled (NUnion u)) ->
  (forall v, In v (iu_variants u) -> ascii_name (iuv_id v)) ->
  (emit_node (NUnion u) <> None <-> forall q k, In (q, k) (spelled (NUnion u)) -> can_spell p q).
Proof.
  intros Ns A K M. cbn [Emit.emit_node]. unfold emit_union. match goal with |- context [every ?l] => transitivity (every l <> None); [destruct (every l); split; congruence|] end.
  rws. cbn [spelled] in *.
  change (union_uses (iu_enum u) (iu_variants u)) with ([(iu_enum u, REnum)] ++ flat_map (fun v => ty_uses (iuv_ty v)) (iu_variants u)) in *.
  destruct (known_app _ _ K) as [Ke Kv]. change (forall q k, _) with (spellable p ([(iu_enum u, REnum)] ++ flat_map (fun v => ty_uses (iuv_ty v)) (iu_variants u))).
  rewrite spellable_app. rewrite (path_iff p _ Ns) by (eapply Ke; left; reflexivity). rewrite (members_iff p _ Ns) by assumption. split.
  - intros (_ & X & Y & _). split; [|exact Y]. intros q k [I|[]]. injection I as <- <-. exact X.
  - intros (X & Y). split; [apply ident_true; exact A|]. split; [eapply X; left; reflexivity|]. split; [exact Y|exact I].
Qed.
Lemma enum_ok e : ascii_name (last (ie_id e) []) -> Forall (fun v => ascii_name (iev_id v)) (ie_variants e) -> emit_node (NEnum e) <> None.
Proof.
  intros A F. cbn [Emit.emit_node]. unfold emit_enum. match goal with |- context [every ?l] => enough (X : every l <> None) by (destruct (every l); congruence) end.
  rws. split; [apply ident_true; exact A|].
  split; [apply ident_true, ascii_lit; [reflexivity|apply ascii_check; reflexivity|apply snake_name, A]|].
  rewrite Forall_forall in F. split; [apply forallb_forall; intros v I; apply ident_true; auto|]. split; [|exact I].
  apply forallb_forall. intros n _. apply (dc_int _ _ _ _ _ Dc).
Qed.
End Writes.

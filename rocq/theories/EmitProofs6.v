(** Code generation completes. *)
From Coq Require Import Strings.String ZArith List Bool Lia Strings.Byte Permutation.
From Verif Require Import Base BaseFacts Schema Ident SpecIdent IdentProofs Parser Heck HeckProofs Codegen GenProofs1 GenProofs8 Reader Builder BuilderProofs9 Resolve SpecResolve ResolveProofs1 ResolveProofs4 ResolveProofs5 ResolveProofs6 ResolveProofs9 Emit SpecEmit EmitProofs1 EmitProofs2 EmitProofs4 EmitProofs5.
Import ListNotations.
Local Open Scope nat_scope.

Lemma every_ok {A} (l : list (option (list A))) : Forall (fun o => o <> None) l -> every l <> None.
Proof.
  induction 1 as [|o l N _ IH]; cbn [every]; [discriminate|]. destruct o as [x|]; [|congruence]. destruct (every l); [discriminate|congruence].
Qed.
Lemma every_bad {A} (l : list (option (list A))) : In None l -> every l = None.
Proof. induction l as [|[x|] l IH]; intros I; [destruct I| |reflexivity]. destruct I as [I|I]; [discriminate|]. cbn [every]. rewrite (IH I). reflexivity. Qed.
Lemma ensure_ok {A} b : b = true -> @ensure A b <> None.
Proof. intros ->. discriminate. Qed.

(** ** Names *)
Definition valid (x : ident) : Prop := name_text x /\ starts_with_letter x.
Definition plain_start (x : ident) : Prop := exists c r, x = c :: r /\ ~ In c (lit "0123456789").
Lemma name_app x y : name_text x -> name_text y -> name_text (x ++ y).
Proof. intros X Y. apply Forall_app. auto. Qed.
Lemma letter_plain x : starts_with_letter x -> plain_start x.
Proof.
  intros (u & c & r & -> & U & D). destruct U as [|b u Hb _].
  - exists c, r. split; [reflexivity|]. intros I. apply D. right. exact I.
  - exists b, (u ++ c :: r). split; [reflexivity|]. destruct Hb as [<-|[]]. intros I. cbn in I. intuition discriminate.
Qed.
Lemma plain_app x y : plain_start x -> plain_start (x ++ y).
Proof. intros (c & r & -> & D). exists c, (r ++ y). auto. Qed.
Lemma letter_app x y : starts_with_letter x -> starts_with_letter (x ++ y).
Proof. intros (u & c & r & -> & U & D). exists u, c, (r ++ y). rewrite <- app_assoc. auto. Qed.
Lemma lit_name s : forallb namec (lit s) = true -> name_text (lit s).
Proof. apply name_text_check. Qed.
Lemma snake_valid x : valid x -> name_text (snake_case x) /\ starts_with_letter (snake_case x).
Proof.
  intros [N (u & c & r & -> & U & D)].
  assert (U' : Forall (fun b => b = usc) u) by (eapply Forall_impl; [|exact U]; intros b; apply under_char_iff).
  assert (C : c <> usc) by (intros ->; apply D; left; reflexivity).
  destruct (snake_first _ N u c r eq_refl U' C) as (s & E). split.
  - pose proof (snake_shape _ N) as (S & _). eapply Forall_impl; [|exact S]. intros b. rewrite snake_char_iff, name_char_iff. unfold lowc, namec.
    destruct (is_lower b), (is_digit b), (is_underscore b), (is_upper b); cbn; congruence.
  - rewrite E. exists [], (to_lower c), s. split; [reflexivity|]. split; [constructor|]. rewrite under_digit_iff in *. rewrite lower_digit, lower_usc. exact D.
Qed.
Lemma upper_namec c : namec c = true -> namec (to_upper c) = true.
Proof.
  intros N. pose proof (all_bytes (fun c => negb (namec c) || namec (to_upper c))) as H. cbn beta in H. specialize (H eq_refl c). rewrite N in H. exact H.
Qed.
Lemma underscored_names ws : Forall name_text ws -> name_text (underscored ws).
Proof.
  induction 1 as [|w ws W F IH]; [constructor|]. destruct ws as [|w' ws]; [exact W|]. rewrite underscored_cons. apply name_app; [exact W|].
  constructor; [apply name_char_iff; reflexivity|exact IH].
Qed.
Lemma shouty_name x : name_text x -> name_text (shouty_snake_case x).
Proof.
  intros N. unfold shouty_snake_case. apply underscored_names. destruct (words_start x) as [_ E]. apply name_text_iff in N.
  assert (L : Forall (fun c => namec c = true) (concat (words AtBoundary [] x))).
  { rewrite E. apply Forall_forall. intros c I. apply filter_In in I as [I _]. rewrite Forall_forall in N. auto. }
  clear E. apply Forall_forall. intros w I. apply in_map_iff in I as (v & <- & I). apply name_text_iff. apply Forall_forall. intros c J. apply in_map_iff in J as (d & <- & J).
  apply upper_namec. rewrite Forall_forall in L. apply L. apply in_concat. eauto.
Qed.
Lemma usable_valid x : usable x -> valid (fix_identifier x).
Proof. intros (N & L & _). destruct (fix_letter x N) as [N' L']. split; [exact N'|apply L'; exact L]. Qed.
Lemma valid_rust x : valid x -> ~ keyword x -> rust_name x.
Proof.
  intros [N L] K. split; [exact N|]. split; [exact (letter_plain x L)|]. split; [|exact K]. intros ->. destruct L as (u & c & r & E & U & D).
  destruct u as [|b u]; [injection E as <- _; apply D; left; reflexivity|]. injection E as _ E. destruct u; discriminate E.
Qed.
Lemma usable_rust x : usable x -> rust_name (fix_identifier x).
Proof. intros U. apply valid_rust; [apply usable_valid; exact U|]. rewrite fix_keyword_iff. destruct U as (_ & _ & T). exact T. Qed.
Lemma usable_app x s : usable x -> forallb namec (lit s) = true -> rev (lit s) <> [] -> hd x00 (rev (lit s)) <> hd x00 (rev (lit "try")) -> usable (x ++ lit s).
Proof.
  intros (N & L & _) S Ne H. split; [apply name_app; [exact N|apply lit_name; exact S]|]. split; [apply letter_app; exact L|].
  intros E. apply H. rewrite <- E, rev_app_distr. destruct (rev (lit s)); [congruence|reflexivity].
Qed.
Lemma type_usable x : usable x -> usable (x ++ lit "Type").
Proof. intros U. apply usable_app; [exact U|reflexivity|discriminate|discriminate]. Qed.
Lemma snake_type_usable x : usable x -> usable (snake_case x ++ lit "_type").
Proof.
  intros (N & L & _). destruct (snake_valid x (conj N L)) as [N' L']. split; [apply name_app; [exact N'|apply lit_name; reflexivity]|]. split; [apply letter_app; exact L'|].
  intros E. apply (f_equal (@rev _)) in E. rewrite rev_app_distr in E. discriminate E.
Qed.

Section Completes.
Context (ident_ok : ident -> bool) (path_ok : qident -> bool) (literal_ok : scalar_const -> bool -> option qident -> ity -> bool) (hg : host).
Context (A : accepts ident_ok path_ok literal_ok).
Notation emit_node := (emit_node snake_case shouty_snake_case ident_ok path_ok literal_ok hg).
Notation emit := (emit snake_case shouty_snake_case ident_ok path_ok literal_ok hg).

Lemma ident_accepted x : name_text x -> plain_start x -> ident_ok x = true.
Proof. intros N (c & r & -> & D). apply (ac_ident _ _ _ A); assumption. Qed.
Lemma valid_accepted x : valid x -> ident_ok x = true.
Proof. intros [N L]. apply ident_accepted; [exact N|apply letter_plain; exact L]. Qed.
Lemma snake_accepted x : valid x -> ident_ok (snake_case x) = true.
Proof. intros V. apply valid_accepted. apply snake_valid. exact V. Qed.
Lemma prefixed_accepted s x : forallb namec (lit s) = true -> plain_start (lit s) -> name_text x -> ident_ok (lit s ++ x) = true.
Proof. intros S P N. apply ident_accepted; [apply name_app; [apply lit_name; exact S|exact N]|apply plain_app; exact P]. Qed.
Lemma suffixed_accepted s x : forallb namec (lit s) = true -> valid x -> ident_ok (x ++ lit s) = true.
Proof. intros S [N L]. apply ident_accepted; [apply name_app; [exact N|apply lit_name; exact S]|apply plain_app; apply letter_plain; exact L]. Qed.

Definition fine (p q : qident) : Prop := q <> [] /\ Forall rust_name q /\ ~ encloses q p.
Lemma Forall_skipn {T} (P : T -> Prop) n l : Forall P l -> Forall P (skipn n l).
Proof. intros F. rewrite <- (firstn_skipn n l) in F. apply Forall_app in F. tauto. Qed.
Lemma relative_accepted p q ns : fine p q -> ns = None \/ ns = Some p -> path_ok (relative q ns) = true.
Proof.
  intros (N & F & E) [->| ->].
  - apply (ac_path _ _ _ A 0 q N F).
  - cbn [relative]. apply (ac_path _ _ _ A); [|apply Forall_skipn; exact F]. intros Z. apply E. apply common_prefix_all.
    destruct (common_prefix_le q p) as (_ & L & _). apply (f_equal (@length _)) in Z. rewrite skipn_length in Z. cbn [length] in Z. lia.
Qed.
Lemma type_accepted p ns t : (forall q c, In (q, c) (ty_mentions t) -> fine p q) -> ns = None \/ ns = Some p ->
  forallb (fun x => path_ok (fst x)) (ty_paths ns t) = true.
Proof.
  intros H C. apply forallb_forall. intros [path k] I. apply ty_paths_in in I as (q & c & I & -> & _). cbn [fst]. eapply relative_accepted; [eapply H; exact I|exact C].
Qed.
Lemma type_tokens_ok p ns t : (forall q c, In (q, c) (ty_mentions t) -> fine p q) -> ns = None \/ ns = Some p -> type_tokens path_ok ns t <> None.
Proof. intros H C. unfold type_tokens. rewrite (type_accepted p ns t H C). discriminate. Qed.
Lemma path_tokens_ok p ns q k : fine p q -> ns = None \/ ns = Some p -> path_tokens path_ok (relative q ns) k <> None.
Proof. intros F C. unfold path_tokens. rewrite (relative_accepted p q ns F C). discriminate. Qed.

(** ** Fields *)
Definition good_default (t : ity) (d : option default_value) : Prop :=
  match t, d with
  | _, None => True
  | IPrim p, Some (DScalar (CBool _)) => True
  | IPrim p, Some (DScalar c) => printable literal_ok c p
  | ICustom _ (KStruct _), _ => False
  | ICustom _ _, Some (DIdent i) => ident_ok i = true
  | _, _ => False
  end.
Record good_field (p : qident) (f : ifield) : Prop := GoodField {
  gf_id : valid (if_id f);
  gf_needs : forall q k, In (q, k) (flat_map needs_of (ty_mentions (if_ty f))) -> fine p q;
  gf_members : forall q e vs v, if_ty f = ICustom q (KUnion e vs) -> In v vs -> ident_ok (iuv_id v) = true;
  gf_default : good_default (if_ty f) (if_default f) }.
Lemma gf_types p f : good_field p f -> forall q c, In (q, c) (ty_mentions (if_ty f)) -> fine p q.
Proof. intros G q c I. eapply gf_needs; [exact G|]. apply mention_need. exact I. Qed.

Section Table.
Context (p : qident) (ns : option qident) (C : ns = None \/ ns = Some p).
Lemma default_tokens_ok w f d : good_field p f -> if_default f = Some d -> default_tokens ident_ok path_ok literal_ok w ns (if_ty f) d <> None.
Proof.
  intros G E. pose proof (gf_default p f G) as D. rewrite E in D. pose proof (gf_types p f G) as T. unfold default_tokens.
  destruct d as [[i|b|b]|i].
  - destruct (if_ty f) as [pr| | |q [| | |]]; try contradiction. cbn in D. rewrite D. discriminate.
  - destruct (if_ty f) as [pr| | |q [| | |]]; try contradiction. cbn in D. rewrite D. discriminate.
  - discriminate.
  - assert (X : ident_ok i = true) by (destruct (if_ty f) as [pr| | |q [| | |]]; try contradiction; exact D). rewrite X. eapply type_tokens_ok; eauto.
Qed.
Ltac every_tac := apply every_ok; repeat apply Forall_cons; try apply Forall_nil.
Lemma args_field_ok f : good_field p f -> args_field ident_ok path_ok literal_ok ns f <> None.
Proof.
  intros G. unfold args_field. every_tac.
  - apply ensure_ok, valid_accepted, (gf_id p f G).
  - apply ensure_ok. unfold default_doc_ok. pose proof (gf_default p f G) as D. pose proof (gf_types p f G) as T.
    destruct (if_default f) as [[[i|b|b]|i]|]; try reflexivity.
    + rewrite (type_accepted p None (if_ty f) T) by auto. destruct (if_ty f) as [pr| | |q [| | |]]; try contradiction. cbn in D. rewrite D. reflexivity.
    + rewrite (type_accepted p None (if_ty f) T) by auto. destruct (if_ty f) as [pr| | |q [| | |]]; try contradiction. cbn in D. rewrite D. reflexivity.
  - destruct (is_union (if_ty f)); [discriminate|]. eapply type_tokens_ok; [apply (gf_types p f G)|exact C].
Qed.
Lemma args_default_ok f : good_field p f -> args_default ident_ok path_ok literal_ok ns f <> None.
Proof.
  intros G. unfold args_default. every_tac.
  - eapply type_tokens_ok; [apply (gf_types p f G)|exact C].
  - destruct (negb _) eqn:S; [discriminate|]. pose proof (gf_default p f G) as D. destruct (if_default f) as [d|]; [|discriminate].
    destruct (if_ty f) as [pr| | |q [|fs|vs b|e vs]]; try discriminate S; try contradiction; cbn [is_enum]; destruct d as [[i|c|c]|i]; try contradiction; try discriminate.
    + cbn in D. rewrite D. discriminate.
    + cbn in D. rewrite D. discriminate.
    + cbn in D. rewrite D. discriminate.
Qed.
Lemma builder_method_ok f : good_field p f -> builder_method shouty_snake_case ident_ok path_ok literal_ok ns f <> None.
Proof.
  intros G. unfold builder_method. pose proof (gf_id p f G) as [N L]. every_tac.
  - apply ensure_ok. apply prefixed_accepted; [reflexivity| |exact N]. exists "a"%byte, (lit "dd_"). split; [reflexivity|]. intros I. cbn in I. intuition discriminate.
  - apply ensure_ok, valid_accepted. split; assumption.
  - apply ensure_ok. apply prefixed_accepted; [reflexivity| |apply shouty_name; exact N]. exists "V"%byte, (lit "T_"). split; [reflexivity|]. intros I. cbn in I. intuition discriminate.
  - destruct (is_union (if_ty f)); [discriminate|]. eapply type_tokens_ok; [apply (gf_types p f G)|exact C].
  - destruct (if_default f) as [d|] eqn:E; [|discriminate]. destruct (is_scalar (if_ty f)); [|discriminate]. eapply default_tokens_ok; eauto.
Qed.
Lemma members_ok vs : (forall v, In v vs -> ident_ok (iuv_id v) = true) -> (forall v q c, In v vs -> In (q, c) (ty_mentions (iuv_ty v)) -> fine p q) ->
  every (map (fun v => every [ensure (ident_ok (iuv_id v)); type_tokens path_ok ns (iuv_ty v)]) vs) <> None.
Proof.
  intros I T. apply every_ok. apply Forall_forall. intros o J. apply in_map_iff in J as (v & <- & J). every_tac; [apply ensure_ok; auto|eapply type_tokens_ok; eauto].
Qed.
Lemma member_need q e vs v m c : In v vs -> In (m, c) (ty_mentions (iuv_ty v)) -> In (m, rkind_of c) (needs_of (q, KUnion e vs)).
Proof. intros I J. right. right. apply in_flat_map. exists v. split; [exact I|]. apply in_map_iff. exists (m, c). auto. Qed.
Lemma accessor_ok f : good_field p f -> accessor snake_case ident_ok path_ok literal_ok ns f <> None.
Proof.
  intros G. unfold accessor. every_tac.
  - apply ensure_ok, snake_accepted, (gf_id p f G).
  - eapply type_tokens_ok; [apply (gf_types p f G)|exact C].
  - destruct (if_default f) as [d|] eqn:E; [|discriminate]. eapply default_tokens_ok; eauto.
  - destruct (if_ty f) as [pr| | |q [|fs|vs b|e vs]] eqn:T; try discriminate. pose proof (gf_needs p f G) as N. rewrite T in N. cbn [ty_mentions flat_map] in N. rewrite app_nil_r in N. every_tac.
    + eapply path_tokens_ok; [|exact C]. apply (N q RUnion). left. reflexivity.
    + eapply path_tokens_ok; [|exact C]. apply (N e REnum). right. left. reflexivity.
    + apply ensure_ok. apply suffixed_accepted; [reflexivity|]. apply snake_valid, (gf_id p f G).
    + apply members_ok; [intros v I; eapply gf_members; eauto|]. intros v m c Iv Im. eapply N. eapply member_need; eauto.
Qed.
Lemma slots_ok i : debug hg = false \/ (0 <= i < most_fields)%Z -> offset_constant hg i <> None.
Proof.
  intros H. unfold offset_constant, slot_of. destruct H as [H|H].
  - unfold field_index_to_field_offset, u16_arith, unsigned_arith. rewrite H. destruct (_ && _); cbn [bind]; destruct (_ && _); discriminate.
  - unfold most_fields in H. unfold as_u16. rewrite Z.mod_small by lia. rewrite slot_of_index by lia. discriminate.
Qed.
Lemma offsets_ok fs : forall i, debug hg = false \/ (0 <= i /\ i + Z.of_nat (length fs) <= most_fields)%Z -> offset_constants hg i fs <> None.
Proof.
  induction fs as [|f fs IH]; intros i H; cbn [offset_constants]; [discriminate|]. every_tac.
  - apply slots_ok. destruct H as [H|H]; [auto|right]. cbn [length] in H. lia.
  - apply IH. destruct H as [H|H]; [auto|right]. cbn [length] in H. lia.
Qed.
Lemma emit_table_ok t : ns = q_namespace (it_id t) -> valid (last (it_id t) []) -> Forall (good_field p) (it_fields t) ->
  debug hg = false \/ (Z.of_nat (length (it_fields t)) <= most_fields)%Z -> emit_node (NTable t) <> None.
Proof.
  intros E V F S. cbn [Emit.emit_node]. unfold emit_table. rewrite <- E. rewrite Forall_forall in F. destruct (every _) eqn:X; [discriminate|]. exfalso. revert X. every_tac.
  - apply ensure_ok, valid_accepted, V.
  - apply ensure_ok, suffixed_accepted; [reflexivity|exact V].
  - apply ensure_ok, suffixed_accepted; [reflexivity|exact V].
  - apply every_ok, Forall_forall. intros o I. apply in_map_iff in I as (f & <- & I). apply args_field_ok; auto.
  - destruct (forallb _ _); [|discriminate]. apply every_ok, Forall_forall. intros o I. apply in_map_iff in I as (f & <- & I). apply args_default_ok; auto.
  - apply every_ok, Forall_forall. intros o I. apply in_map_iff in I as (f & <- & I). apply builder_method_ok; auto.
  - apply offsets_ok. destruct S as [S|S]; [auto|right]. lia.
  - apply every_ok, Forall_forall. intros o I. apply in_map_iff in I as (f & <- & I). apply accessor_ok; auto.
Qed.
Lemma emit_union_ok u : ns = q_namespace (iu_id u) -> valid (last (iu_id u) []) -> (forall q k, In (q, k) (needs (NUnion u)) -> q = iu_id u \/ fine p q) ->
  (forall v, In v (iu_variants u) -> ident_ok (iuv_id v) = true) -> iu_enum u <> iu_id u -> (forall v q c, In v (iu_variants u) -> In (q, c) (ty_mentions (iuv_ty v)) -> fine p q) ->
  emit_node (NUnion u) <> None.
Proof.
  intros E V N I D M. cbn [Emit.emit_node]. unfold emit_union. rewrite <- E. destruct (every _) eqn:X; [discriminate|]. exfalso. revert X. every_tac.
  - apply ensure_ok, valid_accepted, V.
  - eapply path_tokens_ok; [|exact C]. destruct (N (iu_enum u) REnum) as [Q|F]; [right; left; reflexivity|congruence|exact F].
  - apply members_ok; auto.
Qed.
End Table.
Lemma emit_enum_ok e : valid (last (ie_id e) []) -> Forall (fun v => ident_ok (iev_id v) = true) (ie_variants e) -> emit_node (NEnum e) <> None.
Proof.
  intros V F. cbn [Emit.emit_node]. unfold emit_enum. destruct (every _) eqn:X; [discriminate|]. exfalso. revert X. apply every_ok; repeat apply Forall_cons; try apply Forall_nil.
  - apply ensure_ok, valid_accepted, V.
  - apply ensure_ok. apply prefixed_accepted; [reflexivity| |apply snake_valid; exact V]. exists "e"%byte, (lit "num_name_"). split; [reflexivity|]. intros I. cbn in I. intuition discriminate.
  - apply ensure_ok. apply forallb_forall. rewrite Forall_forall in F. exact F.
  - apply ensure_ok. apply forallb_forall. intros n _. apply (ac_int _ _ _ A).
Qed.
End Completes.

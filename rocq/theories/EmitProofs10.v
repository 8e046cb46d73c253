(** Exactly when the paths in emitted code lead to what they should. *)
From Coq Require Import Strings.String ZArith List Bool Lia Strings.Byte Permutation.
From Verif Require Import Base BaseFacts Schema Ident SpecIdent IdentProofs Codegen GenProofs1 GenProofs8 Resolve SpecResolve ResolveProofs1 ResolveProofs4 ResolveProofs5 ResolveProofs6 ResolveProofs9 Emit SpecEmit SpecPaths EmitProofs1 EmitProofs2 EmitProofs4 EmitProofs5.
Import ListNotations.
Local Open Scope nat_scope.

Lemma every_sub {A} (l : list (option (list A))) : forall x, every l = Some x -> forall y, In y l -> exists z, y = Some z /\ forall p, In p z -> In p x.
Proof.
  induction l as [|[z|] l IH]; cbn [every]; intros x E y I; [destruct I| |discriminate].
  destruct (every l) as [w|]; [|discriminate]. injection E as <-. destruct I as [<-|I].
  - exists z. split; [reflexivity|]. intros p J. apply in_or_app. auto.
  - destruct (IH w eq_refl y I) as (v & -> & H). exists v. split; [reflexivity|]. intros p J. apply in_or_app. auto.
Qed.
Lemma in_uses t q k : In (q, k) (ty_uses t) <-> exists c, In (q, c) (ty_mentions t) /\ k = rkind_of c.
Proof.
  unfold ty_uses. rewrite in_map_iff. split.
  - intros ([q' c] & E & I). cbn [fst snd] in E. injection E as <- <-. eauto.
  - intros (c & I & ->). exists (q, c). auto.
Qed.
Lemma ty_paths_all ns t q k : In (q, k) (ty_uses t) -> In (relative q ns, k) (ty_paths ns t).
Proof.
  rewrite in_uses. intros (c & I & ->). induction t as [| | t IH |q' c']; cbn [ty_mentions ty_paths] in *; try contradiction; [auto|].
  destruct I as [I|[]]. injection I as -> ->. left. reflexivity.
Qed.
Lemma ty_paths_from ns t path k : In (path, k) (ty_paths ns t) -> exists q, In (q, k) (ty_uses t) /\ path = relative q ns.
Proof. intros I. apply ty_paths_in in I as (q & c & I & -> & ->). exists q. split; [apply in_uses; eauto|reflexivity]. Qed.

(** ** What is seen *)
Lemma common_split q : forall p, exists p' q', p = firstn (common_prefix q p) p ++ p' /\ q = firstn (common_prefix q p) p ++ q' /\
  skipn (common_prefix q p) q = q' /\ (forall a p2 q2, p' = a :: p2 -> q' = a :: q2 -> False).
Proof.
  induction q as [|x q IH]; intros p; [exists p, []; cbn; repeat split; intros; discriminate|].
  destruct p as [|y p]; [exists [], (x :: q); cbn; repeat split; intros; discriminate|]. cbn [common_prefix].
  destruct (ident_eqb x y) eqn:E.
  - apply ident_eqb_eq in E. subst y. destruct (IH p) as (p' & q' & A & B & C & D). exists p', q'. cbn [firstn app skipn].
    split; [congruence|]. split; [congruence|]. split; [exact C|exact D].
  - exists (y :: p), (x :: q). cbn. repeat split. intros a p2 q2 F G. injection F as -> _. injection G as -> _.
    rewrite (proj2 (ident_eqb_eq a a) eq_refl) in E. discriminate.
Qed.
Lemma common_unique (a : qident) : forall p' q', (forall x p2 q2, p' = x :: p2 -> q' = x :: q2 -> False) -> common_prefix (a ++ q') (a ++ p') = length a.
Proof.
  induction a as [|x a IH]; intros p' q' D; cbn [app length common_prefix].
  - destruct q' as [|x q']; [reflexivity|]. destruct p' as [|y p']; [reflexivity|]. cbn [common_prefix]. destruct (ident_eqb x y) eqn:E; [|reflexivity].
    apply ident_eqb_eq in E. subst. destruct (D _ _ _ eq_refl eq_refl).
  - rewrite (proj2 (ident_eqb_eq x x) eq_refl), IH by exact D. reflexivity.
Qed.
Lemma seen_walk snake p q r : ~ In (lit "super") q -> (walk (emitted_modules snake p) (relative q (Some p)) = Some r <-> seen_as snake p q r).
Proof.
  intros N. rewrite relative_walk by (auto; unfold emitted_modules; apply map_length). split.
  - intros E. injection E as <-. destruct (common_split q p) as (p' & q' & A & B & C & D). exists (firstn (common_prefix q p) p), p', q'.
    split; [exact A|]. split; [exact B|]. split; [exact D|]. rewrite C. unfold emitted_modules. rewrite firstn_map. reflexivity.
  - intros (a & p' & q' & -> & -> & D & ->). rewrite common_unique by exact D. f_equal. unfold emitted_modules. rewrite map_app.
    f_equal; [rewrite firstn_app, map_length, Nat.sub_diag, app_nil_r, <- (map_length (module_name snake) a), firstn_all; reflexivity|].
    rewrite skipn_app, skipn_all, Nat.sub_diag. reflexivity.
Qed.
Lemma relative_around q ns : relative q ns = relative q (Some (modules_around ns)).
Proof. destruct ns; [reflexivity|]. cbn [modules_around relative length Nat.sub repeat app]. destruct q; reflexivity. Qed.

Section Exact.
Context (snake shouty : text -> text) (ident_ok : ident -> bool) (path_ok : qident -> bool).
Context (literal_ok : scalar_const -> bool -> option qident -> ity -> bool) (hg : host).
Notation emit_node := (emit_node snake shouty ident_ok path_ok literal_ok hg).
Notation emit := (emit snake shouty ident_ok path_ok literal_ok hg).

Lemma tokens_all ns t x : type_tokens path_ok ns t = Some x -> x = ty_paths ns t.
Proof. unfold type_tokens. destruct (forallb _ _); congruence. Qed.
Lemma path_token q k x : path_tokens path_ok q k = Some x -> x = [(q, k)].
Proof. unfold path_tokens. destruct (path_ok q); congruence. Qed.
Lemma member_paths ns vs x path k :
  every (map (fun v => every [ensure (ident_ok (iuv_id v)); type_tokens path_ok ns (iuv_ty v)]) vs) = Some x ->
  (In (path, k) x <-> exists q, In (q, k) (flat_map (fun v => ty_uses (iuv_ty v)) vs) /\ path = relative q ns).
Proof.
  intros E. split.
  - intros I. destruct (every_in _ _ _ E I) as (y & H & J). apply in_map_iff in H as (v & H & Iv). destruct (every_in _ _ _ H J) as (z & Hz & K).
    destruct Hz as [Hz|[Hz|[]]]; [destruct (ensure_in _ _ _ (eq_sym Hz) K)|]. apply tokens_all in Hz. subst z.
    apply ty_paths_from in K as (q & U & ->). exists q. split; [apply in_flat_map; eauto|reflexivity].
  - intros (q & U & ->). apply in_flat_map in U as (v & Iv & U).
    destruct (every_sub _ _ E _ (in_map _ _ _ Iv)) as (z & Hz & S). apply S.
    destruct (every_sub _ _ Hz (type_tokens path_ok ns (iuv_ty v))) as (w & Hw & S2); [right; left; reflexivity|]. apply S2.
    apply tokens_all in Hw. subst w. apply ty_paths_all. exact U.
Qed.
Definition field_uses (f : ifield) : list (qident * rkind) :=
  ty_uses (if_ty f) ++ match if_ty f with ICustom _ (KUnion e vs) => union_uses e vs | _ => [] end.
Definition in_field (ns : option qident) (f : ifield) (path : qident) (k : rkind) : Prop := exists q, In (q, k) (field_uses f) /\ path = relative q ns.
Lemma by_type ns f x path k : type_tokens path_ok ns (if_ty f) = Some x -> In (path, k) x -> in_field ns f path k.
Proof. intros E I. apply tokens_all in E. subst x. apply ty_paths_from in I as (q & U & ->). exists q. split; [apply in_or_app; auto|reflexivity]. Qed.
Lemma by_default ns f w d x path k : default_tokens ident_ok path_ok literal_ok w ns (if_ty f) d = Some x -> In (path, k) x -> in_field ns f path k.
Proof.
  unfold default_tokens. destruct d as [[i|b|b]|i]; try (intros E I; destruct (ensure_in _ _ _ (eq_sym E) I)).
  - intros E. injection E as <-. intros [].
  - destruct (ident_ok i); [apply by_type|discriminate].
Qed.
Ltac split_every :=
  repeat match goal with
  | E : every _ = Some ?x, I : In _ ?x |- _ => let y := fresh "y" in let H := fresh "H" in destruct (every_in _ _ _ E I) as (y & H & ?); clear E I
  | H : In (Some _) (_ :: _) |- _ => destruct H as [H|H]
  | H : In (Some _) [] |- _ => destruct H
  | H : In (Some _) (map _ _) |- _ => apply in_map_iff in H as (? & H & ?)
  | E : ensure _ = Some ?x, I : In _ ?x |- _ => destruct (ensure_in _ _ _ (eq_sym E) I)
  | E : Some [] = Some ?x, I : In _ ?x |- _ => injection E as <-; destruct I
  end.
Lemma from_accessor ns f x path k : accessor snake ident_ok path_ok literal_ok ns f = Some x -> (In (path, k) x <-> in_field ns f path k).
Proof.
  intros E. split.
  - unfold accessor in E. intros I. destruct (every_in _ _ _ E I) as (y & H & J). clear E I. cbn [In] in H.
    destruct H as [H|[H|[H|[H|[]]]]].
    + destruct (ensure_in _ _ _ (eq_sym H) J).
    + eapply by_type; eauto.
    + destruct (if_default f) as [d|]; [eapply by_default; eauto|injection H as <-; destruct J].
    + unfold in_field, field_uses. destruct (if_ty f) as [| | |q [|fs|vs b|e vs]]; try (injection H as <-; destruct J; fail).
      destruct (every_in _ _ _ H J) as (z & Hz & K). clear H J. cbn [In] in Hz. destruct Hz as [Hz|[Hz|[Hz|[Hz|[]]]]].
      * apply path_token in Hz. subst z. destruct K as [K|[]]. injection K as <- <-. exists q. split; [left; reflexivity|reflexivity].
      * apply path_token in Hz. subst z. destruct K as [K|[]]. injection K as <- <-. exists e. split; [right; left; reflexivity|reflexivity].
      * destruct (ensure_in _ _ _ (eq_sym Hz) K).
      * apply (member_paths _ _ _ _ _ Hz) in K as (q' & U & ->). exists q'. split; [right; right; exact U|reflexivity].
  - intros (q & U & ->). unfold accessor in E. unfold field_uses in U. apply in_app_iff in U as [U|U].
    + destruct (every_sub _ _ E (type_tokens path_ok ns (if_ty f))) as (z & Hz & S); [right; left; reflexivity|]. apply S. apply tokens_all in Hz. subst z. apply ty_paths_all. exact U.
    + destruct (if_ty f) as [| | |q0 [|fs|vs b|e vs]]; try (destruct U; fail).
      match type of E with every [_; _; _; ?y] = _ => destruct (every_sub _ _ E y) as (z & Hz & S); [do 3 right; left; reflexivity|]; apply S end. clear S.
      destruct U as [U|U].
      * injection U as <- <-. destruct (every_sub _ _ Hz (path_tokens path_ok (relative e ns) REnum)) as (w & Hw & S2); [right; left; reflexivity|]. apply S2. apply path_token in Hw. subst w. left. reflexivity.
      * match type of Hz with every [_; _; _; ?y] = _ => destruct (every_sub _ _ Hz y) as (w & Hw & S2); [do 3 right; left; reflexivity|]; apply S2 end.
        apply (member_paths _ _ _ _ _ Hw). eauto.
Qed.

Lemma node_paths_iff n x path k' : emit_node n = Some x -> plain n ->
  ((exists k name paths, In (XType k name paths) x /\ In (path, k') paths) <-> exists q, In (q, k') (spelled n) /\ path = relative q (q_namespace (node_ident n))).
Proof.
  intros E P. destruct n as [q ns|t|s|e|u|r]; [destruct P| | | | |]; cbn [Emit.emit_node] in E.
  - unfold emit_table in E. destruct (every _) as [ps|] eqn:V; [|discriminate]. injection E as <-. cbn [node_ident spelled].
    assert (G : In (path, k') ps <-> exists f, In f (it_fields t) /\ in_field (q_namespace (it_id t)) f path k').
    { split.
      - intros J. destruct (every_in _ _ _ V J) as (y & H & Iy). clear V J. cbn [In] in H.
        repeat match goal with H : _ \/ _ |- _ => destruct H as [H|H] end; try contradiction; try (destruct (ensure_in _ _ _ (eq_sym H) Iy)).
        + destruct (every_in _ _ _ H Iy) as (z & Hz & K). apply in_map_iff in Hz as (f & Hz & If). exists f. split; [exact If|]. unfold args_field in Hz. split_every.
          destruct (is_union (if_ty f)); [|eapply by_type; eauto]. match goal with H : Some [] = Some ?y, K : In _ ?y |- _ => injection H as <-; destruct K end.
        + destruct (forallb _ _); [|injection H as <-; destruct Iy]. destruct (every_in _ _ _ H Iy) as (z & Hz & K). apply in_map_iff in Hz as (f & Hz & If). exists f. split; [exact If|].
          destruct (args_default_paths _ _ _ _ _ _ _ _ Hz K) as (q & Nq & ->).
          unfold args_default in Hz. destruct (every_in _ _ _ Hz K) as (w & Hw & Kw). destruct Hw as [Hw|[Hw|[]]]; [eapply by_type; eauto|]. exfalso.
          destruct (negb _); [injection Hw as <-; destruct Kw|]. destruct (if_default f) as [d|]; [|injection Hw as <-; destruct Kw].
          destruct (is_enum (if_ty f)), d as [[i|b|b]|i]; try discriminate Hw; try (injection Hw as <-; destruct Kw); destruct (ensure_in _ _ _ (eq_sym Hw) Kw).
        + destruct (every_in _ _ _ H Iy) as (z & Hz & K). apply in_map_iff in Hz as (f & Hz & If). exists f. split; [exact If|]. unfold builder_method in Hz.
          destruct (every_in _ _ _ Hz K) as (w & Hw & Kw). cbn [In] in Hw. destruct Hw as [Hw|[Hw|[Hw|[Hw|[Hw|[]]]]]]; try (destruct (ensure_in _ _ _ (eq_sym Hw) Kw)).
          * destruct (is_union (if_ty f)); [injection Hw as <-; destruct Kw|eapply by_type; eauto].
          * destruct (if_default f) as [d|]; [|injection Hw as <-; destruct Kw]. destruct (is_scalar (if_ty f)); [eapply by_default; eauto|injection Hw as <-; destruct Kw].
        + destruct (offsets_in _ _ _ _ _ (eq_sym H) Iy).
        + destruct (every_in _ _ _ H Iy) as (z & Hz & K). apply in_map_iff in Hz as (f & Hz & If). exists f. split; [exact If|]. apply (from_accessor _ _ _ _ _ Hz). exact K.
      - intros (f & If & F). match type of V with every [_; _; _; _; _; _; _; ?y] = _ => destruct (every_sub _ _ V y) as (z & Hz & S); [do 7 right; left; reflexivity|]; apply S end.
        destruct (every_sub _ _ Hz _ (in_map _ _ _ If)) as (w & Hw & S2). apply S2. apply (from_accessor _ _ _ _ _ Hw). exact F. }
    split.
    + intros (k & name & paths & I & J). cbn [In] in I.
      assert (paths = ps) by (destruct I as [I|[I|[I|[]]]]; try (injection I as _ _ <-; destruct J); congruence). subst paths. apply G in J as (f & If & q & U & ->).
      exists q. split; [apply in_flat_map; exists f; auto|reflexivity].
    + intros (q & U & ->). apply in_flat_map in U as (f & If & U). exists RTable, (last (it_id t) []), ps. split; [left; reflexivity|]. apply G. exists f. split; [exact If|]. exists q. auto.
  - discriminate.
  - unfold emit_enum in E. destruct (every _) as [ps|] eqn:V; [|discriminate]. injection E as <-. cbn [spelled]. split; [|intros (q & [] & _)].
    intros (k & name & paths & I & J). destruct I as [I|[I|[]]]; [|discriminate]. injection I as _ _ <-. exfalso. split_every.
  - unfold emit_union in E. destruct (every _) as [ps|] eqn:V; [|discriminate]. injection E as <-. cbn [spelled node_ident].
    assert (G : In (path, k') ps <-> exists q, In (q, k') (union_uses (iu_enum u) (iu_variants u)) /\ path = relative q (q_namespace (iu_id u))).
    { split.
      - intros J. destruct (every_in _ _ _ V J) as (y & H & Iy). cbn [In] in H. destruct H as [H|[H|[H|[]]]].
        + destruct (ensure_in _ _ _ (eq_sym H) Iy).
        + apply path_token in H. subst y. destruct Iy as [K|[]]. injection K as <- <-. exists (iu_enum u). split; [left; reflexivity|reflexivity].
        + apply (member_paths _ _ _ _ _ H) in Iy as (q & U & ->). exists q. split; [right; exact U|reflexivity].
      - intros (q & [U|U] & ->).
        + injection U as <- <-. destruct (every_sub _ _ V (path_tokens path_ok (relative (iu_enum u) (q_namespace (iu_id u))) REnum)) as (w & Hw & S2); [right; left; reflexivity|]. apply S2. apply path_token in Hw. subst w. left. reflexivity.
        + match type of V with every [_; _; ?y] = _ => destruct (every_sub _ _ V y) as (w & Hw & S2); [do 2 right; left; reflexivity|]; apply S2 end.
          apply (member_paths _ _ _ _ _ Hw). eauto. }
    split.
    + intros (k & name & paths & [I|[]] & J). injection I as _ _ <-. apply G. exact J.
    + intros H. exists RUnion, (last (iu_id u) []), ps. split; [left; reflexivity|]. apply G. exact H.
  - injection E as <-. cbn [spelled]. split; [intros (k & name & paths & [] & _)|intros (q & [] & _)].
Qed.

Context (es : list element) (root : list node) (B : build snake es = Done root) (items : list item) (Em : emit root = Some items).

(** The types in emitted modules. *)
Lemma type_source mods f k name paths : module_at items mods f -> In (XType k name paths) f -> (exists c, k = rkind_of c) ->
  exists q c, In (q, c) (defined root) /\ rkind_of c = k /\ mods = emitted_modules snake (removelast q) /\ name = last q [].
Proof.
  intros M I (c0 & Kc). destruct (item_source _ _ _ _ _ _ root items Em _ _ _ _ _ M I) as (p & n & x & -> & In_ & P & X & Ix).
  pose proof (contents_module snake es root B p n In_) as Mn.
  assert (D : exists q c, In (q, c) (defs_of n) /\ rkind_of c = k /\ name = last q [] /\ module_of n = removelast q).
  { destruct n as [q ns|t|s|e|u|r]; [destruct P| | | | |]; cbn [Emit.emit_node] in X.
    - unfold emit_table in X. destruct (every _); [|discriminate]. injection X as <-. exists (it_id t), KTable. split; [left; reflexivity|].
      destruct Ix as [Ix|[Ix|[Ix|[]]]]; injection Ix as <- <- _; [auto| |]; destruct c0; discriminate Kc.
    - discriminate.
    - unfold emit_enum in X. destruct (every _); [|discriminate]. injection X as <-. destruct Ix as [Ix|[Ix|[]]]; [|discriminate]. injection Ix as <- <- _.
      eexists (ie_id e), _. split; [left; reflexivity|auto].
    - unfold emit_union in X. destruct (every _); [|discriminate]. injection X as <-. destruct Ix as [Ix|[]]. injection Ix as <- <- _.
      eexists (iu_id u), _. split; [left; reflexivity|auto].
    - injection X as <-. destruct Ix. }
  destruct D as (q & c & D & K & L & Mq). exists q, c. split; [apply defined_contents; eauto|]. split; [exact K|]. split; [congruence|exact L].
Qed.
Lemma spelled_source p n q k : In (p, n) (all_contents root) -> In (q, k) (spelled n) -> ~ In (lit "super") q /\ exists c, k = rkind_of c.
Proof.
  assert (Mn : forall p n q c, In (p, n) (all_contents root) -> In (q, c) (mentions n) -> ~ In (lit "super") q).
  { intros p' n' q' c' I M. destruct (mentioned snake es root p' n' q' c' B I M) as [D|(_ & j & t & _ & -> & _)]; [eapply defined_no_super; eauto|].
    eapply (declared_no_super (written_prefix es j) (ETable t)); [apply prefix_no_super|left; reflexivity]. }
  assert (Un : forall p u q k, In (p, NUnion u) (all_contents root) -> In (q, k) (union_uses (iu_enum u) (iu_variants u)) -> ~ In (lit "super") q /\ exists c, k = rkind_of c).
  { intros p' u q' k' I [J|J].
    - injection J as <- <-. destruct (companion_defined snake es root p' u B I) as (vs & Ic & _). split; [eapply defined_no_super; eauto|]. exists (KEnum [] UByte). reflexivity.
    - apply in_flat_map in J as (v & Iv & J). apply in_uses in J as (c & J & ->). split; [|eauto]. eapply (Mn p' (NUnion u)); [exact I|]. cbn [mentions]. apply in_flat_map. eauto. }
  intros I J. destruct n as [|t| | |u|]; cbn [spelled] in J; try contradiction; [|eapply Un; eauto].
  apply in_flat_map in J as (f & If & J). apply in_app_iff in J as [J|J].
  - apply in_uses in J as (c & J & ->). split; [|eauto]. eapply (Mn p (NTable t)); [exact I|]. cbn [mentions]. apply in_flat_map. eauto.
  - destruct (if_ty f) as [| | |q0 [|fs|vs b|e vs]] eqn:T; try (destruct J; fail).
    assert (M : In (q0, KUnion e vs) (mentions (NTable t))) by (cbn [mentions]; apply in_flat_map; exists f; split; [exact If|rewrite T; left; reflexivity]).
    destruct (mentioned snake es root p _ _ _ B I M) as [D|(D & _)]; [|discriminate]. destruct (union_node root _ _ _ D) as (pu & nu & Iu & <- & <-). eapply Un; eauto.
Qed.
Lemma leads_iff p n q k : In (p, n) (all_contents root) -> In (q, k) (spelled n) ->
  (leads items (emitted_modules snake p) (relative q (Some p)) k <-> exists q' c, In (q', c) (defined root) /\ rkind_of c = k /\ seen_as snake p q (emitted_item snake q')).
Proof.
  intros I J. destruct (spelled_source p n q k I J) as [Ns Kc]. split.
  - intros (mods & name & f & paths & W & M & If). destruct (type_source _ _ _ _ _ M If Kc) as (q' & c & D & K & -> & ->). exists q', c. split; [exact D|]. split; [exact K|].
    apply seen_walk; assumption.
  - intros (q' & c & D & <- & W). apply seen_walk in W; [|exact Ns]. destruct (emitted_at _ _ _ _ _ _ es root B items Em q' c D) as (g & ps & Mg & Ig).
    exists (emitted_modules snake (removelast q')), (last q' []), g, ps. auto.
Qed.
Lemma all_lead_iff :
  (forall here found k name paths path k', module_at items here found -> In (XType k name paths) found -> In (path, k') paths -> leads items here path k') <->
  (forall p n q k, In (p, n) (all_contents root) -> In (q, k) (spelled n) ->
    exists q' c, In (q', c) (defined root) /\ rkind_of c = k /\ seen_as snake p q (emitted_item snake q')).
Proof.
  split.
  - intros H p n q k I J. apply (leads_iff p n q k I J). pose proof I as I'. apply contents_at in I' as (l & L & Im & P).
    destruct (level_module _ _ _ _ _ _ _ _ _ L items Em) as (f & Ef & M). destruct (emit_in _ _ _ _ _ _ _ _ _ Ef Im) as (x & X & S).
    pose proof (contents_module snake es root B p n I) as Mn. pose proof (modules_around_module n) as Ma. rewrite Mn in Ma.
    destruct (proj2 (node_paths_iff n x (relative q (q_namespace (node_ident n))) k X P) (ex_intro _ q (conj J eq_refl))) as (k1 & name & paths & Ix & Ip).
    rewrite <- Ma at 2. rewrite <- relative_around. eapply H; [exact M|apply S; exact Ix|exact Ip].
  - intros H here f k name paths path k' M I J. destruct (item_source _ _ _ _ _ _ root items Em _ _ _ _ _ M I) as (p & n & x & -> & In_ & P & X & Ix).
    pose proof (contents_module snake es root B p n In_) as Mn. pose proof (modules_around_module n) as Ma. rewrite Mn in Ma.
    destruct (proj1 (node_paths_iff n x path k' X P) (ex_intro _ k (ex_intro _ name (ex_intro _ paths (conj Ix J))))) as (q & U & ->).
    rewrite relative_around, Ma. apply (leads_iff p n q k' In_ U). eauto.
Qed.
End Exact.

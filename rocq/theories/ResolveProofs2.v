(** Schema resolution: what one attempt does, against the specification; the
    invariant relating known types and definitions. *)
From Coq Require Import Strings.String ZArith List Bool Lia Strings.Byte Permutation Sorting.Sorted.
From Verif Require Import Base BaseFacts Schema Ident Codegen GenProofs1 GenProofs8 Resolve SpecResolve ResolveProofs1.
Import ListNotations.
Local Open Scope nat_scope.

(** What a state knows. *)
Definition view_of (st : rstate) (q : qident) (c : icustom) : Prop :=
  tget (r_types st) q = Some (Defined c) \/ tget (r_types st) q = Some TableDeclared /\ c = KTable.
Definition defined_in (st : rstate) (q : qident) (c : icustom) : Prop := tget (r_types st) q = Some (Defined c).
Definition all_nodes (st : rstate) : list node := concat (map snd (r_nodes st)).

Lemma current_prefix_of st : current_prefix st = prefix_of (r_namespace st).
Proof. reflexivity. Qed.

Section Facts.
Context (snake : text -> text).
Notation new_element := (new_element snake).

Lemma find_view st q t : find_custom_type st q = Some t -> exists c, t = ICustom q c /\ view_of st q c.
Proof.
  unfold find_custom_type, view_of. destruct (tget (r_types st) q) as [[|c]|]; intros H; try discriminate; injection H as <-; eauto.
Qed.
Lemma qualify_q_full st q : qualify_q st q = full_name (current_prefix st) q.
Proof. reflexivity. Qed.
Lemma try_resolves st t : forall u, try_type st t = Some u -> resolves (view_of st) (current_prefix st) t u.
Proof.
  induction t as [p| |t IH|q]; intros u H; cbn [try_type] in H.
  - injection H as <-. constructor.
  - injection H as <-. constructor.
  - destruct (try_type st t) as [v|]; [|discriminate]. injection H as <-. constructor. auto.
  - apply find_view in H as (c & -> & V). rewrite qualify_q_full in *. constructor. exact V.
Qed.

Lemma table_fields_spec st fs : forall l, table_fields snake st fs = Done (Some l) ->
  table_fields_of snake (view_of st) (current_prefix st) fs l.
Proof.
  induction fs as [|f fs IH]; intros l H; cbn [table_fields] in H; [injection H as <-; constructor|].
  destruct (try_type st (af_ty f)) as [ty|] eqn:T; [|discriminate].
  apply rbind_Done in H as (comp & Hc & H). apply rbind_Done in H as ([rest|] & Hr & H); [|discriminate]. injection H as <-.
  pose proof (try_resolves _ _ _ T) as R. specialize (IH _ Hr).
  destruct (is_union ty) eqn:U.
  - destruct ty as [| | |q [| | |e vs]]; try discriminate U. destruct (find_custom_type st e) as [t|] eqn:F; [|discriminate].
    injection Hc as <-. apply find_view in F as (c & -> & V). cbn [app]. apply tf_union; auto.
  - assert (comp = []) by (destruct ty as [| | |q [| | |e vs]]; try discriminate U; congruence). subst comp. cbn [app]. apply tf_plain; auto.
Qed.
Lemma struct_fields_spec st q fs : forall l, struct_fields st q fs = Done (Some l) ->
  struct_fields_of (view_of st) (current_prefix st) fs l.
Proof.
  induction fs as [|f fs IH]; intros l H; cbn [struct_fields] in H; [injection H as <-; constructor|].
  destruct (try_type st (af_ty f)) as [ty|] eqn:T; [|discriminate]. destruct (is_scalar ty) eqn:S; [|discriminate].
  apply rbind_Done in H as ([rest|] & Hr & H); [|discriminate]. injection H as <-. constructor; auto. apply try_resolves. exact T.
Qed.
Lemma union_variants_spec st vs : forall l, union_variants st vs = Some l ->
  union_variants_of (view_of st) (current_prefix st) vs l.
Proof.
  induction vs as [|v vs IH]; intros l H; cbn [union_variants] in H; [injection H as <-; constructor|].
  destruct (try_type st (AIdent [av_id v])) as [ty|] eqn:T; [|discriminate].
  destruct (union_variants st vs) as [rest|]; [|discriminate]. injection H as <-. constructor; auto. apply try_resolves. exact T.
Qed.
Lemma streaming_spec m s : streaming_of m = Done s -> streaming_is m s.
Proof.
  unfold streaming_of. destruct m as [m|]; [|intros H; injection H as <-; constructor].
  destruct (meta_get m (lit "streaming")) as [[[c|s']|]|] eqn:G; try discriminate.
  - destruct (bytes_eqb s' (lit "client")) eqn:E1; [intros H; injection H as <-; apply bytes_eqb_eq in E1; subst; constructor; exact G|].
    destruct (bytes_eqb s' (lit "server")) eqn:E2; [intros H; injection H as <-; apply bytes_eqb_eq in E2; subst; constructor; exact G|].
    destruct (bytes_eqb s' (lit "bidi")) eqn:E3; [intros H; injection H as <-; apply bytes_eqb_eq in E3; subst; constructor; exact G|discriminate].
  - intros H. injection H as <-. constructor. exact G.
Qed.
Lemma root_spec st q st' : new_root_ident st q = Done (st', true) ->
  tget (r_types st) q = Some (Defined KTable) /\ r_roots st' = q :: r_roots st.
Proof.
  unfold new_root_ident. destruct (tget (r_types st) q) as [[|[]]|] eqn:T; intros H; try discriminate. injection H as <-. auto.
Qed.
Lemma root_grows st q st' ok : new_root_ident st q = Done (st', ok) ->
  forall x, In x (r_roots st') <-> In x (r_roots st) \/ (ok = true /\ x = q).
Proof.
  unfold new_root_ident. destruct (tget (r_types st) q) as [[|[]]|] eqn:T; intros H; try discriminate; injection H as <- <-; cbn [r_roots In]; intuition congruence.
Qed.
Lemma methods_spec ms : forall st st' l, rpc_methods snake st ms = Done (st', Some l) ->
  methods_of snake (defined_in st) (current_prefix st) ms l /\
  (forall m, In m ms -> In (full_name (current_prefix st) (am_request m)) (r_roots st') /\
                        In (full_name (current_prefix st) (am_response m)) (r_roots st')).
Proof.
  induction ms as [|m ms IH]; intros st st' l H; cbn [rpc_methods] in H; [injection H as <- <-; split; [constructor|intros ? []]|].
  apply rbind_Done in H as ([s1 o1] & H1 & H). destruct o1; [|discriminate].
  apply rbind_Done in H as ([s2 o2] & H2 & H). destruct o2; [|discriminate].
  apply rbind_Done in H as (s & Hs & H). apply rbind_Done in H as ([s3 o3] & H3 & H). destruct o3 as [rest|]; [|discriminate]. injection H as <- <-.
  pose proof (root_frame _ _ _ _ H1) as (N1 & T1 & _). pose proof (root_frame _ _ _ _ H2) as (N2 & T2 & _).
  apply root_spec in H1 as [D1 R1]. apply root_spec in H2 as [D2 R2]. rewrite T1 in D2.
  pose proof (IH _ _ _ H3) as [M Rr].
  assert (P : current_prefix s2 = current_prefix st) by (rewrite !current_prefix_of; congruence).
  assert (Dd : forall q c, defined_in s2 q c <-> defined_in st q c) by (intros; unfold defined_in; rewrite T2, T1; tauto).
  assert (Mono : forall ms st st' r, rpc_methods snake st ms = Done (st', r) -> forall q, In q (r_roots st) -> In q (r_roots st')).
  { clear. induction ms as [|m ms IH]; intros st st' r H q I; cbn [rpc_methods] in H; [injection H as <- _; exact I|].
    apply rbind_Done in H as ([s1 o1] & H1 & H). assert (I1 : In q (r_roots s1)) by (apply (root_grows _ _ _ _ H1); auto).
    destruct o1; [|injection H as <- _; exact I1].
    apply rbind_Done in H as ([s2 o2] & H2 & H). assert (I2 : In q (r_roots s2)) by (apply (root_grows _ _ _ _ H2); auto).
    destruct o2; [|injection H as <- _; exact I2].
    apply rbind_Done in H as (s & _ & H). apply rbind_Done in H as ([s3 o3] & H3 & H). injection H as <- _. eauto. }
  split.
  - rewrite !qualify_q_full in *. apply mo_cons; auto; [apply streaming_spec; exact Hs|].
    rewrite P in M. clear - M Dd. revert rest M. induction ms as [|m' ms IH]; intros rest M; inversion M; subst; constructor; auto; apply Dd; auto.
  - intros m' [<-|I].
    + rewrite !qualify_q_full in *. split; eapply Mono; try exact H3; rewrite R2, R1; cbn; auto.
    + rewrite <- P. auto.
Qed.

(** Kinds of attempts. *)
Definition unmarked : qident -> bool := fun _ => false.

(** The state in which the types of a declaration are looked up: a table is
    declared before. *)
Definition lookup_state (st : rstate) (e : element) : rstate :=
  match e with
  | ETable t => set_type st (local_name (current_prefix st) (ap_id t)) TableDeclared
  | _ => st
  end.
(** What roots and services refer to is defined, not just declared. *)
Definition view_for (e : element) (st : rstate) : qident -> icustom -> Prop :=
  match e with ERoot _ | ERpc _ => defined_in st | _ => view_of st end.

Lemma step_declares st pos e st' : new_element st (pos, e) = Done (st', true) ->
  exists out, declares snake unmarked (view_for e (lookup_state st e)) (current_prefix st) e out /\
    r_nodes st' = match out with [] => r_nodes st | _ => nput (r_nodes st) pos out end /\
    (forall q c, tget (r_types st') q = Some (Defined c) <->
       tget (r_types st) q = Some (Defined c) \/ In (q, c) (definitions out)) /\
    NoDup (map fst (definitions out)) /\
    (forall q c, In (q, c) (definitions out) -> forall c', tget (r_types st) q <> Some (Defined c')) /\
    (forall q, tget (r_types st') q = Some TableDeclared -> tget (r_types st) q = Some TableDeclared).
Proof.
  intros H. destruct e as [q d|t|t|e|u|id|x d|x d|x|r|x d]; cbn [Resolve.new_element] in H; try discriminate H; cbn [lookup_state view_for].
  - injection H as <-. exists []. split; [constructor|]. split; [reflexivity|]. cbn [r_types definitions flat_map map In]. split; [tauto|]. split; [constructor|]. split; [intros ? ? []|auto].
  - unfold new_table in H. fold (local_name (current_prefix st) (ap_id t)) in *.
    change (qualify st (ap_id t)) with (local_name (current_prefix st) (ap_id t)) in *. set (q := local_name (current_prefix st) (ap_id t)) in *.
    apply rbind_Done in H as (u & C & H). apply rbind_Done in H as ([fs|] & Hf & H); [|discriminate]. injection H as <-.
    exists [NTable (ITable q fs false (ap_doc t))]. split.
    { apply (declares_table snake unmarked _ _ t fs). change (current_prefix st) with (current_prefix (set_type st q TableDeclared)). apply table_fields_spec. exact Hf. }
    split; [reflexivity|]. cbn [definitions flat_map defs_of app map fst In it_id].
    pose proof (check_new_Done _ _ _ C) as N. split; [|split; [|split]].
    + intros q' c. unfold set_nodes. cbn [r_types]. destruct (list_eq_dec (list_eq_dec Byte.byte_eq_dec) q q') as [<-|Ne].
      * rewrite tget_same. split; [intros E; right; left; congruence|]. intros [E|[E|[]]]; [exfalso; eapply N; eauto|congruence].
      * rewrite !tget_other by exact Ne. split; [auto|]. intros [E|[E|[]]]; [exact E|congruence].
    + constructor; [tauto|constructor].
    + intros q' c [E|[]] c'. injection E as <- <-. apply N.
    + intros q'. unfold set_nodes. cbn [r_types]. destruct (list_eq_dec (list_eq_dec Byte.byte_eq_dec) q q') as [<-|Ne].
      * rewrite tget_same. discriminate.
      * rewrite !tget_other by exact Ne. auto.
  - unfold new_struct in H. change (qualify st (ap_id t)) with (local_name (current_prefix st) (ap_id t)) in *. set (q := local_name (current_prefix st) (ap_id t)) in *.
    apply rbind_Done in H as (u & C & H). apply rbind_Done in H as ([fs|] & Hf & H); [|discriminate]. injection H as <-.
    exists [NStruct (IStruct q fs (ap_doc t))]. split; [apply (declares_struct snake unmarked _ _ t fs); eapply struct_fields_spec; exact Hf|].
    split; [reflexivity|]. cbn [definitions flat_map defs_of app map fst In is_id is_fields].
    pose proof (check_new_Done _ _ _ C) as N. split; [|split; [|split]].
    + intros q' c. unfold set_nodes. cbn [r_types]. destruct (list_eq_dec (list_eq_dec Byte.byte_eq_dec) q q') as [<-|Ne].
      * rewrite tget_same. split; [intros E; right; left; congruence|]. intros [E|[E|[]]]; [exfalso; eapply N; eauto|congruence].
      * rewrite !tget_other by exact Ne. split; [auto|]. intros [E|[E|[]]]; [exact E|congruence].
    + constructor; [tauto|constructor].
    + intros q' c [E|[]] c'. injection E as <- <-. apply N.
    + intros q'. unfold set_nodes. cbn [r_types]. destruct (list_eq_dec (list_eq_dec Byte.byte_eq_dec) q q') as [<-|Ne].
      * rewrite tget_same. discriminate.
      * rewrite !tget_other by exact Ne. auto.
  - unfold new_enum in H. change (qualify st (ae_id e)) with (local_name (current_prefix st) (ae_id e)) in *. set (q := local_name (current_prefix st) (ae_id e)) in *.
    apply rbind_Done in H as (u & C & H). destruct (enum_base (ae_base e)) as [base|] eqn:Hb; [|discriminate]. injection H as <-.
    exists [NEnum (IEnum q (enum_variants_of (ae_variants e)) base (ae_doc e))]. split; [apply (declares_enum snake unmarked _ _ e base); exact Hb|].
    split; [reflexivity|]. cbn [definitions flat_map defs_of app map fst In ie_id ie_variants ie_base].
    pose proof (check_new_Done _ _ _ C) as N. split; [|split; [|split]].
    + intros q' c. unfold set_nodes. cbn [r_types]. destruct (list_eq_dec (list_eq_dec Byte.byte_eq_dec) q q') as [<-|Ne].
      * rewrite tget_same. split; [intros E; right; left; unfold enum_variants_of, enum_variant in *; congruence|].
        intros [E|[E|[]]]; [exfalso; eapply N; eauto|unfold enum_variants_of, enum_variant in *; congruence].
      * rewrite !tget_other by exact Ne. split; [auto|]. intros [E|[E|[]]]; [exact E|congruence].
    + constructor; [tauto|constructor].
    + intros q' c [E|[]] c'. injection E as <- <-. apply N.
    + intros q'. unfold set_nodes. cbn [r_types]. destruct (list_eq_dec (list_eq_dec Byte.byte_eq_dec) q q') as [<-|Ne].
      * rewrite tget_same. discriminate.
      * rewrite !tget_other by exact Ne. auto.
  - unfold new_union in H. change (qualify st (au_id u)) with (local_name (current_prefix st) (au_id u)) in *. set (q := local_name (current_prefix st) (au_id u)) in *.
    apply rbind_Done in H as (u0 & C & H). destruct (union_variants st (au_variants u)) as [vs|] eqn:Hv; [|discriminate].
    change (companion_ident st (au_id u)) with (companion_name (current_prefix st) (au_id u)) in *. set (e := companion_name (current_prefix st) (au_id u)) in *.
    apply rbind_Done in H as (u1 & C1 & H). injection H as <-.
    assert (Nqe : q <> e).
    { unfold q, e, local_name, companion_name. intros E. apply (f_equal (@length _)) in E. rewrite !app_length in E. cbn [length] in E. lia. }
    exists [NEnum (IEnum e (companion_of (au_variants u)) UByte (au_doc u)); NUnion (IUnion q e vs (au_doc u))].
    split; [apply (declares_union snake unmarked _ _ u vs); apply union_variants_spec; exact Hv|].
    split; [reflexivity|]. cbn [definitions flat_map defs_of app map fst In ie_id ie_variants ie_base iu_id iu_enum iu_variants].
    pose proof (check_new_Done _ _ _ C) as N. pose proof (check_new_Done _ _ _ C1) as N1. split; [|split; [|split]].
    + intros q' c. unfold set_nodes. cbn [r_types]. destruct (list_eq_dec (list_eq_dec Byte.byte_eq_dec) q q') as [<-|Ne].
      * rewrite tget_same. split; [intros E; right; right; left; congruence|]. intros [E|[E|[E|[]]]]; [exfalso; eapply N; eauto|congruence|congruence].
      * rewrite tget_other by exact Ne. destruct (list_eq_dec (list_eq_dec Byte.byte_eq_dec) e q') as [<-|Ne'].
        -- rewrite tget_same. split; [intros E; right; left; injection E as <-; reflexivity|]. intros [E|[E|[E|[]]]]; [exfalso; eapply N1; eauto|injection E as <-; reflexivity|congruence].
        -- rewrite tget_other by exact Ne'. split; [auto|]. intros [E|[E|[E|[]]]]; [exact E|congruence|congruence].
    + constructor; [intros [E|[]]; congruence|]. constructor; [tauto|constructor].
    + intros q' c [E|[E|[]]] c'; assert (Eq : q' = fst (q', c)) by reflexivity; rewrite Eq, <- E; cbn [fst]; auto.
    + intros q'. unfold set_nodes. cbn [r_types]. destruct (list_eq_dec (list_eq_dec Byte.byte_eq_dec) q q') as [<-|Ne].
      * rewrite tget_same. discriminate.
      * rewrite tget_other by exact Ne. destruct (list_eq_dec (list_eq_dec Byte.byte_eq_dec) e q') as [<-|Ne'].
        -- rewrite tget_same. discriminate.
        -- rewrite tget_other by exact Ne'. auto.
  - unfold new_root in H. pose proof (root_frame _ _ _ _ H) as (_ & T & D). apply root_spec in H as [R _].
    exists []. split; [constructor; exact R|]. split; [exact D|]. rewrite T. cbn [definitions flat_map map In]. split; [tauto|]. split; [constructor|]. split; [intros ? ? []|auto].
  - unfold new_rpc in H. apply rbind_Done in H as ([s [ms|]] & M & H); [|discriminate]. injection H as <-.
    pose proof (methods_frame _ _ _ _ _ M) as (_ & T & D). apply methods_spec in M as [M _].
    exists [NRpc (IRpc (local_name (current_prefix st) (ar_id r)) ms (ar_doc r))].
    split; [constructor; exact M|]. split; [cbn [set_nodes r_nodes]; rewrite D; reflexivity|].
    cbn [set_nodes r_types]. rewrite T. cbn [definitions flat_map defs_of app map In]. split; [tauto|]. split; [constructor|]. split; [intros ? ? []|auto].
Qed.

(** Failed attempts only declare tables. *)
Lemma step_fails st pos e st' : new_element st (pos, e) = Done (st', false) ->
  r_nodes st' = r_nodes st /\ is_namespace e = false /\
  (forall q c, tget (r_types st') q = Some (Defined c) <-> tget (r_types st) q = Some (Defined c)) /\
  (forall q, tget (r_types st') q = Some TableDeclared -> tget (r_types st) q = Some TableDeclared \/
     exists t, e = ETable t /\ q = local_name (current_prefix st) (ap_id t)).
Proof.
  intros H. split; [apply nodes_step in H as [_ H]; auto|].
  destruct e as [q d|t|t|e|u|id|x d|x d|x|r|x d]; cbn [Resolve.new_element] in H; try discriminate H; (split; [reflexivity|]).
  - unfold new_table in H. change (qualify st (ap_id t)) with (local_name (current_prefix st) (ap_id t)) in *. set (q := local_name (current_prefix st) (ap_id t)) in *.
    apply rbind_Done in H as (u & C & H). apply rbind_Done in H as ([fs|] & _ & H); [discriminate|]. injection H as <-. pose proof (check_new_Done _ _ _ C) as N. split.
    + intros q' c. destruct (list_eq_dec (list_eq_dec Byte.byte_eq_dec) q q') as [<-|Ne].
      * rewrite tget_same. split; [discriminate|]. intros E. exfalso. eapply N; eauto.
      * rewrite tget_other by exact Ne. tauto.
    + intros q' E. destruct (list_eq_dec (list_eq_dec Byte.byte_eq_dec) q q') as [<-|Ne]; [right; eauto|]. rewrite tget_other in E by exact Ne. auto.
  - unfold new_struct in H. apply rbind_Done in H as (u & C & H). apply rbind_Done in H as ([fs|] & _ & H); [discriminate|]. injection H as <-. split; [tauto|auto].
  - unfold new_enum in H. apply rbind_Done in H as (u & C & H). destruct (enum_base (ae_base e)); discriminate H.
  - unfold new_union in H. apply rbind_Done in H as (u0 & C & H). destruct (union_variants st (au_variants u)).
    + apply rbind_Done in H as (u1 & _ & H). discriminate H.
    + injection H as <-. split; [tauto|auto].
  - unfold new_root in H. apply root_frame in H as (_ & -> & _). split; [tauto|auto].
  - unfold new_rpc in H. apply rbind_Done in H as ([s ms] & M & H). apply methods_frame in M as (_ & M & _). destruct ms; [discriminate|]. injection H as <-.
    rewrite M. split; [tauto|auto].
Qed.

(** Any attempt keeps what is known about a name. *)
Lemma step_keeps st pe st' ok : new_element st pe = Done (st', ok) ->
  (forall q c, tget (r_types st) q = Some (Defined c) -> tget (r_types st') q = Some (Defined c)) /\
  (forall t, snd pe = ETable t -> exists s, tget (r_types st') (local_name (current_prefix st) (ap_id t)) = Some s).
Proof.
  destruct pe as [pos e]. intros H. destruct ok.
  - pose proof H as H0. apply step_declares in H as (out & D & _ & T & _). split; [intros q c Q; apply T; auto|].
    intros t E. cbn [snd] in E. subst e. inversion D; subst. exists (Defined KTable). apply T. right. cbn. auto.
  - pose proof H as H0. apply step_fails in H as (_ & _ & T & _). split; [intros q c Q; apply T; auto|].
    intros t E. cbn [snd] in E. subst e. cbn [Resolve.new_element] in H0. unfold new_table in H0.
    change (qualify st (ap_id t)) with (local_name (current_prefix st) (ap_id t)) in *.
    apply rbind_Done in H0 as (u & _ & H0). apply rbind_Done in H0 as ([fs|] & _ & H0); [discriminate|]. injection H0 as <-. exists TableDeclared. apply tget_same.
Qed.
Lemma step_namespace st pos e st' ok : new_element st (pos, e) = Done (st', ok) ->
  r_namespace st' = namespace_after (r_namespace st) [e].
Proof.
  intros H. destruct e as [q d|t|t|e|u|id|x d|x d|x|r|x d]; cbn [Resolve.new_element] in H; try discriminate H; cbn [namespace_after].
  - injection H as <- _. reflexivity.
  - unfold new_table in H. apply rbind_Done in H as (u & _ & H). apply rbind_Done in H as ([fs|] & _ & H); injection H as <- _; reflexivity.
  - unfold new_struct in H. apply rbind_Done in H as (u & _ & H). apply rbind_Done in H as ([fs|] & _ & H); injection H as <- _; reflexivity.
  - unfold new_enum in H. apply rbind_Done in H as (u & _ & H). destruct (enum_base (ae_base e)); [|discriminate]. injection H as <- _. reflexivity.
  - unfold new_union in H. apply rbind_Done in H as (u0 & _ & H). destruct (union_variants st (au_variants u)).
    + apply rbind_Done in H as (u1 & _ & H). injection H as <- _. reflexivity.
    + injection H as <- _. reflexivity.
  - unfold new_root in H. apply root_frame in H as (H & _). exact H.
  - unfold new_rpc in H. apply rbind_Done in H as ([s ms] & M & H). apply methods_frame in M as (M & _). destruct ms; injection H as <- _; exact M.
Qed.

End Facts.

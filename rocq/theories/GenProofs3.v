(** Size of a generated table, and what [gen_table] knows about unions. *)
From Coq Require Import ZArith List Bool Lia Strings.Byte ZifyBool ZifyNat ZifyN.
From Verif Require Import Base Scalar Reader Builder Ops SpecBuilder Abstract BaseFacts ScalarFacts ReaderFacts
  Refine Refine2 Build1 Build2 Build3 Build4 Build5 Build6 Build7 Build8 BuilderProofs2 BuilderProofs4
  Schema Codegen SpecGen GenProofs1 GenProofs2.
Import ListNotations.
Local Open Scope Z_scope.

Lemma as_u32_le x : 0 <= x -> as_u32 x <= x.
Proof. intros H. unfold as_u32. apply Z.mod_le; lia. Qed.

(** Pushing takes at most eight bytes, counted in steps of eight. *)
Definition up8 (n : Z) : Z := (n + 7) / 8 * 8.
Lemma up8_range n : n <= up8 n <= n + 7.
Proof. unfold up8. pose proof (Z.mod_pos_bound (n + 7) 8 ltac:(lia)) as B. pose proof (Z.div_mod (n + 7) 8 ltac:(lia)) as E. lia. Qed.
Lemma up8_least n k : n <= 8 * k -> up8 n <= 8 * k.
Proof. intros H. unfold up8. assert ((n + 7) / 8 < k + 1) by (apply Z.div_lt_upper_bound; lia). lia. Qed.
Lemma push_square x : push_size x = push_alignment x.
Proof. destruct x as [[]|]; reflexivity. Qed.
Lemma pushed_up8 a x : up8 (blen (a_data (pushed a x))) <= up8 (blen (a_data a)) + 8.
Proof.
  rewrite blen_pushed. pose proof (gap_range (a_data a) (push_size x) _ (push_alignment_pow8 x)) as G.
  pose proof (gap_aligns (a_data a) (push_size x) _ (push_alignment_pow8 x)) as A.
  pose proof (up8_range (blen (a_data a))) as R. rewrite push_square in *. pose proof (push_alignment_pow8 x) as P. unfold pow8 in P.
  set (n := blen (a_data a)) in *. set (g := gap (a_data a) (push_alignment x) (push_alignment x)) in *.
  set (s := push_alignment x) in *. assert (E : exists k, up8 n = 8 * k) by (exists ((n + 7) / 8); unfold up8; lia).
  destruct E as (k & E). rewrite E in *. replace (8 * k + 8) with (8 * (k + 1)) by lia. apply up8_least.
  clearbody n g s. clear E. apply Z.mod_divide in A; [|lia]. destruct A as (q & A).
  destruct P as [->|[->|[->| ->]]]; lia.
Qed.
Lemma a_push_size lim h a x a' o : a_push lim h a x = Val (a', o) ->
  up8 (blen (a_data a')) <= up8 (blen (a_data a)) + 8 /\ o <= blen (a_data a').
Proof.
  intros H. apply a_push_val in H as (-> & -> & _). split; [apply pushed_up8|apply as_u32_le, blen_nonneg].
Qed.

Lemma in_table_size h o b b' x : inv b -> op_ok o = true -> match o with OpPushSlot _ _ _ | OpPushSlotAlways _ _ => true | _ => false end = true ->
  step h b o = Val (b', x) -> inv b' /\ up8 (blen (unfinished_data b')) <= up8 (blen (unfinished_data b)) + 8.
Proof.
  intros I Ho Hk H. apply step_abstract in H as [S I']; auto. split; [exact I'|].
  assert (K : forall slot v, (exists u, a_push_slot_always false h (view b) slot v = Val u /\ view b' = u) ->
              up8 (blen (unfinished_data b')) <= up8 (blen (unfinished_data b)) + 8).
  { intros slot v (u & Hu & E). unfold a_push_slot_always in Hu. apply bind_Val in Hu as (? & _ & Hu).
    apply bind_Val in Hu as ([a1 o1] & P & Hu). apply a_push_size in P as [P _].
    change (up8 (blen (a_data (view b'))) <= up8 (blen (a_data (view b))) + 8). rewrite E.
    assert (Eu : u = a_track a1 slot o1) by congruence. rewrite Eu. exact P. }
  destruct o; try discriminate Hk; cbn [a_step] in S; unfold a_unit in S; apply bind_Val in S as (u & S & E).
  - unfold a_push_slot in S. apply bind_Val in S as (? & _ & S).
    destruct (pval_eq x0 default).
    + assert (view b' = view b) by congruence. change (up8 (blen (a_data (view b'))) <= up8 (blen (a_data (view b))) + 8). rewrite H. lia.
    + apply (K slot x0). exists u. split; [exact S|congruence].
  - apply (K slot x0). exists u. split; [exact S|congruence].
Qed.

Lemma adds_kind fs : forall args o, In o (add_ops fs args) ->
  match o with OpPushSlot _ _ _ | OpPushSlotAlways _ _ => true | _ => false end = true.
Proof.
  induction fs as [|f fs IH]; intros [|a args] o; cbn [add_ops]; try (intros []; fail). rewrite in_app_iff. intros [I|I]; [|eauto].
  destruct a as [x|]; [|destruct I]. destruct I as [<-|[]]. unfold add_op.
  destruct (g_kind f) as [t [d|]|t vs [d|]| |]; reflexivity.
Qed.

Lemma adds_size h os : forall b b' xs, inv b -> forallb op_ok os = true ->
  (forall o, In o os -> match o with OpPushSlot _ _ _ | OpPushSlotAlways _ _ => true | _ => false end = true) ->
  run h b os = Val (b', xs) -> inv b' /\ up8 (blen (unfinished_data b')) <= up8 (blen (unfinished_data b)) + 8 * blen os.
Proof.
  induction os as [|o os IH]; intros b b' xs I Ho Hk H; cbn [run forallb] in *.
  - injection H as <- <-. split; auto. change (blen (@nil op)) with 0. lia.
  - apply andb_true_iff in Ho as [O1 O2]. apply bind_Val in H as ([b1 x] & H1 & H). apply bind_Val in H as ([b2 ys] & H2 & H).
    assert (b2 = b') by congruence. subst b2.
    destruct (in_table_size _ _ _ _ _ I O1 (Hk o (or_introl eq_refl)) H1) as [I1 L1].
    destruct (IH _ _ _ I1 O2 (fun o Io => Hk o (or_intror Io)) H2) as [I2 L2]. split; auto. rewrite blen_cons. lia.
Qed.

Lemma add_ops_len fs : forall args, blen (add_ops fs args) <= blen fs.
Proof.
  induction fs as [|f fs IH]; intros [|a args]; cbn [add_ops]; rewrite ?blen_cons.
  1, 2: change (blen (@nil op)) with 0; pose proof (blen_nonneg (@nil gfield)); lia.
  - change (blen (@nil op)) with 0. pose proof (blen_nonneg fs). lia.
  - specialize (IH args). destruct a; cbn [app]; rewrite ?blen_cons; lia.
Qed.

Lemma create_size h b0 gs args b1 obj : inv b0 -> fields_wf 0 gs -> blen gs <= 32765 -> args_ok gs args = true ->
  gen_create h b0 gs args = Val (b1, obj) -> obj <= blen (unfinished_data b0) + 8 * blen gs + 15.
Proof.
  intros I W Hn A G. pose proof (calls_ok_ops _ (add_ops_ok gs 0 args ltac:(lia) ltac:(lia) W A)) as Ka.
  unfold gen_create in G. apply bind_Val in G as ([c1 start] & H1 & G). apply bind_Val in G as (c2 & H2 & G).
  apply bind_Val in G as ([c3 o] & H3 & G). apply bind_Val in G as ([] & _ & G). assert (o = obj) by congruence. subst o.
  assert (S1 : step h b0 OpStartTable = Val (c1, ONum start)) by (cbn [step]; unfold with_num; rewrite H1; reflexivity).
  apply step_abstract in S1 as [S1 I1]; auto. cbn [a_step] in S1. unfold a_num, a_start_table in S1.
  apply bind_Val in S1 as ([a1 n1] & S1 & Q1). apply bind_Val in S1 as (u1 & _ & S1).
  assert (E1 : unfinished_data c1 = unfinished_data b0).
  { change (a_data (view c1) = unfinished_data b0). assert (view c1 = with_nested (view b0) true) by congruence. rewrite H. reflexivity. }
  destruct (gen_adds_run _ _ _ _ _ H2) as (ys & R2 & _).
  destruct (adds_size _ _ _ _ _ I1 Ka (adds_kind gs args) R2) as [I2 L2]. pose proof (add_ops_len gs args) as La.
  assert (Hs : 0 <= start < 2 ^ 32).
  { assert (Es : start = as_u32 (used_space (set_nested b0 true))).
    { unfold start_table in H1. apply bind_Val in H1 as (? & _ & H1). cbn [set_nested] in H1. congruence. }
    rewrite Es. unfold as_u32. apply Z.mod_pos_bound. lia. }
  assert (S3 : step h c2 (OpEndTable start) = Val (c3, ONum obj)) by (cbn [step]; unfold with_num; rewrite H3; reflexivity).
  apply step_abstract in S3 as [S3 I3]; auto. 2: { cbn [op_ok]. unfold u32_ok. lia. }
  cbn [a_step] in S3. unfold a_num, a_end_table, a_write_vtable in S3.
  apply bind_Val in S3 as ([a3 n3] & S3 & Q3). apply bind_Val in S3 as (? & _ & S3). apply bind_Val in S3 as ([a4 n4] & S3 & Q4).
  assert (n3 = obj) by congruence. assert (n4 = n3) by congruence. subst n3 n4.
  apply bind_Val in S3 as (? & _ & S3). apply bind_Val in S3 as ([a5 n5] & P & S3).
  apply a_push_size in P as [P1 P2]. cbn [view a_data] in P1.
  assert (n5 = obj).
  { clear - S3. repeat (apply bind_Val in S3 as (? & _ & S3)).
    match type of S3 with (let (_, _) := ?p in _) = _ => destruct p end.
    repeat (apply bind_Val in S3 as (? & _ & S3)). congruence. }
  subst n5. rewrite E1 in L2. pose proof (up8_range (blen (unfinished_data b0))) as U1. pose proof (up8_range (blen (a_data a5))) as U2.
  clear - L2 La P1 P2 U1 U2. lia.
Qed.

(** ** Unions *)
Lemma find_field_nth snake name fs : forall i j f, find_field snake i fs name = Some (j, f) ->
  exists k, j = i + Z.of_nat k /\ nth_error fs k = Some f.
Proof.
  induction fs as [|g fs IH]; intros i j f H; cbn [find_field] in H; [discriminate|].
  destruct (ident_eqb (snake (if_id g)) name).
  - exists O. cbn [nth_error]. split; [assert (j = i) by congruence; lia|congruence].
  - destruct (IH _ _ _ H) as (k & E & N). exists (S k). split; [lia|exact N].
Qed.

Lemma gen_fields_nth fl snake hg all fs : forall n gs i g, gen_fields fl snake hg all n fs = Some gs ->
  nth_error gs i = Some g -> exists f, nth_error fs i = Some f /\ gen_field fl snake hg all (n + Z.of_nat i) f = Some g.
Proof.
  induction fs as [|f fs IH]; intros n gs i g H N; cbn [gen_fields] in H.
  - injection H as <-. destruct i; discriminate.
  - destruct (gen_field fl snake hg all n f) eqn:E; [|discriminate].
    destruct (gen_fields fl snake hg all (n + 1) fs) eqn:E2; [|discriminate]. injection H as <-.
    destruct i; cbn [nth_error] in *.
    + exists f. split; auto. injection N as <-. rewrite Z.add_0_r. exact E.
    + destruct (IH _ _ _ _ E2 N) as (f' & A & B). exists f'. split; auto. rewrite <- B. f_equal. lia.
Qed.
Lemma gen_fields_back fl snake hg all fs : forall n gs i f, gen_fields fl snake hg all n fs = Some gs ->
  nth_error fs i = Some f -> exists g, nth_error gs i = Some g /\ gen_field fl snake hg all (n + Z.of_nat i) f = Some g.
Proof.
  induction fs as [|f0 fs IH]; intros n gs i f H N; cbn [gen_fields] in H.
  - destruct i; discriminate.
  - destruct (gen_field fl snake hg all n f0) eqn:E; [|discriminate].
    destruct (gen_fields fl snake hg all (n + 1) fs) eqn:E2; [|discriminate]. injection H as <-.
    destruct i; cbn [nth_error] in *.
    + injection N as <-. exists g. split; auto. rewrite Z.add_0_r. exact E.
    + destruct (IH _ _ _ _ E2 N) as (g' & A & B). exists g'. split; auto. rewrite <- B. f_equal. lia.
Qed.

(** The pieces of a generated union field. *)
Lemma gen_union fl snake hg all i f slot tslot tb tvs td arms req :
  gen_field fl snake hg all i f = Some (GField slot (GUnion tslot tb tvs td arms) req) ->
  exists q e vs j tf q' evs b, if_ty f = ICustom q (KUnion e vs) /\
    find_field snake 0 all (type_name snake (if_id f)) = Some (j, tf) /\ if_ty tf = ICustom q' (KEnum evs b) /\
    slot_of hg j = Some tslot /\ tb = prim_ty b /\ tvs = enum_values evs /\ enum_default evs (if_default tf) = Some td /\
    union_arms evs vs = Some arms /\ enum_compiles evs b = true /\ union_exhaustive evs vs = true /\
    if_required tf = req /\ if_required f = req.
Proof.
  unfold gen_field. destruct (slot_of hg i) as [s|]; [|discriminate].
  destruct (if_ty f) as [p| |t|q [|fs|vs b|e vs]].
  1-6: destruct (if_default f) as [[[]|]|] eqn:Ed; cbn [follow_ty option_map]; try discriminate.
  - destruct (const_value fl (prim_ty p) (CInt _)); discriminate.
  - destruct (const_value fl (prim_ty p) (CFloat _)); discriminate.
  - destruct (const_value fl (prim_ty p) (CBool _)); discriminate.
  - destruct (follow_ty t); discriminate.
  - destruct (enum_default vs _); [|discriminate]. destruct (enum_compiles vs b); discriminate.
  - destruct (enum_default vs _); [|discriminate]. destruct (enum_compiles vs b); discriminate.
  - destruct (find_field snake 0 all (type_name snake (if_id f))) as [[j tf]|] eqn:Ef.
    2: { destruct (if_default f) as [[[]|]|]; discriminate. }
    destruct (if_ty tf) as [ | | | q' [ | | evs b | ]] eqn:Et; try (destruct (if_default f) as [[[]|]|]; discriminate).
    destruct (union_arms evs vs) eqn:Ea; [|destruct (if_default f) as [[[]|]|]; discriminate].
    destruct (slot_of hg j) eqn:Es; [|destruct (if_default f) as [[[]|]|]; discriminate].
    destruct (enum_default evs (if_default tf)) eqn:Ee; [|destruct (if_default f) as [[[]|]|]; discriminate].
    match goal with |- context [if ?x then Some _ else _] => destruct x eqn:Q; [|destruct (if_default f) as [[[]|]|]; discriminate] end.
    intros H. assert (E : GField slot (GUnion tslot tb tvs td arms) req = GField s (GUnion z (prim_ty b) (enum_values evs) o l) (if_required f)).
    { destruct (if_default f) as [[[]|]|]; congruence. }
    repeat rewrite andb_true_iff in Q. destruct Q as [[[Q1 Q2] Q3] Q4]. apply eqb_prop in Q2.
    exists q, e, vs, j, tf, q', evs, b. repeat (split; [first [reflexivity|congruence]|]). congruence.
Qed.

(** The type field of a union field is generated as well, as an enum field with
    the slot, type and default that the union's accessor uses. *)
Lemma gen_table_companion fl snake hg fs gs i f tslot tb tvs td arms :
  blen fs <= 32765 -> gen_table fl snake hg fs = Some gs -> nth_error gs i = Some f -> g_kind f = GUnion tslot tb tvs td arms ->
  exists j, nth_error gs j = Some (GField tslot (GEnum tb tvs td) (g_req f)).
Proof.
  intros L H N K. unfold gen_table in H. destruct (_ && _); [|discriminate].
  destruct (gen_fields_nth _ _ _ _ _ _ _ _ _ H N) as (fi & Ni & Gi).
  destruct f as [slot k req]. cbn [g_kind g_req] in *. subst k.
  apply gen_union in Gi as (q & e & vs & j & tf & q' & evs & b & A1 & A2 & A3 & A4 & -> & -> & A5 & A6 & A7 & A8 & A9 & A10).
  apply find_field_nth in A2 as (k & -> & Nk).
  destruct (gen_fields_back _ _ _ _ _ _ _ _ _ H Nk) as (g & Ng & Gg). exists k. rewrite Ng.
  unfold gen_field in Gg. rewrite A4, A3, A5, A7 in Gg. rewrite A9 in Gg. congruence.
Qed.

(** The arms, by variant. *)
Lemma union_arms_Forall2 evs vs : forall arms, union_arms evs vs = Some arms ->
  Forall2 (fun v (a : Z * fty) => variant_value evs (iuv_id v) = Some (fst a) /\ follow_ty (iuv_ty v) = Some (snd a)) vs arms.
Proof.
  induction vs as [|v vs IH]; intros arms H; cbn [union_arms] in H; [injection H as <-; constructor|].
  destruct (variant_value evs (iuv_id v)) eqn:E1; [|discriminate]. destruct (follow_ty (iuv_ty v)) eqn:E2; [|discriminate].
  destruct (union_arms evs vs); [|discriminate]. injection H as <-. constructor; auto.
Qed.

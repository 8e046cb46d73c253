(** Generated tables: the calls a generated [create] makes, and what its
    accessors read afterwards. *)
From Coq Require Import ZArith List Bool Lia Strings.Byte ZifyBool ZifyNat ZifyN.
From Verif Require Import Base Scalar Reader Builder Ops SpecBuilder Abstract BaseFacts ScalarFacts ReaderFacts
  Refine Refine2 Build1 Build2 Build3 Build4 Build5 Build6 Build7 Build8 BuilderProofs2 BuilderProofs4
  Schema Codegen SpecGen.
Import ListNotations.
Local Open Scope Z_scope.

Lemma byte_eqb_eq a b : byte_eqb a b = true <-> a = b.
Proof. unfold byte_eqb. split; [apply byte_dec_bl|apply byte_dec_lb]. Qed.
Lemma bytes_eqb_eq a : forall b, bytes_eqb a b = true <-> a = b.
Proof.
  induction a as [|x a IH]; intros [|y b]; cbn [bytes_eqb]; try (split; congruence).
  rewrite andb_true_iff, byte_eqb_eq, IH. split; [intros [-> ->]; auto|intros E; injection E; auto].
Qed.
Lemma mem_z_In x l : mem_z x l = true <-> In x l.
Proof. induction l; cbn [mem_z In]; [split; [discriminate|tauto]|]. rewrite orb_true_iff, IHl, Z.eqb_eq. intuition congruence. Qed.
Lemma nodup_z_NoDup l : nodup_z l = true <-> NoDup l.
Proof.
  induction l as [|x l IH]; cbn [nodup_z]; [split; [constructor|auto]|].
  rewrite andb_true_iff, negb_true_iff, IH. split.
  - intros [M N]. constructor; auto. intros I. apply mem_z_In in I. congruence.
  - intros N. inversion N as [|? ? A B]. split; auto. destruct (mem_z x l) eqn:E; auto. apply mem_z_In in E. tauto.
Qed.

(** What [gen_table] guarantees about the fields it emits. *)
Definition kind_wf (k : gkind) : Prop :=
  match k with
  | GScalar t (Some d) => valid_scalar t d = true
  | GScalar t None => True
  | GEnum t vs d => int_ty t = true /\ forallb (valid_scalar t) vs = true /\ NoDup vs /\ (forall v, d = Some v -> In v vs)
  | GRef t => exists t', t = FUOffset t'
  | GUnion _ _ _ _ _ => True
  end.
Definition fields_wf (n : Z) (gs : list gfield) : Prop :=
  forall i f, nth_error gs i = Some f -> g_slot f = 4 + 2 * (n + Z.of_nat i) /\ kind_wf (g_kind f).

Lemma slot_of_eq hg i : 0 <= i <= 32764 -> slot_of hg i = Some (4 + 2 * i).
Proof.
  intros H. unfold slot_of, field_index_to_field_offset, u16_arith, unsigned_arith, as_u16, SIZE_VOFFSET.
  rewrite (Z.mod_small i) by lia.
  replace ((0 <=? i + 2) && (i + 2 <? 2 ^ 16)) with true by lia. cbn [bind].
  replace ((0 <=? (i + 2) * 2) && ((i + 2) * 2 <? 2 ^ 16)) with true by lia. f_equal. lia.
Qed.

Lemma variant_value_In vs id v : forall i, variant_value_from i vs id = Some v -> In v (enum_values_from i vs).
Proof.
  induction vs as [|x vs IH]; intros i; cbn [variant_value_from enum_values_from]; [discriminate|].
  destruct (ident_eqb (iev_id x) id); [|right; eauto]. intros E. injection E as <-. left. reflexivity.
Qed.

Lemma enum_compiles_facts vs b : enum_compiles vs b = true ->
  int_ty (prim_ty b) = true /\ forallb (valid_scalar (prim_ty b)) (enum_values vs) = true /\ NoDup (enum_values vs).
Proof.
  unfold enum_compiles. intros H. repeat rewrite andb_true_iff in H. destruct H as [[[[[_ I] _] H] N] _]. split; [exact I|].
  split; [exact H|]. apply nodup_z_NoDup. exact N.
Qed.

Lemma const_value_valid fl t c v : floats_ok fl -> default_ok (Some (DScalar c)) = true ->
  const_value fl t c = Some v -> valid_scalar t v = true.
Proof.
  intros (F1 & F2 & F3) D. cbn [default_ok] in D.
  destruct t, c as [i|f|b]; cbn [const_value]; intros E; try discriminate E;
    repeat match type of E with (if ?x then _ else _) = _ => destruct x eqn:?; [|discriminate E] end;
    try (injection E as <-; auto; fail).
  destruct b; injection E as <-; reflexivity.
Qed.

Lemma enum_default_In vs d v : enum_default vs d = Some (Some v) -> In v (enum_values vs).
Proof.
  unfold enum_default. destruct d as [[|i]|]; try discriminate. destruct (variant_value vs i) eqn:E; [|discriminate].
  cbn. intros Q. injection Q as <-. eapply variant_value_In. exact E.
Qed.

Lemma gen_field_wf fl snake hg all i f g : floats_ok fl -> default_ok (if_default f) = true -> 0 <= i <= 32764 ->
  gen_field fl snake hg all i f = Some g ->
  g_slot g = 4 + 2 * i /\ kind_wf (g_kind g) /\ g_req g = if_required f.
Proof.
  intros F D Hi. unfold gen_field. rewrite slot_of_eq by auto.
  destruct (if_ty f) as [p| |t|q [|fs|vs b|e vs]].
  - destruct (if_default f) as [[c|d]|] eqn:Ed; intros H; try discriminate H.
    + destruct (const_value fl (prim_ty p) c) eqn:E; [|discriminate H]. injection H as <-. cbn [g_slot g_kind g_req kind_wf].
      split; [reflexivity|]. split; [eapply const_value_valid; eauto|reflexivity].
    + injection H as <-. cbn. auto.
  - destruct (if_default f) as [[c|d]|] eqn:Ed; intros H; try discriminate H. injection H as <-. cbn. eauto.
  - destruct (if_default f) as [[c|d]|] eqn:Ed; intros H; try discriminate H. cbn [follow_ty] in H.
    destruct (follow_ty t); cbn [option_map] in H; [|discriminate H]. injection H as <-. cbn. eauto.
  - destruct (if_default f) as [[c|d]|] eqn:Ed; intros H; try discriminate H. injection H as <-. cbn. eauto.
  - destruct (if_default f) as [[c|d]|] eqn:Ed; intros H; discriminate H.
  - destruct (enum_default vs (if_default f)) as [d|] eqn:Ed; intros H; [|discriminate H].
    destruct (enum_compiles vs b) eqn:Ec; [|discriminate H]. injection H as <-. cbn [g_slot g_kind g_req kind_wf].
    apply enum_compiles_facts in Ec as (A & B & C). split; [reflexivity|]. split; [|reflexivity].
    split; [exact A|]. split; [exact B|]. split; [exact C|].
    intros v ->. eapply enum_default_In. exact Ed.
  - destruct (find_field snake 0 all (type_name snake (if_id f))) as [[j tf]|].
    2: { destruct (if_default f) as [[[]|]|]; discriminate. }
    destruct (if_ty tf) as [ | | | ? [ | | evs b | ]]; try (destruct (if_default f) as [[[]|]|]; discriminate).
    destruct (union_arms evs vs); [|destruct (if_default f) as [[[]|]|]; discriminate].
    destruct (slot_of hg j); [|destruct (if_default f) as [[[]|]|]; discriminate].
    destruct (enum_default evs (if_default tf)); [|destruct (if_default f) as [[[]|]|]; discriminate].
    match goal with |- context [if ?x then Some _ else _] => destruct x; [|destruct (if_default f) as [[[]|]|]; discriminate] end.
    intros H. assert (E : g = GField (4 + 2 * i) (GUnion z (prim_ty b) (enum_values evs) o l) (if_required f)).
    { destruct (if_default f) as [[[]|]|]; congruence. }
    subst g. cbn. auto.
Qed.

Lemma gen_fields_wf fl snake hg all fs : floats_ok fl -> forall n gs,
  forallb (fun f => default_ok (if_default f)) fs = true -> 0 <= n -> n + blen fs <= 32765 ->
  gen_fields fl snake hg all n fs = Some gs -> fields_wf n gs /\ length gs = length fs /\
  forall i f g, nth_error fs i = Some f -> nth_error gs i = Some g -> g_req g = if_required f.
Proof.
  intros F. induction fs as [|f fs IH]; intros n gs D Hn Hl H; cbn [gen_fields forallb] in *.
  - injection H as <-. split; [|split; [reflexivity|]]; intros i; destruct i; discriminate.
  - apply andb_true_iff in D as [D1 D2]. rewrite blen_cons in Hl. pose proof (blen_nonneg fs) as Bn.
    destruct (gen_field fl snake hg all n f) as [g|] eqn:E1; [|discriminate H].
    destruct (gen_fields fl snake hg all (n + 1) fs) as [gs'|] eqn:E2; [|discriminate H]. injection H as <-.
    destruct (IH (n + 1) gs' D2 ltac:(lia) ltac:(lia) E2) as (A & B & C).
    apply gen_field_wf in E1 as (S & K & R); auto; [|lia]. split; [|split].
    + intros [|i] x Hx; cbn [nth_error] in Hx.
      * injection Hx as <-. split; [rewrite S; lia|auto].
      * apply A in Hx as [Hs Hk]. split; [rewrite Hs; lia|auto].
    + cbn [length]. congruence.
    + intros [|i] x y Hx Hy; cbn [nth_error] in *; [congruence|eauto].
Qed.

(** The calls of the generated code. *)
Definition add_op (f : gfield) (x : pval) : op :=
  match g_kind f with
  | GScalar t (Some d) | GEnum t _ (Some d) => OpPushSlot (g_slot f) x (PScalar t d)
  | _ => OpPushSlotAlways (g_slot f) x
  end.
Fixpoint add_ops (fs : list gfield) (args : list garg) : list op :=
  match fs, args with
  | f :: fs, a :: args => match a with Some x => [add_op f x] | None => [] end ++ add_ops fs args
  | _, _ => []
  end.
Definition required_ops (o : Z) (fs : list gfield) : list op :=
  flat_map (fun f => if g_req f then [OpRequired o (g_slot f)] else []) fs.

Lemma gen_add_step h b f x : step h b (add_op f x) = (let* b := gen_add h b f x in Val (b, ONone)).
Proof. unfold add_op, gen_add. destruct (g_kind f) as [t [d|]|t vs [d|]| |]; reflexivity. Qed.

Lemma gen_adds_run h fs : forall args b b', gen_adds h b fs args = Val b' ->
  exists ys, run h b (add_ops fs args) = Val (b', ys) /\ length ys = length (add_ops fs args).
Proof.
  induction fs as [|f fs IH]; intros [|a args] b b' H; cbn [gen_adds add_ops] in *;
    try (injection H as <-; exists []; auto; fail).
  apply bind_Val in H as (b1 & H1 & H2). destruct (IH _ _ _ H2) as (ys & R & L). destruct a as [x|].
  - exists (ONone :: ys). cbn [app run length]. rewrite gen_add_step, H1. cbn [bind]. rewrite R. split; [reflexivity|lia].
  - injection H1 as <-. exists ys. auto.
Qed.

Lemma gen_required_run h b o fs : gen_required h b o fs = Val tt ->
  exists zs, run h b (required_ops o fs) = Val (b, zs).
Proof.
  induction fs as [|f fs IH]; cbn [gen_required required_ops flat_map]; intros H.
  - exists []. reflexivity.
  - apply bind_Val in H as ([] & H1 & H2). destruct (IH H2) as (zs & R).
    destruct (g_req f); [|exists zs; exact R].
    exists (ONone :: zs). cbn [app run step]. rewrite H1. cbn [bind].
    unfold required_ops in R. rewrite R. reflexivity.
Qed.

Lemma gen_create_run h b fs args b' obj : gen_create h b fs args = Val (b', obj) ->
  let start := as_u32 (used_space b) in
  exists ys zs, length ys = length (add_ops fs args) /\
    run h b ([OpStartTable] ++ add_ops fs args ++ [OpEndTable start] ++ required_ops obj fs) =
      Val (b', [ONum start] ++ ys ++ [ONum obj] ++ zs).
Proof.
  unfold gen_create. intros H. apply bind_Val in H as ([b1 start] & H1 & H). apply bind_Val in H as (b2 & H2 & H).
  apply bind_Val in H as ([b3 o] & H3 & H). apply bind_Val in H as ([] & H4 & H). injection H as <- <-.
  assert (Es : start = as_u32 (used_space b)).
  { unfold start_table in H1. apply bind_Val in H1 as (? & _ & H1). injection H1 as _ <-. reflexivity. }
  rewrite <- Es. destruct (gen_adds_run _ _ _ _ _ H2) as (ys & R2 & L2). destruct (gen_required_run _ _ _ _ H4) as (zs & R4).
  exists ys, zs. split; [exact L2|]. rewrite run_app. cbn [run step]. unfold with_num. rewrite H1. cbn [bind].
  rewrite run_app, R2. cbn [bind app run step]. unfold with_num. rewrite H3. cbn [bind]. rewrite R4. reflexivity.
Qed.

(** Arguments of the calls are as Rust's types have them. *)
Lemma pty_eqb_sty a b : pty_eqb (PTScalar a) (PTScalar b) = true -> a = b.
Proof. destruct a, b; cbn; congruence. Qed.
Lemma pty_eqb_refl t : pty_eqb t t = true.
Proof. destruct t as [[]|]; reflexivity. Qed.

Lemma arg_ok_pval f x : kind_wf (g_kind f) -> arg_ok f (Some x) = true -> pval_ok x = true.
Proof.
  unfold arg_ok. destruct x as [t v|o]; destruct (g_kind f) as [t' d|t' vs d|t'|]; cbn [kind_wf pval_ok]; intros W H; try discriminate H; auto.
  - apply andb_true_iff in H as [_ H]. exact H.
  - apply andb_true_iff in H as [E M]. apply pty_eqb_sty in E as ->. apply mem_z_In in M.
    destruct W as (_ & W & _). rewrite forallb_forall in W. auto.
Qed.
Lemma add_op_ok f x i : kind_wf (g_kind f) -> g_slot f = 4 + 2 * i -> 0 <= i <= 32764 ->
  arg_ok f (Some x) = true -> op_ok (add_op f x) && op_slots (add_op f x) = true.
Proof.
  intros W S Hi A. pose proof (arg_ok_pval _ _ W A) as P. unfold add_op.
  assert (U : u16_ok (g_slot f) = true) by (unfold u16_ok; clear - S Hi; lia).
  assert (F : slot_fits (g_slot f) = true).
  { unfold slot_fits. rewrite S. replace ((4 + 2 * i) mod 2) with 0; [clear - Hi; lia|].
    replace (4 + 2 * i) with (0 + (2 + i) * 2) by lia. rewrite Z.mod_add by lia. reflexivity. }
  unfold arg_ok in A.
  destruct (g_kind f) as [t' [d|]|t' vs [d|]|t'|]; destruct x as [t v|o]; try discriminate A;
    cbn [op_ok op_slots kind_wf pty_of] in *; rewrite U, P, F; try reflexivity.
  - apply andb_true_iff in A as [A _]. rewrite A. cbn [pval_ok]. rewrite W. reflexivity.
  - apply andb_true_iff in A as [A _]. rewrite A. cbn [pval_ok].
    destruct W as (_ & W & _ & I). specialize (I _ eq_refl). rewrite forallb_forall in W. rewrite (W _ I). reflexivity.
Qed.

Lemma fields_wf_tail n f fs : fields_wf n (f :: fs) -> fields_wf (n + 1) fs.
Proof. intros W i x H. destruct (W (S i) x H) as [A B]. split; [rewrite A; lia|exact B]. Qed.

Lemma add_ops_ok fs : forall n args, 0 <= n -> n + blen fs <= 32765 -> fields_wf n fs -> args_ok fs args = true ->
  calls_ok (add_ops fs args) = true.
Proof.
  induction fs as [|f fs IH]; intros n [|a args] Hn Hl W A; cbn [add_ops args_ok] in *; try reflexivity; try discriminate A.
  apply andb_true_iff in A as [A1 A2]. rewrite blen_cons in Hl. pose proof (blen_nonneg fs) as Bn.
  pose proof (IH (n + 1) args ltac:(lia) ltac:(lia) (fields_wf_tail _ _ _ W) A2) as R.
  destruct a as [x|]; [|exact R]. unfold calls_ok in *. cbn [app forallb]. rewrite R, andb_true_r.
  destruct (W O f eq_refl) as [S K]. eapply (add_op_ok f x n); auto; lia.
Qed.

Lemma add_ops_in_table fs : forall args, forallb in_table (add_ops fs args) = true.
Proof.
  induction fs as [|f fs IH]; intros [|[x|] args]; cbn [add_ops app forallb]; auto. rewrite IH, andb_true_r.
  unfold add_op. destruct (g_kind f) as [t [d|]|t vs [d|]| |]; reflexivity.
Qed.
Lemma add_ops_no_reset fs : forall args, no_reset (add_ops fs args) = true.
Proof.
  induction fs as [|f fs IH]; intros [|[x|] args]; cbn [add_ops app]; auto. unfold no_reset in *. cbn [forallb].
  rewrite IH, andb_true_r. unfold add_op. destruct (g_kind f) as [t [d|]|t vs [d|]| |]; reflexivity.
Qed.

Lemma required_ops_ok o fs n : 0 <= o < 2 ^ 32 -> 0 <= n -> n + blen fs <= 32765 -> fields_wf n fs ->
  calls_ok (required_ops o fs) = true.
Proof.
  intros Ho. revert n. induction fs as [|f fs IH]; intros n Hn Hl W; cbn [required_ops flat_map]; [reflexivity|].
  rewrite blen_cons in Hl. pose proof (blen_nonneg fs) as Bn. unfold calls_ok. rewrite forallb_app.
  fold (required_ops o fs). fold (calls_ok (required_ops o fs)).
  rewrite (IH (n + 1)) by (try lia; eapply fields_wf_tail; eauto). rewrite andb_true_r.
  destruct (g_req f); [|reflexivity]. cbn [forallb op_ok op_slots]. destruct (W O f eq_refl) as [S _].
  unfold u32_ok, u16_ok. rewrite S. clear - Ho Hn Hl Bn. lia.
Qed.
Lemma required_ops_no_reset o fs : no_reset (required_ops o fs) = true.
Proof.
  unfold required_ops, no_reset. induction fs as [|f fs IH]; cbn [flat_map]; auto. rewrite forallb_app, IH.
  destruct (g_req f); reflexivity.
Qed.

(** The object's offset is a [u32]. *)
Lemma push_u32 h b x b' o : push h b x = Val (b', o) -> 0 <= o < 2 ^ 32.
Proof.
  unfold push. intros H. repeat (apply bind_Val in H as (? & _ & H)). injection H as _ <-.
  unfold as_u32. apply Z.mod_pos_bound. lia.
Qed.
Lemma end_table_u32 h b s b' o : end_table h b s = Val (b', o) -> 0 <= o < 2 ^ 32.
Proof.
  unfold end_table. intros H. apply bind_Val in H as (? & _ & H). apply bind_Val in H as ([b1 o1] & H1 & H).
  injection H as _ <-. unfold write_vtable in H1. apply bind_Val in H1 as (? & _ & H1).
  apply bind_Val in H1 as ([b2 o2] & P & H1). apply push_u32 in P.
  repeat (apply bind_Val in H1 as (? & _ & H1)).
  match type of H1 with bind _ (fun p => let (_, _) := p in _) = _ => idtac | _ => idtac end.
  repeat match type of H1 with
  | bind _ _ = Val _ => apply bind_Val in H1 as (? & _ & H1)
  | (let (_, _) := ?p in _) = Val _ => destruct p
  end.
  injection H1 as _ <-. exact P.
Qed.
Lemma gen_create_u32 h b fs args b' obj : gen_create h b fs args = Val (b', obj) -> 0 <= obj < 2 ^ 32.
Proof.
  unfold gen_create. intros H. apply bind_Val in H as ([b1 start] & H1 & H). apply bind_Val in H as (b2 & H2 & H).
  apply bind_Val in H as ([b3 o] & H3 & H). apply bind_Val in H as ([] & H4 & H). injection H as <- <-.
  eapply end_table_u32; eauto.
Qed.

Lemma calls_ok_app a b : calls_ok (a ++ b) = calls_ok a && calls_ok b.
Proof. unfold calls_ok. apply forallb_app. Qed.
Lemma calls_ok_ops os : calls_ok os = true -> forallb op_ok os = true.
Proof.
  unfold calls_ok. rewrite !forallb_forall. intros H o I. specialize (H o I). apply andb_true_iff in H as [H _]. exact H.
Qed.

(** What was added, by slot. *)
Definition stored (f : gfield) (x : pval) : bool :=
  match g_kind f with
  | GScalar t (Some d) | GEnum t _ (Some d) => negb (pval_eq x (PScalar t d))
  | _ => true
  end.
Lemma added_add_op f x : added1 (add_op f x) = if stored f x then [(g_slot f, x)] else [].
Proof.
  unfold add_op, stored. destruct (g_kind f) as [t [d|]|t vs [d|]| |]; cbn [added1]; try reflexivity;
    destruct (pval_eq _ _); reflexivity.
Qed.

Lemma added_slots fs : forall n args s, fields_wf n fs -> In s (map fst (added (add_ops fs args))) ->
  exists i, (i < length fs)%nat /\ s = 4 + 2 * (n + Z.of_nat i).
Proof.
  induction fs as [|f fs IH]; intros n [|a args] s W; cbn [add_ops]; try (intros []; fail).
  unfold added. rewrite flat_map_app, map_app, in_app_iff. intros [I|I].
  - destruct a as [x|]; [|destruct I]. cbn [flat_map] in I. rewrite app_nil_r, added_add_op in I.
    destruct (stored f x); [|destruct I]. cbn in I. destruct I as [<-|[]]. exists O. split; [cbn; lia|].
    destruct (W O f eq_refl) as [S _]. exact S.
  - destruct (IH _ _ _ (fields_wf_tail _ _ _ W) I) as (i & Hi & ->). exists (S i). cbn [length]. split; lia.
Qed.

Lemma added_nodup fs : forall n args, fields_wf n fs -> NoDup (map fst (added (add_ops fs args))).
Proof.
  induction fs as [|f fs IH]; intros n [|a args] W; cbn [add_ops]; try (constructor; fail).
  unfold added. rewrite flat_map_app, map_app. fold (added (add_ops fs args)).
  pose proof (IH _ args (fields_wf_tail _ _ _ W)) as N.
  destruct a as [x|]; [|exact N]. cbn [flat_map]. rewrite app_nil_r, added_add_op. destruct (stored f x); [|exact N].
  cbn [map fst app]. constructor; auto. intros I. apply (added_slots _ _ _ _ (fields_wf_tail _ _ _ W)) in I as (i & _ & E).
  destruct (W O f eq_refl) as [S _]. clear - E S. lia.
Qed.

Lemma added_here fs : forall n args i f a, fields_wf n fs -> nth_error fs i = Some f -> nth_error args i = Some a ->
  (forall x, a = Some x -> stored f x = true -> In (g_slot f, x) (added (add_ops fs args))) /\
  ((forall x, a = Some x -> stored f x = false) -> ~ In (g_slot f) (map fst (added (add_ops fs args)))).
Proof.
  induction fs as [|f0 fs IH]; intros n [|a0 args] [|i] f a W Hf Ha; cbn [nth_error] in *; try discriminate.
  - injection Hf as ->. injection Ha as ->. cbn [add_ops]. unfold added. rewrite flat_map_app. split.
    + intros x -> S. apply in_app_iff. left. cbn [flat_map]. rewrite app_nil_r, added_add_op, S. left. reflexivity.
    + intros S I. rewrite map_app in I. apply in_app_iff in I as [I|I].
      * destruct a as [x|]; [|destruct I]. cbn [flat_map] in I. rewrite app_nil_r, added_add_op, (S x eq_refl) in I. destruct I.
      * apply (added_slots _ _ _ _ (fields_wf_tail _ _ _ W)) in I as (i & _ & E).
        destruct (W O f eq_refl) as [Sl _]. clear - E Sl. lia.
  - destruct (IH _ _ _ _ _ (fields_wf_tail _ _ _ W) Hf Ha) as [A B]. cbn [add_ops]. unfold added. rewrite flat_map_app. split.
    + intros x E S. apply in_app_iff. right. auto.
    + intros S I. rewrite map_app in I. apply in_app_iff in I as [I|I]; [|apply B; auto].
      destruct a0 as [x|]; [|destruct I]. cbn [flat_map] in I. rewrite app_nil_r, added_add_op in I.
      destruct (stored f0 x); [|destruct I]. cbn in I. destruct I as [E|[]].
      destruct (W O f0 eq_refl) as [S0 _]. destruct (W (Datatypes.S i) f Hf) as [S1 _]. rewrite <- E in S1. clear - S0 S1. lia.
Qed.

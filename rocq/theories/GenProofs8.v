(** Generated enums and unions. *)
From Coq Require Import Strings.String ZArith List Bool Lia Strings.Byte ZifyBool ZifyNat ZifyN.
From Verif Require Import Base Scalar Reader Builder Ops BaseFacts ReaderFacts
  Schema Codegen SpecGen GenProofs1 GenProofs3 GenProofs4.
Import ListNotations.
Local Open Scope Z_scope.

Lemma enum_values_length vs : forall i, length (enum_values_from i vs) = length vs.
Proof. induction vs; intros i; cbn [enum_values_from length]; auto. Qed.

Lemma index_of_nth n l : forall i, index_of n l = Some i -> nth_error l i = Some n.
Proof.
  induction l as [|m l IH]; intros i H; cbn [index_of] in H; [discriminate|].
  destruct (n =? m) eqn:E; [injection H as <-; cbn; f_equal; lia|].
  destruct (index_of n l) as [k|]; [|discriminate]. injection H as <-. cbn [nth_error]. auto.
Qed.
Lemma nth_index_of l : NoDup l -> forall i n, nth_error l i = Some n -> index_of n l = Some i.
Proof.
  induction 1 as [|m l Hm _ IH]; intros [|i] n H; cbn [nth_error] in H; try discriminate; cbn [index_of].
  - injection H as ->. rewrite Z.eqb_refl. reflexivity.
  - destruct (n =? m) eqn:E; [apply Z.eqb_eq in E; subst; exfalso; apply Hm; eapply nth_error_In; eauto|].
    rewrite (IH i n H). reflexivity.
Qed.
Lemma index_of_none n l : ~ In n l -> index_of n l = None.
Proof.
  induction l as [|m l IH]; intros H; cbn [index_of]; [reflexivity|]. destruct (n =? m) eqn:E.
  - exfalso. apply H. left. lia.
  - rewrite IH; [reflexivity|]. intros I. apply H. right. exact I.
Qed.

Lemma enum_round_trip vs base : enum_compiles vs base = true ->
  (forall i, (i < length vs)%nat -> enum_try_from vs (enum_into vs i) = Val i) /\
  (forall n i, enum_try_from vs n = Val i -> (i < length vs)%nat /\ enum_into vs i = n) /\
  (forall n, ~ In n (enum_values vs) -> enum_try_from vs n = Err UnknownEnumVariant).
Proof.
  intros C. apply enum_compiles_facts in C as (_ & _ & N). unfold enum_try_from, enum_into. split; [|split].
  - intros i Hi. rewrite (nth_index_of _ N i); [reflexivity|]. apply nth_error_nth'. unfold enum_values. rewrite enum_values_length. exact Hi.
  - intros n i H. destruct (index_of n (enum_values vs)) as [k|] eqn:E; [|discriminate H]. cbn [ok_or] in H. assert (k = i) by congruence. subst k.
    apply index_of_nth in E. split; [|apply nth_error_nth; exact E].
    assert (Hk : (i < length (enum_values vs))%nat) by (apply nth_error_Some; congruence). unfold enum_values in Hk. rewrite enum_values_length in Hk. exact Hk.
  - intros n Hn. rewrite index_of_none by exact Hn. reflexivity.
Qed.

Lemma follow_int h buf loc t : int_ty t = true ->
  follow h (FScalar t) buf loc = let* v := read_scalar_at h t buf loc in Val (VScalar v).
Proof. destruct t; cbn [int_ty]; intros H; try discriminate H; reflexivity. Qed.
Lemma enum_follow h buf loc vs base n : enum_compiles vs base = true -> follow h (FScalar (prim_ty base)) buf loc = Val (VScalar n) ->
  follow h (FEnum (prim_ty base) (enum_values vs)) buf loc =
    let* i := enum_try_from vs n in Val (VEnum (enum_into vs i)).
Proof.
  intros C H. apply enum_compiles_facts in C as (C & _). rewrite follow_int in H by exact C.
  cbn [follow]. destruct (read_scalar_at h (prim_ty base) buf loc) as [m| |]; cbn [bind] in *; try discriminate H.
  assert (m = n) by congruence. subst m. unfold enum_try_from, enum_into.
  destruct (index_of n (enum_values vs)) as [k|] eqn:E; cbn [ok_or bind].
  - apply index_of_nth in E. replace (existsb (Z.eqb n) (enum_values vs)) with true.
    + rewrite (nth_error_nth _ _ 0 E). reflexivity.
    + symmetry. apply existsb_exists. exists n. split; [eapply nth_error_In; eauto|apply Z.eqb_refl].
  - replace (existsb (Z.eqb n) (enum_values vs)) with false; [reflexivity|].
    symmetry. destruct (existsb _ _) eqn:X; [|reflexivity]. apply existsb_exists in X as (m & I & Q). apply Z.eqb_eq in Q. subst m.
    clear - E I. exfalso. induction (enum_values vs) as [|m l IH]; [destruct I|]. cbn [index_of] in E.
    destruct (n =? m) eqn:Q; [discriminate|]. destruct I as [->|I]; [lia|]. destruct (index_of n l); [discriminate|]. auto.
Qed.
Lemma enum_follow_fails h buf loc vs base : enum_compiles vs base = true -> (forall n, follow h (FScalar (prim_ty base)) buf loc <> Val (VScalar n)) ->
  match follow h (FScalar (prim_ty base)) buf loc with
  | Err e => follow h (FEnum (prim_ty base) (enum_values vs)) buf loc = Err e
  | Panic => follow h (FEnum (prim_ty base) (enum_values vs)) buf loc = Panic
  | Val _ => False
  end.
Proof.
  intros C H. apply enum_compiles_facts in C as (C & _). rewrite follow_int in * by exact C.
  cbn [follow]. destruct (read_scalar_at h (prim_ty base) buf loc) as [m| |]; cbn [bind] in *; auto. eapply H; reflexivity.
Qed.

(** ** Values *)
Lemma enum_values_nth vs : forall i k v, nth_error vs k = Some v ->
  nth_error (enum_values_from i vs) k = Some (match iev_value v with Some x => x | None => i + Z.of_nat k end).
Proof.
  induction vs as [|w vs IH]; intros i [|k] v H; cbn [nth_error enum_values_from] in *; try discriminate.
  - injection H as <-. rewrite Z.add_0_r. reflexivity.
  - rewrite (IH _ _ _ H). destruct (iev_value v); [reflexivity|]. f_equal. lia.
Qed.

Lemma documented_implicit vs : Forall (fun v => iev_value v = None) vs -> forall i, enum_values_from i vs = documented_from i vs.
Proof. induction 1 as [|v vs H _ IH]; intros i; cbn [enum_values_from documented_from]; [reflexivity|]. rewrite H, IH. reflexivity. Qed.
Lemma documented_explicit vs : Forall (fun v => iev_value v <> None) vs -> forall i j, enum_values_from i vs = documented_from j vs.
Proof.
  induction 1 as [|v vs H _ IH]; intros i j; cbn [enum_values_from documented_from]; [reflexivity|].
  destruct (iev_value v); [|congruence]. f_equal. apply IH.
Qed.

(** ** Unions *)
Lemma ident_eqb_eq a b : ident_eqb a b = true <-> a = b.
Proof. apply bytes_eqb_eq. Qed.
Lemma mem_ident_In x l : mem_ident x l = true <-> In x l.
Proof. induction l; cbn [mem_ident In]; [split; [discriminate|tauto]|]. rewrite orb_true_iff, IHl, ident_eqb_eq. intuition congruence. Qed.
Lemma nodup_ident_NoDup l : nodup_ident l = true <-> NoDup l.
Proof.
  induction l as [|x l IH]; cbn [nodup_ident]; [split; [constructor|auto]|].
  rewrite andb_true_iff, negb_true_iff, IH. split.
  - intros [M N]. constructor; auto. intros I. apply mem_ident_In in I. congruence.
  - intros N. inversion N as [|? ? A B]. split; auto. destruct (mem_ident x l) eqn:E; auto. apply mem_ident_In in E. tauto.
Qed.
Lemma qident_eqb_eq a : forall b, qident_eqb a b = true <-> a = b.
Proof.
  induction a as [|x a IH]; intros [|y b]; cbn [qident_eqb]; try (split; congruence).
  rewrite andb_true_iff, ident_eqb_eq, IH. split; [intros [-> ->]; reflexivity|intros E; injection E; auto].
Qed.

(** A number that is a value of the enum is the value of some variant's name. *)
Lemma value_has_name vs : forall i n, NoDup (map iev_id vs) -> In n (enum_values_from i vs) ->
  exists v, In v vs /\ variant_value_from i vs (iev_id v) = Some n.
Proof.
  induction vs as [|v vs IH]; intros i n N I; cbn [enum_values_from map variant_value_from] in *; [destruct I|].
  inversion N as [|? ? N1 N2]; subst. destruct I as [<-|I].
  - exists v. split; [left; reflexivity|]. rewrite (proj2 (ident_eqb_eq _ _) eq_refl). reflexivity.
  - destruct (IH _ _ N2 I) as (w & Iw & E). exists w. split; [right; exact Iw|].
    destruct (ident_eqb (iev_id v) (iev_id w)) eqn:Q; [|exact E]. apply ident_eqb_eq in Q. exfalso. apply N1. rewrite Q. apply in_map. exact Iw.
Qed.
(** Different names have different values. *)
Lemma variant_value_inj vs : forall i a b n, NoDup (enum_values_from i vs) ->
  variant_value_from i vs a = Some n -> variant_value_from i vs b = Some n -> a = b.
Proof.
  induction vs as [|v vs IH]; intros i a b n N A B; cbn [enum_values_from variant_value_from] in *; [discriminate|].
  inversion N as [|? ? N1 N2]; subst.
  destruct (ident_eqb (iev_id v) a) eqn:Qa; destruct (ident_eqb (iev_id v) b) eqn:Qb.
  - apply ident_eqb_eq in Qa, Qb. congruence.
  - exfalso. apply variant_value_In in B. apply N1. congruence.
  - exfalso. apply variant_value_In in A. apply N1. congruence.
  - eauto.
Qed.

Lemma find_arm_Some n arms t : find_arm n arms = Some t -> In (n, t) arms.
Proof.
  induction arms as [|[m u] arms IH]; cbn [find_arm]; [discriminate|]. destruct (n =? m) eqn:E; [|right; auto].
  intros H. injection H as ->. left. f_equal. lia.
Qed.
Lemma find_arm_None n arms : find_arm n arms = None -> ~ In n (map fst arms).
Proof.
  induction arms as [|[m u] arms IH]; cbn [find_arm map fst]; [intros _ []|]. destruct (n =? m) eqn:E; [discriminate|].
  intros H [Q|Q]; [lia|]. apply IH; auto.
Qed.

(** Which variant an accessor returns. *)
Lemma arms_of evs vs arms n : NoDup (enum_values evs) -> NoDup (map iev_id evs) -> union_arms evs vs = Some arms ->
  union_exhaustive evs vs = true -> In n (enum_values evs) ->
  (exists k v t, nth_error vs k = Some v /\ union_get_type evs vs k = Some n /\ follow_ty (iuv_ty v) = Some t /\ find_arm n arms = Some t) \/
  (variant_value evs (lit "None") = Some n /\ find_arm n arms = None).
Proof.
  intros N1 N2 A X I. apply union_arms_Forall2 in A. destruct (find_arm n arms) as [t|] eqn:F.
  - left. apply find_arm_Some in F. apply In_nth_error in F as (k & Hk).
    assert (exists v, nth_error vs k = Some v) as (v & Hv).
    { destruct (nth_error vs k) eqn:E; [eauto|]. exfalso. apply nth_error_None in E.
      assert (length vs = length arms) by (clear - A; induction A; cbn [length]; congruence).
      assert (k < length arms)%nat by (apply nth_error_Some; congruence). lia. }
    pose proof (Forall2_nth _ _ _ A k v (n, t) Hv Hk) as [V T]. cbn [fst snd] in *. exists k, v, t.
    unfold union_get_type. rewrite Hv. auto.
  - right. split; [|reflexivity]. apply find_arm_None in F.
    destruct (value_has_name evs 0 n N2 I) as (e & Ie & Ev). unfold union_exhaustive in X. repeat rewrite andb_true_iff in X.
    destruct X as [[[_ X1] X2] X3]. rewrite forallb_forall in X3. specialize (X3 e Ie). apply orb_true_iff in X3 as [Q|Q].
    + apply ident_eqb_eq in Q. rewrite Q in Ev. exact Ev.
    + exfalso. apply mem_ident_In in Q. apply in_map_iff in Q as (v & Qv & Iv). apply In_nth_error in Iv as (k & Hk).
      assert (exists a, nth_error arms k = Some a) as (a & Ha).
      { destruct (nth_error arms k) eqn:E; [eauto|]. exfalso. apply nth_error_None in E.
        assert (length vs = length arms) by (clear - A; induction A; cbn [length]; congruence).
        assert (k < length vs)%nat by (apply nth_error_Some; congruence). lia. }
      pose proof (Forall2_nth _ _ _ A k v a Hk Ha) as [V _]. rewrite Qv in V. unfold variant_value in V. rewrite Ev in V. injection V as V.
      apply F. apply in_map_iff. exists a. split; [congruence|eapply nth_error_In; eauto].
Qed.

Lemma union_accessor fl snake hg fs gs i f g q e vs :
  blen fs <= 32765 -> gen_table fl snake hg fs = Some gs -> nth_error fs i = Some f -> nth_error gs i = Some g ->
  if_ty f = ICustom q (KUnion e vs) ->
  exists j tf evs b gt, nth_error fs j = Some tf /\ nth_error gs j = Some gt /\
    snake (if_id tf) = (snake (if_id f) ++ lit "_type")%list /\ if_ty tf = ICustom e (KEnum evs b) /\
    (forall m k k', union_get_type evs vs k = Some m -> union_get_type evs vs k' = Some m -> k = k') /\
    forall h buf tab, match gen_get h buf tab gt with
      | Err err => gen_get h buf tab g = Err err
      | Panic => gen_get h buf tab g = Panic
      | Val None => gen_get h buf tab g = Val None /\ if_required f = false
      | Val (Some (GPlain (VEnum n))) =>
          (exists k v t, nth_error vs k = Some v /\ union_get_type evs vs k = Some n /\ follow_ty (iuv_ty v) = Some t /\
             gen_get h buf tab g =
               let* x := table_get h buf tab (g_slot g) t None in
               match x with
               | Some x => Val (Some (GVariant n x))
               | None => if if_required f then Err RequiredFieldMissing else Val None
               end) \/
          (variant_value evs (lit "None") = Some n /\
             gen_get h buf tab g = if if_required f then Err RequiredFieldMissing else Val None)
      | Val (Some _) => False
      end.
Proof.
  intros L H Hf Hg T. unfold gen_table in H. destruct (_ && _) eqn:Nd; [|discriminate].
  destruct (gen_fields_nth _ _ _ _ _ _ _ _ _ H Hg) as (f' & Hf' & G). assert (f' = f) by congruence. subst f'.
  assert (K : exists tslot tb tvs td arms, g = GField (g_slot g) (GUnion tslot tb tvs td arms) (g_req g)).
  { unfold gen_field in G. destruct (slot_of hg (0 + Z.of_nat i)); [|discriminate]. rewrite T in G.
    destruct (if_default f) as [[[]|]|]; try discriminate G;
    (destruct (find_field snake 0 fs (type_name snake (if_id f))) as [[j tf]|]; [|discriminate G];
     destruct (if_ty tf) as [ | | |? [| | |]]; try discriminate G;
     destruct (union_arms vs0 vs); [|discriminate G]; destruct (slot_of hg j); [|discriminate G];
     destruct (enum_default vs0 (if_default tf)); [|discriminate G];
     match type of G with (if ?x then _ else _) = _ => destruct x; [|discriminate G] end; injection G as <-; cbn [g_slot g_req]; eauto 7). }
  destruct K as (tslot & tb & tvs & td & arms & Eg). rewrite Eg in G.
  pose proof G as G'. apply gen_union in G as (q0 & e0 & vs0 & j & tf & q' & evs & b & A1 & A2 & A3 & A4 & -> & -> & A5 & A6 & A7 & A8 & A9 & A10).
  rewrite T in A1. assert (vs0 = vs) by congruence. assert (e0 = e) by congruence. subst vs0 e0.
  assert (Eq : q' = e).
  { unfold gen_field in G'. destruct (slot_of hg (0 + Z.of_nat i)); [|discriminate]. rewrite T, A2, A3, A4, A5, A6 in G'.
    assert (Q : qident_eqb q' e && Bool.eqb (if_required tf) (if_required f) && enum_compiles evs b && union_exhaustive evs vs = true).
    { destruct (if_default f) as [[[]|]|]; try discriminate G';
      match type of G' with (if ?x then _ else _) = _ => destruct x; [reflexivity|discriminate G'] end. }
    repeat rewrite andb_true_iff in Q. destruct Q as [[[Q _] _] _]. apply qident_eqb_eq in Q. exact Q. }
  subst q'.
  assert (Nm : snake (if_id tf) = (snake (if_id f) ++ lit "_type")%list).
  { clear - A2. revert A2. generalize 0. induction fs as [|f0 fs IH]; intros z A2; cbn [find_field] in A2; [discriminate|].
    destruct (ident_eqb (snake (if_id f0)) (type_name snake (if_id f))) eqn:E; [|eauto]. apply ident_eqb_eq in E. assert (f0 = tf) by congruence. subst f0. exact E. }
  apply find_field_nth in A2 as (k & -> & Nk).
  destruct (gen_fields_back _ _ _ _ _ _ _ _ _ H Nk) as (gt & Ng & Gg).
  unfold gen_field in Gg. rewrite A4, A3, A5, A7, A9 in Gg. injection Gg as Gg.
  pose proof (enum_compiles_facts _ _ A7) as (_ & _ & ND).
  assert (NI : NoDup (map iev_id evs)).
  { unfold enum_compiles in A7. repeat rewrite andb_true_iff in A7. destruct A7 as [[[[[_ _] A7] _] _] _]. apply nodup_ident_NoDup. exact A7. }
  exists k, tf, evs, b, gt. split; [exact Nk|]. split; [exact Ng|]. split; [exact Nm|]. split; [exact A3|]. split.
  { intros m k1 k2 E1 E2. unfold union_get_type in *. destruct (nth_error vs k1) as [v1|] eqn:H1; [|discriminate]. destruct (nth_error vs k2) as [v2|] eqn:H2; [|discriminate].
    pose proof (variant_value_inj _ _ _ _ _ ND E1 E2) as E. unfold union_exhaustive in A8. repeat rewrite andb_true_iff in A8. destruct A8 as [[[_ A8] _] _].
    apply nodup_ident_NoDup in A8. rewrite NoDup_nth_error in A8. apply A8.
    - rewrite map_length. apply nth_error_Some. congruence.
    - rewrite !nth_error_map, H1, H2. cbn. congruence. }
  intros h buf tab. rewrite <- Gg. rewrite Eg. unfold gen_get at 1. cbn [g_kind g_slot g_req]. rewrite A10.
  unfold gen_get. cbn [g_kind g_slot g_req].
  destruct (table_get h buf tab tslot (FEnum (prim_ty b) (enum_values evs)) (option_map VEnum td)) as [[v|]| |] eqn:Tg; cbn [bind check_required]; try reflexivity.
  - assert (exists n, v = VEnum n /\ In n (enum_values evs)) as (n & -> & In1).
    { clear - Tg A5. unfold table_get in Tg.
      assert (K : forall l r, follow h (FEnum (prim_ty b) (enum_values evs)) buf l = Val r -> exists n, r = VEnum n /\ In n (enum_values evs)).
      { intros l r Hr. cbn [follow] in Hr. apply bind_Val in Hr as (n & _ & Hr). destruct (existsb _ _) eqn:X; [|discriminate Hr].
        exists n. split; [congruence|]. apply existsb_exists in X as (m & Im & Q). apply Z.eqb_eq in Q. congruence. }
      repeat match type of Tg with
      | bind _ _ = Val _ => let x := fresh in let E := fresh in let T := fresh in apply bind_Val in Tg as (x & E & T); rename T into Tg
      | (if ?c then _ else _) = Val _ => destruct c
      | match ?o with Some _ => _ | None => _ end = Val _ => destruct o
      end; try discriminate Tg.
      all: try (match goal with E : follow _ _ _ _ = Val ?r |- _ => apply K in E as (n & -> & I); exists n; split; [congruence|exact I] end).
      all: destruct td as [d|]; cbn [option_map] in Tg; [|discriminate Tg]; exists d; split; [congruence|]; eapply enum_default_In; eauto. }
    cbn [option_map]. destruct (arms_of evs vs arms n ND NI A6 A8 In1) as [(k' & v & t & B1 & B2 & B3 & B4)|[B1 B2]].
    + left. exists k', v, t. split; [exact B1|]. split; [exact B2|]. split; [exact B3|]. rewrite B4.
      destruct (table_get h buf tab (g_slot g) t None) as [[x|]| |]; cbn [bind check_required]; try reflexivity.
      destruct (g_req g); reflexivity.
    + right. split; [exact B1|]. rewrite B2. destruct (g_req g); reflexivity.
  - destruct (g_req g); cbn [bind option_map]; auto.
Qed.

(** Generated tables: what the accessors read back. *)
From Coq Require Import ZArith List Bool Lia Strings.Byte ZifyBool ZifyNat ZifyN.
From Verif Require Import Base Scalar Reader Builder Ops SpecBuilder Abstract BaseFacts ScalarFacts ReaderFacts
  Refine Refine2 Build1 Build2 Build3 Build4 Build5 Build6 Build7 Build8 BuilderProofs2 BuilderProofs4
  Schema Codegen SpecGen GenProofs1.
Import ListNotations.
Local Open Scope Z_scope.

Lemma no_reset_app a b : no_reset (a ++ b) = no_reset a && no_reset b.
Proof. unfold no_reset. apply forallb_app. Qed.

(** A generated [create] between other calls is a table program. *)
Lemma create_program h c before xs b0 gs args b1 obj later b zs :
  0 <= c -> calls_ok before = true -> program h c before = Val (b0, xs) ->
  fields_wf 0 gs -> blen gs <= 32765 -> args_ok gs args = true ->
  gen_create h b0 gs args = Val (b1, obj) ->
  calls_ok later = true -> no_reset later = true -> run h b1 later = Val (b, zs) ->
  blen (unfinished_data b) < 2 ^ 31 ->
  let start := blen (unfinished_data b0) in
  exists ys zs', length xs = length before /\ length ys = length (add_ops gs args) /\
    calls_ok (table_program before (add_ops gs args) start (required_ops obj gs ++ later)) = true /\
    no_reset (required_ops obj gs ++ later) = true /\ 0 <= start < 2 ^ 31 /\
    program h c (table_program before (add_ops gs args) start (required_ops obj gs ++ later)) =
      Val (b, xs ++ [ONum start] ++ ys ++ [ONum obj] ++ zs').
Proof.
  intros Hc Ho H W Hn A G Hl Hr R L start.
  pose proof (gen_create_u32 _ _ _ _ _ _ G) as Hobj.
  destruct (gen_create_run _ _ _ _ _ _ G) as (ys & zs1 & Ly & Rg).
  pose proof (program_inv _ _ _ _ _ Hc (calls_ok_ops _ Ho) H) as I0.
  rewrite (inv_used _ I0) in Rg. fold start in Rg.
  assert (Hs0 : 0 <= start) by apply blen_nonneg.
  pose proof (add_ops_ok gs 0 args ltac:(lia) ltac:(lia) W A) as Ka.
  pose proof (required_ops_ok obj gs 0 ltac:(lia) ltac:(lia) ltac:(lia) W) as Kr.
  assert (Ku : u32_ok (as_u32 start) = true).
  { unfold u32_ok, as_u32. pose proof (Z.mod_pos_bound start (2 ^ 32)). lia. }
  set (mid := [OpStartTable] ++ add_ops gs args ++ [OpEndTable (as_u32 start)] ++ required_ops obj gs) in *.
  assert (Km : calls_ok mid = true).
  { unfold mid. rewrite !calls_ok_app, Ka, Kr. cbn [calls_ok forallb op_ok op_slots]. rewrite Ku. reflexivity. }
  assert (Nm : no_reset mid = true).
  { unfold mid. rewrite !no_reset_app, add_ops_no_reset, required_ops_no_reset. reflexivity. }
  assert (Rm : run h b0 (mid ++ later) = Val (b, ([ONum (as_u32 start)] ++ ys ++ [ONum obj] ++ zs1) ++ zs)).
  { rewrite run_app, Rg. cbn [bind]. rewrite R. reflexivity. }
  assert (Hk : exists new, unfinished_data b = new ++ unfinished_data b0).
  { eapply (data_kept h c before b0 xs (mid ++ later)); eauto; [|rewrite no_reset_app, Nm; exact Hr|lia].
    apply calls_ok_ops. rewrite !calls_ok_app, Ho, Km, Hl. reflexivity. }
  destruct Hk as (new & Ek).
  assert (Hs : 0 <= start < 2 ^ 31).
  { split; [exact Hs0|]. assert (E : blen (unfinished_data b) = blen new + start) by (rewrite Ek; apply blen_app).
    pose proof (blen_nonneg new). lia. }
  assert (Es : as_u32 start = start) by (unfold as_u32; apply Z.mod_small; lia).
  rewrite Es in *. exists ys, (zs1 ++ zs). split; [|split; [exact Ly|split; [|split; [|split; [exact Hs|]]]]].
  - unfold program in H. apply bind_Val in H as (bb & _ & H). eapply run_length; eauto.
  - replace (table_program _ _ _ _) with (before ++ mid ++ later).
    + rewrite !calls_ok_app, Ho, Km, Hl. reflexivity.
    + unfold mid, table_program. rewrite Es, <- !app_assoc. reflexivity.
  - rewrite no_reset_app, required_ops_no_reset. exact Hr.
  - replace (table_program _ _ _ _) with (before ++ mid ++ later).
    2: { unfold mid, table_program. rewrite Es, <- !app_assoc. reflexivity. }
    unfold program in *. apply bind_Val in H as (bb & H0 & H). rewrite H0. cbn [bind]. rewrite run_app, H. cbn [bind].
    rewrite Rm. cbn [bind]. rewrite <- !app_assoc. reflexivity.
Qed.

(** Equality of integers. *)
Lemma int_eq t a b : int_ty t = true -> scalar_eq t a b = true -> a = b.
Proof.
  unfold scalar_eq. destruct t; cbn [int_ty is_nan is_zero orb andb]; intros H; try discriminate H; intros E;
    repeat rewrite orb_false_r in E; try (apply Z.eqb_eq in E; exact E).
  all: apply orb_true_iff in E as [E|E]; [apply Z.eqb_eq in E; exact E|apply andb_true_iff in E as [E1 E2]];
    cbn in E1, E2; try discriminate E1; apply Z.eqb_eq in E1; apply Z.eqb_eq in E2; congruence.
Qed.

(** Everything the accessors can be asked after a generated [create]. *)
Record Created (h hr : host) (D : list byte) (start obj : Z) (gs : list gfield) (args : list garg) : Prop := {
  cr_scalar : forall i f t v fd, nth_error gs i = Some f -> nth_error args i = Some (Some (PScalar t v)) ->
    stored f (PScalar t v) = true ->
    table_get hr D (blen D - obj) (g_slot f) (FScalar t) fd = Val (Some (VScalar v)) /\
    forall al, In v al -> table_get hr D (blen D - obj) (g_slot f) (FEnum t al) fd = Val (Some (VEnum v));
  cr_offset : forall i f o t fd, nth_error gs i = Some f -> nth_error args i = Some (Some (POffset o)) -> o <= start ->
    table_get hr D (blen D - obj) (g_slot f) (FUOffset t) fd = let* v := follow hr t D (blen D - o) in Val (Some v);
  cr_absent : forall i f a t fd, nth_error gs i = Some f -> nth_error args i = Some a ->
    (forall x, a = Some x -> stored f x = false) -> table_get hr D (blen D - obj) (g_slot f) t fd = Val fd;
  cr_beyond : forall i t fd, blen gs <= i <= 32764 -> table_get hr D (blen D - obj) (4 + 2 * i) t fd = Val fd
}.

Lemma slot_even i : (4 + 2 * i) mod 2 = 0.
Proof. replace (4 + 2 * i) with (0 + (2 + i) * 2) by lia. rewrite Z.mod_add by lia. reflexivity. Qed.

Lemma args_ok_nth gs : forall args i f, args_ok gs args = true -> nth_error gs i = Some f ->
  exists a, nth_error args i = Some a /\ arg_ok f a = true.
Proof.
  induction gs as [|g gs IH]; intros [|a args] [|i] f A H; cbn [args_ok nth_error] in *; try discriminate;
    apply andb_true_iff in A as [A1 A2].
  - injection H as <-. eauto.
  - eauto.
Qed.
Lemma args_ok_nth_arg gs : forall args i a, args_ok gs args = true -> nth_error args i = Some a ->
  exists f, nth_error gs i = Some f /\ arg_ok f a = true.
Proof.
  induction gs as [|g gs IH]; intros [|x args] [|i] a A H; cbn [args_ok nth_error] in *; try discriminate;
    apply andb_true_iff in A as [A1 A2].
  - injection H as <-. eauto.
  - eauto.
Qed.
Lemma nth_blen {A} (l : list A) i x : nth_error l i = Some x -> Z.of_nat i < blen l.
Proof. intros H. assert (i < length l)%nat by (apply nth_error_Some; congruence). unfold blen. lia. Qed.

Lemma create_reads h hr c before xs b0 gs args b1 obj later b zs :
  0 <= c -> calls_ok before = true -> closed before = true -> program h c before = Val (b0, xs) ->
  fields_wf 0 gs -> blen gs <= 32765 -> args_ok gs args = true ->
  gen_create h b0 gs args = Val (b1, obj) ->
  calls_ok later = true -> no_reset later = true -> run h b1 later = Val (b, zs) ->
  blen (unfinished_data b) < 2 ^ 31 ->
  debug h = true \/ obj - blen (unfinished_data b0) < 2 ^ 16 ->
  Created h hr (unfinished_data b) (blen (unfinished_data b0)) obj gs args.
Proof.
  intros Hc Ho Hcl H W Hn A G Hl Hr R L S.
  destruct (create_program _ _ _ _ _ _ _ _ _ _ _ _ Hc Ho H W Hn A G Hl Hr R L) as (ys & zs' & Lx & Ly & K & N & Hs & P).
  assert (S' : debug h = true \/ obj - blen (unfinished_data b0) < 2 ^ 16 /\ NoDup (map fst (added (add_ops gs args)))).
  { destruct S as [S|S]; [left; exact S|right; split; [exact S|eapply added_nodup; eauto]]. }
  destruct (fields_round_trip h hr c before (add_ops gs args) _ _ obj xs ys zs' b Hc K Hcl (add_ops_in_table _ _) N P Lx Ly L S')
    as (RS & RO & RN).
  constructor.
  - intros i f t v fd Hf Ha St. destruct (added_here _ _ _ _ _ _ W Hf Ha) as [In1 _].
    specialize (In1 _ eq_refl St). apply (RS _ _ _ fd In1).
  - intros i f o t fd Hf Ha Hle. destruct (added_here _ _ _ _ _ _ W Hf Ha) as [In1 _].
    destruct (args_ok_nth _ _ _ _ A Hf) as (a & Ha' & Ok).
    assert (St : stored f (POffset o) = true).
    { rewrite Ha in Ha'. injection Ha' as <-. unfold arg_ok in Ok. unfold stored.
      destruct (g_kind f) as [? [?|]|? ? [?|]| |]; try discriminate Ok; reflexivity. }
    specialize (In1 _ eq_refl St). apply (RO _ _ t fd In1 Hle).
  - intros i f a t fd Hf Ha St. destruct (added_here _ _ _ _ _ _ W Hf Ha) as [_ Nin]. specialize (Nin St).
    destruct (W _ _ Hf) as [Sl _]. pose proof (nth_blen _ _ _ Hf) as Hi. apply RN; auto.
    + rewrite Sl. clear - Hi Hn. lia.
    + rewrite Sl. apply slot_even.
  - intros i t fd Hi. apply RN.
    + pose proof (blen_nonneg gs). clear - Hi Hn H0. lia.
    + apply slot_even.
    + intros X. apply (added_slots _ _ _ _ W) in X as (j & Hj & E). unfold blen in Hi. clear - Hi Hj E. lia.
Qed.

(** The accessors, kind by kind. *)
Section Reads.
  Context {h hr : host} {D : list byte} {start obj : Z} {gs : list gfield} {args : list garg}.
  Context (C : Created h hr D start obj gs args).
  Context (W : fields_wf 0 gs) (A : args_ok gs args = true).

  Lemma arg_of i f a : nth_error gs i = Some f -> nth_error args i = Some a -> arg_ok f a = true.
  Proof. intros Hf Ha. destruct (args_ok_nth _ _ _ _ A Hf) as (a' & Ha' & Ok). congruence. Qed.

  Lemma reads_scalar i f t d t' v : nth_error gs i = Some f -> g_kind f = GScalar t d ->
    nth_error args i = Some (Some (PScalar t' v)) ->
    t' = t /\ exists w, gen_get hr D (blen D - obj) f = Val (Some (GPlain (VScalar w))) /\ (w = v \/ scalar_eq t v w = true).
  Proof.
    intros Hf K Ha. pose proof (arg_of _ _ _ Hf Ha) as Ok. unfold arg_ok in Ok. rewrite K in Ok.
    apply andb_true_iff in Ok as [E V]. apply pty_eqb_sty in E as ->. split; [reflexivity|].
    unfold gen_get. rewrite K. destruct (stored f (PScalar t v)) eqn:St.
    - exists v. split; [|left; reflexivity]. destruct (cr_scalar _ _ _ _ _ _ _ C _ _ _ _ (option_map VScalar d) Hf Ha St) as [-> _].
      cbn [bind check_required]. destruct (g_req f); reflexivity.
    - unfold stored in St. rewrite K in St. destruct d as [d|]; [|discriminate St]. cbn [pval_eq] in St.
      apply negb_false_iff in St. exists d. split; [|right; exact St].
      rewrite (cr_absent _ _ _ _ _ _ _ C i f _ _ _ Hf Ha).
      + cbn [bind option_map check_required]. destruct (g_req f); reflexivity.
      + intros x E. injection E as <-. unfold stored. rewrite K. cbn [pval_eq]. rewrite St. reflexivity.
  Qed.

  Lemma reads_enum_raw i f t vs d t' v fd : nth_error gs i = Some f -> g_kind f = GEnum t vs d ->
    nth_error args i = Some (Some (PScalar t' v)) -> fd = option_map VEnum d ->
    t' = t /\ In v vs /\ table_get hr D (blen D - obj) (g_slot f) (FEnum t vs) fd = Val (Some (VEnum v)).
  Proof.
    intros Hf K Ha ->. pose proof (arg_of _ _ _ Hf Ha) as Ok. unfold arg_ok in Ok. rewrite K in Ok.
    apply andb_true_iff in Ok as [E V]. apply pty_eqb_sty in E as ->. apply mem_z_In in V. split; [reflexivity|]. split; [exact V|].
    destruct (stored f (PScalar t v)) eqn:St.
    - destruct (cr_scalar _ _ _ _ _ _ _ C _ _ _ _ (option_map VEnum d) Hf Ha St) as [_ X]. apply X. exact V.
    - unfold stored in St. rewrite K in St. destruct d as [d|]; [|discriminate St]. cbn [pval_eq] in St.
      apply negb_false_iff in St. rewrite (cr_absent _ _ _ _ _ _ _ C i f _ _ _ Hf Ha).
      + destruct (W _ _ Hf) as [_ Kw]. rewrite K in Kw. destruct Kw as [It _]. rewrite (int_eq _ _ _ It St). reflexivity.
      + intros x E. injection E as <-. unfold stored. rewrite K. cbn [pval_eq]. rewrite St. reflexivity.
  Qed.

  Lemma reads_enum i f t vs d t' v : nth_error gs i = Some f -> g_kind f = GEnum t vs d ->
    nth_error args i = Some (Some (PScalar t' v)) ->
    t' = t /\ In v vs /\ gen_get hr D (blen D - obj) f = Val (Some (GPlain (VEnum v))).
  Proof.
    intros Hf K Ha. destruct (reads_enum_raw _ _ _ _ _ _ _ _ Hf K Ha eq_refl) as (E & I & G). split; [exact E|]. split; [exact I|].
    unfold gen_get. rewrite K, G. cbn [bind check_required]. destruct (g_req f); reflexivity.
  Qed.

  Lemma reads_ref i f t o : nth_error gs i = Some f -> g_kind f = GRef (FUOffset t) ->
    nth_error args i = Some (Some (POffset o)) -> o <= start ->
    gen_get hr D (blen D - obj) f = let* v := follow hr t D (blen D - o) in Val (Some (GPlain v)).
  Proof.
    intros Hf K Ha Ho. unfold gen_get. rewrite K, (cr_offset _ _ _ _ _ _ _ C _ _ _ t None Hf Ha Ho).
    destruct (follow hr t D (blen D - o)); reflexivity.
  Qed.

  Lemma absent_get i f t : nth_error gs i = Some f -> nth_error args i = Some None ->
    table_get hr D (blen D - obj) (g_slot f) t None = Val None /\ g_req f = false.
  Proof.
    intros Hf Ha. split.
    - apply (cr_absent _ _ _ _ _ _ _ C i f None t None Hf Ha). intros x E. discriminate E.
    - pose proof (arg_of _ _ _ Hf Ha) as Ok. unfold arg_ok in Ok. destruct (g_kind f); try discriminate Ok;
        apply negb_true_iff in Ok; exact Ok.
  Qed.

  Lemma reads_absent i f t : nth_error gs i = Some f -> g_kind f = GRef t ->
    nth_error args i = Some None -> gen_get hr D (blen D - obj) f = Val None.
  Proof.
    intros Hf K Ha. destruct (absent_get _ _ t Hf Ha) as [G Q]. unfold gen_get. rewrite K, G, Q. reflexivity.
  Qed.

  (** The union accessor goes by the type field, the [j]-th. *)
  Lemma reads_union i f tslot tb tvs td arms j ft t n : nth_error gs i = Some f -> g_kind f = GUnion tslot tb tvs td arms ->
    nth_error gs j = Some ft -> g_slot ft = tslot -> g_kind ft = GEnum tb tvs td ->
    nth_error args j = Some (Some (PScalar t n)) ->
    (forall o u, nth_error args i = Some (Some (POffset o)) -> o <= start -> find_arm n arms = Some (FUOffset u) ->
       gen_get hr D (blen D - obj) f = let* v := follow hr u D (blen D - o) in Val (Some (GVariant n v))) /\
    (nth_error args i = Some None -> gen_get hr D (blen D - obj) f = Val None) /\
    (find_arm n arms = None -> gen_get hr D (blen D - obj) f = if g_req f then Err RequiredFieldMissing else Val None).
  Proof.
    intros Hf K Hj Sj Kj Hn. destruct (reads_enum_raw _ _ _ _ _ _ _ _ Hj Kj Hn eq_refl) as (E & I & G). rewrite Sj in G.
    unfold gen_get. rewrite K, G. cbn [bind check_required]. split; [|split].
    - intros o u Ha Ho Fa. rewrite Fa, (cr_offset _ _ _ _ _ _ _ C _ _ _ u None Hf Ha Ho).
      destruct (follow hr u D (blen D - o)); reflexivity.
    - intros Ha. destruct (find_arm n arms) as [t0|].
      + destruct (absent_get _ _ t0 Hf Ha) as [G0 Qr]. rewrite G0, Qr. reflexivity.
      + destruct (absent_get _ _ FStr Hf Ha) as [_ Qr]. rewrite Qr. reflexivity.
    - intros Fa. rewrite Fa. reflexivity.
  Qed.
End Reads.

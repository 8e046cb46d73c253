(** Where the generated [create] puts things in finished buffers. *)
From Coq Require Import ZArith List Bool Lia Strings.Byte ZifyBool ZifyNat ZifyN.
From Verif Require Import Base Scalar Utf8 Reader Client Raw Builder Ops SpecRaw SpecWire WireFacts SpecReader SpecBuilder BaseFacts ScalarFacts ReaderFacts
  ReaderProofs ReaderProofs3 Abstract Refine Refine2 Build1 Build2 Build3 Build4 Build5 Build6 Build7 Build8 BuilderProofs1 BuilderProofs2 BuilderProofs3 BuilderProofs4 BuilderProofs5 GrowthProofs RawProofs1 RawProofs3 RawProofs4
  Schema Codegen RawGen SpecGen SpecSeat RawProofs8 GenProofs1 GenProofs2.
Import ListNotations.
Local Open Scope Z_scope.

(** ** Vtables lie on even places *)
Lemma op_even o : op_slots o = true -> even_slots o.
Proof. destruct o; cbn [op_slots even_slots]; auto; unfold slot_fits; lia. Qed.
Lemma run_evens h c os : forall b b' xs, RawProofs3.fine c true b -> slots b -> evens true b -> calls_ok os = true ->
  run h b os = Val (b', xs) -> evens true b'.
Proof.
  induction os as [|o os IH]; intros b b' xs F SL EV O H; cbn [run] in H; [injection H as <- _; exact EV|].
  unfold calls_ok in O. cbn [forallb] in O. fold (calls_ok os) in O. repeat rewrite andb_true_iff in O. destruct O as [[O1 O2] O].
  apply bind_Val in H as ([b1 x] & H1 & H). apply bind_Val in H as ([b2 ys] & H2 & H). injection H as <- _.
  destruct (RawProofs4.step_keeps h c true (fun _ => True) (fun _ _ _ _ _ _ _ => Logic.I) (fun _ _ _ _ _ _ _ => Logic.I) (fun _ _ _ _ _ => Logic.I) _ _ _ _ F SL EV O1 (fun _ => op_even _ O2) H1) as (F1 & SL1 & EV1).
  eauto.
Qed.
Lemma program_evens h c os b xs : 0 <= c -> calls_ok os = true -> program h c os = Val (b, xs) ->
  Forall (fun x => x mod 2 = 0) (written_vtable_revpos b).
Proof.
  intros C O H. unfold program in H. apply bind_Val in H as (b0 & N & H). destruct (fit_new _ _ C N) as (F & SL & CB & _).
  assert (EV : evens true b).
  { eapply run_evens; [| | |exact O|exact H].
    - split; [exact F|]. intros _. rewrite CB. apply doubles_refl.
    - exact SL.
    - intros _. unfold new_with_capacity in N. apply bind_Val in N as (? & _ & N). injection N as <-. split; constructor. }
  apply EV. reflexivity.
Qed.

Lemma vtable_even h hr c os s later obj xs zs b :
  0 <= c -> calls_ok (os ++ [OpEndTable s] ++ later) = true -> no_reset later = true ->
  program h c (os ++ [OpEndTable s] ++ later) = Val (b, xs ++ [ONum obj] ++ zs) -> length xs = length os ->
  blen (unfinished_data b) < 2 ^ 31 ->
  let D := unfinished_data b in
  exists vr, table_vtable hr D (blen D - obj) = Val (blen D - vr) /\ vr mod 2 = 0.
Proof.
  intros Hc Hok Hr H Lx L D. rewrite !calls_ok_app in Hok. repeat rewrite andb_true_iff in Hok. destruct Hok as (OkA & OkE & OkC).
  rewrite app_assoc in H. apply program_split in H as (b1 & xs1 & r1 & HB & H & E1 & L1).
  pose proof HB as HB'. apply program_split in HB' as (b0 & xs0 & r0 & HA & HE & E0 & L0). apply run_one in HE as (r & HE & ->).
  assert (r = ONum obj).
  { subst xs1. rewrite <- app_assoc in E1. apply app_len_inj in E1 as [_ E1]; [|congruence]. cbn [app] in E1. congruence. }
  subst r. pose proof (program_vgood _ _ _ _ _ Hc OkA HA) as V0.
  assert (OkE' : op_ok (OpEndTable s) = true) by (unfold calls_ok in OkE; cbn [forallb op_slots] in OkE; rewrite !andb_true_r in OkE; exact OkE).
  assert (Oc : calls_ok (os ++ [OpEndTable s]) = true) by (rewrite calls_ok_app, OkA; exact OkE).
  pose proof (program_evens _ _ _ _ _ Hc Oc HB) as Ev. pose proof (program_vgood _ _ _ _ _ Hc Oc HB) as [[I1 _] _].
  apply calls_ok_split in OkC as [OkC _].
  assert (L32 : blen D < 2 ^ 32) by (unfold D; clear - L; lia).
  pose proof (run_grows _ _ _ _ _ I1 OkC Hr H L32) as G. pose proof (grows_blen _ _ G) as GL. cbn [view a_data] in GL.
  destruct G as ((p & EP) & _). cbn [view a_data] in EP. fold D in EP, GL.
  destruct (end_table_facts _ _ _ _ _ V0 OkE' HE ltac:(clear - GL L32; lia)) as (vr & vt & T & Iv & _).
  exists vr. split.
  - apply (table_at_app p) in T. rewrite <- EP in T. eapply table_at_vtable; eauto.
  - rewrite Forall_forall in Ev. auto.
Qed.

(** ** Tables of generated code *)
Record Seated (hr : host) (D : list byte) (tab : Z) (gs : list gfield) (args : list garg) : Prop := {
  st_tab : 0 <= tab < 2 ^ 31 /\ tab mod 4 = 0;
  st_fields : exists vt, table_vtable hr D tab = Val vt /\ vt mod 2 = 0 /\
    forall i g a e, nth_error gs i = Some g -> nth_error args i = Some a -> vt_get hr D vt (g_slot g) = Val (Some e) -> e <> 0 ->
      exists x, a = Some x /\ (tab + e) mod natural (pty_of x) = 0
}.

Lemma create_seated h hr c before xs b0 gs args b1 obj later root ident sp b zs :
  0 <= c -> calls_ok before = true -> closed before = true -> program h c before = Val (b0, xs) ->
  fields_wf 0 gs -> blen gs <= 32765 -> args_ok gs args = true ->
  gen_create h b0 gs args = Val (b1, obj) ->
  calls_ok (later ++ [OpFinish root ident sp]) = true -> no_reset later = true ->
  run h b1 (later ++ [OpFinish root ident sp]) = Val (b, zs) ->
  blen (unfinished_data b) < 2 ^ 31 ->
  debug h = true \/ obj - blen (unfinished_data b0) < 2 ^ 16 -> ident_fits h ident ->
  let D := unfinished_data b in
  Seated hr D (blen D - obj) gs args.
Proof.
  intros Hc Ho Hcl H Wf Hn A G Hl Hr R L S Hi D.
  assert (Hr' : no_reset (later ++ [OpFinish root ident sp]) = true) by (rewrite no_reset_app, Hr; reflexivity).
  destruct (create_program _ _ _ _ _ _ _ _ _ _ _ _ Hc Ho H Wf Hn A G Hl Hr' R L) as (ys & zs' & Lx & Ly & K & N & Hs & P).
  assert (S' : debug h = true \/ obj - blen (unfinished_data b0) < 2 ^ 16 /\ NoDup (map fst (added (add_ops gs args)))).
  { destruct S as [S|S]; [left; exact S|right; split; [exact S|eapply added_nodup; eauto]]. }
  set (start := blen (unfinished_data b0)) in *. set (mid := add_ops gs args) in *.
  destruct (table_program_facts _ _ _ _ _ _ _ _ _ _ _ Hc K Hcl (add_ops_in_table _ _) N P Lx Ly ltac:(clear - L; lia))
    as (size & vr0 & vt0 & fs & T & _ & _ & _ & _ & _ & _ & _ & _ & Hst & Hob & HoL). fold D in HoL.
  assert (Nq : no_reset (required_ops obj gs ++ later) = true) by (rewrite no_reset_app, required_ops_no_reset; exact Hr).
  assert (E : table_program before mid start (required_ops obj gs ++ later ++ [OpFinish root ident sp]) =
    (before ++ [OpStartTable] ++ mid) ++ [OpEndTable start] ++ (required_ops obj gs ++ later) ++ [OpFinish root ident sp]).
  { unfold table_program. rewrite <- !app_assoc. reflexivity. }
  assert (E2 : xs ++ [ONum start] ++ ys ++ [ONum obj] ++ zs' = (xs ++ [ONum start] ++ ys) ++ [ONum obj] ++ zs') by (rewrite <- !app_assoc; reflexivity).
  assert (L2 : length (xs ++ [ONum start] ++ ys) = length (before ++ [OpStartTable] ++ mid)) by (rewrite !app_length; cbn [length]; lia).
  assert (Mt : (blen D - obj) mod 4 = 0 /\ blen D mod 4 = 0).
  { pose proof K as K'. apply calls_ok_split in K' as [K' _]. rewrite E in K'. pose proof P as P'. rewrite E, E2 in P'.
    destruct (objects_aligned h c _ _ _ _ _ _ _ _ _ _ Hc K' Nq P' L2 ltac:(clear - L; lia) Hi) as [M0 M].
    split; [apply M; left; reflexivity|exact M0]. }
  destruct Mt as [Mt Md].
  assert (Ev : exists vr, table_vtable hr D (blen D - obj) = Val (blen D - vr) /\ vr mod 2 = 0).
  { pose proof K as K'. rewrite E in K'. pose proof P as P'. rewrite E, E2 in P'.
    apply (vtable_even h hr c (before ++ [OpStartTable] ++ mid) start ((required_ops obj gs ++ later) ++ [OpFinish root ident sp]) obj (xs ++ [ONum start] ++ ys) zs' b); auto.
    rewrite no_reset_app, Nq. reflexivity. }
  destruct Ev as (vr & Ev & Mv).
  assert (Lt : 0 <= blen D - obj < 2 ^ 31) by (clear - HoL Hob Hst L; fold D in L; lia).
  constructor; [split; [exact Lt|exact Mt]|]. exists (blen D - vr). split; [exact Ev|]. split.
  { rewrite Zminus_mod, Mv. assert (X : blen D mod 2 = 0).
    { rewrite (Znumtheory.Zmod_div_mod 2 4); [rewrite Md; reflexivity|lia|lia|exists 2; reflexivity]. }
    rewrite X. reflexivity. }
  intros i g a e Hg Ha Ge Ne. destruct (added_here _ _ _ _ _ _ Wf Hg Ha) as [In1 In2]. fold mid in In1, In2.
  destruct (table_slot h hr _ _ _ _ _ _ _ _ _ _ Hc K Hcl (add_ops_in_table _ _) N P Lx Ly L S') as [_ Q]. fold D in Q.
  destruct (Wf _ _ Hg) as [Sg _]. assert (Bi : (i < length gs)%nat) by (apply nth_error_Some; congruence).
  assert (X : (exists x, a = Some x /\ stored g x = true) \/ forall x, a = Some x -> stored g x = false).
  { destruct a as [x|]; [|right; intros ? C; discriminate C]. destruct (stored g x) eqn:Sx; [left; eauto|right; intros ? C; injection C as <-; exact Sx]. }
  destruct X as [(x & -> & Sx)|X].
  - exists x. split; [reflexivity|]. rewrite app_assoc in P, K.
    destruct (fields_aligned h hr c before mid start (required_ops obj gs ++ later) root ident sp obj xs ys zs' b Hc K Hcl (add_ops_in_table _ _) Nq P Lx Ly L S' Hi (g_slot g) x (In1 _ eq_refl Sx))
      as (vt & e' & V1 & V2 & _ & M). fold D in V1, V2, M. rewrite Ev in V1. injection V1 as <-. rewrite Ge in V2. injection V2 as <-. exact M.
  - specialize (In2 X). destruct (Q (g_slot g)) as [(vt & vo & V1 & V2 & V3) _]; auto.
    + rewrite Sg. unfold blen in Hn. clear - Bi Hn. lia.
    + rewrite Sg. apply slot_even.
    + rewrite Ev in V1. injection V1 as <-. rewrite Ge in V2. injection V2 as <-. destruct V3 as [V3|V3]; [discriminate V3|]. injection V3 as V3. contradiction.
Qed.

(** ** Generated accessors *)
Lemma al_gen_plain hr D tab g t d :
  (g_kind g = GRef t /\ d = None \/ (exists s d', g_kind g = GScalar s d' /\ t = FScalar s /\ d = option_map VScalar d') \/
   exists s vs d', g_kind g = GEnum s vs d' /\ t = FEnum s vs /\ d = option_map VEnum d') ->
  runs aligned eq (r_table_get hr (whole_of D) tab (g_slot g) t d) (table_get hr D tab (g_slot g) t d) ->
  runs aligned eq (r_gen_get hr (whole_of D) tab g) (gen_get hr D tab g).
Proof.
  intros K R. unfold r_gen_get, gen_get. destruct K as [[-> ->]|[(s & d' & -> & -> & ->)|(s & vs & d' & -> & -> & ->)]];
  (eapply runs_bind; [exact R|]; intros v ? <- _; go_let; apply runs_same).
Qed.
Lemma al_gen_union hr D tab g tslot tb tvs td arms : g_kind g = GUnion tslot tb tvs td arms ->
  runs aligned eq (r_table_get hr (whole_of D) tab tslot (FEnum tb tvs) (option_map VEnum td)) (table_get hr D tab tslot (FEnum tb tvs) (option_map VEnum td)) ->
  (forall n t, table_get hr D tab tslot (FEnum tb tvs) (option_map VEnum td) = Val (Some (VEnum n)) -> find_arm n arms = Some t ->
     runs aligned eq (r_table_get hr (whole_of D) tab (g_slot g) t None) (table_get hr D tab (g_slot g) t None)) ->
  runs aligned eq (r_gen_get hr (whole_of D) tab g) (gen_get hr D tab g).
Proof.
  intros K R1 R2. unfold r_gen_get, gen_get. rewrite K. eapply runs_bind; [exact R1|]. intros v ? <- E. apply runs_let. intros ty Ty.
  destruct ty as [[]|]; try apply runs_same. destruct (find_arm _ _) as [t|] eqn:Fa; [|apply runs_same].
  eapply runs_bind; [apply (R2 v0 t); [|exact Fa]|].
  - destruct v as [v|]; cbn [check_required] in Ty; [congruence|]. destruct (g_req g); discriminate Ty.
  - intros w ? <- _. go_let. apply runs_same.
Qed.

Lemma reads_table hr D gs0 xs0 loc :
  (forall i g x, nth_error gs0 i = Some g -> nth_error xs0 i = Some x ->
     runs aligned eq (r_gen_get hr (whole_of D) loc g) (gen_get hr D loc g) /\
     forall v, gen_get hr D loc g = Val (Some v) -> reads_aligned hr D x (gval_value v)) ->
  reads_aligned hr D (TreeTable gs0 xs0) (VTable loc).
Proof.
  cbn [reads_aligned]. revert gs0. induction xs0 as [|x xs IH]; intros [|g gs] H; auto.
  destruct (H O g x eq_refl eq_refl) as [A B]. split; [eapply runs_did; eauto|]. split.
  - intros v E. apply B. rewrite <- (runs_eq _ _ _ A). exact E.
  - apply IH. intros i. exact (H (S i)).
Qed.
Lemma reads_vec hr D t xs e loc : blen D < 2 ^ 31 -> 0 <= loc < 2 ^ 31 -> loc mod 4 = 0 -> le_at D loc 4 (blen xs) -> 0 < size_of e ->
  (forall s, e = FScalar s -> (loc + 4) mod ssize s = 0) ->
  (forall i x, nth_error xs i = Some x ->
     let at_ := loc + 4 + size_of e * Z.of_nat i in
     runs aligned eq (r_follow hr e (whole_of D) at_) (follow hr e D at_) /\
     forall v, follow hr e D at_ = Val v -> reads_aligned hr D x v) ->
  reads_aligned hr D (TreeVec t xs) (VVector e loc).
Proof.
  intros LD U M Le Se Sl H.
  assert (C : forall i, 0 <= i < blen xs -> runs aligned eq (r_follow hr e (whole_of D) (loc + 4 + size_of e * i)) (follow hr e D (loc + 4 + size_of e * i))).
  { intros i I. destruct (nth_error xs (Z.to_nat i)) as [x|] eqn:X.
    - destruct (H _ _ X) as [A _]. rewrite Z2Nat.id in A by lia. exact A.
    - apply nth_error_None in X. unfold blen in I. lia. }
  cbn [reads_aligned]. split; [eapply runs_did; eapply al_len; eauto|].
  split; [intros cs F; eapply al_iter; eauto|]. split; [intros s E; eapply al_slice; eauto|].
  assert (G : forall i, 0 <= i < blen xs -> runs aligned eq (r_vec_get hr e (whole_of D) loc i) (follow hr e D (loc + 4 + size_of e * i))).
  { intros i I. rewrite <- (vec_get_cell hr e D loc (blen xs) i Le I Se ltac:(lia)). eapply al_vec_get; eauto. }
  assert (K : forall ys i, 0 <= i -> i + blen ys = blen xs -> (forall j x, nth_error ys j = Some x -> nth_error xs (Z.to_nat i + j) = Some x) ->
    (fix all (i : Z) (xs : list tree) {struct xs} : Prop :=
         match xs with
         | [] => True
         | x :: xs =>
             Forall aligned (did (r_vec_get hr e (whole_of D) loc i)) /\
             (forall v, result (r_vec_get hr e (whole_of D) loc i) = Val v -> reads_aligned hr D x v) /\
             all (i + 1) xs
         end) i ys).
  { induction ys as [|y ys IH]; intros i I E N; [exact Logic.I|]. rewrite blen_cons in E. pose proof (blen_nonneg ys).
    pose proof (G i ltac:(lia)) as Gi. split; [eapply runs_did; eauto|]. split.
    - intros v V. rewrite (runs_eq _ _ _ Gi) in V. specialize (N O y eq_refl). rewrite Nat.add_0_r in N.
      destruct (H _ _ N) as [_ B]. rewrite Z2Nat.id in B by lia. apply B. exact V.
    - apply IH; [lia|lia|]. intros j x J. replace (Z.to_nat (i + 1) + j)%nat with (Z.to_nat i + S j)%nat by lia. apply N. exact J. }
  apply K; [lia|lia|]. intros j x J. exact J.
Qed.

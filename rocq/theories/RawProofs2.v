(** The accesses of whole client programs. *)
From Coq Require Import ZArith List Bool Lia Strings.Byte ZifyBool ZifyNat ZifyN.
From Verif Require Import Base Scalar Utf8 Reader Client Raw SpecRaw SpecWire BaseFacts ScalarFacts ReaderFacts RawProofs1.
Import ListNotations.
Local Open Scope Z_scope.

Lemma follow_usize h t : forall s loc v, usize_ok loc -> follow h t s loc = Val v -> fval_ok v.
Proof.
  induction t; intros s loc v V E; cbn [follow] in E;
    try solve [injection E as <-; exact V];
    try solve [repeat (apply bind_Val in E as (? & _ & E)); injection E as <-; exact I].
  - destruct t; apply bind_Val in E as (? & _ & E); injection E as <-; exact I.
  - do 3 apply bind_Val in E as (? & _ & E). apply bind_Val in E as (l & L & E). apply usize_range in L. eauto.
  - do 3 apply bind_Val in E as (? & _ & E). apply bind_Val in E as (l & L & E). apply usize_range in L. eauto.
  - do 3 apply bind_Val in E as (? & _ & E). apply bind_Val in E as (l & L & E). eapply IHt; [|exact E]. apply i32_usize.
  - apply bind_Val in E as (l & L & E). apply usize_range in L. eauto.
  - apply bind_Val in E as (l & L & E). apply usize_range in L. eauto.
  - apply bind_Val in E as (l & L & E). apply usize_range in L. eauto.
  - apply bind_Val in E as (? & _ & E). destruct (existsb _ _); [|discriminate]. injection E as <-. exact I.
Qed.

Lemma iter_next_usize h t s it x it' v : usize_ok (it_loc it) -> iter_next h t s it = Val (x, it') -> x = Some (Val v) -> fval_ok v.
Proof.
  intros V E ->. unfold iter_next in E. apply bind_Val in E as (? & _ & E). destruct (_ =? 0); [discriminate|].
  destruct (follow _ _ _ _) eqn:F; try discriminate; do 2 apply bind_Val in E as (? & _ & E); injection E as E _; [|discriminate].
  subst. eapply follow_usize; eauto.
Qed.
Lemma iter_back_usize h t s it x it' v : iter_next_back h t s it = Val (x, it') -> x = Some (Val v) -> fval_ok v.
Proof.
  intros E ->. unfold iter_next_back in E. apply bind_Val in E as (? & _ & E). destruct (_ =? 0); [discriminate|].
  do 2 apply bind_Val in E as (? & _ & E). apply bind_Val in E as (l & L & E). apply usize_range in L.
  destruct (follow _ _ _ _) eqn:F; try discriminate. injection E as E _.
  subst. eapply follow_usize; eauto.
Qed.
Lemma iter_call_usize h t s c it x it' v : usize_ok (it_loc it) -> iter_call h t s c it = Val (x, it') -> x = Some (Val v) -> fval_ok v.
Proof.
  intros V E X. destruct c; cbn [iter_call] in E.
  - eapply iter_next_usize; eauto.
  - eapply iter_back_usize; eauto.
  - unfold iter_nth in E. do 2 apply bind_Val in E as (? & _ & E). eapply iter_next_usize; [|exact E|exact X]. apply mod_usize_ok.
  - unfold iter_nth_back in E. eapply iter_back_usize; eauto.
Qed.
Lemma iter_calls_usize h t s cs : forall it xs it', usize_ok (it_loc it) -> iter_calls h t s cs it = Val (xs, it') -> Forall fval_ok (item_vals xs).
Proof.
  induction cs as [|c cs IH]; intros it xs it' V E; cbn [iter_calls] in E.
  - injection E as <- <-. constructor.
  - apply bind_Val in E as ([x i1] & C & E). apply bind_Val in E as ([ys i2] & E1 & E). injection E as <- <-.
    pose proof (IH _ _ _ (iter_call_loc _ _ _ _ _ _ _ V C) E1) as F. destruct x as [[v|e|]|]; cbn [item_vals]; auto.
    constructor; auto. eapply iter_call_usize; eauto.
Qed.

Lemma handle_ok hs i v : Forall fval_ok hs -> nth_error hs i = Some v -> fval_ok v.
Proof. intros F E. rewrite Forall_forall in F. eapply F, nth_error_In, E. Qed.

Lemma exec_usize h s hs c new : Forall fval_ok hs -> typed c -> exec h s hs c = Val new -> Forall fval_ok new.
Proof.
  intros F T E. destruct c; cbn [exec typed] in *; unfold on_table, on_vtable, on_vector in E;
    try (destruct (nth_error hs i) as [[]|] eqn:N; try (injection E as <-; solve [constructor]); pose proof (handle_ok _ _ _ F N) as V; cbn in V);
    try solve [repeat (apply bind_Val in E as (? & _ & E)); injection E as <-; constructor].
  - apply bind_Val in E as (v & E1 & E). injection E as <-. constructor; [eapply follow_usize; eauto|constructor].
  - apply bind_Val in E as (v & E1 & E). injection E as <-. constructor; [|constructor].
    unfold get_root in E1. eapply follow_usize; [|exact E1]. apply zero_usize.
  - apply bind_Val in E as (v & E1 & E). injection E as <-. constructor; [|constructor].
    unfold get_size_prefixed_root in E1. eapply follow_usize; [|exact E1]. apply zero_usize.
  - apply bind_Val in E as (o & E1 & E). injection E as <-. unfold table_get in E1.
    apply bind_Val in E1 as (vt & _ & E1). apply bind_Val in E1 as (vo & _ & E1).
    assert (D : Forall fval_ok (opt_list default)) by (destruct default; constructor; [auto|constructor]).
    destruct vo as [off|]; [|injection E1 as <-; exact D]. destruct (off =? 0); [injection E1 as <-; exact D|].
    apply bind_Val in E1 as (l & L & E1). apply usize_range in L. apply bind_Val in E1 as (v & E2 & E1). injection E1 as <-.
    constructor; [eapply follow_usize; [|exact E2]; exact L|constructor].
  - apply bind_Val in E as (v & E1 & E). injection E as <-. constructor; [|constructor]. eapply table_vtable_usize; eauto.
  - apply bind_Val in E as (v & E1 & E). injection E as <-. constructor; [|constructor]. unfold vec_get in E1.
    apply bind_Val in E1 as (? & _ & E1). do 3 apply bind_Val in E1 as (? & _ & E1). apply bind_Val in E1 as (l & L & E1).
    apply usize_range in L. eapply follow_usize; [|exact E1]. exact L.
  - apply bind_Val in E as (it & E1 & E). apply bind_Val in E as ([xs it'] & E2 & E). injection E as <-.
    unfold vec_iter in E1. apply bind_Val in E1 as (? & _ & E1). apply bind_Val in E1 as (l & L & E1). apply usize_range in L. injection E1 as <-.
    eapply iter_calls_usize; [|exact E2]. exact L.
Qed.

Ltac by_runs L := eapply runs_bind; [apply L; auto|]; intros ? ? <- _; apply runs_same.
Lemma exec_runs h r hs c : rok r -> Forall fval_ok hs -> typed c ->
  runs (inside r) eq (r_exec h r hs c) (exec h (contents r) hs c).
Proof.
  intros K F T. destruct c; cbn [r_exec exec typed] in *; unfold r_on_table, r_on_vtable, r_on_vector, on_table, on_vtable, on_vector;
    try (destruct (nth_error hs i) as [[]|] eqn:N; try apply runs_same; pose proof (handle_ok _ _ _ F N) as V; cbn in V).
  - by_runs follow_runs.
  - unfold r_get_root, get_root. eapply runs_bind; [apply follow_runs; auto using zero_usize|]; intros ? ? <- _; apply runs_same.
  - unfold r_get_size_prefixed_root, get_size_prefixed_root. eapply runs_bind; [apply follow_runs; auto using zero_usize|]; intros ? ? <- _; apply runs_same.
  - by_runs ident_runs.
  - by_runs table_get_runs.
  - by_runs table_vtable_runs.
  - by_runs num_fields_runs.
  - unfold r_vt_num_bytes, vt_num_bytes. by_runs read_at_inside.
  - by_runs object_runs.
  - by_runs get_field_runs.
  - by_runs vt_get_runs.
  - eapply runs_bind; [apply as_bytes_runs; auto|]. intros ? ? _ _. apply runs_same.
  - unfold r_vec_len, vec_len. by_runs read_at_inside.
  - unfold r_vec_is_empty, vec_is_empty, r_vec_len, vec_len. eapply runs_bind with (R := eq); [by_runs read_at_inside|]. intros ? ? <- _. apply runs_same.
  - by_runs vec_get_runs.
  - by_runs slice_helper_runs.
  - eapply runs_bind; [apply vec_iter_runs; auto|]. intros it ? <- E. eapply runs_bind.
    + apply iter_calls_runs; auto. unfold vec_iter in E. apply bind_Val in E as (? & _ & E). apply bind_Val in E as (l & L & E).
      apply usize_range in L. injection E as <-. exact L.
    + intros [xs it'] ? <- _. apply runs_same.
Qed.

Lemma client_runs h r cs : forall hs, rok r -> Forall fval_ok hs -> Forall typed cs ->
  runs (inside r) eq (r_client h r hs cs) (client h (contents r) hs cs).
Proof.
  induction cs as [|c cs IH]; intros hs K F T; cbn [r_client client]; [apply runs_same|].
  inversion T as [|? ? T1 T2]; subst.
  apply (runs_then (inside r) eq eq (r_exec h r hs c) (exec h (contents r) hs c) _
    (fun o => match o with Val new => client h (contents r) (hs ++ new) cs | Err _ => client h (contents r) hs cs | Panic => Panic end)
    (exec_runs h r hs c K F T1)).
  intros u v S E. destruct u, v; cbn in S; try contradiction; subst.
  - apply IH; auto. apply Forall_app. split; auto. eapply exec_usize; eauto.
  - apply IH; auto.
  - apply runs_same.
Qed.

(** The statements. *)
Lemma client_same h r cs : is_slice r -> Forall typed cs ->
  result (r_client h r [] cs) = client h (contents r) [] cs.
Proof. intros K T. apply (runs_eq (inside r)). apply client_runs; auto. Qed.
Lemma client_in_part h r cs : is_slice r -> Forall typed cs ->
  Forall (fun a => in_bounds a /\ in_part (from r) (upto r) a) (did (r_client h r [] cs)).
Proof.
  intros K T. eapply Forall_impl; [|apply (runs_did (inside r) eq _ (client h (contents r) [] cs)); apply client_runs; auto].
  destruct K as [K1 K2]. intros [k t at_ n room|]; cbn; lia.
Qed.

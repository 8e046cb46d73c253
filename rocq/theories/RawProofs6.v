(** Which accesses of the reader are of type [bool], and some that are not
    aligned. *)
From Coq Require Import ZArith List Bool Lia Strings.Byte ZifyBool ZifyNat ZifyN.
From Verif Require Import Base Scalar Utf8 Reader Client Raw SpecRaw SpecWire BaseFacts ScalarFacts ReaderFacts RawProofs1.
Import ListNotations.
Local Open Scope Z_scope.

Definition not_bool (a : access) : Prop := match a with Access _ TBool _ _ _ => False | _ => True end.
Definition safe {A} (Q : A -> Prop) (x : traced A) : Prop := Forall not_bool (did x) /\ forall v, result x = Val v -> Q v.

Lemma safe_quiet {A} (Q : A -> Prop) o : (forall v, o = Val v -> Q v) -> safe Q (quiet o).
Proof. split; [constructor|assumption]. Qed.
Lemma safe_any {A} o : safe (fun _ : A => True) (quiet o).
Proof. split; [constructor|auto]. Qed.
Lemma safe_then {A B} (R : A -> Prop) (Q : B -> Prop) x f : safe R x -> (forall o, (forall v, o = Val v -> R v) -> safe Q (f o)) -> safe Q (tthen x f).
Proof. intros [H1 H2] K. destruct (K (result x) H2) as [K1 K2]. split; [apply Forall_app; auto|exact K2]. Qed.
Lemma safe_bind {A B} (R : A -> Prop) (Q : B -> Prop) x f : safe R x -> (forall v, R v -> safe Q (f v)) -> safe Q (tbind x f).
Proof.
  intros H K. eapply safe_then; [exact H|]. intros [v|e|] G; [apply K, G; reflexivity| |]; (split; [constructor|discriminate]).
Qed.
Lemma safe_weak {A} (Q : A -> Prop) x : safe Q x -> safe (fun _ => True) x.
Proof. intros [H _]. split; auto. Qed.
Ltac pure := eapply safe_bind; [apply safe_any|intros ? _; cbv beta].

Lemma safe_read h t r : t <> TBool -> safe (fun _ => True) (r_read_scalar h t r).
Proof.
  intros T. unfold r_read_scalar. pure. eapply safe_bind with (R := fun _ => True); [|intros ? _; apply safe_any].
  split; [|auto]. constructor; [|constructor]. destruct t; cbn; auto.
Qed.
Lemma safe_read_at h t r loc : t <> TBool -> safe (fun _ => True) (r_read_scalar_at h t r loc).
Proof. intros T. unfold r_read_scalar_at. pure. pure. apply safe_read; auto. Qed.
Ltac rd := eapply safe_bind; [first [apply safe_read_at; discriminate|apply safe_read; discriminate]|intros ? _; cbv beta].
Lemma safe_slice h t r loc : t <> TBool -> safe (fun _ => True) (r_follow_slice_helper h t r loc).
Proof.
  intros T. unfold r_follow_slice_helper. pure. rd. do 4 pure. split; [|auto]. constructor; [|constructor]. destruct t; cbn; auto.
Qed.
Lemma safe_str h r loc : safe (fun _ => True) (r_follow_str h r loc).
Proof.
  unfold r_follow_str. rd. pure. pure. destruct (_ <=? _); [apply safe_any|]. pure. destruct (negb _); [apply safe_any|]. pure. destruct (utf8_valid _); apply safe_any.
Qed.
Lemma safe_follow h t : forall r loc, no_bools t -> safe no_bool_value (r_follow h t r loc).
Proof.
  assert (V : forall A (x : A) (f : A -> fval), (forall x, no_bool_value (f x)) -> safe no_bool_value (quiet (Val (f x)))).
  { intros A x f F. apply safe_quiet. intros v [= <-]. apply F. }
  induction t; intros r loc N; cbn [r_follow no_bools] in *.
  - destruct t; (rd; apply safe_quiet; intros o9 E9; injection E9 as <-; exact I).
  - eapply safe_bind; [apply safe_str|]. intros ? _. apply (V _ _ VStr). exact (fun _ => I).
  - eapply safe_bind; [apply safe_slice; auto|]. intros ? _. apply (V _ _ VSlice). exact (fun _ => I).
  - apply safe_quiet. intros o9 E9; injection E9 as <-. exact N.
  - apply safe_quiet. intros o9 E9; injection E9 as <-. exact I.
  - apply safe_quiet. intros o9 E9; injection E9 as <-. exact I.
  - pure. pure. rd. pure. auto.
  - pure. pure. rd. pure. auto.
  - pure. pure. rd. pure. auto.
  - pure. auto.
  - pure. auto.
  - pure. auto.
  - pure. pure. apply safe_quiet. intros o9 E9; injection E9 as <-. exact I.
  - eapply safe_bind; [apply safe_read_at; auto|]. intros x _. apply safe_quiet. intros ? E. destruct (existsb _ _); [|discriminate]. injection E as <-. exact I.
Qed.
Lemma safe_vtable h r tab : safe (fun _ => True) (r_table_vtable h r tab).
Proof. unfold r_table_vtable. eapply safe_bind; [apply safe_follow; exact I|]. intros ? _. apply safe_any. Qed.
Lemma safe_vt_get h r vt s : safe (fun _ => True) (r_vt_get h r vt s).
Proof. unfold r_vt_get, r_vt_num_bytes. rd. destruct (_ <=? s); [apply safe_any|]. pure. rd. apply safe_any. Qed.
Definition opt_ok (o : option fval) : Prop := forall v, o = Some v -> no_bool_value v.
Definition item_ok (x : iter_item) : Prop := forall v, x = Some (Val v) -> no_bool_value v.
Lemma safe_get h r tab s t d : no_bools t -> opt_ok d -> safe opt_ok (r_table_get h r tab s t d).
Proof.
  intros T D. unfold r_table_get. eapply safe_bind; [apply safe_vtable|intros vt _]. eapply safe_bind; [apply safe_vt_get|intros [off|] _].
  - destruct (off =? 0); [apply safe_quiet; intros o9 E9; injection E9 as <-; exact D|]. pure. eapply safe_bind; [apply safe_follow; exact T|]. intros u V. apply safe_quiet.
    intros o E9. injection E9 as <-. intros w E9. injection E9 as <-. exact V.
  - apply safe_quiet. intros o9 E9; injection E9 as <-. exact D.
Qed.
Lemma safe_next h t r it : no_bools t -> safe (fun p => item_ok (fst p)) (r_iter_next h t r it).
Proof.
  intros T. unfold r_iter_next. pure. destruct (_ =? 0); [apply safe_quiet; intros o9 E9; injection E9 as <-; discriminate|].
  eapply safe_then; [apply safe_follow; exact T|]. intros [vv|e|] V.
  - pure. pure. apply safe_quiet. intros o E. injection E as <-. cbn. intros w E. injection E as <-. apply V. reflexivity.
  - pure. pure. apply safe_quiet. intros o E. injection E as <-. cbn. intros w E. discriminate E.
  - split; [constructor|discriminate].
Qed.
Lemma safe_back h t r it : no_bools t -> safe (fun p => item_ok (fst p)) (r_iter_next_back h t r it).
Proof.
  intros T. unfold r_iter_next_back. pure. destruct (_ =? 0); [apply safe_quiet; intros o9 E9; injection E9 as <-; discriminate|]. do 3 pure.
  eapply safe_then; [apply safe_follow; exact T|]. intros [vv|e|] V.
  - apply safe_quiet. intros o E. injection E as <-. cbn. intros w E. injection E as <-. apply V. reflexivity.
  - apply safe_quiet. intros o E. injection E as <-. cbn. intros w E. discriminate E.
  - split; [constructor|discriminate].
Qed.
Lemma safe_calls h t r cs : no_bools t -> forall it, safe (fun p => Forall no_bool_value (item_vals (fst p))) (r_iter_calls h t r cs it).
Proof.
  intros T. induction cs as [|c cs IH]; intros it; cbn [r_iter_calls]; [apply safe_quiet; intros o9 E9; injection E9 as <-; constructor|].
  eapply safe_bind with (R := fun p => item_ok (fst p)).
  - destruct c; cbn [r_iter_call]; unfold r_iter_nth, r_iter_nth_back; try (pure; pure); first [apply safe_next; exact T|apply safe_back; exact T].
  - intros [x it'] X. eapply safe_bind; [apply IH|]. intros [xs it2] F. apply safe_quiet. intros o9 E9; injection E9 as <-. cbn [fst item_vals] in *.
    destruct x as [[v|e|]|]; auto.
Qed.
Lemma safe_handle hs i v : Forall no_bool_value hs -> nth_error hs i = Some v -> no_bool_value v.
Proof. intros F E. rewrite Forall_forall in F. eapply F, nth_error_In, E. Qed.
Lemma safe_nil : safe (Forall no_bool_value) (quiet (Val [])).
Proof. apply safe_quiet. intros o9 E9; injection E9 as <-. constructor. Qed.
Lemma safe_one {A} (Q : A -> Prop) (f : A -> fval) x : safe Q x -> (forall v, Q v -> no_bool_value (f v)) -> safe (Forall no_bool_value) (let+ v := x in quiet (Val [f v])).
Proof. intros S F. eapply safe_bind; [exact S|]. intros v V. apply safe_quiet. intros o9 E9; injection E9 as <-. auto. Qed.
Lemma safe_exec h r hs c : Forall no_bool_value hs -> no_bool_slice c -> safe (Forall no_bool_value) (r_exec h r hs c).
Proof.
  intros F N. assert (D : forall A (x : traced A), safe (fun _ => True) x -> safe (Forall no_bool_value) (let+ _ := x in quiet (Val []))).
  { intros A x S. eapply safe_bind; [exact S|]. intros _ _. apply safe_nil. }
  destruct c; cbn [r_exec no_bool_slice] in *; unfold r_on_table, r_on_vtable, r_on_vector;
    try (destruct (nth_error hs i) as [[]|] eqn:E; try apply safe_nil; pose proof (safe_handle _ _ _ F E) as V; cbn in V).
  - apply (safe_one no_bool_value (fun v => v)); auto using safe_follow.
  - apply (safe_one no_bool_value (fun v => v)); [|auto]. apply (safe_follow h (FUOffset t)). exact N.
  - apply (safe_one no_bool_value (fun v => v)); [|auto]. apply (safe_follow h (FSkipSizePrefix (FUOffset t))). exact N.
  - apply D. unfold r_buffer_has_identifier. pure. eapply safe_bind; [apply safe_follow; destruct size_prefixed; exact I|]. intros ? _. apply safe_any.
  - eapply safe_bind; [apply safe_get; [exact (proj1 N)|exact (proj2 N)]|]. intros [v|] O; apply safe_quiet; intros o9 E9; injection E9 as <-; cbn; [|constructor]. constructor; [apply O; reflexivity|constructor].
  - apply (safe_one (fun _ => True) VVTable); [apply safe_vtable|auto].
  - apply D. unfold r_vt_num_fields, r_vt_num_bytes. rd. apply safe_any.
  - apply D. unfold r_vt_num_bytes, r_vec_len. apply safe_read_at. discriminate.
  - apply D. unfold r_vt_object_inline_num_bytes. pure. apply safe_read_at. discriminate.
  - apply D. unfold r_vt_get_field, r_vt_num_fields, r_vt_num_bytes. eapply safe_bind with (R := fun _ => True); [rd; apply safe_any|intros ? _]. destruct (_ <? idx); [apply safe_any|]. do 4 pure. rd. apply safe_any.
  - apply D. apply safe_vt_get.
  - apply D. unfold r_vt_as_bytes, r_vt_num_bytes. rd. pure. apply safe_any.
  - apply D. unfold r_vt_num_bytes, r_vec_len. apply safe_read_at. discriminate.
  - apply D. unfold r_vec_is_empty, r_vec_len. rd. apply safe_any.
  - apply (safe_one no_bool_value (fun v => v)); [|auto]. unfold r_vec_get. eapply safe_bind with (R := fun _ => True); [destruct (debug h); [rd|]; apply safe_any|intros ? _].
    do 4 pure. apply safe_follow. exact V.
  - apply D. apply safe_slice. exact N.
  - unfold r_vec_iter. eapply safe_bind with (R := fun _ => True).
    + eapply safe_bind with (R := fun _ => True); [|intros ? _; pure; apply safe_any]. unfold r_vec_len; eapply safe_then; [apply safe_read_at; discriminate|]. intros. apply safe_any.
    + intros it _. eapply safe_bind; [apply safe_calls; exact V|]. intros [xs it'] X. apply safe_quiet. intros o9 E9; injection E9 as <-. exact X.
Qed.
Lemma safe_client h r cs : Forall no_bool_slice cs -> forall hs, Forall no_bool_value hs -> safe (fun _ => True) (r_client h r hs cs).
Proof.
  induction 1 as [|c cs N _ IH]; intros hs F; cbn [r_client]; [apply safe_any|].
  eapply safe_then; [apply safe_exec; eauto|]. intros [new|e|] K.
  - apply IH. apply Forall_app. split; auto.
  - apply IH. exact F.
  - apply safe_any.
Qed.
Lemma client_bools h r cs : Forall no_bool_slice cs -> Forall (bools_valid (mem r)) (did (r_client h r [] cs)).
Proof.
  intros N. destruct (safe_client h r cs N [] (Forall_nil _)) as [S _]. eapply Forall_impl; [|exact S].
  intros [[] t at_ n room|i] A; cbn in *; auto; destruct t; auto; contradiction.
Qed.

(** A table at an odd place, with one field. *)
Definition odd_table : list byte :=
  [x05; x00; x00; x00; x00; xf7; xff; xff; xff; x2a; x00; x00; x00; x00; x06; x00; x08; x00; x04; x00].
Definition odd_reads : list rcall := [RRoot FTable; RGet 0 4 (FScalar TU32) None].
Lemma odd_misaligned : exists m cs, Forall rcall_ok cs /\ Forall no_bool_slice cs /\ forall h base,
  result (r_client h (whole_of m) [] cs) = Val [VTable 5; VScalar 42] /\
  ~ Forall (aligned_at base) (did (r_client h (whole_of m) [] cs)).
Proof.
  exists odd_table, odd_reads. split; [|split].
  - repeat constructor; discriminate.
  - repeat constructor; discriminate.
  - intros [d e] base. split; [destruct d, e; vm_compute; reflexivity|]. intros F. rewrite Forall_forall in F.
    assert (I0 : In (Access Load TU32 0 1 20) (did (r_client (Host d e) (whole_of odd_table) [] odd_reads))) by (destruct d, e; vm_compute; tauto).
    assert (I1 : In (Access Load TI32 5 1 20) (did (r_client (Host d e) (whole_of odd_table) [] odd_reads))) by (destruct d, e; vm_compute; tauto).
    pose proof (F _ I0) as A0. pose proof (F _ I1) as A1. cbn [aligned_at ssize] in A0, A1. clear - A0 A1. Z.div_mod_to_equations. lia.
Qed.
(** A slice of one [bool] over a byte that is none. *)
Lemma bad_bool : exists m cs, Forall rcall_ok cs /\ forall h, big_endian h = false ->
  result (r_client h (whole_of m) [] cs) = Val [VSlice [2]] /\ ~ Forall (bools_valid m) (did (r_client h (whole_of m) [] cs)).
Proof.
  exists [x01; x00; x00; x00; x02], [RFollow (FSlice TBool) 0]. split; [constructor; [split; lia|constructor]|].
  intros [d e] E. cbn in E. subst e. split; [destruct d; vm_compute; reflexivity|]. intros F. rewrite Forall_forall in F.
  assert (I1 : In (Access Load TBool 4 1 5) (did (r_client (Host d false) (whole_of [x01; x00; x00; x00; x02]) [] [RFollow (FSlice TBool) 0]))) by (destruct d; vm_compute; tauto).
  specialize (F _ I1). cbn [bools_valid] in F. destruct (F 0 ltac:(lia)) as [Q|Q]; discriminate Q.
Qed.

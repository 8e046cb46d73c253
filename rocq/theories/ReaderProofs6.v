(** C04: in the listed situations a debug build does panic. *)
From Coq Require Import ZArith List Bool Lia Strings.Byte ZifyBool ZifyNat ZifyN.
From Verif Require Import Base Scalar Utf8 Reader Client BaseFacts ScalarFacts SpecWire WireFacts
  ReaderFacts ReaderProofs ReaderProofs2 ReaderProofs3 ReaderProofs4 ReaderProofs5.
Import ListNotations.
Local Open Scope Z_scope.

Section Dbg.
Context (h : host) (Hh : debug h = true) (buf : list byte) (Hm : blen buf < 2 ^ 31).

Lemma usize_arith_over z : 2 ^ 64 <= z -> usize_arith h z = Panic.
Proof. intros H. unfold usize_arith, unsigned_arith. rewrite Hh. destruct (_ && _) eqn:E; [lia|reflexivity]. Qed.
Lemma read_u16_over l : 2 ^ 64 - 2 <= l -> read_scalar_at h TU16 buf l = Panic.
Proof. intros H. unfold read_scalar_at. rewrite usize_arith_over by (cbn [ssize]; lia). reflexivity. Qed.
Lemma num_bytes_over l : 2 ^ 64 - 2 <= l -> vt_num_bytes h buf l = Panic.
Proof. intros H. unfold vt_num_bytes. rewrite read_u16_over by lia. reflexivity. Qed.
Lemma iter_step_not_err t it c e : iter_call h t buf c it <> Err e.
Proof.
  assert (N : forall it, iter_next h t buf it <> Err e).
  { intros [l n]. unfold iter_next, debug_assert, usize_arith, unsigned_arith. rewrite Hh. cbn [it_remaining it_loc]. destruct (0 <? size_of t); [|discriminate]. cbn [negb andb bind].
    destruct (n =? 0); [discriminate|]. destruct (follow h t buf l); try discriminate; (destruct (_ && _); [|discriminate]; cbn [bind]; destruct (_ && _); discriminate). }
  assert (B : forall it, iter_next_back h t buf it <> Err e).
  { intros [l n]. unfold iter_next_back, debug_assert, usize_arith, unsigned_arith. rewrite Hh. cbn [it_remaining it_loc]. destruct (0 <? size_of t); [|discriminate]. cbn [negb andb bind].
    destruct (n =? 0); [discriminate|]. destruct (_ && _); [|discriminate]. cbn [bind]. destruct (_ && _); [|discriminate]. cbn [bind]. destruct (_ && _); [|discriminate]. cbn [bind].
    destruct (follow h t buf _); discriminate. }
  destruct c; cbn [iter_call]; auto.
  - unfold iter_nth, debug_assert. destruct (_ && _); [|]; cbn [bind]; try discriminate; unfold usize_arith, unsigned_arith; destruct (_ && _); cbn [bind]; try apply N; rewrite Hh; discriminate.
  - apply B.
Qed.
Lemma iter_calls_panic t cs n : 0 < size_of t -> In (INth n) cs -> 2 ^ 64 <= size_of t * n -> forall it, iter_calls h t buf cs it = Panic.
Proof.
  intros Hs I O. induction cs as [|c cs IH]; [destruct I|]. intros it. cbn [iter_calls]. pose proof (iter_step_not_err t it c) as N.
  destruct (iter_call h t buf c it) as [[x it']|e|] eqn:E; [|exfalso; eapply N; reflexivity|reflexivity]. cbn [bind]. destruct I as [->|I].
  - exfalso. cbn [iter_call] in E. unfold iter_nth, debug_assert in E. replace (0 <? size_of t) with true in E by lia. cbn [negb] in E. rewrite andb_false_r in E. cbn [bind] in E.
    rewrite usize_arith_over in E by lia. discriminate.
  - rewrite IH by exact I. reflexivity.
Qed.

Lemma soffset_in l s : soffset_at buf l s -> 0 <= l -> l < 2 ^ 31.
Proof. intros [_ H] L. destruct (u32_read h _ _ _ H ltac:(lia)) as (_ & _ & ?). lia. Qed.

Lemma hazard_panics hs c : Forall handle_ok hs -> call_ok c -> hazard buf hs c -> exec h buf hs c = Panic.
Proof.
  intros Hhs [Hc Hc2] Hz.
  assert (Hn : forall i v, nth_error hs i = Some v -> handle_ok v).
  { intros i v E. rewrite Forall_forall in Hhs. apply Hhs. eapply nth_error_In, E. }
  destruct c; cbn [exec rcall_ok hazard] in *; try contradiction; unfold on_table, on_vtable, on_vector.
  - destruct Hz as (l & s & E & So & C). rewrite E. pose proof (Hn _ _ E) as Hv. cbn [handle_ok] in Hv. pose proof (soffset_in l s So ltac:(lia)).
    rewrite (proj2 (table_get_panic_iff h buf l slot t default Hh (wire_plain t (proj1 Hc2)) Hm ltac:(lia) (proj1 Hc))); [reflexivity|eauto].
  - destruct Hz as (l & s & E & So & C). rewrite E. pose proof (Hn _ _ E) as Hv. cbn [handle_ok] in Hv. pose proof (soffset_in l s So ltac:(lia)).
    rewrite (table_vtable_spec h buf l s) by (auto; lia). unfold i32_arith. rewrite Hh. destruct (_ && _) eqn:X; [lia|reflexivity].
  - destruct Hz as (l & E & C). rewrite E. destruct C as [C|(n & Le & C)].
    + unfold vt_num_fields. rewrite num_bytes_over by lia. reflexivity.
    + destruct (num_fields_exact h buf l n Le ltac:(lia)) as (_ & _ & F). rewrite F by lia. rewrite Hh. reflexivity.
  - destruct Hz as (l & E & C). rewrite E. rewrite num_bytes_over by lia. reflexivity.
  - destruct Hz as (l & E & C). rewrite E. unfold vt_object_inline_num_bytes, SIZE_VOFFSET. destruct (Z.lt_ge_cases (l + 2) (2 ^ 64)).
    + pose proof (Hn _ _ E) as Hv. cbn [handle_ok] in Hv. unfold usize_ok in Hv. rewrite usize_arith_ok by lia. cbn [bind]. rewrite read_u16_over by lia. reflexivity.
    + rewrite usize_arith_over by lia. reflexivity.
  - destruct Hz as (l & E & C). rewrite E. unfold vt_get_field. destruct C as [C|(n & Le & C)].
    + unfold vt_num_fields. rewrite num_bytes_over by lia. reflexivity.
    + destruct (num_fields_exact h buf l n Le ltac:(lia)) as (_ & _ & F). rewrite F by lia. rewrite Hh. reflexivity.
  - destruct Hz as (l & E & C). rewrite E. unfold vt_get. rewrite num_bytes_over by lia. reflexivity.
  - destruct Hz as (l & E & C). rewrite E. unfold vt_as_bytes. rewrite num_bytes_over by lia. reflexivity.
  - destruct Hz as (t & l & n & E & Le & C). rewrite E. rewrite (vec_get_past_end_debug h t buf l n idx) by (auto; lia). reflexivity.
  - destruct Hz as (t & l & n & E & I & C). rewrite E. pose proof (Hn _ _ E) as [Hv Hw].
    unfold vec_iter, vec_len. pose proof (read_u32_fine h Hh buf Hm l ltac:(lia)) as R. unfold SIZE_UOFFSET. rewrite usize_arith_ok by lia.
    destruct (read_scalar_at h TU32 buf l) as [k|e|]; [..|congruence]; cbn [bind]; rewrite (iter_calls_panic t cs n (wire_size t Hw) I C); reflexivity.
Qed.

Lemma client_app cs1 : forall cs2 hs, client h buf hs (cs1 ++ cs2) = let* hs' := client h buf hs cs1 in client h buf hs' cs2.
Proof.
  induction cs1 as [|c cs1 IH]; intros cs2 hs; [reflexivity|]. cbn [app client]. destruct (exec h buf hs c); [apply IH|apply IH|reflexivity].
Qed.
Lemma client_handles cs : forall hs, Forall handle_ok hs -> Forall call_ok cs -> forall hs', client h buf hs cs = Val hs' -> Forall handle_ok hs'.
Proof.
  induction cs as [|c cs IH]; intros hs Hhs Hcs hs' E; [injection E as <-; exact Hhs|].
  inversion_clear Hcs as [|? ? H1 H2]. cbn [client] in E. destruct (hazard_dec h Hh buf Hm hs c Hhs) as [Z|Z].
  - rewrite (hazard_panics hs c Hhs H1 Z) in E. discriminate.
  - pose proof (exec_fine h Hh buf Hm hs c Hhs H1 Z) as F. destruct (exec h buf hs c) as [new|e|]; [|eapply IH; eauto|discriminate].
    eapply IH; [|exact H2|exact E]. apply Forall_app. split; [exact Hhs|exact F].
Qed.
Lemma client_panics_iff cs : Forall call_ok cs ->
  (client h buf [] cs = Panic <-> exists pre c post hs, cs = pre ++ c :: post /\ client h buf [] pre = Val hs /\ hazard buf hs c).
Proof.
  intros Hc. split; [apply client_fine; auto|]. intros (pre & c & post & hs & -> & E & Z). apply Forall_app in Hc as [Hp Hc]. inversion_clear Hc as [|? ? H1 H2].
  rewrite client_app, E. cbn [bind client]. rewrite (hazard_panics hs c); auto. eapply client_handles; [apply (Forall_nil handle_ok)|exact Hp|exact E].
Qed.
End Dbg.

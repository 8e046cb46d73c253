(** Finished documents are read with aligned accesses. *)
From Coq Require Import ZArith List Bool Lia Strings.Byte ZifyBool ZifyNat ZifyN.
From Verif Require Import Base Scalar SpecWire WireFacts Utf8 Reader Client Raw SpecRaw SpecReader Builder Ops SpecBuilder Abstract BaseFacts ScalarFacts ReaderFacts
  ReaderProofs ReaderProofs3
  Refine Refine2 Build1 Build2 Build3 Build4 Build5 Build6 Build7 Build8 BuilderProofs1 BuilderProofs2 BuilderProofs3 BuilderProofs4 RawProofs1
  Schema Codegen RawGen SpecGen SpecSeat RawProofs8 GenProofs1 GenProofs2 RawProofs9 GenProofs3 GenProofs4 Utf8Facts.
Import ListNotations.
Local Open Scope Z_scope.

Lemma document_aligned h hr c lim before xs b0 u x b1 o later ident sp b zs :
  0 <= c -> lim <= 32765 -> debug h = true \/ lim <= 8190 ->
  calls_ok before = true -> closed before = true -> program h c before = Val (b0, xs) ->
  typed lim x (FUOffset u) -> put h b0 x = Val (b1, Some (POffset o)) ->
  calls_ok (later ++ [OpFinish o ident sp]) = true -> no_reset later = true -> run h b1 (later ++ [OpFinish o ident sp]) = Val (b, zs) ->
  blen (unfinished_data b) < 2 ^ 31 -> ident_fits h ident ->
  let D := unfinished_data b in
  exists w, result (r_root hr sp u D) = Val w /\ Forall aligned (did (r_root hr sp u D)) /\ shows hr D x w /\ reads_aligned hr D x w.
Proof.
  intros Hc Hlim Hsm Ho Hcl H T P Hl Hr R L Hi D.
  destruct (tree_written h hr c lim Hc Hlim Hsm x (FUOffset u) before xs b0 b1 _ Ho Hcl H (or_intror T) P) as (ops & ys & R1 & O1 & N1 & C1 & Q).
  destruct (holds_offset _ _ _ _ _ _ _ T Q) as (o' & E & Uo & Bo & F). assert (o' = o) by congruence. subst o'.
  assert (Nr : no_reset (later ++ [OpFinish o ident sp]) = true) by (rewrite no_reset_app, Hr; reflexivity).
  destruct (F _ b zs Hl Nr R L) as (w & Fw & Sw & Aw). fold D in Fw, Sw, Aw.
  destruct Aw as [Aw1 Aw2]; [exists later, o, ident, sp; auto|].
  pose proof (program_run _ _ _ _ _ _ _ _ H R1) as H1. pose proof (program_run _ _ _ _ _ _ _ _ H1 R) as H2.
  assert (Oc : calls_ok (before ++ ops) = true) by (rewrite calls_ok_app, Ho, O1; reflexivity).
  assert (I1 : inv b1) by (eapply program_inv; [exact Hc|apply calls_ok_ops; exact Oc|exact H1]).
  assert (Oa : forallb op_ok (((before ++ ops) ++ later) ++ [OpFinish o ident sp]) = true).
  { apply calls_ok_ops. rewrite <- app_assoc, calls_ok_app, Oc. exact Hl. }
  rewrite app_assoc in H2.
  assert (Rt : forall t, (if sp then get_size_prefixed_root hr t D else get_root hr t D) = follow hr t D (blen D - o)).
  { intros t. destruct (finish_root h hr c ((before ++ ops) ++ later) o ident sp b _ t Hc Oa H2 ltac:(clear - L; lia) Hi) as [X _]; [|exact X].
    intros b' ys' H'. rewrite calls_ok_app in Hl. apply andb_true_iff in Hl as [Hl _].
    apply program_split in H' as (b1' & xs1 & r1 & H1' & R' & _ & _). rewrite H1 in H1'. assert (b1' = b1) by congruence. subst b1'.
    rewrite run_app, R' in R. cbn [bind] in R. apply bind_Val in R as ([b2 y2] & R & Eb). assert (b2 = b) by congruence. subst b2.
    assert (I' : inv b').
    { eapply (program_inv h c ((before ++ ops) ++ later)); [exact Hc| |eapply program_run; [exact H1|exact R']].
      apply calls_ok_ops. rewrite calls_ok_app, Oc. exact Hl. }
    rewrite forallb_app in Oa. apply andb_true_iff in Oa as [_ Of].
    assert (Cf : calls_ok [OpFinish o ident sp] = true) by (unfold calls_ok; cbn [forallb op_slots] in *; rewrite !andb_true_r in *; exact Of).
    pose proof (run_blen _ _ _ _ _ I' Cf eq_refl R L) as B'.
    pose proof (run_blen _ _ _ _ _ I1 Hl Hr R' ltac:(clear - B' L; lia)) as B1. specialize (Bo ltac:(clear - B' B1 L; lia)).
    clear - Bo B1. lia. }
  assert (Ar : forall loc, usize_ok loc -> loc mod 4 = 0 ->
    (forall t, follow hr (FUOffset t) D loc = follow hr t D (blen D - o)) ->
    runs aligned eq (r_follow hr (FUOffset u) (whole_of D) loc) (follow hr (FUOffset u) D loc)).
  { intros loc Ul Ml Fl. apply al_ref; auto. intros l _ El. rewrite Fl in El. cbn [follow] in El.
    assert (l = blen D - o) by congruence. subst l. exact Aw1. }
  assert (RR : runs aligned eq (r_root hr sp u D) (if sp then get_size_prefixed_root hr u D else get_root hr u D)).
  { unfold r_root. destruct sp.
    - unfold r_get_size_prefixed_root, get_size_prefixed_root. cbn [r_follow follow]. unfold SIZE_UOFFSET.
      rewrite !usize_arith_ok by lia. apply runs_let. intros l El. injection El as <-. apply Ar; [unfold usize_ok; lia|reflexivity|].
      intros t. rewrite <- Rt. unfold get_size_prefixed_root. cbn [follow]. unfold SIZE_UOFFSET. rewrite usize_arith_ok by lia. reflexivity.
    - unfold r_get_root, get_root. apply Ar; [unfold usize_ok; lia|reflexivity|]. intros t. rewrite <- Rt. reflexivity. }
  exists w. split; [rewrite (runs_eq _ _ _ RR), Rt; exact Fw|]. split; [eapply runs_did; eauto|]. split; [apply shows_all_shows; exact Sw|exact Aw2].
Qed.

Lemma unfinished_misaligned : exists x u later, typed 8 x (FUOffset u) /\ calls_ok later = true /\ no_reset later = true /\ forall h hr,
  exists b0 b1 o b zs w, program h 0 [] = Val (b0, []) /\ put h b0 x = Val (b1, Some (POffset o)) /\ run h b1 later = Val (b, zs) /\
    let D := unfinished_data b in
    result (r_follow hr u (whole_of D) (blen D - o)) = Val w /\ shows hr D x w /\
    ~ Forall aligned (did (r_follow hr u (whole_of D) (blen D - o))).
Proof.
  exists (TreeStr [x61]), FStr, [OpPush (PScalar TU8 7)]. split; [cbn [typed]; split; [apply utf8_valid_iff; reflexivity|split; reflexivity]|].
  split; [reflexivity|]. split; [reflexivity|]. intros [[] []] [[] []]; eexists _, _, _, _, _, _;
  (split; [vm_compute; reflexivity|]); (split; [vm_compute; reflexivity|]); (split; [vm_compute; reflexivity|]); cbv zeta;
  (split; [vm_compute; reflexivity|]); (split; [reflexivity|]); intros F; vm_compute in F;
  inversion F as [|? ? A _]; specialize (A 0 eq_refl); vm_compute in A; discriminate A.
Qed.

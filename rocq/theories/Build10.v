(** Calls complete: forward lemmas for the abstract machine that refuses
    everything a real buffer may refuse. *)
From Coq Require Import ZArith List Bool Lia Strings.Byte ZifyBool ZifyNat ZifyN.
From Verif Require Import Base Scalar Reader Builder Ops SpecBuilder Abstract BaseFacts ScalarFacts
  ReaderFacts Refine Refine2 Build1 Build2 Build3 Build4 Build5 Build6 Build7 Build8 Build9.
Import ListNotations.
Local Open Scope Z_scope.

(** What the strict machine does, the concrete one does. *)
Lemma strict_step h b o a' x : inv b -> op_ok o = true -> a_step true h (view b) o = Val (a', x) ->
  exists b', step h b o = Val (b', x) /\ inv b' /\ view b' = a'.
Proof.
  intros I Ho S. pose proof (step_ref h b (view b) o (conj I eq_refl) Ho) as P. unfold ref in P.
  destruct (step h b o) as [[b' x']| |]; [|destruct P|exfalso; eapply P; eauto].
  destruct P as ([a2 x2] & [R E] & _ & Hs). cbn [fst snd] in *. subst x2. specialize (Hs _ S).
  injection Hs as -> ->. destruct R as [I' ->]. eauto.
Qed.
Lemma strict_run h b os a' xs : inv b -> forallb op_ok os = true -> a_run true h (view b) os = Val (a', xs) ->
  exists b', run h b os = Val (b', xs) /\ inv b' /\ view b' = a'.
Proof.
  intros I Ho S. pose proof (run_ref h os b (view b) (conj I eq_refl) Ho) as P. unfold ref in P.
  destruct (run h b os) as [[b' x']| |]; [|destruct P|exfalso; eapply P; eauto].
  destruct P as ([a2 x2] & [R E] & _ & Hs). cbn [fst snd] in *. subst x2. specialize (Hs _ S).
  injection Hs as -> ->. destruct R as [I' ->]. eauto.
Qed.
Lemma strict_program h c os a' xs : 0 <= c <= 2 ^ 31 -> forallb op_ok os = true -> a_run true h a_new os = Val (a', xs) ->
  exists b', program h c os = Val (b', xs) /\ inv b' /\ view b' = a'.
Proof.
  intros Hc Ho S. unfold program.
  destruct (new_with_capacity c) as [b0| |] eqn:N.
  2,3: unfold new_with_capacity, assert_always, MAX_BUFFER_SIZE in N; replace (c <=? 2 ^ 31) with true in N by lia; discriminate.
  destruct (new_Rb c b0 (proj1 Hc) N) as [I E]. cbn [bind]. apply strict_run; auto. rewrite <- E. exact S.
Qed.

Section Forward.
Context (h : host).

Lemma room_fwd d want : want <= 2 ^ 31 -> blen d + want <= 2 ^ 61 -> room true d want = Val tt.
Proof. apply room_strict. Qed.

Lemma a_pad_fwd a len al : pow8 al -> 0 <= len -> blen (a_data a) + len + 8 <= 2 ^ 61 ->
  a_pad true h a len al = Val (with_data (with_align a (Z.max (a_align a) al)) (zeros (gap (a_data a) len al) ++ a_data a)).
Proof.
  intros P Hl L. unfold a_pad, a_space. cbn [with_align a_data]. pose proof (blen_nonneg (a_data a)).
  rewrite usize_arith_ok by lia. cbn [bind].
  replace (padding_bytes (blen (a_data a) + len) al) with ((- (blen (a_data a) + len)) mod al)
    by (rewrite <- (padding_pow8 _ _ P), Z.mod_small by lia; reflexivity).
  fold (gap (a_data a) len al). pose proof (gap_range (a_data a) len al P). assert (al <= 8) by (unfold pow8 in P; lia).
  rewrite room_fwd by lia. reflexivity.
Qed.

Definition ready (x : pval) (n : Z) : Prop :=
  match x with PScalar _ _ => True | POffset o => debug h = false \/ o <= n end.

Lemma push_into_fwd x d : pval_ok x = true -> ready x (blen d) -> blen d + 4 < 2 ^ 64 -> push_into h x (zeros (push_size x)) d = Val (pbytes x (blen d)).
Proof.
  intros Hx R L. assert (exists w, push_into h x (zeros (push_size x)) d = Val w) as (w & E).
  { destruct x as [t v|o]; cbn [push_into push_size].
    - rewrite emplace_scalar_exact; [eauto|]. rewrite blen_zeros. pose proof (ssize_pos t). lia.
    - cbn [ready] in R. destruct R as [R|R]; [exact (push_into_total h (POffset o) d R)|].
      pose proof (blen_nonneg d). cbn [pval_ok] in Hx. unfold SIZE_UOFFSET. rewrite usize_arith_ok by lia. cbn [bind].
      rewrite (emplace_scalar_exact h TU32); [eauto|reflexivity]. }
  rewrite E. f_equal. eapply push_into_val; eauto.
Qed.

Lemma push_size_le8 x : 0 < push_size x <= 8.
Proof. destruct x as [t v|o]; cbn [push_size]; [|lia]. pose proof (ssize_pos t). pose proof (ssize_le8 t). lia. Qed.

Lemma a_push_fwd a x : pval_ok x = true -> ready x (blen (a_data a)) -> blen (a_data a) + 32 <= 2 ^ 61 ->
  a_push true h a x = Val (pushed a x, as_u32 (blen (a_data (pushed a x)))).
Proof.
  intros Hx R L. unfold a_push. pose proof (push_size_le8 x) as S.
  rewrite a_pad_fwd; [|apply push_alignment_pow8|lia|lia]. cbn [bind with_data with_align a_data].
  pose proof (gap_range (a_data a) (push_size x) _ (push_alignment_pow8 x)) as G.
  assert (push_alignment x <= 8) by (pose proof (push_alignment_pow8 x) as P; unfold pow8 in P; lia).
  assert (B : blen (zeros (gap (a_data a) (push_size x) (push_alignment x)) ++ a_data a) =
              gap (a_data a) (push_size x) (push_alignment x) + blen (a_data a)) by (rewrite blen_app, blen_zeros; lia).
  rewrite room_fwd by (rewrite ?B; lia). cbn [bind].
  rewrite push_into_fwd; [|auto| |rewrite B; lia].
  - cbn [bind]. unfold pushed. cbv zeta. reflexivity.
  - rewrite B. unfold ready in *. destruct x; auto. destruct R as [R|R]; [left; auto|right; lia].
Qed.

Lemma blen_pushed_le a x : blen (a_data a) <= blen (a_data (pushed a x)) <= blen (a_data a) + 16.
Proof.
  rewrite blen_pushed. pose proof (push_size_le8 x). pose proof (gap_range (a_data a) (push_size x) _ (push_alignment_pow8 x)).
  assert (push_alignment x <= 8) by (pose proof (push_alignment_pow8 x) as P; unfold pow8 in P; lia). lia.
Qed.

Lemma a_push_all_fwd l : forall a, forallb pval_ok l = true -> Forall (fun x => ready x (blen (a_data a))) l ->
  blen (a_data a) + 16 * blen l + 32 <= 2 ^ 61 ->
  a_push_all true h a l = Val (fold_left pushed l a).
Proof.
  induction l as [|x l IH]; intros a Hl R L; cbn [a_push_all fold_left]; [reflexivity|].
  cbn [forallb] in Hl. apply andb_true_iff in Hl as [Hx Hl]. inversion R as [|? ? R1 R2]; subst.
  rewrite blen_cons in L. pose proof (blen_nonneg l). rewrite a_push_fwd by (auto; lia). cbn [bind].
  pose proof (blen_pushed_le a x). apply IH; auto; [|lia].
  eapply Forall_impl; [|exact R2]. intros y Ry. unfold ready in *. destruct y; auto. destruct Ry; [left|right]; auto; lia.
Qed.

Lemma a_create_vector_fwd t a items : forallb pval_ok items = true -> Forall (of_type t) items ->
  Forall (fun x => ready x (blen (a_data a))) items ->
  blen (a_data a) + 16 * blen items + 100 <= 2 ^ 61 ->
  let a' := with_data (with_align a (Z.max (a_align a) (Z.max (pty_align t) 4))) (vector_data t items (a_data a)) in
  a_create_vector true h a (pty_size t) (pty_align t) items = Val (a', as_u32 (blen (a_data a'))).
Proof.
  intros Hi Ht R L a'.
  assert (exists r, a_create_vector true h a (pty_size t) (pty_align t) items = Val r) as ([a2 o2] & E).
  { unfold a_create_vector. pose proof (blen_nonneg items) as Bi. pose proof (blen_nonneg (a_data a)) as Ba.
    assert (0 < pty_size t <= 8) as S by (destruct t; cbn; [pose proof (ssize_pos t); pose proof (ssize_le8 t)|]; lia).
    assert (0 <= blen items * pty_size t <= blen items * 8) as M by (clear - Bi S; nia).
    rewrite usize_arith_ok by (clear - M L Ba Bi; lia). cbn [bind].
    destruct (max4_ge _ (pty_align_pow8 t)) as (Hal1 & Hal2 & Hal3).
    rewrite a_pad_fwd; [|exact Hal3|lia|lia]. cbn [bind].
    pose proof (gap_range (a_data a) (blen items * pty_size t) _ Hal3) as G.
    assert (Z.max (pty_align t) 4 <= 8) by (unfold pow8 in Hal3; lia).
    set (a1 := with_data _ _).
    assert (B1 : blen (a_data a1) = gap (a_data a) (blen items * pty_size t) (Z.max (pty_align t) 4) + blen (a_data a)).
    { unfold a1. cbn [with_data a_data]. rewrite blen_app, blen_zeros. unfold SIZE_UOFFSET. lia. }
    assert (Hr : forallb pval_ok (rev items) = true).
    { rewrite forallb_forall in *. intros x I. apply Hi. apply in_rev. exact I. }
    rewrite a_push_all_fwd; [|exact Hr| |].
    - cbn [bind]. rewrite a_push_fwd; [eauto|..].
      + cbn [pval_ok]. unfold as_u32. cbn [valid_scalar signed ssize]. pose proof (Z.mod_pos_bound (blen items) (2 ^ 32)). lia.
      + exact I.
      + enough (Q : forall l c, blen (a_data (fold_left pushed l c)) <= blen (a_data c) + 16 * blen l).
        { specialize (Q (rev items) a1). rewrite blen_rev in Q. lia. }
        clear. induction l as [|x l IH]; intros c; cbn [fold_left]; [change (blen (@nil pval)) with 0; lia|].
        rewrite blen_cons. specialize (IH (pushed c x)). pose proof (blen_pushed_le c x). lia.
    - apply Forall_rev. eapply Forall_impl; [|exact R]. intros y Ry. unfold ready in *. destruct y; auto. destruct Ry; [left|right]; auto; lia.
    - rewrite blen_rev. lia. }
  rewrite E. destruct (a_create_vector_val _ _ _ _ _ _ _ Ht E) as (-> & -> & _). reflexivity.
Qed.

Lemma a_create_vector_direct_fwd t a items : debug_assert h (negb (a_nested a)) = Val tt ->
  blen items * ssize t <= 2 ^ 31 -> blen (a_data a) <= 2 ^ 60 ->
  let g := gap (a_data a) (blen items * ssize t) (Z.max (salign t) 4) in
  let a' := with_data (with_align a (Z.max (a_align a) (Z.max (salign t) 4)))
        (wire TU32 (blen items) ++ slice_memory h t items ++ zeros g ++ a_data a) in
  a_create_vector_direct true h a t items = Val (a', as_u32 (blen (a_data a'))).
Proof.
  intros Hd Hs L g a'.
  assert (exists r, a_create_vector_direct true h a t items = Val r) as ([a2 o2] & E).
  { unfold a_create_vector_direct. rewrite Hd. cbn [bind]. pose proof (blen_nonneg items) as Bi. pose proof (blen_nonneg (a_data a)) as Ba.
    pose proof (ssize_pos t) as S. assert (0 <= blen items * ssize t) as M by (clear - Bi S; nia).
    rewrite usize_arith_ok by (clear - M Hs; lia). cbn [bind].
    destruct (max4_ge _ (salign_pow8 t)) as (Hal1 & Hal2 & Hal3).
    rewrite a_pad_fwd; [|exact Hal3|lia|lia]. cbn [bind].
    pose proof (gap_range (a_data a) (blen items * ssize t) _ Hal3) as G.
    assert (Z.max (salign t) 4 <= 8) by (unfold pow8 in Hal3; lia).
    unfold a_bytes. cbn [with_data with_align a_data].
    rewrite room_fwd; [cbn [bind]|rewrite blen_slice_memory; lia|].
    2: { rewrite blen_slice_memory, blen_app, blen_zeros. unfold SIZE_UOFFSET. lia. }
    rewrite a_push_fwd; [cbn [bind]; eauto| |exact I|].
    - cbn [pval_ok]. unfold as_u32. cbn [valid_scalar signed ssize]. pose proof (Z.mod_pos_bound (blen items) (2 ^ 32)). lia.
    - cbn [with_data with_align a_data]. rewrite !blen_app, blen_slice_memory, blen_zeros. unfold SIZE_UOFFSET. lia. }
  rewrite E. destruct (a_create_vector_direct_val _ _ _ _ _ _ _ E) as (-> & -> & _). reflexivity.
Qed.
End Forward.

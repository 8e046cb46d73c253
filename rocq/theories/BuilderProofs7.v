(** Vectors written element by element, and by copying memory. *)
From Coq Require Import ZArith List Bool Lia Strings.Byte ZifyBool ZifyNat ZifyN.
From Verif Require Import Base Scalar Reader Builder Ops SpecBuilder Abstract BaseFacts ScalarFacts
  ReaderFacts Refine Refine2 Build1 Build2 Build3 Build4 Build5 Build6 Build7 Build8 Build9 Build10 BuilderProofs1 BuilderProofs2 BuilderProofs3.
Import ListNotations.
Local Open Scope Z_scope.

(** ** Element by element *)
Definition nst (b : builder) : builder := set_nested b true.
Definition on_builder {A} (x : outcome (builder * A)) : outcome (builder * A) :=
  let* (b, a) := x in Val (nst b, a).

Lemma grow_nested h b : grow_owned_buf h (nst b) = let* b := grow_owned_buf h b in Val (nst b).
Proof.
  unfold grow_owned_buf. cbn [nst set_nested owned_buf head].
  destruct (usize_arith h (blen (owned_buf b) * 2)); cbn [bind]; [|reflexivity..].
  destruct (usize_arith h (Z.max 1 a - blen (owned_buf b))); cbn [bind]; [|reflexivity..].
  destruct (assert_always _); cbn [bind]; [|reflexivity..].
  destruct (usize_arith h (head b + a0)); cbn [bind]; [|reflexivity..].
  change (used_space (nst b)) with (used_space b).
  destruct (debug_assert h _); cbn [bind]; [|reflexivity..].
  destruct (_ =? 1); [reflexivity|].
  destruct (write_range _ _ _ _); reflexivity.
Qed.
Lemma grow_loop_nested h n : forall b w, grow_loop h n (nst b) w = let* b := grow_loop h n b w in Val (nst b).
Proof.
  induction n as [|n IH]; intros b w; cbn [grow_loop]; cbn [nst set_nested head]; destruct (_ <=? _); try reflexivity.
  rewrite grow_nested, !bind_assoc. destruct (grow_owned_buf h b); cbn [bind]; [|reflexivity..]. apply IH.
Qed.
Lemma space_nested h b w : make_space h (nst b) w = let* b := make_space h b w in Val (nst b).
Proof.
  unfold make_space, ensure_capacity. cbn [nst set_nested head]. destruct (_ <=? _); [reflexivity|].
  rewrite !bind_assoc. destruct (assert_always _); cbn [bind]; [|reflexivity..]. rewrite grow_loop_nested.
  destruct (grow_loop h 100 b w); reflexivity.
Qed.
Lemma align_nested h b l al : align h (nst b) l al = let* b := align h b l al in Val (nst b).
Proof.
  unfold align. change (set_min_align (nst b) (Z.max (min_align (nst b)) al)) with (nst (set_min_align b (Z.max (min_align b) al))).
  change (used_space (nst ?x)) with (used_space x). rewrite bind_assoc.
  destruct (usize_arith h _); cbn [bind]; [|reflexivity..]. apply space_nested.
Qed.
Lemma push_nested h b x : push h (nst b) x = on_builder (push h b x).
Proof.
  unfold push, on_builder. rewrite align_nested, !bind_assoc.
  destruct (align h b _ _) as [b1| |]; cbn [bind]; [|reflexivity..]. rewrite space_nested, !bind_assoc.
  destruct (make_space h b1 _) as [b2| |]; cbn [bind]; [|reflexivity..].
  change (unfinished_data (nst b2)) with (unfinished_data b2). rewrite bind_assoc.
  destruct (assert_always _); cbn [bind]; [|reflexivity..]. rewrite bind_assoc.
  destruct (push_into h x _ _); reflexivity.
Qed.
Lemma push_all_nested h l : forall b, push_all h (nst b) l = let* b := push_all h b l in Val (nst b).
Proof.
  induction l as [|x l IH]; intros b; cbn [push_all]; [reflexivity|].
  rewrite push_nested. unfold on_builder. rewrite !bind_assoc. destruct (push h b x) as [[b1 o]| |]; cbn [bind]; [|reflexivity..].
  apply IH.
Qed.

Lemma run_pushes h l : forall b, 
  (exists b' ys, run h b (map OpPush l) = Val (b', ys) /\ push_all h b l = Val b') \/
  (exists e, run h b (map OpPush l) = Err e /\ push_all h b l = Err e) \/
  (run h b (map OpPush l) = Panic /\ push_all h b l = Panic).
Proof.
  induction l as [|x l IH]; intros b; cbn [map run push_all step]; [left; eauto|].
  unfold with_num. rewrite bind_assoc. destruct (push h b x) as [[b1 o]|e|]; cbn [bind]; [|eauto..].
  destruct (IH b1) as [(b2 & ys & -> & ->)|[(e & -> & ->)|[-> ->]]]; cbn [bind]; eauto.
Qed.

Lemma grow_keeps_nested h c c' : grow_owned_buf h c = Val c' -> nested c' = nested c.
Proof.
  intros K. unfold grow_owned_buf in K. apply bind_Val in K as (a1 & _ & K). apply bind_Val in K as (a2 & _ & K).
  apply bind_Val in K as (a3 & _ & K). apply bind_Val in K as (a4 & _ & K). apply bind_Val in K as (a5 & _ & K).
  destruct (_ =? 1); [injection K as <-; reflexivity|]. apply bind_Val in K as (a6 & _ & K). injection K as <-. reflexivity.
Qed.
Lemma grow_loop_keeps_nested h n : forall c w c', grow_loop h n c w = Val c' -> nested c' = nested c.
Proof.
  induction n as [|n IH]; intros c w c' K; cbn [grow_loop] in K; destruct (_ <=? _); try (injection K as <-; reflexivity); try discriminate.
  apply bind_Val in K as (c1 & K1 & K). rewrite (IH _ _ _ K). eapply grow_keeps_nested; eauto.
Qed.
Lemma space_keeps_nested h c w c' : make_space h c w = Val c' -> nested c' = nested c.
Proof.
  intros K. unfold make_space, ensure_capacity in K. apply bind_Val in K as (c1 & K1 & K). injection K as <-. cbn [set_buf nested].
  destruct (_ <=? _); [injection K1 as <-; reflexivity|]. apply bind_Val in K1 as (u & _ & K1). eapply grow_loop_keeps_nested; eauto.
Qed.
Lemma align_keeps_nested h b l al b' : align h b l al = Val b' -> nested b' = nested b.
Proof. unfold align. intros H. apply bind_Val in H as (n & _ & H). apply space_keeps_nested in H. exact H. Qed.
Lemma push_keeps_nested h b x b' o : push h b x = Val (b', o) -> nested b' = nested b.
Proof.
  intros H. unfold push in H. apply bind_Val in H as (b1 & H1 & H).
  apply bind_Val in H as (b2 & H2 & H). apply bind_Val in H as (u & _ & H). apply bind_Val in H as (d & _ & H).
  injection H as <- <-. cbn [set_buf nested]. rewrite (space_keeps_nested _ _ _ _ H2). eapply align_keeps_nested; eauto.
Qed.
Lemma push_all_keeps_nested h l : forall b b', push_all h b l = Val b' -> nested b' = nested b.
Proof.
  induction l as [|x l IH]; intros b b' H; cbn [push_all] in H; [injection H as <-; reflexivity|].
  apply bind_Val in H as ([b1 o] & H1 & H). rewrite (IH _ _ H). eapply push_keeps_nested; eauto.
Qed.

Lemma by_elements h b t items : nested b = false ->
  (let* (b', xs) := run h b ([OpStartVector t (blen items)] ++ map OpPush (rev items) ++ [OpEndVector (blen items)]) in
   Val (b', last xs ONone)) = step h b (OpCreateVector t items).
Proof.
  intros N. rewrite run_app. cbn [run step app]. unfold without, with_num, start_vector, create_vector, assert_not_nested.
  rewrite N. unfold debug_assert at 1. cbn [negb]. rewrite andb_false_r. cbn [bind].
  destruct (usize_arith h (blen items * pty_size t)) as [n|e|]; cbn [bind]; [|reflexivity..].
  fold (nst b). rewrite align_nested.
  destruct (align h b n (Z.max (pty_align t) SIZE_UOFFSET)) as [b1|e|] eqn:A; cbn [bind]; [|reflexivity..].
  apply align_keeps_nested in A. rewrite N in A.
  rewrite run_app. pose proof (push_all_nested h (rev items) b1) as P.
  destruct (run_pushes h (rev items) (nst b1)) as [(b2 & ys & -> & E)|[(e & -> & E)|[-> E]]]; rewrite E in P; cbn [bind];
    destruct (push_all h b1 (rev items)) as [b3|e'|] eqn:Q; cbn [bind] in *; try discriminate; try congruence.
  injection P as ->. apply push_all_keeps_nested in Q. rewrite A in Q.
  cbn [run step]. unfold with_num, end_vector, assert_nested. change (nested (nst b3)) with true.
  unfold debug_assert. rewrite andb_false_r. cbn [bind].
  replace (set_nested (nst b3) false) with b3 by (destruct b3; cbn in *; subst; reflexivity).
  destruct (push h b3 (PScalar TU32 (as_u32 (blen items)))) as [[b4 o]|e|]; cbn [bind]; [|reflexivity..].
  f_equal. f_equal. change (last ((ONone :: ys) ++ [ONum o]) ONone = ONum o). apply last_last.
Qed.

(** ** Copied memory *)
Lemma direct_general h c os t vs b xs :
  big_endian h = false \/ ssize t = 1 ->
  0 <= c -> forallb op_ok (os ++ [OpCreateVectorDirect t vs]) = true -> program h c os = Val (b, xs) ->
  let direct := OpCreateVectorDirect t vs in
  let general := OpCreateVector (PTScalar t) (map (PScalar t) vs) in
  (forall b1 x1 b2 x2, step h b direct = Val (b1, x1) -> step h b general = Val (b2, x2) ->
     x1 = x2 /\ unfinished_data b1 = unfinished_data b2 /\ min_align b1 = min_align b2) /\
  (blen vs * ssize t <= 2 ^ 31 -> blen (unfinished_data b) <= 2 ^ 60 -> debug h = false \/ nested b = false ->
   exists b1 b2 x, step h b direct = Val (b1, x) /\ step h b general = Val (b2, x)).
Proof.
  intros Hh Hc Ho H direct general. rewrite forallb_app in Ho. apply andb_true_iff in Ho as [Ho1 Ho2].
  cbn [forallb] in Ho2. rewrite andb_true_r in Ho2.
  pose proof (program_inv _ _ _ _ _ Hc Ho1 H) as I.
  assert (Hty : Forall (of_type (PTScalar t)) (map (PScalar t) vs)).
  { apply Forall_forall. intros x Ix. apply in_map_iff in Ix as (v & <- & _). reflexivity. }
  assert (Hok : forallb pval_ok (map (PScalar t) vs) = true).
  { cbn [op_ok] in Ho2. apply andb_true_iff in Ho2 as [_ Ho2]. rewrite forallb_forall in *. intros x Ix.
    apply in_map_iff in Ix as (v & <- & Iv). cbn [pval_ok]. auto. }
  assert (Hg : op_ok general = true).
  { unfold general. cbn [op_ok]. cbn [op_ok] in Ho2. apply andb_true_iff in Ho2 as [Ho2 _]. rewrite blen_map. cbn [pty_size].
    rewrite Ho2. cbn [andb]. rewrite forallb_forall in *. intros x Ix. specialize (Hok x Ix).
    apply in_map_iff in Ix as (v & <- & Iv). cbn [pval_ok pty_of] in *. rewrite Hok. destruct t; reflexivity. }
  assert (Same : forall d, wire TU32 (blen vs) ++ slice_memory h t vs ++ zeros (gap d (blen vs * ssize t) (Z.max (salign t) 4)) ++ d
     = vector_data (PTScalar t) (map (PScalar t) vs) d).
  { intros d. rewrite slice_memory_cells by auto. unfold vector_data. rewrite blen_map. reflexivity. }
  split.
  - intros b1 x1 b2 x2 S1 S2.
    apply (step_abstract _ _ _ _ _ I Ho2) in S1 as [S1 _]. apply (step_abstract _ _ _ _ _ I Hg) in S2 as [S2 _].
    unfold direct, general in *. cbn [a_step] in S1, S2. unfold a_num in S1, S2.
    apply bind_Val in S1 as ([a1 n1] & S1 & Q1). apply bind_Val in S2 as ([a2 n2] & S2 & Q2).
    apply a_create_vector_direct_val in S1 as (E1 & O1 & _). apply a_create_vector_val in S2 as (E2 & O2 & _); [|exact Hty].
    assert (E : a1 = a2) by (rewrite E1, E2, Same; reflexivity).
    assert (V : view b1 = view b2) by congruence.
    split; [congruence|]. split; [apply (f_equal a_data) in V; exact V|apply (f_equal a_align) in V; exact V].
  - intros Hs Hd Hn.
    assert (Da : debug_assert h (negb (a_nested (view b))) = Val tt).
    { unfold debug_assert. cbn [view a_nested]. destruct Hn as [-> | ->]; [reflexivity|]. rewrite andb_false_r. reflexivity. }
    pose proof (a_create_vector_direct_fwd h t (view b) vs Da Hs Hd) as F1. cbv zeta in F1. rewrite Same in F1.
    assert (F2 := a_create_vector_fwd h (PTScalar t) (view b) (map (PScalar t) vs) Hok Hty). cbv zeta in F2.
    destruct (strict_step h b direct _ _ I Ho2 (eq_trans (f_equal a_num F1) eq_refl)) as (b1 & S1 & _).
    destruct (strict_step h b general (with_data (with_align (view b) (Z.max (a_align (view b)) (Z.max (pty_align (PTScalar t)) 4)))
        (vector_data (PTScalar t) (map (PScalar t) vs) (a_data (view b)))) 
        (ONum (as_u32 (blen (a_data (with_data (with_align (view b) (Z.max (a_align (view b)) (Z.max (pty_align (PTScalar t)) 4)))
        (vector_data (PTScalar t) (map (PScalar t) vs) (a_data (view b)))))))) I Hg) as (b2 & S2 & _).
    { unfold general. cbn [a_step]. unfold a_num. rewrite F2; [reflexivity|..].
      - apply Forall_forall. intros x Ix. apply in_map_iff in Ix as (v & <- & _). exact Logic.I.
      - rewrite blen_map. cbn [view a_data]. clear - Hs Hd. pose proof (ssize_pos t). pose proof (blen_nonneg vs). nia. }
    exists b1, b2. eexists. split; [exact S1|]. exact S2.
Qed.

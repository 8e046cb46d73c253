(** Growth, capacity, unused bytes, padding, reset. *)
From Coq Require Import ZArith List Bool Lia Strings.Byte ZifyBool ZifyNat ZifyN.
From Verif Require Import Base Scalar Reader Builder Ops SpecBuilder Abstract BaseFacts ScalarFacts
  ReaderFacts Refine Refine2 Build1 Build2 Build3 Build4 Build5 Build6 Build7 Build8 Build9 BuilderProofs1 BuilderProofs2 BuilderProofs3.
Import ListNotations.
Local Open Scope Z_scope.

Lemma data_kept h c os b xs later b' ys :
  0 <= c -> forallb op_ok (os ++ later) = true -> no_reset later = true ->
  program h c os = Val (b, xs) -> run h b later = Val (b', ys) -> blen (unfinished_data b') < 2 ^ 32 ->
  exists new, unfinished_data b' = new ++ unfinished_data b.
Proof.
  intros Hc Ho Hr H H2 L. rewrite forallb_app in Ho. apply andb_true_iff in Ho as [Ho1 Ho2].
  pose proof (program_inv _ _ _ _ _ Hc Ho1 H) as I. destruct (run_grows _ _ _ _ _ I Ho2 Hr H2 L) as (G & _). exact G.
Qed.

Lemma run_det h os : forall b1 b2 b1' xs1 b2' xs2, inv b1 -> inv b2 -> view b1 = view b2 -> forallb op_ok os = true ->
  run h b1 os = Val (b1', xs1) -> run h b2 os = Val (b2', xs2) -> xs1 = xs2 /\ view b1' = view b2'.
Proof.
  induction os as [|o os IH]; intros b1 b2 b1' xs1 b2' xs2 I1 I2 E Ho H1 H2; cbn [run forallb] in *.
  - injection H1 as <- <-. injection H2 as <- <-. auto.
  - apply andb_true_iff in Ho as [Ho Hos].
    apply bind_Val in H1 as ([c1 x] & A1 & H1). apply bind_Val in H1 as ([d1 ys] & B1 & H1). injection H1 as <- <-.
    apply bind_Val in H2 as ([c2 x2] & A2 & H2). apply bind_Val in H2 as ([d2 ys2] & B2 & H2). injection H2 as <- <-.
    apply (step_abstract _ _ _ _ _ I1 Ho) in A1 as [S1 J1]. apply (step_abstract _ _ _ _ _ I2 Ho) in A2 as [S2 J2].
    rewrite E, S2 in S1. assert (x = x2) by congruence. assert (Ev : view c1 = view c2) by congruence. subst x2.
    destruct (IH _ _ _ _ _ _ J1 J2 Ev Hos B1 B2) as [-> Ev2]. auto.
Qed.

Lemma new_view c b : 0 <= c -> new_with_capacity c = Val b -> inv b /\ view b = a_new.
Proof. intros Hc H. destruct (new_Rb _ _ Hc H) as [I E]. auto. Qed.

Lemma capacity_irrelevant h c1 c2 os b1 b2 xs1 xs2 :
  0 <= c1 -> 0 <= c2 -> forallb op_ok os = true ->
  program h c1 os = Val (b1, xs1) -> program h c2 os = Val (b2, xs2) ->
  xs1 = xs2 /\ unfinished_data b1 = unfinished_data b2.
Proof.
  intros H1 H2 Ho P1 P2. unfold program in *. apply bind_Val in P1 as (n1 & N1 & P1). apply bind_Val in P2 as (n2 & N2 & P2).
  destruct (new_view _ _ H1 N1) as [I1 E1]. destruct (new_view _ _ H2 N2) as [I2 E2].
  destruct (run_det h os n1 n2 b1 xs1 b2 xs2 I1 I2 ltac:(congruence) Ho P1 P2) as [E V]. split; [exact E|].
  apply (f_equal a_data) in V. exact V.
Qed.

Lemma capacity_completes h c1 c2 os b1 xs1 :
  0 <= c1 -> 0 <= c2 <= 2 ^ 31 -> forallb op_ok os = true ->
  program h c1 os = Val (b1, xs1) ->
  (forall p q b ys, os = p ++ q -> program h c1 p = Val (b, ys) -> blen (unfinished_data b) <= 2 ^ 31) ->
  exists b2, program h c2 os = Val (b2, xs1) /\ unfinished_data b1 = unfinished_data b2.
Proof.
  intros H1 H2 Ho P1 S. unfold program in *. apply bind_Val in P1 as (n1 & N1 & P1).
  destruct (new_view _ _ H1 N1) as [I1 E1].
  destruct (new_with_capacity c2) as [n2|e|] eqn:N2; try (unfold new_with_capacity, assert_always, MAX_BUFFER_SIZE in N2;
    replace (c2 <=? 2 ^ 31) with true in N2 by lia; discriminate).
  destruct (new_view c2 n2 (proj1 H2) N2) as [I2 E2].
  destruct (run_same h os n1 n2 b1 xs1 I1 I2 ltac:(congruence) Ho P1) as (b2 & R & V).
  - intros p q b ys E R. eapply S; eauto. rewrite N1. exact R.
  - exists b2. split; [exact R|]. apply (f_equal a_data) in V. exact V.
Qed.

Lemma unused_zero h c os b xs : 0 <= c -> forallb op_ok os = true -> program h c os = Val (b, xs) ->
  0 <= head b <= blen (owned_buf b) /\
  forall i, (i < Z.to_nat (head b))%nat -> nth_error (owned_buf b) i = Some x00.
Proof.
  intros Hc Ho H. pose proof (program_inv _ _ _ _ _ Hc Ho H) as I. pose proof (inv_head b I) as H0.
  split; [rewrite (inv_blen b I); pose proof (blen_nonneg (unfinished_data b)); lia|].
  intros i Hi. rewrite (inv_buf b I), nth_error_app1 by (unfold zeros; rewrite repeat_length; lia).
  unfold zeros. apply nth_error_repeat. exact Hi.
Qed.

Lemma reset_like_new h c c' os b xs later b1 ys1 b2 ys2 :
  0 <= c -> 0 <= c' -> forallb op_ok (os ++ later) = true -> closed os = true ->
  program h c os = Val (b, xs) -> run h (reset b) later = Val (b1, ys1) ->
  program h c' later = Val (b2, ys2) ->
  ys1 = ys2 /\ unfinished_data b1 = unfinished_data b2.
Proof.
  intros Hc Hc' Ho Hcl H R P. rewrite forallb_app in Ho. apply andb_true_iff in Ho as [Ho1 Ho2].
  pose proof (program_inv _ _ _ _ _ Hc Ho1 H) as I. pose proof (program_closed _ _ _ _ _ Hc Ho1 Hcl H) as F.
  destruct (reset_ref b (view b) (conj I eq_refl)) as [I1 E1]. cbn [view a_fields] in E1. rewrite F in E1.
  unfold program in P. apply bind_Val in P as (n2 & N2 & P). destruct (new_view _ _ Hc' N2) as [I2 E2].
  destruct (run_det h later (reset b) n2 b1 ys1 b2 ys2 I1 I2) as [E V]; auto; [rewrite E2; symmetry; exact E1|].
  split; [exact E|]. apply (f_equal a_data) in V. exact V.
Qed.

Lemma reset_completes h c c' os b xs later b2 ys2 :
  0 <= c -> 0 <= c' -> forallb op_ok (os ++ later) = true -> closed os = true ->
  program h c os = Val (b, xs) -> program h c' later = Val (b2, ys2) ->
  (forall p q b ys, later = p ++ q -> program h c' p = Val (b, ys) -> blen (unfinished_data b) <= 2 ^ 31) ->
  exists b1, run h (reset b) later = Val (b1, ys2) /\ unfinished_data b1 = unfinished_data b2.
Proof.
  intros Hc Hc' Ho Hcl H P S. rewrite forallb_app in Ho. apply andb_true_iff in Ho as [Ho1 Ho2].
  pose proof (program_inv _ _ _ _ _ Hc Ho1 H) as I. pose proof (program_closed _ _ _ _ _ Hc Ho1 Hcl H) as F.
  destruct (reset_ref b (view b) (conj I eq_refl)) as [I1 E1]. cbn [view a_fields] in E1. rewrite F in E1.
  unfold program in P, S. apply bind_Val in P as (n2 & N2 & P). destruct (new_view _ _ Hc' N2) as [I2 E2].
  destruct (run_same h later n2 (reset b) b2 ys2 I2 I1) as (b1 & R & V); auto.
  - rewrite E2. exact E1.
  - intros p q b' ys E R. eapply S; eauto. rewrite N2. exact R.
  - exists b1. split; [exact R|]. apply (f_equal a_data) in V. symmetry. exact V.
Qed.

(** ** Padding *)
Lemma least_gap d len al : pow8 al -> least_pad (blen d) len al (gap d len al).
Proof.
  intros P. pose proof (gap_range d len al P) as R. pose proof (gap_aligns d len al P) as G.
  assert (N : 0 < al) by (unfold pow8 in P; lia).
  split; [lia|]. split; [rewrite <- G; f_equal; lia|].
  intros p Hp E. apply Z.mod_divide in E; [|lia]. apply Z.mod_divide in G; [|lia].
  destruct E as (k & E), G as (j & G). assert (gap d len al - p = (j - k) * al) by lia. 
  assert (0 < j - k) by nia. nia.
Qed.

Lemma padding_least n k : 0 <= n < 2 ^ 64 -> 0 <= k <= 63 ->
  let p := padding_bytes n (2 ^ k) in
  0 <= p < 2 ^ k /\ (n + p) mod 2 ^ k = 0 /\ forall q, 0 <= q < p -> (n + q) mod 2 ^ k <> 0.
Proof.
  intros Hn Hk p. assert (Hp : 0 < 2 ^ k) by (apply Z.pow_pos_nonneg; lia).
  assert (E : p = (- n) mod 2 ^ k).
  { unfold p. rewrite <- (Z.mod_small n (2 ^ 64)) at 1 by lia. apply padding_pow. lia. }
  pose proof (Z.mod_pos_bound (- n) (2 ^ k) Hp) as B.
  assert (M : (n + p) mod 2 ^ k = 0).
  { rewrite E, Zplus_mod_idemp_r. replace (n + - n) with 0 by lia. apply Z.mod_0_l. lia. }
  split; [lia|]. split; [exact M|]. intros q Hq Q. apply Z.mod_divide in Q; [|lia]. apply Z.mod_divide in M; [|lia].
  destruct Q as (i & Q), M as (j & M). assert (p - q = (j - i) * 2 ^ k) by lia. assert (0 < j - i) by nia. nia.
Qed.

Lemma object_padding h a o a' x : op_ok o = true -> Forall field_ok (a_fields a) ->
  a_step false h a o = Val (a', x) -> blen (a_data a') < 2 ^ 32 -> one_object o = true ->
  exists vtable body pad, a_data a' = vtable ++ body ++ zeros pad ++ a_data a /\
    (is_end_table o = false -> vtable = []) /\ blen body = body_len o /\
    least_pad (blen (a_data a)) (aligned_len o) (op_align o) pad.
Proof.
  intros Ho Hok H L K.
  assert (Push : forall y, a_data a' = a_data (pushed a y) -> body_len o = natural (pty_of y) ->
    aligned_len o = natural (pty_of y) -> op_align o = natural (pty_of y) -> 
    exists vtable body pad, a_data a' = vtable ++ body ++ zeros pad ++ a_data a /\
    (is_end_table o = false -> vtable = []) /\ blen body = body_len o /\
    least_pad (blen (a_data a)) (aligned_len o) (op_align o) pad).
  { intros y E B Al Oa. rewrite pushed_data in E. exists []. eexists. eexists. split; [exact E|]. split; [auto|].
    rewrite blen_fbytes, B, Al, Oa, natural_align. split; [destruct y; reflexivity|].
    replace (push_alignment y) with (push_size y) at 1 by (destruct y; reflexivity). apply least_gap. apply push_alignment_pow8. }
  destruct o; cbn [one_object] in K; try discriminate; cbn [a_step] in H; unfold a_num, a_unit in H.
  - apply bind_Val in H as ([a1 n] & H & E). injection E as <- <-. apply a_push_val in H as (E & _).
    apply (Push x0); try reflexivity. rewrite E. reflexivity.
  - apply bind_Val in H as (a1 & H & E). injection E as <- <-.
    unfold a_push_slot in H. apply bind_Val in H as (u & _ & H).
    apply negb_true_iff in K. rewrite K in H. apply a_push_slot_always_val in H as (E & _).
    apply (Push x0); try reflexivity; [rewrite E; reflexivity|cbn [op_align]; rewrite K; reflexivity].
  - apply bind_Val in H as (a1 & H & E). injection E as <- <-. apply a_push_slot_always_val in H as (E & _).
    apply (Push x0); try reflexivity. rewrite E. reflexivity.
  - apply bind_Val in H as ([a1 n] & H & E). injection E as <- <-.
    unfold a_end_table in H. apply bind_Val in H as (u & _ & H).
    apply bind_Val in H as ([a2 o1] & H1 & H). injection H as <- <-.
    pose proof (a_write_vtable_len _ _ _ _ _ _ Hok H1). cbn [with_fields with_nested a_data] in L.
    apply a_write_vtable_val in H1; [|auto|lia].
    destruct H1 as (size & vt & dup & _ & _ & _ & _ & _ & _ & -> & _).
    unfold table_state. cbv zeta. cbn [with_fields with_nested a_data].
    eexists. eexists. eexists. split; [reflexivity|]. split; [discriminate|].
    split; [apply blen_wire|]. apply least_gap. exact pow8_4.
  - apply bind_Val in H as (a1 & H & E). injection E as <- <-.
    unfold a_start_vector in H. apply bind_Val in H as (u & _ & H). apply bind_Val in H as (m & Hm & H).
    apply a_pad_val in H as [-> _]; [|apply max4_pow8, pty_align_pow8]. cbn [with_nested with_data with_align a_data] in *.
    exists [], [], (gap (a_data a) m (Z.max (pty_align t) SIZE_UOFFSET)). split; [reflexivity|]. split; [auto|].
    split; [reflexivity|]. cbn [aligned_len op_align]. destruct (natural_pty t) as [Na Ns]. rewrite Na at 2.
    apply usize_arith_mod in Hm. rewrite Ns. 
    rewrite Hm, (gap_mod _ _ _ (max4_pow8 _ (pty_align_pow8 t))). apply least_gap. apply (max4_pow8 _ (pty_align_pow8 t)).
  - apply bind_Val in H as ([a1 n] & H & E). injection E as <- <-. unfold a_end_vector in H.
    apply bind_Val in H as (u & _ & H). apply a_push_val in H as (E & _).
    apply (Push (PScalar TU32 (as_u32 num_elems))); try reflexivity. rewrite E. reflexivity.
  - apply bind_Val in H as ([a1 n] & H & E). injection E as <- <-. apply a_create_string_val in H.
    apply a_create_byte_string_val in H as (E & _). exists [], (string_bytes s). eexists. rewrite E. cbn [with_data a_data].
    split; [reflexivity|]. split; [auto|]. split; [rewrite blen_string_bytes; cbn [body_len]; lia|]. apply least_gap. exact pow8_4.
  - apply bind_Val in H as ([a1 n] & H & E). injection E as <- <-.
    apply a_create_byte_string_val in H as (E & _). exists [], (string_bytes s). eexists. rewrite E. cbn [with_data a_data].
    split; [reflexivity|]. split; [auto|]. split; [rewrite blen_string_bytes; cbn [body_len]; lia|]. apply least_gap. exact pow8_4.
  - apply bind_Val in H as ([a1 n] & H & E). injection E as <- <-.
    apply a_create_vector_direct_val in H as (E & _). exists [], (wire TU32 (blen items) ++ slice_memory h t items). eexists. rewrite E. cbn [with_data a_data].
    split; [cbn [app]; rewrite <- app_assoc; reflexivity|]. split; [auto|].
    split; [rewrite blen_app, blen_wire, blen_slice_memory; cbn [body_len ssize]; lia|]. apply least_gap. apply (max4_pow8 _ (salign_pow8 t)).
  - apply bind_Val in H as ([a1 n] & H & E). injection E as <- <-. apply op_ok_items in Ho as [Ht _].
    apply a_create_vector_val in H as (E & _); auto. rewrite E. cbn [with_data a_data]. unfold vector_data. cbv zeta.
    destruct (natural_pty t) as [Na Ns].
    set (g := gap (a_data a) (blen items * pty_size t) (Z.max (pty_align t) 4)).
    assert (C : exists y, cells items (zeros g ++ a_data a) = y ++ zeros g ++ a_data a /\ blen y = blen items * pty_size t).
    { pose proof (blen_cells t items (zeros g ++ a_data a) Ht) as B. clear - B.
      assert (C : exists y, cells items (zeros g ++ a_data a) = y ++ zeros g ++ a_data a).
      { clear B. clearbody g. induction items as [|x l (y & IH)]; cbn [cells]; [exists []; reflexivity|]. rewrite IH. eexists. rewrite app_assoc. reflexivity. }
      destruct C as (y & C). exists y. split; [exact C|]. rewrite C, blen_app in B. lia. }
    destruct C as (y & C & B). exists [], (wire TU32 (blen items) ++ y), g. rewrite C.
    split; [cbn [app]; rewrite <- app_assoc; reflexivity|]. split; [auto|].
    split; [rewrite blen_app, blen_wire, B; cbn [body_len ssize]; rewrite Ns; lia|].
    cbn [aligned_len op_align]. rewrite Na at 2. rewrite Ns. apply least_gap. apply (max4_pow8 _ (pty_align_pow8 t)).
Qed.

Lemma padding_minimal h c os o b xs b' x :
  0 <= c -> forallb op_ok (os ++ [o]) = true -> program h c os = Val (b, xs) -> step h b o = Val (b', x) ->
  blen (unfinished_data b') < 2 ^ 32 -> one_object o = true ->
  exists vtable body pad, unfinished_data b' = vtable ++ body ++ zeros pad ++ unfinished_data b /\
    (is_end_table o = false -> vtable = []) /\ blen body = body_len o /\
    least_pad (blen (unfinished_data b)) (aligned_len o) (op_align o) pad.
Proof.
  intros Hc Ho H S L K. rewrite forallb_app in Ho. apply andb_true_iff in Ho as [Ho1 Ho2]. cbn [forallb] in Ho2. rewrite andb_true_r in Ho2.
  pose proof (program_inv _ _ _ _ _ Hc Ho1 H) as I. destruct (step_abstract _ _ _ _ _ I Ho2 S) as [A _].
  exact (object_padding h (view b) o (view b') x Ho2 (inv_fields b I) A L K).
Qed.

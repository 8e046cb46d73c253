(** C04: a debug build panics on untrusted bytes only in the listed situations. *)
From Coq Require Import ZArith List Bool Lia Strings.Byte ZifyBool ZifyNat ZifyN.
From Verif Require Import Base Scalar Utf8 Reader Client BaseFacts ScalarFacts SpecWire WireFacts
  ReaderFacts ReaderProofs ReaderProofs2 ReaderProofs3 ReaderProofs4.
Import ListNotations.
Local Open Scope Z_scope.

Lemma wire_plain t : wire_type t = true -> plain t = true.
Proof. induction t; cbn; auto. Qed.

Lemma wire_size t : wire_type t = true -> 0 < size_of t.
Proof. destruct t; cbn; intros; try discriminate; try lia; apply ssize_pos. Qed.

Section Dbg.
Context (h : host) (Hh : debug h = true) (buf : list byte) (Hm : blen buf < 2 ^ 31).

Lemma follow_handle t : forall loc v,
  wire_type t = true -> 0 <= loc < 2 ^ 40 -> follow h t buf loc = Val v -> handle_ok v.
Proof.
  induction t; intros loc v Hp Hl Hf; cbn [wire_type] in Hp; try discriminate; cbn [follow] in Hf.
  - destruct t; apply bind_Val in Hf as (x & _ & [= <-]); exact I.
  - apply bind_Val in Hf as (x & _ & [= <-]); exact I.
  - apply bind_Val in Hf as (x & _ & [= <-]); exact I.
  - injection Hf as <-. split; [lia|exact Hp].
  - injection Hf as <-. exact Hl.
  - injection Hf as <-. unfold handle_ok, usize_ok. lia.
  - unfold SIZE_UOFFSET in Hf. rewrite usize_arith_ok in Hf by lia. cbn [bind] in Hf.
    destruct (get_range buf loc (loc + 4)) as [x|] eqn:E; [|discriminate]. cbn [ok_or bind] in Hf.
    destruct (get_range_blen buf loc (loc+4) x ltac:(lia) E) as [Hx Hr].
    rewrite read_scalar_exact in Hf by (cbn [ssize]; lia). cbn [bind] in Hf.
    pose proof (scalar_of_unsigned_range TU32 x eq_refl ltac:(cbn [ssize]; lia)) as R.
    change (8 * ssize TU32) with 32 in R.
    rewrite usize_arith_ok in Hf by lia. cbn [bind] in Hf. eapply IHt; [auto| |exact Hf]. lia.
  - unfold SIZE_VOFFSET in Hf. rewrite usize_arith_ok in Hf by lia. cbn [bind] in Hf.
    destruct (get_range buf loc (loc + 2)) as [x|] eqn:E; [|discriminate]. cbn [ok_or bind] in Hf.
    destruct (get_range_blen buf loc (loc+2) x ltac:(lia) E) as [Hx Hr].
    rewrite read_scalar_exact in Hf by (cbn [ssize]; lia). cbn [bind] in Hf.
    pose proof (scalar_of_unsigned_range TU16 x eq_refl ltac:(cbn [ssize]; lia)) as R.
    change (8 * ssize TU16) with 16 in R.
    rewrite usize_arith_ok in Hf by lia. cbn [bind] in Hf. eapply IHt; [auto| |exact Hf]. lia.
  - apply bind_Val in Hf as (x & _ & Hf). destruct (existsb _ _); [injection Hf as <-; exact I|discriminate].
Qed.

(** [fine P x]: [x] is not a panic, and a returned value satisfies [P]. *)
Definition good (P : fval -> Prop) (x : outcome (list fval)) : Prop := safe (Forall P) x.

Lemma follow_fine t loc :
  wire_type t = true -> 0 <= loc < 2 ^ 40 -> safe handle_ok (follow h t buf loc).
Proof.
  intros Ht Hl.
  pose proof (follow_plain_no_panic h t buf loc (wire_plain _ Ht) ltac:(lia) ltac:(lia)).
  pose proof (follow_handle t loc).
  destruct (follow h t buf loc); cbn; auto.
Qed.

Lemma bind_fine {A} (Q : A -> Prop) (x : outcome A) (f : A -> list fval) :
  safe Q x -> (forall a, Q a -> Forall handle_ok (f a)) ->
  good handle_ok (let* a := x in Val (f a)).
Proof. destruct x; cbn; auto. Qed.

Lemma no_panic_fine {A} (x : outcome A) :
  x <> Panic -> good handle_ok (let* _ := x in Val []).
Proof. destruct x; cbn; auto; congruence. Qed.

Lemma soffset_dec tab : 0 <= tab ->
  (blen buf < tab + 4) \/ (tab + 4 <= blen buf /\ exists s, soffset_at buf tab s).
Proof.
  intros. destruct (Z.lt_ge_cases (blen buf) (tab + 4)); [auto|]. right. split; [lia|].
  apply soffset_exists; lia.
Qed.

Lemma table_vtable_fine tab :
  0 <= tab < 2 ^ 40 -> (forall s, soffset_at buf tab s -> tab - s < 2 ^ 31) ->
  safe usize_ok (table_vtable h buf tab).
Proof.
  intros Ht Hs. destruct (soffset_dec tab ltac:(lia)) as [E|[E [s E2]]].
  - rewrite table_vtable_short by lia. exact I.
  - rewrite (table_vtable_spec h buf tab s) by (auto; lia).
    specialize (Hs _ E2). destruct E2 as [R _].
    rewrite i32_arith_ok by lia. cbn [bind safe]. unfold usize_ok, i32_as_usize. apply Z.mod_pos_bound. lia.
Qed.

Lemma num_bytes_fine l : usize_ok l -> l < 2 ^ 64 - 2 ->
  safe (fun n => le_at buf l 2 n) (vt_num_bytes h buf l).
Proof.
  unfold usize_ok. intros Hl H2. unfold vt_num_bytes.
  pose proof (read_scalar_at_no_panic h TU16 buf l ltac:(lia) ltac:(cbn [ssize]; lia) ltac:(lia)) as S.
  destruct (read_scalar_at h TU16 buf l) eqn:E; cbn in *; auto.
  apply u16_read_inv in E; auto. lia.
Qed.

Lemma table_get_fine tab slot t d :
  0 <= tab < 2 ^ 40 -> 0 <= slot < 2 ^ 16 -> wire_type t = true -> (forall v, d = Some v -> handle_ok v) ->
  (forall s, soffset_at buf tab s -> tab - s <> -1 /\ tab - s <> -2 /\ tab - s < 2 ^ 31) ->
  good handle_ok (let* o := table_get h buf tab slot t d in Val (opt_list o)).
Proof.
  intros Ht Hslot Hw Hd Hs.
  apply (bind_fine (fun o => forall v, o = Some v -> handle_ok v)).
  2:{ intros [v|] Ho; cbn; auto. }
  destruct (soffset_dec tab ltac:(lia)) as [E|[E [s E2]]].
  { rewrite table_get_short by lia. exact I. }
  unfold table_get. rewrite (table_vtable_spec h buf tab s) by (auto; lia).
  specialize (Hs _ E2). destruct E2 as [R _]. rewrite i32_arith_ok by lia. cbn [bind].
  unfold vt_get. set (vt := i32_as_usize (tab - s)).
  assert (Hvt : usize_ok vt /\ vt < 2 ^ 64 - 2).
  { subst vt. unfold i32_as_usize, usize_ok.
    destruct (Z.lt_ge_cases (tab - s) 0); [rewrite mod_neg by lia|rewrite Z.mod_small by lia]; lia. }
  pose proof (num_bytes_fine vt (proj1 Hvt) (proj2 Hvt)) as S.
  destruct (vt_num_bytes h buf vt) as [n| |] eqn:En; cbn [bind safe] in *; auto.
  destruct (u16_read h _ _ _ S ltac:(lia)) as (_ & Hn & Hb).
  destruct (n <=? slot) eqn:Es; [exact Hd|]. cbn [bind].
  unfold usize_ok in Hvt. rewrite usize_arith_ok by lia. cbn [bind].
  pose proof (read_scalar_at_no_panic h TU16 buf (vt + slot) ltac:(lia) ltac:(cbn [ssize]; lia) ltac:(lia)) as S2.
  destruct (read_scalar_at h TU16 buf (vt + slot)) as [off| |] eqn:E3; cbn [bind] in *; auto.
  apply u16_read_inv in E3; [|lia|lia].
  destruct (u16_read h _ _ _ E3 ltac:(lia)) as (_ & Ho & _).
  destruct (off =? 0); [exact Hd|].
  rewrite usize_arith_ok by lia. cbn [bind].
  pose proof (follow_fine t (tab + off) Hw ltac:(lia)) as F.
  destruct (follow h t buf (tab + off)); cbn in *; auto. intros v [= <-]. auto.
Qed.

Lemma get_field_fine l idx :
  usize_ok l -> usize_ok idx -> l < 2 ^ 64 - 2 -> (forall n, le_at buf l 2 n -> 4 <= n) ->
  vt_num_fields h buf l <> Panic /\ vt_get_field h buf l idx <> Panic.
Proof.
  unfold usize_ok. intros Hl Hi H2 H4.
  pose proof (num_bytes_fine l Hl H2) as S. unfold vt_get_field, vt_num_fields.
  destruct (vt_num_bytes h buf l) as [n| |]; cbn [bind safe] in *; [|split; discriminate|contradiction].
  specialize (H4 _ S). destruct (u16_read h _ _ _ S ltac:(lia)) as (_ & Hn & Hb).
  unfold SIZE_VOFFSET. rewrite usize_arith_ok by lia. cbn [bind]. split; [discriminate|].
  destruct (n / 2 - 2 <? idx) eqn:E; [discriminate|].
  repeat (rewrite usize_arith_ok by lia; cbn [bind]).
  pose proof (read_scalar_at_no_panic h TU16 buf (l + 2 + 2 + 2 * idx) ltac:(lia) ltac:(cbn [ssize]; lia) ltac:(lia)) as S2.
  destruct (read_scalar_at h TU16 buf (l + 2 + 2 + 2 * idx)); cbn in *; auto; discriminate.
Qed.

Lemma item_vals_fine (P : fval -> Prop) xs :
  Forall (fun x : iter_item => forall v, x = Some (Val v) -> P v) xs -> Forall P (item_vals xs).
Proof.
  induction 1 as [|x xs Hx _ IH]; cbn; auto.
  destruct x as [[v| |]|]; auto.
Qed.

Lemma dq_calls_in {A} (P : option A -> Prop) cs : forall l : list A,
  P None -> Forall (fun x => P (Some x)) l -> Forall P (fst (dq_calls cs l)).
Proof.
  induction cs as [|c cs IH]; intros l Hn Hl; cbn [dq_calls]; [constructor|].
  assert (S : P (fst (dq_call c l)) /\ Forall (fun x => P (Some x)) (snd (dq_call c l))).
  { assert (N : forall l : list A, Forall (fun x => P (Some x)) l -> P (fst (dq_next l)) /\ Forall (fun x => P (Some x)) (snd (dq_next l))).
    { intros l0 H0. destruct H0; cbn; auto. }
    assert (B : forall l : list A, Forall (fun x => P (Some x)) l -> P (fst (dq_next_back l)) /\ Forall (fun x => P (Some x)) (snd (dq_next_back l))).
    { intros l0 H0. unfold dq_next_back. apply Forall_rev in H0. destruct H0; cbn; auto. split; auto. apply Forall_rev. auto. }
    destruct c; cbn [dq_call]; auto.
    - apply N. apply Forall_forall. intros x Hx. rewrite Forall_forall in Hl. apply Hl.
      rewrite <- (firstn_skipn (Z.to_nat n) l). apply in_or_app. auto.
    - apply B. apply Forall_forall. intros x Hx. rewrite Forall_forall in Hl. apply Hl.
      rewrite <- (firstn_skipn (length l - Z.to_nat n) l). apply in_or_app. auto. }
  destruct (dq_call c l) as [x l1]. cbn [fst snd] in S. destruct S as [S1 S2].
  specialize (IH l1 Hn S2). destruct (dq_calls cs l1) as [xs l2]. cbn [fst] in *. constructor; auto.
Qed.

Lemma vec_get_fine t l n i :
  wire_type t = true -> le_at buf l 4 n -> 0 <= i < n -> safe handle_ok (vec_get h t buf l i).
Proof.
  intros Hw Hn Hi. destruct (u32_read h _ _ _ Hn ltac:(lia)) as (_ & R & B). pose proof Hn as (Hv & _).
  rewrite (vec_get_cell h t buf l n i) by (auto using wire_size; lia).
  apply follow_fine; auto. pose proof (size_of_le t). nia.
Qed.

Lemma zseq_In a k x : In x (zseq a k) -> a <= x < a + Z.of_nat k.
Proof. revert a. induction k; cbn; intros a; [tauto|]. intros [->|H]; [lia|]. apply IHk in H. lia. Qed.

Lemma vec_iter_fine t l cs :
  wire_type t = true -> 0 <= l < 2 ^ 40 -> Forall itcall_ok cs ->
  (forall n, In (INth n) cs -> size_of t * n < 2 ^ 64) ->
  good handle_ok (let* it := vec_iter h buf l in
                  let* (xs, _) := iter_calls h t buf cs it in Val (item_vals xs)).
Proof.
  intros Hw Hl Hcs Hn. pose proof (wire_size t Hw) as Hsz.
  assert (Hf : Forall (itcall_fits h t) cs).
  { rewrite Forall_forall in *. intros c Hc. specialize (Hcs c Hc). destruct c; cbn in *; auto. }
  destruct (Z.lt_ge_cases (blen buf) (l + 4)) as [E|E].
  - destruct (iteration_unreadable h t buf l cs ltac:(lia) ltac:(lia) E Hsz Hf) as (it & -> & it' & E' & _).
    cbn [bind]. rewrite E'. cbn [bind good safe].
    apply item_vals_fine. apply Forall_forall. intros x Hx. apply in_map_iff in Hx as (_ & <- & _). discriminate.
  - destruct (proj2 (le_at_dec buf l 4 ltac:(lia) ltac:(lia)) ltac:(lia)) as [n En].
    destruct (iteration_deque h t buf l n cs ltac:(lia) (wire_plain t Hw) Hsz En Hf) as (it & -> & it' & E' & _).
    cbn [bind]. rewrite E'. cbn [bind good safe].
    apply item_vals_fine. apply dq_calls_in; [discriminate|].
    unfold elements. apply Forall_forall. intros x Hx. apply in_map_iff in Hx as (i & <- & Hi).
    apply zseq_In in Hi. intros v [= Ev].
    pose proof (vec_get_fine t l n i Hw En ltac:(lia)) as S. rewrite Ev in S. exact S.
Qed.

Lemma read_u32_fine l : 0 <= l < 2 ^ 63 -> read_scalar_at h TU32 buf l <> Panic.
Proof.
  intros Hl E. pose proof (read_scalar_at_no_panic h TU32 buf l ltac:(lia) ltac:(cbn [ssize]; lia) ltac:(lia)) as S.
  rewrite E in S. exact S.
Qed.

Lemma exec_fine hs c :
  Forall handle_ok hs -> call_ok c -> ~ hazard buf hs c -> good handle_ok (exec h buf hs c).
Proof.
  intros Hhs [Hc Hc2] Hz.
  assert (Hn : forall i v, nth_error hs i = Some v -> handle_ok v).
  { intros i v E. rewrite Forall_forall in Hhs. apply Hhs. eapply nth_error_In, E. }
  destruct c; cbn [exec rcall_ok hazard] in *; unfold on_table, on_vtable, on_vector;
    try (destruct (nth_error hs i) as [[]|] eqn:E; try (constructor; fail); pose proof (Hn _ _ E) as Hv; cbn [handle_ok] in Hv).
  - destruct Hc2. unfold usize_ok in Hc. apply (bind_fine handle_ok); [apply follow_fine; auto; lia|auto].
  - apply (bind_fine handle_ok); [|auto].
    exact (follow_fine (FUOffset t) 0 Hc2 ltac:(lia)).
  - apply (bind_fine handle_ok); [|auto].
    unfold get_size_prefixed_root. change (follow h (FSkipSizePrefix (FUOffset t)) buf 0)
      with (let* l := usize_arith h (0 + SIZE_UOFFSET) in follow h (FUOffset t) buf l).
    unfold SIZE_UOFFSET. rewrite usize_arith_ok by lia. cbn [bind].
    exact (follow_fine (FUOffset t) (0 + 4) Hc2 ltac:(lia)).
  - apply no_panic_fine. unfold buffer_has_identifier, assert_always, FILE_IDENTIFIER_LENGTH.
    rewrite Hc. cbn [Z.eqb Pos.eqb bind].
    destruct size_prefixed; cbn [follow]; unfold SIZE_UOFFSET, FILE_IDENTIFIER_LENGTH;
      repeat (rewrite usize_arith_ok by lia; cbn [bind]);
      (destruct (get_range _ _ _); cbn; discriminate).
  - destruct Hc as [Hs _]. destruct Hc2 as [Hw Hd]. apply table_get_fine; auto.
    intros s Hso. assert (C : ~ (loc - s = -1 \/ loc - s = -2 \/ 2 ^ 31 <= loc - s)) by (intros C; apply Hz; eauto).
    lia.
  - apply (bind_fine usize_ok); [|intros a Ha; constructor; auto].
    apply table_vtable_fine; auto. intros s Hso.
    destruct (Z.lt_ge_cases (loc - s) (2 ^ 31)); [auto|]. exfalso. apply Hz. eauto.
  - apply no_panic_fine.
    assert (H2 : loc < 2 ^ 64 - 2 /\ forall n, le_at buf loc 2 n -> 4 <= n).
    { split; [|intros n Hle]; apply Z.nlt_ge || apply Z.nle_gt; intros C; apply Hz; eexists; split; try reflexivity; eauto. }
    apply (get_field_fine loc 0); auto; try apply H2. unfold usize_ok. lia.
  - apply no_panic_fine.
    assert (H2 : loc < 2 ^ 64 - 2) by (apply Z.nle_gt; intros C; apply Hz; eauto).
    pose proof (num_bytes_fine loc Hv H2) as S. intros C. rewrite C in S. exact S.
  - apply no_panic_fine.
    assert (H2 : loc < 2 ^ 64 - 4) by (apply Z.nle_gt; intros C; apply Hz; eauto).
    unfold vt_object_inline_num_bytes, SIZE_VOFFSET. unfold usize_ok in Hv. rewrite usize_arith_ok by lia. cbn [bind].
    pose proof (read_scalar_at_no_panic h TU16 buf (loc + 2) ltac:(lia) ltac:(cbn [ssize]; lia) ltac:(lia)) as S.
    intros C. rewrite C in S. exact S.
  - apply no_panic_fine.
    assert (H2 : loc < 2 ^ 64 - 2 /\ forall n, le_at buf loc 2 n -> 4 <= n).
    { split; [|intros n Hle]; apply Z.nlt_ge || apply Z.nle_gt; intros C; apply Hz; eexists; split; try reflexivity; eauto. }
    apply (get_field_fine loc idx); auto; apply H2.
  - apply no_panic_fine.
    assert (H2 : loc < 2 ^ 64 - 2) by (apply Z.nle_gt; intros C; apply Hz; eauto).
    pose proof (num_bytes_fine loc Hv H2) as S. unfold vt_get.
    destruct (vt_num_bytes h buf loc) as [n| |]; cbn [bind safe] in *; [|discriminate|contradiction].
    destruct (u16_read h _ _ _ S ltac:(lia)) as (_ & Hn2 & Hb).
    destruct (n <=? slot) eqn:Es; [discriminate|]. pose proof S as (Hl0 & _).
    rewrite usize_arith_ok by lia. cbn [bind].
    pose proof (read_scalar_at_no_panic h TU16 buf (loc + slot) ltac:(lia) ltac:(cbn [ssize]; lia) ltac:(lia)) as S2.
    destruct (read_scalar_at h TU16 buf (loc + slot)); cbn in *; auto; discriminate.
  - apply no_panic_fine.
    assert (H2 : loc < 2 ^ 64 - 2) by (apply Z.nle_gt; intros C; apply Hz; eauto).
    pose proof (num_bytes_fine loc Hv H2) as S. unfold vt_as_bytes.
    destruct (vt_num_bytes h buf loc) as [n| |]; cbn [bind safe] in *; [|discriminate|contradiction].
    destruct (u16_read h _ _ _ S ltac:(lia)) as (_ & Hn2 & Hb). pose proof S as (Hl0 & _).
    rewrite usize_arith_ok by lia. cbn [bind]. clear S. destruct (get_range _ _ _); discriminate.
  - apply no_panic_fine. destruct Hv as [Hv _]. apply read_u32_fine. lia.
  - apply no_panic_fine. destruct Hv as [Hv _]. unfold vec_is_empty, vec_len.
    pose proof (read_u32_fine loc ltac:(lia)). destruct (read_scalar_at h TU32 buf loc); cbn; congruence.
  - apply (bind_fine handle_ok); [|auto]. destruct Hv as [Hv Hw].
    destruct (Z.lt_ge_cases (blen buf) (loc + 4)) as [Es|Es].
    + unfold vec_get. rewrite Hh.
      rewrite read_out_of_bounds by (change (ssize TU32) with 4; lia). exact I.
    + destruct (proj2 (le_at_dec buf loc 4 ltac:(lia) ltac:(lia)) ltac:(lia)) as [n En].
      apply (vec_get_fine t loc n idx); auto. unfold usize_ok in Hc.
      assert (~ n <= idx) by (intros C; apply Hz; exists t, loc, n; auto). lia.
  - apply no_panic_fine. destruct Hv as [Hv _].
    pose proof (follow_plain_no_panic h (FSlice t) buf loc eq_refl ltac:(lia) ltac:(lia)) as N.
    cbn [follow] in N. destruct (follow_slice_helper h t buf loc); cbn in *; congruence.
  - destruct Hv as [Hv Hw]. apply vec_iter_fine; auto.
    intros n Hin. apply Z.nle_gt. intros C. apply Hz. eauto 8.
Qed.

Lemma soffset_cases (P : Z -> Prop) tab :
  0 <= tab -> (forall s, {P s} + {~ P s}) ->
  (exists s, soffset_at buf tab s /\ P s) \/ ~ (exists s, soffset_at buf tab s /\ P s).
Proof.
  intros Ht D. destruct (soffset_dec tab Ht) as [E|[_ [s E]]].
  - right. intros (s & [_ H] & _). destruct (u32_read h _ _ _ H ltac:(lia)) as (_ & _ & ?). lia.
  - destruct (D s); [left; eauto|]. right. intros (s' & H & HP).
    rewrite (soffset_unique _ _ _ _ E H) in *. auto.
Qed.

Lemma le_cases (P : Z -> Prop) l k :
  (0 < k)%nat -> 0 <= l -> (forall s, {P s} + {~ P s}) ->
  (exists s, le_at buf l k s /\ P s) \/ ~ (exists s, le_at buf l k s /\ P s).
Proof.
  intros Hk Ht D. destruct (Z.lt_ge_cases (blen buf) (l + Z.of_nat k)) as [E|E].
  - right. intros (s & H & _). pose proof (proj1 (le_at_dec buf l k Hk Ht) (ex_intro _ s H)). lia.
  - apply Z.ge_le in E || idtac. apply le_at_dec in E; auto. destruct E as [s E].
    destruct (D s); [left; eauto|]. right. intros (s' & H & HP).
    rewrite (le_at_det _ _ _ _ _ Hk E H) in *. auto.
Qed.

Lemma hazard_dec hs c : Forall handle_ok hs -> hazard buf hs c \/ ~ hazard buf hs c.
Proof.
  intros Hhs.
  assert (Hn : forall i v, nth_error hs i = Some v -> handle_ok v).
  { intros i v E. rewrite Forall_forall in Hhs. apply Hhs. eapply nth_error_In, E. }
  destruct c; cbn [hazard]; auto;
    (destruct (nth_error hs i) as [[]|] eqn:E;
     try (right; intros X; decompose [ex and] X; discriminate);
     pose proof (Hn _ _ E) as Hv; cbn [handle_ok] in Hv).
  - destruct (soffset_cases (fun s => loc - s = -1 \/ loc - s = -2 \/ 2 ^ 31 <= loc - s) loc ltac:(lia)) as [X|X].
    + intros s. destruct (Z.eq_dec (loc - s) (-1)), (Z.eq_dec (loc - s) (-2)), (Z_le_dec (2 ^ 31) (loc - s)); auto; right; lia.
    + left. destruct X as (s & A & B). eauto.
    + right. intros (l & s & [= <-] & A & B). eauto.
  - destruct (soffset_cases (fun s => 2 ^ 31 <= loc - s) loc ltac:(lia)) as [X|X].
    + intros s. apply Z_le_dec.
    + left. destruct X as (s & A & B). eauto.
    + right. intros (l & s & [= <-] & A & B). eauto.
  - destruct (le_cases (fun n => n < 4) loc 2 ltac:(lia) ltac:(unfold usize_ok in Hv; lia)) as [X|X].
    + intros s. apply Z_lt_dec.
    + left. eauto.
    + destruct (Z_le_dec (2 ^ 64 - 2) loc); [left; eauto|]. right. intros (l & [= <-] & [C|C]); auto.
  - destruct (Z_le_dec (2 ^ 64 - 2) loc); [left; eauto|]. right. intros (l & [= <-] & C); auto.
  - destruct (Z_le_dec (2 ^ 64 - 4) loc); [left; eauto|]. right. intros (l & [= <-] & C); auto.
  - destruct (le_cases (fun n => n < 4) loc 2 ltac:(lia) ltac:(unfold usize_ok in Hv; lia)) as [X|X].
    + intros s. apply Z_lt_dec.
    + left. eauto.
    + destruct (Z_le_dec (2 ^ 64 - 2) loc); [left; eauto|]. right. intros (l & [= <-] & [C|C]); auto.
  - destruct (Z_le_dec (2 ^ 64 - 2) loc); [left; eauto|]. right. intros (l & [= <-] & C); auto.
  - destruct (Z_le_dec (2 ^ 64 - 2) loc); [left; eauto|]. right. intros (l & [= <-] & C); auto.
  - destruct Hv as [Hv _].
    destruct (le_cases (fun n => n <= idx) loc 4 ltac:(lia) ltac:(lia)) as [X|X].
    + intros s. apply Z_le_dec.
    + left. destruct X as (s & A & B). eauto 8.
    + right. intros (t' & l & n & [= <- <-] & A & B). eauto.
  - assert (D : forall c, {exists n, INth n = c /\ 2 ^ 64 <= size_of t * n} + {~ exists n, INth n = c /\ 2 ^ 64 <= size_of t * n}).
    { intros [| |n|n]; try (right; intros (? & ? & ?); discriminate).
      destruct (Z_le_dec (2 ^ 64) (size_of t * n)); [left; eauto|]. right. intros (m & [= ->] & ?). auto. }
    destruct (Exists_dec _ cs D) as [X|X].
    + left. apply Exists_exists in X as (c & Hin & n & <- & Hb). eauto 8.
    + right. intros (t' & l & n & [= <- <-] & A & B). apply X. apply Exists_exists. eauto.
Qed.

Lemma client_fine cs : forall hs,
  Forall handle_ok hs -> Forall call_ok cs -> client h buf hs cs = Panic ->
  exists pre c post hs', cs = pre ++ c :: post /\ client h buf hs pre = Val hs' /\ hazard buf hs' c.
Proof.
  induction cs as [|c cs IH]; intros hs Hhs Hcs Hp; [discriminate|].
  inversion_clear Hcs as [|? ? H1 H2]. cbn [client] in Hp.
  pose proof (exec_fine hs c Hhs H1) as F.
  destruct (exec h buf hs c) as [new|e|] eqn:E.
  - assert (Hnew : Forall handle_ok (hs ++ new) \/ hazard buf hs c).
    { destruct (hazard_dec hs c Hhs) as [Z|Z]; [auto|]. left. apply Forall_app. split; [auto|]. exact (F Z). }
    destruct Hnew as [Hnew|Hz].
    + destruct (IH _ Hnew H2 Hp) as (pre & c' & post & hs' & -> & Hpre & Hz).
      exists (c :: pre), c', post, hs'. split; [reflexivity|]. split; [|auto]. cbn [client]. rewrite E. auto.
    + exists [], c, cs, hs. auto.
  - destruct (IH _ Hhs H2 Hp) as (pre & c' & post & hs' & -> & Hpre & Hz).
    exists (c :: pre), c', post, hs'. split; [reflexivity|]. split; [|auto]. cbn [client]. rewrite E. auto.
  - exists [], c, cs, hs. split; [reflexivity|]. split; [reflexivity|].
    destruct (hazard_dec hs c Hhs) as [Z|Z]; [auto|]. destruct (F Z).
Qed.
End Dbg.

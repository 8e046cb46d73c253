(** Safety of the reader on arbitrary bytes. *)
From Coq Require Import ZArith List Bool Lia Strings.Byte ZifyBool ZifyNat ZifyN.
From Verif Require Import Base Scalar Utf8 Reader Client BaseFacts ScalarFacts.
Import ListNotations.
Local Open Scope Z_scope.

(** [x] does not panic, and its value satisfies [P]. *)
Definition safe {A} (P : A -> Prop) (x : outcome A) : Prop :=
  match x with Val a => P a | Err _ => True | Panic => False end.

Lemma safe_bind {A B} (P : A -> Prop) (Q : B -> Prop) x (f : A -> outcome B) :
  safe P x -> (forall a, x = Val a -> P a -> safe Q (f a)) -> safe Q (bind x f).
Proof. destruct x; simpl; auto. Qed.

Lemma safe_weaken {A} (P Q : A -> Prop) x : safe P x -> (forall a, P a -> Q a) -> safe Q x.
Proof. destruct x; simpl; auto. Qed.

Lemma safe_usize h v : debug h = false -> safe usize_ok (usize_arith h v).
Proof.
  intros Hh. unfold usize_arith, unsigned_arith. rewrite Hh.
  destruct (_ && _) eqn:E; simpl; unfold usize_ok.
  - lia.
  - apply Z.mod_pos_bound. lia.
Qed.

Lemma safe_ok_or {A} (o : option A) e : safe (fun x => o = Some x) (ok_or o e).
Proof. destruct o; simpl; auto. Qed.

Lemma safe_debug_assert h b : debug h = false -> safe (fun _ => True) (debug_assert h b).
Proof. intros E. unfold debug_assert. rewrite E. simpl. exact I. Qed.

Lemma safe_read_scalar h t s : safe (fun v => exists x, blen x = ssize t /\ v = scalar_of t x) (read_scalar h t s).
Proof.
  destruct (Z.lt_ge_cases (blen s) (ssize t)).
  - rewrite read_scalar_short by auto. exact I.
  - pose proof (ssize_pos t).
    destruct (split_at s (ssize t)) as (a & b & -> & Ha & Hb); [lia|].
    rewrite read_scalar_ok by auto. simpl. eauto.
Qed.

Lemma safe_read_scalar_at h t s loc :
  debug h = false ->
  safe (fun v => exists x, blen x = ssize t /\ v = scalar_of t x) (read_scalar_at h t s loc).
Proof.
  intros Hh. unfold read_scalar_at.
  eapply safe_bind; [apply safe_usize, Hh|]. intros e _ _.
  eapply safe_bind; [apply safe_ok_or|]. intros x _ _.
  apply safe_read_scalar.
Qed.

Lemma mod_usize_ok v : usize_ok (v mod 2 ^ 64).
Proof. apply Z.mod_pos_bound. lia. Qed.

Lemma read_u32_loc h buf loc n :
  usize_ok loc -> blen buf < 2 ^ 63 -> read_scalar_at h TU32 buf loc = Val n ->
  0 <= n < 2 ^ 32 /\ loc + 4 <= blen buf.
Proof.
  intros Hl Hb H. rewrite read_scalar_at_spec in H by auto. change (ssize TU32) with 4 in H.
  destruct (get_range buf loc (loc + 4)) as [x|] eqn:E.
  - injection H as <-. unfold usize_ok in Hl.
    destruct (get_range_blen buf loc (loc + 4) x ltac:(lia) E) as [Hx Hr].
    split; [|lia]. apply (scalar_of_unsigned_range TU32); [reflexivity|]. change (ssize TU32) with 4. lia.
  - destruct (_ && _); discriminate.
Qed.

Lemma safe_follow_str h buf loc :
  debug h = false -> usize_ok loc -> blen buf < 2 ^ 63 -> safe (fun _ => True) (follow_str h buf loc).
Proof.
  intros Hh Hl Hb. unfold follow_str.
  eapply safe_bind; [apply safe_read_scalar_at, Hh|]. intros len Hlen _.
  apply read_u32_loc in Hlen; auto. unfold usize_ok in Hl. unfold SIZE_UOFFSET.
  rewrite usize_arith_ok by lia. cbn [bind].
  rewrite usize_arith_ok by lia. cbn [bind].
  destruct (blen buf <=? loc + 4 + len) eqn:E; [exact I|].
  unfold index. replace (0 <=? loc + 4 + len) with true by lia.
  destruct (nth_error buf (Z.to_nat (loc + 4 + len))) eqn:En.
  2:{ apply nth_error_None in En. unfold blen in E. lia. }
  cbn [expect_some bind]. destruct (negb _); [exact I|].
  unfold index_range. destruct (get_range buf (loc + 4) (loc + 4 + len)) eqn:Eg.
  2:{ apply get_range_None_iff in Eg. lia. }
  cbn [expect_some bind]. destruct (utf8_valid _); exact I.
Qed.

Lemma safe_follow_slice_helper h t buf loc :
  debug h = false -> safe (fun _ => True) (follow_slice_helper h t buf loc).
Proof.
  intros Hh. unfold follow_slice_helper.
  eapply safe_bind; [apply safe_debug_assert, Hh|]. intros _ _ _.
  eapply safe_bind; [apply safe_read_scalar_at, Hh|]. intros len _ _.
  do 3 (eapply safe_bind; [apply safe_usize, Hh|]; intros ? _ _).
  eapply safe_bind; [apply safe_ok_or|]. intros x _ _. exact I.
Qed.

Lemma safe_follow h t buf loc :
  debug h = false -> usize_ok loc -> blen buf < 2 ^ 63 -> safe fval_ok (follow h t buf loc).
Proof.
  intros Hh Hl Hb. revert loc Hl.
  induction t; intros loc Hl; cbn [follow].
  - assert (safe fval_ok (let* v := read_scalar_at h t buf loc in Val (VScalar v))).
    { eapply safe_bind; [apply safe_read_scalar_at, Hh|]. intros; exact I. }
    destruct t; auto.
    eapply safe_bind; [apply safe_read_scalar_at, Hh|]. intros; exact I.
  - eapply safe_bind; [apply safe_follow_str; auto|]. intros; exact I.
  - eapply safe_bind; [apply safe_follow_slice_helper; auto|]. intros; exact I.
  - exact Hl.
  - exact Hl.
  - exact Hl.
  - eapply safe_bind; [apply safe_usize, Hh|]. intros e _ _.
    eapply safe_bind; [apply safe_ok_or|]. intros x _ _.
    eapply safe_bind; [apply safe_read_scalar|]. intros off _ _.
    eapply safe_bind; [apply safe_usize, Hh|]. intros l _ Hl'. auto.
  - eapply safe_bind; [apply safe_usize, Hh|]. intros e _ _.
    eapply safe_bind; [apply safe_ok_or|]. intros x _ _.
    eapply safe_bind; [apply safe_read_scalar|]. intros off _ _.
    eapply safe_bind; [apply safe_usize, Hh|]. intros l _ Hl'. auto.
  - eapply safe_bind; [apply safe_usize, Hh|]. intros e _ _.
    eapply safe_bind; [apply safe_ok_or|]. intros x _ _.
    eapply safe_bind; [apply safe_read_scalar|]. intros off _ _.
    eapply (safe_bind (fun _ => True)).
    { unfold i32_arith. rewrite Hh. destruct (_ && _); exact I. }
    intros d _ _. apply IHt, mod_usize_ok.
  - eapply safe_bind; [apply safe_usize, Hh|]. auto.
  - eapply safe_bind; [apply safe_usize, Hh|]. auto.
  - eapply safe_bind; [apply safe_usize, Hh|]. auto.
  - eapply safe_bind; [apply safe_usize, Hh|]. intros e _ _.
    eapply safe_bind; [apply safe_ok_or|]. intros x _ _. exact I.
  - eapply safe_bind; [apply safe_read_scalar_at, Hh|]. intros v _ _.
    destruct (existsb _ _); exact I.
Qed.

Section Release.
  Variable h : host.
  Hypothesis Hh : debug h = false.
  Variable buf : list byte.
  Hypothesis Hb : blen buf < 2 ^ 63.

  Lemma safe_num_bytes l : safe (fun _ => True) (vt_num_bytes h buf l).
  Proof. eapply safe_weaken; [apply safe_read_scalar_at, Hh|auto]. Qed.

  Lemma safe_num_fields l : safe usize_ok (vt_num_fields h buf l).
  Proof.
    unfold vt_num_fields. eapply safe_bind; [apply safe_num_bytes|]. intros.
    apply safe_usize, Hh.
  Qed.

  Lemma safe_get_field l i : safe (fun _ => True) (vt_get_field h buf l i).
  Proof.
    unfold vt_get_field. eapply safe_bind; [apply safe_num_fields|]. intros n _ _.
    destruct (_ <? _); [exact I|].
    do 4 (eapply safe_bind; [apply safe_usize, Hh|]; intros ? _ _).
    eapply safe_bind; [apply safe_read_scalar_at, Hh|]. intros; exact I.
  Qed.

  Lemma safe_vt_get l i : safe (fun _ => True) (vt_get h buf l i).
  Proof.
    unfold vt_get. eapply safe_bind; [apply safe_num_bytes|]. intros n _ _.
    destruct (_ <=? _); [exact I|].
    eapply safe_bind; [apply safe_usize, Hh|]; intros ? _ _.
    eapply safe_bind; [apply safe_read_scalar_at, Hh|]. intros; exact I.
  Qed.

  Lemma safe_as_bytes l : safe (fun _ => True) (vt_as_bytes h buf l).
  Proof.
    unfold vt_as_bytes. eapply safe_bind; [apply safe_num_bytes|]. intros n _ _.
    eapply safe_bind; [apply safe_usize, Hh|]; intros ? _ _.
    eapply safe_weaken; [apply safe_ok_or|auto].
  Qed.

  Lemma table_vtable_eq l :
    table_vtable h buf l =
    let* v := follow h (FSOffset FVTable) buf l in
    match v with VVTable l => Val l | _ => Panic end.
  Proof. reflexivity. Qed.

  Lemma safe_table_vtable l : usize_ok l -> safe usize_ok (table_vtable h buf l).
  Proof.
    intros Hl. unfold table_vtable.
    cbn [follow]. rewrite !bind_assoc.
    eapply safe_bind; [apply safe_usize, Hh|]. intros e _ _. rewrite bind_assoc.
    eapply safe_bind; [apply safe_ok_or|]. intros x _ _. rewrite bind_assoc.
    eapply safe_bind; [apply safe_read_scalar|]. intros off _ _. rewrite bind_assoc.
    eapply (safe_bind (fun _ => True)).
    { unfold i32_arith. rewrite Hh. destruct (_ && _); exact I. }
    intros d _ _. cbn. apply mod_usize_ok.
  Qed.

  Lemma safe_table_get l slot t d :
    usize_ok l -> (forall v, d = Some v -> fval_ok v) ->
    safe (fun o => forall v, o = Some v -> fval_ok v) (table_get h buf l slot t d).
  Proof.
    intros Hl Hd. unfold table_get.
    eapply safe_bind; [apply safe_table_vtable, Hl|]. intros vt _ _.
    eapply safe_bind; [apply safe_vt_get|]. intros [off|] _ _; [|exact Hd].
    destruct (off =? 0); [exact Hd|].
    eapply safe_bind; [apply safe_usize, Hh|]. intros p _ Hp.
    eapply safe_bind; [apply safe_follow; auto|]. intros v _ Hv.
    simpl. intros v' E. injection E as <-. exact Hv.
  Qed.

  Lemma safe_has_identifier i sp : blen i = 4 -> safe (fun _ => True) (buffer_has_identifier h buf i sp).
  Proof.
    intros Hi. unfold buffer_has_identifier. rewrite Hi. cbn [Z.eqb bind assert_always].
    change (4 =? FILE_IDENTIFIER_LENGTH) with true. cbn [assert_always bind].
    assert (H : forall l, safe (fun v => exists s, v = VIdent s) (follow h FFileIdentifier buf l)).
    { intros l. cbn [follow]. eapply safe_bind; [apply safe_usize, Hh|]. intros e _ _.
      eapply safe_bind; [apply safe_ok_or|]. intros x _ _. simpl. eauto. }
    eapply (safe_bind (fun v => exists s, v = VIdent s)).
    - destruct sp; cbn [follow];
        (eapply safe_bind; [apply safe_usize, Hh|]; intros ? _ _).
      + eapply safe_bind; [apply safe_usize, Hh|]; intros ? _ _. apply H.
      + apply H.
    - intros v _ [s ->]. exact I.
  Qed.

  Lemma safe_vec_get t l i :
    safe fval_ok (vec_get h t buf l i).
  Proof.
    unfold vec_get. rewrite Hh. cbn [bind].
    eapply safe_bind; [apply safe_debug_assert, Hh|]. intros _ _ _.
    do 2 (eapply safe_bind; [apply safe_usize, Hh|]; intros ? _ _).
    eapply safe_bind; [apply safe_usize, Hh|]; intros ? _ ?. apply safe_follow; auto.
  Qed.

  Definition it_ok (it : viter) := usize_ok (it_loc it) /\ usize_ok (it_remaining it).

  Lemma safe_vec_iter l : safe it_ok (vec_iter h buf l).
  Proof.
    unfold vec_iter.
    assert (Hlen : forall z, vec_len h buf l = Val z -> usize_ok z).
    { intros z Hz. pose proof (safe_read_scalar_at h TU32 buf l Hh) as S.
      unfold vec_len in Hz. rewrite Hz in S. destruct S as (x & Hx & ->).
      pose proof (scalar_of_unsigned_range TU32 x eq_refl Hx) as R. change (8 * ssize TU32) with 32 in R. unfold usize_ok. lia. }
    eapply (safe_bind usize_ok).
    - pose proof (safe_read_scalar_at h TU32 buf l Hh) as S. fold (vec_len h buf l) in S.
      destruct (vec_len h buf l) eqn:E; cbn; auto. unfold usize_ok; lia.
    - intros n _ Hn. eapply safe_bind; [apply safe_usize, Hh|]; intros p _ Hp.
      split; auto.
  Qed.

  Lemma safe_iter_next t it : it_ok it ->
    safe (fun r => it_ok (snd r) /\ forall x, fst r = Some x -> safe fval_ok x) (iter_next h t buf it).
  Proof.
    intros [H1 H2]. unfold iter_next.
    eapply safe_bind; [apply safe_debug_assert, Hh|]. intros _ _ _.
    destruct (it_remaining it =? 0).
    - simpl. split; [split; auto|]. discriminate.
    - pose proof (safe_follow h t buf (it_loc it) Hh H1 Hb) as S.
      destruct (follow h t buf (it_loc it)) eqn:E; [| |contradiction];
        (eapply safe_bind; [apply safe_usize, Hh|]; intros p _ Hp;
         eapply safe_bind; [apply safe_usize, Hh|]; intros q _ Hq;
         simpl; split; [split; auto|intros x Ex; injection Ex as <-; auto]).
  Qed.

  Lemma safe_iter_next_back t it : it_ok it ->
    safe (fun r => it_ok (snd r) /\ forall x, fst r = Some x -> safe fval_ok x) (iter_next_back h t buf it).
  Proof.
    intros [H1 H2]. unfold iter_next_back.
    eapply safe_bind; [apply safe_debug_assert, Hh|]. intros _ _ _.
    destruct (it_remaining it =? 0).
    - simpl. split; [split; auto|]. discriminate.
    - eapply safe_bind; [apply safe_usize, Hh|]; intros n _ Hn.
      eapply safe_bind; [apply safe_usize, Hh|]; intros m _ Hm.
      eapply safe_bind; [apply safe_usize, Hh|]; intros p _ Hp.
      pose proof (safe_follow h t buf p Hh Hp Hb) as S.
      destruct (follow h t buf p) eqn:E; [| |contradiction];
         (simpl; split; [split; auto|intros x Ex; injection Ex as <-; auto]).
  Qed.

  Lemma safe_iter_call t c it : it_ok it -> itcall_ok c ->
    safe (fun r => it_ok (snd r) /\ forall x, fst r = Some x -> safe fval_ok x) (iter_call h t buf c it).
  Proof.
    intros [H1 H2] Hc. destruct c; cbn [iter_call].
    - apply safe_iter_next; split; auto.
    - apply safe_iter_next_back; split; auto.
    - unfold iter_nth.
      eapply safe_bind; [apply safe_debug_assert, Hh|]. intros _ _ _.
      eapply safe_bind; [apply safe_usize, Hh|]; intros m _ Hm.
      apply safe_iter_next. split; cbn [it_loc it_remaining].
      + apply mod_usize_ok.
      + unfold usize_ok in *. cbn in Hc. unfold usize_ok in Hc. lia.
    - unfold iter_nth_back. apply safe_iter_next_back. split; cbn [it_loc it_remaining]; auto.
      unfold usize_ok in *. cbn in Hc. unfold usize_ok in Hc. lia.
  Qed.

  Lemma safe_iter_calls t cs : forall it, it_ok it -> Forall itcall_ok cs ->
    safe (fun r => Forall fval_ok (item_vals (fst r))) (iter_calls h t buf cs it).
  Proof.
    induction cs as [|c cs IH]; intros it Hit Hcs; cbn [iter_calls].
    - constructor.
    - inversion Hcs; subst.
      eapply safe_bind; [apply safe_iter_call; auto|]. intros [x it'] _ [Hit' Hx].
      eapply safe_bind; [apply IH; auto|]. intros [xs it''] _ Hxs.
      simpl in *. destruct x as [[v| |]|]; auto.
      constructor; auto. exact (Hx _ eq_refl).
  Qed.

  Lemma safe_exec hs c : Forall fval_ok hs -> rcall_ok c -> safe (Forall fval_ok) (exec h buf hs c).
  Proof.
    intros Hhs Hc.
    assert (Hn : forall i v, nth_error hs i = Some v -> fval_ok v).
    { intros i v E. rewrite Forall_forall in Hhs. apply Hhs. eapply nth_error_In, E. }
    assert (Hdone : forall A (P : A -> Prop) x, safe P x -> safe (Forall fval_ok) (let* _ := x in Val (@nil fval))).
    { intros A P x S. eapply safe_bind; [exact S|]. intros; constructor. }
    assert (Hz : usize_ok 0) by (unfold usize_ok; lia).
    destruct c; cbn [exec rcall_ok] in *; unfold on_table, on_vtable, on_vector;
      try (destruct (nth_error hs i) as [[]|] eqn:E; try (constructor; fail); specialize (Hn _ _ E); cbn in Hn).
    - eapply safe_bind; [apply safe_follow; auto|]. intros v _ Hv. simpl. auto.
    - eapply safe_bind; [apply safe_follow; auto|]. intros v _ Hv. simpl. auto.
    - eapply safe_bind; [apply safe_follow; auto|]. intros v _ Hv. simpl. auto.
    - eapply Hdone, safe_has_identifier, Hc.
    - eapply safe_bind; [apply safe_table_get; [exact Hn|apply Hc]|].
      intros [v|] _ Hv; simpl; auto.
    - eapply safe_bind; [apply safe_table_vtable; auto|]. intros v _ Hv. simpl. auto.
    - eapply Hdone, safe_num_fields.
    - eapply Hdone, safe_num_bytes.
    - eapply (Hdone _ (fun _ => True)). unfold vt_object_inline_num_bytes.
      eapply safe_bind; [apply safe_usize, Hh|]; intros ? _ _.
      eapply safe_weaken; [apply safe_read_scalar_at, Hh|auto].
    - eapply Hdone, safe_get_field.
    - eapply Hdone, safe_vt_get.
    - eapply Hdone, safe_as_bytes.
    - eapply (Hdone _ (fun _ => True)). eapply safe_weaken; [apply safe_read_scalar_at, Hh|auto].
    - eapply (Hdone _ (fun _ => True)). unfold vec_is_empty.
      eapply safe_bind; [apply safe_read_scalar_at, Hh|]. intros; exact I.
    - eapply safe_bind; [apply safe_vec_get|]. intros v _ Hv. simpl. auto.
    - eapply Hdone, safe_follow_slice_helper, Hh.
    - eapply safe_bind; [apply safe_vec_iter|]. intros it _ Hit.
      eapply safe_bind; [apply safe_iter_calls; eauto|]. intros [xs it'] _ Hxs. exact Hxs.
  Qed.

  Lemma safe_client cs : forall hs, Forall fval_ok hs -> Forall rcall_ok cs ->
    safe (Forall fval_ok) (client h buf hs cs).
  Proof.
    induction cs as [|c cs IH]; intros hs Hhs Hcs; cbn [client]; [exact Hhs|].
    inversion Hcs; subst.
    pose proof (safe_exec hs c Hhs H1) as S.
    destruct (exec h buf hs c); [| |contradiction]; auto.
    apply IH; auto. apply Forall_app. auto.
  Qed.
End Release.

(** Tables: fields, omitted defaults, required fields. *)
From Coq Require Import ZArith List Bool Lia Strings.Byte ZifyBool ZifyNat ZifyN.
From Verif Require Import Base Scalar Reader Builder Ops SpecBuilder Abstract BaseFacts ScalarFacts
  ReaderFacts Refine Refine2 Build1 Build2 Build3 Build4 Build5 Build6 Build7 Build8 BuilderProofs1.
Import ListNotations.
Local Open Scope Z_scope.

(** ** Debug builds refuse a slot that is filled twice *)
Lemma write_fields_used h obj l : debug h = true ->
  Forall field_ok l -> Forall (fun f => even_slot (fl_id f)) l ->
  forall vt r slot e, blen vt < 2 ^ 64 -> write_fields h vt obj l = Val r -> 4 <= slot -> slot mod 2 = 0 ->
    get_range vt slot (slot + 2) = Some (wire TU16 e) -> 0 < e < 2 ^ 16 -> ~ In slot (map fl_id l).
Proof.
  intros Hd Hok. induction l as [|f l IH]; intros Hev vt r slot e Lv H Hs0 Hs Hg He; cbn [write_fields map In] in *; [tauto|].
  inversion Hok as [|? ? [_ Hf] Hok']; subst. inversion Hev as [|? ? [Hf4 Hf2] Hev']; subst.
  apply bind_Val in H as (d & _ & H). rewrite Hd in H. apply bind_Val in H as (u & Hu & H).
  apply bind_Val in H as (vt' & Hw & H). apply write_field_val in Hw as [-> Hb]; [|lia].
  destruct (Z.eqb_spec (fl_id f) slot) as [E|E].
  - exfalso. subst slot. apply bind_Val in Hu as (old & Ho & Hu). unfold vtw_get_field_offset in Ho.
    assert (F0 : 0 <= fl_id f) by lia. destruct (get_range_blen vt (fl_id f) (fl_id f + 2) _ F0 Hg) as [_ B2].
    rewrite (read_scalar_at_ok h TU16 vt _ (wire TU16 e)) in Ho; [|lia|lia|exact Hg].
    rewrite scalar_of_wire in Ho by (cbn; lia). cbn [expect] in Ho. assert (old = e) by congruence. subst old.
    unfold debug_assert in Hu. rewrite Hd in Hu. replace (e =? 0) with false in Hu by lia. discriminate.
  - intros [X|X]; [congruence|]. revert X. eapply (IH Hok' Hev'); [|exact H|auto|auto| |exact He].
    { rewrite blen_set_range; rewrite ?blen_wire16; lia. }
    rewrite get_set_other; rewrite ?blen_wire16; auto; lia.
Qed.

Lemma write_fields_nodup h obj l : debug h = true ->
  Forall field_ok l -> Forall (fun f => even_slot (fl_id f)) l ->
  Forall (fun f => 0 < obj - fl_off f < 2 ^ 16) l ->
  forall vt r, blen vt < 2 ^ 64 -> write_fields h vt obj l = Val r -> NoDup (map fl_id l).
Proof.
  intros Hd Hok Hev Hp. induction l as [|f l IH]; intros vt r Lv H; cbn [write_fields map] in *; [constructor|].
  inversion Hok as [|? ? [_ Hf] Hok']; subst. inversion Hev as [|? ? [Hf4 Hf2] Hev']; subst.
  inversion Hp as [|? ? Hp1 Hp']; subst.
  apply bind_Val in H as (d & Hdd & H). apply bind_Val in H as (u & Hu & H).
  apply bind_Val in H as (vt' & Hw & H). apply write_field_val in Hw as [-> Hb]; [|lia].
  assert (Lw : forall x, blen (set_range vt (fl_id f) (wire TU16 x)) < 2 ^ 64) by (intros x; rewrite blen_set_range; rewrite ?blen_wire16; lia).
  constructor; [|exact (IH Hok' Hev' Hp' _ _ (Lw _) H)].
  eapply (write_fields_used h obj l Hd Hok' Hev' _ r (fl_id f) (obj - fl_off f)); [|exact H|lia|lia| |lia]; [auto|].
  rewrite (u32_arith_mod16 _ _ _ Hdd). apply get_set_same; rewrite ?blen_wire16; lia.
Qed.

(** Where the table's fields must be apart in a release build; a debug build
    checks this itself. *)
Definition separate (h : host) (start obj : Z) (fields : list (Z * pval)) : Prop :=
  debug h = true \/ obj - start < 2 ^ 16 /\ NoDup (map fst fields).

Lemma table_separate h c before mid start later obj xs ys zs b :
  0 <= c -> calls_ok (table_program before mid start later) = true ->
  closed before = true -> forallb in_table mid = true -> no_reset later = true ->
  program h c (table_program before mid start later) = Val (b, xs ++ [ONum start] ++ ys ++ [ONum obj] ++ zs) ->
  length xs = length before -> length ys = length mid ->
  blen (unfinished_data b) < 2 ^ 31 -> separate h start obj (added mid) ->
  obj - start < 2 ^ 16 /\ NoDup (map fst (added mid)).
Proof.
  intros Hc Hok Hcl Hmid Hlat H Lx Ly L [Hd|S]; [|exact S].
  assert (L' : blen (unfinished_data b) < 2 ^ 32) by (clear - L; lia).
  destruct (table_program_facts _ _ _ _ _ _ _ _ _ _ _ Hc Hok Hcl Hmid Hlat H Lx Ly L')
    as (size & vr & vt & fs & T & Lv & Hs & Ha & Hvt & FR & Fok & Fit & Fo & Hst & Ho & HoL).
  clear - Hd Hs Ha Hvt FR Fok Fit Fo Hst Ho HoL L.
  assert (Sz : size = obj - start).
  { unfold u32_arith, unsigned_arith in Hs. rewrite Hd in Hs. destruct (_ && _); [congruence|discriminate]. }
  unfold debug_assert in Ha. rewrite Hd in Ha. destruct (size <? 65536) eqn:Q; [|discriminate].
  split; [lia|]. rewrite <- (Forall2_ids _ _ _ _ FR).
  unfold a_vtable in Hvt. apply bind_Val in Hvt as (v1 & H1 & Hvt). apply bind_Val in Hvt as (v2 & H2 & Hvt).
  pose proof (fits_len _ Fok Fit) as FL.
  apply write_header_val in H1 as (-> & L1 & _). apply write_size_val in H2 as [-> L2].
  eapply (write_fields_nodup h obj fs Hd Fok (fits_even _ Fit)); [| |exact Hvt].
  2: { rewrite !blen_set_range; rewrite ?blen_wire16, ?blen_zeros; rewrite ?blen_set_range; rewrite ?blen_wire16, ?blen_zeros; lia. }
  apply Forall_forall. intros f If. rewrite Forall_forall in Fo. specialize (Fo f If).
  assert (X : exists sx, In sx (added mid) /\ fr start (unfinished_data b) sx f).
  { clear - FR If. induction FR; [destruct If|]. destruct If as [->|If]; [eexists; split; [left; eauto|auto]|].
    destruct IHFR as (sx & I & F); auto. exists sx. split; [right|]; auto. }
  destruct X as ((s & x) & _ & _ & A & Hf & _). cbn [snd] in *.
  assert (0 < push_size x) by (destruct x; cbn; [apply ssize_pos|lia]). lia.
Qed.

Lemma table_slot h hr c before mid start later obj xs ys zs b :
  0 <= c -> calls_ok (table_program before mid start later) = true ->
  closed before = true -> forallb in_table mid = true -> no_reset later = true ->
  program h c (table_program before mid start later) = Val (b, xs ++ [ONum start] ++ ys ++ [ONum obj] ++ zs) ->
  length xs = length before -> length ys = length mid ->
  blen (unfinished_data b) < 2 ^ 31 -> separate h start obj (added mid) ->
  (forall slot x, In (slot, x) (added mid) -> exists off,
     At (unfinished_data b) off (fbytes x off) /\ start + push_size x <= off /\ off mod push_alignment x = 0 /\
     (exists vt, table_vtable hr (unfinished_data b) (blen (unfinished_data b) - obj) = Val vt /\
        vt_get hr (unfinished_data b) vt slot = Val (Some (obj - off)) /\ obj - off <> 0) /\
     forall t d, table_get hr (unfinished_data b) (blen (unfinished_data b) - obj) slot t d =
                 let* v := follow hr t (unfinished_data b) (blen (unfinished_data b) - off) in Val (Some v)) /\
  (forall slot, 4 <= slot < 2 ^ 16 -> slot mod 2 = 0 -> ~ In slot (map fst (added mid)) ->
     (exists vt vo, table_vtable hr (unfinished_data b) (blen (unfinished_data b) - obj) = Val vt /\
        vt_get hr (unfinished_data b) vt slot = Val vo /\ (vo = None \/ vo = Some 0)) /\
     forall t d, table_get hr (unfinished_data b) (blen (unfinished_data b) - obj) slot t d = Val d).
Proof.
  intros Hc Hok Hcl Hmid Hlat H Lx Ly L S.
  destruct (table_separate _ _ _ _ _ _ _ _ _ _ _ Hc Hok Hcl Hmid Hlat H Lx Ly L S) as [S1 S2].
  exact (table_program_slot h hr _ _ _ _ _ _ _ _ _ _ Hc Hok Hcl Hmid Hlat H Lx Ly L S1 S2).
Qed.

(** ** Fields *)
Lemma added_ok os slot x : calls_ok os = true -> In (slot, x) (added os) ->
  pval_ok x = true /\ slot_fits slot = true.
Proof.
  intros H I. unfold added in I. apply in_flat_map in I as (o & Io & I).
  unfold calls_ok in H. rewrite forallb_forall in H. specialize (H o Io).
  destruct o; cbn [added1] in I; try contradiction; cbn [op_ok op_slots] in H.
  - destruct (pval_eq x0 default); [contradiction|]. destruct I as [E|[]]. injection E as <- <-.
    repeat rewrite andb_true_iff in H. tauto.
  - destruct I as [E|[]]. injection E as <- <-. repeat rewrite andb_true_iff in H. tauto.
Qed.

Lemma calls_ok_mid before mid start later : calls_ok (table_program before mid start later) = true -> calls_ok mid = true.
Proof.
  unfold table_program, calls_ok. rewrite !forallb_app. repeat rewrite andb_true_iff. tauto.
Qed.

Lemma fields_round_trip h hr c before mid start later obj xs ys zs b :
  0 <= c -> calls_ok (table_program before mid start later) = true ->
  closed before = true -> forallb in_table mid = true -> no_reset later = true ->
  program h c (table_program before mid start later) = Val (b, xs ++ [ONum start] ++ ys ++ [ONum obj] ++ zs) ->
  length xs = length before -> length ys = length mid ->
  blen (unfinished_data b) < 2 ^ 31 ->
  (debug h = true \/ obj - start < 2 ^ 16 /\ NoDup (map fst (added mid))) ->
  let D := unfinished_data b in
  (forall slot t v d, In (slot, PScalar t v) (added mid) ->
     table_get hr D (blen D - obj) slot (FScalar t) d = Val (Some (VScalar v)) /\
     forall allowed, In v allowed ->
       table_get hr D (blen D - obj) slot (FEnum t allowed) d = Val (Some (VEnum v))) /\
  (forall slot o t d, In (slot, POffset o) (added mid) -> o <= start ->
     table_get hr D (blen D - obj) slot (FUOffset t) d =
     (let* v := follow hr t D (blen D - o) in Val (Some v))) /\
  (forall slot t d, 4 <= slot < 2 ^ 16 -> slot mod 2 = 0 -> ~ In slot (map fst (added mid)) ->
     table_get hr D (blen D - obj) slot t d = Val d).
Proof.
  intros Hc Hok Hcl Hmid Hlat H Lx Ly L S D.
  destruct (table_slot h hr _ _ _ _ _ _ _ _ _ _ Hc Hok Hcl Hmid Hlat H Lx Ly L S) as [P N]. fold D in P, N, L.
  apply calls_ok_mid in Hok. clear - P N Hok L.
  assert (L63 : blen D < 2 ^ 63) by lia. assert (L32 : blen D < 2 ^ 32) by lia.
  split; [|split].
  - intros slot t v d I. destruct (P _ _ I) as (off & A & _ & _ & _ & G). cbn [fbytes] in A.
    destruct (added_ok _ _ _ Hok I) as [V _]. cbn [pval_ok] in V. split.
    + rewrite G, (At_scalar hr t D off v A V L63). reflexivity.
    + intros al Ia. rewrite G, (At_enum hr t D off v al A V Ia L63). reflexivity.
  - intros slot o t d I Ho. destruct (P _ _ I) as (off & A & B & _ & _ & G). cbn [fbytes push_size] in A, B.
    destruct (added_ok _ _ _ Hok I) as [V _]. cbn [pval_ok] in V. apply andb_true_iff in V as [V _]. apply Z.leb_le in V.
    rewrite G, (At_offset hr t D off o A); auto. split; [exact V|clear - Ho B; lia].
  - intros slot t d Hs He Hn. apply N; auto.
Qed.

Lemma default_round_trip h hr c before m1 slot t v d m2 start later obj xs ys zs b :
  let mid := m1 ++ [OpPushSlot slot (PScalar t v) (PScalar t d)] ++ m2 in
  0 <= c -> calls_ok (table_program before mid start later) = true ->
  closed before = true -> forallb in_table mid = true -> no_reset later = true ->
  program h c (table_program before mid start later) = Val (b, xs ++ [ONum start] ++ ys ++ [ONum obj] ++ zs) ->
  length xs = length before -> length ys = length mid ->
  blen (unfinished_data b) < 2 ^ 31 ->
  (debug h = true \/ obj - start < 2 ^ 16 /\ NoDup (map fst (added mid))) ->
  ~ In slot (map fst (added (m1 ++ m2))) ->
  let D := unfinished_data b in
  (table_get hr D (blen D - obj) slot (FScalar t) None =
     Val (if scalar_eq t v d then None else Some (VScalar v))) /\
  exists w, table_get hr D (blen D - obj) slot (FScalar t) (Some (VScalar d)) = Val (Some (VScalar w)) /\
    (w = v \/ scalar_eq t v w = true).
Proof.
  intros mid Hc Hok Hcl Hmid Hlat H Lx Ly L S Hn D.
  destruct (fields_round_trip h hr _ _ _ _ _ _ _ _ _ _ Hc Hok Hcl Hmid Hlat H Lx Ly L S) as (P & _ & N). fold D in P, N.
  apply calls_ok_mid in Hok.
  assert (Hs : 4 <= slot < 2 ^ 16 /\ slot mod 2 = 0).
  { unfold mid, calls_ok in Hok. rewrite !forallb_app in Hok. repeat rewrite andb_true_iff in Hok. destruct Hok as (_ & X & _).
    cbn [forallb op_slots] in X. repeat rewrite andb_true_iff in X. destruct X as [[_ X] _].
    unfold slot_fits in X. clear - X. lia. }
  destruct Hs as [Hs1 Hs2].
  assert (Ea : added mid = added m1 ++ (if scalar_eq t v d then [] else [(slot, PScalar t v)]) ++ added m2).
  { unfold mid, added. rewrite !flat_map_app. cbn [flat_map added1 pval_eq]. rewrite app_nil_r. reflexivity. }
  destruct (scalar_eq t v d) eqn:Q.
  - assert (X : ~ In slot (map fst (added mid))).
    { rewrite Ea. cbn [app]. unfold added in *. rewrite flat_map_app in Hn. exact Hn. }
    split; [apply N; auto|]. exists d. split; [apply N; auto|right; exact Q].
  - assert (I : In (slot, PScalar t v) (added mid)) by (rewrite Ea; apply in_or_app; right; left; reflexivity).
    split; [apply P; auto|]. exists v. split; [apply P; auto|left; reflexivity].
Qed.

Lemma bind_Panic {A B} (f : A -> outcome B) : bind Panic f = Panic. Proof. reflexivity. Qed.

Lemma required_exact h c before mid start later obj xs ys zs b slot :
  0 <= c -> calls_ok (table_program before mid start later) = true ->
  closed before = true -> forallb in_table mid = true -> no_reset later = true ->
  program h c (table_program before mid start later) = Val (b, xs ++ [ONum start] ++ ys ++ [ONum obj] ++ zs) ->
  length xs = length before -> length ys = length mid ->
  blen (unfinished_data b) < 2 ^ 31 ->
  (debug h = true \/ obj - start < 2 ^ 16 /\ NoDup (map fst (added mid))) ->
  4 <= slot < 2 ^ 16 -> slot mod 2 = 0 ->
  (In slot (map fst (added mid)) -> step h b (OpRequired obj slot) = Val (b, ONone)) /\
  (~ In slot (map fst (added mid)) -> step h b (OpRequired obj slot) = Panic).
Proof.
  intros Hc Hok Hcl Hmid Hlat H Lx Ly L S Hs Hs2.
  assert (L' : blen (unfinished_data b) < 2 ^ 32) by (clear - L; lia).
  destruct (table_program_facts _ _ _ _ _ _ _ _ _ _ _ Hc Hok Hcl Hmid Hlat H Lx Ly L')
    as (size & vr & vt0 & fs & T & _ & _ & _ & _ & _ & _ & _ & _ & Hst & Ho & HoL).
  destruct (table_slot h h _ _ _ _ _ _ _ _ _ _ Hc Hok Hcl Hmid Hlat H Lx Ly L S) as [P N].
  apply calls_ok_split in Hok as [Hok _].
  pose proof (program_good _ _ _ _ _ Hc Hok H) as [I _].
  assert (U : used_space b = blen (unfinished_data b)) by (apply inv_used; exact I).
  clear - P N Hs Hs2 Hst Ho HoL L U. split.
  - intros X. apply in_map_iff in X as ((s & x) & <- & X). cbn [fst].
    destruct (P _ _ X) as (off & _ & _ & _ & (vt & E1 & E2 & E3) & _). cbn [step]. unfold required.
    rewrite U, usize_arith_ok by lia. cbn [bind]. rewrite E1. cbn [expect bind]. rewrite E2. cbn [expect bind expect_some].
    unfold assert_always. replace (negb (obj - off =? 0)) with true by lia. reflexivity.
  - intros X. destruct (N _ Hs Hs2 X) as ((vt & vo & E1 & E2 & E3) & _). cbn [step]. unfold required.
    rewrite U, usize_arith_ok by lia. cbn [bind]. rewrite E1. cbn [expect bind]. rewrite E2. cbn [expect bind].
    destruct E3 as [->| ->]; reflexivity.
Qed.

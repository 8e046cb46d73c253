(** When the calls of the builder panic, continued: steps and programs. *)
From Coq Require Import ZArith List Bool Lia Strings.Byte ZifyBool ZifyNat ZifyN.
From Verif Require Import Base Scalar Reader Builder Ops SpecWire SpecReader SpecBuilder SpecUse Abstract BaseFacts ScalarFacts
  WireFacts ReaderFacts ReaderProofs ReaderProofs2 SpecFollow ReaderProofs7 Refine Refine2 Build1 Build2 Build3 Build4 Build5 Build6 Build7 Build8 Build9 Build10 Build11 BuilderProofs4 BuilderProofs10 UseProofs UseProofs2.
Import ListNotations.
Local Open Scope Z_scope.

Definition loc_of (p : Z * Z) : field_loc := FieldLoc (fst p) (snd p).
Definition tracks (u : usage) (a : astate) : Prop :=
  open u = a_nested a /\ done u = a_fin a /\ a_fields a = map loc_of (pending u) /\ widest u = a_align a.

Lemma fold_strings xs : fold_right (fun s n => blen s + 20 + n) 16 xs = strings_bytes xs + 16.
Proof. induction xs as [|s xs IH]; [reflexivity|]. unfold strings_bytes in *. cbn [fold_right]. rewrite IH. lia. Qed.

Lemma strings_bytes_rev xs : strings_bytes (rev xs) = strings_bytes xs.
Proof. induction xs as [|s xs IH]; [reflexivity|]. cbn [rev]. rewrite strings_bytes_app, IH. unfold strings_bytes. cbn [fold_right]. lia. Qed.

Lemma pty_eqb_eq a b : pty_eqb a b = true -> a = b.
Proof. destruct a as [a|], b as [b|]; try discriminate; [destruct a, b; try discriminate; reflexivity|reflexivity]. Qed.

Lemma items_ok t items : forallb (fun x => pval_ok x && pty_eqb (pty_of x) t) items = true ->
  forallb pval_ok items = true /\ Forall (of_type t) items.
Proof.
  intros H. rewrite forallb_forall in H. split; [apply forallb_forall|apply Forall_forall]; intros x I; apply H in I; apply andb_true_iff in I as [I1 I2]; [exact I1|].
  apply pty_eqb_eq. exact I2.
Qed.

Lemma natural_size t : natural t = pty_size t. Proof. destruct t; reflexivity. Qed.
Lemma natural_align t : natural t = pty_align t. Proof. destruct t; reflexivity. Qed.
Lemma natural_push x : natural (pty_of x) = push_alignment x. Proof. destruct x; reflexivity. Qed.

Section Step.
Context (h : host).

Lemma clash_pending tab l : clash tab (map loc_of l) <->
  exists l1 l2 l3 off1 off2 slot, l = l1 ++ (off1, slot) :: l2 ++ (off2, slot) :: l3 /\ (tab - off1) mod 2 ^ 16 <> 0.
Proof.
  split.
  - intros (m1 & f & m2 & g & m3 & E & Eid & Hp). apply map_eq_app in E as (l1 & r & -> & <- & E).
    apply map_eq_cons in E as ([o1 s1] & r2 & -> & <- & E). apply map_eq_app in E as (l2 & r3 & -> & <- & E).
    apply map_eq_cons in E as ([o2 s2] & l3 & -> & <- & <-). unfold loc_of in *. cbn [fst snd fl_id fl_off] in *. subst s2.
    exists l1, l2, l3, o1, o2, s1. auto.
  - intros (l1 & l2 & l3 & o1 & o2 & s & -> & Hp). exists (map loc_of l1), (loc_of (o1, s)), (map loc_of l2), (loc_of (o2, s)), (map loc_of l3).
    split; [|auto]. rewrite map_app. cbn [map]. rewrite map_app. reflexivity.
Qed.

Lemma a_step_decides u a o : tracks u a -> op_ok o = true ->
  Forall field_ok (a_fields a) -> Forall field_fits (a_fields a) -> Forall (vt_known (a_data a)) (a_vts a) -> align_ok (a_align a) ->
  blen (a_data a) + op_bytes o <= 2 ^ 31 ->
  decides (a_step false h a o) (misuse h u (a_data a) o).
Proof.
  intros (T1 & T2 & T3 & T4) Ho Hok Hf Hk Hal L. pose proof (blen_nonneg (a_data a)) as N. unfold misuse.
  destruct o; cbn [a_step misuse_always misuse_debug op_bytes op_ok] in *; rewrite ?T1, ?T2, ?T4.
  - apply decides_val. tauto.
  - apply decides_num. eapply decides_iff; [apply a_push_decides; [exact Ho|lia]|tauto].
  - apply andb_true_iff in Ho as [Ho _]. apply andb_true_iff in Ho as [Ho _]. apply andb_true_iff in Ho as [_ Ho].
    apply decides_unit. eapply decides_iff; [apply a_push_slot_decides; [exact Ho|lia]|tauto].
  - apply andb_true_iff in Ho as [_ Ho].
    apply decides_unit. eapply decides_iff; [apply a_push_slot_always_decides; [exact Ho|lia]|tauto].
  - apply decides_val. tauto.
  - apply decides_num. eapply decides_iff; [apply a_start_table_decides|tauto].
  - apply u32_ok_range in Ho. apply decides_num. eapply decides_iff; [apply a_end_table_decides; auto; lia|].
    rewrite T3. rewrite clash_pending. split.
    + intros (Hd & [B|[B|[B|[(f & If & B)|B]]]]); right; (split; [exact Hd|]); auto.
      apply in_map_iff in If as ([off slot] & <- & If). right. right. right. left. exists off, slot. auto.
    + intros [[]|(Hd & [B|[B|[B|[(off & slot & If & B)|B]]]])]; (split; [exact Hd|]); auto.
      right. right. right. left. exists (loc_of (off, slot)). split; [apply in_map; exact If|exact B].
  - apply decides_unit. eapply decides_iff; [apply a_start_vector_decides; lia|tauto].
  - apply decides_num. eapply decides_iff; [apply a_end_vector_decides; lia|tauto].
  - apply decides_num. eapply decides_iff; [apply a_create_string_decides; lia|tauto].
  - apply decides_num. eapply decides_iff; [apply a_create_byte_string_decides; lia|tauto].
  - apply decides_num. eapply decides_iff; [apply a_create_vector_direct_decides; lia|tauto].
  - rewrite fold_strings in L. apply decides_num. eapply decides_iff; [apply a_create_vector_of_strings_decides; lia|tauto].
  - apply andb_true_iff in Ho as [_ Ho]. apply items_ok in Ho as [Ho1 Ho2]. rewrite natural_size in L.
    pose proof (blen_nonneg items). assert (0 < pty_size t) by (destruct t; cbn; [apply ssize_pos|lia]).
    assert (blen items <= blen items * pty_size t) by nia.
    apply decides_num. eapply decides_iff; [apply (a_create_vector_decides h t); auto; lia|tauto].
  - apply decides_val. tauto.
  - eapply decides_iff; [|split; [intros H; right; exact H|intros [[]|H]; exact H]].
    destruct (debug_decides h (a_fin a)) as [[-> B]|(v & -> & B)]; cbn [bind]; [left; auto|right; eauto].
  - apply andb_true_iff in Ho as [Ho1 Ho2]. apply u32_ok_range in Ho1. apply u16_ok_range in Ho2.
    eapply decides_iff; [|split; [intros H; left; exact H|intros [H|[_ []]]; exact H]].
    destruct (a_required_decides h a tab slot ltac:(lia) Ho1 Ho2) as [[-> B]|(v & -> & B)]; cbn [bind]; [left; auto|right; eauto].
  - apply andb_true_iff in Ho as [Ho1 _]. apply u32_ok_range in Ho1. apply decides_unit.
    eapply decides_iff; [apply a_finish_decides; auto; lia|]. cbn [misuse_debug open done widest]. tauto.
Qed.

Lemma strings_rev_val l : forall a acc a' r, a_create_strings_rev false h a l acc = Val (a', r) ->
  a_nested a' = a_nested a /\ a_fin a' = a_fin a /\ a_fields a' = a_fields a /\ Z.max (a_align a') 4 = Z.max (a_align a) 4.
Proof.
  induction l as [|s l IH]; intros a acc a' r H; cbn [a_create_strings_rev] in H; [injection H as <- <-; auto|].
  apply bind_Val in H as ([a1 o1] & H1 & H). apply a_create_string_val in H1. apply a_create_byte_string_val in H1 as (-> & _).
  apply IH in H as (E1 & E2 & E3 & E4). cbn [with_data with_align a_nested a_fin a_fields a_align] in *.
  split; [exact E1|]. split; [exact E2|]. split; [exact E3|]. lia.
Qed.

Lemma a_step_next u a o a' x : tracks u a -> op_ok o = true ->
  Forall field_ok (a_fields a) -> Forall field_fits (a_fields a) -> align_ok (a_align a) ->
  blen (a_data a) + op_bytes o <= 2 ^ 31 -> a_step false h a o = Val (a', x) ->
  tracks (next_usage (blen (a_data a')) u o) a' /\ blen (a_data a') <= blen (a_data a) + op_bytes o.
Proof.
  intros (T1 & T2 & T3 & T4) Ho Hok Hf Hal L H. pose proof (blen_nonneg (a_data a)) as N. unfold tracks.
  assert (Slot : forall y, blen (a_data a) + 16 <= 2 ^ 31 -> as_u32 (blen (a_data (pushed a y))) = blen (a_data (pushed a y))).
  { intros y Ly. pose proof (blen_pushed16 a y). apply as_u32_small. pose proof (blen_nonneg (a_data (pushed a y))). lia. }
  destruct o; cbn [a_step op_bytes op_ok] in *; unfold a_num, a_unit in *; unfold next_usage;
    cbn [writes op_align added1 map open done pending widest fst]; rewrite ?app_nil_r.
  - injection H as <- <-. cbn [a_nested a_fin a_fields a_align a_data]. rewrite T3. change (blen []) with 0. repeat split; lia.
  - apply bind_Val in H as ([a1 n] & H & E). injection E as <- <-. apply a_push_val in H as (-> & _ & _).
    pose proof (blen_pushed16 a x0). unfold pushed at 1 2 3 4. cbn [with_data with_align a_nested a_fin a_fields a_align]. rewrite natural_push, T4. repeat split; auto; lia.
  - apply bind_Val in H as (a1 & H & E). injection E as <- <-. unfold a_push_slot in H. apply bind_Val in H as (v & _ & H).
    destruct (pval_eq x0 default) eqn:Q; cbn [negb map].
    + injection H as <-. rewrite app_nil_r. repeat split; auto; lia.
    + apply a_push_slot_always_val in H as (-> & _). rewrite Slot by lia.
      pose proof (blen_pushed16 a x0). unfold a_track. cbn [with_fields a_nested a_fin a_fields a_align a_data].
      change (a_nested (pushed a x0)) with (a_nested a). change (a_fin (pushed a x0)) with (a_fin a). change (a_fields (pushed a x0)) with (a_fields a).
      change (a_align (pushed a x0)) with (Z.max (a_align a) (push_alignment x0)). rewrite natural_push, map_app, T3, T4. repeat split; auto; lia.
  - apply bind_Val in H as (a1 & H & E). injection E as <- <-.
    apply a_push_slot_always_val in H as (-> & _). rewrite Slot by lia.
    pose proof (blen_pushed16 a x0). unfold a_track. cbn [with_fields a_nested a_fin a_fields a_align a_data].
    change (a_nested (pushed a x0)) with (a_nested a). change (a_fin (pushed a x0)) with (a_fin a). change (a_fields (pushed a x0)) with (a_fields a).
    change (a_align (pushed a x0)) with (Z.max (a_align a) (push_alignment x0)). rewrite natural_push, map_app, T3, T4. repeat split; auto; lia.
  - injection H as <- <-. repeat split; auto; lia.
  - apply bind_Val in H as ([a1 n] & H & E). injection E as <- <-. unfold a_start_table in H. apply bind_Val in H as (v & _ & H). injection H as <- <-.
    cbn [with_nested a_nested a_fin a_fields a_align a_data]. repeat split; auto; lia.
  - apply bind_Val in H as ([a1 n] & H & E). injection E as <- <-. unfold a_end_table in H. apply bind_Val in H as (v & _ & H).
    apply bind_Val in H as ([a2 o2] & H & E). injection E as <- <-.
    pose proof (blen_marker a) as BM. pose proof (gap_range (a_data a) 4 4 pow8_4) as GR. pose proof (fits_len _ Hok Hf) as FL.
    apply a_write_vtable_val in H; [|auto|lia]. destruct H as (size & vt & dup & _ & _ & _ & _ & Hvt & _ & -> & _).
    pose proof (a_vtable_shape _ _ _ _ _ Hok Hf Hvt) as [_ Lv].
    unfold table_state. cbv zeta. cbn [with_fields with_nested a_nested a_fin a_fields a_align a_data map]. rewrite T4.
    split; [repeat split; auto|]. rewrite !blen_app, blen_wire, blen_zeros. cbn [ssize].
    assert (blen match dup with Some _ => [] | None => vt end <= 65534) by (destruct dup; [change (blen (@nil byte)) with 0|]; lia). lia.
  - apply bind_Val in H as (a1 & H & E). injection E as <- <-. unfold a_start_vector in H. apply bind_Val in H as (v & _ & H).
    apply bind_Val in H as (m & _ & H). apply a_pad_val in H as [-> _]; [|apply max4_pow8, pty_align_pow8].
    pose proof (blen_pad (a_data a) m _ (max4_pow8 _ (pty_align_pow8 t))).
    cbn [with_data with_align with_nested a_nested a_fin a_fields a_align a_data]. rewrite natural_align, T4. unfold SIZE_UOFFSET in *. repeat split; auto; lia.
  - apply bind_Val in H as ([a1 n] & H & E). injection E as <- <-. unfold a_end_vector in H. apply bind_Val in H as (v & _ & H).
    apply a_push_val in H as (-> & _ & _). match goal with |- context [pushed ?A ?X] => pose proof (blen_pushed16 A X) as B end.
    cbn [with_nested a_data] in B. unfold pushed at 1 2 3 4. cbn [with_data with_align with_nested a_nested a_fin a_fields a_align]. rewrite T4. repeat split; auto; lia.
  - apply bind_Val in H as ([a1 n] & H & E). injection E as <- <-. apply a_create_string_val in H. apply a_create_byte_string_val in H as (-> & _).
    pose proof (blen_pad (a_data a) (blen s + 1) 4 pow8_4). cbn [with_data with_align a_nested a_fin a_fields a_align a_data]. rewrite T4, blen_app, blen_string_bytes. repeat split; auto; lia.
  - apply bind_Val in H as ([a1 n] & H & E). injection E as <- <-. apply a_create_byte_string_val in H as (-> & _).
    pose proof (blen_pad (a_data a) (blen s + 1) 4 pow8_4). cbn [with_data with_align a_nested a_fin a_fields a_align a_data]. rewrite T4, blen_app, blen_string_bytes. repeat split; auto; lia.
  - apply bind_Val in H as ([a1 n] & H & E). injection E as <- <-. apply a_create_vector_direct_val in H as (-> & _).
    pose proof (blen_pad (a_data a) (blen items * ssize t) (Z.max (salign t) 4) (max4_pow8 _ (salign_pow8 t))).
    cbn [with_data with_align a_nested a_fin a_fields a_align a_data]. change (salign t) with (ssize t) in *. rewrite T4, !blen_app, blen_wire, blen_slice_memory. rewrite blen_app in H. cbn [ssize].
    repeat split; auto; lia.
  - apply bind_Val in H as ([a1 n] & H & E). injection E as <- <-. unfold a_create_vector_of_strings in H. apply bind_Val in H as (v & Hv & H).
    apply bind_Val in H as ([a2 r] & H1 & H). rewrite fold_strings in L.
    rewrite fold_strings. pose proof (strings_rev_val _ _ _ _ _ H1) as (E1 & E2 & E3 & E4).
    pose proof (strings_bytes_nonneg xs). pose proof (blen_nonneg xs).
    apply (a_create_vector_val false h PTOffset) in H as (-> & _); [|apply Forall_forall; intros y Iy; apply in_map_iff in Iy as (w & <- & _); reflexivity].
    destruct (strings_rev_false h (rev xs) a []) as (a3 & r3 & E5 & _ & L5 & Ln).
    { intros Hd. unfold debug_assert in Hv. rewrite Hd in Hv. destruct (a_nested a); [discriminate Hv|reflexivity]. }
    { rewrite strings_bytes_rev. lia. }
    { constructor. }
    rewrite H1 in E5. injection E5 as <- <-. rewrite strings_bytes_rev in L5. rewrite rev_length in Ln. cbn [length Nat.add] in Ln.
    assert (Br : blen (map POffset r) = blen xs) by (unfold blen; rewrite map_length; lia).
    pose proof (blen_pad (a_data a2) (blen (map POffset r) * pty_size PTOffset) (Z.max (pty_align PTOffset) 4) (max4_pow8 _ (pty_align_pow8 PTOffset))) as BP.
    cbn [with_data with_align a_nested a_fin a_fields a_align a_data]. unfold vector_data. cbv zeta.
    assert (Fr : Forall (of_type PTOffset) (map POffset r)) by (apply Forall_forall; intros y Iy; apply in_map_iff in Iy as (w & <- & _); reflexivity).
    rewrite blen_app, blen_wire, (blen_cells PTOffset) by auto. rewrite Br in *. cbn [ssize pty_size pty_align] in *. unfold SIZE_UOFFSET in *.
    assert (blen (rev xs) = blen xs) by (unfold blen; rewrite rev_length; reflexivity).
    rewrite T4, E1, E2, E3. change (Z.max 4 4) with 4 in *. split; [repeat split; auto|]. lia.
  - apply bind_Val in H as ([a1 n] & H & E). injection E as <- <-. apply andb_true_iff in Ho as [_ Ho]. apply items_ok in Ho as [_ Ho].
    apply a_create_vector_val in H as (-> & _); [|exact Ho].
    pose proof (blen_pad (a_data a) (blen items * pty_size t) (Z.max (pty_align t) 4) (max4_pow8 _ (pty_align_pow8 t))) as BP.
    cbn [with_data with_align a_nested a_fin a_fields a_align a_data]. unfold vector_data. cbv zeta.
    rewrite T4, blen_app, blen_wire, (blen_cells t) by auto. pose proof (natural_size t) as Q1. pose proof (natural_align t) as Q2. rewrite <- Q2, <- ?Q1 in *. cbn [ssize]. repeat split; auto; lia.
  - injection H as <- <-. repeat split; auto; lia.
  - apply bind_Val in H as (v & _ & H). injection H as <- <-. repeat split; auto; lia.
  - apply bind_Val in H as (v & _ & H). injection H as <- <-. repeat split; auto; lia.
  - apply bind_Val in H as (a1 & H & E). injection E as <- <-.
    assert (0 <= match ident with Some i => blen i | None => 0 end) by (destruct ident as [i|]; [pose proof (blen_nonneg i)|]; lia).
    apply a_finish_val in H as (Pal & -> & _); [|exact Hal|lia]. cbn [a_nested a_fin a_fields a_align a_data]. rewrite T4.
    split; [repeat split; auto|]. rewrite blen_finish_data.
    pose proof (gap_range (finish_body a ident size_prefixed) 4 4 pow8_4).
    pose proof (gap_range (a_data a) (4 + (if size_prefixed then 4 else 0) + (if ident then 4 else 0)) (a_align a) Pal).
    unfold finish_gap. pose proof (pow8_le8 _ Pal). assert (ident_len ident <= match ident with Some i => blen i | None => 0 end) by (destruct ident; cbn; lia).
    destruct size_prefixed; lia.
Qed.
End Step.

(** Steps of the builder. *)
Lemma step_decides h u b o : vgood b -> tracks u (view b) -> op_ok o = true ->
  blen (unfinished_data b) + op_bytes o <= 2 ^ 31 ->
  (step h b o = Panic /\ misuse h u (unfinished_data b) o) \/
  (exists b' x, step h b o = Val (b', x) /\ ~ misuse h u (unfinished_data b) o /\
     tracks (next_usage (blen (unfinished_data b')) u o) (view b') /\ blen (unfinished_data b') <= blen (unfinished_data b) + op_bytes o).
Proof.
  intros [[I A] [F K]] T Ho L. assert (op_bytes_nonneg : 0 <= op_bytes o).
  { destruct o; cbn [op_bytes]; rewrite ?fold_strings; try lia; try (pose proof (blen_nonneg s); lia).
    - pose proof (blen_nonneg items). pose proof (ssize_pos t). nia.
    - pose proof (strings_bytes_nonneg xs). pose proof (blen_nonneg xs). lia.
    - pose proof (blen_nonneg items). assert (0 < natural t) by (rewrite natural_size; destruct t; cbn; [apply ssize_pos|lia]). nia.
    - destruct ident; [pose proof (blen_nonneg l)|]; lia. }
  pose proof (inv_fields b I) as Hok. destruct (K ltac:(cbn [view a_data] in *; lia)) as [K1 _].
  pose proof (step_ref h b (view b) o (conj I eq_refl) Ho) as P. unfold ref in P.
  destruct (a_step_decides h u (view b) o T Ho Hok F K1 A L) as [[E M]|([a' x] & E & M)].
  - left. split; [|exact M]. destruct (step h b o) as [[b' x']| |]; [|destruct P|reflexivity].
    destruct P as ([a2 x2] & _ & Hs & _). rewrite E in Hs. discriminate.
  - right. destruct (a_step_next h u (view b) o a' x T Ho Hok F A L E) as [T' L'].
    destruct (strict_step h b o a' x I Ho (a_step_strict h (view b) o a' x Hok E (Z.le_trans _ _ _ L' L))) as (b' & Es & I' & <-).
    exists b', x. split; [exact Es|]. split; [exact M|]. split; [exact T'|exact L'].
Qed.

Lemma run_decides h os : forall b u, vgood b -> tracks u (view b) -> calls_ok os = true ->
  (forall pre o post b' xs, os = pre ++ o :: post -> run h b pre = Val (b', xs) -> blen (unfinished_data b') + op_bytes o <= 2 ^ 31) ->
  decides (run h b os) (exists pre o post b' xs, os = pre ++ o :: post /\ run h b pre = Val (b', xs) /\
    misuse h (usage_after h b u pre) (unfinished_data b') o).
Proof.
  induction os as [|o os IH]; intros b u G T Ho L.
  - right. exists (b, []). split; [reflexivity|]. intros (pre & o & post & b' & xs & E & _). destruct pre; discriminate.
  - unfold calls_ok in Ho. cbn [forallb] in Ho. apply andb_true_iff in Ho as [Ho1 Ho]. apply andb_true_iff in Ho1 as [Ho1 Ho2].
    destruct (step_decides h u b o G T Ho1 (L [] o os b [] eq_refl eq_refl)) as [[E M]|(b1 & x & E & M & T1 & _)].
    + left. cbn [run]. rewrite E. split; [reflexivity|]. exists [], o, os, b, []. auto.
    + destruct (IH b1 (next_usage (blen (unfinished_data b1)) u o) (step_vgood h b o b1 x G Ho1 Ho2 E) T1 Ho) as [[E2 M2]|([b2 xs] & E2 & M2)].
      * intros pre o' post b' xs -> Hr. apply (L (o :: pre) o' post b' (x :: xs)); [reflexivity|]. cbn [run]. rewrite E. cbn [bind]. rewrite Hr. reflexivity.
      * left. cbn [run]. rewrite E. cbn [bind]. rewrite E2. split; [reflexivity|].
        destruct M2 as (pre & o' & post & b' & xs & -> & Hr & Mu). exists (o :: pre), o', post, b', (x :: xs).
        cbn [run usage_after]. rewrite E. cbn [bind]. rewrite Hr. auto.
      * right. cbn [run]. rewrite E. cbn [bind]. rewrite E2. eexists. split; [reflexivity|].
        intros (pre & o' & post & b' & ys & Ep & Hr & Mu). destruct pre as [|o1 pre]; injection Ep as <- Ep.
        -- cbn [run] in Hr. injection Hr as <- <-. auto.
        -- apply M2. cbn [run usage_after] in *. rewrite E in *. cbn [bind] in Hr. apply bind_Val in Hr as ([b3 zs] & Hr & E3). injection E3 as <- <-.
           exists pre, o', post, b3, zs. auto.
Qed.

Theorem program_decides h c os : 0 <= c <= 2 ^ 31 -> calls_ok os = true -> room_for_all h c os ->
  decides (program h c os) (misused h c os).
Proof.
  intros Hc Ho L. destruct (proj2 (capacity_limit c ltac:(lia)) ltac:(lia)) as (b0 & E0). unfold decides, misused, room_for_all, program in *. rewrite E0 in *. cbn [bind] in *.
  pose proof (new_Rb c b0 ltac:(lia) E0) as [_ V].
  eapply decides_iff; [apply (run_decides h os b0 unused); auto|].
  - apply (new_vgood c); [lia|exact E0].
  - rewrite <- V. repeat split.
  - split.
    + intros (pre & o & post & b & xs & E & Hr & M). exists pre, o, post, b0, b, xs. auto.
    + intros (pre & o & post & b1 & b & xs & E & E1 & Hr & M). injection E1 as <-. exists pre, o, post, b, xs. auto.
Qed.

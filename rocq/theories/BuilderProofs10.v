(** What the builder gets wrong: concrete histories. *)
From Coq Require Import ZArith List Bool Lia Strings.Byte ZifyBool ZifyNat ZifyN.
From Verif Require Import Base Scalar Reader Builder Ops SpecBuilder Abstract BaseFacts ScalarFacts
  ReaderFacts Refine Refine2 Build1 Build2 Build3 Build4 Build5 Build6 Build7 Build8 Build9 Build10 Build11 BuilderProofs1 BuilderProofs2 BuilderProofs3 BuilderProofs4 BuilderProofs8.
Import ListNotations.
Local Open Scope Z_scope.

(** ** The last slot *)
Definition last_slot : list op := table_program [] [OpPushSlotAlways 65534 (PScalar TU8 7)] 0 [].
Definition last_slot_lost (e : bool) (hr : host) : bool :=
  match program (Host false e) 0 last_slot with
  | Val (b, [ONum 0; ONone; ONum obj]) =>
      match table_get hr (unfinished_data b) (blen (unfinished_data b) - obj) 65534 (FScalar TU8) None with
      | Val None => true
      | _ => false
      end
  | _ => false
  end.
Lemma last_slot_computed e hr : last_slot_lost e hr = true.
Proof. destruct e, hr as [[|] [|]]; vm_compute; reflexivity. Qed.
Lemma last_slot_corrupt e : exists b obj,
  program (Host false e) 0 last_slot = Val (b, [ONum 0; ONone; ONum obj]) /\
  forall hr, table_get hr (unfinished_data b) (blen (unfinished_data b) - obj) 65534 (FScalar TU8) None = Val None.
Proof.
  pose proof (last_slot_computed e) as C. unfold last_slot_lost in C.
  destruct (program (Host false e) 0 last_slot) as [[b xs]| |]; [|specialize (C (Host false false)); discriminate..].
  destruct xs as [|[|[| |]|] [|[| |] [|[|obj|] [|]]]]; try (specialize (C (Host false false)); discriminate).
  exists b, obj. split; [reflexivity|]. intros hr. specialize (C hr).
  destruct (table_get hr _ _ _ _ _) as [[v|]| |]; [discriminate|reflexivity|discriminate..].
Qed.

(** ** Reset inside a table *)
Definition open_table : list op := [OpStartTable; OpPushSlotAlways 4 (PScalar TU8 1)].
Definition empty_table : list op := [OpStartTable; OpEndTable 0].
Definition reset_leaks (h : host) : bool :=
  match program h 0 open_table with
  | Val (b, _) =>
      match run h (reset b) empty_table, program h 0 empty_table with
      | Val (b1, _), Val (b2, _) => negb (bytes_eqb (unfinished_data b1) (unfinished_data b2))
      | _, _ => false
      end
  | _ => false
  end.
Lemma reset_mid_table h : exists b xs b1 ys1 b2 ys2,
  program h 0 open_table = Val (b, xs) /\ run h (reset b) empty_table = Val (b1, ys1) /\
  program h 0 empty_table = Val (b2, ys2) /\ unfinished_data b1 <> unfinished_data b2.
Proof.
  assert (C : reset_leaks h = true) by (destruct h as [[|] [|]]; vm_compute; reflexivity). unfold reset_leaks in C.
  destruct (program h 0 open_table) as [[b xs]| |] eqn:E0; try discriminate.
  destruct (run h (reset b) empty_table) as [[b1 ys1]| |] eqn:E1; try discriminate.
  destruct (program h 0 empty_table) as [[b2 ys2]| |] eqn:E2; try discriminate.
  exists b, xs, b1, ys1, b2, ys2. split; [auto|]. split; [auto|]. split; [auto|]. intros E. rewrite E, bytes_eqb_refl in C. discriminate.
Qed.

(** ** Finishing *)
Definition ident4 : list byte := [x41; x42; x43; x44].
Definition misplaced (h hr : host) : bool :=
  match program h 0 [OpPush (PScalar TU8 7); OpFinish 1 (Some ident4) false] with
  | Val (b, _) =>
      match buffer_has_identifier hr (unfinished_data b) ident4 false with Val false => true | _ => false end
  | _ => false
  end.
Lemma identifier_misplaced h : exists b xs,
  program h 0 [OpPush (PScalar TU8 7); OpFinish 1 (Some ident4) false] = Val (b, xs) /\
  forall hr, buffer_has_identifier hr (unfinished_data b) ident4 false = Val false.
Proof.
  assert (C : forall hr, misplaced h hr = true) by (destruct h as [[|] [|]]; intros [[|] [|]]; vm_compute; reflexivity).
  unfold misplaced in C. 
  destruct (program h 0 _) as [[b xs]| |]; [|specialize (C h); discriminate..].
  exists b, xs. split; [reflexivity|]. intros hr. specialize (C hr). destruct (buffer_has_identifier _ _ _ _) as [[|]| |]; try discriminate. reflexivity.
Qed.
Lemma finish_empty h c root ident sp : 0 <= c -> program h c [OpFinish root ident sp] = Panic.
Proof.
  intros Hc. unfold program, new_with_capacity, assert_always, MAX_BUFFER_SIZE.
  destruct (Z.leb_spec c (2 ^ 31)); [|reflexivity]. cbn [bind run step].
  unfold finish_with_opts, assert_not_finished, assert_not_nested. cbn [finished nested negb].
  rewrite debug_assert_ok by reflexivity. cbn [bind]. unfold align, used_space.
  cbn [set_revpos set_min_align owned_buf head min_align field_locs written_vtable_revpos nested finished].
  rewrite blen_zeros. replace (Z.max 0 c - c) with 0 by lia. change (Z.max 0 0) with 0.
  unfold make_space, ensure_capacity, assert_always, MAX_BUFFER_SIZE. cbn [set_min_align head].
  destruct ident, sp; rewrite usize_arith_ok by (unfold SIZE_UOFFSET, FILE_IDENTIFIER_LENGTH; lia); cbn [bind];
    match goal with |- context [padding_bytes ?a 0] => let v := eval vm_compute in (padding_bytes a 0) in replace (padding_bytes a 0) with v by (vm_compute; reflexivity) end;
    cbn [set_min_align set_revpos head];
    match goal with |- context [if ?x <=? c then _ else _] => replace (x <=? c) with false by lia end; reflexivity.
Qed.

(** ** The 2 GiB limit *)
Lemma capacity_limit c : 0 <= c -> (exists b, new_with_capacity c = Val b) <-> c <= 2 ^ 31.
Proof.
  intros Hc. unfold new_with_capacity, assert_always, MAX_BUFFER_SIZE. destruct (Z.leb_spec c (2 ^ 31)).
  - split; [auto|]. eexists. reflexivity.
  - split; [|lia]. intros (b & E). discriminate.
Qed.
Lemma request_limit h b want b' : make_space h b want = Val b' -> want <= head b \/ want <= 2 ^ 31.
Proof.
  unfold make_space, ensure_capacity, assert_always, MAX_BUFFER_SIZE. destruct (Z.leb_spec want (head b)); [auto|].
  destruct (Z.leb_spec want (2 ^ 31)); [auto|discriminate].
Qed.

Lemma big_step h n v a : debug_assert h (negb (a_nested a)) = Val tt -> blen (a_data a) mod 4 = 0 ->
  n = Z.of_nat (length v) -> n mod 4 = 0 -> n <= 2 ^ 31 -> blen (a_data a) <= 2 ^ 60 ->
  exists a' x, a_step true h a (OpCreateVectorDirect TU8 v) = Val (a', x) /\
    a_data a' = wire TU32 n ++ slice_memory h TU8 v ++ a_data a /\ blen (a_data a') = n + 4 + blen (a_data a) /\
    a_nested a' = a_nested a /\ a_vts a' = a_vts a /\ a_fields a' = a_fields a.
Proof.
  intros Hn M En Mn Ln La. assert (Bv : blen v = n) by (unfold blen; lia). cbn [a_step]. unfold a_num.
  rewrite a_create_vector_direct_fwd; [|exact Hn|rewrite Bv; cbn [ssize]; lia|exact La]. cbn [bind].
  replace (gap (a_data a) (blen v * ssize TU8) (Z.max (salign TU8) 4)) with 0.
  2: { unfold gap, salign. cbn [ssize]. change (Z.max 1 4) with 4. rewrite Bv, Z.mul_1_r.
       symmetry. apply Z.mod_opp_l_z; [lia|]. rewrite Zplus_mod, M, Mn. reflexivity. }
  change (zeros 0) with (@nil byte). cbn [app with_data with_align a_data]. rewrite Bv.
  eexists. eexists. split; [reflexivity|]. cbn [with_data with_align a_data a_nested a_vts a_fields].
  rewrite !blen_app, blen_wire, blen_slice_memory, Bv. cbn [ssize]. repeat split; auto; lia.
Qed.

Lemma big_run h v n k : n = Z.of_nat (length v) -> n mod 4 = 0 -> n <= 2 ^ 31 ->
  forall a, debug_assert h (negb (a_nested a)) = Val tt -> blen (a_data a) mod 4 = 0 ->
  blen (a_data a) + Z.of_nat k * (n + 4) <= 2 ^ 60 ->
  exists a' xs, a_run true h a (repeat (OpCreateVectorDirect TU8 v) k) = Val (a', xs) /\
    blen (a_data a') = blen (a_data a) + Z.of_nat k * (n + 4) /\ a_nested a' = a_nested a.
Proof.
  intros En Mn Ln. induction k as [|k IH]; intros a Hn M L; cbn [repeat a_run].
  - exists a, []. repeat split; auto. lia.
  - destruct (big_step h n v a Hn M En Mn Ln) as (a1 & x & S & _ & B1 & N1 & _); [lia|].
    rewrite S. cbn [bind]. destruct (IH a1) as (a2 & xs & R & B2 & N2).
    + rewrite N1. exact Hn.
    + rewrite B1. rewrite Zplus_mod, M, (Zplus_mod n 4), Mn. reflexivity.
    + lia.
    + rewrite R. cbn [bind]. exists a2, (x :: xs). repeat split; [lia|congruence].
Qed.

Lemma big_vector n x : 0 <= n -> exists v : list Z, Z.of_nat (length v) = n /\ forall y, In y v -> y = x.
Proof.
  intros H. exists (repeat x (Z.to_nat n)). split; [rewrite repeat_length, Z2Nat.id by exact H; reflexivity|].
  intros y I. exact (repeat_spec _ _ _ I).
Qed.

Lemma unlimited_total h c limit : 0 <= c <= 2 ^ 31 -> 0 <= limit <= 2 ^ 59 -> exists os b xs,
  forallb op_ok os = true /\ nested_well None os = true /\ program h c os = Val (b, xs) /\ limit < blen (unfinished_data b).
Proof.
  intros Hc Hl. destruct (big_vector (2 ^ 30) 0) as (v & Ev & Vv0); [clear; lia|].
  assert (Vv : forallb (valid_scalar TU8) v = true) by (apply forallb_forall; intros x I; rewrite (Vv0 x I); reflexivity).
  destruct (big_vector (limit / 2 ^ 30 + 1) 0) as (kk & Ek & _); [pose proof (Z.div_pos limit (2 ^ 30)); lia|].
  generalize dependent (length kk). intros k Ek.
  pose proof (Z.div_mod limit (2 ^ 30)). pose proof (Z.mod_pos_bound limit (2 ^ 30)).
  destruct (big_run h v (2 ^ 30) k (eq_sym Ev) eq_refl ltac:(lia) a_new) as (a & xs & R & B & _).
  - apply debug_assert_ok. reflexivity.
  - reflexivity.
  - change (blen (a_data a_new)) with 0. lia.
  - apply (strict_program h c) in R as (b & P & I & V); [|exact Hc|].
    + exists (repeat (OpCreateVectorDirect TU8 v) k), b, xs.
      split; [|split; [|split]].
      * apply forallb_forall. intros o I'. apply repeat_spec in I'. subst o. cbn [op_ok]. rewrite Vv. unfold blen. rewrite Ev. reflexivity.
      * clear. induction k; cbn [repeat nested_well next_open]; auto.
      * exact P.
      * change (unfinished_data b) with (a_data (view b)). rewrite V, B. change (blen (a_data a_new)) with 0. lia.
    + apply forallb_forall. intros o I'. apply repeat_spec in I'. subst o. cbn [op_ok]. rewrite Vv. unfold blen. rewrite Ev. reflexivity.
Qed.

(** ** Beyond 4 GiB a release build overwrites old data *)
Lemma overwrite_step h a : debug h = false -> a_fields a = [] -> a_vts a = [] -> blen (a_data a) = 2 ^ 32 ->
  forall p, a_data a = p ++ [xff; xff; xff; xff] ->
  exists a' q, a_end_table true h a 0 = Val (a', 4) /\ a_data a' = q ++ wire TI32 4.
Proof.
  intros Hd Hf Hv Hb p Hp.
  assert (DA : forall b, debug_assert h b = Val tt) by (intros b; unfold debug_assert; rewrite Hd; reflexivity).
  unfold a_end_table, a_write_vtable. rewrite !DA. cbn [bind]. fold marker.
  rewrite a_push_fwd; [|reflexivity|exact Logic.I|rewrite Hb; clear; lia]. cbn [bind].
  assert (E1 : a_data (pushed a marker) = wire TU32 0xF0F0F0F0 ++ a_data a).
  { unfold pushed. cbn [with_data a_data marker push_size push_alignment ssize]. unfold salign. cbn [ssize].
    unfold gap. rewrite Hb. reflexivity. }
  change (a_fields (pushed a marker)) with (a_fields a). change (a_vts (pushed a marker)) with (a_vts a). rewrite Hf, Hv, E1.
  assert (B1 : blen (wire TU32 0xF0F0F0F0 ++ a_data a) = 2 ^ 32 + 4) by (rewrite blen_app, blen_wire, Hb; reflexivity).
  set (d1 := wire TU32 0xF0F0F0F0 ++ a_data a) in *.
  rewrite B1. change (as_u32 (2 ^ 32 + 4)) with 4. change (get_vtable_byte_len []) with 4.
  rewrite room_fwd; [|clear; lia|rewrite B1; clear; lia]. cbn [bind]. rewrite u32_arith_ok by (clear; lia). cbn [bind]. rewrite DA. cbn [bind].
  assert (V : exists vt, a_vtable h 4 (4 - 0) 4 [] = Val vt /\ blen vt = 4).
  { destruct h as [d [|]]; cbn [debug] in Hd; subst d; eexists; split; vm_compute; reflexivity. }
  destruct V as (vt & -> & Lv). cbn [bind rev find_dup].
  assert (B2 : blen (vt ++ d1) = 2 ^ 32 + 8) by (rewrite blen_app, Lv, B1; reflexivity).
  rewrite B2. change (as_u32 (2 ^ 32 + 8)) with 8. cbn [with_vts with_data a_data]. rewrite B2.
  assert (E2 : vt ++ d1 = (vt ++ wire TU32 0xF0F0F0F0 ++ p) ++ [xff; xff; xff; xff] ++ []).
  { unfold d1. rewrite Hp, app_nil_r, !app_assoc. reflexivity. }
  assert (Lq : blen (vt ++ wire TU32 0xF0F0F0F0 ++ p) = 2 ^ 32 + 4).
  { rewrite E2, blen_app in B2. change (blen ([xff; xff; xff; xff] ++ [])) with 4 in B2. clear - B2. lia. }
  set (q := vt ++ wire TU32 0xF0F0F0F0 ++ p) in *.
  replace (2 ^ 32 + 8 - 4) with (2 ^ 32 + 4) by (clear; lia).
  assert (G : get_range (vt ++ d1) (2 ^ 32 + 4) (2 ^ 32 + 4 + 4) = Some [xff; xff; xff; xff]).
  { rewrite E2. apply get_range_mid; [symmetry; exact Lq|]. change (blen [xff; xff; xff; xff]) with 4. rewrite Lq. reflexivity. }
  rewrite (read_scalar_at_ok h TU32 _ _ [xff; xff; xff; xff]); [|clear; lia|rewrite ?B2; cbn [ssize]; clear; lia|exact G].
  cbn [expect bind]. rewrite DA. cbn [bind]. change (i32_arith h (as_i32 8 - as_i32 4)) with (@Val Z 4). cbn [bind].
  unfold index_range, SIZE_SOFFSET. rewrite G. cbn [expect_some bind].
  rewrite emplace_scalar_exact by reflexivity. cbn [bind].
  eexists. exists q. split; [reflexivity|]. cbn [with_fields with_nested with_data a_data].
  rewrite E2, (set_range_mid q [xff; xff; xff; xff] (wire TI32 4) []) by (auto; reflexivity). rewrite app_nil_r. reflexivity.
Qed.

Lemma last4 (a b : list byte) x y : a ++ x = b ++ y -> length x = length y -> x = y.
Proof.
  intros E L. apply app_len_inj in E; [tauto|]. apply (f_equal (@length byte)) in E. rewrite !app_length in E. lia.
Qed.

Lemma overwrites e c : 0 <= c <= 2 ^ 31 -> exists os later b xs b' ys,
  forallb op_ok (os ++ later) = true /\ no_reset (os ++ later) = true /\ nested_well None (os ++ later) = true /\
  program (Host false e) c os = Val (b, xs) /\ run (Host false e) b later = Val (b', ys) /\
  ~ exists new, unfinished_data b' = new ++ unfinished_data b.
Proof.
  intros Hc. set (h := Host false e).
  destruct (big_vector (2 ^ 31 - 8) 255) as (v0 & L0 & V0); [clear; lia|].
  set (v := v0 ++ [255; 255; 255; 255]).
  assert (Lv : 2 ^ 31 - 4 = Z.of_nat (length v)) by (unfold v; rewrite app_length; cbn [length]; clear - L0; lia).
  assert (Vv : forallb (valid_scalar TU8) v = true).
  { unfold v. rewrite forallb_app. apply andb_true_iff. split; [|reflexivity]. apply forallb_forall. intros x I. rewrite (V0 x I). reflexivity. }
  assert (Mv : slice_memory h TU8 v = slice_memory h TU8 v0 ++ [xff; xff; xff; xff]).
  { unfold v, slice_memory. rewrite flat_map_app. f_equal. destruct e; reflexivity. }
  clearbody v.
  destruct (big_step h (2 ^ 31 - 4) v a_new) as (a1 & x1 & S1 & D1 & B1 & N1 & T1 & F1);
    [apply debug_assert_ok; reflexivity|reflexivity|exact Lv|reflexivity|clear; lia|change (blen (a_data a_new)) with 0; clear; lia|].
  change (blen (a_data a_new)) with 0 in B1. change (a_data a_new) with (@nil byte) in D1. rewrite app_nil_r, Mv in D1.
  destruct (big_step h (2 ^ 31 - 4) v a1) as (a2 & x2 & S2 & D2 & B2 & N2 & T2 & F2);
    [rewrite N1; apply debug_assert_ok; reflexivity|rewrite B1; reflexivity|exact Lv|reflexivity|clear; lia|rewrite B1; clear; lia|].
  rewrite B1 in B2.
  assert (Ok : op_ok (OpCreateVectorDirect TU8 v) = true).
  { cbn [op_ok]. rewrite Vv. unfold blen. rewrite <- Lv. reflexivity. }
  assert (R : a_run true h a_new [OpCreateVectorDirect TU8 v; OpCreateVectorDirect TU8 v] = Val (a2, [x1; x2])).
  { cbn [a_run]. rewrite S1. cbn [bind]. rewrite S2. reflexivity. }
  apply (strict_program h c) in R as (b & P & I & Vb); [|exact Hc|cbn [forallb]; rewrite Ok; reflexivity].
  set (a3 := with_nested a2 true).
  destruct (overwrite_step h a3 eq_refl) with (p := wire TU32 (2 ^ 31 - 4) ++ slice_memory h TU8 v ++ wire TU32 (2 ^ 31 - 4) ++ slice_memory h TU8 v0)
    as (a4 & q & E4 & D4).
  { unfold a3. cbn [with_nested a_fields]. rewrite F2, F1. reflexivity. }
  { unfold a3. cbn [with_nested a_vts]. rewrite T2, T1. reflexivity. }
  { unfold a3. cbn [with_nested a_data]. rewrite B2. reflexivity. }
  { unfold a3. cbn [with_nested a_data]. rewrite D2, D1, !app_assoc. reflexivity. }
  assert (R2 : a_run true h (view b) [OpStartTable; OpEndTable 0] = Val (a4, [ONum 0; ONum 4])).
  { rewrite Vb. cbn [a_run a_step]. unfold a_num, a_start_table. rewrite debug_assert_ok by (rewrite N2, N1; reflexivity).
    cbn [bind]. fold a3. rewrite E4. cbn [bind]. unfold a3. cbn [with_nested a_data]. rewrite B2. reflexivity. }
  apply strict_run in R2 as (b' & P2 & I2 & Vb2); [|exact I|reflexivity].
  exists [OpCreateVectorDirect TU8 v; OpCreateVectorDirect TU8 v], [OpStartTable; OpEndTable 0], b, [x1; x2], b', [ONum 0; ONum 4].
  split; [cbn [app forallb]; rewrite Ok; reflexivity|]. split; [reflexivity|]. split; [reflexivity|].
  split; [exact P|]. split; [exact P2|].
  change (unfinished_data b) with (a_data (view b)). change (unfinished_data b') with (a_data (view b')).
  rewrite Vb, Vb2, D4, D2, D1. intros (new & E).
  assert (X : wire TI32 4 = [xff; xff; xff; xff]); [|vm_compute in X; discriminate].
  eapply (last4 q (new ++ wire TU32 (2 ^ 31 - 4) ++ slice_memory h TU8 v ++ wire TU32 (2 ^ 31 - 4) ++ slice_memory h TU8 v0)); [|reflexivity].
  rewrite E, !app_assoc. reflexivity.
Qed.

(** Builds agree: debug and release, little and big endian. *)
From Coq Require Import ZArith List Bool Lia Strings.Byte ZifyBool ZifyNat ZifyN.
From Verif Require Import Base Scalar Reader Builder Ops SpecBuilder BaseFacts ScalarFacts.
Import ListNotations.
Local Open Scope Z_scope.

Create HintDb agr discriminated.
#[local] Hint Constants Opaque : agr.

(** The second result is the first one unless the first is a panic. *)
Definition agree {A} (x y : outcome A) : Prop := x = y \/ x = Panic.
Lemma agree_refl {A} (x : outcome A) : agree x x. Proof. left. reflexivity. Qed.
Lemma agree_bind {A B} (x y : outcome A) (f g : A -> outcome B) :
  agree x y -> (forall a, agree (f a) (g a)) -> agree (bind x f) (bind y g).
Proof. intros [->| ->] H; [|right; reflexivity]. destruct y; cbn [bind]; auto using agree_refl. Qed.
Lemma agree_expect {A} (x y : outcome A) : agree x y -> agree (expect x) (expect y).
Proof. intros [->| ->]; [left|right]; reflexivity. Qed.
Lemma agree_both {A} (x y : outcome A) : agree x y -> agree y x -> x = y.
Proof. intros [->| ->] [H|H]; congruence. Qed.

Lemma emplace_host h1 h2 t s v : emplace_scalar h1 t s v = emplace_scalar h2 t s v.
Proof. unfold emplace_scalar. rewrite !store_to_le. reflexivity. Qed.
Lemma read_host h1 h2 t s : read_scalar h1 t s = read_scalar h2 t s.
Proof.
  destruct (Z.ltb_spec (blen s) (ssize t)); [rewrite !read_scalar_short by lia; reflexivity|].
  rewrite <- (firstn_skipn (Z.to_nat (ssize t)) s). rewrite !read_scalar_ok; [reflexivity|..];
    unfold blen in *; rewrite firstn_length; pose proof (ssize_pos t); lia.
Qed.

Section Agree.
Context (h1 h2 : host) (HD : debug h1 = debug h2 \/ debug h1 = true).

Lemma agree_unsigned w v : agree (unsigned_arith h1 w v) (unsigned_arith h2 w v).
Proof.
  unfold unsigned_arith. destruct (_ && _); [apply agree_refl|].
  destruct HD as [->| ->]; [apply agree_refl|right; reflexivity].
Qed.
Lemma agree_usize v : agree (usize_arith h1 v) (usize_arith h2 v). Proof. apply agree_unsigned. Qed.
Lemma agree_u32 v : agree (u32_arith h1 v) (u32_arith h2 v). Proof. apply agree_unsigned. Qed.
Lemma agree_u16 v : agree (u16_arith h1 v) (u16_arith h2 v). Proof. apply agree_unsigned. Qed.
Lemma agree_i32 v : agree (i32_arith h1 v) (i32_arith h2 v).
Proof.
  unfold i32_arith. destruct (_ && _); [apply agree_refl|].
  destruct HD as [->| ->]; [apply agree_refl|right; reflexivity].
Qed.
Lemma agree_debug_assert b : agree (debug_assert h1 b) (debug_assert h2 b).
Proof.
  unfold debug_assert. destruct HD as [->| ->]; [apply agree_refl|]. destruct b; cbn [negb andb].
  - left. rewrite andb_false_r. reflexivity.
  - right. reflexivity.
Qed.

Ltac agr :=
  repeat (cbv zeta;
    match goal with
    | |- agree ?x ?x => apply agree_refl
    | |- agree (usize_arith _ _) _ => apply agree_usize
    | |- agree (u32_arith _ _) _ => apply agree_u32
    | |- agree (i32_arith _ _) _ => apply agree_i32
    | |- agree (debug_assert _ _) _ => apply agree_debug_assert
    | |- agree (expect _) _ => apply agree_expect
    | |- agree (bind _ _) _ => apply agree_bind; [|intros ?]
    | |- agree (read_scalar h1 _ _) _ => rewrite (read_host h1 h2)
    | |- agree (emplace_scalar h1 _ _ _) _ => rewrite (emplace_host h1 h2)
    | |- agree (let (_, _) := ?x in _) _ => destruct x
    | |- agree (if ?x then _ else _) _ => destruct x
    | |- agree (match ?x with _ => _ end) _ => destruct x
    | |- _ => solve [eauto 1 with agr nocore]
    end).

Lemma agree_read_at t s l : agree (read_scalar_at h1 t s l) (read_scalar_at h2 t s l).
Proof. unfold read_scalar_at. agr. Qed.
#[local] Hint Resolve agree_read_at : agr.
Lemma agree_vtable buf l : agree (table_vtable h1 buf l) (table_vtable h2 buf l).
Proof. unfold table_vtable. cbn [follow]. agr. Qed.
Lemma agree_vt_get buf l s : agree (vt_get h1 buf l s) (vt_get h2 buf l s).
Proof. unfold vt_get, vt_num_bytes. agr. Qed.
Lemma agree_vt_as_bytes buf l : agree (vt_as_bytes h1 buf l) (vt_as_bytes h2 buf l).
Proof. unfold vt_as_bytes, vt_num_bytes. agr. Qed.
Lemma agree_vt_eq buf a b : agree (vt_eq h1 buf a b) (vt_eq h2 buf a b).
Proof.
  unfold vt_eq. destruct (agree_vt_as_bytes buf a) as [->| ->]; [|right; reflexivity].
  destruct (agree_vt_as_bytes buf b) as [->| ->]; [apply agree_refl|].
  destruct (vt_as_bytes h2 buf a) as [|[]|]; right; reflexivity.
Qed.
#[local] Hint Resolve agree_vtable agree_vt_get agree_vt_eq : agr.
Lemma agree_find_dup buf n l : agree (find_dup h1 buf n l) (find_dup h2 buf n l).
Proof. induction l as [|r l IH]; cbn [find_dup]; agr. Qed.
Lemma agree_write_fields obj l : forall vt, agree (write_fields h1 vt obj l) (write_fields h2 vt obj l).
Proof.
  induction l as [|f l IH]; intros vt; cbn [write_fields]; [apply agree_refl|].
  apply agree_bind; [agr|intros d]. apply agree_bind.
  - pose proof HD as [E|E].
    + rewrite E. case (debug h2); [|apply agree_refl]. unfold vtw_get_field_offset. agr.
    + rewrite E. case (debug h2); unfold vtw_get_field_offset; [agr|].
      destruct (expect _) as [old|e|] eqn:Q; cbn [bind]; [|destruct (read_scalar_at h1 TU16 vt (fl_id f)); discriminate|right; reflexivity].
      unfold debug_assert. rewrite E. destruct (old =? 0); [left|right]; reflexivity.
  - intros ?. apply agree_bind; [unfold vtw_write_field_offset; agr|intros ?; apply IH].
Qed.
#[local] Hint Resolve agree_find_dup agree_write_fields : agr.

Lemma agree_grow b : agree (grow_owned_buf h1 b) (grow_owned_buf h2 b).
Proof. unfold grow_owned_buf. agr. Qed.
#[local] Hint Resolve agree_grow : agr.
Lemma agree_grow_loop n : forall b w, agree (grow_loop h1 n b w) (grow_loop h2 n b w).
Proof. induction n as [|n IH]; intros b w; cbn [grow_loop]; agr. Qed.
#[local] Hint Resolve agree_grow_loop : agr.
Lemma agree_make_space b w : agree (make_space h1 b w) (make_space h2 b w).
Proof. unfold make_space, ensure_capacity. agr. Qed.
#[local] Hint Resolve agree_make_space : agr.
Lemma agree_align b l a : agree (align h1 b l a) (align h2 b l a).
Proof. unfold align. agr. Qed.
#[local] Hint Resolve agree_align : agr.
Lemma agree_push_into x d r : agree (push_into h1 x d r) (push_into h2 x d r).
Proof. unfold push_into. agr. Qed.
#[local] Hint Resolve agree_push_into : agr.
Lemma agree_push b x : agree (push h1 b x) (push h2 b x).
Proof. unfold push. agr. Qed.
Lemma agree_push_bytes b x : agree (push_bytes_unprefixed h1 b x) (push_bytes_unprefixed h2 b x).
Proof. unfold push_bytes_unprefixed. agr. Qed.
#[local] Hint Resolve agree_push agree_push_bytes : agr.
Lemma agree_push_slot_always b s x : agree (push_slot_always h1 b s x) (push_slot_always h2 b s x).
Proof. unfold push_slot_always, assert_nested. agr. Qed.
#[local] Hint Resolve agree_push_slot_always : agr.
Lemma agree_push_slot b s x d : agree (push_slot h1 b s x d) (push_slot h2 b s x d).
Proof. unfold push_slot, assert_nested. agr. Qed.
Lemma agree_end_table b o : agree (end_table h1 b o) (end_table h2 b o).
Proof.
  unfold end_table, write_vtable, assert_nested, vtw_write_byte_length, vtw_write_object_inline_size. agr.
Qed.
Lemma agree_create_byte_string b s : agree (create_byte_string h1 b s) (create_byte_string h2 b s).
Proof. unfold create_byte_string, assert_not_nested. agr. Qed.
#[local] Hint Resolve agree_create_byte_string : agr.
Lemma agree_create_string b s : agree (create_string h1 b s) (create_string h2 b s).
Proof. unfold create_string, assert_not_nested. agr. Qed.
#[local] Hint Resolve agree_create_string : agr.
Lemma agree_push_all l : forall b, agree (push_all h1 b l) (push_all h2 b l).
Proof. induction l as [|x l IH]; intros b; cbn [push_all]; agr. Qed.
#[local] Hint Resolve agree_push_all : agr.
Lemma agree_create_vector b sz al l : agree (create_vector h1 b sz al l) (create_vector h2 b sz al l).
Proof. unfold create_vector. agr. Qed.
#[local] Hint Resolve agree_create_vector : agr.
Lemma agree_strings l : forall b acc, agree (create_strings_rev h1 b l acc) (create_strings_rev h2 b l acc).
Proof. induction l as [|x l IH]; intros b acc; cbn [create_strings_rev]; agr. Qed.
#[local] Hint Resolve agree_strings : agr.
Lemma agree_create_vector_of_strings b xs : agree (create_vector_of_strings h1 b xs) (create_vector_of_strings h2 b xs).
Proof. unfold create_vector_of_strings, assert_not_nested. agr. Qed.
Lemma agree_finish b r i s : agree (finish_with_opts h1 b r i s) (finish_with_opts h2 b r i s).
Proof. unfold finish_with_opts, assert_not_finished, assert_not_nested. agr. Qed.

Lemma slice_memory_host t items : big_endian h1 = big_endian h2 \/ ssize t = 1 ->
  slice_memory h1 t items = slice_memory h2 t items.
Proof.
  intros H. unfold slice_memory. apply flat_map_ext. intros v. unfold store.
  destruct H as [->|H]; [reflexivity|]. unfold snat. rewrite H. change (Z.to_nat 1) with 1%nat.
  cbn [le_encode rev app]. destruct (big_endian h1), (big_endian h2); reflexivity.
Qed.
Lemma agree_create_vector_direct b t items : big_endian h1 = big_endian h2 \/ ssize t = 1 ->
  agree (create_vector_direct h1 b t items) (create_vector_direct h2 b t items).
Proof. intros H. unfold create_vector_direct, assert_not_nested. rewrite (slice_memory_host t items H). agr. Qed.

Lemma agree_step b o : big_endian h1 = big_endian h2 \/ wide_direct o = false -> agree (step h1 b o) (step h2 b o).
Proof.
  intros H. destruct o; cbn [step]; unfold with_num, without; try apply agree_refl; try (apply agree_bind; [|intros; agr]).
  - apply agree_push.
  - apply agree_push_slot.
  - apply agree_push_slot_always.
  - unfold start_table, assert_not_nested. agr.
  - apply agree_end_table.
  - unfold start_vector, assert_not_nested. agr.
  - unfold end_vector, assert_nested. agr.
  - apply agree_create_string.
  - apply agree_create_byte_string.
  - apply agree_create_vector_direct. destruct H as [H|H]; [auto|right]. cbn [wide_direct] in H. pose proof (ssize_pos t). lia.
  - apply agree_create_vector_of_strings.
  - apply agree_create_vector.
  - unfold finished_data, assert_finished. agr.
  - unfold required. agr.
  - apply agree_finish.
Qed.

Lemma agree_run os : forall b, big_endian h1 = big_endian h2 \/ existsb wide_direct os = false ->
  agree (run h1 b os) (run h2 b os).
Proof.
  induction os as [|o os IH]; intros b H; cbn [run existsb] in *; [apply agree_refl|].
  apply agree_bind; [apply agree_step; destruct H as [H|H]; [auto|apply orb_false_iff in H; tauto]|].
  intros [b1 x]. apply agree_bind; [apply IH; destruct H as [H|H]; [auto|apply orb_false_iff in H; tauto]|].
  intros [b2 xs]. apply agree_refl.
Qed.
End Agree.

Lemma release_agrees e c os b xs :
  program (Host true e) c os = Val (b, xs) -> program (Host false e) c os = Val (b, xs).
Proof.
  unfold program. intros H. apply bind_Val in H as (b0 & E & H). rewrite E. cbn [bind].
  destruct (agree_run (Host true e) (Host false e) ltac:(auto) os b0 ltac:(auto)) as [Q|Q]; congruence.
Qed.

Lemma endianness_irrelevant d c os : existsb wide_direct os = false ->
  program (Host d true) c os = program (Host d false) c os.
Proof.
  unfold program. intros H. destruct (new_with_capacity c) as [b0| |]; cbn [bind]; [|reflexivity..].
  apply agree_both; apply agree_run; auto.
Qed.

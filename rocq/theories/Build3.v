(** Tables of the abstract machine. *)
From Coq Require Import ZArith List Bool Lia Strings.Byte ZifyBool ZifyNat ZifyN.
From Verif Require Import Base Scalar Reader Builder Ops Abstract BaseFacts ScalarFacts Refine Refine2 Build1 Build2.
Import ListNotations.
Local Open Scope Z_scope.

(** ** Overwriting and reading ranges *)
Lemma set_range_split {A} (l : list A) a x : 0 <= a -> a + blen x <= blen l ->
  exists p m s, l = p ++ m ++ s /\ blen p = a /\ blen m = blen x /\ set_range l a x = p ++ x ++ s.
Proof.
  intros Ha Hl. pose proof (blen_nonneg x).
  destruct (split_at l a) as (p & r & -> & Hp & Hr); [lia|].
  destruct (split_at r (blen x)) as (m & s & -> & Hm & Hs); [lia|].
  exists p, m, s. repeat split; auto. apply set_range_mid; auto.
Qed.

Lemma get_set_same {A} (l : list A) a x b : 0 <= a -> a + blen x <= blen l -> b = a + blen x ->
  get_range (set_range l a x) a b = Some x.
Proof.
  intros Ha Hl ->. destruct (set_range_split l a x Ha Hl) as (p & m & s & -> & Hp & Hm & ->).
  apply get_range_mid; lia.
Qed.

Lemma get_set_other {A} (l : list A) a x c d : 0 <= a -> a + blen x <= blen l -> 0 <= c <= d ->
  d <= a \/ a + blen x <= c -> get_range (set_range l a x) c d = get_range l c d.
Proof.
  intros Ha Hl Hcd Hd. destruct (set_range_split l a x Ha Hl) as (p & m & s & -> & Hp & Hm & ->).
  destruct Hd as [Hd|Hd].
  - destruct (get_range p c d) as [y|] eqn:E.
    + assert (Hc : 0 <= c) by lia.
      rewrite !(fun s => get_range_app_l p s c d y Hc E). reflexivity.
    + apply get_range_None_iff in E. lia.
  - rewrite !app_assoc.
    replace c with (blen (p ++ x) + (c - a - blen x)) at 1 by (rewrite blen_app; lia).
    replace d with (blen (p ++ x) + (d - a - blen x)) at 1 by (rewrite blen_app; lia).
    rewrite get_range_app_r by lia.
    replace c with (blen (p ++ m) + (c - a - blen x)) at 2 by (rewrite blen_app; lia).
    replace d with (blen (p ++ m) + (d - a - blen x)) at 2 by (rewrite blen_app; lia).
    rewrite get_range_app_r by lia. reflexivity.
Qed.

Lemma get_range_zeros n a b : 0 <= a <= b -> b <= n -> get_range (zeros n) a b = Some (zeros (b - a)).
Proof.
  intros Hab Hb. unfold get_range. rewrite blen_zeros. replace (_ && _) with true by lia.
  f_equal. unfold slice. rewrite skipn_zeros. apply firstn_zeros. lia.
Qed.

Lemma wire_u16_0 : wire TU16 0 = zeros 2. Proof. reflexivity. Qed.
Lemma wire_u16_as n : wire TU16 (as_u16 n) = wire TU16 n.
Proof. apply wire_mod. unfold as_u16. cbn [ssize]. change (8 * 2) with 16. apply Z.mod_mod. lia. Qed.

(** ** The vtable's contents *)
(** The entry of [slot]: distance of its last field from the table start. *)
Definition entry (obj slot : Z) (l : list field_loc) (init : Z) : Z :=
  fold_left (fun acc f => if fl_id f =? slot then obj - fl_off f else acc) l init.

Lemma u32_arith_mod16 h n d : u32_arith h n = Val d -> wire TU16 (as_u16 d) = wire TU16 n.
Proof.
  unfold u32_arith, unsigned_arith. intros H. rewrite wire_u16_as. apply wire_mod. cbn [ssize].
  change (8 * 2) with 16. destruct (_ && _); [congruence|]. destruct (debug h); [discriminate|].
  assert (E : d = n mod 2 ^ 32) by congruence. rewrite E. pose proof (Z.div_mod n (2 ^ 32)).
  replace (n mod 2 ^ 32) with (n + (- (2 ^ 16) * (n / 2 ^ 32)) * 2 ^ 16) by lia.
  apply Z.mod_add. lia.
Qed.

Definition even_slot (s : Z) : Prop := 4 <= s /\ s mod 2 = 0.

Lemma emplace_2 h t s v x : blen s = ssize t -> emplace_scalar h t s v = Val x -> x = wire t v.
Proof. intros Hs H. rewrite emplace_scalar_exact in H by auto. congruence. Qed.

Lemma write_field_val h vt id pos vt' : 0 <= id -> vtw_write_field_offset h vt id pos = Val vt' ->
  vt' = set_range vt id (wire TU16 pos) /\ id + 2 <= blen vt.
Proof.
  intros Hid H. unfold vtw_write_field_offset in H. apply bind_Val in H as (s & Hs & H).
  apply bind_Val in H as (x & Hx & H). injection H as <-.
  apply index_range_blen in Hs; [|auto]. unfold SIZE_VOFFSET in *.
  apply emplace_2 in Hx; [|cbn [ssize]; lia]. subst x. split; [reflexivity|lia].
Qed.

Lemma blen_wire16 v : blen (wire TU16 v) = 2. Proof. apply blen_wire. Qed.

Lemma write_fields_entry h obj l :
  Forall field_ok l -> Forall (fun f => even_slot (fl_id f)) l ->
  forall vt r slot e, write_fields h vt obj l = Val r -> 0 <= slot -> slot mod 2 = 0 ->
    get_range vt slot (slot + 2) = Some (wire TU16 e) ->
    get_range r slot (slot + 2) = Some (wire TU16 (entry obj slot l e)).
Proof.
  intros Hok. induction l as [|f l IH]; intros Hev vt r slot e H Hs0 Hs Hg; cbn [write_fields entry fold_left] in *.
  { injection H as <-. exact Hg. }
  inversion Hok as [|? ? [_ Hf] Hok']; subst. inversion Hev as [|? ? [Hf4 Hf2] Hev']; subst.
  apply bind_Val in H as (d & Hd & H). apply bind_Val in H as (u & _ & H).
  apply bind_Val in H as (vt' & Hw & H). apply write_field_val in Hw as [-> Hb]; [|lia].
  rewrite (u32_arith_mod16 _ _ _ Hd) in H.
  eapply (IH Hok' Hev'); [exact H|auto|auto|].
  destruct (Z.eqb_spec (fl_id f) slot) as [E|E].
  - subst slot. apply get_set_same; rewrite ?blen_wire16; lia.
  - rewrite get_set_other; rewrite ?blen_wire16; auto; try lia.
Qed.

Lemma write_fields_low h obj l :
  Forall field_ok l -> Forall (fun f => 4 <= fl_id f) l ->
  forall vt r a b, write_fields h vt obj l = Val r -> 0 <= a <= b -> b <= 4 ->
    get_range r a b = get_range vt a b.
Proof.
  intros Hok. induction l as [|f l IH]; intros Hev vt r a b H Hab Hb; cbn [write_fields] in *.
  { injection H as <-. reflexivity. }
  inversion Hok as [|? ? [_ Hf] Hok']; subst. inversion Hev as [|? ? Hf4 Hev']; subst.
  apply bind_Val in H as (d & Hd & H). apply bind_Val in H as (u & _ & H).
  apply bind_Val in H as (vt' & Hw & H). apply write_field_val in Hw as [-> Hbl]; [|lia].
  rewrite (IH Hok' Hev' _ _ _ _ H Hab Hb). apply get_set_other; rewrite ?blen_wire16; lia.
Qed.

Lemma vtable_len_max l f : In f l -> fl_id f + 2 <= get_vtable_byte_len l.
Proof.
  intros H. unfold get_vtable_byte_len, SIZE_VOFFSET. destruct l as [|g l]; [contradiction|].
  assert (K : forall l, In f l -> fl_id f <= fold_right Z.max 0 (map fl_id l)).
  { induction l0 as [|x l0 IH]; cbn; [contradiction|]. intros [-> | Hx]; [lia|]. specialize (IH Hx). lia. }
  specialize (K _ H). lia.
Qed.

Lemma vtable_len_attained l : l <> [] -> Forall field_ok l -> exists f, In f l /\ get_vtable_byte_len l = fl_id f + 2.
Proof.
  intros Hl Hok. destruct l as [|g l]; [congruence|]. unfold get_vtable_byte_len, SIZE_VOFFSET.
  assert (K : forall l, l <> [] -> Forall field_ok l -> exists f, In f l /\ fold_right Z.max 0 (map fl_id l) = fl_id f).
  { clear. induction l as [|x l IH]; [congruence|]. intros _ H. inversion H as [|? ? [_ Hx] Hl]; subst.
    destruct l as [|y l].
    - exists x. split; [left; auto|]. cbn. lia.
    - destruct (IH ltac:(discriminate) Hl) as (f & Hf & E).
      change (fold_right Z.max 0 (map fl_id (x :: y :: l))) with (Z.max (fl_id x) (fold_right Z.max 0 (map fl_id (y :: l)))).
      rewrite E. destruct (Z.le_gt_cases (fl_id x) (fl_id f)).
      + exists f. split; [right; auto|lia].
      + exists x. split; [left; auto|lia]. }
  destruct (K (g :: l) Hl Hok) as (f & Hf & E). exists f. rewrite E. auto.
Qed.

Lemma vtable_len_ge4 l : Forall (fun f => 4 <= fl_id f) l -> 4 <= get_vtable_byte_len l.
Proof.
  intros H. destruct l as [|f l]; [cbn; lia|]. inversion H; subst.
  pose proof (vtable_len_max (f :: l) f (or_introl eq_refl)). lia.
Qed.

Lemma vtable_len_even l : Forall field_ok l -> Forall (fun f => even_slot (fl_id f)) l -> get_vtable_byte_len l mod 2 = 0.
Proof.
  intros Hok H. destruct l as [|f l]; [reflexivity|].
  destruct (vtable_len_attained (f :: l) ltac:(discriminate) Hok) as (g & Hg & ->).
  rewrite Forall_forall in H. destruct (H g Hg) as [_ E]. rewrite Zplus_mod, E. reflexivity.
Qed.

Lemma write_header_val h vt n vt' : vtw_write_byte_length h vt n = Val vt' ->
  vt' = set_range vt 0 (wire TU16 n) /\ 2 <= blen vt /\ debug_assert h (n =? blen vt) = Val tt.
Proof.
  unfold vtw_write_byte_length. intros H. apply bind_Val in H as (s & Hs & H).
  apply bind_Val in H as (x & Hx & H). apply bind_Val in H as ([] & Hd & H). injection H as <-.
  apply index_range_blen in Hs; [|lia]. unfold SIZE_VOFFSET in *.
  apply emplace_2 in Hx; [|cbn [ssize]; lia]. subst x. split; [reflexivity|]. split; [lia|].
  rewrite blen_set_range in Hd; rewrite ?blen_wire16; auto; lia.
Qed.

Lemma write_size_val h vt n vt' : vtw_write_object_inline_size h vt n = Val vt' ->
  vt' = set_range vt 2 (wire TU16 n) /\ 4 <= blen vt.
Proof.
  unfold vtw_write_object_inline_size. intros H. apply bind_Val in H as (s & Hs & H).
  apply bind_Val in H as (x & Hx & H). injection H as <-.
  unfold SIZE_VOFFSET in *. apply index_range_blen in Hs; [|lia].
  apply emplace_2 in Hx; [|cbn [ssize]; lia]. subst x. split; [reflexivity|lia].
Qed.

Lemma a_vtable_header h vlen size obj l vt :
  0 <= vlen -> Forall field_ok l -> Forall (fun f => 4 <= fl_id f) l ->
  a_vtable h vlen size obj l = Val vt ->
  get_range vt 0 2 = Some (wire TU16 vlen) /\ get_range vt 2 4 = Some (wire TU16 size) /\
  blen vt = vlen /\ 4 <= vlen /\ debug_assert h (as_u16 vlen =? vlen) = Val tt.
Proof.
  intros Hv Hok Hev H. pose proof (a_vtable_blen _ _ _ _ _ _ Hv Hok H) as Hb. unfold a_vtable in H.
  apply bind_Val in H as (v1 & H1 & H). apply bind_Val in H as (v2 & H2 & H).
  apply write_header_val in H1 as (-> & L1 & D1). apply write_size_val in H2 as [-> L2].
  rewrite blen_zeros in *. rewrite blen_set_range in L2; rewrite ?blen_wire16, ?blen_zeros; try lia.
  rewrite blen_zeros in L2.
  assert (B1 : blen (set_range (zeros vlen) 0 (wire TU16 (as_u16 vlen))) = vlen).
  { rewrite blen_set_range; rewrite ?blen_wire16, ?blen_zeros; lia. }
  rewrite !(write_fields_low _ _ _ Hok Hev _ _ _ _ H) by lia.
  split; [|split; [|split; [exact Hb|split; [lia|]]]].
  - rewrite get_set_other by (rewrite ?blen_wire16, ?B1; lia).
    rewrite <- (wire_u16_as vlen). apply get_set_same; rewrite ?blen_wire16, ?blen_zeros; lia.
  - rewrite <- (wire_u16_as size). apply get_set_same; rewrite ?blen_wire16, ?B1; lia.
  - replace (Z.max 0 vlen) with vlen in D1 by lia. exact D1.
Qed.

Lemma a_vtable_entry h vlen size obj l vt slot :
  0 <= vlen -> Forall field_ok l -> Forall (fun f => even_slot (fl_id f)) l ->
  a_vtable h vlen size obj l = Val vt -> 4 <= slot -> slot mod 2 = 0 -> slot + 2 <= vlen ->
  get_range vt slot (slot + 2) = Some (wire TU16 (entry obj slot l 0)).
Proof.
  intros Hv Hok Hev H Hs Hs2 Hsv. unfold a_vtable in H.
  apply bind_Val in H as (v1 & H1 & H). apply bind_Val in H as (v2 & H2 & H).
  apply write_header_val in H1 as (-> & L1 & _). apply write_size_val in H2 as [-> L2].
  eapply write_fields_entry; eauto; try lia.
  rewrite blen_set_range in L2; rewrite ?blen_wire16; try lia. rewrite blen_zeros in L1, L2.
  rewrite get_set_other by (rewrite ?blen_wire16, ?blen_set_range; rewrite ?blen_wire16, ?blen_zeros; lia).
  rewrite get_set_other by (rewrite ?blen_wire16, ?blen_zeros; lia).
  rewrite get_range_zeros by lia. rewrite wire_u16_0. do 2 f_equal. lia.
Qed.

(** ** Ending a table *)
Lemma wire_i32_as x y : wire TI32 (as_i32 x - as_i32 y) = wire TI32 (x - y).
Proof.
  apply wire_mod. cbn [ssize]. change (8 * 4) with 32.
  assert (E : forall z, exists k, as_i32 z = z + k * 2 ^ 32).
  { intros z. unfold as_i32. pose proof (Z.div_mod z (2 ^ 32)).
    destruct (_ <? _); [exists (- (z / 2 ^ 32))|exists (- (z / 2 ^ 32) - 1)]; lia. }
  destruct (E x) as (k & ->), (E y) as (j & ->).
  replace (x + k * 2 ^ 32 - (y + j * 2 ^ 32)) with (x - y + (k - j) * 2 ^ 32) by ring.
  apply Z.mod_add. lia.
Qed.

Lemma i32_arith_wire h n d : i32_arith h n = Val d -> wire TI32 d = wire TI32 n.
Proof.
  unfold i32_arith. destruct (_ && _); [congruence|]. destruct (debug h); [discriminate|].
  intros H. injection H as <-. replace (as_i32 n) with (as_i32 n - as_i32 0) by (change (as_i32 0) with 0; lia).
  rewrite wire_i32_as. f_equal. lia.
Qed.

Definition marker : pval := PScalar TU32 0xF0F0F0F0.

(** The state after [write_vtable]: [dup] is the shared vtable, if any. *)
Definition table_state (a : astate) (vt : list byte) (dup : option Z) : astate :=
  let d1 := a_data (pushed a marker) in
  let vr := match dup with Some n => n | None => as_u32 (blen (vt ++ d1)) end in
  AState ((match dup with Some _ => [] | None => vt end)
            ++ wire TI32 (vr - blen d1)
            ++ zeros (gap (a_data a) 4 4) ++ a_data a)
         [] (match dup with Some _ => a_vts a | None => a_vts a ++ [vr] end)
         (a_nested a) (a_fin a) (Z.max (a_align a) 4).

Lemma a_write_vtable_val lim h a tail a' o :
  Forall field_ok (a_fields a) ->
  blen (a_data (pushed a marker)) < 2 ^ 32 ->
  a_write_vtable lim h a tail = Val (a', o) ->
  exists size vt dup,
    let d1 := a_data (pushed a marker) in
    o = blen d1 /\ debug_assert h (a_nested a) = Val tt /\
    u32_arith h (o - tail) = Val size /\ debug_assert h (size <? 0x10000) = Val tt /\
    a_vtable h (get_vtable_byte_len (a_fields a)) size o (a_fields a) = Val vt /\
    find_dup h (vt ++ d1) 0 (rev (a_vts a)) = Val dup /\
    a' = table_state a vt dup /\ blen vt + blen d1 < 2 ^ 63.
Proof.
  intros Hok Hlen H. unfold a_write_vtable in H.
  apply bind_Val in H as ([] & Hn & H). apply bind_Val in H as ([a1 obj] & H1 & H).
  apply a_push_val in H1 as (E1 & Hobj & _). subst a1. fold marker in *.
  set (d1 := a_data (pushed a marker)) in *.
  rewrite as_u32_small in Hobj by (pose proof (blen_nonneg d1); lia).
  apply bind_Val in H as (u & Hr & H). apply bind_Val in H as (size & Hsz & H).
  apply bind_Val in H as ([] & Hd & H). apply bind_Val in H as (vt & Hvt & H).
  apply bind_Val in H as (dup & Hdup & H).
  change (a_fields (pushed a marker)) with (a_fields a) in *.
  change (a_vts (pushed a marker)) with (a_vts a) in *.
  assert (Ed1 : d1 = wire TU32 0xF0F0F0F0 ++ zeros (gap (a_data a) 4 4) ++ a_data a) by reflexivity.
  set (w := zeros (gap (a_data a) 4 4) ++ a_data a) in *.
  set (vr := match dup with Some n => n | None => as_u32 (blen (vt ++ d1)) end).
  set (pre := match dup with Some _ => [] | None => vt end).
  set (vs := match dup with Some _ => a_vts a | None => a_vts a ++ [vr] end).
  replace (match dup with
    | Some n => (pushed a marker, n)
    | None => (with_vts (with_data (pushed a marker) (vt ++ d1)) (a_vts a ++ [as_u32 (blen (vt ++ d1))]),
               as_u32 (blen (vt ++ d1)))
    end) with (with_vts (with_data (pushed a marker) (pre ++ d1)) vs, vr) in H
    by (subst vs pre vr; destruct dup; reflexivity).
  cbn [with_vts with_data a_data] in H.
  assert (Ln : blen (pre ++ d1) - obj = blen pre) by (rewrite blen_app; lia).
  rewrite Ln in H.
  apply bind_Val in H as (saw & _ & H). apply bind_Val in H as (u2 & _ & H).
  apply bind_Val in H as (df & Hdf & H). apply bind_Val in H as (dst & Hdst & H).
  apply bind_Val in H as (x & Hx & H). injection H as <- <-.
  assert (Edst : dst = wire TU32 0xF0F0F0F0).
  { unfold index_range, expect_some, SIZE_SOFFSET in Hdst.
    rewrite Ed1, get_range_mid in Hdst; [congruence|reflexivity|rewrite blen_wire; reflexivity]. }
  apply emplace_2 in Hx; [|subst dst; rewrite blen_wire; reflexivity].
  apply i32_arith_wire in Hdf. rewrite Hdf, wire_i32_as in Hx.
  pose proof (a_vtable_blen _ _ _ _ _ _ (vtable_len_pos _) Hok Hvt) as Lvt. apply room_val in Hr.
  exists size, vt, dup. split; [exact Hobj|]. split; [exact Hn|]. split; [exact Hsz|].
  split; [exact Hd|]. split; [exact Hvt|]. split; [exact Hdup|]. split.
  - unfold table_state. fold d1 w. change (match dup with Some n => n | None => as_u32 (blen (vt ++ d1)) end) with vr.
    fold pre vs. unfold with_fields, with_data, with_vts, pushed, with_align.
    cbn [a_data a_fields a_vts a_nested a_fin a_align]. rewrite <- Hobj.
    rewrite Ed1 at 1. rewrite (set_range_mid pre (wire TU32 0xF0F0F0F0) x w).
    + subst x. reflexivity.
    + reflexivity.
    + subst x. rewrite !blen_wire. reflexivity.
  - lia.
Qed.

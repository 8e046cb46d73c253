(** Strings, vectors and finish of the abstract machine. *)
From Coq Require Import ZArith List Bool Lia Strings.Byte ZifyBool ZifyNat ZifyN.
From Verif Require Import Base Scalar Reader Builder Ops Abstract BaseFacts ScalarFacts Refine Refine2 Build1.
Import ListNotations.
Local Open Scope Z_scope.

(** ** Bytes at a distance from the end *)
Definition At (D : list byte) (r : Z) (x : list byte) : Prop :=
  exists p s, D = p ++ x ++ s /\ r = blen x + blen s.

Lemma At_app q D r x : At D r x -> At (q ++ D) r x.
Proof. intros (p & s & -> & Hr). exists (q ++ p), s. rewrite app_assoc. auto. Qed.

Lemma At_here x s : At (x ++ s) (blen (x ++ s)) x.
Proof. exists [], s. rewrite blen_app. auto. Qed.

Lemma At_here' D x s r : D = x ++ s -> r = blen D -> At D r x.
Proof. intros -> ->. apply At_here. Qed.

Lemma At_sub D r x y z w : At D r (x ++ y ++ z) -> w = r - blen x -> At D w y.
Proof.
  intros (p & s & -> & Hr) ->. exists (p ++ x), (z ++ s). rewrite <- !app_assoc. split; [reflexivity|].
  rewrite !blen_app in *. lia.
Qed.

Lemma At_range D r x : At D r x -> blen x <= r <= blen D.
Proof.
  intros (p & s & -> & ->). rewrite !blen_app. pose proof (blen_nonneg p). pose proof (blen_nonneg s). lia.
Qed.

Lemma At_get D r x : At D r x -> get_range D (blen D - r) (blen D - r + blen x) = Some x.
Proof.
  intros (p & s & -> & ->). apply get_range_mid; rewrite !blen_app; lia.
Qed.

Lemma At_read h t D r x : At D r x -> blen x = ssize t -> blen D < 2 ^ 63 ->
  read_scalar_at h t D (blen D - r) = Val (scalar_of t x).
Proof.
  intros HA Hx HD. pose proof (At_range _ _ _ HA).
  apply read_scalar_at_ok; [lia|lia|]. rewrite <- Hx. apply At_get. exact HA.
Qed.

(** ** Gaps *)
Lemma gap_0 d len al : pow8 al -> (blen d + len) mod al = 0 -> gap d len al = 0.
Proof.
  intros Hp H. unfold gap. assert (al <> 0) by (unfold pow8 in Hp; lia).
  apply Z.mod_opp_l_z; auto.
Qed.

Lemma gap_1 d len : gap d len 1 = 0.
Proof. unfold gap. apply Z.mod_1_r. Qed.

Lemma zeros_nil : zeros 0 = []. Proof. reflexivity. Qed.

Section Effects.
Context (lim : bool) (h : host).

Lemma wire_u32_as n : wire TU32 (as_u32 n) = wire TU32 n.
Proof. apply wire_mod. unfold as_u32. cbn [ssize]. change (8 * 4) with 32. apply Z.mod_mod. lia. Qed.

Lemma wire_u8_0 : wire TU8 0 = [x00]. Proof. reflexivity. Qed.

Definition string_bytes (s : list byte) : list byte := wire TU32 (blen s) ++ s ++ [x00].

Lemma blen_string_bytes s : blen (string_bytes s) = 5 + blen s.
Proof. unfold string_bytes. rewrite !blen_app, blen_wire. cbn [ssize]. change (blen [x00]) with 1. lia. Qed.

Lemma mod_of_multiple n a b : a <> 0 -> b <> 0 -> n mod (a * b) = 0 -> n mod b = 0.
Proof.
  intros Ha Hb H. apply Z.mod_divide in H; [|nia]. destruct H as (k & ->).
  replace (k * (a * b)) with (k * a * b) by ring. apply Z.mod_mul. auto.
Qed.

(** Alignment to a larger power of two gives alignment to a smaller one. *)
Lemma mod_pow8_le n a b : pow8 a -> pow8 b -> a <= b -> n mod b = 0 -> n mod a = 0.
Proof.
  intros Ha Hb Hle H. apply (mod_of_multiple n (b / a) a); [| unfold pow8 in *; lia |].
  - intros E. unfold pow8 in *. destruct Ha as [->|[->|[->| ->]]], Hb as [->|[->|[->| ->]]]; cbn in E; lia.
  - rewrite <- H. f_equal. unfold pow8 in *. destruct Ha as [->|[->|[->| ->]]], Hb as [->|[->|[->| ->]]]; try lia; reflexivity.
Qed.

Lemma a_create_byte_string_val a s a' o : a_create_byte_string lim h a s = Val (a', o) ->
  a' = with_data (with_align a (Z.max (a_align a) 4))
         (string_bytes s ++ zeros (gap (a_data a) (blen s + 1) 4) ++ a_data a) /\
  o = as_u32 (blen (a_data a')) /\ blen (a_data a') < 2 ^ 63 /\
  debug_assert h (negb (a_nested a)) = Val tt /\ blen (a_data a') mod 4 = 0.
Proof.
  intros H. unfold a_create_byte_string in H.
  apply bind_Val in H as ([] & Hd & H). apply bind_Val in H as (n & Hn & H).
  apply bind_Val in H as (a1 & H1 & H). apply bind_Val in H as ([a2 o2] & H2 & H).
  apply bind_Val in H as (a3 & H3 & H). apply bind_Val in H as ([a4 o4] & H4 & H).
  injection H as <- <-.
  apply a_pad_val in H1 as [H1 _]; [|unfold pow8, SIZE_UOFFSET; lia].
  apply a_push_val in H2 as (H2 & _ & _). apply a_bytes_val in H3 as [H3 _].
  apply a_push_val in H4 as (H4 & _ & L4).
  apply usize_arith_mod in Hn. unfold SIZE_UOFFSET in *.
  set (g := gap (a_data a) (blen s + 1) 4).
  assert (Hg : gap (a_data a) n 4 = g).
  { unfold g, gap. subst n. 
    assert (E : forall x, (x mod 2 ^ 64) mod 4 = x mod 4).
    { intros x. rewrite (Z.mod_eq x (2 ^ 64)) by lia.
      replace (x - 2 ^ 64 * (x / 2 ^ 64)) with (x + (- 2 ^ 62 * (x / 2 ^ 64)) * 4) by ring.
      apply Z.mod_add. lia. }
    rewrite <- !Z.sub_0_l. rewrite Zminus_mod, (Zplus_mod (blen (a_data a)) ((blen s + 1) mod 2 ^ 64)), E.
    rewrite <- Zplus_mod, <- Zminus_mod. reflexivity. }
  rewrite Hg in H1.
  assert (E2 : a_data a2 = [x00] ++ zeros g ++ a_data a).
  { subst a2 a1. unfold pushed. cbn [with_data with_align a_data push_size push_alignment salign ssize pbytes].
    rewrite gap_1, zeros_nil. cbn [app]. rewrite wire_u8_0. reflexivity. }
  assert (E3 : a_data a3 = s ++ [x00] ++ zeros g ++ a_data a) by (subst a3; cbn; rewrite E2; reflexivity).
  pose proof (gap_range (a_data a) (blen s + 1) 4 ltac:(unfold pow8; lia)) as Rg. fold g in Rg.
  pose proof (gap_aligns (a_data a) (blen s + 1) 4 ltac:(unfold pow8; lia)) as Ag. fold g in Ag.
  assert (L3 : blen (a_data a3) = g + blen (a_data a) + (blen s + 1)).
  { rewrite E3, !blen_app, blen_zeros. change (blen [x00]) with 1. lia. }
  assert (G3 : gap (a_data a3) 4 4 = 0).
  { apply gap_0; [unfold pow8; lia|]. rewrite L3, Zplus_mod, Ag. reflexivity. }
  assert (E4 : a_data a4 = string_bytes s ++ zeros g ++ a_data a).
  { subst a4. unfold pushed. cbn [with_data with_align a_data push_size push_alignment salign ssize pbytes].
    rewrite G3, zeros_nil. cbn [app]. rewrite wire_u32_as, E3. unfold string_bytes.
    rewrite <- !app_assoc. reflexivity. }
  split; [|split; [reflexivity|split; [exact L4|split; [exact Hd|]]]].
  - transitivity (with_data (with_align a (Z.max (a_align a) 4)) (a_data a4)); [|rewrite E4; reflexivity].
    subst a4 a3 a2 a1. unfold pushed, with_data, with_align. cbn [a_data a_fields a_vts a_nested a_fin a_align push_alignment salign ssize].
    f_equal. lia.
  - rewrite E4. rewrite blen_app, blen_string_bytes, blen_app, blen_zeros.
    replace (5 + blen s + (Z.max 0 g + blen (a_data a))) with ((g + blen (a_data a) + (blen s + 1)) + 4) by lia.
    rewrite Zplus_mod, Ag. reflexivity.
Qed.

Lemma a_create_string_val a s r : a_create_string lim h a s = Val r -> a_create_byte_string lim h a s = Val r.
Proof. unfold a_create_string. intros H. apply bind_Val in H as (u & _ & H). exact H. Qed.

(** ** Vectors *)
(** The elements [l] written in front of [d]. *)
Fixpoint cells (l : list pval) (d : list byte) : list byte :=
  match l with
  | [] => d
  | x :: l => pbytes x (blen (cells l d)) ++ cells l d
  end.

Definition of_type (t : pty) (x : pval) : Prop := pty_of x = t.

Lemma of_type_size t x : of_type t x -> push_size x = pty_size t /\ push_alignment x = pty_align t.
Proof. intros <-. destruct x; auto. Qed.

Lemma pty_size_align t : pty_size t = pty_align t.
Proof. destruct t; reflexivity. Qed.

Lemma blen_cells t l d : Forall (of_type t) l -> blen (cells l d) = blen l * pty_size t + blen d.
Proof.
  induction 1 as [|x l Hx _ IH]; cbn [cells]; [change (blen (@nil pval)) with 0; lia|].
  rewrite blen_app, blen_pbytes, IH, blen_cons. apply of_type_size in Hx as [-> _]. lia.
Qed.

Lemma pushed_cell t x a : of_type t x -> blen (a_data a) mod pty_align t = 0 ->
  pty_align t <= a_align a ->
  pushed a x = with_data a (pbytes x (blen (a_data a)) ++ a_data a) /\
  blen (a_data (pushed a x)) mod pty_align t = 0.
Proof.
  intros Hx Hm Hal. destruct (of_type_size _ _ Hx) as [Hs Ha].
  assert (G : gap (a_data a) (push_size x) (push_alignment x) = 0).
  { apply gap_0; [apply push_alignment_pow8|]. rewrite Hs, Ha, pty_size_align.
    rewrite Zplus_mod, Hm, Z.mod_same; [reflexivity|]. pose proof (pty_align_pow8 t). unfold pow8 in *. lia. }
  split.
  - unfold pushed. rewrite G, zeros_nil. cbn [app]. rewrite Ha.
    destruct a. unfold with_data, with_align in *. cbn in *. f_equal. lia.
  - rewrite <- Ha. apply pushed_aligned.
Qed.

Lemma push_rev_cells t l : Forall (of_type t) l -> forall a,
  blen (a_data a) mod pty_align t = 0 -> pty_align t <= a_align a ->
  fold_left pushed (rev l) a = with_data a (cells l (a_data a)) /\
  blen (cells l (a_data a)) mod pty_align t = 0.
Proof.
  induction 1 as [|x l Hx Hl IH]; intros a Hm Hal; cbn [rev cells].
  - split; [destruct a; reflexivity|auto].
  - rewrite fold_left_app. cbn [fold_left]. destruct (IH a Hm Hal) as [E M]. rewrite E.
    destruct (pushed_cell t x (with_data a (cells l (a_data a))) Hx M Hal) as [E2 M2].
    rewrite E2 in *. cbn [with_data a_data] in *. split; [reflexivity|exact M2].
Qed.

Definition vector_data (t : pty) (items : list pval) (d : list byte) : list byte :=
  let g := gap d (blen items * pty_size t) (Z.max (pty_align t) 4) in
  wire TU32 (blen items) ++ cells items (zeros g ++ d).

Lemma gap_mod d n al : pow8 al -> gap d (n mod 2 ^ 64) al = gap d n al.
Proof.
  intros Hp. unfold gap.
  assert (Hal : exists k, 2 ^ 64 = k * al /\ al <> 0).
  { destruct Hp as [->|[->|[->| ->]]]; [exists (2^64)|exists (2^63)|exists (2^62)|exists (2^61)]; split; lia. }
  destruct Hal as (k & Hk & Hz).
  rewrite (Z.mod_eq n (2 ^ 64)) by lia.
  replace (- (blen d + (n - 2 ^ 64 * (n / 2 ^ 64)))) with (- (blen d + n) + (n / 2 ^ 64 * k) * al) by (rewrite Hk; ring).
  apply Z.mod_add. auto.
Qed.

Lemma max4_ge al : pow8 al -> al <= Z.max al 4 /\ 4 <= Z.max al 4 /\ pow8 (Z.max al 4).
Proof. unfold pow8. lia. Qed.

Lemma pow8_4 : pow8 4. Proof. unfold pow8. lia. Qed.

(** After padding for a vector. *)
Lemma vector_pad t n d :
  let al := Z.max (pty_align t) 4 in
  let g := gap d (n * pty_size t) al in
  blen (zeros g ++ d) mod pty_align t = 0 /\ (blen (zeros g ++ d) + n * pty_size t) mod al = 0.
Proof.
  intros al g. destruct (max4_ge _ (pty_align_pow8 t)) as (H1 & H2 & H3). fold al in H1, H2, H3.
  pose proof (gap_range d (n * pty_size t) al H3) as Rg. fold g in Rg.
  pose proof (gap_aligns d (n * pty_size t) al H3) as Ag. fold g in Ag.
  rewrite blen_app, blen_zeros. replace (Z.max 0 g) with g by lia. split; [|exact Ag].
  apply (mod_pow8_le _ (pty_align t) al) in Ag; auto using pty_align_pow8.
  rewrite pty_size_align in Ag. rewrite Z.mod_add in Ag; [auto|].
  pose proof (pty_align_pow8 t). unfold pow8 in *. lia.
Qed.

Lemma a_create_vector_val t a items a' o :
  Forall (of_type t) items -> a_create_vector lim h a (pty_size t) (pty_align t) items = Val (a', o) ->
  a' = with_data (with_align a (Z.max (a_align a) (Z.max (pty_align t) 4))) (vector_data t items (a_data a)) /\
  o = as_u32 (blen (a_data a')) /\ blen (a_data a') < 2 ^ 63 /\ blen (a_data a') mod 4 = 0.
Proof.
  intros Ht H. unfold a_create_vector in H.
  apply bind_Val in H as (n & Hn & H). apply bind_Val in H as (a1 & H1 & H).
  apply bind_Val in H as (a2 & H2 & H).
  destruct (max4_ge _ (pty_align_pow8 t)) as (Hal1 & Hal2 & Hal3).
  apply a_pad_val in H1 as [H1 _]; [|exact Hal3].
  apply usize_arith_mod in Hn. subst n. rewrite gap_mod in H1 by exact Hal3.
  unfold SIZE_UOFFSET in *.
  apply a_push_all_val in H2.
  destruct (vector_pad t (blen items) (a_data a)) as [V1 V2].
  set (d1 := zeros _ ++ a_data a) in *.
  assert (E1 : a_data a1 = d1) by (subst a1; reflexivity).
  destruct (push_rev_cells t items Ht a1) as [E2 M2].
  { rewrite E1. exact V1. }
  { subst a1. cbn. lia. }
  rewrite E2 in H2. clear E2. rewrite E1 in *.
  apply a_push_val in H as (H & Ho & L). 
  assert (M3 : blen (cells items d1) mod 4 = 0).
  { apply (mod_pow8_le _ 4 (Z.max (pty_align t) 4)); auto using pow8_4.
    rewrite (blen_cells t) by auto. rewrite Z.add_comm. exact V2. }
  destruct (pushed_cell (PTScalar TU32) (PScalar TU32 (as_u32 (blen items))) a2 eq_refl) as [E3 M4].
  { subst a2. exact M3. }
  { subst a2 a1. cbn. lia. }
  rewrite E3 in *. clear E3.
  assert (a' = with_data (with_align a (Z.max (a_align a) (Z.max (pty_align t) 4))) (vector_data t items (a_data a))) as Ea.
  { subst a' a2 a1. unfold with_data, with_align, vector_data. cbn [a_data a_fields a_vts a_nested a_fin a_align pbytes].
    rewrite wire_u32_as. reflexivity. }
  split; [exact Ea|]. split; [exact Ho|]. split; [exact L|].
  subst a'. exact M4.
Qed.

Lemma slice_memory_cells t items d : big_endian h = false \/ ssize t = 1 ->
  slice_memory h t items ++ d = cells (map (PScalar t) items) d.
Proof.
  intros Hh. induction items as [|v items IH]; cbn [slice_memory flat_map map cells pbytes]; [reflexivity|].
  fold (slice_memory h t items). rewrite <- app_assoc, IH. f_equal.
  unfold store. rewrite wire_bits. destruct Hh as [-> | H1]; [reflexivity|].
  destruct (big_endian h); [|reflexivity].
  assert (length (wire t v) = 1%nat) as Hl.
  { pose proof (blen_wire t v) as B. rewrite H1 in B. unfold blen in B. lia. }
  destruct (wire t v) as [|? [|? ?]]; try discriminate. reflexivity.
Qed.

Lemma blen_slice_memory t items : blen (slice_memory h t items) = blen items * ssize t.
Proof.
  induction items as [|v items IH]; cbn [slice_memory flat_map]; [change (blen (@nil byte)) with 0; change (blen (@nil Z)) with 0; lia|].
  fold (slice_memory h t items). rewrite blen_app, IH, blen_cons. unfold store.
  rewrite wire_bits. destruct (big_endian h); rewrite ?blen_rev, blen_wire; lia.
Qed.

Lemma a_create_vector_direct_val t a items a' o :
  a_create_vector_direct lim h a t items = Val (a', o) ->
  let g := gap (a_data a) (blen items * ssize t) (Z.max (salign t) 4) in
  a' = with_data (with_align a (Z.max (a_align a) (Z.max (salign t) 4)))
        (wire TU32 (blen items) ++ slice_memory h t items ++ zeros g ++ a_data a) /\
  o = as_u32 (blen (a_data a')) /\ blen (a_data a') < 2 ^ 63 /\ blen (a_data a') mod 4 = 0 /\
  debug_assert h (negb (a_nested a)) = Val tt.
Proof.
  intros H g. unfold a_create_vector_direct in H.
  apply bind_Val in H as ([] & Hd & H). apply bind_Val in H as (n & Hn & H).
  apply bind_Val in H as (a1 & H1 & H). apply bind_Val in H as (a2 & H2 & H).
  apply bind_Val in H as ([a3 o3] & H3 & H). injection H as <- <-.
  destruct (max4_ge _ (salign_pow8 t)) as (Hal1 & Hal2 & Hal3).
  apply a_pad_val in H1 as [H1 _]; [|exact Hal3].
  apply usize_arith_mod in Hn. subst n. rewrite gap_mod in H1 by exact Hal3.
  unfold SIZE_UOFFSET in *. fold g in H1.
  apply a_bytes_val in H2 as [H2 _].
  destruct (vector_pad (PTScalar t) (blen items) (a_data a)) as [V1 V2].
  cbn [pty_size pty_align] in V1, V2. fold g in V1, V2.
  apply a_push_val in H3 as (H & _ & L).
  assert (E2 : a_data a2 = slice_memory h t items ++ zeros g ++ a_data a) by (subst a2 a1; reflexivity).
  assert (M3 : blen (a_data a2) mod 4 = 0).
  { apply (mod_pow8_le _ 4 (Z.max (salign t) 4)); auto using pow8_4.
    rewrite E2, blen_app, blen_slice_memory, Z.add_comm. exact V2. }
  destruct (pushed_cell (PTScalar TU32) (PScalar TU32 (as_u32 (blen items))) a2 eq_refl) as [E3 M4].
  { exact M3. }
  { subst a2 a1. cbn. lia. }
  rewrite E3 in *. clear E3.
  split; [|split; [reflexivity|split; [exact L|split; [rewrite H; exact M4|exact Hd]]]].
  rewrite H. rewrite E2. subst a2 a1. unfold with_data, with_align. cbn [a_data a_fields a_vts a_nested a_fin a_align pbytes].
  rewrite wire_u32_as. reflexivity.
Qed.

(** ** Finish *)
Definition ident_len (ident : option (list byte)) : Z := match ident with Some i => blen i | None => 0 end.
Definition ident_bytes (ident : option (list byte)) : list byte := match ident with Some i => i | None => [] end.

Lemma padding_align_0 n : 0 <= n < 2 ^ 63 -> 0 < n -> 2 ^ 63 <= padding_bytes n 0.
Proof.
  intros Hn Hp. unfold padding_bytes. change ((0 - 1) mod 2 ^ 64) with (Z.ones 64).
  rewrite Z.land_ones by lia. rewrite !Z.mod_small; lia.
Qed.

Lemma a_pad_0 a len : 0 < len <= 16 -> a_pad lim h a len 0 = Panic \/ 2 ^ 63 <= blen (a_data a) + 16.
Proof.
  intros Hl. destruct (Z.lt_ge_cases (blen (a_data a) + 16) (2 ^ 63)) as [L|L]; [left|right; exact L].
  unfold a_pad. pose proof (blen_nonneg (a_data a)). cbn [with_align a_data].
  rewrite usize_arith_ok by lia. cbn [bind].
  pose proof (padding_align_0 (blen (a_data a) + len) ltac:(lia) ltac:(lia)).
  unfold a_space, room, assert_always. cbn [with_align a_data].
  destruct lim.
  - replace (_ && _) with false by lia. reflexivity.
  - replace (_ <? _) with false by lia. reflexivity.
Qed.

(** The bytes in front of [d] after finish. *)
Definition finish_gap (a : astate) (ident : option (list byte)) (sp : bool) : Z :=
  gap (a_data a) (4 + (if sp then 4 else 0) + (if ident then 4 else 0)) (a_align a).
Definition finish_body (a : astate) (ident : option (list byte)) (sp : bool) : list byte :=
  ident_bytes ident ++ zeros (finish_gap a ident sp) ++ a_data a.
Definition finish_rooted (a : astate) (root : Z) (ident : option (list byte)) (sp : bool) : list byte :=
  let d := zeros (gap (finish_body a ident sp) 4 4) ++ finish_body a ident sp in
  wire TU32 (4 + blen d - root) ++ d.
Definition finish_data (a : astate) (root : Z) (ident : option (list byte)) (sp : bool) : list byte :=
  let r := finish_rooted a root ident sp in
  if sp then wire TU32 (blen r) ++ r else r.

Lemma finish_rooted_mod a root ident sp : blen (finish_rooted a root ident sp) mod 4 = 0.
Proof.
  unfold finish_rooted. set (d := finish_body a ident sp).
  pose proof (gap_range d 4 4 pow8_4). pose proof (gap_aligns d 4 4 pow8_4) as G.
  rewrite blen_app, blen_wire, blen_app, blen_zeros. cbn [ssize]. rewrite <- G. f_equal. lia.
Qed.

Lemma a_finish_val a root ident sp a' :
  (a_align a = 0 \/ pow8 (a_align a)) -> blen (a_data a) + 16 < 2 ^ 63 ->
  a_finish lim h a root ident sp = Val a' ->
  pow8 (a_align a) /\
  a' = AState (finish_data a root ident sp) (a_fields a) [] (a_nested a) true (Z.max (a_align a) 4) /\
  blen (a_data a') < 2 ^ 63 /\
  debug_assert h (negb (a_fin a)) = Val tt /\ debug_assert h (negb (a_nested a)) = Val tt /\
  match ident with Some i => debug_assert h (blen i =? 4) = Val tt | None => True end.
Proof.
  intros Hal Hlen H. unfold a_finish in H.
  apply bind_Val in H as ([] & Hd1 & H). apply bind_Val in H as ([] & Hd2 & H).
  apply bind_Val in H as (a1 & H1 & H). apply bind_Val in H as (a2 & H2 & H).
  apply bind_Val in H as ([a3 o3] & H3 & H). apply bind_Val in H as (a4 & H4 & H). injection H as <-.
  unfold SIZE_UOFFSET, FILE_IDENTIFIER_LENGTH in *.
  change (a_align (with_vts a [])) with (a_align a) in H1.
  destruct Hal as [Hal|Hal].
  { rewrite Hal in H1. destruct (a_pad_0 (with_vts a []) (4 + (if sp then 4 else 0) + (if ident then 4 else 0))) as [P|P].
    - destruct sp, ident; lia.
    - rewrite P in H1. discriminate.
    - cbn [with_vts a_data] in P. lia. }
  split; [exact Hal|].
  apply a_pad_val in H1 as [H1 _]; [|exact Hal].
  assert (E2 : a2 = with_data (with_vts a []) (finish_body a ident sp) /\
    match ident with Some i => debug_assert h (blen i =? 4) = Val tt | None => True end).
  { unfold finish_body, finish_gap. destruct ident as [i|].
    - apply bind_Val in H2 as ([] & Hi & H2). apply a_bytes_val in H2 as [-> _]. split; [|exact Hi]. subst a1.
      unfold with_data, with_align, with_vts. cbn [a_data a_fields a_vts a_nested a_fin a_align].
      rewrite Z.max_id. reflexivity.
    - injection H2 as <-. split; [|exact I]. subst a1. unfold with_data, with_align, with_vts. cbn [a_data a_fields a_vts a_nested a_fin a_align].
      rewrite Z.max_id. reflexivity. }
  destruct E2 as [E2 Hi].
  apply a_push_val in H3 as (H3 & _ & L3).
  assert (E3 : a3 = AState (finish_rooted a root ident sp) (a_fields a) [] (a_nested a) (a_fin a) (Z.max (a_align a) 4)).
  { subst a3 a2. unfold pushed, with_data, with_align, with_vts, finish_rooted.
    cbn [a_data a_fields a_vts a_nested a_fin a_align push_size push_alignment pbytes]. reflexivity. }
  clear H3. pose proof (finish_rooted_mod a root ident sp) as M3.
  assert (a4 = AState (finish_data a root ident sp) (a_fields a) [] (a_nested a) (a_fin a) (Z.max (a_align a) 4)
          /\ blen (a_data a4) < 2 ^ 63) as [E4 L4].
  { unfold finish_data. destruct sp.
    - apply bind_Val in H4 as ([a5 o5] & H5 & H4). injection H4 as <-.
      apply a_push_val in H5 as (H5 & _ & L5). split; [|exact L5].
      destruct (pushed_cell (PTScalar TU32) (PScalar TU32 (as_u32 (blen (a_data a3)))) a3 eq_refl) as [E5 _].
      + subst a3. exact M3.
      + subst a3. cbn. lia.
      + rewrite E5 in H5. subst a5 a3. unfold with_data. cbn [a_data a_fields a_vts a_nested a_fin a_align pbytes].
        rewrite wire_u32_as. reflexivity.
    - injection H4 as <-. split; [exact E3|exact L3]. }
  split; [|split; [exact L4|auto]]. rewrite E4. reflexivity.
Qed.

Lemma blen_finish_data a root ident sp :
  blen (finish_data a root ident sp) =
  (if sp then 4 else 0) + 4 + gap (finish_body a ident sp) 4 4 + ident_len ident
  + Z.max 0 (finish_gap a ident sp) + blen (a_data a).
Proof.
  pose proof (gap_range (finish_body a ident sp) 4 4 pow8_4).
  assert (E : blen (finish_rooted a root ident sp) = 4 + gap (finish_body a ident sp) 4 4 + ident_len ident
     + Z.max 0 (finish_gap a ident sp) + blen (a_data a)).
  { unfold finish_rooted. rewrite blen_app, blen_wire, blen_app, blen_zeros. cbn [ssize].
    unfold finish_body at 2. rewrite !blen_app, blen_zeros.
    replace (blen (ident_bytes ident)) with (ident_len ident) by (destruct ident; reflexivity). lia. }
  unfold finish_data. destruct sp; rewrite ?blen_app, ?blen_wire, E; cbn [ssize]; lia.
Qed.

(** The finished length is a multiple of every alignment used before. *)
Lemma finish_data_aligned a root ident sp :
  pow8 (a_align a) -> (ident = None \/ ident_len ident = 4) ->
  blen (finish_data a root ident sp) mod Z.max (a_align a) 4 = 0.
Proof.
  intros Hp Hi. pose proof (finish_rooted_mod a root ident sp) as M.
  assert (M' : blen (finish_data a root ident sp) mod 4 = 0).
  { unfold finish_data. destruct sp; [|exact M]. rewrite blen_app, blen_wire. cbn [ssize].
    rewrite Zplus_mod, M. reflexivity. }
  destruct (Z.le_gt_cases (a_align a) 4) as [L|L].
  { rewrite Z.max_r by lia. exact M'. }
  assert (H8 : a_align a = 8) by (unfold pow8 in Hp; lia). rewrite Z.max_l by lia. rewrite H8.
  set (T := 4 + (if sp then 4 else 0) + (if ident then 4 else 0)).
  pose proof (gap_aligns (a_data a) T 8 ltac:(unfold pow8; lia)) as G.
  pose proof (gap_range (a_data a) T 8 ltac:(unfold pow8; lia)) as R.
  assert (EG : finish_gap a ident sp = gap (a_data a) T 8) by (unfold finish_gap; rewrite H8; reflexivity).
  set (gg := gap (a_data a) T 8) in *.
  assert (G4 : (gg + blen (a_data a) + T) mod 4 = 0).
  { apply (mod_pow8_le _ 4 8); unfold pow8; auto; lia. }
  assert (IL : ident_len ident = (if ident then 4 else 0)) by (destruct Hi as [-> | Hi]; [reflexivity|]; destruct ident; [exact Hi|discriminate]).
  assert (E0 : gap (finish_body a ident sp) 4 4 = 0).
  { apply gap_0; [exact pow8_4|]. unfold finish_body. rewrite !blen_app, blen_zeros, EG.
    replace (blen (ident_bytes ident)) with (ident_len ident) by (destruct ident; reflexivity). rewrite IL.
    transitivity ((gg + blen (a_data a) + T + (if sp then -1 else 0) * 4) mod 4).
    - f_equal. unfold T. destruct sp; lia.
    - rewrite Z.mod_add by lia. exact G4. }
  rewrite blen_finish_data, E0, IL, EG. etransitivity; [|exact G].
  match goal with |- ?x mod _ = ?y mod _ => replace x with y by (unfold T; destruct sp; lia) end. reflexivity.
Qed.
End Effects.

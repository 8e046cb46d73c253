(** The accesses of the builder: vtables, and whole programs. *)
From Coq Require Import ZArith List Bool Lia Strings.Byte ZifyBool ZifyNat ZifyN.
From Verif Require Import Base Scalar Utf8 Reader Client Raw Builder Ops RawBuilder SpecRaw SpecWire SpecBuilder BaseFacts ScalarFacts ReaderFacts
  Abstract Refine Refine2 Build1 Build3 Build6 GrowthProofs RawProofs1 RawProofs3.
Import ListNotations.
Local Open Scope Z_scope.

Lemma set_range_in {A} (p l t x : list A) i : 0 <= i -> i + blen x <= blen l ->
  set_range (p ++ l ++ t) (blen p + i) x = p ++ set_range l i x ++ t.
Proof.
  intros Hi Hx. pose proof (blen_nonneg x).
  destruct (split_at l i) as (a & q & -> & La & Lq); [lia|]. rewrite blen_app in *.
  destruct (split_at q (blen x)) as (y & s & -> & Ly & Ls); [lia|]. rewrite blen_app in *.
  rewrite (set_range_mid a y x s) by lia.
  replace (p ++ (a ++ y ++ s) ++ t) with ((p ++ a) ++ y ++ (s ++ t)) by (rewrite <- !app_assoc; reflexivity).
  rewrite (set_range_mid (p ++ a) y x (s ++ t)) by (rewrite ?blen_app; lia).
  rewrite <- !app_assoc. reflexivity.
Qed.

Lemma slice_mid {A} (p l t : list A) a b : a = blen p -> b = blen p + blen l -> slice (p ++ l ++ t) a b = l.
Proof.
  intros -> ->. rewrite <- (Z.add_0_r (blen p)) at 1. rewrite slice_app_r by lia. unfold slice. cbn [Z.to_nat skipn]. apply firstn_app_exact. lia.
Qed.
(** Neither call touches the recorded fields and vtables. *)
Definition keeps (b b' : builder) : Prop := field_locs b' = field_locs b /\ written_vtable_revpos b' = written_vtable_revpos b.
Lemma keeps_refl b : keeps b b. Proof. split; auto. Qed.
Lemma keeps_trans a b c : keeps a b -> keeps b c -> keeps a c.
Proof. intros [] []. split; congruence. Qed.
Ltac peel E := repeat (apply bind_Val in E as (? & ? & E)).
Lemma keeps_grow h b b' : grow_owned_buf h b = Val b' -> keeps b b'.
Proof.
  intros E. unfold grow_owned_buf in E. peel E. cbv zeta in E.
  destruct (_ =? 1); [injection E as <-; split; auto|]. peel E. injection E as <-. split; auto.
Qed.
Lemma keeps_loop h n : forall b w b', grow_loop h n b w = Val b' -> keeps b b'.
Proof.
  induction n as [|n IH]; intros b w b' E; cbn [grow_loop] in E; destruct (_ <=? _); try discriminate; try (injection E as <-; apply keeps_refl).
  apply bind_Val in E as (b1 & G & E). eapply keeps_trans; [eapply keeps_grow; eauto|eauto].
Qed.
Lemma keeps_space h b w b' : make_space h b w = Val b' -> keeps b b'.
Proof.
  intros E. unfold make_space, ensure_capacity in E. apply bind_Val in E as (b1 & G & E). injection E as <-.
  destruct (_ <=? _); [injection G as <-; split; auto|]. apply bind_Val in G as (? & _ & G). apply keeps_loop in G. exact G.
Qed.
Lemma keeps_align h b n a b' : align h b n a = Val b' -> keeps b b'.
Proof. intros E. unfold align in E. apply bind_Val in E as (m & _ & E). apply keeps_space in E. exact E. Qed.
Lemma keeps_push h b x b' o : push h b x = Val (b', o) -> keeps b b'.
Proof.
  intros E. unfold push in E. apply bind_Val in E as (b1 & A & E). apply bind_Val in E as (b2 & S & E). peel E. injection E as <- _.
  eapply keeps_trans; [eapply keeps_align; eauto|]. apply keeps_space in S. exact S.
Qed.
Lemma keeps_bytes h b x b' : push_bytes_unprefixed h b x = Val b' -> keeps b b'.
Proof. intros E. unfold push_bytes_unprefixed in E. apply bind_Val in E as (b1 & S & E). peel E. injection E as <-. apply keeps_space in S. exact S. Qed.
Lemma keeps_push_all h l : forall b b', push_all h b l = Val b' -> keeps b b'.
Proof.
  induction l as [|x l IH]; intros b b' E; cbn [push_all] in E; [injection E as <-; apply keeps_refl|].
  apply bind_Val in E as ([b1 o] & P & E). eapply keeps_trans; [eapply keeps_push; eauto|eauto].
Qed.
Lemma keeps_string h b s b' o : create_byte_string h b s = Val (b', o) -> keeps b b'.
Proof.
  intros E. unfold create_byte_string in E. apply bind_Val in E as (? & _ & E). apply bind_Val in E as (? & _ & E).
  apply bind_Val in E as (b1 & A & E). apply bind_Val in E as ([b2 ?] & P & E). apply bind_Val in E as (b3 & B & E). apply bind_Val in E as ([b4 ?] & Q & E).
  injection E as <- _. apply keeps_align in A. apply keeps_push in P. apply keeps_bytes in B. apply keeps_push in Q. eauto using keeps_trans.
Qed.
Lemma keeps_strings h l : forall b acc b' r, create_strings_rev h b l acc = Val (b', r) -> keeps b b'.
Proof.
  induction l as [|s l IH]; intros b acc b' r E; cbn [create_strings_rev] in E; [injection E as <- _; apply keeps_refl|].
  apply bind_Val in E as ([b1 o] & P & E). unfold create_string in P. apply bind_Val in P as (? & _ & P).
  eapply keeps_trans; [eapply keeps_string; eauto|eauto].
Qed.
Lemma keeps_vector h b sz al items b' o : create_vector h b sz al items = Val (b', o) -> keeps b b'.
Proof.
  intros E. unfold create_vector in E. apply bind_Val in E as (? & _ & E). apply bind_Val in E as (b1 & A & E). apply bind_Val in E as (b2 & B & E).
  apply keeps_align in A. apply keeps_push_all in B. apply keeps_push in E. eauto using keeps_trans.
Qed.

Lemma push_used h b x b' o : fit b -> push h b x = Val (b', o) -> o = as_u32 (used_space b') /\ used_space b' mod push_size x = 0.
Proof.
  intros F E. pose proof (good_push _ _ _ _ _ F E) as G. unfold push in E. apply bind_Val in E as (b1 & A & E). apply bind_Val in E as (b2 & S & E).
  apply bind_Val in E as ([] & Q & E). apply bind_Val in E as (w & W & E). injection E as <- <-. split; [reflexivity|].
  pose proof (push_size_align x) as [SA SP]. pose proof (good_fit _ _ (good_align _ _ _ _ _ F A)) as F1.
  pose proof (push_aligned _ _ _ _ _ F (push_alignment_pow8 x) (Z.lt_le_incl _ _ SP) A) as U1.
  destruct (grew_space _ _ _ _ F1 (Z.lt_le_incl _ _ SP) S) as ([F2 _ _ _] & U2 & _).
  assert (L : blen w = push_size x).
  { destruct (push_size x <=? _) eqn:L; [|discriminate].
    assert (blen (firstn (Z.to_nat (push_size x)) (unfinished_data b2)) = push_size x) by (rewrite blen_firstn; lia).
    destruct x; cbn [push_into] in W; [|apply bind_Val in W as (? & _ & W)]; apply emplace_blen in W; congruence. }
  destruct (push_size x <=? _) eqn:L2; [|discriminate]. unfold unfinished_data in L2. rewrite blen_skipn in L2.
  destruct F2 as [F2 _]. unfold used_space, cap in *. cbn [set_buf owned_buf head]. rewrite blen_set_range by lia.
  rewrite U2. rewrite SA at 2. exact U1.
Qed.

Definition even_id (f : field_loc) : Prop := fl_id f mod 2 = 0.

Lemma even_wrap h a x o : usize_arith h (a - x) = Val o -> x mod 2 = 0 -> (a - o) mod 2 = 0.
Proof.
  intros E X. apply usize_arith_mod in E. subst o. set (q := (a - x) / 2 ^ 64).
  assert ((a - x) mod 2 ^ 64 = a - x - 2 ^ 64 * q) by (subst q; pose proof (Z.div_mod (a - x) (2 ^ 64)); lia).
  rewrite H. replace (a - (a - x - 2 ^ 64 * q)) with (x + (2 ^ 63 * q) * 2) by lia. rewrite Z.mod_add by lia. exact X.
Qed.
Lemma even_vlen l : Forall field_ok l -> Forall even_id l -> get_vtable_byte_len l mod 2 = 0.
Proof.
  intros F E. destruct l as [|f l]; [reflexivity|]. unfold get_vtable_byte_len. set (L := f :: l) in *. clearbody L.
  assert (fold_right Z.max 0 (map fl_id L) mod 2 = 0).
  { clear F. induction E as [|x m E _ IH]; [reflexivity|]. cbn [map fold_right]. destruct (Z.max_spec (fl_id x) (fold_right Z.max 0 (map fl_id m))) as [[_ ->]|[_ ->]]; auto. }
  unfold SIZE_VOFFSET. rewrite Zplus_mod, H. reflexivity.
Qed.
Lemma as_u32_mod4 x : x mod 4 = 0 -> as_u32 x mod 4 = 0.
Proof. intros H. unfold as_u32. change (2 ^ 32) with (4 * 2 ^ 30). rewrite <- Znumtheory.Zmod_div_mod; [exact H|lia|lia|]. exists (2 ^ 30). lia. Qed.
Lemma as_u32_mod2 x : x mod 2 = 0 -> as_u32 x mod 2 = 0.
Proof. intros H. unfold as_u32. rewrite <- Znumtheory.Zmod_div_mod; [exact H|lia|lia|]. exists (2 ^ 31). lia. Qed.

Section B.
Context (h : host) (c : Z) (strict : bool) (P : access -> Prop).
Context (PB : forall k at_ n room, 0 <= at_ -> 0 <= n -> at_ + n <= room -> P (Access k TU8 at_ n room)).
Context (PT : forall k t at_ room, 0 <= at_ -> at_ + ssize t <= room ->
   (strict = true -> (room - at_) mod ssize t = 0 /\ doubles c room) -> P (Access k t at_ 1 room)).
Context (PQ : strict = false -> forall r a, rok r -> inside r a -> P a).

(** ** Writing a vtable *)
Definition holds (p t : list byte) (n : Z) (r : region) (l : list byte) : Prop :=
  r = Region (p ++ l ++ t) (blen p) (blen p + n) /\ blen l = n.
Definition evenly (p t : list byte) (n : Z) : Prop :=
  strict = true -> (n + blen t) mod 2 = 0 /\ doubles c (blen p + n + blen t).
Lemma holds_rok p t n r l : holds p t n r l -> rok r /\ contents r = l /\ region_len r = n.
Proof.
  intros [-> L]. pose proof (blen_nonneg p). pose proof (blen_nonneg l). pose proof (blen_nonneg t). split; [|split].
  - unfold rok. cbn. rewrite !blen_app. lia.
  - unfold contents. cbn. replace (blen p) with (blen p + 0) at 1 by lia. rewrite slice_app_r by lia.
    unfold slice. cbn [Z.to_nat skipn]. apply firstn_app_exact. lia.
  - unfold region_len. cbn. lia.
Qed.
Lemma patch_runs {A B} (R : A -> B -> Prop) p t n r l idx v f g : holds p t n r l -> evenly p t n -> 0 <= idx -> (strict = true -> idx mod 2 = 0) ->
  (forall r' l', holds p t n r' l' -> runs P R (f r') (g l')) ->
  runs P R
    (let+ d := quiet (region_index r idx (idx + 2)) in let+ m := r_emplace_scalar h TU16 d v in f (with_mem r m))
    (let* d := index_range l idx (idx + 2) in let* x := emplace_scalar h TU16 d v in g (set_range l idx x)).
Proof.
  intros H E I IE FG. destruct (holds_rok _ _ _ _ _ H) as (K & C & L). rewrite <- C at 1.
  eapply runs_bind; [apply index_runs; auto|]. intros s x ((Ks & <- & Ms & _) & Es & B0) _.
  eapply runs_bind; [apply emplace_runs; auto|].
  - intros _. rewrite Ms. destruct H as [-> Ll]. subst s. cbn [mem from upto] in *. pose proof (blen_nonneg p). pose proof (blen_nonneg t).
    apply PT; [lia|rewrite !blen_app; cbn [ssize]; lia|].
    rewrite !blen_app. intros Q. destruct (E Q) as [E1 E2]. specialize (IE Q). cbn [ssize]. split.
    + replace (blen p + (blen l + blen t) - (blen p + idx)) with (n + blen t - idx) by lia.
      rewrite Zminus_mod, E1, IE. reflexivity.
    + replace (blen p + (blen l + blen t)) with (blen p + n + blen t) by lia. exact E2.
  - intros m y (-> & Ly) _. apply FG. destruct H as [-> Ll]. subst s. unfold with_mem. unfold region_len in *. cbn [mem from upto] in *.
    rewrite set_range_in by lia. split; [reflexivity|]. rewrite blen_set_range; lia.
Qed.
Lemma read_field_runs p t n r l idx : holds p t n r l -> evenly p t n -> 0 <= idx < 2 ^ 16 -> (strict = true -> idx mod 2 = 0) ->
  runs P eq (w_vtw_get_field_offset h r idx) (vtw_get_field_offset h l idx).
Proof.
  intros H E I IE. destruct (holds_rok _ _ _ _ _ H) as (K & C & L). unfold w_vtw_get_field_offset, vtw_get_field_offset.
  rewrite <- C. apply (runs_then P eq eq _ _ (fun o => quiet (expect o)) expect).
  - apply read_at_runs; [auto|unfold usize_ok; lia|]. intros B. destruct H as [-> Ll]. cbn [mem from upto ssize] in *. unfold region_len in *. cbn [from upto] in *.
    pose proof (blen_nonneg p). pose proof (blen_nonneg t).
    apply PT; [lia|rewrite !blen_app; cbn [ssize]; lia|]. rewrite !blen_app. intros Q. destruct (E Q) as [E1 E2]. specialize (IE Q). cbn [ssize]. split.
    + replace (blen p + (blen l + blen t) - (blen p + idx)) with (n + blen t - idx) by lia.
      rewrite Zminus_mod, E1, IE. reflexivity.
    + replace (blen p + (blen l + blen t)) with (blen p + n + blen t) by lia. exact E2.
  - intros u v S _. destruct u, v; cbn in S; try contradiction; subst; apply runs_same.
Qed.
Lemma fields_runs p t n obj fs : forall r l, holds p t n r l -> evenly p t n -> Forall field_ok fs -> (strict = true -> Forall even_id fs) ->
  runs P (holds p t n) (w_write_fields h r obj fs) (write_fields h l obj fs).
Proof.
  induction fs as [|f fs IH]; intros r l H E F V; cbn [w_write_fields write_fields]; [apply runs_ret; exact H|].
  inversion F as [|? ? [_ Ff] Fs]; subst.
  assert (V1 : strict = true -> fl_id f mod 2 = 0) by (intros Q; specialize (V Q); inversion V; auto).
  assert (V2 : strict = true -> Forall even_id fs) by (intros Q; specialize (V Q); inversion V; auto).
  go_let. cbv zeta. eapply (runs_bind P eq).
  - destruct (debug h); [|apply runs_same]. eapply runs_bind; [eapply read_field_runs; eauto|]. intros ? ? <- _. apply runs_same.
  - intros _ _ _ _. eapply runs_bind; [unfold w_vtw_write_field_offset, vtw_write_field_offset; apply (patch_runs (holds p t n) p t n r l (fl_id f) _ (fun r => quiet (Val r)) (fun l => Val l)); auto; [lia|intros ? ? Q; apply runs_ret; exact Q]|]. intros r' l' H' _. apply IH; auto.
Qed.

(** ** Looking for an equal vtable *)
Lemma vt_bytes_runs r vt : rok r -> usize_ok vt ->
  (vt + 2 <= region_len r -> P (Access Load TU16 (from r + vt) 1 (blen (mem r)))) ->
  runs P (part_of r) (r_vt_as_bytes h r vt) (vt_as_bytes h (contents r) vt).
Proof.
  intros K V PP. unfold r_vt_as_bytes, vt_as_bytes, r_vt_num_bytes, vt_num_bytes. eapply runs_bind; [apply read_at_runs; auto|]. intros len ? <- _. go_let.
  eapply (runs_weaken P _ _ _ _ _ (fun a H => H)); [|apply get_runs; [auto|unfold usize_ok in V; lia]]. intros s l (S & _). exact S.
Qed.
Lemma vt_eq_runs m a b : usize_ok a -> usize_ok b ->
  (strict = true -> (blen m - a) mod 2 = 0 /\ (blen m - b) mod 2 = 0 /\ doubles c (blen m)) ->
  runs P eq (w_vt_eq h (whole_of m) a b) (vt_eq h m a b).
Proof.
  intros A B Q. unfold w_vt_eq, vt_eq.
  assert (V : forall x, usize_ok x -> (strict = true -> (blen m - x) mod 2 = 0 /\ doubles c (blen m)) ->
    runs P (part_of (whole_of m)) (r_vt_as_bytes h (whole_of m) x) (vt_as_bytes h m x)).
  { intros x X Y. rewrite <- (contents_whole m) at 3. apply vt_bytes_runs; [apply whole_of_ok|auto|]. intros L. unfold region_len, whole_of in *. cbn [from mem upto] in *.
    unfold usize_ok in X. apply PT; cbn [ssize]; try lia. exact Y. }
  apply (runs_then P (part_of (whole_of m)) eq _ (vt_as_bytes h m a) _ (fun o => match o, vt_as_bytes h m b with
    | Panic, _ | _, Panic => Panic
    | Val x, Val y => Val (bytes_eqb x y)
    | Err OutOfBounds, Err OutOfBounds => Val true
    | _, _ => Val false end)); [apply V; tauto|].
  intros x x' S _.
  pose (g := fun y : outcome (list byte) => match x', y with
                | Panic, _ | _, Panic => Panic
                | Val x, Val y => Val (bytes_eqb x y)
                | Err OutOfBounds, Err OutOfBounds => Val true
                | _, _ => Val false
                end).
  assert (W : runs P eq (tthen (r_vt_as_bytes h (whole_of m) b) (fun y => quiet match x, y with
                | Panic, _ | _, Panic => Panic
                | Val x, Val y => Val (bytes_eqb (contents x) (contents y))
                | Err OutOfBounds, Err OutOfBounds => Val true
                | _, _ => Val false
                end)) (g (vt_as_bytes h m b))).
  { eapply runs_then; [apply V; tauto|]. intros y y' T _. apply runs_quiet. unfold g.
    destruct x as [x|e|], x' as [x'|e'|]; cbn in S; try contradiction; destruct y as [y|f|], y' as [y'|f'|]; cbn in T; try contradiction; subst.
    all: try (destruct S as (_ & <- & _)); try (destruct T as (_ & <- & _)); try apply same_end_refl. }
  destruct x, x'; cbn in S; try contradiction; try exact W. apply runs_quiet. exact I.
Qed.
Lemma find_dup_runs m needle l : usize_ok needle ->
  (strict = true -> (blen m - needle) mod 2 = 0 /\ Forall (fun x => x mod 2 = 0) l /\ doubles c (blen m)) ->
  runs P eq (w_find_dup h (whole_of m) needle l) (find_dup h m needle l).
Proof.
  intros N. induction l as [|x l IH]; intros Q; cbn [w_find_dup find_dup]; [apply runs_same|].
  replace (region_len (whole_of m)) with (blen m) by (unfold region_len, whole_of; cbn; lia).
  apply runs_let. intros o O. pose proof (usize_range _ _ _ O) as U.
  eapply runs_bind; [apply vt_eq_runs; auto|].
  - intros S. destruct (Q S) as (Q1 & Q2 & Q3). inversion Q2; subst. split; [auto|]. split; [|auto]. eapply even_wrap; eauto.
  - intros e ? <- _. destruct e; [apply runs_same|]. apply IH. intros S. destruct (Q S) as (Q1 & Q2 & Q3). inversion Q2; auto.
Qed.

Definition evens (b : builder) : Prop :=
  strict = true -> Forall even_id (field_locs b) /\ Forall (fun x => x mod 2 = 0) (written_vtable_revpos b).
Lemma keeps_evens b b' : keeps b b' -> evens b -> evens b'.
Proof. intros [K1 K2] E S. rewrite K1, K2. auto. Qed.


Lemma vtable_runs b tail : fine c strict b -> slots b -> evens b ->
  runs P eq (w_write_vtable h b tail) (write_vtable h b tail).
Proof.
  intros F SL EV. unfold w_write_vtable, write_vtable. apply runs_let. intros _ _.
  eapply runs_bind; [eapply push_runs; eauto|]. intros [b1 obj] ? <- E1.
  destruct (push_used _ _ _ _ _ (proj1 F) E1) as (EO & U1). cbn [push_size ssize] in U1.
  pose proof (good_push _ _ _ _ _ (proj1 F) E1) as G1. pose proof (fine_good _ _ _ _ F G1) as F1. pose proof (proj2 G1 SL) as SL1.
  pose proof (keeps_evens _ _ (keeps_push _ _ _ _ _ E1) EV) as EV1. clear E1 G1 F SL EV b.
  cbv zeta. set (vlen := get_vtable_byte_len (field_locs b1)).
  pose proof (vlen_range _ SL1) as V. fold vlen in V.
  eapply runs_bind; [eapply space_runs; eauto|]. intros b2 ? <- E2. assert (V0 : 0 <= vlen) by lia.
  destruct (grew_space _ _ _ _ (proj1 F1) V0 E2) as (G2 & U2 & L2). pose proof (fine_grew _ _ _ _ _ F1 G2) as F2.
  pose proof (keeps_evens _ _ (keeps_space _ _ _ _ E2) EV1) as EV2. unfold slots in SL1; rewrite <- L2 in SL1.
  assert (EVl : strict = true -> vlen mod 2 = 0) by (intros Q; subst vlen; rewrite <- L2; apply even_vlen; [exact SL1|apply EV2; auto]).
  assert (UU : 0 <= used_space b1) by (destruct F1 as [[? _] _]; unfold used_space, cap in *; lia). clear E2 G2 F1 EV1. destruct F2 as [[Fh Fc] D2].
  go_let. go_let. apply runs_let. intros e EE. rewrite usize_arith_ok in EE by (unfold used_space, cap in *; lia). injection EE as <-.
  (* the vtable *)
  assert (SP : exists p l t, owned_buf b2 = p ++ l ++ t /\ blen p = head b2 /\ blen l = vlen).
  { unfold cap, used_space in *. destruct (split_at (owned_buf b2) (head b2)) as (p & q & E & Lp & Lq); [lia|].
    destruct (split_at q vlen) as (l & t & -> & Ll & Lt); [lia|]. exists p, l, t. auto. }
  destruct SP as (p & l & t & EB & Lp & Ll).
  assert (Hold : runs P (holds p t vlen) (quiet (region_index (whole_of (owned_buf b2)) (head b2) (head b2 + vlen))) (index_range (owned_buf b2) (head b2) (head b2 + vlen))).
  { pose proof (index_runs P (whole_of (owned_buf b2)) (head b2) (head b2 + vlen) (whole_of_ok _) (proj1 Fh)) as I. rewrite contents_whole in I.
    eapply (runs_weaken P P _ _ _ _ (fun a H => H)); [|exact I]. intros s x ((Ks & Cs & Ms & _) & Es & B). unfold region_len, whole_of in *. cbn [mem from upto] in *.
    assert (Ex : x = l).
    { subst s. unfold contents in Cs. cbn [mem from upto] in Cs. rewrite EB in Cs. rewrite <- Cs. apply slice_mid; lia. }
    rewrite Ex. split; [|exact Ll]. rewrite Es, <- Lp, EB. reflexivity. }
  assert (C2 : cap b2 = blen p + vlen + blen t) by (unfold cap; rewrite EB, !blen_app; lia).
  assert (EU : strict = true -> used_space b2 mod 2 = 0).
  { intros Q. rewrite U2, Zplus_mod, (EVl Q). replace (used_space b1 mod 2) with ((used_space b1 mod 4) mod 2).
    - rewrite U1. reflexivity.
    - symmetry. apply Znumtheory.Zmod_div_mod; [lia|lia|]. exists 2. lia. }
  assert (EVn : evenly p t vlen).
  { intros Q. split; [|rewrite <- C2; auto]. replace (vlen + blen t) with (used_space b2) by (unfold used_space; fold (cap b2); lia). auto. }
  eapply runs_bind; [exact Hold|]. intros r0 l0 Q0 _.
  eapply runs_bind with (R := holds p t vlen).
  { unfold w_vtw_write_byte_length, vtw_write_byte_length. eapply (patch_runs (holds p t vlen) p t vlen r0 l0 0 _
      (fun r => let+ _ := quiet (debug_assert h (as_u16 vlen =? region_len r0)) in quiet (Val r))
      (fun l => let* _ := debug_assert h (as_u16 vlen =? blen l) in Val l)); auto; [lia|].
    intros r' l' H'. destruct (holds_rok _ _ _ _ _ Q0) as (_ & _ & ->). rewrite (proj2 H'). go_let. apply runs_ret. exact H'. }
  intros r1 l1 Q1 _.
  eapply runs_bind with (R := holds p t vlen).
  { unfold w_vtw_write_object_inline_size, vtw_write_object_inline_size. apply (patch_runs (holds p t vlen) p t vlen r1 l1 2 _ (fun r => quiet (Val r)) (fun l => Val l)); auto; [lia|].
    intros ? ? Q; apply runs_ret; exact Q. }
  intros r2 l2 Q2 _.
  eapply runs_bind; [eapply fields_runs; eauto; intros Q; apply EV2; auto|]. intros r3 l3 [-> L3] _. cbn [mem].
  assert (B3 : set_range (owned_buf b2) (head b2) l3 = p ++ l3 ++ t) by (rewrite EB; apply set_range_mid; lia).
  rewrite B3. cbn [set_buf owned_buf head written_vtable_revpos]. set (m3 := p ++ l3 ++ t).
  assert (C3 : blen m3 = cap b2) by (subst m3; rewrite !blen_app; lia).
  eapply runs_bind; [eapply find_dup_runs; eauto|].
  { unfold usize_ok, cap in *. lia. }
  { intros Q. rewrite C3. split; [exact (EU Q)|]. split; [|auto]. apply Forall_rev. apply EV2; auto. }
  intros dup ? <- _.
  (* the head moves back over a duplicate *)
  assert (K4 : forall b4 use, cap b4 = cap b2 -> 0 <= head b4 <= cap b2 ->
    runs P eq
     (let+ n := quiet (usize_arith h (head b4 + used_space b4 - obj)) in
      let+ saw := tthen (r_read_scalar_at h TU32 (whole_of (owned_buf b4)) n) (fun o => quiet (expect o)) in
      let+ _ := quiet (debug_assert h (saw =? 0xF0F0F0F0)) in
      let+ d := quiet (i32_arith h (as_i32 use - as_i32 obj)) in
      let+ e := quiet (usize_arith h (n + SIZE_SOFFSET)) in
      let+ dst := quiet (region_index (whole_of (owned_buf b4)) n e) in
      let+ m := r_emplace_scalar h TI32 dst d in
      quiet (Val (set_field_locs (set_buf b4 m (head b4)) [], obj)))
     (let* n := usize_arith h (head b4 + used_space b4 - obj) in
      let* saw := expect (read_scalar_at h TU32 (owned_buf b4) n) in
      let* _ := debug_assert h (saw =? 0xF0F0F0F0) in
      let* d := i32_arith h (as_i32 use - as_i32 obj) in
      let* e := usize_arith h (n + SIZE_SOFFSET) in
      let* dst := index_range (owned_buf b4) n e in
      let* x := emplace_scalar h TI32 dst d in
      Val (set_field_locs (set_buf b4 (set_range (owned_buf b4) n x) (head b4)) [], obj))).
  { intros b4 use C4 H4. apply runs_let. intros n N. pose proof (usize_range _ _ _ N) as UN.
    assert (A4 : strict = true -> (cap b2 - n) mod 4 = 0 /\ doubles c (cap b2)).
    { intros Q. split; [|auto]. apply usize_arith_mod in N. replace (head b4 + used_space b4 - obj) with (cap b2 - obj) in N by (unfold used_space, cap in *; lia).
      pose proof (as_u32_mod4 _ U1) as O4. rewrite <- EO in O4. subst n. set (q := (cap b2 - obj) / 2 ^ 64).
      assert (X : (cap b2 - obj) mod 2 ^ 64 = cap b2 - obj - 2 ^ 64 * q) by (subst q; pose proof (Z.div_mod (cap b2 - obj) (2 ^ 64)); lia).
      rewrite X. replace (cap b2 - (cap b2 - obj - 2 ^ 64 * q)) with (obj + (2 ^ 62 * q) * 4) by lia. rewrite Z.mod_add by lia. exact O4. }
    eapply runs_bind.
    { rewrite <- (contents_whole (owned_buf b4)) at 2. apply (runs_then P eq eq _ _ (fun o => quiet (expect o)) expect).
      - apply read_at_runs; [apply whole_of_ok|exact UN|]. unfold region_len, whole_of. cbn [from upto mem]. fold (cap b4). rewrite C4.
        intros L. unfold usize_ok in UN. apply PT; cbn [ssize] in *; try lia. rewrite Z.add_0_l. exact A4.
      - intros u v S _. destruct u, v; cbn in S; try contradiction; subst; apply runs_same. }
    intros saw ? <- _. go_let. go_let. apply runs_let. intros e EE.
    rewrite <- (contents_whole (owned_buf b4)) at 2. unfold usize_ok in UN.
    eapply runs_bind; [apply index_runs; [apply whole_of_ok|lia]|]. intros dst x ((Kd & <- & Md & _) & Ed & Ld) _.
    unfold region_len, whole_of in *. cbn [from upto mem] in *. fold (cap b4) in *.
    eapply runs_bind; [apply emplace_runs; [auto|]|].
    - subst dst. unfold region_len. cbn [from upto mem ssize]. fold (cap b4). rewrite C4 in *. intros L. apply PT; cbn [ssize]; try lia. rewrite Z.add_0_l. exact A4.
    - intros m y (-> & _) _. apply runs_ret. subst dst. cbn [mem from]. rewrite Z.add_0_l. reflexivity. }
  eapply runs_bind with (R := fun x y => x = y /\ cap (fst x) = cap b2 /\ 0 <= head (fst x) <= cap b2); [|intros [b4 use] ? (<- & C4 & H4) _; apply K4; auto].
  destruct dup as [n|].
  - rewrite <- (contents_whole m3) at 2.
    eapply runs_bind; [apply index_runs; [apply whole_of_ok|lia]|]. intros d x ((Kd & _ & Md & _) & Ed & Ld) _.
    unfold region_len, whole_of in *. cbn [from upto mem] in *. rewrite C3 in Ld.
    change (runs P (fun x y => x = y /\ cap (fst x) = cap b2 /\ 0 <= head (fst x) <= cap b2)
      (let+ vt := w_vtw_clear d in let+ hd := quiet (usize_arith h (head b2 + vlen)) in quiet (Val (set_buf (set_buf b2 m3 (head b2)) (mem vt) hd, n)))
      (let* m := Val (set_range m3 (head b2) (zeros (head b2 + vlen - head b2))) in
       let* hd := usize_arith h (head b2 + vlen) in Val (set_buf (set_buf b2 m3 (head b2)) m hd, n))).
    eapply runs_bind with (R := fun r m => mem r = m).
    + unfold w_vtw_clear. subst d. unfold region_len. cbn [from upto].
      apply (runs_bind P eq _ _ (Val (set_range m3 (head b2) (zeros (head b2 + vlen - head b2)))) _ (fun m => Val m)).
      * apply (wipe_runs P PB); [exact Kd|unfold region_len; cbn [from upto]; lia|]. cbn [mem from]. rewrite !Z.add_0_l. reflexivity.
      * intros m ? <- _. apply runs_ret. reflexivity.
    + intros vt m <- Em. injection Em as Em. apply runs_let. intros hd HD. rewrite usize_arith_ok in HD by (unfold cap in *; lia). injection HD as <-.
      apply runs_ret. split; [reflexivity|]. unfold cap. cbn [fst set_buf owned_buf head]. rewrite <- Em. rewrite blen_set_range by (rewrite ?blen_zeros; unfold cap in *; lia). unfold cap in *. lia.
  - apply runs_ret. split; [reflexivity|]. unfold cap. cbn [fst set_revpos set_buf owned_buf head]. split; [exact C3|exact Fh].
Qed.
Lemma evens_vtable b tail b' o : fine c strict b -> slots b -> evens b -> write_vtable h b tail = Val (b', o) -> evens b'.
Proof.
  intros F SL EV E Q. specialize (EV Q). unfold write_vtable in E. apply bind_Val in E as (? & _ & E). apply bind_Val in E as ([b1 obj] & E1 & E).
  destruct (push_used _ _ _ _ _ (proj1 F) E1) as (EO & U1). cbn [push_size ssize] in U1.
  pose proof (good_push _ _ _ _ _ (proj1 F) E1) as G1. pose proof (proj2 G1 SL) as SL1. destruct (keeps_push _ _ _ _ _ E1) as [KL KR]. rewrite <- KL, <- KR in EV.
  pose proof (good_fit _ _ G1) as F1. pose proof (vlen_range _ SL1) as V. apply bind_Val in E as (b2 & E2 & E).
  assert (V0 : 0 <= get_vtable_byte_len (field_locs b1)) by lia.
  destruct (grew_space _ _ _ _ F1 V0 E2) as ([F2 _ _ _] & U2 & L2). destruct (keeps_space _ _ _ _ E2) as [_ KR2].
  apply bind_Val in E as (size & _ & E). apply bind_Val in E as (? & _ & E). apply bind_Val in E as (ve & VE & E).
  apply bind_Val in E as (v0 & I0 & E). apply bind_Val in E as (v1 & I1 & E). apply bind_Val in E as (v2 & I2 & E).
  apply bind_Val in E as (v3 & I3 & E). cbv zeta in E. apply bind_Val in E as (dup & _ & E). apply bind_Val in E as ([b4 use] & D & E). 
  assert (R : written_vtable_revpos b' = written_vtable_revpos b4 /\ field_locs b' = []) by (peel E; injection E as <- _; auto).
  destruct R as [-> ->]. split; [constructor|].
  destruct dup as [n|].
  - apply bind_Val in D as (? & _ & D). apply bind_Val in D as (? & _ & D). injection D as <- _. cbn [set_buf written_vtable_revpos]. rewrite KR2. apply EV.
  - injection D as <- _. cbn [set_revpos set_buf written_vtable_revpos]. rewrite KR2. apply Forall_app. split; [apply EV|]. constructor; [|constructor].
    apply as_u32_mod2. unfold used_space. cbn [set_buf owned_buf head].
    assert (L0 : blen v0 = get_vtable_byte_len (field_locs b1) /\ ve <= cap b2 /\ ve = head b2 + get_vtable_byte_len (field_locs b1)).
    { destruct F2 as [Fh Fc]. unfold used_space, cap in *. rewrite usize_arith_ok in VE by lia. injection VE as <-.
      apply index_range_blen in I0; [|lia]. lia. }
    destruct L0 as (L0 & LC & ->).
    assert (L3 : blen v3 = get_vtable_byte_len (field_locs b1)).
    { apply write_fields_blen in I3; [|rewrite L2; exact SL1]. rewrite I3. revert V. revert L0. generalize (get_vtable_byte_len (field_locs b1)).
      clear - I1 I2. intros vlen L0 V. unfold vtw_write_byte_length in I1. apply bind_Val in I1 as (s & Hs & H1).
      apply bind_Val in H1 as (x & Hx & H1). apply bind_Val in H1 as (u & _ & H1). injection H1 as <-.
      apply index_range_blen in Hs; [|lia]. apply emplace_blen in Hx.
      unfold vtw_write_object_inline_size in I2. apply bind_Val in I2 as (s2 & Hs2 & H2).
      apply bind_Val in H2 as (x2 & Hx2 & H2). injection H2 as <-.
      apply index_range_blen in Hs2; [|unfold SIZE_VOFFSET; lia]. apply emplace_blen in Hx2.
      unfold SIZE_VOFFSET in *. assert (blen (set_range v0 0 x) = blen v0) by (apply blen_set_range; lia).
      rewrite blen_set_range; lia. }
    rewrite blen_set_range by (destruct F2; unfold cap in *; lia). change (used_space b2 mod 2 = 0).
    rewrite U2, Zplus_mod, even_vlen by (auto; apply EV). replace (used_space b1 mod 2) with ((used_space b1 mod 4) mod 2).
    + rewrite U1. reflexivity.
    + symmetry. apply Znumtheory.Zmod_div_mod; [lia|lia|]. exists 2. lia.
Qed.

(** ** The other calls *)
Local Notation fine := (fine c strict).
Lemma string_runs b s : fine b -> runs P eq (w_create_byte_string h b s) (create_byte_string h b s).
Proof.
  intros F. unfold w_create_byte_string, create_byte_string. go_let. go_let.
  eapply runs_bind; [eapply align_runs; eauto|]. intros b1 ? <- E1. pose proof (fine_good _ _ _ _ F (good_align _ _ _ _ _ (proj1 F) E1)) as F1.
  eapply runs_bind; [eapply push_runs; eauto|]. intros [b2 o2] ? <- E2. pose proof (fine_good _ _ _ _ F1 (good_push _ _ _ _ _ (proj1 F1) E2)) as F2.
  eapply runs_bind; [eapply bytes_runs; eauto|]. intros b3 ? <- E3. pose proof (fine_good _ _ _ _ F2 (good_bytes _ _ _ _ (proj1 F2) E3)) as F3.
  eapply runs_bind; [eapply push_runs; eauto|]. intros [b4 o4] ? <- _. apply runs_same.
Qed.
Lemma push_all_runs l : forall b, fine b -> runs P eq (w_push_all h b l) (push_all h b l).
Proof.
  induction l as [|x l IH]; intros b F; cbn [w_push_all push_all]; [apply runs_same|].
  eapply runs_bind; [eapply push_runs; eauto|]. intros [b1 o] ? <- E. apply IH. eapply fine_good; eauto using good_push. eapply good_push; [apply F|eauto].
Qed.
Lemma vector_runs b sz al items : fine b -> runs P eq (w_create_vector h b sz al items) (create_vector h b sz al items).
Proof.
  intros F. unfold w_create_vector, create_vector. go_let.
  eapply runs_bind; [eapply align_runs; eauto|]. intros b1 ? <- E1. pose proof (fine_good _ _ _ _ F (good_align _ _ _ _ _ (proj1 F) E1)) as F1.
  eapply runs_bind; [eapply push_all_runs; eauto|]. intros b2 ? <- E2. pose proof (fine_good _ _ _ _ F1 (good_push_all _ _ _ _ (proj1 F1) E2)) as F2.
  eapply push_runs; eauto.
Qed.
Lemma blen_slice_memory t items : blen (slice_memory h t items) = blen items * ssize t.
Proof.
  unfold slice_memory. induction items as [|x l IH]; [reflexivity|]. cbn [flat_map]. rewrite blen_app, IH, blen_store, snat_size, blen_cons. lia.
Qed.
Lemma direct_runs b t items : fine b -> runs P eq (w_create_vector_direct h b t items) (create_vector_direct h b t items).
Proof.
  intros F. unfold w_create_vector_direct, create_vector_direct. go_let. go_let.
  eapply runs_bind; [eapply align_runs; eauto|]. intros b1 ? <- E1. pose proof (fine_good _ _ _ _ F (good_align _ _ _ _ _ (proj1 F) E1)) as F1.
  change (runs P eq (let+ bytes := items_bytes h t items in let+ b := w_push_bytes_unprefixed h b1 bytes in
      let+ (b, _) := w_push h b (PScalar TU32 (as_u32 (blen items))) in quiet (Val (b, as_u32 (used_space b))))
    (let* bytes := Val (slice_memory h t items) in let* b := push_bytes_unprefixed h b1 bytes in
      let* (b, _) := push h b (PScalar TU32 (as_u32 (blen items))) in Val (b, as_u32 (used_space b)))).
  eapply runs_bind with (R := eq).
  { unfold items_bytes. split.
    - constructor; [|constructor]. unfold whole_of. cbn [from mem]. rewrite blen_slice_memory. pose proof (ssize_pos t). pose proof (blen_nonneg items). apply PB; nia.
    - cbn [result snd same_end]. unfold whole_of. cbn [from mem]. rewrite Z.add_0_l, <- blen_slice_memory. apply (contents_whole (slice_memory h t items)). }
  intros bytes ? <- _. eapply runs_bind; [eapply bytes_runs; eauto|]. intros b3 ? <- E3. pose proof (fine_good _ _ _ _ F1 (good_bytes _ _ _ _ (proj1 F1) E3)) as F3.
  eapply runs_bind; [eapply push_runs; eauto|]. intros [b4 o4] ? <- _. apply runs_same.
Qed.
Lemma fill_runs l : forall b k acc, fine b -> length l = k ->
  runs P (fun x y => fst x = fst y /\ snd x = map Some (snd y)) (w_fill h b (repeat None k ++ map Some acc) (Z.of_nat k - 1) l) (create_strings_rev h b l acc).
Proof.
  induction l as [|s l IH]; intros b k acc F <-; cbn [w_fill create_strings_rev length].
  - apply runs_ret. auto.
  - unfold w_create_string, create_string. eapply runs_bind; [go_let; apply string_runs; auto|]. intros [b1 o] ? <- E.
    assert (E' : create_string h b s = Val (b1, o)) by exact E.
    pose proof (fine_good _ _ _ _ F (good_string _ _ _ _ _ (proj1 F) E')) as F1.
    replace (Z.of_nat (S (length l)) - 1) with (Z.of_nat (length l)) by lia.
    replace (repeat None (S (length l)) ++ map Some acc) with (repeat None (length l) ++ [None] ++ map Some acc).
    2:{ rewrite app_assoc. f_equal. replace (S (length l)) with (length l + 1)%nat by lia. rewrite repeat_app. reflexivity. }
    rewrite (write_range_ok (repeat (@None Z) (length l)) [None] (map Some acc) [Some o]) by (unfold blen; rewrite ?repeat_length; cbn [length]; lia).
    apply runs_val. cbn [app]. change (Some o :: map Some acc) with (map Some (o :: acc)). apply (IH b1 (length l) (o :: acc)); auto.
Qed.
Lemma read_all_runs l : forall i, runs P eq (w_read_all i (map Some l)) (Val l).
Proof.
  induction l as [|x l IH]; intros i; cbn [map w_read_all]; [apply runs_same|]. apply runs_val.
  apply (runs_bind P eq eq _ (Val l) _ (fun xs => Val (x :: xs))); [apply IH|]. intros ? ? <- _. apply runs_same.
Qed.
Lemma strings_runs b xs : fine b -> runs P eq (w_create_vector_of_strings h b xs) (create_vector_of_strings h b xs).
Proof.
  intros F. unfold w_create_vector_of_strings, create_vector_of_strings. go_let.
  assert (L : length (rev xs) = length xs) by apply rev_length.
  pose proof (fill_runs (rev xs) b (length xs) [] F L) as R. cbn [map] in R. rewrite app_nil_r in R. fold (blen xs) in R.
  eapply runs_bind; [exact R|]. intros [b1 os] [b2 offs] [E1 E2] E. cbn [fst snd] in *. subst b1 os.
  pose proof (fine_good _ _ _ _ F (good_strings _ _ _ _ _ _ (proj1 F) E)) as F1.
  apply (runs_bind P eq eq _ (Val offs) _ (fun offs => create_vector h b2 4 4 (map POffset offs))); [apply read_all_runs|]. intros ? ? <- _. apply vector_runs; auto.
Qed.
Lemma finish_runs b root i sp : fine b -> runs P eq (w_finish_with_opts h b root i sp) (finish_with_opts h b root i sp).
Proof.
  intros F. unfold w_finish_with_opts, finish_with_opts. apply runs_let; intros _ _. apply runs_let; intros _ _. cbv zeta.
  assert (F0 : fine (set_revpos b [])) by exact F.
  eapply runs_bind; [eapply align_runs; eauto|]. intros b1 ? <- E1. pose proof (fine_good _ _ _ _ F0 (good_align _ _ _ _ _ (proj1 F0) E1)) as F1. clear E1 F F0.
  eapply runs_bind with (R := eq).
  { destruct i; [|apply runs_same]. go_let. eapply bytes_runs; eauto. }
  intros b2 ? <- E2.
  assert (F2 : fine b2).
  { eapply fine_good; [exact F1|]. destruct i; [apply bind_Val in E2 as (? & _ & E2); eapply good_bytes; [apply F1|eauto]|injection E2 as <-; apply good_refl, F1]. }
  eapply runs_bind; [eapply push_runs; eauto|]. intros [b3 o3] ? <- E3. pose proof (fine_good _ _ _ _ F2 (good_push _ _ _ _ _ (proj1 F2) E3)) as F3.
  eapply runs_bind with (R := eq); [|intros ? ? <- _; apply runs_same].
  destruct sp; [|apply runs_same]. eapply runs_bind; [eapply push_runs; eauto|]. intros [b4 o4] ? <- _. apply runs_same.
Qed.
Lemma required_runs b tab slot : strict = false -> fine b -> runs P eq (w_required h b tab slot) (required h b tab slot).
Proof.
  intros ST F. unfold w_required, required. apply runs_let. intros idx I. apply usize_range in I.
  change (runs P eq (let+ r := quiet (w_unfinished b) in
      let+ vt := tthen (r_table_vtable h r idx) (fun o => quiet (expect o)) in
      let+ vo := tthen (r_vt_get h r vt slot) (fun o => quiet (expect o)) in
      let+ o := quiet (expect_some vo) in quiet (assert_always (negb (o =? 0))))
    (let* d := Val (unfinished_data b) in
      let* vt := expect (table_vtable h d idx) in
      let* vo := expect (vt_get h d vt slot) in
      let* o := expect_some vo in assert_always (negb (o =? 0)))).
  eapply runs_bind; [eapply unfinished_runs; eauto|]. intros r l (Er & -> & C) _.
  assert (K : rok r) by (subst r; destruct F as [[? ?] _]; unfold rok, cap in *; cbn; lia). rewrite <- C. clear Er C.
  assert (X : forall A (x : traced A) (o : outcome A), runs (inside r) eq x o -> runs P eq (tthen x (fun o => quiet (expect o))) (expect o)).
  { intros A x o R. apply (runs_then P eq eq _ _ (fun o => quiet (expect o)) expect).
    - eapply runs_weaken; [|intros ? ? Q; exact Q|exact R]. intros a. apply PQ; auto.
    - intros u v S _. destruct u, v; cbn in S; try contradiction; subst; apply runs_same. }
  eapply runs_bind; [apply X, table_vtable_runs; auto|]. intros vt ? <- EV.
  assert (UV : usize_ok vt). { destruct (table_vtable h (contents r) idx) eqn:T; cbn in EV; try discriminate. injection EV as ->. eapply table_vtable_usize; eauto. }
  eapply runs_bind; [apply X, vt_get_runs; auto|]. intros vo ? <- _. go_let. apply runs_same.
Qed.
Lemma reset_runs b : fine b -> runs P eq (w_reset h b) (Val (reset b)).
Proof.
  intros F. pose proof F as [[Fh Fc] _]. unfold w_reset. rewrite usize_arith_ok by (unfold cap in *; lia). apply runs_val.
  change (Val (reset b)) with (let* _ := Val (unfinished_data b) in Val (reset b)).
  eapply runs_bind; [eapply unfinished_runs; eauto|]. intros r l (-> & _) _.
  assert (E : firstn (Z.to_nat (head b)) (owned_buf b) ++ zeros (used_space b) = set_range (owned_buf b) (head b) (zeros (used_space b))).
  { unfold set_range. f_equal. rewrite blen_zeros. unfold used_space, cap in *. rewrite <- (app_nil_r (zeros _)) at 1. f_equal.
    symmetry. apply skipn_all2. unfold blen in *. lia. }
  unfold reset. rewrite E. set (m' := set_range _ _ _).
  assert (Lm : blen m' = blen (owned_buf b)) by (subst m'; apply blen_set_range; [lia|rewrite blen_zeros; unfold used_space, cap in *; lia]).
  rewrite <- Lm. apply (runs_bind P eq eq _ (Val m') _ (fun m => Val (Builder m (blen m) (field_locs b) [] false false 0))).
  - apply (wipe_runs P PB); [unfold rok, cap in *; cbn; lia|unfold region_len, cap in *; cbn [from upto]; lia|]. cbn [mem from]. rewrite Lm. reflexivity.
  - intros ? ? <- _. apply runs_same.
Qed.

(** ** Programs *)
Definition even_slots (o : op) : Prop :=
  match o with
  | OpPushSlot s _ _ | OpPushSlotAlways s _ => s mod 2 = 0
  | _ => True
  end.
Definition is_required (o : op) : bool := match o with OpRequired _ _ => true | _ => false end.
Definition strictly (o : op) : Prop := strict = true -> even_slots o /\ is_required o = false.

Lemma num_runs x o : runs P eq x o -> runs P eq (w_num x) (with_num o).
Proof. intros R. unfold w_num, with_num. eapply runs_bind; [exact R|]. intros [b n] ? <- _. apply runs_same. Qed.
Lemma none_runs x o : runs P eq x o -> runs P eq (w_none x) (without o).
Proof. intros R. unfold w_none, without. eapply runs_bind; [exact R|]. intros b ? <- _. apply runs_same. Qed.
Lemma data_runs b : fine b -> runs P eq (let+ r := quiet (w_unfinished b) in quiet (Val (b, OBytes (contents r)))) (Val (b, OBytes (unfinished_data b))).
Proof.
  intros F. apply (runs_bind P (fun r l => r = Region (owned_buf b) (head b) (cap b) /\ l = unfinished_data b /\ contents r = l) eq _ (Val (unfinished_data b)) _ (fun l => Val (b, OBytes l))).
  - eapply unfinished_runs; eauto.
  - intros r l (_ & _ & <-) _. apply runs_same.
Qed.

Lemma step_runs b o : fine b -> slots b -> evens b -> strictly o -> runs P eq (w_step h b o) (step h b o).
Proof.
  intros F SL EV ST. destruct o; cbn [w_step step].
  - change (Val (reset b, ONone)) with (without (Val (reset b))). apply none_runs, reset_runs; auto.
  - apply num_runs. eapply push_runs; eauto.
  - apply none_runs. unfold w_push_slot, push_slot. go_let. destruct (pval_eq _ _); [apply runs_same|]. eapply slot_runs; eauto.
  - apply none_runs. eapply slot_runs; eauto.
  - apply runs_same.
  - apply num_runs. apply runs_same.
  - apply num_runs. unfold w_end_table, end_table. go_let. eapply runs_bind; [apply vtable_runs; auto|]. intros [b1 o] ? <- _. apply runs_same.
  - apply none_runs. unfold w_start_vector, start_vector. go_let. go_let. eapply align_runs; eauto.
  - apply num_runs. unfold w_end_vector, end_vector. go_let. eapply push_runs; eauto.
  - apply num_runs. unfold w_create_string, create_string. go_let. apply string_runs; auto.
  - apply num_runs. apply string_runs; auto.
  - apply num_runs. apply direct_runs; auto.
  - apply num_runs. apply strings_runs; auto.
  - apply num_runs. apply vector_runs; auto.
  - apply data_runs; auto.
  - unfold finished_data. destruct (assert_finished h b); cbn [bind].
    + apply runs_val. apply data_runs; auto.
    + apply runs_quiet. reflexivity.
    + apply runs_quiet. reflexivity.
  - destruct (bool_dec strict true) as [S|S]; [|apply not_true_is_false in S].
    + destruct (ST S) as [_ C]. discriminate C.
    + eapply runs_bind; [apply required_runs; auto|]. intros ? ? <- _. apply runs_same.
  - apply none_runs. apply finish_runs; auto.
Qed.
Lemma step_keeps b o b' x : fine b -> slots b -> evens b -> op_ok o = true -> (strict = true -> even_slots o) -> step h b o = Val (b', x) -> fine b' /\ slots b' /\ evens b'.
Proof.
  intros F SL EV O ST E.
  assert (G : fine b' /\ slots b').
  { destruct (is_reset o) eqn:R.
    - destruct o; try discriminate R. cbn [step] in E. injection E as <- _.
      assert (C : cap (reset b) = cap b).
      { unfold cap, reset. cbn [owned_buf]. rewrite blen_app, blen_zeros, blen_firstn. unfold used_space. destruct F as [[] _]. unfold cap in *. lia. }
      split; [|exact SL]. destruct F as [F D]. split; [|unfold dbl; rewrite C; exact D]. unfold fit. rewrite C. unfold reset. cbn [head]. fold (cap b). destruct F. lia.
    - pose proof (good_step _ _ _ _ _ (proj1 F) SL O R E) as G. split; [eapply fine_good; eauto|]. apply G. exact SL. }
  destruct G as [F' SL']. split; [exact F'|]. split; [exact SL'|].
  unfold step, with_num, without in E. destruct o;
    repeat (apply bind_Val in E as (?p & ?H & E)); repeat match goal with p : (builder * Z)%type |- _ => destruct p end;
    injection E as <- _; try exact EV.
  - intros Q. cbn [reset field_locs written_vtable_revpos]. split; [apply EV; auto|constructor].
  - eapply keeps_evens; [eapply keeps_push; eauto|auto].
  - unfold push_slot, push_slot_always in H. apply bind_Val in H as (? & _ & H). destruct (pval_eq _ _); [injection H as <-; exact EV|].
    apply bind_Val in H as (? & _ & H). apply bind_Val in H as ([b1 o] & Q & H). injection H as <-. apply keeps_push in Q. intros Z.
    destruct (keeps_evens _ _ Q EV Z) as [E1 E2]. cbn [track_field set_field_locs field_locs written_vtable_revpos]. split; [|exact E2].
    apply Forall_app. split; [exact E1|]. constructor; [|constructor]. apply (ST Z).
  - unfold push_slot_always in H. 
    apply bind_Val in H as (? & _ & H). apply bind_Val in H as ([b1 o] & Q & H). injection H as <-. apply keeps_push in Q. intros Z.
    destruct (keeps_evens _ _ Q EV Z) as [E1 E2]. cbn [track_field set_field_locs field_locs written_vtable_revpos]. split; [|exact E2].
    apply Forall_app. split; [exact E1|]. constructor; [|constructor]. apply (ST Z).
  - unfold start_table in H. apply bind_Val in H as (? & _ & H). injection H as <- _. exact EV.
  - unfold end_table in H. apply bind_Val in H as (? & _ & H). apply bind_Val in H as ([b1 o] & Q & H). injection H as <- _.
    pose proof (evens_vtable _ _ _ _ F SL EV Q) as EV1. intros Z. split; [constructor|]. apply (EV1 Z).
  - unfold start_vector in H. apply bind_Val in H as (? & _ & H). apply bind_Val in H as (? & _ & H). apply keeps_align in H. eapply keeps_evens; [exact H|exact EV].
  - unfold end_vector in H. apply bind_Val in H as (? & _ & H). apply keeps_push in H. eapply keeps_evens; [exact H|exact EV].
  - unfold create_string in H. apply bind_Val in H as (? & _ & H). eapply keeps_evens; [eapply keeps_string; eauto|auto].
  - eapply keeps_evens; [eapply keeps_string; eauto|auto].
  - unfold create_vector_direct in H. apply bind_Val in H as (? & _ & H). apply bind_Val in H as (? & _ & H). apply bind_Val in H as (b1 & H1 & H).
    apply bind_Val in H as (b2 & H2 & H). apply bind_Val in H as ([b3 ?] & H3 & H). injection H as <- _.
    apply keeps_align in H1. apply keeps_bytes in H2. apply keeps_push in H3. eapply keeps_evens; [|exact EV]. eauto using keeps_trans.
  - unfold create_vector_of_strings in H. apply bind_Val in H as (? & _ & H). apply bind_Val in H as ([b1 ?] & H1 & H).
    apply keeps_strings in H1. apply keeps_vector in H. eapply keeps_evens; [|exact EV]. eauto using keeps_trans.
  - apply keeps_vector in H. eapply keeps_evens; eauto.
  - unfold finish_with_opts in H. apply bind_Val in H as (? & _ & H). apply bind_Val in H as (? & _ & H). cbv zeta in H.
    apply bind_Val in H as (b1 & H1 & H). apply bind_Val in H as (b2 & H2 & H). apply bind_Val in H as ([b3 ?] & H3 & H). apply bind_Val in H as (b4 & H4 & H). injection H as <-.
    assert (EV0 : evens (set_revpos b [])) by (intros Z; split; [apply EV; auto|constructor]).
    apply keeps_align in H1. apply keeps_push in H3.
    assert (K2 : keeps b1 b2) by (destruct ident; [apply bind_Val in H2 as (? & _ & H2); eapply keeps_bytes; eauto|injection H2 as <-; apply keeps_refl]).
    assert (K4 : keeps b3 b4) by (destruct size_prefixed; [apply bind_Val in H4 as ([? ?] & H4 & Q); injection Q as <-; eapply keeps_push; eauto|injection H4 as <-; apply keeps_refl]).
    pose proof (keeps_evens _ _ (keeps_trans _ _ _ (keeps_trans _ _ _ (keeps_trans _ _ _ H1 K2) H3) K4) EV0) as R. exact R.
Qed.
Lemma run_runs os : forall b, fine b -> slots b -> evens b -> forallb op_ok os = true -> Forall strictly os -> runs P eq (w_run h b os) (run h b os).
Proof.
  induction os as [|o os IH]; intros b F SL EV O S; cbn [w_run run]; [apply runs_same|].
  cbn [forallb] in O. apply andb_true_iff in O as [O Os]. inversion S; subst.
  eapply runs_bind; [apply step_runs; auto|]. intros [b1 x] ? <- E.
  destruct (step_keeps _ _ _ _ F SL EV O (fun Q => proj1 (H1 Q)) E) as (F1 & SL1 & EV1).
  eapply runs_bind; [apply IH; auto|]. intros [b2 xs] ? <- _. apply runs_same.
Qed.
Lemma program_runs os : 0 <= c -> forallb op_ok os = true -> Forall strictly os -> runs P eq (w_program h c os) (program h c os).
Proof.
  intros C O S. unfold w_program, program. apply runs_let. intros b N. destruct (fit_new _ _ C N) as (F & SL & CB & _).
  apply run_runs; auto.
  - split; [exact F|]. intros _. rewrite CB. apply doubles_refl.
  - intros _. unfold new_with_capacity in N. apply bind_Val in N as (? & _ & N). injection N as <-. split; constructor.
Qed.
End B.

Lemma build_same h c os : 0 <= c -> forallb op_ok os = true -> result (w_program h c os) = program h c os.
Proof.
  intros C O. eapply (runs_eq (fun _ => True)). apply (program_runs h c false (fun _ => True)); auto. apply Forall_forall. intros o _ Q. discriminate Q.
Qed.
Lemma build_in_bounds h c os : 0 <= c -> forallb op_ok os = true -> Forall in_bounds (did (w_program h c os)).
Proof.
  intros C O. eapply (runs_did in_bounds eq). apply (program_runs h c false in_bounds); auto.
  - intros. cbn [in_bounds ssize]. lia.
  - intros. cbn [in_bounds]. lia.
  - intros _ r a [K1 K2] I. destruct a as [k t at_ n room|]; [|exact I]. cbn in *. lia.
  - apply Forall_forall. intros o _ Q. discriminate Q.
Qed.

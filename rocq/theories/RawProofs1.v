(** The accesses of the reader: forgetting them gives the reader, and they lie
    in the slice it was given. *)
From Coq Require Import ZArith List Bool Lia Strings.Byte ZifyBool ZifyNat ZifyN.
From Verif Require Import Base Scalar Utf8 Reader Client Raw SpecWire BaseFacts ScalarFacts ReaderFacts.
Import ListNotations.
Local Open Scope Z_scope.

(** The traced call makes accesses that satisfy [P] and ends like the plain one. *)
Definition same_end {A B} (R : A -> B -> Prop) (x : outcome A) (y : outcome B) : Prop :=
  match x, y with
  | Val a, Val b => R a b
  | Err e, Err f => e = f
  | Panic, Panic => True
  | _, _ => False
  end.
Definition runs {A B} (P : access -> Prop) (R : A -> B -> Prop) (x : traced A) (o : outcome B) : Prop :=
  Forall P (did x) /\ same_end R (result x) o.

Lemma runs_eq {A} P (x : traced A) o : runs P eq x o -> result x = o.
Proof. intros [_ H]. destruct (result x), o; cbn in H; try contradiction; congruence. Qed.
Lemma runs_did {A B} P (R : A -> B -> Prop) x o : runs P R x o -> Forall P (did x).
Proof. intros [H _]. exact H. Qed.

Lemma runs_quiet {A B} P (R : A -> B -> Prop) x o : same_end R x o -> runs P R (quiet x) o.
Proof. split; [constructor|assumption]. Qed.
Lemma same_end_refl {A} (x : outcome A) : same_end eq x x.
Proof. destruct x; cbn; auto. Qed.
Lemma runs_same {A} P (x : outcome A) : runs P eq (quiet x) x.
Proof. apply runs_quiet, same_end_refl. Qed.

Lemma runs_then {A B A' B'} P (R : A -> B -> Prop) (R' : A' -> B' -> Prop) x o f g :
  runs P R x o -> (forall u v, same_end R u v -> o = v -> runs P R' (f u) (g v)) ->
  runs P R' (tthen x f) (g o).
Proof.
  intros [H1 H2] K. specialize (K _ _ H2 eq_refl). destruct K as [K1 K2].
  split; [apply Forall_app; auto|exact K2].
Qed.
Lemma runs_bind {A B A' B'} P (R : A -> B -> Prop) (R' : A' -> B' -> Prop) x o f g :
  runs P R x o -> (forall a b, R a b -> o = Val b -> runs P R' (f a) (g b)) ->
  runs P R' (tbind x f) (bind o g).
Proof.
  intros H K. unfold tbind. 
  change (bind o g) with ((fun o => match o with Val a => g a | Err e => Err e | Panic => Panic end) o).
  eapply runs_then; [exact H|]. intros u v S E. destruct u, v; cbn in S; try contradiction.
  - apply K; auto.
  - subst. apply runs_quiet. reflexivity.
  - apply runs_quiet. reflexivity.
Qed.
Lemma runs_weaken {A B} (P Q : access -> Prop) (R R' : A -> B -> Prop) x o :
  (forall a, P a -> Q a) -> (forall a b, R a b -> R' a b) -> runs P R x o -> runs Q R' x o.
Proof.
  intros HP HR [H1 H2]. split; [eapply Forall_impl; eauto|].
  destruct (result x), o; cbn in *; auto.
Qed.
(** A step without accesses and the same value. *)
Lemma runs_let {A A' B'} P (R' : A' -> B' -> Prop) (o : outcome A) f g :
  (forall a, o = Val a -> runs P R' (f a) (g a)) -> runs P R' (tbind (quiet o) f) (bind o g).
Proof. intros K. eapply runs_bind; [apply runs_same|]. intros a b <- E. auto. Qed.
Lemma runs_ret {A B} P (R : A -> B -> Prop) a b : R a b -> runs P R (quiet (Val a)) (Val b).
Proof. intros. apply runs_quiet. assumption. Qed.

(** ** Slices *)
Definition rok (r : region) : Prop := 0 <= from r <= upto r /\ upto r <= blen (mem r).
Definition part_of (r : region) (s : region) (l : list byte) : Prop :=
  rok s /\ contents s = l /\ mem s = mem r /\ from r <= from s /\ upto s <= upto r.

Lemma blen_slice {A} (l : list A) a b : 0 <= a <= b -> b <= blen l -> blen (slice l a b) = b - a.
Proof. intros. unfold slice. rewrite blen_firstn, blen_skipn. lia. Qed.
Lemma blen_contents r : rok r -> blen (contents r) = region_len r.
Proof. intros [H1 H2]. unfold contents, region_len. apply blen_slice; lia. Qed.
Lemma slice_slice {A} (l : list A) a b c d : 0 <= a <= b -> b <= blen l -> 0 <= c <= d -> d <= b - a ->
  slice (slice l a b) c d = slice l (a + c) (a + d).
Proof.
  intros. unfold slice. rewrite skipn_firstn_comm, firstn_firstn, skipn_skipn.
  f_equal; [lia|]. f_equal. lia.
Qed.
Lemma whole_of_ok m : rok (whole_of m).
Proof. unfold rok, whole_of. cbn. pose proof (blen_nonneg m). lia. Qed.
Lemma contents_whole m : contents (whole_of m) = m.
Proof. unfold contents, whole_of, slice. cbn. rewrite Z.sub_0_r. apply firstn_all2. unfold blen. lia. Qed.

Lemma region_get_some r a b s : rok r -> 0 <= a -> region_get r a b = Some s ->
  s = Region (mem r) (from r + a) (from r + b) /\ rok s /\ a <= b <= region_len r /\
  part_of r s (slice (contents r) a b).
Proof.
  intros K Ha. unfold region_get. destruct ((a <=? b) && _) eqn:E; [|discriminate]. intros [= <-].
  pose proof K as K'. unfold rok, region_len in *. cbn [mem from upto]. split; [reflexivity|]. split; [lia|]. split; [lia|].
  unfold part_of, rok, contents. cbn [mem from upto]. split; [lia|]. split; [|split; [reflexivity|lia]].
  rewrite slice_slice by lia. reflexivity.
Qed.
Lemma region_get_spec r a b : rok r -> 0 <= a ->
  match region_get r a b, get_range (contents r) a b with
  | Some s, Some l => part_of r s l /\ s = Region (mem r) (from r + a) (from r + b) /\ a <= b <= region_len r
  | None, None => True
  | _, _ => False
  end.
Proof.
  intros K Ha. unfold get_range. rewrite blen_contents by auto.
  destruct (region_get r a b) as [s|] eqn:G.
  - destruct (region_get_some _ _ _ _ K Ha G) as (E & _ & L & S).
    replace ((a <=? b) && (b <=? region_len r)) with true by lia. auto.
  - unfold region_get in G. destruct ((a <=? b) && _); [discriminate|auto].
Qed.
Definition sub_at (r : region) (a b : Z) (s : region) (l : list byte) : Prop :=
  part_of r s l /\ s = Region (mem r) (from r + a) (from r + b) /\ a <= b <= region_len r.
Lemma get_runs P r a b e : rok r -> 0 <= a ->
  runs P (sub_at r a b) (quiet (ok_or (region_get r a b) e)) (ok_or (get_range (contents r) a b) e).
Proof.
  intros K Ha. apply runs_quiet. pose proof (region_get_spec r a b K Ha).
  destruct (region_get r a b), (get_range (contents r) a b); cbn; auto; contradiction.
Qed.
Lemma index_runs P r a b : rok r -> 0 <= a ->
  runs P (sub_at r a b) (quiet (region_index r a b)) (index_range (contents r) a b).
Proof.
  intros K Ha. apply runs_quiet. pose proof (region_get_spec r a b K Ha). unfold region_index, index_range.
  destruct (region_get r a b), (get_range (contents r) a b); cbn; auto; contradiction.
Qed.

(** ** Scalars *)
Lemma usize_range h v x : usize_arith h v = Val x -> usize_ok x.
Proof. intros E. apply unsigned_arith_range in E; [exact E|lia]. Qed.
Lemma usize_wrap h v x : 0 <= v -> usize_arith h v = Val x -> x = v \/ x <= v - 2 ^ 64.
Proof.
  unfold usize_arith, unsigned_arith. intros Hv. destruct ((0 <=? v) && _) eqn:E; [intros [= <-]; auto|].
  destruct (debug h); [discriminate|]. intros [= <-]. right.
  assert (2 ^ 64 <= v) by lia. pose proof (Z.mod_le (v - 2 ^ 64) (2 ^ 64)). 
  replace (v mod 2 ^ 64) with ((v - 2 ^ 64) mod 2 ^ 64); [lia|].
  replace v with ((v - 2 ^ 64) + 1 * 2 ^ 64) at 2 by lia. rewrite Z.mod_add by lia. reflexivity.
Qed.

Lemma read_runs (P : access -> Prop) h t r : rok r ->
  (ssize t <= region_len r -> P (Access Load t (from r) 1 (blen (mem r)))) ->
  runs P eq (r_read_scalar h t r) (read_scalar h t (contents r)).
Proof.
  intros K HP. unfold r_read_scalar, read_scalar.
  eapply runs_bind; [apply get_runs; [auto|lia]|]. intros p l ((Kp & Ec & Em & F & U) & E & L) _.
  subst p. cbn [mem from upto] in *. rewrite Z.add_0_r in *.
  unfold tbind, deref, tthen, quiet, did, result, runs. cbv zeta. cbn [fst snd app mem from]. split.
  - constructor; [apply HP; lia|constructor].
  - cbn. unfold contents in Ec. cbn [mem from upto] in Ec. rewrite Ec. reflexivity.
Qed.

Lemma read_at_runs (P : access -> Prop) h t r loc : rok r -> usize_ok loc ->
  (loc + ssize t <= region_len r -> P (Access Load t (from r + loc) 1 (blen (mem r)))) ->
  runs P eq (r_read_scalar_at h t r loc) (read_scalar_at h t (contents r) loc).
Proof.
  intros K Hl HP. unfold r_read_scalar_at, read_scalar_at. unfold usize_ok in Hl. pose proof (ssize_pos t). pose proof (ssize_le8 t).
  apply runs_let. intros e E. apply usize_wrap in E; [|lia].
  eapply runs_bind; [apply get_runs; [auto|lia]|]. intros p l ((Kp & Ec & Em & F & U) & -> & L) _.
  rewrite <- Ec. apply read_runs; [auto|]. cbn [from mem]. unfold region_len in *. cbn [from upto]. intros L2. apply HP. lia.
Qed.

(** Inside a range of the allocation. *)
Definition within (lo hi size : Z) (a : access) : Prop :=
  match a with
  | Access _ t at_ n room => (lo <= at_ /\ 0 <= n /\ at_ + n * ssize t <= hi) /\ room = size
  | Unwritten _ => False
  end.
Definition inside (r : region) : access -> Prop := within (from r) (upto r) (blen (mem r)).

Lemma read_at_inside h t r loc : rok r -> usize_ok loc ->
  runs (inside r) eq (r_read_scalar_at h t r loc) (read_scalar_at h t (contents r) loc).
Proof.
  intros K Hl. apply read_at_runs; auto. unfold inside, within, region_len, usize_ok in *. lia.
Qed.
Lemma read_part_inside h t r s l : part_of r s l ->
  runs (inside r) eq (r_read_scalar h t s) (read_scalar h t l).
Proof.
  intros (K & <- & E & F & U). apply read_runs; auto. rewrite E. unfold inside, within, region_len, rok in *. pose proof (ssize_pos t). lia.
Qed.

Ltac go_let := match goal with
  | |- runs _ _ (tbind (quiet _) _) (bind _ _) => apply runs_let; intros
  end.

Lemma read_at_value h t s loc v : read_scalar_at h t s loc = Val v -> exists x, blen x = ssize t /\ v = scalar_of t x.
Proof.
  unfold read_scalar_at. intros H. apply bind_Val in H as (e & _ & H). apply bind_Val in H as (l & _ & H).
  pose proof (safe_read_scalar h t l) as S. rewrite H in S. exact S.
Qed.
Lemma read_at_u32 h s loc v : read_scalar_at h TU32 s loc = Val v -> 0 <= v < 2 ^ 32.
Proof. intros H. apply read_at_value in H as (x & L & ->). apply (scalar_of_unsigned_range TU32); auto. Qed.
Lemma read_at_u16 h s loc v : read_scalar_at h TU16 s loc = Val v -> 0 <= v < 2 ^ 16.
Proof. intros H. apply read_at_value in H as (x & L & ->). apply (scalar_of_unsigned_range TU16); auto. Qed.

(** ** Slices of scalars, strings *)
Lemma raw_slice_runs h t r s l n : part_of r s l -> blen l = n * ssize t -> 0 <= n ->
  runs (inside r) eq (raw_slice h t s n) (Val (chunks h t (Z.to_nat n) l)).
Proof.
  intros (K & E & Em & F & U) L N. split; cbn.
  - constructor; [|constructor]. rewrite <- E, blen_contents in L by auto. unfold region_len in L. unfold inside, within. rewrite Em. lia.
  - rewrite <- E, blen_contents in L by auto. unfold region_len in L. rewrite <- E. unfold contents.
    replace (from s + n * ssize t) with (upto s) by lia. reflexivity.
Qed.

Lemma slice_helper_runs h t r loc : rok r -> usize_ok loc ->
  runs (inside r) eq (r_follow_slice_helper h t r loc) (follow_slice_helper h t (contents r) loc).
Proof.
  intros K Hl. unfold r_follow_slice_helper, follow_slice_helper. go_let.
  eapply runs_bind; [apply read_at_inside; auto|]. intros len ? <- E. apply read_at_u32 in E.
  apply runs_let. intros p Ep. apply usize_range in Ep.
  apply runs_let. intros m Em. pose proof (ssize_pos t). pose proof (ssize_le8 t).
  rewrite usize_arith_ok in Em by (split; [apply Z.mul_nonneg_nonneg; lia|nia]). injection Em as <-.
  apply runs_let. intros q Eq. unfold usize_ok in *. apply usize_wrap in Eq; [|nia].
  eapply runs_bind; [apply get_runs; [auto|lia]|]. intros s l (S & Es & L) _.
  apply raw_slice_runs; [exact S| |lia]. destruct S as (Ks & Ec & _). rewrite <- Ec, blen_contents by auto.
  subst s. unfold region_len. cbn [from upto]. nia.
Qed.

Lemma str_runs h r loc : rok r -> usize_ok loc ->
  runs (inside r) eq (r_follow_str h r loc) (follow_str h (contents r) loc).
Proof.
  intros K Hl. unfold r_follow_str, follow_str.
  eapply runs_bind; [apply read_at_inside; auto|]. intros len ? <- E.
  apply runs_let. intros st Es. apply usize_range in Es. apply runs_let. intros en Ee.
  rewrite blen_contents by auto. destruct (region_len r <=? en); [apply runs_quiet; reflexivity|].
  apply runs_let. intros z Ez. destruct (negb _); [apply runs_quiet; reflexivity|].
  eapply runs_bind; [apply index_runs; [auto|unfold usize_ok in *; lia]|]. intros s l ((_ & -> & _) & _) _.
  destruct (utf8_valid l); apply runs_quiet; reflexivity.
Qed.

Lemma i32_usize z : usize_ok (i32_as_usize z).
Proof. apply mod_usize_ok. Qed.

Ltac one := try unfold r_vt_num_bytes, vt_num_bytes; eapply runs_bind; [apply read_at_inside; auto|]; intros ? ? <- ?.
Lemma follow_runs h t : forall r loc, rok r -> usize_ok loc ->
  runs (inside r) eq (r_follow h t r loc) (follow h t (contents r) loc).
Proof.
  assert (R : forall {A} (a : A) P, runs P eq (quiet (Val a)) (Val a)) by (intros; apply runs_ret; reflexivity).
  induction t; intros r loc K Hl; cbn [r_follow follow]; try solve [apply R].
  - destruct t; one; apply R.
  - eapply runs_bind; [apply str_runs; auto|]. intros ? ? <- ?. apply R.
  - eapply runs_bind; [apply slice_helper_runs; auto|]. intros ? ? <- ?. apply R.
  - go_let. eapply runs_bind; [apply get_runs; [auto|unfold usize_ok in Hl; lia]|]. intros s l (S & _) _.
    eapply runs_bind; [eapply read_part_inside; eauto|]. intros ? ? <- ?. apply runs_let. intros q Q. apply usize_range in Q. auto.
  - go_let. eapply runs_bind; [apply get_runs; [auto|unfold usize_ok in Hl; lia]|]. intros s l (S & _) _.
    eapply runs_bind; [eapply read_part_inside; eauto|]. intros ? ? <- ?. apply runs_let. intros q Q. apply usize_range in Q. auto.
  - go_let. eapply runs_bind; [apply get_runs; [auto|unfold usize_ok in Hl; lia]|]. intros s l (S & _) _.
    eapply runs_bind; [eapply read_part_inside; eauto|]. intros ? ? <- ?. go_let. apply IHt; auto using i32_usize.
  - apply runs_let. intros q Q. apply usize_range in Q. auto.
  - apply runs_let. intros q Q. apply usize_range in Q. auto.
  - apply runs_let. intros q Q. apply usize_range in Q. auto.
  - go_let. eapply runs_bind; [apply get_runs; [auto|unfold usize_ok in Hl; lia]|]. intros s l ((_ & -> & _) & _) _. apply R.
  - one. destruct (existsb _ _); apply runs_quiet; reflexivity.
Qed.

(** ** VTables, tables, vectors *)
Lemma num_fields_runs h r vt : rok r -> usize_ok vt ->
  runs (inside r) eq (r_vt_num_fields h r vt) (vt_num_fields h (contents r) vt).
Proof. intros K V. unfold r_vt_num_fields, vt_num_fields. one. apply runs_same. Qed.
Lemma object_runs h r vt : rok r -> usize_ok vt ->
  runs (inside r) eq (r_vt_object_inline_num_bytes h r vt) (vt_object_inline_num_bytes h (contents r) vt).
Proof. intros K V. unfold r_vt_object_inline_num_bytes, vt_object_inline_num_bytes. apply runs_let. intros l L. apply usize_range in L. apply read_at_inside; auto. Qed.
Lemma get_field_runs h r vt idx : rok r -> usize_ok vt ->
  runs (inside r) eq (r_vt_get_field h r vt idx) (vt_get_field h (contents r) vt idx).
Proof.
  intros K V. unfold r_vt_get_field, vt_get_field. eapply runs_bind; [apply num_fields_runs; auto|]. intros n ? <- _.
  destruct (n <? idx); [apply runs_same|]. do 3 go_let. apply runs_let. intros l L. apply usize_range in L. one. apply runs_same.
Qed.
Lemma vt_get_runs h r vt slot : rok r -> usize_ok vt ->
  runs (inside r) eq (r_vt_get h r vt slot) (vt_get h (contents r) vt slot).
Proof.
  intros K V. unfold r_vt_get, vt_get. one. destruct (_ <=? slot); [apply runs_same|].
  apply runs_let. intros l L. apply usize_range in L. one. apply runs_same.
Qed.
Lemma as_bytes_runs h r vt : rok r -> usize_ok vt ->
  runs (inside r) (part_of r) (r_vt_as_bytes h r vt) (vt_as_bytes h (contents r) vt).
Proof.
  intros K V. unfold r_vt_as_bytes, vt_as_bytes. one. go_let.
  eapply (runs_weaken (inside r) _ _ _ _ _ (fun a H => H)); [|apply get_runs; [auto|unfold usize_ok in V; lia]]. intros s l (S & _). exact S.
Qed.
Lemma table_vtable_runs h r tab : rok r -> usize_ok tab ->
  runs (inside r) eq (r_table_vtable h r tab) (table_vtable h (contents r) tab).
Proof. intros K V. unfold r_table_vtable, table_vtable. eapply runs_bind; [apply follow_runs; auto|]. intros v ? <- _. apply runs_same. Qed.
Lemma table_vtable_usize h s tab vt : table_vtable h s tab = Val vt -> usize_ok vt.
Proof.
  unfold table_vtable. intros H. apply bind_Val in H as (v & F & H). cbn [follow] in F.
  repeat (apply bind_Val in F as (? & _ & F)). injection F as <-. injection H as <-. apply i32_usize.
Qed.
Lemma table_get_runs h r tab slot t d : rok r -> usize_ok tab ->
  runs (inside r) eq (r_table_get h r tab slot t d) (table_get h (contents r) tab slot t d).
Proof.
  intros K V. unfold r_table_get, table_get. eapply runs_bind; [apply table_vtable_runs; auto|]. intros vt ? <- E.
  apply table_vtable_usize in E. eapply runs_bind; [apply vt_get_runs; auto|]. intros vo ? <- _.
  destruct vo as [off|]; [|apply runs_same]. destruct (off =? 0); [apply runs_same|].
  apply runs_let. intros l L. apply usize_range in L. eapply runs_bind; [apply follow_runs; auto|]. intros ? ? <- _. apply runs_same.
Qed.
Lemma zero_usize : usize_ok 0. Proof. unfold usize_ok. lia. Qed.
Lemma ident_runs h r i sp : rok r ->
  runs (inside r) eq (r_buffer_has_identifier h r i sp) (buffer_has_identifier h (contents r) i sp).
Proof.
  intros K. unfold r_buffer_has_identifier, buffer_has_identifier. go_let.
  eapply runs_bind; [apply follow_runs; auto using zero_usize|]. intros g ? <- _. apply runs_same.
Qed.
Lemma vec_get_runs h t r v idx : rok r -> usize_ok v ->
  runs (inside r) eq (r_vec_get h t r v idx) (vec_get h t (contents r) v idx).
Proof.
  intros K V. unfold r_vec_get, vec_get. eapply runs_bind with (R := eq).
  { destruct (debug h); [|apply runs_same]. one. apply runs_same. }
  intros _ _ _ _. do 3 go_let. apply runs_let. intros l L. apply usize_range in L. apply follow_runs; auto.
Qed.
Lemma vec_iter_runs h r v : rok r -> usize_ok v ->
  runs (inside r) eq (r_vec_iter h r v) (vec_iter h (contents r) v).
Proof.
  intros K V. unfold r_vec_iter, vec_iter. eapply runs_bind with (R := eq).
  { apply (runs_then (inside r) eq eq _ _ _ (fun o => match o with Val a => Val a | Err _ => Val 0 | Panic => Panic end) (read_at_inside h TU32 r v K V)).
    intros u w S _. destruct u, w; cbn in S; try contradiction; subst; apply runs_same. }
  intros len ? <- _. go_let. apply runs_same.
Qed.
Lemma iter_next_runs h t r it : rok r -> usize_ok (it_loc it) ->
  runs (inside r) eq (r_iter_next h t r it) (iter_next h t (contents r) it).
Proof.
  intros K V. unfold r_iter_next, iter_next. go_let. destruct (_ =? 0); [apply runs_same|].
  match goal with |- runs _ _ (tthen _ ?f) ?g =>
    apply (runs_then (inside r) eq eq _ _ f (fun o => match o with Panic => Panic
      | Val a => let* l := usize_arith h (it_loc it + size_of t) in let* n := usize_arith h (it_remaining it - 1) in Val (Some (Val a), VIter l n)
      | Err e => let* l := usize_arith h (it_loc it + size_of t) in let* n := usize_arith h (it_remaining it - 1) in Val (Some (Err e), VIter l n) end)
        (follow_runs h t r _ K V)) end.
  intros u w S _. destruct u, w; cbn in S; try contradiction; subst; try apply runs_same; do 2 go_let; apply runs_same.
Qed.
Lemma iter_back_runs h t r it : rok r ->
  runs (inside r) eq (r_iter_next_back h t r it) (iter_next_back h t (contents r) it).
Proof.
  intros K. unfold r_iter_next_back, iter_next_back. go_let. destruct (_ =? 0); [apply runs_same|].
  apply runs_let. intros n N. go_let. apply runs_let. intros l L. apply usize_range in L.
  match goal with |- runs _ _ (tthen _ ?f) ?g =>
    apply (runs_then (inside r) eq eq _ _ f (fun o => match o with Panic => Panic | Val a => Val (Some (Val a), VIter (it_loc it) n) | Err e => Val (Some (Err e), VIter (it_loc it) n) end)
        (follow_runs h t r _ K L)) end.
  intros u w S _. destruct u, w; cbn in S; try contradiction; subst; apply runs_same.
Qed.
Lemma iter_call_runs h t r c it : rok r -> usize_ok (it_loc it) ->
  runs (inside r) eq (r_iter_call h t r c it) (iter_call h t (contents r) c it).
Proof.
  intros K V. destruct c; cbn [r_iter_call iter_call].
  - apply iter_next_runs; auto.
  - apply iter_back_runs; auto.
  - unfold r_iter_nth, iter_nth. do 2 go_let. apply iter_next_runs; auto. apply mod_usize_ok.
  - unfold r_iter_nth_back, iter_nth_back. apply iter_back_runs; auto.
Qed.
Lemma iter_call_loc h t s c it x it' : usize_ok (it_loc it) -> iter_call h t s c it = Val (x, it') -> usize_ok (it_loc it').
Proof.
  assert (N : forall it x it', usize_ok (it_loc it) -> iter_next h t s it = Val (x, it') -> usize_ok (it_loc it')).
  { clear. intros it x it' V E. unfold iter_next in E. apply bind_Val in E as (? & _ & E). destruct (_ =? 0); [congruence|].
    destruct (follow _ _ _ _); try discriminate; apply bind_Val in E as (l & L & E); apply bind_Val in E as (? & _ & E);
      apply usize_range in L; injection E as <- <-; exact L. }
  assert (B : forall it x it', usize_ok (it_loc it) -> iter_next_back h t s it = Val (x, it') -> usize_ok (it_loc it')).
  { clear. intros it x it' V E. unfold iter_next_back in E. apply bind_Val in E as (? & _ & E). destruct (_ =? 0); [congruence|].
    do 3 apply bind_Val in E as (? & _ & E). destruct (follow _ _ _ _); try discriminate; injection E as <- <-; exact V. }
  intros V E. destruct c; cbn [iter_call] in E; eauto.
  - unfold iter_nth in E. do 2 apply bind_Val in E as (? & _ & E). eapply N; [|exact E]. apply mod_usize_ok.
  - unfold iter_nth_back in E. eapply B; [|exact E]. exact V.
Qed.
Lemma iter_calls_runs h t r cs : forall it, rok r -> usize_ok (it_loc it) ->
  runs (inside r) eq (r_iter_calls h t r cs it) (iter_calls h t (contents r) cs it).
Proof.
  induction cs as [|c cs IH]; intros it K V; cbn [r_iter_calls iter_calls]; [apply runs_same|].
  eapply runs_bind; [apply iter_call_runs; auto|]. intros [x i1] ? <- E. apply iter_call_loc in E; [|exact V].
  eapply runs_bind; [apply IH; auto|]. intros [xs i2] ? <- _. apply runs_same.
Qed.

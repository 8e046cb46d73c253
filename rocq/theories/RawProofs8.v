(** Generated accessors: what they access, and aligned reads of what was built. *)
From Coq Require Import ZArith List Bool Lia Strings.Byte ZifyBool ZifyNat ZifyN.
From Verif Require Import Base Scalar Utf8 Reader Client Raw Builder Ops SpecRaw SpecWire WireFacts SpecReader SpecBuilder BaseFacts ScalarFacts ReaderFacts
  ReaderProofs ReaderProofs3 Abstract Refine Refine2 Build1 Build3 Build5 Build6 Build7 Build8 BuilderProofs1 BuilderProofs2 BuilderProofs3 BuilderProofs5 GrowthProofs RawProofs1 RawProofs3 RawProofs4
  Schema Codegen RawGen.
Import ListNotations.
Local Open Scope Z_scope.

Lemma gen_get_runs h r tab g : rok r -> usize_ok tab -> runs (inside r) eq (r_gen_get h r tab g) (gen_get h (contents r) tab g).
Proof.
  intros K V. unfold r_gen_get, gen_get. destruct (g_kind g) as [t d|t vs d|t|tslot tb tvs td arms].
  1-3: eapply runs_bind; [apply table_get_runs; auto|]; intros v ? <- _; go_let; apply runs_same.
  eapply runs_bind; [apply table_get_runs; auto|]. intros v ? <- _. apply runs_let. intros ty _.
  destruct ty as [[]|]; try apply runs_same. destruct (find_arm _ _); [|apply runs_same].
  eapply runs_bind; [apply table_get_runs; auto|]. intros w ? <- _. go_let. apply runs_same.
Qed.
Lemma gen_get_same h r tab g : is_slice r -> usize_ok tab -> result (r_gen_get h r tab g) = gen_get h (contents r) tab g.
Proof. intros K V. eapply runs_eq. apply gen_get_runs; auto. Qed.
Lemma gen_get_in_part h r tab g : is_slice r -> usize_ok tab ->
  Forall (fun a => in_bounds a /\ in_part (from r) (upto r) a) (did (r_gen_get h r tab g)).
Proof.
  intros K V. eapply Forall_impl; [|exact (runs_did _ _ _ _ (gen_get_runs h r tab g K V))].
  intros [k t a n room|i] I; cbn in *; [|contradiction]. destruct K. lia.
Qed.

(** ** Single reads *)
Lemma aligned_load k t at_ n room : at_ mod ssize t = 0 -> aligned (Access k t at_ n room).
Proof.
  intros M base B. cbn [aligned_at].
  assert (X : base mod ssize t = 0).
  { destruct (ssize_cases t) as [E|[E|[E|E]]]; rewrite E; [apply Z.mod_1_r| | |exact B]; apply Z.mod_divide; try lia;
      apply Z.mod_divide in B; try lia; destruct B as (q & ->); [exists (q * 4)|exists (q * 2)]; lia. }
  pose proof (ssize_pos t). rewrite Z.add_mod, X, M by lia. apply Z.mod_0_l. lia.
Qed.

Section Al.
Context (hr : host) (D : list byte) (LD : blen D < 2 ^ 31).
Local Notation W := (whole_of D).

Lemma al_read t loc : usize_ok loc -> loc mod ssize t = 0 ->
  runs aligned eq (r_read_scalar_at hr t W loc) (read_scalar_at hr t D loc).
Proof.
  intros U M. rewrite <- (contents_whole D) at 2. apply read_at_runs; [apply whole_of_ok|exact U|].
  intros _. apply aligned_load. exact M.
Qed.
Lemma al_scalar t loc : usize_ok loc -> loc mod ssize t = 0 -> runs aligned eq (r_follow hr (FScalar t) W loc) (follow hr (FScalar t) D loc).
Proof.
  intros U M. cbn [r_follow follow]. destruct t; (eapply runs_bind; [apply al_read; auto|intros ? ? <- _; apply runs_same]).
Qed.
Lemma al_enum t al loc : usize_ok loc -> loc mod ssize t = 0 -> runs aligned eq (r_follow hr (FEnum t al) W loc) (follow hr (FEnum t al) D loc).
Proof. intros U M. cbn [r_follow follow]. eapply runs_bind; [apply al_read; auto|intros ? ? <- _]. apply runs_same. Qed.
Lemma al_str loc : usize_ok loc -> loc mod 4 = 0 -> runs aligned eq (r_follow hr FStr W loc) (follow hr FStr D loc).
Proof.
  intros U M. cbn [r_follow follow]. eapply runs_bind with (R := eq); [|intros ? ? <- _; apply runs_same].
  unfold r_follow_str, follow_str. eapply runs_bind; [apply al_read; auto|]. intros len ? <- E.
  apply runs_let. intros st Es. apply usize_range in Es. apply runs_let. intros en Ee.
  replace (region_len W) with (blen D) by (unfold region_len; cbn; lia). rewrite contents_whole.
  destruct (_ <=? en); [apply runs_quiet; reflexivity|].
  apply runs_let. intros z Ez. destruct (negb _); [apply runs_quiet; reflexivity|].
  rewrite <- (contents_whole D) at 2.
  eapply runs_bind; [apply index_runs; [apply whole_of_ok|unfold usize_ok in *; lia]|]. intros s l ((_ & -> & _) & _) _.
  destruct (utf8_valid l); apply runs_quiet; reflexivity.
Qed.
(** A reference, by where it leads. *)
Lemma al_ref u loc : usize_ok loc -> loc mod 4 = 0 ->
  (forall l, usize_ok l -> follow hr (FUOffset FTable) D loc = Val (VTable l) -> runs aligned eq (r_follow hr u W l) (follow hr u D l)) ->
  runs aligned eq (r_follow hr (FUOffset u) W loc) (follow hr (FUOffset u) D loc).
Proof.
  intros U M K. cbn [r_follow follow] in *. apply runs_let. intros e E. rewrite E in K. cbn [bind] in K.
  rewrite <- (contents_whole D) at 2.
  eapply runs_bind; [apply get_runs; [apply whole_of_ok|unfold usize_ok in U; lia]|]. intros s l (S & Es & _) Gs.
  rewrite contents_whole in Gs. rewrite Gs in K. cbn [bind] in K.
  destruct S as (Ks & <- & Em & _). eapply runs_bind.
  - apply read_runs; [exact Ks|]. intros _. apply aligned_load. subst s. exact M.
  - intros off ? <- R. rewrite R in K. cbn [bind] in K. apply runs_let. intros q Q. rewrite Q in K. cbn [bind] in K.
    apply usize_range in Q. rewrite ?contents_whole. apply K; [exact Q|reflexivity].
Qed.

(** ** Tables *)
Lemma al_vtable tab : usize_ok tab -> tab mod 4 = 0 -> runs aligned eq (r_table_vtable hr W tab) (table_vtable hr D tab).
Proof.
  intros U M. unfold r_table_vtable, table_vtable. eapply runs_bind with (R := eq); [|intros ? ? <- _; apply runs_same].
  cbn [r_follow follow]. apply runs_let. intros e E. rewrite <- (contents_whole D) at 2.
  eapply runs_bind; [apply get_runs; [apply whole_of_ok|unfold usize_ok in U; lia]|]. intros s l (S & Es & _) _.
  destruct S as (Ks & <- & Em & _). eapply runs_bind.
  - apply read_runs; [exact Ks|]. intros _. apply aligned_load. subst s. exact M.
  - intros off ? <- _. go_let. apply runs_same.
Qed.
Lemma even_sum h a b l : a mod 2 = 0 -> b mod 2 = 0 -> usize_arith h (a + b) = Val l -> l mod 2 = 0.
Proof.
  intros A B E. assert (X : (a + b) mod 2 = 0) by (rewrite Z.add_mod, A, B by lia; reflexivity).
  unfold usize_arith, unsigned_arith in E. destruct (_ && _); [congruence|]. destruct (debug h); [discriminate E|]. injection E as <-.
  rewrite <- (Znumtheory.Zmod_div_mod 2 _ (a + b)); [exact X|lia|lia|exists (2 ^ 63); reflexivity].
Qed.
Lemma al_vt_get vt slot : usize_ok vt -> vt mod 2 = 0 -> slot mod 2 = 0 -> runs aligned eq (r_vt_get hr W vt slot) (vt_get hr D vt slot).
Proof.
  intros U M S. unfold r_vt_get, vt_get, r_vt_num_bytes, vt_num_bytes. eapply runs_bind; [apply al_read; auto|]. intros n ? <- _.
  destruct (n <=? slot); [apply runs_same|]. apply runs_let. intros l L. eapply runs_bind with (R := eq); [|intros ? ? <- _; apply runs_same].
  apply al_read; [eapply usize_range; eauto|]. exact (even_sum _ _ _ _ M S L).
Qed.
Lemma vt_get_u16 vt slot e : vt_get hr D vt slot = Val (Some e) -> 0 <= e < 2 ^ 16.
Proof.
  unfold vt_get. intros H. apply bind_Val in H as (n & _ & H). destruct (_ <=? _); [discriminate H|].
  apply bind_Val in H as (l & _ & H). apply bind_Val in H as (v & R & H). injection H as <-. eapply read_at_u16; eauto.
Qed.
Lemma al_table_get tab slot t d vt : 0 <= tab < 2 ^ 31 -> tab mod 4 = 0 -> table_vtable hr D tab = Val vt -> vt mod 2 = 0 -> slot mod 2 = 0 ->
  (forall e, vt_get hr D vt slot = Val (Some e) -> e <> 0 -> usize_ok (tab + e) ->
     runs aligned eq (r_follow hr t W (tab + e)) (follow hr t D (tab + e))) ->
  runs aligned eq (r_table_get hr W tab slot t d) (table_get hr D tab slot t d).
Proof.
  intros U M Vt Ve Sl K. unfold r_table_get, table_get. assert (Ut : usize_ok tab) by (unfold usize_ok; lia).
  eapply runs_bind; [apply al_vtable; auto|]. intros v ? <- E. assert (v = vt) by congruence. subst v.
  pose proof (table_vtable_usize _ _ _ _ E) as Uv. eapply runs_bind; [apply al_vt_get; auto|]. intros vo ? <- G.
  destruct vo as [e|]; [|apply runs_same]. destruct (e =? 0) eqn:Z; [apply runs_same|]. pose proof (vt_get_u16 _ _ _ G) as R.
  assert (Ue : usize_ok (tab + e)) by (unfold usize_ok; lia).
  rewrite usize_arith_ok by (unfold usize_ok in Ue; lia). apply runs_let. intros l Ll. injection Ll as <-.
  eapply runs_bind; [apply K; auto; lia|]. intros ? ? <- _. apply runs_same.
Qed.

(** ** Vectors *)
Section Vec.
Context (e : fty) (loc n : Z) (Ul : 0 <= loc < 2 ^ 31) (Ml : loc mod 4 = 0) (Le : le_at D loc 4 n) (Se : 0 < size_of e).
Context (cell : forall i, 0 <= i < n -> runs aligned eq (r_follow hr e W (loc + 4 + size_of e * i)) (follow hr e D (loc + 4 + size_of e * i))).

Lemma al_len : runs aligned eq (r_vec_len hr W loc) (vec_len hr D loc).
Proof. apply al_read; [unfold usize_ok; lia|exact Ml]. Qed.
Lemma n_range : 0 <= n < 2 ^ 32 /\ read_scalar_at hr TU32 D loc = Val n.
Proof. destruct (u32_read hr _ _ _ Le ltac:(lia)) as (A & B & _). split; [exact B|exact A]. Qed.
Lemma al_vec_get i : 0 <= i < n -> runs aligned eq (r_vec_get hr e W loc i) (vec_get hr e D loc i).
Proof.
  intros I. destruct n_range as [N R]. pose proof (size_of_le e) as Sl. unfold r_vec_get, vec_get. eapply runs_bind with (R := eq).
  { destruct (debug hr); [|apply runs_same]. eapply runs_bind; [apply al_read; [unfold usize_ok; lia|exact Ml]|]. intros m ? <- _. apply runs_same. }
  intros _ _ _ _. apply runs_let. intros _ _. unfold SIZE_UOFFSET. rewrite usize_arith_ok by lia.
  apply runs_let. intros a Ea. injection Ea as <-. rewrite usize_arith_ok by nia. apply runs_let. intros m Em. injection Em as <-.
  rewrite usize_arith_ok by nia. apply runs_let. intros l El. injection El as <-. apply cell. exact I.
Qed.
(** Iterators stay on elements. *)
Definition on_cells (it : viter) : Prop :=
  0 <= it_remaining it < 2 ^ 32 /\
  (it_remaining it = 0 \/ exists i, 0 <= i /\ it_loc it = loc + 4 + size_of e * i /\ i + it_remaining it <= n).
Lemma al_next it : on_cells it -> runs aligned eq (r_iter_next hr e W it) (iter_next hr e D it) /\
  forall x it', iter_next hr e D it = Val (x, it') -> on_cells it'.
Proof.
  intros [R O]. destruct n_range as [N _]. pose proof (size_of_le e) as Sl. unfold r_iter_next, iter_next. split.
  - apply runs_let. intros _ _. destruct (it_remaining it =? 0) eqn:Z; [apply runs_same|].
    destruct O as [O|(i & I & E & B)]; [lia|]. 
    match goal with |- runs _ _ (tthen _ ?f) ?g =>
      apply (runs_then aligned eq eq _ _ f (fun o => match o with Panic => Panic
        | Val a => let* l := usize_arith hr (it_loc it + size_of e) in let* n := usize_arith hr (it_remaining it - 1) in Val (Some (Val a), VIter l n)
        | Err e0 => let* l := usize_arith hr (it_loc it + size_of e) in let* n := usize_arith hr (it_remaining it - 1) in Val (Some (Err e0), VIter l n) end)) end.
    + rewrite E. apply cell. lia.
    + intros u w S _. destruct u, w; cbn in S; try contradiction; subst; try apply runs_same; do 2 go_let; apply runs_same.
  - intros x it' H. apply bind_Val in H as (? & _ & H). destruct (it_remaining it =? 0) eqn:Z; [assert (it' = it) by congruence; subst; split; auto|].
    destruct O as [O|(i & I & E & B)]; [lia|].
    assert (X : it' = VIter (it_loc it + size_of e) (it_remaining it - 1)).
    { rewrite !usize_arith_ok in H by nia. destruct (follow _ _ _ _); cbn [bind] in H; congruence. }
    subst it'. unfold on_cells. cbn [it_remaining it_loc]. split; [lia|]. right. exists (i + 1). rewrite E. nia.
Qed.
Lemma al_back it : on_cells it -> runs aligned eq (r_iter_next_back hr e W it) (iter_next_back hr e D it) /\
  forall x it', iter_next_back hr e D it = Val (x, it') -> on_cells it'.
Proof.
  intros [R O]. destruct n_range as [N _]. pose proof (size_of_le e) as Sl. unfold r_iter_next_back, iter_next_back. split.
  - apply runs_let. intros _ _. destruct (it_remaining it =? 0) eqn:Z; [apply runs_same|].
    destruct O as [O|(i & I & E & B)]; [lia|]. rewrite usize_arith_ok by lia.
    apply runs_let. intros m Em. injection Em as <-. rewrite usize_arith_ok by nia. apply runs_let. intros m Em. injection Em as <-.
    rewrite usize_arith_ok by nia. apply runs_let. intros l El. injection El as <-.
    match goal with |- runs _ _ (tthen _ ?f) ?g =>
      apply (runs_then aligned eq eq _ _ f (fun o => match o with Panic => Panic | Val a => Val (Some (Val a), VIter (it_loc it) (it_remaining it - 1))
        | Err e0 => Val (Some (Err e0), VIter (it_loc it) (it_remaining it - 1)) end)) end.
    + rewrite E. replace (loc + 4 + size_of e * i + size_of e * (it_remaining it - 1)) with (loc + 4 + size_of e * (i + (it_remaining it - 1))) by ring.
      apply cell. lia.
    + intros u w S _. destruct u, w; cbn in S; try contradiction; subst; apply runs_same.
  - intros x it' H. apply bind_Val in H as (? & _ & H). destruct (it_remaining it =? 0) eqn:Z; [assert (it' = it) by congruence; subst; split; auto|].
    destruct O as [O|(i & I & E & B)]; [lia|]. rewrite usize_arith_ok in H by lia. cbn [bind] in H.
    apply bind_Val in H as (m & _ & H). apply bind_Val in H as (l & _ & H).
    assert (X : it' = VIter (it_loc it) (it_remaining it - 1)) by (destruct (follow _ _ _ _); congruence).
    subst it'. unfold on_cells. cbn [it_remaining it_loc]. split; [lia|]. right. exists i. rewrite E. lia.
Qed.
Lemma al_call c it : itcall_ok c -> on_cells it -> runs aligned eq (r_iter_call hr e W c it) (iter_call hr e D c it) /\
  forall x it', iter_call hr e D c it = Val (x, it') -> on_cells it'.
Proof.
  intros Oc O. pose proof (size_of_le e) as Sl. destruct n_range as [N _]. destruct c as [| |m|m]; cbn [r_iter_call iter_call itcall_ok] in *.
  - apply al_next. exact O.
  - apply al_back. exact O.
  - unfold r_iter_nth, iter_nth.
    assert (K : forall k, usize_arith hr (size_of e * m) = Val k -> on_cells (VIter ((it_loc it + k) mod 2 ^ 64) (Z.max 0 (it_remaining it - m)))).
    { intros k Ek. destruct O as [R O]. unfold on_cells, usize_ok in *. cbn [it_remaining it_loc]. split; [lia|].
      destruct (Z.le_gt_cases (it_remaining it) m) as [G|G]; [left; lia|]. right.
      destruct O as [O|(i & I & E & B)]; [lia|]. rewrite usize_arith_ok in Ek by nia. injection Ek as <-.
      exists (i + m). rewrite E, Z.mod_small by nia. split; [lia|]. split; [ring|lia]. }
    split.
    + apply runs_let. intros _ _. apply runs_let. intros k Ek. apply al_next. auto.
    + intros x it' H. apply bind_Val in H as (? & _ & H). apply bind_Val in H as (k & Ek & H). destruct (al_next _ (K _ Ek)) as [_ X]. eauto.
  - unfold r_iter_nth_back, iter_nth_back. apply al_back. destruct O as [R O]. unfold on_cells, usize_ok in *. cbn [it_remaining it_loc].
    split; [lia|]. destruct O as [O|(i & I & E & B)]; [left; lia|]. destruct (Z.le_gt_cases (it_remaining it) m) as [G|G]; [left; lia|].
    right. exists i. split; [lia|]. split; [exact E|lia].
Qed.
Lemma al_calls cs : forall it, Forall itcall_ok cs -> on_cells it -> runs aligned eq (r_iter_calls hr e W cs it) (iter_calls hr e D cs it).
Proof.
  induction cs as [|c cs IH]; intros it F O; cbn [r_iter_calls iter_calls]; [apply runs_same|]. inversion F; subst.
  destruct (al_call c it) as [A B]; auto. eapply runs_bind; [exact A|]. intros [x i1] ? <- E. specialize (B _ _ E).
  eapply runs_bind; [apply IH; auto|]. intros [xs i2] ? <- _. apply runs_same.
Qed.
Lemma al_iter cs : Forall itcall_ok cs ->
  Forall aligned (did (let+ it := r_vec_iter hr W loc in r_iter_calls hr e W cs it)).
Proof.
  intros F. destruct n_range as [N R]. apply (runs_did aligned eq _ (let* it := vec_iter hr D loc in iter_calls hr e D cs it)).
  assert (V : runs aligned eq (r_vec_iter hr W loc) (vec_iter hr D loc)).
  { unfold r_vec_iter, vec_iter. eapply runs_bind with (R := eq).
    - apply (runs_then aligned eq eq _ _ _ (fun o => match o with Val a => Val a | Err _ => Val 0 | Panic => Panic end) al_len).
      intros u w S _. destruct u, w; cbn in S; try contradiction; subst; apply runs_same.
    - intros len ? <- _. go_let. apply runs_same. }
  eapply runs_bind; [exact V|]. intros it ? <- E. apply al_calls; [exact F|].
  unfold vec_iter, vec_len in E. rewrite R in E. unfold SIZE_UOFFSET in E. cbn [bind] in E. rewrite usize_arith_ok in E by lia.
  cbn [bind] in E. injection E as <-. unfold on_cells. cbn [it_remaining it_loc]. split; [lia|]. right. exists 0. lia.
Qed.
Lemma al_slice t : e = FScalar t -> (loc + 4) mod ssize t = 0 -> Forall aligned (did (r_follow_slice_helper hr t W loc)).
Proof.
  intros Ee M. destruct n_range as [N R]. pose proof (ssize_pos t). pose proof (ssize_le8 t). apply (runs_did aligned eq _ (follow_slice_helper hr t D loc)).
  unfold r_follow_slice_helper, follow_slice_helper. go_let.
  eapply runs_bind; [apply al_read; [unfold usize_ok; lia|exact Ml]|]. intros len ? <- E. assert (len = n) by congruence. subst len.
  unfold SIZE_UOFFSET. rewrite usize_arith_ok by lia. apply runs_let. intros p Ep. injection Ep as <-.
  rewrite usize_arith_ok by nia. apply runs_let. intros m Em. injection Em as <-. rewrite usize_arith_ok by nia. apply runs_let. intros q Eq. injection Eq as <-.
  rewrite <- (contents_whole D) at 2. eapply runs_bind; [apply get_runs; [apply whole_of_ok|lia]|]. intros s l (S & Es & L) _.
  split.
  - constructor; [|constructor]. apply aligned_load. subst s. exact M.
  - pose proof (raw_slice_runs hr t W s l n S) as X. destruct X as [_ X]; [|lia|exact X].
    destruct S as (Ks & Ec & _). rewrite <- Ec, blen_contents by auto. subst s. unfold region_len. cbn [from upto]. nia.
Qed.
End Vec.
End Al.

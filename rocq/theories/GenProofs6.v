(** Documents can always be written. *)
From Coq Require Import ZArith List Bool Lia Strings.Byte ZifyBool ZifyNat ZifyN.
From Verif Require Import Base Scalar Reader Builder Ops SpecBuilder Abstract BaseFacts ScalarFacts ReaderFacts
  Refine Refine2 Build1 Build2 Build3 Build4 Build5 Build6 Build7 Build8 Build10 Build11
  BuilderProofs1 BuilderProofs2 BuilderProofs3 BuilderProofs4
  Schema Codegen SpecGen GenProofs1 GenProofs2 GenProofs3 GenProofs4 GenProofs5.
Import ListNotations.
Local Open Scope Z_scope.

Lemma string_fwd h b s : inv b -> nested b = false -> blen s + 1 <= 2 ^ 31 -> blen (unfinished_data b) + blen s + 100 <= 2 ^ 61 ->
  exists b' o, create_string h b s = Val (b', o) /\ nested b' = false /\
    blen (unfinished_data b') <= blen (unfinished_data b) + blen s + 8.
Proof.
  intros I N Ls L. pose proof (blen_nonneg s) as Bs. pose proof (blen_nonneg (unfinished_data b)) as Bd.
  assert (exists r, a_create_string true h (view b) s = Val r) as ([a' o] & E).
  { unfold a_create_string, a_create_byte_string. cbn [view a_nested]. rewrite N. cbn [negb].
    rewrite debug_assert_true by reflexivity. cbn [bind]. rewrite usize_arith_ok by (clear - Bs Ls; lia). cbn [bind].
    rewrite a_pad_fwd; [|exact pow8_4|clear - Bs; lia|cbn [view a_data]; clear - L; lia]. cbn [bind].
    pose proof (gap_range (a_data (view b)) (blen s + 1) 4 pow8_4) as G. unfold SIZE_UOFFSET in *.
    set (a1 := with_data _ _).
    assert (B1 : blen (a_data a1) <= blen (unfinished_data b) + 4).
    { unfold a1. cbn [with_data a_data]. rewrite blen_app, blen_zeros. cbn [view a_data] in *. clear - G. lia. }
    rewrite a_push_fwd; [|reflexivity|exact Logic.I|clear - B1 L Bs; lia]. cbn [bind].
    pose proof (blen_pushed_le a1 (PScalar TU8 0)) as P1. unfold a_bytes. rewrite room_fwd; [|clear - Ls; lia|clear - B1 P1 L Bs; lia]. cbn [bind].
    rewrite a_push_fwd; [cbn [bind]; eauto| |exact Logic.I|].
    - cbn [pval_ok valid_scalar signed ssize]. unfold as_u32. pose proof (Z.mod_pos_bound (blen s) (2 ^ 32) ltac:(lia)) as Q. clear - Q. lia.
    - cbn [with_data a_data]. rewrite blen_app. clear - B1 P1 L. lia. }
  assert (Ok : op_ok (OpCreateString s) = true) by (cbn [op_ok]; clear - Ls; lia).
  assert (S : a_step true h (view b) (OpCreateString s) = Val (a', ONum o)) by (cbn [a_step]; unfold a_num; rewrite E; reflexivity).
  destruct (strict_step _ _ _ _ _ I Ok S) as (b' & T & I' & E').
  cbn [step] in T. unfold with_num in T. apply bind_Val in T as ([q1 q2] & T & Q).
  exists q1, q2. split; [exact T|]. assert (q1 = b') by congruence. subst q1.
  apply a_create_string_val, a_create_byte_string_val in E as (Ea & _).
  change (nested b') with (a_nested (view b')). change (unfinished_data b') with (a_data (view b')). rewrite E', Ea. split; [exact N|].
  cbn [with_data a_data view]. rewrite !blen_app, blen_zeros. unfold string_bytes. rewrite !blen_app, blen_wire. cbn [ssize].
  pose proof (gap_range (unfinished_data b) (blen s + 1) 4 pow8_4) as G. change (blen [x00]) with 1. clear - G. lia.
Qed.

Lemma vector_fwd h b t items : inv b -> nested b = false -> forallb (fun x => pval_ok x && pty_eqb (pty_of x) t) items = true ->
  (forall o, In (POffset o) items -> debug h = false \/ o <= blen (unfinished_data b)) ->
  blen (unfinished_data b) + 16 * blen items + 100 <= 2 ^ 61 ->
  exists b' o, create_vector h b (pty_size t) (pty_align t) items = Val (b', o) /\ nested b' = false /\
    blen (unfinished_data b') <= blen (unfinished_data b) + pty_size t * blen items + 11.
Proof.
  intros I N F R L. pose proof (blen_nonneg items) as Bi. pose proof (blen_nonneg (unfinished_data b)) as Bd.
  assert (Sz : 0 < pty_size t <= 8) by (destruct t as [[]|]; cbn; clear; lia).
  assert (Ft : Forall (of_type t) items /\ forallb pval_ok items = true).
  { clear - F. induction items as [|x l IH]; [split; [constructor|reflexivity]|]. cbn [forallb] in *. repeat rewrite andb_true_iff in F.
    destruct F as [[F1 F2] F3]. destruct (IH F3) as [A B]. split; [|rewrite F1; exact B]. constructor; auto.
    clear - F2. unfold of_type. destruct x as [[]|]; destruct t as [[]|]; cbn in *; try discriminate; reflexivity. }
  destruct Ft as [Ft Fo].
  pose proof (a_create_vector_fwd h t (view b) items Fo Ft) as E. cbv zeta in E.
  assert (Rd : Forall (fun x => ready h x (blen (a_data (view b)))) items).
  { apply Forall_forall. intros x Ix. unfold ready. destruct x; auto. }
  specialize (E Rd L). set (a' := with_data _ _) in E.
  assert (Ok : op_ok (OpCreateVector t items) = true).
  { cbn [op_ok]. rewrite F. cbn [andb]. clear - Sz L Bi Bd. nia. }
  assert (S : a_step true h (view b) (OpCreateVector t items) = Val (a', ONum (as_u32 (blen (a_data a'))))).
  { cbn [a_step]. unfold a_num. rewrite E. reflexivity. }
  destruct (strict_step _ _ _ _ _ I Ok S) as (b' & T & I' & E').
  cbn [step] in T. unfold with_num in T. apply bind_Val in T as ([q1 q2] & T & Q).
  exists q1, q2. split; [exact T|]. assert (q1 = b') by congruence. subst q1.
  change (nested b') with (a_nested (view b')). change (unfinished_data b') with (a_data (view b')). rewrite E'. split; [exact N|].
  unfold a', vector_data. cbv zeta. cbn [with_data with_align a_data view].
  rewrite blen_app, blen_wire, (blen_cells t) by exact Ft. rewrite blen_app, blen_zeros. cbn [ssize].
  destruct (max4_ge _ (pty_align_pow8 t)) as (_ & _ & P). pose proof (gap_range (unfinished_data b) (blen items * pty_size t) _ P) as G.
  unfold pow8 in P. clear - G P. lia.
Qed.

Definition trees_size (xs : list tree) : Z := fold_right (fun x n => tree_size x + n) 0 xs.

Lemma tree_size_nonneg x : 0 <= tree_size x.
Proof.
  assert (K : forall l, Forall (fun x => 0 <= tree_size x) l -> 0 <= trees_size l).
  { induction 1; cbn [trees_size fold_right]; [lia|]. unfold trees_size in *. lia. }
  induction x using tree_nested; cbn [tree_size]; fold trees_size.
  - lia.
  - lia.
  - pose proof (blen_nonneg s). lia.
  - apply K in H. fold (trees_size xs). pose proof (blen_nonneg xs). assert (0 < pty_size t) by (destruct t as [[]|]; cbn; lia). nia.
  - apply K in H. fold (trees_size xs). pose proof (blen_nonneg gs). lia.
Qed.

Section Progress.
Context (h : host) (c lim : Z) (Hc : 0 <= c) (Hlim : lim <= 8190).

Definition puttable (x : tree) : Prop := forall ty before xs b0,
  calls_ok before = true -> closed before = true -> program h c before = Val (b0, xs) ->
  x = TreeNone \/ typed lim x ty -> nested b0 = false -> all_required_given x = true ->
  blen (unfinished_data b0) + tree_size x + 150000 < 2 ^ 31 ->
  exists b1 a, put h b0 x = Val (b1, a) /\ nested b1 = false /\
    blen (unfinished_data b1) <= blen (unfinished_data b0) + tree_size x.

Lemma all_puttable (hr : host) ts : Forall puttable ts -> forall tys before xs b0,
  calls_ok before = true -> closed before = true -> program h c before = Val (b0, xs) ->
  Forall2 (fun x ty => x = TreeNone \/ typed lim x ty) ts tys -> nested b0 = false -> forallb all_required_given ts = true ->
  blen (unfinished_data b0) + trees_size ts + 150000 < 2 ^ 31 ->
  exists b1 l, put_all h b0 ts = Val (b1, l) /\ nested b1 = false /\
    blen (unfinished_data b1) <= blen (unfinished_data b0) + trees_size ts.
Proof.
  induction 1 as [|x ts Hx _ IH]; intros tys before xs b0 Ho Hcl H T N R L; cbn [put_all trees_size fold_right forallb] in *.
  - exists b0, []. split; [reflexivity|]. split; [exact N|]. lia.
  - fold (trees_size ts) in *. apply andb_true_iff in R as [R1 R2]. inversion T as [|? ty ? tys' T1 T2]; subst.
    assert (0 <= trees_size ts).
    { clear. induction ts; cbn [trees_size fold_right]; [lia|]. pose proof (tree_size_nonneg a). unfold trees_size in *. lia. }
    destruct (Hx ty before xs b0 Ho Hcl H T1 N R1 ltac:(lia)) as (b1 & a & P1 & N1 & L1).
    destruct (tree_written h hr c lim Hc ltac:(lia) (or_intror Hlim) x ty before xs b0 b1 a Ho Hcl H T1 P1) as (ops & ys & Rn & O1 & _ & C1 & _).
    destruct (IH tys' (before ++ ops) (xs ++ ys) b1) as (b2 & l & P2 & N2 & L2); auto.
    + rewrite calls_ok_app, Ho, O1. reflexivity.
    + rewrite closed_app; auto.
    + eapply program_run; eauto.
    + lia.
    + exists b2, (a :: l). rewrite P1. cbn [bind]. rewrite P2. split; [reflexivity|]. split; [exact N2|]. lia.
Qed.

Lemma str_puttable s : puttable (TreeStr s).
Proof.
  intros ty before xs b0 Ho Hcl H [E|T] N R L; [discriminate E|]. cbn [tree_size] in *.
  pose proof (blen_nonneg (unfinished_data b0)) as Bn.
  destruct (string_fwd h b0 s) as (b1 & o & P & N1 & L1); auto.
  - eapply program_inv; [exact Hc|apply calls_ok_ops; exact Ho|exact H].
  - clear - L Bn. lia.
  - clear - L. lia.
  - exists b1, (Some (POffset o)). cbn [put]. rewrite P. split; [reflexivity|]. split; [exact N1|]. clear - L1. lia.
Qed.

Lemma vec_puttable t xs : Forall puttable xs -> puttable (TreeVec t xs).
Proof.
  intros W ty before obs b0 Ho Hcl H [E|T] N R L; [discriminate E|]. apply typed_vec in T as (e & -> & Ep & Lx & T).
  pose (hr := h). cbn [tree_size all_required_given] in *. fold (trees_size xs) in *.
  pose proof (blen_nonneg (unfinished_data b0)) as Bn. pose proof (blen_nonneg xs) as Bx.
  assert (Sz : 0 < pty_size t <= 8) by (destruct t as [[]|]; cbn; clear; lia).
  assert (T2 : Forall2 (fun x ty => x = TreeNone \/ typed lim x ty) xs (repeat e (length xs))).
  { apply Forall2_repeat. eapply Forall_impl; [|exact T]. intros x Hx. right. exact Hx. }
  assert (Hb : blen (unfinished_data b0) + trees_size xs + 150000 < 2 ^ 31) by (clear - L Bx Sz; nia).
  destruct (all_puttable hr xs W _ _ _ _ Ho Hcl H T2 N R Hb) as (b2 & l & P1 & N2 & L2).
  destruct (all_written h hr c lim Hc (or_intror Hlim) xs) with (2 := Ho) (3 := Hcl) (4 := H) (5 := T2) (6 := P1) as (ops & ys & R1 & O1 & N1 & C1 & L1 & Q1).
  { apply Forall_forall. intros x _. apply tree_written; [exact Hc|clear - Hlim; lia|right; exact Hlim]. }
  pose proof (program_run _ _ _ _ _ _ _ _ H R1) as H2.
  assert (Oc : calls_ok (before ++ ops) = true) by (rewrite calls_ok_app, Ho, O1; reflexivity).
  assert (I2 : inv b2) by (eapply program_inv; [exact Hc|apply calls_ok_ops; exact Oc|exact H2]).
  set (items := map item_of l) in *.
  assert (Li : blen items = blen xs) by (unfold items, blen; rewrite map_length, L1; reflexivity).
  assert (Lb2 : blen (unfinished_data b2) < 2 ^ 31) by (clear - L2 Hb; lia).
  assert (It : forallb (fun x => pval_ok x && pty_eqb (pty_of x) t) items = true /\
     forall o, In (POffset o) items -> o <= blen (unfinished_data b2)).
  { destruct t as [t|].
    - destruct (num_items _ _ _ _ Ep T) as (vs & -> & V & K).
      assert (Ei : items = map (PScalar t) vs).
      { unfold items. apply (num_list h hr lim (or_intror Hlim) b2).
        - rewrite map_length in L1. exact L1.
        - intros i x a Hx Ha. pose proof (Q1 i x e a Hx (nth_repeat _ _ _ _ Hx) Ha) as Q.
          rewrite nth_error_map in Hx. destruct (nth_error vs i); [|discriminate Hx]. injection Hx as <-. exact Q. }
      rewrite Ei. split.
      + clear - V. induction vs as [|v vs IH]; [reflexivity|]. cbn [map forallb] in *.
        apply andb_true_iff in V as [V1 V2]. rewrite IH by auto. cbn [pval_ok pty_of]. rewrite V1, pty_eqb_refl. reflexivity.
      + intros o Io. apply in_map_iff in Io as (? & X & _). discriminate X.
    - destruct e as [ | | | | | |u| | | | | | | ]; try discriminate Ep.
      destruct (off_list h hr lim (or_intror Hlim) b2 u xs T l L1) as (offs & Ei & Lo & Bo & Uo & So).
      { intros i x a Hx Ha. exact (Q1 i x _ a Hx (nth_repeat _ _ _ _ Hx) Ha). }
      fold items in Ei. rewrite Ei. split.
      + clear - Uo. induction Uo as [|v vs U _ IH]; [reflexivity|]. cbn [map forallb]. rewrite IH.
        cbn [pval_ok pty_of pty_eqb]. clear - U. lia.
      + intros o Io. apply in_map_iff in Io as (o' & X & Io). assert (o' = o) by congruence. subst o'.
        specialize (Bo Lb2). rewrite Forall_forall in Bo. auto. }
  destruct It as [It1 It2].
  destruct (vector_fwd h b2 t items) as (b3 & o & P3 & N3 & L3); auto.
  { rewrite Li. pose proof (blen_nonneg (unfinished_data b2)) as B2. assert (Q : blen xs <= pty_size t * blen xs) by (clear - Bx Sz; nia).
    clear - L2 L B2 Q. lia. }
  exists b3, (Some (POffset o)). split; [rewrite put_vec, P1; cbn [bind]|].
  { change (map (fun a => match a with Some v => v | None => POffset 0 end) l) with items. rewrite P3. reflexivity. }
  split; [exact N3|]. rewrite Li in L3. clear - L3 L2. lia.
Qed.

Lemma required_trees gs xs l b2 (hr : host) : length gs = length xs -> length l = length xs ->
  (forall i g x a, nth_error gs i = Some g -> nth_error xs i = Some x -> nth_error l i = Some a ->
     typed_field lim gs xs g x /\ holds h hr b2 (field_ty gs xs g) x a) ->
  required_stored gs l = required_given gs xs.
Proof.
  intros L1 L2 Q.
  assert (K : forall i g x a, nth_error gs i = Some g -> nth_error xs i = Some x -> nth_error l i = Some a ->
     is_default g a = match x with TreeNum t v => is_default g (Some (PScalar t v)) | _ => false end).
  { intros i g x a Hg Hx Ha. destruct (Q _ _ _ _ Hg Hx Ha) as [Tf Hh].
    unfold typed_field in Tf. unfold field_ty in Hh. unfold is_default.
    destruct (g_kind g) as [t d|t vs d|t|tslot tb tvs td arms] eqn:Kd.
    - apply typed_scalar in Tf as (v & -> & V). cbn [holds] in Hh. subst a. reflexivity.
    - apply typed_enum in Tf as (v & -> & V & I). cbn [holds] in Hh. subst a. reflexivity.
    - destruct x; reflexivity.
    - destruct x; reflexivity. }
  clear - K L1 L2. revert xs l L1 L2 K. induction gs as [|g gs IH]; intros [|x xs] [|a l] L1 L2 K; try discriminate L1; try discriminate L2; [reflexivity|].
  cbn [required_stored required_given]. rewrite (K O g x a eq_refl eq_refl eq_refl). f_equal. cbn [length] in *.
  apply IH; [congruence|congruence|]. intros i g' x' a'. exact (K (S i) g' x' a').
Qed.

(** [create] of a table whose own arguments could be written. *)
Lemma table_exact gs xs before obs b0 : Forall puttable xs ->
  calls_ok before = true -> closed before = true -> program h c before = Val (b0, obs) ->
  typed lim (TreeTable gs xs) (FUOffset FTable) -> nested b0 = false -> forallb all_required_given xs = true ->
  blen (unfinished_data b0) + tree_size (TreeTable gs xs) + 150000 < 2 ^ 31 ->
  (required_given gs xs = true -> exists b1 a, put h b0 (TreeTable gs xs) = Val (b1, a) /\ nested b1 = false /\
     blen (unfinished_data b1) <= blen (unfinished_data b0) + tree_size (TreeTable gs xs)) /\
  (required_given gs xs = false -> put h b0 (TreeTable gs xs) = Panic).
Proof.
  intros W Ho Hcl H T N R L. apply typed_table in T as (_ & G & T).
  pose (hr := h). cbn [tree_size] in *. fold (trees_size xs) in *.
  pose proof (blen_nonneg (unfinished_data b0)) as Bn. pose proof (blen_nonneg gs) as Bg.
  destruct (generated_facts h lim ltac:(clear - Hlim; lia) (or_intror Hlim) gs G) as (Wf & Lg & _).
  assert (Lxs : length gs = length xs) by (clear - T; induction T; cbn [length]; congruence).
  assert (T2 : Forall2 (fun x ty => x = TreeNone \/ typed lim x ty) xs (map (field_ty gs xs) gs)).
  { apply nth_Forall2; [rewrite map_length; congruence|]. intros i x t Hx Ht. rewrite nth_error_map in Ht.
    destruct (nth_error gs i) as [g|] eqn:Hg; [|discriminate Ht]. injection Ht as <-.
    apply typed_field_ty. exact (Forall2_nth _ _ _ T i g x Hg Hx). }
  assert (Hb : blen (unfinished_data b0) + trees_size xs + 150000 < 2 ^ 31) by (clear - L Bg; lia).
  destruct (all_puttable hr xs W _ _ _ _ Ho Hcl H T2 N R Hb) as (b2 & l & P1 & N2 & L2).
  destruct (all_written h hr c lim Hc (or_intror Hlim) xs) with (2 := Ho) (3 := Hcl) (4 := H) (5 := T2) (6 := P1) as (ops & ys & R1 & O1 & N1 & C1 & L1 & Q0).
  { apply Forall_forall. intros x _. apply tree_written; [exact Hc|clear - Hlim; lia|right; exact Hlim]. }
  assert (Q1 : forall i g x a, nth_error gs i = Some g -> nth_error xs i = Some x -> nth_error l i = Some a ->
     typed_field lim gs xs g x /\ holds h hr b2 (field_ty gs xs g) x a).
  { intros i g x a Hg Hx Ha. split; [exact (Forall2_nth _ _ _ T i g x Hg Hx)|].
    apply (Q0 i x _ a Hx); auto. rewrite nth_error_map, Hg. reflexivity. }
  pose proof (program_run _ _ _ _ _ _ _ _ H R1) as H2.
  assert (Oc : calls_ok (before ++ ops) = true) by (rewrite calls_ok_app, Ho, O1; reflexivity).
  assert (Cc : closed (before ++ ops) = true) by (rewrite closed_app; auto).
  assert (Lb2 : blen (unfinished_data b2) < 2 ^ 31) by (clear - L2 Hb; lia).
  assert (A : args_ok gs l = true) by (eapply (table_args h hr lim (or_intror Hlim) gs xs l b2); eauto).
  assert (G2 : generated 8190 gs).
  { destruct G as (fl & snake & hg & fs & G1 & G2 & G3 & G4). exists fl, snake, hg, fs. split; [exact G1|]. split; [exact G2|].
    split; [clear - G3 Hlim; lia|exact G4]. }
  destruct (create_exact h c (before ++ ops) (obs ++ ys) b2 gs l Hc Oc Cc H2 N2 G2 A) as [Yes No].
  { intros o Io. right. apply In_nth_error in Io as (i & Hi).
    destruct (nth_error gs i) as [g|] eqn:Hg.
    2: { apply nth_error_None in Hg. assert (i < length l)%nat by (apply nth_error_Some; intros X; assert (Y := eq_trans (eq_sym Hi) X); discriminate Y). clear - Hg H0 Lxs L1. lia. }
    destruct (nth_same gs xs i g Lxs Hg) as (x & Hx). destruct (Q1 _ _ _ _ Hg Hx Hi) as [_ Hh].
    destruct x; cbn [holds] in Hh; try discriminate Hh; destruct Hh as (o' & Eo & _ & B & _); injection Eo as Eo; subst o'; auto. }
  { clear - L L2 Bg. lia. }
  rewrite (required_trees gs xs l b2 hr Lxs L1 Q1) in Yes, No. split; intros Rq.
  - destruct (Yes Rq) as (b3 & o & P3 & L3 & N3).
    exists b3, (Some (POffset o)). split; [rewrite put_table, P1; cbn [bind]; rewrite P3; reflexivity|]. split; [exact N3|].
    clear - L3 L2. lia.
  - rewrite put_table, P1. cbn [bind]. rewrite (No Rq). reflexivity.
Qed.

Lemma table_puttable gs xs : Forall puttable xs -> puttable (TreeTable gs xs).
Proof.
  intros W ty before obs b0 Ho Hcl H [E|T] N R L; [discriminate E|]. pose proof T as T'. apply typed_table in T' as (-> & _).
  cbn [all_required_given] in R. apply andb_true_iff in R as [Rq R].
  exact (proj1 (table_exact gs xs before obs b0 W Ho Hcl H T N R L) Rq).
Qed.

Lemma tree_puttable x : puttable x.
Proof.
  induction x using tree_nested.
  - intros ty before obs b0 _ _ _ _ N _ _. exists b0, None. cbn [put tree_size]. split; [reflexivity|]. split; [exact N|]. lia.
  - intros ty before obs b0 _ _ _ _ N _ _. exists b0, (Some (PScalar t v)). cbn [put tree_size]. split; [reflexivity|]. split; [exact N|]. lia.
  - apply str_puttable.
  - apply vec_puttable. assumption.
  - apply table_puttable. assumption.
Qed.

(** The others are refused. *)
Definition refused (x : tree) : Prop := forall ty before xs b0,
  calls_ok before = true -> closed before = true -> program h c before = Val (b0, xs) ->
  x = TreeNone \/ typed lim x ty -> nested b0 = false -> all_required_given x = false ->
  blen (unfinished_data b0) + tree_size x + 150000 < 2 ^ 31 -> put h b0 x = Panic.

Lemma all_refused (hr : host) ts : Forall refused ts -> forall tys before xs b0,
  calls_ok before = true -> closed before = true -> program h c before = Val (b0, xs) ->
  Forall2 (fun x ty => x = TreeNone \/ typed lim x ty) ts tys -> nested b0 = false -> forallb all_required_given ts = false ->
  blen (unfinished_data b0) + trees_size ts + 150000 < 2 ^ 31 -> put_all h b0 ts = Panic.
Proof.
  induction 1 as [|x ts Hx _ IH]; intros tys before xs b0 Ho Hcl H T N R L; cbn [put_all trees_size fold_right forallb] in *; [discriminate R|].
  fold (trees_size ts) in *. inversion T as [|? ty ? tys' T1 T2]; subst.
  assert (0 <= trees_size ts).
  { clear. induction ts; cbn [trees_size fold_right]; [lia|]. pose proof (tree_size_nonneg a). unfold trees_size in *. lia. }
  destruct (all_required_given x) eqn:R1; cbn [andb] in R.
  - destruct (tree_puttable x ty before xs b0 Ho Hcl H T1 N R1 ltac:(lia)) as (b1 & a & P1 & N1 & L1).
    destruct (tree_written h hr c lim Hc ltac:(lia) (or_intror Hlim) x ty before xs b0 b1 a Ho Hcl H T1 P1) as (ops & ys & Rn & O1 & _ & C1 & _).
    rewrite P1. cbn [bind]. rewrite (IH tys' (before ++ ops) (xs ++ ys) b1); auto.
    + rewrite calls_ok_app, Ho, O1. reflexivity.
    + rewrite closed_app; auto.
    + eapply program_run; eauto.
    + lia.
  - rewrite (Hx ty before xs b0 Ho Hcl H T1 N R1 ltac:(lia)). reflexivity.
Qed.

Lemma tree_refused x : refused x.
Proof.
  induction x as [| | |t xs W|gs xs W] using tree_nested; try (intros ty before obs b0 _ _ _ _ _ R _; discriminate R);
    intros ty before obs b0 Ho Hcl H [E|T] N R L; try discriminate E.
  - cbn [all_required_given] in R. rewrite put_vec. apply typed_vec in T as (e & -> & Ep & Lx & T).
    cbn [tree_size] in L. fold (trees_size xs) in L. pose proof (blen_nonneg xs) as Bx.
    assert (Sz : 0 < pty_size t <= 8) by (destruct t as [[]|]; cbn; clear; lia).
    rewrite (all_refused h xs W (repeat e (length xs)) before obs b0); auto.
    + apply Forall2_repeat. eapply Forall_impl; [|exact T]. intros x Hx. right. exact Hx.
    + clear - L Bx Sz. nia.
  - cbn [all_required_given] in R. destruct (forallb all_required_given xs) eqn:R1.
    + rewrite andb_true_r in R. pose proof T as T'. apply typed_table in T' as (-> & _).
      apply (table_exact gs xs before obs b0); auto. apply Forall_forall. intros y _. apply tree_puttable.
    + rewrite put_table. apply typed_table in T as (-> & G & T).
      cbn [tree_size] in L. fold (trees_size xs) in L. pose proof (blen_nonneg gs) as Bg.
      assert (Lxs : length gs = length xs) by (clear - T; induction T; cbn [length]; congruence).
      rewrite (all_refused h xs W (map (field_ty gs xs) gs) before obs b0); auto.
      * apply nth_Forall2; [rewrite map_length; congruence|]. intros i x t Hx Ht. rewrite nth_error_map in Ht.
        destruct (nth_error gs i) as [g|] eqn:Hg; [|discriminate Ht]. injection Ht as <-.
        apply typed_field_ty. exact (Forall2_nth _ _ _ T i g x Hg Hx).
      * clear - L Bg. lia.
Qed.
End Progress.

Lemma document_written h c lim before xs b0 u x :
  0 <= c -> lim <= 8190 ->
  calls_ok before = true -> closed before = true -> program h c before = Val (b0, xs) -> nested b0 = false ->
  typed lim x (FUOffset u) -> all_required_given x = true ->
  blen (unfinished_data b0) + tree_size x + 150000 < 2 ^ 31 ->
  exists b1 o, put h b0 x = Val (b1, Some (POffset o)) /\ blen (unfinished_data b1) <= blen (unfinished_data b0) + tree_size x.
Proof.
  intros Hc Hl Ho Hcl H N T R L.
  destruct (tree_puttable h c lim Hc Hl x (FUOffset u) before xs b0 Ho Hcl H (or_intror T) N R L) as (b1 & a & P & _ & B).
  destruct (tree_written h h c lim Hc ltac:(lia) (or_intror Hl) x (FUOffset u) before xs b0 b1 a Ho Hcl H (or_intror T) P) as (? & ? & _ & _ & _ & _ & Q).
  destruct (holds_offset _ _ _ _ _ _ _ T Q) as (o & -> & _). eauto.
Qed.

Lemma document_refused h c lim before xs b0 u x :
  0 <= c -> lim <= 8190 ->
  calls_ok before = true -> closed before = true -> program h c before = Val (b0, xs) -> nested b0 = false ->
  typed lim x (FUOffset u) -> all_required_given x = false ->
  blen (unfinished_data b0) + tree_size x + 150000 < 2 ^ 31 -> put h b0 x = Panic.
Proof. intros Hc Hl Ho Hcl H N T R L. exact (tree_refused h c lim Hc Hl x (FUOffset u) before xs b0 Ho Hcl H (or_intror T) N R L). Qed.

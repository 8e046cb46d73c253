(** The tables of a resolved schema whose generated code compiles. *)
From Coq Require Import Strings.String ZArith List Bool Lia Strings.Byte ZifyBool ZifyNat.
From Verif Require Import Base Scalar Reader Schema Ident Codegen SpecResolve SpecEmit SpecTable Resolve GenProofs1 GenProofs3 GenProofs8 ResolveProofs9 EvolveProofs1.
Import ListNotations.
Local Open Scope list_scope.
Local Open Scope Z_scope.

(** ** Numbers *)
Lemma range_valid p n : int_ty (prim_ty p) = true -> (valid_scalar (prim_ty p) n = true <-> in_range p n).
Proof.
  unfold in_range, int_range, valid_scalar. destruct p; cbn [int_ty prim_ty signed ssize]; intros I; try discriminate I;
    change (8 * 1) with 8; change (8 * 2) with 16; change (8 * 4) with 32; change (8 * 8) with 64; lia.
Qed.
Lemma range_int p n : in_range p n -> int_ty (prim_ty p) = true.
Proof. unfold in_range. destruct p; cbn; intros H; try contradiction; reflexivity. Qed.

(** ** Enums *)
Lemma values_nth vs k n : nth_error (enum_values vs) k = Some n <-> exists v, nth_error vs k = Some v /\ n = variant_number k v.
Proof.
  unfold enum_values. split.
  - intros H. assert (L : (k < length vs)%nat) by (rewrite <- (enum_values_length vs 0); apply nth_error_Some; congruence).
    destruct (nth_error vs k) as [v|] eqn:N; [|apply nth_error_None in N; lia]. exists v. split; [reflexivity|].
    rewrite (enum_values_nth _ _ _ _ N) in H. injection H as <-. reflexivity.
  - intros (v & N & ->). rewrite (enum_values_nth _ _ _ _ N). reflexivity.
Qed.
Lemma enum_fine vs b : enum_compiles vs b = true <-> fine_enum vs b.
Proof.
  unfold enum_compiles. rewrite !andb_true_iff, negb_true_iff, nodup_ident_NoDup, nodup_z_NoDup, !forallb_forall. split.
  - intros [[[[[S I] N] R] V] W]. constructor.
    + intros ->. discriminate S.
    + exact N.
    + intros v Iv. specialize (W v Iv). rewrite negb_true_iff in W. split; intros E; rewrite E in W; vm_compute in W; discriminate W.
    + intros i v Nv. apply range_valid; [exact I|]. apply R. apply nth_error_In with i. apply values_nth. eauto.
    + intros i j v w Ni Nj E. rewrite NoDup_nth_error in V. apply V.
      * apply nth_error_Some. rewrite (proj2 (values_nth vs i _) (ex_intro _ v (conj Ni eq_refl))). discriminate.
      * rewrite (proj2 (values_nth vs i _) (ex_intro _ v (conj Ni eq_refl))), (proj2 (values_nth vs j _) (ex_intro _ w (conj Nj eq_refl))), E. reflexivity.
  - intros F. assert (exists v0 vs0, vs = v0 :: vs0) as (v0 & vs0 & Ev) by (pose proof (fe_some _ _ F); destruct vs; [congruence|eauto]).
    assert (I : int_ty (prim_ty b) = true) by (apply range_int with (variant_number 0 v0); apply (fe_range _ _ F); rewrite Ev; reflexivity).
    repeat split.
    + rewrite Ev. reflexivity.
    + exact I.
    + exact (fe_names _ _ F).
    + intros n In. apply In_nth_error in In as (k & Nk). apply values_nth in Nk as (v & Nv & ->). apply range_valid; [exact I|]. exact (fe_range _ _ F _ _ Nv).
    + rewrite NoDup_nth_error. intros i j Li E. destruct (nth_error (enum_values vs) i) as [n|] eqn:Ni; [|apply nth_error_None in Ni; lia].
      symmetry in E. apply values_nth in Ni as (v & Nv & Vn). apply values_nth in E as (w & Nw & Wn). apply (fe_numbers _ _ F i j v w); congruence.
    + intros v Iv. destruct (fe_words _ _ F v Iv) as [E1 E2]. rewrite negb_true_iff. destruct (mem_ident (iev_id v) _) eqn:M; [|reflexivity].
      apply mem_ident_In in M. destruct M as [M|[M|[]]]; congruence.
Qed.

(** ** Types *)
Lemma type_fine t : follow_ty t <> None <-> fine_type t.
Proof.
  split.
  - induction t as [p| |t IH|q c]; cbn [follow_ty]; intros H; try constructor.
    + apply IH. destruct (follow_ty t); [discriminate|]. destruct H. reflexivity.
    + destruct c as [|fs|vs b|e vs]; try (destruct (H eq_refl)); [constructor|]. constructor. apply enum_fine. destruct (enum_compiles vs b); [reflexivity|]. destruct H. reflexivity.
  - induction 1; cbn [follow_ty]; try discriminate.
    + destruct (follow_ty t); [discriminate|]. destruct IHfine_type. reflexivity.
    + apply enum_fine in H. rewrite H. discriminate.
Qed.

(** ** Unions *)
Lemma variant_found vs id : forall i, variant_value_from i vs id <> None <-> In id (map iev_id vs).
Proof.
  induction vs as [|v vs IH]; intros i; cbn [variant_value_from map In]; [split; [intros H; destruct H; reflexivity|intros []]|].
  destruct (ident_eqb (iev_id v) id) eqn:E.
  - apply ident_eqb_eq in E. split; [auto|discriminate].
  - rewrite IH. split; [auto|]. intros [X|X]; [|exact X]. apply ident_eqb_eq in X. congruence.
Qed.
Lemma arms_fine evs vs : union_arms evs vs <> None <-> forall v, In v vs -> In (iuv_id v) (map iev_id evs) /\ fine_type (iuv_ty v).
Proof.
  induction vs as [|v vs IH]; cbn [union_arms]; [split; [intros _ v []|discriminate]|]. split.
  - intros H. assert (A : variant_value evs (iuv_id v) <> None) by (intros X; rewrite X in H; auto).
    assert (B : follow_ty (iuv_ty v) <> None) by (intros X; rewrite X in H; destruct (variant_value evs (iuv_id v)); auto).
    intros w [<-|I]; [split; [eapply variant_found; exact A|apply type_fine; exact B]|]. apply IH; [|exact I].
    intros X. rewrite X in H. destruct (variant_value evs (iuv_id v)); auto. destruct (follow_ty (iuv_ty v)); auto.
  - intros H. destruct (H v (or_introl eq_refl)) as [A B]. apply (variant_found evs _ 0) in A. apply type_fine in B. unfold variant_value.
    destruct (variant_value_from 0 evs (iuv_id v)); [|auto]. destruct (follow_ty (iuv_ty v)); [|auto].
    assert (C : union_arms evs vs <> None) by (apply IH; intros w I; apply H; right; exact I). destruct (union_arms evs vs); [discriminate|auto].
Qed.

(** The companion's numbers. *)
Lemma companion_fine cvs ids : map iev_id cvs = ids -> map iev_value cvs = map (fun _ => None) cvs ->
  (fine_enum (IEnumV (lit "None") (Some 0) [] :: cvs) UByte <->
   Z.of_nat (length ids) <= 255 /\ NoDup ids /\ forall x, In x ids -> ~ In x [lit "None"; lit "Error"; lit "Inner"]).
Proof.
  intros Ids Vals. set (evs := IEnumV (lit "None") (Some 0) [] :: cvs).
  assert (Num : forall i v, nth_error evs i = Some v -> variant_number i v = Z.of_nat i).
  { intros [|i] v N; [injection N as <-; reflexivity|]. cbn [nth_error evs] in N. unfold variant_number.
    assert (E : nth_error (map iev_value cvs) i = Some (iev_value v)) by (rewrite nth_error_map, N; reflexivity). rewrite Vals, nth_error_map, N in E. cbn in E. injection E as <-. reflexivity. }
  assert (Len : length ids = length cvs) by (rewrite <- Ids; apply map_length).
  split.
  - intros F. pose proof (fe_names _ _ F) as Nd. cbn [evs map iev_id] in Nd. rewrite Ids in Nd. apply NoDup_cons_iff in Nd as [Nn Nd]. split; [|split; [exact Nd|]].
    + destruct (nth_error evs (length cvs)) as [v|] eqn:N; [|apply nth_error_None in N; cbn [evs length] in N; lia].
      pose proof (fe_range _ _ F _ _ N) as R. rewrite (Num _ _ N) in R. unfold in_range in R. cbn in R. lia.
    + intros x Ix [<-|[<-|[<-|[]]]]; [exact (Nn Ix)| |]; rewrite <- Ids in Ix; apply in_map_iff in Ix as (v & E & Iv); destruct (fe_words _ _ F v (or_intror Iv)) as [W1 W2]; congruence.
  - intros (L & Nd & W). constructor.
    + discriminate.
    + cbn [map iev_id evs]. rewrite Ids. constructor; [|exact Nd]. intros I. apply (W _ I). left. reflexivity.
    + intros v [<-|Iv]; [split; discriminate|]. assert (I : In (iev_id v) ids) by (rewrite <- Ids; apply in_map; exact Iv).
      split; intros E; apply (W _ I); rewrite E; cbn; auto.
    + intros i v N. rewrite (Num _ _ N). assert (i < length evs)%nat by (apply nth_error_Some; congruence). cbn [evs length] in *. unfold in_range. cbn. lia.
    + intros i j v w Ni Nj. rewrite (Num _ _ Ni), (Num _ _ Nj). lia.
Qed.
Lemma exhaustive_fine cvs vs : map iev_id cvs = map iuv_id vs ->
  (union_exhaustive (IEnumV (lit "None") (Some 0) [] :: cvs) vs = true <-> (exists v q, In v vs /\ iuv_ty v = ICustom q KTable) /\ NoDup (map iuv_id vs)).
Proof.
  intros Ids. unfold union_exhaustive. rewrite !andb_true_iff, existsb_exists, nodup_ident_NoDup.
  assert (T : (exists x, In x vs /\ is_table (iuv_ty x) = true) <-> (exists v q, In v vs /\ iuv_ty v = ICustom q KTable)).
  { split; [intros (v & I & E)|intros (v & q & I & E); exists v; rewrite E; auto]. exists v. destruct (iuv_ty v) as [| | |q []]; try discriminate E. eauto. }
  rewrite T. split; [tauto|]. intros [A B]. repeat split; auto.
  apply forallb_forall. intros e [<-|I]; [reflexivity|]. apply orb_true_iff. right. apply mem_ident_In. rewrite <- Ids. apply in_map. exact I.
Qed.

(** ** Slots *)
Lemma slot_fine hg i : 0 <= i -> (debug hg = false \/ i < most_fields) -> slot_of hg i <> None.
Proof.
  intros P [D|H]; unfold slot_of, field_index_to_field_offset, u16_arith, unsigned_arith, as_u16, SIZE_VOFFSET.
  - rewrite D. destruct (_ && _); cbn [bind]; destruct (_ && _); discriminate.
  - unfold most_fields in H. rewrite (Z.mod_small i) by lia. replace ((0 <=? i + 2) && (i + 2 <? 2 ^ 16)) with true by lia. cbn [bind].
    replace ((0 <=? (i + 2) * 2) && ((i + 2) * 2 <? 2 ^ 16)) with true by lia. discriminate.
Qed.
Lemma slot_last hg : debug hg = true -> slot_of hg most_fields = None.
Proof.
  intros D. unfold slot_of, field_index_to_field_offset, u16_arith, unsigned_arith, as_u16, SIZE_VOFFSET. rewrite D. reflexivity.
Qed.

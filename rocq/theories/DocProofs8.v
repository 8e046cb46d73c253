(** Documents of the same numbers have the same file. *)
From Coq Require Import Strings.String ZArith List Bool Lia Strings.Byte ZifyBool ZifyNat ZifyN.
From Verif Require Import Base Scalar Utf8 SpecWire Reader SpecReader Builder Ops BaseFacts Schema Ident Codegen Resolve SpecResolve SpecGen SpecTable SpecDoc SpecSame
  GenProofs1 GenProofs3 GenProofs8 GenProofs10 TableProofs1 TableProofs2 DocProofs1 DocProofs2 DocProofs3 GrowProofs1 DocProofs6.
Import ListNotations.
Local Open Scope list_scope.
Local Open Scope Z_scope.

Section Bits.
Context (fl : floats) (snake : text -> text) (root : list node) (hg : host) (es : list element).
Context (B : build snake es = Done root).
Local Notation calls_for := (SpecDoc.calls_for fl snake root hg).
Local Notation shaped := (SpecDoc.shaped snake root).
Local Notation same_bits := (SpecSame.same_bits fl root).
Local Notation eqb := (fun (_ : sty) (a b : Z) => a = b).

Lemma left_out_call fs i f g x : gen_field fl snake hg fs i f = Some g -> as_left_out fl eqb f x -> calls_for x (if_ty f) = Some (left_out g).
Proof.
  intros K A. apply field_kinds in K as [_ K]. unfold as_left_out in A. unfold left_out, default_arg.
  destruct (if_ty f) as [p| |t|q [| |vs b|]]; try (destruct (if_default f) as [[]|]; destruct x; contradiction).
  - destruct K as (d & -> & Kd). destruct (if_default f) as [[c|id]|]; destruct x as [v| | | | |]; try contradiction; cbn [SpecDoc.calls_for].
    + destruct A as (d' & Ed & ->). destruct Kd as [Kd _]. rewrite Ed in Kd. subst d. reflexivity.
    + subst d v. reflexivity.
  - destruct K as (d & -> & Kd & C). destruct (if_default f) as [[c|id]|]; destruct x as [|id'| | | |]; try contradiction; cbn [SpecDoc.calls_for].
    + subst id'. cbn [enum_default] in Kd. destruct (variant_value vs id) as [n|]; [|discriminate Kd]. injection Kd as <-. reflexivity.
    + destruct A as (v & N & <-). injection Kd as <-. destruct vs as [|v0 vs]; [discriminate N|]. injection N as ->. unfold variant_value. cbn [variant_value_from].
      replace (ident_eqb (iev_id v) (iev_id v)) with true by (symmetry; apply ident_eqb_iff; reflexivity). reflexivity.
Qed.

Definition same_call (x : doc) : Prop := forall x' t, enums_ok t -> shaped x t -> shaped x' t -> same_bits t x x' -> calls_for x t = calls_for x' t.
Lemma table_call given : Forall (fun p => same_call (snd p)) given -> same_call (DTable given).
Proof.
  intros IH x' t _ S S' M. unfold SpecSame.same_bits in M. inversion M as [| | | | |q fs g g' T Both Only Only' Et Ex Ex']; subst.
  apply table_given in S as (Nd & fs1 & T1 & Each). apply table_given in S' as (Nd' & fs2 & T2 & Each').
  rewrite (table_once snake es root q fs1 fs B T1 T) in *. rewrite (table_once snake es root q fs2 fs B T2 T) in *.
  cbn [SpecDoc.calls_for]. rewrite (fields_found snake es root q fs B T). destruct (gen_table fl snake hg fs) as [gs|] eqn:G; [|reflexivity]. cbv zeta.
  f_equal. f_equal. apply map_ext_in. intros [f g] I. cbn [fst snd].
  assert (If : In f fs) by (eapply in_combine_l; exact I).
  assert (Kg : exists i, gen_field fl snake hg fs i f = Some g).
  { pose proof G as K. unfold gen_table in K. destruct (_ && _); [|discriminate K]. apply In_nth_error in I as (i & N).
    assert (Nf : nth_error fs i = Some f /\ nth_error gs i = Some g).
    { clear - N. revert gs i N. induction fs as [|f0 fs IH]; intros [|g0 gs] [|i] N; try discriminate N; cbn in *; [injection N as -> ->; auto|auto]. }
    destruct Nf as [Nf Ng]. destruct (gen_fields_back _ _ _ _ _ _ _ _ _ K Nf) as (g2 & Ng2 & Kg). assert (g2 = g) by congruence. subst g2. eauto. }
  destruct Kg as (i & Kg).
  assert (En : forall f, In f fs -> enums_ok (if_ty f)) by (intros f0 I0; eapply field_enums; eauto).
  assert (NoU : forall u id y, as_left_out fl eqb u (DVariant id y) -> False).
  { clear. intros u id y A. unfold as_left_out in A. destruct (if_ty u) as [| | |? []]; try contradiction; destruct (if_default u) as [[]|]; contradiction. }
  destruct (told snake fs f) as [u|] eqn:To.
  - assert (Iu : In u fs) by (apply find_some in To; tauto).
    destruct (lookup given (if_id u)) as [x|] eqn:L; destruct (lookup g' (if_id u)) as [x'|] eqn:L'.
    + pose proof (Both u x x' Iu L L') as Mu. inversion Mu; subst; reflexivity.
    + pose proof (Only u x Iu L L') as A. destruct x; try reflexivity. destruct (NoU _ _ _ A).
    + pose proof (Only' u x' Iu L L') as A. destruct x'; try reflexivity. destruct (NoU _ _ _ A).
    + reflexivity.
  - rewrite !lookup_map. destruct (lookup given (if_id f)) as [x|] eqn:L; destruct (lookup g' (if_id f)) as [x'|] eqn:L'; cbn [option_map].
    + assert (Fst : forall f', In f' fs -> if_id f' = if_id f -> f' = f).
      { intros f' I' E. apply In_nth_error in I' as (j & Nj). pose proof If as If'. apply In_nth_error in If' as (k & Nk).
        assert (j = k) by (eapply gen_names; [exact G|exact Nj|exact Nk|congruence]). congruence. }
      pose proof (lookup_In _ _ _ L) as Lx. pose proof (lookup_In _ _ _ L') as Lx'.
      destruct (Each _ _ Lx) as (f1 & I1 & E1 & _ & Sx). destruct (Each' _ _ Lx') as (f2 & I2 & E2 & _ & Sx'). rewrite (Fst f1 I1 E1) in Sx. rewrite (Fst f2 I2 E2) in Sx'.
      rewrite Forall_forall in IH. exact (IH _ Lx x' (if_ty f) (En f If) Sx Sx' (Both f x x' If L L')).
    + exact (left_out_call fs i f g x Kg (Only f x If L L')).
    + symmetry. exact (left_out_call fs i f g x' Kg (Only' f x' If L L')).
    + reflexivity.
Qed.
Lemma all_same_call : forall x, same_call x.
Proof.
  refine (doc_nested same_call _ _ _ _ _ _).
  - intros v x' t _ _ _ M. inversion M; subst. reflexivity.
  - intros id x' t _ _ _ M. inversion M; subst. reflexivity.
  - intros s x' t _ _ _ M. inversion M; subst. reflexivity.
  - intros xs IH x' t E S S' M. unfold SpecSame.same_bits in M. inversion M as [| | |t0 ys xs' F Et Ex Ex'| |]; subst. cbn [SpecDoc.shaped] in S, S'. destruct S as [_ S], S' as [_ S']. apply shaped_all in S. apply shaped_all in S'.
    destruct E as (ft & Ft). cbn [SpecDoc.calls_for]. apply follow_enums in Ft.
    assert (Em : map (fun x => calls_for x t0) xs = map (fun x => calls_for x t0) xs').
    { clear M. induction F as [|x x' xs xs' Mx _ IHF]; [reflexivity|]. inversion S; subst. inversion S'; subst. inversion IH; subst. cbn [map]. f_equal; [|auto].
      match goal with H : same_call x |- _ => exact (H x' t0 Ft ltac:(assumption) ltac:(assumption) Mx) end. }
    rewrite Em. reflexivity.
  - exact table_call.
  - intros id x IH x' t E S S' M. unfold SpecSame.same_bits in M. inversion M as [| | | |q e vs v y y' Iv My Et Ex Ex'|]; subst. cbn [SpecDoc.calls_for SpecDoc.shaped enums_ok] in *.
    destruct S as (v2 & q2 & I2 & E2 & T2 & S), S' as (v3 & q3 & I3 & E3 & T3 & S').
    assert (v2 = v) by (apply (NoDup_map_In iuv_id vs); eauto). assert (v3 = v) by (apply (NoDup_map_In iuv_id vs); eauto). subst v2 v3.
    destruct (find_variant vs (iuv_id v)) as [v0|] eqn:Fv; [|reflexivity]. unfold find_variant in Fv. apply find_some in Fv as [I0 E0]. apply ident_eqb_iff in E0.
    assert (v0 = v) by (apply (NoDup_map_In iuv_id vs); eauto). subst v0. apply (IH y' (iuv_ty v)); auto. rewrite T2. exact Logic.I.
Qed.
Lemma same_file x x' q : shaped x (ICustom q KTable) -> shaped x' (ICustom q KTable) -> same_bits (ICustom q KTable) x x' ->
  forall h c ident sp, save fl snake root hg h c x q ident sp = save fl snake root hg h c x' q ident sp.
Proof. intros S S' M h c ident sp. unfold save. rewrite (all_same_call x x' (ICustom q KTable) Logic.I S S' M). reflexivity. Qed.
End Bits.

(** Appending fields to a table. *)
From Coq Require Import ZArith List Bool Lia Strings.Byte ZifyBool ZifyNat ZifyN.
From Verif Require Import Base Scalar Reader Builder Ops SpecBuilder Abstract BaseFacts ScalarFacts ReaderFacts
  Refine Refine2 Build1 Build2 Build3 Build4 Build5 Build6 Build7 Build8
  BuilderProofs1 BuilderProofs2 BuilderProofs3 BuilderProofs4
  Schema Codegen SpecGen GenProofs1 GenProofs2 GenProofs3 GenProofs4.
Import ListNotations.
Local Open Scope Z_scope.

(** ** The old accessors are kept *)
Lemma find_field_app snake name more fs : forall i r, find_field snake i fs name = Some r ->
  find_field snake i (fs ++ more) name = Some r.
Proof.
  induction fs as [|f fs IH]; intros i r H; cbn [find_field app] in *; [discriminate|].
  destruct (ident_eqb (snake (if_id f)) name); auto.
Qed.

Lemma gen_field_more fl snake hg hg' all more i f g : 0 <= i <= 32764 -> blen all <= 32765 ->
  gen_field fl snake hg all i f = Some g -> gen_field fl snake hg' (all ++ more) i f = Some g.
Proof.
  intros Hi Ha. unfold gen_field. rewrite !slot_of_eq by exact Hi.
  destruct (if_ty f) as [p| |t|q [|fs|vs b|e vs]]; auto.
  destruct (find_field snake 0 all (type_name snake (if_id f))) as [[j tf]|] eqn:Ef.
  2: { destruct (if_default f) as [[[]|]|]; discriminate. }
  rewrite (find_field_app _ _ more _ _ _ Ef). apply find_field_nth in Ef as (k & -> & N).
  assert (k < length all)%nat by (apply nth_error_Some; congruence). unfold blen in Ha.
  rewrite !slot_of_eq by lia. auto.
Qed.

Lemma gen_fields_more fl snake hg hg' all more fs : blen all <= 32765 -> forall n gs gs', 0 <= n -> n + blen fs <= 32765 ->
  gen_fields fl snake hg all n fs = Some gs -> gen_fields fl snake hg' (all ++ more) n (fs ++ more) = Some gs' ->
  exists gm, gs' = gs ++ gm.
Proof.
  intros Ha. induction fs as [|f fs IH]; intros n gs gs' Hn Hl H H'; cbn [gen_fields app] in *.
  - injection H as <-. exists gs'. reflexivity.
  - rewrite blen_cons in Hl. pose proof (blen_nonneg fs) as Bf.
    destruct (gen_field fl snake hg all n f) as [g|] eqn:E1; [|discriminate]. destruct (gen_fields fl snake hg all (n + 1) fs) as [l|] eqn:E2; [|discriminate].
    injection H as <-. assert (Hi : 0 <= n <= 32764) by (clear - Hn Hl Bf; lia).
    rewrite (gen_field_more _ _ _ hg' _ more _ _ _ Hi Ha E1) in H'.
    destruct (gen_fields fl snake hg' (all ++ more) (n + 1) (fs ++ more)) as [l'|] eqn:E3; [|discriminate]. injection H' as <-.
    destruct (IH (n + 1) l l' ltac:(clear - Hn; lia) ltac:(clear - Hl; lia) E2 E3) as (gm & ->). exists gm. reflexivity.
Qed.

Lemma evolution fl snake hg hg' fs more gs gs' : blen fs <= 32765 ->
  gen_table fl snake hg fs = Some gs -> gen_table fl snake hg' (fs ++ more) = Some gs' -> exists gm, gs' = gs ++ gm.
Proof.
  intros L H H'. unfold gen_table in *. destruct (_ && _); [|discriminate]. destruct (_ && _); [|discriminate].
  eapply gen_fields_more; eauto; lia.
Qed.

(** ** Old readers, new data *)
Lemma tag_app gs : forall xs gm ys slot, length gs = length xs -> (exists j g, nth_error gs j = Some g /\ g_slot g = slot) ->
  tag (gs ++ gm) (xs ++ ys) slot = tag gs xs slot.
Proof.
  induction gs as [|g gs IH]; intros [|x xs] gm ys slot L (j & g' & Hj & Sj); try discriminate L.
  - destruct j; discriminate.
  - cbn [tag app]. destruct (g_slot g =? slot) eqn:E; auto. apply IH; [cbn in L; lia|].
    destruct j as [|j]; cbn [nth_error] in Hj; [injection Hj as ->; lia|eauto].
Qed.

Lemma shows_prefix lim hr D gs gm xs ys w : lim <= 32765 -> generated lim gs -> length gs = length xs ->
  shows hr D (TreeTable (gs ++ gm) (xs ++ ys)) w -> shows hr D (TreeTable gs xs) w.
Proof.
  intros Hl G L S. apply shows_table in S as (loc & -> & F). apply shows_table. exists loc. split; [reflexivity|].
  apply nth_Forall2; [exact L|]. intros i g x Hg Hx.
  assert (Hg' : nth_error (gs ++ gm) i = Some g) by (rewrite nth_error_app1; [exact Hg|apply nth_error_Some; congruence]).
  assert (Hx' : nth_error (xs ++ ys) i = Some x) by (rewrite nth_error_app1; [exact Hx|apply nth_error_Some; congruence]).
  pose proof (Forall2_nth _ _ _ F i g x Hg' Hx') as [Q|(v & S & Q)]; [left; exact Q|right]. exists v. split; [exact S|].
  rewrite Q. destruct (g_kind g) as [t d|t vs d|t|tslot tb tvs td arms] eqn:K; try reflexivity.
  rewrite tag_app; auto.
  destruct G as (fl & snake & hg & fs & F1 & F2 & F3 & F4).
  destruct (gen_table_companion fl snake hg fs gs i g tslot tb tvs td arms) as (j & Hj); auto; [lia|]. eauto.
Qed.

(** ** New readers, old data *)
Section NewReader.
Context (h hr : host) (c lim : Z) (Hc : 0 <= c) (Hlim : lim <= 32765) (Hsmall : debug h = true \/ lim <= 8190).

Lemma table_created gs xs before obs b0 b1 o later b zs :
  calls_ok before = true -> closed before = true -> program h c before = Val (b0, obs) ->
  typed lim (TreeTable gs xs) (FUOffset FTable) -> put h b0 (TreeTable gs xs) = Val (b1, Some (POffset o)) ->
  calls_ok later = true -> no_reset later = true -> run h b1 later = Val (b, zs) ->
  blen (unfinished_data b) < 2 ^ 31 ->
  exists start l, args_ok gs l = true /\ Created h hr (unfinished_data b) start o gs l.
Proof.
  intros Ho Hcl H T P Hl Hr Rl L. apply typed_table in T as (_ & G & T).
  destruct (generated_facts h lim Hlim Hsmall _ G) as (W & Lg & Comp).
  rewrite put_table in P. apply bind_Val in P as ([b2 l] & P1 & P). apply bind_Val in P as ([b3 o'] & P2 & P).
  assert (b3 = b1) by congruence. assert (o' = o) by congruence. subst b3 o'. clear P.
  assert (Lxs : length gs = length xs) by (clear - T; induction T; cbn [length]; congruence).
  assert (T2 : Forall2 (fun x ty => x = TreeNone \/ typed lim x ty) xs (map (field_ty gs xs) gs)).
  { apply nth_Forall2; [rewrite map_length; congruence|]. intros i x t Hx Ht. rewrite nth_error_map in Ht.
    destruct (nth_error gs i) as [g|] eqn:Hg; [|discriminate Ht]. injection Ht as <-.
    apply typed_field_ty. exact (Forall2_nth _ _ _ T i g x Hg Hx). }
  destruct (all_written h hr c lim Hc Hsmall xs) with (2 := Ho) (3 := Hcl) (4 := H) (5 := T2) (6 := P1) as (ops & ys & R1 & O1 & N1 & C1 & L1 & Q0).
  { apply Forall_forall. intros x _. apply tree_written; assumption. }
  assert (Q1 : forall i g x a, nth_error gs i = Some g -> nth_error xs i = Some x -> nth_error l i = Some a ->
     typed_field lim gs xs g x /\ holds h hr b2 (field_ty gs xs g) x a).
  { intros i g x a Hg Hx Ha. split; [exact (Forall2_nth _ _ _ T i g x Hg Hx)|].
    apply (Q0 i x _ a Hx); auto. rewrite nth_error_map, Hg. reflexivity. }
  pose proof (program_run _ _ _ _ _ _ _ _ H R1) as H2.
  assert (Oc : calls_ok (before ++ ops) = true) by (rewrite calls_ok_app, Ho, O1; reflexivity).
  assert (Cc : closed (before ++ ops) = true) by (rewrite closed_app; auto).
  assert (I2 : inv b2) by (eapply program_inv; [exact Hc|apply calls_ok_ops; exact Oc|exact H2]).
  assert (Lgs : blen gs <= 32765) by (clear - Lg Hlim; lia).
  assert (A : args_ok gs l = true) by (eapply (table_args h hr lim Hsmall gs xs l b2); eauto).
  pose proof (create_size _ _ _ _ _ _ I2 W Lgs A P2) as Sz.
  assert (Sep : debug h = true \/ o - blen (unfinished_data b2) < 2 ^ 16).
  { destruct Hsmall as [S|S]; [left; exact S|right]. clear - S Sz Lg. lia. }
  exists (blen (unfinished_data b2)), l. split; [exact A|].
  exact (create_reads h hr c (before ++ ops) (obs ++ ys) b2 gs l b1 o later b zs Hc Oc Cc H2 W Lgs A P2 Hl Hr Rl L Sep).
Qed.

Lemma new_reads_old gs gm xs before obs b0 b1 o later b zs i g :
  calls_ok before = true -> closed before = true -> program h c before = Val (b0, obs) ->
  typed lim (TreeTable gs xs) (FUOffset FTable) -> put h b0 (TreeTable gs xs) = Val (b1, Some (POffset o)) ->
  calls_ok later = true -> no_reset later = true -> run h b1 later = Val (b, zs) ->
  blen (unfinished_data b) < 2 ^ 31 ->
  generated 32765 (gs ++ gm) -> nth_error gm i = Some g ->
  let D := unfinished_data b in
  gen_get hr D (blen D - o) g = missing g.
Proof.
  intros Ho Hcl H T P Hl Hr Rl L G Hi D.
  destruct (table_created gs xs before obs b0 b1 o later b zs Ho Hcl H T P Hl Hr Rl L) as (start & l & A & C). fold D in C.
  assert (Hlim' : debug (Host true false) = true \/ 32765 <= 8190) by (left; reflexivity).
  destruct (generated_facts (Host true false) 32765 ltac:(lia) Hlim' _ G) as (W' & Lg' & Comp').
  apply typed_table in T as (_ & G0 & _). destruct (generated_facts h lim Hlim Hsmall _ G0) as (W & Lg & _).
  assert (Hn : nth_error (gs ++ gm) (length gs + i) = Some g).
  { rewrite nth_error_app2 by lia. rewrite <- Hi. f_equal. lia. }
  assert (Bnd : forall k g, nth_error (gs ++ gm) k = Some g -> Z.of_nat k <= 32764).
  { intros k g' Hk. assert (k < length (gs ++ gm))%nat by (apply nth_error_Some; congruence). unfold blen in Lg'. clear - H0 Lg'. lia. }
  pose proof (Bnd _ _ Hn) as Bi. destruct (W' _ _ Hn) as [Sl _].
  assert (Ab : forall t fd, table_get hr D (blen D - o) (g_slot g) t fd = Val fd).
  { intros t fd. rewrite Sl. apply (cr_beyond _ _ _ _ _ _ _ C (0 + Z.of_nat (length gs + i))). unfold blen. clear - Bi. lia. }
  unfold gen_get, missing. destruct (g_kind g) as [t d|t vs d|t|tslot tb tvs td arms] eqn:K.
  - rewrite Ab. cbn [bind]. destruct d; cbn [option_map check_required]; [reflexivity|]. destruct (g_req g); reflexivity.
  - rewrite Ab. cbn [bind]. destruct d; cbn [option_map check_required]; [reflexivity|]. destruct (g_req g); reflexivity.
  - rewrite Ab. cbn [bind option_map check_required]. destruct (g_req g); reflexivity.
  - assert (X : exists fd, table_get hr D (blen D - o) tslot (FEnum tb tvs) (option_map VEnum td) = Val fd /\
       match fd with None => True | Some (VEnum _) => True | _ => False end).
    { destruct (Comp' _ _ _ _ _ _ _ Hn K) as (j & Hj). destruct (Nat.lt_ge_cases j (length gs)) as [Lj|Lj].
      - rewrite nth_error_app1 in Hj by exact Lj. destruct (args_ok_nth _ _ _ _ A Hj) as (a & Ha & Oa).
        unfold arg_ok in Oa. cbn [g_kind] in Oa. destruct a as [[t v|]|]; try discriminate Oa.
        destruct (reads_enum_raw C W A j _ tb tvs td t v (option_map VEnum td) Hj eq_refl Ha eq_refl) as (_ & _ & Q).
        cbn [g_slot] in Q. rewrite Q. eexists. split; [reflexivity|exact Logic.I].
      - destruct (W' _ _ Hj) as [Sj _]. cbn [g_slot] in Sj. pose proof (Bnd _ _ Hj) as Bj.
        rewrite Sj. rewrite (cr_beyond _ _ _ _ _ _ _ C (0 + Z.of_nat j)). 2: { unfold blen. clear - Lj Bj. lia. }
        eexists. split; [reflexivity|]. destruct td; exact Logic.I. }
    destruct X as (fd & -> & Vd). cbn [bind]. destruct fd as [v|]; cbn [check_required bind].
    + destruct v; try contradiction. destruct (find_arm v arms); [|destruct (g_req g); reflexivity].
      rewrite Ab. cbn [bind check_required]. destruct (g_req g); reflexivity.
    + destruct (g_req g); reflexivity.
Qed.
End NewReader.

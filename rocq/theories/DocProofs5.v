(** Documents in the words of a schema are written and read back. *)
From Coq Require Import Strings.String ZArith List Bool Lia Strings.Byte ZifyBool ZifyNat ZifyN.
From Verif Require Import Base Scalar Utf8 SpecWire Reader SpecReader Builder Ops SpecBuilder BaseFacts Refine Refine2 Build1 Build2 Build4 BuilderProofs3 Schema Ident Codegen Resolve Parser Compile SpecResolve SpecGen SpecTable SpecDoc
  GenProofs1 GenProofs2 GenProofs3 GenProofs4 GenProofs6 GenProofs8 TableProofs1 TableProofs2 ResolveProofs9 DocProofs1 DocProofs2 DocProofs3 DocProofs4.
Import ListNotations.
Local Open Scope list_scope.
Local Open Scope Z_scope.

Lemma target_shape h t u buf loc w : follow_ty t = Some (FUOffset u) -> follow h u buf loc = Val w -> shape (FUOffset u) w.
Proof.
  intros Ft H. destruct t as [p| |t|q [| |vs b|]]; cbn [follow_ty] in Ft; try discriminate Ft.
  - injection Ft as <-. cbn [follow] in H. repeat (apply bind_Val in H as (? & _ & H)). injection H as <-. cbn [shape]. eauto.
  - destruct (follow_ty t) as [e|]; [|discriminate Ft]. injection Ft as <-. cbn [follow] in H. injection H as <-. cbn [shape]. eauto.
  - injection Ft as <-. cbn [follow] in H. injection H as <-. cbn [shape]. eauto.
  - destruct (enum_compiles vs b); discriminate Ft.
Qed.
Lemma new_fresh c : 0 <= c <= MAX_BUFFER_SIZE -> exists b, new_with_capacity c = Val b /\ nested b = false /\ finished b = false /\ blen (unfinished_data b) = 0.
Proof.
  intros Hc. unfold new_with_capacity, assert_always. replace (c <=? MAX_BUFFER_SIZE) with true by lia. cbn [bind]. eexists. split; [reflexivity|]. split; [reflexivity|]. split; [reflexivity|].
  unfold unfinished_data. cbn [head owned_buf]. rewrite blen_skipn, blen_zeros. lia.
Qed.

Section Docs.
Context (fl : floats) (snake : text -> text) (root : list node) (hg : host) (es : list element).
Context (B : build snake es = Done root) (F : floats_ok fl).
Context (All : compiled_tables fl snake root hg).

Lemma doc_between x t u : follow_ty t = Some (FUOffset u) -> fits fl snake root x t -> exists y, calls_for fl snake root hg x t = Some y /\
  forall h c before xs b0, 0 <= c -> calls_ok before = true -> closed before = true -> program h c before = Val (b0, xs) -> nested b0 = false ->
    blen (unfinished_data b0) + tree_size y + 150000 < 2 ^ 31 ->
    exists b1 o, put h b0 y = Val (b1, Some (POffset o)) /\
      forall hr later b zs, calls_ok later = true -> no_reset later = true -> run h b1 later = Val (b, zs) -> blen (unfinished_data b) < 2 ^ 31 ->
        exists w, follow hr u (unfinished_data b) (blen (unfinished_data b) - o) = Val w /\ reads fl snake root hg hr (unfinished_data b) x t (GPlain w).
Proof.
  intros Ft [Sx Kx]. destruct (all_can fl snake root hg es B F All x) as [Cx _]. destruct (Cx t _ Ft Sx) as (y & Cy & Ty & Ry & Rd). apply Ry in Kx. clear Ry. rename Kx into Ry. exists y. split; [exact Cy|].
  intros h c before xs b0 Hc Ho Hcl H N L. destruct (document_written h c 8190 before xs b0 u y) as (b1 & o & P & _); auto; try lia.
  exists b1, o. split; [exact P|]. intros hr later b zs Hl Hr R Lb.
  destruct (document_round_trip_all h hr c 8190 before xs b0 u y b1 o later b zs) as (w & Fw & S); auto; try lia.
  exists w. split; [exact Fw|]. apply Rd; [|exact S]. eapply target_shape; eauto.
Qed.

Definition file_of (x : doc) (q : qident) (ident : option (list byte)) (sp : bool) (D : list byte) : Prop :=
  (forall hr, exists w, (if sp then get_size_prefixed_root hr FTable D else get_root hr FTable D) = Val w /\ reads fl snake root hg hr D x (ICustom q KTable) (GPlain w)) /\
  (forall hr i j, ident = Some i -> blen j = 4 -> buffer_has_identifier hr D j sp = Val (bytes_eqb j i)) /\
  (sp = true -> le_at D 0 4 (blen D - 4)).
Lemma doc_saved x q : fits fl snake root x (ICustom q KTable) -> exists y, calls_for fl snake root hg x (ICustom q KTable) = Some y /\
  forall h c ident sp, 0 <= c <= MAX_BUFFER_SIZE -> match ident with Some i => blen i = 4 | None => True end -> tree_size y + 150000 < 2 ^ 31 ->
    exists D, save fl snake root hg h c x q ident sp = Val D /\ file_of x q ident sp D.
Proof.
  intros [Sx Kx]. destruct (all_can fl snake root hg es B F All x) as [Cx _]. destruct (Cx (ICustom q KTable) _ eq_refl Sx) as (y & Cy & Ty & Ry & Rd). apply Ry in Kx. clear Ry. rename Kx into Ry. exists y. split; [exact Cy|].
  intros h c ident sp Hc Hi L. destruct (new_fresh c Hc) as (b0 & E0 & N0 & F0 & L0).
  assert (H0 : program h c [] = Val (b0, [])) by (unfold program; rewrite E0; reflexivity).
  pose proof (tree_size_nonneg y) as Sz.
  destruct (tree_puttable h c 8190 (proj1 Hc) ltac:(lia) y (FUOffset FTable) [] [] b0 eq_refl eq_refl H0 (or_intror Ty) N0 Ry ltac:(lia)) as (b1 & a & P & N1 & L1).
  destruct (tree_written h h c 8190 (proj1 Hc) ltac:(lia) (or_intror (Z.le_refl 8190)) y (FUOffset FTable) [] [] b0 b1 a eq_refl eq_refl H0 (or_intror Ty) P) as (ops & ys & R1 & O1 & Nr1 & C1 & Q).
  destruct (holds_offset _ _ _ _ _ _ _ Ty Q) as (o & -> & Ho & Hob & _). specialize (Hob ltac:(lia)).
  pose proof (put_kept h y b0 b1 _ P) as [[Fi _] A4]. cbv iota beta in A4.
  pose proof (program_run _ _ _ _ _ _ _ _ H0 R1) as H1. cbn [app] in H1.
  assert (Op : forallb op_ok ops = true) by (clear - O1; unfold calls_ok in O1; rewrite forallb_forall in *; intros z I; specialize (O1 z I); apply andb_true_iff in O1; apply O1).
  destruct (program_good _ _ _ _ _ (proj1 Hc) Op H1) as [I1 Ga].
  assert (P8 : pow8 (min_align b1)) by (destruct Ga as [Ga|Ga]; [exfalso; clear - Ga A4; lia|exact Ga]).
  destruct (finish_fwd h b1 o ident sp I1 N1 ltac:(congruence) P8 (conj (proj1 Ho) Hob) Hi ltac:(lia)) as (b2 & Fin & F2 & L2).
  exists (unfinished_data b2). split.
  { unfold save. rewrite Cy, E0. cbn [bind]. rewrite P. cbn [bind]. rewrite Fin. cbn [bind]. unfold finished_data, assert_finished. rewrite F2. unfold debug_assert. destruct (debug h); reflexivity. }
  assert (Rf : run h b1 [OpFinish o ident sp] = Val (b2, [ONone])) by (cbn [run step]; unfold without; rewrite Fin; reflexivity).
  assert (Okf : op_ok (OpFinish o ident sp) = true) by (cbn [op_ok]; unfold u32_ok; destruct ident; clear - Ho Hi; lia).
  assert (Cof : calls_ok [OpFinish o ident sp] = true) by (unfold calls_ok; cbn [forallb]; rewrite Okf; reflexivity).
  assert (Okall : forallb op_ok (ops ++ [OpFinish o ident sp]) = true) by (rewrite forallb_app, Op; cbn [forallb]; rewrite Okf; reflexivity).
  pose proof (program_run _ _ _ _ _ _ _ _ H1 Rf) as H2. clear Cx.
  assert (Fit : ident_fits h ident) by (right; exact Hi).
  assert (Lall : blen (unfinished_data b2) < 2 ^ 31) by (clear - L L1 L2 L0; lia). assert (L32 : blen (unfinished_data b2) < 2 ^ 32) by (clear - Lall; lia).
  pose proof (proj1 Hc) as Hc0. assert (Lim : 8190 <= 32765) by (clear; lia). assert (Sm : debug h = true \/ 8190 <= 8190) by (right; apply Z.le_refl).
  assert (Rt : forall b ys', program h c ops = Val (b, ys') -> o <= blen (unfinished_data b)) by (intros b ys' E; rewrite H1 in E; injection E as <- <-; exact Hob).
  split; [|split].
  - intros hr. destruct (document_round_trip_all h hr c 8190 [] [] b0 FTable y b1 o [OpFinish o ident sp] b2 [ONone]) as (w & Fw & S); auto.
    exists w. destruct (finish_root h hr c ops o ident sp b2 (ys ++ [ONone]) FTable) as [E _]; auto.
    split; [rewrite E; exact Fw|]. apply Rd; [|exact S]. eapply (target_shape hr (ICustom q KTable)); eauto.
  - intros hr i j -> Hj. apply (finish_identified h hr c ops o i sp b2 (ys ++ [ONone])); auto.
    intros b ys' E. rewrite H1 in E. injection E as <- <-. exact A4.
  - intros ->. destruct (finish_root h h c ops o ident true b2 (ys ++ [ONone]) FTable) as (_ & E & _); auto.
Qed.

(** Documents of the Rust types that are not complete are refused. *)
Lemma doc_refused x t u : follow_ty t = Some (FUOffset u) -> shaped snake root x t -> exists y, calls_for fl snake root hg x t = Some y /\
  (complete fl snake root x t \/ ~ complete fl snake root x t /\
   forall h c before xs b0, 0 <= c -> calls_ok before = true -> closed before = true -> program h c before = Val (b0, xs) -> nested b0 = false ->
     blen (unfinished_data b0) + tree_size y + 150000 < 2 ^ 31 -> put h b0 y = Panic).
Proof.
  intros Ft Sx. destruct (all_can fl snake root hg es B F All x) as [Cx _]. destruct (Cx t _ Ft Sx) as (y & Cy & Ty & Ry & Rd). exists y. split; [exact Cy|].
  destruct (all_required_given y) eqn:R; [left; apply Ry; reflexivity|right]. split; [intros Q; apply Ry in Q; discriminate Q|].
  intros h c before xs b0 Hc Ho Hcl H N L. apply (document_refused h c 8190 before xs b0 u y); auto. lia.
Qed.
Lemma doc_exact x q : shaped snake root x (ICustom q KTable) -> exists y, calls_for fl snake root hg x (ICustom q KTable) = Some y /\
  forall h c ident sp, 0 <= c <= MAX_BUFFER_SIZE -> match ident with Some i => blen i = 4 | None => True end -> tree_size y + 150000 < 2 ^ 31 ->
    (complete fl snake root x (ICustom q KTable) /\ exists D, save fl snake root hg h c x q ident sp = Val D) \/
    (~ complete fl snake root x (ICustom q KTable) /\ save fl snake root hg h c x q ident sp = Panic).
Proof.
  intros Sx. destruct (doc_refused x (ICustom q KTable) FTable eq_refl Sx) as (y & Cy & [Kx|[Kx P]]); exists y; (split; [exact Cy|]); intros h c ident sp Hc Hi L.
  - left. split; [exact Kx|]. destruct (doc_saved x q (conj Sx Kx)) as (y' & Cy' & S). assert (y' = y) by congruence. subst y'.
    destruct (S h c ident sp Hc Hi L) as (D & E & _). eauto.
  - right. split; [exact Kx|]. destruct (new_fresh c Hc) as (b0 & E0 & N0 & _ & L0).
    unfold save. rewrite Cy, E0. cbn [bind]. rewrite (P h c [] [] b0); auto; [lia|unfold program; rewrite E0; reflexivity|lia].
Qed.
End Docs.

Lemma doc_from_text ua un uw f6 fh has_stem snake t root fl hg x q : compile ua un uw f6 fh has_stem snake t = Generated root ->
  floats_ok fl -> compiled_tables fl snake root hg -> fits fl snake root x (ICustom q KTable) -> exists y, calls_for fl snake root hg x (ICustom q KTable) = Some y /\
  forall h c ident sp, 0 <= c <= MAX_BUFFER_SIZE -> match ident with Some i => blen i = 4 | None => True end -> tree_size y + 150000 < 2 ^ 31 ->
    exists D, save fl snake root hg h c x q ident sp = Val D /\
      forall hr, exists w, (if sp then get_size_prefixed_root hr FTable D else get_root hr FTable D) = Val w /\
        reads fl snake root hg hr D x (ICustom q KTable) (GPlain w).
Proof.
  unfold compile. intros C F A Fx. destruct (schema_decl _ _ _ _ _ _ t) as [[s [|r0 r]]|]; [|destruct (char_boundary 30 _); discriminate C|discriminate C].
  destruct (build snake (sc_elements s)) as [root'| |] eqn:B; try discriminate C. injection C as ->.
  destruct (doc_saved fl snake root hg (sc_elements s) B F A x q Fx) as (y & Cy & H). exists y. split; [exact Cy|].
  intros h c ident sp Hc Hi L. destruct (H h c ident sp Hc Hi L) as (D & S & R & _). exists D. split; [exact S|exact R].
Qed.

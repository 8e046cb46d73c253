(** Documents saved and read by code of two versions of a schema. *)
From Coq Require Import ZArith List Strings.Byte Lia.
From Verif Require Import Base Scalar SpecWire Reader SpecReader Builder Ops SpecBuilder Schema Codegen Resolve SpecResolve SpecEvolve SpecGen SpecTable SpecDoc SpecGrow
  GenProofs9 DocProofs5 GrowProofs1 GrowProofs2.
Import ListNotations.
Local Open Scope Z_scope.

Section Both.
Context (fl : floats) (snake : text -> text) (es es' : list element) (r r' : list node).
Context (S : settled es) (S' : settled es') (E : evolves es es') (B : build snake es = Done r) (B' : build snake es' = Done r').
Context (F : floats_ok fl) (hg hg' : host) (C : compiled_tables fl snake r hg) (C' : compiled_tables fl snake r' hg').

Lemma new_reads_old x q : fits fl snake r x (ICustom q KTable) -> exists y, calls_for fl snake r hg x (ICustom q KTable) = Some y /\
  forall h c ident sp, 0 <= c <= MAX_BUFFER_SIZE -> match ident with Some i => blen i = 4 | None => True end -> tree_size y + 150000 < 2 ^ 31 ->
    exists D, save fl snake r hg h c x q ident sp = Val D /\
      forall hr, exists w, (if sp then get_size_prefixed_root hr FTable D else get_root hr FTable D) = Val w /\
        reads fl snake r hg hr D x (ICustom q KTable) (GPlain w) /\ reads_late fl snake r r' hg' hr D x (ICustom q KTable) (GPlain w).
Proof.
  intros Fx. destruct (doc_saved fl snake r hg es B F C x q Fx) as (y & Cy & H). exists y. split; [exact Cy|]. intros h c ident sp Hc Hi L.
  destruct (H h c ident sp Hc Hi L) as (D & Sv & R & _). exists D. split; [exact Sv|]. intros hr. destruct (R hr) as (w & G & Rw). exists w. split; [exact G|]. split; [exact Rw|].
  eapply (late_reads fl snake es es' r r' S S' E B B' hg hg' C'); [| |exact Rw]; constructor; constructor.
Qed.
Lemma old_reads_new x q fs : table_named r q fs -> fits fl snake r' x (ICustom q KTable) -> exists y, calls_for fl snake r' hg' x (ICustom q KTable) = Some y /\
  forall h c ident sp, 0 <= c <= MAX_BUFFER_SIZE -> match ident with Some i => blen i = 4 | None => True end -> tree_size y + 150000 < 2 ^ 31 ->
    exists D, save fl snake r' hg' h c x q ident sp = Val D /\
      forall hr, exists w, (if sp then get_size_prefixed_root hr FTable D else get_root hr FTable D) = Val w /\
        reads fl snake r' hg' hr D x (ICustom q KTable) (GPlain w) /\ reads_early fl snake r r' hg hr D x (ICustom q KTable) (Val (Some (GPlain w))).
Proof.
  intros T Fx. destruct (doc_saved fl snake r' hg' es' B' F C' x q Fx) as (y & Cy & H). exists y. split; [exact Cy|]. intros h c ident sp Hc Hi L.
  destruct (H h c ident sp Hc Hi L) as (D & Sv & R & _). exists D. split; [exact Sv|]. intros hr. destruct (R hr) as (w & G & Rw). exists w. split; [exact G|]. split; [exact Rw|].
  destruct T as (path & t & It & Eq & _).
  eapply (early_reads fl snake es es' r r' S S' E B B' hg hg' C C'); [|exact (proj1 Fx)|exact Rw].
  unfold defined, definitions. apply in_flat_map. exists (NTable t). split; [apply in_map_iff; exists (path, NTable t); auto|]. left. rewrite Eq. reflexivity.
Qed.
End Both.

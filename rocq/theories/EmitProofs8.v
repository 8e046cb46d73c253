(** Schemas the generator panics on. *)
From Coq Require Import Strings.String ZArith List Bool Lia Strings.Byte Permutation.
From Verif Require Import Base BaseFacts Schema Ident SpecIdent IdentProofs Parser Heck HeckProofs Codegen Resolve SpecResolve ResolveProofs1 ResolveProofs4 ResolveProofs5 ResolveProofs6 ResolveProofs8 Emit SpecEmit EmitProofs1 EmitProofs6 EmitProofs7.
Import ListNotations.
Local Open Scope nat_scope.

Section Panics.
Context (shouty : text -> text) (ident_ok : ident -> bool) (path_ok : qident -> bool).
Context (literal_ok : scalar_const -> bool -> option qident -> ity -> bool) (hg : host).
Notation emit_node := (emit_node snake_case shouty ident_ok path_ok literal_ok hg).
Notation emit := (emit snake_case shouty ident_ok path_ok literal_ok hg).
Context (es : list element) (root : list node) (B : build snake_case es = Done root).

Lemma declared_node e : In e es -> exists place roots view out, declares snake_case roots view place e out /\ forall n, In n out -> In (module_of n, n) (all_contents root).
Proof.
  intros I. apply In_nth_error in I as (i & N). destruct (build_resolution snake_case es root B) as (place & roots & outs & R & Nu & _).
  destruct (res_declares _ _ _ _ _ R i e N) as (out & No & D). exists (place i), roots, (known es place outs e), out. split; [exact D|].
  intros n J. apply (contents_In root outs Nu). split; [|reflexivity]. apply in_concat. exists out. split; [eapply nth_error_In; eauto|exact J].
Qed.
Lemma struct_panics t : In (EStruct t) es -> emit root = None.
Proof.
  intros I. destruct (declared_node _ I) as (place & roots & view & out & D & C). inversion D; subst.
  eapply emit_some_node; [apply C; left; reflexivity|reflexivity].
Qed.
Lemma table_bad t f : In f (it_fields t) -> args_field ident_ok path_ok literal_ok (q_namespace (it_id t)) f = None \/ accessor snake_case ident_ok path_ok literal_ok (q_namespace (it_id t)) f = None ->
  emit_node (NTable t) = None.
Proof.
  intros I [E|E]; cbn [Emit.emit_node]; unfold emit_table; rewrite every_bad; try reflexivity.
  - do 3 right. left. apply every_bad. apply in_map_iff. eauto.
  - do 7 right. left. apply every_bad. apply in_map_iff. eauto.
Qed.
Lemma field_node view prefix fs l : table_fields_of snake_case view prefix fs l -> forall f, In f fs ->
  exists ty r, resolves view prefix (af_ty f) ty /\ In (IField (fix_identifier (af_id f)) ty (default_of f) r (af_doc f)) l.
Proof.
  induction 1 as [|f fs ty l R U T IH|f fs q e vs c l R V T IH]; intros g I; [destruct I| |]; destruct I as [<-|I].
  - exists ty, (required_of (af_meta f)). split; [exact R|left; reflexivity].
  - destruct (IH g I) as (ty' & r & R' & J). exists ty', r. split; [exact R'|right; exact J].
  - exists (ICustom q (KUnion e vs)), (required_of (af_meta f)). split; [exact R|right; left; reflexivity].
  - destruct (IH g I) as (ty' & r & R' & J). exists ty', r. split; [exact R'|right; right; exact J].
Qed.
Context (Rj : rejects ident_ok literal_ok).
Lemma snake_rejected x : name_text x -> ~ starts_with_letter x -> ident_ok (snake_case x) = false.
Proof.
  intros N S. destruct (first_letter x) as [U|(u & c & r & E & U0 & C)]; [|assert (U : Forall (fun b => b = usc) u) by (eapply Forall_impl; [|exact U0]; intros ? [_ X]; exact X)].
  - rewrite (proj2 (snake_empty x) U). apply (rj_empty _ _ Rj).
  - destruct (snake_first x N u c r E U C) as (s & ->). assert (D : In c (lit "0123456789")).
    { destruct (in_dec Byte.byte_eq_dec c (lit "0123456789")) as [Y|Y]; [exact Y|]. exfalso. apply S. exists u, c, r. split; [exact E|].
      split; [eapply Forall_impl; [|exact U]; intros a ->; left; reflexivity|]. intros J. destruct J as [J|J]; [apply C; symmetry; exact J|apply Y; exact J]. }
    replace (to_lower c) with c; [apply (rj_digit _ _ Rj); exact D|]. cbn in D. repeat destruct D as [<-|D]; try reflexivity. destruct D.
Qed.
Lemma field_panics t f : In (ETable t) es -> In f (ap_fields t) -> name_text (af_id f) -> ~ starts_with_letter (af_id f) -> emit root = None.
Proof.
  intros I If N S. destruct (declared_node _ I) as (place & roots & view & out & D & C). inversion D as [| |t' fs T| | | |]; subst.
  eapply emit_some_node; [apply C; left; reflexivity|]. destruct (field_node _ _ _ _ T f If) as (ty & r & _ & J).
  eapply table_bad; [exact J|right]. unfold accessor. apply every_bad. left. cbn [if_id]. destruct (fix_letter _ N) as [N' L]. rewrite snake_rejected; [reflexivity|exact N'|tauto].
Qed.
Lemma default_panics t f c : In (ETable t) es -> In f (ap_fields t) -> af_default f = Some (DScalar c) -> (forall b, c <> CBool b) -> (forall p, af_ty f <> APrim p) -> emit root = None.
Proof.
  intros I If E Nb Np. destruct (declared_node _ I) as (place & roots & view & out & D & C). inversion D as [| |t' fs T| | | |]; subst.
  eapply emit_some_node; [apply C; left; reflexivity|]. destruct (field_node _ _ _ _ T f If) as (ty & r & R & J).
  eapply table_bad; [exact J|left]. unfold args_field. apply every_bad. right. left. unfold default_doc_ok, default_of. cbn [if_default if_ty]. rewrite E.
  assert (X : forall w ns, literal_ok c w ns ty = false).
  { intros w ns. apply (rj_literal _ _ Rj). intros p ->. inversion R; subst. eapply Np; eauto. }
  destruct c as [i|b|b]; [|rewrite X, andb_false_r; reflexivity|exfalso; eapply Nb; reflexivity]. rewrite X, andb_false_r. reflexivity.
Qed.
End Panics.

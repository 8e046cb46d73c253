(** Names meant as types of the generated code. *)
From Coq Require Import Strings.String ZArith List Bool Lia Strings.Byte.
From Verif Require Import Base BaseFacts Schema Ident SpecIdent Heck Resolve SpecResolve ResolveProofs5 ResolveProofs6 Emit SpecEmit SpecTable SpecPaths SpecNames EmitProofs2 EmitProofs5 EmitProofs7 EmitProofs9 EmitProofs10 Names NameProofs.
Import ListNotations.
Local Open Scope string_scope.
Local Open Scope list_scope.

(** The types that the code of a definition consists of. *)
Definition own (n : node) (x : ident) (k : rkind) : Prop :=
  match n with
  | NTable t => x = last (it_id t) [] /\ k = RTable \/ x = last (it_id t) [] ++ lit "Args" /\ k = RArgs \/ x = last (it_id t) [] ++ lit "Builder" /\ k = RBuilder
  | NEnum e => x = last (ie_id e) [] /\ k = REnum
  | NUnion u => x = last (iu_id u) [] /\ k = RUnion
  | _ => False
  end.
Definition meant (n : node) (u : use) : Prop :=
  forall k, u_means u = Item k -> (exists x, u_path u = [x] /\ own n x k) \/ exists q, In (q, k) (spelled n) /\ u_path u = relative q (q_namespace (node_ident n)).
Lemma meant_std n params w : meant n (std params w).
Proof. intros k E. discriminate E. Qed.
Lemma meant_own n params x k : own n x k -> meant n (Use params [x] (Item k)).
Proof. intros O k' E. injection E as <-. left. exists x. auto. Qed.
Lemma meant_ty n params t u : (forall q k, In (q, k) (SpecPaths.ty_uses t) -> In (q, k) (spelled n)) -> In u (Names.ty_uses params (q_namespace (node_ident n)) t) -> meant n u.
Proof.
  revert u. induction t as [p| |t IH|q c]; cbn [Names.ty_uses]; intros u S I.
  - destruct I as [<-|[]]. apply meant_std.
  - destruct I as [<-|[]]. apply meant_std.
  - destruct I as [<-|I]; [apply meant_std|]. apply IH; [exact S|exact I].
  - destruct I as [<-|I].
    + intros k E. injection E as <-. right. exists q. split; [apply S; left; reflexivity|reflexivity].
    + destruct c; try (destruct I; fail). destruct I as [<-|[]]. apply meant_std.
Qed.
Section Table.
Context (t : itable) (f : ifield) (If : In f (it_fields t)).
Local Notation ns := (q_namespace (it_id t)).
Lemma field_spelled q k : In (q, k) (SpecPaths.ty_uses (if_ty f)) -> In (q, k) (spelled (NTable t)).
Proof. intros I. cbn [spelled]. apply in_flat_map. exists f. split; [exact If|]. apply in_or_app. left. exact I. Qed.
Lemma field_meant params u : In u (Names.ty_uses params ns (if_ty f)) -> meant (NTable t) u.
Proof. intros I. exact (meant_ty (NTable t) params (if_ty f) u field_spelled I). Qed.
Lemma table_meant params : meant (NTable t) (Use params [last (it_id t) []] (Item RTable)).
Proof. apply meant_own. left. auto. Qed.
Lemma accessor_meant u : In u (accessor_uses ns (last (it_id t) []) f) -> meant (NTable t) u.
Proof.
  unfold accessor_uses. intros I. repeat rewrite in_app_iff in I. destruct I as [I|[I|[I|I]]].
  - destruct I as [<-|[<-|[<-|[]]]]; [apply meant_std|apply meant_std|apply table_meant].
  - destruct (if_required f); [destruct I|destruct I as [<-|[]]; apply meant_std].
  - exact (field_meant _ _ I).
  - destruct (if_ty f) as [| | |q [| | |e vs]] eqn:T; try (destruct I; fail).
    assert (S : forall q' k, In (q', k) (SpecPaths.union_uses e vs) -> In (q', k) (spelled (NTable t))).
    { intros q' k J. cbn [spelled]. apply in_flat_map. exists f. split; [exact If|]. apply in_or_app. right. rewrite T. exact J. }
    apply in_app_iff in I as [I|I].
    + destruct I as [<-|[<-|[]]]; intros k E; injection E as <-; right.
      * exists q. split; [apply field_spelled; rewrite T; left; reflexivity|reflexivity].
      * exists e. split; [apply S; left; reflexivity|reflexivity].
    + apply in_flat_map in I as (v & Iv & I). apply (meant_ty (NTable t) param (iuv_ty v)); [|exact I]. intros q' k J. apply S. right. apply in_flat_map. exists v. auto.
Qed.
Lemma arg_meant u : In u (arg_uses ns f) -> meant (NTable t) u.
Proof.
  unfold arg_uses. intros I. apply in_app_iff in I as [I|I].
  - destruct (is_union (if_ty f)); destruct I as [<-|I]; try apply meant_std; [destruct I|exact (field_meant _ _ I)].
  - destruct (_ || _); [destruct I|destruct I as [<-|[]]; apply meant_std].
Qed.
Lemma arg_default_meant u : In u (arg_default_uses ns f) -> meant (NTable t) u.
Proof.
  intros I. apply (field_meant [] u). unfold arg_default_uses in I. destruct (if_ty f) as [| | |q [| | |]]; try (destruct I; fail); try exact I; destruct (if_default f); try (destruct I; fail); exact I.
Qed.
Lemma add_meant u : In u (add_uses ns (last (it_id t) []) f) -> meant (NTable t) u.
Proof.
  unfold add_uses. intros I. apply in_app_iff in I as [[<-|[<-|[]]]|I]; [apply meant_std|apply table_meant|].
  destruct (is_union (if_ty f)); [destruct I|exact (field_meant _ _ I)].
Qed.
End Table.
Ltac here := first [apply meant_std|apply meant_own; cbn [own]; tauto].
Lemma node_meant n u : In u (node_uses n) -> meant n u.
Proof.
  destruct n as [q l|t|s|e|v|r]; cbn [node_uses]; try (intros []; fail).
  - unfold table_uses. intros I. repeat rewrite in_app_iff in I.
    destruct I as [I|[I|[I|[I|[I|[I|[I|[I|[I|[I|I]]]]]]]]]].
    1-4,6,7,10: cbn [In] in I; repeat (destruct I as [<-|I]; [here|]); destruct I.
    + apply in_flat_map in I as (f & If & I). exact (accessor_meant t f If u I).
    + apply in_flat_map in I as (f & If & I). exact (arg_meant t f If u I).
    + destruct (forallb _ _); [|destruct I]. apply in_app_iff in I as [I|I].
      * destruct I as [<-|[<-|[]]]; here.
      * apply in_flat_map in I as (f & If & I). exact (arg_default_meant t f If u I).
    + apply in_flat_map in I as (f & If & I). exact (add_meant t f If u I).
  - unfold enum_uses. cbn [In]. intros I. repeat (destruct I as [<-|I]; [here|]). destruct I.
  - unfold Names.union_uses. intros I. apply in_app_iff in I as [[<-|[<-|[]]]|I]; [here| |].
    + intros k E. injection E as <-. right. exists (iu_enum v). split; [left; reflexivity|reflexivity].
    + apply in_flat_map in I as (w & Iw & I). apply (meant_ty (NUnion v) [] (iuv_ty w)); [|exact I]. intros q' k J. right. apply in_flat_map. exists w. auto.
Qed.

Lemma item_meant snake shouty ident_ok path_ok literal_ok hg nodes its n u k : emit snake shouty ident_ok path_ok literal_ok hg nodes = Some its ->
  In n nodes -> In u (node_uses n) -> u_means u = Item k ->
  (exists x paths, u_path u = [x] /\ In (XType k x paths) its) \/ exists k0 x paths, In (XType k0 x paths) its /\ In (u_path u, k) paths.
Proof.
  intros E I U M. destruct (emit_in _ _ _ _ _ _ _ _ _ E I) as (y & X & S). destruct (node_meant n u U k M) as [(x & P & O)|(q & Q & P)].
  - left. destruct n as [q l|t|s|e|v|r]; cbn [own] in O; try contradiction; cbn [emit_node] in X.
    + unfold emit_table in X. destruct (every _) as [ps|]; [|discriminate X]. injection X as <-. destruct O as [[-> ->]|[[-> ->]|[-> ->]]]; eexists; eexists; (split; [exact P|apply S; cbn [In]; eauto]).
    + unfold emit_enum in X. destruct (every _) as [ps|]; [|discriminate X]. injection X as <-. destruct O as [-> ->]. eexists. eexists. split; [exact P|apply S; left; reflexivity].
    + unfold emit_union in X. destruct (every _) as [ps|]; [|discriminate X]. injection X as <-. destruct O as [-> ->]. eexists. eexists. split; [exact P|apply S; left; reflexivity].
  - right. assert (Pn : plain n) by (destruct n; try exact Logic.I; destruct U).
    destruct (proj2 (node_paths_iff snake shouty ident_ok path_ok literal_ok hg n y (u_path u) k X Pn)) as (k0 & x & paths & Ix & Ip); [exists q; auto|]. exists k0, x, paths. split; [apply S; exact Ix|exact Ip].
Qed.

Lemma items_case : exists root its n, build snake_case [en "E" Byte [vr "X"]; uses "T" (nm "E")] = Done root /\ sample_emit (Host true false) root = Some its /\
  In n root /\ In (Use [] [lit "TBuilder"] (Item RBuilder)) (node_uses n) /\ In (Use [] [lit "E"] (Item REnum)) (node_uses n) /\ In (Use param [lit "E"] (Item REnum)) (node_uses n).
Proof.
  do 3 eexists. split; [vm_compute; reflexivity|]. split; [vm_compute; reflexivity|]. split; [right; left; reflexivity|].
  repeat split; vm_compute; repeat first [left; reflexivity|right].
Qed.

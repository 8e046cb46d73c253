(** The paths in emitted code, and where they lead. *)
From Coq Require Import Strings.String ZArith List Bool Lia Strings.Byte Permutation.
From Verif Require Import Base BaseFacts Schema Ident SpecIdent IdentProofs Codegen GenProofs1 GenProofs8 Resolve SpecResolve ResolveProofs1 ResolveProofs4 ResolveProofs5 ResolveProofs6 ResolveProofs9 Emit SpecEmit EmitProofs1 EmitProofs2.
Import ListNotations.
Local Open Scope nat_scope.

Lemma every_in {A} (l : list (option (list A))) : forall x p, every l = Some x -> In p x -> exists y, In (Some y) l /\ In p y.
Proof.
  induction l as [|[y|] l IH]; cbn [every]; intros x p E I; [injection E as <-; destruct I| |discriminate].
  destruct (every l) as [z|]; [|discriminate]. injection E as <-. apply in_app_iff in I as [I|I].
  - exists y. split; [left; reflexivity|exact I].
  - destruct (IH z p eq_refl I) as (w & W & J). exists w. split; [right; exact W|exact J].
Qed.
Lemma ensure_in {A} b (x : list A) p : Some x = ensure b -> In p x -> False.
Proof. unfold ensure. destruct b; [|discriminate]. intros E. injection E as ->. auto. Qed.
Lemma ty_paths_in ns t path k : In (path, k) (ty_paths ns t) -> exists q c, In (q, c) (ty_mentions t) /\ path = relative q ns /\ k = rkind_of c.
Proof.
  induction t as [| | t IH |q c]; cbn [ty_paths ty_mentions]; try (intros []; fail); [exact IH|].
  intros [E|[]]. injection E as <- <-. exists q, c. split; [left; reflexivity|auto].
Qed.

Section Paths.
Context (snake shouty : text -> text) (ident_ok : ident -> bool) (path_ok : qident -> bool).
Context (literal_ok : scalar_const -> bool -> option qident -> ity -> bool) (hg : host).
Notation emit_node := (emit_node snake shouty ident_ok path_ok literal_ok hg).
Notation emit := (emit snake shouty ident_ok path_ok literal_ok hg).

Lemma type_tokens_in ns t x path k : Some x = type_tokens path_ok ns t -> In (path, k) x -> exists q c, In (q, c) (ty_mentions t) /\ path = relative q ns /\ k = rkind_of c.
Proof. unfold type_tokens. destruct (forallb _ _); [|discriminate]. intros E. injection E as ->. apply ty_paths_in. Qed.
Lemma path_tokens_in q k x path k' : Some x = path_tokens path_ok q k -> In (path, k') x -> path = q /\ k' = k.
Proof. unfold path_tokens. destruct (path_ok q); [|discriminate]. intros E. injection E as ->. intros [E|[]]. injection E as <- <-. auto. Qed.
Lemma default_tokens_in w ns t d x path k : Some x = default_tokens ident_ok path_ok literal_ok w ns t d -> In (path, k) x ->
  exists q c, In (q, c) (ty_mentions t) /\ path = relative q ns /\ k = rkind_of c.
Proof.
  unfold default_tokens. destruct d as [[i|b|b]|i]; try (intros E I; destruct (ensure_in _ _ _ E I)).
  - intros E. injection E as ->. intros [].
  - destruct (ident_ok i); [apply type_tokens_in|discriminate].
Qed.

(** The types a type's use needs: a union's use needs its members and its
    companion. *)
Definition needs_of (d : qident * icustom) : list (qident * rkind) :=
  (fst d, rkind_of (snd d)) ::
  match snd d with
  | KUnion e vs => (e, REnum) :: flat_map (fun v => map (fun m => (fst m, rkind_of (snd m))) (ty_mentions (iuv_ty v))) vs
  | _ => []
  end.
Definition needs (n : node) : list (qident * rkind) :=
  match n with
  | NTable t => flat_map (fun f => flat_map needs_of (ty_mentions (if_ty f))) (it_fields t)
  | NUnion u => needs_of (iu_id u, KUnion (iu_enum u) (iu_variants u))
  | _ => []
  end.
Lemma mention_need t q c : In (q, c) (ty_mentions t) -> In (q, rkind_of c) (flat_map needs_of (ty_mentions t)).
Proof. intros I. apply in_flat_map. exists (q, c). split; [exact I|left; reflexivity]. Qed.

Ltac split_every :=
  repeat match goal with
  | E : every _ = Some ?x, I : In _ ?x |- _ => let y := fresh "y" in let H := fresh "H" in destruct (every_in _ _ _ E I) as (y & H & ?); clear E I
  | H : In (Some _) (_ :: _) |- _ => destruct H as [H|H]
  | H : In (Some _) [] |- _ => destruct H
  | H : In (Some _) (map _ _) |- _ => apply in_map_iff in H as (? & H & ?)
  | E : ensure _ = Some ?x, I : In _ ?x |- _ => destruct (ensure_in _ _ _ (eq_sym E) I)
  | E : Some [] = Some ?x, I : In _ ?x |- _ => injection E as <-; destruct I
  end.

Lemma offsets_in fs : forall i x p, Some x = offset_constants hg i fs -> In p x -> False.
Proof.
  induction fs as [|f fs IH]; intros i x p E I; cbn [offset_constants] in E; [injection E as ->; destruct I|].
  symmetry in E. split_every.
  - unfold offset_constant in H. destruct (slot_of hg i); [|discriminate]. injection H as <-. destruct H0.
  - eapply IH; [symmetry; exact H|exact H0].
Qed.
Definition field_path (ns : option qident) (f : ifield) (path : qident) (k : rkind) : Prop :=
  exists q, In (q, k) (flat_map needs_of (ty_mentions (if_ty f))) /\ path = relative q ns.
Lemma from_type ns f x path k : type_tokens path_ok ns (if_ty f) = Some x -> In (path, k) x -> field_path ns f path k.
Proof. intros E I. destruct (type_tokens_in _ _ _ _ _ (eq_sym E) I) as (q & c & M & -> & ->). exists q. split; [apply mention_need; exact M|reflexivity]. Qed.
Lemma from_default ns f w d x path k : default_tokens ident_ok path_ok literal_ok w ns (if_ty f) d = Some x -> In (path, k) x -> field_path ns f path k.
Proof. intros E I. destruct (default_tokens_in _ _ _ _ _ _ _ (eq_sym E) I) as (q & c & M & -> & ->). exists q. split; [apply mention_need; exact M|reflexivity]. Qed.
Lemma args_field_paths ns f x path k : args_field ident_ok path_ok literal_ok ns f = Some x -> In (path, k) x -> field_path ns f path k.
Proof. unfold args_field. intros E I. split_every. destruct (is_union (if_ty f)); [injection H as <-; destruct H0|eapply from_type; eauto]. Qed.
Lemma args_default_paths ns f x path k : args_default ident_ok path_ok literal_ok ns f = Some x -> In (path, k) x -> field_path ns f path k.
Proof.
  unfold args_default. intros E I. split_every; [eapply from_type; eauto|]. exfalso.
  destruct (negb _); [injection H as <-; destruct H0|]. destruct (if_default f) as [d|]; [|injection H as <-; destruct H0].
  destruct (is_enum (if_ty f)), d as [[i|b|b]|i]; try discriminate H; try (injection H as <-; destruct H0); destruct (ensure_in _ _ _ (eq_sym H) H0).
Qed.
Lemma builder_method_paths ns f x path k : builder_method shouty ident_ok path_ok literal_ok ns f = Some x -> In (path, k) x -> field_path ns f path k.
Proof.
  unfold builder_method. intros E I. split_every.
  - destruct (is_union (if_ty f)); [injection H as <-; destruct H0|eapply from_type; eauto].
  - destruct (if_default f) as [d|]; [|injection H as <-; destruct H0]. destruct (is_scalar (if_ty f)); [eapply from_default; eauto|injection H as <-; destruct H0].
Qed.
Ltac by_member :=
  match goal with T : type_tokens _ _ (iuv_ty ?v) = Some ?y, J : In _ ?y |- _ =>
    let q := fresh "q" in let c := fresh "c" in let M := fresh "M" in
    destruct (type_tokens_in _ _ _ _ _ (eq_sym T) J) as (q & c & M & -> & ->); exists q; split; [|reflexivity];
    right; right; apply in_flat_map; exists v; split; [assumption|]; apply in_map_iff; exists (q, c); auto
  end.
Lemma accessor_paths ns f x path k : accessor snake ident_ok path_ok literal_ok ns f = Some x -> In (path, k) x -> field_path ns f path k.
Proof.
  unfold accessor. intros E I. split_every.
  - eapply from_type; eauto.
  - destruct (if_default f) as [d|]; [eapply from_default; eauto|injection H as <-; destruct H0].
  - unfold field_path. destruct (if_ty f) as [| | |q [|fs|vs b|e vs]]; try (injection H as <-; destruct H0; fail). cbn [ty_mentions flat_map needs_of fst snd rkind_of]. rewrite app_nil_r.
    split_every.
    + match goal with T : path_tokens _ _ _ = Some ?y, J : In _ ?y |- _ => destruct (path_tokens_in _ _ _ _ _ (eq_sym T) J) as [-> ->] end. exists q. split; [left; reflexivity|reflexivity].
    + match goal with T : path_tokens _ _ _ = Some ?y, J : In _ ?y |- _ => destruct (path_tokens_in _ _ _ _ _ (eq_sym T) J) as [-> ->] end. exists e. split; [right; left; reflexivity|reflexivity].
    + by_member.
Qed.

Lemma node_paths n x k name paths path k' : emit_node n = Some x -> plain n -> In (XType k name paths) x -> In (path, k') paths ->
  exists q, In (q, k') (needs n) /\ path = relative q (q_namespace (node_ident n)).
Proof.
  intros E P I J. destruct n as [q ns|t|s|e|u|r]; [destruct P| | | | |]; cbn [Emit.emit_node] in E.
  - unfold emit_table in E. destruct (every _) as [ps|] eqn:V; [|discriminate]. injection E as <-. cbn [In] in I.
    assert (paths = ps) by (destruct I as [I|[I|[I|[]]]]; try (injection I as _ _ <-; destruct J); congruence). subst ps. clear I.
    assert (G : exists f, In f (it_fields t) /\ field_path (q_namespace (it_id t)) f path k').
    { destruct (every_in _ _ _ V J) as (y & H & Iy). clear V J. cbn [In] in H.
      repeat match goal with H : _ \/ _ |- _ => destruct H as [H|H] end; try contradiction; try (destruct (ensure_in _ _ _ (eq_sym H) Iy)).
      - split_every. eexists. split; [eassumption|eapply args_field_paths; eauto].
      - destruct (forallb _ _); [|injection H as <-; destruct Iy]. split_every. eexists. split; [eassumption|eapply args_default_paths; eauto].
      - split_every. eexists. split; [eassumption|eapply builder_method_paths; eauto].
      - destruct (offsets_in _ _ _ _ (eq_sym H) Iy).
      - split_every. eexists. split; [eassumption|eapply accessor_paths; eauto]. }
    destruct G as (f & If & q & M & ->). exists q. split; [|reflexivity]. cbn [needs]. apply in_flat_map. eauto.
  - discriminate.
  - unfold emit_enum in E. destruct (every _) as [ps|] eqn:V; [|discriminate]. injection E as <-. destruct I as [I|[I|[]]]; [|discriminate]. injection I as _ _ <-.
    exfalso. split_every.
  - unfold emit_union in E. destruct (every _) as [ps|] eqn:V; [|discriminate]. injection E as <-. destruct I as [I|[]]. injection I as _ _ <-. cbn [needs needs_of fst snd node_ident].
    split_every.
    + match goal with T : path_tokens _ _ _ = Some ?y, J : In _ ?y |- _ => destruct (path_tokens_in _ _ _ _ _ (eq_sym T) J) as [-> ->] end. exists (iu_enum u). split; [right; left; reflexivity|reflexivity].
    + by_member.
  - injection E as <-. destruct I.
Qed.
End Paths.

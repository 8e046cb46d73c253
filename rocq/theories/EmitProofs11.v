(** Paths to types that are defined, in schemas without clashes. *)
From Coq Require Import Strings.String ZArith List Bool Lia Strings.Byte.
From Verif Require Import Base BaseFacts Schema Ident SpecIdent IdentProofs Codegen Resolve SpecResolve ResolveProofs9 Emit SpecEmit SpecPaths EmitProofs1 EmitProofs2 EmitProofs4 EmitProofs5 EmitProofs10.
Import ListNotations.
Local Open Scope nat_scope.

Section Defined.
Context (snake : text -> text) (root : list node) (CF : clash_free snake root).
Lemma modules_injective u : forall v d, (forall a b r, u = a ++ b :: r -> namespace_in root (d ++ a ++ [b])) -> (forall a b r, v = a ++ b :: r -> namespace_in root (d ++ a ++ [b])) ->
  emitted_modules snake u = emitted_modules snake v -> u = v.
Proof.
  induction u as [|x u IH]; intros v d U V E; [destruct v; [reflexivity|discriminate]|]. destruct v as [|y v]; [discriminate|]. cbn [emitted_modules map] in E. injection E as E1 E2.
  assert (x = y) by (apply (cf_modules _ _ CF d); [apply (U [] x u eq_refl)|apply (V [] y v eq_refl)|exact E1]). subst y. f_equal.
  apply (IH v (d ++ [x])); auto; intros a b r ->; rewrite <- app_assoc; [apply (U (x :: a) b r eq_refl)|apply (V (x :: a) b r eq_refl)].
Qed.
Lemma contents_spaces p n : In (p, n) (all_contents root) -> forall a b r, p = a ++ b :: r -> namespace_in root (a ++ [b]).
Proof. intros I a b r ->. exists (a ++ b :: r), n. split; [exact I|]. exists r. rewrite <- app_assoc. reflexivity. Qed.
End Defined.

Section Build.
Context (snake : text -> text) (es : list element) (root : list node) (B : build snake es = Done root).
Lemma defined_at q c : In (q, c) (defined root) -> exists n, In (removelast q, n) (all_contents root).
Proof.
  intros D. apply defined_contents in D as (p & n & I & D). exists n. pose proof (contents_module snake es root B p n I) as M.
  assert (module_of n = removelast q) by (destruct n; cbn [defs_of In] in D; try contradiction; destruct D as [D|[]]; injection D as <- _; reflexivity). rewrite <- H, M. exact I.
Qed.
Lemma seen_defined p n q c k : clash_free snake root -> (forall d a, namespace_in root (d ++ [a]) -> snake (snake a) = snake a) ->
  In (p, n) (all_contents root) -> In (q, c) (defined root) -> rkind_of c = k ->
  ((exists q' c', In (q', c') (defined root) /\ rkind_of c' = k /\ seen_as snake p q (emitted_item snake q')) <->
   ~ encloses q p /\ forall x, In x (skipn (common_prefix q p) (removelast q)) -> module_name snake x = x).
Proof.
  intros CF Id I D K. assert (Ns : ~ In (lit "super") q) by (eapply defined_no_super; eauto). split.
  - intros (q' & c' & D' & K' & a & p' & r & -> & -> & Dv & E). destruct (defined_at _ _ D') as (n' & I').
    destruct r as [|r0 r] using rev_ind.
    + exfalso. rewrite app_nil_r in *. unfold emitted_item in E. destruct a as [|b a] using rev_ind; [destruct (emitted_modules snake (removelast q')); discriminate E|]. clear IHa.
      unfold emitted_modules in E at 2. rewrite map_app in E. cbn [map] in E. apply app_inj_tail in E as [E1 E2].
      assert (R : removelast q' = a).
      { apply (modules_injective snake root CF _ _ []); auto; [eapply (contents_spaces root); eauto|]. intros x y s ->. cbn [app]. eapply contents_spaces; [exact I|]. rewrite <- !app_assoc. reflexivity. }
      assert (N : namespace_in root (a ++ [b])) by (exists ((a ++ [b]) ++ p'), n; split; [exact I|]; exists p'; reflexivity).
      destruct (cf_types _ _ CF a b q' c' N D') as [T _]. apply T. destruct q' as [|z q'] using rev_ind; [cbn in D'; exfalso|].
      * apply defined_contents in D' as (pp & nn & In_ & Dn). destruct (node_source snake es root B) as (place & roots & outs & R' & _ & _ & S). destruct (S _ _ In_) as (i & e & out & Ne & Dc & Io & _).
        pose proof (declares_defs snake _ _ _ _ _ Dc nn [] c' Io Dn) as X. unfold declared_names, local_name, companion_name in X. destruct e; cbn [In] in X; try contradiction;
          repeat match goal with H : _ \/ _ |- _ => destruct H as [H|H] | H : False |- _ => destruct H end; apply app_eq_nil in X as [_ X]; discriminate X.
      * rewrite removelast_last in R. rewrite last_last in E2. subst q' z. reflexivity.
    + clear IHr. unfold emitted_item in E. rewrite app_assoc in E. apply app_inj_tail in E as [E1 E2]. split.
      * intros (l & X). rewrite <- !app_assoc in X. apply app_inv_head in X. subst p'. destruct r; exact (Dv _ _ _ eq_refl eq_refl).
      * rewrite common_unique by exact Dv. rewrite app_assoc, removelast_last, skipn_app, skipn_all, Nat.sub_diag. cbn [skipn app]. intros x Ix.
        assert (J : In x (emitted_modules snake (removelast q'))) by (rewrite E1; apply in_or_app; auto).
        apply in_map_iff in J as (y & <- & J). unfold module_name. apply in_split in J as (l1 & l2 & J). apply (Id l1). eapply contents_spaces; eauto.
  - intros [En Fx]. exists q, c. split; [exact D|]. split; [exact K|]. apply seen_walk; [exact Ns|]. exact (proj2 (emitted_leads snake q (Some p) Ns En) Fx).
Qed.
End Build.

Section Whole.
Context (snake shouty : text -> text) (ident_ok : ident -> bool) (path_ok : qident -> bool).
Context (literal_ok : scalar_const -> bool -> option qident -> ity -> bool) (hg : host).
Context (es : list element) (root : list node) (B : build snake es = Done root) (items : list item).
Context (Em : emit snake shouty ident_ok path_ok literal_ok hg root = Some items).
Lemma all_lead_defined : clash_free snake root -> (forall d a, namespace_in root (d ++ [a]) -> snake (snake a) = snake a) ->
  (forall p n q c, In (p, n) (all_contents root) -> In (q, c) (mentions n) -> In (q, c) (defined root)) ->
  (forall here found k name paths path k', module_at items here found -> In (XType k name paths) found -> In (path, k') paths -> leads items here path k') <->
  (forall p n q k, In (p, n) (all_contents root) -> In (q, k) (spelled n) ->
    ~ encloses q p /\ forall x, In x (skipn (common_prefix q p) (removelast q)) -> module_name snake x = x).
Proof.
  intros CF Id Mn. rewrite (all_lead_iff snake shouty ident_ok path_ok literal_ok hg es root B items Em).
  assert (Sp : forall p n q k, In (p, n) (all_contents root) -> In (q, k) (spelled n) -> exists c, In (q, c) (defined root) /\ rkind_of c = k).
  { assert (Un : forall p u q k, In (p, NUnion u) (all_contents root) -> In (q, k) (union_uses (iu_enum u) (iu_variants u)) -> exists c, In (q, c) (defined root) /\ rkind_of c = k).
    { intros p' u q' k' I [J|J].
      - injection J as <- <-. destruct (companion_defined snake es root p' u B I) as (vs & Ic & _). eexists. split; [exact Ic|reflexivity].
      - apply in_flat_map in J as (v & Iv & J). apply in_uses in J as (c & J & ->). exists c. split; [|reflexivity]. eapply (Mn p' (NUnion u)); [exact I|]. cbn [mentions]. apply in_flat_map. eauto. }
    intros p n q k I J. destruct n as [|t| | |u|]; cbn [spelled] in J; try contradiction; [|eapply Un; eauto].
    apply in_flat_map in J as (f & If & J). apply in_app_iff in J as [J|J].
    - apply in_uses in J as (c & J & ->). exists c. split; [|reflexivity]. eapply (Mn p (NTable t)); [exact I|]. cbn [mentions]. apply in_flat_map. eauto.
    - destruct (if_ty f) as [| | |q0 [|fs|vs b|e vs]] eqn:T; try (destruct J; fail).
      assert (M : In (q0, KUnion e vs) (mentions (NTable t))) by (cbn [mentions]; apply in_flat_map; exists f; split; [exact If|rewrite T; left; reflexivity]).
      apply (Mn p (NTable t) q0 _ I) in M. destruct (union_node root _ _ _ M) as (pu & nu & Iu & <- & <-). eapply Un; eauto. }
  split; intros H p n q k I J; destruct (Sp p n q k I J) as (c & D & K).
  - apply (seen_defined snake es root B p n q c k CF Id I D K). eauto.
  - apply (seen_defined snake es root B p n q c k CF Id I D K). eauto.
Qed.
End Whole.

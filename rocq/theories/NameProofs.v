(** What hides names in the emitted code. *)
From Coq Require Import Strings.String ZArith List Bool Lia Strings.Byte.
From Verif Require ResolveProofs5.
From Verif Require Import Base Schema Ident SpecIdent IdentProofs Codegen SpecResolve Resolve Emit SpecEmit SpecTable Names SpecNames EmitProofs1 EmitProofs2 EmitProofs3 EmitProofs5.
Import ListNotations.
Local Open Scope string_scope.
Local Open Scope list_scope.

(** ** Uses *)
Lemma relative_head q ns x rest : x <> lit "super" -> (relative q ns = x :: rest <-> q = modules_around ns ++ x :: rest).
Proof.
  intros S. destruct ns as [ns|]; [|reflexivity]. cbn [modules_around]. unfold relative. destruct (common_prefix_le q ns) as (A & B & C). split.
  - destruct (length ns - common_prefix q ns)%nat eqn:L; cbn [repeat app]; [|intros E; congruence].
    intros E. assert (N : common_prefix q ns = length ns) by lia. rewrite N in *. rewrite firstn_all in C. rewrite <- E. rewrite C at 1. symmetry. apply firstn_skipn.
  - intros ->. rewrite common_prefix_app, Nat.sub_diag. cbn [repeat app]. rewrite skipn_app, skipn_all, Nat.sub_diag. reflexivity.
Qed.

Definition captured (u : use) : Prop := exists x rest, u_path u = x :: rest /\ In x (u_params u).
Definition relies (us : list use) (w : string) : Prop := exists ps, In (std ps w) us.

(** The words of a type. *)
Lemma ty_uses_std ps ns t u : In u (ty_uses ps ns t) -> u_means u = Std -> exists w, u = std ps w /\ type_word t w.
Proof.
  induction t as [p| |t IH|q c]; cbn [ty_uses In].
  - intros [<-|[]] _. eexists. split; [reflexivity|constructor].
  - intros [<-|[]] _. eexists. split; [reflexivity|constructor].
  - intros [<-|I] M; [eexists; split; [reflexivity|constructor]|]. destruct (IH I M) as (w & E & T). exists w. split; [exact E|constructor; exact T].
  - intros [<-|I] M; [discriminate M|]. destruct c; try destruct I as [].
    + exists "u8". split; [auto|constructor].
    + destruct H.
Qed.
Lemma ty_uses_word ps ns t w : type_word t w -> In (std ps w) (ty_uses ps ns t).
Proof. induction 1; cbn [ty_uses In]; auto. Qed.
Lemma ty_uses_item ps ns t u k : In u (ty_uses ps ns t) -> u_means u = Item k -> exists q c, In (q, c) (ty_mentions t) /\ u = Use ps (relative q ns) (Item k).
Proof.
  induction t as [p| |t IH|q c]; cbn [ty_uses In ty_mentions].
  - intros [<-|[]] M. discriminate M.
  - intros [<-|[]] M. discriminate M.
  - intros [<-|I] M; [discriminate M|auto].
  - intros [<-|I] M; [cbn [u_means] in M; injection M as <-; exists q, c; split; [left; reflexivity|reflexivity]|]. destruct c; try destruct I as []; [subst; discriminate M|destruct H].
Qed.
Lemma ty_uses_mention ps ns t q c : In (q, c) (ty_mentions t) -> In (Use ps (relative q ns) (Item (rkind_of c))) (ty_uses ps ns t).
Proof.
  induction t as [p| |t IH|q' c']; cbn [ty_uses In ty_mentions]; intros I; try destruct I; auto.
  - left. congruence.
  - destruct H.
Qed.

Lemma has_default_iff fs : forallb (fun f => negb (if_required f) || is_scalar (if_ty f)) fs = true <-> has_default fs.
Proof.
  rewrite forallb_forall. unfold has_default. split; intros H f I; specialize (H f I).
  - intros R. rewrite R in H. exact H.
  - destruct (if_required f); [apply H; reflexivity|reflexivity].
Qed.

Definition fits (n : node) (u : use) : Prop := match u_means u with Std => exists ps w, u = std ps w /\ word n w | Item _ => True end.
Lemma fits_std n ps w : word n w -> fits n (std ps w).
Proof. intros W. exists ps, w. auto. Qed.
Lemma fits_item n ps p k : fits n (Use ps p (Item k)).
Proof. exact Logic.I. Qed.
Lemma fits_ty n ps ns t u : (forall w, type_word t w -> word n w) -> In u (ty_uses ps ns t) -> fits n u.
Proof. intros H I. unfold fits. destruct (u_means u) eqn:M; [|exact Logic.I]. destruct (ty_uses_std _ _ _ _ I M) as (w & -> & T). eauto. Qed.

Lemma accessor_fits ns name t f u : In f (it_fields t) -> In u (accessor_uses ns name f) -> fits (NTable t) u.
Proof.
  intros If I. unfold accessor_uses in I. apply in_app_iff in I as [I|I]; [|apply in_app_iff in I as [I|I]; [|apply in_app_iff in I as [I|I]]].
  - destruct I as [<-|[<-|[<-|[]]]]; try (apply fits_std; apply wd_table; cbn; tauto). apply fits_item.
  - destruct (if_required f) eqn:R; [destruct I|]. destruct I as [<-|[]]. apply fits_std. eapply wd_option; eauto.
  - eapply fits_ty; [|exact I]. intros w T. eapply wd_field; eauto.
  - destruct (if_ty f) as [| | |q [| | |e vs]] eqn:T; try destruct I. subst u; apply fits_item. destruct H as [<-|I]; [apply fits_item|].
    apply in_flat_map in I as (v & Iv & I). eapply fits_ty; [|exact I]. intros w W. eapply wd_variant; eauto.
Qed.
Lemma arg_fits ns t f u : In f (it_fields t) -> In u (arg_uses ns f) -> fits (NTable t) u.
Proof.
  intros If I. unfold arg_uses in I. apply in_app_iff in I as [I|I].
  - destruct (is_union (if_ty f)); (destruct I as [<-|I]; [apply fits_std; apply wd_table; cbn; tauto|]); [destruct I|].
    eapply fits_ty; [|exact I]. intros w T. eapply wd_field; eauto.
  - destruct (if_required f) eqn:R; [destruct I|]. destruct (is_scalar (if_ty f)); [destruct I|]. destruct I as [<-|[]]. apply fits_std. eapply wd_option; eauto.
Qed.
Lemma default_fits ns t f u : In f (it_fields t) -> In u (arg_default_uses ns f) -> fits (NTable t) u.
Proof.
  intros If I. assert (J : In u (ty_uses [] ns (if_ty f))).
  { unfold arg_default_uses in I. destruct (if_ty f) as [| | |q []]; destruct (if_default f); first [exact I|destruct I]. }
  eapply fits_ty; [|exact J]. intros w T. eapply wd_field; eauto.
Qed.
Lemma add_fits ns name t f u : In f (it_fields t) -> In u (add_uses ns name f) -> fits (NTable t) u.
Proof.
  intros If I. unfold add_uses in I. apply in_app_iff in I as [I|I].
  - destruct I as [<-|[<-|[]]]; [apply fits_std; apply wd_table; cbn; tauto|apply fits_item].
  - destruct (is_union (if_ty f)); [destruct I|]. eapply fits_ty; [|exact I]. intros w T. eapply wd_field; eauto.
Qed.
Ltac here := first [apply fits_item|apply fits_std; first [apply wd_table; cbn; tauto|apply wd_enum; cbn; tauto|apply wd_base]].
Lemma node_fits n u : In u (node_uses n) -> fits n u.
Proof.
  destruct n as [q l|t|s|e|v|r]; cbn [node_uses]; try (intros []; fail).
  - unfold table_uses. intros I. repeat rewrite in_app_iff in I.
    destruct I as [I|[I|[I|[I|[I|[I|[I|[I|[I|[I|I]]]]]]]]]].
    1-4,6,7,10: cbn [In] in I; repeat (destruct I as [<-|I]; [here|]); destruct I.
    + apply in_flat_map in I as (f & If & I). eapply accessor_fits; eauto.
    + apply in_flat_map in I as (f & If & I). eapply arg_fits; eauto.
    + destruct (forallb _ _) eqn:D; [|destruct I]. apply in_app_iff in I as [I|I].
      * destruct I as [<-|[<-|[]]]; [apply fits_std; apply wd_default; apply has_default_iff; exact D|apply fits_item].
      * apply in_flat_map in I as (f & If & I). eapply default_fits; eauto.
    + apply in_flat_map in I as (f & If & I). eapply add_fits; eauto.
  - unfold enum_uses. cbn [In]. intros I. repeat (destruct I as [<-|I]; [here|]). destruct I.
  - unfold union_uses. intros I. apply in_app_iff in I as [[<-|[<-|[]]]|I]; try apply fits_item. apply in_flat_map in I as (w & Iw & I).
    eapply fits_ty; [|exact I]. intros x T. eapply wd_union; eauto.
Qed.

Lemma node_word n w : word n w -> relies (node_uses n) w.
Proof.
  intros W. unfold relies. destruct W as [t w I|t D|t f If R|t f w If T|t f q e vs v w If Tf Iv T|e w I|e|u v w Iv T]; cbn [node_uses].
  - unfold table_uses. destruct I as [<-|[<-|[<-|[<-|[<-|[<-|[]]]]]]].
    1,2: exists param; repeat (apply in_or_app; first [left; cbn [In]; tauto|right]).
    1: exists []; do 2 (apply in_or_app; right); apply in_or_app; left; cbn [In]; tauto.
    1,2: exists param; do 3 (apply in_or_app; right); apply in_or_app; left; cbn [In]; tauto.
    exists []. do 5 (apply in_or_app; right). apply in_or_app. left. cbn [In]. tauto.
  - exists []. unfold table_uses. do 8 (apply in_or_app; right). apply in_or_app. left. rewrite (proj2 (has_default_iff _) D). left. reflexivity.
  - exists param. unfold table_uses. do 4 (apply in_or_app; right). apply in_or_app. left. apply in_flat_map. exists f. split; [exact If|].
    unfold accessor_uses. apply in_or_app. right. apply in_or_app. left. rewrite R. left. reflexivity.
  - exists param. unfold table_uses. do 4 (apply in_or_app; right). apply in_or_app. left. apply in_flat_map. exists f. split; [exact If|].
    unfold accessor_uses. do 2 (apply in_or_app; right). apply in_or_app. left. apply ty_uses_word. exact T.
  - exists param. unfold table_uses. do 4 (apply in_or_app; right). apply in_or_app. left. apply in_flat_map. exists f. split; [exact If|].
    unfold accessor_uses. do 3 (apply in_or_app; right). rewrite Tf. apply in_or_app. right. apply in_flat_map. exists v. split; [exact Iv|]. apply ty_uses_word. exact T.
  - exists []. unfold enum_uses. cbn [In] in *. destruct I as [<-|[<-|[<-|[<-|[<-|[<-|[<-|[<-|[]]]]]]]]]; tauto.
  - exists []. unfold enum_uses. cbn [In]. tauto.
  - exists []. unfold union_uses. apply in_or_app. right. apply in_flat_map. exists v. split; [exact Iv|]. apply ty_uses_word. exact T.
Qed.
Lemma word_no_param n w : word n w -> lit w <> lit "B".
Proof.
  assert (T : forall t w, type_word t w -> lit w <> lit "B") by (induction 1; auto; try discriminate; destruct p; discriminate).
  intros W. destruct W as [t w I|t D|t f If R|t f w If Tw|t f q e vs v w If Tf Iv Tw|e w I|e|u v w Iv Tw]; try (eapply T; eauto; fail); try discriminate.
  - cbn [In] in I. intuition subst; discriminate.
  - cbn [In] in I. intuition subst; discriminate.
  - destruct (ie_base e); discriminate.
Qed.

(** Parameters. *)
Definition caught (t : itable) (u : use) : Prop :=
  u_params u = [] \/ u_means u = Std \/
  u_params u = param /\ (u_path u = [last (it_id t) []] \/ exists q, accessor_type (it_fields t) q /\ u_path u = relative q (q_namespace (it_id t))).
Lemma ty_caught t ty u : (forall q c, In (q, c) (ty_mentions ty) -> accessor_type (it_fields t) q) ->
  In u (ty_uses param (q_namespace (it_id t)) ty) -> caught t u.
Proof.
  intros H I. destruct (u_means u) eqn:M; [right; left; exact M|]. destruct (ty_uses_item _ _ _ _ _ I M) as (q & c & Iq & ->).
  right. right. split; [reflexivity|]. right. exists q. split; [eapply H; exact Iq|reflexivity].
Qed.
Lemma ty_uses_params ps ns t u : In u (ty_uses ps ns t) -> u_params u = ps.
Proof.
  induction t as [p| |t IH|q c]; cbn [ty_uses In]; try (intros [<-|[]]; reflexivity).
  - intros [<-|I]; [reflexivity|auto].
  - intros [<-|I]; [reflexivity|]. destruct c; try destruct I as [<-|[]]; try destruct I; reflexivity.
Qed.
Lemma table_params t u : In u (table_uses t) -> u_params u = [] \/ u_params u = param.
Proof.
  intros I. unfold table_uses in I. repeat rewrite in_app_iff in I. destruct I as [I|[I|[I|[I|[I|[I|[I|[I|[I|[I|I]]]]]]]]]].
  1-4,6,7,10: cbn [In] in I; repeat (destruct I as [<-|I]; [cbn [u_params std]; tauto|]); destruct I.
  - right. apply in_flat_map in I as (f & If & I). unfold accessor_uses in I. apply in_app_iff in I as [I|I]; [|apply in_app_iff in I as [I|I]; [|apply in_app_iff in I as [I|I]]].
    + cbn [In] in I. repeat (destruct I as [<-|I]; [reflexivity|]). destruct I.
    + destruct (if_required f); [destruct I|]. destruct I as [<-|[]]. reflexivity.
    + eapply ty_uses_params; eauto.
    + destruct (if_ty f) as [| | |q [| | |e vs]]; try destruct I; [subst; reflexivity|]. destruct H as [<-|I]; [reflexivity|]. apply in_flat_map in I as (v & Iv & I). eapply ty_uses_params; eauto.
  - left. apply in_flat_map in I as (f & If & I). unfold arg_uses in I. apply in_app_iff in I as [I|I].
    + destruct (is_union (if_ty f)); (destruct I as [<-|I]; [reflexivity|]); [destruct I|]. eapply ty_uses_params; eauto.
    + destruct (if_required f || is_scalar (if_ty f)); [destruct I|]. destruct I as [<-|[]]. reflexivity.
  - left. destruct (forallb _ _); [|destruct I]. apply in_app_iff in I as [[<-|[<-|[]]]|I]; try reflexivity.
    apply in_flat_map in I as (f & If & I). assert (J : In u (ty_uses [] (q_namespace (it_id t)) (if_ty f))).
    { unfold arg_default_uses in I. destruct (if_ty f) as [| | |q []]; destruct (if_default f); first [exact I|destruct I]. }
    eapply ty_uses_params; eauto.
  - left. apply in_flat_map in I as (f & If & I). unfold add_uses in I. apply in_app_iff in I as [[<-|[<-|[]]]|I]; try reflexivity.
    destruct (is_union (if_ty f)); [destruct I|]. eapply ty_uses_params; eauto.
Qed.
Lemma table_caught t u : In u (table_uses t) -> caught t u.
Proof.
  unfold table_uses. intros I. repeat rewrite in_app_iff in I.
  destruct I as [I|[I|[I|[I|[I|[I|[I|[I|[I|[I|I]]]]]]]]]].
  1-4,6,7,10: cbn [In] in I; repeat (destruct I as [<-|I]; [unfold caught; cbn [u_params u_means u_path std]; tauto|]); destruct I.
  - apply in_flat_map in I as (f & If & I). unfold accessor_uses in I. apply in_app_iff in I as [I|I]; [|apply in_app_iff in I as [I|I]; [|apply in_app_iff in I as [I|I]]].
    + cbn [In] in I. repeat (destruct I as [<-|I]; [unfold caught; cbn [u_params u_means u_path std]; tauto|]). destruct I.
    + destruct (if_required f); [destruct I|]. destruct I as [<-|[]]. right. left. reflexivity.
    + eapply ty_caught; [|exact I]. intros q c Iq. eapply at_field; eauto.
    + destruct (if_ty f) as [| | |q [| | |e vs]] eqn:T; try destruct I.
      * subst u. right. right. split; [reflexivity|]. right. exists q. split; [|reflexivity]. eapply at_field; [exact If|]. rewrite T. left. reflexivity.
      * destruct H as [<-|I]; [right; right; split; [reflexivity|]; right; exists e; split; [eapply at_companion; eauto|reflexivity]|].
        apply in_flat_map in I as (v & Iv & I). eapply ty_caught; [|exact I]. intros m c Im. eapply at_variant; eauto.
  - left. apply in_flat_map in I as (f & If & I). unfold arg_uses in I. apply in_app_iff in I as [I|I].
    + destruct (is_union (if_ty f)); (destruct I as [<-|I]; [reflexivity|]); [destruct I|]. eapply ty_uses_params; eauto.
    + destruct (if_required f || is_scalar (if_ty f)); [destruct I|]. destruct I as [<-|[]]. reflexivity.
  - left. destruct (forallb _ _); [|destruct I]. apply in_app_iff in I as [[<-|[<-|[]]]|I]; try reflexivity.
    apply in_flat_map in I as (f & If & I). assert (J : In u (ty_uses [] (q_namespace (it_id t)) (if_ty f))).
    { unfold arg_default_uses in I. destruct (if_ty f) as [| | |q []]; destruct (if_default f); first [exact I|destruct I]. }
    eapply ty_uses_params; eauto.
  - left. apply in_flat_map in I as (f & If & I). unfold add_uses in I. apply in_app_iff in I as [[<-|[<-|[]]]|I]; try reflexivity.
    destruct (is_union (if_ty f)); [destruct I|]. eapply ty_uses_params; eauto.
Qed.
Lemma no_params n u : In u (node_uses n) -> (forall t, n <> NTable t) -> u_params u = [].
Proof.
  intros I N. destruct n as [q l|t|s|e|v|r]; cbn [node_uses] in I; try (destruct I; fail); try (destruct (N t eq_refl)).
  - unfold enum_uses in I. cbn [In] in I. repeat (destruct I as [<-|I]; [reflexivity|]). destruct I.
  - unfold union_uses in I. apply in_app_iff in I as [[<-|[<-|[]]]|I]; try reflexivity. apply in_flat_map in I as (w & Iw & I). eapply ty_uses_params; eauto.
Qed.
Lemma accessor_used t q : accessor_type (it_fields t) q -> exists k, In (Use param (relative q (q_namespace (it_id t))) (Item k)) (table_uses t).
Proof.
  intros A. assert (F : forall f k, In f (it_fields t) -> In (Use param (relative q (q_namespace (it_id t))) (Item k)) (accessor_uses (q_namespace (it_id t)) (last (it_id t) []) f) ->
    In (Use param (relative q (q_namespace (it_id t))) (Item k)) (table_uses t)).
  { intros f k If I. unfold table_uses. do 4 (apply in_or_app; right). apply in_or_app. left. apply in_flat_map. eauto. }
  destruct A as [f q c If Iq|f q e vs If T|f q e vs v m c If T Iv Im].
  - exists (rkind_of c). apply (F f _ If). unfold accessor_uses. do 2 (apply in_or_app; right). apply in_or_app. left. apply ty_uses_mention. exact Iq.
  - exists REnum. apply (F f _ If). unfold accessor_uses. do 3 (apply in_or_app; right). rewrite T. right. left. reflexivity.
  - exists (rkind_of c). apply (F f _ If). unfold accessor_uses. do 3 (apply in_or_app; right). rewrite T. apply in_or_app. right. apply in_flat_map. exists v. split; [exact Iv|].
    apply ty_uses_mention. exact Im.
Qed.

(** ** Modules *)
Lemma module_nodes_level l p found : module_nodes l p found <-> level l p found.
Proof. split; induction 1; econstructor; eauto. Qed.

Section Built.
Context (snake shouty : text -> text) (ident_ok : ident -> bool) (path_ok : qident -> bool).
Context (literal_ok : scalar_const -> bool -> option qident -> ity -> bool) (hg : host).
Notation emit := (emit snake shouty ident_ok path_ok literal_ok hg).
Context (es : list element) (root : list node) (B : build snake es = Done root) (items : list item) (Em : emit root = Some items).

Lemma names_at p l f x : level root p l -> emit l = Some f -> (In x (type_names f) <-> named snake root p x).
Proof.
  intros L E. destruct (level_names snake shouty ident_ok path_ok literal_ok hg es root B p l f L E) as (ks & _ & K & T & _ & _). rewrite T, in_app_iff, in_map_iff, in_flat_map. split.
  - intros [(a & <- & I)|([q c] & I & J)]; [apply nd_module; apply K; exact I|].
    pose proof I as I'. apply (defs_at_In snake es root B) in I' as [D M]. pose proof (split_name snake es root B q c D) as S. rewrite M in S.
    apply types_for_In in J as (s & Is & ->). destruct (ending_suffix _ _ Is) as [->|[-> Ia]].
    + cbn [lit list_byte_of_string]. change (lit "") with (@nil byte). rewrite app_nil_r. eapply nd_type. rewrite <- S. exact D.
    + apply nd_suffix; [rewrite <- S; exact D|exact Ia].
  - intros N. destruct N as [x c D|x s D Is|a A].
    + right. exists (p ++ [x], c). split; [apply (defs_at_In snake es root B); split; [exact D|apply removelast_last]|]. apply types_for_In. exists "". rewrite last_last, app_nil_r.
      split; [|reflexivity]. destruct c; cbn [endings In]; auto. exfalso. eapply (no_struct snake shouty ident_ok path_ok literal_ok hg es root B items Em); exact D.
    + right. exists (p ++ [x], KTable). split; [apply (defs_at_In snake es root B); split; [exact D|apply removelast_last]|]. apply types_for_In. exists s. rewrite last_last.
      split; [|reflexivity]. cbn [endings In] in *. tauto.
    + left. exists a. split; [reflexivity|apply K; exact A].
Qed.

Theorem hidden_iff : (forall p nodes its n u, module_nodes root p nodes -> emit nodes = Some its -> In n nodes -> In u (node_uses n) -> ~ hidden its u) <->
  hides_nothing snake root.
Proof.
  assert (At : forall p n, In (p, n) (all_contents root) -> exists nodes its, module_nodes root p nodes /\ emit nodes = Some its /\ In n nodes).
  { intros p n I. apply contents_at in I as (l & L & In_ & _). destruct (level_module snake shouty ident_ok path_ok literal_ok hg root p l L items Em) as (f & Ef & _).
    exists l, f. split; [apply module_nodes_level; exact L|auto]. }
  split.
  - intros H. constructor.
    + intros p t I E. destruct (At p _ I) as (nodes & its & M & Ei & In_). apply (H p nodes its _ (Use param [last (it_id t) []] (Item RTable)) M Ei In_).
      * cbn [node_uses]. unfold table_uses. apply in_or_app. right. apply in_or_app. left. cbn [In]. tauto.
      * exists (last (it_id t) []), []. split; [reflexivity|]. left. left. symmetry. exact E.
    + intros p t q I A rest E. destruct (At p _ I) as (nodes & its & M & Ei & In_). destruct (accessor_used t q A) as (k & U).
      apply (H p nodes its _ _ M Ei In_ U). exists (lit "B"), rest. split; [|left; left; reflexivity]. cbn [u_path]. apply relative_head; [discriminate|].
      pose proof (modules_around_module (NTable t)) as Mo. cbn [node_ident] in Mo. rewrite Mo. rewrite (contents_module snake es root B p _ I). exact E.
    + intros p n w I W N. destruct (At p n I) as (nodes & its & M & Ei & In_). destruct (node_word n w W) as (ps & U).
      apply (H p nodes its n _ M Ei In_ U). exists (lit w), []. split; [reflexivity|]. right. split; [reflexivity|]. apply (names_at p nodes its); auto. apply module_nodes_level. exact M.
  - intros H p nodes its n u M Ei In_ U (x & rest & P & C). apply module_nodes_level in M.
    assert (Pl : ResolveProofs5.plain n) by (destruct n; try exact Logic.I; destruct U). pose proof (contents_from root p n nodes M In_ Pl) as I.
    destruct C as [C|[S C]].
    + assert (T : exists t, n = NTable t) by (destruct n; try (rewrite (no_params _ _ U) in C by discriminate; destruct C); eauto). destruct T as (t & ->).
      destruct (table_caught t u U) as [E|[E|[E [Q|(q & A & Q)]]]].
      * rewrite E in C. destruct C.
      * pose proof (node_fits _ _ U) as F. unfold fits in F. rewrite E in F. destruct F as (ps & w & -> & W). cbn [u_path std] in P. injection P as <- <-.
        assert (Ep : ps = [] \/ ps = param).
        { exact (table_params t _ U). }
        cbn [u_params std] in C. destruct Ep as [->|Ep]; [destruct C|]. subst ps. destruct C as [C|[]]. apply (word_no_param _ _ W). symmetry. exact C.
      * rewrite E in C. destruct C as [<-|[]]. rewrite Q in P. injection P as P _. apply (hn_table _ _ H p t I). exact P.
      * rewrite E in C. destruct C as [<-|[]]. rewrite Q in P. apply relative_head in P; [|discriminate].
        pose proof (modules_around_module (NTable t)) as Mo. cbn [node_ident] in Mo. rewrite Mo, (contents_module snake es root B p _ I) in P. exact (hn_types _ _ H p t q I A rest P).
    + pose proof (node_fits _ _ U) as F. unfold fits in F. rewrite S in F. destruct F as (ps & w & -> & W). cbn [u_path std] in P. injection P as <- <-.
      apply (hn_words _ _ H p n w I W). apply (names_at p nodes its); auto.
Qed.
End Built.

(** Every path in emitted code leads to an emitted type. *)
From Coq Require Import Strings.String ZArith List Bool Lia Strings.Byte Permutation.
From Verif Require Import Base BaseFacts Schema Ident SpecIdent IdentProofs Codegen GenProofs1 GenProofs8 Resolve SpecResolve ResolveProofs1 ResolveProofs4 ResolveProofs5 ResolveProofs6 ResolveProofs9 Emit SpecEmit EmitProofs1 EmitProofs2 EmitProofs4.
Import ListNotations.
Local Open Scope nat_scope.

Section Source.
Context (snake : text -> text) (es : list element) (root : list node) (B : build snake es = Done root).

Lemma node_source : exists place roots outs, resolution snake es place roots outs /\
  (declared_before_use es -> forall i, i < length es -> place i = written_prefix es i) /\
  (forall x, In x (definitions (concat outs)) <-> In x (defined root)) /\
  forall p n, In (p, n) (all_contents root) -> exists i e out, nth_error es i = Some e /\ declares snake roots (known es place outs e) (place i) e out /\ In n out /\ module_of n = p.
Proof.
  destruct (build_resolution snake es root B) as (place & roots & outs & R & N & W). exists place, roots, outs. split; [exact R|]. split; [apply W|].
  pose proof (contents_perm _ _ N) as P. split; [intros x; apply defined_In; exact P|]. intros p n I. apply (contents_In root outs N) in I as [I M].
  apply in_concat in I as (out & Io & In_). apply In_nth_error in Io as (i & No).
  assert (L : i < length es) by (rewrite <- (res_length _ _ _ _ _ R); apply nth_error_Some; congruence).
  destruct (nth_error es i) as [e|] eqn:Ne; [|apply nth_error_None in Ne; lia]. destruct (res_declares _ _ _ _ _ R i e Ne) as (out' & No' & Dc).
  assert (out' = out) by congruence. subst out'. exists i, e, out. auto.
Qed.
Lemma defined_contents q c : In (q, c) (defined root) <-> exists p n, In (p, n) (all_contents root) /\ In (q, c) (defs_of n).
Proof.
  unfold defined, definitions. rewrite in_flat_map. split.
  - intros (n & I & D). apply in_map_iff in I as ([p n'] & E & I). cbn [snd] in E. subst. eauto.
  - intros (p & n & I & D). exists n. split; [apply in_map_iff; exists (p, n); auto|exact D].
Qed.
Lemma declares_defs roots view prefix e out : declares snake roots view prefix e out -> forall n q c, In n out -> In (q, c) (defs_of n) -> In q (declared_names prefix e).
Proof.
  intros D n q c I J. inversion D; subst; repeat match goal with H : In _ (_ :: _) |- _ => destruct H as [<-|H] | H : In _ [] |- _ => destruct H end;
    cbn [defs_of In] in J; try contradiction; destruct J as [J|[]]; injection J as <- <-; cbn [declared_names In]; auto.
Qed.
(** Where a definition comes from. *)
Lemma def_source q c : In (q, c) (defined root) -> exists i e prefix, nth_error es i = Some e /\ In q (declared_names prefix e) /\
  (prefix = written_prefix es i \/ prefix = last_prefix es).
Proof.
  intros I. destruct node_source as (place & roots & outs & R & _ & _ & S). apply defined_contents in I as (p & n & I & D).
  destruct (S p n I) as (i & e & out & N & Dc & In_ & _). exists i, e, (place i). split; [exact N|]. split; [eapply declares_defs; eauto|].
  apply (res_place _ _ _ _ _ R). apply nth_error_Some. congruence.
Qed.
Lemma prefix_no_super ns : ~ In (lit "super") (prefix_of ns).
Proof. destruct ns as [q|]; [apply no_super|intros []]. Qed.
Lemma declared_no_super prefix e q : ~ In (lit "super") prefix -> In q (declared_names prefix e) -> ~ In (lit "super") q.
Proof.
  intros P I J. assert (F : forall id, fix_identifier id <> lit "super").
  { intros id E. apply (no_super [id]). left. exact E. }
  unfold declared_names, local_name, companion_name in I. destruct e; cbn [In] in I; try contradiction;
    repeat match goal with H : _ \/ _ |- _ => destruct H as [<-|H] | H : False |- _ => destruct H end;
    apply in_app_iff in J as [J|J]; auto; cbn [In] in J; repeat match goal with H : _ \/ _ |- _ => destruct H as [H|H] end; try contradiction; try (eapply F; exact J); discriminate J.
Qed.
Lemma defined_no_super q c : In (q, c) (defined root) -> ~ In (lit "super") q.
Proof.
  intros I. destruct (def_source q c I) as (i & e & prefix & _ & D & P). eapply declared_no_super; [|exact D]. destruct P as [->| ->]; apply prefix_no_super.
Qed.

(** What the code of an item needs is defined. *)
Lemma union_node q e vs : In (q, KUnion e vs) (defined root) -> exists p u, In (p, NUnion u) (all_contents root) /\ iu_enum u = e /\ iu_variants u = vs.
Proof.
  intros I. apply defined_contents in I as (p & n & I & D). destruct n; cbn [defs_of In] in D; try (destruct D as [D|[]]; discriminate D); try contradiction.
  destruct D as [D|[]]. injection D as _ <- <-. eauto.
Qed.
Lemma needs_defined : (forall p n q c, In (p, n) (all_contents root) -> In (q, c) (mentions n) -> In (q, c) (defined root)) ->
  forall p n q k, In (p, n) (all_contents root) -> In (q, k) (needs n) -> exists c, In (q, c) (defined root) /\ k = rkind_of c.
Proof.
  intros H.
  assert (N : forall d q k, In d (defined root) -> In (q, k) (needs_of d) -> exists c, In (q, c) (defined root) /\ k = rkind_of c).
  { intros [u cu] q k Id [J|J]; [injection J as <- <-; eauto|]. cbn [snd] in J. destruct cu as [| | |e vs]; try contradiction.
    destruct (union_node _ _ _ Id) as (pu & nu & Iu & <- & <-). destruct J as [J|J].
    - injection J as <- <-. destruct (companion_defined snake es root pu nu B Iu) as (vs & Ic & _). exists (KEnum (IEnumV (lit "None") (Some 0%Z) [] :: vs) UByte). auto.
    - apply in_flat_map in J as (v & Iv & J). apply in_map_iff in J as ([q' c'] & J & M). cbn [fst snd] in J. injection J as <- <-. exists c'. split; [|reflexivity].
      apply (H pu (NUnion nu)); [exact Iu|]. cbn [mentions]. apply in_flat_map. eauto. }
  intros p n q k I J. destruct n as [| t| | |u|]; try contradiction.
  - cbn [needs] in J. apply in_flat_map in J as (f & If & J). apply in_flat_map in J as ([u cu] & M & J). eapply N; [|exact J].
    apply (H p (NTable t)); [exact I|]. cbn [mentions]. apply in_flat_map. eauto.
  - cbn [needs] in J. eapply N; [|exact J]. apply defined_contents. exists p, (NUnion u). split; [exact I|left; reflexivity].
Qed.
End Source.

Section Leads.
Context (snake shouty : text -> text) (ident_ok : ident -> bool) (path_ok : qident -> bool).
Context (literal_ok : scalar_const -> bool -> option qident -> ity -> bool) (hg : host).
Notation emit_node := (emit_node snake shouty ident_ok path_ok literal_ok hg).
Notation emit := (emit snake shouty ident_ok path_ok literal_ok hg).
Context (es : list element) (root : list node) (B : build snake es = Done root) (items : list item) (Em : emit root = Some items).

Lemma item_source here f k name paths : module_at items here f -> In (XType k name paths) f ->
  exists p n x, here = emitted_modules snake p /\ In (p, n) (all_contents root) /\ plain n /\ emit_node n = Some x /\ In (XType k name paths) x.
Proof.
  intros M I. destruct (module_level _ _ _ _ _ _ _ _ _ M root Em) as (p & l & L & -> & E). destruct (emit_from _ _ _ _ _ _ _ _ _ E I) as (n & x & In_ & X & J).
  assert (P : plain n).
  { destruct n; try exact Logic.I. apply emit_module_items in X as (inner & _ & ->). destruct J as [J|[]]. discriminate J. }
  exists p, n, x. split; [reflexivity|]. split; [eapply contents_from; eauto|auto].
Qed.
Lemma modules_around_module n : modules_around (q_namespace (node_ident n)) = module_of n.
Proof. rewrite module_of_ident. destruct (node_ident n) as [|a [|b l]]; reflexivity. Qed.

Lemma path_leads : (forall p n q c, In (p, n) (all_contents root) -> In (q, c) (mentions n) -> In (q, c) (defined root)) ->
  (forall p n q c, In (p, n) (all_contents root) -> In (q, c) (defined root) -> (exists k, In (q, k) (needs n)) ->
    ~ encloses q p /\ forall x, In x (skipn (common_prefix q p) (removelast q)) -> module_name snake x = x) ->
  forall here f k name paths path k', module_at items here f -> In (XType k name paths) f -> In (path, k') paths -> leads items here path k'.
Proof.
  intros H C here f k name paths path k' M I J. destruct (item_source _ _ _ _ _ M I) as (p & n & x & -> & In_ & P & X & Ix).
  destruct (node_paths _ _ _ _ _ _ _ _ _ _ _ _ _ X P Ix J) as (q & Nq & ->). destruct (needs_defined snake es root B H p n q k' In_ Nq) as (c & D & ->).
  destruct (C p n q c In_ D (ex_intro (fun k => In (q, k) (needs n)) _ Nq)) as [En Fx]. pose proof (contents_module snake es root B p n In_) as Mn. pose proof (modules_around_module n) as Ma. rewrite Mn in Ma.
  destruct (emitted_at _ _ _ _ _ _ es root B items Em q c D) as (g & ps & Mg & Ig).
  exists (emitted_modules snake (removelast q)), (last q []), g, ps. split; [|auto].
  assert (Ns : ~ In (lit "super") q) by (eapply defined_no_super; eauto).
  pose proof (emitted_leads snake q (q_namespace (node_ident n)) Ns) as T. rewrite Ma in T. apply (proj2 (T En)). exact Fx.
Qed.

(** Types before their uses. *)
Lemma paths_before_use : declared_before_use es ->
  (forall p n q c, In (p, n) (all_contents root) -> In (q, c) (defined root) -> ~ encloses q p) ->
  (forall q c x, In (q, c) (defined root) -> In x (removelast q) -> module_name snake x = x) ->
  forall here f k name paths path k', module_at items here f -> In (XType k name paths) f -> In (path, k') paths -> leads items here path k'.
Proof.
  intros D E F. apply path_leads.
  - intros p n q c. apply (mentioned_before_use snake es root p n q c D B).
  - intros p n q c I Dq _. split; [eapply E; eauto|]. intros x Ix. eapply F; [exact Dq|]. rewrite <- (firstn_skipn (common_prefix q p)). apply in_or_app. right. exact Ix.
Qed.

(** One namespace. *)
Lemma needs_table_or_union n q k : In (q, k) (needs n) -> (exists t, n = NTable t) \/ exists u, n = NUnion u.
Proof. destruct n; cbn [needs]; try contradiction; eauto. Qed.
Lemma common_prefix_app p r : common_prefix (p ++ r) p = length p.
Proof. induction p as [|a p IH]; [destruct r; reflexivity|]. cbn [app common_prefix length]. rewrite (proj2 (ident_eqb_eq a a) eq_refl), IH. reflexivity. Qed.
Lemma encloses_longer (p q : qident) : encloses q p -> length q <= length p.
Proof. intros (l & ->). rewrite app_length. lia. Qed.
Lemma paths_one_namespace ns : one_namespace ns es -> snake (lit "butte_gen") = lit "butte_gen" ->
  forall here f k name paths path k', module_at items here f -> In (XType k name paths) f -> In (path, k') paths -> leads items here path k'.
Proof.
  intros One Sb. apply path_leads.
  - intros p n q c. apply (mentioned_one_namespace snake es root ns p n q c One B).
  - intros p n q c I Dq (k & Nq). destruct (node_source snake es root B) as (place & roots & outs & R & _ & _ & S).
    destruct (S p n I) as (i & e & out & Ne & Dc & In_ & Mn). apply needs_table_or_union in Nq.
    assert (Pp : p = ns).
    { assert (Nse : is_namespace e = false) by (destruct e; try reflexivity; inversion Dc; subst; destruct In_).
      pose proof (one_namespace_place _ _ _ _ _ _ One R i e Ne Nse) as Pi. rewrite Pi in Dc. rewrite <- Mn. unfold local_name, companion_name in Dc.
      inversion Dc; subst; unfold local_name, companion_name in *; repeat match goal with H : In _ (_ :: _) |- _ => destruct H as [<-|H] | H : In _ [] |- _ => destruct H end;
        destruct Nq as [(y & Nq)|(y & Nq)]; try discriminate Nq; cbn [module_of it_id iu_id]; apply removelast_last. }
    clear Mn. subst p.
    assert (Q : exists x, q = ns ++ [x] \/ q = ns ++ [lit "butte_gen"; x]).
    { apply defined_contents in Dq as (p' & n' & I' & D'). destruct (S p' n' I') as (i' & e' & out' & Ne' & Dc' & In' & _).
      pose proof (declares_defs snake _ _ _ _ _ Dc' n' q c In' D') as Dn.
      assert (Nse : is_namespace e' = false) by (destruct e'; try reflexivity; destruct Dn).
      rewrite (one_namespace_place _ _ _ _ _ _ One R i' e' Ne' Nse) in Dn. unfold declared_names, local_name, companion_name in Dn. destruct e'; cbn [In] in Dn; try contradiction;
        repeat match goal with H : _ \/ _ |- _ => destruct H as [<-|H] | H : False |- _ => destruct H end; eauto. }
    destruct Q as (x & [->| ->]).
    + split; [intros E; apply encloses_longer in E; rewrite app_length in E; cbn [length] in E; lia|]. rewrite common_prefix_app, removelast_last, skipn_all. intros y [].
    + split; [intros E; apply encloses_longer in E; rewrite app_length in E; cbn [length] in E; lia|]. rewrite common_prefix_app.
      replace (ns ++ [lit "butte_gen"; x]) with ((ns ++ [lit "butte_gen"]) ++ [x]) by (rewrite <- app_assoc; reflexivity). rewrite removelast_last.
      rewrite skipn_app, skipn_all, Nat.sub_diag. cbn [skipn app]. intros y [<-|[]]. exact Sb.
Qed.
End Leads.

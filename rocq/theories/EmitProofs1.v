(** The modules of a resolved schema, level by level, and the items emitted at
    each. *)
From Coq Require Import Strings.String ZArith List Bool Lia Strings.Byte Permutation.
From Verif Require Import Base BaseFacts Schema Ident SpecIdent Codegen GenProofs1 GenProofs8 Resolve SpecResolve ResolveProofs1 ResolveProofs2 ResolveProofs3 ResolveProofs4 ResolveProofs5 ResolveProofs6 ResolveProofs9 Emit SpecEmit.
Import ListNotations.
Local Open Scope nat_scope.

(** ** Levels *)
Inductive level : list node -> qident -> list node -> Prop :=
| lv_here l : level l [] l
| lv_inner l q sub p found : In (NNamespace q sub) l -> level sub p found -> level l (last q [] :: p) found.

Lemma contents_fix path q ns : contents path (NNamespace q ns) = flat_map (contents (path ++ [last q []])) ns.
Proof. cbn [contents]. induction ns as [|n ns IH]; cbn [flat_map]; [reflexivity|]. rewrite IH. reflexivity. Qed.

Lemma level_incl l p found : level l p found -> forall pre x, In x (flat_map (contents (pre ++ p)) found) -> In x (flat_map (contents pre) l).
Proof.
  induction 1 as [l|l q sub p found I L IH]; intros pre x J.
  - rewrite app_nil_r in J. exact J.
  - apply in_flat_map. exists (NNamespace q sub). split; [exact I|]. rewrite contents_fix. apply IH. rewrite <- app_assoc. exact J.
Qed.
Fixpoint node_size (n : node) : nat :=
  match n with
  | NNamespace q ns => S ((fix all (l : list node) : nat := match l with [] => 0 | n :: l => node_size n + all l end) ns)
  | _ => 1
  end.
Lemma size_in n ns : In n ns -> node_size n <= (fix all (l : list node) : nat := match l with [] => 0 | n :: l => node_size n + all l end) ns.
Proof. induction ns as [|m ns IH]; intros I; [destruct I|]. destruct I as [->|I]; [lia|]. specialize (IH I). lia. Qed.

Lemma contents_level s : forall n pre p m, node_size n <= s -> In (p, m) (contents pre n) ->
  exists p' found, p = pre ++ p' /\ level [n] p' found /\ In m found /\ plain m.
Proof.
  induction s as [|s IH]; intros n pre p m L I; [destruct n; cbn [node_size] in L; lia|].
  destruct n as [q ns| | | | |].
  2-6: destruct I as [E|[]]; injection E as <- <-; eexists [], _; rewrite app_nil_r; split; [reflexivity|]; split; [constructor|]; split; [left; reflexivity|exact Logic.I].
  rewrite contents_fix in I. apply in_flat_map in I as (n & In_ & I). cbn [node_size] in L. pose proof (size_in _ _ In_) as S.
  apply IH in I as (p' & found & -> & Lv & Im & P); [|lia]. exists (last q [] :: p').
  destruct p' as [|a p'].
  - exists ns. rewrite <- app_assoc. split; [reflexivity|]. split; [econstructor; [left; reflexivity|constructor]|]. inversion Lv; subst. destruct Im as [->|[]]. auto.
  - exists found. rewrite <- app_assoc. split; [reflexivity|]. split; [econstructor; [left; reflexivity|]|auto]. inversion Lv; subst. econstructor; [|eassumption].
    match goal with H : In _ [n] |- _ => destruct H as [H|[]]; subst end. exact In_.
Qed.
Lemma level_app l1 l2 a p found : level (l1 ++ l2) (a :: p) found <-> level l1 (a :: p) found \/ level l2 (a :: p) found.
Proof.
  split.
  - intros L. inversion L; subst. rewrite in_app_iff in *. intuition (eauto using level).
  - intros [L|L]; inversion L; subst; econstructor; eauto; apply in_or_app; auto.
Qed.
Lemma level_one n l a p found : In n l -> level [n] (a :: p) found -> level l (a :: p) found.
Proof. intros I L. inversion L; subst. match goal with H : In _ [n] |- _ => destruct H as [H|[]]; subst end. econstructor; eauto. Qed.
Lemma contents_at root p m : In (p, m) (all_contents root) -> exists found, level root p found /\ In m found /\ plain m.
Proof.
  intros I. unfold all_contents in I. apply in_flat_map in I as (n & In_ & I).
  destruct (contents_level _ n [] p m (le_n _) I) as (p' & found & -> & L & Im & P). cbn [app]. destruct p' as [|a p'].
  - exists root. split; [constructor|]. inversion L; subst. destruct Im as [->|[]]. auto.
  - exists found. split; [eapply level_one; eauto|auto].
Qed.
Lemma contents_from root p m found : level root p found -> In m found -> plain m -> In (p, m) (all_contents root).
Proof.
  intros L I P. apply (level_incl _ _ _ L []). apply in_flat_map. exists m. split; [exact I|]. destruct m; try (left; reflexivity). destruct P.
Qed.
Lemma level_split p : forall l a r found, level l (p ++ a :: r) found ->
  exists m q sub, level l p m /\ In (NNamespace q sub) m /\ last q [] = a.
Proof.
  induction p as [|b p IH]; intros l a r found L; cbn [app] in L; inversion L; subst.
  - exists l, q, sub. split; [constructor|auto].
  - match goal with H : level _ (p ++ _) _ |- _ => destruct (IH _ _ _ _ H) as (m & q' & sub' & L' & I & E) end.
    exists m, q', sub'. split; [econstructor; eauto|auto].
Qed.

(** ** The levels of a schema built *)
Definition subs (tree : list (ident * nsbuf)) : list node := map (fun kb => into_node (snd kb)) tree.
Lemma into_node_eq q sub nodes : into_node (NsBuf q sub nodes) = NNamespace q (subs sub ++ nodes).
Proof. cbn [into_node]. f_equal. f_equal. induction sub as [|[k b] sub IH]; [reflexivity|]. cbn [subs map snd]. rewrite IH. reflexivity. Qed.

Inductive full : list (ident * nsbuf) -> Prop :=
| full_nil : full []
| full_cons k q sub nodes tree : (nodes <> [] \/ sub <> []) -> full sub -> full tree -> full ((k, NsBuf q sub nodes) :: tree).

Lemma stack_nonempty pre p parts ns tree : stack pre (p :: parts) ns tree <> [].
Proof. cbn [stack]. destruct tree as [|[k b] tree]; [discriminate|]. destruct (ident_compare p k); discriminate. Qed.
Lemma stack_full parts : forall pre ns tree, full tree -> ns <> [] -> full (stack pre parts ns tree).
Proof.
  induction parts as [|p parts IH]; intros pre ns tree W P; [exact W|].
  induction W as [|k q sub nodes tree O Ws IHs Wt IHt].
  - cbn [stack]. destruct parts as [|r parts]; constructor; auto using full. right. apply stack_nonempty.
  - cbn [stack]. destruct (ident_compare p k) eqn:C.
    + destruct parts as [|r parts]; constructor; auto. right. apply stack_nonempty.
    + destruct parts as [|r parts]; constructor; auto using full. right. apply stack_nonempty.
    + constructor; auto.
Qed.
Lemma fold_full (f : qident -> list node) qs : forall tree, (forall q, In q qs -> f q <> []) -> full tree ->
  full (fold_left (fun tree q => stack [] q (f q) tree) qs tree).
Proof.
  induction qs as [|q qs IH]; intros tree N F; cbn [fold_left]; [exact F|]. apply IH; [intros x I; apply N; right; exact I|].
  apply stack_full; [exact F|apply N; left; reflexivity].
Qed.
Lemma full_flat tree : full tree -> forall pre, wft pre tree -> forall k, In k (map fst tree) -> exists rel n, In (pre ++ k :: rel, n) (flat pre tree).
Proof.
  induction 1 as [|k q sub nodes tree O Fs IHs Ft IHt]; intros pre W x I; [destruct I|]. inversion W; subst. rewrite flat_cons, contents_buf, last_snoc by assumption.
  cbn [map fst] in I. destruct I as [<-|I].
  - destruct O as [O|O].
    + destruct nodes as [|n nodes]; [congruence|]. exists [], n. rewrite !in_app_iff. left. right. left. reflexivity.
    + destruct sub as [|[k' b] sub]; [congruence|]. destruct (IHs (pre ++ [k])) with (k := k') as (rel & n & I); [assumption|left; reflexivity|].
      exists (k' :: rel), n. rewrite !in_app_iff. left. left. rewrite <- app_assoc in I. exact I.
  - destruct (IHt pre) with (k := x) as (rel & n & J); [assumption|exact I|]. exists rel, n. rewrite !in_app_iff. auto.
Qed.

Lemma subs_in pre tree q s : wft pre tree -> In (NNamespace q s) (subs tree) ->
  exists k sub nodes, tfind k tree = Some (NsBuf q sub nodes) /\ q = pre ++ [k] /\ s = subs sub ++ nodes /\ Forall plain nodes /\ wft q sub.
Proof.
  induction 1 as [|pre k sub nodes tree P Ws _ Wt IHt S]; intros I; [destruct I|].
  cbn [subs map snd] in I. rewrite into_node_eq in I. destruct I as [E|I].
  - injection E as <- <-. exists k, sub, nodes. cbn [tfind]. rewrite ident_compare_refl. auto.
  - destruct (IHt I) as (k' & sub' & nodes' & F & E & E' & P' & W'). exists k', sub', nodes'. split; [|auto]. cbn [tfind].
    destruct (ident_compare k' k) eqn:C; auto. apply ident_compare_eq in C. subst k'. exfalso.
    rewrite tfind_notin in F; [discriminate|]. intros J. specialize (S k J). rewrite ident_compare_refl in S. discriminate.
Qed.
Lemma full_find k tree q sub nodes : full tree -> tfind k tree = Some (NsBuf q sub nodes) -> full sub.
Proof. induction 1 as [|k' q' sub' nodes' tree O Fs IHs Ft IHt]; cbn [tfind]; [discriminate|]. destruct (ident_compare k k'); auto. intros E. injection E as <- <- <-. exact Fs. Qed.
Lemma plain_level nodes a p found : Forall plain nodes -> ~ level nodes (a :: p) found.
Proof. intros P L. inversion L; subst. rewrite Forall_forall in P. match goal with H : In _ nodes |- _ => apply P in H; destruct H end. Qed.
Fixpoint tree_buf (parts : qident) (tree : list (ident * nsbuf)) : option nsbuf :=
  match parts with
  | [] => None
  | p :: parts =>
      match tfind p tree with
      | None => None
      | Some (NsBuf q sub nodes) => match parts with [] => Some (NsBuf q sub nodes) | _ => tree_buf parts sub end
      end
  end.
Lemma tree_buf_get parts : forall tree q sub nodes, tree_buf parts tree = Some (NsBuf q sub nodes) -> nodes = tree_get parts tree.
Proof.
  induction parts as [|p parts IH]; intros tree q sub nodes E; [discriminate|]. cbn [tree_buf tree_get] in *. destruct (tfind p tree) as [[q' s n]|]; [|discriminate].
  destruct parts; [injection E as <- <- <-; reflexivity|eapply IH; exact E].
Qed.
Lemma level_tree p : forall pre tree l, wft pre tree -> full tree -> p <> [] -> level (subs tree) p l ->
  exists sub nodes, l = subs sub ++ nodes /\ Forall plain nodes /\ wft (pre ++ p) sub /\ full sub /\ tree_buf p tree = Some (NsBuf (pre ++ p) sub nodes).
Proof.
  induction p as [|a p IH]; intros pre tree l W F N L; [congruence|]. clear N. inversion L; subst.
  match goal with H : In _ (subs tree) |- _ => destruct (subs_in _ _ _ _ W H) as (k & sub' & nodes & T & -> & -> & P & W') end.
  rewrite last_snoc in *. cbn [tree_buf]. rewrite T. pose proof (full_find _ _ _ _ _ F T) as F'.
  destruct p as [|b p].
  - match goal with H : level _ [] _ |- _ => inversion H; subst end. exists sub', nodes. auto.
  - match goal with H : level _ (b :: p) _ |- _ => apply level_app in H as [H|H]; [|destruct (plain_level _ _ _ _ P H)] end.
    destruct (IH (pre ++ [k]) sub' l W' F') as (sub & nodes' & E & P' & Ws & Fs & G); [discriminate|assumption|]. rewrite <- app_assoc in Ws, G.
    exists sub, nodes'. split; [exact E|]. split; [exact P'|]. split; [exact Ws|]. split; [exact Fs|exact G].
Qed.

Lemma arrange_level nodes : Forall plain nodes -> exists sub_at, forall p l, level (arrange nodes) p l ->
  l = subs (sub_at p) ++ nodes_under p (arrange nodes) /\ wft p (sub_at p) /\ full (sub_at p).
Proof.
  intros P. pose proof (fun p => arrange_under nodes p P) as U. revert U. unfold arrange. set (qs := namespace_idents nodes). set (f := fun q => nodes_in nodes (Some q)).
  assert (Pf : forall q, Forall plain (f q)).
  { intros q. unfold f, nodes_in. rewrite Forall_forall in *. intros n I. apply filter_In in I as [I _]. auto. }
  assert (Pn : Forall plain (nodes_in nodes None)).
  { unfold nodes_in. rewrite Forall_forall in *. intros n I. apply filter_In in I as [I _]. auto. }
  assert (Nq : forall q, In q qs -> q <> []).
  { intros q I. apply namespace_idents_In in I as (n & _ & E). rewrite node_namespace_module in E. destruct (module_of n); congruence. }
  assert (Ne : forall q, In q qs -> f q <> []).
  { intros q I. apply namespace_idents_In in I as (n & I & E). intros Z. assert (In n (f q)); [|rewrite Z in *; auto]. unfold f, nodes_in. apply filter_In.
    split; [exact I|]. rewrite E. apply qident_eqb_refl. }
  destruct (fold_tree f qs [] Nq Pf (wft_nil [])) as [W G]. pose proof (fold_full f qs [] Ne full_nil) as F. fold f in G.
  set (tree := fold_left (fun tree q => stack [] q (f q) tree) qs []) in *.
  change (fold_left (fun tree q => stack [] q (nodes_in nodes (Some q)) tree) qs []) with tree. fold (subs tree).
  intros U. exists (fun p => match p with [] => tree | _ => match tree_buf p tree with Some (NsBuf _ s _) => s | None => [] end end).
  intros p l L. rewrite U. destruct p as [|a p].
  - inversion L; subst. split; [|auto]. f_equal. unfold nodes_in. apply filter_ext. intros n. rewrite node_namespace_module. destruct (module_of n); reflexivity.
  - apply level_app in L as [L|L]; [|destruct (plain_level _ _ _ _ Pn L)].
    destruct (level_tree _ _ _ _ W F (not_eq_sym (@nil_cons _ a p)) L) as (sub & nodes' & -> & P' & Ws & Fs & E). rewrite E. split; [|auto]. f_equal.
    apply tree_buf_get in E. rewrite E, G. cbn [tree_get tfind].
    assert (Ef : f (a :: p) = filter (fun n => qident_eqb (module_of n) (a :: p)) nodes).
    { unfold f, nodes_in. apply filter_ext. intros n. rewrite node_namespace_module. destruct (module_of n); reflexivity. }
    destruct (existsb (qident_eqb (a :: p)) qs) eqn:X; [exact Ef|]. symmetry. apply filter_none. intros n I. apply qident_eqb_neq. intros M.
    assert (In (a :: p) qs) by (apply namespace_idents_In; exists n; split; [exact I|]; rewrite node_namespace_module, M; reflexivity).
    rewrite (proj2 (existsb_exists _ _)) in X; [discriminate|]. exists (a :: p). split; [assumption|apply qident_eqb_refl].
Qed.

Section Built.
Context (snake : text -> text) (es : list element) (root : list node) (B : build snake es = Done root).

Lemma build_arranged : exists nodes, Forall plain nodes /\ root = arrange nodes.
Proof.
  pose proof B as B'. apply build_run in B' as (st' & (U & _) & E). exists (marked_nodes st'). split; [|exact E].
  destruct (run_resolution snake es st' U) as (place & outs & R & E' & _ & W). rewrite E'.
  apply Forall_concat. apply Forall_forall. intros out I. apply In_nth_error in I as (i & N).
  assert (L : i < length es) by (rewrite <- (res_length _ _ _ _ _ R); apply nth_error_Some; congruence).
  destruct (nth_error es i) as [e|] eqn:Ne; [|apply nth_error_None in Ne; lia]. destruct (res_declares _ _ _ _ _ R i e Ne) as (out' & No & D).
  assert (out' = out) by congruence. subst. eapply declares_plain; eauto.
Qed.
Lemma root_level : exists sub_at, forall p l, level root p l -> l = subs (sub_at p) ++ nodes_under p root /\ wft p (sub_at p) /\ full (sub_at p).
Proof. destruct build_arranged as (nodes & P & ->). apply arrange_level. exact P. Qed.
Lemma under_plain p n : In n (nodes_under p root) -> plain n /\ module_of n = p.
Proof.
  intros I. destruct (resolved snake es root B) as (place & roots & outs & R & P & N). rewrite N in I. apply filter_In in I as [I E]. apply qident_eqb_eq in E. split; [|exact E].
  destruct (contents_at root (module_of n) n) as (_ & _ & _ & Pl); [eapply in_contents; eauto|exact Pl].
Qed.
Lemma under_contents p n : In n (nodes_under p root) <-> In (p, n) (all_contents root).
Proof.
  unfold nodes_under. rewrite in_map_iff. split.
  - intros ([p' n'] & <- & I). apply filter_In in I as [I E]. apply qident_eqb_eq in E. cbn [fst] in E. subst. exact I.
  - intros I. exists (p, n). split; [reflexivity|]. apply filter_In. split; [exact I|apply qident_eqb_refl].
Qed.
Lemma contents_module p n : In (p, n) (all_contents root) -> module_of n = p.
Proof. intros I. apply under_contents in I. apply under_plain in I. tauto. Qed.

(** What is at a level: namespaces, with different names, and definitions. *)
Lemma root_at p l : level root p l -> exists sub, l = subs sub ++ nodes_under p root /\ wft p sub /\
  forall a, In a (map fst sub) <-> namespace_in root (p ++ [a]).
Proof.
  intros L. destruct root_level as (sub_at & H). exists (sub_at p). destruct (H p l L) as (E & W & F). split; [exact E|]. split; [exact W|]. intros a. split.
  - intros I. destruct (full_flat _ F p W a I) as (rel & n & J). exists (p ++ a :: rel), n. split; [|exists rel; rewrite <- app_assoc; reflexivity].
    apply (level_incl _ _ _ L []). cbn [app]. rewrite E, flat_map_app, in_app_iff. left. exact J.
  - intros (q & n & I & r & ->). rewrite <- app_assoc in I. apply contents_at in I as (found & Lv & _). cbn [app] in Lv.
    destruct (level_split p root a r found Lv) as (m & q & s & Lm & J & Ea). destruct (H p m Lm) as (Em & _ & _).
    rewrite Em in J. rewrite in_app_iff in J. destruct J as [J|J]; [|apply under_plain in J as [[] _]].
    destruct (subs_in _ _ _ _ W J) as (k & s1 & n1 & T & -> & _). rewrite last_snoc in Ea. subst k.
    destruct (in_dec (list_eq_dec Byte.byte_eq_dec) a (map fst (sub_at p))) as [Y|Y]; [exact Y|]. rewrite (tfind_notin _ _ Y) in T. discriminate.
Qed.
Lemma level_of p : p = [] \/ namespace_in root p -> exists l, level root p l.
Proof.
  intros [->|(q & n & I & r & ->)]; [exists root; constructor|]. apply contents_at in I as (found & L & _).
  destruct r as [|a r]; [rewrite app_nil_r in L; eauto|]. destruct (level_split _ _ _ _ _ L) as (m & _ & _ & Lm & _). eauto.
Qed.
End Built.

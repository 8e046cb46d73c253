(** Schema resolution: arranging the definitions in modules. *)
From Coq Require Import Strings.String ZArith NArith List Bool Lia Strings.Byte.
From Verif Require Import Base BaseFacts Schema Ident Codegen GenProofs1 GenProofs8 Resolve SpecResolve ResolveProofs1 ResolveProofs2 ResolveProofs3 ResolveProofs4.
Import ListNotations.
Local Open Scope nat_scope.

(** ** The order of identifiers *)
Lemma to_N_inj x y : Byte.to_N x = Byte.to_N y -> x = y.
Proof. intros H. pose proof (Byte.of_to_N x) as A. pose proof (Byte.of_to_N y) as B. rewrite H in A. congruence. Qed.
Lemma ident_compare_eq a : forall b, ident_compare a b = Eq <-> a = b.
Proof.
  induction a as [|x a IH]; intros [|y b]; cbn [ident_compare]; try (split; congruence).
  destruct (N.compare_spec (Byte.to_N x) (Byte.to_N y)) as [E|L|L].
  - apply to_N_inj in E. subst. rewrite IH. split; congruence.
  - split; [discriminate|]. intros H. injection H as -> ->. lia.
  - split; [discriminate|]. intros H. injection H as -> ->. lia.
Qed.
Lemma ident_compare_gt a : forall b, ident_compare a b = Gt -> ident_compare b a = Lt.
Proof.
  induction a as [|x a IH]; intros [|y b]; cbn [ident_compare]; try congruence.
  rewrite (N.compare_antisym (Byte.to_N x) (Byte.to_N y)). destruct (N.compare (Byte.to_N x) (Byte.to_N y)); cbn [CompOpp]; auto; discriminate.
Qed.
Lemma ident_compare_trans a : forall b c, ident_compare a b = Lt -> ident_compare b c = Lt -> ident_compare a c = Lt.
Proof.
  induction a as [|x a IH]; intros [|y b] [|z c]; cbn [ident_compare]; try congruence.
  destruct (N.compare_spec (Byte.to_N x) (Byte.to_N y)) as [E|L|L]; try discriminate;
  destruct (N.compare_spec (Byte.to_N y) (Byte.to_N z)) as [E'|L'|L']; try discriminate; intros A B.
  - rewrite E, E', N.compare_refl. eauto.
  - rewrite E. rewrite (proj2 (N.compare_lt_iff _ _) L'). reflexivity.
  - rewrite <- E'. rewrite (proj2 (N.compare_lt_iff _ _) L). reflexivity.
  - assert (Q : (Byte.to_N x < Byte.to_N z)%N) by lia. rewrite (proj2 (N.compare_lt_iff _ _) Q). reflexivity.
Qed.
Lemma ident_compare_refl a : ident_compare a a = Eq.
Proof. apply ident_compare_eq. reflexivity. Qed.
Lemma qident_compare_eq a : forall b, qident_compare a b = Eq <-> a = b.
Proof.
  induction a as [|x a IH]; intros [|y b]; cbn [qident_compare]; try (split; congruence).
  destruct (ident_compare x y) eqn:E.
  - apply ident_compare_eq in E. subst. rewrite IH. split; congruence.
  - split; [discriminate|]. intros H. injection H as -> ->. rewrite ident_compare_refl in E. discriminate.
  - split; [discriminate|]. intros H. injection H as -> ->. rewrite ident_compare_refl in E. discriminate.
Qed.
Lemma qset_add_In q l x : In x (qset_add q l) <-> x = q \/ In x l.
Proof.
  induction l as [|y l IH]; cbn [qset_add In]; [intuition|]. destruct (qident_compare q y) eqn:E; cbn [In].
  - apply qident_compare_eq in E. subst. intuition.
  - intuition.
  - rewrite IH. intuition.
Qed.
Lemma namespace_idents_In nodes q : In q (namespace_idents nodes) <-> exists n, In n nodes /\ node_namespace n = Some q.
Proof.
  unfold namespace_idents. induction nodes as [|n nodes IH]; cbn [fold_right In].
  - split; [intros []|intros (n & [] & _)].
  - destruct (node_namespace n) as [p|] eqn:E.
    + rewrite qset_add_In, IH. split.
      * intros [->|(m & I & M)]; [exists n; auto|exists m; auto].
      * intros (m & [->|I] & M); [left; congruence|right; eauto].
    + rewrite IH. split; [intros (m & I & M); exists m; auto|]. intros (m & [->|I] & M); [congruence|eauto].
Qed.

(** ** The tree *)
Definition plain (n : node) : Prop := match n with NNamespace _ _ => False | _ => True end.
Inductive wft : qident -> list (ident * nsbuf) -> Prop :=
| wft_nil pre : wft pre []
| wft_cons pre k sub nodes tree :
    Forall plain nodes -> wft (pre ++ [k]) sub -> wft pre tree ->
    (forall k', In k' (map fst tree) -> ident_compare k k' = Lt) ->
    wft pre ((k, NsBuf (pre ++ [k]) sub nodes) :: tree).

Fixpoint tfind (p : ident) (tree : list (ident * nsbuf)) : option nsbuf :=
  match tree with
  | [] => None
  | (k, b) :: tree => match ident_compare p k with Eq => Some b | _ => tfind p tree end
  end.
Fixpoint tree_get (parts : qident) (tree : list (ident * nsbuf)) : list node :=
  match parts with
  | [] => []
  | p :: parts =>
      match tfind p tree with
      | None => []
      | Some (NsBuf _ sub nodes) => match parts with [] => nodes | _ => tree_get parts sub end
      end
  end.
Definition flat (pre : qident) (tree : list (ident * nsbuf)) : list (qident * node) :=
  flat_map (contents pre) (map (fun kb => into_node (snd kb)) tree).

Lemma flat_cons pre k b tree : flat pre ((k, b) :: tree) = contents pre (into_node b) ++ flat pre tree.
Proof. reflexivity. Qed.
Lemma contents_buf pre q sub nodes : Forall plain nodes ->
  contents pre (into_node (NsBuf q sub nodes)) = flat (pre ++ [last q []]) sub ++ map (pair (pre ++ [last q []])) nodes.
Proof.
  intros P. cbn [into_node contents]. set (inner := pre ++ [last q []]).
  assert (F : forall l, (fix all (l : list node) : list (qident * node) := match l with [] => [] | n :: l0 => contents inner n ++ all l0 end) l = flat_map (contents inner) l)
    by (induction l as [|n l IH]; cbn [flat_map]; [reflexivity|rewrite IH; reflexivity]).
  rewrite F, flat_map_app. f_equal.
  - unfold flat. f_equal. induction sub as [|[k b] sub IH]; [reflexivity|]. cbn [map snd]. rewrite IH. reflexivity.
  - induction P as [|n l Pn _ IH]; [reflexivity|]. cbn [flat_map map]. rewrite IH. destruct n; try reflexivity. destruct Pn.
Qed.
Lemma last_snoc (q : qident) k d : last (q ++ [k]) d = k.
Proof. apply last_last. Qed.

Lemma flat_paths pre tree : wft pre tree -> forall x, In x (flat pre tree) ->
  exists k rel, In k (map fst tree) /\ fst x = pre ++ k :: rel.
Proof.
  induction 1 as [|pre k sub nodes tree P _ IHs _ IHt _]; intros x I; [destruct I|].
  rewrite flat_cons, contents_buf, last_snoc in I by exact P. rewrite !in_app_iff in I. cbn [map fst In]. destruct I as [[I|I]|I].
  - destruct (IHs x I) as (k' & rel & _ & E). exists k, (k' :: rel). split; [auto|]. rewrite E, <- app_assoc. reflexivity.
  - apply in_map_iff in I as (n & <- & _). exists k, []. auto.
  - destruct (IHt x I) as (k' & rel & J & E). exists k', rel. auto.
Qed.
Lemma tfind_notin p tree : ~ In p (map fst tree) -> tfind p tree = None.
Proof.
  induction tree as [|[k b] tree IH]; intros N; cbn [tfind map fst In] in *; [reflexivity|].
  destruct (ident_compare p k) eqn:E; [apply ident_compare_eq in E; subst; exfalso; apply N; auto|apply IH; auto..].
Qed.
Lemma wft_fresh pre k b tree : wft pre ((k, b) :: tree) -> ~ In k (map fst tree).
Proof. intros W I. inversion W; subst. specialize (H6 k I). rewrite ident_compare_refl in H6. discriminate. Qed.

Lemma filter_none {A} (f : A -> bool) l : (forall x, In x l -> f x = false) -> filter f l = [].
Proof. induction l as [|x l IH]; intros H; [reflexivity|]. cbn [filter]. rewrite (H x (or_introl eq_refl)). apply IH. intros y I. apply H. right. exact I. Qed.
Lemma filter_all {A} (f : A -> bool) l : (forall x, In x l -> f x = true) -> filter f l = l.
Proof. induction l as [|x l IH]; intros H; [reflexivity|]. cbn [filter]. rewrite (H x (or_introl eq_refl)). f_equal. apply IH. intros y I. apply H. right. exact I. Qed.
Definition at_path (path : qident) (x : qident * node) : bool := qident_eqb (fst x) path.
Lemma at_path_iff path x : at_path path x = true <-> fst x = path.
Proof. apply qident_eqb_eq. Qed.
Lemma at_path_no path x : fst x <> path -> at_path path x = false.
Proof. intros H. apply qident_eqb_neq. exact H. Qed.

Lemma flat_get pre tree : wft pre tree -> forall rel,
  filter (at_path (pre ++ rel)) (flat pre tree) = map (pair (pre ++ rel)) (tree_get rel tree).
Proof.
  induction 1 as [pre|pre k sub nodes tree P Ws IHs Wt IHt S]; intros rel.
  - destruct rel; reflexivity.
  - pose proof (wft_cons _ _ _ _ _ P Ws Wt S) as W.
    destruct rel as [|p rel].
    { cbn [tree_get map]. apply filter_none. intros x I. destruct (flat_paths _ _ W x I) as (k' & rel & _ & E).
      apply at_path_no. rewrite E. intros Q. apply (f_equal (@length _)) in Q. rewrite !app_length in Q. cbn [length] in Q. lia. }
    rewrite flat_cons, contents_buf, last_snoc, !filter_app by exact P.
    destruct (ident_compare p k) eqn:C.
    + apply ident_compare_eq in C. subst p.
      rewrite (IHt (k :: rel)). replace (tree_get (k :: rel) tree) with (@nil node) by (cbn [tree_get]; rewrite tfind_notin by (eapply wft_fresh; exact W); reflexivity).
      cbn [map]. rewrite app_nil_r. cbn [tree_get tfind]. rewrite ident_compare_refl.
      replace (pre ++ k :: rel) with ((pre ++ [k]) ++ rel) by (rewrite <- app_assoc; reflexivity). rewrite IHs.
      destruct rel as [|r rel].
      * cbn [tree_get map app]. rewrite app_nil_r. apply filter_all. intros x I. apply in_map_iff in I as (n & <- & _). apply at_path_iff. reflexivity.
      * rewrite filter_none; [rewrite app_nil_r; reflexivity|]. intros x I. apply in_map_iff in I as (n & <- & _). apply at_path_no. cbn [fst].
        intros Q. apply (f_equal (@length _)) in Q. rewrite !app_length in Q. cbn [length] in Q. lia.
    + assert (N : p <> k) by (intros ->; rewrite ident_compare_refl in C; discriminate).
      rewrite (IHt (p :: rel)). cbn [tree_get tfind]. rewrite C.
      rewrite !filter_none; [reflexivity| |]; intros x I; apply at_path_no.
      * apply in_map_iff in I as (n & <- & _). cbn [fst]. intros Q. apply app_inv_head in Q. injection Q as <- _. auto.
      * destruct (flat_paths _ _ Ws x I) as (k' & r & _ & E). rewrite E, <- app_assoc. intros Q. apply app_inv_head in Q. injection Q as <- _. auto.
    + assert (N : p <> k) by (intros ->; rewrite ident_compare_refl in C; discriminate).
      rewrite (IHt (p :: rel)). cbn [tree_get tfind]. rewrite C.
      rewrite !filter_none; [reflexivity| |]; intros x I; apply at_path_no.
      * apply in_map_iff in I as (n & <- & _). cbn [fst]. intros Q. apply app_inv_head in Q. injection Q as <- _. auto.
      * destruct (flat_paths _ _ Ws x I) as (k' & r & _ & E). rewrite E, <- app_assoc. intros Q. apply app_inv_head in Q. injection Q as <- _. auto.
Qed.

(** ** Adding a namespace *)
Lemma stack_keys pre p parts ns tree k : In k (map fst (stack pre (p :: parts) ns tree)) -> k = p \/ In k (map fst tree).
Proof.
  cbn [stack]. induction tree as [|[k' b] tree IH]; cbn [map fst In]; [intuition|].
  destruct (ident_compare p k') eqn:E; cbn [map fst In]; intuition.
Qed.
Lemma stack_nil_tree pre p parts ns : Forall plain ns ->
  (parts <> [] -> wft (pre ++ [p]) (stack (pre ++ [p]) parts ns [])) ->
  wft pre (stack pre (p :: parts) ns []).
Proof.
  intros P W. cbn [stack]. destruct parts as [|r parts].
  - repeat constructor; auto. intros k' [].
  - constructor; [constructor|apply W; discriminate|constructor|intros k' []].
Qed.
Lemma stack_wft parts : forall pre ns tree, wft pre tree -> Forall plain ns -> wft pre (stack pre parts ns tree).
Proof.
  induction parts as [|p parts IH]; intros pre ns tree W P; [exact W|].
  induction W as [pre|pre k sub nodes tree Pn Ws _ Wt IHt S].
  - apply stack_nil_tree; [exact P|]. intros _. apply IH; [constructor|exact P].
  - cbn [stack]. destruct (ident_compare p k) eqn:C.
    + apply ident_compare_eq in C. subst p. destruct parts as [|r parts]; constructor; auto.
    + assert (S' : forall k', In k' (map fst ((k, NsBuf (pre ++ [k]) sub nodes) :: tree)) -> ident_compare p k' = Lt).
      { cbn [map fst In]. intros k' [<-|I]; [exact C|]. eapply ident_compare_trans; [exact C|auto]. }
      assert (W : wft pre ((k, NsBuf (pre ++ [k]) sub nodes) :: tree)) by (constructor; auto).
      destruct parts as [|r parts]; constructor; auto.
      * constructor.
      * apply IH; [constructor|exact P].
    + constructor; auto. intros k' I. apply stack_keys in I as [->|I]; [apply ident_compare_gt; exact C|auto].
Qed.
Definition new_buf (pre : qident) (p : ident) (parts : qident) (ns : list node) (b : option nsbuf) : nsbuf :=
  match match b with Some b => b | None => NsBuf (pre ++ [p]) [] [] end, parts with
  | NsBuf q sub old, [] => NsBuf q sub ns
  | NsBuf q sub old, _ => NsBuf q (stack (pre ++ [p]) parts ns sub) old
  end.
Lemma stack_find pre p parts ns tree : wft pre tree -> forall x,
  tfind x (stack pre (p :: parts) ns tree) = match ident_compare x p with Eq => Some (new_buf pre p parts ns (tfind p tree)) | _ => tfind x tree end.
Proof.
  intros W x. induction W as [pre|pre k sub nodes tree Pn Ws _ Wt IHt S].
  - cbn [stack tfind]. unfold new_buf. destruct (ident_compare x p); reflexivity.
  - cbn [stack]. destruct (ident_compare p k) eqn:C.
    + apply ident_compare_eq in C. subst p. cbn [tfind]. rewrite ident_compare_refl. unfold new_buf. destruct (ident_compare x k); reflexivity.
    + cbn [tfind]. rewrite C. replace (tfind p tree) with (@None nsbuf).
      * unfold new_buf. destruct (ident_compare x p) eqn:X; reflexivity.
      * symmetry. apply tfind_notin. intros I. assert (W : ident_compare k p = Lt) by auto. pose proof (ident_compare_trans _ _ _ C W) as Q. rewrite ident_compare_refl in Q. discriminate.
    + cbn [tfind]. rewrite C. destruct (ident_compare x k) eqn:X.
      * apply ident_compare_eq in X. subst x. destruct (ident_compare k p) eqn:Y; auto. apply ident_compare_eq in Y. subst. rewrite ident_compare_refl in C. discriminate.
      * apply IHt.
      * apply IHt.
Qed.
Lemma tfind_wft pre tree p b : wft pre tree -> tfind p tree = Some b -> exists sub nodes, b = NsBuf (pre ++ [p]) sub nodes /\ wft (pre ++ [p]) sub.
Proof.
  induction 1 as [|pre k sub nodes tree Pn Ws _ Wt IHt S]; cbn [tfind]; [discriminate|]. destruct (ident_compare p k) eqn:C; auto.
  intros H. injection H as <-. apply ident_compare_eq in C. subst. eauto.
Qed.
Lemma stack_get parts : forall pre ns tree, wft pre tree -> forall rel, parts <> [] ->
  tree_get rel (stack pre parts ns tree) = if qident_eqb rel parts then ns else tree_get rel tree.
Proof.
  induction parts as [|p parts IH]; intros pre ns tree W rel N; [congruence|]. destruct rel as [|r rel]; [reflexivity|].
  cbn [tree_get]. rewrite stack_find by exact W. cbn [qident_eqb]. destruct (ident_compare r p) eqn:C.
  - apply ident_compare_eq in C. subst r. rewrite (proj2 (ident_eqb_eq _ _) eq_refl). cbn [andb].
    assert (B : exists sub nodes, match tfind p tree with Some b => b | None => NsBuf (pre ++ [p]) [] [] end = NsBuf (pre ++ [p]) sub nodes /\ wft (pre ++ [p]) sub).
    { destruct (tfind p tree) as [b|] eqn:F; [eapply tfind_wft; eauto|exists [], []; split; [reflexivity|constructor]]. }
    destruct B as (sub & nodes & B & Ws). unfold new_buf. rewrite B.
    assert (G : match tfind p tree with
      | Some (NsBuf _ sub nodes) => match rel with [] => nodes | _ :: _ => tree_get rel sub end | None => [] end
      = match rel with [] => nodes | _ :: _ => tree_get rel sub end).
    { destruct (tfind p tree) as [b|]; [rewrite B; reflexivity|]. injection B as <- <-. destruct rel; reflexivity. }
    rewrite G. destruct parts as [|r' parts].
    + destruct rel; reflexivity.
    + destruct rel as [|r rel]; [reflexivity|]. rewrite IH; [|exact Ws|discriminate]. reflexivity.
  - destruct (ident_eqb r p) eqn:Q; [apply ident_eqb_eq in Q; subst; rewrite ident_compare_refl in C; discriminate|reflexivity].
  - destruct (ident_eqb r p) eqn:Q; [apply ident_eqb_eq in Q; subst; rewrite ident_compare_refl in C; discriminate|reflexivity].
Qed.

(** ** The whole schema *)
Lemma fold_tree (f : qident -> list node) qs : forall tree, (forall q, In q qs -> q <> []) -> (forall q, Forall plain (f q)) -> wft [] tree ->
  wft [] (fold_left (fun tree q => stack [] q (f q) tree) qs tree) /\
  forall rel, tree_get rel (fold_left (fun tree q => stack [] q (f q) tree) qs tree) =
    if existsb (qident_eqb rel) qs then f rel else tree_get rel tree.
Proof.
  induction qs as [|q qs IH]; intros tree N P W; cbn [fold_left existsb]; [auto|].
  destruct (IH (stack [] q (f q) tree)) as [A B]; [intros x I; apply N; right; exact I|exact P|apply stack_wft; auto|]. split; [exact A|].
  intros rel. rewrite B. destruct (existsb (qident_eqb rel) qs); [rewrite orb_true_r; reflexivity|]. rewrite orb_false_r.
  rewrite stack_get; [|exact W|apply N; left; reflexivity]. destruct (qident_eqb rel q) eqn:E; [|reflexivity]. apply qident_eqb_eq in E. subst. reflexivity.
Qed.
Lemma module_of_ident n : module_of n = removelast (node_ident n).
Proof. destruct n; reflexivity. Qed.
Lemma node_namespace_module n : node_namespace n = match module_of n with [] => None | q => Some q end.
Proof.
  rewrite module_of_ident. unfold node_namespace, q_namespace. destruct (node_ident n) as [|a [|b l]]; reflexivity.
Qed.
Lemma nodes_under_app path a b : nodes_under path (a ++ b) = nodes_under path a ++ nodes_under path b.
Proof. unfold nodes_under, all_contents. rewrite flat_map_app, filter_app, map_app. reflexivity. Qed.

Lemma arrange_under nodes path : Forall plain nodes ->
  nodes_under path (arrange nodes) = filter (fun n => qident_eqb (module_of n) path) nodes.
Proof.
  intros P. unfold arrange. set (qs := namespace_idents nodes). set (f := fun q => nodes_in nodes (Some q)).
  assert (Pf : forall q, Forall plain (f q)).
  { intros q. unfold f, nodes_in. rewrite Forall_forall in *. intros n I. apply filter_In in I as [I _]. auto. }
  assert (Nq : forall q, In q qs -> q <> []).
  { intros q I. apply namespace_idents_In in I as (n & _ & E). rewrite node_namespace_module in E. destruct (module_of n); congruence. }
  destruct (fold_tree f qs [] Nq Pf (wft_nil [])) as [W G]. set (tree := fold_left (fun tree q => stack [] q (f q) tree) qs []) in *.
  change (fold_left (fun tree q => stack [] q (nodes_in nodes (Some q)) tree) qs []) with tree.
  rewrite nodes_under_app. unfold nodes_under at 1. change (all_contents (map (fun kb => into_node (snd kb)) tree)) with (flat [] tree).
  change (fun x : qident * node => qident_eqb (fst x) path) with (at_path ([] ++ path)).
  rewrite (flat_get [] tree W path), map_map, map_id. cbn [app]. rewrite G.
  assert (R : nodes_under path (nodes_in nodes None) = match path with [] => nodes_in nodes None | _ => [] end).
  { assert (Pn : Forall plain (nodes_in nodes None)).
    { unfold nodes_in. rewrite Forall_forall in *. intros n I. apply filter_In in I as [I _]. auto. }
    unfold nodes_under, all_contents. induction Pn as [|n l Pn _ IH]; [destruct path; reflexivity|]. cbn [flat_map]. rewrite filter_app, map_app, IH.
    replace (contents [] n) with [([] : qident, n)] by (destruct n; try reflexivity; destruct Pn). cbn [filter fst map snd app].
    destruct path; reflexivity. }
  rewrite R.
  assert (E : path <> [] -> f path = filter (fun n => qident_eqb (module_of n) path) nodes).
  { intros Np. unfold f, nodes_in. apply filter_ext. intros n. rewrite node_namespace_module. destruct (module_of n); [destruct path; [congruence|reflexivity]|reflexivity]. }
  destruct path as [|p path].
  - destruct (existsb (qident_eqb []) qs) eqn:X.
    2:{ cbn [tree_get app]. unfold nodes_in. apply filter_ext. intros n. rewrite node_namespace_module. destruct (module_of n); reflexivity. }
    exfalso. apply existsb_exists in X as (q & I & X). apply qident_eqb_eq in X. subst. exact (Nq _ I eq_refl).
  - rewrite app_nil_r. destruct (existsb (qident_eqb (p :: path)) qs) eqn:X; [apply E; discriminate|].
    assert (T0 : tree_get (p :: path) [] = []) by reflexivity. rewrite T0. symmetry. apply filter_none. intros n I. apply qident_eqb_neq. intros M.
    assert (In (p :: path) qs) by (apply namespace_idents_In; exists n; split; [exact I|]; rewrite node_namespace_module, M; reflexivity).
    rewrite (proj2 (existsb_exists _ _)) in X; [discriminate|]. exists (p :: path). split; [assumption|apply qident_eqb_refl].
Qed.

(** Schema resolution: what holds of every schema that resolves. *)
From Coq Require Import Strings.String ZArith List Bool Lia Strings.Byte Permutation.
From Verif Require Import Base BaseFacts Schema Ident Codegen GenProofs1 GenProofs8 Resolve SpecResolve ResolveProofs1 ResolveProofs2 ResolveProofs3 ResolveProofs4 ResolveProofs5.
Import ListNotations.
Local Open Scope nat_scope.

Lemma declares_plain snake roots v p e out : declares snake roots v p e out -> Forall plain out.
Proof. destruct 1; repeat constructor. Qed.
Lemma declares_mentions snake roots v p e out n q c : declares snake roots v p e out -> In n out -> In (q, c) (mentions n) ->
  v q c.
Proof.
  assert (R : forall t u, resolves v p t u -> In (q, c) (ty_mentions u) -> v q c).
  { induction 1; cbn [ty_mentions In]; intros I; try tauto. destruct I as [I|[]]. injection I as <- <-. assumption. }
  intros D I M. destruct D as [| |t fs F|t fs F|e base _|u vs F|r ms F]; cbn [In] in I; try tauto.
  - destruct I as [<-|[]]. cbn [mentions it_fields] in M. induction F as [|f fs ty l T N F IH|f fs q' e vs c' l T V F IH]; cbn [flat_map if_ty] in M; [destruct M| |].
    + apply in_app_or in M as [M|M]; eauto.
    + cbn [ty_mentions app In] in M. destruct M as [M|[M|M]]; [injection M as <- <-; exact V| |auto]. injection M as <- <-. inversion T; subst. assumption.
  - destruct I as [<-|[]]. cbn [mentions is_fields] in M. induction F as [|f fs ty l T N F IH]; cbn [flat_map if_ty] in M; [destruct M|].
    apply in_app_or in M as [M|M]; eauto.
  - destruct I as [<-|[]]. destruct M.
  - destruct I as [<-|[<-|[]]]; [destruct M|]. cbn [mentions iu_variants] in M. induction F as [|f fs ty l T F IH]; cbn [flat_map iuv_ty] in M; [destruct M|].
    apply in_app_or in M as [M|M]; eauto.
  - destruct I as [<-|[]]. cbn [mentions ir_methods] in M. induction F as [|m ms s l V1 V2 S F IH]; cbn [flat_map app im_request im_response In] in M; [destruct M|].
    destruct M as [M|[M|M]]; [injection M as <- <-; assumption..|auto].
Qed.

Section Facts.
Context (snake : text -> text).

(** The summary. *)
Lemma build_resolution es root : build snake es = Done root -> exists place roots outs,
  resolution snake es place roots outs /\
  (forall path, nodes_under path root = filter (fun n => qident_eqb (module_of n) path) (concat outs)) /\
  (declared_before_use es -> forall i, i < length es -> place i = written_prefix es i) /\
  (forall i, i < length es -> stays es i /\ place i = written_prefix es i \/ ~ stays es i /\ place i = last_prefix es).
Proof.
  intros B. apply build_run in B as (st' & (U & _) & ->). destruct (run_resolution snake es st' U) as (place & outs & R & E & _ & W).
  exists place, (roots_of (r_roots st')), outs. split; [exact R|]. split; [|exact W]. intros path. rewrite E. apply arrange_under.
  apply Forall_concat. apply Forall_forall. intros out I. apply In_nth_error in I as (i & N).
  assert (L : i < length es) by (rewrite <- (res_length _ _ _ _ _ R); apply nth_error_Some; congruence).
  destruct (nth_error es i) as [e|] eqn:Ne; [|apply nth_error_None in Ne; lia]. destruct (res_declares _ _ _ _ _ R i e Ne) as (out' & No & D).
  assert (out' = out) by congruence. subst. eapply declares_plain; eauto.
Qed.

Lemma under_In path root outs n : (forall path, nodes_under path root = filter (fun n => qident_eqb (module_of n) path) (concat outs)) ->
  In n (nodes_under path root) <-> In n (concat outs) /\ module_of n = path.
Proof. intros H. rewrite H, filter_In, qident_eqb_eq. reflexivity. Qed.

Lemma contents_In root outs : (forall path, nodes_under path root = filter (fun n => qident_eqb (module_of n) path) (concat outs)) ->
  forall p n, In (p, n) (all_contents root) <-> In n (concat outs) /\ module_of n = p.
Proof.
  intros H p n. rewrite <- (under_In p root outs n H). unfold nodes_under. rewrite in_map_iff. split.
  - intros I. exists (p, n). split; [reflexivity|]. apply filter_In. split; [exact I|apply qident_eqb_refl].
  - intros ([p' n'] & E & I). cbn [snd] in E. subst. apply filter_In in I as [I E]. cbn [fst] in E. apply qident_eqb_eq in E. subst. exact I.
Qed.
Lemma perm_by_path (a b : list (qident * node)) : (forall p, Permutation (filter (at_path p) a) (filter (at_path p) b)) -> Permutation a b.
Proof.
  revert b. induction a as [|[p n] a IH]; intros b H.
  - destruct b as [|[p n] b]; [constructor|]. specialize (H p). cbn [filter] in H. rewrite (proj2 (at_path_iff p (p, n)) eq_refl) in H.
    apply Permutation_nil in H. discriminate.
  - assert (I : In (p, n) b).
    { pose proof (H p) as Hp. cbn [filter] in Hp. rewrite (proj2 (at_path_iff p (p, n)) eq_refl) in Hp.
      apply (Permutation_in (p, n)) in Hp; [|left; reflexivity]. apply filter_In in Hp as [Hp _]. exact Hp. }
    apply in_split in I as (b1 & b2 & ->). transitivity ((p, n) :: b1 ++ b2); [|apply Permutation_middle]. constructor. apply IH. intros p'.
    specialize (H p'). rewrite filter_app in H. cbn [filter] in H. rewrite filter_app. destruct (at_path p' (p, n)).
    + rewrite <- Permutation_middle in H. apply Permutation_cons_inv in H. exact H.
    + exact H.
Qed.
Lemma filter_under p root : filter (at_path p) (all_contents root) = map (pair p) (nodes_under p root).
Proof.
  unfold nodes_under. fold (at_path p). change (fun x : qident * node => qident_eqb (fst x) p) with (at_path p).
  induction (all_contents root) as [|[p' n] l IH]; [reflexivity|]. cbn [filter]. destruct (at_path p (p', n)) eqn:E; [|exact IH].
  apply at_path_iff in E. cbn [fst] in E. subst. cbn [map snd]. rewrite IH at 1. reflexivity.
Qed.
Lemma contents_perm root outs : (forall path, nodes_under path root = filter (fun n => qident_eqb (module_of n) path) (concat outs)) ->
  Permutation (all_contents root) (map (fun n => (module_of n, n)) (concat outs)).
Proof.
  intros H. apply perm_by_path. intros p. rewrite filter_under, H. apply Permutation_refl'. clear H.
  induction (concat outs) as [|n l IH]; [reflexivity|]. cbn [map filter]. unfold at_path at 1. cbn [fst].
  destruct (qident_eqb (module_of n) p) eqn:E; [|exact IH]. cbn [map]. rewrite IH. apply qident_eqb_eq in E. rewrite E. reflexivity.
Qed.

(** All in one namespace. *)
Lemma one_namespace_place es p place roots outs : one_namespace p es -> resolution snake es place roots outs ->
  forall i e, nth_error es i = Some e -> is_namespace e = false -> place i = p.
Proof.
  intros [L W] R i e N Ns. assert (Li : i < length es) by (apply nth_error_Some; congruence).
  destruct (res_place _ _ _ _ _ R i Li) as [->| ->]; [eapply W; eauto|exact L].
Qed.
Lemma one_namespace_still es p place roots outs : one_namespace p es -> resolution snake es place roots outs -> forall q, ~ moved es place q.
Proof.
  intros O R q (j & t & N & _ & M). apply M. rewrite (one_namespace_place _ _ _ _ _ O R j _ N eq_refl). destruct O as [_ O]. symmetry. eapply O; eauto.
Qed.
(** Every declaration, with what it declares. *)
Lemma one_namespace_declares es p place roots outs : one_namespace p es -> resolution snake es place roots outs ->
  Forall2 (fun e out => declares snake roots (fun q c => In (q, c) (definitions (concat outs))) p e out) es outs.
Proof.
  intros O R. pose proof (one_namespace_still _ _ _ _ _ O R) as S. pose proof (one_namespace_place _ _ _ _ _ O R) as P.
  pose proof (res_length _ _ _ _ _ R) as L. pose proof (res_declares _ _ _ _ _ R) as D.
  assert (D' : forall i e, nth_error es i = Some e -> exists out, nth_error outs i = Some out /\
    declares snake roots (fun q c => In (q, c) (definitions (concat outs))) p e out).
  { intros i e N. destruct (D i e N) as (out & No & Do). exists out. split; [exact No|].
    assert (Do' : declares snake roots (fun q c => In (q, c) (definitions (concat outs))) (place i) e out).
    { eapply declares_mono; [|exact Do]. intros q c [K|K]; [exact K|]. destruct e; try tauto; destruct K as [_ K]; exfalso; exact (S q K). }
    destruct (is_namespace e) eqn:Ns; [destruct e; try discriminate Ns; inversion Do'; subst; constructor|]. rewrite <- (P i e N Ns). exact Do'. }
  clear - L D'. revert D'. generalize (fun q c => In (q, c) (definitions (concat outs))). intros v D'. revert outs L D'. induction es as [|e es IH]; intros [|out outs] L D'; try discriminate L; constructor.
  - destruct (D' 0 e eq_refl) as (o & N & D). injection N as <-. exact D.
  - apply IH; [injection L; auto|]. intros i e' N. apply (D' (S i) e' N).
Qed.

(** Distinct names. *)
Lemma declared_once es root i j e e' : build snake es = Done root -> nth_error es i = Some e -> nth_error es j = Some e' -> i <> j ->
  exists p p', (p = written_prefix es i \/ p = last_prefix es) /\ (p' = written_prefix es j \/ p' = last_prefix es) /\
    forall q, In q (declared_names p e) -> ~ In q (declared_names p' e').
Proof.
  intros B Ni Nj Ne. destruct (build_resolution es root B) as (place & roots & outs & R & _).
  assert (Li : i < length es) by (apply nth_error_Some; congruence). assert (Lj : j < length es) by (apply nth_error_Some; congruence).
  exists (place i), (place j). split; [apply (res_place _ _ _ _ _ R); exact Li|]. split; [apply (res_place _ _ _ _ _ R); exact Lj|].
  intros q Qi Qj. destruct (res_declares _ _ _ _ _ R i e Ni) as (oi & Oi & Di). destruct (res_declares _ _ _ _ _ R j e' Nj) as (oj & Oj & Dj).
  apply (declares_name _ _ _ _ _ _ q Di) in Qi as (c & Ii). apply (declares_name _ _ _ _ _ _ q Dj) in Qj as (c' & Ij).
  pose proof (res_distinct _ _ _ _ _ R) as N.
  assert (G : forall outs i j oi oj, i < j -> nth_error outs i = Some oi -> nth_error outs j = Some oj -> NoDup (map fst (definitions (concat outs))) ->
    forall q c c', In (q, c) (definitions oi) -> In (q, c') (definitions oj) -> False).
  { clear. induction outs as [|o outs IH]; intros i j oi oj L Ni Nj N q c c' I1 I2; [destruct i; discriminate Ni|].
    cbn [concat] in N. rewrite definitions_app, map_app in N. destruct j as [|j]; [lia|]. cbn [nth_error] in Nj. destruct i as [|i].
    - injection Ni as ->. assert (A : In q (map fst (definitions oi))) by (apply in_map_iff; exists (q, c); auto).
      assert (B : In q (map fst (definitions (concat outs)))).
      { apply in_map_iff. exists (q, c'). split; [reflexivity|]. apply nth_error_In in Nj. unfold definitions in *. rewrite in_flat_map in *.
        destruct I2 as (n & I2 & D). exists n. split; [|exact D]. apply in_concat. eauto. }
      clear - A B N. induction (map fst (definitions oi)) as [|x l IH]; [destruct A|]. cbn [app] in N. inversion N; subst. destruct A as [->|A]; [apply H1; apply in_or_app; auto|auto].
    - cbn [nth_error] in Ni. eapply (IH i j); eauto; [lia|]. clear - N. induction (map fst (definitions o)) as [|x l IH]; [exact N|]. cbn [app] in N. inversion N; auto. }
  destruct (Nat.lt_ge_cases i j) as [Lt|Ge]; [eapply G; eauto|]. eapply (G outs j i); eauto. lia.
Qed.


Lemma contents_nodes root outs : (forall path, nodes_under path root = filter (fun n => qident_eqb (module_of n) path) (concat outs)) ->
  Permutation (map snd (all_contents root)) (concat outs).
Proof. intros H. rewrite (contents_perm _ _ H), map_map. cbn [snd]. rewrite map_id. reflexivity. Qed.

Lemma nth_In_pair {A B} (P : A -> B -> Prop) (l : list A) (m : list B) b : length l = length m ->
  (forall i a, nth_error l i = Some a -> exists b, nth_error m i = Some b /\ P a b) -> In b m -> exists i a, nth_error l i = Some a /\ nth_error m i = Some b /\ P a b.
Proof.
  intros L H I. apply In_nth_error in I as (i & N). assert (Li : i < length l) by (rewrite L; apply nth_error_Some; congruence).
  destruct (nth_error l i) as [a|] eqn:E; [|apply nth_error_None in E; lia]. destruct (H i a E) as (b' & N' & Q). exists i, a. split; [exact E|]. split; [congruence|]. congruence.
Qed.
Lemma mentions_known es place roots outs n q c : resolution snake es place roots outs -> In n (concat outs) -> In (q, c) (mentions n) ->
  In (q, c) (definitions (concat outs)) \/ c = KTable /\ moved es place q.
Proof.
  intros R I M. apply in_concat in I as (out & Io & I).
  destruct (nth_In_pair (fun _ _ => True) es outs out) as (i & e & N & No & _); [symmetry; apply (res_length _ _ _ _ _ R)| |exact Io|].
  { intros i e N. destruct (res_declares _ _ _ _ _ R i e N) as (o & No & _). eauto. }
  destruct (res_declares _ _ _ _ _ R i e N) as (o & No' & D). assert (o = out) by congruence. subst o.
  destruct (declares_mentions _ _ _ _ _ _ _ _ _ D I M) as [K|K]; [auto|]. destruct e; tauto.
Qed.
End Facts.

(** Schema resolution: the statements. *)
From Coq Require Import Strings.String ZArith List Bool Lia Strings.Byte Permutation.
From Verif Require Import Base BaseFacts Schema Ident Codegen GenProofs1 GenProofs8 Resolve SpecResolve ResolveProofs1 ResolveProofs2 ResolveProofs3 ResolveProofs4 ResolveProofs5 ResolveProofs6 ResolveProofs7 ResolveProofs8.
Import ListNotations.
Local Open Scope nat_scope.

Section Facts.
Context (snake : text -> text).

Lemma resolved es root : build snake es = Done root -> exists place roots outs,
  resolution snake es place roots outs /\
  Permutation (all_contents root) (map (fun n => (module_of n, n)) (concat outs)) /\
  (forall path, nodes_under path root = filter (fun n => qident_eqb (module_of n) path) (concat outs)).
Proof.
  intros B. destruct (build_resolution snake es root B) as (place & roots & outs & R & N & _). exists place, roots, outs.
  split; [exact R|]. split; [|exact N]. apply contents_perm. exact N.
Qed.

Lemma in_out es place roots outs i e : resolution snake es place roots outs -> nth_error es i = Some e ->
  exists out, declares snake roots (known es place outs e) (place i) e out /\ forall n, In n out -> In n (concat outs).
Proof.
  intros R N. destruct (res_declares _ _ _ _ _ R i e N) as (out & No & D). exists out. split; [exact D|].
  intros n I. apply in_concat. exists out. split; [eapply nth_error_In; eauto|exact I].
Qed.
Lemma in_contents root outs n : Permutation (all_contents root) (map (fun n => (module_of n, n)) (concat outs)) ->
  In n (concat outs) -> In (module_of n, n) (all_contents root).
Proof. intros P I. apply (Permutation_in _ (Permutation_sym P)). apply in_map_iff. exists n. auto. Qed.

Lemma placed_at es root (at_ : nat -> qident -> Prop) :
  (forall place roots outs, resolution snake es place roots outs ->
    (declared_before_use es -> forall i, i < length es -> place i = written_prefix es i) /\
    (forall i, i < length es -> stays es i /\ place i = written_prefix es i \/ ~ stays es i /\ place i = last_prefix es) ->
    forall i e, nth_error es i = Some e -> at_ i (place i)) ->
  build snake es = Done root -> forall i e, nth_error es i = Some e ->
  exists p out, at_ i p /\ (exists roots view, declares snake roots view p e out) /\ forall n, In n out -> In (module_of n, n) (all_contents root).
Proof.
  intros A B i e N. destruct (build_resolution snake es root B) as (place & roots & outs & R & Nu & W).
  destruct (in_out es place roots outs i e R N) as (out & D & I). exists (place i), out. split; [eapply A; eauto|]. split; [eauto|].
  intros n J. eapply in_contents; [apply contents_perm; exact Nu|auto].
Qed.

Lemma written_or_last es root : build snake es = Done root -> forall i e, nth_error es i = Some e ->
  exists p out, (p = written_prefix es i \/ p = last_prefix es) /\ (exists roots view, declares snake roots view p e out) /\
    forall n, In n out -> In (module_of n, n) (all_contents root).
Proof.
  apply (placed_at es root (fun i p => p = written_prefix es i \/ p = last_prefix es)). intros place roots outs R _ i e N.
  apply (res_place _ _ _ _ _ R). apply nth_error_Some. congruence.
Qed.
Lemma stays_or_last es root : build snake es = Done root -> forall i e, nth_error es i = Some e ->
  exists p out, (stays es i /\ p = written_prefix es i \/ ~ stays es i /\ p = last_prefix es) /\ (exists roots view, declares snake roots view p e out) /\
    forall n, In n out -> In (module_of n, n) (all_contents root).
Proof.
  apply (placed_at es root (fun i p => stays es i /\ p = written_prefix es i \/ ~ stays es i /\ p = last_prefix es)). intros place roots outs _ [_ W] i e N.
  apply W. apply nth_error_Some. congruence.
Qed.
Lemma stays_before_use es root : declared_before_use es -> build snake es = Done root -> forall i e, nth_error es i = Some e ->
  exists out, (exists roots view, declares snake roots view (written_prefix es i) e out) /\
    forall n, In n out -> In (module_of n, n) (all_contents root).
Proof.
  intros Bu B i e N. destruct (placed_at es root (fun i p => p = written_prefix es i)) with (i := i) (e := e) as (p & out & -> & D); [|exact B|exact N|eauto].
  intros place roots outs _ W j f Nj. apply W; [exact Bu|]. apply nth_error_Some. congruence.
Qed.
Lemma stays_one_namespace es root p : one_namespace p es -> build snake es = Done root -> forall i e, nth_error es i = Some e ->
  exists out, (exists roots view, declares snake roots view (written_prefix es i) e out) /\
    forall n, In n out -> In (module_of n, n) (all_contents root).
Proof.
  intros One B i e N. destruct (is_namespace e) eqn:Ns.
  - exists []. destruct e; try discriminate Ns. split; [exists (fun _ => false), (fun _ _ => False); constructor|intros n []].
  - destruct (placed_at es root (fun i p' => forall e, nth_error es i = Some e -> is_namespace e = false -> p' = written_prefix es i)) with (i := i) (e := e) as (p' & out & E & D); [|exact B|exact N|].
    + intros place roots outs R _ j f Nj g Ng Nsg. rewrite (one_namespace_place _ _ _ _ _ _ One R j g Ng Nsg). destruct One as [_ W]. symmetry. eapply W; eauto.
    + rewrite (E e N Ns) in D. eauto.
Qed.

Lemma defined_perm root outs : Permutation (all_contents root) (map (fun n => (module_of n, n)) (concat outs)) ->
  Permutation (defined root) (definitions (concat outs)).
Proof.
  intros P. unfold defined. apply definitions_perm. rewrite P, map_map. cbn [snd]. rewrite map_id. reflexivity.
Qed.
Lemma defined_In root outs x : Permutation (all_contents root) (map (fun n => (module_of n, n)) (concat outs)) ->
  In x (definitions (concat outs)) <-> In x (defined root).
Proof. intros P. apply defined_perm in P. split; apply Permutation_in; [symmetry; exact P|exact P]. Qed.

Lemma count es root : build snake es = Done root -> length (all_contents root) = list_sum (map weight es).
Proof.
  intros B. destruct (resolved es root B) as (place & roots & outs & R & P & _). rewrite (Permutation_length P), map_length.
  pose proof (res_length _ _ _ _ _ R) as L.
  assert (D : forall i e, nth_error es i = Some e -> exists out, nth_error outs i = Some out /\ length out = weight e).
  { intros i e N. destruct (res_declares _ _ _ _ _ R i e N) as (out & No & D). exists out. split; [exact No|]. inversion D; subst; reflexivity. }
  clear - L D. revert outs L D. induction es as [|e es IH]; intros [|out outs] L D; try discriminate L; [reflexivity|].
  cbn [concat map list_sum fold_right]. rewrite app_length. destruct (D 0 e eq_refl) as (o & N & <-). injection N as <-. f_equal.
  apply IH; [injection L; auto|]. intros i e' N. apply (D (S i) e' N).
Qed.

Lemma defined_once es root : build snake es = Done root -> NoDup (map fst (defined root)).
Proof.
  intros B. destruct (resolved es root B) as (place & roots & outs & R & P & _). apply defined_perm in P.
  eapply Permutation_NoDup; [apply Permutation_map; symmetry; exact P|apply (res_distinct _ _ _ _ _ R)].
Qed.
Lemma rejected es : (forall e, In e es -> supported e = true) -> (forall root, build snake es <> Done root) -> exists x, build snake es = Fail x.
Proof. intros S N. destruct (build_total snake es S) as [(root & B)|F]; [destruct (N root B)|exact F]. Qed.
Lemma duplicates_one_namespace es p i j e e' q : (forall e, In e es -> supported e = true) -> one_namespace p es ->
  nth_error es i = Some e -> nth_error es j = Some e' -> i <> j -> In q (declared_names p e) -> In q (declared_names p e') ->
  exists x, build snake es = Fail x.
Proof.
  intros S One Ni Nj Ne Qi Qj. apply rejected; [exact S|]. intros root B. destruct (declared_once snake es root i j e e' B Ni Nj Ne) as (p1 & p2 & C1 & C2 & D).
  destruct One as [L W]. assert (Ns : is_namespace e = false) by (destruct e; try reflexivity; destruct Qi). assert (Ns' : is_namespace e' = false) by (destruct e'; try reflexivity; destruct Qj).
  assert (p1 = p) by (destruct C1 as [->| ->]; [eapply W; eauto|exact L]). assert (p2 = p) by (destruct C2 as [->| ->]; [eapply W; eauto|exact L]). subst p1 p2. eapply D; eauto.
Qed.
Lemma duplicates es i j q : (forall e, In e es -> supported e = true) -> i <> j -> gives es i q -> gives es j q ->
  exists x, build snake es = Fail x.
Proof.
  intros S Ne (e & Ni & Gi) (e' & Nj & Gj). apply rejected; [exact S|]. intros root B. destruct (build_resolution snake es root B) as (place & roots & outs & R & _ & _ & W).
  assert (Li : i < length es) by (apply nth_error_Some; congruence). assert (Lj : j < length es) by (apply nth_error_Some; congruence).
  assert (Qi : In q (declared_names (place i) e)) by (destruct (W i Li) as [[? ->]|[? ->]]; tauto).
  assert (Qj : In q (declared_names (place j) e')) by (destruct (W j Lj) as [[? ->]|[? ->]]; tauto).
  destruct (res_declares _ _ _ _ _ R i e Ni) as (oi & Oi & Di). destruct (res_declares _ _ _ _ _ R j e' Nj) as (oj & Oj & Dj).
  apply Ne. eapply NoDup_flat_nth with (f := fun o => map fst (definitions o)) (l := outs) (x := q); [|exact Oi|exact Oj| |].
  - pose proof (res_distinct _ _ _ _ _ R) as N. replace (flat_map (fun o => map fst (definitions o)) outs) with (map fst (definitions (concat outs))); [exact N|].
    clear. induction outs as [|o outs IH]; [reflexivity|]. cbn [concat flat_map]. rewrite definitions_app, map_app, IH. reflexivity.
  - apply (declares_name _ _ _ _ _ _ q Di) in Qi as (c & I). apply in_map_iff. exists (q, c). auto.
  - apply (declares_name _ _ _ _ _ _ q Dj) in Qj as (c & I). apply in_map_iff. exists (q, c). auto.
Qed.
Lemma duplicates_before_use es i j e e' q : (forall e, In e es -> supported e = true) -> declared_before_use es ->
  nth_error es i = Some e -> nth_error es j = Some e' -> i <> j ->
  In q (declared_names (written_prefix es i) e) -> In q (declared_names (written_prefix es j) e') ->
  exists x, build snake es = Fail x.
Proof.
  intros S Bu Ni Nj Ne Qi Qj. apply (duplicates es i j q S Ne); [exists e|exists e']; (split; [assumption|]); left; (split; [|assumption]).
  - exact (before_use_stays es Bu (Datatypes.S i) i e ltac:(lia) Ni).
  - exact (before_use_stays es Bu (Datatypes.S j) j e' ltac:(lia) Nj).
Qed.

Lemma defined_exactly es root : build snake es = Done root -> forall q, In q (map fst (defined root)) <->
  exists i, gives es i q.
Proof.
  intros B q. destruct (build_resolution snake es root B) as (place & roots & outs & R & Nu & _ & W). pose proof (contents_perm _ _ Nu) as P. split.
  - intros I. apply in_map_iff in I as ([q' c] & E & I). cbn [fst] in E. subst q'. apply (defined_In _ _ _ P) in I.
    unfold definitions in I. apply in_flat_map in I as (n & In_ & I). apply in_concat in In_ as (out & Io & In_). apply In_nth_error in Io as (i & No).
    assert (L : i < length es) by (rewrite <- (res_length _ _ _ _ _ R); apply nth_error_Some; congruence). destruct (nth_error es i) as [e|] eqn:N; [|apply nth_error_None in N; lia].
    destruct (res_declares _ _ _ _ _ R i e N) as (o & No' & D). assert (o = out) by congruence. subst o.
    assert (Q : In q (declared_names (place i) e)) by (apply (declares_name _ _ _ _ _ _ q D); exists c; apply in_flat_map; eauto).
    exists i, e. split; [exact N|]. destruct (W i L) as [[S E]|[S E]]; rewrite E in Q; auto.
  - intros (i & e & N & Q). assert (L : i < length es) by (apply nth_error_Some; congruence).
    destruct (res_declares _ _ _ _ _ R i e N) as (o & No & D).
    assert (Q' : In q (declared_names (place i) e)) by (destruct (W i L) as [[S E]|[S E]]; rewrite E; tauto).
    apply (declares_name _ _ _ _ _ _ q D) in Q' as (c & I). apply in_map_iff. exists (q, c). split; [reflexivity|]. apply (defined_In _ _ _ P).
    eapply definitions_In; [eapply nth_error_In; exact No|exact I].
Qed.
Lemma mentioned es root path n q c : build snake es = Done root -> In (path, n) (all_contents root) -> In (q, c) (mentions n) ->
  In (q, c) (defined root) \/
  c = KTable /\ exists j t, nth_error es j = Some (ETable t) /\ q = local_name (written_prefix es j) (ap_id t) /\ ~ stays es j /\ written_prefix es j <> last_prefix es.
Proof.
  intros B I M. destruct (build_resolution snake es root B) as (place & roots & outs & R & Nu & _ & W). pose proof (contents_perm _ _ Nu) as P. apply (Permutation_in _ P) in I. apply in_map_iff in I as (n' & E & I).
  injection E as _ ->. destruct (mentions_known snake es place roots outs n q c R I M) as [K|[-> (j & t & N & E & Mv)]]; [left; apply (defined_In _ _ _ P); exact K|right].
  split; [reflexivity|]. exists j, t. split; [exact N|]. split; [exact E|].
  destruct (W j) as [[_ Q]|[S Q]]; [apply nth_error_Some; congruence|congruence|]. split; [exact S|congruence].
Qed.
Lemma mentioned_one_namespace es root p path n q c : one_namespace p es -> build snake es = Done root -> In (path, n) (all_contents root) -> In (q, c) (mentions n) ->
  In (q, c) (defined root).
Proof.
  intros [L W] B I M. destruct (mentioned es root path n q c B I M) as [K|(_ & j & t & N & _ & _ & Ne)]; [exact K|]. exfalso. apply Ne. rewrite L. eapply W; eauto.
Qed.
Lemma mentioned_before_use es root path n q c : declared_before_use es -> build snake es = Done root -> In (path, n) (all_contents root) -> In (q, c) (mentions n) ->
  In (q, c) (defined root).
Proof.
  intros Bu B I M. destruct (build_resolution snake es root B) as (place & roots & outs & R & Nu & W). pose proof (contents_perm _ _ Nu) as P.
  apply (Permutation_in _ P) in I. apply in_map_iff in I as (n' & E & I). injection E as _ ->.
  destruct (mentions_known snake es place roots outs n q c R I M) as [K|[-> (j & t & N & _ & Mv)]]; [apply (defined_In _ _ _ P); exact K|].
  exfalso. apply Mv. apply W; [exact Bu|]. apply nth_error_Some. congruence.
Qed.
Lemma companion_defined es root path u : build snake es = Done root -> In (path, NUnion u) (all_contents root) ->
  exists vs, In (iu_enum u, KEnum (IEnumV (lit "None") (Some 0%Z) [] :: vs) UByte) (defined root) /\
    map iev_id vs = map iuv_id (iu_variants u) /\ map iev_value vs = map (fun _ => None) vs.
Proof.
  intros B I. destruct (resolved es root B) as (place & roots & outs & R & P & _). apply (Permutation_in _ P) in I. apply in_map_iff in I as (n & E & I).
  injection E as _ ->. apply in_concat in I as (out & Io & I). apply In_nth_error in Io as (i & No).
  assert (L : i < length es) by (rewrite <- (res_length _ _ _ _ _ R); apply nth_error_Some; congruence). destruct (nth_error es i) as [e|] eqn:N; [|apply nth_error_None in N; lia].
  destruct (res_declares _ _ _ _ _ R i e N) as (o & No' & D). assert (o = out) by congruence. subst o.
  assert (U : exists u0 vs, e = EUnion u0 /\ out = [NEnum (IEnum (companion_name (place i) (au_id u0)) (companion_of (au_variants u0)) UByte (au_doc u0));
       NUnion (IUnion (local_name (place i) (au_id u0)) (companion_name (place i) (au_id u0)) vs (au_doc u0))] /\ union_variants_of (known es place outs e) (place i) (au_variants u0) vs).
  { inversion D; subst; cbn [In] in I; try (exfalso; intuition discriminate). eauto 10. }
  destruct U as (u0 & vs & -> & -> & V). cbn [In] in I. destruct I as [X|[X|[]]]; [discriminate X|]. injection X as <-. cbn [iu_enum iu_variants].
  eexists. split; [apply (defined_In _ _ _ P); eapply definitions_In; [eapply nth_error_In; exact No|]; unfold definitions, companion_of; cbn [flat_map defs_of ie_id ie_variants ie_base app]; left; reflexivity|].
  rewrite !map_map. cbn [iev_id iev_value]. split; [|reflexivity]. clear - V. induction V as [|v vs ty l Rv V IH]; [reflexivity|]. cbn [map iuv_id]. rewrite IH. reflexivity.
Qed.

(** With something that refers to nothing, every order resolves. *)
Lemma any_order p es1 es2 r1 e : one_namespace p es1 -> one_namespace p es2 -> Permutation (declarations es1) (declarations es2) ->
  build snake es1 = Done r1 -> In e es1 -> is_namespace e = false -> refs e = [] ->
  exists r2, build snake es2 = Done r2 /\ Permutation (all_contents r1) (all_contents r2).
Proof.
  intros O1 O2 P B I Ns Re. assert (K : exists r2, build snake es2 = Done r2).
  { apply (resolves_iff snake p es1 es2 O1 O2 P r1 B). right. apply (other es1 es2 P e Ns) in I. apply In_nth_error in I as (i & N). exists i. unfold can_start. rewrite N.
    assert (S : supported e = true).
    { destruct (supported e) eqn:S; [reflexivity|]. exfalso. refine (build_unsupported snake es1 e _ S r1 B). apply (other es1 es2 P e Ns). eapply nth_error_In; eauto. }
    destruct e; try discriminate Ns; try discriminate S; try discriminate Re; try (cbv iota beta; intros r' J; rewrite Re in J; destruct J).
    cbn [refs] in Re. destruct (ar_methods r) as [|m ms]; [reflexivity|discriminate Re]. }
  destruct K as (r2 & B2). exists r2. split; [exact B2|]. exact (same_definitions snake p es1 es2 r1 r2 O1 O2 P B B2).
Qed.
End Facts.

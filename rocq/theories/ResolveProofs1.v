(** Schema resolution: the passes as a sequence of attempts; termination. *)
From Coq Require Import Strings.String ZArith List Bool Lia Strings.Byte Permutation Sorting.Sorted.
From Verif Require Import Base BaseFacts Schema Ident Codegen GenProofs1 GenProofs8 Resolve.
Import ListNotations.
Local Open Scope nat_scope.

Lemma rbind_Done {A B} (m : res A) (k : A -> res B) b : rbind m k = Done b -> exists a, m = Done a /\ k a = Done b.
Proof. destruct m; cbn [rbind]; intros H; try discriminate. eauto. Qed.
Lemma qident_eqb_refl q : qident_eqb q q = true.
Proof. apply qident_eqb_eq. reflexivity. Qed.
Lemma qident_eqb_neq a b : a <> b -> qident_eqb a b = false.
Proof. intros H. destruct (qident_eqb a b) eqn:E; [|reflexivity]. apply qident_eqb_eq in E. contradiction. Qed.

Lemma tget_same st q s : tget (r_types (set_type st q s)) q = Some s.
Proof. unfold set_type. cbn [r_types tget]. rewrite qident_eqb_refl. reflexivity. Qed.
Lemma tget_other st q q' s : q <> q' -> tget (r_types (set_type st q s)) q' = tget (r_types st) q'.
Proof. intros H. unfold set_type. cbn [r_types tget]. rewrite qident_eqb_neq by exact H. reflexivity. Qed.

(** ** The nodes map *)
Fixpoint nget (ns : list (nat * list node)) (pos : nat) : option (list node) :=
  match ns with
  | [] => None
  | (p, v) :: ns => if Nat.eqb p pos then Some v else nget ns pos
  end.
Definition keys (ns : list (nat * list node)) : list nat := map fst ns.
Definition sorted (ns : list (nat * list node)) : Prop := StronglySorted lt (keys ns).

Lemma nget_keys ns pos : nget ns pos <> None <-> In pos (keys ns).
Proof.
  induction ns as [|[p v] ns IH]; cbn [nget keys map fst In]; [tauto|]. destruct (Nat.eqb p pos) eqn:E.
  - apply Nat.eqb_eq in E. split; [tauto|discriminate].
  - apply Nat.eqb_neq in E. unfold keys in IH. rewrite IH. tauto.
Qed.
Lemma keys_nput ns pos v p : In p (keys (nput ns pos v)) <-> p = pos \/ In p (keys ns).
Proof.
  induction ns as [|[k w] ns IH]; cbn [nput keys map fst In]; [intuition|].
  destruct (Nat.ltb pos k) eqn:E1; cbn [map fst In]; [intuition|].
  destruct (Nat.eqb pos k) eqn:E2; cbn [map fst In].
  - apply Nat.eqb_eq in E2. subst. intuition.
  - unfold keys in IH. rewrite IH. intuition.
Qed.
Lemma sorted_nput ns pos v : sorted ns -> sorted (nput ns pos v).
Proof.
  unfold sorted. induction ns as [|[k w] ns IH]; intros S; cbn [nput keys map fst].
  - repeat constructor.
  - cbn [keys map fst] in S. apply StronglySorted_inv in S as [S F].
    destruct (Nat.ltb pos k) eqn:E1; cbn [map fst].
    + apply Nat.ltb_lt in E1. constructor; [constructor; auto|]. constructor; [exact E1|]. eapply Forall_impl; [|exact F]. cbn. lia.
    + apply Nat.ltb_ge in E1. destruct (Nat.eqb pos k) eqn:E2; cbn [map fst].
      * apply Nat.eqb_eq in E2. subst. constructor; auto.
      * apply Nat.eqb_neq in E2. constructor; [apply IH; exact S|]. rewrite Forall_forall in *. intros p Hp. apply keys_nput in Hp as [->|Hp]; [lia|auto].
Qed.
Lemma nget_nput ns pos v p : sorted ns -> nget (nput ns pos v) p = if Nat.eqb pos p then Some v else nget ns p.
Proof.
  unfold sorted. induction ns as [|[k w] ns IH]; intros S; cbn [nput nget]; [reflexivity|].
  cbn [keys map fst] in S. apply StronglySorted_inv in S as [S F].
  destruct (Nat.ltb pos k) eqn:E1; cbn [nget]; [reflexivity|]. apply Nat.ltb_ge in E1.
  destruct (Nat.eqb pos k) eqn:E2; cbn [nget].
  - apply Nat.eqb_eq in E2. subst. destruct (Nat.eqb k p); reflexivity.
  - rewrite IH by exact S. apply Nat.eqb_neq in E2. destruct (Nat.eqb k p) eqn:E3; [|reflexivity].
    apply Nat.eqb_eq in E3. subst. destruct (Nat.eqb pos p) eqn:E4; [apply Nat.eqb_eq in E4; congruence|reflexivity].
Qed.
Lemma nput_length ns pos v : length ns <= length (nput ns pos v).
Proof.
  induction ns as [|[k w] ns IH]; cbn [nput length]; [lia|].
  destruct (Nat.ltb pos k); cbn [length]; [lia|]. destruct (Nat.eqb pos k); cbn [length]; lia.
Qed.
Lemma sorted_ext ns1 : forall ns2, sorted ns1 -> sorted ns2 -> (forall p, nget ns1 p = nget ns2 p) -> ns1 = ns2.
Proof.
  unfold sorted. induction ns1 as [|[k v] ns1 IH]; intros [|[k' v'] ns2] S1 S2 E.
  - reflexivity.
  - specialize (E k'). cbn [nget] in E. rewrite Nat.eqb_refl in E. discriminate.
  - specialize (E k). cbn [nget] in E. rewrite Nat.eqb_refl in E. discriminate.
  - cbn [keys map fst] in S1, S2. apply StronglySorted_inv in S1 as [S1 F1]. apply StronglySorted_inv in S2 as [S2 F2]. rewrite Forall_forall in F1, F2.
    assert (K : k = k').
    { pose proof (E k) as Ek. pose proof (E k') as Ek'. cbn [nget] in Ek, Ek'. rewrite Nat.eqb_refl in Ek, Ek'.
      destruct (Nat.eqb k' k) eqn:Q; [apply Nat.eqb_eq in Q; auto|]. rewrite Nat.eqb_sym, Q in Ek'.
      assert (In k (keys ns2)) by (apply nget_keys; congruence). assert (In k' (keys ns1)) by (apply nget_keys; congruence).
      specialize (F1 k' H0). specialize (F2 k H). lia. }
    subst k'. assert (v = v') by (specialize (E k); cbn [nget] in E; rewrite Nat.eqb_refl in E; congruence). subst v'. f_equal.
    apply IH; auto. intros p. specialize (E p). cbn [nget] in E. destruct (Nat.eqb k p) eqn:Q; [|exact E].
    apply Nat.eqb_eq in Q. subst p.
    assert (N : forall ns, (forall x, In x (keys ns) -> k < x) -> nget ns k = None).
    { intros ns F. destruct (nget ns k) eqn:G; [|reflexivity]. assert (I : In k (keys ns)) by (apply nget_keys; congruence). specialize (F k I). lia. }
    rewrite (N ns1 F1), (N ns2 F2). reflexivity.
Qed.

Section Facts.
Context (snake : text -> text).
Notation new_element := (new_element snake).
Notation pass := (pass snake).
Notation passes := (passes snake).

(** ** What one attempt does to the state *)
Lemma check_new_Done st q u : check_new st q = Done u -> forall c, tget (r_types st) q <> Some (Defined c).
Proof. unfold check_new. destruct (tget (r_types st) q) as [[|c]|]; intros H; congruence. Qed.

Lemma root_frame st q st' ok : new_root_ident st q = Done (st', ok) ->
  r_namespace st' = r_namespace st /\ r_types st' = r_types st /\ r_nodes st' = r_nodes st.
Proof.
  unfold new_root_ident. destruct (tget (r_types st) q) as [[|[]]|]; intros H; try discriminate;
  try (injection H as <- <-; auto).
Qed.
Lemma methods_frame ms : forall st st' r, rpc_methods snake st ms = Done (st', r) ->
  r_namespace st' = r_namespace st /\ r_types st' = r_types st /\ r_nodes st' = r_nodes st.
Proof.
  induction ms as [|m ms IH]; intros st st' r H; cbn [rpc_methods] in H; [injection H as <- <-; auto|].
  apply rbind_Done in H as ([s1 o1] & H1 & H). apply root_frame in H1 as (N1 & T1 & D1).
  destruct o1; [|injection H as <- <-; auto].
  apply rbind_Done in H as ([s2 o2] & H2 & H). apply root_frame in H2 as (N2 & T2 & D2).
  destruct o2; [|injection H as <- <-; split; [congruence|split; congruence]].
  apply rbind_Done in H as (s & _ & H). apply rbind_Done in H as ([s3 o3] & H3 & H). injection H as <- _.
  apply IH in H3 as (N3 & T3 & D3). split; [congruence|split; congruence].
Qed.

(** The nodes of a state after an attempt at [pos]. *)
Lemma nodes_step st pos e st' ok : new_element st (pos, e) = Done (st', ok) ->
  (r_nodes st' = r_nodes st \/ exists v, r_nodes st' = nput (r_nodes st) pos v) /\ (ok = false -> r_nodes st' = r_nodes st).
Proof.
  intros H. destruct e as [q d|t|t|e|u|id|x d|x d|x|r|x d]; cbn [Resolve.new_element] in H; try discriminate H.
  - injection H as <- <-. auto.
  - unfold new_table in H. apply rbind_Done in H as (u & _ & H). apply rbind_Done in H as ([fs|] & _ & H); injection H as <- <-; cbn [r_nodes set_nodes set_type].
    + split; [eauto|discriminate].
    + auto.
  - unfold new_struct in H. apply rbind_Done in H as (u & _ & H). apply rbind_Done in H as ([fs|] & _ & H); injection H as <- <-; cbn [r_nodes set_nodes set_type].
    + split; [eauto|discriminate].
    + auto.
  - unfold new_enum in H. apply rbind_Done in H as (u & _ & H). destruct (enum_base (ae_base e)); [|discriminate H]. injection H as <- <-.
    cbn [r_nodes set_nodes set_type]. split; [eauto|discriminate].
  - unfold new_union in H. apply rbind_Done in H as (u0 & _ & H). destruct (union_variants st (au_variants u)).
    + apply rbind_Done in H as (u1 & _ & H). injection H as <- <-. cbn [r_nodes set_nodes set_type]. split; [eauto|discriminate].
    + injection H as <- <-. auto.
  - unfold new_root in H. apply root_frame in H as (_ & _ & ->). auto.
  - unfold new_rpc in H. apply rbind_Done in H as ([s ms] & M & H). apply methods_frame in M as (_ & _ & M). destruct ms; injection H as <- <-.
    + cbn [r_nodes set_nodes]. rewrite M. split; [eauto|discriminate].
    + rewrite M. auto.
Qed.

(** ** Sequences of attempts *)
Inductive tries : rstate -> list ((nat * element) * bool) -> rstate -> Prop :=
| tries_nil st : tries st [] st
| tries_cons st pe ok st1 l st2 : new_element st pe = Done (st1, ok) -> tries st1 l st2 -> tries st ((pe, ok) :: l) st2.

Lemma tries_app st l1 : forall st1 l2 st2, tries st l1 st1 -> tries st1 l2 st2 -> tries st (l1 ++ l2) st2.
Proof.
  intros st1 l2 st2 T1 T2. induction T1; cbn [app]; [exact T2|]. econstructor; eauto.
Qed.
Lemma tries_split l1 : forall st l2 st2, tries st (l1 ++ l2) st2 -> exists st1, tries st l1 st1 /\ tries st1 l2 st2.
Proof.
  induction l1 as [|[pe ok] l1 IH]; intros st l2 st2 T; cbn [app] in T; [exists st; split; [constructor|exact T]|].
  inversion T; subst. destruct (IH _ _ _ H5) as (st1' & A & B). exists st1'. split; [econstructor; eauto|exact B].
Qed.

Definition failed (l : list ((nat * element) * bool)) := map fst (filter (fun x => negb (snd x)) l).
Definition succeeded (l : list ((nat * element) * bool)) := map fst (filter snd l).

Lemma pass_tries input : forall st st' un, pass st input = Done (st', un) ->
  exists l, tries st l st' /\ map fst l = input /\ failed l = un.
Proof.
  induction input as [|pe input IH]; intros st st' un H; cbn [Resolve.pass] in H.
  - injection H as <- <-. exists []. split; [constructor|auto].
  - apply rbind_Done in H as ([s1 ok] & H1 & H). apply rbind_Done in H as ([s2 un2] & H2 & H). injection H as <- <-.
    destruct (IH _ _ _ H2) as (l & T & M & F). exists ((pe, ok) :: l). split; [econstructor; eauto|]. split; [cbn; congruence|].
    unfold failed in *. cbn [filter map fst snd]. destruct ok; cbn [negb map fst]; congruence.
Qed.

Lemma split_perm l : Permutation (succeeded l ++ failed l) (map fst l).
Proof.
  unfold succeeded, failed. induction l as [|[pe ok] l IH]; [constructor|]. cbn [filter map fst snd].
  destruct ok; cbn [negb map fst app]; [constructor; exact IH|]. rewrite <- Permutation_middle. constructor. exact IH.
Qed.
Lemma failed_In l pe : In pe (failed l) -> In (pe, false) l.
Proof.
  unfold failed. intros H. apply in_map_iff in H as ([x b] & <- & H). apply filter_In in H as [H N]. destruct b; [discriminate|exact H].
Qed.
Lemma succeeded_In l pe : In pe (succeeded l) <-> In (pe, true) l.
Proof.
  unfold succeeded. rewrite in_map_iff. split.
  - intros ([x b] & <- & H). apply filter_In in H as [H N]. cbn in N. subst. exact H.
  - intros H. exists (pe, true). split; [reflexivity|]. apply filter_In. auto.
Qed.
Lemma succeeded_app a b : succeeded (a ++ b) = succeeded a ++ succeeded b.
Proof. unfold succeeded. rewrite filter_app, map_app. reflexivity. Qed.

(** A run of all passes: the first over everything, later ones only over what
    failed before; in the end everything has succeeded once. *)
Lemma passes_tries fuel : forall st input st', passes fuel st input = Some (Done st') ->
  exists l1 l2 st1, tries st l1 st1 /\ tries st1 l2 st' /\ map fst l1 = input /\
    (forall pe ok, In (pe, ok) l2 -> In (pe, false) l1) /\ Permutation (succeeded (l1 ++ l2)) input.
Proof.
  induction fuel as [|fuel IH]; intros st input st' H; cbn [Resolve.passes] in H; [discriminate|].
  destruct (pass st input) as [[s1 un]| |] eqn:P; try discriminate. apply pass_tries in P as (l & T & M & F).
  destruct un as [|pe un].
  - injection H as <-. exists l, [], s1. split; [exact T|]. split; [constructor|]. split; [exact M|]. split; [intros ? ? []|].
    rewrite app_nil_r. pose proof (split_perm l) as Q. rewrite F, app_nil_r, M in Q. exact Q.
  - destruct (Nat.eqb _ _); [discriminate|]. destruct (IH _ _ _ H) as (l1 & l2 & s2 & T1 & T2 & M1 & I2 & Q).
    exists l, (l1 ++ l2), s1. split; [exact T|]. split; [eapply tries_app; eauto|]. split; [exact M|]. split.
    + intros x ok I. apply failed_In. rewrite F, <- M1. apply in_app_or in I as [I|I].
      * apply in_map_iff. exists (x, ok). auto.
      * apply in_map_iff. exists (x, false). eauto.
    + rewrite succeeded_app. rewrite Q, <- F. rewrite <- M. apply split_perm.
Qed.

(** ** Termination *)
Lemma tries_nodes st l st' : tries st l st' ->
  length (r_nodes st) <= length (r_nodes st') /\
  (sorted (r_nodes st) -> sorted (r_nodes st')) /\
  (forall p, In p (keys (r_nodes st')) -> In p (keys (r_nodes st)) \/ In p (map (fun x => fst (fst x)) l)).
Proof.
  induction 1 as [st|st [pos e] ok st1 l st2 H T (L & S & K)]; [auto|].
  apply nodes_step in H as [[E|(v & E)] _].
  - rewrite E in *. split; [exact L|]. split; [exact S|]. intros p Hp. cbn [map fst In]. destruct (K p Hp); auto.
  - rewrite E in *. pose proof (nput_length (r_nodes st) pos v). split; [lia|]. split; [intros Q; apply S; apply sorted_nput; exact Q|].
    intros p Hp. cbn [map fst In]. destruct (K p Hp) as [Q|Q]; [|auto]. apply keys_nput in Q as [->|Q]; auto.
Qed.

Lemma sorted_NoDup ns : sorted ns -> NoDup (keys ns).
Proof.
  unfold sorted. induction (keys ns) as [|k l IH]; intros S; [constructor|]. apply StronglySorted_inv in S as [S F].
  constructor; [|auto]. intros I. rewrite Forall_forall in F. specialize (F k I). lia.
Qed.
Lemma keys_bound ns n : sorted ns -> (forall p, In p (keys ns) -> p < n) -> length ns <= n.
Proof.
  intros S B. pose proof (NoDup_incl_length (sorted_NoDup _ S) (l' := seq 0 n)) as Q.
  unfold keys in Q at 2. rewrite map_length, seq_length in Q. apply Q. intros p Hp. apply in_seq. specialize (B p Hp). lia.
Qed.

Lemma passes_end n fuel : forall st input, sorted (r_nodes st) -> (forall p, In p (keys (r_nodes st)) -> p < n) ->
  (forall pe, In pe input -> fst pe < n) -> n < fuel + length (r_nodes st) -> exists r, passes fuel st input = Some r.
Proof.
  induction fuel as [|fuel IH]; intros st input S B I L.
  - pose proof (keys_bound _ _ S B). lia.
  - cbn [Resolve.passes]. destruct (pass st input) as [[s1 un]| |] eqn:P; eauto. destruct un as [|pe un]; [eauto|].
    destruct (Nat.eqb (length (r_nodes s1)) (length (r_nodes st))) eqn:E; [eauto|]. apply Nat.eqb_neq in E.
    apply pass_tries in P as (l & T & M & F). apply tries_nodes in T as (L1 & S1 & K1). apply IH.
    + auto.
    + intros p Hp. destruct (K1 p Hp) as [Q|Q]; [auto|]. rewrite <- map_map with (f := fst) (g := fst), M in Q.
      apply in_map_iff in Q as (x & <- & Q). auto.
    + intros x Hx. apply I. rewrite <- M. rewrite <- F in Hx. apply failed_In in Hx. apply in_map_iff. exists (x, false). auto.
    + lia.
Qed.
Lemma passes_more fuel : forall st input r, passes fuel st input = Some r -> forall fuel', fuel <= fuel' -> passes fuel' st input = Some r.
Proof.
  induction fuel as [|fuel IH]; intros st input r H fuel' L; [discriminate H|]. destruct fuel' as [|fuel']; [lia|].
  cbn [Resolve.passes] in *. destruct (pass st input) as [[s1 [|pe un]]| |]; auto. destruct (Nat.eqb _ _); auto. apply IH; [auto|lia].
Qed.

Lemma indexed_In es : forall i pe, In pe (indexed i es) -> i <= fst pe < i + length es.
Proof.
  induction es as [|e es IH]; intros i pe H; cbn [indexed In length] in *; [destruct H|].
  destruct H as [<-|H]; [cbn; lia|]. apply IH in H. lia.
Qed.

Lemma terminates es : exists r, forall fuel, length es < fuel -> passes fuel initial (indexed 0 es) = Some r.
Proof.
  destruct (passes_end (length es) (S (length es)) initial (indexed 0 es)) as (r & H).
  - constructor.
  - intros p [].
  - intros pe Hp. apply indexed_In in Hp. lia.
  - cbn. lia.
  - exists r. intros fuel L. eapply passes_more; [exact H|lia].
Qed.

End Facts.

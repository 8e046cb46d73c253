(** Schema resolution: how the order of declarations matters. *)
From Coq Require Import Strings.String ZArith List Bool Lia Strings.Byte Permutation.
From Verif Require Import Base BaseFacts Schema Ident Codegen GenProofs1 GenProofs8 Resolve SpecResolve SpecFormed ResolveProofs1 ResolveProofs2 ResolveProofs3 ResolveProofs4 ResolveProofs5 ResolveProofs6.
Import ListNotations.
Local Open Scope nat_scope.

Fixpoint definable_rec es (P : nat -> Prop)
  (H : forall i e, nth_error es i = Some e -> (forall r, In r (refs e) -> exists j e', nth_error es j = Some e' /\
         In (full_name (written_prefix es i) r) (declared_names (written_prefix es j) e') /\
         (definable es j /\ P j \/ needs_definition e = false /\ exists t, e' = ETable t)) -> P i)
  i (D : definable es i) {struct D} : P i.
Proof.
  destruct D as [i e N R]. apply (H i e N). intros r Ir. destruct (R r Ir) as (j & e' & N' & I & [D|T]).
  - exists j, e'. split; [exact N'|]. split; [exact I|]. left. split; [exact D|]. exact (definable_rec es P H j D).
  - exists j, e'. split; [exact N'|]. split; [exact I|]. right. exact T.
Defined.

Definition is_root (e : element) : bool := match e with ERoot _ => true | _ => false end.

Lemma Forall2_In_l {A B} (P : A -> B -> Prop) l m a : Forall2 P l m -> In a l -> exists b, In b m /\ P a b.
Proof. induction 1 as [|x y l m H F IH]; intros I; [destruct I|]. destruct I as [<-|I]; [exists y; cbn; auto|]. destruct (IH I) as (b & Ib & Q). exists b. cbn; auto. Qed.
Lemma functional_of (l : list (qident * icustom)) : NoDup (map fst l) -> forall q c c', In (q, c) l -> In (q, c') l -> c = c'.
Proof.
  induction l as [|[k v] l IH]; intros N q c c' I J; [destruct I|]. cbn [map fst] in N. inversion N; subst. destruct I as [I|I], J as [J|J].
  - congruence.
  - injection I as -> ->. exfalso. apply H1. apply in_map_iff. exists (q, c'). auto.
  - injection J as -> ->. exfalso. apply H1. apply in_map_iff. exists (q, c). auto.
  - eauto.
Qed.
Lemma definitions_In out (outs : list (list node)) q c : In out outs -> In (q, c) (definitions out) -> In (q, c) (definitions (concat outs)).
Proof.
  intros I D. unfold definitions in *. rewrite in_flat_map in *. destruct D as (n & J & D). exists n. split; [|exact D]. apply in_concat. eauto.
Qed.

Section Facts.
Context (snake : text -> text).
Notation new_element := (new_element snake).
Notation passes := (passes snake).
Notation tries := (tries snake).
Notation pass := (pass snake).

Lemma declares_unmark roots v p e out : declares snake roots v p e out ->
  exists out', declares snake unmarked v p e out' /\ definitions out' = definitions out.
Proof. destruct 1; eexists; (split; [constructor; eassumption|reflexivity]). Qed.
Lemma declares_roots_ext r1 r2 v p e out : (forall q, r1 q = r2 q) -> declares snake r1 v p e out -> declares snake r2 v p e out.
Proof.
  intros E D. destruct D; try (constructor; assumption). rewrite E. constructor. assumption.
Qed.

(** ** A schema whose declarations all have a place in a set of definitions *)
Section Place.
Context (p : qident) (V : qident -> icustom -> Prop) (roots : qident -> bool).
Context (Vfun : forall q c c', V q c -> V q c' -> c = c').

Definition placed (e : element) : Prop :=
  is_namespace e = true \/ exists out, declares snake roots V p e out /\ (forall q c, In (q, c) (definitions out) -> V q c).
Definition within (s : rstate) : Prop := forall q c, view_of s q c -> V q c.

Lemma placed_table t : placed (ETable t) -> V (local_name p (ap_id t)) KTable.
Proof. intros [N|(out & D & I)]; [discriminate N|]. inversion D; subst. apply I. cbn. auto. Qed.
Lemma within_lookup s e : placed e -> (is_namespace e = false -> current_prefix s = p) -> within s -> within (lookup_state s e).
Proof.
  intros P C W q c H. apply lookup_view in H as [H|(t & -> & -> & ->)]; [apply W; exact H|]. rewrite C by reflexivity. apply placed_table. exact P.
Qed.
Lemma within_step s pos e s' ok : placed e -> (is_namespace e = false -> current_prefix s = p) -> within s ->
  new_element s (pos, e) = Done (s', ok) -> within s'.
Proof.
  intros P C W H. destruct (is_namespace e) eqn:Ns.
  { destruct e; try discriminate Ns. cbn in H. injection H as <- _. exact W. }
  specialize (C eq_refl). pose proof (within_lookup s e P (fun _ => C) W) as WL. destruct ok.
  - apply step_declares in H as (out & D & _ & T & _ & _ & Td). rewrite C in D. intros q c [Q|[Q ->]].
    + apply T in Q as [Q|Q]; [apply W; left; exact Q|]. destruct P as [P|(out1 & D1 & I)]; [congruence|].
      apply declares_unmark in D1 as (out2 & D2 & E2).
      assert (out = out2).
      { eapply (declares_fun snake V V (fun _ _ H => H) p Vfun); [|exact D2]. eapply declares_mono; [|exact D]. intros q' c' K. apply WL. destruct e; cbn [view_for] in K; try exact K; left; exact K. }
      subst out2. apply I. rewrite <- E2. exact Q.
    + apply W. right. auto.
  - apply step_fails in H as (_ & _ & T & Td). intros q c [Q|[Q ->]]; [apply W; left; apply T; exact Q|].
    destruct (Td q Q) as [K|(t & -> & ->)]; [apply W; right; auto|]. rewrite C. apply placed_table. exact P.
Qed.

(** No attempt is an error. *)
Lemma table_fields_nofail s fs x : table_fields snake s fs <> Fail x.
Proof.
  induction fs as [|f fs IH]; cbn [table_fields]; [discriminate|]. destruct (try_type s (af_ty f)) as [ty|]; [|discriminate].
  destruct ty as [| | |q [| | |e vs]]; cbn [rbind]; try (destruct (table_fields snake s fs); cbn [rbind]; congruence).
  destruct (find_custom_type s e); cbn [rbind]; [|discriminate]. destruct (table_fields snake s fs); cbn [rbind]; congruence.
Qed.
Lemma struct_fields_nofail s q fs l : within s -> current_prefix s = p -> struct_fields_of V p fs l -> forall x, struct_fields s q fs <> Fail x.
Proof.
  intros W C F x. induction F as [|f fs ty l T Sc F IH]; cbn [struct_fields]; [discriminate|].
  destruct (try_type s (af_ty f)) as [ty'|] eqn:E; [|discriminate]. apply try_resolves in E. rewrite C in E.
  rewrite (resolves_fun V V (fun _ _ H => H) p Vfun _ _ (resolves_mono _ V W _ _ _ E) ty T). rewrite Sc. destruct (struct_fields s q fs); cbn [rbind]; congruence.
Qed.
Lemma root_nofail s q : within s -> V q KTable -> forall x, new_root_ident s q <> Fail x.
Proof.
  intros W K x. unfold new_root_ident. destruct (tget (r_types s) q) as [[|c]|] eqn:E; try discriminate.
  rewrite (Vfun q c KTable); [discriminate| |exact K]. apply W. left. exact E.
Qed.
Lemma within_types s s' : r_types s' = r_types s -> within s -> within s'.
Proof. intros E W q c. unfold view_of. rewrite E. apply W. Qed.
Lemma methods_nofail ms l : methods_of snake V p ms l -> forall s, within s -> current_prefix s = p -> forall x, rpc_methods snake s ms <> Fail x.
Proof.
  induction 1 as [|m ms st l V1 V2 S F IH]; intros s W C x; cbn [rpc_methods]; [discriminate|]. rewrite !qualify_q_full, C.
  pose proof (root_nofail s _ W V1) as A. destruct (new_root_ident s (full_name p (am_request m))) as [[s1 o1]|y|] eqn:E1; cbn [rbind]; [|intros Q; apply (A y); reflexivity|discriminate].
  apply root_frame in E1 as (N1 & T1 & _). destruct o1; [|discriminate]. assert (W1 : within s1) by (eapply within_types; eauto).
  pose proof (root_nofail s1 _ W1 V2) as B. destruct (new_root_ident s1 (full_name p (am_response m))) as [[s2 o2]|y|] eqn:E2; cbn [rbind]; [|intros Q; apply (B y); reflexivity|discriminate].
  apply root_frame in E2 as (N2 & T2 & _). destruct o2; [|discriminate]. assert (W2 : within s2) by (eapply within_types; eauto).
  assert (St : streaming_of (am_meta m) = Done st).
  { destruct S as [|m0 G|m0 G|m0 G|m0 G]; unfold streaming_of; [reflexivity|rewrite G; reflexivity..]. }
  rewrite St. cbn [rbind]. assert (C2 : current_prefix s2 = p) by (rewrite <- C, !current_prefix_of; congruence). specialize (IH s2 W2 C2).
  destruct (rpc_methods snake s2 ms) as [[s3 r]|y|]; cbn [rbind]; [discriminate|intros Q; apply (IH y); reflexivity|discriminate].
Qed.
Lemma check_fresh s q : (forall c, tget (r_types s) q <> Some (Defined c)) -> check_new s q = Done tt.
Proof. intros F. unfold check_new. destruct (tget (r_types s) q) as [[|c]|]; try reflexivity. exfalso. eapply F; reflexivity. Qed.
Lemma step_done s pos e : placed e -> (is_namespace e = false -> current_prefix s = p) -> within s -> unions_fine s ->
  (forall q c, In q (declared_names p e) -> tget (r_types s) q <> Some (Defined c)) -> exists s' ok, new_element s (pos, e) = Done (s', ok).
Proof.
  intros P C W F N. destruct (is_namespace e) eqn:Ns.
  { destruct e; try discriminate Ns. do 2 eexists; reflexivity. }
  specialize (C eq_refl). destruct P as [P|(out & D & _)]; [congruence|].
  assert (S : supported e = true) by (destruct D; reflexivity).
  pose proof (step_safe snake s pos e S F) as A. destruct (new_element s (pos, e)) as [[s' ok]|x|] eqn:H; [eauto| |congruence]. exfalso.
  destruct D as [| |t fs Df|t fs Df|e base Db|u vs Du|r ms Dr]; cbn [Resolve.new_element] in H; try discriminate H; cbn [declared_names] in N.
  - unfold new_root in H. change (qualify s id) with (local_name (current_prefix s) id) in H. rewrite C in H. eapply root_nofail; eauto.
  - unfold new_table in H. change (qualify s (ap_id t)) with (local_name (current_prefix s) (ap_id t)) in H. rewrite C in H.
    rewrite check_fresh in H by (intros c; apply N; cbn; auto). cbn [rbind] in H. revert H. set (s0 := set_type s _ _).
    pose proof (table_fields_nofail s0 (ap_fields t)) as B. destruct (table_fields snake s0 (ap_fields t)) as [[l|]|y|]; cbn [rbind]; try discriminate. intros _. apply (B y). reflexivity.
  - unfold new_struct in H. change (qualify s (ap_id t)) with (local_name (current_prefix s) (ap_id t)) in H. rewrite C in H.
    rewrite check_fresh in H by (intros c; apply N; cbn; auto). cbn [rbind] in H. revert H.
    pose proof (struct_fields_nofail s (local_name p (ap_id t)) _ _ W C Df) as B. destruct (struct_fields s (local_name p (ap_id t)) (ap_fields t)) as [[l|]|y|]; cbn [rbind]; try discriminate. intros _. apply (B y). reflexivity.
  - unfold new_enum in H. change (qualify s (ae_id e)) with (local_name (current_prefix s) (ae_id e)) in H. rewrite C in H.
    rewrite check_fresh in H by (intros c; apply N; cbn; auto). cbn [rbind] in H. rewrite Db in H. discriminate.
  - unfold new_union in H. change (qualify s (au_id u)) with (local_name (current_prefix s) (au_id u)) in H.
    change (companion_ident s (au_id u)) with (companion_name (current_prefix s) (au_id u)) in H. rewrite C in H.
    rewrite check_fresh in H by (intros c; apply N; cbn; auto). cbn [rbind] in H. destruct (union_variants s (au_variants u)); [|discriminate].
    rewrite check_fresh in H by (intros c; apply N; cbn; auto). cbn [rbind] in H. discriminate.
  - unfold new_rpc in H. pose proof (methods_nofail _ _ Dr s W C) as B. destruct (rpc_methods snake s (ar_methods r)) as [[s1 [l|]]|y|]; cbn [rbind] in H; try discriminate. apply (B y). reflexivity.
Qed.

End Place.

(** ** Passes over such a schema *)
Section Passes.
Context (V : qident -> icustom -> Prop) (roots : qident -> bool).
Context (Vfun : forall q c c', V q c -> V q c' -> c = c').
Context (es : list element).
Notation at_ := (written_prefix es).
Context (Placed : forall i e, nth_error es i = Some e -> placed (at_ i) V roots e).
Context (Distinct : forall i j e e' q, nth_error es i = Some e -> nth_error es j = Some e' -> In q (declared_names (at_ i) e) -> In q (declared_names (at_ j) e') -> i = j).

(** What is known when the elements at positions not in [T] are defined. *)
Record upto (s : rstate) (T : nat -> Prop) : Prop := Upto {
  up_within : within V s;
  up_fine : unions_fine s;
  up_defined : forall q c, tget (r_types s) q = Some (Defined c) ->
    exists i e, nth_error es i = Some e /\ ~ T i /\ In q (declared_names (at_ i) e);
  up_done : forall i e q, nth_error es i = Some e -> ~ T i -> In q (declared_names (at_ i) e) -> exists c, tget (r_types s) q = Some (Defined c);
  up_keys : forall i, In i (keys (r_nodes s)) -> ~ T i;
  up_dec : forall i, T i \/ ~ T i }.
Lemma upto_ext s (T T' : nat -> Prop) : (forall i, T i <-> T' i) -> upto s T -> upto s T'.
Proof.
  intros E [W F Df Dn K Dc]. constructor; auto.
  - intros q c Q. destruct (Df q c Q) as (j & e' & Nj & Tj & Iq). exists j, e'. rewrite <- E. auto.
  - intros j e' q Nj Tj Iq. rewrite <- E in Tj. eauto.
  - intros j J. rewrite <- E. auto.
  - intros j. rewrite <- E. auto.
Qed.

Lemma upto_step s (T : nat -> Prop) i e : upto s T -> nth_error es i = Some e -> T i -> (is_namespace e = false -> current_prefix s = at_ i) ->
  exists s' ok, new_element s (i, e) = Done (s', ok) /\ upto s' (fun j => T j /\ (ok = true -> j <> i)).
Proof.
  intros U N Ti C. pose proof (Placed i e N) as P. destruct U as [W F Df Dn K Dc].
  destruct (step_done (at_ i) V roots Vfun s i e P C W F) as (s' & ok & H).
  { intros q c Iq Q. destruct (Df q c Q) as (j & e' & Nj & Tj & Iq'). pose proof (Distinct _ _ _ _ q N Nj Iq Iq'). subst j. auto. }
  exists s', ok. split; [exact H|]. constructor.
  - eapply (within_step (at_ i) V roots Vfun); eauto.
  - eapply step_fine; eauto.
  - intros q c Q. destruct ok.
    + pose proof H as H0. apply step_declares in H as (out & D & _ & Ty & _). apply Ty in Q as [Q|Q].
      * destruct (Df q c Q) as (j & e' & Nj & Tj & Iq). exists j, e'. split; [exact Nj|]. split; [tauto|exact Iq].
      * exists i, e. split; [exact N|]. split; [intros [_ X]; apply X; reflexivity|].
        destruct (is_namespace e) eqn:Ns; [destruct e; try discriminate Ns; inversion D; subst; destruct Q|]. rewrite <- (C eq_refl). apply (declares_name _ _ _ _ _ _ q D). eauto.
    + apply step_fails in H as (_ & _ & Ty & _). apply Ty in Q. destruct (Df q c Q) as (j & e' & Nj & Tj & Iq). exists j, e'. split; [exact Nj|]. split; [tauto|exact Iq].
  - intros j e' q Nj Tj Iq. destruct (Dc j) as [Y|Y].
    + destruct ok; [|exfalso; apply Tj; split; [exact Y|discriminate]]. assert (j = i) by (destruct (Nat.eq_dec j i) as [E|E]; [exact E|exfalso; apply Tj; split; [exact Y|intros _; exact E]]).
      subst j. assert (e' = e) by congruence. subst e'. apply step_declares in H as (out & D & _ & Ty & _).
      destruct (is_namespace e) eqn:Ns; [destruct e; try discriminate Ns; destruct Iq|]. rewrite (C eq_refl) in D. apply (declares_name _ _ _ _ _ _ q D) in Iq as (c & Ic). exists c. apply Ty. auto.
    + destruct (Dn j e' q Nj Y Iq) as (c & Q). exists c. apply step_keeps in H as [Kp _]. auto.
  - intros j Ij. apply nodes_step in H as [Ks K0]. destruct ok.
    + assert (J : j = i \/ In j (keys (r_nodes s))) by (destruct Ks as [Ks|(v & Ks)]; rewrite Ks in Ij; [auto|apply keys_nput in Ij; exact Ij]).
      destruct J as [->|J]; [intros [_ X]; apply X; reflexivity|]. pose proof (K j J). tauto.
    + rewrite K0 in Ij by reflexivity. pose proof (K j Ij). tauto.
  - intros j. destruct (Dc j) as [Y|Y]; [|right; tauto]. destruct ok; [|left; split; [exact Y|discriminate]].
    destruct (Nat.eq_dec j i) as [E|E]; [right; intros [_ X]; apply X; auto|left; auto].
Qed.

Definition known_tables (s : rstate) (S : nat -> Prop) : Prop :=
  forall j t, S j -> nth_error es j = Some (ETable t) -> exists c, tget (r_types s) (local_name (at_ j) (ap_id t)) = Some c.
(** One pass never fails, and leaves what it could not do. *)
Lemma upto_pass input : forall s (T S : nat -> Prop), upto s T -> known_tables s S ->
  NoDup (map fst input) -> (forall i e, In (i, e) input -> nth_error es i = Some e /\ T i) ->
  (forall x i e y, input = x ++ (i, e) :: y -> is_namespace e = false -> prefix_of (namespace_after (r_namespace s) (map snd x)) = at_ i) ->
  exists s' un, pass s input = Done (s', un) /\
    upto s' (fun j => T j /\ (In j (map fst input) -> In j (map fst un))) /\
    known_tables s' (fun j => S j \/ In j (map fst input)) /\
    (forall x, In x un -> In x input) /\ NoDup (map fst un).
Proof.
  induction input as [|[i e] input IH]; intros s T S U KT Nd I Pr; cbn [Resolve.pass].
  - exists s, []. split; [reflexivity|]. split; [|split; [intros j t [J|[]]; apply KT; exact J|split; [auto|constructor]]].
    eapply upto_ext; [|exact U]. intros j. cbn. tauto.
  - destruct (I i e (or_introl eq_refl)) as [Ni Ti].
    assert (C : is_namespace e = false -> current_prefix s = at_ i) by (intros Ns; rewrite current_prefix_of; apply (Pr [] i e input eq_refl Ns)).
    destruct (upto_step s T i e U Ni Ti C) as (s1 & ok & H & U1). rewrite H. cbn [rbind]. cbn [map fst] in Nd. inversion Nd as [|? ? Nd1 Nd2]; subst.
    assert (KT1 : known_tables s1 (fun j => S j \/ j = i)).
    { intros j t [J| ->] Nj; [eapply step_known_some; [exact H|]; eapply KT; eauto|]. assert (e = ETable t) by congruence. subst e.
      pose proof (step_keeps _ _ _ _ _ H) as [_ K]. rewrite (C eq_refl) in K. apply K. reflexivity. }
    destruct (IH s1 _ _ U1 KT1 Nd2) as (s2 & un & H2 & U2 & KT2 & Iu & Nu).
    { intros j f J. destruct (I j f (or_intror J)) as [A B]. split; [exact A|]. split; [exact B|]. intros _ E. subst. apply Nd1. apply in_map_iff. exists (i, f). auto. }
    { intros x j f y E Ns. rewrite (step_namespace _ _ _ _ _ _ H). rewrite <- namespace_after_app. apply (Pr ((i, e) :: x) j f y); [rewrite E; reflexivity|exact Ns]. }
    assert (Iun : forall j, In j (map fst un) -> In j (map fst input)) by (intros j J; apply in_map_iff in J as (x & <- & J); apply in_map; auto).
    rewrite H2. cbn [rbind]. exists s2, (if ok then un else (i, e) :: un). split; [reflexivity|]. split; [|split; [|split]].
    + eapply upto_ext; [|exact U2]. intros j. cbn [map fst In]. destruct ok; cbn [map fst In].
      * split; [intros [[A B] D]; split; [exact A|]; intros [E|E]; [exfalso; apply B; auto|auto]|].
        intros [A B]. split; [split; [exact A|]|auto]. intros _ E. subst j. apply Nd1. apply Iun. apply B. auto.
      * split; [intros [[A _] D]; split; [exact A|]; intros [E|E]; auto|].
        intros [A B]. split; [split; [exact A|discriminate]|]. intros E. destruct (B (or_intror E)) as [Q|Q]; [|exact Q]. subst. contradiction.
    + intros j t J. apply KT2. cbn [map fst In] in J. intuition.
    + intros x J. destruct ok; [right; auto|]. destruct J as [<-|J]; [left; reflexivity|right; auto].
    + destruct ok; [exact Nu|]. cbn [map fst]. constructor; [|exact Nu]. auto.
Qed.

(** A later pass that defines nothing finishes. *)
Context (Definable : forall i e, nth_error es i = Some e -> is_namespace e = false -> definable es i).

Lemma nput_new ns pos v : ~ In pos (keys ns) -> length (nput ns pos v) = S (length ns).
Proof.
  induction ns as [|[k w] ns IH]; intros N; cbn [nput length]; [reflexivity|]. cbn [keys map fst In] in N.
  destruct (Nat.ltb pos k); cbn [length]; [reflexivity|]. destruct (Nat.eqb pos k) eqn:E; [apply Nat.eqb_eq in E; exfalso; auto|]. cbn [length]. rewrite IH; auto.
Qed.
(** What adds nodes. *)
Definition defines (e : element) : bool := negb (is_root e || is_namespace e).
Lemma step_adds s i e s' : new_element s (i, e) = Done (s', true) -> defines e = true -> ~ In i (keys (r_nodes s)) -> length (r_nodes s') = S (length (r_nodes s)).
Proof.
  intros H D N. apply step_declares in H as (out & Dc & E & _). rewrite E. inversion Dc; subst; try discriminate D; apply nput_new; exact N.
Qed.
Lemma step_same s i e s' ok : new_element s (i, e) = Done (s', ok) -> ok && defines e = false ->
  r_nodes s' = r_nodes s /\ (forall q c, tget (r_types s') q = Some (Defined c) <-> tget (r_types s) q = Some (Defined c)).
Proof.
  intros H D. destruct ok.
  - apply step_declares in H as (out & Dc & E & T & _). cbn [andb] in D. inversion Dc; subst; try discriminate D.
    + split; [exact E|]. intros q0 c0. rewrite T. cbn. tauto.
    + split; [exact E|]. intros q0 c0. rewrite T. cbn. tauto.
  - apply step_fails in H as (E & _ & T & _). auto.
Qed.
Definition defining (x : (nat * element) * bool) : bool := snd x && defines (snd (fst x)).
Lemma tries_same s l s' : tries s l s' -> existsb defining l = false ->
  r_nodes s' = r_nodes s /\ (forall q c, tget (r_types s') q = Some (Defined c) <-> tget (r_types s) q = Some (Defined c)).
Proof.
  induction 1 as [|s [i e] ok s1 l s2 H T IH]; intros E; [split; [reflexivity|tauto]|]. cbn [existsb] in E. apply orb_false_iff in E as [E1 E2].
  destruct (step_same _ _ _ _ _ H E1) as [A B]. destruct (IH E2) as [A' B']. split; [congruence|]. intros q c. rewrite B'. apply B.
Qed.
Lemma existsb_first {A} (f : A -> bool) l : existsb f l = true -> exists a x b, l = a ++ x :: b /\ f x = true /\ existsb f a = false.
Proof.
  induction l as [|y l IH]; cbn [existsb]; [discriminate|]. destruct (f y) eqn:E.
  - intros _. exists [], y, l. auto.
  - intros H. destruct (IH H) as (a & x & b & -> & Fx & Fa). exists (y :: a), x, b. cbn [existsb app]. rewrite E. auto.
Qed.

Lemma later_pass s input s' un : upto s (fun i => In i (map fst input)) -> known_tables s (fun _ => True) -> (forall i e, In (i, e) input -> current_prefix s = at_ i) ->
  NoDup (map fst input) -> (forall i e, In (i, e) input -> nth_error es i = Some e /\ is_namespace e = false) ->
  pass s input = Done (s', un) -> length (r_nodes s') = length (r_nodes s) -> un = [].
Proof.
  intros U KT C Nd I P L. apply pass_tries in P as (l & Tl & M & F).
  assert (Split : forall a i e ok b, l = a ++ ((i, e), ok) :: b -> exists s0 s1, tries s a s0 /\ new_element s0 (i, e) = Done (s1, ok) /\ tries s1 b s' /\
    ~ In i (keys (r_nodes s0)) /\ current_prefix s0 = at_ i).
  { intros a i e ok b E. pose proof Tl as T. rewrite E in T. apply tries_split in T as (s0 & Ta & Tb). inversion Tb; subst. exists s0, st1. split; [exact Ta|]. split; [assumption|]. split; [assumption|].
    split.
    - intros K. apply tries_nodes in Ta as (_ & _ & Ka). destruct (Ka i K) as [K1|K1].
      + apply (up_keys _ _ U) in K1. apply K1. rewrite map_app. cbn [map fst]. rewrite map_app. cbn. apply in_elt.
      + rewrite !map_app in Nd. cbn [map fst] in Nd. apply NoDup_remove_2 in Nd. apply Nd. apply in_or_app. left. rewrite map_map. exact K1.
    - assert (Ci : current_prefix s = at_ i) by (apply (C i e); rewrite map_app; apply in_elt). apply tries_namespace in Ta. rewrite <- Ci, current_prefix_of, Ta, namespace_after_none; [rewrite current_prefix_of; reflexivity|].
      intros f J. apply in_map_iff in J as ([[j g] o] & <- & J). cbn [fst snd]. apply (I j g). rewrite map_app. apply in_or_app. left. apply in_map_iff. exists ((j, g), o). auto. }
  assert (Nodef : existsb defining l = false).
  { destruct (existsb defining l) eqn:X; [|reflexivity]. exfalso. apply existsb_first in X as (a & [[i e] ok] & b & E & D & _). destruct (Split _ _ _ _ _ E) as (s0 & s1 & Ta & H & Tb & Ni & _).
    unfold defining in D. cbn [fst snd] in D. apply andb_true_iff in D as [-> D]. pose proof (step_adds _ _ _ _ H D Ni) as A.
    apply tries_nodes in Ta as (La & _ & _). apply tries_nodes in Tb as (Lb & _ & _). lia. }
  assert (Attempt : forall i e, In (i, e) input -> exists a ok b s0 s1, l = a ++ ((i, e), ok) :: b /\ new_element s0 (i, e) = Done (s1, ok) /\ current_prefix s0 = at_ i /\
     (forall q c, tget (r_types s) q = Some (Defined c) -> tget (r_types s0) q = Some (Defined c)) /\
     (forall q, (exists c, tget (r_types s) q = Some c) -> exists c, tget (r_types s0) q = Some c)).
  { intros i e J. rewrite <- M in J. apply in_map_iff in J as ([x ok] & Ex & J). cbn [fst] in Ex. subst x. apply in_split in J as (a & b & E).
    destruct (Split _ _ _ _ _ E) as (s0 & s1 & Ta & H & _ & _ & C0). exists a, ok, b, s0, s1. split; [exact E|]. split; [exact H|]. split; [exact C0|].
    split; [eapply tries_keeps; exact Ta|]. clear - Ta. induction Ta; [auto|]. intros q K. apply IHTa. eapply step_known_some; eauto. }
  assert (AllOk : forall i, definable es i -> forall e, In (i, e) input -> exists a b, l = a ++ ((i, e), true) :: b).
  { refine (definable_rec es _ _). intros i e0 Ne R e J. destruct (I i e J) as [N _]. assert (e0 = e) by congruence. subst e0.
    destruct (Attempt i e J) as (a & ok & b & s0 & s1 & El & H & C0 & Kd & Ks). destruct ok; [eauto|exfalso].
    revert H. apply step_known. rewrite C0. intros r Ir. destruct (R r Ir) as (j & e' & Nj & Iq & [[_ Pj]|[Nd' (t & ->)]]).
    - left. destruct (up_dec _ _ U j) as [Y|Y].
      + exfalso. apply in_map_iff in Y as ([i2 e2] & Ei & Y). cbn [fst] in Ei. subst i2. destruct (I _ _ Y) as [N2 _]. assert (e2 = e') by congruence. subst e2.
        destruct (Pj e' Y) as (a' & b' & El'). rewrite El', existsb_app in Nodef. cbn [existsb] in Nodef. unfold defining at 2 in Nodef. cbn [fst snd] in Nodef.
        assert (D : defines e' = true) by (destruct e'; try reflexivity; destruct Iq). rewrite D in Nodef. cbn in Nodef. rewrite orb_true_r in Nodef. discriminate.
      + destruct (up_done _ _ U j e' _ Nj Y Iq) as (c & Q). exists c. auto.
    - destruct Iq as [Iq|[]]. rewrite <- Iq. destruct (Ks _ (KT j t Logic.I Nj)) as ([|c] & Q); [right; left; split; [destruct e; try discriminate Nd'; exact Logic.I|exact Q]|left; eauto]. }
  destruct un as [|[i e] un]; [reflexivity|exfalso]. assert (J : In (i, e) (failed l)) by (rewrite F; left; reflexivity). apply failed_In in J.
  assert (Ji : In (i, e) input) by (rewrite <- M; apply in_map_iff; exists ((i, e), false); auto). destruct (AllOk i (Definable i e (proj1 (I i e Ji)) (proj2 (I i e Ji))) e Ji) as (a & b & E).
  rewrite <- M in Nd. rewrite E in J, Nd. rewrite !map_app in Nd. cbn [map fst] in Nd. apply NoDup_remove_2 in Nd. apply Nd. rewrite <- !map_app.
  apply in_app_or in J as [J|[J|J]]; [|discriminate J|]; apply in_map_iff; exists (i, e); (split; [reflexivity|]); apply in_map_iff; exists ((i, e), false); (split; [reflexivity|]); apply in_or_app; auto.
Qed.

Lemma finish fuel : forall s input, upto s (fun i => In i (map fst input)) -> known_tables s (fun _ => True) -> (forall i e, In (i, e) input -> current_prefix s = at_ i) ->
  NoDup (map fst input) -> (forall i e, In (i, e) input -> nth_error es i = Some e /\ is_namespace e = false) ->
  passes fuel s input <> None -> exists st, passes fuel s input = Some (Done st).
Proof.
  induction fuel as [|fuel IH]; intros s input U KT C Nd I N; [contradiction (N eq_refl)|].
  destruct (upto_pass input s _ (fun _ => True) U KT Nd) as (s' & un & P & U' & KT' & Iu & Nu).
  { intros i e J. split; [apply I; exact J|]. apply in_map_iff. exists (i, e). auto. }
  { intros x i e y E _. rewrite namespace_after_none; [rewrite <- (C i e), current_prefix_of; [reflexivity|rewrite E; apply in_elt]|]. intros f J. apply in_map_iff in J as ([j g] & <- & J). apply (I j g). rewrite E. apply in_or_app. auto. }
  assert (C' : current_prefix s' = current_prefix s).
  { pose proof P as P0. apply pass_tries in P0 as (l & Tl & M & _). rewrite current_prefix_of, (tries_namespace _ _ _ _ Tl), namespace_after_none; [rewrite current_prefix_of; reflexivity|].
    intros f J. apply in_map_iff in J as ([[j g] o] & <- & J). apply (I j g). rewrite <- M. apply in_map_iff. exists ((j, g), o). auto. }
  cbn [Resolve.passes] in *. rewrite P in *. destruct un as [|x un]; [eauto|]. destruct (Nat.eqb (length (r_nodes s')) (length (r_nodes s))) eqn:E.
  - apply Nat.eqb_eq in E. pose proof (later_pass _ _ _ _ U KT C Nd I P E). discriminate.
  - apply IH; auto.
    + eapply upto_ext; [|exact U']. intros i. cbn beta. split; [intros [A B]; auto|]. intros J. split; [|auto]. apply in_map_iff in J as (y & <- & J). apply in_map. auto.
    + intros j t _. apply KT'. auto.
    + intros i e J. rewrite C'. eauto.
Qed.
End Passes.
End Facts.

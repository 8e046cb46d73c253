(** Exactly which tables are roots. *)
From Coq Require Import Strings.String ZArith List Bool Lia Strings.Byte Permutation.
From Verif Require Import Base BaseFacts Schema Ident Codegen GenProofs1 GenProofs8 Resolve SpecResolve ResolveProofs1 ResolveProofs2 ResolveProofs3 ResolveProofs4 ResolveProofs5 ResolveProofs6 ResolveProofs7 ResolveProofs8 ResolveProofs9.
Import ListNotations.
Local Open Scope nat_scope.

Section Facts.
Context (snake : text -> text).
Notation new_element := (new_element snake).
Notation tries := (tries snake).

Definition asks (ms : list amethod) : list qident := flat_map (fun m => [am_request m; am_response m]) ms.
Lemma root_kind st q st' ok : new_root_ident st q = Done (st', ok) ->
  (ok = true <-> exists c, tget (r_types st) q = Some (Defined c)).
Proof.
  unfold new_root_ident. destruct (tget (r_types st) q) as [[|[]]|] eqn:T; intros H; try discriminate H; injection H as _ <-;
    (split; [intros; try discriminate; eauto|intros (c & Q); congruence || reflexivity]).
Qed.
Lemma methods_exact ms : forall st st' r, rpc_methods snake st ms = Done (st', r) -> forall q,
  In q (r_roots st') <-> In q (r_roots st) \/ exists before x after, asks ms = before ++ x :: after /\ q = full_name (current_prefix st) x /\
    forall y, In y (before ++ [x]) -> exists c, tget (r_types st) (full_name (current_prefix st) y) = Some (Defined c).
Proof.
  induction ms as [|m ms IH]; intros st st' r H q; cbn [rpc_methods] in H.
  { injection H as <- _. split; [auto|]. intros [I|(b & x & a & E & _)]; [exact I|]. destruct b; discriminate E. }
  cbn [asks flat_map app]. fold (asks ms).
  apply rbind_Done in H as ([s1 o1] & H1 & H). rewrite qualify_q_full in H1. pose proof (root_grows _ _ _ _ H1 q) as G1. pose proof (root_kind _ _ _ _ H1) as K1. apply root_frame in H1 as (N1 & T1 & _).
  set (P := current_prefix st) in *.
  destruct o1.
  2:{ injection H as <- _. rewrite G1. split; [intros [I|[I _]]; [auto|discriminate I]|]. intros [I|(b & x & a & E & -> & D)]; [auto|exfalso].
      assert (Ey : In (am_request m) (b ++ [x])) by (destruct b as [|y b]; injection E as <- E; cbn; auto). destruct (D _ Ey) as (c & Q).
      assert (false = true) by (apply K1; eauto). discriminate. }
  apply rbind_Done in H as ([s2 o2] & H2 & H). rewrite qualify_q_full in H2. pose proof (root_grows _ _ _ _ H2 q) as G2. pose proof (root_kind _ _ _ _ H2) as K2. apply root_frame in H2 as (N2 & T2 & _).
  fold P in G2, K2. rewrite T1 in K2.
  destruct o2.
  2:{ injection H as <- _. rewrite G2, G1. split.
      - intros [[I|[_ ->]]|[I _]]; [auto| |discriminate I]. right. exists [], (am_request m), (am_response m :: asks ms). split; [reflexivity|]. split; [reflexivity|].
        intros y [<-|[]]. apply K1. reflexivity.
      - intros [I|(b & x & a & E & -> & D)]; [auto|]. destruct b as [|y b]; injection E as <- E; [left; right; auto|exfalso].
        assert (Ey : In (am_response m) (am_request m :: b ++ [x])) by (destruct b as [|z b]; injection E as <- E; cbn; auto). destruct (D _ Ey) as (c & Q).
        assert (false = true) by (apply K2; eauto). discriminate. }
  apply rbind_Done in H as (s & _ & H). apply rbind_Done in H as ([s3 o3] & H3 & H). injection H as <- _.
  rewrite (IH _ _ _ H3 q), G2, G1. replace (current_prefix s2) with P by (unfold P; rewrite !current_prefix_of; congruence). rewrite T2, T1. split.
  - intros [[[I|[_ ->]]|[_ ->]]|(b & x & a & E & -> & D)]; [auto| | |]; right.
    + exists [], (am_request m), (am_response m :: asks ms). split; [reflexivity|]. split; [reflexivity|]. intros y [<-|[]]. apply K1. reflexivity.
    + exists [am_request m], (am_response m), (asks ms). split; [reflexivity|]. split; [reflexivity|]. intros y [<-|[<-|[]]]; [apply K1|apply K2]; reflexivity.
    + exists (am_request m :: am_response m :: b), x, a. split; [rewrite E; reflexivity|]. split; [reflexivity|]. intros y [<-|[<-|I]]; [apply K1; reflexivity|apply K2; reflexivity|auto].
  - intros [I|(b & x & a & E & -> & D)]; [auto|]. destruct b as [|y b]; injection E as <- E; [left; left; right; auto|].
    destruct b as [|z b]; injection E as <- E; [left; right; auto|]. right. exists b, x, a. split; [exact E|]. split; [reflexivity|]. intros w I. apply D. cbn. auto.
Qed.

(** What a failed attempt marks. *)
Lemma fails_exact st i e st' q : new_element st (i, e) = Done (st', false) ->
  In q (r_roots st') <-> In q (r_roots st) \/ exists r before x after, e = ERpc r /\ refs e = before ++ x :: after /\ q = full_name (current_prefix st) x /\
    forall y, In y (before ++ [x]) -> exists c, tget (r_types st) (full_name (current_prefix st) y) = Some (Defined c).
Proof.
  intros H. destruct e as [q0 d|t|t|e|u|id|x d|x d|x|r|x d]; cbn [Resolve.new_element] in H; try discriminate H.
  - unfold new_table in H. apply rbind_Done in H as (u & _ & H). apply rbind_Done in H as ([fs|] & _ & H); [discriminate H|]. injection H as <-. cbn [set_type r_roots].
    split; [auto|]. intros [I|(r & b & x & a & E & _)]; [exact I|discriminate E].
  - unfold new_struct in H. apply rbind_Done in H as (u & _ & H). apply rbind_Done in H as ([fs|] & _ & H); [discriminate H|]. injection H as <-.
    split; [auto|]. intros [I|(r & b & x & a & E & _)]; [exact I|discriminate E].
  - unfold new_enum in H. apply rbind_Done in H as (u & _ & H). destruct (enum_base (ae_base e)); discriminate.
  - unfold new_union in H. apply rbind_Done in H as (u0 & _ & H). destruct (union_variants st (au_variants u)).
    + apply rbind_Done in H as (u1 & _ & H). discriminate H.
    + injection H as <-. split; [auto|]. intros [I|(r & b & x & a & E & _)]; [exact I|discriminate E].
  - unfold new_root in H. rewrite (root_grows _ _ _ _ H q). split; [intros [I|[I _]]; [auto|discriminate I]|]. intros [I|(r & b & x & a & E & _)]; [auto|discriminate E].
  - unfold new_rpc in H. apply rbind_Done in H as ([s ms] & M & H). destruct ms as [ms|]; [discriminate H|]. injection H as <-.
    rewrite (methods_exact _ _ _ _ M q). cbn [refs]. fold (asks (ar_methods r)). split.
    + intros [I|(b & x & a & E)]; [auto|]. right. exists r, b, x, a. auto.
    + intros [I|(r' & b & x & a & _ & E)]; [auto|]. right. exists b, x, a. exact E.
Qed.

Lemma tries_marked st l st' : tries st l st' -> forall q, In q (r_roots st') -> In q (r_roots st) \/
  exists a i e ok b s s', l = a ++ ((i, e), ok) :: b /\ tries st a s /\ new_element s (i, e) = Done (s', ok) /\ ~ In q (r_roots s) /\ In q (r_roots s').
Proof.
  induction 1 as [|st [pos e] ok st1 l st2 H T IH]; intros q I; [auto|]. destruct (IH q I) as [J|(a & i & f & o & b & s & s' & -> & Ta & R)].
  - destruct (in_dec (list_eq_dec (list_eq_dec byte_eq_dec)) q (r_roots st)) as [K|K]; [auto|]. right. exists [], pos, e, ok, l, st, st1. split; [reflexivity|]. split; [constructor|]. auto.
  - right. exists (((pos, e), ok) :: a), i, f, o, b, s, s'. split; [reflexivity|]. split; [econstructor; eauto|exact R].
Qed.

Lemma run_roots es st' q : run snake es st' -> In q (r_roots st') <-> exists i, makes_root es i q \/ tries_root es i q.
Proof.
  intros U. split.
  - intros I. destruct (tries_marked _ _ _ (run_tries snake es st' U) q I) as [[]|(a & i & e & ok & b & s & s' & E & Ta & H & No & Q)]. exists i.
    destruct (run_prefix snake _ _ U _ _ _ _ _ _ E Ta) as (N & Pf).
    assert (Says : says_root (current_prefix s) e q) by (apply step_roots in H as (G & _); destruct (G q Q); [contradiction|assumption]).
    destruct Pf as [(P & x & y & X & ->)|(P & X & _)].
    2:{ left. exists e. split; [exact N|]. right. rewrite P in Says. split; [|exact Says]. intros St. apply (first_stays snake es st' U i e false X) in St. discriminate St. }
    destruct ok.
    + left. exists e. split; [exact N|]. left. rewrite P in Says. split; [|exact Says]. apply (first_stays snake es st' U i e true); [rewrite X; apply in_elt|reflexivity].
    + right. apply (fails_exact _ _ _ _ q H) in Q as [Q|(r & bf & z & af & -> & Re & -> & D)]; [contradiction|].
      exists r, bf, z, af. split; [exact N|]. split; [exact Re|]. rewrite P in *. split; [reflexivity|]. intros y0 I0. destruct (D y0 I0) as (c & K).
      destruct (tries_sources _ _ _ _ Ta _ _ K) as [K0|(a1 & j & e' & b1 & s2 & E1 & Ta1 & Iq)]; [discriminate K0|].
      exists j, e'. pose proof X as X1. rewrite E1, <- app_assoc in X1. cbn [app] in X1. destruct (first_at _ _ _ U _ _ _ _ _ _ X1 Ta1) as (Nj & Lj & Pj).
      destruct (first_at _ _ _ U _ _ _ _ _ _ X Ta) as (_ & Li & _). rewrite E1, app_length in Li. cbn [length] in Li.
      split; [exact Nj|]. split; [lia|]. split; [|rewrite Pj in Iq; exact Iq]. apply (first_stays snake es st' U j e' true); [rewrite X1; apply in_elt|reflexivity].
  - intros (i & [(e & N & M)|(r & bf & z & af & N & Re & -> & D)]).
    + destruct (run_resolution snake es st' U) as (place & outs & R & _ & _ & _ & W). apply roots_of_In. apply (res_marked _ _ _ _ _ R i e q N).
      destruct (W i) as [[S ->]|[S ->]]; [apply nth_error_Some; congruence| |]; tauto.
    + assert (I : In (i, ERpc r) (indexed 0 es)) by (apply indexed_nth; rewrite Nat.sub_0_r; auto with arith). rewrite <- (u_all _ _ _ U) in I.
      apply in_map_iff in I as ([ie ok] & Ei & I). cbn [fst] in Ei. subst ie. apply in_split in I as (x & y & X).
      pose proof (u_tries1 _ _ _ U) as T. rewrite X in T. apply tries_split in T as (s & Tx & T). apply tries_uncons in T as (s1 & H & T).
      destruct (first_at _ _ _ U _ _ _ _ _ _ X Tx) as (_ & Li & P).
      assert (G : In (full_name (written_prefix es i) z) (r_roots s1)).
      { assert (K : forall y0, In y0 (bf ++ [z]) -> exists c, tget (r_types s) (full_name (current_prefix s) y0) = Some (Defined c)).
        { intros y0 I0. destruct (D y0 I0) as (j & e' & Nj & Lj & Sj & Iq). rewrite P. destruct (first_before _ _ _ U _ _ _ _ _ _ _ X Nj Lj) as (x1 & ok' & x2 & E).
          assert (In ((j, e'), ok') (u_first _ _ _ U)) by (rewrite X, E; apply in_or_app; left; apply in_elt). apply (first_stays snake es st' U j e' ok') in Sj; [|assumption]. subst ok'.
          pose proof X as X1. rewrite E, <- app_assoc in X1. cbn [app] in X1. rewrite E in Tx. apply tries_split in Tx as (s2 & Tx1 & Tx2). apply tries_uncons in Tx2 as (s3 & H2 & Tx3).
          destruct (first_at _ _ _ U _ _ _ _ _ _ X1 Tx1) as (_ & _ & Pj).
          apply step_declares in H2 as (out & Dc & _ & Ty & _). rewrite Pj in Dc. pose proof (proj1 (declares_name _ _ _ _ _ _ _ Dc) Iq) as (c & Ic).
          exists c. eapply tries_keeps; [exact Tx3|]. apply Ty. auto. }
        cbn [Resolve.new_element] in H. unfold new_rpc in H. apply rbind_Done in H as ([s2 ms] & M & H).
        assert (G : In (full_name (written_prefix es i) z) (r_roots s2)).
        { apply (methods_exact _ _ _ _ M). right. rewrite <- P. exists bf, z, af. auto. }
        destruct ms as [ms|]; injection H as <- _; exact G. }
      eapply tries_roots_grow; [exact (u_tries2 _ _ _ U)|]. eapply tries_roots_grow; [exact T|exact G].
Qed.

Lemma marked_exact es root : build snake es = Done root -> forall path t, In (path, NTable t) (all_contents root) ->
  (it_root t = true <-> exists i, makes_root es i (it_id t) \/ tries_root es i (it_id t)).
Proof.
  intros B path t I. pose proof (build_run snake es root B) as (st' & (U & _) & ->). rewrite <- (run_roots es st' (it_id t) U).
  destruct (run_resolution snake es st' U) as (place & outs & R & E & _ & _ & _).
  assert (Nu : forall path, nodes_under path (arrange (marked_nodes st')) = filter (fun n => qident_eqb (module_of n) path) (concat outs)).
  { intros p. rewrite E. apply arrange_under. apply Forall_concat. apply Forall_forall. intros out J. apply In_nth_error in J as (i & N).
    assert (L : i < length es) by (rewrite <- (res_length _ _ _ _ _ R); apply nth_error_Some; congruence).
    destruct (nth_error es i) as [e|] eqn:Ne; [|apply nth_error_None in Ne; lia]. destruct (res_declares _ _ _ _ _ R i e Ne) as (out' & No & D).
    assert (out' = out) by congruence. subst. eapply declares_plain; eauto. }
  apply (Permutation_in _ (contents_perm _ _ Nu)) in I. apply in_map_iff in I as (n & En & I). injection En as _ ->.
  apply in_concat in I as (out & J & I). apply In_nth_error in J as (i & N).
  assert (L : i < length es) by (rewrite <- (res_length _ _ _ _ _ R); apply nth_error_Some; congruence).
  destruct (nth_error es i) as [e|] eqn:Ne; [|apply nth_error_None in Ne; lia]. destruct (res_declares _ _ _ _ _ R i e Ne) as (out' & No & D).
  assert (out' = out) by congruence. subst. rewrite <- roots_of_In. inversion D; subst; cbn [In] in I; try (exfalso; intuition discriminate).
  destruct I as [I|[]]. injection I as <-. cbn [it_root it_id]. reflexivity.
Qed.

Lemma tried_says es i q : tries_root es i q -> exists e, nth_error es i = Some e /\ says_root (written_prefix es i) e q.
Proof.
  intros (r & bf & z & af & N & Re & -> & _). exists (ERpc r). split; [exact N|]. cbn [says_root refs] in *.
  assert (I : In z (flat_map (fun m => [am_request m; am_response m]) (ar_methods r))) by (rewrite Re; apply in_elt).
  apply in_flat_map in I as (m & Im & [<-|[<-|[]]]); exists m; auto.
Qed.
Lemma tries_stays es root i e : build snake es = Done root -> nth_error es i = Some e -> stays es i \/ ~ stays es i.
Proof.
  intros B N. destruct (build_resolution snake es root B) as (place & roots & outs & _ & _ & _ & W). destruct (W i) as [[S _]|[S _]]; auto. apply nth_error_Some. congruence.
Qed.
Lemma marked_written es root : (forall i e, nth_error es i = Some e -> is_namespace e = false -> stays es i \/ written_prefix es i = last_prefix es) ->
  build snake es = Done root -> forall path t, In (path, NTable t) (all_contents root) ->
  (it_root t = true <-> exists i e, nth_error es i = Some e /\ says_root (written_prefix es i) e (it_id t)).
Proof.
  intros Fix B path t I. rewrite (marked_exact es root B path t I). split.
  - intros (i & [(e & N & M)|M]); [|destruct (tried_says _ _ _ M) as (e & N & S); eauto]. exists i, e. split; [exact N|].
    destruct M as [[_ S]|[S M]]; [exact S|]. destruct (Fix i e N) as [St| ->]; [destruct e; [destruct M|..]; reflexivity|contradiction|exact M].
  - intros (i & e & N & S). exists i. left. exists e. split; [exact N|]. destruct (tries_stays es root i e B N) as [St|St]; [auto|]. right. split; [exact St|].
    destruct (Fix i e N) as [St'|W]; [destruct e; [destruct S|..]; reflexivity|contradiction|rewrite <- W; exact S].
Qed.
Lemma marked_one_namespace es root p : one_namespace p es -> build snake es = Done root -> forall path t, In (path, NTable t) (all_contents root) ->
  (it_root t = true <-> exists i e, nth_error es i = Some e /\ says_root (written_prefix es i) e (it_id t)).
Proof. intros [L W]. apply marked_written. intros i e N Ns. right. rewrite L. eauto. Qed.
Lemma marked_before_use es root : declared_before_use es -> build snake es = Done root -> forall path t, In (path, NTable t) (all_contents root) ->
  (it_root t = true <-> exists i e, nth_error es i = Some e /\ says_root (written_prefix es i) e (it_id t)).
Proof. intros Bu. apply marked_written. intros i e N _. left. exact (before_use_stays es Bu (S i) i e ltac:(lia) N). Qed.

(** [namespace A; root_type T; table T { } namespace B; table T { }] *)
Lemma root_refuted : exists es root path t t' i e,
  build snake es = Done root /\ nth_error es i = Some e /\ says_root (written_prefix es i) e (it_id t) /\
  In (path, NTable t) (all_contents root) /\ it_root t = false /\
  In ([lit "B"], NTable t') (all_contents root) /\ it_root t' = true /\
  (forall j e', nth_error es j = Some e' -> ~ says_root (written_prefix es j) e' (it_id t')).
Proof.
  exists [ENamespace [lit "A"] []; ERoot (lit "T"); ETable (AProduct (lit "T") [] None []); ENamespace [lit "B"] []; ETable (AProduct (lit "T") [] None [])].
  eexists. exists [lit "A"], (ITable [lit "A"; lit "T"] [] false []), (ITable [lit "B"; lit "T"] [] true []), 1. eexists.
  split; [reflexivity|]. split; [reflexivity|]. split; [reflexivity|]. split; [cbv; auto|]. split; [reflexivity|]. split; [cbv; auto|]. split; [reflexivity|].
  intros [|[|[|[|[|j]]]]] e N; try (injection N as <-); try (destruct j; discriminate N); intros Sy; try exact Sy. cbv in Sy. discriminate Sy.
Qed.
End Facts.

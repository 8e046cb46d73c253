(** Generated accessors on arbitrary bytes: they do not panic in a release build and
    return values of the field's type. *)
From Coq Require Import ZArith List Bool Lia Strings.Byte ZifyBool.
From Verif Require Import Base Scalar Utf8 Reader Client SpecWire BaseFacts ScalarFacts ReaderFacts ReaderProofs ReaderProofs3 ReaderProofs4
  Schema Codegen SpecGen GenProofs1 GenProofs3 SpecAccess.
Import ListNotations.
Local Open Scope Z_scope.

Section Release.
  Context (h : host) (Hh : debug h = false) (buf : list byte) (Hb : blen buf < 2 ^ 63).

  Lemma safe_required {A} (P : A -> Prop) req (x : option A) : (forall a, x = Some a -> P a) ->
    safe (fun o => forall a, o = Some a -> P a) (check_required req x).
  Proof. intros H. unfold check_required. destruct x; [exact H|]. destruct req; [exact I|]. discriminate. Qed.

  Lemma safe_gen_get tab f : usize_ok tab -> safe (fun o => forall v, o = Some v -> fval_ok (content v)) (gen_get h buf tab f).
  Proof.
    intros Ht.
    assert (P : forall t d, (forall v, d = Some v -> fval_ok v) ->
      safe (fun o => forall v, o = Some v -> fval_ok (content v))
        (let* v := table_get h buf tab (g_slot f) t d in
         let* v := check_required (g_req f) v in Val (option_map GPlain v))).
    { intros t d Hd. eapply safe_bind; [apply safe_table_get; auto|]. intros x _ Hx.
      eapply safe_bind; [apply safe_required; exact Hx|]. intros y _ Hy. cbn.
      destruct y; intros v E; [|discriminate]. injection E as <-. cbn. auto. }
    unfold gen_get. destruct (g_kind f) as [t d|t vs d|t|ts tb tvs td arms].
    - apply P. destruct d; intros v E; [injection E as <-; exact I|discriminate].
    - apply P. destruct d; intros v E; [injection E as <-; exact I|discriminate].
    - apply P. discriminate.
    - eapply safe_bind; [apply safe_table_get; auto; destruct td; intros v E; [injection E as <-; exact I|discriminate]|].
      intros x _ Hx. eapply safe_bind; [apply safe_required; exact Hx|]. intros y _ Hy.
      destruct y as [[]|]; try (cbn; discriminate).
      destruct (find_arm _ _) as [t|]; [|destruct (g_req f); [exact I|cbn; discriminate]].
      eapply safe_bind; [apply safe_table_get; auto; discriminate|]. intros z _ Hz.
      eapply safe_bind; [apply safe_required; exact Hz|]. intros w _ Hw. cbn.
      destruct w; intros v0 E; [|discriminate]. injection E as <-. cbn. auto.
  Qed.

  Lemma safe_gexec hs c : Forall fval_ok hs -> gcall_ok c -> safe (Forall fval_ok) (gexec h buf hs c).
  Proof.
    intros F C. destruct c as [c|i f]; cbn [gexec]; [apply safe_exec; auto|].
    unfold on_table. destruct (nth_error hs i) as [[]|] eqn:E; try constructor.
    assert (usize_ok loc) by (rewrite Forall_forall in F; exact (F _ (nth_error_In _ _ E))).
    eapply safe_bind; [apply safe_gen_get; assumption|]. intros [v|] _ Hv; cbn; auto.
  Qed.
  Lemma safe_gclient cs : forall hs, Forall fval_ok hs -> Forall gcall_ok cs -> safe (Forall fval_ok) (gclient h buf hs cs).
  Proof.
    induction cs as [|c cs IH]; intros hs Hhs Hcs; cbn [gclient]; [exact Hhs|].
    inversion Hcs; subst. pose proof (safe_gexec hs c Hhs H1) as S.
    destruct (gexec h buf hs c); [| |contradiction]; auto. apply IH; auto. apply Forall_app. auto.
  Qed.
End Release.

Lemma accessors_never_panic h buf cs : debug h = false -> blen buf < 2 ^ 63 -> Forall gcall_ok cs -> gclient h buf [] cs <> Panic.
Proof. intros Hh Hb F E. pose proof (safe_gclient h Hh buf Hb cs [] (Forall_nil _) F) as S. rewrite E in S. exact S. Qed.

(** ** Types *)
Lemma usize_val h x l : usize_arith h x = Val l -> usize_ok l.
Proof.
  unfold usize_arith, unsigned_arith, usize_ok. destruct ((0 <=? x) && (x <? 2 ^ 64)) eqn:E; [|destruct (debug h); [discriminate|]];
    intros Q; injection Q as <-; [lia|apply Z.mod_pos_bound; lia].
Qed.
Lemma bind_val {A B} (x : outcome A) (f : A -> outcome B) b : bind x f = Val b -> exists a, x = Val a /\ f a = Val b.
Proof. destruct x; cbn; try discriminate. eauto. Qed.

Lemma range_valid p n : valid_scalar (prim_ty p) n = true <-> fst (prim_range p) <= n < snd (prim_range p).
Proof. destruct p; cbn [prim_ty prim_range fst snd]; unfold valid_scalar; cbn [signed ssize]; lia. Qed.
Lemma values_number vs n : In n (enum_values vs) <-> variant_number vs n.
Proof.
  unfold enum_values, variant_number.
  assert (G : forall i, In n (enum_values_from i vs) <->
    exists k v, nth_error vs k = Some v /\ n = match iev_value v with Some x => x | None => i + Z.of_nat k end).
  { induction vs as [|v vs IH]; intros i; cbn [enum_values_from].
    - split; [intros []|]. intros ([|k] & v & E & _); discriminate.
    - cbn [In]. rewrite IH. split.
      + intros [<-|(k & w & E & ->)].
        * exists O, v. split; [reflexivity|]. destruct (iev_value v); lia.
        * exists (S k), w. split; [exact E|]. destruct (iev_value w); lia.
      + intros ([|k] & w & E & ->); cbn [nth_error] in E.
        * left. injection E as ->. destruct (iev_value w); lia.
        * right. exists k, w. split; [exact E|]. destruct (iev_value w); lia. }
  rewrite G. reflexivity.
Qed.

Lemma read_valid h t buf l n : t <> TBool -> read_scalar_at h t buf l = Val n -> valid_scalar t n = true.
Proof.
  intros T F. unfold read_scalar_at in F. apply bind_val in F as (e & _ & F). apply bind_val in F as (s & _ & F).
  pose proof (safe_read_scalar h t s) as S. rewrite F in S. destruct S as (x & Lx & ->). apply scalar_of_valid; auto.
Qed.
Lemma read_value h t buf l v : follow h (FScalar t) buf l = Val v -> exists n, v = VScalar n /\ valid_scalar t n = true.
Proof.
  intros F. assert (C : t = TBool \/ t <> TBool) by (destruct t; auto; right; discriminate). destruct C as [-> |T].
  - cbn [follow] in F. apply bind_val in F as (n & _ & F). injection F as <-. eexists. split; [reflexivity|]. destruct (n =? 0); reflexivity.
  - assert (G : (let* n := read_scalar_at h t buf l in Val (VScalar n)) = Val v) by (destruct t; auto; congruence).
    apply bind_val in G as (n & R & G). injection G as <-. exists n. split; [reflexivity|]. eapply read_valid; eauto.
Qed.

Lemma follow_value h buf t : blen buf < 2 ^ 63 -> forall e l v, usize_ok l -> follow_ty t = Some e -> follow h e buf l = Val v -> value_of h buf t v.
Proof.
  intros Hb. induction t as [p| |t IH|q [|fs|vs b|e' vs]]; intros e l v Hl E F; cbn [follow_ty] in E; try discriminate.
  - injection E as <-. destruct (read_value h (prim_ty p) buf l v F) as (n & -> & V). exists n. split; [reflexivity|]. apply range_valid, V.
  - injection E as <-. cbn [follow] in F. apply bind_val in F as (e & _ & F). apply bind_val in F as (s & _ & F).
    apply bind_val in F as (o & _ & F). apply bind_val in F as (m & L & F). apply usize_val in L.
    destruct (follow_str h buf m) as [x| |] eqn:Es; try discriminate. cbn in F. injection F as <-. exists x. split; [reflexivity|].
    eapply string_read_utf8; [exact L|exact Hb|]. cbn [follow]. rewrite Es. reflexivity.
  - destruct (follow_ty t) as [u|]; [|discriminate]. injection E as <-. cbn [follow] in F. apply bind_val in F as (e & _ & F).
    apply bind_val in F as (s & _ & F). apply bind_val in F as (o & _ & F). apply bind_val in F as (m & L & F). injection F as <-.
    exists u, m. split; [reflexivity|]. intros i w G. unfold vec_get in G.
    apply bind_val in G as (? & _ & G). apply bind_val in G as (? & _ & G). apply bind_val in G as (? & _ & G).
    apply bind_val in G as (? & _ & G). apply bind_val in G as (k & K & G). apply usize_val in K. eapply IH; eauto.
  - injection E as <-. cbn [follow] in F. apply bind_val in F as (e & _ & F).
    apply bind_val in F as (s & _ & F). apply bind_val in F as (o & _ & F). apply bind_val in F as (m & L & F). injection F as <-. exists m. reflexivity.
  - destruct (enum_compiles vs b); [|discriminate]. injection E as <-. cbn [follow] in F. apply bind_val in F as (n & _ & F).
    destruct (existsb (Z.eqb n) (enum_values vs)) eqn:X; [|discriminate]. injection F as <-. exists n. split; [reflexivity|].
    apply values_number. apply existsb_exists in X as (y & Y & Q). apply Z.eqb_eq in Q. subst. exact Y.
Qed.

Lemma table_get_value h buf tab slot t d v (P : fval -> Prop) : table_get h buf tab slot t d = Val (Some v) ->
  (forall l, usize_ok l -> follow h t buf l = Val v -> P v) -> (d = Some v -> P v) -> P v.
Proof.
  intros G F D. unfold table_get in G. apply bind_val in G as (vt & _ & G). apply bind_val in G as ([off|] & _ & G); [|injection G as ->; auto].
  destruct (off =? 0); [injection G as ->; auto|]. apply bind_val in G as (l & L & G). apply bind_val in G as (w & W & G).
  injection G as ->. eapply F; [eapply usize_val; exact L|exact W].
Qed.
Lemma required_val {A} req (x y : option A) : check_required req x = Val y -> y = x /\ (req = true -> x <> None).
Proof. unfold check_required. destruct x; [intros E; injection E as <-; split; [reflexivity|discriminate]|]. destruct req; [discriminate|]. intros E. injection E as <-. split; [reflexivity|discriminate]. Qed.
Lemma find_arm_In n arms t : find_arm n arms = Some t -> In (n, t) arms.
Proof.
  induction arms as [|[m u] arms IH]; cbn [find_arm]; [discriminate|]. destruct (n =? m) eqn:E.
  - intros Q. injection Q as ->. left. f_equal. lia.
  - right. auto.
Qed.

Lemma accessor_typed fl snake hg fs gs i f g h buf tab v : floats_ok fl -> forallb (fun f => default_ok (if_default f)) fs = true ->
  gen_table fl snake hg fs = Some gs -> nth_error fs i = Some f -> nth_error gs i = Some g -> blen buf < 2 ^ 63 ->
  gen_get h buf tab g = Val (Some v) -> returns h buf (if_ty f) v.
Proof.
  intros Fl D G Nf Ng Hb H. unfold gen_table in G. destruct (_ && _); [|discriminate].
  destruct (gen_fields_nth _ _ _ _ _ _ _ _ _ G Ng) as (f' & Nf' & E). rewrite Nf in Nf'. injection Nf' as <-. clear G.
  assert (Df : default_ok (if_default f) = true) by (rewrite forallb_forall in D; apply D; eapply nth_error_In; eauto). clear D Nf Ng.
  assert (Plain : forall t d, (let* v := table_get h buf tab (g_slot g) t d in
      let* v := check_required (g_req g) v in Val (option_map GPlain v)) = Val (Some v) ->
      exists w, v = GPlain w /\ table_get h buf tab (g_slot g) t d = Val (Some w)).
  { intros t d Q. apply bind_val in Q as (x & X & Q). apply bind_val in Q as (y & Y & Q). apply required_val in Y as [-> _].
    destruct x as [w|]; [|discriminate]. injection Q as <-. eauto. }
  remember (if_ty f) as ty eqn:T. symmetry in T. unfold gen_field in E. rewrite T in E. destruct (slot_of hg _) as [slot|]; [|discriminate].
  destruct ty as [p| |t|q [|ss|vs b|e vs]]; cbn [returns].
  - assert (K : exists d, g_kind g = GScalar (prim_ty p) d /\ forall n, d = Some n -> valid_scalar (prim_ty p) n = true).
    { destruct (if_default f) as [[c|]|]; try discriminate.
      - destruct (const_value fl (prim_ty p) c) as [n|] eqn:C; [|discriminate]. injection E as <-. exists (Some n). split; [reflexivity|].
        intros m Q. injection Q as <-. eapply const_value_valid; eauto.
      - injection E as <-. exists None. split; [reflexivity|discriminate]. }
    destruct K as (d & K & V). unfold gen_get in H. rewrite K in H. apply Plain in H as (w & -> & H).
    eapply (table_get_value _ _ _ _ _ _ _ (value_of h buf (IPrim p)) H).
    + intros l _ F. apply read_value in F as (n & -> & W). exists n. split; [reflexivity|]. apply range_valid, W.
    + destruct d as [n|]; [|discriminate]. intros Q. injection Q as <-. exists n. split; [reflexivity|]. apply range_valid; auto.
  - destruct (if_default f); [discriminate|]. cbn [follow_ty] in E. injection E as <-. cbn in H. apply Plain in H as (w & -> & H).
    eapply (table_get_value _ _ _ _ _ _ _ (value_of h buf IString) H); [|discriminate]. intros l L F. eapply follow_value; eauto. reflexivity.
  - destruct (if_default f); [discriminate|]. destruct (follow_ty (IArray t)) as [u|] eqn:U; [|discriminate]. injection E as <-. cbn in H.
    apply Plain in H as (w & -> & H). eapply (table_get_value _ _ _ _ _ _ _ (value_of h buf (IArray t)) H); [|discriminate].
    intros l L F. eapply follow_value; eauto.
  - destruct (if_default f); [discriminate|]. cbn [follow_ty] in E. injection E as <-. cbn in H. apply Plain in H as (w & -> & H).
    eapply (table_get_value _ _ _ _ _ _ _ (value_of h buf (ICustom q KTable)) H); [|discriminate]. intros l L F. eapply follow_value; eauto. reflexivity.
  - destruct (if_default f) as [[[]|]|]; discriminate.
  - destruct (enum_default vs (if_default f)) as [d|] eqn:Ed; [|discriminate]. destruct (enum_compiles vs b) eqn:C; [|discriminate].
    injection E as <-. cbn in H. apply Plain in H as (w & -> & H).
    eapply (table_get_value _ _ _ _ _ _ _ (value_of h buf (ICustom q (KEnum vs b))) H).
    + intros l L F. eapply (follow_value h buf (ICustom q (KEnum vs b))); eauto. cbn. rewrite C. reflexivity.
    + destruct d as [n|]; [|discriminate]. intros Q. injection Q as <-. exists n. split; [reflexivity|]. apply values_number.
      eapply enum_default_In, Ed.
  - destruct (find_field snake 0 fs (type_name snake (if_id f))) as [[j tf]|]; [|destruct (if_default f) as [[[]|]|]; discriminate].
    destruct (if_ty tf) as [ | | | q' [ | | evs b | ]]; try (destruct (if_default f) as [[[]|]|]; discriminate).
    destruct (union_arms evs vs) as [arms|] eqn:Ea; [|destruct (if_default f) as [[[]|]|]; discriminate].
    destruct (slot_of hg j) as [ts|]; [|destruct (if_default f) as [[[]|]|]; discriminate].
    destruct (enum_default evs (if_default tf)) as [td|]; [|destruct (if_default f) as [[[]|]|]; discriminate].
    destruct (_ && _ && _ && _); [|destruct (if_default f) as [[[]|]|]; discriminate].
    assert (K : g_kind g = GUnion ts (prim_ty b) (enum_values evs) td arms) by (destruct (if_default f) as [[[]|]|]; inversion E; reflexivity).
    unfold gen_get in H. rewrite K in H. apply bind_val in H as (x & _ & H). apply bind_val in H as (y & _ & H).
    destruct y as [[]|]; try discriminate. destruct (find_arm _ arms) as [t|] eqn:Fa; [|destruct (g_req g); discriminate].
    apply bind_val in H as (z & Z1 & H). apply bind_val in H as (w & W & H). apply required_val in W as [-> _].
    destruct z as [w|]; [|discriminate]. injection H as <-. cbn [returns].
    apply find_arm_In in Fa. apply union_arms_Forall2 in Ea.
    assert (X : exists u, In u vs /\ follow_ty (iuv_ty u) = Some t).
    { clear - Ea Fa. induction Ea as [|u a vs arms [_ A] _ IH]; [destruct Fa|]. destruct Fa as [-> |Fa].
      - exists u. split; [left; reflexivity|exact A].
      - destruct (IH Fa) as (u' & I & A'). exists u'. split; [right; exact I|exact A']. }
    destruct X as (u & Iu & Ft). exists u. split; [exact Iu|].
    eapply (table_get_value _ _ _ _ _ _ _ (value_of h buf (iuv_ty u)) Z1); [|discriminate]. intros l L F. eapply follow_value; eauto.
Qed.

(** ** Missing required fields *)
Lemma bind_err {A B} (x : outcome A) (f : A -> outcome B) e : bind x f = Err e -> x = Err e \/ exists a, x = Val a /\ f a = Err e.
Proof. destruct x; cbn; try discriminate; [eauto|]. intros E. injection E as ->. auto. Qed.
Definition quiet_about {A} (x : outcome A) : Prop := x <> Err RequiredFieldMissing.
Lemma quiet_bind {A B} (x : outcome A) (f : A -> outcome B) : quiet_about x -> (forall a, quiet_about (f a)) -> quiet_about (bind x f).
Proof. intros X F E. apply bind_err in E as [E|(a & _ & E)]; [apply X, E|apply (F a), E]. Qed.
Lemma quiet_val {A} (a : A) : quiet_about (Val a). Proof. discriminate. Qed.
Lemma quiet_usize h x : quiet_about (usize_arith h x).
Proof. unfold usize_arith, unsigned_arith. destruct (_ && _); [discriminate|]. destruct (debug h); discriminate. Qed.
Lemma quiet_i32 h x : quiet_about (i32_arith h x).
Proof. unfold i32_arith. destruct (_ && _); [discriminate|]. destruct (debug h); discriminate. Qed.
Lemma quiet_oob {A} (o : option A) : quiet_about (ok_or o OutOfBounds).
Proof. destruct o; discriminate. Qed.
Lemma quiet_expect {A} (o : option A) : quiet_about (expect_some o).
Proof. destruct o; discriminate. Qed.
Lemma quiet_assert h b : quiet_about (debug_assert h b).
Proof. unfold debug_assert. destruct (_ && _); discriminate. Qed.
Ltac hush := repeat first
  [ apply quiet_usize | apply quiet_i32 | apply quiet_oob | apply quiet_expect | apply quiet_assert | apply quiet_val
  | match goal with |- quiet_about (let* _ := _ in _) => apply quiet_bind; [|intros] end
  | match goal with |- quiet_about (if ?b then _ else _) => destruct b end
  | discriminate ].
Lemma quiet_read h t s : quiet_about (read_scalar h t s).
Proof. unfold read_scalar. hush. Qed.
Lemma quiet_read_at h t s l : quiet_about (read_scalar_at h t s l).
Proof. unfold read_scalar_at. hush. apply quiet_read. Qed.
Lemma quiet_str h buf l : quiet_about (follow_str h buf l).
Proof. unfold follow_str, index, index_range. hush. apply quiet_read_at. Qed.
Lemma quiet_slice h t buf l : quiet_about (follow_slice_helper h t buf l).
Proof. unfold follow_slice_helper. cbv zeta. hush. apply quiet_read_at. Qed.
Lemma quiet_follow h t buf : forall l, quiet_about (follow h t buf l).
Proof.
  induction t; intros l; cbn [follow]; hush; auto using quiet_read, quiet_str, quiet_slice, quiet_read_at.
  destruct t; hush; apply quiet_read_at.
Qed.
Lemma quiet_table_get h buf tab slot t d : quiet_about (table_get h buf tab slot t d).
Proof.
  unfold table_get. apply quiet_bind.
  - unfold table_vtable. apply quiet_bind; [apply quiet_follow|]. intros []; discriminate.
  - intros vt. apply quiet_bind.
    + unfold vt_get, vt_num_bytes. hush; apply quiet_read_at.
    + intros [off|]; hush. apply quiet_follow.
Qed.

Lemma accessor_missing h buf tab g : (gen_get h buf tab g = Val None -> g_req g = false) /\
  (gen_get h buf tab g = Err RequiredFieldMissing -> g_req g = true).
Proof.
  assert (C : forall A (x : option A), check_required (g_req g) x = Err RequiredFieldMissing -> g_req g = true).
  { intros A x. unfold check_required. destruct x, (g_req g); intros; auto; discriminate. }
  assert (N : forall A (x : option A), check_required (g_req g) x = Val None -> g_req g = false).
  { intros A x. unfold check_required. destruct x, (g_req g); intros; auto; discriminate. }
  assert (P : forall t d, ((let* v := table_get h buf tab (g_slot g) t d in
      let* v := check_required (g_req g) v in Val (option_map GPlain v)) = Val None -> g_req g = false) /\
      ((let* v := table_get h buf tab (g_slot g) t d in
      let* v := check_required (g_req g) v in Val (option_map GPlain v)) = Err RequiredFieldMissing -> g_req g = true)).
  { intros t d. split; intros E.
    - apply bind_val in E as (x & _ & E). apply bind_val in E as (y & Y & E). destruct y; [discriminate|]. eapply N, Y.
    - apply bind_err in E as [E|(x & _ & E)]; [exfalso; exact (quiet_table_get _ _ _ _ _ _ E)|].
      apply bind_err in E as [E|(y & _ & E)]; [eapply C, E|discriminate]. }
  unfold gen_get. destruct (g_kind g) as [t d|t vs d|t|ts tb tvs td arms]; try apply P. split; intros E.
  - apply bind_val in E as (x & X & E). apply bind_val in E as (y & Y & E). destruct y as [y|]; [|eapply N, Y].
    destruct (g_req g) eqn:R; [exfalso|reflexivity].
    assert (U : exists n, y = VEnum n).
    { apply required_val in Y as [<- _]. eapply (table_get_value _ _ _ _ _ _ _ (fun y => exists n, y = VEnum n) X).
      - intros l _ F. cbn [follow] in F. apply bind_val in F as (n & _ & F). destruct (existsb _ _); [|discriminate]. injection F as <-. eauto.
      - destruct td as [n|]; [|discriminate]. cbn. intros Q. injection Q as <-. eauto. }
    destruct U as (n & ->). destruct (find_arm n arms); [|discriminate]. apply bind_val in E as (z & _ & E).
    apply bind_val in E as (w & W & E). destruct w; [discriminate|]. specialize (N _ z W). congruence.
  - apply bind_err in E as [E|(x & _ & E)]; [exfalso; exact (quiet_table_get _ _ _ _ _ _ E)|].
    apply bind_err in E as [E|(y & _ & E)]; [eapply C, E|]. destruct y as [[]|]; try discriminate.
    destruct (find_arm _ _); [|destruct (g_req g); [reflexivity|discriminate]].
    apply bind_err in E as [E|(z & _ & E)]; [exfalso; exact (quiet_table_get _ _ _ _ _ _ E)|].
    apply bind_err in E as [E|(w & _ & E)]; [eapply C, E|discriminate].
Qed.

Lemma accessor_required fl snake hg fs gs i f g h buf tab :
  gen_table fl snake hg fs = Some gs -> nth_error fs i = Some f -> nth_error gs i = Some g ->
  (gen_get h buf tab g = Val None -> if_required f = false) /\
  (gen_get h buf tab g = Err RequiredFieldMissing -> if_required f = true).
Proof.
  intros G Nf Ng. unfold gen_table in G. destruct (_ && _); [|discriminate].
  destruct (gen_fields_nth _ _ _ _ _ _ _ _ _ G Ng) as (f' & Nf' & E). rewrite Nf in Nf'. injection Nf' as <-.
  assert (R : g_req g = if_required f); [|rewrite <- R; apply accessor_missing]. clear - E.
  unfold gen_field in E. destruct (slot_of hg _); [|discriminate].
  repeat match type of E with
  | None = Some _ => discriminate E
  | Some _ = Some _ => injection E as <-; reflexivity
  | match ?x with _ => _ end = _ => destruct x
  end.
Qed.

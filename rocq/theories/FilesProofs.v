(** Runs of the schema compiler on files. *)
From Coq Require Import Strings.String ZArith List Bool Lia Strings.Byte.
From Verif Require Import Base BaseFacts Schema Utf8 Parser Ident IdentProofs GenProofs8 Resolve SpecResolve SpecParser SpecGrammar Compile ExactProofs CompileProofs Emit Heck Files.
Import ListNotations.
Local Open Scope list_scope.

(** ** Paths *)
(** What may follow the last name of a path: slashes, and dots after them. *)
Inductive trailing : text -> Prop :=
| trailing_nil : trailing []
| trailing_slash t : trailing t -> trailing (lit "/" ++ t)
| trailing_here t : trailing t -> trailing (lit "/." ++ t).
(** The last name of the path [p] is [x]. *)
Definition ends_in (p x : text) : Prop :=
  exists d tail, p = d ++ x ++ tail /\ (d = [] \/ exists d', d = d' ++ lit "/") /\ ~ In "/"%byte x /\ x <> [] /\ x <> lit "." /\ trailing tail.
Lemma split_none x : ~ In "/"%byte x -> split_slash x = [x].
Proof.
  induction x as [|c x IH]; intros N; [reflexivity|]. cbn [split_slash]. destruct (Byte.eqb c "/") eqn:E.
  - apply Byte.byte_dec_bl in E. subst. exfalso. apply N. left. reflexivity.
  - rewrite IH by (intros I; apply N; right; exact I). reflexivity.
Qed.
Lemma split_app d x : ~ In "/"%byte x -> exists l, split_slash (d ++ "/"%byte :: x) = l ++ [x].
Proof.
  intros N. induction d as [|c d (l & IH)]; cbn [app split_slash].
  - exists [[]]. rewrite (split_none x N). reflexivity.
  - destruct (Byte.eqb c "/").
    + exists ([] :: l). rewrite IH. reflexivity.
    + rewrite IH. destruct l as [|y l]; cbn [app]; [exists [[c]]|exists ((c :: y) :: l); reflexivity].
      exfalso. clear - IH N. assert (L : forall y, length (split_slash (y ++ "/"%byte :: x)) >= 2).
      { intros y. induction y as [|b y IHy]; cbn [app split_slash].
        - rewrite (split_none x N). cbn. lia.
        - destruct (Byte.eqb b "/"); cbn [length]; [lia|]. revert IHy. destruct (split_slash (y ++ _)); cbn [length]; lia. }
      specialize (L d). rewrite IH in L. cbn in L. lia.
Qed.
Lemma file_name_last l x : x <> [] -> x <> lit "." -> x <> lit ".." ->
  match rev (filter (fun x => negb (ident_eqb x [] || ident_eqb x (lit "."))) (l ++ [x])) with [] => None | x :: _ => if ident_eqb x (lit "..") then None else Some x end = Some x.
Proof.
  intros A B C. rewrite filter_app, rev_app_distr. cbn [filter].
  assert (E : forall y, x <> y -> ident_eqb x y = false) by (intros y Y; destruct (ident_eqb x y) eqn:E; [apply ident_eqb_eq in E; contradiction|reflexivity]).
  rewrite (E [] A), (E _ B). cbn [orb negb rev app]. rewrite (E _ C). reflexivity.
Qed.
Lemma before_dot_last s e : ~ In "."%byte e -> before_dot (s ++ "."%byte :: e) = Some s.
Proof.
  intros N. assert (Z : before_dot e = None).
  { induction e as [|c e IH]; [reflexivity|]. cbn [before_dot]. rewrite IH by (intros I; apply N; right; exact I).
    destruct (Byte.eqb c ".") eqn:E; [|reflexivity]. apply Byte.byte_dec_bl in E. subst. exfalso. apply N. left. reflexivity. }
  induction s as [|c s IH]; cbn [app before_dot]; [rewrite Z; reflexivity|rewrite IH; reflexivity].
Qed.
(** A file [s.e], in any directory, is compiled into [s.rs]. *)
Definition in_dir (d : option text) (x : text) : text := match d with Some d => d ++ lit "/" ++ x | None => x end.
Lemma output_of d s e : ~ In "/"%byte s -> ~ In "/"%byte e -> ~ In "."%byte e -> s <> [] -> s ++ lit "." ++ e <> lit ".." ->
  output_name (in_dir d (s ++ lit "." ++ e)) = Some (s ++ lit ".rs").
Proof.
  intros Ns Ne De S X. change (lit ".") with ["."%byte] in *. cbn [app] in *.
  assert (N : ~ In "/"%byte (s ++ "."%byte :: e)) by (rewrite in_app_iff; intros [I|[I|I]]; auto; discriminate I).
  assert (F : file_name (in_dir d (s ++ "."%byte :: e)) = Some (s ++ "."%byte :: e)).
  { unfold file_name. assert (A : s ++ "."%byte :: e <> []) by (destruct s; discriminate).
    assert (B : s ++ "."%byte :: e <> lit ".") by (destruct s as [|c [|b s]]; [congruence|discriminate|discriminate]).
    destruct d as [d|]; cbn [in_dir].
    - change (lit "/") with ["/"%byte]. cbn [app]. destruct (split_app d _ N) as (l & ->). apply (file_name_last l); assumption.
    - rewrite (split_none _ N). apply (file_name_last []); assumption. }
  unfold output_name. rewrite F. unfold stem. rewrite (before_dot_last _ _ De). destruct s; [congruence|reflexivity].
Qed.

(** The parts of a path, and its last. *)
Lemma split_cons p : exists x l, split_slash p = x :: l.
Proof.
  induction p as [|c p (x & l & E)]; cbn [split_slash]; [eauto|]. destruct (Byte.eqb c "/"); [eauto|]. rewrite E. eauto.
Qed.
Lemma split_both a b : split_slash (a ++ "/"%byte :: b) = split_slash a ++ split_slash b.
Proof.
  induction a as [|c a IH]; [reflexivity|]. cbn [app split_slash]. rewrite IH. destruct (Byte.eqb c "/"); [reflexivity|].
  destruct (split_cons a) as (x & l & ->). reflexivity.
Qed.
Definition dropped (x : text) : Prop := x = [] \/ x = lit ".".
Lemma kept_iff x : negb (ident_eqb x [] || ident_eqb x (lit ".")) = true <-> ~ dropped x.
Proof.
  unfold dropped. rewrite negb_true_iff, orb_false_iff. split.
  - intros [A B] [->| ->]; [discriminate A|discriminate B].
  - intros N. split; [destruct (ident_eqb x []) eqn:E|destruct (ident_eqb x (lit ".")) eqn:E]; auto; apply ident_eqb_eq in E; tauto.
Qed.
Lemma split_tail x tail : ~ In "/"%byte x -> trailing tail -> exists l, split_slash (x ++ tail) = x :: l /\ Forall dropped l.
Proof.
  intros N T. revert x N. induction T as [|t T IH|t T IH]; intros x N.
  - rewrite app_nil_r, (split_none x N). eauto.
  - change (lit "/" ++ t) with ("/"%byte :: t). rewrite split_both, (split_none x N).
    destruct (IH [] (fun H => H)) as (l & E & F). cbn [app] in E. rewrite E. exists ([] :: l). split; [reflexivity|]. constructor; auto. now left.
  - change (lit "/." ++ t) with ("/"%byte :: lit "." ++ t). rewrite split_both, (split_none x N).
    destruct (IH (lit ".")) as (l & E & F); [intros [H|[]]; discriminate|]. rewrite E.
    exists (lit "." :: l). split; [reflexivity|]. constructor; auto. now right.
Qed.
Lemma filter_dropped l : Forall dropped l -> @filter text (fun x : ident => negb (ident_eqb x [] || ident_eqb x (lit "."))) l = [].
Proof.
  induction 1 as [|x l D F IH]; [reflexivity|]. cbn [filter]. destruct (negb _) eqn:E; auto. apply kept_iff in E. contradiction.
Qed.
Lemma split_glue : forall l p, split_slash p = l -> Forall (fun x => ~ In "/"%byte x) l /\
  p = match l with [] => [] | x :: l => x ++ flat_map (fun y => lit "/" ++ y) l end.
Proof.
  intros l p <-. induction p as [|c p [IH1 IH2]]; cbn [split_slash].
  - split; [constructor; auto|reflexivity].
  - destruct (split_cons p) as (x & l & E). rewrite E in *. pose proof (Forall_inv IH1) as Nx. pose proof (Forall_inv_tail IH1) as Nl. cbn beta in Nx. destruct (Byte.eqb c "/") eqn:C.
    + apply Byte.byte_dec_bl in C. subst c. split; [constructor; auto|]. cbn [app flat_map]. rewrite IH2 at 1. reflexivity.
    + split; [|cbn [app]; now rewrite IH2 at 1]. constructor; auto. intros [K|K]; [|contradiction]. subst c. discriminate C.
Qed.
Lemma trailing_flat l : Forall dropped l -> trailing (flat_map (fun y => lit "/" ++ y) l).
Proof.
  induction 1 as [|x l [->| ->] F IH]; cbn [flat_map]; [constructor|..].
  - cbn. now apply (trailing_slash _ IH).
  - now apply (trailing_here _ IH).
Qed.
Lemma kept_last l x l' : rev (filter (fun x => negb (ident_eqb x [] || ident_eqb x (lit "."))) l) = x :: l' ->
  exists l1 l2, l = l1 ++ x :: l2 /\ ~ dropped x /\ Forall dropped l2.
Proof.
  revert x l'. induction l as [|y l IH] using rev_ind; intros x l'; [discriminate|]. rewrite filter_app, rev_app_distr. cbn [filter].
  destruct (negb (ident_eqb y [] || _)) eqn:K; cbn [rev app].
  - intros E. injection E as <- _. apply kept_iff in K. exists l, []. auto.
  - intros E. destruct (IH _ _ E) as (l1 & l2 & -> & D & F). exists l1, (l2 ++ [y]). rewrite <- app_assoc. repeat split; auto.
    apply Forall_app. split; auto. constructor; auto. destruct (ident_eqb y []) eqn:A; [left; now apply ident_eqb_eq|].
    destruct (ident_eqb y (lit ".")) eqn:B; [right; now apply ident_eqb_eq|discriminate].
Qed.
Lemma file_name_exact p x : file_name p = Some x <-> ends_in p x /\ x <> lit "..".
Proof.
  unfold file_name. split.
  - destruct (rev _) as [|y l'] eqn:E; [discriminate|]. destruct (ident_eqb y (lit "..")) eqn:Y; [discriminate|]. intros H. injection H as ->.
    split; [|intros ->; discriminate Y]. apply kept_last in E as (l1 & l2 & E & D & F).
    destruct (split_glue _ _ E) as [N G]. apply Forall_app in N as [_ N]. pose proof (Forall_inv N) as Nx. cbn beta in Nx.
    assert (T := trailing_flat _ F). assert (x <> [] /\ x <> lit ".") as [X1 X2] by (unfold dropped in D; tauto).
    destruct l1 as [|y l1]; cbn [app] in *.
    + exists [], (flat_map (fun y => lit "/" ++ y) l2). split; [exact G|]. split; [now left|]. split; [exact Nx|]. split; [exact X1|]. split; [exact X2|exact T].
    + rewrite flat_map_app in G. cbn [flat_map] in G.
      exists ((y ++ flat_map (fun y => lit "/" ++ y) l1) ++ lit "/"), (flat_map (fun y => lit "/" ++ y) l2).
      split; [rewrite G, <- !app_assoc; reflexivity|]. split; [right; eexists; reflexivity|]. split; [exact Nx|]. split; [exact X1|]. split; [exact X2|exact T].
  - intros [(d & tail & -> & Dd & N & X1 & X2 & T) X3]. destruct (split_tail x tail N T) as (l & E & F).
    assert (K : exists l0, split_slash (d ++ x ++ tail) = l0 ++ x :: l).
    { destruct Dd as [->|(d' & ->)]; [exists []; exact E|]. rewrite <- app_assoc. change (lit "/" ++ x ++ tail) with ("/"%byte :: x ++ tail).
      rewrite split_both, E. eauto. }
    destruct K as (l0 & ->). rewrite filter_app, rev_app_distr. cbn [filter].
    assert (Kx : negb (ident_eqb x [] || ident_eqb x (lit ".")) = true) by (apply kept_iff; unfold dropped; tauto).
    rewrite Kx, (filter_dropped _ F). cbn [rev app]. destruct (ident_eqb x (lit "..")) eqn:Y; [apply ident_eqb_eq in Y; contradiction|reflexivity].
Qed.
Lemma before_dot_none x : before_dot x = None -> ~ In "."%byte x.
Proof.
  induction x as [|c x IH]; cbn [before_dot]; [auto|]. destruct (before_dot x); [discriminate|]. destruct (Byte.eqb c ".") eqn:E; [discriminate|].
  intros _ [->|K]; [discriminate E|now apply IH].
Qed.
Lemma before_dot_some x s : before_dot x = Some s -> exists e, x = s ++ "."%byte :: e /\ ~ In "."%byte e.
Proof.
  revert s. induction x as [|c x IH]; intros s; cbn [before_dot]; [discriminate|]. destruct (before_dot x) as [z|] eqn:B.
  - intros H. injection H as <-. destruct (IH z eq_refl) as (e & -> & N). exists e. auto.
  - destruct (Byte.eqb c ".") eqn:E; [|discriminate]. intros H. injection H as <-. apply Byte.byte_dec_bl in E. subst c.
    exists x. split; [reflexivity|]. now apply before_dot_none.
Qed.
Lemma output_exact p n : output_name p = Some n <->
  exists x, ends_in p x /\ x <> lit ".." /\
    ((exists s e, x = s ++ lit "." ++ e /\ s <> [] /\ ~ In "."%byte e /\ n = s ++ lit ".rs")
     \/ (exists c e, x = c :: e /\ ~ In "."%byte e /\ n = x ++ lit ".rs")).
Proof.
  unfold output_name. split.
  - destruct (file_name p) as [x|] eqn:F; [|discriminate]. intros H. injection H as <-. apply file_name_exact in F as [F X]. exists x. repeat split; auto.
    unfold stem. destruct (before_dot x) as [[|c s]|] eqn:B.
    + apply before_dot_some in B as (e & E & N). right. exists "."%byte, e. auto.
    + apply before_dot_some in B as (e & E & N). left. exists (c :: s), e. repeat split; auto. discriminate.
    + apply before_dot_none in B. right. destruct x as [|c x]; [destruct F as (? & ? & _ & _ & _ & K & _); congruence|].
      exists c, x. repeat split; auto. intros K. apply B. now right.
  - intros (x & E & X & C). rewrite (proj2 (file_name_exact p x) (conj E X)). f_equal.
    destruct C as [(s & e & -> & S & N & ->)|(c & e & -> & N & ->)].
    + unfold stem. change (lit "." ++ e) with ("."%byte :: e). rewrite (before_dot_last _ _ N). destruct s; [congruence|reflexivity].
    + unfold stem. cbn [before_dot]. assert (Z : before_dot e = None).
      { destruct (before_dot e) eqn:B; auto. apply before_dot_some in B as (e' & -> & _). exfalso. apply N. apply in_app_iff. right. now left. }
      rewrite Z. destruct (Byte.eqb c "."); reflexivity.
Qed.

Section Run.
Context (ua un uw : text -> bool) (f6 fh : text -> option Z) (has_stem : text -> bool).
Context (snake shouty : text -> text) (ident_ok : ident -> bool) (path_ok : qident -> bool).
Context (literal_ok : scalar_const -> bool -> option qident -> ity -> bool) (hg : host).
Context (code : list node -> text) (rustfmt : text -> option (list byte)) (interrupted : list byte -> option (list byte)).
Context (locate : text -> Z) (creatable : Z -> bool) (out_dir : option text).
Notation generic := (compile_fbs_generic ua un uw f6 fh has_stem snake shouty ident_ok path_ok literal_ok hg code rustfmt interrupted).
Notation run := (compile_fbs ua un uw f6 fh has_stem snake shouty ident_ok path_ok literal_ok hg code rustfmt interrupted locate creatable out_dir).
Notation main := (main ua un uw f6 fh has_stem snake shouty ident_ok path_ok literal_ok hg code rustfmt interrupted locate creatable).
Notation emit := (emit snake shouty ident_ok path_ok literal_ok hg).

Lemma store_same fs f x : store fs f x f = Some x.
Proof. unfold store. rewrite Z.eqb_refl. reflexivity. Qed.
Lemma store_other fs f x g : g <> f -> store fs f x g = fs g.
Proof. intros N. unfold store. destruct (Z.eqb_spec g f); [contradiction|reflexivity]. Qed.

Lemma run_others fs p fs' e : run fs p = (fs', e) -> forall f, fs' f <> fs f ->
  exists dir name, out_dir = Some dir /\ output_name p = Some name /\ f = locate (join dir name).
Proof.
  unfold compile_fbs. destruct out_dir as [dir|] eqn:D; [|intros H f N; injection H as <- _; congruence].
  destruct (output_name p) as [name|] eqn:O; [|intros H f N; injection H as <- _; congruence].
  unfold open_both. destruct (fs (locate p)) as [t|]; [|intros H f N; injection H as <- _; congruence].
  destruct (creatable _); [|intros H f N; injection H as <- _; congruence].
  destruct (store fs (locate (join dir name)) [] (locate p)) as [i|]; [|intros H f N; injection H as <- _; congruence].
  destruct (generic false i) as [en w]. intros H f N. injection H as <- _. exists dir, name. split; [reflexivity|]. split; [reflexivity|].
  destruct (Z.eq_dec f (locate (join dir name))) as [E|E]; [exact E|]. rewrite !store_other in N by exact E. congruence.
Qed.

Lemma run_opened fs p dir name t : out_dir = Some dir -> output_name p = Some name -> fs (locate p) = Some t -> creatable (locate (join dir name)) = true ->
  exists fs0, run fs p = (store fs0 (locate (join dir name)) (snd (generic false (if Z.eqb (locate p) (locate (join dir name)) then [] else t))),
    fst (generic false (if Z.eqb (locate p) (locate (join dir name)) then [] else t))) /\ forall f, f <> locate (join dir name) -> fs0 f = fs f.
Proof.
  intros D O T C. unfold compile_fbs. rewrite D, O. unfold open_both. rewrite T, C. exists (store fs (locate (join dir name)) []).
  unfold store at 1. destruct (Z.eqb (locate p) (locate (join dir name))) eqn:E; [|rewrite T]; destruct (generic false _) as [en w]; (split; [reflexivity|]); intros f N; apply store_other; exact N.
Qed.
Lemma generic_failure ugly t e w : generic ugly t = (e, w) -> e <> Succeeds -> w = [] \/ exists out, interrupted out = Some w.
Proof.
  unfold compile_fbs_generic. destruct (negb _); [intros H _; injection H as _ <-; auto|]. destruct (compile _ _ _ _ _ _ _ t); try (intros H _; injection H as _ <-; auto; fail).
  destruct (emit root); [|intros H _; injection H as _ <-; auto]. destruct (if ugly then _ else _) as [out|]; [|intros H _; injection H as _ <-; auto].
  destruct (interrupted out) as [part|] eqn:I; intros H N; injection H as <- <-; [right; eauto|congruence].
Qed.
Lemma run_failure fs p fs' e : run fs p = (fs', e) -> e <> Succeeds ->
  (forall f, fs' f = fs f) /\ (out_dir = None \/ output_name p = None \/ fs (locate p) = None \/ exists dir name, out_dir = Some dir /\ output_name p = Some name /\ creatable (locate (join dir name)) = false) \/
  exists dir name w, out_dir = Some dir /\ output_name p = Some name /\ fs' (locate (join dir name)) = Some w /\ (w = [] \/ exists out, interrupted out = Some w).
Proof.
  intros H N. destruct out_dir as [dir|] eqn:D; [|unfold compile_fbs in H; left; injection H as <- _; auto].
  destruct (output_name p) as [name|] eqn:O; [|unfold compile_fbs in H; rewrite O in H; left; injection H as <- _; auto].
  destruct (fs (locate p)) as [t|] eqn:T; [|unfold compile_fbs, open_both in H; rewrite O, T in H; left; injection H as <- _; auto].
  destruct (creatable (locate (join dir name))) eqn:C.
  2:{ unfold compile_fbs, open_both in H. rewrite O, T, C in H. left. injection H as <- _. split; [reflexivity|]. right. right. right. exists dir, name. auto. }
  right. pose proof (run_opened fs p dir name t) as Op. rewrite D in Op. destruct (Op eq_refl O T C) as (fs0 & R & _). clear Op. rewrite R in H. injection H as <- E.
  destruct (generic false _) as [en w] eqn:G. cbn [fst snd] in *. subst en. exists dir, name, w. rewrite store_same. split; [reflexivity|]. split; [reflexivity|]. split; [reflexivity|].
  eapply generic_failure; eauto.
Qed.

Context (alphabetic_wide : forall c, ua c = true -> wide c) (alphanumeric_wide : forall c, un c = true -> wide c).
Context (hexf_range : forall t v, fh t = Some v -> (0 <= v < 2 ^ 64)%Z).
Lemma generic_success ugly t w : generic ugly t = (Succeeds, w) ->
  utf8_valid t = true /\ exists S root items, schema_text ua un f6 fh has_stem t S /\ build snake (sc_elements S) = Done root /\
    emit root = Some items /\ (if ugly then Some (code root) else rustfmt (code root)) = Some w.
Proof.
  unfold compile_fbs_generic. destruct (utf8_valid t) eqn:U; cbn [negb]; [|discriminate]. destruct (compile ua un uw f6 fh has_stem snake t) as [root| |] eqn:C; try discriminate.
  destruct (emit root) as [items|] eqn:E; [|discriminate]. destruct (if ugly then _ else _) as [out|] eqn:F; [|discriminate]. destruct (interrupted out); [discriminate|].
  intros H. injection H as <-. split; [reflexivity|]. destruct (compile_generated ua un uw f6 fh has_stem snake alphabetic_wide alphanumeric_wide hexf_range t root C) as (S & T & B & _).
  exists S, root, items. auto.
Qed.
(** The code that is written for the text [t]. *)
Definition makes (ugly : bool) (t : list byte) (out : list byte) : Prop :=
  utf8_valid t = true /\ exists S root items, clear_text ua un uw f6 fh has_stem t S /\ plain_types S /\ build snake (sc_elements S) = Done root /\
    emit root = Some items /\ (if ugly then Some (code root) else rustfmt (code root)) = Some out.
Lemma generic_exact ugly t e w : generic ugly t = (e, w) -> (e = Succeeds <-> makes ugly t w /\ interrupted w = None) /\ forall out, makes ugly t out -> interrupted out = None -> w = out.
Proof.
  assert (K : forall out, makes ugly t out <-> utf8_valid t = true /\ exists root items, compile ua un uw f6 fh has_stem snake t = Generated root /\ emit root = Some items /\ (if ugly then Some (code root) else rustfmt (code root)) = Some out).
  { intros out. unfold makes, compile. split; intros [U H]; (split; [exact U|]).
    - destruct H as (S & root & items & C & P & B & Em & O). exists root, items. rewrite (proj2 (schema_exact ua un uw f6 fh has_stem hexf_range alphabetic_wide alphanumeric_wide t S) (conj C P)), B. auto.
    - destruct H as (root & items & C & Em & O). destruct (schema_decl ua un uw f6 fh has_stem t) as [[S [|c r]]|] eqn:Sd; [|destruct (char_boundary 30 _); discriminate C|discriminate C].
      apply (schema_exact ua un uw f6 fh has_stem hexf_range alphabetic_wide alphanumeric_wide) in Sd as [Cl P]. destruct (build snake (sc_elements S)) as [root'| |] eqn:B; try discriminate C. injection C as ->.
      exists S, root, items. auto 6. }
  intros G. rewrite K. assert (L : forall out, makes ugly t out -> interrupted out = None -> e = Succeeds /\ w = out).
  { intros out M I. apply K in M as (U & root & items & C & Em & O). unfold compile_fbs_generic in G. rewrite U, C, Em, O, I in G. cbn [negb] in G. injection G as <- <-. auto. }
  split; [|intros out M I; apply (L out M I)]. rewrite <- K. split.
  - intros ->. unfold compile_fbs_generic in G. destruct (utf8_valid t) eqn:U; cbn [negb] in G; [|discriminate G]. destruct (compile ua un uw f6 fh has_stem snake t) as [root| |] eqn:C; try discriminate G.
    destruct (emit root) as [items|] eqn:Em; [|discriminate G]. destruct (if ugly then _ else _) as [out|] eqn:O; [|discriminate G]. destruct (interrupted out) eqn:I; [discriminate G|].
    injection G as <-. split; [|exact I]. apply K. split; [first [exact U|reflexivity]|]. exists root, items. auto.
  - intros [M I]. apply (L w M I).
Qed.
(** What is read: the input was emptied if it is the output too. *)
Definition contents (fs : files) (input : Z) (output : option Z) : option (list byte) :=
  match fs input, output with
  | Some t, Some o => if Z.eqb input o then Some [] else Some t
  | x, _ => x
  end.
Definition written (fs fs' : files) (output : Z) (out : list byte) : Prop := fs' output = Some out /\ forall f, f <> output -> fs' f = fs f.
Lemma open_exact fs i o : open_both creatable fs i o = match contents fs i (Some o) with Some t => if creatable o then Some (store fs o [], t) else None | None => None end.
Proof.
  unfold open_both, contents. destruct (fs i) as [t|] eqn:T; [|reflexivity]. unfold store. rewrite T. destruct (creatable o); destruct (Z.eqb i o); reflexivity.
Qed.
Lemma run_exact fs p fs' e : run fs p = (fs', e) -> (e = Succeeds <-> exists dir name t out, out_dir = Some dir /\ output_name p = Some name /\
    contents fs (locate p) (Some (locate (join dir name))) = Some t /\ creatable (locate (join dir name)) = true /\
    makes false t out /\ interrupted out = None /\ written fs fs' (locate (join dir name)) out).
Proof.
  unfold compile_fbs. destruct out_dir as [dir|]; [|intros H; injection H as _ <-; split; [discriminate|intros (? & ? & ? & ? & H & _); discriminate H]].
  destruct (output_name p) as [name|]; [|intros H; injection H as _ <-; split; [discriminate|intros (? & ? & ? & ? & _ & H & _); discriminate H]].
  rewrite open_exact. destruct (contents fs (locate p) (Some (locate (join dir name)))) as [t|] eqn:T;
    [|intros H; injection H as _ <-; split; [discriminate|intros (? & ? & ? & ? & H1 & H2 & H & _); injection H1 as <-; injection H2 as <-; congruence]].
  destruct (creatable (locate (join dir name))) eqn:C; [|intros H; injection H as _ <-; split; [discriminate|intros (? & ? & ? & ? & H1 & H2 & _ & H & _); injection H1 as <-; injection H2 as <-; congruence]].
  destruct (generic false t) as [en w] eqn:G. intros H. injection H as <- <-. destruct (generic_exact _ _ _ _ G) as [Gs Gw]. split.
  - intros Es. apply Gs in Es as [M I]. exists dir, name, t, w. do 6 (split; [auto|]). split; [apply store_same|]. intros f N. rewrite !store_other by exact N. reflexivity.
  - intros (d & n & t' & out & H1 & H2 & H3 & _ & M & I & W). injection H1 as <-. injection H2 as <-. assert (t' = t) by congruence. subst t'. apply Gs. rewrite (Gw out M I). auto.
Qed.
Lemma main_exact fs stdin i o ugly fs' w e : main fs stdin i o ugly = (fs', w, e) -> (e = Succeeds <-> exists t out,
    (match i with None => Some stdin | Some p => contents fs (locate p) (option_map locate o) end) = Some t /\ makes ugly t out /\ interrupted out = None /\
    match o with None => w = out /\ fs' = fs | Some q => w = [] /\ creatable (locate q) = true /\ written fs fs' (locate q) out end) /\
  (e <> Succeeds -> match o with
    | None => fs' = fs /\ (w = [] \/ exists out, interrupted out = Some w)
    | Some q => w = [] /\ (fs' = fs \/ exists v, written fs fs' (locate q) v /\ (v = [] \/ exists out, interrupted out = Some v))
    end).
Proof.
  assert (Wr : forall f0 q v, (forall f, f <> q -> f0 f = fs f) -> written fs (store f0 q v) q v).
  { intros f0 q v H. split; [apply store_same|]. intros f N. rewrite store_other by exact N. auto. }
  unfold Files.main. destruct i as [i|], o as [o|]; cbn [option_map].
  - rewrite open_exact. destruct (contents fs (locate i) (Some (locate o))) as [t|] eqn:T; [|intros H; injection H as <- <- <-; split; [split; [discriminate|intros (? & ? & H & _); congruence]|auto]].
    destruct (creatable (locate o)) eqn:C; [|intros H; injection H as <- <- <-; split; [split; [discriminate|intros (? & ? & _ & _ & _ & _ & H & _); congruence]|auto]].
    destruct (generic ugly t) as [en v] eqn:G. intros H. injection H as <- <- <-. destruct (generic_exact _ _ _ _ G) as [Gs Gw].
    assert (W : written fs (store (store fs (locate o) []) (locate o) v) (locate o) v) by (apply Wr; intros f N; apply store_other; exact N). split; [split|].
    + intros Es. apply Gs in Es as [M I]. exists t, v. auto 8.
    + intros (t' & out & H & M & I & _). assert (t' = t) by congruence. subst t'. apply Gs. rewrite (Gw out M I). auto.
    + intros N. split; [reflexivity|]. right. exists v. split; [exact W|]. eapply generic_failure; eauto.
  - unfold contents. destruct (fs (locate i)) as [t|] eqn:T; [|intros H; injection H as <- <- <-; split; [split; [discriminate|intros (? & ? & H & _); congruence]|auto]].
    destruct (generic ugly t) as [en v] eqn:G. intros H. injection H as <- <- <-. destruct (generic_exact _ _ _ _ G) as [Gs Gw]. split; [split|].
    + intros Es. apply Gs in Es as [M I]. exists t, v. auto 8.
    + intros (t' & out & H & M & I & _). assert (t' = t) by congruence. subst t'. apply Gs. rewrite (Gw out M I). auto.
    + intros N. split; [reflexivity|]. eapply generic_failure; eauto.
  - destruct (creatable (locate o)) eqn:C; [|intros H; injection H as <- <- <-; split; [split; [discriminate|intros (? & ? & _ & _ & _ & _ & H & _); congruence]|auto]].
    destruct (generic ugly stdin) as [en v] eqn:G. intros H. injection H as <- <- <-. destruct (generic_exact _ _ _ _ G) as [Gs Gw].
    assert (W : written fs (store fs (locate o) v) (locate o) v) by (apply Wr; auto). split; [split|].
    + intros Es. apply Gs in Es as [M I]. exists stdin, v. auto 8.
    + intros (t' & out & H & M & I & _). assert (t' = stdin) by congruence. subst t'. apply Gs. rewrite (Gw out M I). auto.
    + intros N. split; [reflexivity|]. right. exists v. split; [exact W|]. eapply generic_failure; eauto.
  - destruct (generic ugly stdin) as [en v] eqn:G. intros H. injection H as <- <- <-. destruct (generic_exact _ _ _ _ G) as [Gs Gw]. split; [split|].
    + intros Es. apply Gs in Es as [M I]. exists stdin, v. auto 8.
    + intros (t' & out & H & M & I & _). assert (t' = stdin) by congruence. subst t'. apply Gs. rewrite (Gw out M I). auto.
    + intros N. split; [reflexivity|]. eapply generic_failure; eauto.
Qed.
Lemma run_success fs p fs' t dir name : run fs p = (fs', Succeeds) -> out_dir = Some dir -> output_name p = Some name -> fs (locate p) = Some t ->
  locate p <> locate (join dir name) ->
  utf8_valid t = true /\ exists S root items out, schema_text ua un f6 fh has_stem t S /\ build snake (sc_elements S) = Done root /\
    emit root = Some items /\ rustfmt (code root) = Some out /\ fs' (locate (join dir name)) = Some out.
Proof.
  intros H D O T Ne. destruct (creatable (locate (join dir name))) eqn:C; [|unfold compile_fbs, open_both in H; rewrite D, O, T, C in H; discriminate H].
  destruct (run_opened fs p dir name t D O T C) as (fs0 & R & _). rewrite R in H. destruct (Z.eqb_spec (locate p) (locate (join dir name))); [contradiction|].
  injection H as <- E. destruct (generic false t) as [en w] eqn:G. cbn [fst snd] in *. subst en. destruct (generic_success _ _ _ G) as (U & S & root & items & A).
  split; [exact U|]. exists S, root, items, w. rewrite store_same. tauto.
Qed.

Lemma generic_empty ugly : generic ugly [] = match (if ugly then Some (code []) else rustfmt (code [])) with
  | None => (Fails, []) | Some out => match interrupted out with None => (Succeeds, out) | Some part => (Fails, part) end end.
Proof. reflexivity. Qed.
Lemma run_own fs p dir name t : out_dir = Some dir -> output_name p = Some name -> locate p = locate (join dir name) ->
  fs (locate p) = Some t -> creatable (locate p) = true -> rustfmt (code []) = Some [] -> interrupted [] = None ->
  exists fs', run fs p = (fs', Succeeds) /\ fs' (locate p) = Some [].
Proof.
  intros D O E T C F I. rewrite E in C. destruct (run_opened fs p dir name t D O T C) as (fs0 & R & _). rewrite E, Z.eqb_refl in R. rewrite generic_empty, F, I in R.
  eexists. split; [exact R|]. rewrite E. apply store_same.
Qed.
Lemma main_own fs stdin i o ugly t : locate i = locate o -> fs (locate i) = Some t -> creatable (locate i) = true ->
  code [] = [] -> rustfmt [] = Some [] -> interrupted [] = None ->
  exists fs', main fs stdin (Some i) (Some o) ugly = (fs', [], Succeeds) /\ fs' (locate i) = Some [].
Proof.
  intros E T C N F I. unfold Files.main, open_both. rewrite T. rewrite E in *. rewrite C, store_same, generic_empty, N. destruct ugly; rewrite ?F, I; (eexists; split; [reflexivity|apply store_same]).
Qed.
Lemma main_others fs stdin i o ugly fs' w e : main fs stdin i o ugly = (fs', w, e) -> forall f, fs' f <> fs f -> exists p, o = Some p /\ f = locate p.
Proof.
  unfold Files.main. destruct i as [i|], o as [o|].
  - unfold open_both. destruct (fs (locate i)); [|intros H f N; injection H as <- _ _; congruence]. destruct (creatable _); [|intros H f N; injection H as <- _ _; congruence].
    destruct (store fs (locate o) [] (locate i)) as [x|]; [|intros H f N; injection H as <- _ _; congruence]. destruct (generic ugly x) as [en w']. intros H f N. injection H as <- _ _.
    exists o. split; [reflexivity|]. destruct (Z.eq_dec f (locate o)) as [E|E]; [exact E|]. rewrite !store_other in N by exact E. congruence.
  - destruct (fs (locate i)); [|intros H f N; injection H as <- _ _; congruence]. destruct (generic ugly l). intros H f N; injection H as <- _ _; congruence.
  - destruct (creatable _); [|intros H f N; injection H as <- _ _; congruence]. destruct (generic ugly stdin) as [en w']. intros H f N. injection H as <- _ _.
    exists o. split; [reflexivity|]. destruct (Z.eq_dec f (locate o)) as [E|E]; [exact E|]. rewrite !store_other in N by exact E. congruence.
  - destruct (generic ugly stdin). intros H f N; injection H as <- _ _; congruence.
Qed.

End Run.

(** ** What goes wrong *)
(** [a.fbs] is file 1, [out/a.rs] is file 2. *)
Definition two_files (schema old : list byte) : files := fun f => if Z.eqb f 1 then Some schema else if Z.eqb f 2 then Some old else None.
Definition two_places (p : text) : Z := if ident_eqb p (lit "a.fbs") then 1%Z else 2%Z.
Lemma output_lost ua un uw f6 fh has_stem snake shouty ident_ok path_ok literal_ok hg code rustfmt interrupted old :
  exists fs', compile_fbs ua un uw f6 fh has_stem snake shouty ident_ok path_ok literal_ok hg code rustfmt interrupted two_places (fun _ => true) (Some (lit "out"))
    (two_files (lit "tabel T {}") old) (lit "a.fbs") = (fs', Panics) /\ fs' (two_places (lit "out/a.rs")) = Some [].
Proof. eexists. split; [reflexivity|]. vm_compute. reflexivity. Qed.
Lemma silent_failure ua un uw f6 fh has_stem snake shouty path_ok literal_ok hg code interrupted old : interrupted [] = None ->
  exists fs', compile_fbs ua un uw f6 fh has_stem snake shouty (fun _ => true) path_ok literal_ok hg code (fun _ => Some []) interrupted two_places (fun _ => true) (Some (lit "out"))
    (two_files (lit "table T {}") old) (lit "a.fbs") = (fs', Succeeds) /\ fs' (two_places (lit "out/a.rs")) = Some [].
Proof.
  intros I. unfold compile_fbs. change (output_name (lit "a.fbs")) with (Some (lit "a.rs")). cbv beta iota. unfold open_both.
  change (two_files (lit "table T {}") old (two_places (lit "a.fbs"))) with (Some (lit "table T {}")). cbv beta iota.
  change (store (two_files (lit "table T {}") old) (two_places (join (lit "out") (lit "a.rs"))) [] (two_places (lit "a.fbs"))) with (Some (lit "table T {}")). cbv beta iota.
  unfold compile_fbs_generic. change (utf8_valid (lit "table T {}")) with true. cbn [negb].
  change (compile ua un uw f6 fh has_stem snake (lit "table T {}")) with (Generated [NTable (ITable [lit "T"] [] false [])]). cbv beta iota.
  cbn [emit emit_node]. unfold emit_table. cbn. rewrite I. eexists. split; [reflexivity|]. reflexivity.
Qed.
Definition never (_ : text) : bool := false.
Lemma compiled_case : exists fs', compile_fbs never never never (fun _ => None) (fun _ => None) never snake_case shouty_snake_case (fun _ => true) (fun _ => true) (fun _ _ _ _ => true) (Host true false)
    (fun _ => lit "code") (fun t => Some (t ++ lit ";")) (fun _ => None) two_places (fun _ => true) (Some (lit "out")) (two_files (lit "table T {}") (lit "old")) (lit "a.fbs") = (fs', Succeeds) /\
  output_name (lit "a.fbs") = Some (lit "a.rs") /\ two_places (lit "a.fbs") <> two_places (join (lit "out") (lit "a.rs")) /\
  fs' (two_places (lit "out/a.rs")) = Some (lit "code;") /\ fs' (two_places (lit "a.fbs")) = Some (lit "table T {}").
Proof. eexists. split; [vm_compute; reflexivity|]. split; [reflexivity|]. split; [discriminate|]. split; reflexivity. Qed.

(** Where the output is. *)
Lemma output_place p dir name : output_name p = Some name -> ends_in (join dir name) name /\
  exists sep, join dir name = dir ++ sep ++ name /\ (sep = [] \/ sep = lit "/" /\ dir <> [] /\ forall d, dir <> d ++ lit "/").
Proof.
  intros O. apply output_exact in O as (x & (d0 & tl & _ & _ & Nx & _ & _ & _) & _ & O).
  assert (N : ~ In "/"%byte name /\ name <> [] /\ name <> lit ".").
  { assert (K : forall s, ~ In "/"%byte s -> ~ In "/"%byte (s ++ lit ".rs") /\ s ++ lit ".rs" <> [] /\ s ++ lit ".rs" <> lit ".").
    { intros s Ns. split; [|split].
      - rewrite in_app_iff. intros [I|I]; [auto|]. cbn in I. repeat (destruct I as [I|I]; [discriminate I|]). destruct I.
      - destruct s; discriminate.
      - destruct s as [|c [|? ?]]; discriminate. }
    destruct O as [(s & e & -> & _ & _ & ->)|(c & e & -> & _ & ->)]; [|apply K; exact Nx]. apply K. intros I. apply Nx. rewrite in_app_iff. left. exact I. }
  destruct N as (N1 & N2 & N3). unfold join. destruct (rev dir) as [|c r] eqn:E.
  - assert (dir = []) by (apply (f_equal (@rev byte)) in E; rewrite rev_involutive in E; exact E). subst dir. split.
    + exists [], []. rewrite app_nil_r. repeat split; auto. constructor.
    + exists []. split; [reflexivity|left; reflexivity].
  - assert (Ed : dir = rev r ++ [c]) by (apply (f_equal (@rev byte)) in E; rewrite rev_involutive in E; exact E).
    destruct (Byte.eqb c "/") eqn:C.
    + apply Byte.byte_dec_bl in C. subst c. split; [|exists []; split; [reflexivity|left; reflexivity]].
      exists dir, []. rewrite app_nil_r. split; [reflexivity|]. split; [right; exists (rev r); exact Ed|]. repeat split; auto. constructor.
    + split.
      * exists (dir ++ lit "/"), []. rewrite app_nil_r, <- app_assoc. split; [reflexivity|]. split; [right; exists dir; reflexivity|]. repeat split; auto. constructor.
      * exists (lit "/"). split; [reflexivity|]. right. split; [reflexivity|]. split; [intros ->; discriminate E|]. intros d D. rewrite Ed in D.
        apply app_inj_tail in D as [_ D]. subst c. discriminate C.
Qed.

(** The names of the emitted items. *)
From Coq Require Import Strings.String ZArith List Bool Lia Strings.Byte Permutation.
From Verif Require Import Base BaseFacts Schema Ident SpecIdent Codegen GenProofs1 GenProofs8 Resolve SpecResolve ResolveProofs1 ResolveProofs2 ResolveProofs3 ResolveProofs4 ResolveProofs5 ResolveProofs6 ResolveProofs9 Emit SpecEmit EmitProofs1.
Import ListNotations.
Local Open Scope nat_scope.

Lemma type_names_app a b : type_names (a ++ b) = type_names a ++ type_names b.
Proof. apply flat_map_app. Qed.
Lemma fn_names_app a b : fn_names (a ++ b) = fn_names a ++ fn_names b.
Proof. apply flat_map_app. Qed.

(** ** Lists without repetition *)
Lemma NoDup_app_iff {A} (a b : list A) : NoDup (a ++ b) <-> NoDup a /\ NoDup b /\ forall x, In x a -> ~ In x b.
Proof.
  induction a as [|x a IH]; cbn [app].
  - split; [intros N; repeat split; auto; constructor|tauto].
  - split.
    + intros N. inversion N; subst. apply IH in H2 as (N1 & N2 & D). rewrite in_app_iff in H1. repeat split; [constructor; tauto|exact N2|].
      intros y [<-|I]; [tauto|auto].
    + intros (N1 & N2 & D). inversion N1; subst. constructor; [rewrite in_app_iff; intros [I|I]; [tauto|eapply D; [left; reflexivity|exact I]]|].
      apply IH. repeat split; auto. intros y I. apply D. right. exact I.
Qed.
Lemma NoDup_flat_map_iff {A B} (f : A -> list B) l : NoDup l ->
  (NoDup (flat_map f l) <-> (forall x, In x l -> NoDup (f x)) /\ forall x y z, In x l -> In y l -> In z (f x) -> In z (f y) -> x = y).
Proof.
  induction 1 as [|a l Na N IH]; cbn [flat_map]; [split; [intros _; split; [intros x []|intros x y z []]|constructor]|].
  rewrite NoDup_app_iff, IH. split.
  - intros (Nf & (F & D) & X). split; [intros x [<-|I]; auto|]. intros x y z [<-|Ix] [<-|Iy] Zx Zy; eauto.
    + exfalso. eapply X; [exact Zx|]. apply in_flat_map. eauto.
    + exfalso. eapply X; [exact Zy|]. apply in_flat_map. eauto.
  - intros (F & D). split; [apply F; left; reflexivity|]. split; [split; [intros x I; apply F; right; exact I|intros x y z Ix Iy; apply D; right; assumption]|].
    intros z Z I. apply in_flat_map in I as (y & I & Zy). assert (a = y) by (eapply D; [left; reflexivity|right; exact I|exact Z|exact Zy]). subst. auto.
Qed.
Lemma NoDup_map_iff {A B} (f : A -> B) l : NoDup l -> (NoDup (map f l) <-> forall x y, In x l -> In y l -> f x = f y -> x = y).
Proof.
  intros N. replace (map f l) with (flat_map (fun x => [f x]) l) by (rewrite flat_map_concat_map; induction l as [|x l IH]; cbn [map concat app]; [reflexivity|inversion N; subst; rewrite IH; auto]).
  rewrite (NoDup_flat_map_iff _ _ N). split.
  - intros (_ & D) x y Ix Iy E. eapply D; [exact Ix|exact Iy|left; reflexivity|left; auto].
  - intros D. split; [intros x _; repeat constructor; intros []|]. intros x y z Ix Iy [<-|[]] [E|[]]. apply D; auto.
Qed.

Section Items.
Context (snake shouty : text -> text) (ident_ok : ident -> bool) (path_ok : qident -> bool).
Context (literal_ok : scalar_const -> bool -> option qident -> ity -> bool) (hg : host).
Notation emit_node := (emit_node snake shouty ident_ok path_ok literal_ok hg).
Notation emit := (emit snake shouty ident_ok path_ok literal_ok hg).

Lemma emit_namespace q ns : emit_node (NNamespace q ns) =
  if ident_ok (module_name snake (last q [])) then match emit ns with Some items => Some [XMod (module_name snake (last q [])) items] | None => None end else None.
Proof.
  cbn [Emit.emit_node]. unfold ensure. destruct (ident_ok _); [|reflexivity].
  replace ((fix all (l : list node) : option (list item) := match l with [] => Some [] | n :: l0 => match emit_node n, all l0 with Some x, Some y => Some (x ++ y)%list | _, _ => None end end) ns) with (emit ns); [reflexivity|].
  induction ns as [|n ns IH]; [reflexivity|]. cbn [Emit.emit]. rewrite IH. reflexivity.
Qed.
Lemma emit_cons n l items : emit (n :: l) = Some items -> exists x y, emit_node n = Some x /\ emit l = Some y /\ items = x ++ y.
Proof. cbn [Emit.emit]. destruct (emit_node n) as [x|]; [|discriminate]. destruct (emit l) as [y|]; [|discriminate]. intros E. injection E as <-. eauto. Qed.
Lemma emit_in l : forall items n, emit l = Some items -> In n l -> exists x, emit_node n = Some x /\ forall i, In i x -> In i items.
Proof.
  induction l as [|m l IH]; intros items n E I; [destruct I|]. apply emit_cons in E as (x & y & X & Y & ->). destruct I as [->|I].
  - exists x. split; [exact X|]. intros i J. apply in_or_app. auto.
  - destruct (IH y n Y I) as (z & Z & H). exists z. split; [exact Z|]. intros i J. apply in_or_app. auto.
Qed.
Lemma emit_from l : forall items i, emit l = Some items -> In i items -> exists n x, In n l /\ emit_node n = Some x /\ In i x.
Proof.
  induction l as [|m l IH]; intros items i E I; [injection E as <-; destruct I|]. apply emit_cons in E as (x & y & X & Y & ->). apply in_app_iff in I as [I|I].
  - exists m, x. split; [left; reflexivity|auto].
  - destruct (IH y i Y I) as (n & z & In_ & Z & J). exists n, z. split; [right; exact In_|auto].
Qed.
Lemma emit_table_items t x : emit_node (NTable t) = Some x -> exists paths,
  x = [XType RTable (last (it_id t) []) paths; XType RArgs (last (it_id t) [] ++ lit "Args") []; XType RBuilder (last (it_id t) [] ++ lit "Builder") []].
Proof. cbn [Emit.emit_node]. unfold emit_table. destruct (every _) as [p|]; [|discriminate]. intros E. injection E as <-. eauto. Qed.
Lemma emit_enum_items e x : emit_node (NEnum e) = Some x -> exists paths,
  x = [XType REnum (last (ie_id e) []) paths; XFn (lit "enum_name_" ++ snake (last (ie_id e) []))].
Proof. cbn [Emit.emit_node]. unfold emit_enum. destruct (every _) as [p|]; [|discriminate]. intros E. injection E as <-. eauto. Qed.
Lemma emit_union_items u x : emit_node (NUnion u) = Some x -> exists paths, x = [XType RUnion (last (iu_id u) []) paths].
Proof. cbn [Emit.emit_node]. unfold emit_union. destruct (every _) as [p|]; [|discriminate]. intros E. injection E as <-. eauto. Qed.
Lemma emit_module_items q ns x : emit_node (NNamespace q ns) = Some x -> exists items, emit ns = Some items /\ x = [XMod (module_name snake (last q [])) items].
Proof. rewrite emit_namespace. destruct (ident_ok _); [|discriminate]. destruct (emit ns) as [items|]; [|discriminate]. intros E. injection E as <-. eauto. Qed.
Lemma no_module n x name items : plain n -> emit_node n = Some x -> ~ In (XMod name items) x.
Proof.
  intros P E. destruct n as [q ns|t|s|e|u|r].
  - destruct P.
  - apply emit_table_items in E as (p & ->). intros [I|[I|[I|[]]]]; discriminate.
  - discriminate.
  - apply emit_enum_items in E as (p & ->). intros [I|[I|[]]]; discriminate.
  - apply emit_union_items in E as (p & ->). intros [I|[]]; discriminate.
  - injection E as <-. intros [].
Qed.

(** ** Levels and modules *)
Lemma level_module l p found : level l p found -> forall items, emit l = Some items ->
  exists f, emit found = Some f /\ module_at items (emitted_modules snake p) f.
Proof.
  induction 1 as [l|l q sub p found I L IH]; intros items E; [exists items; split; [exact E|constructor]|].
  destruct (emit_in _ _ _ E I) as (x & X & H). apply emit_module_items in X as (inner & Ei & ->).
  destruct (IH inner Ei) as (f & Ef & M). exists f. split; [exact Ef|]. econstructor; [apply H; left; reflexivity|exact M].
Qed.
Lemma module_level items path f : module_at items path f -> forall l, emit l = Some items ->
  exists p found, level l p found /\ path = emitted_modules snake p /\ emit found = Some f.
Proof.
  induction 1 as [items|items name inner path found I M IH]; intros l E; [exists [], l; split; [constructor|auto]|].
  destruct (emit_from _ _ _ E I) as (n & x & In_ & X & J). destruct n as [q ns|t|s|e|u|r].
  2-6: exfalso; eapply no_module; [|exact X|exact J]; exact Logic.I.
  apply emit_module_items in X as (inner' & Ei & ->). destruct J as [J|[]]. injection J as <- <-.
  destruct (IH ns Ei) as (p & found' & L & -> & Ef). exists (last q [] :: p), found'. split; [econstructor; eauto|auto].
Qed.

(** ** Names *)
Definition types_for (d : qident * icustom) : list ident :=
  match snd d with
  | KTable => [last (fst d) []; last (fst d) [] ++ lit "Args"; last (fst d) [] ++ lit "Builder"]
  | KStruct _ => []
  | _ => [last (fst d) []]
  end.
Definition fns_for (d : qident * icustom) : list ident :=
  match snd d with KEnum _ _ => [lit "enum_name_" ++ snake (last (fst d) [])] | _ => [] end.

Lemma emit_plain_names nodes : Forall plain nodes -> forall f, emit nodes = Some f ->
  type_names f = flat_map types_for (definitions nodes) /\ fn_names f = flat_map fns_for (definitions nodes) /\
  forall q c, In (q, c) (definitions nodes) -> (forall fs, c <> KStruct fs) /\ exists paths, In (XType (rkind_of c) (last q []) paths) f.
Proof.
  induction 1 as [|n nodes P Ps IH]; intros f E; [injection E as <-; split; [reflexivity|split; [reflexivity|intros q c []]]|].
  apply emit_cons in E as (x & y & X & Y & ->). destruct (IH y Y) as (T & F & D). rewrite type_names_app, fn_names_app, T, F.
  unfold definitions. cbn [flat_map]. fold (definitions nodes). rewrite !flat_map_app.
  assert (K : type_names x = flat_map types_for (defs_of n) /\ fn_names x = flat_map fns_for (defs_of n) /\
    forall q c, In (q, c) (defs_of n) -> (forall fs, c <> KStruct fs) /\ exists paths, In (XType (rkind_of c) (last q []) paths) x).
  { destruct n as [q ns|t|s|e|u|r].
    - destruct P.
    - apply emit_table_items in X as (p & ->). split; [reflexivity|]. split; [reflexivity|]. intros q c [I|[]]. injection I as <- <-. split; [discriminate|]. exists p. left. reflexivity.
    - discriminate.
    - apply emit_enum_items in X as (p & ->). split; [reflexivity|]. split; [reflexivity|]. intros q c [I|[]]. injection I as <- <-. split; [discriminate|]. exists p. left. reflexivity.
    - apply emit_union_items in X as (p & ->). split; [reflexivity|]. split; [reflexivity|]. intros q c [I|[]]. injection I as <- <-. split; [discriminate|]. exists p. left. reflexivity.
    - injection X as <-. split; [reflexivity|]. split; [reflexivity|]. intros q c []. }
  destruct K as (-> & -> & K). split; [reflexivity|]. split; [reflexivity|]. intros q c I. apply in_app_iff in I as [I|I].
  - destruct (K q c I) as (S & paths & J). split; [exact S|]. exists paths. apply in_or_app. auto.
  - destruct (D q c I) as (S & paths & J). split; [exact S|]. exists paths. apply in_or_app. auto.
Qed.
Lemma emit_app a b f : emit (a ++ b) = Some f -> exists x y, emit a = Some x /\ emit b = Some y /\ f = x ++ y.
Proof.
  revert f. induction a as [|n a IH]; intros f E; cbn [app] in E; [exists [], f; auto|]. apply emit_cons in E as (x & y & X & Y & ->).
  destruct (IH y Y) as (u & v & U & V & ->). exists (x ++ u), v. cbn [Emit.emit]. rewrite X, U. split; [reflexivity|]. split; [exact V|apply app_assoc].
Qed.
Lemma emit_subs_names pre sub : wft pre sub -> forall f, emit (subs sub) = Some f ->
  type_names f = map (module_name snake) (map fst sub) /\ fn_names f = [].
Proof.
  induction 1 as [|pre k sub nodes tree P Ws _ Wt IHt S]; intros f E; [injection E as <-; auto|].
  cbn [subs map snd] in E. rewrite into_node_eq in E. apply emit_cons in E as (x & y & X & Y & ->). destruct (IHt y Y) as (T & F).
  apply emit_module_items in X as (items & _ & ->). rewrite type_names_app, fn_names_app, T, F. cbn [map fst]. rewrite last_snoc. auto.
Qed.
Lemma wft_keys pre sub : wft pre sub -> NoDup (map fst sub).
Proof.
  induction 1 as [|pre k sub nodes tree P Ws _ Wt IHt S]; cbn [map fst]; constructor; [|exact IHt].
  intros I. specialize (S k I). rewrite ident_compare_refl in S. discriminate.
Qed.

Section Built.
Context (es : list element) (root : list node) (B : build snake es = Done root) (items : list item) (Em : emit root = Some items).

Lemma defs_nonempty q c : In (q, c) (defined root) -> q <> [].
Proof.
  intros I. destruct (resolved snake es root B) as (place & roots & outs & R & P & _). apply (defined_In _ _ _ P) in I.
  apply in_flat_map in I as (n & J & D). apply in_concat in J as (out & Io & In_). apply In_nth_error in Io as (i & No).
  assert (L : i < length es) by (rewrite <- (res_length _ _ _ _ _ R); apply nth_error_Some; congruence).
  destruct (nth_error es i) as [e|] eqn:Ne; [|apply nth_error_None in Ne; lia]. destruct (res_declares _ _ _ _ _ R i e Ne) as (out' & No' & Dc).
  assert (out' = out) by congruence. subst out'. unfold local_name, companion_name in *.
  inversion Dc; subst; repeat match goal with H : In _ (_ :: _) |- _ => destruct H as [<-|H] | H : In _ [] |- _ => destruct H end;
    cbn [defs_of In] in D; try contradiction; destruct D as [D|[]]; injection D as <- <-; cbn [it_id is_id ie_id iu_id]; try (intros Q; destruct (place i); discriminate Q).
Qed.
Lemma split_name q c : In (q, c) (defined root) -> q = removelast q ++ [last q []].
Proof. intros I. apply app_removelast_last. eapply defs_nonempty; eauto. Qed.

(** The definitions at a level. *)
Definition defs_at (p : qident) : list (qident * icustom) := definitions (nodes_under p root).
Lemma defs_at_In p q c : In (q, c) (defs_at p) <-> In (q, c) (defined root) /\ removelast q = p.
Proof.
  unfold defs_at, defined, definitions. rewrite !in_flat_map. split.
  - intros (n & I & D). pose proof (proj2 (under_plain snake es root B p n I)) as M. apply under_contents in I. split.
    + exists n. split; [apply in_map_iff; exists (p, n); auto|exact D].
    + rewrite <- M. destruct n; cbn [defs_of In module_of] in *; intuition congruence.
  - intros ((n & I & D) & <-). apply in_map_iff in I as ([p n'] & E & I). cbn [snd] in E. subst n'. exists n. split; [|exact D].
    pose proof (contents_module snake es root B p n I) as M. apply under_contents. replace (removelast q) with p; [exact I|].
    rewrite <- M. destruct n; cbn [defs_of In module_of] in *; intuition congruence.
Qed.
Lemma defs_at_NoDup p : NoDup (map fst (defs_at p)).
Proof.
  destruct (resolved snake es root B) as (place & roots & outs & R & _ & N). unfold defs_at. rewrite N. pose proof (res_distinct _ _ _ _ _ R) as D. clear - D.
  induction (concat outs) as [|n l IH]; [constructor|]. unfold definitions in *. cbn [flat_map filter] in *. rewrite map_app in D. apply NoDup_app_iff in D as (D1 & D2 & X).
  destruct (qident_eqb (module_of n) p); [|auto]. cbn [flat_map]. rewrite map_app. apply NoDup_app_iff. split; [exact D1|]. split; [auto|].
  intros q I J. apply (X q I). apply in_map_iff in J as (d & <- & J). apply in_map. apply in_flat_map in J as (m & J & Dm). apply filter_In in J as [J _]. apply in_flat_map. eauto.
Qed.
Lemma NoDup_of_map {A C} (f : A -> C) l : NoDup (map f l) -> NoDup l.
Proof. apply NoDup_map_inv. Qed.
Lemma defs_at_fun p q c c' : In (q, c) (defs_at p) -> In (q, c') (defs_at p) -> c = c'.
Proof.
  pose proof (defs_at_NoDup p) as N. induction (defs_at p) as [|[q0 c0] l IH]; intros I J; [destruct I|]. cbn [map fst] in N. inversion N; subst.
  destruct I as [I|I], J as [J|J].
  - congruence.
  - injection I as -> ->. exfalso. apply H1. apply (in_map fst) in J. exact J.
  - injection J as -> ->. exfalso. apply H1. apply (in_map fst) in I. exact I.
  - auto.
Qed.

Lemma level_names p l f : level root p l -> emit l = Some f -> exists ks, NoDup ks /\ (forall a, In a ks <-> namespace_in root (p ++ [a])) /\
  type_names f = map (module_name snake) ks ++ flat_map types_for (defs_at p) /\ fn_names f = flat_map fns_for (defs_at p) /\
  forall q c, In (q, c) (defs_at p) -> (forall fs, c <> KStruct fs) /\ exists paths, In (XType (rkind_of c) (last q []) paths) f.
Proof.
  intros L E. destruct (root_at snake es root B p l L) as (sub & -> & W & K). exists (map fst sub). split; [eapply wft_keys; eauto|]. split; [exact K|].
  apply emit_app in E as (x & y & X & Y & ->). destruct (emit_subs_names _ _ W _ X) as (T & F).
  destruct (emit_plain_names (nodes_under p root)) with (f := y) as (T' & F' & D).
  - apply Forall_forall. intros n I. eapply under_plain; eauto.
  - exact Y.
  - rewrite type_names_app, fn_names_app, T, F, T', F'. split; [reflexivity|]. split; [reflexivity|]. intros q c I. destruct (D q c I) as (S & paths & J). split; [exact S|].
    exists paths. apply in_or_app. auto.
Qed.
Lemma def_level q c : In (q, c) (defined root) -> exists l f, level root (removelast q) l /\ emit l = Some f /\ module_at items (emitted_modules snake (removelast q)) f.
Proof.
  intros I. assert (exists n, In (removelast q, n) (all_contents root)) as (n & J).
  { assert (K : In (q, c) (defs_at (removelast q))) by (apply defs_at_In; auto). apply in_flat_map in K as (n & K & _). exists n. apply under_contents. exact K. }
  apply contents_at in J as (l & L & _). destruct (level_module _ _ _ L items Em) as (f & Ef & M). eauto.
Qed.
Lemma no_struct q fs : ~ In (q, KStruct fs) (defined root).
Proof.
  intros I. destruct (def_level q _ I) as (l & f & L & E & _). destruct (level_names _ _ _ L E) as (ks & _ & _ & _ & _ & D).
  destruct (D q (KStruct fs)) as (S & _); [apply defs_at_In; auto|]. exact (S fs eq_refl).
Qed.
Lemma emitted_at q c : In (q, c) (defined root) -> exists f paths, module_at items (emitted_modules snake (removelast q)) f /\ In (XType (rkind_of c) (last q []) paths) f.
Proof.
  intros I. destruct (def_level q _ I) as (l & f & L & E & M). destruct (level_names _ _ _ L E) as (ks & _ & _ & _ & _ & D).
  destruct (D q c) as (_ & paths & J); [apply defs_at_In; auto|]. eauto.
Qed.
End Built.
End Items.

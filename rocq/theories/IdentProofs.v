(** Names in generated code. *)
From Coq Require Import Strings.String ZArith List Bool Lia Strings.Byte.
From Verif Require Import Base BaseFacts Schema Ident SpecIdent GenProofs1 GenProofs8.
Import ListNotations.
Local Open Scope nat_scope.

Lemma walk_down (path : qident) : ~ In (lit "super") path -> forall here, walk here path = Some (here ++ path).
Proof.
  induction path as [|c path IH]; intros N here; cbn [walk]; [rewrite app_nil_r; reflexivity|].
  destruct (ident_eqb c (lit "super")) eqn:E; [apply ident_eqb_eq in E; subst; exfalso; apply N; left; reflexivity|].
  rewrite IH by (intros I; apply N; right; exact I). rewrite <- app_assoc. reflexivity.
Qed.
Lemma removelast_firstn_len {A} (l : list A) : l <> [] -> removelast l = firstn (length l - 1) l.
Proof. intros _. destruct l as [|x l]; [reflexivity|]. rewrite removelast_firstn_len. f_equal. cbn [length]. lia. Qed.
Lemma walk_up k : forall here path, k <= length here -> walk here (repeat (lit "super") k ++ path) = walk (firstn (length here - k) here) path.
Proof.
  induction k as [|k IH]; intros here path L; cbn [repeat app].
  - rewrite Nat.sub_0_r, firstn_all. reflexivity.
  - cbn [walk]. rewrite (proj2 (ident_eqb_eq _ _) eq_refl). destruct here as [|x here]; [cbn in L; lia|].
    rewrite removelast_firstn_len by discriminate. rewrite IH by (rewrite firstn_length; cbn [length] in *; lia). rewrite firstn_firstn, firstn_length. f_equal. f_equal. cbn [length] in *. lia.
Qed.
Lemma common_prefix_le q : forall ns, common_prefix q ns <= length ns /\ common_prefix q ns <= length q /\ firstn (common_prefix q ns) ns = firstn (common_prefix q ns) q.
Proof.
  induction q as [|x q IH]; intros [|y ns]; cbn [common_prefix length firstn]; try (repeat split; lia).
  destruct (ident_eqb x y) eqn:E; [|cbn; repeat split; lia]. apply ident_eqb_eq in E. subst. destruct (IH ns) as (A & B & C). cbn [firstn]. rewrite C. repeat split; lia.
Qed.
Lemma common_prefix_all q : forall ns, common_prefix q ns = length q <-> encloses q ns.
Proof.
  induction q as [|x q IH]; intros ns; cbn [common_prefix length].
  - split; [intros _; exists ns; reflexivity|reflexivity].
  - destruct ns as [|y ns]; [split; [discriminate|intros (l & E); discriminate E]|]. destruct (ident_eqb x y) eqn:E.
    + apply ident_eqb_eq in E. subst. split.
      * intros H. injection H as H. apply IH in H as (l & ->). exists l. reflexivity.
      * intros (l & H). injection H as ->. f_equal. apply IH. exists l. reflexivity.
    + split; [discriminate|]. intros (l & H). injection H as -> _. rewrite (proj2 (ident_eqb_eq _ _) eq_refl) in E. discriminate E.
Qed.
Lemma not_in_skipn {A} (x : A) n l : ~ In x l -> ~ In x (skipn n l).
Proof. intros N I. apply N. rewrite <- (firstn_skipn n l). apply in_or_app. auto. Qed.

(** From a module with these names (whatever they are), the path printed goes up
    to what is common and then down. *)
Lemma relative_walk (q ns here : qident) : ~ In (lit "super") q -> length here = length ns ->
  walk here (relative q (Some ns)) = Some (firstn (common_prefix q ns) here ++ skipn (common_prefix q ns) q).
Proof.
  intros N L. destruct (common_prefix_le q ns) as (A & B & _). unfold relative. rewrite walk_up by lia.
  rewrite walk_down by (apply not_in_skipn; exact N). do 3 f_equal. lia.
Qed.

Lemma relative_leads (q : qident) (ns : option qident) : ~ In (lit "super") q -> walk (modules_around ns) (relative q ns) = Some q.
Proof.
  intros N. destruct ns as [ns|]; cbn [modules_around].
  - etransitivity; [exact (relative_walk q ns ns N eq_refl)|]. destruct (common_prefix_le q ns) as (_ & _ & ->). rewrite firstn_skipn. reflexivity.
  - cbn [relative]. rewrite (walk_down q N). reflexivity.
Qed.
Lemma last_skipn {A} (d : A) n : forall l, skipn n l <> [] -> last (skipn n l) d = last l d.
Proof.
  induction n as [|n IH]; intros [|x l] S; try reflexivity. cbn [skipn] in *. rewrite (IH l S). destruct l as [|y l]; [rewrite skipn_nil in S; destruct (S eq_refl)|reflexivity].
Qed.
Lemma relative_shape (q : qident) (ns : option qident) : q <> [] -> ~ encloses q (modules_around ns) -> exists ups downs, relative q ns = repeat (lit "super") ups ++ downs ++ [last q []].
Proof.
  intros Q E. destruct ns as [ns|]; cbn [modules_around relative] in *.
  - exists (length ns - common_prefix q ns), (removelast (skipn (common_prefix q ns) q)). f_equal.
    assert (S : skipn (common_prefix q ns) q <> []).
    { intros S. apply E. apply common_prefix_all. pose proof (skipn_length (common_prefix q ns) q) as L. rewrite S in L. cbn in L. destruct (common_prefix_le q ns) as (_ & B & _). lia. }
    rewrite (app_removelast_last [] S) at 1. do 2 f_equal. apply last_skipn. exact S.
  - exists 0, (removelast q). cbn [repeat app]. apply app_removelast_last. exact Q.
Qed.
Lemma relative_enclosing (q ns : qident) : encloses q ns -> relative q (Some ns) = repeat (lit "super") (length ns - length q).
Proof.
  intros E. apply common_prefix_all in E. unfold relative. rewrite E, skipn_all. apply app_nil_r.
Qed.

(** With the modules as they are emitted. *)
Lemma map_fix_eq {A} (f : A -> A) l : map f l = l <-> forall x, In x l -> f x = x.
Proof. induction l as [|a l IH]; cbn [map In]; [tauto|]. split; [intros E x [->|I]; injection E; intros; [assumption|apply IH; assumption]|intros H; f_equal; [auto|apply IH; auto]]. Qed.
Lemma firstn_removelast {A} n (l : list A) : n < length l -> firstn n (removelast l) = firstn n l.
Proof.
  intros L. destruct l as [|x l]; [cbn in L; lia|]. rewrite removelast_firstn_len by discriminate. rewrite firstn_firstn. f_equal. lia.
Qed.
Lemma skipn_last {A} (d : A) n (l : list A) : n < length l -> skipn n l = skipn n (removelast l) ++ [last l d].
Proof.
  intros L. assert (Q : l <> []) by (intros ->; cbn in L; lia). rewrite (app_removelast_last d Q) at 1. rewrite skipn_app.
  assert (E : length (removelast l) = length l - 1) by (rewrite removelast_firstn_len by exact Q; rewrite firstn_length; lia). rewrite E.
  replace (n - (length l - 1)) with 0 by lia. reflexivity.
Qed.
Lemma emitted_leads snake (q : qident) (ns : option qident) : ~ In (lit "super") q -> ~ encloses q (modules_around ns) ->
  walk (emitted_modules snake (modules_around ns)) (relative q ns) = Some (emitted_item snake q) <->
  forall x, In x (skipn (common_prefix q (modules_around ns)) (removelast q)) -> module_name snake x = x.
Proof.
  intros N E. set (here := modules_around ns) in *. assert (R : relative q ns = relative q (Some here)).
  { destruct ns; [reflexivity|]. unfold here. cbn [modules_around relative length Nat.sub repeat app]. destruct q; reflexivity. }
  rewrite R. rewrite relative_walk by (auto; unfold emitted_modules; apply map_length). destruct (common_prefix_le q here) as (A & B & C).
  assert (Lt : common_prefix q here < length q) by (apply Nat.le_neq; split; [exact B|intros X; apply E; apply common_prefix_all; exact X]).
  set (n := common_prefix q here) in *. unfold emitted_item, emitted_modules. rewrite (skipn_last ([] : ident) n q Lt), firstn_map, C.
  rewrite <- (firstn_skipn n (removelast q)) at 2. rewrite (firstn_removelast n q Lt), map_app, <- app_assoc. rewrite <- map_fix_eq.
  split; [intros H|intros ->; reflexivity]. injection H as H. apply app_inv_head in H. apply app_inj_tail in H as [H _]. auto.
Qed.

(** Keywords. *)
Lemma substitute_some l x y : substitute l x = Some y -> exists k s, In (k, s) l /\ x = lit k /\ y = lit s.
Proof.
  induction l as [|[k s] l IH]; cbn [substitute]; [discriminate|]. destruct (ident_eqb x (lit k)) eqn:E.
  - intros H. injection H as <-. apply ident_eqb_eq in E. exists k, s. split; [left; reflexivity|auto].
  - intros H. destruct (IH H) as (k' & s' & I & Q). exists k', s'. split; [right; exact I|exact Q].
Qed.
Lemma substitute_none l x : substitute l x = None -> ~ In x (map (fun p => lit (fst p)) l).
Proof.
  induction l as [|[k s] l IH]; cbn [substitute]; [intros _ []|]. destruct (ident_eqb x (lit k)) eqn:E; [discriminate|].
  intros H [<-|I]; [cbn [fst] in E; rewrite (proj2 (ident_eqb_eq _ _) eq_refl) in E; discriminate E|exact (IH H I)].
Qed.
Definition mem_text (x : ident) (l : list ident) : bool := existsb (ident_eqb x) l.
Lemma mem_text_In x l : mem_text x l = true <-> In x l.
Proof. unfold mem_text. rewrite existsb_exists. split; [intros (y & I & E); apply ident_eqb_eq in E; subst; exact I|intros I; exists x; split; [exact I|apply ident_eqb_eq; reflexivity]]. Qed.
Lemma substitutes_ok : forallb (fun p => negb (mem_text (lit (snd p)) (map lit rust_keywords))) substitutions = true.
Proof. vm_compute. reflexivity. Qed.
Lemma keywords_covered : forallb (fun k => mem_text (lit k) (map (fun p => lit (fst p)) substitutions) || ident_eqb (lit k) (lit "try")) rust_keywords = true.
Proof. vm_compute. reflexivity. Qed.
Lemma substituted_keywords : forallb (fun p => mem_text (lit (fst p)) (map lit rust_keywords)) substitutions = true.
Proof. vm_compute. reflexivity. Qed.

Lemma fix_keyword_iff x : keyword (fix_identifier x) <-> x = lit "try".
Proof.
  unfold fix_identifier, substitute_keyword. destruct (substitute substitutions x) as [y|] eqn:E.
  - apply substitute_some in E as (k & s & I & -> & ->). split.
    + intros K. pose proof (proj1 (forallb_forall _ _) substitutes_ok _ I) as N. cbn [snd] in N. unfold keyword in K. apply mem_text_In in K. rewrite K in N. discriminate N.
    + intros Q. exfalso. assert (M : forallb (fun p => negb (ident_eqb (lit (fst p)) (lit "try"))) substitutions = true) by (vm_compute; reflexivity).
      pose proof (proj1 (forallb_forall _ _) M _ I) as N. cbn [fst] in N. rewrite Q, (proj2 (ident_eqb_eq _ _) eq_refl) in N. discriminate N.
  - split.
    + intros K. apply substitute_none in E. unfold keyword in K. apply in_map_iff in K as (k & <- & I). pose proof (proj1 (forallb_forall _ _) keywords_covered _ I) as C. cbn beta in C.
      apply orb_true_iff in C as [C|C]; [apply mem_text_In in C; destruct (E C)|apply ident_eqb_eq in C; exact C].
    + intros ->. apply mem_text_In. vm_compute. reflexivity.
Qed.
Lemma fix_collisions x y : fix_identifier x = fix_identifier y -> x <> y ->
  (keyword x /\ y = fix_identifier x) \/ (keyword y /\ x = fix_identifier y).
Proof.
  unfold fix_identifier, substitute_keyword. destruct (substitute substitutions x) as [x'|] eqn:Ex, (substitute substitutions y) as [y'|] eqn:Ey; intros E Ne.
  - exfalso. apply Ne. clear Ne. apply substitute_some in Ex as (k & s & I & -> & ->). apply substitute_some in Ey as (k' & s' & I' & -> & ->).
    assert (M : forallb (fun p => forallb (fun q => implb (ident_eqb (lit (snd p)) (lit (snd q))) (ident_eqb (lit (fst p)) (lit (fst q)))) substitutions) substitutions = true) by (vm_compute; reflexivity).
    pose proof (proj1 (forallb_forall _ _) M _ I) as M1. pose proof (proj1 (forallb_forall _ _) M1 _ I') as M2. cbn [fst snd] in M2. rewrite E, (proj2 (ident_eqb_eq _ _) eq_refl) in M2.
    cbn [implb] in M2. apply ident_eqb_eq in M2. exact M2.
  - left. split; [|auto]. apply substitute_some in Ex as (k & s & I & -> & _). apply mem_text_In. exact (proj1 (forallb_forall _ _) substituted_keywords _ I).
  - right. split; [|auto]. apply substitute_some in Ey as (k & s & I & -> & _). apply mem_text_In. exact (proj1 (forallb_forall _ _) substituted_keywords _ I).
  - destruct (Ne E).
Qed.
Lemma fix_distinct x y : ~ keyword x -> ~ keyword y -> fix_identifier x = fix_identifier y -> x = y.
Proof.
  intros Kx Ky E. destruct (list_eq_dec Byte.byte_eq_dec x y) as [H|H]; [exact H|]. destruct (fix_collisions x y E H) as [[K _]|[K _]]; tauto.
Qed.
Lemma no_super (q : qident) : ~ In (lit "super") (qident_of q).
Proof.
  intros I. unfold qident_of in I. apply in_map_iff in I as (x & E & _). assert (K : keyword (fix_identifier x)) by (rewrite E; apply mem_text_In; vm_compute; reflexivity).
  apply fix_keyword_iff in K. subst. cbv in E. discriminate E.
Qed.
Lemma distinct_refuted : exists x y, x <> y /\ fix_identifier x = fix_identifier y /\ ~ keyword y.
Proof.
  exists (lit "type"), (lit "ty"). split; [discriminate|]. split; [reflexivity|]. intros K. apply mem_text_In in K. vm_compute in K. discriminate K.
Qed.
Lemma keyword_refuted : exists x, keyword (fix_identifier x).
Proof. exists (lit "try"). apply fix_keyword_iff. reflexivity. Qed.
Lemma accessor_refuted snake : snake (lit "match_") = lit "match" -> keyword (accessor_name snake (lit "match")).
Proof. intros E. unfold accessor_name. change (fix_identifier (lit "match")) with (lit "match_"). rewrite E. apply mem_text_In. vm_compute. reflexivity. Qed.
Lemma emitted_refuted snake : snake (lit "MyGame") <> lit "MyGame" ->
  exists (q : qident) (ns : option qident), q <> [] /\ ~ encloses q (modules_around ns) /\ ~ In (lit "super") q /\
    walk (emitted_modules snake (modules_around ns)) (relative q ns) <> Some (emitted_item snake q).
Proof.
  intros S. exists [lit "MyGame"; lit "T"], None. split; [discriminate|]. split; [intros (l & E); discriminate E|].
  assert (N : ~ In (lit "super") [lit "MyGame"; lit "T"]) by (cbv; intuition discriminate). split; [exact N|].
  rewrite emitted_leads; [|exact N|intros (l & E); discriminate E]. intros H. apply S. apply (H (lit "MyGame")). cbn. auto.
Qed.
Lemma enclosing_refuted : exists q ns : qident, q <> [] /\ relative q (Some ns) = [].
Proof. exists [lit "A"], [lit "A"]. split; [discriminate|reflexivity]. Qed.

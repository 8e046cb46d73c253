(** Schemas that hide no names, and some that do. *)
From Coq Require Import Strings.String ZArith List Bool Lia Strings.Byte.
From Verif Require Import Base BaseFacts Schema Ident SpecIdent IdentProofs Heck HeckProofs GenProofs1 GenProofs8 Codegen Resolve SpecResolve ResolveProofs6 ResolveProofs9 Emit SpecEmit SpecTable Names SpecNames EmitProofs1 EmitProofs2 EmitProofs5 EmitProofs7 EmitProofs9 NameProofs.
Import ListNotations.
Local Open Scope string_scope.
Local Open Scope list_scope.

Lemma prim_in p : In (prim_word p) words.
Proof. destruct p; cbn [prim_word words In]; tauto. Qed.
Lemma type_word_in t w : type_word t w -> In w words.
Proof. induction 1; auto using prim_in; cbn [words In]; tauto. Qed.
Lemma word_in n w : word n w -> In w words.
Proof.
  intros W. destruct W as [t w I|t D|t f If R|t f w If Tw|t f q e vs v w If Tf Iv Tw|e w I|e|u v w Iv Tw]; try (eapply type_word_in; eauto; fail); try apply prim_in.
  2,3: cbn [words In]; tauto.
  all: cbn [words In] in *; tauto.
Qed.
Definition kept (x : ident) : bool := negb (existsb (ident_eqb x) (lit "B" :: map lit words)).
Lemma kept_iff x : kept x = true <-> free_name x.
Proof.
  unfold kept, free_name. rewrite negb_true_iff. split.
  - intros H. split; [intros ->; discriminate H|]. intros I. assert (E : existsb (ident_eqb x) (lit "B" :: map lit words) = true); [|congruence].
    apply existsb_exists. exists x. split; [right; exact I|]. apply ident_eqb_eq. reflexivity.
  - intros [H N]. destruct (existsb _ _) eqn:E; [|reflexivity]. apply existsb_exists in E as (y & [<-|I] & E); apply ident_eqb_eq in E; [congruence|subst; contradiction].
Qed.
Lemma substitute_in x y : substitute substitutions x = Some y -> exists k s, In (k, s) substitutions /\ x = lit k /\ y = lit s.
Proof.
  generalize substitutions as l. induction l as [|[k s] l IH]; cbn [substitute]; [discriminate|]. destruct (ident_eqb x (lit k)) eqn:E.
  - intros H. injection H as <-. exists k, s. apply ident_eqb_eq in E. split; [left; reflexivity|auto].
  - intros H. destruct (IH H) as (k' & s' & I & X & Y). exists k', s'. split; [right; exact I|auto].
Qed.
Lemma fixed_kept : forallb (fun p => kept (lit (snd p)) && negb (existsb (ident_eqb (snake_case (lit (snd p)))) (map lit words))) substitutions = true.
Proof. vm_compute. reflexivity. Qed.
Lemma fix_free x : free_name x -> free_name (fix_identifier x).
Proof.
  intros F. unfold fix_identifier, substitute_keyword. destruct (substitute substitutions x) as [y|] eqn:E; [|exact F].
  apply substitute_in in E as (k & s & I & _ & ->). apply kept_iff. pose proof fixed_kept as K. rewrite forallb_forall in K. specialize (K _ I). cbn [snd] in K. apply andb_true_iff in K. tauto.
Qed.
Lemma fix_module x : x <> lit "B" -> ~ In (snake_case x) (map lit words) -> fix_identifier x <> lit "B" /\ ~ In (snake_case (fix_identifier x)) (map lit words).
Proof.
  intros H N. unfold fix_identifier, substitute_keyword. destruct (substitute substitutions x) as [y|] eqn:E; [|auto].
  apply substitute_in in E as (k & s & I & _ & ->). pose proof fixed_kept as K. rewrite forallb_forall in K. specialize (K _ I). cbn [snd] in K. apply andb_true_iff in K as [K1 K2].
  apply kept_iff in K1. split; [apply K1|]. intros J. apply negb_true_iff in K2. assert (X : existsb (ident_eqb (snake_case (lit s))) (map lit words) = true); [|congruence].
  apply existsb_exists. exists (snake_case (lit s)). split; [exact J|]. apply ident_eqb_eq. reflexivity.
Qed.
Lemma ends_free x s : In s ["Args"; "Builder"; "Type"] -> free_name (x ++ lit s).
Proof.
  intros S. assert (R : forall w, In w ("B" :: words) -> x ++ lit s <> lit w).
  { intros w I E. apply (f_equal (@rev byte)) in E. rewrite rev_app_distr in E. cbn [words In] in I.
    destruct S as [<-|[<-|[<-|[]]]]; repeat (destruct I as [<-|I]; [discriminate E|]); destruct I. }
  split; [apply (R "B"); left; reflexivity|]. intros I. apply in_map_iff in I as (w & E & I). apply (R w); [right; exact I|auto].
Qed.

Section Free.
Context (es : list element) (root : list node) (B : build snake_case es = Done root) (F : forall e, In e es -> free_names e).

Definition free_module (x : ident) : Prop := x <> lit "B" /\ ~ In (snake_case x) (map lit words).
Lemma prefix_free i prefix : prefix = written_prefix es i \/ prefix = last_prefix es -> Forall free_module prefix.
Proof.
  intros P. assert (E : exists l, incl l es /\ prefix = prefix_of (namespace_after None l)).
  { destruct P as [->| ->]; [exists (firstn i es); split; [intros x; apply In_firstn|reflexivity]|exists es; split; [apply incl_refl|reflexivity]]. }
  destruct E as (l & I & ->). destruct (namespace_after None l) as [q|] eqn:N; [|constructor]. apply namespace_after_in in N as [N|(d & N)]; [discriminate|].
  pose proof (F _ (I _ N)) as U. cbn [free_names] in U. cbn [prefix_of]. unfold qident_of. apply Forall_forall. intros x J. apply in_map_iff in J as (y & <- & J).
  destruct (U y J). apply fix_module; assumption.
Qed.
Lemma gen_free : free_module (lit "butte_gen").
Proof. split; [discriminate|]. intros I. cbn in I. repeat (destruct I as [I|I]; [discriminate I|]). destruct I. Qed.
Lemma declared_free q : declared_in es q -> free_name (last q []) /\ ~ In (lit "B") q.
Proof.
  intros (i & e & prefix & N & D & P). pose proof (prefix_free i prefix P) as G. pose proof (F e (nth_error_In _ _ N)) as U.
  assert (Gb : ~ In (lit "B") prefix) by (intros I; rewrite Forall_forall in G; destruct (G _ I); congruence).
  assert (L : forall id, free_name id -> free_name (last (local_name prefix id) []) /\ ~ In (lit "B") (local_name prefix id)).
  { intros id Ui. apply fix_free in Ui. unfold local_name. rewrite last_last. split; [exact Ui|]. rewrite in_app_iff. intros [J|[J|[]]]; [auto|]. destruct Ui as [Ui _]. congruence. }
  destruct e; cbn [declared_names In free_names] in *; try contradiction.
  - destruct D as [<-|[]]. auto.
  - destruct D as [<-|[]]. auto.
  - destruct D as [<-|[]]. auto.
  - destruct D as [<-|[<-|[]]]; [auto|]. unfold companion_name.
    assert (T : free_name (fix_identifier (au_id u ++ lit "Type"))) by (apply fix_free, ends_free; cbn [In]; tauto).
    change ([lit "butte_gen"; fix_identifier (au_id u ++ lit "Type")]) with ([lit "butte_gen"] ++ [fix_identifier (au_id u ++ lit "Type")]). rewrite app_assoc, last_last.
    split; [exact T|]. rewrite !in_app_iff. destruct T as [T _]. intros [[J|[J|[]]]|[J|[]]]; [auto|discriminate J|congruence].
Qed.
Lemma contents_free p n : In (p, n) (all_contents root) -> Forall free_module p.
Proof.
  intros I. destruct (node_source snake_case es root B) as (place & roots & outs & R & _ & _ & S). destruct (S p n I) as (i & e & out & N & Dc & In_ & <-).
  assert (G : Forall free_module (place i)).
  { apply (prefix_free i). apply (res_place _ _ _ _ _ R). apply nth_error_Some. congruence. }
  inversion Dc; subst; cbn [In] in In_; repeat match goal with H : _ \/ _ |- _ => destruct H as [<-|H] end; try contradiction; cbn [module_of it_id is_id ie_id iu_id ir_id]; unfold local_name;
    try (rewrite removelast_last; exact G).
  unfold companion_name. replace (place i ++ [lit "butte_gen"; fix_identifier (au_id u ++ lit "Type")]) with ((place i ++ [lit "butte_gen"]) ++ [fix_identifier (au_id u ++ lit "Type")]) by (rewrite <- app_assoc; reflexivity).
  rewrite removelast_last. apply Forall_app. split; [exact G|]. constructor; [exact gen_free|constructor].
Qed.
Lemma defined_free q c : In (q, c) (defined root) -> free_name (last q []) /\ ~ In (lit "B") q.
Proof. intros I. destruct (def_source snake_case es root B q c I) as (i & e & prefix & N & D & P). apply declared_free. exists i, e, prefix. auto. Qed.
Lemma mention_free p n q c : In (p, n) (all_contents root) -> In (q, c) (mentions n) -> ~ In (lit "B") q.
Proof.
  intros I M. destruct (mentioned snake_case es root p n q c B I M) as [D|(-> & j & t & N & -> & _)]; [apply (defined_free _ _ D)|].
  refine (proj2 (declared_free _ _)). exists j, (ETable t), (written_prefix es j). split; [exact N|]. split; [left; reflexivity|auto].
Qed.
Theorem free_hides_nothing : hides_nothing snake_case root.
Proof.
  constructor.
  - intros p t I E. assert (D : In (it_id t, KTable) (defined root)) by (apply (defined_contents root); exists p, (NTable t); split; [exact I|left; reflexivity]).
    destruct (defined_free _ _ D) as [[X _] _]. exact (X E).
  - intros p t q I A rest ->. assert (Bq : In (lit "B") (p ++ lit "B" :: rest)) by (apply in_or_app; right; left; reflexivity). revert Bq.
    assert (M : forall f m c, In f (it_fields t) -> In (m, c) (ty_mentions (if_ty f)) -> In (m, c) (mentions (NTable t))) by (intros f m c If Im; cbn [mentions]; apply in_flat_map; eauto).
    destruct A as [f q c If Iq|f q e vs If T|f q e vs v m c If T Iv Im].
    + exact (mention_free p _ _ _ I (M f _ _ If Iq)).
    + assert (D : In (q, KUnion e vs) (mentions (NTable t))) by (apply (M f); [exact If|rewrite T; left; reflexivity]).
      destruct (mentioned snake_case es root p _ _ _ B I D) as [K|(K & _)]; [|discriminate]. destruct (union_node root _ _ _ K) as (pu & nu & Iu & <- & _).
      destruct (node_source snake_case es root B) as (place & roots & outs & R & _ & _ & S). destruct (S pu _ Iu) as (i & el & out & N & Dc & In_ & _).
      inversion Dc; subst; cbn [In] in In_; repeat match goal with H : _ \/ _ |- _ => destruct H as [H|H] end; try discriminate; try contradiction.
      injection In_ as <-. cbn [iu_enum]. refine (proj2 (declared_free _ _)). exists i, (EUnion u), (place i). split; [exact N|]. split; [right; left; reflexivity|].
      apply (res_place _ _ _ _ _ R). apply nth_error_Some. congruence.
    + assert (D : In (q, KUnion e vs) (mentions (NTable t))) by (apply (M f); [exact If|rewrite T; left; reflexivity]).
      destruct (mentioned snake_case es root p _ _ _ B I D) as [K|(K & _)]; [|discriminate]. destruct (union_node root _ _ _ K) as (pu & nu & Iu & _ & Ev).
      apply (mention_free pu (NUnion nu) m c Iu). cbn [mentions]. apply in_flat_map. exists v. rewrite Ev. auto.
  - intros p n w I W N. apply word_in in W. apply (in_map lit) in W. remember (lit w) as x eqn:E. clear E w. destruct N as [x c D|x s D Is|a A].
    + apply defined_free in D as [[_ D] _]. rewrite last_last in D. contradiction.
    + assert (Z : free_name (x ++ lit s)) by (apply ends_free; cbn [In] in *; tauto). destruct Z. contradiction.
    + destruct A as (q & m & Im & r & ->). apply contents_free in Im. apply Forall_app in Im as [Im _]. apply Forall_app in Im as [_ Im]. inversion Im as [|? ? X _]; subst. destruct X. contradiction.
Qed.
End Free.

(** ** Examples *)
Definition hidden_in (hg : host) (es : list element) : Prop := exists root p nodes its n u, build snake_case es = Done root /\ module_nodes root p nodes /\
  sample_emit hg nodes = Some its /\ In n nodes /\ In u (node_uses n) /\ hidden its u.
Definition hidden_b (its : list item) (u : use) : bool :=
  match u_path u with
  | [] => false
  | x :: _ => existsb (ident_eqb x) (u_params u) || (match u_means u with Std => true | _ => false end && existsb (ident_eqb x) (type_names its))
  end.
Lemma hidden_b_true its u : hidden_b its u = true -> hidden its u.
Proof.
  unfold hidden_b, hidden. destruct (u_path u) as [|x r]; [discriminate|]. intros H. exists x, r. split; [reflexivity|].
  assert (E : forall l, existsb (ident_eqb x) l = true -> In x l) by (intros l E; apply existsb_exists in E as (y & I & E); apply ident_eqb_eq in E as ->; exact I).
  apply orb_true_iff in H as [H|H]; [left; auto|right]. apply andb_true_iff in H as [M H]. destruct (u_means u); [auto|discriminate M].
Qed.
Lemma shown hg es p root nodes its : build snake_case es = Done root -> module_nodes root p nodes -> sample_emit hg nodes = Some its ->
  existsb (fun n => existsb (hidden_b its) (node_uses n)) nodes = true -> hidden_in hg es.
Proof.
  intros B M E H. apply existsb_exists in H as (n & I & H). apply existsb_exists in H as (u & U & H). exists root, p, nodes, its, n, u. apply hidden_b_true in H. auto 10.
Qed.
Lemma hiding_refuted hg es : In es hiding -> hidden_in hg es.
Proof.
  intros I. unfold hiding in I.
  assert (H : forall es, match build snake_case es with
    | Done root => match sample_emit hg root with Some its => existsb (fun n => existsb (hidden_b its) (node_uses n)) root | None => false end | _ => false end = true -> hidden_in hg es).
  { clear. intros es H. destruct (build snake_case es) as [root| |] eqn:B; try discriminate H. destruct (sample_emit hg root) as [its|] eqn:E; [|discriminate H].
    eapply (shown hg es []); eauto. constructor. }
  do 2 (destruct I as [<-|I]; [apply H; vm_compute; reflexivity|]). destruct I as [<-|I].
  - eapply (shown hg _ [lit "z"]); [vm_compute; reflexivity|eapply (nodes_inner _ [lit "z"]); [left; reflexivity|constructor]|vm_compute; reflexivity|vm_compute; reflexivity].
  - repeat (destruct I as [<-|I]; [apply H; vm_compute; reflexivity|]). destruct I.
Qed.
Lemma host_free : forall e, In e host_schema -> free_names e.
Proof.
  intros e I. destruct I as [<-|[<-|[<-|[<-|[<-|[]]]]]]; cbn [free_names ap_id ae_id au_id]; try (apply kept_iff; vm_compute; reflexivity).
  intros x [<-|[<-|[]]]; (split; [discriminate|]); intros I; vm_compute in I; repeat (destruct I as [I|I]; [discriminate I|]); destruct I.
Qed.
Lemma host_names : build snake_case host_schema = Done host_root /\ (exists items, sample_emit (Host true false) host_root = Some items) /\
  (forall e, In e host_schema -> free_names e) /\ hides_nothing snake_case host_root.
Proof.
  split; [exact host_build|]. split; [|split; [exact host_free|exact (free_hides_nothing _ _ host_build host_free)]].
  destruct (sample_emit (Host true false) host_root) as [items|] eqn:E; [eauto|vm_compute in E; discriminate E].
Qed.

(** Schemas that are written out and schemas that are not, for the examples of
    C57. *)
From Coq Require Import Strings.String ZArith List Bool Lia Strings.Byte.
From Verif Require Import Base Schema Ident SpecIdent IdentProofs Parser Resolve SpecResolve Heck HeckProofs Emit SpecEmit SpecPaths SpecWrite EmitProofs6 EmitProofs8 EmitProofs9 EmitProofs12 GenProofs8 EmitCase.
Import ListNotations.
Local Open Scope string_scope.
Local Open Scope list_scope.

(** Stand-ins for proc-macro2 and syn without the feature that admits [try]; every
    float can be printed. *)
Definition plain_segment (x : ident) : bool :=
  negb (ident_eqb x (lit "_")) && (ident_eqb x (lit "super") || negb (mem_text x (map lit rust_keywords))).
Definition plain_path (q : qident) : bool := match q with [] => false | _ => forallb plain_segment q end.
Definition any_float (b : Z) (p : prim) : bool := true.
Lemma plain_decides : decides false any_float sample_ident plain_path sample_literal.
Proof.
  constructor.
  - intros x N. destruct x as [|c r]; cbn [sample_ident].
    + split; [discriminate|]. intros [_ (c & r & E & _)]. discriminate.
    + split.
      * intros E. split; [exact N|]. exists c, r. split; [reflexivity|]. intros I. apply sample_digit in I. rewrite I in E. discriminate.
      * intros [_ (c' & r' & E & D)]. injection E as <- <-. destruct (existsb _ _) eqn:X; [apply sample_digit in X; contradiction|reflexivity].
  - intros n q _ S. assert (G : forallb plain_segment (repeat (lit "super") n ++ q) = true <-> Forall (path_name false) q).
    { rewrite forallb_app. assert (R : forallb plain_segment (repeat (lit "super") n) = true) by (induction n as [|n IH]; [reflexivity|cbn [repeat forallb]; rewrite IH; reflexivity]).
      match goal with |- (?a && _ = true) <-> _ => replace a with true by (symmetry; exact R) end. cbn [andb]. rewrite forallb_forall, Forall_forall. split; intros H x I; specialize (H x I).
      - unfold plain_segment in H. apply andb_prop in H as [H K]. split.
        + intros ->. discriminate H.
        + intros Ky. apply mem_text_In in Ky. rewrite Ky in K. cbn [negb] in K. rewrite orb_false_r in K. apply ident_eqb_eq in K. subst x. exfalso. eapply S; [|exact I]. right. right. left. reflexivity.
      - destruct H as [U K]. unfold plain_segment. apply andb_true_intro. split.
        + apply negb_true_iff. destruct (ident_eqb x (lit "_")) eqn:E; [apply ident_eqb_eq in E; contradiction|reflexivity].
        + destruct (mem_text x (map lit rust_keywords)) eqn:E; [|apply orb_true_r]. apply mem_text_In in E. destruct (K E) as [_ X]. discriminate. }
    unfold plain_path. destruct (_ ++ _) as [|a l] eqn:E.
    + apply app_eq_nil in E as [R ->]. destruct n; [|discriminate]. split; [discriminate|]. intros [[X|X] _]; [lia|destruct (X eq_refl)].
    + rewrite G. split; [|tauto]. intros F. split; [|exact F]. destruct n; [|left; lia]. right. cbn in E. rewrite E. discriminate.
  - reflexivity.
  - reflexivity.
  - intros c w ns t N. destruct t; try reflexivity. exfalso. eapply N. reflexivity.
Qed.
Definition plain_emit (hg : host) (root : list node) : option (list item) :=
  emit snake_case shouty_snake_case sample_ident plain_path sample_literal hg root.

Definition one_field (name : string) (id : string) (t : aty) (d : option default_value) : element :=
  ETable (AProduct (lit name) [AField (lit id) t d None []] None []).
(** Against the conditions one by one: a struct; a namespace and a field without a
    letter in front; a type named like the namespace it is used in; a type [_]; an
    enum with a number as its default, a scalar with a name, and an enum with a
    truth value. *)
Definition unwritten : list (list element) :=
  [[EStruct (AProduct (lit "S") [] None [])];
   [in_space "_1"; empty_table "Orc"];
   [one_field "Orc" "__" AString None];
   [in_space "a"; empty_table "Orc"; ENamespace [lit "a"; lit "Orc"] []; one_field "Elf" "o" (AIdent [lit "a"; lit "Orc"]) None];
   [empty_table "_"; one_field "Elf" "o" (AIdent [lit "_"]) None];
   [small_enum "Kind"; one_field "Elf" "kind" (AIdent [lit "Kind"]) (Some (DScalar (CInt 0)))];
   [one_field "Elf" "age" (APrim Int) (Some (DIdent (lit "Old")))];
   [small_enum "Kind"; one_field "Elf" "kind" (AIdent [lit "Kind"]) (Some (DScalar (CBool true)))]].
Definition names_ok (es : list element) : bool :=
  forallb (fun e => forallb (fun x => forallb namec x && sample_ident x) (names_in e)) es.
Lemma names_checked es : names_ok es = true -> forall e x, In e es -> In x (names_in e) -> ascii_name x.
Proof.
  intros H e x I J. unfold names_ok in H. rewrite forallb_forall in H. specialize (H e I). rewrite forallb_forall in H. specialize (H x J).
  apply andb_prop in H as [N S]. assert (T : name_text x) by (apply name_text_check; exact N). apply (dc_ident _ _ _ _ _ plain_decides x T). exact S.
Qed.
Lemma unwritten_panics hg : forall es, In es unwritten -> (forall e x, In e es -> In x (names_in e) -> ascii_name x) /\
  exists root, build snake_case es = Done root /\ plain_emit hg root = None.
Proof.
  intros es I. split.
  - apply names_checked. assert (A : forallb names_ok unwritten = true) by (vm_compute; reflexivity). rewrite forallb_forall in A. apply A. exact I.
  - destruct hg as [[] []]; unfold unwritten in I; repeat destruct I as [<-|I]; try contradiction; eexists; (split; [vm_compute; reflexivity|vm_compute; reflexivity]).
Qed.
(** A required string beside it, and the name as the default of a scalar is
    written; a type can be named like a namespace further out. *)
Definition written : list (list element) :=
  [game;
   [ETable (AProduct (lit "Elf") [AField (lit "age") (APrim Int) (Some (DIdent (lit "Old"))) None [];
                                  AField (lit "name") AString None (Some [(lit "required", None)]) []] None [])];
   [in_space "a"; empty_table "Orc"; ENamespace [lit "a"; lit "Orc"; lit "b"] []; one_field "Elf" "o" (AIdent [lit "a"; lit "Orc"]) None]].
Lemma written_emits hg : forall es, In es written -> (forall e x, In e es -> In x (names_in e) -> ascii_name x) /\
  exists root items, build snake_case es = Done root /\ plain_emit hg root = Some items.
Proof.
  intros es I. split.
  - apply names_checked. assert (A : forallb names_ok written = true) by (vm_compute; reflexivity). rewrite forallb_forall in A. apply A. exact I.
  - destruct hg as [[] []]; unfold written in I; repeat destruct I as [<-|I]; try contradiction; eexists; eexists; (split; [vm_compute; reflexivity|vm_compute; reflexivity]).
Qed.

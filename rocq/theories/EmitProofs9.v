(** Examples of emitted code. *)
From Coq Require Import Strings.String ZArith List Bool Lia Strings.Byte Permutation.
From Verif Require Import Base BaseFacts Schema Ident SpecIdent IdentProofs Parser Heck HeckProofs Codegen GenProofs8 Resolve SpecResolve Emit SpecEmit EmitProofs1 EmitProofs6 EmitProofs7 EmitProofs8.
Import ListNotations.
Local Open Scope string_scope.
Local Open Scope list_scope.
Local Open Scope nat_scope.

(** Stand-ins for proc-macro2 and syn. *)
Definition sample_ident (x : ident) : bool := match x with [] => false | c :: _ => negb (existsb (Byte.eqb c) (lit "0123456789")) end.
Definition sample_path (q : qident) : bool := match q with [] => false | _ => forallb sample_ident q end.
Definition sample_literal (c : scalar_const) (wrapped : bool) (ns : option qident) (t : ity) : bool := match t with IPrim _ => true | _ => false end.
Lemma sample_digit c : existsb (Byte.eqb c) (lit "0123456789") = true <-> In c (lit "0123456789").
Proof.
  rewrite existsb_exists. split; [intros (d & I & E); apply Byte.byte_dec_bl in E as ->; exact I|]. intros I. exists c. split; [exact I|]. apply Byte.byte_dec_lb. reflexivity.
Qed.
Lemma sample_valid x : rust_name x -> sample_ident x = true.
Proof.
  intros (_ & (c & r & -> & S) & _). cbn [sample_ident]. destruct (existsb _ _) eqn:E; [apply sample_digit in E; contradiction|reflexivity].
Qed.
Lemma sample_accepts : accepts sample_ident sample_path sample_literal.
Proof.
  split.
  - intros c r _ D. cbn [sample_ident]. destruct (existsb _ _) eqn:E; [apply sample_digit in E; contradiction|reflexivity].
  - intros n q Ne F. assert (G : forallb sample_ident (repeat (lit "super") n ++ q) = true).
    { rewrite forallb_app. apply andb_true_intro. split; [induction n; [reflexivity|exact IHn]|]. apply forallb_forall. intros x I. rewrite Forall_forall in F. apply sample_valid. auto. }
    unfold sample_path. destruct (_ ++ _) eqn:E; [apply app_eq_nil in E as [_ ->]; congruence|exact G].
  - intros i p w ns. reflexivity.
  - intros p w ns. reflexivity.
Qed.
Lemma sample_rejects : rejects sample_ident sample_literal.
Proof.
  split; [reflexivity| |].
  - intros c r I. cbn [sample_ident]. rewrite (proj2 (sample_digit c) I). reflexivity.
  - intros c w ns t N. destruct t; try reflexivity. exfalso. eapply N. reflexivity.
Qed.

Definition empty_table (name : string) : element := ETable (AProduct (lit name) [] None []).
Definition small_enum (name : string) : element := EEnum (AEnum (lit name) [] (APrim UByte) None []).
Definition in_space (name : string) : element := ENamespace [lit name] [].
Definition sample_emit (hg : host) (root : list node) : option (list item) :=
  emit snake_case shouty_snake_case sample_ident sample_path sample_literal hg root.

Lemma struct_refuted snake shouty ident_ok path_ok literal_ok hg : exists es root, build snake es = Done root /\
  emit snake shouty ident_ok path_ok literal_ok hg root = None.
Proof. exists [EStruct (AProduct (lit "S") [] None [])]. eexists. split; reflexivity. Qed.

Definition clashing : list (list element) :=
  [[empty_table "Orc"; empty_table "OrcArgs"];
   [in_space "fooBar"; empty_table "Orc"; in_space "foo_bar"; empty_table "Elf"];
   [small_enum "HitPoints"; small_enum "hitPoints"];
   [empty_table "orc"; in_space "orc"; empty_table "Elf"]].
Lemma clash_refuted hg : forall es, In es clashing -> exists root items, build snake_case es = Done root /\ sample_emit hg root = Some items /\ ~ no_clash items.
Proof.
  intros es I. destruct I as [<-|[<-|[<-|[<-|[]]]]]; (eexists; eexists; split; [reflexivity|]; split; [vm_compute; reflexivity|]);
    intros N; destruct (N [] _ (at_here _)) as [T F]; vm_compute in T, F.
  - inversion T as [|? ? _ T']; subst. inversion T' as [|? ? X _]; subst. apply X. right. left. reflexivity.
  - inversion T as [|? ? X _]; subst. apply X. left. reflexivity.
  - inversion F as [|? ? X _]; subst. apply X. left. reflexivity.
  - inversion T as [|? ? X T1]; subst. apply X. cbn. auto 8.
Qed.

(** [namespace MyGame; table Orc {} namespace other; table Elf { foe : MyGame.Orc; }] *)
Definition two_spaces : list element :=
  [in_space "MyGame"; empty_table "Orc"; in_space "other";
   ETable (AProduct (lit "Elf") [AField (lit "foe") (AIdent [lit "MyGame"; lit "Orc"]) None None []] None [])].
Lemma path_refuted hg : exists root items here f name paths path k, build snake_case two_spaces = Done root /\ sample_emit hg root = Some items /\
  module_at items here f /\ In (XType RTable name paths) f /\ In (path, k) paths /\ ~ leads items here path k.
Proof.
  eexists. eexists. exists [lit "other"]. eexists. exists (lit "Elf"). eexists. exists [lit "super"; lit "MyGame"; lit "Orc"], RTable.
  split; [reflexivity|]. split; [vm_compute; reflexivity|]. split; [econstructor; [|constructor]; right; left; reflexivity|].
  split; [left; reflexivity|]. split; [left; reflexivity|]. intros (mods & x & found & p & W & M & I).
  vm_compute in W. injection W as W. destruct mods as [|a [|b mods]]; try discriminate W.
  - injection W as <- W. inversion M as [|? ? inner ? ? Im]; subst. cbn in Im. intuition discriminate.
  - injection W as <- <- W. apply (f_equal (@length _)) in W. rewrite app_length in W. cbn in W. lia.
Qed.

(** [namespace a.b; enum Color : ubyte { Red } union U { Orc, Elf } table Orc {
    name : string; hp : short = 100; color : Color = Red; foes : [Elf]; u : U; }
    table Elf { friend : Orc; }] *)
Definition plain_field (name : string) (ty : aty) : afield := AField (lit name) ty None None [].
Definition host_schema : list element :=
  [ENamespace [lit "a"; lit "b"] [];
   EEnum (AEnum (lit "Color") [AVariant (lit "Red") None []] (APrim UByte) None []);
   EUnion (AUnion (lit "U") [AVariant (lit "Orc") None []; AVariant (lit "Elf") None []] None []);
   ETable (AProduct (lit "Orc") [plain_field "name" AString; AField (lit "hp") (APrim Short) (Some (DScalar (CInt 100))) None [];
     AField (lit "color") (AIdent [lit "Color"]) (Some (DIdent (lit "Red"))) None [];
     plain_field "foes" (AArray (AIdent [lit "Elf"])); plain_field "u" (AIdent [lit "U"])] None []);
   ETable (AProduct (lit "Elf") [plain_field "friend" (AIdent [lit "Orc"])] None [])].
Definition host_root : list node := match build snake_case host_schema with Done r => r | _ => [] end.
Lemma host_build : build snake_case host_schema = Done host_root.
Proof. vm_compute. reflexivity. Qed.
Lemma usable_lit s : forallb namec (lit s) = true -> match lit s with c :: _ => negb (existsb (Byte.eqb c) (lit "_0123456789")) | [] => false end = true -> lit s <> lit "try" -> usable (lit s).
Proof.
  intros N L T. split; [apply lit_name; exact N|]. split; [|exact T]. destruct (lit s) as [|c r]; [discriminate|]. exists [], c, r. split; [reflexivity|]. split; [constructor|].
  intros I. apply negb_true_iff in L. assert (X : existsb (Byte.eqb c) (lit "_0123456789") = true); [|congruence]. apply existsb_exists. exists c. split; [exact I|]. apply Byte.byte_dec_lb. reflexivity.
Qed.
Ltac use := apply usable_lit; [reflexivity|reflexivity|discriminate].
Lemma host_emittable : forall e, In e host_schema -> emittable sample_literal e.
Proof.
  intros e I. destruct I as [<-|[<-|[<-|[<-|[<-|[]]]]]]; cbn [emittable ae_id ae_variants au_id au_variants ap_id ap_fields].
  - constructor; [use|constructor; [use|constructor]].
  - split; [use|constructor; [use|constructor]].
  - split; [use|constructor; [use|constructor; [use|constructor]]].
  - split; [use|]. repeat (apply Forall_cons; [split; [use|]|]); try apply Forall_nil; cbn [af_ty af_default plain_field default_fits]; try exact Logic.I; [intros w ns; reflexivity|use].
  - split; [use|]. repeat (apply Forall_cons; [split; [use|]|]); try apply Forall_nil; exact Logic.I.
Qed.
Lemma host_declared : forall q, declared_in host_schema q -> ~ namespace_in host_root q.
Proof.
  intros q (i & e & prefix & N & D & P) (p & n & I & r & E).
  assert (Lp : p = [lit "a"; lit "b"] \/ p = [lit "a"; lit "b"; lit "butte_gen"]).
  { assert (F : forallb (fun x => qident_eqb (fst x) [lit "a"; lit "b"] || qident_eqb (fst x) [lit "a"; lit "b"; lit "butte_gen"]) (all_contents host_root) = true) by (vm_compute; reflexivity).
    rewrite forallb_forall in F. specialize (F _ I). cbn [fst] in F. apply orb_true_iff in F as [F|F]; [left|right]; exact (proj1 (qident_eqb_eq _ _) F). }
  assert (Q : e = ENamespace [lit "a"; lit "b"] [] \/ prefix = [lit "a"; lit "b"]).
  { destruct i as [|[|[|[|[|i]]]]]; [left; injection N as <-; reflexivity|right; destruct P as [->| ->]; reflexivity..|destruct i; discriminate N]. }
  destruct Q as [->| ->]; [destruct D|]. assert (L : length q <= length p) by (rewrite E, app_length; lia).
  destruct i as [|[|[|[|[|i]]]]]; try (injection N as <-); [..|destruct i; discriminate N]; cbn in D;
    repeat destruct D as [<-|D]; try destruct D; destruct Lp as [->| ->]; cbn in L; try lia; discriminate E.
Qed.
Lemma host_slots p t : In (p, NTable t) (all_contents host_root) -> (Z.of_nat (length (it_fields t)) <= most_fields)%Z.
Proof.
  intros I. assert (F : forallb (fun x => match snd x with NTable t => (Z.of_nat (length (it_fields t)) <=? most_fields)%Z | _ => true end) (all_contents host_root) = true) by (vm_compute; reflexivity).
  rewrite forallb_forall in F. specialize (F _ I). cbn [snd] in F. apply Z.leb_le. exact F.
Qed.
Lemma host_one_namespace : one_namespace [lit "a"; lit "b"] host_schema.
Proof. split; [reflexivity|]. intros [|[|[|[|[|i]]]]] e N Ns; try reflexivity; [injection N as <-; discriminate Ns|destruct i; discriminate N]. Qed.
Lemma host_emits : option_map (fun l => map type_names (l :: flat_map (fun x => match x with XMod _ i => i :: flat_map (fun y => match y with XMod _ j => [j] | _ => [] end) i | _ => [] end) l)) (sample_emit (Host true false) host_root) =
  Some [[lit "a"]; [lit "b"]; [lit "butte_gen"; lit "Color"; lit "U"; lit "Orc"; lit "OrcArgs"; lit "OrcBuilder"; lit "Elf"; lit "ElfArgs"; lit "ElfBuilder"]].
Proof. vm_compute. reflexivity. Qed.
Lemma host_paths : one_namespace [lit "a"; lit "b"] host_schema /\ build snake_case host_schema = Done host_root /\
  (exists items, sample_emit (Host true false) host_root = Some items /\
   exists inner found paths, In (XMod (lit "a") inner) items /\ In (XMod (lit "b") found) inner /\ In (XType RTable (lit "Orc") paths) found /\
     In ([lit "butte_gen"; lit "UType"], REnum) paths /\ In ([lit "Elf"], RTable) paths).
Proof.
  split; [exact host_one_namespace|]. split; [exact host_build|]. destruct (sample_emit (Host true false) host_root) as [items|] eqn:E; [|vm_compute in E; discriminate E].
  exists items. split; [reflexivity|]. vm_compute in E. injection E as <-. eexists. eexists. eexists. split; [left; reflexivity|]. split; [left; reflexivity|].
  split; [cbn [In]; auto 10|]. cbn. split; tauto.
Qed.

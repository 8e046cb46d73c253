(** A schema with two namespaces, for the examples of C59. *)
From Coq Require Import Strings.String ZArith List Bool Lia Strings.Byte.
From Verif Require Import Base Schema Ident SpecIdent Resolve SpecResolve Heck Emit SpecEmit SpecPaths EmitProofs8 EmitProofs9.
Import ListNotations.
Local Open Scope string_scope.
Local Open Scope list_scope.

(** [namespace my_game.units; table Orc { } namespace my_game.maps; enum Kind :
    ubyte { Cave } table Map { orcs : [my_game.units.Orc]; kind : Kind; }]. *)
Definition game : list element :=
  [ENamespace [lit "my_game"; lit "units"] []; empty_table "Orc"; ENamespace [lit "my_game"; lit "maps"] [];
   EEnum (AEnum (lit "Kind") [AVariant (lit "Cave") None []] (APrim UByte) None []);
   ETable (AProduct (lit "Map") [AField (lit "orcs") (AArray (AIdent [lit "my_game"; lit "units"; lit "Orc"])) None None [];
                                 AField (lit "kind") (AIdent [lit "Kind"]) None None []] None [])].
Definition game_root : list node := match build snake_case game with Done r => r | _ => [] end.
Lemma game_build : build snake_case game = Done game_root.
Proof. vm_compute. reflexivity. Qed.
Lemma game_contents p n : In (p, n) (all_contents game_root) -> p = [lit "my_game"; lit "units"] \/ p = [lit "my_game"; lit "maps"].
Proof. intros I. vm_compute in I. intuition (match goal with H : (_, _) = (_, _) |- _ => injection H as <- _ end; auto). Qed.
Lemma game_spaces p a : namespace_in game_root (p ++ [a]) -> (p, a) = ([], lit "my_game") \/ (p, a) = ([lit "my_game"], lit "units") \/ (p, a) = ([lit "my_game"], lit "maps").
Proof.
  intros (q & n & I & l & E). apply game_contents in I. rewrite <- app_assoc in E. cbn [app] in E.
  destruct I as [->| ->]; destruct p as [|x [|y p]]; cbn [app] in E; injection E; intros; subst; auto;
    apply (f_equal (@length _)) in H; rewrite app_length in H; cbn [length] in H; lia.
Qed.
Lemma game_defined q c : In (q, c) (defined game_root) -> In (q, c) [([lit "my_game"; lit "maps"; lit "Kind"], KEnum [IEnumV (lit "Cave") None []] UByte);
  ([lit "my_game"; lit "units"; lit "Orc"], KTable); ([lit "my_game"; lit "maps"; lit "Map"], KTable)].
Proof. intros I. vm_compute in I. vm_compute. tauto. Qed.
Ltac cases_of H := cbn [In] in H; repeat match type of H with _ \/ _ => destruct H as [H|H] end; try contradiction.
Lemma game_clash_free : clash_free snake_case game_root.
Proof.
  constructor.
  - intros q s I Is J. apply game_defined in I. cases_of I; try discriminate I; injection I as <-; cases_of Is; subst s; vm_compute in J; intuition discriminate.
  - intros p a b A B E. apply game_spaces in A, B. destruct A as [A|[A|A]], B as [B|[B|B]]; pose proof (f_equal fst A) as A1; pose proof (f_equal snd A) as A2; pose proof (f_equal fst B) as B1; pose proof (f_equal snd B) as B2; cbn [fst snd] in *; subst; try discriminate B1; try reflexivity; vm_compute in E; discriminate E.
  - intros p a q c A I. apply game_spaces in A. apply game_defined in I. destruct A as [A|[A|A]]; injection A as -> ->; cases_of I; injection I as <- <-;
      (split; [intros X; vm_compute in X; discriminate X|intros _ s Is X; cases_of Is; subst s; vm_compute in X; discriminate X]).
  - intros q1 q2 vs1 b1 vs2 b2 I J _ _. apply game_defined in I, J. cases_of I; cases_of J; try discriminate I; try discriminate J. congruence.
Qed.
Lemma game_idempotent d a : namespace_in game_root (d ++ [a]) -> snake_case (snake_case a) = snake_case a.
Proof. intros A. apply game_spaces in A. destruct A as [A|[A|A]]; injection A as -> ->; reflexivity. Qed.
Lemma game_mentions p n q c : In (p, n) (all_contents game_root) -> In (q, c) (mentions n) -> In (q, c) (defined game_root).
Proof. intros I M. vm_compute in I. cases_of I; injection I as <- <-; vm_compute in M |- *; tauto. Qed.
Lemma game_emits hg : exists items, sample_emit hg game_root = Some items.
Proof. destruct hg as [[] []]; vm_compute; eauto. Qed.
Lemma game_spelled : flat_map (fun x => map (fun u => (fst x, u)) (spelled (snd x))) (all_contents game_root) =
  [([lit "my_game"; lit "maps"], ([lit "my_game"; lit "units"; lit "Orc"], RTable)); ([lit "my_game"; lit "maps"], ([lit "my_game"; lit "maps"; lit "Kind"], REnum))].
Proof. vm_compute. reflexivity. Qed.

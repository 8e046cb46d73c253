(** A later version of the schema of DocCase.v, and a document in its words. *)
From Coq Require Import Strings.String ZArith List Bool Lia Strings.Byte.
From Verif Require Import Base Scalar SpecWire Reader SpecReader Builder Ops Schema Ident Heck Codegen Parser Resolve Compile SpecResolve SpecEvolve SpecGen SpecTable SpecDoc
  GenProofs9 EvolveProofs1 DocProofs1 DocCase.
Import ListNotations.
Local Open Scope string_scope.
Local Open Scope list_scope.
Local Open Scope Z_scope.

(** With a color, a thing, and three fields of monsters added, and declarations moved. *)
Definition sequel : text := lit "namespace game;
table Monster {
  hp : short = 100;
  name : string (required);
  friends : [Monster];
  color : Color = Blue;
  thing : Thing;
  inventory : [ubyte];
  level : int = 3;
  title : string;
  eyes : [Color] (required);
}
table Potion { strength : int; }
table Weapon { name : string; damage : short; }
union Thing { Weapon, Monster, Potion }
enum Color : byte { Red = 0, Green, Blue = 2, Violet }
root_type Monster;".
Local Notation parse t := (schema_decl (fun _ => false) (fun _ => false) (fun _ => false) (fun _ => None) (fun _ => None) (fun _ => true) t).
Definition elements (t : text) : list element := match parse t with Some (s, []) => sc_elements s | _ => [] end.
Definition game_es : list element := Eval vm_compute in elements game.
Definition sequel_es : list element := Eval vm_compute in elements sequel.
Lemma game_read : elements game = game_es /\ elements sequel = sequel_es.
Proof. split; vm_compute; reflexivity. Qed.
Definition sequel_root : list node := match build snake_case sequel_es with Done root => root | _ => [] end.
Lemma both_build : build snake_case game_es = Done game_root /\ build snake_case sequel_es = Done sequel_root.
Proof. split; vm_compute; reflexivity. Qed.
Lemma sequel_fine fl hg : compiled_tables fl snake_case sequel_root hg.
Proof. apply all_fine_ok. destruct hg as [[] []]; vm_compute; reflexivity. Qed.
Lemma both_settled : settled game_es /\ settled sequel_es.
Proof.
  split; apply (one_settled _ [lit "game"]); (split; [reflexivity|]).
  - intros [|[|[|[|[|[|i]]]]]] e N Ns; try reflexivity; try (injection N as <-; discriminate Ns); destruct i; discriminate N.
  - intros [|[|[|[|[|[|[|i]]]]]]] e N Ns; try reflexivity; try (injection N as <-; discriminate Ns); destruct i; discriminate N.
Qed.
Lemma grows_table_by id fs fs' m d : firstn (length fs) fs' = fs -> grows (ETable (AProduct id fs m d)) (ETable (AProduct id fs' m d)).
Proof. intros H. rewrite <- (firstn_skipn (length fs) fs'), H. constructor. Qed.
Lemma grows_enum_by id fs fs' b m d : firstn (length fs) fs' = fs -> grows (EEnum (AEnum id fs b m d)) (EEnum (AEnum id fs' b m d)).
Proof. intros H. rewrite <- (firstn_skipn (length fs) fs'), H. constructor. Qed.
Lemma grows_union_by id fs fs' m d : firstn (length fs) fs' = fs -> grows (EUnion (AUnion id fs m d)) (EUnion (AUnion id fs' m d)).
Proof. intros H. rewrite <- (firstn_skipn (length fs) fs'), H. constructor. Qed.
Lemma game_evolves : evolves game_es sequel_es.
Proof.
  intros [|[|[|[|[|[|i]]]]]] e N Ns; try (injection N as <-); try discriminate Ns.
  - exists 5%nat. eexists. split; [reflexivity|]. split; [apply grows_enum_by; reflexivity|reflexivity].
  - exists 4%nat. eexists. split; [reflexivity|]. split; [apply grows_union_by; reflexivity|reflexivity].
  - exists 3%nat. eexists. split; [reflexivity|]. split; [apply grows_table_by; reflexivity|reflexivity].
  - exists 1%nat. eexists. split; [reflexivity|]. split; [apply grows_table_by; reflexivity|reflexivity].
  - exists 6%nat. eexists. split; [reflexivity|]. split; [apply grows_not|reflexivity].
  - destruct i; discriminate N.
Qed.

(** A violet troll with a potion, whose friend is a green one with a sword. *)
Definition troll : doc := DTable [
  (lit "name", DText (lit "Troll")); (lit "color", DName (lit "Violet")); (lit "thing", DVariant (lit "Potion") (DTable [(lit "strength", DNum 9)]));
  (lit "friends", DList [DTable [(lit "name", DText (lit "Cave troll")); (lit "color", DName (lit "Green")); (lit "thing", sword); (lit "eyes", DList [])]]);
  (lit "level", DNum 8); (lit "eyes", DList [DName (lit "Violet"); DName (lit "Red")])].
Lemma troll_fits fl : fits fl snake_case sequel_root troll (ICustom monster KTable).
Proof. apply fits_b_ok. vm_compute. reflexivity. Qed.
Definition troll_file : list byte := match save fl0 snake_case sequel_root (Host true false) (Host true false) 0 troll monster None true with Val D => D | _ => [] end.
Lemma troll_saved : save fl0 snake_case sequel_root (Host true false) (Host true false) 0 troll monster None true = Val troll_file.
Proof. vm_compute. reflexivity. Qed.
Lemma troll_size hg : match calls_for fl0 snake_case sequel_root hg troll (ICustom monster KTable) with Some y => tree_size y <? 3000 | None => false end = true.
Proof. destruct hg as [[] []]; vm_compute; reflexivity. Qed.

(** What accessors return: for all fields of a table. *)
Definition accessors (root : list node) : list gfield :=
  match fields_named root monster with Some fs => match gen_table fl0 snake_case (Host true false) fs with Some gs => gs | None => [] end | None => [] end.
Definition get_all (root : list node) (D : list byte) (w : outcome fval) : list (outcome (option gval)) :=
  match w with Val (VTable loc) => map (gen_get (Host false false) D loc) (accessors root) | _ => [] end.

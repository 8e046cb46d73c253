(** Schema resolution: schemas that go wrong. *)
From Coq Require Import Strings.String ZArith List Bool Lia Strings.Byte Permutation.
From Verif Require Import Base Schema Ident Resolve SpecResolve.
Import ListNotations.
Local Open Scope nat_scope.

Section Facts.
Context (snake : text -> text).

Lemma order_refuted : exists es1 es2 r1 x, one_namespace [] es1 /\ one_namespace [] es2 /\ Permutation es1 es2 /\
  build snake es1 = Done r1 /\ build snake es2 = Fail x.
Proof.
  set (u := EUnion (AUnion (lit "U") [AVariant (lit "X") None []] None [])).
  set (x := ETable (AProduct (lit "X") [AField (lit "u") (AIdent [lit "U"]) None None []] None [])).
  exists [x; u], [u; x]. do 2 eexists.
  assert (O : forall a b, namespace_after None [a; b] = None -> namespace_after None [a] = None -> one_namespace [] [a; b]).
  { intros a b H H'. split; [unfold last_prefix; rewrite H; reflexivity|]. intros [|[|i]] e N _; [reflexivity| |destruct i; discriminate N].
    unfold written_prefix. cbn [firstn]. rewrite H'. reflexivity. }
  split; [apply O; reflexivity|]. split; [apply O; reflexivity|]. split; [constructor|]. split; reflexivity.
Qed.

Lemma moved_refuted : exists es root i e, build snake es = Done root /\ nth_error es i = Some e /\
  (exists q, declared_names (written_prefix es i) e = [q] /\ ~ In q (map fst (defined root))) /\
  (exists q, declared_names (last_prefix es) e = [q] /\ In q (map fst (defined root))).
Proof.
  exists [ENamespace [lit "A"] []; ETable (AProduct (lit "T") [AField (lit "x") (AIdent [lit "B"; lit "X"]) None None []] None []);
          ENamespace [lit "B"] []; ETable (AProduct (lit "X") [] None [])].
  eexists. exists 1. eexists. split; [reflexivity|]. split; [reflexivity|]. split; (eexists; split; [reflexivity|]).
  - cbv. intuition discriminate.
  - cbv. auto.
Qed.

Lemma duplicate_refuted : exists es root i j e e' q, build snake es = Done root /\ nth_error es i = Some e /\ nth_error es j = Some e' /\ i <> j /\
  declared_names (written_prefix es i) e = [q] /\ declared_names (written_prefix es j) e' = [q].
Proof.
  exists [ENamespace [lit "A"] []; ETable (AProduct (lit "T") [AField (lit "x") (AIdent [lit "B"; lit "X"]) None None []] None []);
          EEnum (AEnum (lit "T") [AVariant (lit "Q") None []] (APrim UByte) None []);
          ENamespace [lit "B"] []; ETable (AProduct (lit "X") [] None [])].
  eexists. exists 1, 2. do 3 eexists. split; [reflexivity|]. split; [reflexivity|]. split; [reflexivity|]. split; [discriminate|]. split; reflexivity.
Qed.

Lemma dangling_refuted : exists es root path n q c, build snake es = Done root /\ In (path, n) (all_contents root) /\ In (q, c) (mentions n) /\
  ~ In q (map fst (defined root)).
Proof.
  exists [ENamespace [lit "A"] []; ETable (AProduct (lit "T") [AField (lit "x") (AIdent [lit "B"; lit "X"]) None None []] None []);
          ETable (AProduct (lit "S") [AField (lit "t") (AIdent [lit "T"]) None None []] None []);
          ENamespace [lit "B"] []; ETable (AProduct (lit "X") [] None [])].
  eexists. exists [lit "A"]. eexists. exists [lit "A"; lit "T"], KTable. split; [reflexivity|]. split; [cbv; left; reflexivity|]. split; [cbv; auto|].
  cbv. intuition discriminate.
Qed.
Lemma kind_refuted : exists es root path n q vs b, build snake es = Done root /\ In (path, n) (all_contents root) /\ In (q, KTable) (mentions n) /\
  In (q, KEnum vs b) (defined root).
Proof.
  exists [ENamespace [lit "A"] []; ETable (AProduct (lit "T") [AField (lit "x") (AIdent [lit "B"; lit "X"]) None None []] None []);
          ETable (AProduct (lit "S") [AField (lit "t") (AIdent [lit "T"]) None None []] None []);
          EEnum (AEnum (lit "T") [AVariant (lit "V") None []] (APrim UByte) None []);
          ENamespace [lit "B"] []; ETable (AProduct (lit "X") [] None [])].
  eexists. exists [lit "A"]. eexists. exists [lit "A"; lit "T"]. do 2 eexists. split; [reflexivity|]. split; [cbv; left; reflexivity|]. split; [cbv; auto|].
  cbv. right. left. reflexivity.
Qed.
End Facts.

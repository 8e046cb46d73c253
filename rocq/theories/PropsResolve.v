(** Properties C39-C44, C70 and C72: schema resolution.  Statements only; each theorem is
    closed by a lemma of the proof files.  Vocabulary: Resolve.v ([build]:
    [Builder::build]; [Done], [Fail], [Crash]: a resolved schema, an error, a
    panic), SpecResolve.v ([written_prefix]: the namespace a declaration is
    written in; [last_prefix]: the last namespace of the file; [declares]: what a
    declaration declares in a namespace; [all_contents]: the nodes of a resolved
    schema with the modules around them; [defined]: the types it defines;
    [mentions]: the types a node refers to).  [snake] is heck's
    [to_snake_case], of which nothing is assumed. *)
From Coq Require Import Strings.String ZArith List Bool Lia Strings.Byte Permutation.
From Verif Require Import Base Schema Ident Resolve SpecResolve SpecFormed SpecEvolve ResolveProofs1 ResolveProofs4 ResolveProofs6 ResolveProofs7 ResolveProofs8 ResolveProofs9 ResolveProofs10 ResolveProofs11 ResolveProofs13.
Import ListNotations.
Local Open Scope string_scope.
Local Open Scope list_scope.
Local Open Scope nat_scope.

(** ** Schemas for the examples *)
Definition t (name : string) (fs : list (string * aty)) : element :=
  ETable (AProduct (lit name) (map (fun f => AField (lit (fst f)) (snd f) None None []) fs) None []).
Definition un (name : string) (vs : list string) : element :=
  EUnion (AUnion (lit name) (map (fun v => AVariant (lit v) None []) vs) None []).
Definition en (name : string) (vs : list string) : element :=
  EEnum (AEnum (lit name) (map (fun v => AVariant (lit v) None []) vs) (APrim UByte) None []).
Definition ns (q : list string) : element := ENamespace (map lit q) [].
Definition nm (q : list string) : aty := AIdent (map lit q).
Definition service (name : string) (req rsp : string) : element :=
  ERpc (ARpc (lit name) [AMethod (lit "call") [lit req] [lit rsp] None []] []).
Definition qd (q : list string) : qident := map lit q.
Definition same (x : text) : text := x.
(** [namespace a.b; enum Color : ubyte { Red } union U { Orc, Elf } table Orc {
    name : string; color : Color; foes : [Elf]; u : U; } table Elf { friend : Orc; }
    root_type Orc; rpc_service Camp { call(Elf) : Orc; }] *)
Definition camp : list element :=
  [ns ["a"; "b"]; en "Color" ["Red"]; un "U" ["Orc"; "Elf"];
   t "Orc" [("name", AString); ("color", nm ["Color"]); ("foes", AArray (nm ["Elf"])); ("u", nm ["U"])];
   t "Elf" [("friend", nm ["Orc"])]; ERoot (lit "Orc"); service "Camp" "Elf" "Orc"].
Definition camp_root : list node := match build same camp with Done r => r | _ => [] end.
Example camp_one_namespace : one_namespace (qd ["a"; "b"]) camp.
Proof. split; [reflexivity|]. intros [|[|[|[|[|[|[|i]]]]]]] e N Ns; try reflexivity; [injection N as <-; discriminate Ns|destruct i; discriminate N]. Qed.

(** C39.  The passes over the declarations come to an end, after at most one more
    than there are declarations; allowing more makes no difference. *)
Theorem C39_terminates snake es : exists r, forall fuel, length es < fuel -> passes snake fuel initial (indexed 0 es) = Some r.
Proof. exact (terminates snake es). Qed.
Print Assumptions C39_terminates.

(** A schema of supported declarations is resolved or rejected. *)
Theorem C39_resolved_or_error snake es : (forall e, In e es -> supported e = true) ->
  (exists root, build snake es = Done root) \/ (exists e, build snake es = Fail e).
Proof. exact (build_total snake es). Qed.
Print Assumptions C39_resolved_or_error.

(** Unsupported declarations are never resolved ... *)
Theorem C39_unsupported snake es e : In e es -> supported e = false -> forall root, build snake es <> Done root.
Proof. exact (build_unsupported snake es e). Qed.
Print Assumptions C39_unsupported.

(** ... so C39 as stated is false: they panic (unimplemented!). *)
Theorem C39_any_schema_refuted snake : build snake [EFileExtension (lit "mon") []] = Crash /\ build snake [EFileIdentifier (lit "MONS") []] = Crash /\
  build snake [EAttribute (lit "priority")] = Crash /\ build snake [EObject [] []] = Crash.
Proof. exact (conj eq_refl (conj eq_refl (conj eq_refl eq_refl))). Qed.
Print Assumptions C39_any_schema_refuted.

Example C39_case : (exists r, build same camp = Done r) /\ (forall e, In e camp -> supported e = true) /\
  build same [t "T" [("x", nm ["Missing"])]; t "S" []] = Fail (Unresolved [t "T" [("x", nm ["Missing"])]]).
Proof.
  split; [eexists; vm_compute; reflexivity|]. split; [|reflexivity]. intros e I. cbn [camp In] in I. intuition (subst; reflexivity).
Qed.

(** C40, exactly which orders resolve: given that one order of the declarations
    resolves, another does exactly if some declaration can be defined first,
    needing nothing but tables written before it. *)
Theorem C40_resolves_iff snake p es1 es2 r1 : one_namespace p es1 -> one_namespace p es2 -> Permutation (declarations es1) (declarations es2) ->
  build snake es1 = Done r1 ->
  (exists r2, build snake es2 = Done r2) <-> declarations es2 = [] \/ exists i, can_start p es2 i.
Proof. exact (fun O1 O2 P => resolves_iff snake p es1 es2 O1 O2 P r1). Qed.
Print Assumptions C40_resolves_iff.

(** Two orders that resolve give the same definitions. *)
Theorem C40_same_definitions snake p es1 es2 r1 r2 : one_namespace p es1 -> one_namespace p es2 -> Permutation (declarations es1) (declarations es2) ->
  build snake es1 = Done r1 -> build snake es2 = Done r2 -> Permutation (all_contents r1) (all_contents r2).
Proof. exact (same_definitions snake p es1 es2 r1 r2). Qed.
Print Assumptions C40_same_definitions.

(** With a declaration that needs nothing, every order resolves, to the same
    definitions. *)
Theorem C40_any_order snake p es1 es2 r1 e : one_namespace p es1 -> one_namespace p es2 -> Permutation (declarations es1) (declarations es2) ->
  build snake es1 = Done r1 -> In e es1 -> is_namespace e = false -> refs e = [] ->
  exists r2, build snake es2 = Done r2 /\ Permutation (all_contents r1) (all_contents r2).
Proof. exact (any_order snake p es1 es2 r1 e). Qed.
Print Assumptions C40_any_order.

(** C40 as stated is false: [table X { u : U; } union U { X }] resolves,
    [union U { X } table X { u : U; }] does not. *)
Theorem C40_refuted snake : exists es1 es2 r1 x, one_namespace [] es1 /\ one_namespace [] es2 /\ Permutation es1 es2 /\
  build snake es1 = Done r1 /\ build snake es2 = Fail x.
Proof. exact (order_refuted snake). Qed.
Print Assumptions C40_refuted.

Example C40_case : Permutation (declarations camp) (declarations (ns ["a"; "b"] :: rev camp)) /\
  one_namespace (qd ["a"; "b"]) (ns ["a"; "b"] :: rev camp) /\ can_start (qd ["a"; "b"]) (ns ["a"; "b"] :: rev camp) 6 /\
  length (all_contents camp_root) = 6 /\ (exists r, build same (ns ["a"; "b"] :: rev camp) = Done r).
Proof.
  split.
  - apply (Permutation_rev (tl camp)).
  - split; [split; [reflexivity|]|split; [|split; [vm_compute; reflexivity|eexists; vm_compute; reflexivity]]].
    + intros [|[|[|[|[|[|[|[|i]]]]]]]] e N Ns; try reflexivity; [injection N as <-; discriminate Ns|destruct i; discriminate N].
    + cbn. intros r [].
Qed.

(** C41, what holds of every schema: a declaration is defined in the namespace in
    force where it was written, or in the last of the file. *)
Theorem C41_written_or_last snake es root : build snake es = Done root -> forall i e, nth_error es i = Some e ->
  exists p out, (p = written_prefix es i \/ p = last_prefix es) /\ (exists roots view, declares snake roots view p e out) /\
    forall n, In n out -> In (module_of n, n) (all_contents root).
Proof. exact (written_or_last snake es root). Qed.
Print Assumptions C41_written_or_last.

(** C41, exactly: a declaration is defined in the namespace in which it was written
    if it stays ([stays]: it refers, from where it is written, only to earlier
    declarations that stay and to tables declared so far), and in the last one
    otherwise. *)
Theorem C41_exact snake es root : build snake es = Done root -> forall i e, nth_error es i = Some e ->
  exists p out, (stays es i /\ p = written_prefix es i \/ ~ stays es i /\ p = last_prefix es) /\ (exists roots view, declares snake roots view p e out) /\
    forall n, In n out -> In (module_of n, n) (all_contents root).
Proof. exact (stays_or_last snake es root). Qed.
Print Assumptions C41_exact.

(** C41 holds for declarations in one namespace, in any order ... *)
Theorem C41_one_namespace snake es root p : one_namespace p es -> build snake es = Done root -> forall i e, nth_error es i = Some e ->
  exists out, (exists roots view, declares snake roots view (written_prefix es i) e out) /\
    forall n, In n out -> In (module_of n, n) (all_contents root).
Proof. exact (stays_one_namespace snake es root p). Qed.
Print Assumptions C41_one_namespace.

(** ... and for declarations in any namespaces, each type before its uses. *)
Theorem C41_declared_before_use snake es root : declared_before_use es -> build snake es = Done root -> forall i e, nth_error es i = Some e ->
  exists out, (exists roots view, declares snake roots view (written_prefix es i) e out) /\
    forall n, In n out -> In (module_of n, n) (all_contents root).
Proof. exact (stays_before_use snake es root). Qed.
Print Assumptions C41_declared_before_use.

(** C41 as stated is false: [namespace A; table T { x : B.X; } namespace B;
    table X { }] defines B.T, and no A.T. *)
Theorem C41_refuted snake : exists es root i e, build snake es = Done root /\ nth_error es i = Some e /\
  (exists q, declared_names (written_prefix es i) e = [q] /\ ~ In q (map fst (defined root))) /\
  (exists q, declared_names (last_prefix es) e = [q] /\ In q (map fst (defined root))).
Proof. exact (moved_refuted snake). Qed.
Print Assumptions C41_refuted.

(** Two namespaces, types before their uses. *)
Definition two : list element :=
  [ns ["B"]; t "X" [("self", nm ["X"])]; en "K" ["P"; "Q"]; ns ["A"; "C"]; t "T" [("x", nm ["B"; "X"]); ("k", AArray (nm ["B"; "K"]))]; ERoot (lit "T")].
Example two_before_use : declared_before_use two.
Proof.
  intros i e r N I. destruct i as [|[|[|[|[|[|i]]]]]]; try (injection N as <-); cbn in I.
  - destruct I.
  - destruct I as [<-|[]]. exists 1, (t "X" [("self", nm ["X"])]). split; [reflexivity|]. split; [right; split; [reflexivity|unfold t; eauto]|left; reflexivity].
  - destruct I.
  - destruct I.
  - destruct I as [<-|[<-|[]]].
    + exists 1, (t "X" [("self", nm ["X"])]). split; [reflexivity|]. split; [left; repeat constructor|left; reflexivity].
    + exists 2, (en "K" ["P"; "Q"]). split; [reflexivity|]. split; [left; repeat constructor|left; reflexivity].
  - destruct I as [<-|[]]. exists 4, (t "T" [("x", nm ["B"; "X"]); ("k", AArray (nm ["B"; "K"]))]). split; [reflexivity|]. split; [left; repeat constructor|left; reflexivity].
  - destruct i; discriminate N.
Qed.
Example C41_case : exists r, build same two = Done r /\
  map fst (all_contents r) = [qd ["A"; "C"]; qd ["B"]; qd ["B"]] /\ map fst (defined r) = [qd ["A"; "C"; "T"]; qd ["B"; "X"]; qd ["B"; "K"]].
Proof. eexists. split; [reflexivity|]. split; reflexivity. Qed.

(** [T] needs a table declared later and moves to [B]; [S] needs only [T], which
    is declared by then, and stays, mentioning the [A.T] that is not defined. *)
Definition three : list element :=
  [ns ["A"]; t "T" [("x", nm ["B"; "X"])]; t "S" [("t", nm ["T"])]; ns ["B"]; t "X" []].
Example C41_exact_case : ~ stays three 1 /\ stays three 2 /\ written_prefix three 1 = qd ["A"] /\ last_prefix three = qd ["B"] /\
  (exists r, build same three = Done r /\ map fst (defined r) = [qd ["A"; "S"]; qd ["B"; "T"]; qd ["B"; "X"]]) /\
  gives three 1 (qd ["B"; "T"]) /\ gives three 2 (qd ["A"; "S"]).
Proof.
  assert (N : ~ stays three 1).
  { intros S. inversion S as [i e N K E]. subst i. injection N as <-. destruct (K (qd ["B"; "X"])) as (j & e' & Nj & I & [[_ L]|(_ & L & _)]); [left; reflexivity| |];
      destruct j as [|[|j]]; try lia; injection Nj as <-; vm_compute in I; intuition discriminate. }
  assert (Y : stays three 2).
  { apply (stays_at three 2 (t "S" [("t", nm ["T"])]) eq_refl). intros r [<-|[]]. exists 1, (t "T" [("x", nm ["B"; "X"])]). split; [reflexivity|]. split; [left; reflexivity|].
    right. split; [reflexivity|]. split; [lia|]. eexists. reflexivity. }
  split; [exact N|]. split; [exact Y|]. split; [reflexivity|]. split; [reflexivity|]. split; [eexists; split; [reflexivity|reflexivity]|]. split.
  - exists (t "T" [("x", nm ["B"; "X"])]). split; [reflexivity|]. right. split; [exact N|left; reflexivity].
  - exists (t "S" [("t", nm ["T"])]). split; [reflexivity|]. left. split; [exact Y|left; reflexivity].
Qed.

(** C42.  A resolved schema contains what its declarations declare, one by one
    ([resolution]: each in its [place], and root tables marked), once each, under
    the modules of their names, and within a module in the order of the file. *)
Theorem C42_complete snake es root : build snake es = Done root -> exists place roots outs,
  resolution snake es place roots outs /\
  Permutation (all_contents root) (map (fun n => (module_of n, n)) (concat outs)) /\
  (forall path, nodes_under path root = filter (fun n => qident_eqb (module_of n) path) (concat outs)).
Proof. exact (resolved snake es root). Qed.
Print Assumptions C42_complete.

(** Nothing else: as many nodes as declarations, one more for each union. *)
Theorem C42_count snake es root : build snake es = Done root -> length (all_contents root) = list_sum (map weight es).
Proof. exact (count snake es root). Qed.
Print Assumptions C42_count.

Example C42_case : map (fun x => (fst x, node_ident (snd x))) (all_contents camp_root) =
  [(qd ["a"; "b"; "butte_gen"], qd ["a"; "b"; "butte_gen"; "UType"]);
   (qd ["a"; "b"], qd ["a"; "b"; "Color"]); (qd ["a"; "b"], qd ["a"; "b"; "U"]); (qd ["a"; "b"], qd ["a"; "b"; "Orc"]);
   (qd ["a"; "b"], qd ["a"; "b"; "Elf"]); (qd ["a"; "b"], qd ["a"; "b"; "Camp"])].
Proof. vm_compute. reflexivity. Qed.

(** C43.  No type is defined twice in a resolved schema. *)
Theorem C43_defined_once snake es root : build snake es = Done root -> NoDup (map fst (defined root)).
Proof. exact (defined_once snake es root). Qed.
Print Assumptions C43_defined_once.

(** Two declarations of a name, of whatever kinds and in whatever order, are
    rejected: in one namespace ... *)
Theorem C43_one_namespace snake es p i j e e' q : (forall e, In e es -> supported e = true) -> one_namespace p es ->
  nth_error es i = Some e -> nth_error es j = Some e' -> i <> j -> In q (declared_names p e) -> In q (declared_names p e') ->
  exists x, build snake es = Fail x.
Proof. exact (duplicates_one_namespace snake es p i j e e' q). Qed.
Print Assumptions C43_one_namespace.

(** ... and in any namespaces, if types are declared before their uses. *)
Theorem C43_declared_before_use snake es i j e e' q : (forall e, In e es -> supported e = true) -> declared_before_use es ->
  nth_error es i = Some e -> nth_error es j = Some e' -> i <> j ->
  In q (declared_names (written_prefix es i) e) -> In q (declared_names (written_prefix es j) e') ->
  exists x, build snake es = Fail x.
Proof. exact (duplicates_before_use snake es i j e e' q). Qed.
Print Assumptions C43_declared_before_use.

(** In general, two declarations that give a name, in their namespaces if they
    stay and in the last one otherwise, are rejected. *)
Theorem C43_given snake es i j q : (forall e, In e es -> supported e = true) -> i <> j -> gives es i q -> gives es j q ->
  exists x, build snake es = Fail x.
Proof. exact (duplicates snake es i j q). Qed.
Print Assumptions C43_given.

(** C43 as stated is false: [namespace A; table T { x : B.X; } enum T : ubyte { Q }
    namespace B; table X { }] declares A.T twice and resolves. *)
Theorem C43_refuted snake : exists es root i j e e' q, build snake es = Done root /\ nth_error es i = Some e /\ nth_error es j = Some e' /\ i <> j /\
  declared_names (written_prefix es i) e = [q] /\ declared_names (written_prefix es j) e' = [q].
Proof. exact (duplicate_refuted snake). Qed.
Print Assumptions C43_refuted.

Example C43_case :
  build same [ns ["A"]; t "T" []; un "U" ["T"]; en "T" ["Q"]] = Fail (AlreadyDefined (qd ["A"; "T"])) /\
  build same [ns ["A"]; t "T" []; un "U" ["T"]; ns ["A"; "butte_gen"]; en "UType" ["Q"]] = Fail (AlreadyDefined (qd ["A"; "butte_gen"; "UType"])) /\
  In (qd ["A"; "butte_gen"; "UType"]) (declared_names (qd ["A"]) (un "U" ["T"])).
Proof. vm_compute. auto. Qed.

(** The [T] of [A] moves to [B], where there is another. *)
Example C43_given_case : let es := [ns ["A"]; t "T" [("x", nm ["B"; "X"])]; ns ["B"]; t "T" []; t "X" []] in
  gives es 1 (qd ["B"; "T"]) /\ gives es 3 (qd ["B"; "T"]) /\ build same es = Fail (AlreadyDefined (qd ["B"; "T"])).
Proof.
  split; [|split; [|reflexivity]].
  - exists (t "T" [("x", nm ["B"; "X"])]). split; [reflexivity|]. right. split; [|left; reflexivity].
    intros S. inversion S as [i e N K E]. subst i. injection N as <-. destruct (K (qd ["B"; "X"])) as (j & e' & Nj & I & [[_ L]|(_ & L & _)]); [left; reflexivity| |];
      destruct j as [|[|j]]; try lia; injection Nj as <-; vm_compute in I; intuition discriminate.
  - exists (t "T" []). split; [reflexivity|]. left. split; [|left; reflexivity]. eapply (stays_at _ 3); [reflexivity|intros r []].
Qed.

(** C44, what holds of every schema: a type mentioned in the resolved schema is
    defined in it, with that kind, or it is a table that does not stay, written
    in a namespace other than the last. *)
Theorem C44_mentioned snake es root path n q c : build snake es = Done root -> In (path, n) (all_contents root) -> In (q, c) (mentions n) ->
  In (q, c) (defined root) \/
  c = KTable /\ exists j t, nth_error es j = Some (ETable t) /\ q = local_name (written_prefix es j) (ap_id t) /\ ~ stays es j /\ written_prefix es j <> last_prefix es.
Proof. exact (mentioned snake es root path n q c). Qed.
Print Assumptions C44_mentioned.

(** The names defined are exactly those that declarations give, in their
    namespaces if they stay and in the last one otherwise: any other name that
    is mentioned dangles. *)
Theorem C44_exact snake es root : build snake es = Done root -> forall q, In q (map fst (defined root)) <->
  exists i, gives es i q.
Proof. exact (defined_exactly snake es root). Qed.
Print Assumptions C44_exact.

(** C44 holds for declarations in one namespace ... *)
Theorem C44_one_namespace snake es root p path n q c : one_namespace p es -> build snake es = Done root -> In (path, n) (all_contents root) -> In (q, c) (mentions n) ->
  In (q, c) (defined root).
Proof. exact (mentioned_one_namespace snake es root p path n q c). Qed.
Print Assumptions C44_one_namespace.

(** ... and in any namespaces, if types are declared before their uses. *)
Theorem C44_declared_before_use snake es root path n q c : declared_before_use es -> build snake es = Done root -> In (path, n) (all_contents root) -> In (q, c) (mentions n) ->
  In (q, c) (defined root).
Proof. exact (mentioned_before_use snake es root path n q c). Qed.
Print Assumptions C44_declared_before_use.

(** The companion of a union is defined, with None and the variants of the union. *)
Theorem C44_companion snake es root path u : build snake es = Done root -> In (path, NUnion u) (all_contents root) ->
  exists vs, In (iu_enum u, KEnum (IEnumV (lit "None") (Some 0%Z) [] :: vs) UByte) (defined root) /\
    map iev_id vs = map iuv_id (iu_variants u) /\ map iev_value vs = map (fun _ => None) vs.
Proof. exact (companion_defined snake es root path u). Qed.
Print Assumptions C44_companion.

(** C44 as stated is false: [namespace A; table T { x : B.X; } table S { t : T; }
    namespace B; table X { }] resolves with A.T mentioned and not defined. *)
Theorem C44_refuted snake : exists es root path n q c, build snake es = Done root /\ In (path, n) (all_contents root) /\ In (q, c) (mentions n) /\
  ~ In q (map fst (defined root)).
Proof. exact (dangling_refuted snake). Qed.
Print Assumptions C44_refuted.

(** Nor need a type be of the kind it is mentioned with: in [namespace A; table T {
    x : B.X; } table S { t : T; } enum T : ubyte { V } namespace B; table X { }] the
    first T moves to B, and S has a field of the table A.T, which is an enum. *)
Theorem C44_kind_refuted snake : exists es root path n q vs b, build snake es = Done root /\ In (path, n) (all_contents root) /\ In (q, KTable) (mentions n) /\
  In (q, KEnum vs b) (defined root).
Proof. exact (kind_refuted snake). Qed.
Print Assumptions C44_kind_refuted.

Example C44_case : exists r, build same two = Done r /\
  flat_map (fun x => mentions (snd x)) (all_contents r) =
    [(qd ["B"; "X"], KTable); (qd ["B"; "K"], KEnum [IEnumV (lit "P") None []; IEnumV (lit "Q") None []] UByte); (qd ["B"; "X"], KTable)] /\
  forall x, In x (flat_map (fun x => mentions (snd x)) (all_contents r)) -> In x (defined r).
Proof. eexists. split; [reflexivity|]. split; [reflexivity|]. intros x I. vm_compute in I |- *. tauto. Qed.

(** C70, exactly: a table of a resolved schema is a root if and only if some
    declaration, from where it ends up, says so ([makes_root]), or some service
    names it where the service is written, together with all that it names before
    it ([tries_root]); the service may then move to another namespace. *)
Theorem C70_exact snake es root : build snake es = Done root -> forall path t, In (path, NTable t) (all_contents root) ->
  (it_root t = true <-> exists i, makes_root es i (it_id t) \/ tries_root es i (it_id t)).
Proof. exact (marked_exact snake es root). Qed.
Print Assumptions C70_exact.

(** C70 holds for declarations in one namespace, in any order ... *)
Theorem C70_one_namespace snake es root p : one_namespace p es -> build snake es = Done root ->
  forall path t, In (path, NTable t) (all_contents root) ->
  (it_root t = true <-> exists i e, nth_error es i = Some e /\ says_root (written_prefix es i) e (it_id t)).
Proof. exact (marked_one_namespace snake es root p). Qed.
Print Assumptions C70_one_namespace.

(** ... and for declarations in any namespaces, each type before its uses. *)
Theorem C70_declared_before_use snake es root : declared_before_use es -> build snake es = Done root ->
  forall path t, In (path, NTable t) (all_contents root) ->
  (it_root t = true <-> exists i e, nth_error es i = Some e /\ says_root (written_prefix es i) e (it_id t)).
Proof. exact (marked_before_use snake es root). Qed.
Print Assumptions C70_declared_before_use.

(** C70 as stated is false: in [namespace A; root_type T; table T { } namespace B;
    table T { }] the root is B.T, which nothing says, and not A.T. *)
Theorem C70_refuted snake : exists es root path t t' i e,
  build snake es = Done root /\ nth_error es i = Some e /\ says_root (written_prefix es i) e (it_id t) /\
  In (path, NTable t) (all_contents root) /\ it_root t = false /\
  In ([lit "B"], NTable t') (all_contents root) /\ it_root t' = true /\
  (forall j e', nth_error es j = Some e' -> ~ says_root (written_prefix es j) e' (it_id t')).
Proof. exact (root_refuted snake). Qed.
Print Assumptions C70_refuted.

(** [namespace A; table T { } rpc_service S { call(T) : B.X; } namespace B;
    table X { } table T { }] makes A.T a root before the service moves to B, where
    it makes B.T and B.X roots. *)
Example C70_case :
  let es := [ns ["A"]; t "T" []; ERpc (ARpc (lit "S") [AMethod (lit "call") [lit "T"] [lit "B"; lit "X"] None []] []); ns ["B"]; t "X" []; t "T" []] in
  (exists root, build same es = Done root /\
    flat_map (fun x => match snd x with NTable t => [(it_id t, it_root t)] | _ => [] end) (all_contents root) =
      [(qd ["A"; "T"], true); (qd ["B"; "X"], true); (qd ["B"; "T"], true)]) /\
  tries_root es 2 (qd ["A"; "T"]) /\ ~ stays es 2 /\ makes_root es 2 (qd ["B"; "T"]) /\ (forall i, ~ makes_root es i (qd ["A"; "T"])).
Proof.
  cbv zeta. set (es := [_; _; _; _; _; _]).
  assert (S : ~ stays es 2).
  { intros S. inversion S as [i e N K]. subst i. injection N as <-. destruct (K [lit "B"; lit "X"]) as (j & e' & Nj & I & [[Sj L]|(D & _)]); [cbn; auto| |discriminate D].
    destruct j as [|[|j]]; [injection Nj as <-; destruct I|injection Nj as <-|lia]. cbv in I. intuition discriminate. }
  split; [eexists; split; vm_compute; reflexivity|]. split; [|split; [exact S|split]].
  - eexists. exists [], [lit "T"], [[lit "B"; lit "X"]]. split; [reflexivity|]. split; [reflexivity|]. split; [reflexivity|].
    intros y [<-|[]]. exists 1. eexists. split; [reflexivity|]. split; [lia|]. split; [|cbv; auto].
    eapply stays_at; [reflexivity|]. intros r [].
  - eexists. split; [reflexivity|]. right. split; [exact S|]. eexists. split; [left; reflexivity|]. left. reflexivity.
  - intros i (e & N & M). destruct i as [|[|[|[|[|[|i]]]]]]; try (injection N as <-; destruct M as [[_ M]|[_ M]]; exact M); [|destruct i; discriminate N].
    injection N as <-. destruct M as [[M _]|[_ (m & [<-|[]] & [M|M])]]; [exact (S M)|discriminate M|discriminate M].
Qed.

(** C72, exactly which schemas are accepted, if declarations stay in their
    namespaces: those that declare no type twice, use types only where they may be
    used, refer to declared types only, in no circle but through a table, and have
    a declaration that can be the first to be defined. *)
Theorem C72_accepts_iff snake es : settled es -> ((exists root, build snake es = Done root) <-> well_formed es).
Proof. exact (accepts_iff snake es). Qed.
Print Assumptions C72_accepts_iff.
Theorem C72_one_namespace snake p es : one_namespace p es -> ((exists root, build snake es = Done root) <-> well_formed es).
Proof. exact (accepts_one snake p es). Qed.
Print Assumptions C72_one_namespace.
Theorem C72_declared_before_use snake es : declared_before_use es -> ((exists root, build snake es = Done root) <-> well_formed es).
Proof. exact (accepts_before snake es). Qed.
Print Assumptions C72_declared_before_use.

(** Whatever else is supported is an error. *)
Theorem C72_rejects snake es : settled es -> (forall e, In e es -> supported e = true) -> ~ well_formed es ->
  exists x, build snake es = Fail x.
Proof. exact (rejects snake es). Qed.
Print Assumptions C72_rejects.

(** C72 as stated is false: nothing looks for fields, methods or services of the
    same name, and [union U { X } table X { u : U; }] lacks nothing but a
    declaration to begin with. *)
Theorem C72_refuted snake :
  (exists tab f root, build snake [ETable tab] = Done root /\ ap_fields tab = [f; f]) /\
  (exists r m root, build snake [ETable (AProduct (lit "T") [] None []); ERpc r; ERpc r] = Done root /\ ar_methods r = [m; m]) /\
  (exists es x, one_namespace [] es /\ build snake es = Fail x /\ (forall i j q, gives_name es i q -> gives_name es j q -> i = j) /\
     (forall i e, nth_error es i = Some e -> allowed es i e /\ definable es i)).
Proof. exact (formed_refuted snake). Qed.
Print Assumptions C72_refuted.

(** [struct A { b : B; } struct B { a : A; }] goes in a circle, [table A { b : B; }
    table B { a : A; }] through tables only; and two namespaces. *)
Example C72_case : well_formed camp /\
  (let s name f := EStruct (AProduct (lit name) [AField (lit "x") (nm [f]) None None []] None []) in
   let es := [s "A" "B"; s "B" "A"; en "C" ["x"]] in
   (forall i e, nth_error es i = Some e -> allowed es i e) /\ ~ definable es 0 /\ ~ definable es 1 /\ exists x, build same es = Fail x) /\
  well_formed [t "A" [("b", nm ["B"])]; t "B" [("a", nm ["A"])]; en "C" []] /\
  (let es := [ns ["A"]; en "C" ["x"]; ns ["B"]; t "C" []; t "T" [("a", nm ["A"; "C"]); ("b", nm ["C"])]] in declared_before_use es /\ well_formed es).
Proof.
  split; [|split; [|split]].
  - apply (C72_one_namespace same _ _ camp_one_namespace). eexists. vm_compute. reflexivity.
  - intros s es.
    assert (At : forall i e, nth_error es i = Some e -> i = 0 /\ e = s "A" "B" \/ i = 1 /\ e = s "B" "A" \/ i = 2 /\ e = en "C" ["x"]).
    { intros [|[|[|i]]] e N; [injection N as <-; auto..|destruct i; discriminate N]. }
    assert (D : forall i, definable es i -> i = 2).
    { refine (definable_rec _ _ _). intros i e N R. apply At in N as [[-> ->]|[[-> ->]|[-> _]]]; [exfalso|exfalso|reflexivity].
      - destruct (R [lit "B"]) as (j & e' & Nj & I & [[_ ->]|[_ (x & ->)]]); [cbn; auto|injection Nj as <-; cbv in I; intuition discriminate|].
        apply At in Nj as [[_ Q]|[[_ Q]|[_ Q]]]; discriminate Q.
      - destruct (R [lit "A"]) as (j & e' & Nj & I & [[_ ->]|[_ (x & ->)]]); [cbn; auto|injection Nj as <-; cbv in I; intuition discriminate|].
        apply At in Nj as [[_ Q]|[[_ Q]|[_ Q]]]; discriminate Q. }
    split; [|split; [intros X; discriminate (D _ X)|split; [intros X; discriminate (D _ X)|eexists; vm_compute; reflexivity]]].
    intros i e N. apply At in N as [[-> ->]|[[-> ->]|[-> ->]]].
    + intros f [<-|[]]. exists 1, (s "B" "A"). split; reflexivity.
    + intros f [<-|[]]. exists 0, (s "A" "B"). split; reflexivity.
    + exists UByte. split; [reflexivity|]. cbn. intuition discriminate.
  - apply (C72_one_namespace same []); [split; [reflexivity|]|eexists; vm_compute; reflexivity].
    intros [|[|[|i]]] e N Ns; try reflexivity. destruct i; discriminate N.
  - intros es.
    assert (B : declared_before_use es).
    { intros [|[|[|[|[|i]]]]] e r N I; try (injection N as <-; destruct I as [I|I]); try (injection N as <-; destruct I); try (destruct i; discriminate N).
      - subst r. exists 1, (en "C" ["x"]). split; [reflexivity|]. split; [lia|]. left. reflexivity.
      - destruct I as [<-|[]]. exists 3, (t "C" []). split; [reflexivity|]. split; [lia|]. left. reflexivity. }
    split; [exact B|]. apply (C72_declared_before_use same es B). eexists. vm_compute. reflexivity.
Qed.

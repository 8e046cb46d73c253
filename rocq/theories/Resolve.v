(** Schema resolution: butte-build/src/ir/transform.rs. *)
From Coq Require Import Strings.String NArith ZArith List Bool Strings.Byte.
From Verif Require Import Base Schema Ident.
Import ListNotations.
Local Open Scope Z_scope.

(** [anyhow::Result], with panics. *)
Inductive rerror :=
| AlreadyDefined (q : qident)
| IllegalMember (q : qident)
| BadBaseType (q : qident)
| NotATable (q : qident)
| BadStreaming
| Unresolved (es : list element).
Inductive res (A : Type) := Done (a : A) | Fail (e : rerror) | Crash.
Arguments Done {A} a.
Arguments Fail {A} e.
Arguments Crash {A}.
Definition rbind {A B} (m : res A) (k : A -> res B) : res B :=
  match m with Done a => k a | Fail e => Fail e | Crash => Crash end.
Notation "'let!' x := m 'in' k" := (rbind m (fun x => k))
  (at level 200, x pattern, m at level 100, k at level 200).

(** transform.rs:21-25. *)
Inductive status := TableDeclared | Defined (c : icustom).

(** transform.rs:10-16.  [types] is a [HashMap] (later entries first, the first
    one counts), [nodes] a [BTreeMap] (sorted, one entry per key), [root_types] a
    [HashSet]. *)
Record rstate := RState {
  r_namespace : option qident;
  r_types : list (qident * status);
  r_nodes : list (nat * list node);
  r_roots : list qident }.

(** [HashMap::get] and [insert]. *)
Fixpoint tget (ts : list (qident * status)) (q : qident) : option status :=
  match ts with
  | [] => None
  | (q', s) :: ts => if qident_eqb q' q then Some s else tget ts q
  end.
Definition set_type (st : rstate) (q : qident) (s : status) : rstate :=
  RState (r_namespace st) ((q, s) :: r_types st) (r_nodes st) (r_roots st).
(** [BTreeMap::insert]. *)
Fixpoint nput (ns : list (nat * list node)) (pos : nat) (v : list node) : list (nat * list node) :=
  match ns with
  | [] => [(pos, v)]
  | (p, w) :: ns' =>
      if Nat.ltb pos p then (pos, v) :: ns
      else if Nat.eqb pos p then (pos, v) :: ns'
      else (p, w) :: nput ns' pos v
  end.
Definition set_nodes (st : rstate) (pos : nat) (v : list node) : rstate :=
  RState (r_namespace st) (r_types st) (nput (r_nodes st) pos v) (r_roots st).

Section Resolve.
(** heck's [to_snake_case]. *)
Context (snake : text -> text).

(** transform.rs:447-466: the current namespace, converted, and a name in it. *)
Definition current_prefix (st : rstate) : qident :=
  match r_namespace st with Some ns => qident_of ns | None => [] end.
Definition qualify (st : rstate) (id : ident) : qident :=
  (current_prefix st ++ [fix_identifier id])%list.
(** transform.rs:468-478. *)
Definition qualify_q (st : rstate) (q : qident) : qident :=
  match q with
  | [id] => qualify st id
  | _ => qident_of q
  end.

(** transform.rs:519-531. *)
Definition find_custom_type (st : rstate) (q : qident) : option ity :=
  match tget (r_types st) q with
  | Some TableDeclared => Some (ICustom q KTable)
  | Some (Defined c) => Some (ICustom q c)
  | None => None
  end.
(** transform.rs:480-517. *)
Fixpoint try_type (st : rstate) (t : aty) : option ity :=
  match t with
  | APrim p => Some (IPrim p)
  | AString => Some IString
  | AArray t => option_map IArray (try_type st t)
  | AIdent q => find_custom_type st (qualify_q st q)
  end.

(** transform.rs:109-112. *)
Definition is_required (m : option metadata) : bool :=
  match m with
  | Some m => match meta_get m (lit "required") with Some None => true | _ => false end
  | None => false
  end.

(** transform.rs:94-96 and the like. *)
Definition check_new (st : rstate) (q : qident) : res unit :=
  match tget (r_types st) q with Some (Defined _) => Fail (AlreadyDefined q) | _ => Done tt end.

(** transform.rs:106-149: the fields, or [None] if a type is not there yet. *)
Fixpoint table_fields (st : rstate) (fs : list afield) : res (option (list ifield)) :=
  match fs with
  | [] => Done (Some [])
  | f :: fs =>
      match try_type st (af_ty f) with
      | None => Done None
      | Some ty =>
          let required := is_required (af_meta f) in
          let! companion :=
            match ty with
            | ICustom _ (KUnion e _) =>
                match find_custom_type st e with
                | Some t => Done [IField (fix_identifier (snake (af_id f) ++ lit "_type")%list) t None required (af_doc f)]
                | None => Crash
                end
            | _ => Done []
            end in
          let default := match af_default f with Some d => Some d | None => implicit_default (af_ty f) end in
          let field := IField (fix_identifier (af_id f)) ty default required (af_doc f) in
          let! rest := table_fields st fs in
          Done (option_map (fun l => companion ++ field :: l)%list rest)
      end
  end.

(** transform.rs:89-171. *)
Definition new_table (st : rstate) (t : aproduct) (pos : nat) : res (rstate * bool) :=
  let q := qualify st (ap_id t) in
  let! _ := check_new st q in
  let st := set_type st q TableDeclared in
  let! fields := table_fields st (ap_fields t) in
  match fields with
  | None => Done (st, false)
  | Some fields =>
      let st := set_type st q (Defined KTable) in
      Done (set_nodes st pos [NTable (ITable q fields false (ap_doc t))], true)
  end.

(** transform.rs:186-212. *)
Fixpoint struct_fields (st : rstate) (q : qident) (fs : list afield) : res (option (list ifield)) :=
  match fs with
  | [] => Done (Some [])
  | f :: fs =>
      match try_type st (af_ty f) with
      | None => Done None
      | Some ty =>
          if is_scalar ty then
            let! rest := struct_fields st q fs in
            Done (option_map (cons (IField (fix_identifier (af_id f)) ty (af_default f) false (af_doc f))) rest)
          else Fail (IllegalMember q)
      end
  end.
(** transform.rs:173-232. *)
Definition new_struct (st : rstate) (t : aproduct) (pos : nat) : res (rstate * bool) :=
  let q := qualify st (ap_id t) in
  let! _ := check_new st q in
  let! fields := struct_fields st q (ap_fields t) in
  match fields with
  | None => Done (st, false)
  | Some fields =>
      let st := set_type st q (Defined (KStruct fields)) in
      Done (set_nodes st pos [NStruct (IStruct q fields (ap_doc t))], true)
  end.

(** transform.rs:234-273. *)
Definition enum_variant (v : avariant) : ienumv := IEnumV (fix_identifier (av_id v)) (av_value v) (av_doc v).
Definition new_enum (st : rstate) (e : aenum) (pos : nat) : res (rstate * bool) :=
  let q := qualify st (ae_id e) in
  let! _ := check_new st q in
  match enum_base (ae_base e) with
  | None => Fail (BadBaseType q)
  | Some base =>
      let vs := map enum_variant (ae_variants e) in
      let st := set_type st q (Defined (KEnum vs base)) in
      Done (set_nodes st pos [NEnum (IEnum q vs base (ae_doc e))], true)
  end.

(** transform.rs:285-299. *)
Fixpoint union_variants (st : rstate) (vs : list avariant) : option (list iunionv) :=
  match vs with
  | [] => Some []
  | v :: vs =>
      match try_type st (AIdent [av_id v]) with
      | None => None
      | Some ty => option_map (cons (IUnionV ty (fix_identifier (av_id v)) (av_doc v))) (union_variants st vs)
      end
  end.
(** transform.rs:328-332: the companion's name. *)
Definition companion_ident (st : rstate) (id : ident) : qident :=
  (current_prefix st ++ [fix_identifier (lit "butte_gen"); fix_identifier (id ++ lit "Type")])%list.
(** transform.rs:340-350. *)
Definition companion_variants (vs : list avariant) : list ienumv :=
  IEnumV (fix_identifier (lit "None")) (Some 0) [] ::
  map (fun v => IEnumV (fix_identifier (av_id v)) None (av_doc v)) vs.
(** transform.rs:275-325 with 327-368. *)
Definition new_union (st : rstate) (u : aunion) (pos : nat) : res (rstate * bool) :=
  let q := qualify st (au_id u) in
  let! _ := check_new st q in
  match union_variants st (au_variants u) with
  | None => Done (st, false)
  | Some vs =>
      let e := companion_ident st (au_id u) in
      let! _ := check_new st e in
      let evs := companion_variants (au_variants u) in
      let st := set_type st e (Defined (KEnum evs UByte)) in
      let st := set_type st q (Defined (KUnion e vs)) in
      Done (set_nodes st pos [NEnum (IEnum e evs UByte (au_doc u)); NUnion (IUnion q e vs (au_doc u))], true)
  end.

(** transform.rs:376-387. *)
Definition new_root_ident (st : rstate) (q : qident) : res (rstate * bool) :=
  match tget (r_types st) q with
  | Some (Defined KTable) =>
      Done (RState (r_namespace st) (r_types st) (r_nodes st) (q :: r_roots st), true)
  | Some (Defined _) => Fail (NotATable q)
  | _ => Done (st, false)
  end.
(** transform.rs:370-374. *)
Definition new_root (st : rstate) (id : ident) : res (rstate * bool) :=
  new_root_ident st (qualify st id).

(** transform.rs:406-420. *)
Definition streaming_of (m : option metadata) : res streaming :=
  match m with
  | None => Done StreamNone
  | Some m =>
      match meta_get m (lit "streaming") with
      | None => Done StreamNone
      | Some (Some (SString s)) =>
          if bytes_eqb s (lit "client") then Done StreamClient
          else if bytes_eqb s (lit "server") then Done StreamServer
          else if bytes_eqb s (lit "bidi") then Done StreamBidi
          else Fail BadStreaming
      | Some _ => Fail BadStreaming
      end
  end.
(** transform.rs:394-430. *)
Fixpoint rpc_methods (st : rstate) (ms : list amethod) : res (rstate * option (list imethod)) :=
  match ms with
  | [] => Done (st, Some [])
  | m :: ms =>
      let request := qualify_q st (am_request m) in
      let response := qualify_q st (am_response m) in
      let! (st, ok) := new_root_ident st request in
      if ok then
        let! (st, ok) := new_root_ident st response in
        if ok then
          let! s := streaming_of (am_meta m) in
          let! (st, rest) := rpc_methods st ms in
          Done (st, option_map (cons (IMethod (fix_identifier (am_id m)) (fix_identifier (snake (am_id m)))
                                        request response s (am_doc m))) rest)
        else Done (st, None)
      else Done (st, None)
  end.
(** transform.rs:389-441. *)
Definition new_rpc (st : rstate) (r : arpc) (pos : nat) : res (rstate * bool) :=
  let q := qualify st (ar_id r) in
  let! (st, ms) := rpc_methods st (ar_methods r) in
  match ms with
  | None => Done (st, false)
  | Some ms => Done (set_nodes st pos [NRpc (IRpc q ms (ar_doc r))], true)
  end.

(** transform.rs:84-87. *)
Definition new_namespace (st : rstate) (q : qident) : res (rstate * bool) :=
  Done (RState (Some q) (r_types st) (r_nodes st) (r_roots st), true).

(** transform.rs:65-82. *)
Definition new_element (st : rstate) (pe : nat * element) : res (rstate * bool) :=
  let (pos, e) := pe in
  match e with
  | ENamespace q _ => new_namespace st q
  | ETable t => new_table st t pos
  | EStruct t => new_struct st t pos
  | EEnum e => new_enum st e pos
  | EUnion u => new_union st u pos
  | ERpc r => new_rpc st r pos
  | ERoot id => new_root st id
  | EFileExtension _ _ | EFileIdentifier _ _ | EAttribute _ | EObject _ _ => Crash
  end.

(** transform.rs:550-554: one pass over the queue. *)
Fixpoint pass (st : rstate) (input : list (nat * element)) : res (rstate * list (nat * element)) :=
  match input with
  | [] => Done (st, [])
  | pe :: input =>
      let! (st, ok) := new_element st pe in
      let! (st, unsatisfied) := pass st input in
      Done (st, if ok then unsatisfied else pe :: unsatisfied)
  end.
(** transform.rs:547-569.  [None]: more than [fuel] passes. *)
Fixpoint passes (fuel : nat) (st : rstate) (input : list (nat * element)) : option (res rstate) :=
  match fuel with
  | O => None
  | S fuel =>
      match pass st input with
      | Fail e => Some (Fail e)
      | Crash => Some Crash
      | Done (st', unsatisfied) =>
          match unsatisfied with
          | [] => Some (Done st')
          | _ =>
              if Nat.eqb (length (r_nodes st')) (length (r_nodes st))
              then Some (Fail (Unresolved (map snd unsatisfied)))
              else passes fuel st' unsatisfied
          end
      end
  end.

(** transform.rs:538-543. *)
Fixpoint indexed (i : nat) (es : list element) : list (nat * element) :=
  match es with [] => [] | e :: es => (i, e) :: indexed (S i) es end.
Definition initial : rstate := RState None [] [] [].

(** transform.rs:571-587. *)
Definition mark_root (roots : list qident) (n : node) : node :=
  match n with
  | NTable t =>
      if existsb (qident_eqb (it_id t)) roots
      then NTable (ITable (it_id t) (it_fields t) true (it_doc t)) else n
  | _ => n
  end.
Definition marked_nodes (st : rstate) : list node :=
  map (mark_root (r_roots st)) (concat (map snd (r_nodes st))).

(** ir/types.rs:26-39. *)
Definition node_ident (n : node) : qident :=
  match n with
  | NNamespace q _ => q
  | NTable t => it_id t
  | NStruct s => is_id s
  | NEnum e => ie_id e
  | NUnion u => iu_id u
  | NRpc r => ir_id r
  end.
Definition node_namespace (n : node) : option qident := q_namespace (node_ident n).

(** The order of [BTreeMap<Ident, _>] and [BTreeSet<QualifiedIdent>]: strings
    by bytes, lists of them lexicographically. *)
Fixpoint ident_compare (a b : ident) : comparison :=
  match a, b with
  | [], [] => Eq
  | [], _ => Lt
  | _, [] => Gt
  | x :: a, y :: b =>
      match N.compare (Byte.to_N x) (Byte.to_N y) with Eq => ident_compare a b | c => c end
  end.
Fixpoint qident_compare (a b : qident) : comparison :=
  match a, b with
  | [], [] => Eq
  | [], _ => Lt
  | _, [] => Gt
  | x :: a, y :: b => match ident_compare x y with Eq => qident_compare a b | c => c end
  end.

(** transform.rs:596: a [BTreeSet] of the namespaces of the nodes. *)
Fixpoint qset_add (q : qident) (l : list qident) : list qident :=
  match l with
  | [] => [q]
  | x :: l' =>
      match qident_compare q x with
      | Lt => q :: l
      | Eq => l
      | Gt => x :: qset_add q l'
      end
  end.
Definition namespace_idents (nodes : list node) : list qident :=
  fold_right (fun n l => match node_namespace n with Some q => qset_add q l | None => l end) [] nodes.

(** transform.rs:27-33. *)
Inductive nsbuf := NsBuf (id : qident) (namespaces : list (ident * nsbuf)) (nodes : list node).

(** transform.rs:604-608 (with the grouping of 589-594): the nodes of a
    namespace, in order. *)
Definition nodes_in (nodes : list node) (ns : option qident) : list node :=
  filter (fun n => match node_namespace n, ns with
                   | Some a, Some b => qident_eqb a b
                   | None, None => true
                   | _, _ => false
                   end) nodes.

(** transform.rs:613-631: put the namespace [prefix ++ parts] with its nodes into
    the tree, creating what is missing on the way. *)
Fixpoint stack (prefix parts : qident) (ns : list node) : list (ident * nsbuf) -> list (ident * nsbuf) :=
  match parts with
  | [] => fun tree => tree
  | p :: parts' =>
      let here := (prefix ++ [p])%list in
      let new (b : option nsbuf) : nsbuf :=
        match match b with Some b => b | None => NsBuf here [] [] end, parts' with
        | NsBuf q sub old, [] => NsBuf q sub ns
        | NsBuf q sub old, _ => NsBuf q (stack here parts' ns sub) old
        end in
      (fix put (tree : list (ident * nsbuf)) : list (ident * nsbuf) :=
         match tree with
         | [] => [(p, new None)]
         | (k, b) :: tree' =>
             match ident_compare p k with
             | Lt => (p, new None) :: tree
             | Eq => (k, new (Some b)) :: tree'
             | Gt => (k, b) :: put tree'
             end
         end)
  end.

(** transform.rs:48-61. *)
Fixpoint into_node (b : nsbuf) : node :=
  match b with
  | NsBuf q namespaces nodes =>
      NNamespace q ((fix all (l : list (ident * nsbuf)) : list node :=
                       match l with [] => [] | (_, b) :: l => into_node b :: all l end) namespaces ++ nodes)%list
  end.

(** transform.rs:589-640. *)
Definition arrange (nodes : list node) : list node :=
  let tree := fold_left (fun tree q => stack [] q (nodes_in nodes (Some q)) tree) (namespace_idents nodes) [] in
  (map (fun kb => into_node (snd kb)) tree ++ nodes_in nodes None)%list.

(** transform.rs:533-641. *)
Definition build (es : list element) : res (list node) :=
  match passes (S (length es)) initial (indexed 0 es) with
  | None => Crash
  | Some r => let! st := r in Done (arrange (marked_nodes st))
  end.

End Resolve.

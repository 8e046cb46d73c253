(** Properties C45, C46, C53 and C54: names in generated code.  Statements only; each theorem
    is closed by a lemma of the proof files.  Vocabulary: Ident.v ([relative]:
    [QualifiedIdent::relative]; [fix_identifier]: keyword substitution;
    [module_name], [accessor_name]: what the generator emits), SpecIdent.v
    ([walk]: following a path; [emitted_modules], [emitted_item]: where the
    generator puts things; [keyword]: Rust's keywords).  [snake] stands for heck's
    [to_snake_case], of which nothing is assumed; [snake_case] is that function on
    ASCII names (Heck.v). *)
From Coq Require Import Strings.String ZArith List Bool Lia Strings.Byte.
From Verif Require Import Base Schema Ident Heck SpecIdent SpecWords IdentProofs HeckProofs HeckProofs2.
Import ListNotations.
Local Open Scope string_scope.
Local Open Scope list_scope.
Local Open Scope nat_scope.

(** C45 for the names themselves: the relative path, followed from the namespace,
    arrives at the qualified name. *)
Theorem C45_leads_to_the_name (q : qident) (ns : option qident) : ~ In (lit "super") q -> walk (modules_around ns) (relative q ns) = Some q.
Proof. exact (relative_leads q ns). Qed.
Print Assumptions C45_leads_to_the_name.

(** It is a Rust path to an item: [super]s first, then names, the last one that
    of the type ... *)
Theorem C45_shape (q : qident) (ns : option qident) : q <> [] -> ~ encloses q (modules_around ns) -> exists ups downs, relative q ns = repeat (lit "super") ups ++ downs ++ [last q []].
Proof. exact (relative_shape q ns). Qed.
Print Assumptions C45_shape.

(** ... unless the type's full name is also the name of the namespace or of one
    around it; then it names a module or is empty. *)
Theorem C45_enclosing (q ns : qident) : encloses q ns -> relative q (Some ns) = repeat (lit "super") (length ns - length q).
Proof. exact (relative_enclosing q ns). Qed.
Print Assumptions C45_enclosing.

(** No name of a resolved schema has a part [super]. *)
Theorem C45_no_super (q : qident) : ~ In (lit "super") (qident_of q).
Proof. exact (no_super q). Qed.
Print Assumptions C45_no_super.

(** C45 for the emitted modules, whose names are put into snake case: the path
    arrives at the emitted type exactly if the names of the modules to go down
    into are already in snake case. *)
Theorem C45_emitted_iff snake (q : qident) (ns : option qident) : ~ In (lit "super") q -> ~ encloses q (modules_around ns) ->
  walk (emitted_modules snake (modules_around ns)) (relative q ns) = Some (emitted_item snake q) <->
  forall x, In x (skipn (common_prefix q (modules_around ns)) (removelast q)) -> module_name snake x = x.
Proof. exact (emitted_leads snake q ns). Qed.
Print Assumptions C45_emitted_iff.

(** So C45 as stated is false, since [to_snake_case] changes [MyGame]: the path
    [MyGame::T] does not exist. *)
Theorem C45_refuted :
  exists (q : qident) (ns : option qident), q <> [] /\ ~ encloses q (modules_around ns) /\ ~ In (lit "super") q /\
    walk (emitted_modules snake_case (modules_around ns)) (relative q ns) <> Some (emitted_item snake_case q).
Proof. exact (emitted_refuted snake_case ltac:(discriminate)). Qed.
Print Assumptions C45_refuted.

Definition qd (q : list string) : qident := map lit q.
Example C45_case : relative (qd ["foo"; "bar"; "bam"; "Baz"]) (Some (qd ["foo"; "bar"; "bim"])) = qd ["super"; "bam"; "Baz"] /\
  walk (qd ["foo"; "bar"; "bim"]) (qd ["super"; "bam"; "Baz"]) = Some (qd ["foo"; "bar"; "bam"; "Baz"]) /\
  ~ encloses (qd ["foo"; "bar"; "bam"; "Baz"]) (qd ["foo"; "bar"; "bim"]) /\
  emitted_item (fun x => x) (qd ["foo"; "bar"; "bam"; "Baz"]) = qd ["foo"; "bar"; "bam"; "Baz"].
Proof. split; [reflexivity|]. split; [reflexivity|]. split; [intros (l & E); discriminate E|reflexivity]. Qed.

(** C46.  After substitution an identifier is a keyword exactly if it is [try]. *)
Theorem C46_keyword_iff x : keyword (fix_identifier x) <-> x = lit "try".
Proof. exact (fix_keyword_iff x). Qed.
Print Assumptions C46_keyword_iff.

(** So C46 as stated is false. *)
Theorem C46_keyword_refuted : exists x, keyword (fix_identifier x).
Proof. exact keyword_refuted. Qed.
Print Assumptions C46_keyword_refuted.

(** Different identifiers become equal only when one is the substitute of the
    other, a keyword. *)
Theorem C46_collisions x y : fix_identifier x = fix_identifier y -> x <> y ->
  (keyword x /\ y = fix_identifier x) \/ (keyword y /\ x = fix_identifier y).
Proof. exact (fix_collisions x y). Qed.
Print Assumptions C46_collisions.

(** Identifiers that are not keywords stay different. *)
Theorem C46_distinct x y : ~ keyword x -> ~ keyword y -> fix_identifier x = fix_identifier y -> x = y.
Proof. exact (fix_distinct x y). Qed.
Print Assumptions C46_distinct.

(** But in general they do not: [type] and [ty]. *)
Theorem C46_distinct_refuted : exists x y, x <> y /\ fix_identifier x = fix_identifier y /\ ~ keyword y.
Proof. exact distinct_refuted. Qed.
Print Assumptions C46_distinct_refuted.

(** The names of accessors are put into snake case after the substitution, which
    undoes it (see C53). *)
Theorem C46_accessor_refuted : keyword (accessor_name snake_case (lit "match")).
Proof. exact (accessor_refuted snake_case eq_refl). Qed.
Print Assumptions C46_accessor_refuted.

Example C46_case : keyword (lit "match") /\ fix_identifier (lit "match") = lit "match_" /\ ~ keyword (lit "match_") /\
  fix_identifier (lit "match_") = lit "match_" /\ fix_identifier (lit "hp") = lit "hp" /\ ~ keyword (lit "hp").
Proof.
  assert (D : forall x, mem_text x (map lit rust_keywords) = false -> ~ keyword x) by (intros x E K; apply mem_text_In in K; congruence).
  split; [apply mem_text_In; reflexivity|]. split; [reflexivity|]. split; [apply D; reflexivity|]. split; [reflexivity|]. split; [reflexivity|apply D; reflexivity].
Qed.

(** C53.  Snake case gives small letters and digits with single underscores inside;
    it changes case and underscores only; names of that shape are left alone, and
    no others. *)
Theorem C53_snake_shape x : name_text x -> snake_shaped (snake_case x) /\ same_letters (snake_case x) x.
Proof. exact (fun N => conj (snake_shape x N) (snake_keeps x)). Qed.
Print Assumptions C53_snake_shape.
Theorem C53_snake_fixed x : name_text x -> (snake_case x = x <-> snake_shaped x).
Proof. exact (snake_fixed_iff x). Qed.
Print Assumptions C53_snake_fixed.

(** Snake case exactly: every name divides into words in one way, and its snake case
    is those words in small letters with underscores between. *)
Theorem C53_words x : name_text x ->
  exists ws, has_words x ws /\ snake_case x = joined ws /\ forall ws', has_words x ws' -> ws' = ws.
Proof. exact (snake_exact x). Qed.
Print Assumptions C53_words.

(** An accessor has a valid name exactly if the field's name has a letter as its
    first character other than underscores, and is no keyword in snake case; [type]
    is the one keyword that is substituted to some effect. *)
Theorem C53_accessor_valid_iff x : name_text x ->
  (rust_name (accessor_name snake_case x) <-> starts_with_letter x /\ (keyword (snake_case x) -> x = lit "type")).
Proof. exact (accessor_valid_iff x). Qed.
Print Assumptions C53_accessor_valid_iff.
(** The same for the module of a namespace, whose name has gone through keyword
    substitution as well. *)
Theorem C53_module_valid_iff x : name_text x ->
  (rust_name (module_name snake_case (fix_identifier x)) <-> starts_with_letter x /\ (keyword (snake_case x) -> x = lit "type")).
Proof. exact (accessor_valid_iff x). Qed.
Print Assumptions C53_module_valid_iff.
(** Substitution makes no other difference to an accessor's name. *)
Theorem C53_substitution_undone x : x <> lit "type" -> accessor_name snake_case x = snake_case x.
Proof. exact (accessor_snake x). Qed.
Print Assumptions C53_substitution_undone.
(** So C53 as stated is false: fields named [match], [_] and [_1] have no valid
    accessor name. *)
Theorem C53_refuted : forall x, In x [lit "match"; lit "_"; lit "_1"] -> name_text x /\ ~ rust_name (accessor_name snake_case x).
Proof. exact names_refuted. Qed.
Print Assumptions C53_refuted.
Example C53_case : name_text (lit "hitPoints") /\ rust_name (accessor_name snake_case (lit "hitPoints")) /\
  accessor_name snake_case (lit "hitPoints") = lit "hit_points" /\ rust_name (accessor_name snake_case (lit "type")).
Proof. exact names_case. Qed.

(** C54.  Two fields with the same accessor have the same letters and digits, up to
    case and underscores, or one of them is [type]. *)
Theorem C54_clash x y : accessor_name snake_case x = accessor_name snake_case y ->
  same_letters x y \/ x = lit "type" \/ y = lit "type".
Proof. exact (accessor_clash x y). Qed.
Print Assumptions C54_clash.
(** Exactly: two fields have the same accessor if they have the same words up to
    case, where [type] counts as [ty]. *)
Theorem C54_exact x y xs ys : name_text x -> name_text y -> has_words x xs -> has_words y ys ->
  (accessor_name snake_case x = accessor_name snake_case y <->
   (x <> lit "type" /\ y <> lit "type" /\ map (map small) xs = map (map small) ys) \/
   (x = lit "type" /\ (y = lit "type" \/ map (map small) ys = [lit "ty"])) \/
   (y = lit "type" /\ map (map small) xs = [lit "ty"])).
Proof. exact (accessor_equal x y xs ys). Qed.
Print Assumptions C54_exact.
Example C54_words_case : has_words (lit "HTTPServer2Go_x") [lit "HTTP"; lit "Server2"; lit "Go"; lit "x"] /\
  snake_case (lit "HTTPServer2Go_x") = lit "http_server2_go_x" /\ name_text (lit "HTTPServer2Go_x") /\
  accessor_name snake_case (lit "HTTPServer2Go_x") = accessor_name snake_case (lit "http_server2_go_X").
Proof. exact words_case. Qed.
(** Names that are in snake case get different accessors, except [type] and [ty]. *)
Theorem C54_distinct x y : snake_shaped x -> snake_shaped y -> accessor_name snake_case x = accessor_name snake_case y ->
  x = y \/ (x = lit "type" /\ y = lit "ty") \/ (x = lit "ty" /\ y = lit "type").
Proof. exact (accessor_distinct x y). Qed.
Print Assumptions C54_distinct.
(** As stated C54 is false. *)
Theorem C54_refuted : exists x y, name_text x /\ name_text y /\ x <> y /\ accessor_name snake_case x = accessor_name snake_case y.
Proof. exact clash_refuted. Qed.
Print Assumptions C54_refuted.
Example C54_case : snake_shaped (lit "hit_points") /\ snake_shaped (lit "hp2") /\
  accessor_name snake_case (lit "hit_points") <> accessor_name snake_case (lit "hp2").
Proof. exact distinct_case. Qed.

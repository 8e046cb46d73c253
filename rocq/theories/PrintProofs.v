(** The printed text of a writable schema is a text of the grammar (C48). *)
From Coq Require Import Strings.String ZArith List Bool Lia Strings.Byte ZifyBool ZifyNat ZifyN.
From Verif Require Import Base Schema SpecGrammar SpecPrint.
Import ListNotations.
Local Open Scope Z_scope.

(** * Numbers *)
Lemma ten v : 0 <= v < 10 ->
  v = 0 \/ v = 1 \/ v = 2 \/ v = 3 \/ v = 4 \/ v = 5 \/ v = 6 \/ v = 7 \/ v = 8 \/ v = 9.
Proof. lia. Qed.
Lemma show_digit_spec v : 0 <= v < 10 -> digit (show_digit v) /\ weight_of (show_digit v) = v.
Proof.
  intros H. apply ten in H. repeat (destruct H as [->|H]); [..|subst v];
    (split; [unfold digit; vm_compute; tauto|reflexivity]).
Qed.
Lemma number_snoc base ds d : number base (ds ++ [d]) = number base ds * base + weight_of d.
Proof. unfold number. now rewrite fold_left_app. Qed.
Lemma show_digits_spec : forall n v, 0 <= v < 2 ^ (Z.of_nat n + 1) ->
  Forall digit (show_digits n v) /\ show_digits n v <> [] /\ number 10 (show_digits n v) = v.
Proof.
  assert (B : forall v, 0 <= v < 10 ->
    Forall digit [show_digit v] /\ [show_digit v] <> [] /\ number 10 [show_digit v] = v).
  { intros v H. destruct (show_digit_spec v H) as [D W]. split; [auto|split; [discriminate|]].
    unfold number. cbn [fold_left]. rewrite W. reflexivity. }
  induction n as [|n IH]; intros v H; cbn [show_digits].
  - apply B. change (2 ^ (Z.of_nat 0 + 1)) with 2 in H. lia.
  - destruct (v <? 10) eqn:E; [apply B; lia|].
    assert (P : 2 ^ (Z.of_nat (S n) + 1) = 2 * 2 ^ (Z.of_nat n + 1)).
    { rewrite Nat2Z.inj_succ. rewrite <- Z.pow_succ_r by lia. f_equal; lia. }
    rewrite P in H. clear P.
    assert (Q : 0 <= v / 10 < 2 ^ (Z.of_nat n + 1)).
    { split; [apply Z.div_pos; lia|]. apply Z.div_lt_upper_bound; lia. }
    destruct (IH (v / 10) Q) as (D & N & V).
    assert (M : 0 <= v mod 10 < 10) by (apply Z.mod_pos_bound; lia).
    destruct (show_digit_spec _ M) as [D' W]. split; [|split].
    + apply Forall_app. auto.
    + intros K. apply app_eq_nil in K as [_ K]. discriminate K.
    + rewrite number_snoc, V, W. pose proof (Z.div_mod v 10). lia.
Qed.
Lemma show_nonneg_spec v : 0 <= v ->
  Forall digit (show_nonneg v) /\ show_nonneg v <> [] /\ number 10 (show_nonneg v) = v.
Proof.
  intros H. apply show_digits_spec. split; [assumption|]. pose proof (Z.log2_nonneg v).
  rewrite Z2Nat.id by assumption. destruct (Z.eq_dec v 0) as [->|N]; [reflexivity|].
  apply Z.log2_spec. lia.
Qed.
Lemma show_int_text v : i128 v -> integer_text (show_int v) v.
Proof.
  intros I. unfold show_int. destruct (v <? 0) eqn:E.
  - destruct (show_nonneg_spec (- v)) as (D & N & V); [lia|].
    assert (K : - number 10 (show_nonneg (- v)) = v) by lia.
    rewrite <- K at 2. apply integer_dec with (f := Z.opp); auto; [right; right; auto|]. now rewrite K.
  - destruct (show_nonneg_spec v) as (D & N & V); [lia|].
    rewrite <- V at 2. apply integer_dec with (sign := []) (f := fun x => x); auto; [left; auto|]. now rewrite V.
Qed.

(** * Blanks *)
Lemma blank_sp : blank (lit " ").
Proof. constructor; [cbn; auto|constructor]. Qed.
Lemma blank_nl : blank newline.
Proof. constructor; [cbn; tauto|constructor]. Qed.
Lemma blank1_sp : blank1 (lit " ").
Proof. split; [apply blank_sp|discriminate]. Qed.
#[local] Hint Resolve blank_sp blank_nl blank1_sp blank_nil : core.
Lemma any_thing s : anything s.
Proof. exact I. Qed.
Lemma any_named x s : any_name x s.
Proof. exact I. Qed.
#[local] Hint Resolve any_thing any_named : core.
Lemma nl_end : line_end newline.
Proof. left. reflexivity. Qed.
Lemma show_doc_text c : doc_ok c -> docs (show_doc c) c.
Proof.
  intros H. induction H as [|l c L H IH]; [constructor|].
  cbn [show_doc flat_map]. rewrite <- !app_assoc.
  change (flat_map _ c) with ([] ++ show_doc c). apply docs_line; auto using nl_end.
Qed.
Lemma join_listing {A} (item : text -> text -> A -> Prop) (show : A -> text) b1 b2 r l :
  blank b1 -> blank b2 -> l <> [] -> (forall r a, In a l -> item r (show a) a) ->
  listing item r (join (b1 ++ lit "," ++ b2) (map show l)) l.
Proof.
  intros B1 B2 N H. induction l as [|a l IH]; [congruence|]. destruct l as [|a' l].
  - cbn [map join]. constructor. apply H. now left.
  - change (join _ (map show (a :: a' :: l))) with
      (show a ++ (b1 ++ lit "," ++ b2) ++ join (b1 ++ lit "," ++ b2) (map show (a' :: l))).
    rewrite <- !app_assoc. constructor; auto.
    + apply H. now left.
    + apply IH; [discriminate|]. intros q x X. apply H. now right.
Qed.
Lemma commas {A} (item : text -> text -> A -> Prop) (show : A -> text) r l :
  l <> [] -> (forall r a, In a l -> item r (show a) a) -> listing item r (join (lit ", ") (map show l)) l.
Proof. intros. apply (join_listing item show [] (lit " ")); auto. Qed.
Lemma lines_series {A} (item : text -> text -> A -> Prop) (show : A -> text) r l :
  (forall r a, In a l -> item r (show a) a) -> series item r (lines (map show l)) l.
Proof.
  intros H. induction l as [|a l IH]; [constructor|].
  unfold lines in *. cbn [map flat_map]. rewrite <- app_assoc. constructor; auto.
  - apply H. now left.
  - apply IH. intros q x X. apply H. now right.
Qed.

Section Print.
Context (uni_alphabetic uni_alphanumeric : text -> bool).
Context (parse_f64 parse_hexf64 : text -> option Z).
Context (has_stem : text -> bool).
Context (show_float : Z -> text).
Notation ua := uni_alphabetic.
Notation un := uni_alphanumeric.
Notation f6 := parse_f64.
Notation fh := parse_hexf64.

Lemma show_path_text q : path_ok ua un q -> qname_text ua un (show_path q) q.
Proof.
  intros [N F]. induction q as [|x q IH]; [congruence|]. inversion F; subst. destruct q as [|y q].
  - constructor. assumption.
  - change (show_path (x :: y :: q)) with (x ++ [] ++ lit "." ++ [] ++ show_path (y :: q)).
    constructor; auto. apply IH; auto. discriminate.
Qed.
Lemma show_scalar_text s : scalar_ok f6 fh show_float s -> scalar_text f6 fh (show_scalar show_float s) s.
Proof. destruct s as [v|v|[]]; cbn; intros H; constructor; auto. now apply show_int_text. Qed.
Lemma quoted_text s : string_body s -> string_text (quoted s) s.
Proof. intros H. split; auto. Qed.
Lemma show_single_text s : single_ok f6 fh show_float s -> single_text f6 fh (show_single show_float s) s.
Proof. destruct s; cbn [show_single single_ok]; intros H; constructor; auto using show_scalar_text, quoted_text. Qed.
Lemma show_default_text r d : default_ok ua un f6 fh show_float d -> default_text ua un f6 fh anything any_name r (show_default show_float d) d.
Proof. destruct d; cbn [show_default default_ok]; intros H; constructor; auto using show_scalar_text. Qed.
Lemma show_meta_text r m : meta_ok ua un f6 fh show_float m -> meta_text ua un f6 fh anything r (show_meta show_float m) m.
Proof.
  destruct m as [m|]; cbn [meta_ok show_meta]; [|constructor]. intros H. destruct m as [|i m].
  - apply meta_empty with (b := []). constructor.
  - change (lit "(" ++ ?t ++ lit ")") with (lit "(" ++ [] ++ t ++ [] ++ lit ")").
    apply meta_some with (b1 := []) (b2 := []); auto. apply commas; [discriminate|].
    intros q [x v] I. rewrite Forall_forall in H. destruct (H _ I) as [Nx Sv]. destruct v as [v|]; cbn [show_meta_item].
    + change (lit ": ") with ([] ++ lit ":" ++ lit " "). rewrite <- !app_assoc. constructor; auto using show_single_text.
    + now constructor.
Qed.
Lemma show_value_text : forall r v, value_ok ua un f6 fh show_float v -> value_text ua un f6 fh anything r (show_value show_float v) v.
Proof.
  fix IH 3. intros r v H. destruct H as [s H|kv c D H|l H].
  - constructor; [now apply show_single_text|exact I].
  - cbn [show_value]. constructor; [|exact I]. destruct kv as [|i kv].
    + apply object_empty with (b := []); auto. now apply show_doc_text.
    + change (lit "{" ++ ?t ++ lit "}") with (lit "{" ++ [] ++ t ++ [] ++ lit "}").
      apply object_some; auto; [now apply show_doc_text|]. apply commas; [discriminate|].
      intros q [x v] I. destruct (H x v I) as [Nx Hv]. change (lit ": ") with ([] ++ lit ":" ++ lit " ").
      rewrite <- !app_assoc. constructor; auto.
  - cbn [show_value]. destruct l as [|v l].
    + apply value_empty_list with (b := []); [constructor|exact I].
    + change (lit "[" ++ ?t ++ lit "]") with (lit "[" ++ [] ++ t ++ [] ++ lit "]").
      apply value_list; auto. apply commas; [discriminate|]. intros q w I. apply IH. apply H. exact I.
Qed.
Lemma show_type_text t : type_ok ua un t -> type_text ua un (show_type t) t.
Proof.
  induction t as [p| |t IH|q]; cbn [type_ok show_type]; intros H; constructor; auto. now apply show_path_text.
Qed.
Lemma show_field_text r f : field_ok ua un f6 fh show_float f -> field_text ua un f6 fh anything any_name r (show_field show_float f) f.
Proof.
  destruct f as [x ty d m c]. intros (D & N & T & V & M). cbn [af_id af_ty af_default af_meta af_doc] in *.
  unfold show_field. cbn [af_id af_ty af_default af_meta af_doc].
  change (lit ": ") with ([] ++ lit ":" ++ lit " "). rewrite <- !app_assoc.
  change (show_meta show_float m ++ lit ";") with (show_meta show_float m ++ [] ++ lit ";").
  constructor; auto using show_doc_text, show_type_text, show_meta_text.
  destruct d as [d|]; [|constructor]. change (lit " = ") with (lit " " ++ lit "=" ++ lit " ").
  rewrite <- !app_assoc. constructor; auto. now apply show_default_text.
Qed.
Lemma show_product_text kw r p : product_ok ua un f6 fh show_float p ->
  product_text ua un f6 fh anything any_name kw r (show_product show_float kw p) p.
Proof.
  destruct p as [x fs m c]. intros (D & N & M & F). cbn [ap_id ap_fields ap_meta ap_doc] in *.
  unfold show_product. cbn [ap_id ap_fields ap_meta ap_doc].
  change (lit " {") with (lit " " ++ lit "{"). rewrite <- !app_assoc.
  constructor; auto using show_doc_text, show_meta_text.
  apply lines_series. rewrite Forall_forall in F. auto using show_field_text.
Qed.
Lemma show_variant_text v : variant_ok ua un v -> variant_text ua un (show_variant v) v.
Proof.
  destruct v as [x i c]. intros (D & N & V). cbn [av_id av_value av_doc] in *. unfold show_variant.
  cbn [av_id av_value av_doc]. constructor; auto using show_doc_text.
  destruct i as [i|]; [|constructor]. change (lit " = ") with (lit " " ++ lit "=" ++ lit " ").
  rewrite <- !app_assoc. constructor; auto. now apply show_int_text.
Qed.
Lemma show_variants_text vs : variants_ok ua un vs -> variants_text ua un (show_variants vs) vs.
Proof.
  intros [N F]. unfold show_variants. change (lit " {") with (lit " " ++ lit "{"). rewrite <- !app_assoc.
  constructor; auto. apply (join_listing _ _ [] newline); auto. rewrite Forall_forall in F. auto using show_variant_text.
Qed.
Lemma show_enum_text r e : enum_ok ua un f6 fh show_float e -> enum_text ua un f6 fh anything r (show_enum show_float e) e.
Proof.
  destruct e as [x vs b m c]. intros (D & N & T & M & V). cbn [ae_id ae_variants ae_base ae_meta ae_doc] in *.
  unfold show_enum. cbn [ae_id ae_variants ae_base ae_meta ae_doc].
  change (lit "enum ") with (lit "enum" ++ lit " "). change (lit " : ") with (lit " " ++ lit ":" ++ lit " ").
  rewrite <- !app_assoc. constructor; auto using show_doc_text, show_type_text, show_meta_text, show_variants_text.
Qed.
Lemma show_union_text r u : union_ok ua un f6 fh show_float u -> union_text ua un f6 fh anything r (show_union show_float u) u.
Proof.
  destruct u as [x vs m c]. intros (D & N & M & V). cbn [au_id au_variants au_meta au_doc] in *.
  unfold show_union. cbn [au_id au_variants au_meta au_doc].
  change (lit "union ") with (lit "union" ++ lit " ").
  rewrite <- !app_assoc. constructor; auto using show_doc_text, show_meta_text, show_variants_text.
Qed.
Lemma show_method_text r m : method_ok ua un f6 fh show_float m -> method_text ua un f6 fh anything r (show_method show_float m) m.
Proof.
  destruct m as [x q1 q2 m c]. intros (D & N & Q1 & Q2 & M). cbn [am_id am_request am_response am_meta am_doc] in *.
  unfold show_method. cbn [am_id am_request am_response am_meta am_doc].
  change (lit "): ") with ([] ++ lit ")" ++ [] ++ lit ":" ++ lit " ").
  change (lit "(") with ([] ++ lit "(" ++ []).
  change (show_meta show_float m ++ lit ";") with (show_meta show_float m ++ [] ++ lit ";").
  rewrite <- !app_assoc. constructor; auto using show_doc_text, show_path_text, show_meta_text.
Qed.
Lemma show_rpc_text q r : rpc_ok ua un f6 fh show_float r -> rpc_text ua un f6 fh anything q (show_rpc show_float r) r.
Proof.
  destruct r as [x ms c]. intros (D & N & NE & F). cbn [ar_id ar_methods ar_doc] in *.
  unfold show_rpc. cbn [ar_id ar_methods ar_doc].
  change (lit "rpc_service ") with (lit "rpc_service" ++ lit " "). change (lit " {") with (lit " " ++ lit "{").
  rewrite <- !app_assoc. constructor; auto using show_doc_text.
  apply lines_series. rewrite Forall_forall in F. auto using show_method_text.
Qed.
Lemma show_statement_text {A} kw (gap : text -> Prop) (item : text -> A -> Prop) c t a :
  gap (lit " ") -> doc_ok c -> item t a -> statement kw gap item (show_statement kw c t) a c.
Proof.
  intros G D I. unfold show_statement. change (t ++ lit ";") with (t ++ [] ++ lit ";").
  constructor; auto using show_doc_text.
Qed.
Lemma show_element_text r e : element_ok ua un f6 fh show_float e ->
  element_text ua un f6 fh anything any_name r (show_element show_float e) e.
Proof.
  destruct e as [q c|p|p|e|u|x|t c|t c|x|rp|kv c]; cbn [element_ok show_element]; intros H.
  - destruct H. constructor. apply show_statement_text; auto. now apply show_path_text.
  - constructor. now apply show_product_text.
  - constructor. now apply show_product_text.
  - constructor. now apply show_enum_text.
  - constructor. now apply show_union_text.
  - econstructor. apply show_statement_text; auto; [constructor|split; auto].
  - destruct H. constructor. apply show_statement_text; auto using quoted_text.
  - destruct H. constructor. apply show_statement_text; auto.
  - econstructor. apply show_statement_text; auto; [constructor|right; now apply quoted_text].
  - constructor. now apply show_rpc_text.
  - constructor. apply (show_value_text r) in H. now inversion H.
Qed.
Lemma show_include_text i : include_ok has_stem i -> include_text has_stem (show_include i) i.
Proof.
  intros (D & B & St). split; auto. apply show_statement_text; auto using quoted_text.
Qed.
Lemma lines_nonempty t l : lines (t :: l) <> [].
Proof. unfold lines. cbn [flat_map]. intros E. apply app_eq_nil in E as [E _]. apply app_eq_nil in E as [_ E]. discriminate E. Qed.
Lemma show_schema_text s : writable ua un f6 fh has_stem show_float s ->
  schema_text ua un f6 fh has_stem (show_schema show_float s) s.
Proof.
  destruct s as [is_ es]. intros [FI FE]. cbn [sc_includes sc_elements] in *. unfold show_schema. cbn [sc_includes sc_elements].
  rewrite Forall_forall in FI, FE.
  assert (SI : series (fun _ => include_text has_stem) [] (lines (map show_include is_)) is_)
    by (apply lines_series; auto using show_include_text).
  assert (SE : series (element_text ua un f6 fh anything any_name) [] (lines (map (show_element show_float) es)) es)
    by (apply lines_series; auto using show_element_text).
  destruct is_ as [|i is_]; [destruct es as [|e es]; [constructor|]|].
  - rewrite <- (app_nil_r (lines (map (show_element show_float) _))).
    apply file_some with (b := []); auto; [left; reflexivity|]. apply lines_nonempty.
  - rewrite <- (app_nil_r (lines (map (show_element show_float) _))).
    apply file_some with (b := []); auto; [left; reflexivity|].
    intros E. apply app_eq_nil in E as [E _]. now apply lines_nonempty in E.
Qed.
End Print.

(** Type names that start with the name of a built-in type (C49). *)
From Coq Require Import Strings.String ZArith List Bool Lia Strings.Byte ZifyBool ZifyNat ZifyN.
From Verif Require Import Base Schema Parser SpecParser SpecGrammar ParserProofs ParserProofs2 GrammarProofs
  GrammarProofs2 GrammarProofs3 GrammarProofs4 GrammarProofs5 GrammarProofs6.
Import ListNotations.
Local Open Scope Z_scope.

Lemma names_builtin w t : In (w, t) builtin_names <-> (w = lit "string" /\ t = AString) \/ exists p, w = prim_name p /\ t = APrim p.
Proof.
  split.
  - intros I. cbn in I. repeat destruct I as [I|I]; try contradiction; injection I as <- <-;
      (left; split; reflexivity) || (right; eexists; split; [|reflexivity]; reflexivity).
  - intros [[-> ->]|(p & -> & ->)]; [|destruct p]; cbn; tauto.
Qed.
Lemma alt_tags_some (l : list (text * aty)) (s : text) ty q :
  alt (map (fun '(w, t) => value_of (B := aty) t (tag w)) l) s = Some (ty, q) -> exists w, In (w, ty) l /\ s = w ++ q.
Proof.
  induction l as [|[w t] l IH]; cbn [map alt]; [discriminate|]. unfold value_of at 1.
  destruct (tag w s) as [[x r]|] eqn:E.
  - injection 1 as <- <-. apply tag_spec in E as [-> _]. exists w. split; [now left|reflexivity].
  - intros H. apply IH in H as (w' & I & ->). exists w'. split; [now right|reflexivity].
Qed.
Lemma alt_tags_none (l : list (text * aty)) (w q : text) t :
  In (w, t) l -> alt (map (fun '(w, t) => value_of (B := aty) t (tag w)) l) (w ++ q) <> None.
Proof.
  induction l as [|[w' t'] l IH]; cbn [map alt]; [contradiction|]. unfold value_of at 1. intros [E|I].
  - injection E as -> ->. rewrite tag_app. discriminate.
  - destruct (tag w' (w ++ q)) as [[x r]|]; [discriminate|auto].
Qed.
Lemma app_compare (x r w q : text) : x ++ r = w ++ q ->
  (exists y, x = w ++ y /\ q = y ++ r) \/ (exists c z, w = x ++ c :: z /\ r = c :: z ++ q).
Proof.
  revert w. induction x as [|a x IH]; intros [|b w]; cbn [app]; intros E.
  - left. exists []. auto.
  - right. exists b, w. auto.
  - left. exists (a :: x). auto.
  - injection E as -> E. destruct (IH w E) as [(y & -> & ->)|(c & z & -> & ->)]; [left|right]; eauto.
Qed.
Lemma builtin_taken x (r : text) : builtin_like x -> ~ builtin x -> breaks r ->
  exists w y ty, x = w ++ y /\ y <> [] /\ builtin_type (x ++ r) = Some (ty, y ++ r) /\ In (w, ty) builtin_names.
Proof.
  intros (w & z & -> & B) N R.
  assert (I : exists t, In (w, t) builtin_names).
  { destruct B as [->|(p & ->)]; eexists; apply names_builtin; [left|right]; eauto. }
  destruct I as (t & I). rewrite <- app_assoc. unfold builtin_type.
  destruct (alt _ (w ++ z ++ r)) as [[ty q]|] eqn:E.
  2: { exfalso. eapply alt_tags_none; eauto. }
  apply alt_tags_some in E as (w' & I' & E). rewrite app_assoc in E.
  destruct (app_compare _ _ _ _ E) as [(y & Ex & ->)|(c & y & Ew & ->)].
  - exists w', y, ty. repeat split; auto. intros ->. apply N. rewrite app_nil_r in Ex. rewrite Ex.
    apply names_builtin in I' as [[-> _]|(p & -> & _)]; [left|right]; eauto.
  - exfalso. cbn [breaks] in R.
    assert (F : Forall (fun c => ~ In c breakers) w').
    { apply names_plain. clear - I'. cbn in I'. repeat destruct I' as [I'|I']; try contradiction; injection I' as <- <-; reflexivity. }
    rewrite Forall_forall in F. apply (F c); auto. rewrite Ew. apply in_or_app. right. now left.
Qed.

Section Types.
Context (uni_alphabetic uni_alphanumeric uni_word : text -> bool).
Context (parse_f64 parse_hexf64 : text -> option Z).
Notation ua := uni_alphabetic.
Notation un := uni_alphanumeric.
Notation uw := uni_word.
Notation f6 := parse_f64.
Notation fh := parse_hexf64.

Definition solid (c : byte) : Prop :=
  is_space c = false /\ c <> "/"%byte /\ c <> "="%byte /\ c <> "("%byte /\ c <> ";"%byte.
Lemma word_solid c : is_letter c || is_digit c || Byte.eqb c "_" = true -> solid c.
Proof. unfold solid. destruct c; try discriminate; repeat split; discriminate. Qed.
Lemma high_solid c : (128 <= Byte.to_N c)%N -> solid c.
Proof. unfold solid. destruct c; cbn; intros; try lia; repeat split; discriminate. Qed.
Lemma wide_solid c : wide c -> Forall solid c.
Proof.
  intros (b & r & -> & B & _ & F). constructor; [apply high_solid; lia|].
  eapply Forall_impl; [|exact F]. intros d D. apply high_solid. unfold continuation in D. lia.
Qed.
Lemma name_solid x : name_text ua un x -> Forall solid x.
Proof.
  intros (c & cs & -> & S & F). apply Forall_app. split.
  - destruct S as [(b & -> & H)|[W _]]; [|now apply wide_solid]. constructor; [|constructor].
    apply word_solid. destruct H as [H| ->]; [apply letter_iff in H; now rewrite H|reflexivity].
  - induction F as [|d cs H F IH]; cbn [List.concat]; [constructor|]. apply Forall_app. split; auto.
    destruct H as [(b & -> & H)|[W _]]; [|now apply wide_solid]. constructor; [|constructor].
    apply word_solid. destruct H as [H|[H| ->]]; [apply letter_iff in H; now rewrite H| |reflexivity].
    apply digit_iff in H. rewrite H. now rewrite orb_true_r.
Qed.

Lemma type_taken x (r : text) : builtin_like x -> ~ builtin x -> breaks r ->
  exists w y ty, x = w ++ y /\ y <> [] /\ type_ ua un (x ++ r) = Some (ty, y ++ r) /\ In (w, ty) builtin_names.
Proof.
  intros B N R. destruct (builtin_taken x r B N R) as (w & y & ty & E & NE & T & I). exists w, y, ty.
  repeat split; auto. rewrite type_equation. cbn [alt]. now rewrite T.
Qed.
(** A type name is read as itself exactly when it does not start with the name of a
    built-in type. *)
Lemma type_name_iff x cs (r : text) : name_text ua un x -> ~ builtin x -> next cs r ->
  type_ ua un (x ++ r) = Some (AIdent [x], r) <-> ~ builtin_like x.
Proof.
  intros X N R. split.
  - intros E B. destruct (type_taken x r B N (next_breaks _ _ R)) as (w & y & ty & _ & NE & T & _).
    rewrite E in T. injection T as _ T. apply (f_equal (@List.length byte)) in T. rewrite app_length in T.
    destruct y; [congruence|cbn in T; lia].
  - intros B. eapply (type_ok ua un x (AIdent [x])); eauto. constructor. now constructor.
Qed.
(** Otherwise the field is no field at all. *)
Lemma field_rejected d c f b1 b2 x (r : text) :
  docs d c -> name_text ua un f -> blank b1 -> blank b2 -> name_text ua un x -> builtin_like x -> ~ builtin x ->
  breaks r ->
  field_decl ua un uw f6 fh (d ++ f ++ b1 ++ lit ":" ++ b2 ++ x ++ r) = None.
Proof.
  intros D F B1 B2 X L N R. unfold field_decl, pmap, terminated, pair_, preceded.
  rewrite (docs_ok d c) by (auto; eapply starts_name; eauto).
  rewrite name_ok' by (auto; apply breaks_blank; auto; apply breaks_delim; in_delims).
  rewrite blank_ok by (auto; apply delim_stops; in_delims). unfold colon. ch.
  rewrite blank_ok by (auto; eapply stops_name; eauto).
  destruct (type_taken x r L N R) as (w & y & ty & E & NE & T & _). rewrite T.
  pose proof (name_solid x X) as S. rewrite E in S. apply Forall_app in S as [_ S].
  destruct y as [|a y]; [congruence|]. inversion S as [|? ? (S1 & S2 & S3 & S4 & S5) _]; subst.
  cbn [app]. unfold opt at 1. rewrite blank0_ok by (now apply stops_byte). unfold equals. rewrite char_none by auto.
  rewrite blank0_ok by (now apply stops_byte).
  unfold p_metadata, opt, raw_metadata, delimited, preceded, terminated, left_paren. rewrite char_none by auto.
  rewrite blank0_ok by (now apply stops_byte). unfold semicolon. now rewrite char_none by auto.
Qed.
End Types.

(** * A test for texts that mention no special float name *)
Fixpoint occurs (w : text) (t : text) : bool :=
  match tag w t with Some _ => true | None => match t with [] => false | _ :: t => occurs w t end end.
Lemma occurs_app w (a b : text) : occurs w (a ++ w ++ b) = true.
Proof.
  induction a as [|c a IH]; cbn [app].
  - destruct w as [|c w]; [destruct b; reflexivity|]. cbn [app occurs].
    change (c :: w ++ b) with ((c :: w) ++ b). now rewrite tag_app.
  - cbn [occurs]. destruct (tag w (c :: a ++ w ++ b)); auto.
Qed.
Lemma quiet_check t : occurs (lit "nan") t = false -> occurs (lit "inf") t = false -> quiet t.
Proof.
  intros N I. repeat split; intros (a & b & -> & _).
  - now rewrite occurs_app in N.
  - now rewrite occurs_app in I.
  - change (lit "infinity" ++ b) with (lit "inf" ++ lit "inity" ++ b) in I. now rewrite occurs_app in I.
Qed.

(** Qualified names, types, numbers and single values are read as the grammar
    says (towards C48 to C51). *)
From Coq Require Import Strings.String ZArith List Bool Lia Strings.Byte ZifyBool ZifyNat ZifyN.
From Verif Require Import Base Schema Parser SpecParser SpecGrammar ParserProofs ParserProofs2 GrammarProofs.
Import ListNotations.
Local Open Scope Z_scope.

(** * What may follow a name or a number *)
Lemma breaks_delim c r : In c delims -> breaks (c :: r).
Proof. intros H. cbn [breaks]. unfold breakers. rewrite In_existsb in *. destruct c; try discriminate; reflexivity. Qed.
Lemma blank_first b : blank b -> match b with [] => True | c :: _ => c = "/"%byte \/ space c end.
Proof. destruct 1; cbn; auto. Qed.
Lemma breaks_blank b r : blank b -> breaks r -> breaks (b ++ r).
Proof.
  intros B R. apply blank_first in B. destruct b as [|c b]; auto. cbn [breaks app]. destruct B as [->|B].
  - unfold breakers. rewrite In_existsb. reflexivity.
  - unfold breakers, space in *. rewrite In_existsb in *. destruct c; try discriminate; reflexivity.
Qed.
Lemma breaks_plain c r : breaks (c :: r) ->
  is_letter c = false /\ is_digit c = false /\ is_hex_digit c = false /\ is_ascii c = true
  /\ c <> "_"%byte /\ c <> "."%byte.
Proof.
  cbn [breaks]. unfold breakers. rewrite In_existsb. intros H.
  destruct c; try discriminate; repeat split; try reflexivity; discriminate.
Qed.

Lemma next_here cs c t : In c cs -> In c delims -> next cs (c :: t).
Proof. intros H K. exists [], c, t. repeat split; auto. constructor. Qed.
Lemma next_blank cs b r : blank b -> next cs r -> next cs (b ++ r).
Proof.
  intros B (b' & c & t & -> & B' & H & K). exists (b ++ b'), c, t. rewrite app_assoc. repeat split; auto.
  now apply blank_app.
Qed.
Lemma next_weaken cs ds r : (forall c, In c cs -> In c ds) -> next cs r -> next ds r.
Proof. intros I (b & c & t & E & B & H & K). exists b, c, t. repeat split; auto. Qed.
Lemma next_breaks cs r : next cs r -> breaks r.
Proof. intros (b & c & t & -> & B & _ & K). apply breaks_blank; auto. now apply breaks_delim. Qed.
Lemma delim_stops c t : In c delims -> starts (c :: t).
Proof.
  intros H. unfold delims in H. rewrite In_existsb in H.
  apply starts_byte; destruct c; try discriminate; reflexivity.
Qed.
Lemma next_skip cs r : next cs r -> exists c t, comment_or_space0 r = Some (tt, c :: t) /\ In c cs /\ In c delims.
Proof.
  intros (b & c & t & -> & B & H & K). exists c, t. rewrite blank_ok; auto. apply delim_stops; auto.
Qed.

Section Names.
Context (uni_alphabetic uni_alphanumeric : text -> bool).
Notation p_ident := (p_ident uni_alphabetic uni_alphanumeric).
Notation name_text := (name_text uni_alphabetic uni_alphanumeric).
Notation qname_text := (qname_text uni_alphabetic uni_alphanumeric).
Notation qualified_ident := (qualified_ident uni_alphabetic uni_alphanumeric).
Notation type_text := (type_text uni_alphabetic uni_alphanumeric).
Notation type_ := (type_ uni_alphabetic uni_alphanumeric).
Notation name_ends := (name_ends uni_alphanumeric).

Lemma breaks_name_ends r : breaks r -> name_ends r.
Proof.
  intros H. destruct r as [|c r]; [split; exact Logic.I|]. apply breaks_plain in H as (L & D & _ & A & U & _).
  split; [now apply ascii_whole|]. rewrite next_ascii by auto.
  unfold ident_char. rewrite on_ascii_byte; auto. rewrite L, D, eqb_neq; auto.
Qed.
Lemma dot_breaks r : name_ends ("."%byte :: r).
Proof. split; reflexivity. Qed.
Lemma name_ok' x r : name_text x -> breaks r -> p_ident (x ++ r) = Some (x, r).
Proof. intros H R. apply name_ok; auto. now apply breaks_name_ends. Qed.

(** * Qualified names *)
Notation dot := (delimited comment_or_space0 (tag (lit ".")) comment_or_space0).
Lemma adv_dot : advances dot.
Proof. apply advances_delimited_m; [apply spl_blank0|apply advances_tag|apply spl_blank0]. Qed.
Lemma dot_ok b1 b2 r : blank b1 -> blank b2 -> stops r -> dot (b1 ++ lit "." ++ b2 ++ r) = Some (lit ".", r).
Proof.
  intros B1 B2 S. unfold delimited, preceded, terminated. rewrite blank_ok; auto.
  - rewrite tag_app, blank_ok; auto.
  - apply stops_byte; [reflexivity|discriminate].
Qed.
Lemma dot_none cs r : next cs r -> dot r = None.
Proof.
  intros N. destruct (next_skip _ _ N) as (c & t & S & _ & D). unfold delimited, preceded, terminated. rewrite S.
  change (lit ".") with ["."%byte]. cbn [tag]. rewrite eqb_neq; auto. intros <-.
  unfold delims in D. rewrite In_existsb in D. discriminate.
Qed.
Lemma stops_qname t q r : qname_text t q -> starts (t ++ r).
Proof. intros H. destruct H; rewrite <- ?app_assoc; eapply starts_name; eauto. Qed.
Lemma qname_listed cs t q r : qname_text t q -> next cs r ->
  exists x l s, q = x :: l /\ p_ident (t ++ r) = Some (x, s) /\ listed dot p_ident s l r.
Proof.
  intros H N. induction H as [x X|x b1 b2 t q X B1 B2 H IH].
  - exists x, [], r. split; auto. split; [apply name_ok'; auto; eapply next_breaks; eauto|].
    apply listed_no_sep. eapply dot_none; eauto.
  - destruct IH as (y & l & s & -> & E & L). exists x, (y :: l). eexists. split; auto.
    rewrite <- !app_assoc. split.
    + apply name_ok; auto. destruct b1 as [|c b1].
      * apply dot_breaks.
      * apply breaks_name_ends. apply blank_first in B1. cbn [breaks app]. destruct B1 as [->|S].
        -- unfold breakers. rewrite In_existsb. reflexivity.
        -- unfold breakers, space in *. rewrite In_existsb in *. destruct c; try discriminate; reflexivity.
    + eapply listed_step; [apply dot_ok; auto; eapply stops_qname; eauto|exact E|exact L].
Qed.
Lemma qname_ok cs t q r : qname_text t q -> next cs r -> qualified_ident (t ++ r) = Some (q, r).
Proof.
  intros H N. destruct (qname_listed cs t q r H N) as (x & l & s & -> & E & L).
  eapply nonempty_list_total; eauto; [apply adv_dot|apply adv_ident].
Qed.

(** * Types *)
Lemma tag_none w x r : (forall y, x <> w ++ y) -> Forall (fun c => ~ In c breakers) w -> breaks r -> tag w (x ++ r) = None.
Proof.
  revert x. induction w as [|c w IH]; intros x N F R.
  - exfalso. apply (N x). reflexivity.
  - inversion F as [|? ? C F']; subst. destruct x as [|d x]; cbn [tag app].
    + destruct r as [|d r]; auto. destruct (Byte.eqb c d) eqn:E; auto. apply eqb_iff in E. subst. contradiction.
    + destruct (Byte.eqb c d) eqn:E; auto. apply eqb_iff in E. subst d.
      rewrite (IH x); auto. intros y ->. apply (N y). reflexivity.
Qed.
Lemma names_plain w : existsb (fun c => existsb (Byte.eqb c) breakers) w = false -> Forall (fun c => ~ In c breakers) w.
Proof.
  intros H. apply Forall_forall. intros c C B. apply In_existsb in B.
  assert (existsb (fun c => existsb (Byte.eqb c) breakers) w = true); [|congruence].
  apply existsb_exists. exists c. auto.
Qed.
Lemma builtin_none x r : ~ builtin_like x -> breaks r -> builtin_type (x ++ r) = None.
Proof.
  intros N R. unfold builtin_type.
  assert (G : forall l, (forall w t, In (w, t) l -> In (w, t) builtin_names) ->
    alt (map (fun '(w, t) => value_of (B := aty) t (tag w)) l) (x ++ r) = None).
  { induction l as [|[w t] l IH]; intros I; auto. cbn [map alt]. unfold value_of at 1.
    rewrite tag_none; auto.
    - apply IH. intros. apply I. now right.
    - intros y ->. apply N. exists w, y. split; auto. specialize (I w t (or_introl eq_refl)).
      cbn in I. repeat destruct I as [I|I]; try contradiction; injection I as <- <-; auto;
      right; first [now exists Bool|now exists Byte|now exists UByte|now exists Short|now exists UShort|now exists Int
        |now exists UInt|now exists Float|now exists Long|now exists ULong|now exists Double|now exists Int8|now exists UInt8
        |now exists Int16|now exists UInt16|now exists Int32|now exists UInt32|now exists Int64|now exists UInt64
        |now exists Float32|now exists Float64].
    - apply names_plain. specialize (I w t (or_introl eq_refl)).
      cbn in I. repeat destruct I as [I|I]; try contradiction; injection I as <- <-; reflexivity. }
  apply G. auto.
Qed.
Lemma prim_ok p r : breaks r -> builtin_type (prim_name p ++ r) = Some (APrim p, r).
Proof.
  intros R. destruct r as [|c r].
  - destruct p; reflexivity.
  - cbn [breaks] in R. unfold breakers in R. rewrite In_existsb in R.
    destruct p; try reflexivity; destruct c; try discriminate; reflexivity.
Qed.
Lemma string_type_ok r : builtin_type (lit "string" ++ r) = Some (AString, r).
Proof. reflexivity. Qed.

Lemma type_ok t ty : type_text t ty -> plain_type ty -> forall cs r, next cs r -> type_ (t ++ r) = Some (ty, r).
Proof.
  intros H. induction H as [p| |t a H IH|t q H]; intros P cs r N; rewrite type_equation; cbn [alt].
  - rewrite prim_ok; auto. eapply next_breaks; eauto.
  - reflexivity.
  - rewrite <- !app_assoc.
    assert (builtin_type (lit "[" ++ t ++ lit "]" ++ r) = None) as -> by reflexivity.
    unfold pmap, delimited, preceded, terminated, left_square_bracket.
    change (lit "[" ++ t ++ lit "]" ++ r) with ("["%byte :: t ++ "]"%byte :: r).
    cbn [char]. rewrite eqb_same. rewrite (IH P (lit "]")).
    + unfold right_square_bracket. cbn [char]. now rewrite eqb_same.
    + apply next_here; cbn; tauto.
  - assert (Q : exists x t' q', q = x :: q' /\ t ++ r = x ++ t' /\ name_text x /\ (breaks t' \/ exists u, t' = "."%byte :: u)).
    { destruct H as [x X|x b1 b2 t q X B1 B2 H].
      - exists x, r, []. repeat split; auto. left. eapply next_breaks; eauto.
      - exists x. eexists. exists q. rewrite <- !app_assoc. repeat split; auto.
        destruct b1 as [|c b1]; [right; eexists; reflexivity|left].
        apply blank_first in B1. cbn [breaks app]. destruct B1 as [->|S].
        + unfold breakers. rewrite In_existsb. reflexivity.
        + unfold breakers, space in *. rewrite In_existsb in *. destruct c; try discriminate; reflexivity. }
    destruct Q as (x & t' & q' & -> & E & X & Br). cbn [plain_type] in P.
    assert (builtin_type (t ++ r) = None) as ->.
    { rewrite E. destruct Br as [Br|(u & ->)]; [now apply builtin_none|].
      (* the same with a dot instead of a breaker *)
      unfold builtin_type.
      assert (G : forall l, (forall w ty, In (w, ty) l -> In (w, ty) builtin_names) ->
        alt (map (fun '(w, ty) => value_of (B := aty) ty (tag w)) l) (x ++ "."%byte :: u) = None).
      { induction l as [|[w ty] l IH]; intros I; auto. cbn [map alt]. unfold value_of at 1.
        assert (tag w (x ++ "."%byte :: u) = None) as ->; [|apply IH; intros; apply I; now right].
        assert (D : ~ In "."%byte w).
        { specialize (I w ty (or_introl eq_refl)). rewrite In_existsb.
          cbn in I. repeat destruct I as [I|I]; try contradiction; injection I as <- <-; discriminate. }
        assert (W : forall y, x <> w ++ y).
        { intros y ->. apply P. exists w, y. split; auto. specialize (I w ty (or_introl eq_refl)).
          cbn in I. repeat destruct I as [I|I]; try contradiction; injection I as <- <-; auto;
          right; first [now exists Bool|now exists Byte|now exists UByte|now exists Short|now exists UShort|now exists Int
            |now exists UInt|now exists Float|now exists Long|now exists ULong|now exists Double|now exists Int8|now exists UInt8
            |now exists Int16|now exists UInt16|now exists Int32|now exists UInt32|now exists Int64|now exists UInt64
            |now exists Float32|now exists Float64]. }
        clear - D W. revert x W. induction w as [|c w IH]; intros x W.
        - exfalso. apply (W x). reflexivity.
        - destruct x as [|d x]; cbn [tag app].
          + rewrite eqb_neq; auto. intros ->. apply D. now left.
          + destruct (Byte.eqb c d) eqn:E; auto. apply eqb_iff in E. subst d. rewrite IH; auto.
            * intros H. apply D. now right.
            * intros y ->. apply (W y). reflexivity. }
      apply G. auto. }
    assert (pmap (delimited left_square_bracket type_ right_square_bracket) AArray (t ++ r) = None) as ->.
    { rewrite E. destruct (name_first _ _ x X) as (b & x' & -> & B). apply name_byte_plain in B as [_ B].
      unfold pmap, delimited, preceded, left_square_bracket. cbn [app char]. rewrite eqb_neq; auto.
      intros <-. apply B. cbn. tauto. }
    unfold pmap. now rewrite (qname_ok cs _ _ _ H N).
Qed.
End Names.

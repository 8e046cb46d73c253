(** What the parser reads is a text of the grammar: blanks, documentation, names,
    strings and numbers (towards C48 and C52). *)
From Coq Require Import Strings.String ZArith List Bool Lia Strings.Byte ZifyBool ZifyNat ZifyN.
From Verif Require Import Base Schema Parser SpecParser SpecGrammar ParserProofs ParserProofs2 GrammarProofs
  GrammarProofs2 GrammarProofs3 WordProofs GrammarProofs4.
Import ListNotations.
Local Open Scope Z_scope.

(** What [p] reads is an [X], at least when something is left. *)
Definition sound {A} (p : parser A) (X : text -> A -> Prop) : Prop :=
  forall (s : text) a (r : text), p s = Some (a, r) -> r <> [] -> exists t : text, s = t ++ r /\ X t a.
Definition exact {A} (p : parser A) (X : text -> A -> Prop) : Prop :=
  forall (s : text) a (r : text), p s = Some (a, r) -> exists t : text, s = t ++ r /\ X t a.
(** The same for what depends on the text that follows. *)
Definition soundr {A} (p : parser A) (X : text -> text -> A -> Prop) : Prop :=
  forall (s : text) a (r : text), p s = Some (a, r) -> r <> [] -> exists t : text, s = t ++ r /\ X r t a.
Definition exactr {A} (p : parser A) (X : text -> text -> A -> Prop) : Prop :=
  forall (s : text) a (r : text), p s = Some (a, r) -> exists t : text, s = t ++ r /\ X r t a.

(** * Inversion of the combinators *)
Section Inversions.
Context {A B C : Type}.
Lemma pmap_inv (p : parser A) (f : A -> B) s b r :
  pmap p f s = Some (b, r) -> exists a, p s = Some (a, r) /\ b = f a.
Proof. unfold pmap. destruct (p s) as [[a q]|]; [|discriminate]. injection 1 as <- <-. eauto. Qed.
Lemma map_res_inv (p : parser A) (f : A -> option B) s b r :
  map_res p f s = Some (b, r) -> exists a, p s = Some (a, r) /\ f a = Some b.
Proof.
  unfold map_res. destruct (p s) as [[a q]|]; [|discriminate]. destruct (f a) eqn:E; [|discriminate].
  injection 1 as <- <-. eauto.
Qed.
Lemma value_of_inv (p : parser A) (c : B) s b r :
  value_of c p s = Some (b, r) -> b = c /\ exists a, p s = Some (a, r).
Proof. unfold value_of. destruct (p s) as [[a q]|]; [|discriminate]. injection 1 as <- <-. eauto. Qed.
Lemma pair_inv (p : parser A) (q : parser B) s x r :
  pair_ p q s = Some (x, r) -> exists a b s', x = (a, b) /\ p s = Some (a, s') /\ q s' = Some (b, r).
Proof.
  unfold pair_. destruct (p s) as [[a s']|]; [|discriminate]. destruct (q s') as [[b s'']|] eqn:E; [|discriminate].
  injection 1 as <- <-. exists a, b, s'. auto.
Qed.
Lemma preceded_inv (p : parser A) (q : parser B) s b r :
  preceded p q s = Some (b, r) -> exists a s', p s = Some (a, s') /\ q s' = Some (b, r).
Proof. unfold preceded. destruct (p s) as [[a s']|]; [|discriminate]. eauto. Qed.
Lemma terminated_inv (p : parser A) (q : parser B) s a r :
  terminated p q s = Some (a, r) -> exists b s', p s = Some (a, s') /\ q s' = Some (b, r).
Proof.
  unfold terminated. destruct (p s) as [[x s']|]; [|discriminate]. destruct (q s') as [[b s'']|] eqn:E; [|discriminate].
  injection 1 as <- <-. eauto.
Qed.
Lemma delimited_inv (p : parser A) (q : parser B) (t : parser C) s b r :
  delimited p q t s = Some (b, r) ->
  exists a c s1 s2, p s = Some (a, s1) /\ q s1 = Some (b, s2) /\ t s2 = Some (c, r).
Proof.
  unfold delimited, preceded, terminated. destruct (p s) as [[a s1]|]; [|discriminate].
  destruct (q s1) as [[x s2]|] eqn:E; [|discriminate]. destruct (t s2) as [[c s3]|] eqn:F; [|discriminate].
  injection 1 as <- <-. exists a, c, s1, s2. auto.
Qed.
Lemma separated_inv (p : parser A) (q : parser B) (t : parser C) s x r :
  separated_pair p q t s = Some (x, r) ->
  exists a b c s1 s2, x = (a, c) /\ p s = Some (a, s1) /\ q s1 = Some (b, s2) /\ t s2 = Some (c, r).
Proof.
  unfold separated_pair, pair_, preceded. destruct (p s) as [[a s1]|]; [|discriminate].
  destruct (q s1) as [[b s2]|] eqn:E; [|discriminate]. destruct (t s2) as [[c s3]|] eqn:F; [|discriminate].
  injection 1 as <- <-. exists a, b, c, s1, s2. auto.
Qed.
Lemma opt_inv (p : parser A) s x r :
  opt p s = Some (x, r) -> (x = None /\ r = s /\ p s = None) \/ exists a, x = Some a /\ p s = Some (a, r).
Proof.
  unfold opt. destruct (p s) as [[a q]|] eqn:E; injection 1 as <- <-; eauto.
Qed.
Lemma alt_cons_inv (p : parser A) ps s x : alt (p :: ps) s = Some x -> p s = Some x \/ alt ps s = Some x.
Proof. cbn [alt]. destruct (p s); auto. Qed.
Lemma alt_cons_case (p : parser A) ps s x : alt (p :: ps) s = Some x -> p s = Some x \/ (p s = None /\ alt ps s = Some x).
Proof. cbn [alt]. destruct (p s); auto. Qed.
Lemma pmap_none (p : parser A) (f : A -> B) s : pmap p f s = None -> p s = None.
Proof. unfold pmap. destruct (p s) as [[a q]|]; [discriminate|auto]. Qed.
End Inversions.

Ltac pinv :=
  repeat match goal with
  | H : pmap _ _ _ = Some _ |- _ => apply pmap_inv in H as (? & H & ?)
  | H : map_res _ _ _ = Some _ |- _ => apply map_res_inv in H as (? & H & ?)
  | H : value_of _ _ _ = Some _ |- _ => apply value_of_inv in H as (? & ? & H)
  | H : pair_ _ _ _ = Some _ |- _ => apply pair_inv in H as (? & ? & ? & -> & ? & H)
  | H : preceded _ _ _ = Some _ |- _ => apply preceded_inv in H as (? & ? & ? & H)
  | H : terminated _ _ _ = Some _ |- _ => apply terminated_inv in H as (? & ? & ? & H)
  | H : delimited _ _ _ _ = Some _ |- _ => apply delimited_inv in H as (? & ? & ? & ? & ? & ? & H)
  | H : separated_pair _ _ _ _ = Some _ |- _ => apply separated_inv in H as (? & ? & ? & ? & ? & -> & ? & ? & H)
  end.

Lemma ne_app {A} (t r : list A) : r <> [] -> t ++ r <> [].
Proof. intros H E. apply app_eq_nil in E as [_ E]. contradiction. Qed.
Lemma ne_cons {A} c (r : list A) : c :: r <> [].
Proof. discriminate. Qed.
Lemma ne_left {A} (t r : list A) : t <> [] -> t ++ r <> [].
Proof. intros H E. apply app_eq_nil in E as [E _]. contradiction. Qed.
Ltac ne := repeat first [assumption | apply ne_cons | apply ne_left; assumption | apply ne_app].

Lemma exactr_soundr {A} (p : parser A) X : exactr p X -> soundr p X.
Proof. intros H s a r E _. eauto. Qed.
Lemma exact_sound {A} (p : parser A) X : exact p X -> sound p X.
Proof. intros H s a r E _. eauto. Qed.
Lemma sound_weaken {A} (p : parser A) (X Y : text -> A -> Prop) :
  (forall t a, X t a -> Y t a) -> sound p X -> sound p Y.
Proof. intros K H s a r E N. destruct (H _ _ _ E N) as (t & -> & D). eauto. Qed.
Lemma opt_sound {A} (p : parser A) (X : text -> A -> Prop) :
  sound p X -> sound (opt p) (fun t o => match o with None => t = [] | Some a => X t a end).
Proof.
  intros H s x r E N. apply opt_inv in E as [(-> & -> & _)|(a & -> & E)].
  - exists []. auto.
  - eauto.
Qed.

Lemma char_exact c : exact (char c) (fun t d => t = [c] /\ d = c).
Proof.
  intros s a r. unfold char. destruct s as [|d s]; [discriminate|]. destruct (Byte.eqb c d) eqn:E; [|discriminate].
  injection 1 as <- <-. apply eqb_iff in E as <-. exists [c]. auto.
Qed.
Lemma tag_exact w : exact (tag w) (fun t x => t = w /\ x = w).
Proof. intros s a r E. apply tag_spec in E as [-> ->]. eauto. Qed.
Lemma one_of_exact cs : exact (one_of cs) (fun t c => t = [c] /\ In c cs).
Proof.
  intros s a r. unfold one_of. destruct s as [|d s]; [discriminate|]. destruct (existsb _ cs) eqn:E; [|discriminate].
  injection 1 as <- <-. apply In_existsb in E. exists [d]. auto.
Qed.
Lemma span1_exact p : exact (span1 p) (fun t x => t = x /\ x <> [] /\ Forall (fun c => p c = true) x).
Proof.
  intros s a r. unfold span1. destruct (span p s) as [x y] eqn:E. apply span_spec in E as [-> F].
  destruct x as [|c x]; [discriminate|]. injection 1 as <- <-. exists (c :: x). repeat split; auto; try discriminate.
  apply Forall_forall. now apply forallb_forall.
Qed.
Lemma span0_exact p : exact (span0 p) (fun t x => t = x /\ Forall (fun c => p c = true) x).
Proof.
  intros s a r. unfold span0. injection 1 as E. apply span_spec in E as [-> F].
  exists a. repeat split; auto. apply Forall_forall. now apply forallb_forall.
Qed.

(** * Blanks *)
Lemma not_line_ending_inv s a r :
  not_line_ending s = Some (a, r) ->
  s = a ++ r /\ one_line a /\ (r = [] \/ exists e q, line_end e /\ r = e ++ q).
Proof.
  unfold not_line_ending. destruct (span _ s) as [x y] eqn:E. pose proof (span_stop _ _ _ _ E) as P.
  apply span_spec in E as [-> F]. intros H.
  assert (one_line x) as L.
  { unfold one_line. apply Forall_forall. intros c I. eapply forallb_forall in F; eauto.
    unfold line_feed, carriage_return. apply negb_true_iff in F.
    apply orb_false_iff in F as [F1 F2].
    split; intros ->; cbn in *; discriminate. }
  destruct y as [|c y].
  - injection H as <- <-. auto.
  - destruct (Byte.eqb c "013") eqn:E.
    + apply eqb_iff in E as ->. destruct (line_ending _) as [[e q]|] eqn:G; [|discriminate].
      injection H as <- <-. split; [reflexivity|split; [assumption|]]. right.
      unfold line_ending in G. cbn in G. destruct y as [|d y]; [discriminate|].
      destruct (Byte.eqb d "010") eqn:D; [|discriminate]. apply eqb_iff in D as ->.
      exists [carriage_return; line_feed], y. split; [right; reflexivity|reflexivity].
    + injection H as <- <-. split; [reflexivity|split; [assumption|]]. right.
      apply negb_false_iff, orb_true_iff in P as [P|P]; [congruence|]. apply eqb_iff in P as ->.
      exists [line_feed], y. split; [left; reflexivity|reflexivity].
Qed.
Lemma line_ending_inv s a r : line_ending s = Some (a, r) -> s = a ++ r /\ line_end a.
Proof.
  unfold line_ending. destruct s as [|c s]; [discriminate|]. destruct (Byte.eqb c "010") eqn:E.
  - apply eqb_iff in E as ->. injection 1 as <- <-. split; [reflexivity|left; reflexivity].
  - destruct s as [|d s]; [discriminate|]. destruct (_ && _) eqn:F; [|discriminate].
    apply andb_true_iff in F as [F1 F2]. apply eqb_iff in F1 as ->, F2 as ->.
    injection 1 as <- <-. split; [reflexivity|right; reflexivity].
Qed.
Lemma spaces_blank a b : Forall (fun c => is_space c = true) a -> blank b -> blank (a ++ b).
Proof.
  intros F H. induction F as [|c a S F IH]; cbn [app]; auto. constructor; auto. now apply space_iff.
Qed.
Lemma comment_inv s u r :
  p_comment s = Some (u, r) ->
  exists body, s = lit "//" ++ body ++ r /\ one_line body
    /\ (forall x, body <> "/"%byte :: x) /\ (r = [] \/ exists e q, line_end e /\ r = e ++ q).
Proof.
  intros E. unfold p_comment in E. pinv.
  match goal with H : tag _ _ = _ |- _ => apply tag_spec in H as [-> ->] end.
  match goal with H : pnot _ _ = _ |- _ => unfold pnot in H; destruct (tag _ _) eqn:T in H; [discriminate|injection H as <- <-] end.
  match goal with H : not_line_ending _ = _ |- _ => apply not_line_ending_inv in H as (-> & L & D) end.
  eexists. split; [reflexivity|]. split; [assumption|]. split; [|assumption].
  intros x ->. cbn in T. discriminate.
Qed.

Lemma stops_space c x : stops (c :: x) -> is_space c = true -> False.
Proof.
  unfold stops, comment_or_space. cbn [alt]. destruct (p_comment _); [discriminate|].
  unfold value_of, multispace1, span1. cbn [span]. intros H S. rewrite S in H.
  destruct (span is_space x). discriminate H.
Qed.
Lemma blank_feed (b e r x : text) :
  blank b -> file_end e -> stops r -> b ++ e ++ r = line_feed :: x ->
  exists b', b = line_feed :: b' /\ blank b'.
Proof.
  intros B F S E. destruct B as [|c t Hc B|body l t L N K B].
  - exfalso. destruct F as [->|(body & -> & _)].
    + cbn [app] in E. subst r. exact (stops_space _ _ S eq_refl).
    + discriminate E.
  - injection E as -> _. eauto.
  - discriminate E.
Qed.
Lemma blank_return (b e r x : text) :
  blank b -> file_end e -> stops r -> b ++ e ++ r = carriage_return :: x ->
  exists b', b = carriage_return :: b' /\ blank b'.
Proof.
  intros B F S E. destruct B as [|c t Hc B|body l t L N K B].
  - exfalso. destruct F as [->|(body & -> & _)].
    + cbn [app] in E. subst r. exact (stops_space _ _ S eq_refl).
    + discriminate E.
  - injection E as -> _. eauto.
  - discriminate E.
Qed.
Lemma blank_line (b e r l x : text) :
  blank b -> file_end e -> stops r -> line_end l -> b ++ e ++ r = l ++ x ->
  exists b', b = l ++ b' /\ blank b' /\ b' ++ e ++ r = x.
Proof.
  intros B F S [->| ->] E.
  - destruct (blank_feed b e r x B F S E) as (b' & -> & B'). exists b'. injection E as E. auto.
  - destruct (blank_return b e r _ B F S E) as (b' & -> & B'). injection E as E.
    destruct (blank_feed b' e r x B' F S E) as (b'' & -> & B''). injection E as E.
    exists b''. auto.
Qed.
Lemma blank_repeats_inv s l r :
  repeats comment_or_space s l r ->
  exists b e, s = b ++ e ++ r /\ blank b /\ file_end e /\ (r <> [] -> e = []).
Proof.
  induction 1 as [s N|s a q l r E R (b & e & -> & B & F & K)].
  - exists [], []. repeat split; auto; [constructor|left; reflexivity].
  - assert (S : stops r).
    { clear - R. remember (b ++ e ++ r) as z. clear Heqz. induction R; auto. }
    unfold comment_or_space in E. apply alt_cons_inv in E as [E|E].
    + apply comment_inv in E as (body & -> & L & NS & [D|(x & y & X & D)]).
      * exists [], (lit "//" ++ body). destruct b; [|discriminate]. destruct e; [|discriminate]. cbn [app] in D. subst r.
        split; [cbn [app]; rewrite !app_nil_r; reflexivity|].
        split; [assumption|]. split; [right; eauto|]. intros X. now destruct X.
      * destruct (blank_line b e r x y B F S X D) as (b' & -> & B' & _).
        exists (lit "//" ++ body ++ x ++ b'), e. repeat split; auto.
        -- rewrite <- !app_assoc. reflexivity.
        -- apply blank_comment; auto.
    + apply alt_cons_inv in E as [E|E]; [|discriminate E]. pinv.
      apply span1_exact in E as (t & -> & -> & _ & P).
      exists (x ++ b), e. repeat split; auto.
      * rewrite <- !app_assoc. reflexivity.
      * now apply spaces_blank.
Qed.
Lemma blank0_inv s u r :
  comment_or_space0 s = Some (u, r) ->
  exists b e, s = b ++ e ++ r /\ blank b /\ file_end e /\ (r <> [] -> e = []).
Proof.
  intros E. unfold comment_or_space0 in E. pinv. apply (many0_inv _ _ _ _ adv_comment_or_space) in E.
  now apply blank_repeats_inv in E.
Qed.
Lemma blank0_sound : sound comment_or_space0 (fun t _ => blank t).
Proof.
  intros s a r E N. apply blank0_inv in E as (b & e & -> & B & _ & K). rewrite (K N). exists b. auto.
Qed.
Lemma blank1_sound : sound comment_or_space1 (fun t _ => blank1 t).
Proof.
  intros s a r E N. pose proof E as A. apply adv_blank1 in A as (c & NC & A).
  unfold comment_or_space1 in E. pinv. unfold many1 in E.
  destruct (comment_or_space s) as [[y q]|] eqn:E1; [|discriminate].
  destruct (many0 comment_or_space q) as [[l q']|] eqn:E2; [|discriminate]. injection E as _ <-.
  apply (many0_inv _ _ _ _ adv_comment_or_space) in E2.
  assert (R : repeats comment_or_space s (y :: l) q') by (econstructor; eauto).
  apply blank_repeats_inv in R as (b & e & -> & B & _ & K). rewrite (K N) in *. cbn [app] in A.
  exists b. split; [reflexivity|]. split; auto. intros ->. cbn [app] in A.
  apply (f_equal (@List.length byte)) in A. rewrite app_length in A. destruct c; [congruence|cbn in A; lia].
Qed.

Ltac prefix e r :=
  lazymatch e with
  | ?a ++ r => constr:(a)
  | ?a ++ ?e' => let p := prefix e' r in constr:(a ++ p)
  end.
Ltac give r :=
  match goal with
  | |- exists t, ?e = t ++ r /\ _ =>
      let p := prefix e r in exists p; split; [rewrite <- ?app_assoc; reflexivity|]
  end.

(** * Documentation *)
Lemma doc_inv s c r : doc_comment s = Some (c, r) -> r <> [] -> exists t, s = t ++ r /\ docs t c.
Proof.
  unfold doc_comment, doc_comment_lines. intros E N. apply (many0_inv _ _ _ _ adv_doc_line) in E.
  induction E as [s F|s a q l r E R IH].
  - exists []. split; [reflexivity|constructor].
  - destruct (IH N) as (t & -> & D). unfold raw_doc_comment in E. pinv.
    match goal with H : comment_or_space0 _ = _ |- _ => destruct (blank0_sound _ _ _ H ltac:(ne)) as (b & -> & B) end.
    match goal with H : line_ending _ = _ |- _ => apply line_ending_inv in H as (-> & L) end.
    match goal with H : not_line_ending _ = _ |- _ => apply not_line_ending_inv in H as (-> & O & _) end.
    match goal with H : tag _ _ = _ |- _ => apply tag_spec in H as [-> ->] end.
    give r. constructor; auto.
Qed.
Lemma doc_sound : sound doc_comment docs.
Proof. intros s a r E N. now apply doc_inv. Qed.

(** * Strings *)
Lemma escaped_inv : forall n i a x r, (List.length i <= n)%nat -> escaped_loop a i = Some (x, r) ->
  exists b, i = b ++ r /\ x = rev a ++ b /\ string_body b.
Proof.
  induction n as [|n IH]; intros [|c i] a x r; cbn [List.length]; intros N E; try lia.
  - cbn in E. injection E as <- <-. exists []. rewrite !app_nil_r. repeat split. constructor.
  - cbn in E. injection E as <- <-. exists []. rewrite !app_nil_r. repeat split. constructor.
  - cbn [escaped_loop] in E. destruct (Byte.eqb c "\") eqn:C.
    + apply eqb_iff in C as ->. destruct i as [|d i]; [discriminate|].
      destruct (_ || _) eqn:D in E; [|discriminate]. cbn [List.length] in N.
      apply IH in E as (b & -> & -> & B); [|lia]. exists ("\"%byte :: d :: b). cbn [rev]. rewrite <- !app_assoc.
      repeat split. apply string_escape; auto. apply orb_true_iff in D as [D|D]; apply eqb_iff in D; auto.
    + destruct (Byte.eqb c """") eqn:Q.
      * destruct a as [|a0 a]; [discriminate|]. injection E as <- <-. exists []. rewrite !app_nil_r.
        repeat split. constructor.
      * apply IH in E as (b & -> & -> & B); [|lia]. exists (c :: b). cbn [rev]. rewrite <- !app_assoc.
        repeat split. constructor; auto; intros ->; discriminate.
Qed.
Lemma string_exact : exact string_constant string_text.
Proof.
  intros s v r E. unfold string_constant in E. pinv.
  repeat match goal with H : double_quote _ = _ |- _ => apply char_exact in H as (? & -> & -> & ->) end.
  match goal with H : opt _ _ = _ |- _ => rename H into O end.
  apply opt_inv in O as [(-> & O & _)|(y & -> & O)].
  - exists (lit """" ++ [] ++ lit """"). split; [subst; reflexivity|subst v; split; [constructor|reflexivity]].
  - unfold escaped in O. eapply escaped_inv in O as (b & -> & -> & B); [|reflexivity]. cbn [rev app] in *. subst v.
    exists (lit """" ++ b ++ lit """"). split; [rewrite <- !app_assoc; reflexivity|split; auto].
Qed.

(** * Reading a chain of equations backwards *)
Create HintDb snd.
Ltac tidy :=
  repeat match goal with
  | H : _ /\ _ |- _ => destruct H
  | H : exists _, _ |- _ => destruct H
  | H : (_, _) = (_, _) |- _ => injection H as ? ?
  | H : Some _ = Some _ |- _ => injection H as ?
  end; subst.
Ltac use S E :=
  let t := fresh "t" in let Q := fresh "Q" in let D := fresh "D" in
  let r := match type of S with
           | exact _ _ => constr:(S _ _ _ E)
           | sound _ _ => constr:(S _ _ _ E ltac:(solve [ne]))
           | exactr _ _ => constr:(S _ _ _ E)
           | soundr _ _ => constr:(S _ _ _ E ltac:(solve [ne]))
           end in
  destruct r as (t & Q & D); cbn beta in D; clear E.
Ltac sw :=
  match goal with
  | E : ?p ?s = Some (?a, ?r) |- _ =>
      let S := fresh "S" in
      first [eassert (S : exact p _) by (solve [eauto with snd nocore]); use S E
            |eassert (S : sound p _) by (solve [eauto with snd nocore]); use S E
            |eassert (S : exactr p _) by (solve [eauto with snd nocore]); use S E
            |eassert (S : soundr p _) by (solve [eauto with snd nocore]); use S E];
      clear S; tidy
  end.
#[global] Hint Resolve char_exact tag_exact one_of_exact span1_exact span0_exact blank0_sound blank1_sound
  doc_sound string_exact : snd.
#[global] Hint Extern 1 (exact ?p _) =>
  (unfold double_quote, backslash, left_paren, right_paren, left_brace, right_brace, colon, comma, semicolon,
     equals, period, zero, left_square_bracket, right_square_bracket, plus_or_minus, digit0, digit1, hex_digit0,
     hex_digit1; eapply char_exact || eapply one_of_exact || eapply span1_exact || eapply span0_exact) : snd.

(** * Numbers *)
Lemma i128_iff v : in_i128 v = true <-> i128 v.
Proof. unfold in_i128, i128. lia. Qed.
Lemma sign_exact :
  exact (opt plus_or_minus)
        (fun t o => (o = None /\ t = []) \/ (o = Some "+"%byte /\ t = lit "+") \/ (o = Some "-"%byte /\ t = lit "-")).
Proof.
  intros s o r E. apply opt_inv in E as [(-> & -> & _)|(c & -> & E)].
  - exists []. auto.
  - apply one_of_exact in E as (t & -> & -> & I). exists [c]. split; [reflexivity|].
    destruct I as [<-|[<-|[]]]; auto.
Qed.
Lemma sign_signs (t : text) (o : option byte) :
  (o = None /\ t = []) \/ (o = Some "+"%byte /\ t = lit "+") \/ (o = Some "-"%byte /\ t = lit "-") ->
  exists f, sign_text t f /\ forall v, f v = if is_minus o then - v else v.
Proof.
  intros [[-> ->]|[[-> ->]|[-> ->]]].
  - exists (fun x => x). split; [left; auto|reflexivity].
  - exists (fun x => x). split; [right; left; auto|reflexivity].
  - exists Z.opp. split; [right; right; auto|reflexivity].
Qed.
#[global] Hint Resolve sign_exact : snd.
Lemma digits_of ds : Forall (fun c => is_digit c = true) ds -> Forall digit ds.
Proof. apply Forall_impl. intros c. apply digit_iff. Qed.
Lemma hex_digits_of ds : Forall (fun c => is_hex_digit c = true) ds -> Forall hex_digit ds.
Proof. apply Forall_impl. intros c. apply hex_digit_iff. Qed.

Lemma recognize_inv {A} (p : parser A) s x r :
  recognize p s = Some (x, r) -> exists a, p s = Some (a, r) /\ forall t, s = t ++ r -> x = t.
Proof.
  unfold recognize. destruct (p s) as [[a q]|]; [|discriminate]. injection 1 as <- <-. exists a. split; auto.
  intros t ->. rewrite app_length, Nat.add_sub, firstn_app, Nat.sub_diag, firstn_all. cbn. now rewrite app_nil_r.
Qed.
Lemma dec_integer_exact : exact dec_integer_constant integer_text.
Proof.
  intros s v r E. unfold dec_integer_constant in E. pinv.
  apply recognize_inv in E as (a & E & T).
  pinv. repeat sw. rewrite app_assoc in T. pose proof (T _ eq_refl). subst.
  match goal with H : _ \/ _ |- _ => apply sign_signs in H as (f & S & F) end.
  match goal with H : i128_from_str _ = _ |- _ => rename H into K end.
  rewrite (i128_str _ f) in K; auto.
  2: { apply forallb_forall, Forall_forall. assumption. }
  destruct (in_i128 _) eqn:I in K; [|discriminate]. injection K as <-. apply i128_iff in I.
  give r. constructor; auto. now apply digits_of.
Qed.
Lemma hex_integer_exact : exact hex_integer_constant integer_text.
Proof.
  intros s v r E. unfold hex_integer_constant in E. pinv. repeat sw.
  match goal with H : _ \/ _ |- _ => apply sign_signs in H as (f & S & F) end.
  match goal with H : (if _ then _ else _) = _ |- _ => rename H into K end.
  rewrite digits_number in K by assumption.
  match type of K with context [fold_left _ ?a 0] => change (fold_left _ a 0) with (number 16 a) in K end.
  destruct (in_i128 (number 16 _)) eqn:I in K; [|discriminate]. rewrite <- F in K.
  destruct (in_i128 (f _)) in K; [|discriminate]. injection K as <-. apply i128_iff in I.
  give r. apply integer_hex; auto. now apply hex_digits_of.
Qed.
Lemma integer_exact : exact integer_constant integer_text.
Proof.
  intros s v r E. unfold integer_constant in E. apply alt_cons_inv in E as [E|E].
  - now apply hex_integer_exact.
  - apply alt_cons_inv in E as [E|E]; [|discriminate E]. now apply dec_integer_exact.
Qed.
#[global] Hint Resolve integer_exact : snd.

(** What the parser reads is a text of the grammar: from names to whole files
    (C48, C52). *)
From Coq Require Import Strings.String ZArith List Bool Lia Strings.Byte ZifyBool ZifyNat ZifyN.
From Verif Require Import Base Schema Parser SpecParser SpecGrammar ParserProofs ParserProofs2 GrammarProofs
  GrammarProofs2 GrammarProofs3 WordProofs GrammarProofs4 GrammarProofs5 GrammarProofs8 GrammarProofs9 SoundProofs.
Import ListNotations.
Local Open Scope Z_scope.

(** * Lists *)
Lemma adv_list_comma : advances list_comma.
Proof.
  unfold list_comma. apply advances_delimited_m; [apply spl_blank0|apply advances_char|apply spl_blank0].
Qed.
Section Lists.
Context {A : Type} (p : parser A) (X : text -> text -> A -> Prop).
Context (adv : advances p) (snd_ : soundr p X).
Lemma listed_sound q l r : listed list_comma p q l r -> r <> [] ->
  (l = [] /\ q = r)
  \/ exists b1 b2 t : text, q = b1 ++ lit "," ++ b2 ++ t ++ r /\ blank b1 /\ blank b2 /\ listing X r t l.
Proof.
  intros L N. induction L as [s E|s x q E F|s x q a r2 l r3 E F L IH]; auto. right.
  destruct (IH N) as [[-> ->]|(b1 & b2 & t & -> & B1 & B2 & G)].
  - destruct (snd_ _ _ _ F N) as (t & -> & D). unfold list_comma, comma in E. pinv. repeat sw.
    eexists _, _, _. split; [reflexivity|]. repeat split; auto. now constructor.
  - destruct (snd_ _ _ _ F ltac:(ne)) as (t' & -> & D).
    clear F. unfold list_comma, comma in E. pinv. repeat sw.
    match goal with |- exists b1 b2 t, ?x ++ _ ++ ?y ++ _ = _ /\ _ => exists x, y end.
    eexists (t' ++ b1 ++ lit "," ++ b2 ++ t). split; [rewrite <- !app_assoc; reflexivity|].
    repeat split; auto. now constructor.
Qed.
Lemma listing_of s a q l r : p s = Some (a, q) -> listed list_comma p q l r -> r <> [] ->
  exists t, s = t ++ r /\ listing X r t (a :: l).
Proof.
  intros E L N. destruct (listed_sound _ _ _ L N) as [[-> ->]|(b1 & b2 & t & -> & B1 & B2 & G)].
  - destruct (snd_ _ _ _ E N) as (t & -> & D). exists t. split; [reflexivity|now constructor].
  - destruct (snd_ _ _ _ E ltac:(ne)) as (t' & -> & D). give r. now constructor.
Qed.
Lemma separated_list_sound :
  soundr (separated_list list_comma p) (fun r t l => (t = [] /\ l = []) \/ listing X r t l).
Proof.
  intros s l r E N. apply (list_inv _ _ _ _ _ adv_list_comma adv) in E as [(-> & -> & _)|(a & q & l' & -> & E & L)].
  - exists []. auto.
  - destruct (listing_of _ _ _ _ _ E L N) as (t & -> & D). eauto.
Qed.
Lemma separated_nonempty_sound :
  soundr (separated_nonempty_list list_comma p) (fun r t l => listing X r t l).
Proof.
  intros s l r E N. apply (nonempty_list_inv _ _ _ _ _ adv_list_comma adv) in E as (a & q & l' & -> & E & L).
  destruct (listing_of _ _ _ _ _ E L N) as (t & -> & D). eauto.
Qed.
End Lists.

Section Series.
Context {A : Type} (p : parser A) (X : text -> text -> A -> Prop).
Context (adv : advances p) (ex : exactr p X).
Lemma repeats_series s l r : repeats (delimited comment_or_space0 p comment_or_space0) s l r ->
  exists b t e : text, s = b ++ t ++ e ++ r /\ blank b /\ series X (e ++ r) t l /\ file_end e
    /\ (r <> [] -> e = []) /\ (l = [] -> b = [] /\ e = []) /\ (l <> [] -> t <> []).
Proof.
  induction 1 as [s N|s a q l r E R (b & t & e & -> & B & S & F & K & L0 & L1)].
  - exists [], [], []. repeat split; auto; try constructor; try reflexivity.
  - apply delimited_inv in E as (u & w & s1 & s2 & E1 & E2 & E3).
    pose proof (adv _ _ _ E2) as (z & NZ & EZ). apply ex in E2 as (x & -> & D).
    apply app_inv_tail in EZ as <-.
    apply blank0_inv in E1 as (b0 & e0 & -> & B0 & F0 & K0).
    rewrite (K0 ltac:(destruct x; [congruence|discriminate])). cbn [app].
    apply blank0_inv in E3 as (b1 & e1 & -> & B1 & F1 & K1).
    assert (C : (t = [] /\ e1 = e1) \/ e1 = []).
    { destruct t; [left; auto|right]. apply K1. destruct b; discriminate. }
    destruct C as [[-> _]| ->].
    + destruct l as [|y l]; [|exfalso; apply L1; congruence].
      destruct (L0 eq_refl) as [-> ->]. cbn [app] in *.
      exists b0, (x ++ b1 ++ []), e1. split; [rewrite app_nil_r, <- !app_assoc; reflexivity|].
      repeat split; auto; try discriminate.
      * constructor; auto. constructor.
      * intros _ Z. apply app_eq_nil in Z as [Z _]. contradiction.
    + cbn [app] in *. exists b0, (x ++ (b1 ++ b) ++ t), e. split; [rewrite <- !app_assoc; reflexivity|].
      repeat split; auto; try discriminate.
      * constructor; auto; [now rewrite <- app_assoc|now apply blank_app].
      * intros _ Z. apply app_eq_nil in Z as [Z _]. contradiction.
Qed.
Lemma many0_series s l r : many0 (delimited comment_or_space0 p comment_or_space0) s = Some (l, r) ->
  exists b t e : text, s = b ++ t ++ e ++ r /\ blank b /\ series X (e ++ r) t l /\ file_end e
    /\ (r <> [] -> e = []) /\ (l = [] -> b = [] /\ e = []) /\ (l <> [] -> t <> []).
Proof. intros E. apply repeats_series. apply many0_inv; auto. now apply adv_around. Qed.
Lemma many0_sound : soundr (many0 (delimited comment_or_space0 p comment_or_space0))
  (fun r t l => exists b t' : text, t = b ++ t' /\ blank b /\ series X r t' l).
Proof.
  intros s l r E N. apply many0_series in E as (b & t & e & -> & B & S & _ & K & _). rewrite (K N) in *. cbn [app] in *.
  exists (b ++ t). split; [now rewrite <- app_assoc|eauto].
Qed.
Lemma many1_sound : soundr (many1 (delimited comment_or_space0 p comment_or_space0))
  (fun r t l => l <> [] /\ exists b t' : text, t = b ++ t' /\ blank b /\ series X r t' l).
Proof.
  intros s l r E N. unfold many1 in E.
  destruct (delimited _ _ _ s) as [[a q]|] eqn:E1; [|discriminate].
  destruct (many0 _ q) as [[l' q']|] eqn:E2; [|discriminate]. injection E as <- <-.
  apply many0_inv in E2; [|now apply adv_around].
  assert (R : repeats (delimited comment_or_space0 p comment_or_space0) s (a :: l') q') by (econstructor; eauto).
  apply repeats_series in R as (b & t & e & -> & B & S & _ & K & _). rewrite (K N) in *. cbn [app] in *.
  exists (b ++ t). split; [now rewrite <- app_assoc|split; [discriminate|eauto]].
Qed.
End Series.

Section Grammar.
Context (uni_alphabetic uni_alphanumeric uni_word : text -> bool).
Context (parse_f64 parse_hexf64 : text -> option Z).
Context (has_stem : text -> bool).
Context (alphabetic_wide : forall c, uni_alphabetic c = true -> wide c).
Context (alphanumeric_wide : forall c, uni_alphanumeric c = true -> wide c).
Context (hexf_range : forall t v, parse_hexf64 t = Some v -> 0 <= v < 2 ^ 64).
Notation ua := uni_alphabetic.
Notation un := uni_alphanumeric.
Notation uw := uni_word.
Notation f6 := parse_f64.
Notation fh := parse_hexf64.
Notation NS := (no_special uni_word).
Notation NB := (no_boolean uni_word).

(** * Names *)
Lemma start_inv c : ident_start ua c = true -> name_start ua c.
Proof.
  unfold ident_start, on_ascii, name_start. intros H.
  assert (W : ua c = true -> wide c /\ ua c = true) by auto.
  destruct c as [|b [|d c]]; auto. destruct (is_ascii b); auto. left. exists b. split; auto.
  apply orb_true_iff in H as [H|H]; [left; now apply letter_iff|right; now apply eqb_iff].
Qed.
Lemma cont_inv c : ident_char un c = true -> name_char un c.
Proof.
  unfold ident_char, on_ascii, name_char. intros H.
  assert (W : un c = true -> wide c /\ un c = true) by auto.
  destruct c as [|b [|d c]]; auto. destruct (is_ascii b); auto. left. exists b. split; auto.
  apply orb_true_iff in H as [H|H]; [|right; right; now apply eqb_iff].
  apply orb_true_iff in H as [H|H]; [left; now apply letter_iff|right; left; now apply digit_iff].
Qed.
Lemma take_chars_inv : forall n s x r, take_chars_n n (ident_char un) s = (x, r) ->
  exists cs, s = List.concat cs ++ r /\ x = List.concat cs /\ Forall (name_char un) cs.
Proof.
  induction n as [|n IH]; intros s x r; cbn [take_chars_n].
  - injection 1 as <- <-. exists []. repeat split. constructor.
  - destruct (next_char s) as [[c q]|] eqn:E.
    2: { injection 1 as <- <-. exists []. repeat split. constructor. }
    destruct (ident_char un c) eqn:P.
    2: { injection 1 as <- <-. exists []. repeat split. constructor. }
    destruct (take_chars_n n _ q) as [y q'] eqn:T. injection 1 as <- <-.
    apply next_char_spec in E as [-> _]. apply IH in T as (cs & -> & -> & F).
    exists (c :: cs). cbn [List.concat]. repeat split; [now rewrite app_assoc|].
    constructor; auto. now apply cont_inv.
Qed.
Lemma ident_exact : exact (p_ident ua un) (fun t x => t = x /\ name_text ua un x).
Proof.
  intros s x r E. unfold p_ident in E. apply recognize_inv in E as (a & E & T). pinv.
  unfold one_char in H. destruct (next_char s) as [[c q]|] eqn:C; [|discriminate].
  destruct (ident_start ua c) eqn:I; [|discriminate]. injection H as <- <-.
  apply next_char_spec in C as [-> _]. unfold take_chars in E. injection E as E.
  apply take_chars_inv in E as (cs & -> & -> & F). rewrite app_assoc in T. rewrite (T _ eq_refl).
  give r. split; [reflexivity|]. exists c, cs. repeat split; auto. now apply start_inv.
Qed.
Hint Resolve ident_exact : snd.

Lemma dotted_inv q l r :
  listed (delimited comment_or_space0 (tag (lit ".")) comment_or_space0) (p_ident ua un) q l r ->
  (l = [] /\ q = r)
  \/ exists b1 b2 t : text, q = b1 ++ lit "." ++ b2 ++ t ++ r /\ blank b1 /\ blank b2 /\ qname_text ua un t l.
Proof.
  intros L. induction L as [s E|s x q E F|s x q a r2 l r3 E F L IH]; auto. right.
  apply ident_exact in F as (y & -> & -> & NA).
  assert (NE : a <> []).
  { intros ->. destruct NA as (c & cs & Z & [(b & -> & _)|((b & z & -> & _) & _)] & _); discriminate. }
  destruct a as [|a0 a]; [congruence|]. pinv.
  match goal with H : comment_or_space0 _ = Some (_, _ :: _ ++ _) |- _ => idtac | _ => idtac end.
  repeat sw.
  match goal with |- exists b1 b2 t, ?x ++ _ ++ ?y ++ _ = _ /\ _ => exists x, y end.
  destruct IH as [[-> ->]|(b1 & b2 & t' & -> & B1 & B2 & G)].
  - exists (a0 :: a). repeat split; auto. now constructor.
  - exists ((a0 :: a) ++ b1 ++ lit "." ++ b2 ++ t'). rewrite <- !app_assoc. repeat split; auto. now constructor.
Qed.
Lemma qualified_exact : exact (qualified_ident ua un) (qname_text ua un).
Proof.
  intros s l r E. unfold qualified_ident in E.
  apply (nonempty_list_inv _ _ _ _ _ adv_dot (adv_ident ua un)) in E as (a & q & l' & -> & E & L).
  apply ident_exact in E as (x & -> & -> & NA).
  destruct (dotted_inv _ _ _ L) as [[-> ->]|(b1 & b2 & t & -> & B1 & B2 & G)].
  - exists a. split; [reflexivity|now constructor].
  - give r. now constructor.
Qed.
Hint Resolve qualified_exact : snd.

(** * Floats *)
Lemma opt_exact {A} (p : parser A) (X : text -> A -> Prop) :
  exact p X -> exact (opt p) (fun t o => match o with None => t = [] | Some a => X t a end).
Proof.
  intros H s x r E. apply opt_inv in E as [(-> & -> & _)|(a & -> & E)].
  - exists []. auto.
  - eauto.
Qed.
Lemma dec_exponent_exact : exact dec_float_exponent (fun t _ => exponent (lit "eE") t).
Proof.
  intros s x r E. unfold dec_float_exponent in E. apply recognize_inv in E as (a & E & T). pinv. repeat sw.
  match goal with H : _ \/ _ |- _ => apply sign_signs in H as (f & S & _) end.
  give r. unfold exponent. do 4 eexists. split; [reflexivity|]. repeat split; eauto using digits_of.
Qed.
Lemma hex_exponent_exact : exact hex_float_exponent (fun t _ => exponent (lit "pP") t).
Proof.
  intros s x r E. unfold hex_float_exponent in E. apply recognize_inv in E as (a & E & T). pinv. repeat sw.
  match goal with H : _ \/ _ |- _ => apply sign_signs in H as (f & S & _) end.
  give r. unfold exponent. do 4 eexists. split; [reflexivity|]. repeat split; eauto using digits_of.
Qed.
Hint Resolve dec_exponent_exact hex_exponent_exact opt_exact : snd.
Lemma opt_exponent_of marks (t : text) (o : option text) :
  match o with Some a => exponent marks t | None => t = [] end -> opt_exponent marks t.
Proof. destruct o; [right|left]; auto. Qed.
Lemma dec_body_exact :
  exact (alt [terminated (alt [terminated digit1 (terminated period digit0); preceded period digit1])
                         (opt dec_float_exponent);
              terminated digit1 dec_float_exponent])
        (fun t _ => point_text digit (lit "eE") t).
Proof.
  intros s x r E. apply alt_cons_inv in E as [E|E]; [|apply alt_cons_inv in E as [E|E]; [|discriminate E]].
  - apply terminated_inv in E as (o & s' & E & O). apply (opt_exact _ _ dec_exponent_exact) in O as (e & -> & O).
    apply opt_exponent_of in O.
    apply alt_cons_inv in E as [E|E]; [|apply alt_cons_inv in E as [E|E]; [|discriminate E]]; pinv; repeat sw; give r.
    + left. do 3 eexists. split; [reflexivity|]. repeat split; eauto using digits_of.
    + right; left. do 2 eexists. split; [reflexivity|]. repeat split; eauto using digits_of.
  - pinv. repeat sw. give r. right; right. do 2 eexists. split; [reflexivity|]. repeat split; eauto using digits_of.
Qed.
Lemma hex_body_exact :
  exact (alt [terminated (alt [terminated (terminated hex_digit1 period) hex_digit0; preceded period hex_digit1])
                         (opt hex_float_exponent);
              terminated hex_digit1 hex_float_exponent])
        (fun t _ => point_text hex_digit (lit "pP") t).
Proof.
  intros s x r E. apply alt_cons_inv in E as [E|E]; [|apply alt_cons_inv in E as [E|E]; [|discriminate E]].
  - apply terminated_inv in E as (o & s' & E & O). apply (opt_exact _ _ hex_exponent_exact) in O as (e & -> & O).
    apply opt_exponent_of in O.
    apply alt_cons_inv in E as [E|E]; [|apply alt_cons_inv in E as [E|E]; [|discriminate E]]; pinv; repeat sw; give r.
    + left. do 3 eexists. split; [reflexivity|]. repeat split; eauto using hex_digits_of.
    + right; left. do 2 eexists. split; [reflexivity|]. repeat split; eauto using hex_digits_of.
  - pinv. repeat sw. give r. right; right. do 2 eexists. split; [reflexivity|]. repeat split; eauto using hex_digits_of.
Qed.
Lemma dec_float_exact : exact (dec_float_constant f6) (float_text f6 fh).
Proof.
  intros s v r E. unfold dec_float_constant in E. pinv. apply recognize_inv in E as (a & E & T).
  apply preceded_inv in E as (o & s' & O & E). apply dec_body_exact in E as (t & -> & P).
  apply sign_exact in O as (sg & -> & O). apply sign_signs in O as (f & S & _).
  rewrite app_assoc in T. rewrite (T _ eq_refl) in *. give r. econstructor; eauto.
Qed.
Lemma hex_float_exact : exact (hex_float_constant fh) (float_text f6 fh).
Proof.
  intros s v r E. unfold hex_float_constant in E. apply pmap_inv in E as (a & E & V).
  apply pair_inv in E as (o & b & s' & -> & O & E). apply map_res_inv in E as (x & E & F).
  apply recognize_inv in E as (a & E & T). apply hex_body_exact in E as (t & -> & P).
  rewrite (T _ eq_refl) in *. clear T. pinv. repeat sw.
  match goal with H : _ \/ _ |- _ => destruct H as [[-> ->]|[[-> ->]|[-> ->]]] end; give r.
  - eapply float_hex; eauto.
  - eapply float_hex; eauto.
  - cbn [is_minus]. change (Byte.eqb "-" "-") with true. cbn iota. rewrite <- flip_negate by eauto.
    change (lit "-" ++ lit "0" ++ ?y) with (lit "-0" ++ y).
    match goal with |- float_text _ _ (lit "-" ++ ["0"%byte] ++ ?y) _ => change (lit "-" ++ ["0"%byte] ++ y) with (lit "-0" ++ y) end.
    eapply float_hex_neg; eauto.
Qed.
Lemma re_match_end m s x r : re_match m s = Some (x, r) -> r = [].
Proof. unfold re_match. destruct (m s); [|discriminate]. injection 1 as _ <-. reflexivity. Qed.
Lemma float_sound : sound (float_constant uw f6 fh) (float_text f6 fh).
Proof.
  intros s v r E N. unfold float_constant in E.
  apply alt_cons_inv in E as [E|E]; [|apply alt_cons_inv in E as [E|E]; [|apply alt_cons_inv in E as [E|E]; [|discriminate E]]].
  - exfalso. apply N. unfold special_float_constant in E.
    apply alt_cons_inv in E as [E|E]; [|apply alt_cons_inv in E as [E|E]; [|discriminate E]];
      unfold nan, inf_or_infinity in E; pinv; eapply re_match_end; eauto.
  - now apply hex_float_exact.
  - now apply dec_float_exact.
Qed.
(** Where a value is read and something is left there is no special float name. *)
Lemma float_special s v r : float_constant uw f6 fh s = Some (v, r) -> r <> [] -> NS s.
Proof.
  intros E N. unfold float_constant in E. apply alt_cons_case in E as [E|[E _]].
  - exfalso. apply N. unfold special_float_constant in E.
    apply alt_cons_inv in E as [E|E]; [|apply alt_cons_inv in E as [E|E]; [|discriminate E]];
      unfold nan, inf_or_infinity in E; pinv; eapply re_match_end; eauto.
  - now apply special_iff.
Qed.
Lemma float_none s : float_constant uw f6 fh s = None -> NS s.
Proof.
  unfold float_constant. cbn [alt]. destruct (special_float_constant uw s) eqn:E; [discriminate|].
  intros _. now apply special_iff.
Qed.
Lemma scalar_special s v r : scalar uw f6 fh s = Some (v, r) -> r <> [] -> NS s.
Proof.
  intros E N. unfold scalar in E. apply alt_cons_case in E as [E|[E _]].
  - pinv. eapply float_special; eauto.
  - apply pmap_none in E. now apply float_none.
Qed.
Lemma scalar_none s : scalar uw f6 fh s = None -> NS s /\ boolean_constant uw s = None.
Proof.
  unfold scalar. cbn [alt]. unfold pmap. destruct (float_constant uw f6 fh s) as [[? ?]|] eqn:E; [discriminate|].
  destruct (integer_constant s) as [[? ?]|]; [discriminate|].
  destruct (boolean_constant uw s) as [[? ?]|]; [discriminate|]. split; auto. now apply float_none.
Qed.
Lemma single_special s v r : p_single uw f6 fh s = Some (v, r) -> r <> [] -> NS s.
Proof.
  intros E N. unfold p_single in E. apply alt_cons_case in E as [E|[E _]].
  - pinv. eapply scalar_special; eauto.
  - apply pmap_none in E. now apply scalar_none.
Qed.
Lemma single_none s : p_single uw f6 fh s = None -> NS s.
Proof.
  unfold p_single. cbn [alt]. unfold pmap at 1. destruct (scalar uw f6 fh s) as [[? ?]|] eqn:E; [discriminate|].
  intros _. now apply scalar_none.
Qed.
Lemma word_exact w : exact (word_constant uw w) (fun t x => t = w /\ x = w).
Proof. intros s x r. unfold word_constant. destruct (re_match _ _); [|discriminate]. apply tag_exact. Qed.
Hint Resolve float_sound word_exact : snd.

(** * Single values *)
Lemma scalar_sound : sound (scalar uw f6 fh) (scalar_text f6 fh).
Proof.
  intros s v r E N. unfold scalar in E.
  apply alt_cons_inv in E as [E|E]; [|apply alt_cons_inv in E as [E|E]; [|apply alt_cons_inv in E as [E|E]; [|discriminate E]]].
  - pinv. sw. give r. now constructor.
  - pinv. sw. give r. now constructor.
  - pinv. unfold boolean_constant in E.
    apply alt_cons_inv in E as [E|E]; [|apply alt_cons_inv in E as [E|E]; [|discriminate E]];
      unfold true_, false_ in E; pinv; sw; give r; constructor.
Qed.
Hint Resolve scalar_sound : snd.
Lemma single_sound : soundr (p_single uw f6 fh) (fun r t v => single_text f6 fh t v /\ NS (t ++ r)).
Proof.
  intros s v r E N. pose proof (single_special _ _ _ E N) as K. unfold p_single in E.
  apply alt_cons_inv in E as [E|E]; [|apply alt_cons_inv in E as [E|E]; [|discriminate E]]; pinv; sw; give r;
    (split; [now constructor|rewrite <- ?app_assoc; assumption]).
Qed.
Lemma default_sound : soundr (p_default_value ua un uw f6 fh) (default_text ua un f6 fh NS NB).
Proof.
  intros s v r E N. unfold p_default_value in E.
  apply alt_cons_case in E as [E|[F E]]; [|apply alt_cons_inv in E as [E|E]; [|discriminate E]].
  - pinv. pose proof (scalar_special _ _ _ E N) as K. sw. give r. now constructor.
  - apply pmap_none, scalar_none in F as [K F]. pinv. sw. give r. constructor; auto. now apply boolean_none'.
Qed.
Hint Resolve single_sound default_sound : snd.

(** * Metadata *)
Lemma meta_item_sound : soundr (metadata_item ua un uw f6 fh) (meta_item ua un f6 fh NS).
Proof.
  intros s v r E N. unfold metadata_item in E. apply pair_inv in E as (x & o & s' & -> & E & O).
  apply opt_inv in O as [(-> & <- & _)|(a & -> & O)].
  - sw. give r. now constructor.
  - pinv. repeat sw. give r. now constructor.
Qed.
Lemma adv_meta_item : advances (metadata_item ua un uw f6 fh).
Proof.
  unfold metadata_item. apply advances_pair_l; [apply adv_ident|].
  intros s o r E. apply opt_inv in E as [(-> & -> & _)|(a & -> & E)]; [exists []; reflexivity|].
  pinv. apply adv_single in E as (c1 & _ & ->).
  repeat match goal with H : comment_or_space0 _ = _ |- _ => apply spl_blank0 in H as (? & ->) end.
  match goal with H : colon _ = _ |- _ => apply char_exact in H as (? & -> & _) end.
  rewrite !app_assoc. eauto.
Qed.
Lemma metadata_list_sound :
  soundr (separated_list list_comma (metadata_item ua un uw f6 fh))
        (fun r t l => (t = [] /\ l = []) \/ listing (meta_item ua un f6 fh NS) r t l).
Proof. apply separated_list_sound; [apply adv_meta_item|apply meta_item_sound]. Qed.
Hint Resolve metadata_list_sound : snd.
Lemma meta_sound : soundr (p_metadata ua un uw f6 fh) (meta_text ua un f6 fh NS).
Proof.
  intros s o r E N. unfold p_metadata in E. apply opt_inv in E as [(-> & -> & _)|(a & -> & E)].
  - exists []. split; [reflexivity|constructor].
  - unfold raw_metadata in E. pinv. repeat sw.
    match goal with H : _ \/ _ |- _ => destruct H as [[-> ->]|L] end.
    + cbn [app]. match goal with |- context [?x :: ?t1 ++ ?t2 ++ ?c :: r] => exists (lit "(" ++ (t1 ++ t2) ++ lit ")") end.
      split; [rewrite <- !app_assoc; reflexivity|]. constructor. now apply blank_app.
    + give r. now constructor.
Qed.
Hint Resolve meta_sound : snd.

(** * JSON-like values *)
Section Inner.
Context (v : parser value) (adv : advances v) (snd_v : soundr v (value_text ua un f6 fh NS)).
Lemma key_pair_sound :
  soundr (separated_pair (p_ident ua un) key_colon v) (pair_text ua un (value_text ua un f6 fh NS)).
Proof.
  intros s a r E N. unfold key_colon in E. pinv. repeat sw. give r. now constructor.
Qed.
Lemma adv_key_pair : advances (separated_pair (p_ident ua un) key_colon v).
Proof.
  apply advances_separated_pair; [apply adv_ident|apply spl_key_colon|now apply advances_splits].
Qed.
Lemma pairs_sound :
  soundr (separated_list list_comma (separated_pair (p_ident ua un) key_colon v))
        (fun r t l => (t = [] /\ l = []) \/ listing (pair_text ua un (value_text ua un f6 fh NS)) r t l).
Proof. apply separated_list_sound; [apply adv_key_pair|apply key_pair_sound]. Qed.
Lemma values_sound :
  soundr (separated_list list_comma v)
        (fun r t l => (t = [] /\ l = []) \/ listing (value_text ua un f6 fh NS) r t l).
Proof. apply separated_list_sound; auto. Qed.
Hint Resolve pairs_sound values_sound : snd.
Lemma object_with_exact :
  exactr (object_with ua un v) (fun r t '(kv, c) => object_text ua un (value_text ua un f6 fh NS) r t kv c).
Proof.
  intros s a r E. unfold object_with in E. pinv. repeat sw.
  match goal with H : _ \/ _ |- _ => destruct H as [[-> ->]|L] end.
  - match goal with |- context [?d ++ [_] ++ ?t1 ++ [] ++ ?t2 ++ [_] ++ r] => exists (d ++ lit "{" ++ (t1 ++ t2) ++ lit "}") end.
    split; [rewrite <- !app_assoc; reflexivity|]. constructor; auto. now apply blank_app.
  - give r. now constructor.
Qed.
Lemma value_list_exact :
  exactr (value_list_with v) (fun r t l => NS (t ++ r) -> value_text ua un f6 fh NS r t (JList l)).
Proof.
  intros s a r E. unfold value_list_with in E. pinv. repeat sw.
  match goal with H : _ \/ _ |- _ => destruct H as [[-> ->]|L] end.
  - match goal with |- context [[_] ++ ?t1 ++ [] ++ ?t2 ++ [_] ++ r] => exists (lit "[" ++ (t1 ++ t2) ++ lit "]") end.
    split; [rewrite <- !app_assoc; reflexivity|]. constructor; auto. now apply blank_app.
  - give r. now constructor.
Qed.
End Inner.
Lemma value_n_sound : forall n, soundr (value_n ua un uw f6 fh n) (value_text ua un f6 fh NS).
Proof.
  induction n as [|n IH]; intros s v r E N; [discriminate E|]. cbn [value_n] in E.
  pose proof (object_with_exact (value_n ua un uw f6 fh n) (adv_value_n ua un uw f6 fh n) IH) as HO.
  pose proof (value_list_exact (value_n ua un uw f6 fh n) (adv_value_n ua un uw f6 fh n) IH) as HL.
  apply alt_cons_case in E as [E|[F E]].
  { pinv. sw. give r. now constructor. }
  apply pmap_none, single_none in F.
  apply alt_cons_inv in E as [E|E]; [|apply alt_cons_inv in E as [E|E]; [|discriminate E]].
  - pinv. apply HO in E as (t & -> & D). destruct x as [kv c]. subst v. exists t. split; [reflexivity|now constructor].
  - pinv. apply HL in E as (t & -> & D). subst v. exists t. auto.
Qed.
Lemma object_exact :
  exactr (object ua un uw f6 fh) (fun r t '(kv, c) => object_text ua un (value_text ua un f6 fh NS) r t kv c).
Proof.
  apply object_with_exact; [apply adv_value|]. intros s v r E N. unfold value_ in E. exact (value_n_sound _ _ _ _ E N).
Qed.
Hint Resolve object_exact : snd.

(** * Types *)
Lemma builtin_exact : exact builtin_type (type_text ua un).
Proof.
  intros s ty r E. unfold builtin_type in E. cbn [map builtin_names] in E.
  repeat (apply alt_cons_inv in E as [E|E];
    [apply value_of_inv in E as (-> & x & E); apply tag_exact in E as (t & -> & -> & _);
     eexists; split; [reflexivity|];
     first [apply type_string | apply (type_prim ua un)
           |match goal with |- type_text _ _ _ (APrim ?p) => exact (type_prim ua un p) end]|]).
  discriminate E.
Qed.
Lemma type_n_exact : forall n, exact (type_n ua un n) (type_text ua un).
Proof.
  induction n as [|n IH]; intros s v r E; [discriminate E|]. cbn [type_n] in E.
  apply alt_cons_inv in E as [E|E]; [|apply alt_cons_inv in E as [E|E]; [|apply alt_cons_inv in E as [E|E]; [|discriminate E]]].
  - now apply builtin_exact.
  - pinv. repeat sw. give r. now constructor.
  - pinv. sw. give r. now constructor.
Qed.
Lemma type_exact : exact (type_ ua un) (type_text ua un).
Proof. intros s v r E. unfold type_ in E. exact (type_n_exact _ _ _ _ E). Qed.
Hint Resolve type_exact : snd.

(** * Declarations *)
Lemma opt_part_sound {A} mark (p : parser A) (X : text -> text -> A -> Prop) :
  soundr p X ->
  soundr (opt (preceded comment_or_space0 (preceded (char mark) (preceded comment_or_space0 p)))) (opt_part [mark] X).
Proof.
  intros H s o r E N. apply opt_inv in E as [(-> & <- & _)|(a & -> & E)].
  - exists []. split; [reflexivity|constructor].
  - pinv. repeat sw. give r. now constructor.
Qed.
Lemma opt_part_sound' {A} mark (p : parser A) (X : text -> text -> A -> Prop) :
  soundr p X ->
  soundr (opt (preceded (pair_ comment_or_space0 (pair_ (char mark) comment_or_space0)) p)) (opt_part [mark] X).
Proof.
  intros H s o r E N. apply opt_inv in E as [(-> & <- & _)|(a & -> & E)].
  - exists []. split; [reflexivity|constructor].
  - pinv. repeat sw. give r. now constructor.
Qed.
Lemma variant_sound : sound (enumval_decl ua un) (variant_text ua un).
Proof.
  intros s v r E N. unfold enumval_decl in E. pinv.
  match goal with H : opt _ _ = _ |- _ => rename H into O end.
  apply (opt_part_sound _ _ (fun _ => integer_text) (exact_sound _ _ integer_exact)) in O as (t & -> & D); auto.
  repeat sw. give r. constructor; auto. eapply opt_tail; eauto.
Qed.
Lemma variants_list_sound :
  sound (separated_nonempty_list list_comma (enumval_decl ua un)) (listing (fun _ => variant_text ua un) []).
Proof.
  intros s l r E N. destruct (separated_nonempty_sound _ (fun _ => variant_text ua un) (adv_enumval _ _) variant_sound _ _ _ E N)
    as (t & -> & L). exists t. split; auto. eapply listing_tail; eauto.
Qed.
Hint Resolve variants_list_sound : snd.
Lemma variants_exact : exact (enum_body ua un) (fun t vs => variants_text ua un t vs /\ t <> []).
Proof.
  intros s v r E. unfold enum_body in E. pinv. repeat sw.
  match goal with H : opt _ _ = _ |- _ => rename H into O end.
  apply opt_inv in O as [(-> & <- & _)|(a & -> & O)].
  - repeat sw. give r. split; [now constructor|ne].
  - pinv. repeat sw.
    match goal with |- exists t, ?b1 ++ _ ++ ?b2 ++ ?t' ++ ?b3 ++ _ ++ ?b4 ++ ?b5 ++ _ = _ /\ _ =>
      exists (b1 ++ lit "{" ++ b2 ++ t' ++ b3 ++ lit "," ++ (b4 ++ b5) ++ lit "}") end.
    split; [rewrite <- !app_assoc; reflexivity|]. split; [|ne]. constructor; auto. now apply blank_app.
Qed.
Hint Resolve variants_exact : snd.
Lemma enum_exact : exactr (enum_decl ua un uw f6 fh) (enum_text ua un f6 fh NS).
Proof.
  intros s v r E. unfold enum_decl in E. pinv. repeat sw. give r. now constructor.
Qed.
Lemma union_exact : exactr (union_decl ua un uw f6 fh) (union_text ua un f6 fh NS).
Proof.
  intros s v r E. unfold union_decl in E. pinv. repeat sw. give r. now constructor.
Qed.
Lemma default_part_sound :
  soundr (opt (preceded (pair_ comment_or_space0 (pair_ equals comment_or_space0)) (p_default_value ua un uw f6 fh)))
        (opt_part (lit "=") (default_text ua un f6 fh NS NB)).
Proof. apply (opt_part_sound' "="%byte), default_sound. Qed.
Hint Resolve default_part_sound : snd.
Lemma field_exact : exactr (field_decl ua un uw f6 fh) (field_text ua un f6 fh NS NB).
Proof.
  intros s v r E. unfold field_decl in E. pinv. repeat sw. give r. now constructor.
Qed.
Lemma fields_sound :
  soundr (many0 (delimited comment_or_space0 (field_decl ua un uw f6 fh) comment_or_space0))
    (fun r t l => exists b t' : text, t = b ++ t' /\ blank b /\ series (field_text ua un f6 fh NS NB) r t' l).
Proof. apply many0_sound; [apply adv_field|apply field_exact]. Qed.
Hint Resolve fields_sound : snd.
Lemma series_blank {A} (X : text -> text -> A -> Prop) t l b r :
  series X (b ++ r) t l -> blank b -> exists b' t', t ++ b = b' ++ t' /\ blank b' /\ series X r t' l.
Proof.
  intros S B. remember (b ++ r) as q eqn:Eq. induction S as [q|q t a b0 t' l H B0 S IH]; subst q.
  - exists b, []. rewrite app_nil_r. repeat split; auto. constructor.
  - destruct (IH eq_refl) as (b1 & t1 & E & B1 & S1).
    exists [], (t ++ (b0 ++ b1) ++ t1). rewrite <- !app_assoc, E. repeat split; [constructor|].
    rewrite app_assoc with (l := b0). constructor; auto; [|now apply blank_app].
    rewrite (app_assoc t'), E in H. now rewrite <- !app_assoc in *.
Qed.
Lemma product_exact kw :
  exactr (pmap (pair_ doc_comment (preceded (tag (lit kw)) (product_type_body ua un uw f6 fh)))
           (fun '(c, (name, (m, fs))) => AProduct name fs m c))
        (product_text ua un f6 fh NS NB (lit kw)).
Proof.
  intros s v r E. unfold product_type_body in E. pinv. repeat sw.
  match goal with |- exists t, ?d ++ ?k ++ ?b1 ++ ?x ++ ?b2 ++ ?m ++ ?b3 ++ _ ++ ?b4 ++ (?b5 ++ ?f) ++ ?b6 ++ _ ++ _ = _ /\ _ =>
    match goal with S : series _ _ f _, B : blank b6 |- _ =>
      destruct (series_blank _ _ _ _ _ S B) as (b' & t' & Q & B' & S') end end.
  match goal with |- exists t, ?d ++ ?k ++ ?b1 ++ ?x ++ ?b2 ++ ?m ++ ?b3 ++ _ ++ ?b4 ++ (?b5 ++ ?f) ++ ?b6 ++ _ ++ _ = _ /\ _ =>
    exists (d ++ k ++ b1 ++ x ++ b2 ++ m ++ b3 ++ lit "{" ++ (b4 ++ b5 ++ b') ++ t' ++ lit "}") end.
  split.
  - rewrite <- !app_assoc. do 10 f_equal. rewrite (app_assoc _ _ (["}"%byte] ++ r)), Q, <- app_assoc. reflexivity.
  - constructor; auto; [|repeat apply blank_app; auto].
    rewrite <- !app_assoc in *. rewrite (app_assoc b' t'), <- Q. rewrite <- !app_assoc in *. assumption.
Qed.
Lemma method_exact : exactr (rpc_method ua un uw f6 fh) (method_text ua un f6 fh NS).
Proof.
  intros s v r E. unfold rpc_method, key_colon in E. pinv. repeat sw. give r. now constructor.
Qed.
Lemma methods_sound :
  soundr (many1 (delimited comment_or_space0 (rpc_method ua un uw f6 fh) comment_or_space0))
    (fun r t l => l <> [] /\ exists b t' : text, t = b ++ t' /\ blank b /\ series (method_text ua un f6 fh NS) r t' l).
Proof. apply many1_sound; [apply adv_rpc_method|apply method_exact]. Qed.
Hint Resolve methods_sound : snd.
Lemma rpc_exact : exactr (rpc_decl ua un uw f6 fh) (rpc_text ua un f6 fh NS).
Proof.
  intros s v r E. unfold rpc_decl in E. pinv. repeat sw. rewrite <- !app_assoc. give r. now constructor.
Qed.
Lemma statement_exact {A} kw (gap : text -> Prop) (g : parser unit) (item : text -> A -> Prop) (p : parser A) :
  sound g (fun t _ => gap t) -> sound p item ->
  exact (pair_ doc_comment (delimited (tag (lit kw)) (delimited g p comment_or_space0) semicolon))
        (fun t '(c, a) => statement (lit kw) gap item t a c).
Proof.
  intros G P s v r E. pinv. repeat sw. give r. now constructor.
Qed.
Lemma include_exact : exact (include_decl has_stem) (include_text has_stem).
Proof.
  intros s v r E. unfold include_decl in E. apply map_res_inv in E as ([c path] & E & F).
  apply (statement_exact _ blank1 _ string_text) in E as (t & -> & D); [|apply blank1_sound|apply exact_sound, string_exact].
  destruct (has_stem path) eqn:St; [|discriminate]. injection F as <-. exists t. split; [reflexivity|]. split; auto.
Qed.
Lemma attribute_sound : sound (alt [p_ident ua un; string_constant]) (attribute_name ua un).
Proof.
  intros s v r E N. apply alt_cons_inv in E as [E|E]; [|apply alt_cons_inv in E as [E|E]; [|discriminate E]]; sw; give r.
  - left. split; auto.
  - right. auto.
Qed.

(** The four characters of a file identifier. *)
Lemma take_length : forall n s x r, take n s = Some (x, r) -> s = x ++ r /\ (n <= List.length x)%nat.
Proof.
  induction n as [|n IH]; intros s x r; cbn [take].
  - injection 1 as <- <-. split; [reflexivity|cbn; lia].
  - destruct (next_char s) as [[c q]|] eqn:E; [|discriminate].
    destruct (take n q) as [[y q']|] eqn:T; [|discriminate]. injection 1 as <- <-.
    apply next_char_spec in E as [-> NC]. apply IH in T as [-> L]. rewrite app_assoc, app_length. split; auto.
    destruct c; [congruence|cbn; lia].
Qed.
Lemma next_single s b q : next_char s = Some ([b], q) -> (128 <= Byte.to_N b)%N ->
  s = b :: q /\ match q with [] => True | c :: _ => ~ continuation c end.
Proof.
  destruct s as [|d s]; cbn [next_char]; [discriminate|]. destruct (is_ascii d) eqn:A.
  - injection 1 as <- <-. intros H. exfalso. unfold is_ascii, code in A. lia.
  - destruct (span is_continuation s) as [x y] eqn:E. injection 1 as <- -> <-. intros H.
    pose proof (span_stop _ _ _ _ E) as P. apply span_spec in E as [-> _]. split; [reflexivity|].
    cbn [app] in *. destruct y as [|c y]; auto. intros K. apply continuation_iff in K. congruence.
Qed.
Lemma take_single : forall n s x r, take n s = Some (x, r) -> List.length x = n ->
  forall a b c y, x = a ++ b :: c :: y -> (128 <= Byte.to_N b)%N -> ~ continuation c.
Proof.
  induction n as [|n IH]; intros s x r; cbn [take].
  - injection 1 as <- <-. intros _ [|z a] b c y H; discriminate H.
  - destruct (next_char s) as [[d q]|] eqn:E; [|discriminate].
    destruct (take n q) as [[z q']|] eqn:T; [|discriminate]. injection 1 as <- <-.
    pose proof (next_char_spec _ _ _ E) as [Es NC]. pose proof (take_length _ _ _ _ T) as [Eq L].
    rewrite app_length. intros Len.
    destruct d as [|b0 [|b1 d]]; [congruence| |cbn in Len; lia].
    intros a b c y X Hb. destruct a as [|a0 a]; cbn [app] in X.
    + injection X as <- ->. apply next_single in E as [_ E]; auto. rewrite Eq in E. exact E.
    + injection X as _ X. eapply IH; eauto.
Qed.
Lemma identifier_exact : exact (file_identifier_decl) (fun t '(i, c) => statement (lit "file_identifier") blank identifier_text t i c).
Proof.
  intros s v r E. unfold file_identifier_decl in E. apply map_res_inv in E as ([c id] & E & F).
  destruct (Nat.eqb (List.length id) 4) eqn:L; [|discriminate]. injection F as <-. apply Nat.eqb_eq in L.
  apply pair_inv in E as (c' & i' & s' & Q & E1 & E). injection Q as <- <-. pinv.
  match goal with H : take 4 _ = _ |- _ => pose proof (take_length _ _ _ _ H) as [-> _]; pose proof (take_single _ _ _ _ H L) end.
  repeat sw.
  match goal with |- exists t, ?d ++ ?k ++ ?b1 ++ ?q1 ++ ?x ++ ?q2 ++ ?b2 ++ ?sc ++ _ = _ /\ _ =>
    exists (d ++ k ++ b1 ++ (q1 ++ x ++ q2) ++ b2 ++ sc) end.
  split; [rewrite <- !app_assoc; reflexivity|]. constructor; auto. split; [reflexivity|]. auto.
Qed.
Lemma element_exact : exactr (p_element ua un uw f6 fh) (element_text ua un f6 fh NS NB).
Proof.
  intros s v r E. unfold p_element in E.
  repeat (apply alt_cons_inv in E as [E|E]).
  - apply pmap_inv in E as ([q c] & E & ->). unfold namespace_decl in E. apply pmap_inv in E as ([c' q'] & E & Q).
    injection Q as -> ->.
    apply (statement_exact _ blank1 _ (qname_text ua un)) in E as (t & -> & D); [|apply blank1_sound|apply exact_sound, qualified_exact].
    exists t. split; [reflexivity|now constructor].
  - apply pmap_inv in E as (p & E & ->). unfold table_decl in E. apply product_exact in E as (t & -> & D).
    exists t. split; [reflexivity|now constructor].
  - apply pmap_inv in E as (p & E & ->). unfold struct_decl in E. apply product_exact in E as (t & -> & D).
    exists t. split; [reflexivity|now constructor].
  - apply pmap_inv in E as (p & E & ->). apply enum_exact in E as (t & -> & D).
    exists t. split; [reflexivity|now constructor].
  - apply pmap_inv in E as (p & E & ->). apply union_exact in E as (t & -> & D).
    exists t. split; [reflexivity|now constructor].
  - apply pmap_inv in E as (q & E & ->). unfold root_decl in E. apply pmap_inv in E as ([c' q'] & E & ->).
    apply (statement_exact _ blank1 _ (name_itself ua un)) in E as (t & -> & D); [|apply blank1_sound|].
    + exists t. split; [reflexivity|]. econstructor. eauto.
    + apply exact_sound. intros s' x r' E'. apply ident_exact in E' as (t' & -> & -> & D'). exists x. split; [reflexivity|split; auto].
  - apply pmap_inv in E as ([e c] & E & ->). unfold file_extension_decl in E. apply pmap_inv in E as ([c' q'] & E & Q).
    injection Q as -> ->.
    apply (statement_exact _ blank _ string_text) in E as (t & -> & D); [|apply blank0_sound|apply exact_sound, string_exact].
    exists t. split; [reflexivity|now constructor].
  - apply pmap_inv in E as ([e c] & E & ->). apply identifier_exact in E as (t & -> & D).
    exists t. split; [reflexivity|now constructor].
  - apply pmap_inv in E as (q & E & ->). unfold attribute_decl in E. apply pmap_inv in E as ([c' q'] & E & ->).
    apply (statement_exact _ blank1 _ (attribute_name ua un)) in E as (t & -> & D); [|apply blank1_sound|apply attribute_sound].
    exists t. split; [reflexivity|]. econstructor. eauto.
  - apply pmap_inv in E as (p & E & ->). apply rpc_exact in E as (t & -> & D).
    exists t. split; [reflexivity|now constructor].
  - apply pmap_inv in E as ([kv c] & E & ->). apply object_exact in E as (t & -> & D).
    exists t. split; [reflexivity|now constructor].
  - discriminate E.
Qed.
Lemma clear_sound t S :
  schema_decl ua un uw f6 fh has_stem t = Some (S, []) -> clear_text ua un uw f6 fh has_stem t S.
Proof.
  intros E. unfold schema_decl in E. apply pmap_inv in E as (x & E & ->).
  apply pair_inv in E as (is_ & es & q & -> & EI & E).
  apply (many0_series _ (fun _ => include_text has_stem) (adv_include has_stem) include_exact) in EI
    as (b & ti & e & -> & B & SI & F & K & L0 & L1).
  apply (many0_series _ _ (adv_element ua un uw f6 fh) element_exact) in E
    as (b' & te & e' & -> & B' & SE & F' & K' & L0' & L1').
  rewrite app_nil_r in *.
  destruct es as [|e0 es].
  - destruct (L0' eq_refl) as [-> ->]. inversion SE; subst. cbn [app] in *. rewrite app_nil_r in *.
    destruct is_ as [|i is_].
    + destruct (L0 eq_refl) as [-> ->]. inversion SI; subst. constructor.
    + change (ti ++ e) with (ti ++ [] ++ e). constructor; auto.
      * eapply series_tail; eauto.
      * constructor.
      * rewrite app_nil_r. apply L1. discriminate.
  - assert (NE : te <> []) by (apply L1'; discriminate).
    rewrite K by (apply ne_app; now apply ne_left). cbn [app].
    destruct (series_blank _ _ _ b' [] (series_tail _ _ _ _ _ SI) B') as (b1 & ti' & Q & B1 & SI').
    rewrite (app_assoc ti b'), Q, <- (app_assoc b1), (app_assoc b). constructor; auto.
    + now apply blank_app.
    + now apply ne_app.
Qed.
End Grammar.

(** Numbers, booleans and single values are read as the grammar says (C51,
    towards C48 and C50). *)
From Coq Require Import Strings.String ZArith List Bool Lia Strings.Byte ZifyBool ZifyNat ZifyN.
From Verif Require Import Base Schema Parser SpecParser SpecGrammar ParserProofs ParserProofs2 GrammarProofs
  GrammarProofs2.
Import ListNotations.
Local Open Scope Z_scope.

(** * Integers *)
Lemma digit_value_weight c : is_hex_digit c = true -> digit_value c = weight_of c.
Proof. destruct c; try discriminate; reflexivity. Qed.
Lemma digit_hex c : is_digit c = true -> is_hex_digit c = true.
Proof. unfold is_hex_digit. intros ->. reflexivity. Qed.
Lemma digits_number base : forall ds acc, Forall (fun c => is_hex_digit c = true) ds ->
  digits_value base acc ds = fold_left (fun v d => v * base + weight_of d) ds acc.
Proof.
  induction ds as [|d ds IH]; intros acc F; cbn; auto. inversion F; subst.
  rewrite digit_value_weight by auto. now apply IH.
Qed.
Lemma weight_nonneg c : 0 <= weight_of c.
Proof. destruct c; vm_compute; discriminate. Qed.
Lemma number_nonneg base ds : 0 <= base -> 0 <= number base ds.
Proof.
  intros B. unfold number. cut (forall acc, 0 <= acc -> 0 <= fold_left (fun v d => v * base + weight_of d) ds acc).
  { intros H. apply H. lia. }
  induction ds as [|d ds IH]; cbn; intros acc A; auto. apply IH. pose proof (weight_nonneg d). nia.
Qed.
Lemma in_i128_iff v : in_i128 v = true <-> i128 v.
Proof. unfold in_i128, i128. rewrite andb_true_iff, Z.leb_le, Z.ltb_lt. tauto. Qed.
Lemma digits_forallb ds : Forall digit ds <-> forallb is_digit ds = true.
Proof. rewrite forallb_forall, Forall_forall. split; intros H c C; specialize (H c C); now apply digit_iff. Qed.
Lemma hex_digits_forallb ds : Forall hex_digit ds <-> forallb is_hex_digit ds = true.
Proof. rewrite forallb_forall, Forall_forall. split; intros H c C; specialize (H c C); now apply hex_digit_iff. Qed.

(** What ends a run of bytes of class [p]. *)
Definition ends (p : byte -> bool) (r : text) : Prop := match r with [] => True | c :: _ => p c = false end.
Lemma span1_ok p ds r : forallb p ds = true -> ds <> [] -> ends p r -> span1 p (ds ++ r) = Some (ds, r).
Proof. intros F N R. unfold span1. rewrite span_app; auto. destruct ds; [congruence|reflexivity]. Qed.
Lemma span0_ok p ds r : forallb p ds = true -> ends p r -> span0 p (ds ++ r) = Some (ds, r).
Proof. intros F R. unfold span0. now rewrite span_app. Qed.
Lemma span1_none p c r : p c = false -> span1 p (c :: r) = None.
Proof. intros H. unfold span1. cbn [span]. now rewrite H. Qed.
Lemma breaks_digit r : breaks r -> ends is_digit r.
Proof. destruct r; auto. intros H. apply breaks_plain in H. apply H. Qed.
Lemma breaks_hex r : breaks r -> ends is_hex_digit r.
Proof. destruct r; auto. intros H. apply breaks_plain in H. apply H. Qed.

Lemma recognize_ok {A} (p : parser A) t a r : p (t ++ r) = Some (a, r) -> recognize p (t ++ r) = Some (t, r).
Proof.
  intros H. unfold recognize. rewrite H. f_equal. f_equal.
  rewrite app_length, Nat.add_sub, firstn_app, Nat.sub_diag, firstn_all. cbn. now rewrite app_nil_r.
Qed.
Lemma recognize_none {A} (p : parser A) s : p s = None -> recognize p s = None.
Proof. intros H. unfold recognize. now rewrite H. Qed.

(** The sign. *)
Definition sign_of (t : text) : option byte := match t with [] => None | c :: _ => Some c end.
Definition unsigned (r : text) : Prop := match r with [] => True | c :: _ => c <> "-"%byte /\ c <> "+"%byte end.
Lemma opt_sign_ok sign f r : sign_text sign f -> unsigned r -> opt plus_or_minus (sign ++ r) = Some (sign_of sign, r).
Proof.
  intros S U. unfold opt, plus_or_minus. destruct S as [[-> _]|[[-> _]|[-> _]]]; try reflexivity.
  cbn [app sign_of]. destruct r as [|c r]; auto. cbn [one_of]. change (lit "-+") with ["-"%byte; "+"%byte].
  cbn [existsb]. destruct U as [U1 U2]. rewrite (eqb_neq c), (eqb_neq c) by auto. reflexivity.
Qed.
Lemma unsigned_digits p ds r : (forall c, p c = true -> c <> "-"%byte /\ c <> "+"%byte) ->
  forallb p ds = true -> ds <> [] -> unsigned (ds ++ r).
Proof.
  intros P F N. destruct ds as [|c ds]; [congruence|]. cbn in *. apply andb_true_iff in F as [F _]. auto.
Qed.
Lemma digit_unsigned c : is_digit c = true -> c <> "-"%byte /\ c <> "+"%byte.
Proof. destruct c; try discriminate; split; discriminate. Qed.
Lemma sign_minus sign f : sign_text sign f -> (is_minus (sign_of sign) = true /\ f = Z.opp) \/ (is_minus (sign_of sign) = false /\ f = fun x => x).
Proof. intros [[-> ->]|[[-> ->]|[-> ->]]]; [right|right|left]; split; reflexivity. Qed.

Lemma i128_str sign f ds : sign_text sign f -> forallb is_digit ds = true -> ds <> [] ->
  i128_from_str (sign ++ ds) = if in_i128 (f (number 10 ds)) then Some (f (number 10 ds)) else None.
Proof.
  intros S F N.
  assert (E : digits_value 10 0 ds = number 10 ds).
  { apply digits_number. rewrite Forall_forall. rewrite forallb_forall in F. intros c C. apply digit_hex. auto. }
  unfold i128_from_str. destruct S as [[-> ->]|[[-> ->]|[-> ->]]]; cbn [app].
  - destruct ds as [|c ds]; [congruence|]. cbn in F. apply andb_true_iff in F as [F _].
    apply digit_unsigned in F as [F1 F2]. rewrite (eqb_neq c "-"), (eqb_neq c "+") by auto. now rewrite E.
  - change (lit "+") with ["+"%byte]. cbn [app]. change (Byte.eqb "+" "-") with false. rewrite eqb_same. now rewrite E.
  - change (lit "-") with ["-"%byte]. cbn [app]. rewrite eqb_same. now rewrite E.
Qed.
Lemma dec_integer_run sign f ds r : sign_text sign f -> Forall digit ds -> ds <> [] -> ends is_digit r ->
  dec_integer_constant (sign ++ ds ++ r) =
  if in_i128 (f (number 10 ds)) then Some (f (number 10 ds), r) else None.
Proof.
  intros S F N R. apply digits_forallb in F. unfold dec_integer_constant, map_res.
  rewrite app_assoc, (recognize_ok _ (sign ++ ds) ds).
  - rewrite (i128_str sign f) by auto. now destruct (in_i128 _).
  - rewrite <- app_assoc. unfold preceded. rewrite (opt_sign_ok sign f); auto.
    + unfold digit1. now rewrite span1_ok.
    + apply (unsigned_digits is_digit); auto. apply digit_unsigned.
Qed.
Lemma xX_one_of x r : In x (lit "xX") -> one_of (lit "xX") (x :: r) = Some (x, r).
Proof. intros H. apply In_existsb in H. unfold one_of. now rewrite H. Qed.
Lemma hex_integer_run sign f x ds r : sign_text sign f -> In x (lit "xX") -> Forall hex_digit ds -> ds <> [] -> ends is_hex_digit r ->
  hex_integer_constant (sign ++ lit "0" ++ [x] ++ ds ++ r) =
  if in_i128 (number 16 ds) then Some (f (number 16 ds), r) else None.
Proof.
  intros S X F N R. apply hex_digits_forallb in F. unfold hex_integer_constant, map_res, pair_.
  rewrite (opt_sign_ok sign f); auto; [|cbn; split; discriminate].
  unfold preceded, zero. change (lit "0" ++ [x] ++ ds ++ r) with ("0"%byte :: x :: ds ++ r).
  cbn [char]. rewrite eqb_same, xX_one_of by auto. unfold hex_digit1. rewrite span1_ok by auto.
  rewrite digits_number by (now apply Forall_forall; intros c C; apply forallb_forall with (x := c) in F).
  fold (number 16 ds). pose proof (number_nonneg 16 ds ltac:(lia)) as NN.
  destruct (in_i128 (number 16 ds)) eqn:E; auto.
  destruct (sign_minus sign f S) as [[-> ->]|[-> ->]].
  - assert (in_i128 (- number 16 ds) = true) as ->; auto.
    apply in_i128_iff. apply in_i128_iff in E. unfold i128 in *. lia.
  - now rewrite E.
Qed.
Lemma hex_integer_dec_none sign f ds r : sign_text sign f -> Forall digit ds -> ds <> [] -> breaks r ->
  hex_integer_constant (sign ++ ds ++ r) = None.
Proof.
  intros S F N R. apply digits_forallb in F. unfold hex_integer_constant, map_res, pair_.
  rewrite (opt_sign_ok sign f); auto; [|apply (unsigned_digits is_digit); auto; apply digit_unsigned].
  unfold preceded, zero. destruct ds as [|c ds]; [congruence|]. cbn [app char].
  destruct (Byte.eqb "0" c); auto.
  assert (one_of (lit "xX") (ds ++ r) = None) as ->; auto.
  destruct ds as [|d ds]; cbn [app].
  - destruct r as [|b r]; auto. apply breaks_plain in R as (L & _).
    unfold one_of. destruct (existsb (Byte.eqb b) (lit "xX")) eqn:E; auto. exfalso. destruct b; discriminate.
  - cbn in F. apply andb_true_iff in F as [_ F]. apply andb_true_iff in F as [F _].
    unfold one_of. destruct (existsb (Byte.eqb d) (lit "xX")) eqn:E; auto. exfalso. destruct d; discriminate.
Qed.
Lemma integer_ok t v r : integer_text t v -> breaks r -> integer_constant (t ++ r) = Some (v, r).
Proof.
  intros H R. unfold integer_constant. cbn [alt]. destruct H as [sign f ds S F N I|sign f x ds S X F N I]; rewrite <- !app_assoc.
  - rewrite (hex_integer_dec_none sign f); auto. rewrite (dec_integer_run sign f); auto.
    + apply in_i128_iff in I. now rewrite I.
    + now apply breaks_digit.
  - rewrite (hex_integer_run sign f); auto.
    + apply in_i128_iff in I. now rewrite I.
    + now apply breaks_hex.
Qed.

(** * The special float names *)
Section Words.
Context (uni_word : text -> bool).
Notation has_word := (has_word uni_word).

Lemma starts_word_spec w s : starts_word uni_word w s = true ->
  exists r, s = w ++ r /\ (forall c x, r = c :: x -> ~ word_byte c).
Proof.
  unfold starts_word. destruct (tag w s) as [[x r]|] eqn:T; [|discriminate].
  apply tag_spec in T as [-> _]. intros H. exists r. split; auto. intros c y -> W.
  apply word_byte_iff in W. assert (A := letter_ascii c W).
  rewrite next_ascii in H by auto.
  unfold word_char in H. rewrite on_ascii_byte in H by auto. rewrite W in H. discriminate.
Qed.
Lemma app_last_neq {A} (a b : list A) : b <> [] -> exists x c, a ++ b = x ++ [c] /\ exists y, b = y ++ [c].
Proof.
  intros N. destruct (exists_last N) as (y & c & ->). exists (a ++ y), c. rewrite app_assoc. eauto.
Qed.
Lemma next_char_last s b c x r : next_char s = Some (b :: x ++ [c], r) -> is_continuation c = true.
Proof.
  destruct s as [|d s]; cbn; [discriminate|]. destruct (is_ascii d).
  - injection 1 as _ E _. destruct x; discriminate.
  - destruct (span is_continuation s) as [y z] eqn:E. injection 1 as _ -> _.
    apply span_spec in E as [_ F]. rewrite forallb_app in F. apply andb_true_iff in F as [_ F]. cbn in F.
    now apply andb_true_iff in F as [F _].
Qed.
Lemma has_word_mentions w : forall n prev s, has_word_n uni_word n prev w s = true ->
  exists a b, s = a ++ w ++ b /\ (a = [] -> prev = false)
    /\ (forall x c, a = x ++ [c] -> ~ word_byte c) /\ (forall c x, b = c :: x -> ~ word_byte c).
Proof.
  induction n as [|n IH]; intros prev s; cbn [has_word_n]; [discriminate|].
  intros H. apply orb_true_iff in H as [H|H].
  - apply andb_true_iff in H as [P H]. apply negb_true_iff in P. apply starts_word_spec in H as (r & -> & R).
    exists [], r. repeat split; auto. intros x c E. destruct x; discriminate.
  - destruct (next_char s) as [[c r]|] eqn:Nx; [|discriminate]. assert (E := Nx). apply next_char_spec in E as [-> N].
    apply IH in H as (a & b & -> & P & A & B). exists (c ++ a), b. rewrite app_assoc. repeat split; auto.
    + intros E. apply app_eq_nil in E as [E _]. congruence.
    + intros x d E. destruct a as [|d' a'].
      * rewrite app_nil_r in E. subst c. specialize (P eq_refl). intros W.
        destruct x as [|e x].
        -- cbn [app] in P. apply word_byte_iff in W. unfold word_char in P.
           rewrite on_ascii_byte in P by now apply letter_ascii. congruence.
        -- (* a character of several bytes does not end with a letter *)
           apply next_char_last in Nx. apply word_byte_iff, letter_ascii in W.
           unfold is_ascii, is_continuation in *. lia.
      * assert (D : d' :: a' <> []) by discriminate. destruct (exists_last D) as (y & e & Ey).
        rewrite Ey in E. rewrite app_assoc in E. apply app_inj_tail in E as [_ <-]. now apply (A y).
Qed.
Lemma has_word_none w s : ~ mentions w s -> has_word w s = false.
Proof.
  intros N. destruct (has_word w s) eqn:E; auto. exfalso. apply N.
  apply has_word_mentions in E as (a & b & -> & _ & A & B). exists a, b. auto.
Qed.
Lemma word_here w r : breaks r -> has_word w (w ++ r) = true.
Proof.
  intros R. unfold has_word, Parser.has_word. cbn [has_word_n negb andb]. unfold starts_word. rewrite tag_app.
  destruct r as [|c r]; auto. apply breaks_plain in R as (L & D & _ & A & U & _).
  rewrite next_ascii by auto. unfold word_char. rewrite on_ascii_byte by auto.
  rewrite L, D, eqb_neq by auto. reflexivity.
Qed.
End Words.

(** Every suffix after a byte that is no word byte is quiet. *)
Definition calm (s : text) : Prop := forall a c s', s = a ++ c :: s' -> ~ word_byte c -> quiet s'.
Lemma calm_app a s : calm (a ++ s) -> calm s.
Proof. intros H b c s' -> W. apply (H (a ++ b) c); auto. now rewrite <- app_assoc. Qed.
Lemma calm_cons c s : calm (c :: s) -> calm s.
Proof. apply (calm_app [c]). Qed.
Lemma mentions_tail w a c s : ~ word_byte c -> mentions w s -> mentions w (a ++ c :: s).
Proof.
  intros W (x & y & -> & X & Y). exists (a ++ c :: x), y. rewrite <- app_assoc. repeat split; auto.
  intros z d E. destruct x as [|e x].
  - apply app_inj_tail in E as [_ <-]. auto.
  - assert (D : e :: x <> []) by discriminate. destruct (exists_last D) as (u & v & Eu). rewrite Eu in E.
    change (a ++ c :: u ++ [v] = z ++ [d]) in E. rewrite app_comm_cons, app_assoc in E.
    apply app_inj_tail in E as [_ <-]. eapply X; eauto.
Qed.
Lemma quiet_calm s : quiet s -> calm s.
Proof.
  intros (Q1 & Q2 & Q3) a c s' -> W. split; [|split]; intros M; [apply Q1|apply Q2|apply Q3];
  now apply mentions_tail.
Qed.
Lemma space_no_word c : space c -> ~ word_byte c.
Proof.
  unfold space, word_byte. rewrite !In_existsb. intros H K. destruct c; discriminate.
Qed.
Lemma blank_last b : blank b -> b = [] \/ exists x c, b = x ++ [c] /\ ~ word_byte c.
Proof.
  assert (SP : forall c, space c -> ~ word_byte c) by apply space_no_word.
  induction 1 as [|c t S B IH|body e t O N E B IH]; auto; right.
  - destruct IH as [->|(x & d & -> & W)].
    + exists [], c. auto.
    + exists (c :: x), d. auto.
  - destruct IH as [->|(x & d & -> & W)].
    + rewrite app_nil_r. destruct E as [->| ->].
      * exists (lit "//" ++ body), line_feed. rewrite <- app_assoc. split; auto. apply SP. cbn. auto.
      * exists (lit "//" ++ body ++ [carriage_return]), line_feed. rewrite <- !app_assoc. split; auto.
        apply SP. cbn. auto.
    + exists (lit "//" ++ body ++ e ++ x), d. rewrite <- !app_assoc. auto.
Qed.
(** After a byte that is no word byte, and blanks. *)
Lemma calm_quiet c b s : calm (c :: b ++ s) -> blank b -> ~ word_byte c -> quiet s.
Proof.
  intros H B W. destruct (blank_last b B) as [->|(x & d & -> & D)].
  - apply (H [] c); auto.
  - apply (H (c :: x) d); auto. rewrite <- app_assoc. reflexivity.
Qed.
Lemma quiet_sign sign f s : sign_text sign f -> quiet (sign ++ s) -> quiet s.
Proof.
  intros S Q. apply quiet_calm in Q as C. destruct S as [[-> _]|[[-> _]|[-> _]]]; auto; apply (C [] _ s eq_refl);
  unfold word_byte; rewrite In_existsb; discriminate.
Qed.

(** * Floats *)
Lemma one_of_none cs c r : ~ In c cs -> one_of cs (c :: r) = None.
Proof. intros H. cbn [one_of]. rewrite In_existsb in H. now destruct (existsb (Byte.eqb c) cs). Qed.
Lemma char_none c d r : c <> d -> char c (d :: r) = None.
Proof. intros H. cbn [char]. now rewrite eqb_neq. Qed.
Lemma char_ok c r : char c (c :: r) = Some (c, r).
Proof. cbn [char]. now rewrite eqb_same. Qed.
Lemma char_app c r : char c ([c] ++ r) = Some (c, r).
Proof. apply char_ok. Qed.
Lemma forallb_first p (a r : text) : forallb p a = true -> a <> [] -> exists c x, a ++ r = c :: x /\ p c = true.
Proof.
  destruct a as [|c a]; [congruence|]. cbn. intros F _. apply andb_true_iff in F as [F _]. eauto.
Qed.

(** The two notations for floats differ in the class of their digits and in the
    letters that start an exponent. *)
Section Point.
Context (dg : byte -> bool) (marks : text).
Context (dgP : byte -> Prop) (dgP_iff : forall c, dgP c <-> dg c = true).
Context (e : parser text) (first : parser text).
Context (dg_dot : dg "." = false) (dg_digit : forall c, is_digit c = true -> dg c = true).
Context (dg_break : forall r, breaks r -> ends dg r).
Context (marks_dg : forall c, In c marks -> dg c = false /\ c <> "."%byte).
Context (e_ok : forall m sign f ds r, In m marks -> sign_text sign f -> Forall digit ds -> ds <> [] -> ends is_digit r ->
           e ([m] ++ sign ++ ds ++ r) = Some ([m] ++ sign ++ ds, r)).
Context (e_none : forall r, match r with [] => True | c :: _ => ~ In c marks end -> e r = None).
Context (first_ok : forall a b r, forallb dg a = true -> a <> [] -> forallb dg b = true -> ends dg r ->
           first (a ++ lit "." ++ b ++ r) = Some (a, r)).
Context (first_none : forall a r : text, forallb dg a = true ->
           match r with [] => True | c :: _ => dg c = false /\ (c <> "."%byte \/ a = []) end -> first (a ++ r) = None).
Definition point_body : parser text :=
  alt [terminated (alt [first; preceded period (span1 dg)]) (opt e); terminated (span1 dg) e].

Lemma dg_all ds : Forall dgP ds -> forallb dg ds = true.
Proof. intros F. rewrite forallb_forall. rewrite Forall_forall in F. intros c C. now apply dgP_iff, F. Qed.
Context (marks_break : forall r, breaks r -> match r with [] => True | c :: _ => ~ In c marks end).
Lemma exponent_ok (t r : text) : exponent marks t -> breaks r -> e (t ++ r) = Some (t, r).
Proof.
  intros (m & sign & f & ds & -> & M & S & F & N) R. rewrite <- !app_assoc. eapply e_ok; eauto.
  apply breaks_digit; auto.
Qed.
Lemma opt_exponent_ok (t r : text) : opt_exponent marks t -> breaks r -> exists a, opt e (t ++ r) = Some (a, r).
Proof.
  intros [->|E] R; unfold opt.
  - cbn [app]. rewrite e_none by now apply marks_break. eauto.
  - rewrite exponent_ok; auto. eauto.
Qed.
Lemma exponent_ends (t r : text) : exponent marks t -> ends dg (t ++ r) /\ (forall x, t ++ r <> "."%byte :: x).
Proof.
  intros (m & sign & f & ds & -> & M & _). apply marks_dg in M as [M D]. cbn. split; auto. intros x [= -> _]. congruence.
Qed.
Lemma opt_exponent_ends t r : opt_exponent marks t -> breaks r -> ends dg (t ++ r).
Proof. intros [->|E] R; [now apply dg_break|now apply exponent_ends]. Qed.
Lemma point_ok (t r : text) : point_text dgP marks t -> breaks r -> exists a, point_body (t ++ r) = Some (a, r).
Proof.
  intros H R. unfold point_body. cbn [alt].
  destruct H as [(a & b & x & -> & A & N & B & X)|[(b & x & -> & B & N & X)|(a & x & -> & A & N & X)]]; rewrite <- !app_assoc.
  - destruct (opt_exponent_ok x r X R) as (o & O). exists a. unfold terminated at 1. cbn [alt].
    rewrite first_ok by (auto using dg_all, opt_exponent_ends). now rewrite O.
  - destruct (opt_exponent_ok x r X R) as (o & O). exists b. unfold terminated at 1. cbn [alt].
    assert (first (lit "." ++ b ++ x ++ r) = None) as ->.
    { apply (first_none []); auto. }
    unfold preceded, period. rewrite char_app, span1_ok by (auto using dg_all, opt_exponent_ends). now rewrite O.
  - exists a. unfold terminated at 1. cbn [alt]. destruct (exponent_ends x r X) as [E D].
    rewrite (first_none a); auto using dg_all.
    + unfold preceded, period.
      assert (char "." (a ++ x ++ r) = None) as ->.
      { destruct (forallb_first dg a (x ++ r) (dg_all a A) N) as (c & y & -> & C). apply char_none. intros <-. congruence. }
      unfold terminated. rewrite span1_ok by auto using dg_all. rewrite exponent_ok; auto.
    + destruct (x ++ r) as [|c y]; auto. split; auto. left. intros ->. now apply (D y).
Qed.
(** Digits alone are no float. *)
Lemma point_none (ds r : text) : forallb dg ds = true -> ds <> [] ->
  match r with [] => True | c :: _ => dg c = false /\ c <> "."%byte /\ ~ In c marks end -> point_body (ds ++ r) = None.
Proof.
  intros F N R. unfold point_body. cbn [alt]. unfold terminated at 1. cbn [alt]. rewrite first_none; auto.
  - unfold preceded, period.
    assert (char "." (ds ++ r) = None) as ->.
    { destruct (forallb_first dg ds r F N) as (c & y & -> & C). apply char_none. intros <-. congruence. }
    unfold terminated. rewrite span1_ok; auto.
    + rewrite e_none; auto. destruct r; tauto.
    + destruct r; cbn; tauto.
  - destruct r; tauto.
Qed.
Lemma point_none_byte c r : dg c = false -> c <> "."%byte -> point_body (c :: r) = None.
Proof.
  intros D N. unfold point_body. cbn [alt]. unfold terminated at 1. cbn [alt].
  assert (first (c :: r) = None) as -> by (apply (first_none []); auto). unfold preceded, period. rewrite char_none by congruence.
  unfold terminated. now rewrite span1_none.
Qed.
End Point.

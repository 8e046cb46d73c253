(** Floats, booleans and single values are read as the grammar says (towards C48
    and C50). *)
From Coq Require Import Strings.String ZArith List Bool Lia Strings.Byte ZifyBool ZifyNat ZifyN.
From Verif Require Import Base Schema Parser SpecParser SpecGrammar ParserProofs ParserProofs2 GrammarProofs
  GrammarProofs2 GrammarProofs3 WordProofs.
Import ListNotations.
Local Open Scope Z_scope.

(** * Decimal floats *)
Lemma not_in c l : existsb (Byte.eqb c) l = false -> ~ In c l.
Proof. intros H I. apply In_existsb in I. congruence. Qed.
(** Text that does not start like a number. *)
Definition no_number (r : text) : Prop :=
  match r with [] => True | c :: _ => ~ In c (lit "+-.0123456789") end.
Lemma not_in' c r : existsb (Byte.eqb c) (lit "+-.0123456789") = false -> no_number (c :: r).
Proof. apply not_in. Qed.

Definition dec_first : parser text := terminated digit1 (terminated period digit0).
Definition hex_first : parser text := terminated (terminated hex_digit1 period) hex_digit0.
Definition dec_body : parser text := point_body is_digit dec_float_exponent dec_first.
Definition hex_body : parser text := point_body is_hex_digit hex_float_exponent hex_first.

Lemma sign_digits sign f ds r : sign_text sign f -> Forall digit ds -> ds <> [] -> ends is_digit r ->
  opt plus_or_minus (sign ++ ds ++ r) = Some (sign_of sign, ds ++ r) /\ digit1 (ds ++ r) = Some (ds, r).
Proof.
  intros S F N R. apply digits_forallb in F. split.
  - apply (opt_sign_ok sign f); auto. apply (unsigned_digits is_digit); auto. apply digit_unsigned.
  - now apply span1_ok.
Qed.
Lemma one_of_ok c cs r : In c cs -> one_of cs (c :: r) = Some (c, r).
Proof. intros H. apply In_existsb in H. cbn [one_of]. now rewrite H. Qed.
Lemma dec_exponent_run m sign f ds r : In m (lit "eE") -> sign_text sign f -> Forall digit ds -> ds <> [] -> ends is_digit r ->
  dec_float_exponent ([m] ++ sign ++ ds ++ r) = Some ([m] ++ sign ++ ds, r).
Proof.
  intros M S F N R. destruct (sign_digits sign f ds r S F N R) as [E1 E2].
  unfold dec_float_exponent. rewrite !app_assoc. rewrite (recognize_ok _ _ (m, (sign_of sign, ds))).
  - now rewrite <- app_assoc.
  - rewrite <- !app_assoc. cbn [app]. unfold pair_ at 1. rewrite one_of_ok by auto. unfold pair_. now rewrite E1, E2.
Qed.
Lemma hex_exponent_run m sign f ds r : In m (lit "pP") -> sign_text sign f -> Forall digit ds -> ds <> [] -> ends is_digit r ->
  hex_float_exponent ([m] ++ sign ++ ds ++ r) = Some ([m] ++ sign ++ ds, r).
Proof.
  intros M S F N R. destruct (sign_digits sign f ds r S F N R) as [E1 E2].
  unfold hex_float_exponent. rewrite !app_assoc. rewrite (recognize_ok _ _ m).
  - now rewrite <- app_assoc.
  - rewrite <- !app_assoc. cbn [app]. unfold terminated at 1. rewrite one_of_ok by auto. unfold terminated. now rewrite E1, E2.
Qed.
Lemma dec_exponent_none r : match r with [] => True | c :: _ => ~ In c (lit "eE") end -> dec_float_exponent r = None.
Proof.
  intros H. apply recognize_none. unfold pair_ at 1. destruct r as [|c r]; auto. now rewrite one_of_none.
Qed.
Lemma hex_exponent_none r : match r with [] => True | c :: _ => ~ In c (lit "pP") end -> hex_float_exponent r = None.
Proof.
  intros H. apply recognize_none. unfold terminated at 1. destruct r as [|c r]; auto. now rewrite one_of_none.
Qed.
Lemma span1_none' p r : ends p r -> span1 p r = None.
Proof. destruct r as [|c r]; auto. apply span1_none. Qed.
Lemma dec_first_ok a b r : forallb is_digit a = true -> a <> [] -> forallb is_digit b = true -> ends is_digit r ->
  dec_first (a ++ lit "." ++ b ++ r) = Some (a, r).
Proof.
  intros A N B R. unfold dec_first, terminated at 1, digit1. rewrite span1_ok by (auto; reflexivity).
  unfold terminated, period. change (lit "." ++ b ++ r) with ("."%byte :: b ++ r). rewrite char_ok.
  unfold digit0. now rewrite span0_ok.
Qed.
Lemma hex_first_ok a b r : forallb is_hex_digit a = true -> a <> [] -> forallb is_hex_digit b = true -> ends is_hex_digit r ->
  hex_first (a ++ lit "." ++ b ++ r) = Some (a, r).
Proof.
  intros A N B R. unfold hex_first, terminated, hex_digit1. rewrite span1_ok by (auto; reflexivity).
  unfold period. change (lit "." ++ b ++ r) with ("."%byte :: b ++ r). rewrite char_ok.
  unfold hex_digit0. now rewrite span0_ok.
Qed.
Lemma dec_first_none (a r : text) : forallb is_digit a = true ->
  match r with [] => True | c :: _ => is_digit c = false /\ (c <> "."%byte \/ a = []) end -> dec_first (a ++ r) = None.
Proof.
  intros A R. unfold dec_first, terminated at 1, digit1. destruct a as [|d a].
  - cbn [app]. rewrite span1_none'; auto. destruct r; cbn; tauto.
  - rewrite span1_ok; auto; try discriminate; [|destruct r; cbn; tauto].
    unfold terminated, period. destruct r as [|c r]; auto. rewrite char_none; auto.
    destruct R as [_ [R|R]]; congruence.
Qed.
Lemma hex_first_none (a r : text) : forallb is_hex_digit a = true ->
  match r with [] => True | c :: _ => is_hex_digit c = false /\ (c <> "."%byte \/ a = []) end -> hex_first (a ++ r) = None.
Proof.
  intros A R. unfold hex_first, terminated, hex_digit1. destruct a as [|d a].
  - cbn [app]. rewrite span1_none'; auto. destruct r; cbn; tauto.
  - rewrite span1_ok; auto; try discriminate; [|destruct r; cbn; tauto].
    unfold period. destruct r as [|c r]; auto. rewrite char_none; auto.
    destruct R as [_ [R|R]]; congruence.
Qed.
Lemma in_break cs : existsb (fun c => existsb (Byte.eqb c) breakers) cs = false ->
  forall r, breaks r -> match r with [] => True | c :: _ => ~ In c cs end.
Proof. intros H r R. destruct r as [|c r]; auto. intros I. apply names_plain in H. rewrite Forall_forall in H. now apply (H c). Qed.
Lemma dec_marks c : In c (lit "eE") -> is_digit c = false /\ c <> "."%byte.
Proof. rewrite In_existsb. intros H. destruct c; try discriminate; split; (reflexivity || discriminate). Qed.
Lemma hex_marks c : In c (lit "pP") -> is_hex_digit c = false /\ c <> "."%byte.
Proof. rewrite In_existsb. intros H. destruct c; try discriminate; split; (reflexivity || discriminate). Qed.
Lemma dec_body_ok (t r : text) : point_text digit (lit "eE") t -> breaks r -> exists a, dec_body (t ++ r) = Some (a, r).
Proof.
  apply point_ok; auto using digit_iff, breaks_digit, dec_marks, dec_exponent_none, dec_first_ok, dec_first_none.
  - intros. eapply dec_exponent_run; eauto.
  - apply in_break. reflexivity.
Qed.
Lemma hex_body_ok (t r : text) : point_text hex_digit (lit "pP") t -> breaks r -> exists a, hex_body (t ++ r) = Some (a, r).
Proof.
  apply point_ok; auto using hex_digit_iff, breaks_hex, hex_marks, hex_exponent_none, hex_first_ok, hex_first_none.
  - intros. eapply hex_exponent_run; eauto.
  - apply in_break. reflexivity.
Qed.
Lemma dec_body_none (ds r : text) : forallb is_digit ds = true -> ds <> [] ->
  match r with [] => True | c :: _ => is_digit c = false /\ c <> "."%byte /\ ~ In c (lit "eE") end -> dec_body (ds ++ r) = None.
Proof. apply point_none; auto using dec_exponent_none, dec_first_none. Qed.
Lemma hex_body_none (ds r : text) : forallb is_hex_digit ds = true -> ds <> [] ->
  match r with [] => True | c :: _ => is_hex_digit c = false /\ c <> "."%byte /\ ~ In c (lit "pP") end -> hex_body (ds ++ r) = None.
Proof. apply point_none; auto using hex_exponent_none, hex_first_none. Qed.
Lemma dec_body_none_byte c r : is_digit c = false -> c <> "."%byte -> dec_body (c :: r) = None.
Proof. apply point_none_byte. apply dec_first_none. Qed.

Lemma high_clear v : 0 <= v < 2 ^ 63 -> Z.lxor v (2 ^ 63) = v + 2 ^ 63.
Proof.
  intros H. rewrite <- Z.add_nocarry_lxor; auto.
  apply Z.bits_inj'. intros n Hn. rewrite Z.land_spec, Z.bits_0.
  destruct (Z.eq_dec n 63) as [->|D].
  - apply andb_false_iff. left. apply Z.testbit_false; [lia|]. rewrite Z.div_small by auto. reflexivity.
  - rewrite Z.pow2_bits_false by lia. apply andb_false_r.
Qed.
Lemma flip_negate v : 0 <= v < 2 ^ 64 -> flip v = negate v.
Proof.
  intros H. unfold flip, negate. destruct (v <? 2 ^ 63) eqn:E.
  - apply Z.ltb_lt in E. apply high_clear. lia.
  - apply Z.ltb_ge in E. assert (Ev : v = (v - 2 ^ 63) + 2 ^ 63) by lia.
    rewrite Ev at 1. rewrite <- high_clear by lia. rewrite Z.lxor_assoc, Z.lxor_nilpotent, Z.lxor_0_r. reflexivity.
Qed.

Lemma breaks_mark cs r : existsb (fun c => existsb (Byte.eqb c) breakers) cs = false -> breaks r ->
  match r with [] => True | c :: _ => ~ In c cs end.
Proof. intros H. now apply in_break. Qed.
Lemma breaks_end (p : byte -> bool) cs r : (forall r, breaks r -> ends p r) ->
  existsb (fun c => existsb (Byte.eqb c) breakers) cs = false -> breaks r ->
  match r with [] => True | c :: _ => p c = false /\ c <> "."%byte /\ ~ In c cs end.
Proof.
  intros P H R. pose proof (P r R) as D. pose proof (in_break cs H r R) as M. destruct r as [|c r]; auto.
  repeat split; auto. now apply breaks_plain in R.
Qed.

Section Scalars.
Context (uni_alphabetic uni_alphanumeric uni_word : text -> bool).
Context (parse_f64 parse_hexf64 : text -> option Z).
Context (hexf_range : forall t v, parse_hexf64 t = Some v -> 0 <= v < 2 ^ 64).
Notation name_text := (name_text uni_alphabetic uni_alphanumeric).
Notation p_ident := (p_ident uni_alphabetic uni_alphanumeric).
Notation special_float_constant := (special_float_constant uni_word).
Notation float_constant := (float_constant uni_word parse_f64 parse_hexf64).
Notation dec_float_constant := (dec_float_constant parse_f64).
Notation hex_float_constant := (hex_float_constant parse_hexf64).
Notation scalar := (scalar uni_word parse_f64 parse_hexf64).
Notation p_single := (p_single uni_word parse_f64 parse_hexf64).
Notation p_default_value := (p_default_value uni_alphabetic uni_alphanumeric uni_word parse_f64 parse_hexf64).
Notation float_text := (float_text parse_f64 parse_hexf64).
Notation scalar_text := (scalar_text parse_f64 parse_hexf64).
Notation single_text := (single_text parse_f64 parse_hexf64).
Notation default_text :=
  (default_text uni_alphabetic uni_alphanumeric parse_f64 parse_hexf64 (no_special uni_word) (no_boolean uni_word)).

Lemma special_none s : no_special uni_word s -> special_float_constant s = None.
Proof. apply special_iff. Qed.
Lemma dec_float_body s : dec_float_constant s =
  map_res (recognize (preceded (opt plus_or_minus) dec_body)) parse_f64 s.
Proof. reflexivity. Qed.
Lemma hex_float_body s : hex_float_constant s =
  pmap (pair_ (terminated (opt plus_or_minus) (terminated zero (one_of (lit "xX"))))
          (map_res (recognize hex_body) parse_hexf64))
    (fun '(sign, v) => if is_minus sign then negate v else v) s.
Proof. reflexivity. Qed.

Definition no_x (r : text) : Prop := match r with [] => True | c :: _ => ~ In c (lit "xX") end.
Lemma hex_float_none sign f (t : text) : sign_text sign f -> unsigned t -> (forall r, t = "0"%byte :: r -> no_x r) ->
  hex_float_constant (sign ++ t) = None.
Proof.
  intros S U N. rewrite hex_float_body. unfold pmap, pair_, terminated. rewrite (opt_sign_ok sign f) by auto.
  unfold zero. destruct t as [|c t]; auto. destruct (Byte.eqb "0" c) eqn:E.
  - apply eqb_iff in E as <-. rewrite char_ok. specialize (N t eq_refl).
    destruct t as [|d t]; auto. now rewrite one_of_none.
  - cbn [char]. now rewrite E.
Qed.
Lemma hex_integer_none sign f (t : text) : sign_text sign f -> unsigned t -> (forall r, t = "0"%byte :: r -> no_x r) ->
  hex_integer_constant (sign ++ t) = None.
Proof.
  intros S U N. unfold hex_integer_constant, map_res, pair_, preceded. rewrite (opt_sign_ok sign f) by auto.
  unfold zero. destruct t as [|c t]; auto. destruct (Byte.eqb "0" c) eqn:E.
  - apply eqb_iff in E as <-. rewrite char_ok. specialize (N t eq_refl).
    destruct t as [|d t]; auto. now rewrite one_of_none.
  - cbn [char]. now rewrite E.
Qed.
Lemma digit_no_x c : is_digit c = true -> ~ In c (lit "xX").
Proof. rewrite In_existsb. intros H K. destruct c; discriminate. Qed.
Lemma digits_no_x (ds r : text) : forallb is_digit ds = true -> no_x r -> no_x (ds ++ r).
Proof.
  intros F R. destruct ds as [|c ds]; auto. cbn in F. apply andb_true_iff in F as [F _]. cbn. now apply digit_no_x.
Qed.
Lemma digits_no_0x (ds r : text) : forallb is_digit ds = true -> ds <> [] -> no_x r ->
  forall x, ds ++ r = "0"%byte :: x -> no_x x.
Proof.
  intros F N R x E. destruct ds as [|c ds]; [congruence|]. injection E as -> <-.
  cbn in F. now apply digits_no_x.
Qed.
Lemma breaks_no_x r : breaks r -> no_x r.
Proof. apply in_break. reflexivity. Qed.
Lemma exponent_no_x t (r : text) : exponent (lit "eE") t -> no_x (t ++ r).
Proof.
  intros (m & sign & f & ds & -> & M & _). cbn [app no_x]. rewrite In_existsb in *. intros H. destruct m; discriminate.
Qed.
Lemma point_no_x (t r : text) : point_text digit (lit "eE") t ->
  unsigned (t ++ r) /\ forall x, t ++ r = "0"%byte :: x -> no_x x.
Proof.
  intros [(a & b & e & -> & A & N & B & X)|[(b & e & -> & B & N & X)|(a & e & -> & A & N & X)]]; rewrite <- ?app_assoc.
  - apply digits_forallb in A. split; [apply (unsigned_digits is_digit); auto; apply digit_unsigned|].
    apply digits_no_0x; auto. now apply not_in.
  - split; [cbn; split; discriminate|]. discriminate.
  - apply digits_forallb in A. split; [apply (unsigned_digits is_digit); auto; apply digit_unsigned|].
    apply digits_no_0x; auto. now apply exponent_no_x.
Qed.

Lemma float_ok t v r : float_text t v -> breaks r -> no_special uni_word (t ++ r) -> float_constant (t ++ r) = Some (v, r).
Proof.
  intros H R Q. unfold Parser.float_constant. cbn [alt]. rewrite special_none by auto.
  destruct H as [sign f t v S P V|sign x t v S X P V|x t v X P V].
  - destruct (point_no_x t r P) as [U N]. rewrite <- app_assoc. rewrite (hex_float_none sign f) by auto.
    rewrite dec_float_body. unfold map_res. rewrite app_assoc.
    destruct (dec_body_ok t r P R) as (a & E).
    rewrite (recognize_ok _ (sign ++ t) a); [now rewrite V|].
    rewrite <- app_assoc. unfold preceded. now rewrite (opt_sign_ok sign f).
  - destruct (hex_body_ok t r P R) as (a & E). rewrite <- !app_assoc. rewrite hex_float_body.
    unfold pmap, pair_. unfold terminated at 1.
    assert (S' : sign_text sign (fun x => x)) by (destruct S as [->| ->]; [left|right; left]; auto).
    rewrite (opt_sign_ok sign _ _ S') by (cbn; split; discriminate).
    unfold terminated, zero. change (lit "0" ++ [x] ++ t ++ r) with ("0"%byte :: x :: t ++ r).
    rewrite char_ok, one_of_ok by auto. unfold map_res. rewrite (recognize_ok _ t a) by auto. rewrite V.
    destruct S as [->| ->]; reflexivity.
  - destruct (hex_body_ok t r P R) as (a & E). rewrite <- !app_assoc. rewrite hex_float_body.
    unfold pmap, pair_, terminated at 1.
    change (lit "-0" ++ [x] ++ t ++ r) with (lit "-" ++ "0"%byte :: x :: t ++ r).
    rewrite (opt_sign_ok (lit "-") Z.opp); [|right; right; auto|cbn; split; discriminate].
    unfold terminated, zero. rewrite char_ok, one_of_ok by auto. unfold map_res.
    rewrite (recognize_ok _ t a) by auto. rewrite V. cbn [sign_of lit]. change (is_minus (Some "-"%byte)) with true.
    cbn. rewrite flip_negate; auto. eapply hexf_range; eauto.
Qed.
(** An integer is no float. *)
Lemma dec_float_none sign f (t : text) : sign_text sign f -> unsigned t -> dec_body t = None -> dec_float_constant (sign ++ t) = None.
Proof.
  intros S U D. rewrite dec_float_body. unfold map_res. rewrite recognize_none; auto.
  unfold preceded. now rewrite (opt_sign_ok sign f).
Qed.
Lemma integer_no_float t v r : integer_text t v -> breaks r -> no_special uni_word (t ++ r) -> float_constant (t ++ r) = None.
Proof.
  intros H R Q. unfold Parser.float_constant. cbn [alt]. rewrite special_none by auto.
  destruct H as [sign f ds S F N I|sign f x ds S X F N I]; rewrite <- !app_assoc.
  - apply digits_forallb in F.
    assert (U : unsigned (ds ++ r)) by (apply (unsigned_digits is_digit); auto; apply digit_unsigned).
    rewrite (hex_float_none sign f); auto.
    + rewrite (dec_float_none sign f); auto. apply dec_body_none; auto.
      apply breaks_end; auto. apply breaks_digit.
    + apply digits_no_0x; auto. now apply breaks_no_x.
  - apply hex_digits_forallb in F. change (lit "0" ++ [x] ++ ds ++ r) with ("0"%byte :: x :: ds ++ r).
    assert (U : unsigned ("0"%byte :: x :: ds ++ r)) by (cbn; split; discriminate).
    rewrite (dec_float_none sign f); auto.
    + rewrite hex_float_body. unfold pmap, pair_, terminated. rewrite (opt_sign_ok sign f) by auto. unfold zero.
      rewrite char_ok, one_of_ok by auto. unfold map_res. rewrite recognize_none; auto.
      apply hex_body_none; auto. apply breaks_end; auto. apply breaks_hex.
    + apply (dec_body_none (lit "0") (x :: ds ++ r)); auto; try discriminate. rewrite In_existsb in *.
      destruct x; try discriminate; repeat split; try reflexivity; discriminate.
Qed.

Lemma no_number_plain c r : no_number (c :: r) -> unsigned (c :: r) /\ is_digit c = false /\ c <> "."%byte /\ c <> "0"%byte.
Proof.
  cbn [no_number unsigned]. rewrite In_existsb. intros H.
  destruct c; try (exfalso; apply H; reflexivity); repeat split; try reflexivity; discriminate.
Qed.
Lemma no_number_float s : no_special uni_word s -> no_number s -> float_constant s = None.
Proof.
  intros Q N. unfold Parser.float_constant. cbn [alt]. rewrite special_none by auto.
  destruct s as [|c s]; [reflexivity|]. apply no_number_plain in N as (U & D & P & Z).
  change (c :: s) with ([] ++ c :: s).
  rewrite (hex_float_none [] (fun x => x) (c :: s)); auto; [|left; auto|intros r [= -> _]; congruence].
  rewrite (dec_float_none [] (fun x => x) (c :: s)); auto; [left; auto|]. now apply dec_body_none_byte.
Qed.
Lemma no_number_integer s : no_number s -> integer_constant s = None.
Proof.
  intros N. unfold integer_constant. cbn [alt]. destruct s as [|c s]; [reflexivity|].
  apply no_number_plain in N as (U & D & P & Z).
  change (c :: s) with ([] ++ c :: s).
  rewrite (hex_integer_none [] (fun x => x) (c :: s)); auto; [|left; auto|intros r [= -> _]; congruence].
  unfold dec_integer_constant, map_res. rewrite recognize_none; auto. unfold preceded.
  rewrite (opt_sign_ok [] (fun x => x) (c :: s)); auto; [|left; auto]. now apply span1_none.
Qed.
Lemma scalar_ok t v r : scalar_text t v -> breaks r -> no_special uni_word (t ++ r) -> scalar (t ++ r) = Some (v, r).
Proof.
  intros H R Q. unfold Parser.scalar. cbn [alt]. unfold pmap.
  destruct H as [t v H|t v H| |].
  - rewrite (integer_no_float t v r) by auto. now rewrite (integer_ok t v r).
  - now rewrite (float_ok t v r).
  - rewrite no_number_float; auto; [|now apply not_in'].
    rewrite no_number_integer by (now apply not_in').
    unfold boolean_constant. cbn [alt]. unfold true_, value_of, word_constant, re_match.
    rewrite word_here by auto. now rewrite tag_app.
  - rewrite no_number_float; auto; [|now apply not_in'].
    rewrite no_number_integer by (now apply not_in').
    unfold boolean_constant. cbn [alt]. unfold true_, false_, value_of, word_constant, re_match.
    rewrite (word_here uni_word (lit "false") r) by auto. rewrite tag_app.
    destruct (has_word uni_word (lit "true") (lit "false" ++ r)); reflexivity.
Qed.
Lemma bool_none s : tag (lit "true") s = None -> tag (lit "false") s = None -> boolean_constant uni_word s = None.
Proof.
  intros T F. unfold boolean_constant. cbn [alt]. unfold true_, false_, value_of, word_constant. rewrite T, F.
  destruct (re_match _ s), (re_match _ s); reflexivity.
Qed.
Lemma scalar_none s : no_special uni_word s -> no_number s -> boolean_constant uni_word s = None -> scalar s = None.
Proof.
  intros Q N T. unfold Parser.scalar. cbn [alt]. unfold pmap. rewrite no_number_float by auto.
  rewrite no_number_integer by auto. now rewrite T.
Qed.
Lemma string_first t v r : string_text t v -> exists x, t ++ r = """"%byte :: x.
Proof. intros [_ ->]. rewrite <- app_assoc. cbn. eauto. Qed.
Lemma single_ok t v r : single_text t v -> breaks r -> no_special uni_word (t ++ r) -> p_single (t ++ r) = Some (v, r).
Proof.
  intros H R Q. unfold Parser.p_single. cbn [alt]. unfold pmap. destruct H as [t v H|t v H].
  - now rewrite (scalar_ok t v r).
  - destruct (string_first t v r H) as (x & E). rewrite scalar_none; auto.
    + now rewrite (string_ok t v r).
    + rewrite E. now apply not_in'.
    + rewrite E. now apply bool_none.
Qed.
Lemma single_none c s : no_special uni_word (c :: s) -> ~ In c (lit "+-.0123456789""tf") -> p_single (c :: s) = None.
Proof.
  intros Q N. unfold Parser.p_single. cbn [alt]. unfold pmap.
  rewrite In_existsb in N. cbn [lit existsb list_byte_of_string map] in N.
  rewrite scalar_none; auto.
  - unfold string_constant, pmap, delimited, preceded, double_quote. rewrite char_none; auto.
    intros <-. apply N. reflexivity.
  - cbn [no_number]. rewrite In_existsb. intros H. apply N. destruct c; try discriminate; reflexivity.
  - apply bool_none.
    + change (lit "true") with ("t"%byte :: lit "rue"). cbn [tag]. rewrite eqb_neq; auto. intros <-. apply N. reflexivity.
    + change (lit "false") with ("f"%byte :: lit "alse"). cbn [tag]. rewrite eqb_neq; auto. intros <-. apply N. reflexivity.
Qed.
Lemma default_ok t v r : default_text r t v -> breaks r -> p_default_value (t ++ r) = Some (v, r).
Proof.
  intros H R. unfold Parser.p_default_value. cbn [alt]. unfold pmap. destruct H as [r t v H Q|r x H Q P].
  - now rewrite (scalar_ok t v r).
  - rewrite scalar_none; auto.
    + now rewrite name_ok'.
    + destruct (name_first _ _ x H) as (b & x' & -> & B). apply name_byte_plain in B as [_ B].
      cbn [app no_number]. intros I. apply B. rewrite In_existsb in *. destruct b; try discriminate; reflexivity.
    + now apply boolean_none.
Qed.
Lemma single_starts t v r : single_text t v -> starts (t ++ r).
Proof.
  intros [t' v' [t'' v'' [sign f ds S F N I|sign f x ds S X F N I]|t'' v'' [sign f u w S P V|sign x u w S X P V|x u w X P V]| |]|t' v' H].
  all: try (destruct (string_first _ _ r H) as (x & ->); apply starts_byte; [reflexivity|discriminate]).
  all: try (apply starts_byte; [reflexivity|discriminate]).
  - destruct S as [[-> _]|[[-> _]|[-> _]]]; try (apply starts_byte; [reflexivity|discriminate]).
    apply digits_forallb in F. cbn [app]. destruct (forallb_first is_digit ds r F N) as (c & y & -> & C).
    apply starts_byte; [|intros ->; discriminate]. destruct c; try discriminate; reflexivity.
  - destruct S as [[-> _]|[[-> _]|[-> _]]]; apply starts_byte; (reflexivity || discriminate).
  - destruct S as [[-> _]|[[-> _]|[-> _]]]; try (apply starts_byte; [reflexivity|discriminate]).
    cbn [app]. destruct P as [(a & b & e & -> & A & N & _)|[(b & e & -> & _)|(a & e & -> & A & N & _)]]; rewrite <- ?app_assoc;
    try (apply starts_byte; [reflexivity|discriminate]); apply digits_forallb in A.
    + destruct (forallb_first is_digit a (lit "." ++ b ++ e ++ r) A N) as (c & y & -> & C).
      apply starts_byte; [|intros ->; discriminate]. destruct c; try discriminate; reflexivity.
    + destruct (forallb_first is_digit a (e ++ r) A N) as (c & y & -> & C).
      apply starts_byte; [|intros ->; discriminate]. destruct c; try discriminate; reflexivity.
  - destruct S as [->| ->]; apply starts_byte; (reflexivity || discriminate).
Qed.
End Scalars.

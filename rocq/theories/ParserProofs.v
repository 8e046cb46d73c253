(** Every parser consumes a prefix of its input, and the fuel of the loops and
    of the recursive rules never runs out (C47). *)
From Coq Require Import Strings.String ZArith List Bool Lia Strings.Byte ZifyBool ZifyNat ZifyN.
From Verif Require Import Base Schema Parser SpecParser.
Import ListNotations.
Local Open Scope Z_scope.

Lemma bytes_eqb_true : forall a b, bytes_eqb a b = true -> a = b.
Proof.
  induction a as [|x a IH]; intros [|y b]; cbn; try discriminate; auto.
  intros H. apply andb_true_iff in H as [H1 H2]. rewrite (IH b H2).
  apply Byte.byte_dec_bl in H1. congruence.
Qed.
Lemma bytes_eqb_false_length a b : List.length a <> List.length b -> bytes_eqb a b = false.
Proof.
  intros H. destruct (bytes_eqb a b) eqn:E; auto. apply bytes_eqb_true in E. congruence.
Qed.
Lemma bytes_eqb_same : forall a, bytes_eqb a a = true.
Proof. induction a as [|x a IH]; cbn; auto. rewrite IH, andb_true_r. apply Byte.byte_dec_lb. reflexivity. Qed.

Lemma advances_splits {A} (p : parser A) : advances p -> splits p.
Proof. intros H s a r E. destruct (H s a r E) as (c & _ & ->). eauto. Qed.
Lemma splits_length {A} (p : parser A) s a r :
  splits p -> p s = Some (a, r) -> (List.length r <= List.length s)%nat.
Proof. intros H E. destruct (H s a r E) as (c & ->). rewrite app_length. lia. Qed.
Lemma advances_length {A} (p : parser A) s a r :
  advances p -> p s = Some (a, r) -> (List.length r < List.length s)%nat.
Proof.
  intros H E. destruct (H s a r E) as (c & N & ->). rewrite app_length.
  destruct c; [congruence|cbn; lia].
Qed.

Create HintDb parse.

Lemma tag_spec : forall w s x r, tag w s = Some (x, r) -> s = w ++ r /\ x = w.
Proof.
  induction w as [|c w IH]; intros s x r; cbn.
  - injection 1 as <- <-. auto.
  - destruct s as [|d s]; [discriminate|]. destruct (Byte.eqb c d) eqn:E; [|discriminate].
    destruct (tag w s) as [[y q]|] eqn:T; [|discriminate]. injection 1 as <- <-.
    apply IH in T as [-> ->]. apply Byte.byte_dec_bl in E. subst. auto.
Qed.
Lemma tag_app : forall w r, tag w (w ++ r) = Some (w, r).
Proof.
  induction w as [|c w IH]; intros r; cbn; auto.
  rewrite (Byte.byte_dec_lb (eq_refl c)), IH. reflexivity.
Qed.
Lemma splits_tag w : splits (tag w).
Proof. intros s a r E. apply tag_spec in E as [-> _]. eauto. Qed.
Lemma advances_tag c w : advances (tag (c :: w)).
Proof. intros s a r E. apply tag_spec in E as [-> _]. exists (c :: w). split; [discriminate|auto]. Qed.

Lemma advances_char c : advances (char c).
Proof.
  intros [|d s] a r; cbn; [discriminate|]. destruct (Byte.eqb c d); [|discriminate].
  injection 1 as <- <-. exists [d]. split; [discriminate|auto].
Qed.
Lemma advances_one_of cs : advances (one_of cs).
Proof.
  intros [|d s] a r; cbn; [discriminate|]. destruct (existsb _ cs); [|discriminate].
  injection 1 as <- <-. exists [d]. split; [discriminate|auto].
Qed.

Lemma span_spec p : forall s a r, span p s = (a, r) -> s = a ++ r /\ forallb p a = true.
Proof.
  induction s as [|b s IH]; intros a r; cbn.
  - injection 1 as <- <-. auto.
  - destruct (p b) eqn:P.
    + destruct (span p s) as [x q]. injection 1 as <- <-.
      destruct (IH x q eq_refl) as [-> F]. cbn. rewrite P. auto.
    + injection 1 as <- <-. auto.
Qed.
Lemma splits_span0 p : splits (span0 p).
Proof. intros s a r. unfold span0. injection 1 as E. apply span_spec in E as [-> _]. eauto. Qed.
Lemma advances_span1 p : advances (span1 p).
Proof.
  intros s a r. unfold span1. destruct (span p s) as [[|b x] q] eqn:E; [discriminate|].
  injection 1 as <- <-. apply span_spec in E as [-> _]. exists (b :: x). split; [discriminate|auto].
Qed.
Lemma advances_line_ending : advances line_ending.
Proof.
  intros [|c s] a r; cbn; [discriminate|]. destruct (Byte.eqb c "010").
  - injection 1 as <- <-. exists [c]. split; [discriminate|auto].
  - destruct s as [|d s]; [discriminate|]. destruct (_ && _); [|discriminate].
    injection 1 as <- <-. exists [c; d]. split; [discriminate|auto].
Qed.
Lemma splits_not_line_ending : splits not_line_ending.
Proof.
  intros s a r. unfold not_line_ending. destruct (span _ s) as [x q] eqn:E.
  apply span_spec in E as [-> _]. destruct q as [|c q].
  - injection 1 as <- <-. eauto.
  - destruct (Byte.eqb c "013").
    + destruct (line_ending (c :: q)); [|discriminate]. injection 1 as <- <-. eauto.
    + injection 1 as <- <-. eauto.
Qed.

Lemma next_char_spec s c r : next_char s = Some (c, r) -> s = c ++ r /\ c <> [].
Proof.
  destruct s as [|b s]; cbn [next_char]; [discriminate|]. destruct (is_ascii b).
  - injection 1 as <- <-. split; [reflexivity|discriminate].
  - destruct (span is_continuation s) as [x y] eqn:E. injection 1 as <- <-.
    apply span_spec in E as [-> _]. split; [reflexivity|discriminate].
Qed.
Lemma splits_take_chars_n p : forall n s a r, take_chars_n n p s = (a, r) -> s = a ++ r.
Proof.
  induction n as [|n IH]; intros s a r; cbn.
  - injection 1 as <- <-. auto.
  - destruct (next_char s) as [[c q]|] eqn:E; [|injection 1 as <- <-; auto].
    destruct (p c); [|injection 1 as <- <-; auto].
    destruct (take_chars_n n p q) as [x y] eqn:T. injection 1 as <- <-.
    apply IH in T. apply next_char_spec in E as [-> _]. subst. now rewrite app_assoc.
Qed.
Lemma splits_take_chars p : splits (take_chars p).
Proof. intros s a r. unfold take_chars. injection 1 as E. apply splits_take_chars_n in E. subst. eauto. Qed.
Lemma advances_one_char p : advances (one_char p).
Proof.
  intros s a r. unfold one_char. destruct (next_char s) as [[c q]|] eqn:E; [|discriminate].
  destruct (p c); [|discriminate]. injection 1 as <- <-. apply next_char_spec in E as [-> N]. eauto.
Qed.
Lemma splits_take : forall n, splits (take n).
Proof.
  induction n as [|n IH]; intros s a r; cbn.
  - injection 1 as <- <-. exists []. auto.
  - destruct (next_char s) as [[c q]|] eqn:E; [|discriminate].
    destruct (take n q) as [[x y]|] eqn:T; [|discriminate]. injection 1 as <- <-.
    apply IH in T as (d & ->). apply next_char_spec in E as [-> _]. exists (c ++ d). now rewrite app_assoc.
Qed.
Lemma splits_escaped_loop : forall s p a r,
  escaped_loop p s = Some (a, r) -> exists c, s = c ++ r /\ a = rev p ++ c.
Proof.
  intros s. remember (List.length s) as n eqn:L. revert s L.
  induction n as [n IH] using lt_wf_ind. intros [|c s] L p a r; cbn [escaped_loop].
  - injection 1 as <- <-. exists []. split; auto. now rewrite app_nil_r.
  - destruct (Byte.eqb c "\").
    + destruct s as [|d s]; [discriminate|]. destruct (_ || _); [|discriminate].
      intros E. apply (IH (List.length s)) in E as (x & -> & ->); [|cbn in L; lia|auto].
      exists (c :: d :: x). split; auto. cbn. rewrite <- !app_assoc. reflexivity.
    + destruct (Byte.eqb c """").
      * destruct p; [discriminate|]. injection 1 as <- <-. exists []. split; auto. now rewrite app_nil_r.
      * intros E. apply (IH (List.length s)) in E as (x & -> & ->); [|cbn in L; lia|auto].
        exists (c :: x). split; auto. cbn. rewrite <- !app_assoc. reflexivity.
Qed.
Lemma splits_escaped : splits escaped.
Proof. intros s a r E. apply splits_escaped_loop in E as (c & -> & _). eauto. Qed.

Lemma splits_app {A} (p : parser A) s c a r : splits p -> p s = Some (a, r) -> exists d, c ++ s = d ++ r.
Proof. intros H E. destruct (H s a r E) as (x & ->). exists (c ++ x). now rewrite app_assoc. Qed.

Section Combs.
Context {A B C : Type}.
Lemma splits_pmap (p : parser A) (f : A -> B) : splits p -> splits (pmap p f).
Proof.
  intros H s a r. unfold pmap. destruct (p s) as [[x q]|] eqn:E; [|discriminate].
  injection 1 as <- <-. eauto.
Qed.
Lemma advances_pmap (p : parser A) (f : A -> B) : advances p -> advances (pmap p f).
Proof.
  intros H s a r. unfold pmap. destruct (p s) as [[x q]|] eqn:E; [|discriminate].
  injection 1 as <- <-. eauto.
Qed.
Lemma splits_map_res (p : parser A) (f : A -> option B) : splits p -> splits (map_res p f).
Proof.
  intros H s a r. unfold map_res. destruct (p s) as [[x q]|] eqn:E; [|discriminate].
  destruct (f x); [|discriminate]. injection 1 as <- <-. eauto.
Qed.
Lemma advances_map_res (p : parser A) (f : A -> option B) : advances p -> advances (map_res p f).
Proof.
  intros H s a r. unfold map_res. destruct (p s) as [[x q]|] eqn:E; [|discriminate].
  destruct (f x); [|discriminate]. injection 1 as <- <-. eauto.
Qed.
Lemma splits_value_of (b : B) (p : parser A) : splits p -> splits (value_of b p).
Proof.
  intros H s a r. unfold value_of. destruct (p s) as [[x q]|] eqn:E; [|discriminate].
  injection 1 as <- <-. eauto.
Qed.
Lemma advances_value_of (b : B) (p : parser A) : advances p -> advances (value_of b p).
Proof.
  intros H s a r. unfold value_of. destruct (p s) as [[x q]|] eqn:E; [|discriminate].
  injection 1 as <- <-. eauto.
Qed.
Lemma splits_opt (p : parser A) : splits p -> splits (opt p).
Proof.
  intros H s a r. unfold opt. destruct (p s) as [[x q]|] eqn:E; injection 1 as <- <-; eauto.
  exists []. auto.
Qed.
Lemma splits_pnot (p : parser A) : splits (pnot p).
Proof.
  intros s a r. unfold pnot. destruct (p s); [discriminate|]. injection 1 as <- <-. exists []. auto.
Qed.
Lemma splits_recognize (p : parser A) : splits p -> splits (recognize p).
Proof.
  intros H s a r. unfold recognize. destruct (p s) as [[x q]|] eqn:E; [|discriminate].
  injection 1 as <- <-. eauto.
Qed.
Lemma advances_recognize (p : parser A) : advances p -> advances (recognize p).
Proof.
  intros H s a r. unfold recognize. destruct (p s) as [[x q]|] eqn:E; [|discriminate].
  injection 1 as <- <-. eauto.
Qed.
Lemma recognize_spec (p : parser A) s x r :
  splits p -> recognize p s = Some (x, r) -> s = x ++ r /\ exists a, p s = Some (a, r).
Proof.
  intros H. unfold recognize. destruct (p s) as [[a q]|] eqn:E; [|discriminate].
  injection 1 as <- <-. destruct (H s a q E) as (c & ->). split; eauto.
  rewrite app_length, Nat.add_sub, firstn_app, Nat.sub_diag, firstn_all. cbn. now rewrite app_nil_r.
Qed.
Lemma splits_pair (p : parser A) (q : parser B) : splits p -> splits q -> splits (pair_ p q).
Proof.
  intros H K s a r. unfold pair_. destruct (p s) as [[x u]|] eqn:E; [|discriminate].
  destruct (q u) as [[y v]|] eqn:F; [|discriminate]. injection 1 as <- <-.
  destruct (H _ _ _ E) as (c & ->). eapply splits_app; eauto.
Qed.
Lemma advances_pair_l (p : parser A) (q : parser B) : advances p -> splits q -> advances (pair_ p q).
Proof.
  intros H K s a r. unfold pair_. destruct (p s) as [[x u]|] eqn:E; [|discriminate].
  destruct (q u) as [[y v]|] eqn:F; [|discriminate]. injection 1 as <- <-.
  destruct (H _ _ _ E) as (c & N & ->). destruct (K _ _ _ F) as (d & ->).
  exists (c ++ d). split; [destruct c; [congruence|discriminate]|now rewrite app_assoc].
Qed.
Lemma advances_pair_r (p : parser A) (q : parser B) : splits p -> advances q -> advances (pair_ p q).
Proof.
  intros H K s a r. unfold pair_. destruct (p s) as [[x u]|] eqn:E; [|discriminate].
  destruct (q u) as [[y v]|] eqn:F; [|discriminate]. injection 1 as <- <-.
  destruct (H _ _ _ E) as (c & ->). destruct (K _ _ _ F) as (d & N & ->).
  exists (c ++ d). split; [destruct c, d; try congruence; discriminate|now rewrite app_assoc].
Qed.
Lemma preceded_pair (p : parser A) (q : parser B) s : preceded p q s = pmap (pair_ p q) snd s.
Proof.
  unfold preceded, pmap, pair_. destruct (p s) as [[x u]|]; auto. destruct (q u) as [[y v]|]; auto.
Qed.
Lemma terminated_pair (p : parser A) (q : parser B) s : terminated p q s = pmap (pair_ p q) fst s.
Proof.
  unfold terminated, pmap, pair_. destruct (p s) as [[x u]|]; auto. destruct (q u) as [[y v]|]; auto.
Qed.
Lemma splits_ext (p q : parser A) : (forall s, p s = q s) -> splits q -> splits p.
Proof. intros X H s a r E. rewrite X in E. eauto. Qed.
Lemma advances_ext (p q : parser A) : (forall s, p s = q s) -> advances q -> advances p.
Proof. intros X H s a r E. rewrite X in E. eauto. Qed.
End Combs.

Section Combs2.
Context {A B C : Type}.
Lemma splits_preceded (p : parser A) (q : parser B) : splits p -> splits q -> splits (preceded p q).
Proof. intros H K. apply (splits_ext _ _ (preceded_pair p q)). apply splits_pmap, splits_pair; auto. Qed.
Lemma splits_terminated (p : parser A) (q : parser B) : splits p -> splits q -> splits (terminated p q).
Proof. intros H K. apply (splits_ext _ _ (terminated_pair p q)). apply splits_pmap, splits_pair; auto. Qed.
Lemma advances_preceded_l (p : parser A) (q : parser B) : advances p -> splits q -> advances (preceded p q).
Proof. intros H K. apply (advances_ext _ _ (preceded_pair p q)). apply advances_pmap, advances_pair_l; auto. Qed.
Lemma advances_preceded_r (p : parser A) (q : parser B) : splits p -> advances q -> advances (preceded p q).
Proof. intros H K. apply (advances_ext _ _ (preceded_pair p q)). apply advances_pmap, advances_pair_r; auto. Qed.
Lemma advances_terminated_l (p : parser A) (q : parser B) : advances p -> splits q -> advances (terminated p q).
Proof. intros H K. apply (advances_ext _ _ (terminated_pair p q)). apply advances_pmap, advances_pair_l; auto. Qed.
Lemma advances_terminated_r (p : parser A) (q : parser B) : splits p -> advances q -> advances (terminated p q).
Proof. intros H K. apply (advances_ext _ _ (terminated_pair p q)). apply advances_pmap, advances_pair_r; auto. Qed.
End Combs2.

Section Combs3.
Context {A B C : Type}.
Lemma splits_delimited (p : parser A) (q : parser B) (t : parser C) :
  splits p -> splits q -> splits t -> splits (delimited p q t).
Proof. intros. apply splits_preceded; auto. apply splits_terminated; auto. Qed.
Lemma advances_delimited_l (p : parser A) (q : parser B) (t : parser C) :
  advances p -> splits q -> splits t -> advances (delimited p q t).
Proof. intros. apply advances_preceded_l; auto. apply splits_terminated; auto. Qed.
Lemma advances_delimited_m (p : parser A) (q : parser B) (t : parser C) :
  splits p -> advances q -> splits t -> advances (delimited p q t).
Proof. intros. apply advances_preceded_r; auto. apply advances_terminated_l; auto. Qed.
Lemma splits_separated_pair (p : parser A) (q : parser B) (t : parser C) :
  splits p -> splits q -> splits t -> splits (separated_pair p q t).
Proof. intros. apply splits_pair; auto. apply splits_preceded; auto. Qed.
Lemma advances_separated_pair (p : parser A) (q : parser B) (t : parser C) :
  advances p -> splits q -> splits t -> advances (separated_pair p q t).
Proof. intros. apply advances_pair_l; auto. apply splits_preceded; auto. Qed.

Lemma splits_alt (ps : list (parser A)) : (forall p, In p ps -> splits p) -> splits (alt ps).
Proof.
  induction ps as [|p ps IH]; intros H s a r; cbn; [discriminate|].
  destruct (p s) as [[x q]|] eqn:E.
  - injection 1 as <- <-. eapply H; eauto. now left.
  - apply IH. intros q Q. apply H. now right.
Qed.
Lemma advances_alt (ps : list (parser A)) : (forall p, In p ps -> advances p) -> advances (alt ps).
Proof.
  induction ps as [|p ps IH]; intros H s a r; cbn; [discriminate|].
  destruct (p s) as [[x q]|] eqn:E.
  - injection 1 as <- <-. eapply H; eauto. now left.
  - apply IH. intros q Q. apply H. now right.
Qed.

Lemma splits_many0_n (p : parser A) : splits p -> forall n, splits (many0_n n p).
Proof.
  intros H. induction n as [|n IH]; intros s a r; cbn; [discriminate|].
  destruct (p s) as [[x q]|] eqn:E.
  - destruct (bytes_eqb q s); [discriminate|]. destruct (many0_n n p q) as [[l y]|] eqn:M; [|discriminate].
    injection 1 as <- <-. destruct (H _ _ _ E) as (c & ->).
    eapply (splits_app (many0_n n p)); eauto.
  - injection 1 as <- <-. exists []. auto.
Qed.
Lemma splits_many0 (p : parser A) : splits p -> splits (many0 p).
Proof. intros H s a r. apply splits_many0_n; auto. Qed.
Lemma splits_many1 (p : parser A) : splits p -> splits (many1 p).
Proof.
  intros H s a r. unfold many1. destruct (p s) as [[x q]|] eqn:E; [|discriminate].
  destruct (many0 p q) as [[l y]|] eqn:M; [|discriminate]. injection 1 as <- <-.
  destruct (H _ _ _ E) as (c & ->). eapply (splits_app (many0 p)); eauto. now apply splits_many0.
Qed.
Lemma advances_many1 (p : parser A) : advances p -> advances (many1 p).
Proof.
  intros H s a r. unfold many1. destruct (p s) as [[x q]|] eqn:E; [|discriminate].
  destruct (many0 p q) as [[l y]|] eqn:M; [|discriminate]. injection 1 as <- <-.
  destruct (H _ _ _ E) as (c & N & ->).
  apply (splits_many0 p (advances_splits p H)) in M as (d & ->).
  exists (c ++ d). split; [destruct c; [congruence|discriminate]|now rewrite app_assoc].
Qed.
Lemma splits_sep_n (sep : parser B) (p : parser A) :
  splits sep -> splits p -> forall n, splits (sep_n n sep p).
Proof.
  intros K H. induction n as [|n IH]; intros s a r; cbn; [discriminate|].
  destruct (sep s) as [[x q]|] eqn:E; [|injection 1 as <- <-; exists []; auto].
  destruct (bytes_eqb q s); [discriminate|].
  destruct (p q) as [[y q2]|] eqn:F; [|injection 1 as <- <-; exists []; auto].
  destruct (bytes_eqb q2 s); [discriminate|].
  destruct (sep_n n sep p q2) as [[l z]|] eqn:M; [|discriminate].
  injection 1 as <- <-. destruct (K _ _ _ E) as (c & ->). destruct (H _ _ _ F) as (d & ->).
  rewrite app_assoc. eapply (splits_app (sep_n n sep p)); eauto.
Qed.
Lemma splits_separated_list (sep : parser B) (p : parser A) :
  splits sep -> splits p -> splits (separated_list sep p).
Proof.
  intros K H s a r. unfold separated_list.
  destruct (p s) as [[x q]|] eqn:E; [|injection 1 as <- <-; exists []; auto].
  destruct (bytes_eqb q s); [discriminate|].
  destruct (sep_n _ sep p q) as [[l z]|] eqn:M; [|discriminate].
  injection 1 as <- <-. destruct (H _ _ _ E) as (c & ->).
  eapply (splits_app (sep_n _ sep p)); eauto. now apply splits_sep_n.
Qed.
Lemma advances_separated_nonempty_list (sep : parser B) (p : parser A) :
  splits sep -> advances p -> advances (separated_nonempty_list sep p).
Proof.
  intros K H s a r. unfold separated_nonempty_list.
  destruct (p s) as [[x q]|] eqn:E; [|discriminate].
  destruct (bytes_eqb q s); [discriminate|].
  destruct (sep_n _ sep p q) as [[l z]|] eqn:M; [|discriminate].
  injection 1 as <- <-. destruct (H _ _ _ E) as (c & N & ->).
  apply (splits_sep_n sep p K (advances_splits p H)) in M as (d & ->).
  exists (c ++ d). split; [destruct c; [congruence|discriminate]|now rewrite app_assoc].
Qed.

(** The loop of [many0] computes what unbounded repetition gives. *)
Lemma many0_n_repeats (p : parser A) : advances p ->
  forall n s, (List.length s < n)%nat ->
  exists l r, many0_n n p s = Some (l, r) /\ repeats p s l r.
Proof.
  intros H. induction n as [|n IH]; intros s L; [lia|]. cbn.
  destruct (p s) as [[a q]|] eqn:E.
  - pose proof (advances_length _ _ _ _ H E) as Q.
    rewrite (bytes_eqb_false_length q s) by lia.
    destruct (IH q ltac:(lia)) as (l & r & M & R). rewrite M.
    exists (a :: l), r. split; auto. econstructor; eauto.
  - exists [], s. split; auto. now constructor.
Qed.
Lemma many0_repeats (p : parser A) s : advances p ->
  exists l r, many0 p s = Some (l, r) /\ repeats p s l r.
Proof. intros H. apply many0_n_repeats; auto. Qed.
Lemma repeats_fun (p : parser A) s l r : repeats p s l r -> forall l' r', repeats p s l' r' -> l = l' /\ r = r'.
Proof.
  induction 1 as [s N|s a r l r' E R IH]; intros l2 r2 R2; inversion R2; subst; try congruence; auto.
  assert (a0 = a /\ r0 = r) as [-> ->] by (split; congruence).
  destruct (IH _ _ H0) as [-> ->]. auto.
Qed.
Lemma many0_total (p : parser A) : advances p ->
  forall s l r, repeats p s l r -> many0 p s = Some (l, r).
Proof.
  intros H s l r R. destruct (many0_repeats p s H) as (l' & r' & M & R').
  destruct (repeats_fun p s l r R _ _ R') as [-> ->]. auto.
Qed.

Lemma sep_n_listed (sep : parser B) (p : parser A) : advances sep -> advances p ->
  forall n s, (List.length s < n)%nat ->
  exists l r, sep_n n sep p s = Some (l, r) /\ listed sep p s l r.
Proof.
  intros K H. induction n as [|n IH]; intros s L; [lia|]. cbn.
  destruct (sep s) as [[x q]|] eqn:E.
  - pose proof (advances_length _ _ _ _ K E) as Q.
    rewrite (bytes_eqb_false_length q s) by lia.
    destruct (p q) as [[a q2]|] eqn:F.
    + pose proof (advances_length _ _ _ _ H F) as Q2.
      rewrite (bytes_eqb_false_length q2 s) by lia.
      destruct (IH q2 ltac:(lia)) as (l & r & M & R). rewrite M.
      exists (a :: l), r. split; auto. eapply listed_step; eauto.
    + exists [], s. split; auto. eapply listed_no_item; eauto.
  - exists [], s. split; auto. now apply listed_no_sep.
Qed.
Lemma listed_fun (sep : parser B) (p : parser A) s l r :
  listed sep p s l r -> forall l' r', listed sep p s l' r' -> l = l' /\ r = r'.
Proof.
  induction 1 as [s N|s x r N M|s x r a r2 l r3 E F R IH]; intros l' r' R2; inversion R2; subst; try congruence; auto.
  rewrite E in H. injection H as <- <-. rewrite F in H0. injection H0 as <- <-.
  edestruct IH as [-> ->]; eauto.
Qed.
Lemma nonempty_list_total (sep : parser B) (p : parser A) s a q l r : advances sep -> advances p ->
  p s = Some (a, q) -> listed sep p q l r -> separated_nonempty_list sep p s = Some (a :: l, r).
Proof.
  intros K H E R. unfold separated_nonempty_list. rewrite E.
  pose proof (advances_length _ _ _ _ H E) as Q. rewrite (bytes_eqb_false_length q s) by lia.
  destruct (sep_n_listed sep p K H (S (List.length q)) q ltac:(lia)) as (l' & r' & M & R').
  destruct (listed_fun sep p _ _ _ R _ _ R') as [-> ->]. now rewrite M.
Qed.
Lemma list_total (sep : parser B) (p : parser A) s a q l r : advances sep -> advances p ->
  p s = Some (a, q) -> listed sep p q l r -> separated_list sep p s = Some (a :: l, r).
Proof.
  intros K H E R. unfold separated_list. rewrite E.
  pose proof (advances_length _ _ _ _ H E) as Q. rewrite (bytes_eqb_false_length q s) by lia.
  destruct (sep_n_listed sep p K H (S (List.length q)) q ltac:(lia)) as (l' & r' & M & R').
  destruct (listed_fun sep p _ _ _ R _ _ R') as [-> ->]. now rewrite M.
Qed.
Lemma list_inv (sep : parser B) (p : parser A) s l r : advances sep -> advances p ->
  separated_list sep p s = Some (l, r) ->
  (l = [] /\ r = s /\ p s = None)
  \/ exists a q l', l = a :: l' /\ p s = Some (a, q) /\ listed sep p q l' r.
Proof.
  intros K H. unfold separated_list. destruct (p s) as [[a q]|] eqn:E.
  - destruct (bytes_eqb q s); [discriminate|].
    destruct (sep_n_listed sep p K H (S (List.length q)) q ltac:(lia)) as (l' & r' & M & R').
    rewrite M. injection 1 as <- <-. right. exists a, q, l'. auto.
  - injection 1 as <- <-. auto.
Qed.
Lemma nonempty_list_inv (sep : parser B) (p : parser A) s l r : advances sep -> advances p ->
  separated_nonempty_list sep p s = Some (l, r) ->
  exists a q l', l = a :: l' /\ p s = Some (a, q) /\ listed sep p q l' r.
Proof.
  intros K H. unfold separated_nonempty_list. destruct (p s) as [[a q]|] eqn:E; [|discriminate].
  destruct (bytes_eqb q s); [discriminate|].
  destruct (sep_n_listed sep p K H (S (List.length q)) q ltac:(lia)) as (l' & r' & M & R').
  rewrite M. injection 1 as <- <-. exists a, q, l'. auto.
Qed.
Lemma many0_inv (p : parser A) s l r : advances p -> many0 p s = Some (l, r) -> repeats p s l r.
Proof.
  intros H E. destruct (many0_repeats p s H) as (l' & r' & M & R).
  rewrite E in M. injection M as <- <-. auto.
Qed.
End Combs3.

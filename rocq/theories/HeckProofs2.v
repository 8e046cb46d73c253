(** heck's snake case is given by the words of a name (for C53 and C54). *)
From Coq Require Import Strings.String NArith ZArith List Bool Strings.Byte Lia.
From Verif Require Import Base Schema Ident Parser Heck SpecIdent SpecWords IdentProofs HeckProofs.
Import ListNotations.
Local Open Scope list_scope.

Lemma small_iff c : small_letter c <-> is_lower c = true.
Proof. apply byte_in. vm_compute. reflexivity. Qed.
Lemma big_iff c : big_letter c <-> is_upper c = true.
Proof. apply byte_in. vm_compute. reflexivity. Qed.
Lemma under_iff c : c <> "_"%byte <-> is_underscore c = false.
Proof.
  split.
  - intros N. destruct (is_underscore c) eqn:E; [|reflexivity]. apply usc_iff in E. contradiction.
  - intros E ->. discriminate E.
Qed.
Lemma lower_not_upper c : is_lower c = true -> is_upper c = false.
Proof.
  intros N. pose proof (all_bytes (fun c => negb (is_lower c) || negb (is_upper c))) as H.
  cbn beta in H. specialize (H eq_refl c). rewrite N in H. cbn in H. apply negb_true_iff in H. exact H.
Qed.
Lemma upper_not_lower c : is_upper c = true -> is_lower c = false.
Proof. intros H. destruct (is_lower c) eqn:E; [apply lower_not_upper in E; congruence|reflexivity]. Qed.
Lemma letter_not_under c : is_underscore c = true -> is_lower c = false /\ is_upper c = false.
Proof. intros H. apply usc_iff in H as ->. split; reflexivity. Qed.

(** The kind of the last letter of the segment that [p] ends with. *)
Definition last_step (m : word_mode) (c : byte) : word_mode := if is_underscore c then AtBoundary else mode_after m c.
Definition last_letter (p : text) : word_mode := fold_left last_step p AtBoundary.
Lemma last_letter_snoc p c : last_letter (p ++ [c]) = last_step (last_letter p) c.
Proof. unfold last_letter. rewrite fold_left_app. reflexivity. Qed.

Definition digit (d : byte) : Prop := In d (lit "0123456789").
Lemma digit_step m d : digit d -> last_step m d = m.
Proof.
  intros D. apply digit_char_iff in D. unfold last_step, mode_after.
  pose proof (all_bytes (fun c => negb (is_digit c) || (negb (is_underscore c) && negb (is_lower c) && negb (is_upper c)))) as H.
  cbn beta in H. specialize (H eq_refl d). rewrite D in H. cbn in H. apply andb_true_iff in H as [H U]. apply andb_true_iff in H as [H L].
  rewrite negb_true_iff in *. rewrite H, L, U. reflexivity.
Qed.
Lemma digits_step ds : forall m, Forall digit ds -> fold_left last_step ds m = m.
Proof. induction ds as [|d ds IH]; intros m F; [reflexivity|]. inversion F; subst. cbn. rewrite digit_step by assumption. apply IH; assumption. Qed.

Lemma name_kind c : namec c = true -> is_lower c = true \/ is_upper c = true \/ digit c \/ is_underscore c = true.
Proof.
  intros N. unfold namec in N. rewrite !orb_true_iff in N. destruct N as [[[N|N]|N]|N]; auto.
  right. right. left. apply digit_char_iff. exact N.
Qed.

Definition letter_at (k : byte -> bool) (p : text) : Prop :=
  exists q l ds, p = q ++ l :: ds /\ Forall digit ds /\ k l = true.
Lemma last_of (k : byte -> bool) m p : (k = is_lower /\ m = Lowercase) \/ (k = is_upper /\ m = Uppercase) ->
  letter_at k p -> last_letter p = m.
Proof.
  intros K (q & l & ds & -> & D & L). unfold last_letter. rewrite fold_left_app. cbn [fold_left].
  rewrite digits_step by exact D. unfold last_step, mode_after.
  destruct (is_underscore l) eqn:U.
  - apply letter_not_under in U as [A B]. destruct K as [[-> ->]|[-> ->]]; congruence.
  - destruct K as [[-> ->]|[-> ->]]; rewrite ?L; [reflexivity|]. rewrite (upper_not_lower l L). reflexivity.
Qed.
Lemma last_found p : Forall (fun c => namec c = true) p ->
  match last_letter p with Lowercase => letter_at is_lower p | Uppercase => letter_at is_upper p | AtBoundary => True end.
Proof.
  induction p as [|c p IH] using rev_ind; intros N; [exact I|]. apply Forall_app in N as [N C]. specialize (IH N).
  apply Forall_inv in C. rewrite last_letter_snoc. destruct (name_kind c C) as [K|[K|[K|K]]].
  - unfold last_step, mode_after. destruct (is_underscore c) eqn:U; [exact I|]. rewrite K. exists p, c, []. auto.
  - unfold last_step, mode_after. destruct (is_underscore c) eqn:U; [exact I|]. rewrite (upper_not_lower c K), K. exists p, c, []. auto.
  - rewrite digit_step by exact K.
    assert (G : forall k, letter_at k p -> letter_at k (p ++ [c])).
    { intros k (q & l & ds & -> & D & L). exists q, l, (ds ++ [c]). rewrite <- app_assoc. split; [reflexivity|]. split; [|exact L].
      apply Forall_app. split; [exact D|]. constructor; [exact K|constructor]. }
    destruct (last_letter p); auto.
  - unfold last_step. rewrite K. exact I.
Qed.

Definition next_lower (r : text) : bool := match r with d :: _ => is_lower d | [] => false end.
Definition fresh (p : text) : Prop := p = [] \/ exists q, p = q ++ lit "_".
Lemma fresh_last p : fresh p -> last_letter p = AtBoundary.
Proof. intros [->|(q & ->)]; [reflexivity|]. apply last_letter_snoc. Qed.
Lemma not_fresh p c : is_underscore c = false -> ~ fresh (p ++ [c]).
Proof.
  intros U [E|(q & E)].
  - destruct p; discriminate E.
  - apply app_inj_tail in E as [_ ->]. discriminate U.
Qed.

Lemma word_start_iff p c r : Forall (fun c => namec c = true) p ->
  (word_start p c r <-> is_underscore c = false /\
     (fresh p \/ (is_upper c = true /\ (last_letter p = Lowercase \/ (last_letter p = Uppercase /\ next_lower r = true))))).
Proof.
  intros N. unfold word_start. rewrite under_iff. split.
  - intros (U & [E|[E|(B & q & l & ds & E & D & K)]]); (split; [exact U|]).
    + left. left. exact E.
    + left. right. exact E.
    + right. apply big_iff in B. split; [exact B|]. destruct K as [K|(K & d & r' & -> & S')].
      * left. apply (last_of is_lower); [left; auto|]. exists q, l, ds. apply small_iff in K. auto.
      * right. split; [|apply small_iff in S'; exact S']. apply (last_of is_upper); [right; auto|]. exists q, l, ds. apply big_iff in K. auto.
  - intros (U & [[E|E]|(B & K)]); (split; [exact U|]); [left; exact E|right; left; exact E|].
    right. right. split; [apply big_iff; exact B|]. pose proof (last_found p N) as L. destruct K as [K|[K X]]; rewrite K in L;
      destruct L as (q & l & ds & E & D & Q); exists q, l, ds; (split; [exact E|]); (split; [exact D|]).
    + left. apply small_iff. exact Q.
    + right. split; [apply big_iff; exact Q|]. destruct r as [|d r']; [discriminate X|]. exists d, r'. split; [reflexivity|apply small_iff; exact X].
Qed.

(** The text [s] after [p] begins with underscores or a word. *)
Definition at_start (p s : text) : Prop :=
  fresh p \/ exists c r, s = c :: r /\ (is_underscore c = true \/ word_start p c r).

Lemma start_rest p s w ws : at_start p s -> in_words p s w ws -> w = [].
Proof.
  intros A H. destruct H as [p|p r ws H|p c r w ws St H|p c r w ws U Ns H]; try reflexivity. exfalso. apply Ns.
  destruct A as [A|(c' & r' & E & [K|K])].
  - split; [exact U|]. destruct A as [A|A]; auto.
  - injection E as <- <-. apply under_iff in U. congruence.
  - injection E as <- <-. exact K.
Qed.

Lemma name_snoc p c r : Forall (fun c => namec c = true) p -> Forall (fun c => namec c = true) (c :: r) ->
  Forall (fun c => namec c = true) (p ++ [c]) /\ Forall (fun c => namec c = true) r.
Proof. intros P R. inversion R; subst. split; [apply Forall_app; split; auto|assumption]. Qed.

Lemma mode_snoc p c m : is_underscore c = false -> (m = last_letter p \/ is_lower c = true \/ is_upper c = true) ->
  mode_after m c = last_letter (p ++ [c]).
Proof.
  intros U K. rewrite last_letter_snoc. unfold last_step. rewrite U. unfold mode_after.
  destruct K as [->|[K|K]]; [reflexivity| |]; rewrite K; [reflexivity|]. destruct (is_lower c); reflexivity.
Qed.

Lemma words_spelled s : forall p w ws, Forall (fun c => namec c = true) p -> Forall (fun c => namec c = true) s -> in_words p s w ws ->
  (at_start p s -> words AtBoundary [] s = ws) /\
  (forall m cur, cur <> [] -> ~ fresh p -> (exists c r, s = c :: r /\ is_underscore c = false /\
      (m = last_letter p \/ (m = AtBoundary /\ is_lower c = true)) /\ ~ (last_letter p = Lowercase /\ is_upper c = true)) ->
    words m cur s = (cur ++ w) :: ws).
Proof.
  induction s as [|c r IH]; intros p w ws Np Ns H.
  { inversion H; subst. split; [reflexivity|]. intros m cur _ _ (c & r & E & _). discriminate E. }
  destruct (name_snoc p c r Np Ns) as [Np' Nr].
  (* what the rest of the loop does once [c] has been put on the current word *)
  assert (Go : forall m cur w' ws', is_underscore c = false -> mode_after m c = last_letter (p ++ [c]) -> in_words (p ++ [c]) r w' ws' ->
    match r with [] => True | d :: _ => ~ (m = Uppercase /\ is_upper c = true /\ is_lower d = true) end ->
    words m cur (c :: r) = (cur ++ c :: w') :: ws').
  { intros m cur w' ws' U M H' Q. destruct (IH _ _ _ Np' Nr H') as [IH1 IH2]. cbn [words]. rewrite U.
    destruct r as [|d r']; [inversion H'; subst; reflexivity|].
    rewrite M. destruct (is_underscore d) eqn:Ud.
    { cbn [orb]. assert (A : at_start (p ++ [c]) (d :: r')) by (right; exists d, r'; auto).
      rewrite (IH1 A), (start_rest _ _ _ _ A H'). reflexivity. }
    cbn [orb]. destruct (match last_letter (p ++ [c]) with Lowercase => is_upper d | _ => false end) eqn:K.
    { assert (A : at_start (p ++ [c]) (d :: r')).
      { right. exists d, r'. split; [reflexivity|]. right. apply word_start_iff; [exact Np'|]. split; [exact Ud|]. right.
        destruct (last_letter (p ++ [c])); try discriminate K. auto. }
      rewrite (IH1 A), (start_rest _ _ _ _ A H'). reflexivity. }
    assert (X : match m with Uppercase => is_upper c && is_lower d | _ => false end = false).
    { destruct m; auto. destruct (is_upper c) eqn:Uc, (is_lower d) eqn:Ld; auto. exfalso. apply Q. auto. }
    rewrite X. rewrite (IH2 (last_letter (p ++ [c])) (cur ++ [c])).
    - rewrite <- app_assoc. reflexivity.
    - destruct cur; discriminate.
    - apply not_fresh. exact U.
    - exists d, r'. split; [reflexivity|]. split; [exact Ud|]. split; [left; reflexivity|]. intros [L Ud']. rewrite L in K. congruence. }
  split.
  - intros A. inversion H; subst.
    + match goal with G : in_words (p ++ _) r [] ws |- _ => rename G into H' end. destruct (IH _ _ _ Np' Nr H') as [IH1 _].
      cbn. apply IH1. left. right. exists p. reflexivity.
    + match goal with G : word_start p c r |- _ => rename G into St end. match goal with G : in_words (p ++ _) r _ _ |- _ => rename G into H' end.
      pose proof (proj1 (word_start_iff p c r Np) St) as (U & K).
      change (words AtBoundary [] (c :: r) = ([] ++ c :: w0) :: ws0).
      apply Go; [exact U| |exact H'|destruct r; [exact I|intros [E _]; discriminate E]].
      apply mode_snoc; [exact U|]. destruct K as [K|[K _]]; [left; symmetry; apply fresh_last; exact K|right; right; exact K].
    + exfalso. pose proof (start_rest _ _ _ _ A H). discriminate.
  - intros m cur Cu Fr (c' & r' & E & U & M & Nl). injection E as <- <-.
    assert (Md : mode_after m c = last_letter (p ++ [c])).
    { apply mode_snoc; [exact U|]. destruct M as [M|[_ M]]; auto. }
    inversion H; subst.
    + exfalso. discriminate U.
    + match goal with G : word_start p c r |- _ => rename G into St end. match goal with G : in_words (p ++ _) r _ _ |- _ => rename G into H' end.
      pose proof (proj1 (word_start_iff p c r Np) St) as (_ & [K|(Uc & [K|[K X]])]); [contradiction|tauto|].
      destruct M as [->|[_ M]]; [|rewrite (lower_not_upper c M) in Uc; discriminate].
      destruct (IH _ _ _ Np' Nr H') as [_ IH2]. cbn [words]. rewrite U, Md. clear IH.
      destruct r as [|d r']; [discriminate X|]. cbn in X.
      assert (Ud : is_underscore d = false).
      { destruct (is_underscore d) eqn:Y; [|reflexivity]. apply letter_not_under in Y as [Y _]. congruence. }
      rewrite Ud. rewrite (lower_not_upper d X). cbn [orb].
      assert (Z : (match last_letter (p ++ [c]) with Lowercase => false | _ => false end) = false) by (destruct (last_letter (p ++ [c])); reflexivity).
      rewrite Z, K, Uc, X. cbn [andb]. rewrite app_nil_r. f_equal.
      rewrite (IH2 AtBoundary [c]); [reflexivity|discriminate|apply not_fresh; exact U|].
      exists d, r'. split; [reflexivity|]. split; [exact Ud|]. split; [right; auto|]. intros [_ Y]. rewrite (lower_not_upper d X) in Y. discriminate.
    + match goal with G : ~ word_start p c r |- _ => rename G into St end. match goal with G : in_words (p ++ _) r _ _ |- _ => rename G into H' end.
      apply Go; [exact U|exact Md|exact H'|]. destruct r as [|d r']; [exact I|]. intros (-> & Uc & Ld). apply St. apply word_start_iff; [exact Np|].
      split; [exact U|]. right. split; [exact Uc|]. right. destruct M as [M|[M _]]; [|discriminate M]. rewrite <- M. split; [reflexivity|exact Ld].
Qed.

Lemma words_exist s : forall p, Forall (fun c => namec c = true) p -> Forall (fun c => namec c = true) s -> exists w ws, in_words p s w ws.
Proof.
  induction s as [|c r IH]; intros p Np Ns; [exists [], []; constructor|].
  destruct (name_snoc p c r Np Ns) as [Np' Nr]. destruct (IH _ Np' Nr) as (w & ws & H).
  destruct (is_underscore c) eqn:U.
  - apply usc_iff in U as ->. assert (w = []) as -> by (eapply start_rest; [left; right; exists p; reflexivity|exact H]).
    exists [], ws. apply words_gap. exact H.
  - assert (D : word_start p c r \/ ~ word_start p c r).
    { destruct (is_upper c && match last_letter p with Lowercase => true | Uppercase => next_lower r | AtBoundary => false end) eqn:K.
      - left. apply word_start_iff; [exact Np|]. split; [exact U|]. right. apply andb_true_iff in K as [A B]. split; [exact A|].
        destruct (last_letter p); [discriminate|auto|auto].
      - assert (Fd : fresh p \/ ~ fresh p).
        { clear K Np Ns Np' Nr H IH. destruct p as [|a p0 _] using rev_ind; [left; left; reflexivity|]. destruct (is_underscore a) eqn:Ua.
          - left. right. apply usc_iff in Ua as ->. exists p0. reflexivity.
          - right. apply not_fresh. exact Ua. }
        destruct Fd as [F|F]; [left; apply word_start_iff; auto|]. right. intros St.
        apply (proj1 (word_start_iff p c r Np)) in St as (_ & [St|(A & [B|[B C]])]); [contradiction| |];
          rewrite A, B in K; try rewrite C in K; discriminate K. }
    destruct D as [D|D].
    + exists [], ((c :: w) :: ws). constructor; assumption.
    + exists (c :: w), ws. constructor; [apply under_iff; exact U|assumption|assumption].
Qed.

Lemma joined_eq ws : joined ws = underscored (map (map to_lower) ws).
Proof.
  induction ws as [|w ws IH]; [reflexivity|]. assert (M : map small w = map to_lower w) by (apply map_ext; exact small_lower).
  destruct ws as [|w' ws]; [exact M|]. cbn [joined map underscored] in *. rewrite M, IH. reflexivity.
Qed.

Lemma snake_words x ws : name_text x -> has_words x ws -> words AtBoundary [] x = ws.
Proof.
  intros N H. apply name_text_iff in N. apply (words_spelled x [] [] ws); [constructor|exact N|exact H|]. left. left. reflexivity.
Qed.
Lemma name_has_words x : name_text x -> exists ws, has_words x ws.
Proof.
  intros N. apply name_text_iff in N. destruct (words_exist x [] (Forall_nil _) N) as (w & ws & H).
  exists ws. assert (w = []) as -> by (eapply start_rest; [left; left; reflexivity|exact H]). exact H.
Qed.
Lemma snake_exact x : name_text x -> exists ws, has_words x ws /\ snake_case x = joined ws /\ forall ws', has_words x ws' -> ws' = ws.
Proof.
  intros N. destruct (name_has_words x N) as (ws & H). exists ws. split; [exact H|]. pose proof (snake_words x ws N H) as W. split.
  - unfold snake_case. rewrite W. symmetry. apply joined_eq.
  - intros ws' H'. rewrite <- (snake_words x ws' N H'). exact W.
Qed.

Lemma snake_equal x y xs ys : name_text x -> name_text y -> has_words x xs -> has_words y ys ->
  (snake_case x = snake_case y <-> map (map small) xs = map (map small) ys).
Proof.
  intros Nx Ny Hx Hy. pose proof (snake_words x xs Nx Hx) as Wx. pose proof (snake_words y ys Ny Hy) as Wy.
  assert (M : forall ws : list text, map (map small) ws = map (map to_lower) ws) by (intros ws; apply map_ext; intros w; apply map_ext; exact small_lower).
  rewrite !M. unfold snake_case. rewrite Wx, Wy. split; [|intros ->; reflexivity]. intros E.
  apply name_text_iff in Nx, Ny. pose proof (snake_words_good x Nx) as Gx. pose proof (snake_words_good y Ny) as Gy.
  rewrite Wx in Gx. rewrite Wy in Gy. rewrite <- (words_underscored _ Gx), <- (words_underscored _ Gy), E. reflexivity.
Qed.

Lemma type_words : has_words (lit "ty") [lit "ty"].
Proof.
  unfold has_words. change (lit "ty") with ["t"%byte; "y"%byte]. constructor; [split; [discriminate|left; reflexivity]|].
  constructor; [discriminate| |constructor]. rewrite word_start_iff by (repeat constructor).
  intros (_ & [F|(B & _)]); [|discriminate B]. revert F. apply (not_fresh []). reflexivity.
Qed.
Lemma type_name : name_text (lit "ty").
Proof. apply name_text_check. reflexivity. Qed.
Lemma accessor_equal x y xs ys : name_text x -> name_text y -> has_words x xs -> has_words y ys ->
  (accessor_name snake_case x = accessor_name snake_case y <->
   (x <> lit "type" /\ y <> lit "type" /\ map (map small) xs = map (map small) ys) \/
   (x = lit "type" /\ (y = lit "type" \/ map (map small) ys = [lit "ty"])) \/
   (y = lit "type" /\ map (map small) xs = [lit "ty"])).
Proof.
  intros Nx Ny Hx Hy.
  assert (T : forall z zs, name_text z -> has_words z zs -> z <> lit "type" ->
    (accessor_name snake_case (lit "type") = accessor_name snake_case z <-> map (map small) zs = [lit "ty"])).
  { intros z zs Nz Hz Z. rewrite (accessor_snake z Z). change (accessor_name snake_case (lit "type")) with (snake_case (lit "ty")).
    rewrite (snake_equal _ _ _ _ type_name Nz type_words Hz). split; [intros E; symmetry; exact E|intros E; rewrite E; reflexivity]. }
  assert (D : forall z : text, {z = lit "type"} + {z <> lit "type"}) by (intros z; apply list_eq_dec, Byte.byte_eq_dec).
  assert (TW : forall z zs, has_words z zs -> name_text z -> z = lit "type" -> map (map small) zs = [lit "ty"] -> False).
  { intros z zs Hz Nz -> E. rewrite <- (snake_words _ _ Nz Hz) in E. discriminate E. }
  destruct (D x) as [->|X], (D y) as [->|Y].
  - split; [intros _; right; left; auto|reflexivity].
  - rewrite (T y ys Ny Hy Y). split; [intros E; right; left; auto|]. intros [(A & _)|[(_ & [A|A])|(A & _)]]; [congruence|contradiction|exact A|contradiction].
  - split.
    + intros E. symmetry in E. apply (T x xs Nx Hx X) in E. right. right. auto.
    + intros [(_ & A & _)|[(A & _)|(_ & A)]]; [congruence|contradiction|]. symmetry. apply (T x xs Nx Hx X). exact A.
  - rewrite (accessor_snake x X), (accessor_snake y Y), (snake_equal x y xs ys Nx Ny Hx Hy). split; [intros E; left; auto|].
    intros [(_ & _ & A)|[(A & _)|(A & _)]]; [exact A|contradiction|contradiction].
Qed.

Lemma words_case : has_words (lit "HTTPServer2Go_x") [lit "HTTP"; lit "Server2"; lit "Go"; lit "x"] /\
  snake_case (lit "HTTPServer2Go_x") = lit "http_server2_go_x" /\ name_text (lit "HTTPServer2Go_x") /\
  accessor_name snake_case (lit "HTTPServer2Go_x") = accessor_name snake_case (lit "http_server2_go_X").
Proof.
  assert (N : name_text (lit "HTTPServer2Go_x")) by (apply name_text_check; reflexivity).
  split; [|split; [reflexivity|split; [exact N|reflexivity]]].
  destruct (snake_exact _ N) as (ws & H & _ & _). pose proof (snake_words _ _ N H) as W. vm_compute in W. rewrite <- W in H. exact H.
Qed.

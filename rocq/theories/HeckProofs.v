(** What heck's snake case does to ASCII names (for C45, C46 and C53). *)
From Coq Require Import Strings.String NArith ZArith List Bool Strings.Byte Lia.
From Verif Require Import Base Schema Ident Parser Heck SpecIdent IdentProofs.
Import ListNotations.
Local Open Scope list_scope.

Definition usc : byte := "_"%byte.
Definition lowc (c : byte) : bool := is_lower c || is_digit c.
Definition namec (c : byte) : bool := is_lower c || is_upper c || is_digit c || is_underscore c.

Lemma byte_in (s : string) (f : byte -> bool) :
  forallb (fun n => match Byte.of_N (N.of_nat n) with
                    | Some c => Bool.eqb (f c) (existsb (Byte.eqb c) (lit s)) | None => true end) (seq 0 256) = true ->
  forall c, In c (lit s) <-> f c = true.
Proof.
  intros H c. rewrite forallb_forall in H.
  specialize (H (N.to_nat (Byte.to_N c))). rewrite in_seq, N2Nat.id, Byte.of_to_N in H.
  assert (B : (Byte.to_N c < 256)%N) by (destruct c; reflexivity).
  specialize (H ltac:(lia)). apply eqb_prop in H. rewrite H, existsb_exists. split.
  - intros I. exists c. split; [exact I|apply Byte.byte_dec_lb; reflexivity].
  - intros (d & I & E). apply Byte.byte_dec_bl in E. subst. exact I.
Qed.
Lemma name_char_iff c : In c (lit "abcdefghijklmnopqrstuvwxyzABCDEFGHIJKLMNOPQRSTUVWXYZ0123456789_") <-> namec c = true.
Proof. apply byte_in. vm_compute. reflexivity. Qed.
Lemma snake_char_iff c : In c (lit "abcdefghijklmnopqrstuvwxyz0123456789_") <-> lowc c || is_underscore c = true.
Proof. apply (byte_in _ (fun c => lowc c || is_underscore c)). vm_compute. reflexivity. Qed.

(** A boolean fact about every byte. *)
Lemma all_bytes (f : byte -> bool) :
  forallb (fun n => match Byte.of_N (N.of_nat n) with Some c => f c | None => true end) (seq 0 256) = true ->
  forall c, f c = true.
Proof.
  intros H c. rewrite forallb_forall in H.
  specialize (H (N.to_nat (Byte.to_N c))). rewrite in_seq, N2Nat.id, Byte.of_to_N in H.
  assert (B : (Byte.to_N c < 256)%N) by (destruct c; reflexivity).
  apply H. lia.
Qed.
Lemma lower_lowc c : namec c = true -> is_underscore c = false -> lowc (to_lower c) = true.
Proof.
  intros N U. pose proof (all_bytes (fun c => negb (namec c && negb (is_underscore c)) || lowc (to_lower c))) as H.
  cbn beta in H. specialize (H eq_refl c). rewrite N, U in H. exact H.
Qed.
Lemma lower_id c : lowc c = true -> to_lower c = c.
Proof.
  intros N. pose proof (all_bytes (fun c => negb (lowc c) || Byte.eqb (to_lower c) c)) as H.
  cbn beta in H. specialize (H eq_refl c). rewrite N in H. apply Byte.byte_dec_bl. exact H.
Qed.
Lemma lowc_not c : lowc c = true -> is_underscore c = false /\ is_upper c = false.
Proof.
  intros N. pose proof (all_bytes (fun c => negb (lowc c) || (negb (is_underscore c) && negb (is_upper c)))) as H.
  cbn beta in H. specialize (H eq_refl c). rewrite N in H. cbn in H. apply andb_true_iff in H as [A B].
  rewrite negb_true_iff in A, B. auto.
Qed.
Lemma usc_iff c : is_underscore c = true <-> c = usc.
Proof. split; intros H; [apply Byte.byte_dec_bl; exact H|subst; reflexivity]. Qed.

(** * The words *)
Definition plain (w : text) : Prop := Forall (fun c => is_underscore c = false) w.
Definition letters (s : text) : text := filter (fun c => negb (is_underscore c)) s.

Lemma plain_app a b : plain a -> plain b -> plain (a ++ b).
Proof. apply Forall_app_2 || (intros; apply Forall_app; auto). Qed.
Lemma plain_one c : is_underscore c = false -> plain [c].
Proof. intros; constructor; auto. Qed.

(** What holds of the loop's state. *)
Definition state_ok (m : word_mode) (cur : text) (s : text) : Prop :=
  plain cur /\ (m = Uppercase -> cur <> []) /\ (cur <> [] -> exists c r, s = c :: r /\ is_underscore c = false).

Lemma words_ok s : forall m cur, state_ok m cur s ->
  Forall (fun w => w <> [] /\ plain w) (words m cur s) /\
  concat (words m cur s) = cur ++ letters s.
Proof.
  induction s as [|c r IH]; intros m cur (P & U & N).
  - assert (cur = []) as -> by (destruct cur; [reflexivity|destruct N as (? & ? & E & _); discriminate]).
    cbn. split; [constructor|reflexivity].
  - cbn [words]. destruct (is_underscore c) eqn:Ec.
    + assert (cur = []) as ->.
      { destruct cur; [reflexivity|]. destruct N as (x & y & E & F); [discriminate|]. injection E as <- <-. congruence. }
      cbn [letters filter]. rewrite Ec. cbn [negb]. apply IH. split; [constructor|]. split; [intros ->; exfalso; apply U; auto|congruence].
    + assert (PC : plain (cur ++ [c])) by (apply plain_app; auto using plain_one).
      assert (NC : cur ++ [c] <> []) by (destruct cur; discriminate).
      cbn [letters filter]. rewrite Ec. cbn [negb]. change (filter _ r) with (letters r).
      destruct r as [|d r'].
      * cbn. split; [repeat constructor; auto|rewrite app_nil_r; reflexivity].
      * destruct (is_underscore d || _) eqn:E1; [|destruct (match m with Uppercase => _ | _ => _ end) eqn:E2].
        -- destruct (IH AtBoundary []) as [A B]; [repeat split; [constructor|discriminate|congruence]|].
           split; [constructor; auto|]. cbn [concat]. rewrite B, <- app_assoc. reflexivity.
        -- destruct m; try discriminate.
           apply orb_false_iff in E1 as [Ed _].
           destruct (IH AtBoundary [c]) as [A B].
           { split; [auto using plain_one|]. split; [discriminate|]. intros _. eauto. }
           split; [constructor; auto|]. cbn [concat]. rewrite B. reflexivity.
        -- apply orb_false_iff in E1 as [Ed _].
           destruct (IH (mode_after m c) (cur ++ [c])) as [A B].
           { split; [exact PC|]. split; [intros _; exact NC|]. intros _. eauto. }
           split; [exact A|]. rewrite B, <- app_assoc. reflexivity.
Qed.
Lemma words_start s : Forall (fun w => w <> [] /\ plain w) (words AtBoundary [] s) /\ concat (words AtBoundary [] s) = letters s.
Proof. apply (words_ok s AtBoundary []). repeat split; [constructor|discriminate|congruence]. Qed.

(** * Joining *)
Lemma underscored_cons w w' ws : underscored (w :: w' :: ws) = w ++ usc :: underscored (w' :: ws).
Proof. reflexivity. Qed.
Lemma letters_app a b : letters (a ++ b) = letters a ++ letters b.
Proof. apply filter_app. Qed.
Lemma letters_plain w : plain w -> letters w = w.
Proof. induction 1 as [|c w E _ IH]; [reflexivity|]. cbn. rewrite E. cbn. f_equal. exact IH. Qed.
Lemma letters_underscored ws : Forall plain ws -> letters (underscored ws) = concat ws.
Proof.
  induction 1 as [|w ws P F IH]; [reflexivity|]. destruct ws as [|w' ws].
  - cbn. rewrite app_nil_r. apply letters_plain, P.
  - rewrite underscored_cons, letters_app, letters_plain by exact P. cbn [concat letters filter]. cbn [is_underscore].
    change (letters (underscored (w' :: ws))) with (letters (underscored (w' :: ws))).
    replace (if negb (is_underscore usc) then usc :: filter _ _ else _) with (letters (underscored (w' :: ws))) by reflexivity.
    rewrite IH. reflexivity.
Qed.

(** Snake case keeps the letters and digits, up to their case. *)
Lemma lower_usc c : is_underscore (to_lower c) = is_underscore c.
Proof.
  pose proof (all_bytes (fun c => Bool.eqb (is_underscore (to_lower c)) (is_underscore c))) as H.
  cbn beta in H. specialize (H eq_refl c). apply eqb_prop in H. exact H.
Qed.
Lemma plain_lower w : plain w -> plain (map to_lower w).
Proof. induction 1; constructor; auto. rewrite lower_usc. auto. Qed.
Lemma snake_letters x : letters (snake_case x) = map to_lower (letters x).
Proof.
  destruct (words_start x) as [A B]. unfold snake_case. rewrite letters_underscored.
  - rewrite <- B, concat_map. reflexivity.
  - clear B. induction A as [|w ws [_ P] _ IH]; constructor; auto using plain_lower.
Qed.

(** * The shape *)
Definition good (ws : list text) : Prop := Forall (fun w => w <> [] /\ Forall (fun c => lowc c = true) w) ws.
Lemma good_plain w : Forall (fun c => lowc c = true) w -> plain w.
Proof. induction 1; constructor; auto. apply lowc_not; auto. Qed.

Lemma letters_name x : Forall (fun c => namec c = true) x -> Forall (fun c => namec c = true /\ is_underscore c = false) (letters x).
Proof.
  induction 1 as [|c x N _ IH]; [constructor|]. cbn. destruct (is_underscore c) eqn:E; cbn; auto.
Qed.
Lemma snake_words_good x : Forall (fun c => namec c = true) x -> good (map (map to_lower) (words AtBoundary [] x)).
Proof.
  intros N. destruct (words_start x) as [A B]. apply letters_name in N. rewrite <- B in N. clear B.
  induction A as [|w ws [NE P] A IH]; [constructor|]. cbn [concat] in N. apply Forall_app in N as [N1 N2].
  cbn. constructor; [|apply IH; exact N2]. split; [destruct w; [congruence|discriminate]|].
  clear -N1. induction N1 as [|c w [N U] _ IH]; constructor; auto using lower_lowc.
Qed.

Lemma underscored_shape ws : good ws ->
  Forall (fun c => lowc c || is_underscore c = true) (underscored ws) /\
  (ws <> [] -> exists c r, underscored ws = c :: r /\ lowc c = true) /\
  (ws <> [] -> exists c r, underscored ws = r ++ [c] /\ lowc c = true) /\
  (forall a b, underscored ws <> a ++ usc :: usc :: b).
Proof.
  induction 1 as [|w ws [NE L] G (I1 & I2 & I3 & I4)].
  - cbn [underscored]. split; [exact (Forall_nil _)|]. split; [intros X; exfalso; apply X; reflexivity|]. split; [intros X; exfalso; apply X; reflexivity|]. intros [|y a] b; discriminate.
  - assert (W1 : Forall (fun c => lowc c || is_underscore c = true) w) by (eapply Forall_impl; [|exact L]; intros c ->; reflexivity).
    assert (H1 : exists c r, w = c :: r /\ lowc c = true) by (destruct L; [congruence|eauto]).
    assert (H2 : exists c r, w = r ++ [c] /\ lowc c = true).
    { destruct (exists_last NE) as (r & c & ->). exists c, r. split; [reflexivity|]. apply Forall_app in L as [_ L]. inversion L; auto. }
    assert (H3 : forall a b, w <> a ++ usc :: b).
    { intros a b ->. apply Forall_app in L as [_ L]. inversion L as [|? ? X]. discriminate X. }
    destruct ws as [|w' ws].
    + cbn [underscored]. repeat split; auto.
    + rewrite underscored_cons. destruct I2 as (c2 & r2 & E2 & L2); [discriminate|]. destruct I3 as (c3 & r3 & E3 & L3); [discriminate|].
      repeat split.
      * apply Forall_app; split; [exact W1|]. constructor; [reflexivity|exact I1].
      * intros _. destruct H1 as (c & r & -> & X). exists c, (r ++ usc :: underscored (w' :: ws)). auto.
      * intros _. exists c3, (w ++ usc :: r3). split; [|exact L3]. transitivity (w ++ usc :: (r3 ++ [c3])); [f_equal; f_equal; exact E3|rewrite <- app_assoc; reflexivity].
      * intros a b E. revert a E. clear -H3 I4 E2 L2. induction w as [|x w IH]; intros a E.
        -- cbn in E. destruct a as [|y a]; cbn in E.
           ++ injection E as E. pose proof (eq_trans (eq_sym E2) E) as Q. injection Q as -> _. discriminate L2.
           ++ injection E as <- E. exact (I4 _ _ E).
        -- destruct a as [|y a]; cbn in E.
           ++ injection E as -> E. apply (H3 [] w). reflexivity.
           ++ injection E as <- E. refine (IH _ a E). intros a' b' ->. exact (H3 (x :: a') b' eq_refl).
Qed.

Lemma name_text_iff x : name_text x <-> Forall (fun c => namec c = true) x.
Proof. split; intros H; eapply Forall_impl; try exact H; intros c; apply name_char_iff. Qed.

Lemma good_snake_shaped ws : good ws -> snake_shaped (underscored ws).
Proof.
  intros G. destruct (underscored_shape ws G) as (S1 & S2 & S3 & S4). split; [|split; [|split]].
  - eapply Forall_impl; [|exact S1]. intros c. apply snake_char_iff.
  - intros r E. destruct ws as [|w ws]; [discriminate|]. destruct S2 as (c & r' & E' & L); [discriminate|].
    pose proof (eq_trans (eq_sym E') E) as Q. injection Q as -> _. discriminate.
  - intros r E. destruct ws as [|w ws]; [destruct r; discriminate|]. destruct S3 as (c & r' & E' & L); [discriminate|].
    pose proof (eq_trans (eq_sym E') E) as Q. apply app_inj_tail in Q as [_ ->]. discriminate.
  - intros a b E. exact (S4 a b E).
Qed.
Lemma snake_shape x : name_text x -> snake_shaped (snake_case x).
Proof. intros N. apply good_snake_shaped, snake_words_good, name_text_iff, N. Qed.

(** Every text of that shape is words joined by underscores. *)
Lemma shaped_words x : snake_shaped x -> exists ws, good ws /\ x = underscored ws.
Proof.
  assert (G : forall n x, (List.length x <= n)%nat -> snake_shaped x -> exists ws, good ws /\ x = underscored ws).
  { induction n as [|n IH]; intros y L (C & F & E & D).
    - destruct y; [|cbn in L; lia]. exists []. split; [constructor|reflexivity].
    - assert (SP : exists w r, y = w ++ r /\ Forall (fun c => lowc c = true) w /\ (r = [] \/ exists r', r = usc :: r')).
      { clear -C. induction C as [|c y N _ (w & r & -> & W & R)].
        - exists [], []. repeat split; auto.
        - apply snake_char_iff in N. destruct (is_underscore c) eqn:Ec.
          + apply usc_iff in Ec as ->. exists [], (usc :: w ++ r). split; [reflexivity|]. split; [constructor|]. right. eauto.
          + rewrite orb_false_r in N. exists (c :: w), r. split; [reflexivity|]. split; [constructor; auto|exact R]. }
      destruct SP as (w & r & -> & W & R). destruct R as [->|(r' & ->)].
      + rewrite app_nil_r in *. destruct w as [|c w]; [exists []; split; [constructor|reflexivity]|].
        exists [c :: w]. split; [constructor; [split; [discriminate|exact W]|constructor]|reflexivity].
      + destruct w as [|c w].
        { exfalso. apply (F r'). reflexivity. }
        destruct (IH r') as (ws & G & ->).
        { rewrite app_length in L. cbn in L. lia. }
        { split; [|split; [|split]].
          - apply Forall_app in C as [_ C]. inversion C; assumption.
          - intros q ->. apply (D (c :: w) q). reflexivity.
          - intros q ->. apply (E ((c :: w) ++ usc :: q)). rewrite <- app_assoc. reflexivity.
          - intros a b ->. apply (D ((c :: w) ++ usc :: a) b). rewrite <- app_assoc. reflexivity. }
        destruct ws as [|w' ws].
        { exfalso. apply (E (c :: w)). reflexivity. }
        exists ((c :: w) :: w' :: ws). split; [constructor; [split; [discriminate|exact W]|exact G]|reflexivity]. }
  apply (G (List.length x)). lia.
Qed.

(** Words in snake case are found again. *)
Lemma words_step m cur c d s : is_underscore c = false -> is_underscore d = false -> is_upper d = false ->
  (m <> Uppercase \/ is_upper c = false) -> words m cur (c :: d :: s) = words (mode_after m c) (cur ++ [c]) (d :: s).
Proof.
  intros U D1 D2 M.
  transitivity (if is_underscore c then words m (match cur with [] => [] | _ => cur ++ [c] end) (d :: s) else
    if is_underscore d || match mode_after m c with Lowercase => is_upper d | _ => false end
    then (cur ++ [c]) :: words AtBoundary [] (d :: s)
    else if match m with Uppercase => is_upper c && is_lower d | _ => false end
    then cur :: words AtBoundary [c] (d :: s) else words (mode_after m c) (cur ++ [c]) (d :: s)); [reflexivity|].
  rewrite U, D1, D2. cbn [orb].
  replace (match mode_after m c with Lowercase => false | _ => false end) with false by (destruct (mode_after m c); reflexivity).
  replace (match m with Uppercase => is_upper c && is_lower d | _ => false end) with false; [reflexivity|].
  destruct m; try reflexivity. destruct M as [M| ->]; [congruence|reflexivity].
Qed.
Lemma words_lower w : Forall (fun c => lowc c = true) w -> w <> [] ->
  forall m cur, m <> Uppercase -> words m cur w = [cur ++ w] /\
  forall r, words m cur (w ++ usc :: r) = (cur ++ w) :: words AtBoundary [] (usc :: r).
Proof.
  induction 1 as [|c w L W IH]; [congruence|]. intros _ m cur M.
  destruct (lowc_not c L) as [U P].
  assert (M' : mode_after m c <> Uppercase) by (unfold mode_after; rewrite P; destruct (is_lower c); [discriminate|exact M]).
  destruct w as [|d w].
  - split; [cbn [words]; rewrite U; reflexivity|]. intros r. cbn [app words]. rewrite U. reflexivity.
  - assert (D : is_underscore d = false /\ is_upper d = false) by (inversion W; apply lowc_not; assumption).
    destruct D as [D1 D2]. destruct (IH ltac:(discriminate) (mode_after m c) (cur ++ [c]) M') as [A B].
    rewrite <- app_assoc in A, B. split.
    + rewrite words_step by auto. exact A.
    + intros r. change ((c :: d :: w) ++ usc :: r) with (c :: d :: (w ++ usc :: r)). rewrite words_step by auto. apply B.
Qed.
Lemma words_underscored ws : good ws -> words AtBoundary [] (underscored ws) = ws.
Proof.
  induction 1 as [|w ws [NE L] G IH]; [reflexivity|].
  destruct (words_lower w L NE AtBoundary [] ltac:(discriminate)) as [A B].
  destruct ws as [|w' ws]; [exact A|]. rewrite underscored_cons, B. cbn [app]. f_equal. exact IH.
Qed.
Lemma map_lower_good ws : good ws -> map (map to_lower) ws = ws.
Proof.
  induction 1 as [|w ws [_ L] _ IH]; [reflexivity|]. cbn. f_equal; [|exact IH].
  induction L; cbn; f_equal; auto using lower_id.
Qed.
Lemma snake_fixed x : snake_shaped x -> snake_case x = x.
Proof. intros S. destruct (shaped_words x S) as (ws & G & ->). unfold snake_case. rewrite words_underscored, map_lower_good by exact G. reflexivity. Qed.
Lemma snake_fixed_iff x : name_text x -> (snake_case x = x <-> snake_shaped x).
Proof. intros N. split; [intros <-; apply snake_shape, N|apply snake_fixed]. Qed.
Lemma snake_idempotent x : name_text x -> snake_case (snake_case x) = snake_case x.
Proof. intros N. apply snake_fixed, snake_shape, N. Qed.

(** An underscore at the end is dropped. *)
Lemma words_end s : forall m cur, words m cur (s ++ [usc]) = words m cur s.
Proof.
  induction s as [|c r IH]; intros m cur; [reflexivity|]. cbn [app words]. destruct (is_underscore c); [apply IH|].
  destruct r as [|d r]; [reflexivity|]. cbn [app] in *.
  destruct (is_underscore d || _); [f_equal; apply IH|].
  destruct (match m with Uppercase => _ | _ => _ end); [f_equal; apply IH|apply IH].
Qed.
Lemma snake_end x : snake_case (x ++ lit "_") = snake_case x.
Proof. unfold snake_case. change (lit "_") with [usc]. rewrite words_end. reflexivity. Qed.

(** Nothing is left of underscores only. *)
Lemma snake_empty x : snake_case x = [] <-> Forall (fun c => c = usc) x.
Proof.
  split; intros H.
  - assert (L : letters x = []).
    { apply (map_eq_nil to_lower). rewrite <- snake_letters, H. reflexivity. }
    clear H. induction x as [|c x IH]; [constructor|]. cbn in L. destruct (is_underscore c) eqn:E; [|discriminate].
    constructor; [apply usc_iff, E|apply IH, L].
  - destruct (words_start x) as [A B]. assert (L : letters x = []) by (clear -H; induction H; [reflexivity|subst; exact IHForall]).
    rewrite L in B. unfold snake_case. destruct A as [|w ws [NE _] A]; [reflexivity|]. cbn in B. apply app_eq_nil in B as [-> _]. congruence.
Qed.
(** The first character is the first letter or digit. *)
Lemma snake_first x : name_text x -> forall u c r, x = u ++ c :: r -> Forall (fun c => c = usc) u -> c <> usc ->
  exists s, snake_case x = to_lower c :: s.
Proof.
  intros N u c r -> U C. pose proof (snake_letters (u ++ c :: r)) as L. rewrite letters_app in L.
  assert (L' : letters u = []) by (clear -U; induction U; [reflexivity|subst; exact IHU]).
  rewrite L' in L. cbn in L. destruct (is_underscore c) eqn:E; [apply usc_iff in E; congruence|]. cbn in L.
  destruct (snake_shape _ N) as (_ & F & _). destruct (snake_case (u ++ c :: r)) as [|d s]; [discriminate|].
  cbn in L. destruct (is_underscore d) eqn:D; [apply usc_iff in D; subst; exfalso; apply (F s); reflexivity|].
  cbn in L. injection L as -> _. eauto.
Qed.

(** * Names of accessors and modules *)
Definition substitution_undone (p : string * string) : bool :=
  Bool.eqb (mem_text (snake_case (lit (snd p))) (map lit rust_keywords))
           (mem_text (snake_case (lit (fst p))) (map lit rust_keywords) && negb (ident_eqb (lit (fst p)) (lit "type"))).
Lemma substitutions_undone : forallb substitution_undone substitutions = true.
Proof. vm_compute. reflexivity. Qed.
Lemma accessor_keyword x : keyword (accessor_name snake_case x) <-> keyword (snake_case x) /\ x <> lit "type".
Proof.
  unfold accessor_name, fix_identifier, substitute_keyword, keyword. destruct (substitute substitutions x) as [y|] eqn:E.
  - apply substitute_some in E as (k & s & I & -> & ->).
    pose proof substitutions_undone as H. rewrite forallb_forall in H. specialize (H _ I). unfold substitution_undone in H. cbn [fst snd] in H.
    apply eqb_prop in H. rewrite <- !mem_text_In, H, andb_true_iff, negb_true_iff. split; intros [A B]; (split; [exact A|]).
    + intros X. rewrite X in B. discriminate.
    + destruct (ident_eqb (lit k) (lit "type")) eqn:Q; [|reflexivity]. exfalso. apply B. clear -Q.
      apply bytes_eqb_true || (unfold ident_eqb in Q). revert Q. generalize (lit "type"). generalize (lit k).
      induction t as [|a t IH]; intros [|b u]; cbn; try discriminate; [reflexivity|].
      intros Q. apply andb_true_iff in Q as [Q1 Q2]. apply Byte.byte_dec_bl in Q1. subst. f_equal. apply IH, Q2.
  - split; [|intros [A _]; exact A]. intros A. split; [exact A|]. intros ->. vm_compute in E. discriminate.
Qed.

Lemma small_lower c : small c = to_lower c.
Proof.
  pose proof (all_bytes (fun c => Byte.eqb (small c) (to_lower c)) eq_refl c) as H. apply Byte.byte_dec_bl. exact H.
Qed.
Lemma same_letters_iff x y : same_letters x y <-> letters (snake_case x) = letters (snake_case y).
Proof.
  rewrite !snake_letters. unfold same_letters. change (filter _ x) with (letters x). change (filter _ y) with (letters y).
  rewrite !(map_ext small to_lower small_lower). reflexivity.
Qed.
Lemma snake_keeps x : same_letters (snake_case x) x.
Proof.
  unfold same_letters. change (filter _ (snake_case x)) with (letters (snake_case x)). change (filter _ x) with (letters x).
  rewrite snake_letters, map_map. apply map_ext. intros c. rewrite !small_lower.
  pose proof (all_bytes (fun c => Byte.eqb (to_lower (to_lower c)) (to_lower c)) eq_refl c) as H. apply Byte.byte_dec_bl. exact H.
Qed.
Lemma digit_char_iff c : In c (lit "0123456789") <-> is_digit c = true.
Proof. apply byte_in. vm_compute. reflexivity. Qed.
Lemma under_char_iff c : In c (lit "_") <-> c = usc.
Proof. cbn. intuition. Qed.
Lemma under_digit_iff c : In c (lit "_0123456789") <-> is_digit c || is_underscore c = true.
Proof. apply (byte_in _ (fun c => is_digit c || is_underscore c)). vm_compute. reflexivity. Qed.
Lemma lower_digit c : is_digit (to_lower c) = is_digit c.
Proof. pose proof (all_bytes (fun c => Bool.eqb (is_digit (to_lower c)) (is_digit c)) eq_refl c) as H. apply eqb_prop in H. exact H. Qed.

Lemma first_letter x : Forall (fun c => c = usc) x \/ exists u c r, x = u ++ c :: r /\ Forall (fun b => c <> usc /\ b = usc) u /\ c <> usc.
Proof.
  induction x as [|c x [IH|(u & d & r & -> & U & D)]].
  - left. constructor.
  - destruct (is_underscore c) eqn:E.
    + apply usc_iff in E as ->. left. constructor; auto.
    + right. exists [], c, x. split; [reflexivity|]. split; [constructor|]. intros ->. discriminate.
  - right. destruct (is_underscore c) eqn:E.
    + apply usc_iff in E as ->. exists (usc :: u), d, r. split; [reflexivity|]. split; [constructor; auto|exact D].
    + exists [], c, (u ++ d :: r). split; [reflexivity|]. split; [constructor|]. intros ->. discriminate.
Qed.
Lemma snake_rust_name x : name_text x -> (rust_name (snake_case x) <-> starts_with_letter x /\ ~ keyword (snake_case x)).
Proof.
  intros N. unfold rust_name. split.
  - intros (_ & (c & r & E & D) & _ & K). split; [|exact K].
    destruct (first_letter x) as [U|(u & d & r' & -> & U & D')].
    + apply snake_empty in U. congruence.
    + assert (U' : Forall (fun b => b = usc) u) by (eapply Forall_impl; [|exact U]; cbn; intuition).
      destruct (snake_first _ N u d r' eq_refl U' D') as (s & E'). rewrite E' in E. injection E as <- <-.
      exists u, d, r'. split; [reflexivity|]. split; [eapply Forall_impl; [|exact U']; intros b ->; left; reflexivity|].
      rewrite under_digit_iff. rewrite digit_char_iff, lower_digit in D. intros X. apply orb_true_iff in X as [X|X]; [auto|]. apply usc_iff in X. auto.
  - intros ((u & c & r & -> & U & D) & K).
    assert (U' : Forall (fun b => b = usc) u) by (eapply Forall_impl; [|exact U]; intros b; apply under_char_iff).
    assert (C : c <> usc) by (intros ->; apply D; left; reflexivity).
    destruct (snake_first _ N u c r eq_refl U' C) as (s & E).
    split; [|split; [|split; [|exact K]]].
    + pose proof (snake_shape _ N) as (S & _). eapply Forall_impl; [|exact S]. intros b. rewrite snake_char_iff, name_char_iff. unfold lowc, namec.
      destruct (is_lower b), (is_digit b), (is_underscore b), (is_upper b); cbn; congruence.
    + exists (to_lower c), s. split; [exact E|]. rewrite digit_char_iff, lower_digit. intros X. apply D. rewrite under_digit_iff, X. reflexivity.
    + intros X. destruct (snake_shape _ N) as (_ & F & _). apply (F []). exact X.
Qed.

Definition substitution_letter (p : string * string) : bool :=
  match lit (fst p), lit (snd p) with
  | c :: _, d :: _ => negb (is_digit c || is_underscore c) && negb (is_digit d || is_underscore d) && forallb namec (lit (snd p))
  | _, _ => false
  end.
Lemma substitutions_letter : forallb substitution_letter substitutions = true.
Proof. vm_compute. reflexivity. Qed.
Lemma fix_letter x : name_text x -> name_text (fix_identifier x) /\ (starts_with_letter (fix_identifier x) <-> starts_with_letter x).
Proof.
  intros N. unfold fix_identifier, substitute_keyword. destruct (substitute substitutions x) as [y|] eqn:E; [|split; [exact N|reflexivity]].
  apply substitute_some in E as (k & s & I & -> & ->).
  pose proof substitutions_letter as H. rewrite forallb_forall in H. specialize (H _ I). unfold substitution_letter in H. cbn [fst snd] in H.
  destruct (lit k) as [|c k'] eqn:Ek; [discriminate|]. destruct (lit s) as [|d s'] eqn:Es; [discriminate|].
  apply andb_true_iff in H as [H F]. apply andb_true_iff in H as [H1 H2]. rewrite negb_true_iff in H1, H2.
  split.
  - apply name_text_iff. rewrite forallb_forall in F. rewrite Forall_forall. exact F.
  - assert (X : forall a t, is_digit a || is_underscore a = false -> starts_with_letter (a :: t)).
    { intros a t Q. exists [], a, t. split; [reflexivity|]. split; [constructor|]. rewrite under_digit_iff, Q. discriminate. }
    split; intros _; apply X; assumption.
Qed.
Lemma accessor_valid_iff x : name_text x ->
  (rust_name (accessor_name snake_case x) <-> starts_with_letter x /\ (keyword (snake_case x) -> x = lit "type")).
Proof.
  intros N. destruct (fix_letter x N) as [N' L]. unfold accessor_name at 1. rewrite snake_rust_name by exact N'. rewrite L.
  change (snake_case (fix_identifier x)) with (accessor_name snake_case x). rewrite accessor_keyword.
  split; intros [A B]; (split; [exact A|]).
  - intros K. destruct (ident_eqb x (lit "type")) eqn:Q.
    + revert Q. unfold ident_eqb. generalize (lit "type"). clear. induction x as [|a t IH]; intros [|b u]; cbn; try discriminate; [reflexivity|].
      intros Q. apply andb_true_iff in Q as [Q1 Q2]. apply Byte.byte_dec_bl in Q1. subst. f_equal. apply IH, Q2.
    + exfalso. apply B. split; [exact K|]. intros ->. discriminate Q.
  - intros [K T]. auto.
Qed.

Definition substitution_letters (p : string * string) : bool :=
  ident_eqb (snake_case (lit (fst p))) (snake_case (lit (snd p))) || ident_eqb (lit (fst p)) (lit "type").
Lemma substitutions_letters : forallb substitution_letters substitutions = true.
Proof. vm_compute. reflexivity. Qed.
Lemma ident_eqb_true x : forall y, ident_eqb x y = true -> x = y.
Proof.
  unfold ident_eqb. induction x as [|a t IH]; intros [|b u]; cbn; try discriminate; [reflexivity|].
  intros Q. apply andb_true_iff in Q as [Q1 Q2]. apply Byte.byte_dec_bl in Q1. subst. f_equal. apply IH, Q2.
Qed.
Lemma accessor_snake x : x <> lit "type" -> accessor_name snake_case x = snake_case x.
Proof.
  intros T. unfold accessor_name, fix_identifier, substitute_keyword. destruct (substitute substitutions x) as [y|] eqn:E; [|reflexivity].
  apply substitute_some in E as (k & s & I & -> & ->).
  pose proof substitutions_letters as H. rewrite forallb_forall in H. specialize (H _ I). unfold substitution_letters in H. cbn [fst snd] in H.
  apply orb_true_iff in H as [H|H]; apply ident_eqb_true in H; [congruence|contradiction].
Qed.
Lemma accessor_clash x y : accessor_name snake_case x = accessor_name snake_case y ->
  same_letters x y \/ x = lit "type" \/ y = lit "type".
Proof.
  intros E. destruct (ident_eqb x (lit "type")) eqn:X; [apply ident_eqb_true in X; auto|].
  destruct (ident_eqb y (lit "type")) eqn:Y; [apply ident_eqb_true in Y; auto|]. left.
  rewrite !accessor_snake in E by (intros ->; discriminate). apply same_letters_iff. rewrite E. reflexivity.
Qed.
Lemma accessor_distinct x y : snake_shaped x -> snake_shaped y -> accessor_name snake_case x = accessor_name snake_case y ->
  x = y \/ (x = lit "type" /\ y = lit "ty") \/ (x = lit "ty" /\ y = lit "type").
Proof.
  intros SX SY E.
  assert (T : accessor_name snake_case (lit "type") = lit "ty") by reflexivity.
  destruct (ident_eqb x (lit "type")) eqn:X; destruct (ident_eqb y (lit "type")) eqn:Y;
    try (apply ident_eqb_true in X); try (apply ident_eqb_true in Y).
  - left. congruence.
  - subst x. rewrite T, accessor_snake, snake_fixed in E; [auto|exact SY|intros ->; discriminate].
  - subst y. rewrite T, accessor_snake, snake_fixed in E; [auto|exact SX|intros ->; discriminate].
  - left. rewrite !accessor_snake, !snake_fixed in E; [exact E|exact SY|exact SX|intros ->; discriminate|intros ->; discriminate].
Qed.

Lemma name_text_check x : forallb namec x = true -> name_text x.
Proof. intros H. apply name_text_iff. rewrite forallb_forall in H. rewrite Forall_forall. exact H. Qed.
Lemma not_keyword x : mem_text x (map lit rust_keywords) = false -> ~ keyword x.
Proof. intros E K. apply mem_text_In in K. congruence. Qed.
Lemma names_refuted : forall x, In x [lit "match"; lit "_"; lit "_1"] -> name_text x /\ ~ rust_name (accessor_name snake_case x).
Proof.
  intros x I. assert (N : name_text x) by (apply name_text_check; cbn in I; intuition (subst; reflexivity)).
  split; [exact N|]. rewrite accessor_valid_iff by exact N. intros [A B]. cbn in I. destruct I as [<-|[<-|[<-|[]]]].
  - assert (K : keyword (snake_case (lit "match"))) by (apply mem_text_In; reflexivity). specialize (B K). discriminate B.
  - destruct A as (u & c & r & E & _ & C). destruct u as [|? [|? ?]]; try discriminate; injection E as <- _; apply C; cbn; auto.
  - destruct A as (u & c & r & E & U & C). destruct u as [|? [|? [|? ?]]]; try discriminate; injection E; intros; subst; apply C; cbn; auto.
Qed.
Lemma names_case : name_text (lit "hitPoints") /\ rust_name (accessor_name snake_case (lit "hitPoints")) /\
  accessor_name snake_case (lit "hitPoints") = lit "hit_points" /\ rust_name (accessor_name snake_case (lit "type")).
Proof.
  assert (N : name_text (lit "hitPoints")) by (apply name_text_check; reflexivity).
  assert (T : name_text (lit "type")) by (apply name_text_check; reflexivity).
  split; [exact N|]. split; [|split; [reflexivity|]].
  - apply accessor_valid_iff; [exact N|]. split; [exists [], "h"%byte, (lit "itPoints")|].
    + split; [reflexivity|]. split; [constructor|]. cbv. intuition discriminate.
    + intros K. exfalso. revert K. apply not_keyword. reflexivity.
  - apply accessor_valid_iff; [exact T|]. split; [exists [], "t"%byte, (lit "ype")|intros _; reflexivity].
    split; [reflexivity|]. split; [constructor|]. cbv. intuition discriminate.
Qed.
Lemma clash_refuted : exists x y, name_text x /\ name_text y /\ x <> y /\ accessor_name snake_case x = accessor_name snake_case y.
Proof. exists (lit "fooBar"), (lit "foo_bar"). repeat split; try (apply name_text_check; reflexivity). discriminate. Qed.
Lemma distinct_case : snake_shaped (lit "hit_points") /\ snake_shaped (lit "hp2") /\
  accessor_name snake_case (lit "hit_points") <> accessor_name snake_case (lit "hp2").
Proof.
  split; [|split; [|discriminate]].
  - change (lit "hit_points") with (snake_case (lit "hitPoints")). apply snake_shape, name_text_check. reflexivity.
  - change (lit "hp2") with (snake_case (lit "HP2")). apply snake_shape, name_text_check. reflexivity.
Qed.

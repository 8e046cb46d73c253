(** Documents written through generated code are read back whole. *)
From Coq Require Import ZArith List Bool Lia Strings.Byte ZifyBool ZifyNat ZifyN.
From Verif Require Import Base Scalar SpecWire WireFacts Utf8 Reader Client Raw SpecRaw SpecReader Builder Ops SpecBuilder Abstract BaseFacts ScalarFacts ReaderFacts
  ReaderProofs ReaderProofs3
  Refine Refine2 Build1 Build2 Build3 Build4 Build5 Build6 Build7 Build8 BuilderProofs1 BuilderProofs2 BuilderProofs3 BuilderProofs4 RawProofs1
  Schema Codegen RawGen SpecGen SpecSeat RawProofs8 GenProofs1 GenProofs2 RawProofs9 GenProofs3.
Import ListNotations.
Local Open Scope Z_scope.

Section Ind.
  Context (P : tree -> Prop).
  Context (P0 : P TreeNone) (P1 : forall t v, P (TreeNum t v)) (P2 : forall s, P (TreeStr s))
    (P3 : forall t xs, Forall P xs -> P (TreeVec t xs)) (P4 : forall gs xs, Forall P xs -> P (TreeTable gs xs)).
  Fixpoint tree_nested (x : tree) : P x :=
    let all := fix all (xs : list tree) : Forall P xs :=
      match xs with [] => Forall_nil _ | x :: xs => Forall_cons _ (tree_nested x) (all xs) end in
    match x with
    | TreeNone => P0 | TreeNum t v => P1 t v | TreeStr s => P2 s
    | TreeVec t xs => P3 t xs (all xs) | TreeTable gs xs => P4 gs xs (all xs)
    end.
End Ind.

(** The nested functions, unfolded. *)
Lemma put_vec h b t xs : put h b (TreeVec t xs) =
  let* (b, l) := put_all h b xs in
  let items := map (fun a => match a with Some v => v | None => POffset 0 end) l in
  let* (b, o) := create_vector h b (pty_size t) (pty_align t) items in Val (b, Some (POffset o)).
Proof.
  assert (E : forall xs b, (fix put_all (b : builder) (xs : list tree) : outcome (builder * list garg) :=
    match xs with
    | [] => Val (b, [])
    | x :: xs => let* (b, a) := put h b x in let* (b, l) := put_all b xs in Val (b, a :: l)
    end) b xs = put_all h b xs).
  { induction xs0 as [|x xs0 IH]; intros b0; [reflexivity|]. cbn [put_all]. destruct (put h b0 x) as [[b1 a]| |]; cbn [bind]; auto.
    rewrite IH. reflexivity. }
  cbn [put]. rewrite E. reflexivity.
Qed.
Lemma put_table h b gs xs : put h b (TreeTable gs xs) =
  let* (b, l) := put_all h b xs in let* (b, o) := gen_create h b gs l in Val (b, Some (POffset o)).
Proof.
  assert (E : forall xs b, (fix put_all (b : builder) (xs : list tree) : outcome (builder * list garg) :=
    match xs with
    | [] => Val (b, [])
    | x :: xs => let* (b, a) := put h b x in let* (b, l) := put_all b xs in Val (b, a :: l)
    end) b xs = put_all h b xs).
  { induction xs0 as [|x xs0 IH]; intros b0; [reflexivity|]. cbn [put_all]. destruct (put h b0 x) as [[b1 a]| |]; cbn [bind]; auto.
    rewrite IH. reflexivity. }
  cbn [put]. rewrite E. reflexivity.
Qed.

Definition typed_field (lim : Z) (gs : list gfield) (xs : list tree) (g : gfield) (x : tree) : Prop :=
  match g_kind g with
  | GScalar t _ => typed lim x (FScalar t)
  | GEnum t vs _ => typed lim x (FEnum t vs)
  | GRef ty => (x = TreeNone /\ g_req g = false) \/ typed lim x ty
  | GUnion tslot _ _ _ arms =>
      (x = TreeNone /\ g_req g = false) \/
      exists n u, tag gs xs tslot = Some n /\ find_arm n arms = Some (FUOffset u) /\ typed lim x (FUOffset u)
  end.
Lemma typed_table lim gs xs ty : typed lim (TreeTable gs xs) ty <->
  ty = FUOffset FTable /\ generated lim gs /\ Forall2 (typed_field lim gs xs) gs xs.
Proof.
  cbn [typed]. fold (typed_field lim gs xs).
  assert (E : forall gs' xs', (fix all (gs' : list gfield) (xs' : list tree) {struct xs'} : Prop :=
           match gs', xs' with
           | [], [] => True
           | g :: gs', x :: xs' => typed_field lim gs xs g x /\ all gs' xs'
           | _, _ => False
           end) gs' xs' <-> Forall2 (typed_field lim gs xs) gs' xs').
  { intros gs' xs'. revert gs'. induction xs' as [|x xs' IH]; intros [|g gs'].
    - split; [constructor|auto].
    - split; [intros []|intros H; inversion H].
    - split; [intros []|intros H; inversion H].
    - rewrite IH. split; [intros [A B]; constructor; auto|intros H; inversion H; auto]. }
  unfold typed_field in E. rewrite E. reflexivity.
Qed.
Lemma typed_vec lim t xs ty : typed lim (TreeVec t xs) ty <->
  exists e, ty = FUOffset (FVector e) /\ elem_pty e = Some t /\ blen xs * pty_size t < 2 ^ 63 /\ Forall (fun x => typed lim x e) xs.
Proof.
  cbn [typed].
  assert (E : forall e xs, (fix all (xs : list tree) : Prop := match xs with [] => True | x :: xs => typed lim x e /\ all xs end) xs
     <-> Forall (fun x => typed lim x e) xs).
  { intros e. induction xs0 as [|x l IH]; [split; auto|]. rewrite IH. split; [intros [A B]; auto|intros H; inversion H; auto]. }
  split; intros (e & A & B & C & H); exists e; (split; [exact A|split; [exact B|split; [exact C|]]]); apply E; exact H.
Qed.

Definition shows_field (hr : host) (D : list byte) (loc : Z) (gs : list gfield) (xs : list tree) (g : gfield) (x : tree) : Prop :=
  gen_get hr D loc g = Val None /\ x = TreeNone \/
  exists w, shows hr D x w /\
    gen_get hr D loc g =
      Val (Some (match g_kind g with
                 | GUnion tslot _ _ _ _ =>
                     match tag gs xs tslot with Some n => GVariant n w | None => GPlain w end
                 | _ => GPlain w
                 end)).
Lemma shows_table hr D gs xs w : shows hr D (TreeTable gs xs) w <->
  exists loc, w = VTable loc /\ Forall2 (shows_field hr D loc gs xs) gs xs.
Proof.
  cbn [shows].
  assert (E : forall loc xs' gs', (fix all (gs' : list gfield) (xs' : list tree) {struct xs'} : Prop :=
           match gs', xs' with
           | [], [] => True
           | g :: gs', x :: xs' => shows_field hr D loc gs xs g x /\ all gs' xs'
           | _, _ => False
           end) gs' xs' <-> Forall2 (shows_field hr D loc gs xs) gs' xs').
  { intros loc xs'. induction xs' as [|x xs' IH]; intros [|g gs'].
    - split; [constructor|auto].
    - split; [intros []|intros H; inversion H].
    - split; [intros []|intros H; inversion H].
    - rewrite IH. split; [intros [A B]; constructor; auto|intros H; inversion H; auto]. }
  unfold shows_field in E. split; intros (loc & A & B); exists loc; (split; [exact A|]); apply E; exact B.
Qed.
Lemma shows_vec hr D t xs w : shows hr D (TreeVec t xs) w <->
  exists e loc, w = VVector e loc /\ vec_len hr D loc = Val (blen xs) /\
    Forall2 (fun x r => exists w, r = Val w /\ shows hr D x w) xs (elements hr e D loc (blen xs)).
Proof.
  cbn [shows].
  assert (E : forall xs rs, (fix all (xs : list tree) (rs : list (outcome fval)) {struct xs} : Prop :=
           match xs, rs with
           | [], [] => True
           | x :: xs, r :: rs => (exists w, r = Val w /\ shows hr D x w) /\ all xs rs
           | _, _ => False
           end) xs rs <-> Forall2 (fun x r => exists w, r = Val w /\ shows hr D x w) xs rs).
  { induction xs0 as [|x xs0 IH]; intros [|r rs].
    - split; [constructor|auto].
    - split; [intros []|intros H; inversion H].
    - split; [intros []|intros H; inversion H].
    - rewrite IH. split; [intros [A B]; constructor; auto|intros H; inversion H; auto]. }
  split; intros (e & loc & A & B & C); exists e, loc; (split; [exact A|split; [exact B|]]); apply E; exact C.
Qed.

(** The same, and nothing is in the tables beyond their fields. *)
Definition beyond (hr : host) (D : list byte) (loc : Z) (gs : list gfield) : Prop :=
  forall i t fd, blen gs <= i <= 32764 -> table_get hr D loc (4 + 2 * i) t fd = Val fd.
Fixpoint shows_all (hr : host) (D : list byte) (x : tree) (w : fval) : Prop :=
  match x with
  | TreeNone => False
  | TreeNum t v => w = VEnum v \/ exists u, w = VScalar u /\ (u = v \/ scalar_eq t v u = true)
  | TreeStr s => w = VStr s
  | TreeVec t xs =>
      exists e loc, w = VVector e loc /\ vec_len hr D loc = Val (blen xs) /\
        (fix all (xs : list tree) (rs : list (outcome fval)) {struct xs} : Prop :=
           match xs, rs with
           | [], [] => True
           | x :: xs, r :: rs => (exists w, r = Val w /\ shows_all hr D x w) /\ all xs rs
           | _, _ => False
           end) xs (elements hr e D loc (blen xs))
  | TreeTable gs xs =>
      exists loc, w = VTable loc /\ beyond hr D loc gs /\
        (fix all (gs' : list gfield) (xs' : list tree) {struct xs'} : Prop :=
           match gs', xs' with
           | [], [] => True
           | g :: gs', x :: xs' =>
               (gen_get hr D loc g = Val None /\ x = TreeNone \/
                exists w, shows_all hr D x w /\
                  gen_get hr D loc g =
                    Val (Some (match g_kind g with
                               | GUnion tslot _ _ _ _ =>
                                   match tag gs xs tslot with Some n => GVariant n w | None => GPlain w end
                               | _ => GPlain w
                               end))) /\ all gs' xs'
           | _, _ => False
           end) gs xs
  end.
Definition shows_all_field (hr : host) (D : list byte) (loc : Z) (gs : list gfield) (xs : list tree) (g : gfield) (x : tree) : Prop :=
  gen_get hr D loc g = Val None /\ x = TreeNone \/
  exists w, shows_all hr D x w /\
    gen_get hr D loc g =
      Val (Some (match g_kind g with
                 | GUnion tslot _ _ _ _ =>
                     match tag gs xs tslot with Some n => GVariant n w | None => GPlain w end
                 | _ => GPlain w
                 end)).
Lemma shows_all_table hr D gs xs w : shows_all hr D (TreeTable gs xs) w <->
  exists loc, w = VTable loc /\ beyond hr D loc gs /\ Forall2 (shows_all_field hr D loc gs xs) gs xs.
Proof.
  cbn [shows_all].
  assert (E : forall loc xs' gs', (fix all (gs' : list gfield) (xs' : list tree) {struct xs'} : Prop :=
           match gs', xs' with
           | [], [] => True
           | g :: gs', x :: xs' => shows_all_field hr D loc gs xs g x /\ all gs' xs'
           | _, _ => False
           end) gs' xs' <-> Forall2 (shows_all_field hr D loc gs xs) gs' xs').
  { intros loc xs'. induction xs' as [|x xs' IH]; intros [|g gs'].
    - split; [constructor|auto].
    - split; [intros []|intros H; inversion H].
    - split; [intros []|intros H; inversion H].
    - rewrite IH. split; [intros [A B]; constructor; auto|intros H; inversion H; auto]. }
  unfold shows_all_field in E. split; intros (loc & A & A' & B); exists loc; (split; [exact A|]); (split; [exact A'|]); apply E; exact B.
Qed.
Lemma shows_all_vec hr D t xs w : shows_all hr D (TreeVec t xs) w <->
  exists e loc, w = VVector e loc /\ vec_len hr D loc = Val (blen xs) /\
    Forall2 (fun x r => exists w, r = Val w /\ shows_all hr D x w) xs (elements hr e D loc (blen xs)).
Proof.
  cbn [shows_all].
  assert (E : forall xs rs, (fix all (xs : list tree) (rs : list (outcome fval)) {struct xs} : Prop :=
           match xs, rs with
           | [], [] => True
           | x :: xs, r :: rs => (exists w, r = Val w /\ shows_all hr D x w) /\ all xs rs
           | _, _ => False
           end) xs rs <-> Forall2 (fun x r => exists w, r = Val w /\ shows_all hr D x w) xs rs).
  { induction xs0 as [|x xs0 IH]; intros [|r rs].
    - split; [constructor|auto].
    - split; [intros []|intros H; inversion H].
    - split; [intros []|intros H; inversion H].
    - rewrite IH. split; [intros [A B]; constructor; auto|intros H; inversion H; auto]. }
  split; intros (e & loc & A & B & C); exists e, loc; (split; [exact A|split; [exact B|]]); apply E; exact C.
Qed.
Lemma shows_all_shows hr D x : forall w, shows_all hr D x w -> shows hr D x w.
Proof.
  induction x as [| | |t xs IH|gs xs IH] using tree_nested; intros w S; try exact S.
  - apply shows_all_vec in S as (e & loc & -> & L & S). apply shows_vec. exists e, loc. split; [reflexivity|]. split; [exact L|].
    revert S. generalize (elements hr e D loc (blen xs)). clear L. induction IH as [|x xs Hx _ IH]; intros rs S; inversion S as [|? ? ? ? (w & E & Sx) S']; subst; constructor; auto.
    exists w. auto.
  - apply shows_all_table in S as (loc & -> & _ & S). apply shows_table. exists loc. split; [reflexivity|].
    assert (K : forall gs0 xs0, Forall (fun x => forall w, shows_all hr D x w -> shows hr D x w) xs0 ->
      Forall2 (shows_all_field hr D loc gs xs) gs0 xs0 -> Forall2 (shows_field hr D loc gs xs) gs0 xs0).
    { intros gs0 xs0 I. revert gs0. induction I as [|x xs0 Hx _ IHI]; intros gs0 S0; inversion S0 as [|g ? gs1 ? Q S1]; subst; constructor; auto.
      destruct Q as [Q|(w & Sx & Q)]; [left; exact Q|right]. exists w. auto. }
    apply K; assumption.
Qed.

(** ** Programs *)
Lemma closed_app a b : closed a = true -> closed (a ++ b) = closed b.
Proof.
  unfold closed. intros H. apply negb_true_iff in H. rewrite fold_left_app, H. reflexivity.
Qed.
Lemma closed_end a s o gs : closed (a ++ [OpEndTable s] ++ required_ops o gs) = true.
Proof.
  unfold closed. apply negb_true_iff. rewrite !fold_left_app. cbn [fold_left].
  induction gs as [|g gs IH]; [reflexivity|]. cbn [required_ops flat_map]. rewrite fold_left_app.
  destruct (g_req g); exact IH.
Qed.
Lemma program_run h c before b0 xs ops b1 ys : program h c before = Val (b0, xs) -> run h b0 ops = Val (b1, ys) ->
  program h c (before ++ ops) = Val (b1, xs ++ ys).
Proof.
  unfold program. intros H R. apply bind_Val in H as (bb & H0 & H). rewrite H0. cbn [bind]. rewrite run_app, H. cbn [bind].
  rewrite R. reflexivity.
Qed.
Lemma run_blen h os b b' xs : inv b -> calls_ok os = true -> no_reset os = true -> run h b os = Val (b', xs) ->
  blen (unfinished_data b') < 2 ^ 31 -> blen (unfinished_data b) <= blen (unfinished_data b').
Proof.
  intros I Ho Hr R L. assert (L2 : blen (unfinished_data b') < 2 ^ 32) by lia.
  pose proof (run_grows _ _ _ _ _ I (calls_ok_ops _ Ho) Hr R L2) as G. apply grows_blen in G. exact G.
Qed.
Lemma nth_Forall2 {A B} (R : A -> B -> Prop) l : forall m, length l = length m ->
  (forall i x y, nth_error l i = Some x -> nth_error m i = Some y -> R x y) -> Forall2 R l m.
Proof.
  induction l as [|x l IH]; intros [|y m] L H; try discriminate L; constructor.
  - exact (H O x y eq_refl eq_refl).
  - apply IH; [cbn in L; lia|]. intros i a b. exact (H (S i) a b).
Qed.
Lemma Forall2_nth {A B} (R : A -> B -> Prop) l m : Forall2 R l m ->
  forall i x y, nth_error l i = Some x -> nth_error m i = Some y -> R x y.
Proof.
  induction 1; intros [|i] a b Ha Hb; cbn [nth_error] in *; try discriminate; [congruence|eauto].
Qed.
Lemma nth_same {A B} (l : list A) (m : list B) i x : length l = length m -> nth_error l i = Some x -> exists y, nth_error m i = Some y.
Proof.
  intros L H. assert (i < length m)%nat by (rewrite <- L; apply nth_error_Some; congruence).
  destruct (nth_error m i) eqn:E; eauto. apply nth_error_None in E. lia.
Qed.

Lemma zseq_nth a n i : (i < n)%nat -> nth_error (zseq a n) i = Some (a + Z.of_nat i).
Proof.
  revert a i. induction n as [|n IH]; intros a [|i] H; try lia; cbn [zseq nth_error]; [f_equal; lia|].
  rewrite IH by lia. f_equal. lia.
Qed.

Section Trees.
Context (h hr : host) (c lim : Z) (Hc : 0 <= c).
Context (Hlim : lim <= 32765) (Hsmall : debug h = true \/ lim <= 8190).

(** The last call is [finish]. *)
Definition ends (later : list op) : Prop := exists l root ident sp, later = l ++ [OpFinish root ident sp] /\ ident_fits h ident.
(** What is read where a document was written. *)
Definition led (later : list op) (D : list byte) (u : fty) (x : tree) (o : Z) : Prop :=
  exists w, follow hr u D (blen D - o) = Val w /\ shows_all hr D x w /\
    (ends later -> runs aligned eq (r_follow hr u (whole_of D) (blen D - o)) (follow hr u D (blen D - o)) /\ reads_aligned hr D x w).
Lemma ends_later ops later : ends later -> ends (ops ++ later).
Proof. intros (l & r & i & s & -> & I). exists (ops ++ l), r, i, s. rewrite app_assoc. auto. Qed.
Lemma led_later ops later D u x o : led (ops ++ later) D u x o -> led later D u x o.
Proof. intros (w & F & S & A). exists w. split; [exact F|]. split; [exact S|]. intros E. apply A. apply ends_later. exact E. Qed.

(** What is known of a document once written, whatever is written later. *)
Definition holds (b1 : builder) (ty : fty) (x : tree) (a : garg) : Prop :=
  match x with
  | TreeNone => a = None
  | TreeNum t v => a = Some (PScalar t v)
  | _ => exists o, a = Some (POffset o) /\ 0 <= o < 2 ^ 32 /\
      (blen (unfinished_data b1) < 2 ^ 31 -> o <= blen (unfinished_data b1)) /\
      forall later b zs, calls_ok later = true -> no_reset later = true -> run h b1 later = Val (b, zs) ->
        blen (unfinished_data b) < 2 ^ 31 -> forall u, ty = FUOffset u ->
        led later (unfinished_data b) u x o
  end.

Lemma holds_later b1 ty x a ops b2 ys : inv b1 -> holds b1 ty x a -> calls_ok ops = true -> no_reset ops = true ->
  run h b1 ops = Val (b2, ys) -> holds b2 ty x a.
Proof.
  intros I H Ho Hr R. destruct x; cbn [holds] in *; auto; destruct H as (o & E & Ho2 & Hb & H); exists o;
  (split; [exact E|split; [exact Ho2|split]]).
  1, 3, 5: intros L; pose proof (run_blen _ _ _ _ _ I Ho Hr R L) as X; specialize (Hb ltac:(lia)); lia.
  all: intros later b zs Hl Hrl Rl L u Eu; eapply (led_later ops), (H (ops ++ later) b (ys ++ zs)); eauto;
    [rewrite calls_ok_app, Ho, Hl; reflexivity|rewrite no_reset_app, Hr, Hrl; reflexivity|rewrite run_app, R; cbn [bind]; rewrite Rl; reflexivity].
Qed.

Definition written (x : tree) : Prop := forall ty before xs b0 b1 a,
  calls_ok before = true -> closed before = true -> program h c before = Val (b0, xs) ->
  x = TreeNone \/ typed lim x ty -> put h b0 x = Val (b1, a) ->
  exists ops ys, run h b0 ops = Val (b1, ys) /\ calls_ok ops = true /\ no_reset ops = true /\ closed ops = true /\
    holds b1 ty x a.

Lemma all_written ts : Forall written ts -> forall tys before xs b0 b1 l,
  calls_ok before = true -> closed before = true -> program h c before = Val (b0, xs) ->
  Forall2 (fun x ty => x = TreeNone \/ typed lim x ty) ts tys -> put_all h b0 ts = Val (b1, l) ->
  exists ops ys, run h b0 ops = Val (b1, ys) /\ calls_ok ops = true /\ no_reset ops = true /\ closed ops = true /\
    length l = length ts /\
    forall i x ty a, nth_error ts i = Some x -> nth_error tys i = Some ty -> nth_error l i = Some a -> holds b1 ty x a.
Proof.
  induction 1 as [|x ts Hx _ IH]; intros tys before xs b0 b1 l Ho Hcl H T P; cbn [put_all] in P.
  - injection P as <- <-. exists [], []. do 5 (split; [reflexivity|]). intros [|i] y ty a Hy; discriminate Hy.
  - inversion T as [|? ty ? tys' T1 T2]; subst. apply bind_Val in P as ([b2 a] & P1 & P). apply bind_Val in P as ([b3 l'] & P2 & P).
    assert (b3 = b1) by congruence. assert (l = a :: l') by congruence. subst b3 l. clear P.
    destruct (Hx _ _ _ _ _ _ Ho Hcl H T1 P1) as (ops1 & ys1 & R1 & O1 & N1 & C1 & Q1).
    assert (Oc : calls_ok (before ++ ops1) = true) by (rewrite calls_ok_app, Ho, O1; reflexivity).
    assert (Cc : closed (before ++ ops1) = true) by (rewrite closed_app; auto).
    pose proof (program_run _ _ _ _ _ _ _ _ H R1) as H2.
    destruct (IH _ _ _ _ _ _ Oc Cc H2 T2 P2) as (ops2 & ys2 & R2 & O2 & N2 & C2 & L2 & Q2).
    exists (ops1 ++ ops2), (ys1 ++ ys2). split; [rewrite run_app, R1; cbn [bind]; rewrite R2; reflexivity|].
    split; [rewrite calls_ok_app, O1, O2; reflexivity|]. split; [rewrite no_reset_app, N1, N2; reflexivity|].
    split; [rewrite closed_app; auto|]. split; [cbn [length]; lia|].
    intros [|i] y ty' a' Hy Hty Ha; cbn [nth_error] in *.
    + injection Hy as <-. injection Hty as <-. injection Ha as <-.
      eapply holds_later; eauto. eapply program_inv; [exact Hc|apply calls_ok_ops; exact Oc|exact H2].
    + eauto.
Qed.

(** ** Leaves *)
Lemma used_res b o : inv b -> o = as_u32 (used_space b) -> 0 <= o < 2 ^ 32 /\ o <= blen (unfinished_data b).
Proof.
  intros I ->. rewrite (inv_used _ I). pose proof (blen_nonneg (unfinished_data b)). split.
  - unfold as_u32. apply Z.mod_pos_bound. lia.
  - apply as_u32_le. lia.
Qed.
Lemma push_res b x b' o : push h b x = Val (b', o) -> o = as_u32 (used_space b').
Proof. unfold push. intros H. repeat (apply bind_Val in H as (? & _ & H)). congruence. Qed.

Lemma string_written s : written (TreeStr s).
Proof.
  intros ty before xs b0 b1 a Ho Hcl H [E|T] P; [discriminate E|]. cbn [typed] in T. destruct T as (U & Ls & ->).
  cbn [put] in P. apply bind_Val in P as ([b2 o] & P & E). assert (b2 = b1) by congruence. assert (a = Some (POffset o)) by congruence. subst b2 a.
  assert (Ok : op_ok (OpCreateString s) = true) by (cbn [op_ok]; lia).
  assert (R : run h b0 [OpCreateString s] = Val (b1, [ONum o])).
  { cbn [run step]. unfold with_num. rewrite P. reflexivity. }
  assert (Oc : calls_ok [OpCreateString s] = true) by (unfold calls_ok; cbn [forallb op_slots]; rewrite Ok; reflexivity).
  assert (I1 : inv b1).
  { eapply program_inv; [exact Hc| |exact (program_run _ _ _ _ _ _ _ _ H R)]. apply calls_ok_ops. rewrite calls_ok_app, Ho. exact Oc. }
  assert (Er : o = as_u32 (used_space b1)).
  { unfold create_string, create_byte_string in P. repeat (apply bind_Val in P as (? & _ & P)).
    repeat match type of P with
    | bind _ _ = Val _ => apply bind_Val in P as (? & _ & P)
    | (let (_, _) := ?p in _) = Val _ => destruct p
    end. congruence. }
  destruct (used_res _ _ I1 Er) as [R1 R2].
  exists [OpCreateString s], [ONum o]. split; [exact R|]. split; [exact Oc|]. split; [reflexivity|]. split; [reflexivity|].
  cbn [holds]. exists o. split; [reflexivity|]. split; [exact R1|]. split; [auto|].
  intros later b zs Hl Hr Rl L u Eu. assert (u = FStr) by congruence. subst u.
  assert (Pr : program h c (before ++ [OpCreateString s] ++ later) = Val (b, xs ++ [ONum o] ++ zs)).
  { eapply program_run; [exact H|]. rewrite run_app, R. cbn [bind]. rewrite Rl. reflexivity. }
  assert (Oka : forallb op_ok (before ++ [OpCreateString s] ++ later) = true).
  { apply calls_ok_ops. rewrite !calls_ok_app, Ho, Oc, Hl. reflexivity. }
  exists (VStr s). split; [|split; [reflexivity|]]. 2: {
    intros (l & root & ident & sp & -> & Hi). split; [|exact Logic.I].
    pose proof (run_blen _ _ _ _ _ I1 Hl Hr Rl L) as Bl. rewrite no_reset_app in Hr. apply andb_true_iff in Hr as [Hr _].
    destruct (objects_aligned h c before (OpCreateString s) l root ident sp b xs (ONum o) zs) as [_ Al]; auto.
    - unfold program in H. apply bind_Val in H as (? & _ & H). eapply run_length; eauto.
    - clear - L. lia.
    - apply al_str; [unfold usize_ok; clear - R1 R2 Bl L; lia|]. apply Al. cbn [placed]. left. reflexivity. }
  eapply (string_round_trip h hr c before s later b xs o zs); auto.
  - unfold program in H. apply bind_Val in H as (? & _ & H). eapply run_length; eauto.
  - lia.
Qed.

(** ** Vectors *)
Definition item_of (a : garg) : pval := match a with Some v => v | None => POffset 0 end.

Lemma num_items t e xs : elem_pty e = Some (PTScalar t) -> Forall (fun x => typed lim x e) xs ->
  exists vs, xs = map (TreeNum t) vs /\ forallb (valid_scalar t) vs = true /\
    (e = FScalar t \/ exists al, e = FEnum t al /\ Forall (fun v => In v al) vs).
Proof.
  intros E H. induction H as [|x xs Hx _ IH].
  - exists []. split; [reflexivity|]. split; [reflexivity|]. destruct e; try discriminate E; cbn [elem_pty] in E.
    + left. congruence.
    + right. match goal with |- context [FEnum _ ?l = _] => exists l end. split; [congruence|constructor].
  - destruct IH as (vs & -> & V & K). destruct x as [ |t' v|s|t' l|gs l].
    + destruct Hx.
    + cbn [typed] in Hx. destruct Hx as [V1 D].
      assert (t' = t /\ (e = FScalar t \/ exists al, e = FEnum t al /\ In v al)) as [-> D'].
      { destruct D as [->|(al & -> & I)]; cbn [elem_pty] in E; assert (t' = t) by congruence; subst; split; eauto. }
      exists (v :: vs). split; [reflexivity|]. split; [cbn [forallb]; rewrite V1, V; reflexivity|].
      destruct D' as [->|(al & -> & I)]; [left; reflexivity|]. right. exists al. split; [reflexivity|]. constructor; auto.
      destruct K as [K|(al' & K & F)]; [discriminate K|]. assert (al' = al) by congruence. subst. exact F.
    + cbn [typed] in Hx. destruct Hx as (_ & _ & ->). discriminate E.
    + apply typed_vec in Hx as (e' & -> & _). discriminate E.
    + apply typed_table in Hx as (-> & _). discriminate E.
Qed.

Lemma Forall2_repeat {A B} (R : A -> B -> Prop) (y : B) l : Forall (fun x => R x y) l -> Forall2 R l (repeat y (length l)).
Proof. induction 1; cbn [repeat length]; constructor; auto. Qed.
Lemma nth_repeat {A B} (y : B) (l : list A) i x : nth_error l i = Some x -> nth_error (repeat y (length l)) i = Some y.
Proof. revert i. induction l; intros [|i] H; cbn [repeat length nth_error] in *; try discriminate; eauto. Qed.

Lemma num_list b1 t vs : forall l, length l = length vs ->
  (forall i x a, nth_error (map (TreeNum t) vs) i = Some x -> nth_error l i = Some a -> holds b1 (FScalar t) x a) ->
  map item_of l = map (PScalar t) vs.
Proof.
  induction vs as [|v vs IH]; intros [|a l] L H; try discriminate L; cbn [map]; [reflexivity|]. f_equal.
  - specialize (H O _ _ eq_refl eq_refl). cbn [holds] in H. subst a. reflexivity.
  - apply IH; [cbn in L; lia|]. intros i x a' Hx Ha. exact (H (S i) x a' Hx Ha).
Qed.

Lemma off_list b1 u xs : Forall (fun x => typed lim x (FUOffset u)) xs -> forall l, length l = length xs ->
  (forall i x a, nth_error xs i = Some x -> nth_error l i = Some a -> holds b1 (FUOffset u) x a) ->
  exists offs, map item_of l = map POffset offs /\ length offs = length xs /\
    (blen (unfinished_data b1) < 2 ^ 31 -> Forall (fun o => o <= blen (unfinished_data b1)) offs) /\ Forall (fun o => 0 <= o < 2 ^ 32) offs /\
    forall later b zs, calls_ok later = true -> no_reset later = true -> run h b1 later = Val (b, zs) ->
      blen (unfinished_data b) < 2 ^ 31 ->
      Forall2 (led later (unfinished_data b) u) xs offs.
Proof.
  induction 1 as [|x xs Hx _ IH]; intros [|a l] L H; try discriminate L.
  - exists []. split; [reflexivity|]. split; [reflexivity|]. split; [constructor|]. split; [constructor|]. constructor.
  - destruct (IH l) as (offs & E & Lo & B & U & S); [cbn in L; lia|intros i y a' Hy Ha; exact (H (Datatypes.S i) y a' Hy Ha)|].
    specialize (H O _ _ eq_refl eq_refl).
    assert (X : exists o, a = Some (POffset o) /\ 0 <= o < 2 ^ 32 /\
      (blen (unfinished_data b1) < 2 ^ 31 -> o <= blen (unfinished_data b1)) /\
      forall later b zs, calls_ok later = true -> no_reset later = true -> run h b1 later = Val (b, zs) ->
        blen (unfinished_data b) < 2 ^ 31 -> forall u', FUOffset u = FUOffset u' -> led later (unfinished_data b) u' x o).
    { destruct x; try exact H; [destruct Hx|]. cbn [typed] in Hx. destruct Hx as [_ [Hx|(al & Hx & _)]]; discriminate Hx. }
    destruct X as (o & -> & Ho & Hb & Hs). exists (o :: offs). cbn [map item_of length]. rewrite E. split; [reflexivity|].
    split; [lia|]. split; [auto|]. split; [auto|]. intros later b zs Hl Hr R Lb. constructor; [|eauto].
    eapply Hs; eauto.
Qed.

Lemma vector_written t xs : Forall written xs -> written (TreeVec t xs).
Proof.
  intros W ty before obs b0 b1 a Ho Hcl H [E|T] P; [discriminate E|]. apply typed_vec in T as (e & -> & Ep & Lx & T).
  rewrite put_vec in P. apply bind_Val in P as ([b2 l] & P1 & P). apply bind_Val in P as ([b3 o] & P2 & P).
  assert (b3 = b1) by congruence. assert (a = Some (POffset o)) by congruence. subst b3 a. clear P.
  change (create_vector h b2 (pty_size t) (pty_align t) (map item_of l) = Val (b1, o)) in P2.
  assert (T2 : Forall2 (fun x ty => x = TreeNone \/ typed lim x ty) xs (repeat e (length xs))).
  { apply Forall2_repeat. eapply Forall_impl; [|exact T]. intros x Hx. right. exact Hx. }
  destruct (all_written _ W _ _ _ _ _ _ Ho Hcl H T2 P1) as (ops & ys & R1 & O1 & N1 & C1 & L1 & Q1).
  pose proof (program_run _ _ _ _ _ _ _ _ H R1) as H2.
  assert (Oc : calls_ok (before ++ ops) = true) by (rewrite calls_ok_app, Ho, O1; reflexivity).
  assert (I2 : inv b2) by (eapply program_inv; [exact Hc|apply calls_ok_ops; exact Oc|exact H2]).
  set (items := map item_of l) in *.
  assert (Li : blen items = blen xs) by (unfold items, blen; rewrite map_length, L1; reflexivity).
  assert (R2 : run h b2 [OpCreateVector t items] = Val (b1, [ONum o])).
  { cbn [run step]. unfold with_num. rewrite P2. reflexivity. }
  assert (Ok : forallb (fun x => pval_ok x && pty_eqb (pty_of x) t) items = true ->
    calls_ok [OpCreateVector t items] = true).
  { intros F. unfold calls_ok. cbn [forallb op_slots op_ok]. rewrite F, Li. replace (blen xs * pty_size t <? 2 ^ 63) with true by lia. reflexivity. }
  assert (Er : o = as_u32 (used_space b1)).
  { unfold create_vector in P2. apply bind_Val in P2 as (? & _ & P2). apply bind_Val in P2 as (? & _ & P2).
    apply bind_Val in P2 as (? & _ & P2). eapply push_res. exact P2. }
  assert (Lobs : length (obs ++ ys) = length (before ++ ops)).
  { unfold program in H2. apply bind_Val in H2 as (? & _ & H2). eapply run_length; eauto. }
  assert (U0 : 0 <= o).
  { rewrite Er. unfold as_u32. apply Z.mod_pos_bound. lia. }
  assert (Main : calls_ok [OpCreateVector t items] = true ->
    (forall later b zs, calls_ok later = true -> no_reset later = true -> run h b1 later = Val (b, zs) ->
      blen (unfinished_data b) < 2 ^ 31 ->
      let D := unfinished_data b in
      le_at D (blen D - o) 4 (blen xs) /\
      Forall2 (fun x r => exists w, r = Val w /\ shows_all hr D x w) xs (elements hr e D (blen D - o) (blen xs)) /\
      (ends later -> 0 <= blen D - o -> (blen D - o) mod 4 = 0 -> (blen D - o + 4) mod natural t = 0 ->
       forall i x, nth_error xs i = Some x -> let at_ := blen D - o + 4 + size_of e * Z.of_nat i in
         runs aligned eq (r_follow hr e (whole_of D) at_) (follow hr e D at_) /\
         forall v, follow hr e D at_ = Val v -> reads_aligned hr D x v)) ->
    exists ops0 ys0, run h b0 ops0 = Val (b1, ys0) /\ calls_ok ops0 = true /\ no_reset ops0 = true /\ closed ops0 = true /\
      holds b1 (FUOffset (FVector e)) (TreeVec t xs) (Some (POffset o))).
  { intros Ov F. exists (ops ++ [OpCreateVector t items]), (ys ++ [ONum o]).
    assert (R : run h b0 (ops ++ [OpCreateVector t items]) = Val (b1, ys ++ [ONum o])).
    { rewrite run_app, R1. cbn [bind]. rewrite R2. reflexivity. }
    assert (I1 : inv b1).
    { eapply program_inv; [exact Hc| |exact (program_run _ _ _ _ _ _ _ _ H2 R2)]. apply calls_ok_ops. rewrite calls_ok_app, Oc. exact Ov. }
    destruct (used_res _ _ I1 Er) as [U1 U2].
    split; [exact R|]. split; [rewrite calls_ok_app, O1; exact Ov|]. split; [rewrite no_reset_app, N1; reflexivity|].
    split; [rewrite closed_app by auto; reflexivity|]. cbn [holds]. exists o. split; [reflexivity|]. split; [exact U1|]. split; [auto|].
    intros later b zs Hl Hr Rl L u Eu. assert (u = FVector e) by congruence. subst u.
    destruct (F later b zs Hl Hr Rl L) as (F1 & F2 & F3). exists (VVector e (blen (unfinished_data b) - o)). split; [reflexivity|]. split.
    2: { intros En. split; [apply runs_same|]. pose proof (run_blen _ _ _ _ _ I1 Hl Hr Rl L) as Bl.
      specialize (F3 En). destruct En as (l' & root & ident & sp & -> & Hi). rewrite no_reset_app in Hr. apply andb_true_iff in Hr as [Hr _].
      destruct (objects_aligned h c (before ++ ops) (OpCreateVector t items) l' root ident sp b (obs ++ ys) (ONum o) zs) as [_ Al]; auto.
      { apply calls_ok_ops. rewrite calls_ok_app, Oc, calls_ok_app, Ov. exact Hl. }
      { eapply program_run; [exact H2|]. rewrite run_app, R2. cbn [bind]. rewrite Rl. reflexivity. }
      { clear - L; lia. }
      cbn [placed] in Al. unfold vector_cells in Al.
      pose proof (Al o 4 (or_introl eq_refl)) as M1. pose proof (Al (o - 4) (natural t) (or_intror (or_introl eq_refl))) as M2.
      replace (blen (unfinished_data b) - (o - 4)) with (blen (unfinished_data b) - o + 4) in M2 by (clear; lia).
      eapply reads_vec; auto.
      - clear - L Bl U1 U2. lia.
      - destruct e; try discriminate Ep; cbn [size_of]; try apply ssize_pos. reflexivity.
      - intros t' ->. cbn [elem_pty] in Ep. assert (t = PTScalar t') by congruence. subst t. exact M2.
      - apply F3; auto. clear - Bl U2. lia. }
    apply shows_all_vec. exists e, (blen (unfinished_data b) - o). split; [reflexivity|]. split; [|exact F2].
    unfold vec_len. apply u32_read; [exact F1|]. clear - L; lia. }
  destruct t as [t|].
  - destruct (num_items _ _ _ Ep T) as (vs & -> & V & K).
    assert (Ei : items = map (PScalar t) vs).
    { unfold items. apply (num_list b2).
      - rewrite map_length in L1. exact L1.
      - intros i x a Hx Ha. pose proof (Q1 i x e a Hx (nth_repeat _ _ _ _ Hx) Ha) as Q.
        rewrite nth_error_map in Hx. destruct (nth_error vs i); [|discriminate Hx]. injection Hx as <-. exact Q. }
    assert (Ov : calls_ok [OpCreateVector (PTScalar t) items] = true).
    { apply Ok. rewrite Ei. clear - V. induction vs as [|v vs IH]; [reflexivity|]. cbn [map forallb] in *.
      apply andb_true_iff in V as [V1 V2]. rewrite IH by auto. cbn [pval_ok pty_of]. rewrite V1, pty_eqb_refl. reflexivity. }
    apply Main; [exact Ov|]. intros later b zs Hl Hr Rl L D.
    assert (Bv : blen (map (TreeNum t) vs) = blen vs) by (unfold blen; rewrite map_length; reflexivity). rewrite Bv.
    rewrite Ei in *.
    destruct (vector_round_trip h hr c (before ++ ops) t vs later b (obs ++ ys) o zs) as (A1 & A2 & A3); auto.
    + apply calls_ok_ops. rewrite calls_ok_app, Oc, calls_ok_app, Ov, Hl. reflexivity.
    + eapply program_run; [exact H2|]. rewrite run_app, R2. cbn [bind]. rewrite Rl. reflexivity.
    + clear - L; lia.
    + fold D in A1, A2, A3. split; [exact A1|]. split. 2: {
        intros _ P0 _ M2 i x Hx at_.
        assert (Si : size_of e = ssize t) by (destruct K as [->|(al & -> & _)]; reflexivity).
        assert (M : at_ mod ssize t = 0).
        { unfold at_. rewrite Si, (Z.mul_comm (ssize t)), Z_mod_plus_full. exact M2. }
        assert (Ua : usize_ok at_).
        { destruct (u32_read hr _ _ _ A1 ltac:(change (blen D < 2 ^ 31) in L; clear - L; lia)) as (_ & R32 & _). change (blen D < 2 ^ 31) in L.
          assert (Il : (i < length (map (TreeNum t) vs))%nat) by (apply nth_error_Some; congruence). rewrite map_length in Il.
          unfold usize_ok, at_. rewrite Si. pose proof (ssize_le8 t) as S8. pose proof (ssize_pos t) as S0. unfold blen at 2 in R32.
          clear - P0 L R32 Il S8 S0 U0. nia. }
        split; [destruct K as [->|(al & -> & _)]; [apply al_scalar|apply al_enum]; auto|].
        rewrite nth_error_map in Hx. destruct (nth_error vs i); [|discriminate Hx]. injection Hx as <-. intros; exact Logic.I. }
      destruct K as [->|(al & -> & F)].
      * rewrite A2. clear. induction vs; cbn [map]; constructor; auto. eexists. split; [reflexivity|]. cbn [shows_all]. right. eauto.
      * rewrite A3 by exact F. clear. induction vs; cbn [map]; constructor; auto. eexists. split; [reflexivity|]. cbn [shows_all]. left. reflexivity.
  - destruct e as [ | | | | | |u| | | | | | | ]; try discriminate Ep.
    destruct (off_list b2 u xs T l L1) as (offs & Ei & Lo & Bo & Uo & So).
    { intros i x a Hx Ha. exact (Q1 i x _ a Hx (nth_repeat _ _ _ _ Hx) Ha). }
    fold items in Ei.
    assert (Ov : calls_ok [OpCreateVector PTOffset items] = true).
    { apply Ok. rewrite Ei. clear - Uo. induction Uo as [|v vs U _ IH]; [reflexivity|]. cbn [map forallb]. rewrite IH.
      cbn [pval_ok pty_of pty_eqb]. clear - U. lia. }
    apply Main; [exact Ov|]. intros later b zs Hl Hr Rl L D.
    assert (Bv : blen xs = blen offs) by (unfold blen; rewrite Lo; reflexivity). rewrite Bv.
    assert (Rl2 : run h b2 ([OpCreateVector PTOffset items] ++ later) = Val (b, [ONum o] ++ zs)).
    { rewrite run_app, R2. cbn [bind]. rewrite Rl. reflexivity. }
    assert (Ol : calls_ok ([OpCreateVector PTOffset items] ++ later) = true) by (rewrite calls_ok_app, Ov; exact Hl).
    assert (Nl : no_reset ([OpCreateVector PTOffset items] ++ later) = true) by (rewrite no_reset_app; exact Hr).
    pose proof (run_blen _ _ _ _ _ I2 Ol Nl Rl2 L) as B2.
    destruct (offset_vector_round_trip h hr c (before ++ ops) offs later b (obs ++ ys) o zs) as (A1 & A2); auto.
    + rewrite <- Ei. apply calls_ok_ops. rewrite calls_ok_app, Oc. exact Ol.
    + rewrite <- Ei. eapply program_run; [exact H2|exact Rl2].
    + clear - L; lia.
    + intros b0' ys' H0'. rewrite H2 in H0'. assert (b0' = b2) by congruence. subst b0'. apply Bo. clear - L B2; lia.
    + fold D in A1, A2. specialize (So _ _ _ Ol Nl Rl2 L). fold D in So. split; [exact A1|]. split.
      { rewrite A2. clear - So. induction So as [|x o' xs offs (w & F & S & _) _ IH]; cbn [map]; constructor; [exists w; auto|exact IH]. }
      intros En P0 M1 _ i x Hx at_. destruct (nth_same xs offs i x (eq_sym Lo) Hx) as (o' & Ho').
      destruct (Forall2_nth _ _ _ So i x o' Hx Ho') as (w & Fw & _ & Aw). destruct (Aw (ends_later _ _ En)) as [Aw1 Aw2].
      assert (Il : (i < length offs)%nat) by (apply nth_error_Some; congruence).
      destruct (u32_read hr _ _ _ A1 ltac:(change (blen D < 2 ^ 31) in L; clear - L; lia)) as (_ & R32 & _). change (blen D < 2 ^ 31) in L. assert (Bof : blen offs = Z.of_nat (length offs)) by reflexivity.
      assert (Cell : forall T, follow hr (FUOffset T) D at_ = follow hr T D (blen D - o')).
      { intros T0. unfold at_. change (size_of (FUOffset u)) with (size_of (FUOffset T0)).
        rewrite <- (vec_get_cell hr (FUOffset T0) D (blen D - o) (blen offs) (Z.of_nat i) A1);
          [|unfold blen; clear - Il; lia|reflexivity|clear - L; lia].
        specialize (A2 T0). unfold elements in A2. apply (f_equal (fun l => nth_error l i)) in A2.
        rewrite !nth_error_map, Ho' in A2. rewrite zseq_nth in A2 by (unfold blen; clear - Il; lia). cbn [option_map] in A2. rewrite Z.add_0_l in A2. congruence. }
      assert (Ua : usize_ok at_ /\ at_ mod 4 = 0).
      { unfold usize_ok, at_. cbn [size_of]. clear - P0 L R32 Il M1 U0 Bof. split; [lia|]. clear - M1. 
        replace (blen D - o + 4 + 4 * Z.of_nat i) with (blen D - o + (1 + Z.of_nat i) * 4) by lia. rewrite Z_mod_plus_full. exact M1. }
      split.
      * apply al_ref; [apply Ua|apply Ua|]. intros l' _ E. rewrite Cell in E. cbn [follow] in E.
        assert (l' = blen D - o') by congruence. subst l'. exact Aw1.
      * intros v Ev. rewrite Cell, Fw in Ev. assert (v = w) by congruence. subst v. exact Aw2.
Qed.

(** ** Tables *)
Definition field_ty (gs : list gfield) (xs : list tree) (g : gfield) : fty :=
  match g_kind g with
  | GScalar t _ => FScalar t
  | GEnum t vs _ => FEnum t vs
  | GRef ty => ty
  | GUnion tslot _ _ _ arms =>
      match tag gs xs tslot with
      | Some n => match find_arm n arms with Some t => t | None => FTable end
      | None => FTable
      end
  end.

Lemma typed_field_ty gs xs g x : typed_field lim gs xs g x -> x = TreeNone \/ typed lim x (field_ty gs xs g).
Proof.
  unfold typed_field, field_ty. destruct (g_kind g) as [t d|t vs d|t|tslot tb tvs td arms]; auto.
  - intros [[-> _]|T]; auto.
  - intros [[-> _]|(n & u & E & F & T)]; auto. rewrite E, F. auto.
Qed.

(** A number is stored where a number is expected. *)
Lemma typed_scalar x t : typed lim x (FScalar t) -> exists v, x = TreeNum t v /\ valid_scalar t v = true.
Proof.
  destruct x as [ |t' v|s|t' l|gs l]; cbn [typed]; intros H.
  - destruct H.
  - destruct H as [V [E|(al & E & _)]]; [|discriminate E]. assert (t' = t) by congruence. subst. eauto.
  - destruct H as (_ & _ & E). discriminate E.
  - destruct H as (e & E & _). discriminate E.
  - destruct H as (E & _). discriminate E.
Qed.
Lemma typed_enum x t al : typed lim x (FEnum t al) -> exists v, x = TreeNum t v /\ valid_scalar t v = true /\ In v al.
Proof.
  destruct x as [ |t' v|s|t' l|gs l]; cbn [typed]; intros H.
  - destruct H.
  - destruct H as [V [E|(al' & E & I)]]; [discriminate E|]. assert (t' = t) by congruence. assert (al' = al) by congruence. subst. eauto.
  - destruct H as (_ & _ & E). discriminate E.
  - destruct H as (e & E & _). discriminate E.
  - destruct H as (E & _). discriminate E.
Qed.
(** A reference where a reference is expected. *)
Lemma holds_offset b1 x u a : typed lim x (FUOffset u) -> holds b1 (FUOffset u) x a ->
  exists o, a = Some (POffset o) /\ 0 <= o < 2 ^ 32 /\
      (blen (unfinished_data b1) < 2 ^ 31 -> o <= blen (unfinished_data b1)) /\
      forall later b zs, calls_ok later = true -> no_reset later = true -> run h b1 later = Val (b, zs) ->
        blen (unfinished_data b) < 2 ^ 31 -> led later (unfinished_data b) u x o.
Proof.
  intros T H. destruct x as [ |t' v|s|t' l|gs l].
  - destruct T.
  - cbn [typed] in T. destruct T as [_ [E|(al & E & _)]]; discriminate E.
  - cbn [holds] in H. destruct H as (o & A & B & C & F). exists o. repeat (split; [assumption|]). intros later b zs H1 H2 H3 H4. eapply F; eauto.
  - cbn [holds] in H. destruct H as (o & A & B & C & F). exists o. repeat (split; [assumption|]). intros later b zs H1 H2 H3 H4. eapply F; eauto.
  - cbn [holds] in H. destruct H as (o & A & B & C & F). exists o. repeat (split; [assumption|]). intros later b zs H1 H2 H3 H4. eapply F; eauto.
Qed.

Lemma args_ok_intro gs : forall l, length l = length gs ->
  (forall i g a, nth_error gs i = Some g -> nth_error l i = Some a -> arg_ok g a = true) -> args_ok gs l = true.
Proof.
  induction gs as [|g gs IH]; intros [|a l] L H; try discriminate L; [reflexivity|]. cbn [args_ok].
  rewrite (H O g a eq_refl eq_refl). apply IH; [cbn in L; lia|]. intros i g' a'. exact (H (S i) g' a').
Qed.

Lemma tag_nth gs : forall xs slot n, tag gs xs slot = Some n ->
  exists j g t, nth_error gs j = Some g /\ g_slot g = slot /\ nth_error xs j = Some (TreeNum t n).
Proof.
  induction gs as [|g gs IH]; intros [|x xs] slot n H; cbn [tag] in H; try discriminate H.
  destruct (g_slot g =? slot) eqn:E.
  - destruct x; try discriminate H. assert (v = n) by congruence. subst. apply Z.eqb_eq in E.
    exists O, g, t. auto.
  - destruct (IH _ _ _ H) as (j & g' & t & A & B & C). exists (S j), g', t. auto.
Qed.

Lemma generated_facts gs : generated lim gs -> fields_wf 0 gs /\ blen gs <= lim /\
  forall i f tslot tb tvs td arms, nth_error gs i = Some f -> g_kind f = GUnion tslot tb tvs td arms ->
    exists j, nth_error gs j = Some (GField tslot (GEnum tb tvs td) (g_req f)).
Proof.
  intros (fl & snake & hg & fs & F & D & L & G).
  pose proof (gen_table_companion fl snake hg fs gs) as Q.
  assert (G2 := G). unfold gen_table in G2. destruct (_ && _); [|discriminate G2].
  destruct (gen_fields_wf fl snake hg fs fs F 0 gs D ltac:(lia) ltac:(clear - L Hlim; lia) G2) as (W & Lg & _).
  split; [exact W|]. split; [unfold blen in *; rewrite Lg; exact L|].
  intros i f tslot tb tvs td arms Hf K. eapply Q; eauto. clear - L Hlim. lia.
Qed.

Lemma table_args gs xs l b2 : fields_wf 0 gs -> length gs = length xs -> length l = length xs ->
  (forall i g x a, nth_error gs i = Some g -> nth_error xs i = Some x -> nth_error l i = Some a ->
     typed_field lim gs xs g x /\ holds b2 (field_ty gs xs g) x a) -> args_ok gs l = true.
Proof.
  intros W Lxs L1 Q1. apply args_ok_intro; [congruence|]. intros i g a Hg Ha.
    destruct (nth_same gs xs i g Lxs Hg) as (x & Hx). destruct (Q1 _ _ _ _ Hg Hx Ha) as [Tf Hh].
    unfold typed_field in Tf. unfold field_ty in Hh. unfold arg_ok. destruct (g_kind g) as [t d|t vs d|t|tslot tb tvs td arms] eqn:K.
    - apply typed_scalar in Tf as (v & -> & V). cbn [holds] in Hh. subst a. rewrite pty_eqb_refl, V. reflexivity.
    - apply typed_enum in Tf as (v & -> & V & I). cbn [holds] in Hh. subst a. rewrite pty_eqb_refl. apply mem_z_In. exact I.
    - destruct Tf as [[-> Rq]|Tf]; [cbn [holds] in Hh; subst a; rewrite Rq; reflexivity|].
      destruct (W _ _ Hg) as [_ Kw]. rewrite K in Kw. destruct Kw as (u & ->).
      destruct (holds_offset _ _ _ _ Tf Hh) as (o' & -> & U & _). unfold u32_ok. clear - U. lia.
    - destruct Tf as [[-> Rq]|(n & u & E1 & E2 & Tf)]; [cbn [holds] in Hh; subst a; rewrite Rq; reflexivity|].
      rewrite E1, E2 in Hh. destruct (holds_offset _ _ _ _ Tf Hh) as (o' & -> & U & _). unfold u32_ok. clear - U. lia.
Qed.

Lemma table_written gs xs : Forall written xs -> written (TreeTable gs xs).
Proof.
  intros Wr ty before obs b0 b1 a Ho Hcl H [E|T] P; [discriminate E|]. apply typed_table in T as (-> & G & T).
  destruct (generated_facts _ G) as (W & Lg & Comp).
  rewrite put_table in P. apply bind_Val in P as ([b2 l] & P1 & P). apply bind_Val in P as ([b3 o] & P2 & P).
  assert (b3 = b1) by congruence. assert (a = Some (POffset o)) by congruence. subst b3 a. clear P.
  assert (Lxs : length gs = length xs) by (clear - T; induction T; cbn [length]; congruence).
  assert (T2 : Forall2 (fun x ty => x = TreeNone \/ typed lim x ty) xs (map (field_ty gs xs) gs)).
  { apply nth_Forall2; [rewrite map_length; congruence|]. intros i x t Hx Ht. rewrite nth_error_map in Ht.
    destruct (nth_error gs i) as [g|] eqn:Hg; [|discriminate Ht]. injection Ht as <-.
    apply typed_field_ty. exact (Forall2_nth _ _ _ T i g x Hg Hx). }
  destruct (all_written _ Wr _ _ _ _ _ _ Ho Hcl H T2 P1) as (ops & ys & R1 & O1 & N1 & C1 & L1 & Q0).
  assert (Q1 : forall i g x a, nth_error gs i = Some g -> nth_error xs i = Some x -> nth_error l i = Some a ->
     typed_field lim gs xs g x /\ holds b2 (field_ty gs xs g) x a).
  { intros i g x a Hg Hx Ha. split; [exact (Forall2_nth _ _ _ T i g x Hg Hx)|].
    apply (Q0 i x _ a Hx); auto. rewrite nth_error_map, Hg. reflexivity. }
  clear Q0 T2. pose proof (program_run _ _ _ _ _ _ _ _ H R1) as H2.
  assert (Oc : calls_ok (before ++ ops) = true) by (rewrite calls_ok_app, Ho, O1; reflexivity).
  assert (Cc : closed (before ++ ops) = true) by (rewrite closed_app; auto).
  assert (I2 : inv b2) by (eapply program_inv; [exact Hc|apply calls_ok_ops; exact Oc|exact H2]).
  assert (Lgs : blen gs <= 32765) by (clear - Lg Hlim; lia).
  assert (A : args_ok gs l = true) by (eapply table_args; eauto).
  pose proof (create_size _ _ _ _ _ _ I2 W Lgs A P2) as Sz.
  pose proof (gen_create_u32 _ _ _ _ _ _ P2) as Uo.
  assert (Sep : debug h = true \/ o - blen (unfinished_data b2) < 2 ^ 16).
  { destruct Hsmall as [S|S]; [left; exact S|right]. clear - S Sz Lg. lia. }
  destruct (gen_create_run _ _ _ _ _ _ P2) as (gy & gz & Lgy & Rg). rewrite (inv_used _ I2) in Rg.
  set (start := as_u32 (blen (unfinished_data b2))) in *.
  set (mid := [OpStartTable] ++ add_ops gs l ++ [OpEndTable start] ++ required_ops o gs) in *.
  assert (Om : calls_ok mid = true).
  { unfold mid. rewrite !calls_ok_app, (add_ops_ok gs 0 l ltac:(lia) ltac:(clear - Lgs; lia) W A),
      (required_ops_ok o gs 0 Uo ltac:(lia) ltac:(clear - Lgs; lia) W).
    unfold calls_ok. cbn [forallb op_ok op_slots]. unfold u32_ok, start, as_u32.
    pose proof (Z.mod_pos_bound (blen (unfinished_data b2)) (2 ^ 32) ltac:(lia)) as X. clear - X. lia. }
  assert (Nm : no_reset mid = true).
  { unfold mid. rewrite !no_reset_app, add_ops_no_reset, required_ops_no_reset. reflexivity. }
  assert (Cm : closed mid = true).
  { unfold mid. rewrite app_assoc. apply closed_end. }
  assert (R : run h b0 (ops ++ mid) = Val (b1, ys ++ [ONum start] ++ gy ++ [ONum o] ++ gz)).
  { rewrite run_app, R1. cbn [bind]. rewrite Rg. reflexivity. }
  exists (ops ++ mid), (ys ++ [ONum start] ++ gy ++ [ONum o] ++ gz).
  split; [exact R|]. split; [rewrite calls_ok_app, O1; exact Om|]. split; [rewrite no_reset_app, N1; exact Nm|].
  split; [rewrite closed_app; auto|]. cbn [holds]. exists o. split; [reflexivity|]. split; [exact Uo|]. split.
  - intros L.
    destruct (create_program h c (before ++ ops) (obs ++ ys) b2 gs l b1 o [] b1 []) as (ys' & zs' & Lx' & Ly' & K' & Nr' & Hs' & P'); auto.
    destruct (table_program_facts _ _ _ _ _ _ _ _ _ _ _ Hc K' Cc (add_ops_in_table _ _) Nr' P' Lx' Ly')
      as (? & ? & ? & ? & _ & _ & _ & _ & _ & _ & _ & _ & _ & _ & _ & X); [clear - L; lia|exact X].
  - intros later b zs Hl Hr Rl L u Eu. assert (u = FTable) by congruence. subst u.
    set (D := unfinished_data b) in *. exists (VTable (blen D - o)). split; [reflexivity|].
    pose proof (create_reads h hr c (before ++ ops) (obs ++ ys) b2 gs l b1 o later b zs Hc Oc Cc H2 W Lgs A P2 Hl Hr Rl L Sep) as Cr.
    fold D in Cr.
    assert (Rl2 : run h b2 (mid ++ later) = Val (b, ([ONum start] ++ gy ++ [ONum o] ++ gz) ++ zs)).
    { rewrite run_app, Rg. cbn [bind]. rewrite Rl. reflexivity. }
    assert (Ol : calls_ok (mid ++ later) = true) by (rewrite calls_ok_app, Om; exact Hl).
    assert (Nl : no_reset (mid ++ later) = true) by (rewrite no_reset_app, Nm; exact Hr).
    pose proof (run_blen _ _ _ _ _ I2 Ol Nl Rl2 L) as B2. fold D in B2.
    split.
    2: { intros En. split; [apply runs_same|]. pose proof (ends_later mid later En) as En2.
      destruct En as (l' & root & ident & sp & -> & Hi). pose proof Hr as Hr'. rewrite no_reset_app in Hr'. apply andb_true_iff in Hr' as [Hr' _].
      pose proof (create_seated h hr c (before ++ ops) (obs ++ ys) b2 gs l b1 o l' root ident sp b zs Hc Oc Cc H2 W Lgs A P2 Hl Hr' Rl L Sep Hi) as St.
      fold D in St. destruct St as [[St1 St2] (vt & Vt & Ve & Vf)].
      assert (Sl : forall i g, nth_error gs i = Some g -> g_slot g mod 2 = 0).
      { intros i g Hg. destruct (W _ _ Hg) as [S1 _]. rewrite S1. clear. lia. }
      assert (TG : forall i g a t d, nth_error gs i = Some g -> nth_error l i = Some a ->
        (forall y e, a = Some y -> (blen D - o + e) mod natural (pty_of y) = 0 -> usize_ok (blen D - o + e) ->
           vt_get hr D vt (g_slot g) = Val (Some e) -> e <> 0 ->
           runs aligned eq (r_follow hr t (whole_of D) (blen D - o + e)) (follow hr t D (blen D - o + e))) ->
        runs aligned eq (r_table_get hr (whole_of D) (blen D - o) (g_slot g) t d) (table_get hr D (blen D - o) (g_slot g) t d)).
      { intros i g a t d Hg Ha X. eapply al_table_get; eauto. intros e Ge Ne Ue. destruct (Vf _ _ _ _ Hg Ha Ge Ne) as (y & Ey & My). eauto. }
      assert (RG : forall i g x u o' d, nth_error gs i = Some g -> nth_error l i = Some (Some (POffset o')) -> o' <= blen (unfinished_data b2) ->
        led (mid ++ l' ++ [OpFinish root ident sp]) D u x o' ->
        runs aligned eq (r_table_get hr (whole_of D) (blen D - o) (g_slot g) (FUOffset u) d) (table_get hr D (blen D - o) (g_slot g) (FUOffset u) d)).
      { intros i g x u o' d Hg Ha Bo (w & Fw & _ & Aw). destruct (Aw En2) as [Aw1 _]. eapply TG; eauto.
        intros y e Ey My Ue Ge Ne. assert (y = POffset o') by congruence. subst y. cbn [pty_of natural] in My.
        apply al_ref; [exact Ue|exact My|]. intros l2 _ El. 
        pose proof (cr_offset _ _ _ _ _ _ _ Cr) as Co. specialize (Co i g o' FTable None Hg Ha Bo).
        unfold table_get in Co. rewrite Vt in Co. cbn [bind] in Co. rewrite Ge in Co. cbn [bind] in Co.
        replace (e =? 0) with false in Co by (clear - Ne; lia).
        pose proof (vt_get_u16 hr D _ _ _ Ge) as Re. 
        rewrite usize_arith_ok in Co by (clear - St1 Re; lia). cbn [bind] in Co.
        rewrite El in Co. cbn [bind follow] in Co. assert (l2 = blen D - o') by congruence. subst l2. exact Aw1. }
      apply reads_table. intros i g x Hg Hx. destruct (nth_same xs l i x (eq_sym L1) Hx) as (a & Ha).
      destruct (Q1 _ _ _ _ Hg Hx Ha) as [Tf Hh].
      unfold typed_field in Tf. unfold field_ty in Hh. destruct (g_kind g) as [t d|t vs d|t|tslot tb tvs td arms] eqn:K.
      - apply typed_scalar in Tf as (v & -> & V). cbn [holds] in Hh. subst a. split; [|intros; exact Logic.I].
        eapply al_gen_plain; [right; left; exists t, d; eauto|]. eapply TG; eauto. intros y e Ey My Ue _ _.
        assert (y = PScalar t v) by congruence. subst y. apply al_scalar; auto.
      - apply typed_enum in Tf as (v & -> & V & I). cbn [holds] in Hh. subst a. split; [|intros; exact Logic.I].
        eapply al_gen_plain; [right; right; exists t, vs, d; eauto|]. eapply TG; eauto. intros y e Ey My Ue _ _.
        assert (y = PScalar t v) by congruence. subst y. apply al_enum; auto.
      - destruct Tf as [[-> Rq]|Tf].
        + cbn [holds] in Hh. subst a. split; [|intros; exact Logic.I].
          eapply al_gen_plain; [left; eauto|]. eapply TG; eauto. intros y e Ey. discriminate Ey.
        + destruct (W _ _ Hg) as [_ Kw]. rewrite K in Kw. destruct Kw as (u & ->).
          destruct (holds_offset _ _ _ _ Tf Hh) as (o' & -> & U & Bo & F).
          specialize (Bo ltac:(clear - B2 L; lia)). specialize (F _ _ _ Ol Nl Rl2 L). fold D in F. split.
          * eapply al_gen_plain; [left; eauto|]. eapply RG; eauto.
          * intros v Gv. rewrite (reads_ref Cr i g u o' Hg K Ha Bo) in Gv. destruct F as (w & Fw & _ & Aw). rewrite Fw in Gv. cbn [bind] in Gv.
            assert (v = GPlain w) by congruence. subst v. apply Aw. exact En2.
      - destruct (Comp _ _ _ _ _ _ _ Hg K) as (j & Hj). destruct (nth_same gs xs j _ Lxs Hj) as (xj & Hxj).
        destruct (nth_same xs l j xj (eq_sym L1) Hxj) as (aj & Haj).
        destruct (Q1 _ _ _ _ Hj Hxj Haj) as [Tj Hhj]. unfold typed_field in Tj. cbn [g_kind] in Tj.
        apply typed_enum in Tj as (n & -> & Vn & In1). cbn [holds] in Hhj. subst aj.
        destruct (reads_union Cr W A i g tslot tb tvs td arms j (GField tslot (GEnum tb tvs td) (g_req g)) tb n Hg K Hj eq_refl eq_refl Haj)
          as (V1 & V2 & V3).
        assert (Tg : runs aligned eq (r_table_get hr (whole_of D) (blen D - o) tslot (FEnum tb tvs) (option_map VEnum td))
                       (table_get hr D (blen D - o) tslot (FEnum tb tvs) (option_map VEnum td))).
        { eapply (TG j (GField tslot (GEnum tb tvs td) (g_req g))); eauto. intros y e Ey My Ue _ _.
          assert (y = PScalar tb n) by congruence. subst y. apply al_enum; auto. }
        destruct Tf as [[-> Rq]|(n' & u & E1 & E2 & Tf)].
        + cbn [holds] in Hh. subst a. split; [|intros; exact Logic.I].
          eapply al_gen_union; eauto. intros m t _ _. eapply TG; eauto. intros y e Ey. discriminate Ey.
        + rewrite E1, E2 in Hh. destruct (tag_nth _ _ _ _ E1) as (j' & g' & t' & Hj' & Sj' & Hxj').
          assert (Ej : j' = j).
          { destruct (W _ _ Hj) as [S1 _]. destruct (W _ _ Hj') as [S2 _]. cbn [g_slot] in S1. rewrite Sj' in S2. clear - S1 S2. lia. }
          subst j'. rewrite Hxj in Hxj'. assert (n' = n) by congruence. subst n'.
          destruct (holds_offset _ _ _ _ Tf Hh) as (o' & -> & U & Bo & F).
          specialize (Bo ltac:(clear - B2 L; lia)). specialize (F _ _ _ Ol Nl Rl2 L). fold D in F. split.
          * eapply al_gen_union; eauto. intros m t Gm Fm.
            destruct (reads_enum_raw Cr W A j _ tb tvs td tb n _ Hj eq_refl Haj eq_refl) as (_ & _ & Gn). cbn [g_slot] in Gn.
            rewrite Gn in Gm. assert (m = n) by congruence. subst m. rewrite E2 in Fm. assert (t = FUOffset u) by congruence. subst t.
            eapply RG; eauto.
          * intros v Gv. rewrite (V1 o' u Ha Bo E2) in Gv. destruct F as (w & Fw & _ & Aw). rewrite Fw in Gv. cbn [bind] in Gv.
            assert (v = GVariant n w) by congruence. subst v. apply Aw. exact En2. }
    apply shows_all_table. exists (blen D - o). split; [reflexivity|]. split; [exact (cr_beyond _ _ _ _ _ _ _ Cr)|]. apply nth_Forall2; [exact Lxs|].
    intros i g x Hg Hx. destruct (nth_same xs l i x (eq_sym L1) Hx) as (a & Ha).
    destruct (Q1 _ _ _ _ Hg Hx Ha) as [Tf Hh]. unfold shows_all_field.
    unfold typed_field in Tf. unfold field_ty in Hh. destruct (g_kind g) as [t d|t vs d|t|tslot tb tvs td arms] eqn:K.
    + apply typed_scalar in Tf as (v & -> & V). cbn [holds] in Hh. subst a. right.
      destruct (reads_scalar Cr A i g t d t v Hg K Ha) as (_ & w & Gw & Ew). exists (VScalar w). split; [|exact Gw].
      cbn [shows_all]. right. eauto.
    + apply typed_enum in Tf as (v & -> & V & I). cbn [holds] in Hh. subst a. right.
      destruct (reads_enum Cr W A i g t vs d t v Hg K Ha) as (_ & _ & Gw). exists (VEnum v). split; [|exact Gw].
      cbn [shows_all]. left. reflexivity.
    + destruct Tf as [[-> Rq]|Tf].
      * cbn [holds] in Hh. subst a. left. split; [|reflexivity]. exact (reads_absent Cr A i g t Hg K Ha).
      * destruct (W _ _ Hg) as [_ Kw]. rewrite K in Kw. destruct Kw as (u & ->).
        destruct (holds_offset _ _ _ _ Tf Hh) as (o' & -> & U & Bo & F). right.
        destruct (F _ _ _ Ol Nl Rl2 L) as (w & Fw & Sw & _). exists w. split; [exact Sw|].
        rewrite (reads_ref Cr i g u o' Hg K Ha). 2: { apply Bo. clear - B2 L. lia. }
        fold D in Fw. rewrite Fw. reflexivity.
    + destruct (Comp _ _ _ _ _ _ _ Hg K) as (j & Hj). destruct (nth_same gs xs j _ Lxs Hj) as (xj & Hxj).
      destruct (nth_same xs l j xj (eq_sym L1) Hxj) as (aj & Haj).
      destruct (Q1 _ _ _ _ Hj Hxj Haj) as [Tj Hhj]. unfold typed_field in Tj. cbn [g_kind] in Tj.
      apply typed_enum in Tj as (n & -> & Vn & In1). cbn [holds] in Hhj. subst aj.
      destruct (reads_union Cr W A i g tslot tb tvs td arms j (GField tslot (GEnum tb tvs td) (g_req g)) tb n Hg K Hj eq_refl eq_refl Haj)
        as (U1 & U2 & U3).
      destruct Tf as [[-> Rq]|(n' & u & E1 & E2 & Tf)].
      * cbn [holds] in Hh. subst a. left. split; [|reflexivity]. exact (U2 Ha).
      * rewrite E1, E2 in Hh. destruct (tag_nth _ _ _ _ E1) as (j' & g' & t' & Hj' & Sj' & Hxj').
        assert (Ej : j' = j).
        { destruct (W _ _ Hj) as [S1 _]. destruct (W _ _ Hj') as [S2 _]. cbn [g_slot] in S1. rewrite Sj' in S2. clear - S1 S2. lia. }
        subst j'. rewrite Hxj in Hxj'. assert (n' = n) by congruence. subst n'.
        destruct (holds_offset _ _ _ _ Tf Hh) as (o' & -> & U & Bo & F). right.
        destruct (F _ _ _ Ol Nl Rl2 L) as (w & Fw & Sw & _). exists w. split; [exact Sw|].
        rewrite E1, (U1 o' u Ha). 3: exact E2. 2: { apply Bo. clear - B2 L. lia. }
        fold D in Fw. rewrite Fw. reflexivity.
Qed.

Lemma tree_written x : written x.
Proof.
  induction x using tree_nested.
  - intros ty before obs b0 b1 a Ho Hcl H _ P. cbn [put] in P. injection P as <- <-. exists [], []. repeat (split; [reflexivity|]). reflexivity.
  - intros ty before obs b0 b1 a Ho Hcl H _ P. cbn [put] in P. injection P as <- <-. exists [], []. repeat (split; [reflexivity|]). reflexivity.
  - apply string_written.
  - apply vector_written. assumption.
  - apply table_written. assumption.
Qed.
End Trees.

(** A document, written between any other calls and finished as the root. *)
Lemma document_round_trip_all h hr c lim before xs b0 u x b1 o later b zs :
  0 <= c -> lim <= 32765 -> debug h = true \/ lim <= 8190 ->
  calls_ok before = true -> closed before = true -> program h c before = Val (b0, xs) ->
  typed lim x (FUOffset u) -> put h b0 x = Val (b1, Some (POffset o)) ->
  calls_ok later = true -> no_reset later = true -> run h b1 later = Val (b, zs) ->
  blen (unfinished_data b) < 2 ^ 31 ->
  let D := unfinished_data b in
  exists w, follow hr u D (blen D - o) = Val w /\ shows_all hr D x w.
Proof.
  intros Hc Hlim Hsm Ho Hcl H T P Hl Hr R L D.
  destruct (tree_written h hr c lim Hc Hlim Hsm x (FUOffset u) before xs b0 b1 _ Ho Hcl H (or_intror T) P) as (ops & ys & R1 & O1 & N1 & C1 & Q).
  destruct (holds_offset _ _ _ _ _ _ _ T Q) as (o' & E & _ & _ & F). assert (o' = o) by congruence. subst o'.
  destruct (F later b zs Hl Hr R L) as (w & Fw & Sw & _). exists w. auto.
Qed.

Lemma document_round_trip h hr c lim before xs b0 u x b1 o later b zs :
  0 <= c -> lim <= 32765 -> debug h = true \/ lim <= 8190 ->
  calls_ok before = true -> closed before = true -> program h c before = Val (b0, xs) ->
  typed lim x (FUOffset u) -> put h b0 x = Val (b1, Some (POffset o)) ->
  calls_ok later = true -> no_reset later = true -> run h b1 later = Val (b, zs) ->
  blen (unfinished_data b) < 2 ^ 31 ->
  let D := unfinished_data b in
  exists w, follow hr u D (blen D - o) = Val w /\ shows hr D x w.
Proof.
  intros Hc Hlim Hsm Ho Hcl H T P Hl Hr R L D.
  destruct (document_round_trip_all h hr c lim before xs b0 u x b1 o later b zs Hc Hlim Hsm Ho Hcl H T P Hl Hr R L) as (w & Fw & S).
  exists w. split; [exact Fw|]. apply shows_all_shows. exact S.
Qed.

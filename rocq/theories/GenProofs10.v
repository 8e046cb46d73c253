(** What is read determines the document. *)
From Coq Require Import ZArith List Bool Lia Strings.Byte ZifyBool ZifyNat ZifyN.
From Verif Require Import Base Scalar Reader Builder Ops BaseFacts Schema Codegen SpecReader SpecGen ReaderProofs3 GenProofs1 GenProofs3 GenProofs4.
Import ListNotations.
Local Open Scope Z_scope.

Lemma scalar_eq_meet t a b u : u = a \/ scalar_eq t a u = true -> u = b \/ scalar_eq t b u = true -> a = b \/ scalar_eq t a b = true.
Proof.
  unfold scalar_eq. intros [->|A] [->|B]; auto.
  - right. rewrite orb_comm in B. destruct (is_nan t a || is_nan t b); [discriminate|]. rewrite orb_true_iff, andb_true_iff in *.
    destruct B as [B|[B1 B2]]; [left|right]; [lia|auto].
  - destruct (is_nan t a || is_nan t u) eqn:N1; [discriminate|]. destruct (is_nan t b || is_nan t u) eqn:N2; [discriminate|].
    apply orb_false_iff in N1 as [N1 N1'], N2 as [N2 N2']. rewrite N1, N2. cbn [orb].
    rewrite orb_true_iff, andb_true_iff in *. destruct A as [A|[A1 A2]]; destruct B as [B|[B1 B2]]; auto.
    + left. lia.
    + apply Z.eqb_eq in A. subst. auto.
    + apply Z.eqb_eq in B. subst. auto.
Qed.

Lemma alike_all xs ys : (fix all (xs ys : list tree) {struct xs} : Prop :=
    match xs, ys with [], [] => True | x :: xs, y :: ys => alike x y /\ all xs ys | _, _ => False end) xs ys <-> Forall2 alike xs ys.
Proof.
  revert ys. induction xs as [|x xs IH]; intros [|y ys]; split; intros H; try inversion H; subst; auto.
  - constructor; [tauto|]. apply IH. tauto.
  - split; auto. apply IH. auto.
Qed.
Lemma same_vec xs : forall ys, (fix all (xs ys : list tree) {struct xs} : Prop :=
    match xs, ys with x :: xs, y :: ys => same_schema x y /\ all xs ys | _, _ => True end) xs ys ->
  forall i x y, nth_error xs i = Some x -> nth_error ys i = Some y -> same_schema x y.
Proof.
  induction xs as [|x0 xs IH]; intros [|y0 ys] H [|i] x y Hx Hy; cbn [nth_error] in *; try discriminate.
  - assert (x0 = x) by congruence. assert (y0 = y) by congruence. subst. apply H.
  - destruct H as [_ H]. eapply IH; eauto.
Qed.

Definition same_field (gs : list gfield) (xs ys : list tree) (g : gfield) (x y : tree) : Prop :=
  match g_kind g with
  | GUnion tslot _ _ _ _ => tag gs xs tslot = tag gs ys tslot -> same_schema x y
  | _ => same_schema x y
  end.
Lemma same_table gs xs ys xs0 : forall gs0 ys0,
  (fix all (gs0 : list gfield) (xs0 ys0 : list tree) {struct xs0} : Prop :=
           match gs0, xs0, ys0 with
           | g :: gs0, x :: xs0, y :: ys0 => same_field gs xs ys g x y /\ all gs0 xs0 ys0
           | _, _, _ => True
           end) gs0 xs0 ys0 ->
  forall i g x y, nth_error gs0 i = Some g -> nth_error xs0 i = Some x -> nth_error ys0 i = Some y -> same_field gs xs ys g x y.
Proof.
  induction xs0 as [|x0 xs0 IH]; intros [|g0 gs0] [|y0 ys0] H [|i] g x y Hg Hx Hy; cbn [nth_error] in *; try discriminate.
  - assert (x0 = x) by congruence. assert (y0 = y) by congruence. assert (g0 = g) by congruence. subst. apply H.
  - destruct H as [_ H]. eapply IH; eauto.
Qed.

Lemma Forall2_len {A B} (R : A -> B -> Prop) l l' : Forall2 R l l' -> length l = length l'.
Proof. induction 1; cbn [length]; congruence. Qed.

Lemma shows_determined hr D x y w : same_schema x y -> shows hr D x w -> shows hr D y w -> alike x y.
Proof.
  revert y w. induction x as [|t v|s|t xs IH|gs xs IH] using tree_nested; intros y w S A B.
  - destruct A.
  - cbn [shows] in A. destruct y as [|t' v'|s'|t' ys|gs' ys]; [destruct B| |exfalso..].
    + cbn [same_schema] in S. subst t'. cbn [alike]. split; [reflexivity|]. cbn [shows] in B.
      destruct A as [A|(u & A & A')]; destruct B as [B|(u' & B & B')]; subst w; try discriminate B.
      * left. congruence.
      * assert (u' = u) by congruence. subst u'. eapply scalar_eq_meet; eauto.
    + cbn [shows] in B. destruct A as [A|(u & A & _)]; congruence.
    + apply shows_vec in B as (? & ? & B & _). destruct A as [A|(u & A & _)]; congruence.
    + apply shows_table in B as (? & B & _). destruct A as [A|(u & A & _)]; congruence.
  - cbn [shows] in A. subst w. destruct y as [|t' v'|s'|t' ys|gs' ys]; [destruct B|exfalso| |exfalso..].
    + cbn [shows] in B. destruct B as [B|(u & B & _)]; discriminate B.
    + cbn [shows] in B. cbn [alike]. congruence.
    + apply shows_vec in B as (? & ? & B & _). discriminate B.
    + apply shows_table in B as (? & B & _). discriminate B.
  - apply shows_vec in A as (e & loc & -> & Ln & A). destruct y as [|t' v'|s'|t' ys|gs' ys]; [destruct B|exfalso|exfalso| |exfalso].
    + cbn [shows] in B. destruct B as [B|(u & B & _)]; discriminate B.
    + cbn [shows] in B. discriminate B.
    + apply shows_vec in B as (e' & loc' & E & Ln' & B). assert (e' = e) by congruence. assert (loc' = loc) by congruence. subst e' loc'.
      cbn [same_schema] in S. destruct S as [-> S]. cbn [alike]. split; [reflexivity|]. apply alike_all.
      rewrite Ln in Ln'. assert (El : blen xs = blen ys) by congruence. rewrite <- El in B.
      apply nth_Forall2; [unfold blen in El; lia|]. intros i x y Hx Hy.
      pose proof (Forall2_len _ _ _ A) as L1.
      destruct (nth_error (elements hr e D loc (blen xs)) i) as [r|] eqn:Hr.
      2: { exfalso. apply nth_error_None in Hr. assert (i < length xs)%nat by (apply nth_error_Some; congruence). lia. }
      destruct (Forall2_nth _ _ _ A i x r Hx Hr) as (w & -> & Wx). destruct (Forall2_nth _ _ _ B i y _ Hy Hr) as (w' & E' & Wy).
      assert (w' = w) by congruence. subst w'.
      rewrite Forall_forall in IH. apply (IH x (nth_error_In _ _ Hx) y w); auto. eapply same_vec; eauto.
    + apply shows_table in B as (? & B & _). discriminate B.
  - apply shows_table in A as (loc & -> & A). destruct y as [|t' v'|s'|t' ys|gs' ys]; [destruct B|exfalso..|].
    + cbn [shows] in B. destruct B as [B|(u & B & _)]; discriminate B.
    + cbn [shows] in B. discriminate B.
    + apply shows_vec in B as (? & ? & B & _). discriminate B.
    + apply shows_table in B as (loc' & E & B). assert (loc' = loc) by congruence. subst loc'. cbn [same_schema] in S. destruct S as [<- S].
      cbn [alike]. split; [reflexivity|]. apply alike_all.
      pose proof (Forall2_len _ _ _ A) as L1. pose proof (Forall2_len _ _ _ B) as L2.
      assert (Tags : forall i g x y, nth_error gs i = Some g -> nth_error xs i = Some x -> nth_error ys i = Some y ->
        (exists v, shows hr D x v /\ shows hr D y v /\ same_schema x y) \/ (x = TreeNone /\ y = TreeNone)).
      { intros i g x y Hg Hx Hy.
        pose proof (Forall2_nth _ _ _ A i g x Hg Hx) as Ax. pose proof (Forall2_nth _ _ _ B i g y Hg Hy) as By.
        unfold shows_field in Ax, By. destruct Ax as [[Ax ->]|(wx & Sx & Ax)]; destruct By as [[By ->]|(wy & Sy & By)]; try congruence.
        - right. auto.
        - left. pose proof (same_table gs xs ys xs gs ys S i g x y Hg Hx Hy) as Sf. unfold same_field in Sf. rewrite Ax in By.
          destruct (g_kind g) as [| | |tslot tb tvs td arms]; try (assert (wy = wx) by congruence; subst wy; eauto).
          destruct (tag gs xs tslot) as [n|] eqn:T1; destruct (tag gs ys tslot) as [m|] eqn:T2; try congruence;
            assert (wy = wx) by congruence; subst wy; exists wx; (split; [exact Sx|]; split; [exact Sy|]; apply Sf; congruence). }
      apply nth_Forall2; [lia|]. intros i x y Hx Hy.
      destruct (nth_error gs i) as [g|] eqn:Hg.
      2: { exfalso. apply nth_error_None in Hg. assert (i < length xs)%nat by (apply nth_error_Some; congruence). lia. }
      destruct (Tags i g x y Hg Hx Hy) as [(v & Sx & Sy & Ss)|[-> ->]]; [|exact Logic.I].
      rewrite Forall_forall in IH. apply (IH x (nth_error_In _ _ Hx) y v); auto.
Qed.

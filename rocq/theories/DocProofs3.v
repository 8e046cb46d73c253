(** Every document that fits a schema can be written, and reads back. *)
From Coq Require Import Strings.String ZArith List Bool Lia Strings.Byte ZifyBool ZifyNat ZifyN.
From Verif Require Import Base Scalar Utf8 SpecWire Reader SpecReader Builder Ops BaseFacts Schema Ident Codegen Resolve SpecResolve SpecGen SpecTable SpecDoc
  GenProofs1 GenProofs2 GenProofs3 GenProofs4 GenProofs8 TableProofs1 TableProofs2 ResolveProofs9 DocProofs1 DocProofs2.
Import ListNotations.
Local Open Scope list_scope.
Local Open Scope Z_scope.

Section Docs.
Context (fl : floats) (snake : text -> text) (root : list node) (hg : host) (es : list element).
Context (B : build snake es = Done root) (F : floats_ok fl).
Context (All : forall path t, In (path, NTable t) (all_contents root) ->
  blen (it_fields t) <= 8190 /\ forallb (fun f => default_ok (if_default f)) (it_fields t) = true /\ exists gs, gen_table fl snake hg (it_fields t) = Some gs).
Local Notation can := (can fl snake root hg).
Local Notation good := (good fl snake root hg).

Lemma num_can v : can (DNum v).
Proof.
  intros t ft Ft Fx. destruct t as [p| | |]; cbn [shaped] in Fx; try contradiction. cbn [follow_ty] in Ft. injection Ft as <-.
  exists (TreeNum (prim_ty p) v). split; [reflexivity|]. split; [split; [exact Fx|left; reflexivity]|]. split; [split; [intros _; exact Logic.I|reflexivity]|].
  intros hr D w (u & ->) [S|(u' & E & S)]; [discriminate S|]. injection E as <-. cbn [reads]. eauto.
Qed.
Lemma name_can id : can (DName id).
Proof.
  intros t ft Ft Fx. destruct t as [p| | |q [| |vs b|]]; cbn [shaped] in Fx; try contradiction. cbn [follow_ty] in Ft.
  destruct (enum_compiles vs b) eqn:C; [|discriminate Ft]. injection Ft as <-.
  destruct (variant_exists vs id Fx) as (n & Vn). exists (TreeNum (prim_ty b) n).
  split; [cbn [calls_for]; rewrite Vn; reflexivity|]. split; [eapply variant_typed; eauto|]. split; [split; [intros _; exact Logic.I|reflexivity]|].
  intros hr D w (u & ->) [S|(u' & E & S)]; [|discriminate E]. injection S as ->.
  apply variant_numbered in Vn as (k & v & Nk & Ev & ->). cbn [reads]. eauto.
Qed.
Lemma text_can s : can (DText s).
Proof.
  intros t ft Ft Fx. destruct t as [p| | |]; cbn [shaped] in Fx; try contradiction. destruct Fx as [U L]. cbn [follow_ty] in Ft. injection Ft as <-.
  exists (TreeStr s). split; [reflexivity|]. split; [split; [exact U|split; [exact L|reflexivity]]|]. split; [split; [intros _; exact Logic.I|reflexivity]|].
  intros hr D w _ ->. reflexivity.
Qed.
Lemma shaped_all t xs :
  (fix all (xs : list doc) : Prop := match xs with [] => True | x :: xs => shaped snake root x t /\ all xs end) xs <-> Forall (fun x => shaped snake root x t) xs.
Proof. induction xs as [|x xs IH]; [split; auto|]. rewrite IH. split; [intros [A C]; auto|intros H; inversion H; auto]. Qed.
Lemma elem_of t e : follow_ty t = Some e -> exists p, elem_pty e = Some p.
Proof. destruct t as [p| |t|q [| |vs b|]]; cbn [follow_ty]; intros H; try discriminate; [| |destruct (follow_ty t)| |destruct (enum_compiles vs b)]; try discriminate; injection H as <-; cbn [elem_pty]; eauto. Qed.
Lemma pty_size_le p : pty_size p <= 8.
Proof. destruct p as [t|]; [destruct t|]; cbn; lia. Qed.
Lemma list_can xs : Forall can xs -> can (DList xs).
Proof.
  intros IH t ft Ft Fx. destruct t as [p| |t|]; cbn [shaped] in Fx; try contradiction. destruct Fx as [L Fx]. apply shaped_all in Fx.
  cbn [follow_ty] in Ft. destruct (follow_ty t) as [e|] eqn:Fe; [|discriminate Ft]. cbn [option_map] in Ft. injection Ft as <-.
  destruct (elem_of t e Fe) as (p & Ep). rewrite Forall_forall in IH, Fx.
  destruct (all_some_Forall2 (fun x => calls_for fl snake root hg x t) (fun x y => good x t e y) xs) as (ys & E & A).
  { intros x I. destruct (IH x I t e Fe (Fx x I)) as (y & Gy). exists y. split; [apply Gy|exact Gy]. }
  assert (Ln : length xs = length ys) by (clear - A; induction A; cbn [length]; congruence).
  exists (TreeVec p ys). split; [cbn [calls_for]; rewrite Fe, Ep, E; reflexivity|]. split; [|split].
  - apply typed_vec. exists e. split; [reflexivity|]. split; [exact Ep|]. split.
    + pose proof (pty_size_le p) as Q. assert (blen ys = blen xs) by (unfold blen; lia). assert (0 <= blen xs) by apply blen_nonneg. nia.
    + clear - A. induction A as [|x y xs ys [_ Gy] A IH]; constructor; [apply Gy|exact IH].
  - cbn [all_required_given complete]. clear - A. induction A as [|x y xs ys [_ Gy] A IH]; [split; auto|]. cbn [forallb]. rewrite andb_true_iff, IH.
    destruct Gy as (_ & _ & Ry & _). rewrite Ry. reflexivity.
  - intros hr D w (loc & ->) S. apply shows_all_vec in S as (e' & loc' & W & Vl & S). injection W as <- <-. cbn [reads].
    exists e, loc. split; [reflexivity|]. assert (Lb : blen xs = blen ys) by (unfold blen; congruence). split; [rewrite Lb; exact Vl|].
    unfold elements in S. replace (Z.to_nat (blen ys)) with (length ys) in S by (unfold blen; lia). clear - S A. revert S. generalize 0 as i.
    induction A as [|x y xs ys [_ Gy] A IH]; intros i S; [exact Logic.I|]. cbn [length zseq map] in S. inversion S as [|? ? ? ? (w & Ew & Sy) S']; subst.
    split; [|apply IH; exact S']. exists w. split; [exact Ew|]. apply Gy; [|exact Sy]. eapply vec_get_shape; exact Ew.
Qed.
Lemma table_can given : Forall (fun p => can (snd p) /\ match snd p with DVariant _ y => can y | _ => True end) given -> can (DTable given).
Proof.
  intros IH t ft Ft Fx. destruct t as [p| | |q [| | |]]; cbn [shaped] in Fx; try contradiction. cbn [follow_ty] in Ft. injection Ft as <-.
  destruct Fx as (fs & (path & tb & It & Eq & Ef) & Nd & Each & Req). destruct (All _ _ It) as (_ & _ & gs & G). rewrite Ef in G.
  apply (table_good fl snake root hg es B F All q fs gs given path tb It Eq Ef G Nd); [|exact Req|].
  - clear - Each. induction given as [|[n x] l IHl]; intros n' x' I; [destruct I|]. destruct Each as [E1 Es]. destruct I as [I|I]; [injection I as <- <-; exact E1|auto].
  - intros n x I. rewrite Forall_forall in IH. exact (IH (n, x) I).
Qed.
Lemma variant_can id x : can x -> can (DVariant id x).
Proof. intros _ t ft Ft Fx. destruct t as [p| | |q [| | |]]; cbn [shaped] in Fx; try contradiction. discriminate Ft. Qed.
Lemma all_can x : can x /\ match x with DVariant _ y => can y | _ => True end.
Proof.
  apply (doc_nested (fun x => can x /\ match x with DVariant _ y => can y | _ => True end)).
  - intros v. split; [apply num_can|exact Logic.I].
  - intros v. split; [apply name_can|exact Logic.I].
  - intros v. split; [apply text_can|exact Logic.I].
  - intros xs IH. split; [|exact Logic.I]. apply list_can. eapply Forall_impl; [|exact IH]. intros y [Q _]. exact Q.
  - intros given IH. split; [|exact Logic.I]. apply table_can. exact IH.
  - intros id y [Q _]. split; [apply variant_can; exact Q|exact Q].
Qed.
End Docs.

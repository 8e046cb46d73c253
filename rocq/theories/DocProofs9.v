(** Documents without -0.0 have the same file exactly if they say the same. *)
From Coq Require Import Strings.String ZArith List Bool Lia Strings.Byte ZifyBool ZifyNat ZifyN.
From Verif Require Import Base Scalar SpecWire Reader SpecReader Builder Ops BaseFacts Schema Ident Codegen Resolve SpecResolve SpecGen SpecTable SpecDoc SpecSame
  DocProofs1 DocProofs2 DocProofs6 DocProofs7 DocProofs8.
Import ListNotations.
Local Open Scope list_scope.
Local Open Scope Z_scope.

Lemma plain_zeros t a b : (is_zero t a = true -> a = 0) -> (is_zero t b = true -> b = 0) -> equal_numbers t a b -> a = b.
Proof.
  intros A B [E|E]; [exact E|]. unfold scalar_eq in E. destruct (_ || _) in E; [discriminate E|]. apply orb_prop in E as [E|E]; [lia|].
  apply andb_prop in E as [Ea Eb]. rewrite (A Ea), (B Eb). reflexivity.
Qed.

Section Plain.
Context (fl : floats) (root : list node) (Pd : no_minus_zero_defaults fl root).
Local Notation plain := (no_minus_zero root).

Lemma plain_left q fs f x : table_named root q fs -> In f fs -> plain x (if_ty f) -> as_left_out fl equal_numbers f x -> as_left_out fl (fun _ a b => a = b) f x.
Proof.
  intros T I P A. unfold as_left_out in *. destruct (if_ty f) as [p| | |q0 [| |vs b|]] eqn:Tf; auto. destruct x as [v| | | | |]; auto. cbn [no_minus_zero] in P.
  destruct (if_default f) as [[c|id]|] eqn:Df; auto.
  - destruct A as (d & Ed & A). exists d. split; [exact Ed|]. apply (plain_zeros (prim_ty p)); auto. exact (Pd q fs f p c d T I Tf Df Ed).
  - apply (plain_zeros (prim_ty p)); auto.
Qed.
Lemma plain_given q given fs f x : plain (DTable given) (ICustom q KTable) -> table_named root q fs -> In f fs -> lookup given (if_id f) = Some x -> plain x (if_ty f).
Proof.
  cbn [no_minus_zero]. intros P T I L. specialize (P fs T). apply lookup_In in L. induction given as [|[n y] l IH]; [destruct L|].
  destruct P as [P Ps]. destruct L as [L|L]; [injection L as -> ->; auto|auto].
Qed.
Lemma plain_same : forall x x' t, plain x t -> plain x' t -> same fl root t x x' -> same_bits fl root t x x'.
Proof.
  refine (doc_nested (fun x => forall x' t, plain x t -> plain x' t -> same fl root t x x' -> same_bits fl root t x x') _ _ _ _ _ _); unfold same, same_bits.
  - intros v x' t P P' M. inversion M; subst. apply same_num. cbn [no_minus_zero] in *. eapply plain_zeros; eauto.
  - intros id x' t _ _ M. inversion M; subst. apply same_name.
  - intros s x' t _ _ M. inversion M; subst. apply same_text.
  - intros xs IH x' t P P' M. inversion M as [| | |t0 ys xs' F Et Ex Ex'| |]; subst. apply same_list. cbn [no_minus_zero] in P, P'. clear M.
    induction F as [|y y' xs xs' My _ IHF]; constructor; inversion IH; subst; [match goal with H : forall x' t, _ |- _ => apply H end; tauto|]. apply IHF; tauto.
  - intros given IH x' t P P' M. inversion M as [| | | | |q fs g g' T Both Only Only' Et Ex Ex']; subst. apply (SpecSame.same_table fl root _ q fs); [exact T| | |].
    + intros f x x' I L L'. rewrite Forall_forall in IH. apply (IH _ (lookup_In _ _ _ L)); [exact (plain_given q _ fs f x P T I L)|exact (plain_given q _ fs f x' P' T I L')|eauto].
    + intros f x I L L'. eapply plain_left; [exact T|exact I|eapply plain_given; eauto|eauto].
    + intros f x I L L'. eapply plain_left; [exact T|exact I|eapply plain_given; [exact P'|..]; eauto|eauto].
  - intros id x IH x' t P P' M. inversion M as [| | | |q e vs v y y' Iv My Et Ex Ex'|]; subst. apply same_variant; [exact Iv|]. cbn [no_minus_zero] in P, P'. auto.
Qed.
End Plain.

Lemma same_exactly fl snake root hg es (B : build snake es = Done root) (F : floats_ok fl) (All : compiled_tables fl snake root hg) (Pd : no_minus_zero_defaults fl root)
    x x' q y y' h h' c c' ident sp :
  fits fl snake root x (ICustom q KTable) -> fits fl snake root x' (ICustom q KTable) ->
  no_minus_zero root x (ICustom q KTable) -> no_minus_zero root x' (ICustom q KTable) ->
  calls_for fl snake root hg x (ICustom q KTable) = Some y -> tree_size y + 150000 < 2 ^ 31 ->
  calls_for fl snake root hg x' (ICustom q KTable) = Some y' -> tree_size y' + 150000 < 2 ^ 31 ->
  0 <= c <= MAX_BUFFER_SIZE -> 0 <= c' <= MAX_BUFFER_SIZE -> match ident with Some i => blen i = 4 | None => True end ->
  (save fl snake root hg h c x q ident sp = save fl snake root hg h' c' x' q ident sp <-> same fl root (ICustom q KTable) x x').
Proof.
  intros Fx Fx' P P' Y Ly Y' Ly' C C' Hi. destruct (doc_one_file fl snake root hg es B F All x q Fx) as (y1 & Y1 & One). assert (y1 = y) by congruence. subst y1.
  destruct (One ident sp Hi Ly) as (D & HD). split; intros M.
  - eapply (files_differ fl snake root hg es B F All x x' q y y' h h' c c' ident ident sp D); eauto; [exact (proj1 Fx)|exact (proj1 Fx')|rewrite <- M; auto].
  - apply (plain_same fl root Pd x x' _ P P') in M. rewrite <- (same_file fl snake root hg es B x x' q (proj1 Fx) (proj1 Fx') M), !HD; auto.
Qed.

(** When the emitted items of each module have different names. *)
From Coq Require Import Strings.String ZArith List Bool Lia Strings.Byte Permutation.
From Verif Require Import Base BaseFacts Schema Ident SpecIdent Codegen GenProofs1 GenProofs8 Resolve SpecResolve Emit SpecEmit EmitProofs1 EmitProofs2.
Import ListNotations.
Local Open Scope nat_scope.

Lemma ends_differ (x y : ident) : x ++ lit "Args" <> y ++ lit "Builder".
Proof. intros E. apply (f_equal (@rev _)) in E. rewrite !rev_app_distr in E. discriminate E. Qed.
Lemma end_longer (x : ident) s : s <> [] -> x <> x ++ s.
Proof. intros N E. apply (f_equal (@length _)) in E. rewrite app_length in E. destruct s; [congruence|cbn [length] in E; lia]. Qed.

Definition endings (c : icustom) : list string :=
  match c with KTable => [""; "Args"; "Builder"]%string | KStruct _ => [] | _ => [""%string] end.
Lemma types_for_In z q c : In z (types_for (q, c)) <-> exists s, In s (endings c) /\ z = last q [] ++ lit s.
Proof.
  unfold types_for, endings. cbn [snd fst]. destruct c; cbn [In]; (split; [|intros (s & I & ->)]).
  all: try (intros I; repeat match goal with H : _ \/ _ |- _ => destruct H as [H|H] | H : False |- _ => destruct H end; subst;
    [exists ""%string; rewrite app_nil_r; auto|exists "Args"%string; auto|exists "Builder"%string; auto]).
  all: try (intros I; repeat match goal with H : _ \/ _ |- _ => destruct H as [H|H] | H : False |- _ => destruct H end; subst; exists ""%string; rewrite app_nil_r; auto; fail).
  all: try contradiction.
  all: repeat match goal with H : _ \/ _ |- _ => destruct H as [H|H] | H : False |- _ => destruct H end; subst; try rewrite app_nil_r; auto.
Qed.
Lemma types_for_NoDup d : NoDup (types_for d).
Proof.
  destruct d as [q c]. unfold types_for. cbn [snd fst]. destruct c; repeat constructor; cbn [In]; try tauto.
  - intros [E|[E|[]]]; symmetry in E; revert E; apply end_longer; discriminate.
  - intros [E|[]]. symmetry in E. exact (ends_differ _ _ E).
Qed.
Lemma ending_suffix c s : In s (endings c) -> s = ""%string \/ c = KTable /\ In s ["Args"; "Builder"]%string.
Proof. destruct c; cbn [endings In]; intuition. Qed.

Section Built.
Context (snake shouty : text -> text) (ident_ok : ident -> bool) (path_ok : qident -> bool).
Context (literal_ok : scalar_const -> bool -> option qident -> ity -> bool) (hg : host).
Notation emit := (emit snake shouty ident_ok path_ok literal_ok hg).
Context (es : list element) (root : list node) (B : build snake es = Done root) (items : list item) (Em : emit root = Some items).

Lemma level_split_name p q c : In (q, c) (defs_at root p) -> q = p ++ [last q []].
Proof. intros I. apply (defs_at_In snake es root B) in I as [I <-]. exact (split_name snake es root B q c I). Qed.

Lemma clash_free_no_clash : clash_free snake root -> no_clash items.
Proof.
  intros [Fs Fm Ft Fe] path f M. destruct (module_level _ _ _ _ _ _ _ _ _ M root Em) as (p & l & L & -> & E).
  destruct (level_names _ _ _ _ _ _ es root B p l f L E) as (ks & N & K & -> & -> & _). pose proof (NoDup_of_map _ _ (defs_at_NoDup snake es root B p)) as Nd. split.
  - rewrite NoDup_app_iff, (NoDup_map_iff _ _ N), (NoDup_flat_map_iff _ _ Nd). split; [|split; [split|]].
    + intros a b Ia Ib. apply (Fm p); apply K; assumption.
    + intros d _. apply types_for_NoDup.
    + intros [q1 c1] [q2 c2] z I1 I2 Z1 Z2. apply types_for_In in Z1 as (s1 & S1 & ->). apply types_for_In in Z2 as (s2 & S2 & E2).
      assert (Eq : last q1 [] = last q2 [] -> (q1, c1) = (q2, c2)).
      { intros Q. assert (q1 = q2) by (rewrite (level_split_name p q1 c1 I1), (level_split_name p q2 c2 I2), Q; reflexivity). subst q2. f_equal. eapply (defs_at_fun snake es root B); eauto. }
      assert (Cl : forall qa ca qb cb s, In (qa, ca) (defs_at root p) -> In (qb, cb) (defs_at root p) -> ca = KTable -> In s ["Args"; "Builder"]%string -> last qb [] <> last qa [] ++ lit s).
      { intros qa ca qb cb s Ia Ib -> Is Q. pose proof (level_split_name _ _ _ Ib) as Eb. apply (defs_at_In snake es root B) in Ia as [Ia Ea]. apply (defs_at_In snake es root B) in Ib as [Ib _].
        apply (Fs qa s Ia Is). apply in_map_iff. exists (qb, cb). split; [|exact Ib]. cbn [fst]. rewrite Eb. unfold suffixed. rewrite Ea, Q. reflexivity. }
      destruct (ending_suffix _ _ S1) as [->|[T1 A1]], (ending_suffix _ _ S2) as [->|[T2 A2]]; cbn in E2; rewrite ?app_nil_r in E2.
      * apply Eq. exact E2.
      * destruct (Cl _ _ _ _ _ I2 I1 T2 A2 E2).
      * destruct (Cl _ _ _ _ _ I1 I2 T1 A1 (eq_sym E2)).
      * destruct A1 as [<-|[<-|[]]], A2 as [<-|[<-|[]]]; try (apply Eq; eapply app_inv_tail; exact E2); [destruct (ends_differ _ _ E2)|symmetry in E2; destruct (ends_differ _ _ E2)].
    + intros z Ia Ib. apply in_map_iff in Ia as (a & <- & Ia). apply K in Ia. apply in_flat_map in Ib as ([q c] & Id & Z). apply types_for_In in Z as (s & S & Z).
      pose proof (level_split_name _ _ _ Id) as Eq. apply (defs_at_In snake es root B) in Id as [Id Er]. destruct (Ft p a q c Ia Id) as [F1 F2].
      destruct (ending_suffix _ _ S) as [->|[T A]].
      * cbn in Z. rewrite app_nil_r in Z. apply F1. rewrite Z. exact Eq.
      * apply (F2 T s A). unfold suffixed. rewrite Er, Z. reflexivity.
  - rewrite (NoDup_flat_map_iff _ _ Nd). split.
    + intros [q c] _. unfold fns_for. cbn [snd fst]. destruct c; repeat constructor; intros [].
    + intros [q1 c1] [q2 c2] z I1 I2 Z1 Z2. unfold fns_for in *. cbn [snd fst] in *. destruct c1; try (destruct Z1; fail). destruct c2; try (destruct Z2; fail).
      destruct Z1 as [<-|[]]. destruct Z2 as [E2|[]]. apply app_inv_head in E2.
      pose proof (proj1 (defs_at_In snake es root B _ _ _) I1) as [D1 R1]. pose proof (proj1 (defs_at_In snake es root B _ _ _) I2) as [D2 R2].
      assert (q1 = q2) by (eapply Fe; eauto; congruence). subst q2. f_equal. eapply (defs_at_fun snake es root B); eauto.
Qed.

Lemma no_clash_at p : no_clash items -> p = [] \/ namespace_in root p -> exists ks, NoDup ks /\ (forall a, In a ks <-> namespace_in root (p ++ [a])) /\
  NoDup (map (module_name snake) ks ++ flat_map types_for (defs_at root p)) /\ NoDup (flat_map (fns_for snake) (defs_at root p)).
Proof.
  intros N P. destruct (level_of root p P) as (l & L). destruct (level_module _ _ _ _ _ _ _ _ _ L items Em) as (f & Ef & M).
  destruct (N _ _ M) as [N1 N2]. destruct (level_names _ _ _ _ _ _ es root B p l f L Ef) as (ks & Nk & K & T & F & _). rewrite T in N1. rewrite F in N2. eauto.
Qed.
Lemma def_namespace q c : In (q, c) (defined root) -> removelast q = [] \/ namespace_in root (removelast q).
Proof.
  intros I. right. assert (K : In (q, c) (defs_at root (removelast q))) by (apply (defs_at_In snake es root B); auto).
  apply in_flat_map in K as (n & K & _). apply under_contents in K. exists (removelast q), n. split; [exact K|]. exists []. rewrite app_nil_r. reflexivity.
Qed.
Lemma outer_namespace p a : namespace_in root (p ++ [a]) -> p = [] \/ namespace_in root p.
Proof. intros (q & n & I & r & E). right. exists q, n. split; [exact I|]. exists (a :: r). rewrite E, <- app_assoc. reflexivity. Qed.
Lemma plain_type q c : In (q, c) (defined root) -> In (last q []) (types_for (q, c)).
Proof.
  intros I. unfold types_for. cbn [snd fst]. destruct c; try (left; reflexivity). destruct (no_struct _ _ _ _ _ _ es root B items Em _ _ I).
Qed.
Lemma no_clash_clash_free : no_clash items -> clash_free snake root.
Proof.
  intros N. split.
  - intros q s I S J. apply in_map_iff in J as ([q2 c2] & E & J). cbn [fst] in E. subst q2.
    destruct (no_clash_at _ N (def_namespace _ _ I)) as (ks & _ & _ & N1 & _). apply NoDup_app_iff in N1 as (_ & N1 & _).
    assert (R : removelast (suffixed q s) = removelast q) by (unfold suffixed; apply removelast_last).
    assert (Lq : last (suffixed q s) [] = last q [] ++ lit s) by (unfold suffixed; apply last_last).
    apply (NoDup_flat_map_iff _ _ (NoDup_of_map _ _ (defs_at_NoDup snake es root B _))) in N1 as [_ D].
    assert (X : (q, KTable) = (suffixed q s, c2)).
    { apply (D _ _ (last q [] ++ lit s)); [apply (defs_at_In snake es root B); auto|apply (defs_at_In snake es root B); auto| |].
      - apply types_for_In. exists s. split; [right; exact S|reflexivity].
      - rewrite <- Lq. apply plain_type. exact J. }
    assert (X' : suffixed q s = q) by congruence. rewrite X' in Lq. revert Lq. apply end_longer. destruct S as [<-|[<-|[]]]; discriminate.
  - intros p a b Ha Hb E. destruct (no_clash_at _ N (outer_namespace _ _ Ha)) as (ks & Nk & K & N1 & _). apply NoDup_app_iff in N1 as (N1 & _ & _).
    apply (NoDup_map_iff _ _ Nk) with (x := a) (y := b) in N1; auto; apply K; assumption.
  - intros p a q c Ha I. destruct (no_clash_at _ N (outer_namespace _ _ Ha)) as (ks & Nk & K & N1 & _). apply NoDup_app_iff in N1 as (_ & _ & D).
    assert (Z : forall s, In s (endings c) -> removelast q ++ [last q [] ++ lit s] <> p ++ [module_name snake a]).
    { intros s S E. apply app_inj_tail in E as [E1 E2]. apply (D (module_name snake a)); [apply in_map; apply K; exact Ha|].
      apply in_flat_map. exists (q, c). split; [apply (defs_at_In snake es root B); auto|]. apply types_for_In. exists s. auto. }
    split.
    + intros E. pose proof (split_name snake es root B q c I) as Sp. pose proof (plain_type _ _ I) as T. apply types_for_In in T as (s & S & T).
      apply (Z s S). rewrite <- T. etransitivity; [symmetry; exact Sp|exact E].
    + intros -> s S. apply Z. right. exact S.
  - intros q1 q2 vs1 b1 vs2 b2 I1 I2 R E. destruct (no_clash_at _ N (def_namespace _ _ I1)) as (ks & _ & _ & _ & N2).
    apply (NoDup_flat_map_iff _ _ (NoDup_of_map _ _ (defs_at_NoDup snake es root B _))) in N2 as [_ D].
    assert (X : (q1, KEnum vs1 b1) = (q2, KEnum vs2 b2)); [|congruence].
    apply (D _ _ (lit "enum_name_" ++ snake (last q1 []))); [apply (defs_at_In snake es root B); auto|apply (defs_at_In snake es root B); auto|left; reflexivity|].
    left. cbn [fst]. rewrite E. reflexivity.
Qed.
Lemma no_clash_iff : no_clash items <-> clash_free snake root.
Proof. split; [exact no_clash_clash_free|exact clash_free_no_clash]. Qed.
End Built.

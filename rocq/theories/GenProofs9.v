(** Schema evolution at the level of schemas, enum values against the
    documentation, and the witnesses against C34 and C37. *)
From Coq Require Import Strings.String ZArith List Bool Lia Strings.Byte ZifyBool ZifyNat ZifyN.
From Verif Require Import Base Scalar Reader Builder Ops SpecBuilder BaseFacts Schema Codegen SpecGen
  GenProofs1 GenProofs3 GenProofs4 GenProofs5 GenProofs7 GenProofs8.
Import ListNotations.
Local Open Scope Z_scope.

Lemma gen_fields_length fl snake hg all fs : forall i gs, gen_fields fl snake hg all i fs = Some gs -> length gs = length fs.
Proof.
  induction fs as [|f fs IH]; intros i gs H; cbn [gen_fields] in H; [injection H as <-; reflexivity|].
  destruct (gen_field _ _ _ _ _ _); [|discriminate]. destruct (gen_fields _ _ _ _ _ _) eqn:E; [|discriminate]. injection H as <-.
  cbn [length]. f_equal. eauto.
Qed.
Lemma gen_table_length fl snake hg fs gs : gen_table fl snake hg fs = Some gs -> length gs = length fs.
Proof. unfold gen_table. destruct (_ && _); [|discriminate]. apply gen_fields_length. Qed.

Lemma old_reads_new fl snake hg hg' fs more gs gs' h hr c before xs b0 ys b1 o later b zs :
  floats_ok fl -> forallb (fun f => default_ok (if_default f)) fs = true ->
  gen_table fl snake hg fs = Some gs -> gen_table fl snake hg' (fs ++ more) = Some gs' ->
  blen (fs ++ more) <= 32765 -> debug h = true \/ blen (fs ++ more) <= 8190 ->
  0 <= c -> calls_ok before = true -> closed before = true -> program h c before = Val (b0, xs) ->
  typed (blen (fs ++ more)) (TreeTable gs' ys) (FUOffset FTable) -> put h b0 (TreeTable gs' ys) = Val (b1, Some (POffset o)) ->
  calls_ok later = true -> no_reset later = true -> run h b1 later = Val (b, zs) ->
  blen (unfinished_data b) < 2 ^ 31 ->
  let D := unfinished_data b in
  exists w, follow hr FTable D (blen D - o) = Val w /\ shows hr D (TreeTable gs (firstn (length gs) ys)) w.
Proof.
  intros Fl Fd G G' L L' Hc Ho Hcl H T P Hl Hr R Lb D.
  assert (Lfs : blen fs <= 32765). { clear - L. unfold blen in *. rewrite app_length in L. lia. }
  destruct (evolution _ _ _ _ _ _ _ _ Lfs G G') as (gm & ->).
  destruct (document_round_trip h hr c (blen (fs ++ more)) before xs b0 FTable _ b1 o later b zs Hc L L' Ho Hcl H T P Hl Hr R Lb) as (w & F & S).
  exists w. split; [exact F|].
  assert (Ly : length (gs ++ gm) = length ys).
  { apply shows_table in S as (loc & _ & Q). clear - Q. induction Q; cbn [length]; congruence. }
  rewrite app_length in Ly.
  apply (shows_prefix 32765 hr D gs gm (firstn (length gs) ys) (skipn (length gs) ys)).
  - lia.
  - exists fl, snake, hg, fs. auto.
  - rewrite firstn_length. lia.
  - rewrite firstn_skipn. exact S.
Qed.

Lemma new_reads_old_schema fl snake hg hg' fs more gs gs' h hr c before xs b0 ys b1 o later b zs i g :
  floats_ok fl -> forallb (fun f => default_ok (if_default f)) (fs ++ more) = true ->
  gen_table fl snake hg fs = Some gs -> gen_table fl snake hg' (fs ++ more) = Some gs' ->
  blen (fs ++ more) <= 32765 -> debug h = true \/ blen fs <= 8190 ->
  0 <= c -> calls_ok before = true -> closed before = true -> program h c before = Val (b0, xs) ->
  typed (blen fs) (TreeTable gs ys) (FUOffset FTable) -> put h b0 (TreeTable gs ys) = Val (b1, Some (POffset o)) ->
  calls_ok later = true -> no_reset later = true -> run h b1 later = Val (b, zs) ->
  blen (unfinished_data b) < 2 ^ 31 ->
  nth_error gs' i = Some g ->
  let D := unfinished_data b in
  ((length fs <= i)%nat -> gen_get hr D (blen D - o) g = missing g) /\
  ((i < length fs)%nat -> nth_error gs i = Some g).
Proof.
  intros Fl Fd G G' L L' Hc Ho Hcl H T P Hl Hr R Lb Hg D.
  assert (Lfs : blen fs <= 32765). { clear - L. unfold blen in *. rewrite app_length in L. lia. }
  destruct (evolution _ _ _ _ _ _ _ _ Lfs G G') as (gm & E). pose proof (gen_table_length _ _ _ _ _ G) as Lg. subst gs'. split; intros Hi.
  - apply (new_reads_old h hr c (blen fs) Hc Lfs L' gs gm ys before xs b0 b1 o later b zs (i - length gs) g); auto.
    + exists fl, snake, hg', (fs ++ more). auto.
    + rewrite <- Hg. rewrite nth_error_app2 by lia. reflexivity.
  - rewrite <- Hg. rewrite nth_error_app1 by lia. reflexivity.
Qed.

(** ** Enum values *)
Lemma enum_values_exact vs i v : nth_error vs i = Some v ->
  nth_error (enum_values vs) i = Some (match iev_value v with Some x => x | None => Z.of_nat i end).
Proof. intros H. unfold enum_values. rewrite (enum_values_nth vs 0 i v H). reflexivity. Qed.

Lemma enum_distinct vs base : enum_compiles vs base = true ->
  NoDup (enum_values vs) /\ Forall (fun n => valid_scalar (prim_ty base) n = true) (enum_values vs).
Proof. intros C. apply enum_compiles_facts in C as (_ & F & N). split; [exact N|]. rewrite Forall_forall. rewrite forallb_forall in F. exact F. Qed.

(** The values are the documented ones exactly when every variant without a
    value that is not the first follows a variant whose value is its index. *)
Lemma documented_from_iff vs : forall i n,
  enum_values_from i vs = documented_from n vs <->
  match vs with [] => True | v :: _ => iev_value v = None -> i = n end /\
  (forall k v, nth_error vs (S k) = Some v -> iev_value v = None -> nth_error (enum_values_from i vs) k = Some (i + Z.of_nat k)).
Proof.
  induction vs as [|v vs IH]; intros i n; cbn [enum_values_from documented_from].
  - split; [|reflexivity]. intros _. split; [exact Logic.I|]. intros k v H. discriminate H.
  - set (x := match iev_value v with Some x => x | None => i end). set (y := match iev_value v with Some x => x | None => n end).
    split.
    + intros E. assert (E1 : x = y) by congruence. assert (E2 : enum_values_from (i + 1) vs = documented_from (y + 1) vs) by congruence.
      apply IH in E2 as [A B]. split.
      * intros Hv. unfold x, y in E1. rewrite Hv in E1. exact E1.
      * intros [|k] w Hk Hw; cbn [nth_error] in *.
        -- destruct vs as [|v' vs]; [discriminate|]. cbn [nth_error] in Hk. injection Hk as ->. specialize (A Hw). f_equal. clear - A E1. lia.
        -- rewrite (B k w Hk Hw). f_equal. lia.
    + intros [A B]. assert (E1 : x = y).
      { unfold x, y. destruct (iev_value v); auto. }
      f_equal; [exact E1|]. apply IH. split.
      * destruct vs as [|v' vs]; [exact Logic.I|]. intros Hv. specialize (B O v' eq_refl Hv). cbn [nth_error] in B. injection B as B. clear - B E1. lia.
      * intros k w Hk Hw. specialize (B (S k) w Hk Hw). cbn [nth_error] in B. rewrite B. f_equal. lia.
Qed.
Lemma documented_iff vs : enum_values vs = documented_values vs <->
  forall k v, nth_error vs (S k) = Some v -> iev_value v = None -> nth_error (enum_values vs) k = Some (Z.of_nat k).
Proof.
  unfold enum_values, documented_values. rewrite documented_from_iff. split.
  - intros [_ H] k v Hk Hv. exact (H k v Hk Hv).
  - intros H. split; [destruct vs; auto|]. exact H.
Qed.

Definition ev (name : string) (v : option Z) : ienumv := IEnumV (lit name) v [].
Lemma documented_refuted :
  (exists vs base, enum_compiles vs base = true /\ NoDup (documented_values vs) /\ enum_values vs <> documented_values vs) /\
  (exists vs, NoDup (map iev_id vs) /\ documented_values vs = [1; 2] /\ forall base, enum_compiles vs base = false).
Proof.
  split.
  - exists [ev "A" (Some 5); ev "B" None], UByte. split; [vm_compute; reflexivity|]. split; [|vm_compute; discriminate].
    apply nodup_z_NoDup. vm_compute. reflexivity.
  - exists [ev "A" (Some 1); ev "B" None]. split; [apply nodup_ident_NoDup; vm_compute; reflexivity|]. split; [vm_compute; reflexivity|].
    intros []; vm_compute; reflexivity.
Qed.

(** ** A required scalar given its default *)
Definition fl0 : floats := Floats (fun _ => 0) (fun _ => 0) (fun _ => 0).
Lemma fl0_ok : floats_ok fl0.
Proof. repeat split; intros; reflexivity. Qed.
Definition required_int : list ifield := [IField (lit "x") (IPrim Int) (implicit_default (APrim Int)) true []].
Lemma required_refuted h c before xs b0 :
  0 <= c -> calls_ok before = true -> closed before = true -> program h c before = Val (b0, xs) ->
  nested b0 = false -> blen (unfinished_data b0) + 150000 < 2 ^ 31 ->
  exists gs args,
    gen_table fl0 (fun x => x) h required_int = Some gs /\ args_ok gs args = true /\ (forall a, In a args -> a <> None) /\
    gen_create h b0 gs args = Panic.
Proof.
  intros Hc Ho Hcl H N L. exists [GField 4 (GScalar TI32 (Some 0)) true], [Some (PScalar TI32 0)].
  assert (G : gen_table fl0 (fun x => x) h required_int = Some [GField 4 (GScalar TI32 (Some 0)) true]) by (destruct h as [[] []]; vm_compute; reflexivity).
  split; [exact G|]. split; [vm_compute; reflexivity|]. split; [intros a [<-|[]]; discriminate|].
  refine (proj2 (create_exact h c before xs b0 [GField 4 (GScalar TI32 (Some 0)) true] [Some (PScalar TI32 0)] Hc Ho Hcl H N _ eq_refl _ L) eq_refl).
  - exists fl0, (fun x => x), h, required_int. split; [exact fl0_ok|]. split; [reflexivity|]. split; [vm_compute; discriminate|exact G].
  - intros o [E|[]]. discriminate E.
Qed.

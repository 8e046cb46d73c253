(** Schemas with tables that do not compile, and one in which all do. *)
From Coq Require Import Strings.String ZArith List Bool Lia Strings.Byte.
From Verif Require Import Base Scalar Schema Ident Heck HeckProofs Codegen SpecIdent SpecResolve SpecEmit SpecEvolve SpecTable Resolve GenProofs8 EvolveProofs1 TableProofs2 TableProofs3.
Import ListNotations.
Local Open Scope string_scope.
Local Open Scope list_scope.
Local Open Scope Z_scope.

Definition no_code (fl : floats) (hg : host) (x : qident * node) : bool :=
  match snd x with NTable t => match gen_table fl snake_case hg (it_fields t) with None => true | Some _ => false end | _ => false end.
Definition some_odd (fl : floats) (hg : host) (es : list element) : bool :=
  match build snake_case es with Done root => existsb (no_code fl hg) (all_contents root) | _ => false end.
Lemma odd_all fl hg : forallb (some_odd fl hg) odd_schemas = true.
Proof. destruct hg as [[] []]; vm_compute; reflexivity. Qed.
Lemma odd_refuted fl hg es : In es odd_schemas -> exists root path t,
  build snake_case es = Done root /\ In (path, NTable t) (all_contents root) /\ gen_table fl snake_case hg (it_fields t) = None.
Proof.
  intros I. pose proof (odd_all fl hg) as H. rewrite forallb_forall in H. specialize (H es I). unfold some_odd in H.
  destruct (build snake_case es) as [root| |]; try discriminate H. apply existsb_exists in H as ([path n] & In_ & N). unfold no_code in N. cbn [snd] in N.
  destruct n as [|t| | | |]; try discriminate N. destruct (gen_table fl snake_case hg (it_fields t)) eqn:G; [discriminate N|]. exists root, path, t. auto.
Qed.

Definition no_error (fl : floats) (hg : host) (x : qident * node) : bool :=
  match snd x with NTable t => (match gen_table fl snake_case hg (it_fields t) with None => false | Some _ => true end) | _ => true end.
Lemma whole_case fl hg : exists root, build snake_case whole = Done root /\ length (all_contents root) = 5%nat /\
  forall path t, In (path, NTable t) (all_contents root) -> fine_table fl snake_case (it_fields t) /\ exists gs, gen_table fl snake_case hg (it_fields t) = Some gs.
Proof.
  assert (H : match build snake_case whole with Done root => length (all_contents root) = 5%nat /\ forallb (no_error fl hg) (all_contents root) = true | _ => False end)
    by (destruct hg as [[] []]; vm_compute; split; reflexivity).
  destruct (build snake_case whole) as [root| |] eqn:B; try destruct H. exists root. split; [reflexivity|]. split; [assumption|]. intros path t I.
  assert (G : exists gs, gen_table fl snake_case hg (it_fields t) = Some gs).
  { rewrite forallb_forall in H0. specialize (H0 _ I). unfold no_error in H0. cbn [snd] in H0. destruct (gen_table fl snake_case hg (it_fields t)); [eauto|discriminate H0]. }
  split; [|exact G]. apply (resolved_table_fine fl snake_case hg whole root path t B I). exact G.
Qed.
Definition usable_b (x : text) : bool :=
  forallb namec x && negb (ident_eqb x (lit "try")) && negb (ident_eqb x (lit "type")) &&
  match x with c :: _ => namec c && negb (existsb (Byte.eqb c) (lit "_0123456789")) | [] => false end.
Lemma usable_b_ok x : usable_b x = true -> usable x /\ x <> lit "type".
Proof.
  unfold usable_b. rewrite !andb_true_iff, !negb_true_iff. intros (((N & T) & Y) & C).
  assert (Ne : forall a, ident_eqb x a = false -> x <> a) by (intros a E ->; rewrite (proj2 (ident_eqb_eq a a) eq_refl) in E; discriminate E).
  split; [|apply Ne; exact Y]. split; [apply name_text_iff; apply Forall_forall; apply forallb_forall; exact N|]. split; [|apply Ne; exact T].
  destruct x as [|c r]; [discriminate C|]. apply andb_true_iff in C as [_ C]. apply negb_true_iff in C. exists [], c, r. split; [reflexivity|]. split; [constructor|].
  intros I. assert (X : existsb (Byte.eqb c) (lit "_0123456789") = true) by (apply existsb_exists; exists c; split; [exact I|destruct c; reflexivity]). congruence.
Qed.
Lemma whole_usable : settled whole /\ (forall a f, In (ETable a) whole -> In f (ap_fields a) -> usable (af_id f) /\ af_id f <> lit "type").
Proof.
  split.
  - apply (one_settled _ [lit "game"]). split; [reflexivity|]. intros [|[|[|[|[|i]]]]] e N Ns; try reflexivity; [injection N as <-; discriminate Ns|]. destruct i; discriminate N.
  - assert (H : forallb (fun e => match e with ETable a => forallb (fun f => usable_b (af_id f)) (ap_fields a) | _ => true end) whole = true) by (vm_compute; reflexivity).
    rewrite forallb_forall in H. intros a f Ia If. specialize (H _ Ia). cbn beta iota in H. rewrite forallb_forall in H. apply usable_b_ok. exact (H f If).
Qed.

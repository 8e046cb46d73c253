(** What of a schema has no effect. *)
From Coq Require Import Strings.String ZArith List Bool Lia Strings.Byte Permutation.
From Verif Require Import Base BaseFacts Schema Ident Codegen Resolve SpecTable SpecResolve ResolveProofs9.
Import ListNotations.
Local Open Scope nat_scope.

Section Facts.
Context (snake : text -> text).
Notation new_element := (new_element snake).

Lemma required_bare f : is_required (af_meta (bare_field f)) = is_required (af_meta f).
Proof. change (is_required (af_meta f)) with (required_of (af_meta f)). cbn [bare_field af_meta]. destruct (required_of (af_meta f)); reflexivity. Qed.
Lemma table_fields_bare st fs : table_fields snake st (map bare_field fs) = table_fields snake st fs.
Proof.
  induction fs as [|f fs IH]; [reflexivity|]. cbn [map table_fields]. rewrite required_bare. cbn [bare_field af_ty af_id af_default af_doc].
  destruct (try_type st (af_ty f)); [|reflexivity]. rewrite IH. reflexivity.
Qed.
Lemma struct_fields_bare st q fs : struct_fields st q (map bare_field fs) = struct_fields st q fs.
Proof.
  induction fs as [|f fs IH]; [reflexivity|]. cbn [map struct_fields]. cbn [bare_field af_ty af_id af_default af_doc].
  destruct (try_type st (af_ty f)); [|reflexivity]. rewrite IH. reflexivity.
Qed.
Lemma union_variants_bare st vs : union_variants st (map (fun v => AVariant (av_id v) None (av_doc v)) vs) = union_variants st vs.
Proof. induction vs as [|v vs IH]; [reflexivity|]. cbn [map union_variants av_id av_doc]. rewrite IH. reflexivity. Qed.
Lemma companion_bare vs : companion_variants (map (fun v => AVariant (av_id v) None (av_doc v)) vs) = companion_variants vs.
Proof. unfold companion_variants. rewrite map_map. reflexivity. Qed.
Lemma streaming_bare m : streaming_of (am_meta (bare_method m)) = streaming_of (am_meta m).
Proof.
  cbn [bare_method am_meta]. destruct (am_meta m) as [l|]; [|reflexivity]. cbn [streaming_of]. destruct (meta_get l (lit "streaming")) as [v|] eqn:G; [|reflexivity].
  cbn [streaming_of]. replace (meta_get [(lit "streaming", v)] (lit "streaming")) with (Some v) by reflexivity. reflexivity.
Qed.
Lemma methods_bare ms : forall st, rpc_methods snake st (map bare_method ms) = rpc_methods snake st ms.
Proof.
  induction ms as [|m ms IH]; intros st; [reflexivity|]. cbn [map rpc_methods]. rewrite streaming_bare. cbn [bare_method am_id am_request am_response am_doc].
  destruct (new_root_ident st _) as [[s1 [|]]| |]; cbn [rbind]; try reflexivity. destruct (new_root_ident s1 _) as [[s2 [|]]| |]; cbn [rbind]; try reflexivity.
  destruct (streaming_of (am_meta m)); cbn [rbind]; try reflexivity. rewrite IH. reflexivity.
Qed.
Lemma element_bare st pos e : new_element st (pos, bare e) = new_element st (pos, e).
Proof.
  destruct e as [q d|t|t|e|u|id|x d|x d|x|r|x d]; try reflexivity; cbn [bare Resolve.new_element].
  - unfold new_table. cbn [bare_product ap_id ap_fields ap_doc]. destruct (check_new st _); cbn [rbind]; try reflexivity. rewrite table_fields_bare. reflexivity.
  - unfold new_struct. cbn [bare_product ap_id ap_fields ap_doc]. destruct (check_new st _); cbn [rbind]; try reflexivity. rewrite struct_fields_bare. reflexivity.
  - unfold new_union. cbn [au_id au_variants au_doc]. rewrite union_variants_bare, companion_bare. reflexivity.
  - unfold new_rpc. cbn [ar_id ar_methods ar_doc]. rewrite methods_bare. reflexivity.
Qed.

Definition barely {A} (r : res A) : res A := match r with Fail (Unresolved l) => Fail (Unresolved (map bare l)) | _ => r end.
Definition bare_at (pe : nat * element) : nat * element := (fst pe, bare (snd pe)).
Lemma indexed_bare es : forall i, indexed i (map bare es) = map bare_at (indexed i es).
Proof. induction es as [|e es IH]; intros i; [reflexivity|]. cbn [map indexed]. rewrite IH. reflexivity. Qed.
Lemma element_kept st pe l : new_element st pe <> Fail (Unresolved l).
Proof.
  destruct pe as [pos e].
  assert (C : forall q, check_new st q <> Fail (Unresolved l)) by (intros q; unfold check_new; destruct (tget (r_types st) q) as [[|]|]; discriminate).
  assert (R : forall st q, new_root_ident st q <> Fail (Unresolved l)) by (intros s q; unfold new_root_ident; destruct (tget (r_types s) q) as [[|[]]|]; discriminate).
  destruct e as [q d|t|t|e|u|id|x d|x d|x|r|x d]; cbn [Resolve.new_element]; try discriminate.
  - unfold new_table. specialize (C (qualify st (ap_id t))). destruct (check_new st _); cbn [rbind]; try congruence.
    assert (F : forall s fs, table_fields snake s fs <> Fail (Unresolved l)).
    { intros s fs. induction fs as [|f fs IH]; cbn [table_fields]; [discriminate|]. destruct (try_type s (af_ty f)) as [ty|]; [|discriminate].
      destruct (match ty with ICustom _ (KUnion e _) => _ | _ => _ end) as [c|x|] eqn:E; cbn [rbind]; [|destruct ty as [| | |? []]; try discriminate E; destruct (find_custom_type _ _); discriminate E|discriminate].
      destruct (table_fields snake s fs); cbn [rbind]; congruence. }
    specialize (F (set_type st (qualify st (ap_id t)) TableDeclared) (ap_fields t)). destruct (table_fields snake _ _) as [[fs|]| |]; cbn [rbind]; congruence.
  - unfold new_struct. specialize (C (qualify st (ap_id t))). destruct (check_new st _); cbn [rbind]; try congruence.
    assert (F : forall q fs, struct_fields st q fs <> Fail (Unresolved l)).
    { intros q fs. induction fs as [|f fs IH]; cbn [struct_fields]; [discriminate|]. destruct (try_type st (af_ty f)) as [ty|]; [|discriminate].
      destruct (is_scalar ty); [|discriminate]. destruct (struct_fields st q fs); cbn [rbind]; congruence. }
    specialize (F (qualify st (ap_id t)) (ap_fields t)). destruct (struct_fields st _ _) as [[fs|]| |]; cbn [rbind]; congruence.
  - unfold new_enum. specialize (C (qualify st (ae_id e))). destruct (check_new st _); cbn [rbind]; try congruence. destruct (enum_base (ae_base e)); discriminate.
  - unfold new_union. pose proof (C (qualify st (au_id u))) as C1. destruct (check_new st (qualify st (au_id u))); cbn [rbind]; try congruence.
    destruct (union_variants st (au_variants u)); [|discriminate]. specialize (C (companion_ident st (au_id u))). destruct (check_new st _); cbn [rbind]; congruence.
  - apply R.
  - unfold new_rpc. assert (M : forall ms s, rpc_methods snake s ms <> Fail (Unresolved l)).
    { induction ms as [|m ms IH]; intros s; cbn [rpc_methods]; [discriminate|]. pose proof (R s (qualify_q s (am_request m))) as R1.
      destruct (new_root_ident s _) as [[s1 [|]]| |]; cbn [rbind]; try congruence. pose proof (R s1 (qualify_q s (am_response m))) as R2.
      destruct (new_root_ident s1 _) as [[s2 [|]]| |]; cbn [rbind]; try congruence.
      assert (St : streaming_of (am_meta m) <> Fail (Unresolved l)).
      { unfold streaming_of. destruct (am_meta m) as [k|]; [|discriminate]. destruct (meta_get k (lit "streaming")) as [[[c|y]|]|]; try discriminate.
        destruct (bytes_eqb _ _); [discriminate|]. destruct (bytes_eqb _ _); [discriminate|]. destruct (bytes_eqb _ _); discriminate. }
      destruct (streaming_of (am_meta m)); cbn [rbind]; try congruence. specialize (IH s2). destruct (rpc_methods snake s2 ms) as [[s3 o]| |]; cbn [rbind]; congruence. }
    specialize (M (ar_methods r) st). destruct (rpc_methods snake st (ar_methods r)) as [[s [ms|]]| |]; cbn [rbind]; congruence.
Qed.
Lemma pass_bare input : forall st, pass snake st (map bare_at input) =
  match pass snake st input with Done (s, un) => Done (s, map bare_at un) | Fail e => Fail e | Crash => Crash end.
Proof.
  induction input as [|[pos e] input IH]; intros st; [reflexivity|]. cbn [map]. change (bare_at (pos, e)) with (pos, bare e). cbn [Resolve.pass]. rewrite element_bare.
  destruct (new_element st (pos, e)) as [[s1 ok]| |]; cbn [rbind]; try reflexivity. rewrite IH. destruct (pass snake s1 input) as [[s2 un]| |]; cbn [rbind]; try reflexivity.
  destruct ok; reflexivity.
Qed.
Lemma pass_kept input : forall st l, pass snake st input <> Fail (Unresolved l).
Proof.
  induction input as [|pe input IH]; intros st l; cbn [Resolve.pass]; [discriminate|]. pose proof (element_kept st pe l) as K.
  destruct (new_element st pe) as [[s1 ok]| |]; cbn [rbind]; try congruence. specialize (IH s1 l). destruct (pass snake s1 input) as [[s2 un]| |]; cbn [rbind]; congruence.
Qed.
Lemma passes_bare fuel : forall st input, passes snake fuel st (map bare_at input) = option_map barely (passes snake fuel st input).
Proof.
  induction fuel as [|fuel IH]; intros st input; [reflexivity|]. cbn [Resolve.passes]. rewrite pass_bare. pose proof (pass_kept input st) as K.
  destruct (pass snake st input) as [[s un]|x|]; [|cbn [option_map barely]; destruct x; try reflexivity; exfalso; eapply K; reflexivity|reflexivity].
  destruct un as [|pe un]; [reflexivity|]. cbn [map]. destruct (Nat.eqb _ _).
  - cbn [option_map barely map]. rewrite !map_map. reflexivity.
  - apply (IH s (pe :: un)).
Qed.
Lemma build_bare es : build snake (map bare es) = match build snake es with Fail (Unresolved l) => Fail (Unresolved (map bare l)) | r => r end.
Proof.
  unfold build. rewrite map_length, indexed_bare, passes_bare. destruct (passes snake _ initial (indexed 0 es)) as [r|]; [|reflexivity].
  cbn [option_map]. destruct r as [st|x|]; try reflexivity. cbn [rbind barely]. destruct x; reflexivity.
Qed.
Lemma build_alike es es' : map bare es = map bare es' -> forall root, build snake es = Done root <-> build snake es' = Done root.
Proof.
  intros E root. pose proof (build_bare es) as A. rewrite E, build_bare in A. destruct (build snake es) as [r|[]|], (build snake es') as [r'|[]|]; try discriminate A; try (split; discriminate).
  injection A as ->. reflexivity.
Qed.

(** The numbers of the variants of a union. *)
Lemma union_numbers es root path u k v : build snake es = Done root -> In (path, NUnion u) (all_contents root) -> nth_error (iu_variants u) k = Some v ->
  exists vs w, In (iu_enum u, KEnum vs UByte) (defined root) /\ nth_error vs (S k) = Some w /\ iev_id w = iuv_id v /\ variant_number (S k) w = Z.of_nat (S k).
Proof.
  intros B I N. destruct (companion_defined snake es root path u B I) as (vs & D & Ids & Vals). eexists. 
  assert (L : nth_error (map iev_id vs) k = Some (iuv_id v)) by (rewrite Ids; apply map_nth_error; exact N).
  rewrite nth_error_map in L. destruct (nth_error vs k) as [w|] eqn:W; [|discriminate L]. injection L as L. exists w. split; [exact D|]. split; [exact W|]. split; [exact L|].
  unfold variant_number. assert (M : nth_error (map iev_value vs) k = Some (iev_value w)) by (apply map_nth_error; exact W).
  rewrite Vals, (map_nth_error _ _ _ W) in M. injection M as <-. reflexivity.
Qed.
End Facts.

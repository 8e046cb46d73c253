(** The type fields of unions are found. *)
From Coq Require Import Strings.String ZArith List Bool Lia Strings.Byte Sorting.Permutation.
From Verif Require Import Base Schema Ident Codegen SpecIdent SpecResolve SpecEmit SpecEvolve SpecTable Heck HeckProofs Resolve ResolveProofs7 ResolveProofs9 EmitProofs6 EvolveProofs1 TableProofs2.
Import ListNotations.
Local Open Scope list_scope.

Lemma underscored_type ws : ws <> [] -> underscored (ws ++ [lit "type"]) = underscored ws ++ lit "_type".
Proof.
  induction ws as [|w ws IH]; intros N; [congruence|]. destruct ws as [|v ws]; [reflexivity|].
  change (underscored ((w :: v :: ws) ++ [lit "type"])) with (w ++ lit "_" ++ underscored ((v :: ws) ++ [lit "type"])).
  rewrite IH by discriminate. change (underscored (w :: v :: ws)) with (w ++ lit "_" ++ underscored (v :: ws)). rewrite <- !app_assoc. reflexivity.
Qed.
Lemma type_accessor x : usable x -> x <> lit "type" -> snake_case (fix_identifier (snake_case x ++ lit "_type")) = snake_case (fix_identifier x) ++ lit "_type".
Proof.
  intros (N & L & _) T. destruct (snake_valid x (conj N L)) as [_ L'].
  assert (Ne : snake_case x <> []) by (destruct L' as (u & c & r & E & _); rewrite E; destruct u; discriminate).
  pose proof (accessor_snake x T) as A. unfold accessor_name in A. rewrite A.
  assert (T' : snake_case x ++ lit "_type" <> lit "type") by (destruct (snake_case x) as [|a s]; [congruence|]; intros E; apply (f_equal (@length _)) in E; rewrite app_length in E; cbn in E; lia).
  pose proof (accessor_snake _ T') as A'. unfold accessor_name in A'. rewrite A'. apply snake_fixed.
  destruct (shaped_words _ (snake_shape x N)) as (ws & G & E). rewrite E, <- underscored_type by (intros ->; apply Ne; rewrite E; reflexivity).
  apply good_snake_shaped. unfold good in *. apply Forall_app. split; [exact G|]. constructor; [|constructor]. split; [discriminate|]. apply Forall_forall. apply forallb_forall. reflexivity.
Qed.

Theorem type_fields es root path t : settled es -> build snake_case es = Done root ->
  (forall a f, In (ETable a) es -> In f (ap_fields a) -> usable (af_id f) /\ af_id f <> lit "type") ->
  In (path, NTable t) (all_contents root) -> forall f, In f (it_fields t) -> type_field snake_case (it_fields t) f.
Proof.
  intros S B U I. destruct (settled_declares _ es root S B) as (roots & outs & D & Ns & P & _). pose proof I as I0.
  apply (Permutation_in _ P) in I. apply in_map_iff in I as (n & E & I). injection E as _ ->. apply in_concat in I as (out & Io & In_).
  apply In_nth_error in Io as (i & No). destruct (Ns i out No) as (e & Ne & Nn); [intros ->; destruct In_|].
  destruct (D i e Ne Nn) as (out' & No' & De). assert (out' = out) by congruence. subst out'.
  assert (F : exists a, e = ETable a /\ table_fields_of snake_case (fun q c => In (q, c) (defined root)) (written_prefix es i) (ap_fields a) (it_fields t)).
  { destruct De; cbn [In] in In_; try (exfalso; intuition discriminate). destruct In_ as [X|[]]. injection X as <-. eauto. }
  destruct F as (a & -> & F). apply nth_error_In in Ne. specialize (U a). clear - U Ne F B. specialize (fun f => U f Ne).
  induction F as [|f fs ty l R Nu F IH|f fs q e vs c l R V F IH].
  - intros f [].
  - assert (IH' : forall g, In g l -> type_field snake_case l g) by (apply IH; intros g Ig; apply U; right; exact Ig).
    intros g [<-|Ig] q e vs T; [cbn [if_ty] in T; subst ty; discriminate Nu|].
    destruct (IH' g Ig q e vs T) as (tf & evs & b & It & K). exists tf, evs, b. split; [right; exact It|exact K].
  - assert (IH' : forall g, In g l -> type_field snake_case l g) by (apply IH; intros g Ig; apply U; right; exact Ig).
    assert (C : exists evs b, c = KEnum evs b).
    { assert (Ku : In (q, KUnion e vs) (defined root)) by (inversion R; subst; assumption).
      unfold defined, definitions in Ku. apply in_flat_map in Ku as (nd & Ind & Dn). apply in_map_iff in Ind as ([path' nd'] & En & Ind). cbn [snd] in En. subst nd'.
      destruct nd as [|t0|s0|e0|u|r0]; cbn [defs_of In] in Dn; try (exfalso; intuition discriminate). destruct Dn as [Dn|[]]. injection Dn as _ De Dv.
      destruct (companion_defined snake_case es root path' u B Ind) as (cvs & Dc & _). rewrite De in Dc.
      rewrite (functional_of _ (defined_once snake_case es root B) _ _ _ V Dc). eauto. }
    destruct C as (evs & b & ->). intros g [<-|[<-|Ig]] q' e' vs' T; cbn [if_ty] in T.
    + discriminate T.
    + injection T as <- <- <-. eexists _, evs, b. split; [left; reflexivity|]. cbn [if_id if_ty if_required]. split; [|split; reflexivity].
      destruct (U f (or_introl eq_refl)) as [Uf Tf]. apply type_accessor; assumption.
    + destruct (IH' g Ig q' e' vs' T) as (tf & evs' & b' & It & K). exists tf, evs', b'. split; [right; right; exact It|exact K].
Qed.

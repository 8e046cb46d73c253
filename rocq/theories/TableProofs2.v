(** The tables of a resolved schema whose generated code compiles, continued. *)
From Coq Require Import Strings.String ZArith List Bool Lia Strings.Byte ZifyBool ZifyNat.
From Verif Require Import Base Scalar Reader Schema Ident Codegen SpecResolve SpecEmit SpecTable Resolve GenProofs1 GenProofs3 GenProofs8 ResolveProofs7 ResolveProofs9 TableProofs1.
Import ListNotations.
Local Open Scope list_scope.
Local Open Scope Z_scope.

Section Table.
Context (fl : floats) (snake : text -> text) (hg : host).

(** ** Defaults *)
Lemma double_iff x : finite64 x = true <-> is_double x.
Proof. unfold finite64, is_double. change (2 ^ 11) with 2048. change (2048 - 1) with 2047. rewrite negb_true_iff, Z.eqb_neq. reflexivity. Qed.
Lemma float_iff x : finite32 x = true <-> is_float x.
Proof. unfold finite32, is_float. change (2 ^ 8) with 256. change (256 - 1) with 255. rewrite negb_true_iff, Z.eqb_neq. reflexivity. Qed.
Lemma const_fine p c : const_value fl (prim_ty p) c <> None <-> fine_default fl (IPrim p) (Some (DScalar c)).
Proof.
  destruct (int_ty (prim_ty p)) eqn:I.
  - destruct c as [n|x|b].
    + assert (E : const_value fl (prim_ty p) (CInt n) = if valid_scalar (prim_ty p) n then Some n else None) by (destruct p; try discriminate I; reflexivity).
      rewrite E. pose proof (range_valid p n I) as R. split.
      * intros H. apply fd_int. apply R. destruct (valid_scalar (prim_ty p) n); [reflexivity|]. destruct H. reflexivity.
      * intros F. inversion F as [| |p0 n0 H|p0 n0 H| | | | |]; subst; [|destruct H as [<-|[<-|[<-|[<-|[]]]]]; discriminate I]. apply R in H. rewrite H. discriminate.
    + assert (E : const_value fl (prim_ty p) (CFloat x) = None) by (destruct p; try discriminate I; reflexivity). rewrite E.
      split; [intros H; destruct H; reflexivity|]. intros F. inversion F as [| | | |p0 x0 H|p0 x0 H| | |]; subst; destruct H as [<-|[<-|[]]]; discriminate I.
    + assert (E : const_value fl (prim_ty p) (CBool b) = None) by (destruct p; try discriminate I; reflexivity). rewrite E.
      split; [intros H; destruct H; reflexivity|]. intros F. inversion F; subst. discriminate I.
  - assert (P : p = Bool \/ In p [Float; Float32; Double; Float64]) by (destruct p; cbn in *; intuition congruence).
    destruct P as [->|P].
    + destruct c; cbn [prim_ty const_value]; (split; [intros H; try (destruct H; reflexivity)|intros F; inversion F as [| |p0 n0 H|p0 n0 H|p0 x0 H|p0 x0 H| | |]; subst]);
        try discriminate; try (cbn in H; intuition discriminate); try contradiction. constructor.
    + assert (Pf : In p [Float; Float32] \/ In p [Double; Float64]) by (cbn in *; tauto).
      destruct c as [n|x|b].
      * split; [intros _; apply fd_float_int; exact P|]. intros _. destruct Pf as [[<-|[<-|[]]]|[<-|[<-|[]]]]; discriminate.
      * destruct Pf as [Pf|Pf].
        -- assert (E : const_value fl (prim_ty p) (CFloat x) <> None <-> is_float (f64_to_f32 fl x)) by (rewrite <- float_iff; destruct Pf as [<-|[<-|[]]]; cbn [const_value prim_ty]; destruct (finite32 _); intuition congruence).
           rewrite E. split; [intros H; apply fd_float; auto|]. intros F. inversion F as [| | | | |p0 x0 H| | |]; subst; [assumption|]. destruct Pf as [<-|[<-|[]]], H as [H|[H|[]]]; discriminate H.
        -- assert (E : const_value fl (prim_ty p) (CFloat x) <> None <-> is_double x) by (rewrite <- double_iff; destruct Pf as [<-|[<-|[]]]; cbn [const_value prim_ty]; destruct (finite64 x); intuition congruence).
           rewrite E. split; [intros H; apply fd_double; auto|]. intros F. inversion F as [| | | |p0 x0 H| | | |]; subst; [|assumption]. destruct Pf as [<-|[<-|[]]], H as [H|[H|[]]]; discriminate H.
      * split; [destruct Pf as [[<-|[<-|[]]]|[<-|[<-|[]]]]; intros H; destruct H; reflexivity|]. intros F. inversion F; subst. destruct P as [P|[P|[P|[P|[]]]]]; discriminate P.
Qed.
Lemma enum_default_fine q vs b d : enum_default vs d <> None <-> fine_default fl (ICustom q (KEnum vs b)) d.
Proof.
  destruct d as [[c|i]|]; cbn [enum_default].
  - split; [intros H; destruct H; reflexivity|]. intros F; inversion F.
  - unfold variant_value. split.
    + intros H. apply fd_enum. apply (variant_found vs i 0). destruct (variant_value_from 0 vs i); [discriminate|]. destruct H. reflexivity.
    + intros F. inversion F as [| | | | | |q0 vs0 b0 i0 H| |]; subst. apply (variant_found vs i 0) in H. destruct (variant_value_from 0 vs i); [discriminate|]. destruct H. reflexivity.
  - split; [intros _; constructor|discriminate].
Qed.

(** ** Fields *)
Context (fs : list ifield).
Hypothesis companions : forall f q e vs tf evs b, In f fs -> if_ty f = ICustom q (KUnion e vs) -> In tf fs -> if_ty tf = ICustom e (KEnum evs b) ->
  b = UByte /\ exists cvs, evs = IEnumV (lit "None") (Some 0) [] :: cvs /\ map iev_id cvs = map iuv_id vs /\ map iev_value cvs = map (fun _ => None) cvs.

Definition fine_field_type (f : ifield) : Prop := fine_type (if_ty f) \/ exists q e vs, if_ty f = ICustom q (KUnion e vs) /\ fine_union vs.
Definition found_type (f : ifield) : Prop := forall q e vs, if_ty f = ICustom q (KUnion e vs) ->
  exists j tf evs b, find_field snake 0 fs (type_name snake (if_id f)) = Some (j, tf) /\ if_ty tf = ICustom e (KEnum evs b) /\
    if_required tf = if_required f /\ slot_of hg j <> None /\ fine_default fl (if_ty tf) (if_default tf).

Lemma union_fine f q e vs tf evs b : In f fs -> if_ty f = ICustom q (KUnion e vs) -> In tf fs -> if_ty tf = ICustom e (KEnum evs b) ->
  (enum_compiles evs b = true /\ union_exhaustive evs vs = true /\ union_arms evs vs <> None <-> fine_union vs).
Proof.
  intros If Tf It Tt. destruct (companions f q e vs tf evs b If Tf It Tt) as (-> & cvs & -> & Ids & Vals).
  rewrite enum_fine, (companion_fine cvs _ Ids Vals), (exhaustive_fine _ _ Ids), arms_fine. rewrite map_length. split.
  - intros ((L & N & W) & (T & _) & A). constructor; auto; [|intros v I; apply A; exact I]. intros v I. apply W. apply in_map. exact I.
  - intros F. split; [|split; [split; [exact (fu_table _ F)|]|]].
    + split; [exact (fu_count _ F)|]. split; [exact (fu_names _ F)|]. intros x Ix. apply in_map_iff in Ix as (v & <- & I). apply (fu_words _ F). exact I.
    + exact (fu_names _ F).
    + intros v I. split; [cbn [map iev_id]; right; rewrite Ids; apply in_map; exact I|exact (fu_types _ F v I)].
Qed.

Lemma field_fine i f : In f fs -> (gen_field fl snake hg fs i f <> None <->
  slot_of hg i <> None /\ fine_field_type f /\ fine_default fl (if_ty f) (if_default f) /\ found_type f).
Proof.
  intros If. unfold gen_field. destruct (slot_of hg i) as [slot|] eqn:S; [|split; [intros H; destruct H; reflexivity|intros [H _]; destruct H; reflexivity]].
  assert (Plain : forall t, if_ty f = t -> (forall q e vs, t <> ICustom q (KUnion e vs)) -> found_type f /\ (fine_field_type f <-> fine_type t)).
  { intros t T N. split; [intros q e vs E; exfalso; apply (N q e vs); congruence|]. unfold fine_field_type. rewrite T. split; [|auto].
    intros [H|(q & e & vs & E & _)]; [exact H|]. destruct (N q e vs E). }
  assert (Ref : forall t, if_ty f = t -> (forall q e vs, t <> ICustom q (KUnion e vs)) -> (forall d, fine_default fl t d <-> d = None) ->
    forall g : fty -> gfield, (match if_default f with None => match follow_ty t with Some u => Some (g u) | None => None end | Some _ => None end <> None <->
      Some slot <> None /\ fine_field_type f /\ fine_default fl t (if_default f) /\ found_type f)).
  { intros t T N D g. destruct (Plain t T N) as [F1 F2]. rewrite F2, D, <- type_fine. destruct (if_default f), (follow_ty t); split; intros H; try discriminate; try (destruct H; reflexivity);
      repeat split; auto; try discriminate; destruct H as (_ & A & B & _); congruence. }
  destruct (if_ty f) as [p| |t|q [|ss|vs b|e vs]] eqn:T.
  - (* a number *)
    destruct (Plain _ eq_refl ltac:(discriminate)) as [F1 F2]. rewrite F2. destruct (if_default f) as [[c|d]|] eqn:D.
    + pose proof (const_fine p c) as C. destruct (const_value fl (prim_ty p) c) as [v|].
      * split; [intros _; repeat split; try discriminate; auto; [constructor|apply C; discriminate]|discriminate].
      * split; [intros H; destruct H; reflexivity|]. intros (_ & _ & H & _). apply C in H. destruct H. reflexivity.
    + split; [intros H; destruct H; reflexivity|]. intros (_ & _ & H & _). inversion H.
    + split; [intros _; repeat split; try discriminate; auto; constructor|discriminate].
  - specialize (Ref _ eq_refl ltac:(discriminate)). destruct (if_default f) as [[]|] eqn:D; apply (Ref ltac:(intros d; split; [intros H; inversion H; reflexivity|intros ->; constructor]) (fun u => GField slot (GRef u) (if_required f))).
  - specialize (Ref _ eq_refl ltac:(discriminate)). destruct (if_default f) as [[]|] eqn:D; apply (Ref ltac:(intros d; split; [intros H; inversion H; reflexivity|intros ->; constructor]) (fun u => GField slot (GRef u) (if_required f))).
  - specialize (Ref _ eq_refl ltac:(discriminate)). destruct (if_default f) as [[]|] eqn:D; apply (Ref ltac:(intros d; split; [intros H; inversion H; reflexivity|intros ->; constructor]) (fun u => GField slot (GRef u) (if_required f))).
  - (* a struct *)
    destruct (Plain _ eq_refl ltac:(discriminate)) as [F1 F2]. rewrite F2. split; [destruct (if_default f) as [[]|]; intros H; destruct H; reflexivity|]. intros (_ & H & _). inversion H.
  - (* an enum *)
    destruct (Plain _ eq_refl ltac:(discriminate)) as [F1 F2]. rewrite F2. rewrite <- (enum_default_fine q vs b (if_default f)).
    assert (Fe : fine_type (ICustom q (KEnum vs b)) <-> enum_compiles vs b = true) by (rewrite enum_fine; split; [intros H; inversion H; subst; assumption|apply ft_enum]). rewrite Fe.
    assert (X : forall o : option gfield, (match enum_default vs (if_default f) with Some d => if enum_compiles vs b then Some (GField slot (GEnum (prim_ty b) (enum_values vs) d) (if_required f)) else None | None => None end = o) ->
      (o <> None <-> Some slot <> None /\ enum_compiles vs b = true /\ enum_default vs (if_default f) <> None /\ found_type f)).
    { intros o <-. destruct (enum_default vs (if_default f)); [|split; [intros H; destruct H; reflexivity|intros (_ & _ & H & _); destruct H; reflexivity]].
      destruct (enum_compiles vs b); split; intros H; try discriminate; try (destruct H; reflexivity); repeat split; auto; try discriminate. destruct H as (_ & H & _). discriminate H. }
    destruct (if_default f) as [[]|] eqn:D; apply X; reflexivity.
  - (* a union *)
    assert (U : forall g : Z -> ienumv -> gfield, True) by auto.
    set (body := match find_field snake 0 fs (type_name snake (if_id f)) with
      | Some (j, tf) => match if_ty tf with
        | ICustom q0 (KEnum evs b) => match union_arms evs vs, slot_of hg j, enum_default evs (if_default tf) with
            | Some arms, Some tslot, Some td => if qident_eqb q0 e && Bool.eqb (if_required tf) (if_required f) && enum_compiles evs b && union_exhaustive evs vs
                then Some (GField slot (GUnion tslot (prim_ty b) (enum_values evs) td arms) (if_required f)) else None
            | _, _, _ => None end
        | _ => None end
      | None => None end).
    assert (B : body <> None <-> fine_field_type f /\ found_type f).
    { subst body. split.
      - destruct (find_field snake 0 fs (type_name snake (if_id f))) as [[j tf]|] eqn:E; [|intros H; destruct H; reflexivity].
        destruct (if_ty tf) as [| | |q0 [| |evs b|]] eqn:Tt; try (intros H; destruct H; reflexivity). intros H.
        destruct (find_field_nth _ _ _ _ _ _ E) as (k & _ & Nk). apply nth_error_In in Nk.
        destruct (union_arms evs vs) as [arms|] eqn:A; [|destruct H; reflexivity]. destruct (slot_of hg j) eqn:Sj; [|destruct H; reflexivity].
        destruct (enum_default evs (if_default tf)) eqn:Ed; [|destruct H; reflexivity]. destruct (_ && _) eqn:C; [|destruct H; reflexivity].
        repeat rewrite andb_true_iff in C. destruct C as [[[Q R] C] X]. apply qident_eqb_eq in Q. subst q0. apply eqb_prop in R. split.
        + right. exists q, e, vs. split; [exact T|]. apply (union_fine f q e vs tf evs b If T Nk Tt). split; [exact C|]. split; [exact X|]. rewrite A. discriminate.
        + intros q' e' vs' T'. assert (e' = e) by congruence. subst e'. exists j, tf, evs, b. split; [exact E|]. split; [exact Tt|]. split; [exact R|]. split; [rewrite Sj; discriminate|].
          rewrite Tt. apply enum_default_fine. rewrite Ed. discriminate.
      - intros [F1 F2]. destruct (F2 q e vs T) as (j & tf & evs & b & E & Tt & R & Sj & D). rewrite E, Tt. rewrite Tt in D. apply enum_default_fine in D.
        destruct (find_field_nth _ _ _ _ _ _ E) as (k & _ & Nk). apply nth_error_In in Nk.
        assert (Fu : fine_union vs) by (destruct F1 as [F1|(q' & e' & vs' & T' & F1)]; [rewrite T in F1; inversion F1|assert (vs' = vs) by congruence; congruence]).
        apply (union_fine f q e vs tf evs b If T Nk Tt) in Fu as (C & X & A). destruct (union_arms evs vs); [|destruct A; reflexivity]. destruct (slot_of hg j); [|destruct Sj; reflexivity].
        destruct (enum_default evs (if_default tf)); [|destruct D; reflexivity]. rewrite (proj2 (qident_eqb_eq e e) eq_refl), R, eqb_reflx, C, X. discriminate. }
    assert (K : fine_default fl (ICustom q (KUnion e vs)) (if_default f) <-> match if_default f with None | Some (DIdent _) | Some (DScalar (CBool _)) => True | _ => False end).
    { split; [intros H; inversion H; exact Logic.I|]. destruct (if_default f) as [[[]|]|]; intros []; constructor. }
    rewrite K. destruct (if_default f) as [[[n|x|bo]|d]|]; fold body.
    1,2: split; [intros H; destruct H; reflexivity|intros (_ & _ & [] & _)].
    all: rewrite B; split; [intros [H1 H2]; repeat split; auto; discriminate|tauto].
Qed.

(** ** Tables *)
Lemma fields_fine l : forall i, gen_fields fl snake hg fs i l <> None <-> forall k f, nth_error l k = Some f -> gen_field fl snake hg fs (i + Z.of_nat k) f <> None.
Proof.
  induction l as [|f l IH]; intros i; cbn [gen_fields]; [split; [intros _ [|k] f N; discriminate N|discriminate]|]. split.
  - intros H [|k] g N.
    + injection N as <-. rewrite Z.add_0_r. destruct (gen_field fl snake hg fs i f); [discriminate|]. destruct H. reflexivity.
    + cbn [nth_error] in N. assert (A : gen_fields fl snake hg fs (i + 1) l <> None) by (intros X; rewrite X in H; destruct (gen_field fl snake hg fs i f); auto).
      replace (i + Z.of_nat (S k)) with (i + 1 + Z.of_nat k) by lia. apply (proj1 (IH (i + 1)) A k g N).
  - intros H. pose proof (H O f eq_refl) as A. rewrite Z.add_0_r in A. destruct (gen_field fl snake hg fs i f); [|destruct A; reflexivity].
    assert (B : gen_fields fl snake hg fs (i + 1) l <> None).
    { apply IH. intros k g0 N. replace (i + 1 + Z.of_nat k) with (i + Z.of_nat (S k)) by lia. apply H. exact N. }
    destruct (gen_fields fl snake hg fs (i + 1) l); [discriminate|exact B].
Qed.
Lemma find_by_name name : forall l tf i, NoDup (map (fun f => snake (if_id f)) l) -> In tf l -> snake (if_id tf) = name ->
  exists k, nth_error l k = Some tf /\ find_field snake i l name = Some (i + Z.of_nat k, tf).
Proof.
  induction l as [|f l IH]; intros tf i N I E; [destruct I|]. cbn [map] in N. apply NoDup_cons_iff in N as [N1 N2]. cbn [find_field].
  destruct (ident_eqb (snake (if_id f)) name) eqn:Q.
  - apply ident_eqb_eq in Q. destruct I as [<-|I]; [exists O; split; [reflexivity|]; rewrite Z.add_0_r; reflexivity|].
    exfalso. apply N1. rewrite Q, <- E. apply in_map_iff. eauto.
  - destruct I as [<-|I]; [exfalso; apply ident_eqb_eq in E; congruence|]. destruct (IH tf (i + 1) N2 I E) as (k & Nk & F). exists (S k). split; [exact Nk|]. rewrite F. do 2 f_equal. lia.
Qed.
Lemma name_found name : forall l i j tf, find_field snake i l name = Some (j, tf) -> snake (if_id tf) = name.
Proof.
  induction l as [|f l IH]; intros i j tf E; cbn [find_field] in E; [discriminate|]. destruct (ident_eqb (snake (if_id f)) name) eqn:Q; [|eauto].
  apply ident_eqb_eq in Q. congruence.
Qed.
Lemma default_fine : args_default_compiles fs = true <-> (has_default fs -> forall f q vs b, In f fs -> if_ty f = ICustom q (KEnum vs b) -> if_default f = None -> ~ In (lit "default") (map iev_id vs)).
Proof.
  unfold args_default_compiles. assert (H : forallb (fun f => negb (if_required f) || is_scalar (if_ty f)) fs = true <-> has_default fs).
  { rewrite forallb_forall. unfold has_default. split; intros H f I; specialize (H f I).
    - intros R. rewrite R in H. exact H.
    - destruct (if_required f); [apply H; reflexivity|reflexivity]. }
  assert (E : existsb default_hidden fs = true <-> exists f q vs b, In f fs /\ if_ty f = ICustom q (KEnum vs b) /\ if_default f = None /\ In (lit "default") (map iev_id vs)).
  { rewrite existsb_exists. unfold default_hidden. split.
    - intros (f & I & D). destruct (if_ty f) as [| | |q [| |vs b|]] eqn:T; try discriminate D. destruct (if_default f) eqn:Df; [discriminate D|]. apply mem_ident_In in D. exists f, q, vs, b. auto.
    - intros (f & q & vs & b & I & T & D & M). exists f. rewrite T, D. split; [exact I|]. apply mem_ident_In. exact M. }
  destruct (forallb _ fs) eqn:Hf; destruct (existsb _ fs) eqn:Ef; cbn [andb negb]; split; intros X; try reflexivity; try discriminate X.
  - destruct (proj1 E eq_refl) as (f & q & vs & b & I & T & D & M). destruct (X (proj1 H eq_refl) f q vs b I T D M).
  - intros _ f q vs b I T D M. assert (false = true) by (apply E; eauto 8). discriminate.
  - intros Hd. apply H in Hd. discriminate Hd.
  - intros Hd. apply H in Hd. discriminate Hd.
Qed.

Lemma params_fine : params_compile fs = true <-> forall f, In f fs -> ~ In (if_id f) [lit "Some"; lit "None"; lit "Ok"; lit "Err"].
Proof.
  unfold params_compile. rewrite forallb_forall. split; intros H f I; specialize (H f I).
  - intros M. apply mem_ident_In in M. rewrite M in H. discriminate H.
  - destruct (mem_ident _ _) eqn:M; [|reflexivity]. apply mem_ident_In in M. contradiction.
Qed.

Lemma table_fine : (exists gs, gen_table fl snake hg fs = Some gs) <->
  fine_table fl snake fs /\ (debug hg = false \/ Z.of_nat (length fs) <= most_fields).
Proof.
  unfold gen_table. transitivity (nodup_ident (lit "create" :: lit "get_root" :: map (fun f => snake (if_id f)) fs) = true /\ args_default_compiles fs = true /\ params_compile fs = true /\ gen_fields fl snake hg fs 0 fs <> None).
  { destruct (nodup_ident _), (args_default_compiles fs), (params_compile fs), (gen_fields fl snake hg fs 0 fs); cbn [andb]; split; intros H; try (destruct H as [gs H]; discriminate H); try (destruct H as (A & B & C & D); congruence);
      repeat split; try discriminate; eauto. }
  rewrite nodup_ident_NoDup, default_fine, params_fine, fields_fine, !NoDup_cons_iff. cbn [In]. split.
  - intros ((W1 & W2 & N) & D & Pa & G).
    assert (F : forall k f, nth_error fs k = Some f -> slot_of hg (Z.of_nat k) <> None /\ fine_field_type f /\ fine_default fl (if_ty f) (if_default f) /\ found_type f).
    { intros k f Nk. apply field_fine; [eapply nth_error_In; exact Nk|]. exact (G k f Nk). }
    assert (F' : forall f, In f fs -> fine_field_type f /\ fine_default fl (if_ty f) (if_default f) /\ found_type f).
    { intros f I. apply In_nth_error in I as (k & Nk). destruct (F k f Nk) as (_ & H). exact H. }
    split.
    + constructor; auto.
      * intros f I. split; intros E; [apply W1; right|apply W2]; apply in_map_iff; exists f; auto.
      * intros f I. apply (F' f I).
      * intros f I. apply (F' f I).
      * intros f I q e vs T. destruct (F' f I) as (_ & _ & H). destruct (H q e vs T) as (j & tf & evs & b & E & Tt & R & _). exists tf, evs, b.
        split; [apply find_field_nth in E as (k & _ & Nk); eapply nth_error_In; exact Nk|]. split; [exact (name_found _ _ _ _ _ E)|]. auto.
    + destruct (debug hg) eqn:Dh; [|auto]. right. destruct (Z.le_gt_cases (Z.of_nat (length fs)) most_fields) as [L|L]; [exact L|]. exfalso.
      assert (P : exists f, nth_error fs (Z.to_nat most_fields) = Some f).
      { destruct (nth_error fs (Z.to_nat most_fields)) eqn:E; [eauto|]. apply nth_error_None in E. unfold most_fields in *. lia. }
      destruct P as (f & Nk). destruct (F _ _ Nk) as (S & _). rewrite Z2Nat.id in S by (unfold most_fields; lia). apply S. apply slot_last. exact Dh.
  - intros [T S]. assert (Slot : forall k f, nth_error fs k = Some f -> slot_of hg (Z.of_nat k) <> None).
    { intros k f Nk. apply slot_fine; [lia|]. destruct S as [S|S]; [auto|right]. assert (k < length fs)%nat by (apply nth_error_Some; congruence). lia. }
    split; [|split; [exact (ft_variant _ _ _ T)|split; [exact (ft_params _ _ _ T)|]]].
    + split; [|split; [|exact (ft_names _ _ _ T)]].
      * intros [E|I]; [discriminate E|]. apply in_map_iff in I as (f & E & I). destruct (ft_words _ _ _ T f I). congruence.
      * intros I. apply in_map_iff in I as (f & E & I). destruct (ft_words _ _ _ T f I). congruence.
    + intros k f Nk. cbn [Z.add]. pose proof (nth_error_In _ _ Nk) as I. apply (field_fine (Z.of_nat k) f I). split; [exact (Slot k f Nk)|]. split; [exact (ft_types _ _ _ T f I)|]. split; [exact (ft_defaults _ _ _ T f I)|].
      intros q e vs Tu. destruct (ft_unions _ _ _ T f I q e vs Tu) as (tf & evs & b & It & E & Tt & R).
      destruct (find_by_name (type_name snake (if_id f)) fs tf 0 (ft_names _ _ _ T) It E) as (j & Nj & Ff). exists (0 + Z.of_nat j), tf, evs, b.
      split; [exact Ff|]. split; [exact Tt|]. split; [exact R|]. split; [exact (Slot j tf Nj)|exact (ft_defaults _ _ _ T tf It)].
Qed.
End Table.

(** The tables of a resolved schema. *)
Lemma resolved_companions snake es root path t : build snake es = Done root -> In (path, NTable t) (all_contents root) ->
  forall f q e vs tf evs b, In f (it_fields t) -> if_ty f = ICustom q (KUnion e vs) -> In tf (it_fields t) -> if_ty tf = ICustom e (KEnum evs b) ->
  b = UByte /\ exists cvs, evs = IEnumV (lit "None") (Some 0) [] :: cvs /\ map iev_id cvs = map iuv_id vs /\ map iev_value cvs = map (fun _ => None) cvs.
Proof.
  intros B I f q e vs tf evs b If Tf It Tt.
  assert (Known : forall f q c, In f (it_fields t) -> if_ty f = ICustom q c -> c <> KTable -> In (q, c) (defined root)).
  { intros f0 q0 c0 I0 T0 N. assert (M : In (q0, c0) (mentions (NTable t))).
    { cbn [mentions]. apply in_flat_map. exists f0. split; [exact I0|]. rewrite T0. left. reflexivity. }
    destruct (mentioned snake es root path _ q0 c0 B I M) as [K|(K & _)]; [exact K|congruence]. }
  assert (Ku : In (q, KUnion e vs) (defined root)) by (apply (Known f); [exact If|exact Tf|discriminate]).
  assert (Ke : In (e, KEnum evs b) (defined root)) by (apply (Known tf); [exact It|exact Tt|discriminate]).
  unfold defined, definitions in Ku. apply in_flat_map in Ku as (nd & Ind & Dn). apply in_map_iff in Ind as ([path' nd'] & En & Ind). cbn [snd] in En. subst nd'.
  destruct nd as [|t0|s0|e0|u|r0]; cbn [defs_of In] in Dn; try (exfalso; intuition discriminate). destruct Dn as [Dn|[]]. injection Dn as _ De Dv.
  destruct (companion_defined snake es root path' u B Ind) as (cvs & Dc & Ids & Vals). rewrite De in Dc. rewrite Dv in Ids.
  pose proof (functional_of _ (defined_once snake es root B) _ _ _ Ke Dc) as X. injection X as -> ->. eauto 6.
Qed.
Theorem resolved_table_fine fl snake hg es root path t : build snake es = Done root -> In (path, NTable t) (all_contents root) ->
  ((exists gs, gen_table fl snake hg (it_fields t) = Some gs) <->
   fine_table fl snake (it_fields t) /\ (debug hg = false \/ Z.of_nat (length (it_fields t)) <= most_fields)).
Proof. intros B I. apply table_fine. exact (resolved_companions snake es root path t B I). Qed.

(** Strings, vectors, offsets and tables read back; growth, capacity. *)
From Coq Require Import ZArith List Bool Lia Strings.Byte ZifyBool ZifyNat ZifyN.
From Verif Require Import Base Scalar Utf8 Reader Builder Ops SpecWire SpecBuilder SpecReader Abstract BaseFacts ScalarFacts WireFacts
  ReaderFacts ReaderProofs ReaderProofs3 ReaderProofs4 Refine Refine2
  Build1 Build2 Build3 Build4 Build5 Build6 Build7 Build8 Build9.
Import ListNotations.
Local Open Scope Z_scope.

(** ** One call inside a program *)
Lemma one_call h c os o later b xs x ys :
  0 <= c -> forallb op_ok (os ++ [o] ++ later) = true -> no_reset later = true ->
  program h c (os ++ [o] ++ later) = Val (b, xs ++ [x] ++ ys) -> length xs = length os ->
  blen (unfinished_data b) < 2 ^ 32 ->
  exists b0 b1, program h c os = Val (b0, xs) /\ step h b0 o = Val (b1, x) /\ run h b1 later = Val (b, ys) /\
    good b0 /\ good b1 /\ a_step false h (view b0) o = Val (view b1, x) /\
    (exists p, unfinished_data b = p ++ unfinished_data b1) /\
    min_align b1 <= min_align b /\ blen (unfinished_data b1) <= blen (unfinished_data b).
Proof.
  intros Hc Ho Hr H Lx L. rewrite !forallb_app in Ho. apply andb_true_iff in Ho as [Ho1 Ho].
  apply andb_true_iff in Ho as [Ho2 Ho3]. cbn [forallb] in Ho2. rewrite andb_true_r in Ho2.
  apply program_split in H as (b0 & xs1 & r1 & HB & H & E1 & L1).
  apply app_len_inj in E1 as [<- E1]; [|lia].
  apply run_split in H as (b1 & xs2 & r2 & H1 & H & E2 & L2). rewrite E2 in E1.
  apply run_one in H1 as (r & H1 & ->). cbn [app] in E1. injection E1 as <- <-.
  pose proof (program_good _ _ _ _ _ Hc Ho1 HB) as G0. pose proof (step_good _ _ _ _ _ G0 Ho2 H1) as G1.
  pose proof G0 as [I0 _]. pose proof G1 as [I1 _].
  pose proof (step_abstract _ _ _ _ _ I0 Ho2 H1) as [S _].
  pose proof (run_grows _ _ _ _ _ I1 Ho3 Hr H L) as G.
  exists b0, b1. repeat (split; [assumption|]). split; [|split].
  - apply G.
  - apply G.
  - apply grows_blen in G. exact G.
Qed.

(** ** Strings *)
Lemma At_string D r s : At D r (string_bytes s) -> blen s < 2 ^ 32 -> string_at D (blen D - r) s.
Proof.
  intros A Ls. pose proof (At_range _ _ _ A) as R. rewrite blen_string_bytes in R. pose proof (blen_nonneg s).
  unfold string_bytes in A. split; [|split].
  - assert (A1 : At D r (wire TU32 (blen s))) by (eapply (At_sub D r []); [exact A|change (blen (@nil byte)) with 0; lia]). apply At_get in A1. rewrite blen_wire in A1.
    apply (get_range_le_at D (blen D - r) TU32) in A1; [|lia].
    rewrite scalar_of_wire in A1 by (cbn; lia). cbn [ssize] in A1. rewrite Z.mod_small in A1 by lia. exact A1.
  - assert (A2 : At D (r - 4) s) by (eapply At_sub; [exact A|rewrite blen_wire; reflexivity]). apply At_get in A2.
    apply bytes_at_get_range. split; [lia|]. replace (blen D - r + 4) with (blen D - (r - 4)) by lia. exact A2.
  - rewrite app_assoc in A. rewrite <- (app_nil_r [x00]) in A.
    assert (A3 : At D (r - 4 - blen s) [x00]) by (eapply At_sub; [exact A|rewrite blen_app, blen_wire; cbn [ssize]; lia]).
    destruct A3 as (p & q & E & Er). rewrite E, !blen_app. change (blen [x00]) with 1 in *.
    rewrite nth_error_app2.
    + replace (Z.to_nat _ - length p)%nat with 0%nat; [reflexivity|]. unfold blen in *. lia.
    + unfold blen in *. lia.
Qed.

Lemma string_at_end D r s : string_at D (blen D - r) s -> 0 <= blen D - r.
Proof. intros ((H & _) & _). exact H. Qed.

Lemma create_string_At h a s a' o : a_create_string false h a s = Val (a', o) -> blen (a_data a') < 2 ^ 32 ->
  At (a_data a') o (string_bytes s) /\ o = blen (a_data a') /\ blen s < 2 ^ 32.
Proof.
  intros H L. apply a_create_string_val in H. apply a_create_byte_string_val in H as (E & Eo & _).
  pose proof (blen_nonneg (a_data a')). rewrite as_u32_small in Eo by lia.
  assert (A : At (a_data a') o (string_bytes s)) by (rewrite E; cbn [with_data a_data]; eapply At_here'; [reflexivity|rewrite Eo, E; reflexivity]).
  split; [exact A|]. split; [exact Eo|]. apply At_range in A. rewrite blen_string_bytes in A. lia.
Qed.

Lemma string_round_trip h hr c os s later b xs r ys :
  0 <= c -> forallb op_ok (os ++ [OpCreateString s] ++ later) = true -> no_reset later = true ->
  program h c (os ++ [OpCreateString s] ++ later) = Val (b, xs ++ [ONum r] ++ ys) -> length xs = length os ->
  blen (unfinished_data b) < 2 ^ 32 ->
  let D := unfinished_data b in
  string_at D (blen D - r) s /\ (is_utf8 s -> follow hr FStr D (blen D - r) = Val (VStr s)).
Proof.
  intros Hc Ho Hr H Lx L D.
  destruct (one_call _ _ _ _ _ _ _ _ _ Hc Ho Hr H Lx L) as (b0 & b1 & _ & _ & _ & _ & _ & S & (p & E) & _ & L1).
  cbn [a_step] in S. unfold a_num in S. apply bind_Val in S as ([a1 n] & S & Q).
  assert (a1 = view b1) by congruence. assert (n = r) by congruence. subst a1 n.
  apply create_string_At in S as (A & Er & Ls); [|cbn; lia]. cbn [view a_data] in *.
  apply (At_app p) in A. rewrite <- E in A. fold D in A.
  pose proof (At_string _ _ _ A Ls) as SA. split; [exact SA|]. intros U.
  apply string_read_utf8; auto.
  - split; [apply string_at_end in SA; auto|]. unfold D. pose proof (blen_nonneg (unfinished_data b1)). lia.
  - unfold D. lia.
Qed.

Lemma byte_string_round_trip h c os s later b xs r ys :
  0 <= c -> forallb op_ok (os ++ [OpCreateByteString s] ++ later) = true -> no_reset later = true ->
  program h c (os ++ [OpCreateByteString s] ++ later) = Val (b, xs ++ [ONum r] ++ ys) -> length xs = length os ->
  blen (unfinished_data b) < 2 ^ 32 ->
  let D := unfinished_data b in string_at D (blen D - r) s.
Proof.
  intros Hc Ho Hr H Lx L D.
  destruct (one_call _ _ _ _ _ _ _ _ _ Hc Ho Hr H Lx L) as (b0 & b1 & _ & _ & _ & _ & _ & S & (p & E) & _ & L1).
  cbn [a_step] in S. unfold a_num in S. apply bind_Val in S as ([a1 n] & S & Q).
  assert (a1 = view b1) by congruence. assert (n = r) by congruence. subst a1 n.
  apply a_create_byte_string_val in S as (E2 & Eo & _). cbn [view a_data] in *.
  pose proof (blen_nonneg (unfinished_data b1)). rewrite as_u32_small in Eo by lia.
  apply (f_equal a_data) in E2. cbn [view with_data a_data] in E2.
  assert (A : At (unfinished_data b1) r (string_bytes s)) by (eapply At_here'; [exact E2|exact Eo]).
  assert (Ls : blen s < 2 ^ 32) by (apply At_range in A; rewrite blen_string_bytes in A; lia).
  apply (At_app p) in A. rewrite <- E in A. apply At_string; auto.
Qed.

(** ** Vectors *)
Lemma cells_At t l : Forall (of_type t) l -> forall d i x, nth_error l i = Some x ->
  At (cells l d) (blen (cells l d) - Z.of_nat i * pty_size t) (fbytes x (blen (cells l d) - Z.of_nat i * pty_size t)).
Proof.
  induction 1 as [|y l Hy Hl IH]; intros d i x Hi; [destruct i; discriminate|].
  destruct i as [|i]; cbn [nth_error] in Hi.
  - injection Hi as ->. replace (blen _ - Z.of_nat 0 * pty_size t) with (blen (cells (x :: l) d)) by lia.
    assert (E : blen (cells (x :: l) d) = push_size x + blen (cells l d)) by (cbn [cells]; rewrite blen_app, blen_pbytes; lia).
    rewrite E. rewrite <- pbytes_fbytes. cbn [cells]. eapply At_here'; [reflexivity|]. rewrite blen_app, blen_pbytes. reflexivity.
  - replace (blen (cells (y :: l) d) - Z.of_nat (S i) * pty_size t) with (blen (cells l d) - Z.of_nat i * pty_size t).
    + cbn [cells]. apply At_app. apply IH. auto.
    + cbn [cells]. rewrite blen_app, blen_pbytes. destruct (of_type_size _ _ Hy) as [-> _]. lia.
Qed.

Definition vector_at (D : list byte) (r : Z) (t : pty) (items : list pval) : Prop :=
  At D r (wire TU32 (blen items)) /\ blen items < 2 ^ 32 /\
  forall i x, nth_error items i = Some x ->
    At D (r - 4 - Z.of_nat i * pty_size t) (fbytes x (r - 4 - Z.of_nat i * pty_size t)).

Lemma vector_at_app q D r t items : vector_at D r t items -> vector_at (q ++ D) r t items.
Proof. intros (A & B & C). split; [apply At_app; auto|]. split; auto. intros. apply At_app. auto. Qed.

Lemma vector_data_at t items d : Forall (of_type t) items -> blen (vector_data t items d) < 2 ^ 32 ->
  vector_at (vector_data t items d) (blen (vector_data t items d)) t items.
Proof.
  intros Ht L. unfold vector_data in *. cbv zeta in *. set (z := zeros _ ++ d) in *.
  rewrite blen_app, blen_wire in L. cbn [ssize] in L. pose proof (blen_cells t items z Ht) as Bc.
  pose proof (blen_nonneg z). pose proof (blen_nonneg items). assert (1 <= pty_size t) by (destruct t as [[]|]; cbn; lia).
  split; [eapply At_here'; reflexivity|]. split; [nia|]. intros i x Hi.
  rewrite blen_app, blen_wire. cbn [ssize]. replace (4 + blen (cells items z) - 4) with (blen (cells items z)) by lia.
  apply At_app. apply cells_At; auto.
Qed.

Lemma vector_at_len D r t items : vector_at D r t items -> le_at D (blen D - r) 4 (blen items).
Proof.
  intros (A & B & _). pose proof (At_range _ _ _ A). pose proof (blen_nonneg items). apply At_get in A. rewrite blen_wire in A.
  apply (get_range_le_at D (blen D - r) TU32) in A; [|lia].
  rewrite scalar_of_wire in A by (cbn; lia). cbn [ssize] in A. rewrite Z.mod_small in A by lia. exact A.
Qed.

Lemma map_zseq_nth {A B} (f : Z -> B) (g : A -> B) (l : list A) : forall k,
  (forall i x, nth_error l i = Some x -> f (k + Z.of_nat i) = g x) ->
  map f (zseq k (length l)) = map g l.
Proof.
  induction l as [|x l IH]; intros k H; cbn [length zseq map]; [reflexivity|]. f_equal.
  - rewrite <- (H O x eq_refl). f_equal. lia.
  - apply IH. intros i y Hi. rewrite <- (H (S i) y Hi). f_equal. lia.
Qed.

Lemma vector_elements h T D r t items g : vector_at D r t items -> size_of T = pty_size t -> blen D < 2 ^ 63 ->
  (forall x q, In x items -> At D q (fbytes x q) -> q <= r -> follow h T D (blen D - q) = g x) ->
  elements h T D (blen D - r) (blen items) = map g items.
Proof.
  intros V Hs L F. pose proof (vector_at_len _ _ _ _ V) as Len. destruct V as (A & B & C).
  unfold elements. replace (Z.to_nat (blen items)) with (length items) by (unfold blen; lia).
  apply map_zseq_nth. intros i x Hi.
  assert (Li : (i < length items)%nat) by (apply nth_error_Some; congruence).
  assert (0 < pty_size t) by (destruct t as [[]|]; cbn; lia).
  rewrite (vec_get_cell h T D _ (blen items)); auto; [|unfold blen; lia|lia].
  replace (blen D - r + 4 + size_of T * (0 + Z.of_nat i)) with (blen D - (r - 4 - Z.of_nat i * pty_size t)) by lia.
  apply F; [eapply nth_error_In; eauto|apply C; auto|nia].
Qed.

Lemma op_ok_items t items : op_ok (OpCreateVector t items) = true ->
  Forall (of_type t) items /\ Forall (fun x => pval_ok x = true) items.
Proof.
  cbn [op_ok]. intros H. apply andb_true_iff in H as [_ H]. rewrite forallb_forall in H.
  split; apply Forall_forall; intros x I; specialize (H x I); apply andb_true_iff in H as [H1 H2]; auto.
  unfold of_type. destruct x as [s v|o], t as [u|]; cbn in H2 |- *; try discriminate; auto.
  destruct s, u; try discriminate; reflexivity.
Qed.

Lemma create_vector_at h a t items a' o : Forall (of_type t) items ->
  a_create_vector false h a (pty_size t) (pty_align t) items = Val (a', o) -> blen (a_data a') < 2 ^ 32 ->
  vector_at (a_data a') o t items /\ o = blen (a_data a').
Proof.
  intros Ht H L. apply a_create_vector_val in H as (E & Eo & _); auto.
  pose proof (blen_nonneg (a_data a')). rewrite as_u32_small in Eo by lia. subst o. rewrite E in *. cbn [with_data a_data] in *.
  split; [|auto]. apply vector_data_at; auto.
Qed.

Lemma vector_program h c os t items later b xs r ys :
  0 <= c -> forallb op_ok (os ++ [OpCreateVector t items] ++ later) = true -> no_reset later = true ->
  program h c (os ++ [OpCreateVector t items] ++ later) = Val (b, xs ++ [ONum r] ++ ys) -> length xs = length os ->
  blen (unfinished_data b) < 2 ^ 32 -> vector_at (unfinished_data b) r t items.
Proof.
  intros Hc Ho Hr H Lx L.
  destruct (one_call _ _ _ _ _ _ _ _ _ Hc Ho Hr H Lx L) as (b0 & b1 & _ & _ & _ & _ & _ & S & (p & E) & _ & L1).
  assert (Ht : Forall (of_type t) items).
  { rewrite !forallb_app in Ho. apply andb_true_iff in Ho as [_ Ho]. apply andb_true_iff in Ho as [Ho _].
    cbn [forallb] in Ho. rewrite andb_true_r in Ho. apply op_ok_items in Ho. tauto. }
  cbn [a_step] in S. unfold a_num in S. apply bind_Val in S as ([a1 n] & S & Q).
  assert (a1 = view b1) by congruence. assert (n = r) by congruence. subst a1 n.
  apply create_vector_at in S as [V _]; auto; [|cbn; lia]. cbn [view a_data] in V. rewrite E. apply vector_at_app. auto.
Qed.

Definition scalars t (vs : list Z) : list pval := map (PScalar t) vs.

Lemma op_split o os later : forallb op_ok (os ++ [o] ++ later) = true -> op_ok o = true.
Proof.
  rewrite !forallb_app. intros Ho. apply andb_true_iff in Ho as [_ Ho]. apply andb_true_iff in Ho as [Ho _].
  cbn [forallb] in Ho. rewrite andb_true_r in Ho. auto.
Qed.

Lemma scalar_vector_elements h t vs D r : vector_at D r (PTScalar t) (map (PScalar t) vs) ->
  Forall (fun v => valid_scalar t v = true) vs -> blen D < 2 ^ 32 ->
  elements h (FScalar t) D (blen D - r) (blen vs) = map (fun v => Val (VScalar v)) vs /\
  (forall allowed, Forall (fun v => In v allowed) vs ->
   elements h (FEnum t allowed) D (blen D - r) (blen vs) = map (fun v => Val (VEnum v)) vs).
Proof.
  intros V Hv L. rewrite Forall_forall in Hv. split.
  - pose proof (vector_elements h (FScalar t) D r _ _ (fun x => match x with PScalar _ v => Val (VScalar v) | _ => Panic end) V eq_refl ltac:(lia)) as E.
    rewrite blen_map, map_map in E. apply E. intros x q I A _. apply in_map_iff in I as (v & <- & I). cbn [fbytes] in A.
    apply At_scalar; auto. lia.
  - intros al Hal. rewrite Forall_forall in Hal.
    pose proof (vector_elements h (FEnum t al) D r _ _ (fun x => match x with PScalar _ v => Val (VEnum v) | _ => Panic end) V eq_refl ltac:(lia)) as E.
    rewrite blen_map, map_map in E. apply E. intros x q I A _. apply in_map_iff in I as (v & <- & I). cbn [fbytes] in A.
    apply At_enum; auto. lia.
Qed.

Lemma vector_round_trip h hr c os t vs later b xs r ys :
  0 <= c -> forallb op_ok (os ++ [OpCreateVector (PTScalar t) (map (PScalar t) vs)] ++ later) = true -> no_reset later = true ->
  program h c (os ++ [OpCreateVector (PTScalar t) (map (PScalar t) vs)] ++ later) = Val (b, xs ++ [ONum r] ++ ys) ->
  length xs = length os -> blen (unfinished_data b) < 2 ^ 32 ->
  let D := unfinished_data b in
  le_at D (blen D - r) 4 (blen vs) /\
  elements hr (FScalar t) D (blen D - r) (blen vs) = map (fun v => Val (VScalar v)) vs /\
  (forall allowed, Forall (fun v => In v allowed) vs ->
   elements hr (FEnum t allowed) D (blen D - r) (blen vs) = map (fun v => Val (VEnum v)) vs).
Proof.
  intros Hc Ho Hr H Lx L D. pose proof (vector_program _ _ _ _ _ _ _ _ _ _ Hc Ho Hr H Lx L) as V. fold D in V.
  split; [pose proof (vector_at_len _ _ _ _ V) as Q; rewrite blen_map in Q; exact Q|].
  apply scalar_vector_elements; auto. apply op_split in Ho. apply op_ok_items in Ho as [_ Ho].
  rewrite Forall_forall in *. intros v I. apply (Ho (PScalar t v)). apply in_map. auto.
Qed.

Lemma offset_vector_round_trip h hr c os offs later b xs r ys :
  0 <= c -> forallb op_ok (os ++ [OpCreateVector PTOffset (map POffset offs)] ++ later) = true -> no_reset later = true ->
  program h c (os ++ [OpCreateVector PTOffset (map POffset offs)] ++ later) = Val (b, xs ++ [ONum r] ++ ys) ->
  length xs = length os -> blen (unfinished_data b) < 2 ^ 32 ->
  (forall b0 ys, program h c os = Val (b0, ys) -> Forall (fun o => o <= blen (unfinished_data b0)) offs) ->
  let D := unfinished_data b in
  le_at D (blen D - r) 4 (blen offs) /\
  forall T, elements hr (FUOffset T) D (blen D - r) (blen offs) = map (fun o => follow hr T D (blen D - o)) offs.
Proof.
  intros Hc Ho Hr H Lx L Hoff D.
  destruct (one_call _ _ _ _ _ _ _ _ _ Hc Ho Hr H Lx L) as (b0 & b1 & P0 & _ & _ & _ & _ & S & (p & E) & _ & L1).
  specialize (Hoff _ _ P0). pose proof (op_split _ _ _ Ho) as Ho1. apply op_ok_items in Ho1 as [Ht Hok].
  cbn [a_step] in S. unfold a_num in S. apply bind_Val in S as ([a1 n] & S & Q).
  assert (a1 = view b1) by congruence. assert (n = r) by congruence. subst a1 n.
  assert (C : exists g, unfinished_data b1 = wire TU32 (blen offs) ++ cells (map POffset offs) (zeros g ++ unfinished_data b0)).
  { apply a_create_vector_val in S as (E1 & _); auto. apply (f_equal a_data) in E1. cbn [view with_data a_data] in E1.
    unfold vector_data in E1. rewrite blen_map in E1. eexists. exact E1. }
  pose proof (create_vector_at _ _ _ _ _ _ Ht S ltac:(cbn; lia)) as [V Er]. cbn [view a_data] in V, Er.
  destruct C as (g & C).
  pose proof (vector_at_app p _ _ _ _ V) as VD. rewrite <- E in VD. fold D in VD.
  split; [pose proof (vector_at_len _ _ _ _ VD) as X; rewrite blen_map in X; exact X|]. intros T.
  unfold elements. replace (Z.to_nat (blen offs)) with (length offs) by (unfold blen; lia).
  apply map_zseq_nth. intros i o Hi.
  assert (Li : (i < length offs)%nat) by (apply nth_error_Some; congruence).
  assert (LD : blen D < 2 ^ 32) by exact L.
  pose proof (vector_at_len _ _ _ _ VD) as Len. rewrite blen_map in Len.
  rewrite (vec_get_cell hr (FUOffset T) D _ (blen offs)); auto; [|unfold blen; lia|cbn; lia|lia].
  destruct VD as (A & B & Cc).
  assert (Hi' : nth_error (map POffset offs) i = Some (POffset o)) by (rewrite nth_error_map, Hi; reflexivity).
  specialize (Cc _ _ Hi'). cbn [fbytes pty_size] in Cc.
  replace (blen D - r + 4 + size_of (FUOffset T) * (0 + Z.of_nat i)) with (blen D - (r - 4 - Z.of_nat i * 4)) by (cbn [size_of]; lia).
  apply At_offset; auto.
  rewrite Forall_forall in Hoff, Hok.
  assert (0 <= o) by (specialize (Hok (POffset o) ltac:(eapply nth_error_In; eauto)); cbn in Hok; lia).
  specialize (Hoff o ltac:(eapply nth_error_In; eauto)).
  rewrite Er, C, blen_app, blen_wire, (blen_cells PTOffset) by auto. rewrite blen_map, blen_app, blen_zeros. cbn [ssize pty_size]. unfold blen. unfold blen in Hoff. lia.
Qed.

Lemma vector_direct_round_trip h hr c os t vs later b xs r ys :
  big_endian h = false \/ ssize t = 1 ->
  0 <= c -> forallb op_ok (os ++ [OpCreateVectorDirect t vs] ++ later) = true -> no_reset later = true ->
  program h c (os ++ [OpCreateVectorDirect t vs] ++ later) = Val (b, xs ++ [ONum r] ++ ys) ->
  length xs = length os -> blen (unfinished_data b) < 2 ^ 32 ->
  let D := unfinished_data b in
  le_at D (blen D - r) 4 (blen vs) /\
  elements hr (FScalar t) D (blen D - r) (blen vs) = map (fun v => Val (VScalar v)) vs /\
  (forall allowed, Forall (fun v => In v allowed) vs ->
   elements hr (FEnum t allowed) D (blen D - r) (blen vs) = map (fun v => Val (VEnum v)) vs).
Proof.
  intros Hh Hc Ho Hr H Lx L D.
  destruct (one_call _ _ _ _ _ _ _ _ _ Hc Ho Hr H Lx L) as (b0 & b1 & P0 & _ & _ & _ & _ & S & (p & E) & _ & L1).
  cbn [a_step] in S. unfold a_num in S. apply bind_Val in S as ([a1 n] & S & Q).
  assert (a1 = view b1) by congruence. assert (n = r) by congruence. subst a1 n.
  apply a_create_vector_direct_val in S as (E1 & Er & _). apply (f_equal a_data) in E1. cbn [view with_data a_data] in E1, Er.
  pose proof (blen_nonneg (unfinished_data b1)). rewrite as_u32_small in Er by lia.
  rewrite slice_memory_cells in E1 by auto.
  assert (V : vector_at (unfinished_data b1) r (PTScalar t) (map (PScalar t) vs)).
  { assert (X : unfinished_data b1 = vector_data (PTScalar t) (map (PScalar t) vs) (unfinished_data b0)).
    { rewrite E1. unfold vector_data. rewrite blen_map. reflexivity. }
    rewrite Er, X. apply vector_data_at; [|rewrite <- X; lia].
    apply Forall_forall. intros x I. apply in_map_iff in I as (v & <- & _). reflexivity. }
  apply (vector_at_app p) in V. rewrite <- E in V. fold D in V.
  split; [pose proof (vector_at_len _ _ _ _ V) as X; rewrite blen_map in X; exact X|].
  apply scalar_vector_elements; auto. apply op_split in Ho. cbn [op_ok] in Ho. apply andb_true_iff in Ho as [_ Ho].
  rewrite forallb_forall in Ho. apply Forall_forall. auto.
Qed.

(** ** Vectors of strings *)
Lemma create_strings_rev_at h l : forall a acc a' offs,
  a_create_strings_rev false h a l acc = Val (a', offs) -> blen (a_data a') < 2 ^ 32 ->
  exists new, offs = rev new ++ acc /\
    Forall2 (fun s o => At (a_data a') o (string_bytes s) /\ blen s < 2 ^ 32 /\ 0 <= o) l new.
Proof.
  induction l as [|s l IH]; intros a acc a' offs H L; cbn [a_create_strings_rev] in H.
  - injection H as <- <-. exists []. split; [reflexivity|constructor].
  - apply bind_Val in H as ([a1 o] & H1 & H).
    pose proof (a_create_strings_rev_grows _ _ _ _ _ _ _ H) as G. pose proof (grows_blen _ _ G).
    apply create_string_At in H1 as (A & Eo & Ls); [|lia].
    destruct (IH _ _ _ _ H L) as (new & E & F). exists (o :: new). split.
    + rewrite E. cbn [rev]. rewrite <- app_assoc. reflexivity.
    + constructor; [|exact F]. destruct G as ((p & Ep) & _). split; [rewrite Ep; apply At_app; auto|].
      split; [auto|]. rewrite Eo. apply blen_nonneg.
Qed.

Lemma Forall2_len {A B} (P : A -> B -> Prop) l m : Forall2 P l m -> length l = length m.
Proof. induction 1; cbn; congruence. Qed.

Lemma strings_vector_round_trip h hr c os ss later b xs r ys :
  0 <= c -> forallb op_ok (os ++ [OpCreateVectorOfStrings ss] ++ later) = true -> no_reset later = true ->
  program h c (os ++ [OpCreateVectorOfStrings ss] ++ later) = Val (b, xs ++ [ONum r] ++ ys) ->
  length xs = length os -> blen (unfinished_data b) < 2 ^ 32 -> Forall is_utf8 ss ->
  let D := unfinished_data b in
  le_at D (blen D - r) 4 (blen ss) /\
  elements hr (FUOffset FStr) D (blen D - r) (blen ss) = map (fun s => Val (VStr s)) ss.
Proof.
  intros Hc Ho Hr H Lx L HU D.
  destruct (one_call _ _ _ _ _ _ _ _ _ Hc Ho Hr H Lx L) as (b0 & b1 & P0 & _ & _ & _ & _ & S & (p & E) & _ & L1).
  cbn [a_step] in S. unfold a_num in S. apply bind_Val in S as ([a1 n] & S & Q).
  assert (a1 = view b1) by congruence. assert (n = r) by congruence. subst a1 n.
  unfold a_create_vector_of_strings in S. apply bind_Val in S as (u & _ & S).
  apply bind_Val in S as ([a2 offs] & S2 & S).
  pose proof (a_create_vector_grows _ _ _ PTOffset _ _ _ S) as G. pose proof (grows_blen _ _ G) as GL. cbn [view a_data] in GL.
  apply create_strings_rev_at in S2; [|lia]. destruct S2 as (new & -> & F). rewrite app_nil_r in *.
  assert (Ht : Forall (of_type PTOffset) (map POffset (rev new))).
  { apply Forall_forall. intros x I. apply in_map_iff in I as (v & <- & _). reflexivity. }
  assert (C : exists g, unfinished_data b1 = wire TU32 (blen new) ++ cells (map POffset (rev new)) (zeros g ++ a_data a2)).
  { pose proof (a_create_vector_val false h PTOffset _ _ _ _ Ht S) as (E1 & _). apply (f_equal a_data) in E1. cbn [view with_data a_data] in E1.
    unfold vector_data in E1. rewrite blen_map, blen_rev in E1. eexists. exact E1. }
  destruct C as (g & C).
  pose proof (create_vector_at _ _ PTOffset _ _ _ Ht S ltac:(cbn; lia)) as [V Er]. cbn [view a_data] in V, Er.
  pose proof (vector_at_app p _ _ _ _ V) as VD. rewrite <- E in VD. fold D in VD.
  assert (Ln : length new = length ss) by (apply Forall2_len in F; rewrite rev_length in F; lia).
  assert (Lb : blen (map POffset (rev new)) = blen ss) by (rewrite blen_map, blen_rev; unfold blen; lia).
  pose proof (vector_at_len _ _ _ _ VD) as Len. rewrite Lb in Len. split; [exact Len|].
  unfold elements. replace (Z.to_nat (blen ss)) with (length ss) by (unfold blen; lia).
  apply map_zseq_nth. intros i s Hi.
  assert (Li : (i < length ss)%nat) by (apply nth_error_Some; congruence).
  assert (LD : blen D < 2 ^ 32) by exact L.
  rewrite (vec_get_cell hr (FUOffset FStr) D _ (blen ss)); auto; [|unfold blen; lia|cbn; lia|lia].
  (* the i-th offset *)
  assert (F' : Forall2 (fun s o => At (a_data a2) o (string_bytes s) /\ blen s < 2 ^ 32 /\ 0 <= o) ss (rev new)).
  { clear - F. rewrite <- (rev_involutive ss). remember (rev ss) as l. clear Heql.
    induction F; cbn [rev]; [constructor|]. apply Forall2_app; [exact IHF|]. constructor; [auto|constructor]. }
  assert (X : exists o, nth_error (rev new) i = Some o /\ At (a_data a2) o (string_bytes s) /\ blen s < 2 ^ 32 /\ 0 <= o).
  { clear - F' Hi. revert i Hi. induction F' as [|x o l m P F IH]; intros [|i] Hi; try discriminate; cbn in *.
    - injection Hi as ->. eauto.
    - auto. }
  destruct X as (o & Ho' & A & Ls & Hpos).
  destruct VD as (_ & _ & Cc).
  assert (Hi' : nth_error (map POffset (rev new)) i = Some (POffset o)) by (rewrite nth_error_map, Ho'; reflexivity).
  specialize (Cc _ _ Hi'). cbn [fbytes pty_size] in Cc.
  replace (blen D - r + 4 + size_of (FUOffset FStr) * (0 + Z.of_nat i)) with (blen D - (r - 4 - Z.of_nat i * 4)) by (cbn [size_of]; lia).
  pose proof (At_range _ _ _ A) as RA.
  rewrite At_offset with (o := o); auto.
  - assert (AD : At D o (string_bytes s)).
    { unfold D. rewrite E. apply At_app. rewrite C. apply At_app. destruct G as ((q & Eq) & _). cbn [view a_data] in Eq.
      assert (K : exists q', cells (map POffset (rev new)) (zeros g ++ a_data a2) = q' ++ a_data a2).
      { clear. induction (map POffset (rev new)) as [|x l (q' & IH)]; cbn [cells]; [exists (zeros g); auto|].
        rewrite IH. eexists. rewrite app_assoc. reflexivity. }
      destruct K as (q' & ->). apply At_app. auto. }
    apply string_read_utf8.
    + apply At_range in AD. rewrite blen_string_bytes in AD. pose proof (blen_nonneg s). split; lia.
    + lia.
    + split; [apply At_string; auto|]. rewrite Forall_forall in HU. apply HU. eapply nth_error_In; eauto.
  - rewrite Er, C, blen_app, blen_wire, (blen_cells PTOffset) by auto. rewrite blen_map, blen_rev, blen_app, blen_zeros. cbn [ssize pty_size].
    unfold blen. unfold blen in RA. lia.
Qed.

(** ** Offsets *)
Lemma offset_reaches h hr c os o later b xs r ys t :
  0 <= c -> forallb op_ok (os ++ [OpPush (POffset o)] ++ later) = true -> no_reset later = true ->
  program h c (os ++ [OpPush (POffset o)] ++ later) = Val (b, xs ++ [ONum r] ++ ys) -> length xs = length os ->
  blen (unfinished_data b) < 2 ^ 32 ->
  (forall b0 ys, program h c os = Val (b0, ys) -> o <= blen (unfinished_data b0)) ->
  let D := unfinished_data b in
  follow hr (FUOffset t) D (blen D - r) = follow hr t D (blen D - o).
Proof.
  intros Hc Ho Hr H Lx L Hoff D.
  destruct (one_call _ _ _ _ _ _ _ _ _ Hc Ho Hr H Lx L) as (b0 & b1 & P0 & _ & _ & _ & _ & S & (p & E) & _ & L1).
  specialize (Hoff _ _ P0). apply op_split in Ho. cbn [op_ok pval_ok] in Ho.
  cbn [a_step] in S. unfold a_num in S. apply bind_Val in S as ([a1 n] & S & Q).
  assert (a1 = view b1) by congruence. assert (n = r) by congruence. subst a1 n.
  apply a_push_val in S as (E1 & Er & _). pose proof (pushed_data (view b0) (POffset o)) as PD. rewrite <- E1 in PD.
  cbn [view a_data fbytes] in PD, Er. pose proof (blen_nonneg (unfinished_data b1)). rewrite as_u32_small in Er by lia.
  assert (A : At (unfinished_data b1) r (wire TU32 (r - o))) by (rewrite Er; eapply At_here'; [exact PD|reflexivity]).
  apply (At_app p) in A. rewrite <- E in A. fold D in A. apply At_offset; [exact A| |exact L].
  split; [lia|]. rewrite Er, PD, !blen_app. pose proof (blen_nonneg (wire TU32 (blen (unfinished_data b1) - o))).
  match goal with |- context [blen (zeros ?z)] => pose proof (blen_nonneg (zeros z)) end. lia.
Qed.

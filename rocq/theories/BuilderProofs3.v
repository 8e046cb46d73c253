(** Alignment and finishing. *)
From Coq Require Import ZArith List Bool Lia Strings.Byte ZifyBool ZifyNat ZifyN.
From Verif Require Import Base Scalar Utf8 Reader Builder Ops SpecWire SpecBuilder Abstract BaseFacts ScalarFacts WireFacts
  ReaderFacts ReaderProofs ReaderProofs3 ReaderProofs4 Refine Refine2 Build1 Build2 Build3 Build4 Build5 Build6 Build7 Build8 BuilderProofs1 BuilderProofs2.
Import ListNotations.
Local Open Scope Z_scope.

Lemma natural_align x : natural (pty_of x) = push_alignment x.
Proof. destruct x; reflexivity. Qed.
Lemma natural_pty t : natural t = pty_align t /\ natural t = pty_size t.
Proof. destruct t; auto. Qed.

(** [r] lies on a multiple of [al], and the builder knows. *)
Definition lies (a : astate) (r al : Z) : Prop := r mod al = 0 /\ al <= a_align a /\ pow8 al.

Lemma pushed_lies a x : lies (pushed a x) (blen (a_data (pushed a x))) (natural (pty_of x)).
Proof.
  rewrite natural_align. split; [|split].
  - rewrite blen_pushed. rewrite <- (gap_aligns (a_data a) (push_size x) _ (push_alignment_pow8 x)). f_equal. lia.
  - unfold pushed. cbn [with_data with_align a_align]. lia.
  - apply push_alignment_pow8.
Qed.

Lemma vector_cells_lie a t n k z : n mod 4 = 0 -> 4 <= a_align a -> natural t <= a_align a ->
  n = 4 + (Z.of_nat k * natural t + z) -> (Z.of_nat k * natural t + z) mod natural t = 0 ->
  forall r al, In (r, al) (vector_cells n (natural t) k) -> lies a r al.
Proof.
  intros H4 A4 At En Ez r al [E|I].
  - injection E as <- <-. split; [exact H4|]. split; [exact A4|exact pow8_4].
  - assert (X : exists i, r = n - 4 - natural t * Z.of_nat i /\ al = natural t).
    { destruct I as [E|I]; [injection E as <- <-; exists O; lia|]. apply in_map_iff in I as (i & E & _). injection E as <- <-. eauto. }
    clear I. destruct X as (i & -> & ->).
    assert (P : pow8 (natural t)) by (destruct (natural_pty t) as [-> _]; apply pty_align_pow8).
    assert (N : natural t <> 0) by (unfold pow8 in P; lia).
    split; [|split; [exact At|exact P]].
    replace (n - 4 - natural t * Z.of_nat i) with ((Z.of_nat k * natural t + z) + (- Z.of_nat i) * natural t) by lia.
    rewrite Z.mod_add by auto. exact Ez.
Qed.

Lemma end_table_loc lim h a tail a' o : Forall field_ok (a_fields a) ->
  a_end_table lim h a tail = Val (a', o) -> blen (a_data a') < 2 ^ 32 -> lies a' o 4.
Proof.
  unfold a_end_table. intros Hok H Hl. apply bind_Val in H as (u & _ & H).
  apply bind_Val in H as ([a1 o1] & H1 & H). injection H as <- <-.
  pose proof (a_write_vtable_len _ _ _ _ _ _ Hok H1). cbn [with_fields with_nested a_data] in Hl.
  apply a_write_vtable_val in H1; [|auto|lia].
  destruct H1 as (size & vt & dup & -> & _ & _ & _ & _ & _ & -> & _).
  destruct (pushed_lies a marker) as (M & _ & P). split; [exact M|]. split; [|exact P].
  unfold table_state. cbv zeta. cbn [with_fields with_nested a_align]. lia.
Qed.

Lemma vector_data_lies t items d a : 4 <= a_align a -> natural t <= a_align a ->
  Forall (of_type t) items -> blen (vector_data t items d) mod 4 = 0 ->
  forall r al, In (r, al) (vector_cells (blen (vector_data t items d)) (natural t) (length items)) -> lies a r al.
Proof.
  intros A4 At Ht M. destruct (natural_pty t) as [Na Ns].
  apply (vector_cells_lie a t _ _ (gap d (blen items * pty_size t) (Z.max (pty_align t) 4) + blen d)); auto.
  - unfold vector_data. rewrite blen_app, blen_wire, (blen_cells t), blen_app, blen_zeros, Ns by auto. cbn [ssize].
    pose proof (gap_range d (blen items * pty_size t) _ (max4_pow8 _ (pty_align_pow8 t))). unfold SIZE_UOFFSET in *. change (Z.of_nat (length items)) with (blen items). lia.
  - destruct (max4_ge _ (pty_align_pow8 t)) as (Hal1 & Hal2 & Hal3). fold (blen items).
    pose proof (gap_aligns d (blen items * pty_size t) _ (max4_pow8 _ (pty_align_pow8 t))) as G; unfold SIZE_UOFFSET in G.
    replace (Z.of_nat (length items)) with (blen items) by reflexivity.
    rewrite Ns. rewrite <- Ns, Na. rewrite Na in Ns. rewrite Ns in *.
    assert (P : pow8 (pty_size t)) by (rewrite <- Ns; apply pty_align_pow8).
    replace (blen items * pty_size t + (gap d (blen items * pty_size t) (Z.max (pty_size t) 4) + blen d))
      with (gap d (blen items * pty_size t) (Z.max (pty_size t) 4) + blen d + blen items * pty_size t) by lia.
    destruct (Z.le_gt_cases (pty_size t) 4) as [L|L].
    + rewrite Z.max_r in * by lia. clear - G P L.
      assert (pty_size t = 1 \/ pty_size t = 2 \/ pty_size t = 4) as [E|[E|E]] by (unfold pow8 in P; lia); rewrite E in *.
      * apply Z.mod_1_r.
      * apply (mod_of_multiple _ 2 2); [lia|lia|exact G].
      * exact G.
    + rewrite Z.max_l in * by lia. exact G.
Qed.

Lemma placed_lies h a o a' x : op_ok o = true -> Forall field_ok (a_fields a) ->
  a_step false h a o = Val (a', x) -> blen (a_data a') < 2 ^ 32 ->
  (op_align o <= Z.max 1 (a_align a')) /\ forall r al, In (r, al) (placed o x) -> lies a' r al.
Proof.
  intros Ho Hok H L. pose proof (blen_nonneg (a_data a')) as N.
  destruct o; cbn [a_step] in H; unfold a_num, a_unit in H.
  - injection H as <- <-. split; [cbn; lia|intros r al []].
  - apply bind_Val in H as ([a1 n] & H & E). injection E as <- <-. apply a_push_val in H as (E & -> & _).
    rewrite as_u32_small by lia. destruct (pushed_lies a x0) as (M & A & P). rewrite E in *.
    split; [cbn [op_align]; lia|]. intros r al [Q|[]]. injection Q as <- <-. repeat split; auto.
  - apply bind_Val in H as (a1 & H & E). injection E as <- <-. split; [|intros r al []].
    unfold a_push_slot in H. apply bind_Val in H as (u & _ & H). cbn [op_align].
    destruct (pval_eq x0 default); [lia|]. apply a_push_slot_always_val in H as (-> & _).
    destruct (pushed_lies a x0) as (_ & A & _). cbn [a_track with_fields a_align]. lia.
  - apply bind_Val in H as (a1 & H & E). injection E as <- <-. split; [|intros r al []].
    cbn [op_align]. apply a_push_slot_always_val in H as (-> & _).
    destruct (pushed_lies a x0) as (_ & A & _). cbn [a_track with_fields a_align]. lia.
  - injection H as <- <-. split; [cbn; lia|intros r al []].
  - apply bind_Val in H as ([a1 n] & H & E). injection E as <- <-. split; [cbn; lia|intros r al []].
  - apply bind_Val in H as ([a1 n] & H & E). injection E as <- <-.
    apply end_table_loc in H; auto. split; [cbn [op_align]; destruct H as (_ & A & _); lia|].
    intros r al [Q|[]]. injection Q as <- <-. exact H.
  - apply bind_Val in H as (a1 & H & E). injection E as <- <-. split; [|intros r al []].
    unfold a_start_vector in H. apply bind_Val in H as (u & _ & H). apply bind_Val in H as (m & _ & H).
    apply a_pad_val in H as [-> _]; [|apply max4_pow8, pty_align_pow8]. cbn [op_align with_data with_align with_nested a_align].
    destruct (natural_pty t) as [-> _]. unfold SIZE_UOFFSET. lia.
  - apply bind_Val in H as ([a1 n] & H & E). injection E as <- <-. unfold a_end_vector in H.
    apply bind_Val in H as (u & _ & H). apply a_push_val in H as (E & -> & _).
    rewrite as_u32_small by lia. destruct (pushed_lies (with_nested a false) (PScalar TU32 (as_u32 num_elems))) as (M & A & P).
    rewrite <- E in *. change (natural (pty_of (PScalar TU32 (as_u32 num_elems)))) with 4 in *.
    split; [cbn [op_align]; lia|]. intros r al [Q|[]]. injection Q as <- <-. repeat split; auto.
  - apply bind_Val in H as ([a1 n] & H & E). injection E as <- <-. apply a_create_string_val in H.
    apply a_create_byte_string_val in H as (E & -> & _ & _ & M). rewrite as_u32_small by lia.
    assert (A : 4 <= a_align a1) by (rewrite E; cbn [with_data with_align a_align]; lia).
    split; [cbn [op_align]; lia|]. intros r al [Q|[]]. injection Q as <- <-. split; [exact M|]. split; [exact A|exact pow8_4].
  - apply bind_Val in H as ([a1 n] & H & E). injection E as <- <-.
    apply a_create_byte_string_val in H as (E & -> & _ & _ & M). rewrite as_u32_small by lia.
    assert (A : 4 <= a_align a1) by (rewrite E; cbn [with_data with_align a_align]; lia).
    split; [cbn [op_align]; lia|]. intros r al [Q|[]]. injection Q as <- <-. split; [exact M|]. split; [exact A|exact pow8_4].
  - apply bind_Val in H as ([a1 n] & H & E). injection E as <- <-.
    apply a_create_vector_direct_val in H as (E & -> & _ & M & _). rewrite as_u32_small by lia.
    assert (A : Z.max (ssize t) 4 <= a_align a1) by (rewrite E; cbn [with_data with_align a_align]; unfold salign; lia).
    split; [cbn [op_align]; lia|]. cbn [placed].
    change (ssize t) with (natural (PTScalar t)).
    assert (X : blen (a_data a1) = blen (vector_data (PTScalar t) (map (PScalar t) items) (a_data a))).
    { rewrite E. unfold vector_data. cbn [with_data a_data]. rewrite !blen_app, !blen_wire.
      rewrite (blen_cells (PTScalar t)) by (apply Forall_forall; intros y I; apply in_map_iff in I as (v & <- & _); reflexivity).
      rewrite !blen_app, !blen_zeros, !blen_map, blen_slice_memory. cbn [pty_size pty_align]. lia. }
    rewrite X in *. rewrite <- (map_length (PScalar t) items). apply vector_data_lies; cbn [natural]; auto; try lia.
    apply Forall_forall; intros y I; apply in_map_iff in I as (v & <- & _); reflexivity.
  - apply bind_Val in H as ([a1 n] & H & E). injection E as <- <-.
    unfold a_create_vector_of_strings in H. apply bind_Val in H as (u & _ & H).
    apply bind_Val in H as ([a2 offs] & H2 & H).
    assert (Lo : length offs = length xs).
    { clear - H2. rewrite <- (rev_length xs). assert (K : forall l a acc a2 offs, a_create_strings_rev false h a l acc = Val (a2, offs) -> length offs = (length l + length acc)%nat).
      { induction l as [|s l IH]; intros b acc b2 o K; cbn [a_create_strings_rev] in K; [injection K as <- <-; auto|].
        apply bind_Val in K as ([b1 o1] & _ & K). apply IH in K. cbn [length] in *. lia. }
      apply K in H2. cbn [length] in H2. lia. }
    assert (Ht : Forall (of_type PTOffset) (map POffset offs)) by (apply Forall_forall; intros y I; apply in_map_iff in I as (v & <- & _); reflexivity).
    apply (a_create_vector_val false h PTOffset) in H as (E & -> & _ & M); auto. rewrite as_u32_small by lia.
    assert (A : 4 <= a_align a1) by (rewrite E; cbn [with_data with_align a_align pty_align]; lia).
    split; [cbn [op_align]; lia|]. cbn [placed]. change 4 with (natural PTOffset) at 1.
    rewrite <- Lo, <- (map_length POffset offs).
    replace (a_data a1) with (vector_data PTOffset (map POffset offs) (a_data a2)) in * by (rewrite E; reflexivity).
    apply vector_data_lies; cbn [natural]; auto.
  - apply bind_Val in H as ([a1 n] & H & E). injection E as <- <-.
    apply op_ok_items in Ho as [Ht _].
    apply a_create_vector_val in H as (E & -> & _ & M); auto. rewrite as_u32_small by lia.
    destruct (natural_pty t) as [Na _].
    assert (A : Z.max (natural t) 4 <= a_align a1) by (rewrite E; cbn [with_data with_align a_align]; rewrite Na; lia).
    split; [cbn [op_align]; lia|]. cbn [placed].
    replace (a_data a1) with (vector_data t items (a_data a)) in * by (rewrite E; reflexivity).
    apply vector_data_lies; auto; lia.
  - injection H as <- <-. split; [cbn; lia|intros r al []].
  - apply bind_Val in H as (d & _ & H). injection H as <- <-. split; [cbn; lia|intros r al []].
  - apply bind_Val in H as (d & _ & H). injection H as <- <-. split; [cbn; lia|intros r al []].
  - apply bind_Val in H as (a1 & H & E). injection E as <- <-. split; [|intros r al []].
    cbn [op_align]. unfold a_finish in H. apply bind_Val in H as (u & _ & H). apply bind_Val in H as (u1 & _ & H).
    apply bind_Val in H as (a2 & _ & H). apply bind_Val in H as (a3 & _ & H).
    apply bind_Val in H as ([a4 n4] & H4 & H). apply a_push_val in H4 as (E4 & _).
    destruct (pushed_lies a3 (POffset root)) as (_ & A & _). rewrite <- E4 in A. cbn [pty_of natural] in A.
    apply bind_Val in H as (a5 & H5 & H). injection H as <-. cbn [with_fin a_align].
    destruct size_prefixed.
    + apply bind_Val in H5 as ([a6 n6] & H6 & H5). injection H5 as <-. apply a_push_grows in H6. destruct H6 as (_ & G & _). lia.
    + injection H5 as <-. lia.
Qed.

(** ** Finishing *)
Definition ident_fits (h : host) (ident : option (list byte)) : Prop :=
  debug h = true \/ match ident with Some i => blen i = 4 | None => True end.

Lemma finish_last h c os root ident sp b zs :
  0 <= c -> forallb op_ok (os ++ [OpFinish root ident sp]) = true ->
  program h c (os ++ [OpFinish root ident sp]) = Val (b, zs) -> blen (unfinished_data b) < 2 ^ 32 ->
  ident_fits h ident ->
  exists b0 ys, program h c os = Val (b0, ys) /\ zs = ys ++ [ONone] /\ length ys = length os /\ good b0 /\ pow8 (min_align b0) /\
    unfinished_data b = finish_data (view b0) root ident sp /\ 0 <= root /\
    match ident with Some i => blen i = 4 | None => True end.
Proof.
  intros Hc Ho H L Hi. rewrite forallb_app in Ho. apply andb_true_iff in Ho as [Ho1 Ho2].
  cbn [forallb] in Ho2. rewrite andb_true_r in Ho2.
  apply program_split in H as (b0 & ys & r1 & HB & H & E1 & L1). apply run_one in H as (x & H & ->).
  pose proof (program_good _ _ _ _ _ Hc Ho1 HB) as G0. pose proof G0 as [I0 A0].
  pose proof (step_abstract _ _ _ _ _ I0 Ho2 H) as [S I1].
  pose proof (step_grows _ _ _ _ _ I0 Ho2 eq_refl H L) as Gr. apply grows_blen in Gr. cbn [view a_data] in Gr.
  cbn [a_step] in S. unfold a_unit in S. apply bind_Val in S as (a1 & S & Q).
  assert (a1 = view b) by congruence. assert (x = ONone) by congruence. subst a1 x.
  assert (L63 : blen (unfinished_data b0) + 16 < 2 ^ 63) by (clear - Gr L; lia).
  apply a_finish_val in S as (P & E & _ & _ & _ & Di); [|exact A0|exact L63].
  exists b0, ys. split; [exact HB|]. split; [exact E1|]. split; [exact L1|]. split; [exact G0|]. split; [exact P|].
  split; [apply (f_equal a_data) in E; exact E|].
  cbn [op_ok] in Ho2. apply andb_true_iff in Ho2 as [Hr _]. unfold u32_ok in Hr. apply andb_true_iff in Hr as [Hr _].
  split; [clear - Hr; lia|].
  destruct Hi as [Hd|Hi]; [|exact Hi]. destruct ident as [i|]; [|exact I].
  unfold debug_assert in Di. rewrite Hd in Di. destruct (blen i =? 4) eqn:Q2; [clear - Q2; lia|discriminate].
Qed.

Lemma mod_sub r n al : 0 < al -> n mod al = 0 -> r mod al = 0 -> (n - r) mod al = 0.
Proof. intros P A B. rewrite Zminus_mod, A, B. apply Z.mod_0_l. lia. Qed.

Lemma mod_pow8_le n al m : pow8 al -> pow8 m -> al <= Z.max m 4 -> n mod Z.max m 4 = 0 -> n mod al = 0.
Proof.
  intros Pa Pm Le M.
  assert (exists k, Z.max m 4 = k * al /\ k <> 0) as (k & E & K).
  { unfold pow8 in *. destruct Pm as [->|[->|[->| ->]]], Pa as [->|[->|[->| ->]]]; cbn in *; try lia;
      first [exists 1; lia|exists 2; lia|exists 4; lia|exists 8; lia]. }
  rewrite E in M. apply (mod_of_multiple _ k al); auto. unfold pow8 in Pa. lia.
Qed.

Lemma split_at_nat {A} (l : list A) n : (n <= length l)%nat -> exists p q, l = p ++ q /\ length p = n.
Proof. intros H. exists (firstn n l), (skipn n l). rewrite firstn_skipn. split; [reflexivity|]. apply firstn_length_le. auto. Qed.

Lemma op_align_pow8 o : pow8 (op_align o).
Proof.
  destruct o; cbn [op_align]; try (unfold pow8; lia).
  - rewrite natural_align. apply push_alignment_pow8.
  - destruct (pval_eq x default); [unfold pow8; lia|]. rewrite natural_align. apply push_alignment_pow8.
  - rewrite natural_align. apply push_alignment_pow8.
  - destruct (natural_pty t) as [-> _]. apply (max4_pow8 _ (pty_align_pow8 t)).
  - apply (max4_pow8 _ (salign_pow8 t)).
  - destruct (natural_pty t) as [-> _]. apply (max4_pow8 _ (pty_align_pow8 t)).
Qed.

Lemma finish_mod a root ident sp : pow8 (a_align a) ->
  match ident with Some i => blen i = 4 | None => True end ->
  blen (finish_data a root ident sp) mod Z.max (a_align a) 4 = 0.
Proof. intros P Hi. apply finish_data_aligned; auto. destruct ident; [right; exact Hi|left; reflexivity]. Qed.

Lemma objects_aligned h c os o later root ident sp b xs x ys :
  0 <= c -> forallb op_ok (os ++ [o] ++ later ++ [OpFinish root ident sp]) = true -> no_reset later = true ->
  program h c (os ++ [o] ++ later ++ [OpFinish root ident sp]) = Val (b, xs ++ [x] ++ ys) ->
  length xs = length os -> blen (unfinished_data b) < 2 ^ 32 -> ident_fits h ident ->
  let D := unfinished_data b in
  blen D mod op_align o = 0 /\
  forall r al, In (r, al) (placed o x) -> (blen D - r) mod al = 0.
Proof.
  intros Hc Ho Hr H Lx L Hi D.
  replace (os ++ [o] ++ later ++ [OpFinish root ident sp]) with ((os ++ [o] ++ later) ++ [OpFinish root ident sp]) in * by (rewrite <- !app_assoc; reflexivity).
  destruct (finish_last _ _ _ _ _ _ _ _ Hc Ho H L Hi) as (b0 & zs & HB & E & Lz & G0 & P & ED & Hroot & Hid).
  fold D in ED, L.
  rewrite forallb_app in Ho. apply andb_true_iff in Ho as [Ho _].
  assert (Es : exists ys', zs = xs ++ [x] ++ ys').
  { clear - E Lz Lx. cbn [app] in *. destruct (split_at_nat zs (length xs)) as (p & q & -> & Lp).
    { rewrite Lz, app_length. lia. }
    rewrite app_assoc_reverse in E. apply app_len_inj in E as [<- E]; [|auto].
    destruct q as [|y q].
    - exfalso. rewrite !app_length in Lz. cbn [length] in Lz. lia.
    - cbn [app] in E. injection E as <- E. exists q. reflexivity. }
  destruct Es as (ys' & ->).
  assert (L0 : blen (unfinished_data b0) < 2 ^ 32).
  { assert (blen (unfinished_data b0) <= blen D).
    { rewrite ED, blen_finish_data. cbn [view a_data].
      pose proof (gap_range (finish_body (view b0) ident sp) 4 4 pow8_4). assert (0 <= ident_len ident) by (destruct ident; cbn; [apply blen_nonneg|lia]).
      destruct sp; lia. }
    clear - H0 L. lia. }
  destruct (one_call _ _ _ _ _ _ _ _ _ Hc Ho Hr HB Lx L0) as (b1 & b2 & _ & _ & _ & Gd & _ & S & _ & Al & L1).
  pose proof (op_split _ _ _ Ho) as Ho1.
  assert (L2 : blen (unfinished_data b2) < 2 ^ 32) by (clear - L0 L1; lia).
  destruct Gd as [I1 _]. destruct (placed_lies h (view b1) o (view b2) x Ho1 (inv_fields b1 I1) S L2) as [OA PL].
  cbn [view a_align] in OA.
  pose proof (finish_mod (view b0) root ident sp P Hid) as M. cbn [view a_align] in M. rewrite <- ED in M.
  assert (DM : forall al, pow8 al -> al <= Z.max 1 (min_align b0) -> blen D mod al = 0).
  { intros al Pa La. apply (mod_pow8_le _ al (min_align b0)); auto. clear - La Pa. unfold pow8 in Pa. lia. }
  split.
  - apply DM; [apply op_align_pow8|]. clear - OA Al. lia.
  - intros r al I. destruct (PL _ _ I) as (Mr & La & Pa). cbn [view a_align] in La.
    apply mod_sub; [clear - Pa; unfold pow8 in Pa; lia| |exact Mr]. apply DM; auto. clear - La Al. lia.
Qed.

Lemma program_length h c os b xs : program h c os = Val (b, xs) -> length xs = length os.
Proof. unfold program. intros H. apply bind_Val in H as (b0 & _ & H). eapply run_length; eauto. Qed.

Lemma no_reset_app a b : no_reset (a ++ b) = no_reset a && no_reset b.
Proof. apply forallb_app. Qed.

Lemma fields_aligned h hr c before mid start later root ident sp obj xs ys zs b :
  0 <= c -> calls_ok (table_program before mid start (later ++ [OpFinish root ident sp])) = true ->
  closed before = true -> forallb in_table mid = true -> no_reset later = true ->
  program h c (table_program before mid start (later ++ [OpFinish root ident sp])) =
    Val (b, xs ++ [ONum start] ++ ys ++ [ONum obj] ++ zs) ->
  length xs = length before -> length ys = length mid ->
  blen (unfinished_data b) < 2 ^ 31 ->
  (debug h = true \/ obj - start < 2 ^ 16 /\ NoDup (map fst (added mid))) -> ident_fits h ident ->
  let D := unfinished_data b in
  forall slot x, In (slot, x) (added mid) ->
    exists vt e, table_vtable hr D (blen D - obj) = Val vt /\ vt_get hr D vt slot = Val (Some e) /\ e <> 0 /\
      (blen D - obj + e) mod natural (pty_of x) = 0.
Proof.
  intros Hc Hok Hcl Hmid Hlat H Lx Ly L S Hi D slot x I.
  assert (Hlat' : no_reset (later ++ [OpFinish root ident sp]) = true) by (rewrite no_reset_app, Hlat; reflexivity).
  destruct (table_slot h hr _ _ _ _ _ _ _ _ _ _ Hc Hok Hcl Hmid Hlat' H Lx Ly L S) as [P _].
  destruct (P _ _ I) as (off & _ & _ & Mo & (vt & E1 & E2 & E3) & _). clear P. fold D in E1, E2.
  exists vt, (obj - off). split; [exact E1|]. split; [exact E2|]. split; [exact E3|].
  replace (blen D - obj + (obj - off)) with (blen D - off) by (clear; lia). rewrite natural_align.
  assert (Pa := push_alignment_pow8 x).
  apply mod_sub; [clear - Pa; unfold pow8 in Pa; lia| |exact Mo].
  assert (Io : exists o m1 m2, mid = m1 ++ o :: m2 /\ op_align o = push_alignment x).
  { clear - I. unfold added in I. apply in_flat_map in I as (o & Io & I). apply in_split in Io as (m1 & m2 & ->).
    exists o, m1, m2. split; [reflexivity|]. rewrite <- natural_align. destruct o; cbn [added1] in I; try contradiction; cbn [op_align].
    - destruct (pval_eq x0 default); [contradiction|]. destruct I as [E|[]]. congruence.
    - destruct I as [E|[]]. congruence. }
  destruct Io as (o & m1 & m2 & -> & <-).
  assert (Hmid2 : no_reset m2 = true).
  { rewrite forallb_app in Hmid. cbn [forallb] in Hmid. repeat rewrite andb_true_iff in Hmid.
    apply in_table_no_reset. tauto. }
  apply calls_ok_split in Hok as [Hok _].
  assert (Ep : table_program before (m1 ++ o :: m2) start (later ++ [OpFinish root ident sp])
          = (before ++ [OpStartTable] ++ m1) ++ [o] ++ (m2 ++ [OpEndTable start] ++ later) ++ [OpFinish root ident sp]).
  { unfold table_program. repeat (rewrite <- app_assoc; cbn [app]). reflexivity. }
  rewrite Ep in H, Hok. pose proof (program_length _ _ _ _ _ H) as Ln.
  destruct (split_at_nat (xs ++ [ONum start] ++ ys ++ [ONum obj] ++ zs) (length (before ++ [OpStartTable] ++ m1))) as (p & q & Eo & Lp).
  { rewrite Ln, (app_length (before ++ _)). lia. }
  rewrite Eo in H, Ln. destruct q as [|y q].
  { exfalso. rewrite !app_length in Ln. cbn [length] in Ln. rewrite !app_length in Lp. cbn [length] in Lp. clear - Ln Lp. lia. }
  assert (L32 : blen (unfinished_data b) < 2 ^ 32) by (clear - L; lia).
  destruct (objects_aligned h c _ o _ root ident sp b p y q Hc Hok ltac:(rewrite !no_reset_app, Hmid2, Hlat; reflexivity) H Lp L32 Hi) as [R _].
  exact R.
Qed.

(** ** Root, identifier, size *)
Lemma finish_At_root a root ident sp : 0 <= root ->
  At (finish_data a root ident sp) (blen (finish_rooted a root ident sp)) (wire TU32 (blen (finish_rooted a root ident sp) - root)).
Proof.
  intros Hr. assert (A : At (finish_rooted a root ident sp) (blen (finish_rooted a root ident sp)) (wire TU32 (blen (finish_rooted a root ident sp) - root))).
  { unfold finish_rooted. set (d := zeros _ ++ _). rewrite blen_app, blen_wire. cbn [ssize].
    replace (4 + blen d - root) with (4 + blen d - root) by lia. eapply At_here'; [reflexivity|]. rewrite blen_app, blen_wire. reflexivity. }
  unfold finish_data. destruct sp; [apply At_app|]; exact A.
Qed.

Lemma finish_rooted_blen a root ident sp :
  blen (finish_data a root ident sp) = (if sp then 4 else 0) + blen (finish_rooted a root ident sp).
Proof. unfold finish_data. destruct sp; [rewrite blen_app, blen_wire; cbn [ssize]; lia|lia]. Qed.

Lemma finish_rooted_ge a root ident sp : blen (a_data a) + 4 <= blen (finish_rooted a root ident sp).
Proof.
  pose proof (finish_rooted_blen a root ident sp) as E. rewrite blen_finish_data in E.
  pose proof (gap_range (finish_body a ident sp) 4 4 pow8_4). assert (0 <= ident_len ident) by (destruct ident; cbn; [apply blen_nonneg|lia]).
  lia.
Qed.

Lemma finish_root h hr c os root ident sp b zs t :
  0 <= c -> forallb op_ok (os ++ [OpFinish root ident sp]) = true ->
  program h c (os ++ [OpFinish root ident sp]) = Val (b, zs) -> blen (unfinished_data b) < 2 ^ 32 ->
  ident_fits h ident ->
  (forall b0 ys, program h c os = Val (b0, ys) -> root <= blen (unfinished_data b0)) ->
  let D := unfinished_data b in
  (if sp then get_size_prefixed_root hr t D else get_root hr t D) = follow hr t D (blen D - root) /\
  (sp = true -> le_at D 0 4 (blen D - 4)) /\
  blen D mod 4 = 0.
Proof.
  intros Hc Ho H L Hi Hroot D.
  destruct (finish_last _ _ _ _ _ _ _ _ Hc Ho H L Hi) as (b0 & ys & HB & _ & _ & G0 & P & ED & Hr0 & Hid).
  specialize (Hroot _ _ HB). fold D in ED, L.
  pose proof (finish_At_root (view b0) root ident sp Hr0) as A. rewrite <- ED in A.
  pose proof (finish_rooted_ge (view b0) root ident sp) as Ge. cbn [view a_data] in Ge.
  pose proof (finish_rooted_blen (view b0) root ident sp) as EL. rewrite <- ED in EL.
  set (R := finish_rooted (view b0) root ident sp) in *. pose proof (blen_nonneg (unfinished_data b0)) as N0.
  assert (Fo : follow hr (FUOffset t) D (blen D - blen R) = follow hr t D (blen D - root)).
  { apply At_offset; [exact A| |exact L]. clear - Hr0 Hroot Ge. lia. }
  split; [|split].
  - destruct sp.
    + unfold get_size_prefixed_root. cbn [follow]. unfold SIZE_UOFFSET at 1. rewrite usize_arith_ok by lia. cbn [bind].
      replace (0 + 4) with (blen D - blen R) by (clear - EL; lia). exact Fo.
    + unfold get_root. replace 0 with (blen D - blen R) by (clear - EL; lia). exact Fo.
  - intros ->. assert (RL : 0 <= blen R < 2 ^ 32) by (clear - L EL Ge N0; lia).
    assert (A0 : At D (blen D) (wire TU32 (blen R))).
    { rewrite ED. unfold finish_data. fold R. eapply At_here'; reflexivity. }
    apply At_get in A0. rewrite blen_wire, Z.sub_diag in A0.
    apply (get_range_le_at D 0 TU32) in A0; [|lia]. rewrite scalar_of_wire in A0 by (clear - RL; cbn [valid_scalar signed ssize]; clearbody R; lia). cbn [ssize] in A0.
    replace (blen D - 4) with (blen R) by (clear - EL; lia). rewrite Z.mod_small in A0 by (clear - RL; lia). exact A0.
  - rewrite ED. apply (mod_pow8_le _ 4 (min_align b0) pow8_4 P); [clear; lia|]. apply (finish_mod (view b0)); auto.
Qed.

(** The identifier directly behind the root offset, when something aligned to four
    bytes was written since the last reset. *)
Lemma finish_identified h hr c os root i sp b zs :
  0 <= c -> forallb op_ok (os ++ [OpFinish root (Some i) sp]) = true ->
  program h c (os ++ [OpFinish root (Some i) sp]) = Val (b, zs) -> blen (unfinished_data b) < 2 ^ 32 ->
  ident_fits h (Some i) -> (forall b0 ys, program h c os = Val (b0, ys) -> 4 <= min_align b0) ->
  forall j, blen j = 4 -> buffer_has_identifier hr (unfinished_data b) j sp = Val (bytes_eqb j i).
Proof.
  intros Hc Ho H L Hi Ha j Hj. set (D := unfinished_data b) in *.
  destruct (finish_last _ _ _ _ _ _ _ _ Hc Ho H L Hi) as (b0 & zs0 & HB & _ & Lz & G0 & P & ED & Hr0 & Hid).
  fold D in ED. specialize (Ha _ _ HB). rename Ha into A4.
  pose proof (finish_rooted_blen (view b0) root (Some i) sp) as EL. rewrite <- ED in EL.
  (* no padding between identifier and root offset *)
  assert (GB : gap (finish_body (view b0) (Some i) sp) 4 4 = 0).
  { unfold finish_body, finish_gap. cbn [ident_bytes view a_data a_align]. set (g := gap (unfinished_data b0) _ (min_align b0)).
    assert (Gm : (g + blen (unfinished_data b0) + (4 + (if sp then 4 else 0) + 4)) mod 4 = 0).
    { apply (mod_pow8_le _ 4 (min_align b0) pow8_4 P); [clear; lia|]. rewrite Z.max_l by exact A4. apply gap_aligns. exact P. }
    assert (Gr := gap_range (unfinished_data b0) (4 + (if sp then 4 else 0) + 4) _ P). fold g in Gr.
    unfold gap. rewrite !blen_app, blen_zeros, Hid. rewrite Z.max_r by (clear - Gr; lia).
    apply Z_mod_zero_opp_full. rewrite <- Gm.
    destruct sp.
    - replace (g + blen (unfinished_data b0) + (4 + 4 + 4)) with (4 + (g + blen (unfinished_data b0)) + 4 + 1 * 4) by lia. rewrite Z.mod_add by lia. reflexivity.
    - f_equal. lia. }
  assert (AI : At D (blen (finish_rooted (view b0) root (Some i) sp) - 4) i).
  { rewrite ED. assert (X : At (finish_rooted (view b0) root (Some i) sp) (blen (finish_rooted (view b0) root (Some i) sp) - 4) i).
    { unfold finish_rooted. rewrite GB, zeros_nil. cbn [app]. rewrite blen_app, blen_wire. cbn [ssize].
      replace (4 + blen (finish_body (view b0) (Some i) sp) - 4) with (blen (finish_body (view b0) (Some i) sp)) by lia.
      apply At_app. unfold finish_body. cbn [ident_bytes]. eapply At_here'; reflexivity. }
    unfold finish_data. destruct sp; [apply At_app|]; exact X. }
  apply At_get in AI. rewrite Hid in AI. set (R := finish_rooted (view b0) root (Some i) sp) in *.
  unfold buffer_has_identifier, assert_always. rewrite Hj. cbn [Z.eqb FILE_IDENTIFIER_LENGTH Pos.eqb bind].
  assert (Hd4 : blen D - (blen R - 4) = (if sp then 8 else 4)) by (clear - EL; destruct sp; lia).
  rewrite Hd4 in AI.
  destruct sp; cbn [follow]; unfold SIZE_UOFFSET, FILE_IDENTIFIER_LENGTH in *; repeat (rewrite usize_arith_ok by lia; cbn [bind]).
  - change (0 + 4 + 4) with 8. rewrite AI. cbn [ok_or bind]. reflexivity.
  - change (0 + 4) with 4. rewrite AI. cbn [ok_or bind]. reflexivity.
Qed.

(** So it is when some object aligned to four bytes was written since the last reset. *)
Lemma finish_identifier h hr c os o later root i sp b zs :
  0 <= c -> forallb op_ok ((os ++ [o] ++ later) ++ [OpFinish root (Some i) sp]) = true ->
  no_reset later = true -> 4 <= op_align o ->
  program h c ((os ++ [o] ++ later) ++ [OpFinish root (Some i) sp]) = Val (b, zs) -> blen (unfinished_data b) < 2 ^ 32 ->
  ident_fits h (Some i) ->
  forall j, blen j = 4 -> buffer_has_identifier hr (unfinished_data b) j sp = Val (bytes_eqb j i).
Proof.
  intros Hc Ho Hrs Ho4 H L Hi. apply (finish_identified h hr c (os ++ [o] ++ later) root i sp b zs); auto.
  destruct (finish_last _ _ _ _ _ _ _ _ Hc Ho H L Hi) as (b0 & zs0 & HB & _ & Lz & G0 & P & ED & Hr0 & Hid).
  intros b0' ys' HB'. assert (b0' = b0) by congruence. subst b0'. clear ys' HB'.
  rewrite forallb_app in Ho. apply andb_true_iff in Ho as [Ho _].
  destruct (split_at_nat zs0 (length os)) as (p & q & -> & Lp); [rewrite Lz, app_length; lia|].
  destruct q as [|y q]; [exfalso; rewrite !app_length in Lz; cbn [length] in Lz; clear - Lz Lp; lia|].
  pose proof (finish_rooted_ge (view b0) root (Some i) sp) as Ge. cbn [view a_data] in Ge.
  pose proof (finish_rooted_blen (view b0) root (Some i) sp) as EL. rewrite <- ED in EL.
  assert (L0 : blen (unfinished_data b0) < 2 ^ 32) by (destruct sp; clear - Ge EL L; lia).
  destruct (one_call _ _ _ _ _ _ _ _ _ Hc Ho Hrs HB Lp L0) as (b1 & b2 & _ & _ & _ & Gd & _ & S & _ & Al & L1).
  pose proof (op_split _ _ _ Ho) as Ho1.
  assert (L2 : blen (unfinished_data b2) < 2 ^ 32) by (clear - L0 L1; lia).
  destruct Gd as [I1 _]. destruct (placed_lies h (view b1) o (view b2) y Ho1 (inv_fields b1 I1) S L2) as [OA _].
  cbn [view a_align] in OA. clear - OA Al Ho4. lia.
Qed.

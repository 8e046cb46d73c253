(** When programs over the builder panic: the statements of C67. *)
From Coq Require Import ZArith List Bool Lia Strings.Byte ZifyBool ZifyNat ZifyN.
From Verif Require Import Base Scalar Reader Builder Ops SpecWire SpecReader SpecBuilder SpecUse Abstract BaseFacts ScalarFacts
  Refine Refine2 Build1 Build2 Build3 Build4 Build5 Build6 Build7 Build8 Build9 Build10 Build11 BuilderProofs4 BuilderProofs10 UseProofs UseProofs2 UseProofs3.
Import ListNotations.
Local Open Scope Z_scope.

Lemma panics_exactly h c os : 0 <= c <= 2 ^ 31 -> calls_ok os = true -> room_for_all h c os ->
  (program h c os = Panic <-> misused h c os).
Proof.
  intros Hc Ho L. destruct (program_decides h c os Hc Ho L) as [[E M]|(v & E & M)]; rewrite E; split; intros H; auto; try discriminate.
  contradiction.
Qed.

Lemma completes_exactly h c os : 0 <= c <= 2 ^ 31 -> calls_ok os = true -> room_for_all h c os ->
  ((exists b xs, program h c os = Val (b, xs)) <-> ~ misused h c os).
Proof.
  intros Hc Ho L. destruct (program_decides h c os Hc Ho L) as [[E M]|([b xs] & E & M)]; rewrite E; split; intros H; auto.
  - destruct H as (b & xs & H). discriminate.
  - contradiction.
  - eauto.
Qed.

Lemma release_exactly h c os : debug h = false -> 0 <= c <= 2 ^ 31 -> calls_ok os = true -> room_for_all h c os ->
  (program h c os = Panic <->
   exists pre o post b0 b xs, os = pre ++ o :: post /\ new_with_capacity c = Val b0 /\ program h c pre = Val (b, xs) /\
     match o with
     | OpFinish _ _ _ => widest (usage_after h b0 unused pre) = 0
     | OpRequired tab slot => ~ field_present (unfinished_data b) tab slot
     | _ => False
     end).
Proof.
  intros Hd Hc Ho L. rewrite (panics_exactly h c os Hc Ho L). unfold misused, misuse, misuse_always. rewrite Hd.
  split; intros (pre & o & post & b0 & b & xs & E & E0 & E1 & M); exists pre, o, post, b0, b, xs; (split; [exact E|]); (split; [exact E0|]); (split; [exact E1|]).
  - destruct M as [M|[M _]]; [exact M|discriminate].
  - left. exact M.
Qed.

Lemma run_tracks h os : forall b u b' xs, vgood b -> tracks u (view b) -> calls_ok os = true ->
  (forall pre o post b' xs, os = pre ++ o :: post -> run h b pre = Val (b', xs) -> blen (unfinished_data b') + op_bytes o <= 2 ^ 31) ->
  run h b os = Val (b', xs) -> tracks (usage_after h b u os) (view b').
Proof.
  induction os as [|o os IH]; intros b u b' xs G T Ho L H; cbn [run usage_after] in *; [injection H as <- <-; exact T|].
  unfold calls_ok in Ho. cbn [forallb] in Ho. apply andb_true_iff in Ho as [Ho1 Ho]. apply andb_true_iff in Ho1 as [Ho1 Ho2].
  destruct (step_decides h u b o G T Ho1 (L [] o os b [] eq_refl eq_refl)) as [[E M]|(b1 & x & E & M & T1 & _)]; rewrite E in *; [discriminate|].
  cbn [bind] in H. apply bind_Val in H as ([b2 ys] & H & E2). injection E2 as <- <-.
  apply (IH b1 _ b2 ys); auto; [apply (step_vgood h b o b1 x); auto|].
  intros pre o' post b' zs -> Hr. apply (L (o :: pre) o' post b' (x :: zs)); [reflexivity|]. cbn [run]. rewrite E. cbn [bind]. rewrite Hr. reflexivity.
Qed.

Section Call.
Context (h : host) (c : Z) (os : list op) (b0 b : builder) (xs : list obs) (o : op).
Context (Hc : 0 <= c <= 2 ^ 31) (Ho : calls_ok (os ++ [o]) = true) (L : room_for_all h c (os ++ [o])).
Context (E0 : new_with_capacity c = Val b0) (H : program h c os = Val (b, xs)).

Lemma call_decides :
  (step h b o = Panic /\ misuse h (usage_after h b0 unused os) (unfinished_data b) o) \/
  (exists b' x, step h b o = Val (b', x) /\ ~ misuse h (usage_after h b0 unused os) (unfinished_data b) o /\
     tracks (next_usage (blen (unfinished_data b')) (usage_after h b0 unused os) o) (view b') /\
     blen (unfinished_data b') <= blen (unfinished_data b) + op_bytes o).
Proof.
  unfold calls_ok in Ho. rewrite forallb_app in Ho. apply andb_true_iff in Ho as [Ho1 Ho2].
  cbn [forallb] in Ho2. rewrite andb_true_r in Ho2. apply andb_true_iff in Ho2 as [Ho2 Ho3].
  pose proof (L os o [] b xs eq_refl H) as Lo. pose proof (program_vgood h c os b xs ltac:(lia) Ho1 H) as G.
  assert (T : tracks (usage_after h b0 unused os) (view b)).
  { unfold room_for_all, program in *. rewrite E0 in *. cbn [bind] in *. apply (run_tracks h os b0 unused b xs); auto.
    - apply (new_vgood c); [lia|exact E0].
    - rewrite <- (proj2 (new_Rb c b0 ltac:(lia) E0)). repeat split.
    - intros pre o' post b' ys E Hr. apply (L pre o' (post ++ [o]) b' ys); [rewrite E, <- app_assoc; reflexivity|exact Hr]. }
  exact (step_decides h _ b o G T Ho2 Lo).
Qed.

Lemma call_exactly :
  (step h b o = Panic <-> misuse h (usage_after h b0 unused os) (unfinished_data b) o) /\
  ((exists b' x, step h b o = Val (b', x)) <-> ~ misuse h (usage_after h b0 unused os) (unfinished_data b) o).
Proof.
  destruct call_decides as [[E M]|(b1 & x & E & M & _)]; rewrite E.
  - split; split; auto; [intros (b' & x & H'); discriminate|contradiction].
  - split; split; auto; [discriminate|contradiction|eauto].
Qed.

Lemma bytes_bound b' x : step h b o = Val (b', x) -> blen (unfinished_data b') <= blen (unfinished_data b) + op_bytes o.
Proof. intros S1. destruct call_decides as [[E M]|(b1 & y & E & M & _ & B)]; rewrite E in S1; [discriminate|]. injection S1 as <- <-. exact B. Qed.
End Call.

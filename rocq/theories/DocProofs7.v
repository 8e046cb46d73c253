(** A document has one file, whatever the build, the byte order and the capacity, and
    a file one document. *)
From Coq Require Import Strings.String ZArith List Bool Lia Strings.Byte ZifyBool ZifyNat ZifyN.
From Verif Require Import Base Scalar Utf8 SpecWire Reader SpecReader Builder Ops SpecBuilder Abstract BaseFacts Refine Refine2 Build1 BuilderProofs6 Schema Ident Codegen Resolve SpecResolve SpecGen SpecTable SpecDoc SpecSame
  GenProofs1 GenProofs2 GenProofs3 GenProofs4 GenProofs6 DocProofs1 DocProofs2 DocProofs3 DocProofs4 DocProofs5 DocProofs6.
Import ListNotations.
Local Open Scope list_scope.
Local Open Scope Z_scope.

(** ** Two builders with the same contents *)
Definition alike (b1 b2 : builder) : Prop := inv b1 /\ inv b2 /\ view b1 = view b2.
Definition alike_and {A} (x y : builder * A) : Prop := alike (fst x) (fst y) /\ snd x = snd y.
(** The results agree if both calls complete. *)
Definition meet {A} (R : A -> A -> Prop) (x y : outcome A) : Prop := forall v w, x = Val v -> y = Val w -> R v w.
Lemma meet_bind {A B} (R : A -> A -> Prop) (Q : B -> B -> Prop) x y f g :
  meet R x y -> (forall v w, R v w -> meet Q (f v) (g w)) -> meet Q (bind x f) (bind y g).
Proof. intros H K v w Hv Hw. apply bind_Val in Hv as (v1 & Ev & Hv). apply bind_Val in Hw as (w1 & Ew & Hw). exact (K _ _ (H _ _ Ev Ew) _ _ Hv Hw). Qed.
Lemma meet_ret {A} (R : A -> A -> Prop) v w : R v w -> meet R (Val v) (Val w).
Proof. intros H v' w' E E'. injection E as <-. injection E' as <-. exact H. Qed.
Lemma meet_ref {X Y} (R : X -> Y -> Prop) (Q : X -> X -> Prop) x y l s : ref R x l s -> ref R y l s ->
  (forall v w a, R v a -> R w a -> Q v w) -> meet Q x y.
Proof.
  intros Hx Hy K v w -> ->. cbn [ref] in *. destruct Hx as (a & Ra & El & _), Hy as (a' & Ra' & El' & _). assert (a' = a) by congruence. subst a'. exact (K _ _ _ Ra Ra').
Qed.
Lemma alike_Rb b1 b2 a : Rb b1 a -> Rb b2 a -> alike b1 b2.
Proof. intros [I1 E1] [I2 E2]. split; [exact I1|]. split; [exact I2|congruence]. Qed.
Lemma alike_Rp {A} (x y : builder * A) a : Rp x a -> Rp y a -> alike_and x y.
Proof. intros [R1 E1] [R2 E2]. split; [exact (alike_Rb _ _ _ R1 R2)|congruence]. Qed.
Lemma alike_left b1 b2 : alike b1 b2 -> Rb b1 (view b1).
Proof. intros (I & _). split; auto. Qed.
Lemma alike_right b1 b2 : alike b1 b2 -> Rb b2 (view b1).
Proof. intros (_ & I & E). split; auto. Qed.
Ltac meets L := eapply meet_ref; [apply L; eauto using alike_left|apply L; eauto using alike_right|eauto using alike_Rb, alike_Rp].

Section Same.
Context (h : host).
Lemma meet_add b1 b2 f x : alike b1 b2 -> 0 <= g_slot f < 2 ^ 16 -> meet alike (gen_add h b1 f x) (gen_add h b2 f x).
Proof.
  intros A Hs. unfold gen_add. destruct (g_kind f) as [t [d|]|t vs [d|]| |]; first [meets push_slot_ref|meets push_slot_always_ref].
Qed.
Lemma meet_adds fs : forall args b1 b2, alike b1 b2 -> (forall f, In f fs -> 0 <= g_slot f < 2 ^ 16) -> meet alike (gen_adds h b1 fs args) (gen_adds h b2 fs args).
Proof.
  induction fs as [|f fs IH]; intros [|a args] b1 b2 A Hs; cbn [gen_adds]; try (apply meet_ret; exact A).
  eapply (meet_bind alike); [|intros v w A'; apply IH; [exact A'|intros; apply Hs; right; assumption]].
  destruct a as [x|]; [apply meet_add; [exact A|apply Hs; left; reflexivity]|apply meet_ret; exact A].
Qed.
Lemma meet_create b1 b2 gs l : alike b1 b2 -> (forall f, In f gs -> 0 <= g_slot f < 2 ^ 16) -> meet alike_and (gen_create h b1 gs l) (gen_create h b2 gs l).
Proof.
  intros A Hs. unfold gen_create. eapply (meet_bind alike_and); [meets (start_table_ref h)|]. intros [c1 s1] [c2 s2] [A1 E1]. cbn [fst snd] in *. subst s2.
  eapply (meet_bind alike); [apply meet_adds; eauto|]. intros d1 d2 A2.
  eapply (meet_bind alike_and); [meets end_table_ref|]. intros [e1 o1] [e2 o2] [A3 E3]. cbn [fst snd] in *. subst o2.
  eapply meet_bind with (R := fun _ _ => True); [intros ? ? _ _; exact Logic.I|]. intros _ _ _. apply meet_ret. split; [exact A3|reflexivity].
Qed.

Context (lim : Z) (Hlim : lim <= 32765).
Definition one_way (x : tree) : Prop := forall ty b1 b2, x = TreeNone \/ typed lim x ty -> alike b1 b2 -> meet alike_and (put h b1 x) (put h b2 x).
Lemma all_one_way xs : Forall one_way xs -> forall ts b1 b2, Forall2 (fun x ty => x = TreeNone \/ typed lim x ty) xs ts -> alike b1 b2 -> meet alike_and (put_all h b1 xs) (put_all h b2 xs).
Proof.
  induction 1 as [|x xs Hx _ IH]; intros ts b1 b2 T A; cbn [put_all]; [apply meet_ret; split; auto|]. inversion T as [|? ty ? ts' Tx Ts]; subst.
  eapply (meet_bind alike_and); [eapply Hx; eauto|]. intros [c1 a1] [c2 a2] [A1 E1]. cbn [fst snd] in *. subst a2.
  eapply (meet_bind alike_and); [eapply IH; eauto|]. intros [d1 l1] [d2 l2] [A2 E2]. cbn [fst snd] in *. subst l2. apply meet_ret. split; [exact A2|reflexivity].
Qed.
Lemma tree_one_way : forall x, one_way x.
Proof.
  refine (tree_nested one_way _ _ _ _ _).
  - intros ty b1 b2 _ A. apply meet_ret. split; auto.
  - intros t v ty b1 b2 _ A. apply meet_ret. split; auto.
  - intros s ty b1 b2 _ A. cbn [put]. eapply (meet_bind alike_and); [meets create_string_ref|]. intros [c1 o1] [c2 o2] [A1 E1]. cbn [fst snd] in *. subst o2. apply meet_ret. split; auto.
  - intros t xs H ty b1 b2 [E|T] A; [discriminate E|]. apply typed_vec in T as (e & _ & _ & _ & T). rewrite !put_vec.
    eapply meet_bind; [apply (all_one_way xs H (repeat e (length xs))); [|exact A]|].
    { apply Forall2_repeat. eapply Forall_impl; [|exact T]. intros x Hx. right. exact Hx. }
    intros [c1 l1] [c2 l2] [A1 E1]. cbn [fst snd] in *. subst l2. cbv zeta.
    eapply (meet_bind alike_and); [meets create_vector_ref|]. intros [d1 o1] [d2 o2] [A2 E2]. cbn [fst snd] in *. subst o2. apply meet_ret. split; auto.
  - intros gs xs H ty b1 b2 [E|T] A; [discriminate E|]. apply typed_table in T as (_ & G & T). rewrite !put_table.
    destruct (generated_facts (Host true false) lim Hlim (or_introl eq_refl) _ G) as (W & Lg & _).
    assert (Lxs : length gs = length xs) by (clear - T; induction T; cbn [length]; congruence).
    eapply meet_bind; [apply (all_one_way xs H (map (field_ty gs xs) gs)); [|exact A]|].
    { apply nth_Forall2; [rewrite map_length; congruence|]. intros i x t Hx Ht. rewrite nth_error_map in Ht.
      destruct (nth_error gs i) as [g|] eqn:Hg; [|discriminate Ht]. injection Ht as <-.
      apply (typed_field_ty lim). exact (Forall2_nth _ _ _ T i g x Hg Hx). }
    intros [c1 l1] [c2 l2] [A1 E1]. cbn [fst snd] in *. subst l2.
    eapply meet_bind; [apply meet_create; [exact A1|]|].
    { intros f I. apply In_nth_error in I as (i & N). destruct (W _ _ N) as [Sl _]. assert (i < length gs)%nat by (apply nth_error_Some; congruence). unfold blen in Lg. lia. }
    intros [d1 o1] [d2 o2] [A2 E2]. cbn [fst snd] in *. subst o2. apply meet_ret. split; auto.
Qed.
End Same.

(** ** Two builds *)
Section Hosts.
Context (h1 h2 : host) (HD : debug h1 = debug h2 \/ debug h1 = true).
Lemma agree_add b f x : agree (gen_add h1 b f x) (gen_add h2 b f x).
Proof. unfold gen_add. destruct (g_kind f) as [t [d|]|t vs [d|]| |]; first [apply agree_push_slot; exact HD|apply agree_push_slot_always; exact HD]. Qed.
Lemma agree_adds fs : forall args b, agree (gen_adds h1 b fs args) (gen_adds h2 b fs args).
Proof.
  induction fs as [|f fs IH]; intros [|[x|] args] b; cbn [gen_adds]; try apply agree_refl; apply agree_bind; auto using agree_add, agree_refl.
Qed.
Lemma agree_required_all o fs : forall b, agree (gen_required h1 b o fs) (gen_required h2 b o fs).
Proof.
  induction fs as [|f fs IH]; intros b; cbn [gen_required]; [apply agree_refl|]. apply agree_bind; auto. destruct (g_req f); [|apply agree_refl].
  destruct (agree_step h1 h2 HD b (OpRequired o (g_slot f)) (or_intror eq_refl)) as [E|E]; cbn [step] in E; unfold without in E.
  - destruct (required h1 b o (g_slot f)) as [[]| |], (required h2 b o (g_slot f)) as [[]| |]; cbn [bind] in E; try discriminate E; try (left; congruence); right; reflexivity.
  - destruct (required h1 b o (g_slot f)) as [[]| |]; try discriminate E. right. reflexivity.
Qed.
Lemma agree_create b gs l : agree (gen_create h1 b gs l) (gen_create h2 b gs l).
Proof.
  unfold gen_create. apply agree_bind; [|intros [b1 s]].
  { unfold start_table, assert_not_nested. apply agree_bind; [apply agree_debug_assert; exact HD|intros; apply agree_refl]. }
  apply agree_bind; [apply agree_adds|intros b2]. apply agree_bind; [apply agree_end_table; exact HD|intros [b3 o]]. apply agree_bind; [apply agree_required_all|intros; apply agree_refl].
Qed.
Lemma agree_all xs : Forall (fun x => forall b, agree (put h1 b x) (put h2 b x)) xs -> forall b, agree (put_all h1 b xs) (put_all h2 b xs).
Proof.
  induction 1 as [|x xs Hx _ IH]; intros b; cbn [put_all]; [apply agree_refl|]. apply agree_bind; [apply Hx|intros [b1 a]]. apply agree_bind; [apply IH|intros [b2 l]; apply agree_refl].
Qed.
Lemma agree_put : forall x b, agree (put h1 b x) (put h2 b x).
Proof.
  refine (tree_nested (fun x => forall b, agree (put h1 b x) (put h2 b x)) _ _ _ _ _); try (intros; apply agree_refl).
  - intros s b. cbn [put]. apply agree_bind; [apply agree_create_string; exact HD|intros [b1 o]; apply agree_refl].
  - intros t xs H b. rewrite !put_vec. apply agree_bind; [apply agree_all; exact H|intros [b1 l]]. apply agree_bind; [apply agree_create_vector; exact HD|intros [b2 o]; apply agree_refl].
  - intros gs xs H b. rewrite !put_table. apply agree_bind; [apply agree_all; exact H|intros [b1 l]]. apply agree_bind; [apply agree_create|intros [b2 o]; apply agree_refl].
Qed.
Lemma agree_save fl snake root hg c x q ident sp : agree (save fl snake root hg h1 c x q ident sp) (save fl snake root hg h2 c x q ident sp).
Proof.
  unfold save. destruct (calls_for _ _ _ _ _ _) as [y|]; [|apply agree_refl]. apply agree_bind; [apply agree_refl|intros b]. apply agree_bind; [apply agree_put|intros [b1 [[|o]|]]]; try apply agree_refl.
  apply agree_bind; [apply agree_finish; exact HD|intros b2]. unfold finished_data, assert_finished. apply agree_bind; [apply agree_debug_assert; exact HD|intros; apply agree_refl].
Qed.
End Hosts.

Section Docs.
Context (fl : floats) (snake : text -> text) (root : list node) (hg : host) (es : list element).
Context (B : build snake es = Done root) (F : floats_ok fl).
Context (All : compiled_tables fl snake root hg).
Local Notation save := (SpecDoc.save fl snake root hg).
Local Notation shaped := (SpecDoc.shaped snake root).

Lemma save_capacity h c c' x q ident sp D D' : shaped x (ICustom q KTable) -> 0 <= c -> 0 <= c' ->
  save h c x q ident sp = Val D -> save h c' x q ident sp = Val D' -> D = D'.
Proof.
  intros Sx Hc Hc'. destruct (all_can fl snake root hg es B F All x) as [Cx _]. destruct (Cx (ICustom q KTable) _ eq_refl Sx) as (y & Cy & Ty & _).
  unfold SpecDoc.save. rewrite Cy. intros H H'. apply bind_Val in H as (b & N & H). apply bind_Val in H' as (b' & N' & H').
  pose proof (alike_Rb _ _ _ (new_Rb _ _ Hc N) (new_Rb _ _ Hc' N')) as A.
  apply bind_Val in H as ([b1 a] & P & H). apply bind_Val in H' as ([b1' a'] & P' & H').
  destruct (tree_one_way h 8190 ltac:(lia) y (FUOffset FTable) b b' (or_intror Ty) A _ _ P P') as [A1 E]. cbn [fst snd] in *. subst a'.
  destruct a as [[|o]|]; try discriminate H. apply bind_Val in H as (b2 & Fi & H). apply bind_Val in H' as (b2' & Fi' & H').
  assert (A2 : meet alike (finish_with_opts h b1 o ident sp) (finish_with_opts h b1' o ident sp)) by meets finish_ref.
  specialize (A2 _ _ Fi Fi').
  unfold finished_data in *. apply bind_Val in H as (? & _ & H). apply bind_Val in H' as (? & _ & H'). injection H as <-. injection H' as <-.
  destruct A2 as (_ & _ & V). apply (f_equal a_data) in V. exact V.
Qed.
(** The file of a document. *)
Lemma save_one x q h h' c c' ident sp D D' : shaped x (ICustom q KTable) -> 0 <= c -> 0 <= c' ->
  save h c x q ident sp = Val D -> save h' c' x q ident sp = Val D' -> D = D'.
Proof.
  intros Sx Hc Hc' H H'.
  assert (Rel : forall h c D, save h c x q ident sp = Val D -> save (Host false false) c x q ident sp = Val D).
  { intros k d E Hk. assert (HD : debug k = debug (Host false false) \/ debug k = true) by (cbn; destruct (debug k); auto).
    destruct (agree_save k (Host false false) HD fl snake root hg d x q ident sp) as [Q|Q]; congruence. }
  apply Rel in H. apply Rel in H'. exact (save_capacity _ _ _ _ _ _ _ _ _ Sx Hc Hc' H H').
Qed.
Lemma doc_one_file x q : fits fl snake root x (ICustom q KTable) -> exists y, calls_for fl snake root hg x (ICustom q KTable) = Some y /\
  forall ident sp, match ident with Some i => blen i = 4 | None => True end -> tree_size y + 150000 < 2 ^ 31 ->
    exists D, forall h c, 0 <= c <= MAX_BUFFER_SIZE -> save h c x q ident sp = Val D.
Proof.
  intros Fx. destruct (doc_saved fl snake root hg es B F All x q Fx) as (y & Cy & S). exists y. split; [exact Cy|]. intros ident sp Hi L.
  assert (Z0 : 0 <= 0 <= MAX_BUFFER_SIZE) by (unfold MAX_BUFFER_SIZE; lia).
  destruct (S (Host true false) 0 ident sp Z0 Hi L) as (D & E & _). exists D. intros h c Hc. destruct (S h c ident sp Hc Hi L) as (D' & E' & _).
  rewrite E'. f_equal. symmetry. exact (save_one _ _ _ _ _ _ _ _ _ _ (proj1 Fx) (proj1 Z0) (proj1 Hc) E E').
Qed.
(** The document of a file. *)
Lemma doc_in_file x q y h c ident sp D : shaped x (ICustom q KTable) ->
  calls_for fl snake root hg x (ICustom q KTable) = Some y -> tree_size y + 150000 < 2 ^ 31 ->
  0 <= c <= MAX_BUFFER_SIZE -> match ident with Some i => blen i = 4 | None => True end -> save h c x q ident sp = Val D ->
  forall hr, exists w, (if sp then get_size_prefixed_root hr FTable D else get_root hr FTable D) = Val w /\ reads fl snake root hg hr D x (ICustom q KTable) (GPlain w).
Proof.
  intros Sx Cy Ly Hc Hi H. destruct (doc_exact fl snake root hg es B F All x q Sx) as (y1 & Cy1 & Ex). assert (y1 = y) by congruence. subst y1.
  destruct (Ex h c ident sp Hc Hi Ly) as [[K _]|[_ P]]; [|congruence].
  destruct (doc_saved fl snake root hg es B F All x q (conj Sx K)) as (y1 & Cy1' & S). assert (y1 = y) by congruence. subst y1.
  destruct (S h c ident sp Hc Hi Ly) as (D' & E & R & _). assert (D' = D) by congruence. subst D'. exact R.
Qed.
Lemma doc_of_file x x' q y h c ident sp D hr : shaped x (ICustom q KTable) -> shaped x' (ICustom q KTable) ->
  calls_for fl snake root hg x (ICustom q KTable) = Some y -> tree_size y + 150000 < 2 ^ 31 ->
  0 <= c <= MAX_BUFFER_SIZE -> match ident with Some i => blen i = 4 | None => True end -> save h c x q ident sp = Val D ->
  ((exists w, (if sp then get_size_prefixed_root hr FTable D else get_root hr FTable D) = Val w /\ reads fl snake root hg hr D x' (ICustom q KTable) (GPlain w)) <->
   same fl root (ICustom q KTable) x x').
Proof.
  intros Sx Sx' Cy Ly Hc Hi H. destruct (doc_in_file _ _ _ _ _ _ _ _ Sx Cy Ly Hc Hi H hr) as (w & Gw & Rw). split.
  - intros (w' & Gw' & Rw'). assert (w' = w) by congruence. subst w'. exact (all_determined fl snake root hg es B hr D x x' (ICustom q KTable) (GPlain w) Logic.I Sx Sx' Rw Rw').
  - intros M. exists w. split; [exact Gw|]. exact (all_carries fl snake root hg es B hr D x x' (ICustom q KTable) (GPlain w) Logic.I Sx Sx' M Rw).
Qed.
Lemma files_differ x x' q y y' h h' c c' ident ident' sp D : shaped x (ICustom q KTable) -> shaped x' (ICustom q KTable) ->
  calls_for fl snake root hg x (ICustom q KTable) = Some y -> tree_size y + 150000 < 2 ^ 31 ->
  calls_for fl snake root hg x' (ICustom q KTable) = Some y' -> tree_size y' + 150000 < 2 ^ 31 ->
  0 <= c <= MAX_BUFFER_SIZE -> 0 <= c' <= MAX_BUFFER_SIZE ->
  match ident with Some i => blen i = 4 | None => True end -> match ident' with Some i => blen i = 4 | None => True end ->
  save h c x q ident sp = Val D -> save h' c' x' q ident' sp = Val D -> same fl root (ICustom q KTable) x x'.
Proof.
  intros Sx Sx' Cy Ly Cy' Ly' Hc Hc' Hi Hi' H H'. apply (doc_of_file x x' q y h c ident sp D h'); auto. exact (doc_in_file _ _ _ _ _ _ _ _ Sx' Cy' Ly' Hc' Hi' H' h').
Qed.
End Docs.

(** Documents that say the same. *)
From Coq Require Import Strings.String ZArith List Bool Lia Strings.Byte.
From Verif Require Import Base Scalar SpecWire Reader Builder Ops Schema Heck Codegen Resolve Parser Compile SpecResolve SpecGen SpecTable SpecDoc SpecSame
  GenProofs9 DocProofs1 DocProofs5 DocProofs7 DocCase.
Import ListNotations.
Local Open Scope string_scope.
Local Open Scope list_scope.
Local Open Scope Z_scope.

(** The orc again: other order, the default of [hp] given, that of a friend's color
    left out. *)
Definition plain_elf : doc := DTable [(lit "name", DText (lit "Elf"))].
Definition same_orc : doc := DTable [
  (lit "hp", DNum 100); (lit "inventory", DList [DNum 1; DNum 255]); (lit "color", DName (lit "Green"));
  (lit "friends", DList [plain_elf; DTable [(lit "thing", DVariant (lit "Monster") plain_elf); (lit "name", DText (lit "Cat"))]]);
  (lit "thing", sword); (lit "name", DText (lit "Orc"))].
(** One that does not say the same. *)
Definition other_orc : doc := DTable [(lit "name", DText (lit "Orc")); (lit "hp", DNum 99)].
Lemma same_orc_fits fl : fits fl snake_case game_root same_orc (ICustom monster KTable).
Proof. apply fits_b_ok. vm_compute. reflexivity. Qed.
Lemma other_orc_fits fl : fits fl snake_case game_root other_orc (ICustom monster KTable).
Proof. apply fits_b_ok. vm_compute. reflexivity. Qed.
Lemma same_orc_saved : save fl0 snake_case game_root (Host true false) (Host false true) 1000 same_orc monster (Some (lit "GAME")) false = Val orc_file.
Proof. vm_compute. reflexivity. Qed.
Lemma same_orc_size : match calls_for fl0 snake_case game_root (Host true false) same_orc (ICustom monster KTable) with Some y => tree_size y <? 3000 | None => false end = true.
Proof. vm_compute. reflexivity. Qed.
Lemma not_same fl : ~ same fl game_root (ICustom monster KTable) orc other_orc.
Proof.
  intros M. unfold same in M. inversion M as [| | | | |q fs g g' T _ _ Only E1 E2 E3]; subst. clear M.
  destruct T as (path & t & I & E & <-). 
  assert (F : exists f, In f (it_fields t) /\ if_id f = lit "hp" /\ if_ty f = IPrim Short /\ if_default f = Some (DScalar (CInt 100))).
  { vm_compute in I. repeat (destruct I as [I|I]; [first [discriminate I|injection I as <- <-; first [discriminate E|vm_compute; eexists; split; [left; reflexivity|auto]]]|]); contradiction. }
  destruct F as (f & If & Ei & Et & Ed). specialize (Only f (DNum 99) If). rewrite Ei in Only. specialize (Only eq_refl eq_refl).
  unfold as_left_out, equal_numbers in Only. rewrite Et, Ed in Only. destruct Only as (d & Hd & V). vm_compute in Hd. injection Hd as <-. destruct V as [V|V]; discriminate V.
Qed.

(** By computation. *)
Lemma same_bits_table fl root q fs given given' : fields_named root q = Some fs ->
  Forall (fun f => match lookup given (if_id f), lookup given' (if_id f) with
    | Some x, Some x' => same_bits fl root (if_ty f) x x'
    | Some x, None | None, Some x => as_left_out fl (fun _ a b => a = b) f x
    | None, None => True
    end) fs -> same_bits fl root (ICustom q KTable) (DTable given) (DTable given').
Proof.
  intros N A. apply named_found in N. rewrite Forall_forall in A. apply (same_table fl root _ q fs); [exact N|..]; intros f; intros; specialize (A f ltac:(assumption));
    repeat match goal with H : lookup _ _ = _ |- _ => rewrite H in A; clear H end; exact A.
Qed.
Definition elf_again : doc := DTable [(lit "hp", DNum 100); (lit "name", DText (lit "Elf"))].
Lemma elf_again_fits fl : fits fl snake_case game_root elf_again (ICustom monster KTable).
Proof. apply fits_b_ok. vm_compute. reflexivity. Qed.
Lemma elf_fits fl : fits fl snake_case game_root elf (ICustom monster KTable).
Proof. apply fits_b_ok. vm_compute. reflexivity. Qed.
Lemma elves_same fl : same_bits fl game_root (ICustom monster KTable) elf elf_again.
Proof.
  eapply same_bits_table; [vm_compute; reflexivity|]. repeat (apply Forall_cons; [vm_compute|]); try apply Forall_nil; try exact Logic.I.
  - exists 100. auto.
  - apply same_text.
  - reflexivity.
Qed.

(** 0.0 and -0.0 are the same number, of different bytes. *)
Definition points : text := lit "table Points { xs : [float]; }".
Definition points_root : list node :=
  match compile (fun _ => false) (fun _ => false) (fun _ => false) (fun _ => None) (fun _ => None) (fun _ => true) snake_case points with Generated root => root | _ => [] end.
Definition points_name : qident := [lit "Points"].
Definition zero_point (negative : bool) : doc := DTable [(lit "xs", DList [DNum (if negative then 2 ^ 31 else 0)])].
Lemma points_compiles : compile (fun _ => false) (fun _ => false) (fun _ => false) (fun _ => None) (fun _ => None) (fun _ => true) snake_case points = Generated points_root.
Proof. vm_compute. reflexivity. Qed.
Lemma points_fine fl hg : compiled_tables fl snake_case points_root hg.
Proof. apply all_fine_ok. destruct hg as [[] []]; vm_compute; reflexivity. Qed.
Lemma zero_point_fits fl n : fits fl snake_case points_root (zero_point n) (ICustom points_name KTable).
Proof. apply fits_b_ok. destruct n; vm_compute; reflexivity. Qed.
Lemma zero_points_same fl : same fl points_root (ICustom points_name KTable) (zero_point false) (zero_point true).
Proof.
  destruct (fields_named points_root points_name) as [fs|] eqn:E; [|discriminate E].
  pose proof (named_found points_root points_name fs E) as T. vm_compute in E. injection E as E.
  apply (same_table fl points_root equal_numbers points_name fs); [exact T| | |]; subst fs.
  - intros f x x' [<-|[]] L L'. vm_compute in L, L'. injection L as <-. injection L' as <-. cbn [if_ty]. apply same_list. constructor; [|constructor]. apply same_num. right. vm_compute. reflexivity.
  - intros f x [<-|[]] L L'. discriminate L'.
  - intros f x [<-|[]] L L'. discriminate L.
Qed.
Lemma zero_points_differ : exists D D', save fl0 snake_case points_root (Host true false) (Host true false) 0 (zero_point false) points_name None false = Val D /\
  save fl0 snake_case points_root (Host true false) (Host true false) 0 (zero_point true) points_name None false = Val D' /\ D <> D'.
Proof. eexists. eexists. split; [vm_compute; reflexivity|]. split; [vm_compute; reflexivity|]. discriminate. Qed.
Lemma small_calls hg x : match calls_for fl0 snake_case game_root hg x (ICustom monster KTable) with Some y => tree_size y <? 3000 | None => false end = true ->
  exists y, calls_for fl0 snake_case game_root hg x (ICustom monster KTable) = Some y /\ tree_size y + 150000 < 2 ^ 31.
Proof. destruct (calls_for _ _ _ _ _ _) as [y|]; [|discriminate]. intros H. exists y. split; [reflexivity|]. apply Z.ltb_lt in H. lia. Qed.
Lemma built ua un uw f6 fh has_stem snake t root : compile ua un uw f6 fh has_stem snake t = Generated root -> exists es, build snake es = Done root.
Proof.
  unfold compile. intros C. destruct (schema_decl _ _ _ _ _ _ t) as [[s [|r0 r]]|]; [|destruct (char_boundary 30 _); discriminate C|discriminate C].
  destruct (build snake (sc_elements s)) as [root'| |] eqn:B; try discriminate C. injection C as ->. eauto.
Qed.
Lemma same_orc_case : exists es, build snake_case es = Done game_root /\ compiled_tables fl0 snake_case game_root (Host true false) /\
  fits fl0 snake_case game_root orc (ICustom monster KTable) /\ fits fl0 snake_case game_root same_orc (ICustom monster KTable) /\ orc <> same_orc /\
  save fl0 snake_case game_root (Host true false) (Host true false) 0 orc monster (Some (lit "GAME")) false = Val orc_file /\
  save fl0 snake_case game_root (Host true false) (Host false true) 1000 same_orc monster (Some (lit "GAME")) false = Val orc_file /\
  same fl0 game_root (ICustom monster KTable) orc same_orc /\
  fits fl0 snake_case game_root other_orc (ICustom monster KTable) /\ ~ same fl0 game_root (ICustom monster KTable) orc other_orc.
Proof.
  destruct (built _ _ _ _ _ _ _ _ _ game_compiles) as (es & B). exists es. split; [exact B|].
  pose proof (game_fine fl0 (Host true false)) as G. pose proof (orc_fits fl0) as O. pose proof (same_orc_fits fl0) as O'.
  split; [exact G|]. split; [exact O|]. split; [exact O'|]. split; [discriminate|]. split; [exact (proj1 orc_saved)|]. split; [exact same_orc_saved|].
  split; [|split; [exact (other_orc_fits fl0)|exact (not_same fl0)]].
  destruct (small_calls (Host true false) orc (orc_size (Host true false))) as (y & Cy & Ly). destruct (small_calls (Host true false) same_orc same_orc_size) as (y' & Cy' & Ly').
  apply (files_differ fl0 snake_case game_root (Host true false) es B fl0_ok G orc same_orc monster y y' (Host true false) (Host false true) 0 1000 (Some (lit "GAME")) (Some (lit "GAME")) false orc_file);
    [exact (proj1 O)|exact (proj1 O')|exact Cy|exact Ly|exact Cy'|exact Ly'|unfold MAX_BUFFER_SIZE; lia|unfold MAX_BUFFER_SIZE; lia|reflexivity|reflexivity|exact (proj1 orc_saved)|exact same_orc_saved].
Qed.
Lemma game_built : exists es, build snake_case es = Done game_root.
Proof. exact (built _ _ _ _ _ _ _ _ _ game_compiles). Qed.
Lemma elves_differ : elf <> elf_again.
Proof. discriminate. Qed.

(** A place with floats. *)
Definition places : text := lit "table Place { x : float; y : double; name : string; }".
Definition places_root : list node :=
  match compile (fun _ => false) (fun _ => false) (fun _ => false) (fun _ => None) (fun _ => None) (fun _ => true) snake_case places with Generated root => root | _ => [] end.
Definition place_name : qident := [lit "Place"].
Definition here : doc := DTable [(lit "x", DNum 0); (lit "name", DText (lit "here")); (lit "y", DNum 4609434218613702656)].
Definition here_again : doc := DTable [(lit "y", DNum 4609434218613702656); (lit "name", DText (lit "here"))].
Lemma places_compiles : compile (fun _ => false) (fun _ => false) (fun _ => false) (fun _ => None) (fun _ => None) (fun _ => true) snake_case places = Generated places_root.
Proof. vm_compute. reflexivity. Qed.
Lemma places_built : exists es, build snake_case es = Done places_root.
Proof. exact (built _ _ _ _ _ _ _ _ _ places_compiles). Qed.
Lemma places_fine hg : compiled_tables fl0 snake_case places_root hg.
Proof. apply all_fine_ok. destruct hg as [[] []]; vm_compute; reflexivity. Qed.
Lemma here_fits : fits fl0 snake_case places_root here (ICustom place_name KTable).
Proof. apply fits_b_ok. vm_compute. reflexivity. Qed.
Lemma here_again_fits : fits fl0 snake_case places_root here_again (ICustom place_name KTable).
Proof. apply fits_b_ok. vm_compute. reflexivity. Qed.
Lemma only_place q fs : table_named places_root q fs -> Forall2 (fun f p => if_id f = fst p /\ if_ty f = snd p /\ (if_default f = None \/ if_default f = Some (DScalar (CFloat 0)))) fs
  [(lit "x", IPrim Float); (lit "y", IPrim Double); (lit "name", IString)].
Proof.
  intros (path & tb & I & _ & <-). vm_compute in I. repeat (destruct I as [I|I]; [injection I as <- <-; cbn [it_fields]; repeat (apply Forall2_cons; [cbn; auto|]); apply Forall2_nil|]). destruct I.
Qed.
Lemma places_defaults : no_minus_zero_defaults fl0 places_root.
Proof.
  intros q fs f p c d T I _ D E _. apply only_place in T. assert (c = CFloat 0).
  { clear E. induction T as [|g l fs ls (_ & _ & N) _ IH]; [destruct I|]. destruct I as [<-|I]; [destruct N; congruence|auto]. }
  subst c. destruct p; cbn in E; congruence.
Qed.
Lemma heres_plain : no_minus_zero places_root here (ICustom place_name KTable) /\ no_minus_zero places_root here_again (ICustom place_name KTable).
Proof.
  split; intros fs T; apply only_place in T; inversion T as [|f1 ? fs1 ? (E1 & T1 & _) T']; subst; inversion T' as [|f2 ? fs2 ? (E2 & T2 & _) T'']; subst;
    inversion T'' as [|f3 ? fs3 ? (E3 & T3 & _) T0]; subst; inversion T0; subst; cbn [fst snd] in *.
  all: repeat match goal with |- _ /\ _ => split end; try exact Logic.I; intros f [<-|[<-|[<-|[]]]] E; try (exfalso; rewrite ?E1, ?E2, ?E3 in E; vm_compute in E; discriminate E).
  all: rewrite ?T1, ?T2, ?T3; cbn [no_minus_zero]; try exact Logic.I; intros Z0; vm_compute in Z0; try reflexivity; discriminate Z0.
Qed.
Definition place_size (x : doc) : bool := match calls_for fl0 snake_case places_root (Host true false) x (ICustom place_name KTable) with Some y => tree_size y <? 3000 | None => false end.
Lemma small_place x : place_size x = true -> exists y, calls_for fl0 snake_case places_root (Host true false) x (ICustom place_name KTable) = Some y /\ tree_size y + 150000 < 2 ^ 31.
Proof. unfold place_size. destruct (calls_for _ _ _ _ _ _) as [y|]; [|discriminate]. intros H. exists y. split; [reflexivity|]. apply Z.ltb_lt in H. lia. Qed.
Lemma heres_small : place_size here = true /\ place_size here_again = true.
Proof. split; vm_compute; reflexivity. Qed.
Lemma heres_saved : exists D, save fl0 snake_case places_root (Host true false) (Host true false) 0 here place_name None false = Val D /\
  save fl0 snake_case places_root (Host true false) (Host false true) 1000 here_again place_name None false = Val D /\ blen D = 48.
Proof. eexists. split; [vm_compute; reflexivity|]. split; vm_compute; reflexivity. Qed.
Lemma heres_differ : here <> here_again.
Proof. discriminate. Qed.

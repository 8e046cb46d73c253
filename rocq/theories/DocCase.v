(** A schema as text, and a document in its words. *)
From Coq Require Import Strings.String ZArith List Bool Lia Strings.Byte.
From Verif Require Import Base Scalar Utf8 Utf8Facts SpecWire Reader SpecReader Builder Ops Schema Ident Heck Codegen Resolve Compile SpecResolve SpecGen SpecTable SpecDoc
  GenProofs9 TableProofs2 TableProofs4 DocProofs1.
Import ListNotations.
Local Open Scope string_scope.
Local Open Scope list_scope.
Local Open Scope Z_scope.

Definition game : text := lit "namespace game;
enum Color : byte { Red = 0, Green, Blue = 2 }
union Thing { Weapon, Monster }
table Weapon { name : string; damage : short; }
table Monster {
  hp : short = 100;
  name : string (required);
  friends : [Monster];
  color : Color = Blue;
  thing : Thing;
  inventory : [ubyte];
}
root_type Monster;".
Definition game_root : list node :=
  match compile (fun _ => false) (fun _ => false) (fun _ => false) (fun _ => None) (fun _ => None) (fun _ => true) snake_case game with Generated root => root | _ => [] end.
Lemma game_compiles : compile (fun _ => false) (fun _ => false) (fun _ => false) (fun _ => None) (fun _ => None) (fun _ => true) snake_case game = Generated game_root.
Proof. vm_compute. reflexivity. Qed.
Definition monster : qident := [lit "game"; lit "Monster"].

(** An orc with a sword and a friend, who has a friend's sword in turn. *)
Definition sword : doc := DVariant (lit "Weapon") (DTable [(lit "damage", DNum 7); (lit "name", DText (lit "sword"))]).
Definition elf : doc := DTable [(lit "name", DText (lit "Elf")); (lit "color", DName (lit "Blue"))].
Definition orc : doc := DTable [
  (lit "name", DText (lit "Orc")); (lit "thing", sword); (lit "friends", DList [elf; DTable [(lit "name", DText (lit "Cat")); (lit "thing", DVariant (lit "Monster") elf)]]);
  (lit "color", DName (lit "Green")); (lit "inventory", DList [DNum 1; DNum 255])].

Definition all_fine (fl : floats) (hg : host) (root : list node) : bool :=
  forallb (fun x => match snd x with
    | NTable t => (blen (it_fields t) <=? 8190) && forallb (fun f => default_ok (if_default f)) (it_fields t) && no_error fl hg x
    | _ => true end) (all_contents root).
Lemma all_fine_ok fl hg root : all_fine fl hg root = true -> compiled_tables fl snake_case root hg.
Proof.
  intros H path t I. unfold all_fine in H. rewrite forallb_forall in H. specialize (H _ I). cbn [snd] in H. apply andb_true_iff in H as [H G]. apply andb_true_iff in H as [L D].
  split; [apply Z.leb_le; exact L|]. split; [exact D|]. unfold no_error in G. cbn [snd] in G. destruct (gen_table fl snake_case hg (it_fields t)); [eauto|discriminate G].
Qed.
Lemma game_fine fl hg : compiled_tables fl snake_case game_root hg.
Proof. apply all_fine_ok. destruct hg as [[] []]; vm_compute; reflexivity. Qed.

(** [fits] by computation. *)
Fixpoint no_dup (l : list ident) : bool := match l with [] => true | x :: l => negb (existsb (ident_eqb x) l) && no_dup l end.
Lemma no_dup_ok l : no_dup l = true -> NoDup l.
Proof.
  induction l as [|x l IH]; intros H; [constructor|]. cbn [no_dup] in H. apply andb_true_iff in H as [N H]. apply negb_true_iff in N. constructor; [|auto].
  intros I. assert (existsb (ident_eqb x) l = true) by (apply existsb_exists; exists x; split; [exact I|apply ident_eqb_iff; reflexivity]). congruence.
Qed.
Section Check.
Context (fl : floats) (root : list node).
(** Enough for fields without a default. *)
Definition given_check (fs : list ifield) (given : list (ident * doc)) (f : ifield) : bool :=
  negb (if_required f) || match value_of snake_case fs given f, if_default f with Some _, None => true | _, _ => false end.
Fixpoint fits_b (x : doc) (t : ity) {struct x} : bool :=
  match x, t with
  | DNum v, IPrim p => valid_scalar (prim_ty p) v
  | DName id, ICustom _ (KEnum vs _) => existsb (ident_eqb id) (map iev_id vs)
  | DText s, IString => utf8_valid s && (blen s <? 2 ^ 63)
  | DList xs, IArray t => (blen xs <? 2 ^ 60) && forallb (fun x => fits_b x t) xs
  | DVariant id x, ICustom _ (KUnion _ vs) =>
      match find_variant vs id with Some v => match iuv_ty v with ICustom _ KTable => fits_b x (iuv_ty v) | _ => false end | None => false end
  | DTable given, ICustom q KTable =>
      match fields_named root q with
      | Some fs =>
          no_dup (map fst given) &&
          forallb (fun p => match p with (n, x) => match find (fun f => ident_eqb (if_id f) n) fs with
            | Some f => match told snake_case fs f with None => fits_b x (if_ty f) | Some _ => false end | None => false end end) given &&
          forallb (given_check fs given) fs
      | None => false
      end
  | _, _ => false
  end.

Lemma named_found q fs : fields_named root q = Some fs -> table_named root q fs.
Proof.
  unfold fields_named. destruct (find _ (all_contents root)) as [[path n]|] eqn:E; [|discriminate]. apply find_some in E as [I E]. cbn [snd] in E.
  destruct n as [|t| | | |]; try discriminate. intros H. injection H as <-. exists path, t. split; [exact I|]. split; [apply qident_eqb_iff; exact E|reflexivity].
Qed.
Lemma fits_b_ok x : forall t, fits_b x t = true -> fits fl snake_case root x t.
Proof.
  unfold fits. apply (doc_nested (fun x => forall t, fits_b x t = true -> shaped snake_case root x t /\ complete fl snake_case root x t)); clear x.
  - intros v [p| | |]; cbn [fits_b shaped complete]; auto; discriminate.
  - intros id [p| | |q [| | |]]; cbn [fits_b shaped complete]; try discriminate. intros H. split; [|exact Logic.I]. apply existsb_exists in H as (y & I & E). apply ident_eqb_iff in E. subst. exact I.
  - intros s [p| | |]; cbn [fits_b shaped complete]; try discriminate. intros H. split; [|exact Logic.I]. apply andb_true_iff in H as [U L]. split; [apply utf8_valid_iff; exact U|apply Z.ltb_lt; exact L].
  - intros xs IH [p| |t|]; cbn [fits_b shaped complete]; try discriminate. intros H. apply andb_true_iff in H as [L H]. apply Z.ltb_lt in L.
    enough (Q : (fix all (xs : list doc) : Prop := match xs with [] => True | x :: xs => shaped snake_case root x t /\ all xs end) xs /\
                (fix all (xs : list doc) : Prop := match xs with [] => True | x :: xs => complete fl snake_case root x t /\ all xs end) xs)
      by (destruct Q; auto). clear L.
    induction IH as [|y ys Hy _ IH]; [split; exact Logic.I|]. cbn [forallb] in H. apply andb_true_iff in H as [H1 H2]. destruct (Hy t H1). destruct (IH H2). auto.
  - intros given IH [p| | |q [| | |]]; cbn [fits_b shaped complete]; try discriminate. destruct (fields_named root q) as [fs|] eqn:E; [|discriminate]. intros H.
    apply andb_true_iff in H as [H R]. apply andb_true_iff in H as [N H].
    assert (Rq : forall f, In f fs -> if_required f = true -> exists y, value_of snake_case fs given f = Some y /\ if_default f = None).
    { intros f I Rq. rewrite forallb_forall in R. specialize (R f I). unfold given_check in R. rewrite Rq in R. cbn [negb orb] in R.
      destruct (value_of snake_case fs given f) as [y|]; [|discriminate R]. exists y. split; [reflexivity|]. destruct (if_default f); [discriminate R|reflexivity]. }
    assert (S : forall n x, In (n, x) given -> exists f, In f fs /\ if_id f = n /\ told snake_case fs f = None /\ shaped snake_case root x (if_ty f) /\ complete fl snake_case root x (if_ty f)).
    { intros n x I. rewrite forallb_forall in H. specialize (H _ I). cbv beta iota in H. rewrite Forall_forall in IH. specialize (IH _ I).
      destruct (find _ fs) as [f|] eqn:Ef; [|discriminate H]. destruct (told snake_case fs f) eqn:T; [discriminate H|]. apply find_some in Ef as [If Ef]. apply ident_eqb_iff in Ef.
      exists f. destruct (IH _ H). auto. }
    split; exists fs; (split; [apply named_found; exact E|]).
    + split; [apply no_dup_ok; exact N|]. split.
      * clear - S. induction given as [|[n y] l IHl]; [exact Logic.I|]. split; [|apply IHl; intros n' x' I; apply S; right; exact I].
        destruct (S n y (or_introl eq_refl)) as (f & ? & ? & ? & ? & _). exists f. auto.
      * intros f I Q _. destruct (Rq f I Q) as (y & -> & _). discriminate.
    + split.
      * clear - S. induction given as [|[n y] l IHl]; [exact Logic.I|]. split; [|apply IHl; intros n' x' I; apply S; right; exact I].
        destruct (S n y (or_introl eq_refl)) as (f & ? & ? & ? & ? & ?). exists f. auto.
      * intros f I Q. destruct (Rq f I Q) as (y & -> & D). unfold is_its_default. rewrite D. destruct (if_ty f); intros [].
  - intros id y IH [p| | |q [| | |e vs]]; cbn [fits_b shaped complete]; try discriminate. unfold find_variant. destruct (find _ vs) as [v|] eqn:E; [|discriminate].
    apply find_some in E as [I E]. apply ident_eqb_iff in E. intros H. destruct (iuv_ty v) as [| | |q' [| | |]] eqn:T; try discriminate H. destruct (IH _ H) as [H1 H2].
    split; [exists v, q'|exists v]; rewrite T; auto.
Qed.
End Check.
Lemma orc_fits fl : fits fl snake_case game_root orc (ICustom monster KTable).
Proof. apply fits_b_ok. vm_compute. reflexivity. Qed.

Definition orc_file : list byte := match save fl0 snake_case game_root (Host true false) (Host true false) 0 orc monster (Some (lit "GAME")) false with Val D => D | _ => [] end.
Lemma orc_saved : save fl0 snake_case game_root (Host true false) (Host true false) 0 orc monster (Some (lit "GAME")) false = Val orc_file /\ blen orc_file = 208.
Proof. split; vm_compute; reflexivity. Qed.
Lemma orc_size hg : match calls_for fl0 snake_case game_root hg orc (ICustom monster KTable) with Some y => tree_size y <? 3000 | None => false end = true.
Proof. destruct hg as [[] []]; vm_compute; reflexivity. Qed.

(** A coin of no value. *)
Definition mint : text := lit "table Coin { worth : int (required); edge : bool; }".
Definition mint_root : list node :=
  match compile (fun _ => false) (fun _ => false) (fun _ => false) (fun _ => None) (fun _ => None) (fun _ => true) snake_case mint with Generated root => root | _ => [] end.
Lemma mint_compiles : compile (fun _ => false) (fun _ => false) (fun _ => false) (fun _ => None) (fun _ => None) (fun _ => true) snake_case mint = Generated mint_root.
Proof. vm_compute. reflexivity. Qed.
Lemma mint_fine fl hg : compiled_tables fl snake_case mint_root hg.
Proof. apply all_fine_ok. destruct hg as [[] []]; vm_compute; reflexivity. Qed.
Definition coin : qident := [lit "Coin"].
Definition worthless (edge : bool) : doc := DTable [(lit "worth", DNum 0); (lit "edge", DNum (if edge then 1 else 0))].
Definition coin_fields : list ifield := match fields_named mint_root coin with Some fs => fs | None => [] end.
Lemma coin_named : table_named mint_root coin coin_fields.
Proof. apply named_found. vm_compute. reflexivity. Qed.
Definition worth_field : ifield := nth 0 coin_fields (IField [] IString None false []).
Lemma worthless_shaped e : shaped snake_case mint_root (worthless e) (ICustom coin KTable).
Proof.
  cbn [worthless shaped]. exists coin_fields. split; [exact coin_named|]. split; [apply no_dup_ok; vm_compute; reflexivity|]. split.
  - split; [exists worth_field|split; [exists (nth 1 coin_fields worth_field)|exact Logic.I]].
    + split; [left; vm_compute; reflexivity|]. split; [vm_compute; reflexivity|]. split; [vm_compute; reflexivity|]. vm_compute. reflexivity.
    + split; [right; left; vm_compute; reflexivity|]. split; [vm_compute; reflexivity|]. split; [vm_compute; reflexivity|]. destruct e; vm_compute; reflexivity.
  - assert (K : forallb (fun f => negb (behind_offset (if_ty f))) coin_fields = true) by (vm_compute; reflexivity).
    rewrite forallb_forall in K. intros f I _ O. specialize (K f I). rewrite O in K. discriminate K.
Qed.
Lemma worthless_panics : save fl0 snake_case mint_root (Host true false) (Host true false) 0 (worthless true) coin None false = Panic.
Proof. vm_compute. reflexivity. Qed.

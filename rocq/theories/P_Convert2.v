From Coq Require Import String ZArith List Bool Lia.
From Verif Require Import M_Base M_Trie M_Parser M_Symbol M_Heap M_VM M_Host M_Compile M_Convert S_Heap S_VM S_Num S_Data S_Types S_Symbol S_Compile S_Run S_Convert.
From Verif Require Import P_Symbol P_Types P_Convert.
Import ListNotations.
Open Scope Z_scope.
Open Scope list_scope.

(** * Objects to trees *)

Lemma text_bytes os p s : text os p s -> string_bytes os (Some p) = Ok s.
Proof. intros [t [A ->]]. unfold string_bytes. rewrite A. destruct t; reflexivity. Qed.

Lemma string_ast os s i l b f use : string_value os (OString s i l) b -> object_to_ast (S f) os use (OString s i l) = Ok (AstString b).
Proof.
  intros H. cbn [object_to_ast]. inversion H as [s0 o0|p b0 o0 l0 A B C D]; subst.
  - rewrite Z.sub_diag. reflexivity.
  - destruct (Z.eqb_spec (l - i) 0); [lia|]. cbn [string_bytes]. rewrite A. cbn [bind]. unfold slice, zlen.
    replace (0 <=? i) with true by (symmetry; apply Z.leb_le; lia). replace (0 <=? l - i) with true by (symmetry; apply Z.leb_le; lia).
    replace (i + (l - i) <=? Z.of_nat (length b0)) with true by (symmetry; apply Z.leb_le; lia). reflexivity.
Qed.

Definition element (f : nat) (os : list object) (a : optr) : res ast :=
  match a with
  | None => cons_to_expr f os None
  | Some a => h <- at_pointer os a ;; match h with OCons _ _ => cons_to_expr f os (Some a) | _ => object_to_ast f os true h end
  end.
Definition more_elements (f : nat) (os : list object) (room : nat) (d : optr) : res (list ast) :=
  match d with
  | None => expr_elements f os room None
  | Some d => t <- at_pointer os d ;;
      match t with OCons _ _ => expr_elements f os room (Some d) | OList l => expr_elements f os room l | _ => Err invalidValue end
  end.
Definition more_length (f : nat) (os : list object) (d : optr) : res nat :=
  match d with
  | None => Ok 1%nat
  | Some d => t <- at_pointer os d ;;
      match t with
      | OList l => n <- consList_length f os l ;; Ok (S n)
      | OCons _ _ => n <- consList_length f os (Some d) ;; Ok (S n)
      | _ => Ok 0%nat
      end
  end.

Lemma elements_run f os room p a d : nth_error os p = Some (OCons a d) ->
  expr_elements (S f) os (S room) (Some p) = (x <- element f os a ;; rest <- more_elements f os room d ;; Ok (x :: rest)).
Proof. intros N. cbn [expr_elements]. unfold at_pointer. rewrite N. reflexivity. Qed.
Lemma length_run f os p a d : nth_error os p = Some (OCons a d) -> consList_length (S f) os (Some p) = more_length f os d.
Proof. intros N. cbn [consList_length]. unfold at_pointer. rewrite N. cbn [bind]. destruct d; reflexivity. Qed.

Definition gives_back (use : bool) (os : list object) (o : object) (t : ast) : Prop :=
  exists F, forall f, (F <= f)%nat -> object_to_ast f os use o = Ok t.

Lemma back_list os l t use : gives_back use os (OList l) t <->
  exists F, forall f, (F <= f)%nat -> (if use then cons_to_expr else cons_to_cons) f os l = Ok t.
Proof.
  split; intros [F H].
  - exists F. intros f L. specialize (H (S f) ltac:(lia)). cbn [object_to_ast] in H. destruct use; exact H.
  - exists (S F). intros [|f] L; [lia|]. cbn [object_to_ast]. specialize (H f ltac:(lia)). destruct use; exact H.
Qed.

Lemma element_back os a x t : shows os a x -> gives_back true os x t -> exists F, forall f, (F <= f)%nat -> element f os a = Ok t.
Proof.
  intros Sh B. inversion Sh as [|p c d E|p o E C]; subst.
  - apply back_list in B. destruct B as [F H]. exists F. exact H.
  - apply back_list in B. destruct B as [F H]. exists F. intros f L. unfold element, at_pointer. rewrite E. cbn [bind]. apply H, L.
  - destruct B as [F H]. exists F. intros f L. unfold element, at_pointer. rewrite E. cbn [bind].
    specialize (H f L). destruct x; try exact H. destruct C.
Qed.

(** The pairs from [l] on hold [ts]. *)
Definition lists (os : list object) (l : optr) (ts : list ast) : Prop :=
  exists F, forall f, (F <= f)%nat -> consList_length f os l = Ok (length ts) /\ expr_elements f os (length ts) l = Ok ts.

Lemma lists_nil os : lists os None [].
Proof. exists 1%nat. intros [|f] L; [lia|]. split; reflexivity. Qed.

Lemma lists_cons os p a d l x t ts : nth_error os p = Some (OCons a d) -> shows os a x -> gives_back true os x t ->
  shows os d (OList l) -> lists os l ts -> lists os (Some p) (t :: ts).
Proof.
  intros N Sa B Sd [F2 H2]. destruct (element_back os a x t Sa B) as [F1 H1].
  exists (S (S (F1 + F2))). intros [|f] L; [lia|]. destruct (H2 f ltac:(lia)) as [L2 E2]. cbn [length].
  rewrite (length_run f os p a d N), (elements_run f os (length ts) p a d N), (H1 f ltac:(lia)). cbn [bind].
  inversion Sd as [E0|q c e E E0|q o E C E0]; subst.
  - destruct f as [|f]; [lia|]. cbn [consList_length] in L2. injection L2 as L2. cbn [more_length more_elements]. rewrite E2. split; [rewrite <- L2; reflexivity|reflexivity].
  - cbn [more_length more_elements]. unfold at_pointer. rewrite E. cbn [bind]. rewrite L2, E2. split; reflexivity.
  - cbn [more_length more_elements]. unfold at_pointer. rewrite E. cbn [bind]. rewrite L2, E2. split; reflexivity.
Qed.

Lemma lists_back os l ts : lists os l ts -> gives_back true os (OList l) (AstExpression ts).
Proof.
  intros [F H]. apply back_list. exists (S (S F)). intros [|f] L; [lia|]. destruct (H f ltac:(lia)) as [A B]. cbn [cons_to_expr]. destruct l.
  - rewrite A. cbn [bind]. rewrite B. reflexivity.
  - destruct f as [|f]; [lia|]. cbn [consList_length] in A. injection A as A. destruct ts; [reflexivity|discriminate].
Qed.

Lemma denotes_list ids os o ds : denotes ids os o (datum_value (DList ds)) -> exists l, o = OList l.
Proof. intros H. destruct ds; inversion H; subst; eauto. Qed.

Lemma tree_back d : forall ids os o, denotes ids os o (datum_value d) -> gives_back true os o (datum_tree d).
Proof.
  induction d as [l|x|ds IH] using datum_ind_strong; intros ids os o D.
  - exists 1%nat. intros [|f] L; [lia|]. destruct l as [b|n|g|s]; cbn [datum_value literal_value datum_tree literal_tree] in *.
    + inversion D; subst. destruct b; reflexivity.
    + inversion D; subst. reflexivity.
    + inversion D; subst. reflexivity.
    + inversion D as [| | | | |s0 i l b V| | |]; subst. apply string_ast, V.
  - exists 1%nat. intros [|f] L; [lia|]. cbn [datum_value] in D. inversion D as [| | | | | |x0 p T| |]; subst.
    cbn [object_to_ast]. rewrite (text_bytes _ _ _ T). reflexivity.
  - destruct (denotes_list _ _ _ _ D) as [l ->]. cbn [datum_tree]. apply lists_back.
    revert l D. induction IH as [|d ds Hd Hds IHds]; intros l D.
    + inversion D; subst. apply lists_nil.
    + cbn [datum_value fold_right] in D. inversion D as [| | | | | | |p a e x y v w N Sa Sd D1 D2|]; subst.
      destruct (denotes_list ids os y ds D2) as [m ->].
      eapply lists_cons; [exact N|exact Sa|eapply Hd, D1|exact Sd|]. apply IHds, D2.
Qed.

(** * There and back *)

Lemma postprocess_same t : forall y v, ast_to_object y (postprocess t) v = ast_to_object y t v.
Proof.
  revert t. fix IH 1. intros [b|f|n|s|s|s|l|l] y v; try reflexivity; cbn [postprocess ast_to_object];
    (assert (E : forall v, list_to_pairs ast_to_object y (map postprocess l) v = list_to_pairs ast_to_object y l v);
     [|unfold mbind; rewrite E; reflexivity]);
    induction l as [|t l IHl]; intros v'; try reflexivity; cbn [map]; rewrite !pairs_cons; unfold mbind at 1 5; rewrite IHl;
    (destruct (list_to_pairs ast_to_object y l v') as [[r| | |] v1]; try reflexivity); unfold mbind at 1 4; rewrite IH; reflexivity.
Qed.

Lemma there_and_back us t d v : postprocess t = datum_tree d -> typed v -> storable_datum d ->
  (objects_for d <= length (free v))%nat -> Z.of_nat (length (sym_array (symbols_after us)) + length (names_in d)) <= max_size ->
  exists o v', ast_to_object (symbols_after us) t v = (Ok (o, symbols_after (us ++ map Intern (rev (names_in d)))), v') /\
    typed (pushed o v') /\ grown v v' /\
    (forall ids, numbering_of (symbols_after (us ++ map Intern (rev (names_in d)))) (names_in d) ids -> denotes ids (objects v') o (datum_value d)) /\
    exists F, forall f, (F <= f)%nat -> object_to_ast f (objects v') true o = Ok (postprocess t).
Proof.
  intros E T S N M. destruct (after_ok us) as [C _].
  destruct (tree_converts d (symbols_after us) v C T S N M) as [o [v' [R [T' [G [F [W [_ D]]]]]]]].
  assert (Y : symbols_after (us ++ map Intern (rev (names_in d))) = after (symbols_after us) (rev (names_in d)))
    by (unfold symbols_after, after; rewrite fold_left_app; reflexivity).
  exists o, v'. rewrite Y. split; [rewrite <- postprocess_same, E; exact R|]. split; [apply typed_pushed; assumption|]. split; [exact G|].
  split; [exact D|].
  rewrite E. eapply tree_back. apply (D (nameToValue (after (symbols_after us) (rev (names_in d))))). reflexivity.
Qed.

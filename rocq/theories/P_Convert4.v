From Coq Require Import String ZArith List Bool Lia.
From Verif Require Import M_Base M_Trie M_Parser M_Symbol M_Heap M_Instr M_VM M_Host M_Scope M_Asm M_Compile M_Convert S_Heap S_VM S_Num S_Data S_Types S_Symbol S_Compile S_Run S_Program S_Convert.
From Verif Require Import P_Symbol P_Types P_Convert P_Convert2.
Import ListNotations.
Open Scope Z_scope.
Open Scope list_scope.

(** * The conversion of any value has a definite result *)

Lemma part_trans os a b c : part os a b -> part os b c -> part os a c.
Proof. intros H K. induction K; [exact H| |]; [eapply part_first|eapply part_rest]; eauto. Qed.

Section Outcome.
  Variable v : vm.
  Hypothesis T : typed v.
  Notation os := (objects v).

  Definition sane (use : bool) (o : object) : Prop :=
    well_typed v o /\ named_symbols os o /\ (use = true -> proper_lists os o).

  Lemma sane_part use o x : sane use o -> part os o x -> well_typed v x -> sane use x.
  Proof.
    intros [W [N P]] K Wx. split; [exact Wx|]. split.
    - intros id s H. eapply N. eapply part_trans; eauto.
    - intros E p a d y H. eapply (P E). eapply part_trans; eauto.
  Qed.

  Lemma pair_at p : well_typed v (OList (Some p)) -> exists a d, nth_error os p = Some (OCons a d) /\ opoints v is_link a /\ opoints v is_link d.
  Proof.
    intros W. destruct (W p eq_refl) as [L [o [E C]]]. destruct o as [ | | | | | | | | | | | | |a d| | | | | | ]; simpl in C; try contradiction.
    exists a, d. split; [exact E|]. exact (ty_objects _ _ T p _ L (fun x => x) E).
  Qed.

  (** What a field of a pair leads to. *)
  Lemma link_at p : opoints v is_link p -> exists x, shows os p x /\ well_typed v x.
  Proof.
    intros W. destruct p as [p|]; [|exists (OList None); split; [constructor|intros q [=]]].
    destruct (W p eq_refl) as [L [o [E C]]]. destruct C as [C|C].
    - exists o. split; [apply shows_value; [exact E|destruct o; auto]|exact (ty_objects _ _ T p _ L (fun x => x) E)].
    - destruct o as [ | | | | | | | | | | | | |a d| | | | | | ]; simpl in C; try contradiction.
      exists (OList (Some p)). split; [econstructor; exact E|]. intros q [= <-]. split; [exact L|]. eexists. split; [exact E|exact Logic.I].
  Qed.

  Definition all_fine (f : nat) : Prop :=
    (forall use o, sane use o -> defined_for os o (object_to_ast f os use o)) /\
    (forall l, sane true (OList l) -> defined_for os (OList l) (cons_to_expr f os l)) /\
    (forall l, sane true (OList l) -> match consList_length f os l with
       | Ok n => match expr_elements f os n l with
         | Ok _ | NoFuel => True | UB => False | Err e => e = invalidValue /\ exists x, part os (OList l) x /\ ~ printable x end
       | NoFuel => True | _ => False end) /\
    (forall l, sane false (OList l) -> defined_for os (OList l) (cons_to_cons f os l)) /\
    (forall p x, shows os p x -> sane false x -> defined_for os x (half_to_ast f os p)).

  Lemma defined_part o x r : part os o x -> defined_for os x r -> defined_for os o r.
  Proof. intros K D. destruct r; auto. destruct D as [E [z [Q N]]]. split; [exact E|]. exists z. split; [eapply part_trans; eauto|exact N]. Qed.

  Lemma element_defined f a x : all_fine f -> shows os a x -> sane true x -> defined_for os x (element f os a).
  Proof.
    intros [H1 [H2 _]] Sh S. inversion Sh as [|p c d E|p o E C]; subst; unfold element; cbn [bind].
    - apply H2, S.
    - unfold at_pointer. rewrite E. cbn [bind]. apply H2, S.
    - unfold at_pointer. rewrite E. cbn [bind]. specialize (H1 true x S). destruct x; try exact H1. destruct C.
  Qed.

  Lemma outcome f : all_fine f.
  Proof.
    induction f as [|f IH]; [repeat split; intros; exact Logic.I|].
    assert (IH' := IH). destruct IH' as [H1 [H2 [H3 [H4 H5]]]].
    split; [|split; [|split; [|split]]].
    - intros use o S. assert (bad : ~ printable o -> defined_for os o (Err invalidValue)).
      { intros N. split; [reflexivity|]. exists o. split; [constructor|exact N]. }
      destruct o as [ |b|n|g|s i l|l|id s| | | |t| | | | | | | | | ]; cbn [object_to_ast]; try exact Logic.I; try (apply bad; intros []).
      + destruct S as [W _]. destruct s as [p|]; cbn [well_typed] in W.
        * destruct (Z.eqb_spec (l - i) 0); [exact Logic.I|]. destruct W as [A [B [L [o [E C]]]]].
          destruct o as [ | | | | | | | | | | | | | | | | | | |t]; simpl in C; try contradiction. cbn [string_bytes]. rewrite E.
          destruct t as [t|]; simpl in C; [|lia]. cbn [bind]. unfold slice.
          replace (0 <=? i) with true by (symmetry; apply Z.leb_le; lia). replace (0 <=? l - i) with true by (symmetry; apply Z.leb_le; lia).
          replace (i + (l - i) <=? zlen t) with true by (symmetry; apply Z.leb_le; lia). exact Logic.I.
        * destruct W as [-> ->]. exact Logic.I.
      + destruct use; [apply H2, S|apply H4, S].
      + destruct S as [W [N _]]. destruct s as [p|]; [|destruct (N id None (part_itself _ _) eq_refl)].
        destruct W as [_ W]. destruct (W p eq_refl) as [L [o [E C]]].
        destruct o as [ | | | | | | | | | | | | | | | | | | |t]; simpl in C; try contradiction. cbn [string_bytes]. rewrite E. destruct t; exact Logic.I.
    - intros l S. cbn [cons_to_expr]. destruct l as [p|]; [|exact Logic.I]. specialize (H3 (Some p) S).
      destruct (consList_length f os (Some p)) as [n| | |]; try contradiction; [|exact Logic.I]. cbn [bind].
      destruct (expr_elements f os n (Some p)); try contradiction; try exact Logic.I. exact H3.
    - intros [p|] S; [|exact Logic.I]. destruct S as [W S']. destruct (pair_at p W) as [a [d [E [Wa Wd]]]].
      destruct (link_at a Wa) as [x [Sa Wx]]. destruct (link_at d Wd) as [y [Sd Wy]].
      assert (Px : part os (OList (Some p)) x) by (eapply part_first; [constructor|exact E|exact Sa]).
      assert (Py : part os (OList (Some p)) y) by (eapply part_rest; [constructor|exact E|exact Sd]).
      assert (Sx : sane true x) by (eapply sane_part; [split; [exact W|exact S']|exact Px|exact Wx]).
      assert (Sy : sane true y) by (eapply sane_part; [split; [exact W|exact S']|exact Py|exact Wy]).
      destruct (proj2 S' eq_refl p a d y (part_itself _ _) E Sd) as [l ->].
      assert (K : forall room : nat, match consList_length f os l with
        | Ok n => more_length f os d = Ok (S n) /\ more_elements f os n d = expr_elements f os n l
        | r => more_length f os d = match r with Ok n => Ok (S n) | Err e => Err e | UB => UB | NoFuel => NoFuel end \/ (f = 0%nat /\ d = None) end).
      { intros _. inversion Sd as [E0|q c e E1 E0|q o E1 C E0]; subst.
        - destruct f as [|k]; [right; auto|]. cbn [consList_length]. split; reflexivity.
        - cbn [more_length more_elements]. unfold at_pointer. rewrite E1. cbn [bind]. destruct (consList_length f os (Some q)); cbn [bind]; auto.
        - cbn [more_length more_elements]. unfold at_pointer. rewrite E1. cbn [bind]. destruct (consList_length f os l); cbn [bind]; auto. }
      specialize (K 0%nat). specialize (H3 l Sy). rewrite (length_run f os p a d E).
      destruct (consList_length f os l) as [n| | |] eqn:EL; try contradiction.
      + destruct K as [-> K]. rewrite (elements_run f os n p a d E).
        pose proof (defined_part _ _ _ Px (element_defined f a x IH Sa Sx)) as De.
        destruct (element f os a) as [ta|er| |]; try exact De. cbn [bind]. rewrite K.
        destruct (expr_elements f os n l) as [ts|er| |]; cbn [bind]; try exact H3.
        destruct H3 as [Q [z [P N]]]. split; [exact Q|]. exists z. split; [eapply part_trans; eauto|exact N].
      + destruct K as [-> | [-> ->]]; [exact Logic.I|]. cbn [more_length]. unfold expr_elements, at_pointer. rewrite E. cbn [bind].
        destruct a as [q|]; cbn; [|exact Logic.I]. destruct (Wa q eq_refl) as [_ [o [Eq _]]]. rewrite Eq. cbn [bind]. destruct o; exact Logic.I.
    - intros [p|] S; [|exact Logic.I]. cbn [cons_to_cons]. destruct S as [W S']. destruct (pair_at p W) as [a [d [E [Wa Wd]]]].
      destruct (link_at a Wa) as [x [Sa Wx]]. destruct (link_at d Wd) as [y [Sd Wy]].
      assert (Px : part os (OList (Some p)) x) by (eapply part_first; [constructor|exact E|exact Sa]).
      assert (Py : part os (OList (Some p)) y) by (eapply part_rest; [constructor|exact E|exact Sd]).
      unfold at_pointer. rewrite E. cbn [bind].
      pose proof (defined_part _ _ _ Px (H5 a x Sa (sane_part _ _ _ (conj W S') Px Wx))) as D1.
      pose proof (defined_part _ _ _ Py (H5 d y Sd (sane_part _ _ _ (conj W S') Py Wy))) as D2.
      destruct (half_to_ast f os a) as [ta|er| |]; try exact D1. cbn [bind].
      destruct (half_to_ast f os d) as [td|er| |]; exact D2.
    - intros p x Sh S. cbn [half_to_ast]. inversion Sh as [|q c d E|q o E C]; subst.
      + apply H4, S.
      + unfold at_pointer. rewrite E. cbn [bind]. apply H4, S.
      + unfold at_pointer. rewrite E. cbn [bind]. specialize (H1 false x S). destruct x; try exact H1. destruct C.
  Qed.
End Outcome.

Lemma conversion_defined v use o f : typed v -> In o (stack v) -> named_symbols (objects v) o -> (use = true -> proper_lists (objects v) o) ->
  defined_for (objects v) o (object_to_ast f (objects v) use o).
Proof. intros T I N P. apply (outcome v T f). split; [apply (ty_stack _ _ T o I)|]. split; assumption. Qed.

(** Parenthesis inference: the result for a program without marks is its own reading. *)
From Coq Require Import ZArith List Bool Lia.
From Verif Require Import M_Base M_Trie M_Parser M_Infer S_Infer P_Infer P_Infer2 P_Infer3 P_Infer4 P_Infer5 P_Infer6 P_Infer7.
Import ListNotations.
Open Scope Z_scope.

Section Again.
Variable D : list Z -> sig -> Prop.

Lemma form_no_name a a' : form D a a' -> (forall s, a <> AstIdentifier s /\ a <> AstCallback s) ->
  forall s, a' <> AstIdentifier s /\ a' <> AstCallback s.
Proof.
  intros F N s. destruct F; try (split; discriminate); try apply N.
  exfalso. apply (proj2 (N s0)). reflexivity.
Qed.
Lemma unmarked_no_callback a s : unmarked a = true -> a <> AstCallback s.
Proof. intros U ->. discriminate. Qed.
Lemma unmarked_shut a a' : unmarked a = true -> shut a a' -> a' = a.
Proof. intros U S. destruct S; [discriminate|reflexivity]. Qed.

Lemma reading_again :
  (forall a a', form D a a' -> unmarked a = true -> form D a' a' /\ unmarked a' = true) /\
  (forall c x, operand D c x -> forallb unmarked c = true -> operand D [x] x /\ unmarked x = true) /\
  (forall l l', operands D l l' -> forallb unmarked l = true -> operands D l' l' /\ forallb unmarked l' = true) /\
  (forall ts l l', fills D ts l l' -> forallb unmarked l = true -> fills D ts l' l' /\ forallb unmarked l' = true).
Proof.
  apply reading_rec.
  - intros a A U. split; [constructor; exact A|exact U].
  - intros; discriminate.
  - intros _. split; [apply form_nil|reflexivity].
  - intros; discriminate.
  - intros; discriminate.
  - intros; discriminate.
  - intros f positional rest n l l' Df F IH U. cbn in U. destruct (IH U) as [F' U']. split; [eapply form_call; eauto|exact U'].
  - intros f l l' Df O IH U. cbn in U. destruct (IH U) as [O' U']. split; [apply form_named; auto|exact U'].
  - intros a l l' N O IH U. destruct (IH U) as [O' U']. split; [|exact U'].
    inversion O as [|c x l0 d Oc O0 E]; subst.
    assert (K : forall s, x <> AstIdentifier s /\ x <> AstCallback s).
    { inversion Oc as [b b' NB F|f t Df T|f ps rs n c0 d0 Df Dn F]; subst; cbn [app] in E; inversion E; subst.
      - eapply form_no_name; eauto.
      - exfalso. apply (proj1 (N f)). reflexivity.
      - exfalso. apply (proj1 (N f)). reflexivity. }
    apply form_scope; [exact K|exact O'].
  - intros a a' N F IH U. cbn in U. rewrite andb_true_r in U. destruct (IH U) as [F' U']. split; [|exact U'].
    apply operand_form; [|exact F']. intros s. eapply form_no_name; [exact F|]. intros s0. split; [apply N|apply unmarked_no_callback, U].
  - intros f t Df T U. split; [eapply operand_variable; eauto|reflexivity].
  - intros f positional rest n l l' Df Dn F IH U. cbn in U. destruct (IH U) as [F' U']. split; [|exact U'].
    apply operand_form; [discriminate|]. eapply form_call; eauto.
  - intros _. split; [constructor|reflexivity].
  - intros c x l l' Oc IHc O IH U. rewrite forallb_app in U. apply andb_true_iff in U as [Uc U].
    destruct (IHc Uc) as [C1 C2]. destruct (IH U) as [L1 L2]. split; [apply (operands_cons D [x]); auto|cbn; rewrite C2; exact L2].
  - intros _. split; [constructor|reflexivity].
  - intros a a' ts l l' S F IH U. cbn in U. apply andb_true_iff in U as [Ua U]. destruct (IH U) as [L1 L2].
    pose proof (unmarked_shut _ _ Ua S). subst a'. split; [constructor; auto|cbn; rewrite Ua; exact L2].
  - intros c x ts l l' Oc IHc F IH U. rewrite forallb_app in U. apply andb_true_iff in U as [Uc U].
    destruct (IHc Uc) as [C1 C2]. destruct (IH U) as [L1 L2]. split; [apply (fills_I D [x]); auto|cbn; rewrite C2; exact L2].
Qed.
End Again.

(** What inference makes of a program without marks it leaves as it is when it sees it again. *)
Theorem infer_again cs external a a' n s :
  Forall (declarable cs) external -> hush (declaring_words external) [a] -> unmarked a = true ->
  infer_parentheses cs n external a = Ok (a', s) ->
  exists m, forall k, (m <= k)%nat -> exists s', infer_parentheses cs k external a' = Ok (a', s').
Proof.
  intros F Q U H.
  assert (R : form (fun f t => declared_in (built_in ++ external) f = Some t) a a') by (apply (infer_program cs external a a' F Q); eauto).
  destruct (proj1 (reading_again _) a a' R U) as [R' _].
  assert (Q' : hush (declaring_words external) [a']) by (eapply hush_one; [eapply form_spelled; exact R|exact Q]).
  apply (infer_program cs external a' a' F Q') in R' as (m & s' & E). exists m. intros k L. exists s'.
  rewrite (infer_steady cs m k) by (auto; congruence). exact E.
Qed.

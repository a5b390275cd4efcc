(** When no assignment is missing. *)
From Coq Require Import String Ascii ZArith List Bool Lia.
From Coq Require Import ZifyBool ZifyNat.
From Verif Require Import M_Base M_Trie M_Instr M_Asm M_Parser M_Symbol M_Scope M_Compile.
From Verif Require Import S_Symbol S_Scope S_Compile P_Symbol P_Scope P_Compile.
Import ListNotations.
Open Scope Z_scope.
Open Scope list_scope.

Definition assigned_items (loc : list bytes) (n : Z) (b : list item) : list (bytes * Z) := assigned_item loc n (Splice b).
Lemma assigned_items_cons loc n i r : assigned_items loc n (i :: r) =
  assigned_item loc n i ++ assigned_items (declared i ++ loc) (n + Z.of_nat (List.length (declared i))) r.
Proof. reflexivity. Qed.
Definition assigned_args : list bytes -> Z -> list exp -> list (bytes * Z) :=
  fix args loc n es {struct es} :=
    match es with
    | [] => []
    | e :: r => assigned loc n e ++ args loc (n + 1) r
    end.
Lemma assigned_call loc n f es : assigned loc n (ECall f es) = assigned_args loc (n + 1) es.
Proof. reflexivity. Qed.
Lemma assigned_funcall loc n f es : assigned loc n (EFuncall f es) = assigned loc n f ++ assigned_args loc (n + width loc f) es.
Proof. reflexivity. Qed.
Lemma assigned_args_cons loc n e es : assigned_args loc n (e :: es) = assigned loc n e ++ assigned_args loc (n + 1) es.
Proof. reflexivity. Qed.
Lemma assigned_if loc n c x y : is_lit c = None ->
  assigned loc n (EIf c x y) = assigned loc n c ++ assigned loc (n + one_more c) y ++ assigned loc (n + one_more c) x.
Proof. destruct c; try discriminate; reflexivity. Qed.
Lemma assigned_when loc n p c b : is_lit c = None ->
  assigned loc n (EWhen p c b) = assigned loc n c ++ assigned_items loc (n + one_more c) b.
Proof. destruct c; try discriminate; reflexivity. Qed.
Lemma width_if loc c x y : is_lit c = None -> width loc (EIf c x y) = one_more c + 1.
Proof. destruct c; try discriminate; reflexivity. Qed.
Lemma one_more_var c : one_more c = if is_var c then 1 else 0.
Proof. destruct c; reflexivity. Qed.
Definition declared_all (b : list item) : list bytes := declared (Splice b).
Lemma declared_all_cons i r : declared_all (i :: r) = declared_all r ++ declared i.
Proof. reflexivity. Qed.
Lemma width_list_cons loc e es : width loc (EList (e :: es)) = width loc (EList es) + operand_width loc e + 1.
Proof. reflexivity. Qed.
Lemma assigned_list_cons loc n e es : assigned loc n (EList (e :: es)) = assigned loc n (EList es) ++ assigned loc (n + width loc (EList es)) e.
Proof. reflexivity. Qed.

Section Exact.
  Variable ids : bytes -> Z.
  Definition apart (l : list (bytes * Z)) : Prop := Forall (fun p => ids (fst p) <> snd p) l.
  Lemma apart_app a b : apart (a ++ b) <-> apart a /\ apart b.
  Proof. apply Forall_app. Qed.
  Lemma local_some vs x s : find_name vs x = Some s -> is_local (map fst vs) x = true.
  Proof.
    unfold is_local. intros H. destruct (in_dec bytes_dec x (map fst vs)) as [_|N]; [reflexivity|]. exfalso. apply N. clear N.
    induction vs as [|[y t] r IH]; cbn [find_name] in H; [discriminate|]. destruct (bytes_dec y x); [left; assumption|right; auto].
  Qed.
  Lemma local_none vs x : find_name vs x = None -> is_local (map fst vs) x = false.
  Proof.
    unfold is_local. intros H. destruct (in_dec bytes_dec x (map fst vs)) as [N|_]; [|reflexivity]. exfalso.
    induction vs as [|[y t] r IH]; cbn [find_name map In fst] in *; [contradiction|]. destruct (bytes_dec y x); [discriminate|].
    destruct N; [contradiction|auto].
  Qed.
  Lemma quoted_width : (forall d n code n', quoted ids d n code n' -> n' = n + datum_width d) /\
    (forall ds n code n', quoted_list ids ds n code n' -> n' = n + datum_width (DList ds)).
  Proof. apply quoted_mutind; intros; cbn [datum_width fold_right] in *; lia. Qed.


  Theorem exact5 :
    (forall vs n L e code n' L', gcomp ids True vs n L e code n' L' ->
       n' = n + width (map fst vs) e /\ (apart (assigned (map fst vs) n e) -> comp ids vs n L e code n' L')) /\
    (forall vs n L e code n' L' i, garg ids True vs n L e code n' L' i ->
       n' = n + operand_width (map fst vs) e /\ (apart (assigned (map fst vs) n e) -> arg ids vs n L e code n' L' i)) /\
    (forall vs n L es code n' L', gcomp_list ids True vs n L es code n' L' ->
       n' = n + width (map fst vs) (EList es) /\ (apart (assigned (map fst vs) n (EList es)) -> comp_list ids vs n L es code n' L')) /\
    (forall vs n L b code new n' L', gcomp_items ids True vs n L b code new n' L' ->
       map fst new = declared_all b /\ n' = n + Z.of_nat (List.length (declared_all b)) + 1 /\
       (apart (assigned_items (map fst vs) n b) -> comp_items ids vs n L b code new n' L')) /\
    (forall vs n L es code n' L', gcomp_args ids True vs n L es code n' L' ->
       apart (assigned_args (map fst vs) n es) -> comp_args ids vs n L es code n' L').
  Proof.
    apply comp_mutind5; intros;
      repeat match goal with H : _ /\ _ |- _ => destruct H end; try (split; [cbn; lia|intros; econstructor; eassumption]).
    - split; [|intros; econstructor; eassumption]. apply (proj1 quoted_width) in q. exact q.
    - split; [subst; cbn [width]; fold (operand_width (map fst vs) e); lia|]. intros A. econstructor. auto.
    - split; [subst; cbn [width]; fold (operand_width (map fst vs) e1) (operand_width (map fst vs) e2); lia|].
      cbn [assigned]. rewrite apart_app. intros [A1 A2]. econstructor; [auto| |eassumption]. apply H1. rewrite H. exact A2.
    - split; [assumption|]. intros A. constructor. auto.
    - split; [subst; cbn [width]; destruct (literal_true l); lia|]. intros A. apply c_if_lit. apply H0. cbn [assigned] in A.
      destruct (literal_true l); exact A.
    - rewrite width_if, assigned_if by assumption. rewrite one_more_var.
      assert (width (map fst vs) c = 1 \/ is_var c = false) as W by (destruct c; auto).
      assert (m = n + (if is_var c then 1 else 0)) as Em by (rewrite e0; destruct (is_var c); [destruct W; [lia|discriminate]|lia]).
      rewrite <- Em. split; [lia|]. rewrite !apart_app. intros [A1 [A2 A3]]. econstructor; eauto.
    - split; [cbn in *; lia|]. intros A. apply c_when_taken; [assumption|]. apply H0. cbn [assigned] in A.
      rewrite e, eqb_reflx in A. exact A.
    - rewrite assigned_when by assumption. cbn [width]. rewrite one_more_var.
      assert (width (map fst vs) c = 1 \/ is_var c = false) as W by (destruct c; auto).
      assert (m = n + (if is_var c then 1 else 0)) as Em by (rewrite e0; destruct (is_var c); [destruct W; [lia|discriminate]|lia]).
      rewrite <- Em. split; [cbn in *; lia|]. rewrite !apart_app. intros [A1 A2]. econstructor; eauto.
    - rewrite assigned_when by assumption. cbn [width]. rewrite one_more_var.
      assert (width (map fst vs) c = 1 \/ is_var c = false) as W by (destruct c; auto).
      assert (m = n + (if is_var c then 1 else 0)) as Em by (rewrite e0; destruct (is_var c); [destruct W; [lia|discriminate]|lia]).
      rewrite <- Em. split; [cbn in *; lia|]. rewrite !apart_app. intros [A1 A2]. econstructor; eauto.
    - split; [reflexivity|]. change (assigned (map fst vs) n (EWhile c b)) with (assigned (map fst vs) n c ++ assigned_items (map fst vs) n b).
      rewrite apart_app. intros [A1 A2]. econstructor; eauto.
    - split; [assumption|]. cbn [assigned]. rewrite apart_app. intros [A1 A2]. econstructor; eauto.
    - split; [assumption|]. cbn [assigned]. rewrite apart_app. intros [A1 A2]. econstructor; eauto.
    - split; [assumption|]. cbn [assigned]. rewrite apart_app. intros [A1 A2]. econstructor; eauto.
    - split; [reflexivity|]. intros A. econstructor. apply H1. exact A.
    - split; [assumption|]. cbn [assigned]. rewrite apart_app. intros [A1 A2]. rewrite (local_none _ _ e0) in A2. apply Forall_inv in A2. cbn in A2. lia.
    - split; [assumption|]. cbn [assigned]. rewrite apart_app. intros [A1 A2]. apply Forall_inv in A2. cbn in A2. lia.
    - split; [reflexivity|]. rewrite assigned_call. intros A. econstructor. auto.
    - split; [cbn [width]; lia|]. rewrite assigned_funcall, apart_app. intros [A1 A2]. econstructor; [auto|]. apply H0. subst n1. exact A2.
    - cbn [operand_width]. rewrite (local_some _ _ _ e). split; [lia|]. intros. constructor. assumption.
    - assert (operand_width (map fst vs) e = width (map fst vs) e) as ->.
      { destruct e; try reflexivity. cbn. rewrite (local_none _ _ (e0 _ eq_refl)). reflexivity. }
      split; [assumption|]. intros A. constructor; auto.
    - rewrite width_list_cons, assigned_list_cons. split; [lia|]. rewrite apart_app. intros [A1 A2]. econstructor; [auto|]. apply H1. rewrite H. exact A2.
    - repeat split; [cbn; lia|]. constructor.
    - rewrite assigned_items_cons. repeat split; [cbn; lia|]. rewrite apart_app. intros [A1 A2]. constructor. auto.
    - rewrite assigned_items_cons, declared_all_cons. cbn [declared]. rewrite app_nil_r. repeat split; [assumption|assumption|].
      rewrite apart_app. intros [A1 A2]. cbn [declared List.length] in A2. rewrite Z.add_0_r in A2. eapply i_do; eauto.
    - rewrite assigned_items_cons. repeat split; [cbn; lia|]. rewrite apart_app. intros [A1 A2]. constructor. auto.
    - rewrite assigned_items_cons, declared_all_cons. cbn [declared map fst] in *. rewrite app_length. cbn [List.length].
      split; [rewrite map_app; cbn [map fst]; f_equal; assumption|]. split; [lia|]. rewrite apart_app. intros [A1 A2]. cbn [List.length app] in A2.
      eapply i_def; eauto.
    - rewrite assigned_items_cons, declared_all_cons. cbn [declared_all declared fold_right app]. fold (declared_all b).
      split; [assumption|]. split; [assumption|]. rewrite apart_app. intros [A1 A2]. constructor. auto.
    - rewrite assigned_items_cons, declared_all_cons. change (declared (Splice b)) with (declared_all b).
      rewrite app_length. split; [rewrite map_app; congruence|]. split; [lia|]. rewrite apart_app. intros [A1 A2].
      eapply i_splice; [assumption|auto|]. apply H2. rewrite map_app.
      replace (n1 - 1) with (n + Z.of_nat (List.length (declared_all b))) by lia. rewrite H. exact A2.
    - constructor.
    - rewrite assigned_args_cons, apart_app in H1. destruct H1. econstructor; eauto.
  Qed.
  Theorem exact :
    (forall vs n L e code n' L', gcomp ids True vs n L e code n' L' ->
       n' = n + width (map fst vs) e /\ (apart (assigned (map fst vs) n e) -> comp ids vs n L e code n' L')) /\
    (forall vs n L e code n' L' i, garg ids True vs n L e code n' L' i ->
       n' = n + operand_width (map fst vs) e /\ (apart (assigned (map fst vs) n e) -> arg ids vs n L e code n' L' i)) /\
    (forall vs n L es code n' L', gcomp_list ids True vs n L es code n' L' ->
       n' = n + width (map fst vs) (EList es) /\ (apart (assigned (map fst vs) n (EList es)) -> comp_list ids vs n L es code n' L')) /\
    (forall vs n L b code new n' L', gcomp_items ids True vs n L b code new n' L' ->
       map fst new = declared_all b /\ n' = n + Z.of_nat (List.length (declared_all b)) + 1 /\
       (apart (assigned_items (map fst vs) n b) -> comp_items ids vs n L b code new n' L')).
  Proof. destruct exact5 as [A [C [D [E _]]]]. auto. Qed.
End Exact.

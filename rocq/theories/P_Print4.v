(** The printer of trees: always a text, and the text says what the tree is (C76). *)
From Coq Require Import String ZArith List Bool Lia ZifyBool ZifyNat.
From Verif Require Import M_Base M_Core M_String M_Heap M_Parser M_Disasm M_Print S_Print P_Print.
Import ListNotations.
Open Scope Z_scope.
Open Scope list_scope.

Fixpoint print_all (l : list ast) : res (list Z) :=
  match l with
  | [] => Ok []
  | [x] => print_ast x
  | x :: r => t <- print_ast x ;; ts <- print_all r ;; Ok (t ++ [44; 32] ++ ts)
  end.
Definition print_value (a : ast) : res (list Z) :=
  match a with
  | AstExpression l | AstLiteral l => ts <- print_all l ;; Ok (dl_str "(duckLisp_ast_expression_t) {" ++ ts ++ dl_str "}")
  | AstIdentifier s | AstCallback s => Ok (print_ast_identifier s)
  | AstString s => Ok (print_ast_string s)
  | AstFloat _ => Ok (dl_str "(duckLisp_ast_float_t) {...}")
  | AstInt n => t <- print_ptrdiff n ;; Ok (dl_str "(duckLisp_ast_integer_t) {" ++ t ++ dl_str "}")
  | AstBool b => Ok (dl_str "(duckLisp_ast_bool_t) {" ++ fromBool b ++ dl_str "}")
  end.
Lemma print_ast_eq a : print_ast a = (t <- print_value a ;;
  Ok (dl_str "(duckLisp_ast_compoundExpression_t) {" ++ dl_str "type = " ++ print_ast_type a ++ dl_str ", " ++ dl_str "value = " ++ t ++ dl_str "}")).
Proof. destruct a; reflexivity. Qed.

Lemma ast_nest (P : ast -> Prop) : (forall b, P (AstBool b)) -> (forall x, P (AstFloat x)) -> (forall n, P (AstInt n)) -> (forall s, P (AstString s)) ->
  (forall s, P (AstIdentifier s)) -> (forall s, P (AstCallback s)) -> (forall l, Forall P l -> P (AstExpression l)) -> (forall l, Forall P l -> P (AstLiteral l)) -> forall a, P a.
Proof.
  intros H1 H2 H3 H4 H5 H6 H7 H8. fix IH 1. intros [b|x|n|s|s|s|l|l]; [apply H1|apply H2|apply H3|apply H4|apply H5|apply H6| |].
  - apply H7. induction l as [|a l IHl]; constructor; [apply IH|exact IHl].
  - apply H8. induction l as [|a l IHl]; constructor; [apply IH|exact IHl].
Qed.

(** * A text for every tree *)
Lemma all_ok l : Forall (fun a => exists t, print_ast a = Ok t) l -> exists t, print_all l = Ok t.
Proof.
  induction 1 as [|a l [t E] _ [ts IH]]; [eexists; reflexivity|]. destruct l as [|b l]; [exists t; exact E|]. cbn [print_all] in *. rewrite E, IH. eexists. reflexivity.
Qed.
Theorem ast_ok a : exists t, print_ast a = Ok t.
Proof.
  induction a using ast_nest; rewrite print_ast_eq; cbn [print_value].
  3: destruct (ptrdiff_ok n) as [t ->]. 7,8: destruct (all_ok l H) as [t ->]. all: eexists; reflexivity.
Qed.

(** * The text determines the tree *)
Lemma quote_split s : forall s' r r', ~ In 34 s -> ~ In 34 s' -> s ++ 34 :: r = s' ++ 34 :: r' -> s = s' /\ r = r'.
Proof.
  induction s as [|c s IH]; intros [|c' s'] r r' Q Q' E; cbn in E.
  - injection E as ->. auto.
  - injection E as <- _. destruct Q'. left. reflexivity.
  - injection E as -> _. destruct Q. left. reflexivity.
  - injection E as <- E. destruct (IH s' r r') as [-> ->]; auto; intros I; [apply Q|apply Q']; right; exact I.
Qed.
Definition tag (a : ast) : nat :=
  match a with AstBool _ => 0 | AstFloat _ => 1 | AstInt _ => 2 | AstString _ => 3 | AstIdentifier _ => 4 | AstCallback _ => 5 | AstExpression _ => 6 | AstLiteral _ => 7 end.
Lemma type_split a a' r r' : print_ast_type a ++ dl_str ", " ++ r = print_ast_type a' ++ dl_str ", " ++ r' -> tag a = tag a' /\ r = r'.
Proof. destruct a, a'; cbn [tag print_ast_type]; intros H; try (vm_compute in H; discriminate H); do 2 lit H; auto. Qed.
Lemma ast_head a t : print_ast a = Ok t -> exists x, t = 40 :: x.
Proof. rewrite print_ast_eq. intros E. inv E. fin E. eexists. reflexivity. Qed.
Definition splits (a : ast) : Prop := forall a' t t' r r', unquoted a -> unquoted a' -> print_ast a = Ok t -> print_ast a' = Ok t' -> t ++ r = t' ++ r' -> same_tree a a' /\ r = r'.
Fixpoint unquoted_all (l : list ast) : Prop := match l with [] => True | x :: r => unquoted x /\ unquoted_all r end.
Lemma all_head l t : l <> [] -> print_all l = Ok t -> exists x, t = 40 :: x.
Proof.
  destruct l as [|a [|b l]]; intros N E; [congruence|exact (ast_head _ _ E)|]. cbn [print_all] in E. apply bind_ok in E as [x [X E]]. apply bind_ok in E as [y [Y E]]. fin E.
  destruct (ast_head _ _ X) as [z ->]. eexists. reflexivity.
Qed.
Lemma all_cons a b l t : print_all (a :: b :: l) = Ok t -> exists x y, print_ast a = Ok x /\ print_all (b :: l) = Ok y /\ t = x ++ 44 :: 32 :: y.
Proof. intros E. change (bind (print_ast a) (fun t => bind (print_all (b :: l)) (fun ts => Ok (t ++ [44; 32] ++ ts))) = Ok t) in E. inv E. inv E. fin E. eauto. Qed.
Lemma all_split l : Forall splits l -> forall l' t t' r r', unquoted_all l -> unquoted_all l' -> print_all l = Ok t -> print_all l' = Ok t' -> t ++ 125 :: r = t' ++ 125 :: r' ->
  Forall2 same_tree l l' /\ r = r'.
Proof.
  induction 1 as [|a l Ha Hl IH]; intros l' t t' r r' U U' E E' H.
  - injection E as <-. destruct l' as [|a' l']; [injection E' as <-; injection H as <-; auto|]. destruct (all_head (a' :: l') t') as [x ->]; [discriminate|exact E'|]. discriminate H.
  - destruct l' as [|a' l']; [injection E' as <-; destruct (all_head (a :: l) t) as [x ->]; [discriminate|exact E|discriminate H]|].
    destruct U as [Ua Ul], U' as [Ua' Ul'].
    destruct l as [|b l], l' as [|b' l'].
    + cbn [print_all] in E, E'. destruct (Ha _ _ _ _ _ Ua Ua' E E' H) as [S R]. injection R as <-. auto.
    + apply all_cons in E' as [x [y [X [Y ->]]]]. cbn [print_all] in E. rewrite <- app_assoc in H. destruct (Ha _ _ _ _ _ Ua Ua' E X H) as [S R]. discriminate R.
    + apply all_cons in E as [x [y [X [Y ->]]]]. cbn [print_all] in E'. rewrite <- app_assoc in H. destruct (Ha _ _ _ _ _ Ua Ua' X E' H) as [S R]. discriminate R.
    + apply all_cons in E as [x [y [X [Y ->]]]]. apply all_cons in E' as [x' [y' [X' [Y' ->]]]]. rewrite <- !app_assoc in H.
      destruct (Ha _ _ _ _ _ Ua Ua' X X' H) as [S R]. injection R as R. destruct (IH _ _ _ _ _ Ul Ul' Y Y' R) as [F ->]. auto.
Qed.
Lemma unquoted_list l : unquoted (AstExpression l) -> unquoted_all l.
Proof. exact (fun H => H). Qed.
Theorem ast_split a : splits a.
Proof.
  induction a using ast_nest; intros a' t t' r r' U U' E E' H0; rewrite print_ast_eq in E, E'; apply bind_ok in E as [b0 [B E]]; apply bind_ok in E' as [b' [B' E']];
    fin E; fin E'; flat H0; do 2 lit H0; apply type_split in H0 as [T H0]; lit H0; destruct a'; try discriminate T; cbn [print_value] in B, B'.
  1: fin B; fin B'; flat H0; lit H0; apply bool_split in H0 as [<- H0]; do 2 lit H0; split; [constructor|exact H0].
  1: fin B; fin B'; flat H0; do 2 lit H0; split; [constructor|exact H0].
  1: { apply bind_ok in B as [d [D B]]. apply bind_ok in B' as [d' [D' B']]. fin B. fin B'. flat H0. lit H0. apply (ptrdiff_split n n0) in H0 as [Hb H0]; [|assumption|assumption|stops|stops].
       do 2 lit H0. split; [constructor; exact Hb|exact H0]. }
  1-3: fin B; fin B'; unfold print_ast_string, print_ast_identifier in H0; flat H0; do 2 lit H0; apply quote_split in H0 as [<- H0]; [|exact U|exact U'];
       injection H0 as H0; split; [constructor|exact H0].
  1-2: apply bind_ok in B as [d [D B]]; apply bind_ok in B' as [d' [D' B']]; fin B; fin B'; flat H0; lit H0; destruct (all_split l H _ _ _ _ _ U U' D D' H0) as [F R]; lit R;
       split; [constructor; exact F|exact R].
Qed.
Theorem ast_unique a a' t : unquoted a -> unquoted a' -> print_ast a = Ok t -> print_ast a' = Ok t -> same_tree a a'.
Proof. intros U U' E E'. exact (proj1 (ast_split a a' t t [] [] U U' E E' eq_refl)). Qed.

(** * Trees that look the same have the same text *)
Lemma all_same l : Forall (fun a => forall a', same_tree a a' -> print_ast a = print_ast a') l -> forall l', Forall2 same_tree l l' -> print_all l = print_all l'.
Proof.
  induction 1 as [|a l H _ IH]; intros l' F; inversion F as [|? a' ? l1 S F1]; subst; [reflexivity|]. specialize (IH _ F1). specialize (H _ S).
  destruct F1; [exact H|]. cbn [print_all] in *. rewrite H, IH. reflexivity.
Qed.
Theorem ast_same a : forall a', same_tree a a' -> print_ast a = print_ast a'.
Proof.
  induction a using ast_nest; intros a' S; inversion S; subst; rewrite !print_ast_eq; cbn [print_value print_ast_type]; try reflexivity.
  - rewrite (ptrdiff_eq _ _ H0). reflexivity.
  - rewrite (all_same l H _ H1). reflexivity.
  - rewrite (all_same l H _ H1). reflexivity.
Qed.

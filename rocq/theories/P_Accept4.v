(** The compiler accepts well formed programs: the recursion (C65). *)
From Coq Require Import String Ascii ZArith List Bool Lia.
From Coq Require Import ZifyBool ZifyNat.
From Verif Require Import M_Base M_Trie M_Instr M_Asm M_Parser M_Symbol M_Scope M_Compile S_Symbol S_Scope S_Compile S_Reader P_Symbol P_Scope S_Frame P_Frame6 P_Frame7 P_Frame11 S_Accept P_Accept P_Accept2 P_Accept3.
Import ListNotations.
Open Scope Z_scope.
Open Scope list_scope.

Definition nested (l : list ast) : nat := fold_right (fun x m => Nat.max (nesting x) m) O l.
Lemma nested_in e l : In e l -> (nesting e <= nested l)%nat.
Proof. induction l as [|x l IH]; [contradiction|]. cbn [nested fold_right]. fold (nested l). intros [->|H]; [lia|]. specialize (IH H). lia. Qed.
Lemma nested_cons x l : nested (x :: l) = Nat.max (nesting x) (nested l).
Proof. reflexivity. Qed.
Lemma nesting_list l : nesting (AstExpression l) = S (nested l).
Proof. reflexivity. Qed.
Lemma nesting_pos e : (1 <= nesting e)%nat.
Proof. destruct e; cbn; lia. Qed.

Lemma formed_in l e : forallb formed l = true -> In e l -> formed e = true.
Proof. intros F I. rewrite forallb_forall in F. auto. Qed.

Section Compile.
  Variable cfg : config.
  Hypothesis apart : forall x, In x (callbacks cfg) -> plain_name x = true.

  Section Level.
    Variable rec : task -> CM Z.
    Variables (f : nat) (d : Z).
    Hypothesis HC : forall e p, formed e = true -> d + Z.of_nat (nesting e) < max_depth cfg -> (4 * nesting e <= f)%nat -> runs (rec (Compound e p)).
    Hypothesis HF : forall l, formed (AstExpression l) = true -> d + Z.of_nat (nested l) < max_depth cfg -> (4 * nested l + 3 <= f)%nat -> runs (rec (Form l)).
    Hypothesis HP : forall l, forallb formed l = true -> d + Z.of_nat (nested l) < max_depth cfg -> (4 * nested l + 2 <= f)%nat -> runs (rec (Progn l)).
    Hypothesis HN : forall l, forallb formed l = true -> d + Z.of_nat (nested l) < max_depth cfg -> (4 * nested l + 1 <= f)%nat -> runs1 (rec (Noscope l)).

    Lemma all_fine l : forallb formed l = true -> d + Z.of_nat (nested l) < max_depth cfg -> (4 * nested l <= f)%nat -> fine rec l.
    Proof. intros F D L e I p. pose proof (nested_in e l I). apply HC; [exact (formed_in l e F I)|lia|lia]. Qed.

    Lemma items_fine l : forallb formed l = true -> d + Z.of_nat (nested l) < max_depth cfg -> (4 * nested l <= f)%nat -> Forall (item_fine rec) l.
    Proof.
      intros F D L. rewrite Forall_forall. intros e I. pose proof (nested_in e l I) as N. pose proof (formed_in l e F I) as G.
      split; [apply HC; [exact G|lia|lia]|]. pose proof (binder_kind e) as B.
      destruct e as [ | | | | | |fl| ]; try exact Logic.I. destruct fl as [|[ | | | |h| | | ] r]; try exact Logic.I. cbn [head_kind] in B. cbn [formed] in G. cbn [form_of tl].
      apply andb_true_iff in G. destruct G as [EN G]. rewrite nesting_list, nested_cons in N. pose proof (nesting_pos (AstIdentifier h)).
      destruct (kind_of h) eqn:K; rewrite B; try exact Logic.I.
      - destruct r as [|[ | | | |x| | | ] [|v [|]]]; try discriminate. exists (AstIdentifier h), x, v. split; [reflexivity|].
        rewrite !nested_cons in N. apply all_fine; [cbn; rewrite G; reflexivity| |]; rewrite nested_cons; cbn [nested fold_right]; lia.
      - destruct r as [|[ | | | |x| | | ] [|[ | | | | | |ps| ] b]]; try discriminate. apply andb_true_iff in G. destruct G as [G FB]. apply andb_true_iff in G. destruct G as [PN PS].
        exists (AstIdentifier h), x, ps, b. split; [reflexivity|]. rewrite !nested_cons in N.
        assert (LB : (1 <= length b)%nat).
        { unfold enough in EN. destruct (kind_generator h) as [g E]; [congruence|]. pose proof (generator_kind h g E) as K'. rewrite K in K'.
          destruct (generator_operands h g E) as [O _]. rewrite O in EN. destruct g; try discriminate K'. cbn [gen_operands length] in EN. lia. }
        split; [exact LB|]. split; [exact PN|].
        assert (FL : formed (AstExpression (AstIdentifier defun_lambda :: AstExpression ps :: b)) = true).
        { cbn [formed]. change (kind_of defun_lambda) with KLambda. rewrite PS, FB. unfold enough. change (operands_of defun_lambda) with (AtLeast 2). cbn [length]. destruct (length b); [lia|reflexivity]. }
        apply all_fine; [cbn [forallb]; rewrite FL; reflexivity| |]; rewrite nested_cons, nesting_list, !nested_cons; cbn [nested fold_right] in *; pose proof (nesting_pos (AstIdentifier defun_lambda));
          change (nesting (AstIdentifier defun_lambda)) with 1%nat; change (nesting (AstIdentifier x)) with 1%nat in N; lia.
      - apply HN; [|lia|lia]. apply andb_true_iff in G. apply G.
    Qed.

    Lemma generate_runs h g r : find_generator h = Some g -> formed (AstExpression (AstIdentifier h :: r)) = true ->
      d + Z.of_nat (nested r) < max_depth cfg -> (4 * nested r + 2 <= f)%nat -> runs (generate cfg rec g (AstIdentifier h :: r)).
    Proof.
      intros E G D L. pose proof (generator_kind h g E) as K. destruct (generator_operands h g E) as [O S]. cbn [formed] in G.
      apply andb_true_iff in G. destruct G as [EN G]. unfold enough in EN. rewrite O in EN.
      assert (PL : gen_kind g = KPlain \/ gen_kind g = KWhen \/ gen_kind g = KWhile -> fine rec r).
      { intros Q. apply all_fine; [|lia|lia]. rewrite K in G. destruct Q as [Q|[Q|Q]]; rewrite Q in G; apply andb_true_iff in G; apply G. }
      assert (BO : gen_kind g = KWhen \/ gen_kind g = KWhile -> exists c b, r = c :: b /\ (1 <= length b)%nat /\ fine rec [c] /\ runs (rec (Progn b))).
      { intros Q. specialize (PL (or_intror Q)). rewrite K in G.
        assert (G' : forallb formed r = true) by (destruct Q as [Q|Q]; rewrite Q in G; apply andb_true_iff in G; apply G).
        destruct r as [|c [|b1 b]]; [destruct g; destruct Q as [Q|Q]; try discriminate Q; discriminate EN..|].
        exists c, (b1 :: b). split; [reflexivity|]. split; [cbn; lia|]. split; [intros x [<-|[]]; apply PL; left; reflexivity|].
        cbn [forallb] in G'. apply andb_true_iff in G'. rewrite nested_cons in *. apply HP; [apply G'|lia|lia]. }
      destruct g; cbn [generate gen_kind] in *; try discriminate EN.
      - start. go.
      - start. go.
      - destruct r as [|x r]; [discriminate|]. apply funcall2_runs, PL. auto.
      - destruct r as [|x [|y r]]; try discriminate. apply apply_runs; [cbn; lia|]. apply PL. auto.
      - start. go.
      - rewrite K in G. destruct r as [|[ | | | |x| | | ] [|v [|]]]; try discriminate. apply global_runs. rewrite !nested_cons in *.
        apply all_fine; [cbn; rewrite G; reflexivity| |]; rewrite nested_cons; lia.
      - destruct r as [|x [|v [|]]]; try discriminate. rewrite K, (S eq_refl) in G. destruct x; try discriminate. apply setq_runs.
        specialize (PL (or_introl eq_refl)). apply fine_cons in PL. apply PL.
      - destruct r as [|x [|]]; try discriminate. apply unary_runs, PL. auto.
      - destruct r as [|x [|y [|]]]; try discriminate. apply binary_runs, PL. auto.
      - destruct r as [|x [|y [|z [|]]]]; try discriminate. apply ternary_runs, PL. auto.
      - destruct (BO (or_intror eq_refl)) as (c & b & -> & LB & FC & RB). apply while_runs; assumption.
      - destruct r as [|c [|x [|y [|]]]]; try discriminate. apply if_runs; [apply PL; auto|]. intros l ->.
        rewrite K in G. apply andb_true_iff in G. destruct G as [_ G]. cbn [forallb] in G. rewrite nested_cons, nesting_list in *. apply andb_true_iff in G. apply HF; [apply G|lia|lia].
      - destruct (BO (or_introl eq_refl)) as (c & b & -> & LB & FC & RB). apply conditional_runs; assumption.
      - destruct (BO (or_introl eq_refl)) as (c & b & -> & LB & FC & RB). apply conditional_runs; assumption.
      - start. go.
      - rewrite K in G. destruct r as [|[ | | | | | |ps| ] b]; try discriminate. apply andb_true_iff in G. destruct G as [PS FB]. cbn [length gen_operands] in EN.
        rewrite nested_cons in *. apply lambda_runs; [exact PS|lia|]. apply HP; [exact FB|lia|lia].
      - start. go.
      - rewrite K in G. destruct r as [|x [|]]; try discriminate. cbn [forallb] in G. apply andb_true_iff in G. apply quote_generator_runs, G.
      - apply list_runs, PL. auto.
      - apply vector_runs, PL. auto.
      - destruct r; [|discriminate]. apply checked; [reflexivity|]. start. go.
    Qed.

    Lemma expression_accepted l : formed (AstExpression l) = true -> d + Z.of_nat (nested l) < max_depth cfg -> (4 * nested l + 2 <= f)%nat -> runs (compile_expression cfg rec l).
    Proof.
      intros G D L. destruct l as [|h r]; [start; unfold compile_expression; go|]. destruct h as [ | | | |h| | |];
        try (match goal with |- runs (compile_expression _ _ ?l) => assert (R : runs (rec (Progn l))) by (apply HP; [exact G|lia|lia]) end; start; unfold compile_expression; go; fail); try discriminate.
      start. unfold compile_expression. step. step. unfold getFunctionFromName. pose proof G as G0. cbn [formed] in G.
      rewrite nested_cons in *.
      assert (PL : plain_name h = true -> fine rec r).
      { intros P. unfold plain_name in P. apply all_fine; [|lia|lia]. destruct (kind_of h); try discriminate. apply andb_true_iff in G. destruct G as [_ G]. apply andb_true_iff in G. apply G. }
      destruct (scope_function (scopes s) h (inv_tries _ _ _ I)) as [N|[N P]]; rewrite N.
      - cbn [Z.eqb]. change (-1 =? -1) with true. cbv iota. destruct (existsb (name_is h) (callbacks cfg)) eqn:C.
        + apply existsb_exists in C. destruct C as [x [IN EQ]]. apply name_is_eq in EQ. subst x. apply callback_runs; [apply PL, apart, IN|exact I].
        + destruct (find_generator h) as [g|] eqn:E; [apply generate_runs; auto; lia|].
          apply funcall_runs; [|exact I]. apply PL. unfold plain_name. destruct (kind_of h) eqn:K; try reflexivity; destruct (kind_generator h) as [g E']; congruence.
      - change (functionType_ducklisp =? -1) with false. change (functionType_ducklisp =? functionType_c) with false. change (functionType_ducklisp =? functionType_macro) with false. cbv iota.
        apply funcall_runs; [apply PL, P|exact I].
    Qed.
    Lemma compound_accepted e p : formed e = true -> d + Z.of_nat (nesting e) < max_depth cfg + 1 -> (4 * nesting e <= f + 1)%nat -> runs (compile_compound rec e p).
    Proof.
      intros G D L. destruct e as [ | [fl|]| | |x| |l| ]; try discriminate; cbn [compile_compound]; unfold emit_pushDoubleFloat; start; try (go; fail).
      - unf. step. step. destruct k; go.
      - assert (R : runs (rec (Form l))) by (rewrite nesting_list in *; apply HF; [exact G|lia|lia]). go.
    Qed.
  End Level.

  Theorem compile_runs f : forall d,
    (forall e p, formed e = true -> d + Z.of_nat (nesting e) < max_depth cfg -> (4 * nesting e <= f)%nat -> runs (compile cfg f d (Compound e p))) /\
    (forall l, formed (AstExpression l) = true -> d + Z.of_nat (nested l) < max_depth cfg -> (4 * nested l + 3 <= f)%nat -> runs (compile cfg f d (Form l))) /\
    (forall l, forallb formed l = true -> d + Z.of_nat (nested l) < max_depth cfg -> (4 * nested l + 2 <= f)%nat -> runs (compile cfg f d (Progn l))) /\
    (forall l, forallb formed l = true -> d + Z.of_nat (nested l) < max_depth cfg -> (4 * nested l + 1 <= f)%nat -> runs1 (compile cfg f d (Noscope l))).
  Proof.
    induction f as [|f IH]; intros d.
    - repeat split; intros; try lia. pose proof (nesting_pos e). lia.
    - destruct (IH d) as (C & F & P & N). destruct (IH (d + 1)) as (C1 & F1 & P1 & N1). repeat split.
      + intros e p G D L. cbn [compile]. destruct (max_depth cfg <=? d + 1) eqn:E; [pose proof (nesting_pos e); lia|].
        apply (compound_accepted (compile cfg f (d + 1)) f (d + 1)); auto; lia.
      + intros l G D L. cbn [compile]. assert (R : runs (compile_expression cfg (compile cfg f d) l)) by (apply (expression_accepted (compile cfg f d) f d); auto; lia). start. go.
      + intros l G D L. cbn [compile]. assert (R : runs (generator_expression (compile cfg f d) l)) by (apply expression_runs, N; auto; lia). start. go.
      + intros l G D L. cbn [compile]. assert (R : runs1 (generator_noscope (compile cfg f d) l)) by (apply noscope_runs, (items_fine (compile cfg f d) f d); auto; lia).
        start. apply wp_bind. eapply wp_more; [exact (R n b s I)|]. intros x s1 H. apply wp_ret, H.
  Qed.

  Theorem accepted fuel e y g : formed e = true -> Z.of_nat (nesting e) < max_depth cfg -> (4 * nesting e <= fuel)%nat ->
    exists st, compileAST cfg fuel e (compile_state y g) = Ok (tt, st).
  Proof.
    intros G D L. destruct (compile_runs fuel 0) as (C & _ & _ & _).
    assert (I : inv 0 true (compile_state y g)) by (split; cbn; auto).
    pose proof (C e true G ltac:(lia) L) as R.
    assert (W : wp (compileAST cfg fuel e) (compile_state y g) (fun r _ => r = tt)).
    { unfold compileAST. go; match goal with |- ?r = tt => destruct r; reflexivity | _ => idtac end; reflexivity. }
    destruct W as (r & st & E & ->). eauto.
  Qed.
End Compile.

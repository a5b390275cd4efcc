From Coq Require Import String ZArith List Bool Lia.
From Verif Require Import M_Base M_Trie M_Parser M_Symbol M_Heap M_Instr M_VM M_Host M_Scope M_Asm M_Compile M_Convert S_Heap S_VM S_Num S_Data S_Types S_Symbol S_Compile S_Run S_Program S_Convert.
From Verif Require Import P_Symbol P_Types P_Compile P_Compile2 P_Compile3 P_Compile4 P_Compile5 P_Program P_Correct2 P_Final P_Convert P_Convert2.
Import ListNotations.
Open Scope Z_scope.
Open Scope list_scope.

(** * Values at compile time *)

Lemma half_back os a x t : shows os a x -> gives_back false os x t -> exists F, forall f, (F <= f)%nat -> half_to_ast f os a = Ok t.
Proof.
  intros Sh B. inversion Sh as [|p c d E|p o E C]; subst.
  - apply back_list in B. destruct B as [F H]. exists (S F). intros [|f] L; [lia|]. apply H. lia.
  - apply back_list in B. destruct B as [F H]. exists (S F). intros [|f] L; [lia|]. cbn [half_to_ast]. unfold at_pointer. rewrite E. cbn [bind]. apply H. lia.
  - destruct B as [F H]. exists (S F). intros [|f] L; [lia|]. cbn [half_to_ast]. unfold at_pointer. rewrite E. cbn [bind].
    specialize (H f ltac:(lia)). destruct x; try exact H. destruct C.
Qed.

Lemma value_back ids os o w : denotes ids os o w -> forall t, spliced w = Some t -> gives_back false os o t.
Proof.
  induction 1 as [o|  |b|n|f|s i l b V|x p T|p a d x y v w N Sa Sd D1 IH1 D2 IH2|k o F]; cbn [spliced]; intros t E; [..|discriminate].
  - discriminate.
  - injection E as <-. apply back_list. exists 1%nat. intros [|f] L; [lia|reflexivity].
  - injection E as <-. exists 1%nat. intros [|f] L; [lia|reflexivity].
  - injection E as <-. exists 1%nat. intros [|f] L; [lia|reflexivity].
  - injection E as <-. exists 1%nat. intros [|k] L; [lia|reflexivity].
  - injection E as <-. exists 1%nat. intros [|f] L; [lia|]. apply string_ast, V.
  - injection E as <-. exists 1%nat. intros [|f] L; [lia|]. cbn [object_to_ast]. rewrite (text_bytes _ _ _ T). reflexivity.
  - destruct (spliced v) as [tv|] eqn:Ev; [|discriminate]. destruct (spliced w) as [tw|] eqn:Ew; [|discriminate]. injection E as <-.
    destruct (half_back os a x tv Sa (IH1 _ eq_refl)) as [F1 H1]. destruct (half_back os d y tw Sd (IH2 _ eq_refl)) as [F2 H2].
    apply back_list. exists (S (F1 + F2)). intros [|f] L; [lia|]. cbn [cons_to_cons]. unfold at_pointer. rewrite N. cbn [bind].
    rewrite H1 by lia. cbn [bind]. rewrite H2 by lia. reflexivity.
Qed.

Section Splice.
  Variable cfg : config.
  Hypothesis Hcb : callbacks_apart cfg.
  Hypothesis Hcons : ~ In (word "__cons") (callbacks cfg).
  Hypothesis Hquote : ~ In (word "__quote") (callbacks cfg).

  Lemma scope_plain sc bs x : plains sc bs -> getScopeFunction sc x = -1.
  Proof.
    intros P. apply plain_plains in P. induction P as [|s b r br [P [U Fn]] F IH]; cbn [getScopeFunction]; [reflexivity|].
    rewrite (P_Scope.st_kinds _ _ P), Fn, P_Scope.history_find; cbn. exact IH.
  Qed.
  Lemma head_spelled st bs k g : ok st bs -> ~ In k (callbacks cfg) -> find_generator k = Some g ->
    getFunctionFromName cfg (scopes st) k = CalleeGenerator g.
  Proof.
    intros O I G. unfold getFunctionFromName. rewrite (scope_plain _ _ k (ok_plains _ _ O)).
    change (-1 =? -1) with true. cbv iota. rewrite existsb_name by auto. rewrite G. reflexivity.
  Qed.

  Lemma binary_same rec a b x y x' y' k k' st bs (P : cstate -> Prop) : P st -> ok st bs ->
    rec (Compound x false) st = rec (Compound x' false) st ->
    (forall i st1, rec (Compound x' false) st = Ok (i, st1) -> rec (Compound y false) st1 = rec (Compound y' false) st1) ->
    generator_binary rec a b [AstIdentifier k; x; y] st = generator_binary rec a b [AstIdentifier k'; x'; y'] st.
  Proof.
    intros _ _ E1 E2. unfold generator_binary, checkArgs, cbind, cret. cbn [length Nat.eqb].
    rewrite E1. destruct (rec (Compound x' false) st) as [[i st1]| | |] eqn:E; try reflexivity. rewrite (E2 _ _ eq_refl). reflexivity.
  Qed.

  Lemma splice_same w : forall t f d ref st bs, spliced w = Some t -> good (source w) = true -> 0 <= locals_length st -> ok st bs ->
    compile cfg f d (Compound t ref) st = compile cfg f d (Compound (tree (source w)) ref) st.
  Proof.
    induction w as [| | |b|n|g|s|x|a IHa b IHb]; cbn [spliced]; intros t f d ref st bs E G L O;
      try (injection E as <-; reflexivity); [discriminate|discriminate|].
    destruct (spliced a) as [ta|] eqn:Ea; [|discriminate]. destruct (spliced b) as [tb|] eqn:Eb; [|discriminate]. injection E as <-.
    cbn [source good] in G. apply andb_true_iff in G as [Ga Gb].
    destruct f as [|f]; [reflexivity|]. cbn [compile source tree]. destruct (max_depth cfg <=? d + 1); [reflexivity|].
    cbn [compile_compound]. unfold cbind at 1 3.
    assert (X : compile cfg f (d + 1) (Form [AstIdentifier (word "__cons"); ta; tb]) st =
                compile cfg f (d + 1) (Form [AstIdentifier (bin_word BCons); tree (source a); tree (source b)]) st); [|rewrite X; reflexivity].
    destruct f as [|f]; [reflexivity|]. cbn [compile]. unfold cbind at 1 2.
    assert (X : compile_expression cfg (compile cfg f (d + 1)) [AstIdentifier (word "__cons"); ta; tb] st =
                compile_expression cfg (compile cfg f (d + 1)) [AstIdentifier (bin_word BCons); tree (source a); tree (source b)] st); [|rewrite X; reflexivity].
    unfold compile_expression, cbind, cget. 
    rewrite (head_spelled st bs (word "__cons") (GBin BCons false) O Hcons) by (vm_compute; reflexivity).
    rewrite (head_spelled st bs (bin_word BCons) (GBin BCons false) O) by (try (vm_compute; reflexivity); apply Hcb; apply bin_keyword).
    cbn [generate]. eapply (binary_same _ _ _ _ _ _ _ _ _ _ _ (fun _ => True)); [exact Logic.I|exact O|eapply IHa; eauto|].
    intros i st1 R. destruct (compile_sub cfg Hcb f (d + 1)) as [Sb _].
    destruct (sub_compound _ Sb (source a) false st bs Ga L O i st1 R) as [code [n' [L' [bs' [Si [_ C]]]]]].
    eapply IHb; eauto; [|exact (si_ok _ _ _ _ _ _ Si)].
    specialize (C (nameToValue (symbols_of st1)) (fun x _ => eq_refl)). apply (proj1 (proj2 (gcomp_height _ _))) in C.
    rewrite (si_locals _ _ _ _ _ _ Si). lia.
  Qed.

  Lemma quote_same t f d ref st bs : ok st bs ->
    compile cfg f d (Compound (AstExpression [AstIdentifier (word "__quote"); t]) ref) st =
    compile cfg f d (Compound (AstExpression [AstIdentifier (word "quote"); t]) ref) st.
  Proof.
    intros O. destruct f as [|f]; [reflexivity|]. cbn [compile]. destruct (max_depth cfg <=? d + 1); [reflexivity|].
    cbn [compile_compound]. unfold cbind at 1 3.
    assert (X : compile cfg f (d + 1) (Form [AstIdentifier (word "__quote"); t]) st =
                compile cfg f (d + 1) (Form [AstIdentifier (word "quote"); t]) st); [|rewrite X; reflexivity].
    destruct f as [|f]; [reflexivity|]. cbn [compile]. unfold cbind at 1 2.
    assert (X : compile_expression cfg (compile cfg f (d + 1)) [AstIdentifier (word "__quote"); t] st =
                compile_expression cfg (compile cfg f (d + 1)) [AstIdentifier (word "quote"); t] st); [|rewrite X; reflexivity].
    unfold compile_expression, cbind, cget.
    rewrite (head_spelled st bs (word "__quote") GQuote O Hquote) by (vm_compute; reflexivity).
    rewrite (head_spelled st bs (word "quote") GQuote O) by (try (vm_compute; reflexivity); apply Hcb; apply in_words; vm_compute; tauto).
    reflexivity.
  Qed.
End Splice.

Lemma source_good w : constant_value w -> good (source w) = true.
Proof.
  induction w as [| | |b|n|g|s|x|a IHa b IHb]; cbn [constant_value source good]; auto; try tauto.
  intros [A B]. rewrite IHa, IHb by assumption. reflexivity.
Qed.
Lemma constant_spliced w : constant_value w -> exists t, spliced w = Some t.
Proof.
  induction w as [| | |b|n|g|s|x|a IHa b IHb]; cbn [constant_value spliced]; eauto; try tauto.
  intros [A B]. destruct (IHa A) as [ta ->], (IHb B) as [tb ->]. eauto.
Qed.
Lemma source_assigned w : forall E n, assigned E n (source w) = [].
Proof.
  induction w as [| | |b|n|g|s|x|a IHa b IHb]; cbn [source assigned]; auto. intros E n. rewrite IHa. cbn [app]. rewrite ?IHb. reflexivity.
Qed.
Lemma source_targets w : targets (source w) = [].
Proof. induction w as [| | |b|n|g|s|x|a IHa b IHb]; cbn [source targets]; auto. rewrite IHa, IHb. reflexivity. Qed.

Lemma source_eval w : constant_value w -> exists f, forall f' s, (f <= f')%nat -> eval f' (source w) s = Ok (w, s).
Proof.
  induction w as [| | |b|n|g|s|x|a IHa b IHb]; cbn [constant_value source]; intros H;
    try (exists 1%nat; intros [|f'] st L; [lia|reflexivity]); try tauto.
  - exists 1%nat; intros [|f'] st L; [lia|]. destruct H as [-> | ->]; reflexivity.
  - destruct H as [Ha Hb]. destruct (IHa Ha) as [fa Ea], (IHb Hb) as [fb Eb]. exists (S (fa + fb)). intros [|f] st L; [lia|].
    assert (V : forall w, constant_value w -> forall x, source w <> EVar x) by (clear; intros w K z Q; destruct w; cbn in *; try discriminate Q; destruct K).
    specialize (V a Ha) as Va. specialize (V b Hb) as Vb. specialize (Ea f). specialize (Eb f). cbn [eval].
    destruct (source a); try (destruct (Va _ eq_refl)); destruct (source b); try (destruct (Vb _ eq_refl));
      rewrite Ea by lia; cbn [bind]; rewrite Eb by lia; cbn [bind settled]; unfold apply2; rewrite andb_false_r; reflexivity.
Qed.

Lemma compile_state_ok y g : consistent y -> names_ok y g -> ok (compile_state y g) [].
Proof. intros C [A B]. constructor; cbn; auto; first [constructor; reflexivity | constructor]. Qed.

(** A constant computed at compile time: the tree the compiler puts in its place is compiled to code
    that computes the constant. *)
Lemma spliced_value cfg pushpops short ids ids' os o w y g fuel t st code W :
  callbacks_apart cfg -> ~ In (word "__cons") (callbacks cfg) -> session cfg y g ->
  denotes ids os o w -> constant_value w -> spliced w = Some t ->
  compileAST cfg fuel t (compile_state y g) = Ok (tt, st) -> assembles pushpops short st code -> numbering (symbols_of st) ids' ->
  computes ids' code W (fun _ => True) w (fun x => W (ids' x)) (Z.to_nat (width [] (source w) - 2)).
Proof.
  intros Hc Hcons Ses D Cw Sp Co As Hn.
  assert (B : built cfg pushpops short (source w) (symbols_of st) code).
  { exists y, g, fuel, st. split; [exact Ses|]. split; [apply source_good, Cw|]. split; [|split; [reflexivity|exact As]].
    rewrite <- Co. unfold compileAST, cbind at 1 4. destruct (session_ok _ _ _ Hc Ses) as [C N].
    erewrite <- splice_same; [reflexivity|exact Hc|exact Hcons|exact Sp|apply source_good, Cw|cbn; lia|].
    apply compile_state_ok; assumption. }
  destruct (source_eval w Cw) as [f E].
  apply (computes_all _ _ _ (untouched ids' (source w))); [intros k x; rewrite source_targets; intros []|].
  apply (value_computes cfg pushpops short (source w) (symbols_of st) code ids' W f w (State [] (fun x => W (ids' x))) Hc B Hn); [|apply E; lia].
  intros x i F. rewrite source_assigned in F. destruct F.
Qed.

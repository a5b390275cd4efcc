(** The whole compiler keeps to the frame (C58). *)
From Coq Require Import String ZArith List Bool Lia Arith ZifyBool ZifyNat.
From Verif Require Import M_Base M_Trie M_Instr M_Asm M_Parser M_Symbol M_Scope M_Compile S_Symbol S_Compile S_Frame S_Scope
  P_Symbol P_Scope P_Frame P_Frame3 P_Frame4 P_Frame5 P_Frame6 P_Frame7 P_Frame8 P_Frame9 P_Frame10 P_Frame2.
Import ListNotations.
Open Scope Z_scope.
Open Scope list_scope.

(** The forms that declare. *)
Lemma binder_kind e : match head_kind e with
  | KVar => binder e = Some GVar | KDefun => binder e = Some GDefun | KSplice => binder e = Some GNoscope
  | _ => binder e = None end.
Proof.
  destruct e as [ | | | | | |l| ]; try reflexivity. destruct l as [|h l]; [reflexivity|]. destruct h as [ | | | |n| | | ]; try reflexivity.
  cbn [head_kind binder].
  destruct (name_is n (str "var")) eqn:E1; [apply name_is_eq in E1; subst; reflexivity|].
  destruct (name_is n (str "__var")) eqn:E2; [apply name_is_eq in E2; subst; reflexivity|].
  destruct (name_is n (str "defun")) eqn:E3; [apply name_is_eq in E3; subst; reflexivity|].
  destruct (name_is n (str "__defun")) eqn:E4; [apply name_is_eq in E4; subst; reflexivity|].
  destruct (name_is n (str "noscope")) eqn:E5; [apply name_is_eq in E5; subst; reflexivity|].
  destruct (name_is n (str "__noscope")) eqn:E6; [apply name_is_eq in E6; subst; reflexivity|].
  cbn [orb].
  assert (N : kind_of n <> KVar /\ kind_of n <> KDefun /\ kind_of n <> KSplice).
  { assert (D : forall a b, name_is a b = false -> a <> b).
    { intros a b H ->. assert (name_is b b = true) by (apply name_is_eq; reflexivity). congruence. }
    apply D in E1, E2, E3, E4, E5, E6.
    assert (P : forall m k, kind_in kind_table m = k -> k = KVar \/ k = KDefun \/ k = KSplice ->
      m = str "var" \/ m = str "defun" \/ m = str "noscope").
    { intros m k H K. assert (X : In (m, k) kind_table). { rewrite <- H. apply kind_in_table. rewrite H. destruct K as [-> | [-> | ->]]; discriminate. }
      cbn in X. repeat (destruct X as [X|X]; [injection X as <- <-; destruct K as [K|[K|K]]; try discriminate K; auto|]). contradiction. }
    assert (Q : forall k, k = KVar \/ k = KDefun \/ k = KSplice -> kind_of n <> k).
    { intros k K H. unfold kind_of in H. destruct (word_eq n _).
      - subst k. destruct K as [K|[K|K]]; discriminate.
      - assert (X : forall w, kind_in kind_table n = k -> w = 0 -> False).
        { intros w X _. destruct (P _ _ X K) as [Y|[Y|Y]]; congruence. }
        destruct n as [|c n]; [eauto|]. destruct (Z.eq_dec c 95) as [->|Nc].
        + destruct n as [|d n]; [eauto|]. destruct (Z.eq_dec d 95) as [->|Nd].
          * destruct (P _ _ H K) as [Y|[Y|Y]]; subst n; [apply E2|apply E4|apply E6]; reflexivity.
          * apply (X 0); [|reflexivity]. rewrite <- H. repeat (destruct d as [|d|d]; try reflexivity; try congruence).
        + apply (X 0); [|reflexivity]. rewrite <- H. repeat (destruct c as [|c|c]; try reflexivity; try congruence). }
    split; [|split]; apply Q; auto. }
  destruct N as (N1 & N2 & N3). destruct (kind_of n); congruence || reflexivity.
Qed.
Lemma regular_plain e : ~ silent e -> regular true e = true -> regular false e = true.
Proof.
  intros N G. destruct e as [ | | | | | |l| ]; try exact G. destruct l as [|h l]; [exact G|]. destruct h as [ | | | |n| | | ]; try exact G.
  unfold silent in N. cbn [head_kind] in N. cbn [regular] in G |- *. destruct (kind_of n); try exact G; exfalso; apply N; auto.
Qed.

Section Generators.
  Variable cfg : config.
  Variable rec : task -> CM Z.
  Variable R0 : rec_ok cfg rec.
  Notation ready := (ready cfg).
  Notation val := (val cfg).
  Notation leaves := (leaves cfg).
  Notation at_start := (at_start cfg).
  Notation makes := (makes cfg).
  Notation compound_start := (compound_start cfg rec R0).
  Notation leaves_start := (leaves_start cfg).
  Notation leaves_more := (leaves_more cfg).
  Notation leaves_val := (leaves_val cfg).
  Notation leaves_after := (leaves_after cfg).
  Notation start_base := (start_base cfg).

  Variable cfg_ok : forall n, In n (callbacks cfg) -> kind_of n = KPlain.

  Lemma declared_form x k bs s e i s' r s2 : silent e -> regular true e = true -> at_start x (k :: bs) s -> rec (Compound e true) s = Ok (i, s') ->
    (match head_kind e with
     | KVar => createVar rec (form_of e)
     | KDefun => generator_defun rec (form_of e)
     | _ => rec (Noscope (tl (form_of e))) >>> cret tt
     end) s' = Ok (r, s2) ->
    exists k', of_function k' = of_function k /\ val x (k' :: bs) s s2 /\ locals_length s + 1 <= locals_length s2 /\
      fits (base x) (locals_length s2 - 2) (outer x) (k' :: bs).
  Proof.
    intros S G A E E2. pose proof (ok_silent _ _ R0 _ _ _ _ _ _ _ S A E). subst s'. clear E.
    pose proof S as S'. unfold silent in S.
    destruct e as [ | | | | | |l| ]; try (destruct S as [S|[S|S]]; discriminate S).
    destruct l as [|h l]; [destruct S as [S|[S|S]]; discriminate S|].
    destruct h as [ | | | |n| | | ]; try (destruct S as [S|[S|S]]; discriminate S).
    cbn [head_kind form_of tl] in *. cbn [regular] in G. destruct S as [S|[S|S]]; rewrite S in *; cbn [andb] in G.
    - destruct l as [|a [|v [|? ?]]]; try discriminate; destruct a as [ | | | |name| | | ]; try discriminate.
      destruct (createVar_ok cfg rec R0 _ _ _ _ _ _ _ _ _ G A E2) as (V & N & F). cbv zeta in V, F.
      eexists. split; [|split; [exact V|split; [lia|]]]; [reflexivity|]. replace (locals_length s2 - 2) with (locals_length s) by lia. exact F.
    - destruct l as [|a [|ps b]]; try discriminate; destruct a as [ | | | |name| | | ]; try discriminate.
      apply andb_true_iff in G as [G1 G2].
      assert (GL : regular false (AstExpression (AstIdentifier defun_lambda :: ps :: b)) = true) by exact G2.
      assert (GK : kind_of name = KPlain) by (destruct (kind_of name); congruence).
      destruct (generator_defun_ok cfg rec R0 _ _ _ _ _ _ _ _ _ GL GK A E2) as (k' & K & V & N & F).
      exists k'. split; [exact K|split; [exact V|split; [lia|]]]. replace (locals_length s2 - 2) with (locals_length s) by lia. exact F.
    - cinv E2 u t1 D. injection E2 as _ <-. exact (ok_noscope _ _ R0 _ _ _ _ _ _ _ G A D).
  Qed.

  Lemma noscope_loop_ok l : forall x k bs s r s', l <> [] -> forallb (regular true) l = true -> at_start x (k :: bs) s ->
    noscope_loop rec l s = Ok (r, s') ->
    exists k', of_function k' = of_function k /\ val x (k' :: bs) s s' /\ locals_length s + 1 <= locals_length s' /\
      fits (base x) (locals_length s' - 2) (outer x) (k' :: bs).
  Proof.
    induction l as [|e l IH]; intros x k bs s r s' NE G A E; [congruence|]. clear NE.
    apply forallb2 in G as [G1 G2]. cbn [noscope_loop] in E. pose proof (start_base _ _ _ A) as B.
    cloc E start. cinv E i s1 E1. cinv E u s2 E2.
    assert (ST : exists k', of_function k' = of_function k /\ val x (k' :: bs) s s2 /\
      (if match l with [] => true | _ => false end
       then locals_length s + 1 <= locals_length s2 /\ fits (base x) (locals_length s2 - 2) (outer x) (k' :: bs)
       else locals_length s <= locals_length s2 /\ fits (base x) (locals_length s2 - 1) (outer x) (k' :: bs))).
    { pose proof (binder_kind e) as BK.
      assert (D : silent e \/ ~ silent e). { unfold silent. destruct (head_kind e); auto; right; intros [H|[H|H]]; discriminate H. }
      destruct D as [S|NS].
      - assert (E3 : exists r3 s3, (match head_kind e with
           | KVar => createVar rec (form_of e)
           | KDefun => generator_defun rec (form_of e)
           | _ => rec (Noscope (tl (form_of e))) >>> cret tt
           end) s1 = Ok (r3, s3) /\ (if match l with [] => true | _ => false end then cret tt else emit_pop 1) s3 = Ok (u, s2)).
        { destruct S as [S|[S|S]]; rewrite S in *; rewrite BK in E2; cinv E2 r3 s3 E3; eauto. }
        destruct E3 as (r3 & s3 & E3 & E4). 
        destruct (declared_form _ _ _ _ _ _ _ _ _ S G1 A E1 E3) as (k' & K & V & N & F).
        exists k'. split; [exact K|]. destruct l as [|e2 l].
        + injection E4 as _ <-. auto.
        + destruct (emit_pop_val cfg x _ s3 _ _ _ (val_ready _ _ _ _ _ V) E4) as [V4 N4]; [unfold size; lia|].
          split; [eapply val_trans; eauto|]. split; [lia|]. replace (locals_length s2 - 1) with (locals_length s3 - 2) by lia. exact F.
      - assert (BN : binder e = None). { unfold silent in NS. destruct (head_kind e); auto; exfalso; apply NS; auto. }
        rewrite BN in E2. cloc E2 n. cbv zeta in E2.
        pose proof (regular_plain _ NS G1) as G1'.
        destruct (compound_start _ _ _ _ _ _ _ G1' A E1) as (bs1 & T1 & V1 & A1 & F1 & W1 & N1). cbn match in N1.
        apply same_cons in T1. subst bs1. exists k. split; [reflexivity|].
        destruct l as [|e2 l].
        + destruct (Z.ltb_spec 0 (locals_length s1 - locals_length s - 1)).
          * cinv E2 u4 s4 E4.
            destruct (emit_move_val cfg x _ s1 _ _ _ _ (proj1 A1) E4) as [V4 N4]; [unfold within; lia|unfold within; lia|].
            destruct (emit_pop_val cfg x _ s4 _ _ _ (val_ready _ _ _ _ _ V4) E2) as [V5 N5]; [unfold size; lia|].
            split; [eapply val_trans; [exact V1|]; eapply val_trans; eauto|]. split; [lia|].
            replace (locals_length s2 - 2) with (locals_length s - 1) by lia. exact F1.
          * replace (Z.to_nat (- (locals_length s1 - locals_length s - 1))) with O in E2 by lia. injection E2 as _ <-.
            split; [exact V1|]. split; [lia|]. replace (locals_length s1 - 2) with (locals_length s - 1) by lia. exact F1.
        + destruct (Z.ltb_spec 0 (locals_length s1 - locals_length s - 0)); [|lia].
          cinv E2 u4 s4 E4. injection E4 as _ <-.
          destruct (emit_pop_val cfg x _ s1 _ _ _ (proj1 A1) E2) as [V5 N5]; [unfold size; lia|].
          split; [eapply val_trans; eauto|]. split; [lia|].
          replace (locals_length s2 - 1) with (locals_length s - 1) by lia. exact F1. }
    destruct ST as (k' & K & V & ST). destruct l as [|e2 l].
    - cbn [noscope_loop] in E. injection E as _ <-. exists k'. destruct ST. auto.
    - destruct ST as [N F]. destruct (IH x k' bs s2 r s' ltac:(discriminate) G2) with (2 := E) as (k2 & K2 & V2 & N2 & F2).
      { split; [exact (val_ready _ _ _ _ _ V)|exact F]. }
      exists k2. split; [congruence|]. split; [eapply val_trans; eauto|]. split; [lia|exact F2].
  Qed.
  Lemma generator_noscope_ok l x k bs s r s' : forallb (regular true) l = true -> at_start x (k :: bs) s ->
    generator_noscope rec l s = Ok (r, s') ->
    exists k', of_function k' = of_function k /\ val x (k' :: bs) s s' /\ locals_length s + 1 <= locals_length s' /\
      fits (base x) (locals_length s' - 2) (outer x) (k' :: bs).
  Proof.
    intros G A E. unfold generator_noscope in E. cinv E u s1 E1. destruct l as [|e l].
    - cbn [noscope_loop] in E1. injection E1 as _ <-. destruct (emit_nil_val cfg x _ s _ _ (proj1 A) E) as [V N].
      exists k. split; [reflexivity|]. split; [exact V|]. split; [lia|]. replace (locals_length s' - 2) with (locals_length s - 1) by lia. exact (proj2 A).
    - injection E as _ <-. eapply noscope_loop_ok; eauto. discriminate.
  Qed.
  Lemma generator_expression_ok l x bs s r s' : forallb (regular true) l = true -> at_start x bs s ->
    generator_expression rec l s = Ok (r, s') -> leaves x bs s s' /\ locals_length s' = locals_length s + 1.
  Proof.
    intros G A E. pose proof (start_base _ _ _ A) as B. unfold generator_expression in E. cinv E u1 s1 E1. cloc E start. cinv E u2 s2 E2. cinv E sc s3 E3. cinv E u4 s4 E4.
    destruct (push_scope_val cfg x bs s _ _ (proj1 A) E1) as [V1 N1].
    assert (A1 : at_start x (Block [] [] false :: bs) s1).
    { split; [exact (val_ready _ _ _ _ _ V1)|]. cbn [fits of_function]. rewrite N1. split; [|exact (proj2 A)]. repeat split; constructor. }
    destruct (ok_noscope _ _ R0 _ _ _ _ _ _ _ G A1 E2) as (k' & K & V2 & N2 & F2). cbn [of_function] in K.
    pose proof (val_ready _ _ _ _ _ V2) as R2.
    destruct (top_scope_is cfg x _ _ s2 sc s3 R2 E3) as (-> & st & Q & SK).
    destruct (emit_releaseUpvalues_val cfg x _ s2 _ _ _ R2 E4) as [V4 N4].
    { intros u Iu Pu. destruct F2 as [F2 _]. pose proof (stands_in _ _ _ _ _ SK F2 Iu Pu). unfold within. lia. }
    pose proof (val_trans _ _ _ _ _ _ _ V2 V4) as V24. pose proof (val_ready _ _ _ _ _ V4) as R4.
    cloc E n. cinv E u5 s5 E5.
    assert (X5 : val x (k' :: bs) s4 s5 /\ locals_length s5 = locals_length s4).
    { destruct (Z.ltb_spec (locals_length s1) (locals_length s4 - 1)).
      - apply (emit_move_val cfg x _ s4 _ _ _ _ R4 E5); unfold within; lia.
      - injection E5 as _ <-. split; [apply val_refl; exact R4|reflexivity]. }
    destruct X5 as [V5 N5]. pose proof (val_ready _ _ _ _ _ V5) as R5.
    cloc E n. cinv E u6 s6 E6.
    assert (X6 : val x (k' :: bs) s5 s6 /\ locals_length s6 = locals_length s1 + 1).
    { destruct (Z.ltb_spec 0 (locals_length s5 - (locals_length s1 + 1))).
      - destruct (emit_pop_val cfg x _ s5 _ _ _ R5 E6) as [V6 N6]; [unfold size; lia|]. split; [exact V6|lia].
      - injection E6 as _ <-. split; [apply val_refl; exact R5|lia]. }
    destruct X6 as [V6 N6]. pose proof (val_ready _ _ _ _ _ V6) as R6.
    destruct (pop_scope_val cfg x _ bs s6 _ _ R6 K E) as [V7 N7].
    split; [|lia]. apply leaves_val.
    eapply val_trans; [exact V1|]. eapply val_trans; [exact V24|]. eapply val_trans; [exact V5|]. eapply val_trans; [exact V6|exact V7].
  Qed.

  (** Only functions of the program are declared. *)
  Lemma scope_function st bs : Forall2 stands st bs -> forall n, getScopeFunction st n = -1 \/ getScopeFunction st n = functionType_ducklisp.
  Proof.
    induction 1 as [|s k st bs SK SR IH]; intros n; cbn [getScopeFunction]; [auto|].
    rewrite (st_kinds _ _ SK), history_find. destruct (find_name _ n) as [z|] eqn:E; [|change (negb (-1 =? -1)) with false; cbn match; auto].
    apply find_name_in, in_map_iff in E as ([y w] & E1 & E2). injection E1 as -> <-. right. reflexivity.
  Qed.
  Lemma callee_ok x bs s n : at_start x bs s ->
    match getFunctionFromName cfg (scopes s) n with
    | CalleeFuncall => kind_of n = KPlain
    | CalleeCallback => In n (callbacks cfg)
    | CalleeGenerator g => find_generator n = Some g
    end.
  Proof.
    intros A. pose proof (r_stands _ _ _ _ (proj1 A)) as ST. unfold getFunctionFromName.
    assert (W : kind_of n = KPlain \/ kind_of n <> KPlain) by (destruct (kind_of n); auto; right; discriminate).
    assert (W' : kind_of n <> KPlain -> getScopeFunction (scopes s) n = -1) by (intros; eapply word_kind; [exact ST|exact (proj2 A)|auto]).
    destruct (scope_function _ _ ST n) as [E|E].
    - rewrite E. change (-1 =? -1) with true. cbn match. destruct (existsb (name_is n) (callbacks cfg)) eqn:X.
      + apply existsb_exists in X as (m & I & X). apply name_is_eq in X. subst. exact I.
      + destruct (find_generator n) as [g|] eqn:F; [reflexivity|].
        destruct W as [W|W]; [exact W|]. destruct (kind_generator n W). congruence.
    - rewrite E. change (functionType_ducklisp =? -1) with false. change (functionType_ducklisp =? functionType_c) with false.
      change (functionType_ducklisp =? functionType_macro) with false. cbn match.
      destruct W as [W|W]; [exact W|]. specialize (W' W). rewrite E in W'. discriminate.
  Qed.

  Lemma compile_expression_ok l x bs s r s' : regular false (AstExpression l) = true -> at_start x bs s ->
    compile_expression cfg rec l s = Ok (r, s') -> makes x bs s s'.
  Proof.
    intros G A E. destruct l as [|h args].
    { cbn in E. destruct (emit_nil_val cfg x bs s _ _ (proj1 A) E) as [V N]. split; [apply leaves_val; exact V|lia]. }
    assert (PR : forallb (regular true) (h :: args) = true -> (rec (Progn (h :: args)) >>> cret tt) s = Ok (r, s') -> makes x bs s s').
    { intros G' E'. cinv E' u s1 E1. injection E' as _ <-. destruct (ok_progn _ _ R0 _ _ _ _ _ _ G' A E1). split; [auto|lia]. }
    destruct h as [ | | | |n| | | ]; try (apply PR; [exact G|exact E]); try discriminate G.
    clear PR. unfold compile_expression in E. cinv E s0 s1 E1. injection E1 as <- <-.
    pose proof (callee_ok x bs s n A) as C. cbn [regular] in G.
    assert (PL : kind_of n = KPlain -> (length args <= 255)%nat /\ forallb (regular false) args = true).
    { intros K. rewrite K in G. apply andb_true_iff in G as [G1 G2]. split; [lia|exact G2]. }
    destruct (getFunctionFromName cfg (scopes s) n) as [| |g].
    - destruct (PL C). eapply generator_funcall_ok; eauto.
    - destruct (PL (cfg_ok _ C)). eapply generator_callback_ok; eauto.
    - pose proof (generator_kind n g C) as K. rewrite K in *.
      destruct g; cbn [gen_kind] in *; cbn [generate] in E; try discriminate G; try discriminate E;
      try (destruct (PL eq_refl) as [G1 G2]).
      all: try (eapply generator_funcall2_ok; eauto; fail).
      all: try (eapply generator_apply_ok; eauto; fail).
      all: try (eapply generator_setq_ok; eauto; fail).
      all: try (eapply generator_unary_ok; eauto; fail).
      all: try (eapply generator_binary_ok; eauto; fail).
      all: try (eapply generator_ternary_ok; eauto; fail).
      all: try (eapply generator_if_ok; eauto; fail).
      all: try (eapply generator_while_ok; eauto; fail).
      all: try (eapply generator_conditional_ok; eauto; fail).
      all: try (eapply generator_lambda_ok; eauto; fail).
      all: try (eapply generator_quote_ok; eauto; fail).
      all: try (eapply generator_vector_ok; eauto; fail).
      + destruct (emit_nil_val cfg x bs s _ _ (proj1 A) E) as [V N]. split; [apply leaves_val; exact V|lia].
      + assert (NM : match args with AstIdentifier _ :: _ => True | _ => False end).
        { destruct args as [|[] ?]; try discriminate; exact I. }
        assert (GF : forallb (regular false) args = true) by (destruct args as [|[] ?]; try discriminate; exact G).
        eapply generator_global_ok; eauto.
      + unfold generator_list in E. cinv E i s1 E1. injection E as _ <-. cbn [tl] in E1.
        destruct (list_loop_ok cfg rec R0 _ _ _ _ _ _ G2 A E1) as (L & N & _). split; [exact L|exact N].
      + apply check_inv in E as [E _]. destruct (emit_makeType_val cfg x bs s _ _ (proj1 A) E) as [V N]. split; [apply leaves_val; exact V|lia].
  Qed.
  Lemma silent_expression l x bs s r s' : silent (AstExpression l) -> at_start x bs s ->
    compile_expression cfg rec l s = Ok (r, s') -> s' = s.
  Proof.
    intros S A E. unfold silent in S. destruct l as [|h l]; [destruct S as [S|[S|S]]; discriminate S|].
    destruct h as [ | | | |n| | | ]; try (destruct S as [S|[S|S]]; discriminate S). cbn [head_kind] in S.
    unfold compile_expression in E. cinv E s0 s1 E1. injection E1 as <- <-.
    pose proof (callee_ok x bs s n A) as C.
    destruct (getFunctionFromName cfg (scopes s) n) as [| |g].
    - rewrite C in S. destruct S as [S|[S|S]]; discriminate S.
    - rewrite (cfg_ok _ C) in S. destruct S as [S|[S|S]]; discriminate S.
    - apply generator_kind in C. rewrite C in S. destruct g; cbn [gen_kind] in S; try (destruct S as [S|[S|S]]; discriminate S);
        cbn [generate] in E; injection E as _ <-; reflexivity.
  Qed.

  Lemma top_ok {m : CM unit} {s i s'} : (m >>> (let* n := locals in cret (n - 1))) s = Ok (i, s') ->
    exists r, m s = Ok (r, s') /\ i = locals_length s' - 1.
  Proof. intros E. cinv E r s1 E1. cloc E n. injection E as <- <-. eauto. Qed.
  Lemma compile_compound_ok e p x bs s i s' : regular false e = true -> at_start x bs s -> compile_compound rec e p s = Ok (i, s') ->
    leaves x bs s s' /\ within x s' i /\ locals_length s + (if p then 1 else 0) <= locals_length s'.
  Proof.
    intros G A E. pose proof (start_base _ _ _ A) as B.
    assert (ONE : forall (m : CM unit), (forall r s1, m s = Ok (r, s1) -> val x bs s s1 /\ locals_length s1 = locals_length s + 1) ->
      (m >>> (let* n := locals in cret (n - 1))) s = Ok (i, s') ->
      leaves x bs s s' /\ within x s' i /\ locals_length s + (if p then 1 else 0) <= locals_length s').
    { intros m H E'. destruct (top_ok E') as (r & E1 & ->). destruct (H _ _ E1) as [V N].
      split; [apply leaves_val; exact V|]. split; [unfold within; lia|destruct p; lia]. }
    destruct e as [b|f|n|t|name|t|l|t]; cbn [compile_compound] in E; try discriminate G.
    - apply (ONE _ ltac:(intros r s1; apply emit_pushBoolean_val; exact (proj1 A)) E).
    - apply (ONE _ ltac:(intros r s1; apply emit_pushDoubleFloat_val; exact (proj1 A)) E).
    - apply (ONE _ ltac:(intros r s1; apply emit_pushInteger_val; exact (proj1 A)) E).
    - apply (ONE _ ltac:(intros r s1; apply emit_pushString_val; exact (proj1 A)) E).
    - clear ONE. cinv E q s1 E1. destruct (look_val cfg x bs s _ _ _ _ _ (proj1 A) (proj2 A) E1) as (V1 & N1 & P).
      pose proof (val_ready _ _ _ _ _ V1) as R1. destruct q as [slot|u|].
      + destruct p.
        * cinv E u s2 E2. injection E as <- <-.
          destruct (emit_pushIndex_val cfg x bs s1 _ _ _ R1 E2) as [V2 N2]; [unfold within; lia|].
          split; [apply leaves_val; eapply val_trans; eauto|]. split; [unfold within; lia|lia].
        * injection E as <- <-. split; [apply leaves_val; exact V1|]. split; [unfold within; lia|lia].
      + destruct (top_ok E) as (r & E2 & ->). destruct (emit_pushUpvalue_val cfg x bs s1 _ _ _ R1 E2 P) as [V2 N2].
        split; [apply leaves_val; eapply val_trans; eauto|]. split; [unfold within; lia|destruct p; lia].
      + cinv E key s2 E2. destruct (global_key_val cfg x bs s1 _ _ _ R1 E2) as [V2 N2].
        destruct (top_ok E) as (r & E3 & ->). destruct (emit_pushGlobal_val cfg x bs s2 _ _ _ (val_ready _ _ _ _ _ V2) E3) as [V3 N3].
        split; [apply leaves_val; eapply val_trans; [exact V1|]; eapply val_trans; eauto|]. split; [unfold within; lia|destruct p; lia].
    - clear ONE. cinv E u s1 E1. cloc E n. injection E as <- <-.
      destruct (ok_form _ _ R0 _ _ _ _ _ _ G A E1) as [L N]. split; [exact L|]. split; [unfold within; lia|destruct p; lia].
  Qed.
  Lemma silent_compound e p x bs s i s' : silent e -> at_start x bs s -> compile_compound rec e p s = Ok (i, s') -> s' = s.
  Proof.
    intros S A E. destruct e as [b|f|n|t|name|t|l|t]; try (destruct S as [S|[S|S]]; discriminate S).
    cbn [compile_compound] in E. cinv E u s1 E1. cloc E n. injection E as _ <-.
    exact (ok_silent_form _ _ R0 _ _ _ _ _ _ S A E1).
  Qed.
End Generators.

Theorem compile_ok cfg : (forall n, In n (callbacks cfg) -> kind_of n = KPlain) ->
  forall fuel depth, rec_ok cfg (compile cfg fuel depth).
Proof.
  intros CO. induction fuel as [|fuel IH]; intros depth; [split; discriminate|].
  assert (D : forall {A} (m : CM A) d s r, (if max_depth cfg <=? d then cerr bufferOverflow else m) s = Ok r -> m s = Ok r).
  { intros A m d s r. destruct (max_depth cfg <=? d); [discriminate|auto]. }
  split; intros; cbn [compile] in *.
  - match goal with H : _ = Ok _ |- _ => apply D in H end. eapply compile_compound_ok; eauto.
  - match goal with H : _ = Ok _ |- _ => cinv H u s1 E1; injection H as _ <- end. eapply compile_expression_ok; eauto.
  - match goal with H : _ = Ok _ |- _ => apply D in H end. eapply silent_compound; eauto.
  - match goal with H : _ = Ok _ |- _ => cinv H u s1 E1; injection H as _ <- end. eapply silent_expression; eauto.
  - match goal with H : _ = Ok _ |- _ => cinv H u s1 E1; injection H as _ <- end. eapply generator_expression_ok; eauto.
  - match goal with H : _ = Ok _ |- _ => cinv H u s1 E1; injection H as _ <- end. eapply generator_noscope_ok; eauto.
Qed.

(** The state of the compiler when every callback has been linked. *)
Theorem program_pieces cfg fuel e y g r s' :
  (forall n, In n (callbacks cfg) -> kind_of n = KPlain) -> consistent y -> incl (callbacks cfg) (sym_array y) ->
  regular false e = true -> compileAST cfg fuel e (compile_state y g) = Ok (r, s') ->
  exists m c K, assembly s' = c ++ [AHalt] /\ piece (-1) m 0 c [] (locals_length s' + 1) 0 (label_number s') K /\ K <= 0 /\ 0 <= locals_length s'.
Proof.
  intros CO CY CI G E. set (s := compile_state y g) in *. set (x := Ctx (-1) 0 0 []).
  assert (A : at_start cfg x [] s).
  { split; [|reflexivity]. constructor; cbn; auto; try lia. }
  unfold compileAST in E. cinv E i s1 E1. cloc E n. cinv E u s2 E2.
  destruct (ok_compound _ _ (compile_ok cfg CO fuel 0) _ _ _ _ _ _ _ G A E1) as ((bs & T & V1) & W1 & N1). cbn match in N1.
  change (locals_length s) with 0 in N1. pose proof (val_ready _ _ _ _ _ V1) as R1.
  assert (X2 : val cfg x bs s1 s2 /\ 1 <= locals_length s2).
  { destruct (Z.ltb_spec 1 (locals_length s1)).
    - cinv E2 u3 s3 E3.
      destruct (emit_move_val cfg x bs s1 _ _ _ _ R1 E3) as [V3 N3]; [unfold within; cbn; lia|unfold within; cbn; lia|].
      destruct (emit_pop_val cfg x bs s3 _ _ _ (val_ready _ _ _ _ _ V3) E2) as [V4 N4]; [unfold size; cbn; lia|].
      split; [eapply val_trans; eauto|lia].
    - injection E2 as _ <-. split; [apply val_refl; exact R1|lia]. }
  destruct X2 as [V2 N2]. destruct (val_trans _ _ _ _ _ _ _ V1 V2) as (c & B & M & P).
  pose proof (mv_codes _ _ _ _ _ _ _ M) as C. unfold codes in C. cbn [s compile_state body assembly app] in C. destruct C as (C1 & C2 & ->).
  apply emit_plainly in E as [L NL]. pose proof (pl_codes _ _ _ L) as C. unfold codes in C. rewrite C1, C2 in C. destruct C as (_ & C3 & _).
  rewrite C3. unfold stretch, size in P. cbn [x own main base] in P. change (locals_length s - 0) with 0 in P. change (label_number s) with 0 in P.
  pose proof (mv_ready _ _ _ _ _ _ _ M) as RM.
  exists (main x), c, (taken (scopes s2)). split; [reflexivity|]. rewrite (pl_label _ _ _ L), NL. replace (locals_length s2 + -1 + 1) with (locals_length s2 - 0) by lia.
  split; [exact P|]. split; [|lia]. clear P.
  pose proof (r_stands _ _ _ _ RM) as RS. pose proof (r_uvs _ _ _ _ RM) as RU. cbn [x outer] in RU.
  destruct T as [-> |[_ ->]].
  - inversion RS as [Q|]. cbn. lia.
  - destruct (scopes s2) as [|sc st]; [inversion RS|]. apply f2_cons in RS as [SK RS]. inversion RS. subst.
    rewrite taken_cons. cbn [uvs_ok] in RU. rewrite (st_flag _ _ SK) in *. cbn [of_function] in *. rewrite RU. cbn. lia.
Qed.
Theorem program_framed cfg fuel e y g r s' :
  (forall n, In n (callbacks cfg) -> kind_of n = KPlain) -> consistent y -> incl (callbacks cfg) (sym_array y) ->
  regular false e = true -> compileAST cfg fuel e (compile_state y g) = Ok (r, s') ->
  exists f, framed (assembly s') f.
Proof.
  intros CO CY CI G E. destruct (program_pieces cfg fuel e y g r s' CO CY CI G E) as (m & c & K & -> & P & HK & Hl).
  eapply pieces_framed; [exact P|exact HK|lia].
Qed.

(** The compiler emits what [comp] says: sequences and the whole recursion. *)
From Coq Require Import String Ascii ZArith List Bool Lia Floats.SpecFloat.
From Coq Require Import ZifyBool ZifyNat.
From Flocq Require Import IEEE754.BinarySingleNaN.
From Verif Require Import M_Base M_Trie M_Instr M_Asm M_Parser M_Symbol M_Scope M_Compile.
From Verif Require Import S_Symbol S_Scope S_Compile P_Symbol P_Scope P_Compile P_Compile2 P_Compile3 P_Compile4.
Import ListNotations.
Open Scope Z_scope.
Open Scope list_scope.

Section Named.
Context {NU : names_used} {OU : outer}.

Definition declares (i : item) : bool := match i with Do _ => false | _ => true end.
Definition dummy (rec : task -> CM Z) : Prop := forall i st0 st code n L bs F (Q : Z -> cstate -> Prop),
  declares i = true -> run st0 st code n L bs F -> (forall j s, run st0 s code n L bs F -> Q j s) ->
  does (rec (Compound (item_tree i) true)) st Q.

Definition callees (cfg : config) : Prop := forall f, callable f = true -> ~ In f (callbacks cfg) /\ find_generator f = None.
Lemma name_is_true x y : name_is x y = true -> x = y.
Proof. unfold name_is. destruct (list_eq_dec Z.eq_dec x y); [auto|discriminate]. Qed.
Lemma no_binder cfg e : callees cfg -> good e = true -> binder (tree e) = None.
Proof.
  intros HC G. destruct e as [l| |x|d|u e|b e1 e2|es|c x y|p c b|c b|x e|x e|b|f es|f es]; try reflexivity.
  - destruct l; reflexivity.
  - destruct u; vm_compute; reflexivity.
  - destruct b; vm_compute; reflexivity.
  - cbn [tree]. destruct p; vm_compute; reflexivity.
  - cbn [good] in G. apply andb_true_iff in G as [G _]. destruct b as [|i b]; [reflexivity|].
    destruct i as [e|x e|b0]; try reflexivity. cbn in G. destruct e; try discriminate G; try reflexivity.
    cbn. destruct l; reflexivity.
  - cbn [good] in G. rewrite !andb_true_iff in G. destruct G as [[G _] _]. destruct (HC f G) as [_ Hg]. cbn [tree binder].
    repeat match goal with |- context [name_is f ?x] => let Hn := fresh in destruct (name_is f x) eqn:Hn; [apply name_is_true in Hn; subst f; vm_compute in Hg; discriminate|] end.
    reflexivity.
Qed.
Lemma comp_code ids vs n L e c c' n' L' : gcomp ids True vs n L e c n' L' -> c = c' -> gcomp ids True vs n L e c' n' L'.
Proof. intros H <-. exact H. Qed.
Lemma items_code ids vs n L e c c' new n' L' : gcomp_items ids True vs n L e c new n' L' -> c = c' -> gcomp_items ids True vs n L e c' new n' L'.
Proof. intros H <-. exact H. Qed.

Section Generators.
  Variable cfg : config.
  Variable rec : task -> CM Z.
  Hypothesis S : sub rec.
  Hypothesis D : dummy rec.
  Hypothesis Hcb : forall k, In k keywords -> ~ In k (callbacks cfg).
  Hypothesis Hcall : callees cfg.

  Section Here.
  Variables (st : cstate) (bs : list block).
  Hypothesis O : ok st bs.
  Hypothesis P : 0 <= locals_length st.

  Ltac init := pose proof (run_start st bs O) as R.

  Lemma conditional_does p c b h : good_condition c && good c && forallb good_item b = true ->
    does (generator_conditional rec p (h :: tree c :: map item_tree b)) st (outcome st bs (EWhen p c b)).
  Proof.
    intros G. rewrite !andb_true_iff in G. destruct G as [[Gc1 Gc] Gb]. init. unfold generator_conditional. st.
    unfold checkArgs. destruct (3 <=? _)%nat; [|st]. st.
    destruct (is_lit c) as [l|] eqn:IL.
    - destruct c; try discriminate. injection IL as ->. cbn [tree]. rewrite literal_condition_tree by assumption. cbv iota.
      destruct (Bool.eqb (literal_true l) p) eqn:E.
      + apply eqb_prop in E. st. eapply r_progn; [exact S|exact R|lia|exact Gb|]. intros i s cb Lb bs' RT R1. st.
        eapply finish; [exact R1|exact RT|]. intros ids [_ C]. apply c_when_taken; assumption.
      + apply eqb_false_iff in E. unfold emit_nil. st. eapply finish; [exact R0|apply rooted_refl|]. intros ids _.
        apply c_when_not. destruct (literal_true l), p; cbn; congruence.
    - assert (forall (pops : Z -> Z), (forall n1, pops n1 = if is_var c then 0 else n1 - locals_length st) ->
         does (rec (Compound (tree c) true) >>>
               (let* n := locals in
                let* then_ := new_label in
                let* end_ := new_label in
                emit_brnz then_ (pops n) >>>
                (let* start := locals in
                 (if p then emit_nil else rec (Progn (map item_tree b)) >>> cret tt) >>>
                 locals_to start >>> emit_jump end_ >>> emit_label then_ >>>
                 (if p then rec (Progn (map item_tree b)) >>> cret tt else emit_nil) >>> emit_label end_))) st (outcome st bs (EWhen p c b))) as K.
      { intros pops Hp. st. eapply r_comp; [exact S|exact R|lia|exact Gc|]. intros s1 cc n1 L1 bs1 RT1 Hn1 R1.
        st. st. st. st. st. rewrite Hp. st. unfold emit_brnz.
        destruct (Z.ltb_spec (if is_var c then 0 else n1 - locals_length st) 0); [destruct (is_var c); lia|]. st. st. st.
        set (m := n1 + - (if is_var c then 0 else n1 - locals_length st)) in *.
        assert (m = (if is_var c then n1 else locals_length st)) as Em by (subst m; destruct (is_var c); lia).
        assert (0 <= m) as Pm by (rewrite Em; destruct (is_var c); lia).
        assert ((if is_var c then 0 else n1 - locals_length st) = n1 - m) as Ep by (rewrite Em; destruct (is_var c); lia).
        pose proof (rooted_trans _ _ _ RT1 (rooted_trans _ _ _ RT RT0)) as RTa.
        rewrite Ep in *. clearbody m.
        destruct p.
        - unfold emit_nil. st. st. st. st. unfold emit_jump. st. st. unfold emit_label at 1. st. st. st.
          eapply r_progn; [exact S|eassumption|lia|exact Gb|]. intros i' s9 cb Lb bs9 RT9 R9. st. unfold emit_label. st.
          eapply finish; [eassumption|eapply rooted_trans; eassumption|]. intros ids [[_ C1] C2]. rewrite (rooted_fv _ _ RTa) in C2.
          pose proof (c_when ids True (fv bs) (locals_length st) (label_number st) c b cc n1 L1 m cb (m + 0 + 0 + 1) Lb IL C1 Em) as K.
          eapply comp_code; [|repeat rewrite <- app_assoc; cbn [app]; reflexivity].
          replace (m + 0 + 0 + 1 + 0) with (m + 0 + 0 + 1) by lia. eapply comp_code; [apply K|].
          + replace (L1 + 2) with (L1 + 1 + 1) by lia. replace m with (m + 0 + 0) by lia. replace (m + 0 + 0 + 0 + 0) with (m + 0 + 0) by lia. exact C2.
          + cbn [app]. reflexivity.
        - st. eapply r_progn; [exact S|eassumption|lia|exact Gb|]. intros i' s9 cb Lb bs9 RT9 R9. st. st. st.
          st. unfold emit_jump. st. st. unfold emit_label at 1. st. st. unfold emit_nil. st. unfold emit_label. st.
          eapply finish; [eassumption|eapply rooted_trans; eassumption|]. intros ids [[_ C1] C2]. rewrite (rooted_fv _ _ RTa) in C2.
          replace (L1 + 1 + 1) with (L1 + 2) in C2 by lia.
          replace (m + 0 + 0 + 1 + 0) with (m + 1) by lia.
          eapply comp_code; [apply (c_unless ids True (fv bs) (locals_length st) (label_number st) c b cc n1 L1 m cb (m + 1) Lb IL C1 Em C2)|].
          repeat (rewrite <- app_assoc; cbn [app]). reflexivity. }
      destruct (no_literal c IL) as [[N [_ [z ->]]]|[_ [N [l [T V]]]]].
      + rewrite N. cbn [tree]. st. apply (K (fun _ => 0)). reflexivity.
      + rewrite N, T. st. rewrite <- T. apply (K (fun n1 => n1 - locals_length st)). rewrite V. reflexivity.
  Qed.

  Lemma loop_tree c : good_loop c = true ->
    (exists l, c = ELit l /\ literal_true l = false /\ (literal_condition (literal_tree l) = Some false)) \/
    literal_condition (tree c) = None.
  Proof.
    intros G. destruct (is_lit c) as [l|] eqn:IL.
    - destruct c; try discriminate. injection IL as ->. cbn in G. left. exists l.
      destruct l as [b|n|f|s]; cbn in *.
      + destruct b; [discriminate|auto].
      + destruct (n =? 0); [auto|discriminate].
      + destruct f as [s|s| |s m e]; try destruct s; cbn in *; try discriminate; auto.
      + discriminate.
    - right. destruct c; try discriminate; reflexivity.
  Qed.
  Lemma while_does c b h : good_loop c && good c && forallb good_item b = true ->
    does (generator_while rec (h :: tree c :: map item_tree b)) st (outcome st bs (EWhile c b)).
  Proof.
    intros G. rewrite !andb_true_iff in G. destruct G as [[Gc1 Gc] Gb]. init. unfold generator_while. st.
    unfold checkArgs. destruct (3 <=? _)%nat; [|st]. st.
    assert (does
         (let* start := new_label in
          let* loop := new_label in
          emit_jump start >>> emit_label loop >>> loop_body rec (map item_tree b) >>> emit_label start >>>
          (let* height := locals in
           rec (Compound (tree c) true) >>>
           (let* n := locals in emit_brnz loop (n - height) >>> emit_nil))) st (outcome st bs (EWhile c b))) as K.
    { st. st. st. st. st. unfold emit_jump. st. st. unfold emit_label at 1. st. st. unfold loop_body. st. st. st. st.
      eapply r_progn; [exact S|eassumption|lia|exact Gb|]. intros i s9 cb Lb bs9 RT9 R9. st.
      destruct (Z.ltb_spec (locals_length st + 0 + 0) (locals_length st + 0 + 0 + 1)); [|lia]. st. rewrite emit_pop_pos by lia. st.
      apply rooted_cons in RT9. subst bs9. st. st. unfold emit_label. st. st. st.
      eapply r_comp; [exact S|eassumption|lia|exact Gc|]. intros s10 cc n1 L1 bs1 RT1 Hn1 R9'. st. st. unfold emit_brnz.
      match goal with |- context[if ?x <? 0 then _ else _] => destruct (Z.ltb_spec x 0); [lia|] end.
      st. unfold emit_nil. st.
      eapply finish; [eassumption| |].
      - repeat (eapply rooted_trans; [eassumption|]). apply rooted_refl.
      - intros ids [[_ C1] C2]. 
        pose proof (rooted_trans _ _ _ RT RT0) as RTa. rewrite (rooted_fv _ _ RTa) in C2.
        change (fv ({| vars := []; funs := []; of_function := false |} :: bs'0)) with (fv bs'0) in C1.
        rewrite (rooted_fv _ _ RTa) in C1.
        set (n := locals_length st) in *. set (L := label_number st) in *.
        replace (n + 0 + 0) with n in * by lia. replace (L + 1 + 1) with (L + 2) in * by lia.
        replace (n + 1 + - (n + 1 - n) + 0) with n in * by lia.
        replace (n1 + - (n1 - n) + 1) with (n + 1) by lia.
        eapply comp_code; [apply (c_while ids True (fv bs) n L c b cb (n + 1) Lb cc n1 L1 C1 C2)|].
        repeat (rewrite <- app_assoc; cbn [app]). reflexivity. }
    destruct (loop_tree c Gc1) as [[l [-> [E1 E2]]]|E].
    - cbn [tree] in *. rewrite E2. destruct l; cbn [literal_tree]; exact K.
    - rewrite E. destruct (tree c) eqn:T; try exact K; destruct c as [lt| | | | | | | | | | | | | | ]; try discriminate T; destruct lt; discriminate T.
  Qed.
  End Here.

  (** Sequences. *)
  Lemma createVar_does x e h st0 st code n L blk r F (Q : unit -> cstate -> Prop) : good e = true ->
    run st0 st code n L (blk :: r) F -> 0 <= n ->
    (forall s c n1 L1, run st0 s (code ++ c ++ move_down n n1 ++ [APushIndex 1]) (n + 2) L1
       (Block ((x, n) :: vars blk) (funs blk) (of_function blk) :: r)
       (fun ids => F ids /\ gcomp ids True (fv (blk :: r)) n L e c n1 L1) -> Q tt s) ->
    does (createVar rec [h; AstIdentifier x; tree e]) st Q.
  Proof.
    intros G R P H. unfold createVar. st. unfold checkArgs. cbn [length Nat.eqb]. st. st. st.
    eapply r_comp; [exact S|exact R|lia|exact G|]. intros s c n' L' bs' RT Hn R1. apply rooted_cons in RT. subst bs'.
    st. eapply r_object; [exact R1|lia|]. intros s2 R2. st. st.
    assert (forall s3, run st0 s3 ((code ++ c) ++ move_down n n') (n + 1) L' (Block ((x, n) :: vars blk) (funs blk) (of_function blk) :: r)
       (fun ids => F ids /\ gcomp ids True (fv (blk :: r)) n L e c n' L') -> does (emit_pushIndex n) s3 Q) as K.
    { intros s3 R3. unfold emit_pushIndex. st. st. apply (H _ c n' L').
      replace (n + 1 - n) with 1 in * by lia. replace (n + 1 + 1) with (n + 2) in * by lia.
      rewrite <- !app_assoc in *. exact R0. }
    unfold emit_move, move_down in *. destruct (Z.eqb_spec n (n' - 1)) as [E|E].
    - st. st. destruct (Z.ltb_spec (n + 1) n'); [lia|]. st. apply K. cbn [app].
      destruct (Z.ltb_spec 0 (n' - n - 1)); [lia|]. rewrite app_nil_r. replace (n + 1) with n' by lia. exact R2.
    - st. st. st. destruct (Z.ltb_spec (n + 1) n'); [|lia]. rewrite emit_pop_pos by lia. st. apply K.
      destruct (Z.ltb_spec 0 (n' - n - 1)); [|lia]. replace (n' - (n' - 1)) with 1 in * by lia.
      rewrite <- !app_assoc in *. cbn [app] in *. replace (n' + 0 + - (n' - n - 1)) with (n + 1) in * by lia. exact R3.
  Qed.

  Lemma loop_does b : forallb good_item b = true -> b <> [] -> forall st0 st code n L blk r F (Q : unit -> cstate -> Prop),
    run st0 st code n L (blk :: r) F -> 0 <= n ->
    (forall s code' new n' L', run st0 s (code ++ code') n' L' (Block (new ++ vars blk) (funs blk) (of_function blk) :: r)
       (fun ids => F ids /\ gcomp_items ids True (fv (blk :: r)) n L b code' new n' L') -> Q tt s) ->
    does (noscope_loop rec (map item_tree b)) st Q.
  Proof.
    induction b as [|i b IH]; intros G NE st0 st code n L blk r F Q R P H; [contradiction|].
    cbn [forallb] in G. apply andb_true_iff in G as [Gi Gb]. cbn [map noscope_loop].
    assert (match map item_tree b with [] => true | _ => false end = match b with [] => true | _ => false end) as ->
      by (destruct b; reflexivity).
    destruct (declares i) eqn:Di.
    - st. st. apply (D i _ _ _ _ _ _ _ _ Di R). intros j s R1. st.
      destruct i as [e|x e|sp]; [discriminate| |].
      + change (binder (item_tree (Def x e))) with (Some GVar). cbn [item_tree form_of]. st.
        eapply createVar_does; [exact Gi|exact R1|exact P|]. intros s2 c n1 L1 R2.
        destruct b as [|i2 b].
        * st. cbn [map noscope_loop]. st. eapply (H _ _ [(x, n)] (n + 2) L1). eapply run_weaken; [exact R2|].
          intros ids [HF C]. split; [exact HF|]. apply i_def_last. exact C.
        * rewrite emit_pop_pos by lia. st.
          eapply (IH Gb ltac:(discriminate)); [eassumption|lia|]. intros s3 cr new nr Lr R3.
          eapply (H _ ((c ++ move_down n n1 ++ [APushIndex 1; APop 1]) ++ cr) (new ++ [(x, n)]) nr Lr).
          cbn [vars funs of_function] in R3.
          eapply run_code; [eapply run_weaken; [|]|].
          -- rewrite <- (app_assoc new). exact R3.
          -- intros ids [[HF C] C2]. split; [exact HF|]. eapply i_def; [discriminate|exact C|].
             replace (n + 1) with (n + 2 + - (1)) by lia. exact C2.
          -- repeat (rewrite <- app_assoc; cbn [app]). reflexivity.
      + change (binder (item_tree (Splice sp))) with (Some GNoscope). cbn [item_tree form_of tl]. st. st.
        eapply r_noscope; [exact S|exact R1|exact P|exact Gi|]. intros j2 s2 c new n1 L1 Hn1 R2. st.
        destruct b as [|i2 b].
        * st. cbn [map noscope_loop]. st. eapply (H _ _ new n1 L1). eapply run_weaken; [exact R2|].
          intros ids [HF C]. split; [exact HF|]. apply i_splice_last. exact C.
        * rewrite emit_pop_pos by lia. st.
          eapply (IH Gb ltac:(discriminate)); [eassumption|lia|]. intros s3 cr new' nr Lr R3.
          eapply (H _ ((c ++ [APop 1]) ++ cr) (new' ++ new) nr Lr).
          cbn [vars funs of_function] in R3.
          eapply run_code; [eapply run_weaken; [|]|].
          -- rewrite <- (app_assoc new'). exact R3.
          -- intros ids [[HF C] C2]. split; [exact HF|]. eapply i_splice; [discriminate|exact C|].
             replace (n1 - 1) with (n1 + - (1)) by lia. unfold fv in *. cbn [map vars concat] in *. rewrite app_assoc. exact C2.
          -- repeat (rewrite <- app_assoc; cbn [app]). reflexivity.
    - destruct i as [e|x e|sp]; try discriminate. cbn [item_tree good_item] in *. st. st.
      eapply r_comp; [exact S|exact R|lia|exact Gi|]. intros s c n1 L1 bs1 RT1 Hn1 R1. apply rooted_cons in RT1. subst bs1.
      st. rewrite (no_binder cfg e Hcall Gi). st. destruct b as [|i2 b].
      + cbn [map]. destruct (Z.ltb_spec 0 (n1 - n - 1)) as [E|E].
        * st. replace (n1 - 1 - (n1 - n - 1)) with n by lia. unfold emit_move. destruct (Z.eqb_spec n (n1 - 1)); [lia|].
          st. st. rewrite emit_pop_pos by lia. st. cbn [noscope_loop]. st.
          eapply (H _ _ [] (n + 1) L1). destruct blk as [bv bf bo]. cbn [app vars funs of_function].
          replace (n1 + 0 + - (n1 - n - 1)) with (n + 1) in * by lia.
          eapply run_code; [eapply run_weaken; [exact R2|]|].
          -- intros ids [HF C]. split; [exact HF|]. eapply i_do_last. exact C.
          -- unfold move_down. destruct (Z.eqb_spec n (n1 - 1)); [lia|]. destruct (Z.ltb_spec 0 (n1 - n - 1)); [|lia].
             replace (n1 - (n1 - 1)) with 1 by lia. repeat (rewrite <- app_assoc; cbn [app]). reflexivity.
        * replace (Z.to_nat (- (n1 - n - 1))) with O by lia. cbn [repeat_push]. st. cbn [noscope_loop]. st.
          eapply (H _ _ [] (n + 1) L1). destruct blk as [bv bf bo]. cbn [app vars funs of_function].
          assert (n1 = n + 1) as -> by lia. 
          eapply run_code; [eapply run_weaken; [exact R1|]|].
          -- intros ids [HF C]. split; [exact HF|]. eapply i_do_last. exact C.
          -- unfold move_down. destruct (Z.eqb_spec n (n + 1 - 1)); [|lia]. destruct (Z.ltb_spec 0 (n + 1 - n - 1)); [lia|].
             cbn [app]. rewrite app_nil_r. reflexivity.
      + destruct (Z.ltb_spec 0 (n1 - n - 0)); [|lia]. st. st. rewrite emit_pop_pos by lia. st.
        eapply (IH Gb ltac:(discriminate)); [eassumption|lia|]. intros s3 cr new nr Lr R3.
        eapply (H _ ((c ++ [APop (n1 - n)]) ++ cr) new nr Lr).
        eapply run_code; [eapply run_weaken; [exact R3|]|].
        * intros ids [[HF C] C2]. split; [exact HF|]. eapply i_do; [discriminate|exact C|].
          replace n with (n1 + - (n1 - n - 0)) by lia. exact C2.
        * rewrite Z.sub_0_r. repeat (rewrite <- app_assoc; cbn [app]). reflexivity.
  Qed.
  Lemma noscope_does b st0 st code n L blk r F (Q : unit -> cstate -> Prop) : forallb good_item b = true ->
    run st0 st code n L (blk :: r) F -> 0 <= n ->
    (forall s code' new n' L', run st0 s (code ++ code') n' L' (Block (new ++ vars blk) (funs blk) (of_function blk) :: r)
       (fun ids => F ids /\ gcomp_items ids True (fv (blk :: r)) n L b code' new n' L') -> Q tt s) ->
    does (generator_noscope rec (map item_tree b)) st Q.
  Proof.
    intros G R P H. unfold generator_noscope. destruct b as [|i b].
    - cbn [map noscope_loop]. st. st. unfold emit_nil. st. apply (H _ [ANil] [] (n + 1) L).
      destruct blk as [bv bf bo]. cbn [app vars funs of_function]. eapply run_weaken; [exact R0|]. intros ids HF. split; [exact HF|constructor].
    - st. eapply loop_does; [exact G|discriminate|exact R|exact P|]. intros s c new n1 L1 R1. cbn [map]. st.
      eapply H. exact R1.
  Qed.
  Lemma progn_does b st bs : forallb good_item b = true -> ok st bs -> 0 <= locals_length st ->
    does (generator_expression rec (map item_tree b)) st (outcome st bs (EScope b)).
  Proof.
    intros G O P. pose proof (run_start st bs O) as R. unfold generator_expression. st. st. st. st.
    eapply r_noscope; [exact S|eassumption|lia|exact G|]. intros i s2 c new n' L' Hn R2. cbn [vars funs of_function] in R2.
    st. eapply r_top; [exact R2|]. intros sc s3 U R3. unfold emit_releaseUpvalues. rewrite U. cbn [filter]. st. st. st.
    set (n := locals_length st) in *.
    assert (forall s4, run st s4 (c ++ move_down n n') (n + 1) L' bs (fun ids => gcomp_items ids True (fv bs) n (label_number st) b c new n' L') ->
      outcome st bs (EScope b) tt s4) as K.
    { intros s4 R4. eapply finish; [exact R4|apply rooted_refl|]. intros ids C. eapply c_scope. exact C. }
    assert (run st s3 c n' L' (Block (new ++ []) [] false :: bs) (fun ids => gcomp_items ids True (fv bs) n (label_number st) b c new n' L')) as R4.
    { eapply run_weaken; [exact R3|]. intros ids [_ C]. exact C. }
    clear R2 R3. unfold move_down in K. destruct (Z.ltb_spec n (n' - 1)) as [E|E].
    - unfold emit_move. destruct (Z.eqb_spec n (n' - 1)); [lia|]. st. st. st. st.
      destruct (Z.ltb_spec 0 (n' + 0 - (n + 1))); [|lia]. rewrite emit_pop_pos by lia. st. st. try st. apply K.
      destruct (Z.ltb_spec 0 (n' - n - 1)); [|lia].
      replace (n' - (n' - 1)) with 1 in * by lia. replace (n' + 0 - (n + 1)) with (n' - n - 1) in * by lia.
      replace (n' + 0 + - (n' - n - 1)) with (n + 1) in * by lia. rewrite <- !app_assoc in *. cbn [app] in *. assumption.
    - st. st. st. destruct (Z.ltb_spec 0 (n' - (n + 1))); [lia|]. st. st. try st. apply K.
      destruct (Z.eqb_spec n (n' - 1)); [|lia]. destruct (Z.ltb_spec 0 (n' - n - 1)); [lia|]. cbn [app].
      rewrite app_nil_r. replace (n + 1) with n' by lia. assumption.
  Qed.

  (** Forms. *)
  Lemma in_words k : In k (map word ["quote"; "list"; "if"; "when"; "unless"; "while"; "setq"; "global"; "var"; "noscope"; "funcall"]%string) -> In k keywords.
  Proof. intros H. unfold keywords. apply in_or_app. right. apply in_or_app. right. exact H. Qed.
  Lemma form_does e l st bs : good e = true -> tree e = AstExpression l -> ok st bs -> 0 <= locals_length st ->
    does (compile_expression cfg rec l) st (outcome st bs e).
  Proof.
    intros G T O P.
    destruct e as [lt| |x|d|u e|b e1 e2|es|c x y|p c b|c b|x e|x e|b|f es|f es]; cbn [tree] in T; try discriminate T;
      try (injection T as <-; unfold compile_expression; apply does_bind; unfold cget; apply does_cget;
           match goal with |- context [getFunctionFromName cfg (scopes st) ?k] =>
             erewrite (head_generator cfg Hcb st bs k) by
               first [exact O | apply un_keyword | apply bin_keyword | apply un_generator | apply bin_generator |
                      (apply in_words; vm_compute; tauto) | (vm_compute; reflexivity)] end; cbn [generate good] in *).
    - destruct lt; discriminate T.
    - injection T as <-. unfold compile_expression, emit_nil. pose proof (run_start st bs O) as R. st.
      eapply finish; [exact R0|apply rooted_refl|]. intros ids _. constructor.
    - eapply quote_gen_does; eassumption.
    - eapply unary_does; eassumption.
    - apply andb_true_iff in G as [G1 G2]. eapply binary_does; eassumption.
    - eapply list_does; eassumption.
    - eapply if_does; eassumption.
    - injection T as <-. unfold compile_expression. apply does_bind; unfold cget; apply does_cget. destruct p.
      + erewrite (head_generator cfg Hcb st bs (word "when")) by
               first [exact O | (apply in_words; vm_compute; tauto) | (vm_compute; reflexivity)]. eapply conditional_does; eassumption.
      + erewrite (head_generator cfg Hcb st bs (word "unless")) by
               first [exact O | (apply in_words; vm_compute; tauto) | (vm_compute; reflexivity)]. eapply conditional_does; eassumption.
    - eapply while_does; eassumption.
    - eapply setq_does; eassumption.
    - eapply global_does; eassumption.
    - injection T as <-. cbn [good] in G. apply andb_true_iff in G as [Gh Gb].
      assert (does (rec (Progn (map item_tree b)) >>> cret tt) st (outcome st bs (EScope b))) as K.
      { st. pose proof (run_start st bs O) as R. eapply r_progn; [exact S|exact R|lia|exact Gb|]. intros i s cb Lb bs' RT R1. st.
        eapply finish; [exact R1|exact RT|]. intros ids [_ C]. exact C. }
      destruct b as [|i b]; [discriminate|]. cbn [map]. cbn [map] in K.
      destruct i as [e|x e|sp]; try exact K. cbn [item_tree good_head] in *.
      destruct e as [lt| |x|d|u e|b0 e1 e2|es|c x y|p c b0|c b0|x e|x e|b0|f es|f es]; try discriminate Gh; try exact K.
      destruct lt; exact K.
    - injection T as <-. unfold compile_expression. apply does_bind; unfold cget; apply does_cget. cbn [good] in G.
      rewrite (head_call cfg Hcall st bs f O) by (rewrite !andb_true_iff in G; tauto). eapply call_does; eassumption.
    - rewrite !andb_true_iff in G. destruct G as [[[_ G1] G2] G3]. eapply funcall_does; eauto. rewrite G1, G2, G3. reflexivity.
  Qed.

  Lemma compound_does e ref st bs : good e = true -> ok st bs -> 0 <= locals_length st ->
    does (compile_compound rec (tree e) ref) st (fun i s => exists code n' L' bs', since st s code n' L' bs' /\ rooted bs bs' /\
      forall ids, agrees (symbols_of s) ids ->
        if ref then gcomp ids True (fv bs) (locals_length st) (label_number st) e code n' L' /\ i = callee_slot (fv bs) e n'
        else garg ids True (fv bs) (locals_length st) (label_number st) e code n' L' i).
  Proof.
    intros G O P. pose proof (run_start st bs O) as R.
    set (Q := fun i s => _).
    assert (forall s code n' L' bs' F, run st s code n' L' bs' F -> rooted bs bs' ->
      (forall ids, F ids -> gcomp ids True (fv bs) (locals_length st) (label_number st) e code n' L') ->
      (forall x, e = EVar x -> find_name (fv bs) x = None) -> Q (n' - 1) s) as K.
    { intros s code n' L' bs' F [S1 Fa] RT H V. exists code, n', L', bs'. split; [exact S1|]. split; [exact RT|].
      intros ids A. destruct ref; [|apply arg_other; auto]. split; [auto|]. destruct e; try reflexivity. cbn. rewrite (V x eq_refl). reflexivity. }
    destruct (is_lit e) as [l|] eqn:IL.
    { destruct e; try discriminate. injection IL as ->. cbn [good tree] in *.
      assert (does (let* _ := (match literal_tree l with
        | AstBool b => emit_pushBoolean b | AstInt n => emit_pushInteger n
        | AstFloat f => emit_pushDoubleFloat f | AstString s => emit_pushString s | _ => cub end) in
        let* n := locals in cret (n - 1)) st Q) as X.
      { st. eapply literal_does; [exact G|exact R|]. intros s R1. st. st. eapply K; [exact R1|apply rooted_refl| |intros; discriminate].
        intros ids _. constructor. }
      destruct l; exact X. }
    destruct (no_literal e IL) as [[_ [_ [z ->]]]|[_ [_ [l [T V]]]]].
    - cbn [tree compile_compound]. cbn [good] in G. st. st. destruct (find_name (fv bs) z) as [s0|] eqn:E.
      + destruct ref.
        * unfold emit_pushIndex. st. st. st. st. exists [APushIndex (locals_length st - s0)], (locals_length st + 1), (label_number st), bs.
          split; [apply R1|]. split; [apply rooted_refl|]. intros ids _. split; [apply c_local; exact E|]. cbn. rewrite E. reflexivity.
        * st. exists [], (locals_length st), (label_number st), bs. split; [apply R0|]. split; [apply rooted_refl|].
          intros ids _. apply arg_local. exact E.
      + st. st. unfold emit_pushGlobal. st. st. st. st. eapply K; [exact R2|apply rooted_refl| |].
        * intros ids [_ <-]. apply c_nonlocal. exact E.
        * intros x [= <-]. exact E.
    - rewrite T. cbn [compile_compound]. st. eapply r_form; [exact S|exact R|lia|exact G|exact T|].
      intros i s c n' L' bs' RT Hn R1. st. st. eapply K; [exact R1|exact RT| |].
      + intros ids [_ C]. exact C.
      + intros x ->. discriminate.
  Qed.
  Lemma dummy_form i l : declares i = true -> item_tree i = AstExpression l ->
    forall st0 st code n L bs F (Q : unit -> cstate -> Prop),
    run st0 st code n L bs F -> (forall s, run st0 s code n L bs F -> Q tt s) -> does (compile_expression cfg rec l) st Q.
  Proof.
    intros Di T st0 st code n L bs F Q R H. destruct (r_here _ _ _ _ _ _ _ R) as [O [E1 E2]].
    destruct i as [e|x e|sp]; [discriminate| |]; cbn [item_tree] in T; injection T as <-; unfold compile_expression;
      apply does_bind; unfold cget; apply does_cget;
      match goal with |- context [getFunctionFromName cfg (scopes st) ?k] =>
             erewrite (head_generator cfg Hcb st bs k) by
               first [exact O | (apply in_words; vm_compute; tauto) | (vm_compute; reflexivity)] end; cbn [generate]; st; apply H; exact R.
  Qed.
End Generators.

(** The recursion. *)
Theorem compile_sub_in cfg : (forall k, In k keywords -> ~ In k (callbacks cfg)) -> callees cfg ->
  forall f d, sub (compile cfg f d) /\ dummy (compile cfg f d) /\
    (forall i l, declares i = true -> item_tree i = AstExpression l ->
      forall st0 st code n L bs F (Q : Z -> cstate -> Prop),
      run st0 st code n L bs F -> (forall s, run st0 s code n L bs F -> Q 0 s) -> does (compile cfg f d (Form l)) st Q).
Proof.
  intros Hcb Hcall. induction f as [|f IH]; intros d.
  - split; [split; intros; intros ? ? [=]|split].
    + intros i; intros; intros ? ? [=].
    + intros i; intros; intros ? ? [=].
  - destruct (IH d) as [S [D DF]]. destruct (IH (d + 1)) as [S1 [D1 DF1]].
    split; [split|split].
    + intros e ref st bs G P O. cbn [compile]. destruct (max_depth cfg <=? d + 1); [apply does_err|].
      eapply compound_does; eassumption.
    + intros e l st bs G T P O. cbn [compile]. apply does_bind.
      eapply does_weaken; [eapply form_does; eassumption|]. intros [] s K. apply does_ret. exact K.
    + intros b st blk r G P O. cbn [compile]. apply does_bind.
      pose proof (run_start st (blk :: r) O) as R. eapply noscope_does; try eassumption. intros s c new n' L' [R1 R2]. apply does_ret.
      exists c, new, n', L'. split; [exact R1|]. intros ids A. apply R2. exact A.
    + intros b st bs G P O. cbn [compile]. apply does_bind.
      eapply does_weaken; [eapply progn_does; eassumption|]. intros [] s K. apply does_ret. exact K.
    + intros i st0 st code n L bs F Q Di R H. cbn [compile]. destruct (max_depth cfg <=? d + 1); [apply does_err|].
      assert (exists l, item_tree i = AstExpression l) as [l T] by (destruct i; try discriminate; cbn; eauto).
      rewrite T. cbn [compile_compound]. apply does_bind. eapply DF1; [exact Di|exact T|exact R|]. intros s R1. st. st. eapply H. exact R1.
    + intros i l Di T st0 st code n L bs F Q R H. cbn [compile]. apply does_bind.
      eapply dummy_form; [exact Hcb|exact Di|exact T|exact R|]. intros s R1. apply does_ret. apply H. exact R1.
Qed.
End Named.

Theorem compile_sub cfg : (forall k, In k keywords -> ~ In k (callbacks cfg)) ->
  forall f d, sub (compile cfg f d) /\ dummy (compile cfg f d) /\
    (forall i l, declares i = true -> item_tree i = AstExpression l ->
      forall st0 st code n L bs F (Q : Z -> cstate -> Prop),
      run st0 st code n L bs F -> (forall s, run st0 s code n L bs F -> Q 0 s) -> does (compile cfg f d (Form l)) st Q).
Proof. intros H. apply compile_sub_in; [exact H|]. intros f F. discriminate F. Qed.

(** The compiler emits what [comp] says: every core program. *)
From Coq Require Import String Ascii ZArith List Bool Lia Floats.SpecFloat.
From Coq Require Import ZifyBool ZifyNat.
From Flocq Require Import IEEE754.BinarySingleNaN.
From Verif Require Import M_Base M_Trie M_Instr M_Asm M_Parser M_Symbol M_Scope M_Compile.
From Verif Require Import S_Symbol S_Scope S_Compile P_Symbol P_Scope P_Compile P_Compile2 P_Compile3.
Import ListNotations.
Open Scope Z_scope.
Open Scope list_scope.

Section Named.
Context {NU : names_used} {OU : outer}.

Definition outcome {A} st bs e : A -> cstate -> Prop := fun _ s => exists code n' L' bs',
  since st s code n' L' bs' /\ rooted bs bs' /\
  forall ids, agrees (symbols_of s) ids -> gcomp ids True (fv bs) (locals_length st) (label_number st) e code n' L'.
Lemma finish {A} st s code n L bs bs0 F e (a : A) : run st s code n L bs F -> rooted bs0 bs ->
  (forall ids, F ids -> gcomp ids True (fv bs0) (locals_length st) (label_number st) e code n L) -> outcome st bs0 e a s.
Proof. intros [S Fa] RT H. exists code, n, L, bs. auto. Qed.

Lemma emit_pop_pos k : k <> 0 -> emit_pop k = emit (APop k) (- k).
Proof. intros H. unfold emit_pop. destruct (Z.eqb_spec k 0); [contradiction|reflexivity]. Qed.

Ltac st :=
  match goal with
  | |- does (cbind locals _) _ _ => eapply r_locals; [eassumption|]; cbv beta
  | |- does (cbind _ _) _ _ => apply does_bind; cbv beta
  | |- does (cret _) _ _ => apply does_ret; cbv beta
  | |- does cub _ _ => apply does_ub
  | |- does (cerr _) _ _ => apply does_err
  | |- does (emit _ _) _ _ => eapply r_emit; [eassumption|]; let R := fresh "R" in intros ? R; cbv beta
  | |- does (locals_to _) _ _ => eapply r_locals_to; [eassumption|]; let R := fresh "R" in intros ? R; cbv beta
  | |- does new_label _ _ => eapply r_label; [eassumption|]; let R := fresh "R" in let RT := fresh "RT" in intros ? ? RT R; cbv beta
  | |- does (push_scope false) _ _ => eapply r_push; [eassumption|]; let R := fresh "R" in intros ? R; cbv beta
  | |- does (look _ false) _ _ => eapply r_look; [eassumption|assumption|]; let R := fresh "R" in intros ? R; cbv beta
  | |- does (symbol _) _ _ => eapply r_symbol; [eassumption|]; let R := fresh "R" in intros ? ? R; cbv beta
  | |- does (addGlobal _) _ _ => eapply r_addGlobal; [eassumption|]; let R := fresh "R" in intros ? ? R; cbv beta
  | |- does (global_key _) _ _ => eapply r_global_key; [eassumption|]; let R := fresh "R" in intros ? ? R; cbv beta
  | |- does pop_scope _ _ => eapply r_pop; [eassumption|reflexivity|]; let R := fresh "R" in intros ? R; cbv beta
  end.

(** The head of a form. *)
Section Head.
  Variable cfg : config.
  Hypothesis Hcb : forall k, In k keywords -> ~ In k (callbacks cfg).

  Lemma scope_function sc bs x : plains sc bs -> callable x = true \/ In x keywords -> getScopeFunction sc x = -1.
  Proof.
    intros F K. induction F as [Eo|s b [P [U Fn]] Hf|s b r br [P [U Fn]] F IH]; cbn [getScopeFunction]; [reflexivity| |];
    rewrite (st_kinds _ _ P), Fn, history_find; cbn; [apply out_head; exact K|exact IH].
  Qed.
  Lemma existsb_name x l : ~ In x l -> existsb (name_is x) l = false.
  Proof.
    intros H. apply not_true_iff_false. intros K. apply existsb_exists in K as [y [I E]]. unfold name_is in E.
    destruct (list_eq_dec Z.eq_dec x y) as [-> |]; [contradiction|discriminate].
  Qed.
  Lemma head_generator st bs k g : ok st bs -> In k keywords -> find_generator k = Some g ->
    getFunctionFromName cfg (scopes st) k = CalleeGenerator g.
  Proof.
    intros O I G. unfold getFunctionFromName. rewrite (scope_function _ _ k (ok_plains _ _ O)) by auto.
    change (-1 =? -1) with true. cbv iota. rewrite existsb_name by auto. rewrite G. reflexivity.
  Qed.
  Hypothesis Hcall : forall f, callable f = true -> ~ In f (callbacks cfg) /\ find_generator f = None.
  Lemma head_call st bs f : ok st bs -> callable f = true -> getFunctionFromName cfg (scopes st) f = CalleeFuncall.
  Proof.
    intros O I. unfold getFunctionFromName. rewrite (scope_function _ _ f (ok_plains _ _ O)) by auto.
    change (-1 =? -1) with true. cbv iota. destruct (Hcall f I) as [C G]. rewrite existsb_name by exact C. rewrite G. reflexivity.
  Qed.
End Head.

Lemma un_keyword u : In (un_word u) keywords.
Proof. destruct u; vm_compute; tauto. Qed.
Lemma bin_keyword b : In (bin_word b) keywords.
Proof. destruct b; vm_compute; tauto. Qed.
Lemma un_generator u : find_generator (un_word u) = Some (GUn u).
Proof. destruct u; vm_compute; reflexivity. Qed.
Definition swaps (b : binop) : bool := match b with BSetCar | BSetCdr => true | _ => false end.
Lemma bin_generator b : find_generator (bin_word b) = Some (GBin b (swaps b)).
Proof. destruct b; vm_compute; reflexivity. Qed.

(** ** Pieces *)
Lemma settle_does st0 st code n L bs F dest (Q : unit -> cstate -> Prop) : run st0 st code n L bs F -> 0 <= dest < n ->
  (forall s, run st0 s (code ++ move_down dest n) (dest + 1) L bs F -> Q tt s) -> does (settle dest) st Q.
Proof.
  intros R D H. unfold settle, move_down in *. st. st. unfold emit_move at 1.
  destruct (Z.eqb_spec dest (n - 1)) as [E|E].
  - st. st. destruct (Z.ltb_spec 0 (n - dest - 1)) as [E2|E2]; [lia|]. st. apply H.
    cbn [app]. rewrite app_nil_r. replace (dest + 1) with n by lia. exact R.
  - st. st. st. destruct (Z.ltb_spec 0 (n + 0 - dest - 1)) as [E2|E2]; [|lia].
    destruct (Z.ltb_spec 0 (n - dest - 1)) as [E3|E3]; [|lia]. rewrite emit_pop_pos by lia.
    replace (n - (n - 1)) with 1 in * by lia. st. apply H.
    rewrite <- app_assoc in R1. cbn [app] in *.
    replace (n + 0 - dest - 1) with (n - dest - 1) in * by lia.
    replace (n + 0 + - (n - dest - 1)) with (dest + 1) in * by lia. exact R1.
Qed.

(** Quoted data. *)
Definition elements_of (last : Z) : list ast -> CM Z :=
  fix elements (l : list ast) : CM Z :=
    match l with
    | [] => cret (last - 1)
    | x :: r =>
      let* last_temp_index := elements r in
      quote_helper x >>>
      let* n := locals in
      emit_bin BCons (n - 1) last_temp_index >>>
      let* n := locals in cret (n - 1)
    end.
Lemma quote_list l : quote_helper (AstExpression l) = (emit_nil >>> let* last := locals in elements_of last l >>> cret tt).
Proof. reflexivity. Qed.

Fixpoint datum_deep (P : datum -> Prop) (f1 : forall l, P (DLit l)) (f2 : forall x, P (DSym x))
  (f3 : forall ds, Forall P ds -> P (DList ds)) (d : datum) : P d :=
  match d with
  | DLit l => f1 l
  | DSym x => f2 x
  | DList ds => f3 ds ((fix all ds : Forall P ds :=
      match ds with [] => Forall_nil P | x :: r => Forall_cons x (datum_deep P f1 f2 f3 x) (all r) end) ds)
  end.

Lemma cut_good s : good_text s = true -> cut s = s.
Proof. unfold good_text, cut. rewrite andb_true_iff. intros [-> _]. reflexivity. Qed.

Lemma literal_does l st0 st code n L bs F (Q : unit -> cstate -> Prop) : good_literal l = true ->
  run st0 st code n L bs F ->
  (forall s, run st0 s (code ++ [literal_code l]) (n + 1) L bs F -> Q tt s) ->
  does (match literal_tree l with
        | AstBool b => emit_pushBoolean b | AstInt n => emit_pushInteger n
        | AstFloat f => emit_pushDoubleFloat f | AstString s => emit_pushString s | _ => cub end) st Q.
Proof.
  intros G R H. destruct l as [b|k|f|s]; cbn [literal_tree]; unfold emit_pushBoolean, emit_pushInteger, emit_pushDoubleFloat, emit_pushString.
  - st. apply H. exact R0.
  - st. apply H. exact R0.
  - st. apply H. exact R0.
  - cbn in G. rewrite (cut_good _ G). st. apply H. exact R0.
Qed.

Lemma run_weaken st0 st code n L bs (F F' : (bytes -> Z) -> Prop) : run st0 st code n L bs F -> (forall ids, F ids -> F' ids) ->
  run st0 st code n L bs F'.
Proof. intros [A B] H. constructor; auto. Qed.
Lemma run_code st0 st code code' n L bs F : run st0 st code n L bs F -> code = code' -> run st0 st code' n L bs F.
Proof. intros R <-. exact R. Qed.

Lemma quote_does d : good_datum d = true -> forall st0 st code n L bs F (Q : unit -> cstate -> Prop),
  run st0 st code n L bs F -> 
  (forall s code' n', run st0 s (code ++ code') n' L bs (fun ids => F ids /\ quoted ids d n code' n') -> Q tt s) ->
  does (quote_helper (datum_tree d)) st Q.
Proof.
  induction d as [l|x|ds IH] using datum_deep; intros G st0 st code n L bs F Q R H.
  - cbn [datum_tree]. cbn [good_datum] in G.
    assert (does (match literal_tree l with
        | AstBool b => emit_pushBoolean b | AstInt n => emit_pushInteger n
        | AstFloat f => emit_pushDoubleFloat f | AstString s => emit_pushString s | _ => cub end) st Q) as K.
    { eapply literal_does; [exact G|exact R|]. intros s R1. eapply H. eapply run_weaken; [exact R1|]. intros ids Fi. split; [exact Fi|constructor]. }
    destruct l; exact K.
  - cbn [datum_tree quote_helper]. cbn in G. st. st. unfold emit_pushSymbol. rewrite (cut_good _ G). st. eapply H.
    eapply run_weaken; [exact R1|]. intros ids [Fi <-]. split; [exact Fi|constructor].
  - cbn [datum_tree]. rewrite quote_list. unfold emit_nil. st. st. st. st.
    assert (forall Q' : Z -> cstate -> Prop, (forall i s code' n', i = n' - 1 -> run st0 s (code ++ code') n' L bs
        (fun ids => F ids /\ quoted_list ids ds n code' n') -> Q' i s) ->
      does (elements_of (n + 1) (map datum_tree ds)) s Q') as K.
    { cbn [good_datum] in G. clear H. induction IH as [|d ds Hd Hds IHl]; intros Q' H'; cbn [map elements_of].
      - st. eapply H'; [reflexivity|]. eapply run_weaken; [exact R0|]. intros ids Fi. split; [exact Fi|constructor].
      - cbn [forallb] in G. apply andb_true_iff in G as [G1 G2]. st. apply (IHl G2). intros i s1 code1 n1 -> R1.
        st. eapply (Hd G1); [exact R1|]. intros s2 code2 n2 R2. st. st. unfold emit_bin. st. st. st. st.
        eapply H'; [reflexivity|].
        eapply run_code; [eapply run_weaken; [exact R3|]|rewrite <- !app_assoc; reflexivity].
        intros ids [[Fi Q1] Q2]. split; [exact Fi|].
        replace (n2 - (n2 - 1)) with 1 by lia. apply q_cons; assumption. }
    apply K. intros i s1 code1 n1 -> R1. st. eapply H. eapply run_weaken; [exact R1|]. intros ids [Fi Q1].
    split; [exact Fi|constructor; exact Q1].
Qed.

Section Generators.
  Variable cfg : config.
  Variable rec : task -> CM Z.
  Hypothesis S : sub rec.
  Hypothesis Hcb : forall k, In k keywords -> ~ In k (callbacks cfg).
  Variables (st : cstate) (bs : list block).
  Hypothesis O : ok st bs.
  Hypothesis P : 0 <= locals_length st.

  Ltac init := pose proof (run_start st bs O) as R.

  Lemma unary_does u e h : good e = true ->
    does (generator_unary rec u [h; tree e]) st (outcome st bs (EUn u e)).
  Proof.
    intros G. init. unfold generator_unary. st. unfold checkArgs. cbn [length Nat.eqb]. st. st.
    eapply r_arg; [exact S|exact R|lia|exact G|]. intros i s c n' L' bs' RT Hn R1.
    unfold emit_un. st. st. eapply finish; [exact R0|exact RT|]. intros ids [_ C]. apply c_un. exact C.
  Qed.
  Lemma binary_does b e1 e2 h : good e1 = true -> good e2 = true ->
    does (generator_binary rec b (swaps b) [h; tree e1; tree e2]) st (outcome st bs (EBin b e1 e2)).
  Proof.
    intros G1 G2. init. unfold generator_binary. st. unfold checkArgs. cbn [length Nat.eqb]. st. st.
    eapply r_arg; [exact S|exact R|lia|exact G1|]. intros i s c1 n1 L1 bs1 RT1 Hn1 R1. st.
    eapply r_arg; [exact S|exact R1|lia|exact G2|]. intros j s2 c2 n2 L2 bs2 RT2 Hn2 R2.
    rewrite (rooted_fv _ _ RT1) in R2. cbn [app] in *.
    destruct (swaps b) eqn:SW; unfold emit_bin; st; st; (eapply finish; [exact R0|eapply rooted_trans; eauto|]);
      intros ids [[_ C1] C2]; rewrite <- app_assoc; eapply c_bin; try eassumption; destruct b; try discriminate SW; reflexivity.
  Qed.
  Lemma list_does es h : forallb good es = true -> does (generator_list rec (h :: map tree es)) st (outcome st bs (EList es)).
  Proof.
    intros G. unfold generator_list. cbn [tl]. st.
    assert (forall Q : Z -> cstate -> Prop, (forall i s code n' L' bs', i = n' - 1 -> rooted bs bs' -> locals_length st + 1 <= n' ->
        run st s code n' L' bs' (fun ids => gcomp_list ids True (fv bs) (locals_length st) (label_number st) es code n' L') -> Q i s) ->
      does (list_loop rec (map tree es)) st Q) as K.
    { induction es as [|e es IH]; intros Q H; cbn [map list_loop].
      - init. unfold emit_nil. st. st. st. st. eapply H; [reflexivity|apply rooted_refl|lia|].
        eapply run_weaken; [exact R0|]. intros ids _. constructor.
      - cbn [forallb] in G. apply andb_true_iff in G as [G1 G2]. st. apply (IH G2). intros i s c1 n1 L1 bs1 -> RT1 Hn1 R1.
        st. eapply r_arg; [exact S|exact R1|lia|exact G1|]. intros i s2 c2 n2 L2 bs2 RT2 Hn2 R2.
        rewrite (rooted_fv _ _ RT1) in R2. st. unfold emit_bin. st. st. st. st. eapply H; [reflexivity|eapply rooted_trans; eauto|lia|].
        eapply run_code; [eapply run_weaken; [exact R|]|rewrite <- app_assoc; reflexivity].
        intros ids [C1 C2]. econstructor; eassumption. }
    apply K. intros i s code n' L' bs' -> RT Hn R. st. eapply finish; [exact R|exact RT|]. intros ids C. constructor. exact C.
  Qed.

  Lemma rooted_trans' a b c : rooted a b -> rooted b c -> rooted a c. Proof. apply rooted_trans. Qed.
  Lemma global_does x e h : good e = true ->
    does (generator_global cfg rec [h; AstIdentifier x; tree e]) st (outcome st bs (EGlobal x e)).
  Proof.
    intros G. init. unfold generator_global. st. unfold checkArgs. cbn [length Nat.eqb]. st. st.
    eapply r_comp; [exact S|exact R|lia|exact G|]. intros s c n' L' bs' RT Hn R1.
    st. st. st. unfold emit_setStatic. destruct (static_test cfg && (k =? n' - 1)) eqn:Hst.
    { apply andb_true_iff in Hst as [_ Hst]. apply Z.eqb_eq in Hst. st. eapply finish; [exact R0|exact RT|].
      intros ids [[_ C] E]. cbn [app]. apply c_global_skip; [exact I|exact C|congruence]. }
    st. st. eapply finish; [exact R2|exact RT|].
    intros ids [[_ C] <-]. replace (n' - (n' - 1)) with 1 by lia. rewrite Z.add_0_r. apply c_global. exact C.
  Qed.
  Lemma setq_does x e h : usable x && good e = true ->
    does (generator_setq cfg rec [h; AstIdentifier x; tree e]) st (outcome st bs (ESet x e)).
  Proof.
    intros G. apply andb_true_iff in G as [U G]. init. unfold generator_setq. st. unfold checkArgs. cbn [length Nat.eqb]. st. st.
    eapply r_comp; [exact S|exact R|lia|exact G|]. intros s c n' L' bs' RT Hn R1.
    st. st. st. rewrite (rooted_fv _ _ RT). destruct (find_name (fv bs) x) as [slot|] eqn:E.
    - unfold emit_move. destruct (Z.eqb_spec slot (n' - 1)) as [E1|E1].
      + st. eapply finish; [exact R0|exact RT|]. intros ids [_ C]. cbn [app].
        replace c with (c ++ (if slot =? n' - 1 then [] else [AMove 1 (n' - slot)])).
        2:{ destruct (Z.eqb_spec slot (n' - 1)); [apply app_nil_r|contradiction]. }
        apply c_set_local; assumption.
      + st. st. eapply finish; [exact R2|exact RT|]. intros ids [_ C]. cbn [app].
        replace [AMove (n' - (n' - 1)) (n' - slot)] with (if slot =? n' - 1 then [] else [AMove 1 (n' - slot)]).
        2:{ destruct (Z.eqb_spec slot (n' - 1)); [contradiction|]. replace (n' - (n' - 1)) with 1 by lia. reflexivity. }
        rewrite Z.add_0_r. apply c_set_local; assumption.
    - st. st. unfold emit_setStatic. destruct (static_test cfg && (k =? n' - 1)) eqn:Hst.
      { apply andb_true_iff in Hst as [_ Hst]. apply Z.eqb_eq in Hst. st. eapply finish; [exact R2|exact RT|].
        intros ids [[_ C] E2]. cbn [app]. apply c_set_skip; [exact I|exact C|exact E|congruence]. }
      st. st. eapply finish; [exact R3|exact RT|].
      intros ids [[_ C] <-]. replace (n' - (n' - 1)) with 1 by lia. rewrite Z.add_0_r. apply c_set_global; assumption.
  Qed.
  Lemma quote_gen_does d h : good_datum d = true ->
    does (generator_quote [h; datum_tree d]) st (outcome st bs (EQuote d)).
  Proof.
    intros G. init. unfold generator_quote. st. unfold checkArgs. cbn [length Nat.eqb]. st.
    eapply quote_does; [exact G|exact R|]. intros s code n' R1. eapply finish; [exact R1|apply rooted_refl|].
    intros ids [_ C]. constructor. exact C.
  Qed.

  Lemma literal_condition_tree l : good_condition (ELit l) = true ->
    literal_condition (literal_tree l) = Some (literal_true l).
  Proof.
    destruct l as [b|n|f|s]; intros G; cbn in *; try reflexivity.
    - destruct f as [s|s| |s m e]; try reflexivity; destruct s; reflexivity.
    - destruct s; [discriminate|reflexivity].
  Qed.
  Lemma no_literal c : is_lit c = None -> literal_condition (tree c) = None /\
    (tree c = match c with EVar x => AstIdentifier x | _ => tree c end) /\
    (exists x, c = EVar x) \/ is_lit c = None /\ literal_condition (tree c) = None /\ exists l, tree c = AstExpression l /\ is_var c = false.
  Proof. destruct c; intros H; try discriminate; cbn; eauto 10. Qed.

  Lemma branch_does e st0 s code m L bs1 F (Q : unit -> cstate -> Prop) : good e = true ->
    run st0 s code m L bs1 F -> 0 <= m ->
    (forall s' c n' L' bs2, rooted bs1 bs2 ->
      run st0 s' ((code ++ c) ++ move_down m n') (m + 1) L' bs2 (fun ids => F ids /\ gcomp ids True (fv bs1) m L e c n' L') -> Q tt s') ->
    does (branch rec m (tree e)) s Q.
  Proof.
    intros G R Pm H. unfold branch. st. eapply r_comp; [exact S|exact R|lia|exact G|]. intros s1 c n' L' bs' RT Hn R1. st.
    destruct (Z.ltb_spec (n' - m - 1) 0); [lia|]. eapply settle_does; [exact R1|lia|]. intros s2 R2. eapply H; eassumption.
  Qed.
  Lemma if_does c x y h : good_condition c && good c && good x && good y = true ->
    does (generator_if rec [h; tree c; tree x; tree y]) st (outcome st bs (EIf c x y)).
  Proof.
    intros G. rewrite !andb_true_iff in G. destruct G as [[[Gc1 Gc] Gx] Gy]. init. unfold generator_if. st. unfold checkArgs. cbn [length Nat.eqb]. st.
    destruct (is_lit c) as [l|] eqn:IL.
    - destruct c; try discriminate. injection IL as ->. cbn [tree]. rewrite literal_condition_tree by assumption. cbv iota.
      assert (good (if literal_true l then x else y) = true) as G2 by (destruct (literal_true l); assumption).
      assert ((if literal_true l then tree x else tree y) = tree (if literal_true l then x else y)) as -> by (destruct (literal_true l); reflexivity).
      st. eapply r_comp; [exact S|exact R|lia|exact G2|]. intros s c n' L' bs' RT Hn R1. st. eapply finish; [exact R1|exact RT|].
      intros ids [_ C]. cbn [app]. apply c_if_lit. exact C.
    - assert (forall s1 cc n1 L1 bs1, rooted bs bs1 -> locals_length st + 1 <= n1 ->
         run st s1 cc n1 L1 bs1 (fun ids => gcomp ids True (fv bs) (locals_length st) (label_number st) c cc n1 L1) ->
         does (let* then_ := new_label in
               let* end_ := new_label in
               emit_brnz then_ (if is_var c then 0 else n1 - locals_length st) >>>
               (let* start := locals in
                branch rec start (tree y) >>>
                emit_jump end_ >>>
                emit_label then_ >>> locals_to start >>> branch rec start (tree x) >>> emit_label end_)) s1 (outcome st bs (EIf c x y))) as K.
      { intros s1 cc n1 L1 bs1 RT1 Hn1 R1. st. st. st. st. st. unfold emit_brnz.
        destruct (Z.ltb_spec (if is_var c then 0 else n1 - locals_length st) 0); [destruct (is_var c); lia|]. st. st. st.
        set (m := n1 + - (if is_var c then 0 else n1 - locals_length st)) in *.
        eapply branch_does; [exact Gy|eassumption|subst m; destruct (is_var c); lia|]. intros s5 cy ny Ly bs5 RT5 R5.
        st. unfold emit_jump. st. st. unfold emit_label at 1. st. st. st. st.
        eapply branch_does; [exact Gx|eassumption|subst m; destruct (is_var c); lia|]. intros s9 cx nx Lx bs9 RT9 R9.
        unfold emit_label. st.
        eapply finish; [exact R8| |].
        - repeat (eapply rooted_trans'; [eassumption|]). apply rooted_refl.
        - pose proof (rooted_trans _ _ _ RT1 (rooted_trans _ _ _ RT RT0)) as RTa.
          pose proof (rooted_trans _ _ _ RTa RT5) as RTb.
          intros ids [[C1 C2] C3]. rewrite (rooted_fv _ _ RTa) in C2. rewrite (rooted_fv _ _ RTb) in C3.
          assert (m = (if is_var c then n1 else locals_length st)) as Em by (subst m; destruct (is_var c); lia).
          pose proof (c_if ids True (fv bs) (locals_length st) (label_number st) c x y cc n1 L1 m cy ny Ly cx nx Lx IL C1 Em) as K.
          replace (L1 + 2) with (L1 + 1 + 1) in K by lia. specialize (K C2 C3).
          rewrite <- !app_assoc. cbn [app] in K |- *. try rewrite <- !app_assoc in K. cbn [app] in K.
          replace (if is_var c then 0 else n1 - locals_length st) with (n1 - m) by (rewrite Em; destruct (is_var c); lia).
          replace (m + 1 + 0) with (m + 1) by lia. exact K. }
      destruct (no_literal c IL) as [[N [_ [z ->]]]|[_ [N [l [T V]]]]].
      + rewrite N. cbn [tree]. st. st. st. change (AstIdentifier z) with (tree (EVar z)).
        eapply r_comp; [exact S|exact R|lia|exact Gc|]. intros s1 cc n1 L1 bs1 RT1 Hn1 R1. st.
        eapply K; [exact RT1|exact Hn1|]. eapply run_weaken; [exact R1|]. intros ids [_ C]. exact C.
      + rewrite N, T. st. st. st. eapply r_form; [exact S|exact R|lia|exact Gc|exact T|]. intros i s1 cc n1 L1 bs1 RT1 Hn1 R1. st. st.
        rewrite V in K. eapply K; [exact RT1|exact Hn1|]. eapply run_weaken; [exact R1|]. intros ids [_ C]. exact C.
  Qed.

  (** Calls. *)
  Lemma arguments_does es : forallb good es = true -> forall st0 s code n L bs1 F (Q : unit -> cstate -> Prop),
    run st0 s code n L bs1 F -> 0 <= n ->
    (forall s' c n' L' bs2, rooted bs1 bs2 ->
      run st0 s' (code ++ c) n' L' bs2 (fun ids => F ids /\ gcomp_args ids True (fv bs1) n L es c n' L') -> Q tt s') ->
    does (arguments rec (map tree es)) s Q.
  Proof.
    induction es as [|e es IH]; intros G st0 s code n L bs1 F Q R Pn H; cbn [map arguments].
    - st. eapply (H _ [] n L bs1 (rooted_refl _)). rewrite app_nil_r. eapply run_weaken; [exact R|]. intros ids Fi. split; [exact Fi|constructor].
    - cbn [forallb] in G. apply andb_true_iff in G as [G1 G2]. st. st. eapply r_comp; [exact S|exact R|lia|exact G1|].
      intros s1 c1 n1 L1 bs2 RT1 Hn1 R1. st. eapply settle_does; [exact R1|lia|]. intros s2 R2.
      eapply (IH G2); [exact R2|lia|]. intros s3 c2 n2 L2 bs3 RT3 R3.
      eapply (H s3 ((c1 ++ move_down n n1) ++ c2) n2 L2 bs3); [eapply rooted_trans; eassumption|].
      eapply run_code; [eapply run_weaken; [exact R3|]|rewrite <- !app_assoc; reflexivity].
      intros ids [[Fi C1] C2]. split; [exact Fi|]. econstructor; [exact C1|]. rewrite <- (rooted_fv _ _ RT1). exact C2.
  Qed.
  Lemma few_mod es : few es = true -> Z.of_nat (length (map tree es)) mod 256 = zlength es.
  Proof. intros Fe. unfold few in Fe. apply Z.ltb_lt in Fe. rewrite map_length. unfold zlength. apply Z.mod_small. lia. Qed.
  Lemma call_does f es : callable f && few es && forallb good es = true ->
    does (generator_funcall rec (AstIdentifier f :: map tree es)) st (outcome st bs (ECall f es)).
  Proof.
    intros G. rewrite !andb_true_iff in G. destruct G as [[U Fe] G]. init. unfold generator_funcall. st.
    eapply r_look_function; [exact R|exact U|]. intros s1 R1. repeat st. unfold emit_pushGlobal. repeat st.
    eapply arguments_does; [exact G|eassumption|lia|]. intros s5 c n' L' bs5 RT5 R5. st. unfold emit_funcall. st. rewrite (few_mod _ Fe). st. st.
    eapply finish; [eassumption|exact RT5|]. intros ids [[_ <-] C]. cbn [app].
    pose proof (c_call ids True _ _ _ f es _ _ _ C) as K. cbn [app] in K.
    replace (n' - (locals_length st + 1 - 1)) with (n' - locals_length st) by lia. 
    replace (locals_length st + 1 + 1) with (locals_length st + 2) by lia. exact K.
  Qed.
  Lemma funcall_does f es h : good f && few es && forallb good es = true ->
    does (generator_funcall2 rec (h :: tree f :: map tree es)) st (outcome st bs (EFuncall f es)).
  Proof.
    intros G. rewrite !andb_true_iff in G. destruct G as [[Gf Fe] G]. init. unfold generator_funcall2. st.
    eapply r_comp; [exact S|exact R|lia|exact Gf|]. intros s1 c1 n1 L1 bs1 RT1 Hn1 R1. st. st.
    eapply arguments_does; [exact G|eassumption|lia|]. intros s5 c n' L' bs5 RT5 R5. st. unfold emit_funcall. st. rewrite (few_mod _ Fe). st. st.
    eapply finish; [eassumption|eapply rooted_trans; eassumption|]. intros ids [[_ C1] C]. rewrite (rooted_fv _ _ RT1) in C.
    pose proof (c_funcall ids True _ _ _ f es _ _ _ _ _ _ C1 C) as K. rewrite <- app_assoc. exact K.
  Qed.
End Generators.
End Named.

Ltac st :=
  match goal with
  | |- does (cbind locals _) _ _ => eapply r_locals; [eassumption|]; cbv beta
  | |- does (cbind _ _) _ _ => apply does_bind; cbv beta
  | |- does (cret _) _ _ => apply does_ret; cbv beta
  | |- does cub _ _ => apply does_ub
  | |- does (cerr _) _ _ => apply does_err
  | |- does (emit _ _) _ _ => eapply r_emit; [eassumption|]; let R := fresh "R" in intros ? R; cbv beta
  | |- does (locals_to _) _ _ => eapply r_locals_to; [eassumption|]; let R := fresh "R" in intros ? R; cbv beta
  | |- does new_label _ _ => eapply r_label; [eassumption|]; let R := fresh "R" in let RT := fresh "RT" in intros ? ? RT R; cbv beta
  | |- does (push_scope false) _ _ => eapply r_push; [eassumption|]; let R := fresh "R" in intros ? R; cbv beta
  | |- does (look _ false) _ _ => eapply r_look; [eassumption|assumption|]; let R := fresh "R" in intros ? R; cbv beta
  | |- does (symbol _) _ _ => eapply r_symbol; [eassumption|]; let R := fresh "R" in intros ? ? R; cbv beta
  | |- does (addGlobal _) _ _ => eapply r_addGlobal; [eassumption|]; let R := fresh "R" in intros ? ? R; cbv beta
  | |- does (global_key _) _ _ => eapply r_global_key; [eassumption|]; let R := fresh "R" in intros ? ? R; cbv beta
  | |- does pop_scope _ _ => eapply r_pop; [eassumption|reflexivity|]; let R := fresh "R" in intros ? R; cbv beta
  end.

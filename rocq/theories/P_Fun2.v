(** Programs with functions: the code the compiler emits for them. *)
From Coq Require Import String Ascii ZArith List Bool Lia.
From Coq Require Import ZifyBool ZifyNat.
From Verif Require Import M_Base M_Trie M_Instr M_Asm M_Parser M_Symbol M_Scope M_Compile.
From Verif Require Import S_Symbol S_Scope S_Compile S_Fun P_Trie P_Symbol P_Scope P_Compile P_Compile2 P_Compile3 P_Compile4 P_Compile5 P_Sim.
Import ListNotations.
Open Scope Z_scope.
Open Scope list_scope.

Ltac st :=
  match goal with
  | |- does (cbind locals _) _ _ => eapply r_locals; [eassumption|]; cbv beta
  | |- does (cbind _ _) _ _ => apply does_bind; cbv beta
  | |- does (cret _) _ _ => apply does_ret; cbv beta
  | |- does cub _ _ => apply does_ub
  | |- does (cerr _) _ _ => apply does_err
  | |- does (emit _ _) _ _ => eapply r_emit; [eassumption|]; let R := fresh "R" in intros ? R; cbv beta
  | |- does (locals_to _) _ _ => eapply r_locals_to; [eassumption|]; let R := fresh "R" in intros ? R; cbv beta
  | |- does new_label _ _ => eapply r_label; [eassumption|]; let R := fresh "R" in let RT := fresh "RT" in intros ? ? RT R; cbv beta
  | |- does (push_scope false) _ _ => eapply r_push; [eassumption|]; let R := fresh "R" in intros ? R; cbv beta
  | |- does (addGlobal _) _ _ => eapply r_addGlobal; [eassumption|]; let R := fresh "R" in intros ? ? R; cbv beta
  | |- does pop_scope _ _ => eapply r_pop; [eassumption|reflexivity|]; let R := fresh "R" in intros ? R; cbv beta
  end.

Section Params.
Context {NU : names_used} {OU : outer}.
Lemma params_cons m p ps : params m (p :: ps) = params (m + 1) ps ++ [(p, m)].
Proof. reflexivity. Qed.
Lemma name_is_false x y : x <> y -> name_is x y = false.
Proof. intros H. unfold name_is. destruct (list_eq_dec Z.eq_dec x y); [contradiction|reflexivity]. Qed.
Lemma r_parameters ps : (forall p, In p ps -> p <> word "&rest") -> forall st0 st code n L b r F (Q : bool -> cstate -> Prop),
  run st0 st code n L (b :: r) F -> 0 <= n ->
  (forall s, run st0 s code (n + zlength ps) L (Block (params n ps ++ vars b) (funs b) (of_function b) :: r) F -> Q false s) ->
  does (parameters (map AstIdentifier ps)) st Q.
Proof.
  induction ps as [|p ps IH]; intros H st0 st code n L b r F Q R P K.
  - cbn [map parameters]. st. apply K. change (zlength (@nil bytes)) with 0. rewrite Z.add_0_r. destruct b. exact R.
  - cbn [map parameters]. rewrite name_is_false by (apply H; left; reflexivity). st. st.
    eapply r_object; [exact R|exact P|]. intros s R1. st. st.
    eapply IH; [intros q Hq; apply H; right; exact Hq|eassumption|lia|]. intros s2 R2. apply K.
    cbn [vars funs of_function] in R2. rewrite params_cons, <- app_assoc. cbn [app].
    unfold zlength in *. cbn [length]. replace (n + Z.of_nat (S (length ps))) with (n + 1 + Z.of_nat (length ps)) by lia. exact R2.
Qed.
End Params.

Section Lambda.
Context {NU : names_used}.
Hypothesis Hself : forall x, usable x = true \/ callable x = true -> x <> word "self".

Definition self_scope (n : Z) : scope :=
  set_functions (set_locals (scope_init false) (trie_insert (trie_init (-1)) (word "self") n))
    (trie_insert (trie_init (-1)) (word "self") n) (trie_insert (trie_init (-1)) (word "self") functionType_ducklisp).
Lemma self_stands n : 0 <= n -> stands (self_scope n) (Block [(word "self", n)] [(word "self", n)] false).
Proof. intros P. exact (stands_fun _ _ (word "self") n (stands_var _ _ (word "self") n (stands_init false) P) P). Qed.

Lemma stands_none f s b x : stands s b -> find_name (names f b) x = None -> trie_find (variables f s) x = -1.
Proof. intros P E. pose proof (stands_test f s b x P) as T. rewrite E in T. apply negb_false_iff in T. apply Z.eqb_eq. exact T. Qed.
Lemma free_none f n s0 b us x : 0 <= n -> stands s0 b -> vars b = [] -> funs b = [] -> x <> word "self" ->
  getFree_helper [self_scope n; s0] us x f = None.
Proof.
  intros P S V Fn N. cbn [getFree_helper].
  rewrite (stands_none f (self_scope n) _ x (self_stands n P)).
  2:{ destruct f; cbn [names vars funs find_name]; destruct (bytes_dec (word "self") x); congruence. }
  rewrite (stands_none f s0 b x S) by (destruct f; cbn [names]; rewrite ?V, ?Fn; reflexivity).
  change (-1 =? -1) with true. cbn [negb]. change (function_scope (self_scope n)) with false. cbv iota. destruct (function_scope s0); reflexivity.
Qed.
Lemma keyword_self x : In x keywords -> x <> word "self".
Proof. intros I ->. vm_compute in I. repeat (destruct I as [I|I]; [discriminate I|]). exact I. Qed.

Lemma head_none n s0 b x : 0 <= n -> stands s0 b -> funs b = [] -> callable x = true \/ In x keywords ->
  getScopeFunction [self_scope n; s0] x = -1.
Proof.
  intros P S Fn U. assert (x <> word "self") as N by (destruct U as [U|U]; [auto|apply keyword_self; exact U]).
  cbn [getScopeFunction]. rewrite (st_kinds _ _ (self_stands n P)), (st_kinds _ _ S), Fn, !history_find. cbn [map funs fst find_name].
  destruct (bytes_dec (word "self") x); [congruence|reflexivity].
Qed.

(** What is around the body of a function: the scope of [self] and that of the program. *)
Definition inside (n : Z) (s0 : scope) (b : block) (P : 0 <= n) (S : stands s0 b) (V : vars b = []) (Fn : funs b = []) : outer :=
  Outer NU [self_scope n; s0]
    (fun x us U => free_none false n s0 b us x P S V Fn (Hself x (or_introl U)))
    (fun x us U => free_none true n s0 b us x P S V Fn (Hself x (or_intror U)))
    (fun x U => head_none n s0 b x P S Fn U).

Section Body.
  Variables (rec : task -> CM Z).
  Hypothesis HS : forall OU : outer, sub rec.

  Definition lambda_code (L : Z) (ps : list bytes) (cb : list ainstr) : list ainstr :=
    [AJump L; ALabel (L + 1)] ++ cb ++ [AReturn (zlength ps); ALabel L; APushClosure false (L + 1) (zlength ps) []].

  Lemma lambda_does h ps b st s0 : scopes st = [s0] -> ok (OU := no_outer) st [Block [] [] false] -> body st = None ->
    0 <= locals_length st -> (forall p, In p ps -> p <> word "&rest") -> forallb good_item b = true -> b <> [] ->
    does (generator_lambda rec (h :: AstExpression (map AstIdentifier ps) :: map item_tree b)) st (fun _ s =>
      exists cb L', since (OU := no_outer) st s (lambda_code (label_number st) ps cb) (locals_length st + 1) L' [Block [] [] false] /\
        forall ids, agrees (symbols_of s) ids ->
          gcomp ids True (params (locals_length st + 1) ps) (locals_length st + 1 + zlength ps) (label_number st + 2) (EScope b) cb
            (locals_length st + 1 + zlength ps + 1) L').
  Proof.
    intros Esc O Hb P Hps G NE. set (n := locals_length st) in *. set (L := label_number st) in *.
    assert (plain s0 (Block [] [] false)) as Pl.
    { pose proof (plain_plains _ _ (ok_plains _ _ O)) as X. rewrite Esc in X. inversion X; subst. assumption. }
    set (OU := inside n s0 (Block [] [] false) P (proj1 Pl) eq_refl eq_refl).
    unfold generator_lambda. unfold checkArgs.
    assert ((3 <=? length (h :: AstExpression (map AstIdentifier ps) :: map item_tree b))%nat = true) as ->.
    { destruct b; [congruence|]. reflexivity. }
    apply does_bind, does_ret. cbv iota beta.
    apply does_bind. intros [] s1 E1. injection E1 as <-.
    apply does_bind. intros m s1 E1. injection E1 as <- <-. cbn [set_scopes locals_length].
    apply does_bind. intros [] s1 E1. injection E1 as <-.
    apply does_bind. intros [] s1 E1. injection E1 as <-.
    apply does_bind. intros [] s1 E1. injection E1 as <-.
    apply does_bind. intros [] s1 E1. injection E1 as <-.
    apply does_bind. intros o s1 E1. unfold begin_body in E1. injection E1 as <- <-.
    cbn -[word str scope_init addObject addInterpretedFunction].
    match goal with |- does _ ?s _ => set (sB := s) end.
    assert (scopes sB = scope_init true :: self_scope n :: [s0]) as ScB by (subst sB; cbn -[word]; rewrite Esc; reflexivity).
    assert (ok (OU := OU) sB [Block [] [] true]) as OB.
    { constructor.
      - rewrite ScB. apply (pl_function (OU := OU)); [|reflexivity]. split; [apply stands_init|]. repeat split.
      - split; [congruence|exact I].
      - apply O.
      - apply O.
      - apply O. }
    pose proof (run_start (OU := OU) sB _ OB) as R.
    assert (locals_length sB = n + 1) as EnB by reflexivity. assert (label_number sB = L) as ELB by reflexivity.
    rewrite EnB, ELB in R.
    st. st. apply rooted_cons in RT. subst. st. unfold emit_jump. st. st. st. apply rooted_cons in RT. subst. st. unfold emit_label. st. st. st.
    eapply r_parameters; [exact Hps|eassumption|lia|]. intros s2a R5. cbn [vars funs of_function] in R5.
    st. eapply r_progn; [apply HS|exact R5|unfold zlength; lia|exact G|]. intros i s3a cb L' bs' RT R6. apply rooted_cons in RT. subst bs'.
    st. eapply r_top; [exact R6|]. intros sc s4a U R7. unfold emit_releaseUpvalues. rewrite U. cbn [filter]. st. st. st. st.
    unfold emit_return. st. st. st. st. unfold emit_label. st.
    destruct R9 as [[[C1 C2] C3 C4 C5 C6] C7].
    unfold fv in C7. cbn [map vars concat] in C7. rewrite !app_nil_r in C7. cbn [app] in C1. rewrite !Z.add_0_r in *.
    unfold emitted in C1. change (body sB) with (Some (@nil ainstr)) in C1. unfold same_target in C2. change (body sB) with (Some (@nil ainstr)) in C2.
    change (assembly sB) with (assembly st) in C2.
    destruct (body s6) as [bd|] eqn:Ebd; [|contradiction].
    assert (exists s', scopes s6 = s' :: [self_scope n; s0] /\ function_uvs s' = []) as [s' [Es' Fu]].
    { pose proof (ok_plains _ _ C5) as X. inversion X as [|sc' b' Hp Hf Es'|sc' b' r' br' Hp Hr Es']; subst.
      - exists sc'. split; [reflexivity|apply Hp].
      - inversion Hr as [Eo| |]; subst. discriminate Eo. }
    apply does_bind. intros [] sE EE. unfold end_body in EE. rewrite Ebd, Hb in EE. injection EE as <-.
    apply does_bind. intros sc' sE EE. unfold top_scope in EE. cbn [set_code scopes] in EE. rewrite Es' in EE. cbn [getTop] in EE. injection EE as <- <-.
    apply does_bind. intros [] sE EE. injection EE as <-.
    rewrite Fu. unfold emit_pushClosure. cbn [map].
    apply does_bind. apply does_bind. intros m sE EE. injection EE as <- <-. intros [] sE EE. injection EE as <-.
    apply does_bind. intros sg sE EE. injection EE as <- <-.
    cbn [set_scopes set_code set_locals_length add_code body scopes]. change (scope_uvs (self_scope n)) with (@nil Z). cbv iota beta.
    apply does_bind, does_ret. 
    apply does_bind. intros [] sE EE. unfold pop_scope in EE. cbn [popScope set_scopes scopes] in EE. injection EE as <-.
    intros [] sE EE. unfold pop_scope in EE. cbn [popScope set_scopes scopes] in EE. injection EE as <-.
    exists cb, L'. cbn [set_scopes set_code set_locals_length add_code body assembly scopes symbols_of globals_trie locals_length label_number]. split.
    - constructor; cbn [body assembly scopes symbols_of globals_trie locals_length label_number]; auto; try lia.
      + unfold emitted, same_target. cbn [body assembly]. rewrite Hb. split; [|exact I].
        rewrite C2, C1, map_length. cbn [app]. rewrite <- !app_assoc. cbn [app]. rewrite <- !app_assoc. cbn [app].
        replace (n + 1 + zlength ps + 1 - (n + 1) - 1) with (zlength ps) by lia. reflexivity.
      + change (n + 1 - 1 + 1 = n + 1). lia.
      + destruct C5 as [D1 D2 D3 D4 D5]. constructor; cbn [scopes symbols_of globals_trie]; auto.
        * apply plains_plain. constructor; [exact Pl|constructor].
        * split; [congruence|exact I].
    - replace (L + 2) with (L + 1 + 1) by lia. intros ids A. apply C7, A.
  Qed.
End Body.

(** The code of the definitions, compiled on top of [n] values. *)
Section Codes.
  Variables (skip : bool) (ids : bytes -> Z) (n : Z).
  Definition global_code (x : bytes) : list ainstr := if skip && (ids x =? n) then [] else [ASetGlobal 1 (ids x)].
  Inductive fun_codes : Z -> list fundef -> list ainstr -> Z -> Prop :=
  | fc_nil L : fun_codes L [] [] L
  | fc_cons L d cb L1 ds code L2 :
    gcomp ids True (params (n + 1) (fun_params d)) (n + 1 + zlength (fun_params d)) (L + 2) (EScope (fun_body d)) cb
      (n + 1 + zlength (fun_params d) + 1) L1 ->
    fun_codes L1 ds code L2 ->
    fun_codes L (d :: ds) (lambda_code L (fun_params d) cb ++ global_code (fun_name d) ++ APop 1 :: code) L2.
End Codes.

Section Whole.
  Variable cfg : config.
  Hypothesis Hcb : forall k, In k keywords -> ~ In k (callbacks cfg).
  Hypothesis Hlam : ~ In (word "lambda") (callbacks cfg).
  Hypothesis Hcall : callees cfg.

  Lemma lambda_head st s0 : scopes st = [s0] -> plain s0 (Block [] [] false) ->
    getFunctionFromName cfg (scopes st) (word "lambda") = CalleeGenerator GLambda.
  Proof.
    intros E [P [_ Fn]]. unfold getFunctionFromName. rewrite E. cbn [getScopeFunction]. rewrite (st_kinds _ _ P), history_find. cbn [map funs find_name].
    change (-1 =? -1) with true. cbv iota. rewrite existsb_name by exact Hlam. vm_compute. reflexivity.
  Qed.
  Lemma one_scope st : ok (OU := no_outer) st [Block [] [] false] -> exists s0, scopes st = [s0] /\ plain s0 (Block [] [] false).
  Proof.
    intros O. pose proof (plain_plains _ _ (ok_plains _ _ O)) as X. inversion X as [|s0 b0 r br Pl T]; subst. inversion T; subst. eauto.
  Qed.

  (** What [good_fundef] says. *)
  Lemma good_def d : good_fundef d = true ->
    fun_body d <> [] /\ (forall p, In p (fun_params d) -> p <> word "&rest") /\ zlength (fun_params d) < 256 /\ forallb good_item (fun_body d) = true.
  Proof.
    unfold good_fundef. rewrite !andb_true_iff. intros [[[A B] C] D]. split; [destruct (fun_body d); [discriminate|congruence]|].
    split; [|split; [apply Z.ltb_lt; exact C|exact D]]. rewrite forallb_forall in B. intros p I ->. specialize (B _ I).
    destruct (bytes_dec (word "&rest") (word "&rest")); [discriminate|contradiction].
  Qed.

  Definition lambda_of (d : fundef) : ast :=
    AstExpression (AstIdentifier (word "lambda") :: AstExpression (map AstIdentifier (fun_params d)) :: map item_tree (fun_body d)).
  Definition lambda_outcome {A} (d : fundef) (st : cstate) : A -> cstate -> Prop := fun _ s =>
    exists cb L', since (OU := no_outer) st s (lambda_code (label_number st) (fun_params d) cb) (locals_length st + 1) L' [Block [] [] false] /\
      forall ids, agrees (symbols_of s) ids ->
        gcomp ids True (params (locals_length st + 1) (fun_params d)) (locals_length st + 1 + zlength (fun_params d)) (label_number st + 2)
          (EScope (fun_body d)) cb (locals_length st + 1 + zlength (fun_params d) + 1) L'.

  Lemma lambda_compound d f dep st : good_fundef d = true -> ok (OU := no_outer) st [Block [] [] false] -> body st = None -> 0 <= locals_length st ->
    does (compile cfg f dep (Compound (lambda_of d) true)) st (lambda_outcome d st).
  Proof.
    intros G O Hb P. destruct (one_scope st O) as [s0 [Es Pl]]. destruct (good_def d G) as [G1 [G2 [G3 G4]]].
    destruct f as [|f]; [intros ? ? [=]|]. cbn [compile]. destruct (max_depth cfg <=? dep + 1); [apply does_err|].
    unfold lambda_of, compile_compound. destruct f as [|f]; [intros ? ? [=]|]. cbn [compile]. apply does_bind, does_bind.
    unfold compile_expression. apply does_bind, does_cget. rewrite (lambda_head st s0 Es Pl). cbn [generate].
    eapply does_weaken; [eapply lambda_does; try eassumption|].
    - intros OU. apply (compile_sub_in (OU := OU) cfg Hcb Hcall).
    - intros [] s K. apply does_ret. apply does_bind. intros m s' E. injection E as <- <-. apply does_ret. exact K.
  Qed.

  Definition def_outcome {A} (d : fundef) (st : cstate) : A -> cstate -> Prop := fun _ s =>
    exists cb L' k, since (OU := no_outer) st s (lambda_code (label_number st) (fun_params d) cb ++
        (if static_test cfg && (k =? locals_length st) then [] else [ASetGlobal 1 k])) (locals_length st + 1) L' [Block [] [] false] /\
      forall ids, agrees (symbols_of s) ids -> ids (fun_name d) = k /\
        gcomp ids True (params (locals_length st + 1) (fun_params d)) (locals_length st + 1 + zlength (fun_params d)) (label_number st + 2)
          (EScope (fun_body d)) cb (locals_length st + 1 + zlength (fun_params d) + 1) L'.
  Lemma def_compound d f dep st : good_fundef d = true -> ok (OU := no_outer) st [Block [] [] false] -> body st = None -> 0 <= locals_length st ->
    does (compile cfg f dep (Compound (fun_tree d) true)) st (def_outcome d st).
  Proof.
    intros G O Hb P.
    destruct f as [|f]; [intros ? ? [=]|]. cbn [compile]. destruct (max_depth cfg <=? dep + 1); [apply does_err|].
    unfold fun_tree, compile_compound. destruct f as [|f]; [intros ? ? [=]|]. cbn [compile]. apply does_bind, does_bind.
    unfold compile_expression. apply does_bind, does_cget.
    rewrite (head_generator (OU := no_outer) cfg Hcb st _ (word "global") GGlobal O) by (first [apply in_words; vm_compute; tauto|vm_compute; reflexivity]).
    cbn [generate]. unfold generator_global, checkArgs. cbn [length Nat.eqb]. apply does_bind, does_ret. apply does_bind.
    eapply does_weaken; [exact (lambda_compound d f (dep + 1) st G O Hb P)|]. intros i s [cb [L' [Sn K]]].
    assert (run (OU := no_outer) st s (lambda_code (label_number st) (fun_params d) cb) (locals_length st + 1) L' [Block [] [] false] (fun ids =>
        gcomp ids True (params (locals_length st + 1) (fun_params d)) (locals_length st + 1 + zlength (fun_params d)) (label_number st + 2)
          (EScope (fun_body d)) cb (locals_length st + 1 + zlength (fun_params d) + 1) L')) as R by (constructor; assumption).
    st. st. st. unfold emit_setStatic.
    replace (locals_length st + 1 - 1) with (locals_length st) by lia.
    assert (forall s2 code, run (OU := no_outer) st s2 code (locals_length st + 1) L' [Block [] [] false] (fun ids =>
        gcomp ids True (params (locals_length st + 1) (fun_params d)) (locals_length st + 1 + zlength (fun_params d)) (label_number st + 2)
          (EScope (fun_body d)) cb (locals_length st + 1 + zlength (fun_params d) + 1) L' /\ ids (fun_name d) = k) ->
        code = lambda_code (label_number st) (fun_params d) cb ++ (if static_test cfg && (k =? locals_length st) then [] else [ASetGlobal 1 k]) ->
        def_outcome d st tt s2) as Fin.
    { intros s2 code [R1 R2] ->. exists cb, L', k. split; [exact R1|]. intros ids A. split; apply R2, A. }
    destruct (static_test cfg && (k =? locals_length st)) eqn:Ek.
    - st. st. apply does_bind. intros m s' E. injection E as <- <-. apply does_ret. eapply Fin; [exact R0|]. rewrite app_nil_r. reflexivity.
    - st. st. st. apply does_bind. intros m s' E. injection E as <- <-. apply does_ret. eapply Fin.
      + rewrite Z.add_0_r in R1. exact R1.
      + replace (locals_length st + 1 - locals_length st) with 1 by lia. reflexivity.
  Qed.

  Lemma binder_def d : binder (fun_tree d) = None.
  Proof. reflexivity. Qed.
  Lemma no_body st0 st code n L bs F : body st0 = None -> run (OU := no_outer) st0 st code n L bs F -> body st = None.
  Proof. intros H [[[_ B] _ _ _ _] _]. unfold same_target in B. rewrite H in B. destruct (body st); [contradiction|reflexivity]. Qed.

  Lemma defs_loop f dep b : forallb good_item b = true -> b <> [] ->
    forall ds, forallb good_fundef ds = true -> forall st0 st code n L F (Q : unit -> cstate -> Prop), body st0 = None ->
    run (OU := no_outer) st0 st code n L [Block [] [] false] F -> 0 <= n ->
    (forall s c1 L1 c2 new n' L', n + 1 <= n' -> run (OU := no_outer) st0 s (code ++ c1 ++ c2) n' L' [Block new [] false]
       (fun ids => F ids /\ fun_codes (static_test cfg) ids n L ds c1 L1 /\ gcomp_items ids True [] n L1 b c2 new n' L') -> Q tt s) ->
    does (noscope_loop (compile cfg f dep) (map fun_tree ds ++ map item_tree b)) st Q.
  Proof.
    intros G NE. induction ds as [|d ds IH]; intros Gd st0 st code n L F Q Hb R P H.
    - cbn [map app]. eapply loop_does.
      + apply (compile_sub_in (OU := no_outer) cfg Hcb Hcall).
      + apply (compile_sub_in (OU := no_outer) cfg Hcb Hcall).
      + exact Hcb.
      + exact Hcall.
      + exact G.
      + exact NE.
      + exact R.
      + exact P.
      + intros s c new n' L' R1. cbn [vars funs of_function] in R1. rewrite app_nil_r in R1. eapply (H s [] L c new n' L').
        * destruct R1 as [R1 R2]. pose proof (proj2 (R2 _ (fun x _ => eq_refl))) as C.
          apply (proj2 (proj2 (proj2 (gcomp_height _ _)))) in C. lia.
        * eapply run_weaken; [exact R1|]. intros ids [HF C]. split; [exact HF|]. split; [constructor|exact C].
    - cbn [forallb] in Gd. apply andb_true_iff in Gd as [Gd Gds]. cbn [map app noscope_loop].
      assert (match map fun_tree ds ++ map item_tree b with [] => true | _ => false end = false) as ->.
      { destruct ds; [destruct b; [congruence|reflexivity]|reflexivity]. }
      st. apply does_bind. destruct (r_here _ _ _ _ _ _ _ R) as [O [E1 E2]].
      eapply does_weaken; [apply (def_compound d f dep st Gd O (no_body _ _ _ _ _ _ _ Hb R)); lia|].
      intros i s [cb [L' [k [Sn K]]]]. rewrite E1, E2 in *.
      pose proof (run_know _ _ _ _ _ _ _ _ (run_then _ _ _ _ _ _ _ _ _ _ _ _ R Sn) K) as R1.
      apply does_bind. rewrite binder_def. st. replace (n + 1 - n - 0) with 1 by lia. change (0 <? 1) with true. cbv iota.
      st. st. rewrite emit_pop_pos by lia. st.
      eapply IH; [exact Gds|exact Hb|eassumption|lia|]. intros s3 c1 L1 c2 new n' L2 Hn R3.
      eapply (H s3 (lambda_code L (fun_params d) cb ++ (if static_test cfg && (k =? n) then [] else [ASetGlobal 1 k]) ++ APop 1 :: c1) L1 c2 new n' L2); [lia|].
      eapply run_code; [eapply run_weaken; [exact R3|]|].
      + intros ids [[HF [Kn C]] [FC CI]]. split; [exact HF|]. replace (n + 1 + - (1)) with n in FC, CI by lia. split; [|exact CI].
        rewrite <- Kn. apply (fc_cons (static_test cfg) ids n L d cb L'); assumption.
      + rewrite <- !app_assoc. cbn [app]. reflexivity.
  Qed.

  Lemma defs_expression f dep ds b st0 : ok (OU := no_outer) st0 [] -> body st0 = None -> locals_length st0 = 0 -> label_number st0 = 0 ->
    b <> [] -> ds <> [] -> forallb good_fundef ds = true -> forallb good_item b = true ->
    does (generator_expression (compile cfg f dep) (map fun_tree ds ++ map item_tree b)) st0 (fun _ s => exists c1 L1 c2 L2,
      run (OU := no_outer) st0 s (c1 ++ c2) 1 L2 [] (fun ids => fun_codes (static_test cfg) ids 0 0 ds c1 L1 /\
         gcomp ids True [] 0 L1 (EScope b) c2 1 L2)).
  Proof.
    intros O0 Hb En EL NEb NEd Gd Gb. unfold generator_expression. pose proof (run_start (OU := no_outer) st0 [] O0) as R. rewrite En, EL in R.
    st. st. st. st. destruct f as [|f]; [intros ? ? [=]|]. cbn [compile]. apply does_bind. unfold generator_noscope. apply does_bind.
    eapply (defs_loop f dep b Gb NEb ds Gd st0); [exact Hb|eassumption|lia|].
    intros s1 c1 L1 c2 new n' L2 Hn R1. cbn [app] in R1.
    destruct (map fun_tree ds ++ map item_tree b) eqn:Em; [destruct ds; [congruence|discriminate]|].
    st. st. apply does_bind. eapply r_top; [exact R1|]. intros sc s2 U R2. unfold emit_releaseUpvalues. rewrite U. cbn [filter]. st. st. st.
    assert (forall s4 c, c = (c1 ++ c2) ++ move_down 0 n' -> run (OU := no_outer) st0 s4 c 1 L2 []
          (fun ids => fun_codes (static_test cfg) ids 0 0 ds c1 L1 /\ gcomp_items ids True [] 0 L1 b c2 new n' L2) ->
       exists c1 L1 c2 L2, run (OU := no_outer) st0 s4 (c1 ++ c2) 1 L2 [] (fun ids => fun_codes (static_test cfg) ids 0 0 ds c1 L1 /\
         gcomp ids True [] 0 L1 (EScope b) c2 1 L2)) as Fin.
    { intros s4 c -> R4. exists c1, L1, (c2 ++ move_down 0 n'), L2. eapply run_code; [eapply run_weaken; [exact R4|]|].
      - intros ids [A B]. split; [exact A|]. apply (c_scope ids True [] 0 L1 b c2 new n' L2 B).
      - rewrite <- !app_assoc. reflexivity. }
    assert (run (OU := no_outer) st0 s2 (c1 ++ c2) n' L2 [Block new [] false]
          (fun ids => fun_codes (static_test cfg) ids 0 0 ds c1 L1 /\ gcomp_items ids True [] 0 L1 b c2 new n' L2)) as R4.
    { eapply run_weaken; [exact R2|]. intros ids [_ X]. exact X. }
    clear R1 R2. unfold move_down in Fin. destruct (Z.ltb_spec 0 (n' - 1)) as [E1|E1].
    - unfold emit_move. destruct (Z.eqb_spec 0 (n' - 1)); [lia|]. st. st. st. st.
      destruct (Z.ltb_spec 0 (n' + 0 - (0 + 1))); [|lia]. rewrite emit_pop_pos by lia. st. st. try st. eapply Fin; [reflexivity|].
      destruct (Z.ltb_spec 0 (n' - 0 - 1)); [|lia]. replace (n' - (n' - 1)) with 1 in * by lia. rewrite !Z.sub_0_r in *. rewrite !Z.add_0_r in *. change (0 + 1) with 1 in *.
      replace (n' + - (n' - 1)) with 1 in * by lia. eapply run_code; [eassumption|]. rewrite <- !app_assoc. reflexivity.
    - st. st. st. destruct (Z.ltb_spec 0 (n' - (0 + 1))); [lia|]. st. st. try st. assert (n' = 1) as -> by lia. eapply Fin; [reflexivity|].
      eapply run_code; [eassumption|]. cbn. rewrite app_nil_r. reflexivity.
  Qed.

  Theorem fun_shape f ds b y g st : consistent y ->
    (forall x, trie_find g x <> -1 -> trie_find g x = nameToValue y x) -> (exists h, g = trie_run (-1) h) ->
    ds <> [] -> b <> [] -> forallb good_fundef ds = true -> forallb good_item b = true ->
    compileAST cfg f (fun_program ds b) (compile_state y g) = Ok (tt, st) ->
    consistent (symbols_of st) /\
    ((forall x, trie_find (globals_trie st) x <> -1 -> trie_find (globals_trie st) x = nameToValue (symbols_of st) x) /\
     exists h, globals_trie st = trie_run (-1) h) /\ later y (symbols_of st) /\
    exists c1 L1 c2, assembly st = c1 ++ c2 ++ [AHalt] /\
      forall ids, agrees (symbols_of st) ids ->
        fun_codes (static_test cfg) ids 0 0 ds c1 L1 /\ gcomp ids True [] 0 L1 (EScope b) c2 1 (label_number st).
  Proof.
    intros Hy Hg Hh NEd NEb Gd Gb E. set (st0 := compile_state y g) in *.
    assert (ok (OU := no_outer) st0 []) as O0.
    { constructor; try assumption; try exact I. apply plains_plain. constructor. }
    assert (does (compileAST cfg f (fun_program ds b)) st0 (fun _ s => exists c1 L1 c2 L2,
      run (OU := no_outer) st0 s (c1 ++ c2 ++ [AHalt]) 0 L2 [] (fun ids => fun_codes (static_test cfg) ids 0 0 ds c1 L1 /\
         gcomp ids True [] 0 L1 (EScope b) c2 1 L2))) as D.
    { unfold compileAST. apply does_bind.
      destruct f as [|f]; [intros ? ? [=]|]. cbn [compile]. destruct (max_depth cfg <=? 0 + 1); [apply does_err|].
      unfold fun_program, compile_compound. destruct f as [|f]; [intros ? ? [=]|]. cbn [compile]. apply does_bind, does_bind.
      assert (forall Q : unit -> cstate -> Prop, does (compile cfg f (0 + 1) (Progn (map fun_tree ds ++ map item_tree b)) >>> cret tt) st0 Q ->
        does (compile_expression cfg (compile cfg f (0 + 1)) (map fun_tree ds ++ map item_tree b)) st0 Q) as X.
      { intros Q HQ. destruct ds as [|d ds]; [congruence|]. exact HQ. }
      apply X. apply does_bind. destruct f as [|f]; [intros ? ? [=]|]. cbn [compile]. apply does_bind.
      eapply does_weaken; [apply (defs_expression f (0 + 1) ds b st0 O0 eq_refl eq_refl eq_refl NEb NEd Gd Gb)|].
      intros [] s [c1 [L1 [c2 [L2 R]]]]. st. st. st. st. st. st. change (1 <? 1) with false. cbv iota. st. st. unfold emit_exit. st.
      exists c1, L1, c2, L2. change (1 + -1) with 0 in R0. eapply run_code; [exact R0|]. rewrite <- app_assoc. reflexivity. }
    destruct (D _ _ E) as [c1 [L1 [c2 [L2 [[[S1 S1'] S2 S3 [O1 O2 O4 O5 O6] S5] F]]]]].
    split; [exact O4|]. split; [split; assumption|]. split; [exact S5|]. exists c1, L1, c2.
    split; [unfold emitted in S1; unfold same_target in S1'; cbn in S1, S1'; destruct (body st); [contradiction|exact S1]|]. rewrite S3. exact F.
  Qed.
End Whole.
End Lambda.

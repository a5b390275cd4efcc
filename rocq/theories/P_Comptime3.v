(** The form comptime (C69). *)
From Coq Require Import String Ascii ZArith List Bool Lia.
From Coq Require Import ZifyBool ZifyNat.
From Verif Require Import M_Base M_Trie M_Heap M_Instr M_VM M_Asm M_Parser M_Symbol M_Scope M_Convert M_Compile.
From Verif Require Import S_Symbol S_Scope S_Asm S_Compile S_Heap S_VM S_Types S_Run S_Program S_Load S_Convert P_Symbol P_Scope P_Compile P_Compile2 P_Compile3 P_Compile4 P_Compile5 S_Macro P_Comptime P_Comptime2 P_Convert2 P_Convert3 P_Convert5.
From Verif Require Import P_Abs P_Peep P_Sim P_Exact P_Program P_Refine P_Correct P_Final P_Correct2 S_Run.
From Verif Require M_Macro P_Macro.
Import (notations) M_Macro.
Import ListNotations.
Open Scope Z_scope.
Open Scope list_scope.

Lemma gbind_ok {A B} (m : M_Macro.GM A) (f : A -> M_Macro.GM B) s x s' : m s = Ok (x, s') -> M_Macro.gbind m f s = f x s'.
Proof. intros E. unfold M_Macro.gbind. rewrite E. reflexivity. Qed.

(** A value popped from the machine. *)
Lemma popped_value ids keep v w G v' : returns ids keep v w G 0 v' ->
  exists o v2, stack v' = o :: stack v /\ denotes ids (objects v') o w /\ stack_pop v' = (Ok o, v2) /\ resumes ids keep v G v2.
Proof.
  intros [[T [Go St]] [o [xs [Es [Lx D]]]] Eu Eg Ec Et Ek Eo]. destruct xs; [|discriminate]. cbn [app] in Es.
  exists o, (lowered 1 v'). split; [exact Es|]. split; [exact D|]. split; [apply (pop_run v' o (stack v) St Es)|].
  constructor; auto.
  - split; [apply typed_lowered, T|]. split; [exact Go|apply lowered_step, St].
  - cbn [lowered set_ustack set_stack stack ustack]. rewrite Es, Eu. split; reflexivity.
Qed.

Lemma since_opened c y c1 code n L bs : body c = None -> since (opened c y) c1 code n L bs -> body c1 = Some code /\ assembly c1 = assembly c.
Proof.
  intros Bc [[Ec Tc] _ _ _ _]. unfold emitted, same_target, opened in *. cbn in *. destruct (body c1) as [b|]; [|destruct Tc]. cbn in *. split; congruence.
Qed.

Theorem comptime_form cfg pushpops short fuel depth e r c bs c1 bytes ids W f w s :
  callbacks_apart cfg -> ~ In (word "comptime") (callbacks cfg) -> getScopeFunction (scopes r) (word "comptime") = -1 ->
  body c = None -> assembly c = [] -> 0 <= locals_length c -> 0 <= label_number c -> ok (opened c (symbols_of r)) bs ->
  good e = true -> second_code cfg pushpops short fuel depth e c (symbols_of r) c1 bytes ->
  numbering (symbols_of c1) ids -> (forall x, In x (mentioned e) -> find_name (fv bs) x = None) ->
  apart ids (assigned (map fst (fv bs)) (locals_length c) e) ->
  eval f e (State [] (fun x => W (ids x))) = Ok (w, s) -> constant_value w ->
  exists c2 bs2 t n, settled c c2 /\ ok c2 bs2 /\ rooted bs bs2 /\ label_number c2 = label_number c1 /\ symbols_of c2 = symbols_of c1 /\ globals_trie c2 = globals_trie c1 /\
    later (symbols_of r) (symbols_of c1) /\ spliced w = Some t /\
    forall host v, idle v -> (forall x, represents ids v (ids x) (W (ids x))) ->
      (exists F v', resumes ids (untouched ids e) v (globals_of s) v' /\
         forall steps, (F <= steps)%nat ->
           M_Macro.compile cfg pushpops short host steps (S fuel) depth (Form [AstIdentifier (word "comptime"); tree e]) (M_Macro.MState r c false v) =
           (let+ _ := M_Macro.compile cfg pushpops short host steps fuel depth (Compound t true) in
            M_Macro.gret (-1, [AstIdentifier (word "comptime"); tree e])) (M_Macro.MState (set_symbols r (symbols_of c1)) c2 false v')) \/
      (runs_out host (bytes ++ [165]) v /\ (length (free v) < n)%nat).
Proof.
  intros Hc Hk Hs Bc Ac Lc Nc Okc G [i [code [Co [Bc1 [As [Fi Lo]]]]]] [Ag Inj] Hm Ap E Cw.
  destruct (alone_compiles cfg fuel depth e _ bs i c1 Hc G Okc Lc Co) as [cd [L' [bs' [Si [Rt Gc]]]]].
  destruct (since_opened _ _ _ _ _ _ _ Bc Si) as [B1 A1]. rewrite Bc1 in B1. injection B1 as <-.
  destruct (constant_spliced w Cw) as [t Sp].
  pose proof (si_label _ _ _ _ _ _ Si) as El. subst L'. pose proof (si_locals _ _ _ _ _ _ Si) as En.
  specialize (Gc ids Ag). change (locals_length (opened c (symbols_of r))) with (locals_length c) in *. change (label_number (opened c (symbols_of r))) with (label_number c) in *.
  destruct (alone_value ids e pushpops short (fv bs) (locals_length c) (label_number c) (label_number c1) code bytes W f w s Inj G Nc Gc Hm Ap As Fi Lo E) as [n K].
  set (c2 := CState None [] (scopes c1) (locals_length c) (label_number c1) (symbols_of c1) (globals_trie c1)).
  exists c2, bs', t, n. split; [repeat split|]. split; [destruct (si_ok _ _ _ _ _ _ Si); constructor; assumption|]. split; [exact Rt|].
  split; [reflexivity|]. split; [reflexivity|]. split; [reflexivity|]. split; [exact (si_later _ _ _ _ _ _ Si)|]. split; [exact Sp|].
  intros host v I R. destruct (K host v I R) as [[F [v' [X Y]]]|X]; [left|right; exact X].
  destruct (popped_value _ _ _ _ _ _ Y) as [o [v2 [Es [D [Po Re]]]]].
  destruct (value_back _ _ _ _ D t Sp) as [F2 H2].
  exists (Nat.max F F2), v2. split; [exact Re|]. intros steps Hst.
  pose proof (P_Macro.sim_compile cfg pushpops short host steps fuel true r v depth (Noscope [tree e]) 0 (opened c (symbols_of r))) as Sim.
  rewrite Co in Sim. unfold P_Macro.emb, P_Macro.ext in Sim. cbn [repeat app P_Macro.result] in Sim.
  replace (set_scopes r (scopes r)) with r in Sim by (destruct r; reflexivity).
  cbn [M_Macro.compile]. unfold M_Macro.compile_expression.
  rewrite (gbind_ok M_Macro.cget _ _ r (M_Macro.MState r c false v)) by reflexivity.
  assert (getFunctionFromName cfg (scopes r) (word "comptime") = CalleeGenerator GOther) as Fn.
  { unfold getFunctionFromName. rewrite Hs. change (-1 =? -1) with true. cbv iota.
    rewrite (existsb_name _ _ Hk). reflexivity. }
  rewrite Fn, Hs. change (-1 =? functionType_macro) with false. cbv iota.
  change (name_is (word "comptime") (str "comptime") || name_is (word "comptime") (str "__comptime")) with true. cbv iota.
  unfold M_Macro.generator_comptime.
  set (again := M_Macro.compile cfg pushpops short host steps fuel depth) in *. set (l := [AstIdentifier (word "comptime"); tree e]).
  unfold M_Macro.gbind at 1.
  rewrite (gbind_ok M_Macro.gget _ _ (M_Macro.MState r c false v) (M_Macro.MState r c false v)) by reflexivity.
  cbn [M_Macro.compiling].
  rewrite (gbind_ok _ _ _ tt (M_Macro.MState r c true v)) by reflexivity.
  rewrite (gbind_ok M_Macro.begin_body _ _ None (M_Macro.MState r (opened c (symbols_of r)) true v)).
  2:{ unfold M_Macro.begin_body, M_Macro.lift, begin_body, M_Macro.current, M_Macro.put. cbn. rewrite Bc. destruct r. reflexivity. }
  cbn [tl l].
  rewrite (gbind_ok (M_Macro.rec again (Noscope [tree e])) _ _ 0 (M_Macro.MState (set_symbols r (symbols_of c1)) c1 true v)).
  2:{ unfold M_Macro.rec. rewrite (gbind_ok (again (Noscope [tree e])) _ _ (0, []) (M_Macro.MState (set_symbols r (symbols_of c1)) c1 true v)); [reflexivity|].
      rewrite <- Sim. destruct r. reflexivity. }
  assert (forall v, M_Macro.current (M_Macro.MState (set_symbols r (symbols_of c1)) c1 true v) = c1) as Cur by (intros; unfold M_Macro.current; destruct r, c1; reflexivity).
  set (c3 := CState None code (scopes c1) (locals_length c1) (label_number c1) (symbols_of c1) (globals_trie c1)).
  rewrite (gbind_ok (M_Macro.end_body None) _ _ tt (M_Macro.MState (set_symbols r (symbols_of c1)) c3 true v)).
  2:{ unfold M_Macro.end_body, M_Macro.lift. rewrite Cur. unfold end_body. rewrite Bc1, A1, Ac. destruct r; reflexivity. }
  set (c4 := CState None [] (scopes c1) (locals_length c1) (label_number c1) (symbols_of c1) (globals_trie c1)).
  rewrite (gbind_ok M_Macro.take_assembly _ _ code (M_Macro.MState (set_symbols r (symbols_of c1)) c4 true v)).
  2:{ unfold M_Macro.take_assembly. destruct r; reflexivity. }
  rewrite (gbind_ok (M_Macro.execute_now pushpops short host steps code) _ _ (Ok tt) (M_Macro.MState (set_symbols r (symbols_of c1)) c4 true v')).
  2:{ unfold M_Macro.execute_now. rewrite (gbind_ok M_Macro.cget _ _ c4 (M_Macro.MState (set_symbols r (symbols_of c1)) c4 true v)) by (destruct r; reflexivity).
      cbn [label_number c4]. rewrite (gbind_ok (M_Macro.of_res (assemble pushpops short false (Z.to_nat (label_number c1)) code)) _ _ bytes (M_Macro.MState (set_symbols r (symbols_of c1)) c4 true v)) by (rewrite As; reflexivity).
      cbn [M_Macro.machine]. change (opcode CHalt W8) with 165. rewrite (X steps) by lia. reflexivity. }
  rewrite (gbind_ok M_Macro.machine_top _ _ o (M_Macro.MState (set_symbols r (symbols_of c1)) c4 true v')) by (unfold M_Macro.machine_top; cbn [M_Macro.machine]; rewrite Es; reflexivity).
  rewrite (gbind_ok (M_Macro.of_res (Ok tt)) _ _ tt (M_Macro.MState (set_symbols r (symbols_of c1)) c4 true v')) by reflexivity.
  rewrite (gbind_ok (M_Macro.to_tree steps false o) _ _ t (M_Macro.MState (set_symbols r (symbols_of c1)) c4 true v')) by (unfold M_Macro.to_tree; cbn [M_Macro.machine]; rewrite H2 by lia; reflexivity).
  rewrite (gbind_ok M_Macro.machine_pop _ _ tt (M_Macro.MState (set_symbols r (symbols_of c1)) c4 true v2)) by (unfold M_Macro.machine_pop; cbn [M_Macro.machine]; rewrite Po; reflexivity).
  rewrite (gbind_ok M_Macro.locals _ _ (locals_length c1) (M_Macro.MState (set_symbols r (symbols_of c1)) c4 true v2)) by (destruct r; reflexivity).
  rewrite (gbind_ok (M_Macro.locals_to (locals_length c1 - 1)) _ _ tt (M_Macro.MState (set_symbols r (symbols_of c1)) c2 true v2)).
  2:{ unfold c2. replace (locals_length c) with (locals_length c1 - 1) by lia. destruct r; reflexivity. }
  rewrite (gbind_ok _ _ _ tt (M_Macro.MState (set_symbols r (symbols_of c1)) c2 false v2)) by reflexivity.
  unfold M_Macro.rec, M_Macro.gbind. destruct (again (Compound t true) _) as [[x s0]|?| |]; reflexivity.
Qed.

(** * Whole programs *)

Lemma names_later y y' g : names_ok y g -> later y y' -> names_ok y' g.
Proof. intros [A B] L. split; [|exact B]. intros x H. rewrite (A x H). symmetry. apply L. rewrite <- (A x H). exact H. Qed.

Lemma opened_ok y g bs : ok (compile_state y g) bs -> ok (opened (compile_state y g) y) bs.
Proof. intros [O1 O2 O3 O4 O5]. constructor; assumption. Qed.

Lemma sessions_ok cfg y g gc : callbacks_apart cfg -> sessions cfg y g gc -> consistent y /\ names_ok y g /\ names_ok y gc.
Proof.
  intros Hc S. induction S as [us|y g gc x S [C [N1 N2]]|y g gc fuel depth e i st S [C [N1 N2]] G E|y g gc fuel depth e i st S [C [N1 N2]] G E].
  - split; [apply P_Symbol.after_ok|]. assert (names_ok (symbols_after us) (trie_init (-1))); [|auto]. split; [|exists []; reflexivity]. intros x H. exfalso. apply H. destruct x; reflexivity.
  - assert (later y (fst (symbol_create true y x))) as L by (intros z; apply (proj2 (create_value y x C))).
    split; [apply P_Symbol.create_ok, C|]. split; eapply names_later; eassumption.
  - pose proof (sub_compound _ (proj1 (compile_sub cfg Hc fuel depth)) e true (compile_state y g) [] G ltac:(cbn; lia) (compile_state_ok y g C N1) _ _ E) as [code [n' [L' [bs' [[_ _ _ [O1 O2 O3 O4 O5] La] _]]]]].
    split; [exact O3|]. split; [split; assumption|eapply names_later; eassumption].
  - destruct (alone_compiles cfg fuel depth e _ [] i st Hc G (opened_ok _ _ _ (compile_state_ok y gc C N2)) ltac:(cbn; lia) E) as [code [L' [bs' [[_ _ _ [O1 O2 O3 O4 O5] La] _]]]].
    split; [exact O3|]. split; [eapply names_later; eassumption|split; assumption].
Qed.

Lemma program_value ids e pushpops short st cde n' code W f w s : (forall a b, ids a = ids b -> a = b) ->
  program ids e (label_number st) (assembly st) cde n' -> assembles pushpops short st code -> assignments_apart ids e ->
  eval f e (State [] (fun x => W (ids x))) = Ok (w, s) -> exists extra, computes ids code W (untouched ids e) w (globals_of s) extra.
Proof.
  intros Hinj P A Ha E. pose proof (assembled _ _ _ _ _ _ _ _ A P) as La. assert (pops (assembly st) < 2 ^ 31) as Sm by apply A.
  pose proof (program_sim P Hinj (apart_list _ _ Ha) f (fun x => W (ids x)) W (fun x => eq_refl)) as K. rewrite E in K.
  destruct K as [k [extra [W' [K1 [K2 [K3 K4]]]]]].
  set (q := if pushpops then peephole (assembly st) else assembly st) in *.
  assert (exists k, asteps q (O, [], W) (k, w :: extra, W') /\ nth_error q k = Some AHalt) as [k' [Q1 Q2]].
  { unfold q. destruct pushpops; [|eauto]. pose proof (peephole_asteps (assembly st) [] W _ (program_pops P) Sm K1 K2) as Pe.
    cbn [fst snd] in Pe. eauto. }
  destruct (laid_value ids e q code W k' w extra W' Hinj La Q1 Q2) as [N HN]. exists (length extra), N. intros host v Hi Hr.
  destruct (HN host v Hi Hr) as [[F [v' [X R]]]|X]; [left|right; exact X].
  exists F, v'. split; [exact X|]. eapply returns_ext; [|exact R]. exact K4.
Qed.

Lemma bind_ok {A B} (m : CM A) (k : A -> CM B) st r : cbind m k st = Ok r -> exists x st1, m st = Ok (x, st1) /\ k x st1 = Ok r.
Proof. unfold cbind. destruct (m st) as [[x st1]|?| |]; try discriminate. eauto. Qed.

Theorem comptime_program cfg pushpops short fuel e y g gc c1 bytes ids W f w s st code :
  callbacks_apart cfg -> ~ In (word "comptime") (callbacks cfg) -> ~ In (word "__cons") (callbacks cfg) -> sessions cfg y g gc ->
  good e = true -> second_code cfg pushpops short fuel 1 e (compile_state y gc) y c1 bytes ->
  (compile cfg fuel 1 (Compound (tree (source w)) true) >>> finish) (compile_state (symbols_of c1) g) = Ok (tt, st) ->
  assembles pushpops short st code -> numbering (symbols_of st) ids -> assignments_apart ids e ->
  eval f e (State [] (fun x => W (ids x))) = Ok (w, s) -> constant_value w ->
  sessions cfg (symbols_of st) (globals_trie st) (globals_trie c1) /\
  (forall W', exists extra, computes ids code W' (fun _ => True) w (fun x => W' (ids x)) extra) /\
  exists n, forall host v, idle v -> (forall x, represents ids v (ids x) (W (ids x))) ->
    (exists F v' c2, resumes ids (untouched ids e) v (globals_of s) v' /\ settled (compile_state y gc) c2 /\ globals_trie c2 = globals_trie c1 /\
       forall steps, (F <= steps)%nat ->
         M_Macro.compileAST cfg pushpops short host steps (S (S fuel)) (at_compile_time (tree e)) (M_Macro.compile_state y g gc v) =
         Ok (tt, M_Macro.MState st c2 false v')) \/
    (runs_out host (bytes ++ [165]) v /\ (length (free v) < n)%nat).
Proof.
  intros Hc Hk Hq Ss G Sc Cf As [Ag Inj] Ap E Cw. destruct (sessions_ok _ _ _ _ Hc Ss) as [C [N1 N2]].
  assert (exists i, compile cfg fuel 1 (Noscope [tree e]) (opened (compile_state y gc) y) = Ok (i, c1)) as [i Co] by (destruct Sc as [i [? [Co _]]]; eauto).
  assert (sessions cfg (symbols_of c1) g (globals_trie c1)) as S1 by (eapply both_second; eassumption).
  destruct (sessions_ok _ _ _ _ Hc S1) as [C1 [N11 N12]].
  destruct (program_shape_at cfg fuel 1 (source w) _ _ st Hc C1 N11 (source_good w Cw) Cf) as [C2 [N2' [La [cde [n' [Ea [Cg El]]]]]]].
  destruct (bind_ok _ _ _ _ Cf) as [j [st0 [Cc Cfin]]].
  split.
  { assert (symbols_of st = symbols_of st0 /\ globals_trie st = globals_trie st0) as [-> ->]; [|eapply both_first; [exact S1|apply source_good, Cw|exact Cc]].
    revert Cfin. unfold finish, cbind, locals, emit_move, emit_pop, emit_exit, emit, cmod, cret, cget. clear.
    destruct (1 <? locals_length st0); [destruct (Z.eqb_spec (locals_length st0 - 2) (locals_length st0 - 1)); [lia|]|]; destruct st0 as [[b|] ? ? ? ? ? ?]; intros [= <-]; split; reflexivity. }
  split.
  { intros W'. assert (program ids (source w) (label_number st) (assembly st) cde n') as P by (constructor; [apply P_Sim.good_sane, source_good, Cw|exact Ea|exists 0; split; [lia|apply Cg; exact Ag]]).
    destruct (source_eval w Cw) as [f0 E0]. destruct (program_value ids (source w) pushpops short st cde n' code W' f0 w (State [] (fun x => W' (ids x))) Inj P As) as [extra K].
    - intros x k F. rewrite source_assigned in F. destruct F.
    - apply E0. lia.
    - exists extra. apply (computes_all _ _ _ (untouched ids (source w))); [intros k x; rewrite source_targets; intros []|]. exact K. }
  assert (ok (opened (compile_state y gc) y) []) as O1 by (apply opened_ok, compile_state_ok; assumption).
  destruct (comptime_form cfg pushpops short fuel 1 e (compile_state y g) (compile_state y gc) [] c1 bytes ids W f w s Hc Hk) as [c2 [bs2 [t [n [Se [Ok2 [_ [_ [Es [Eg [_ [Sp K]]]]]]]]]]]]; auto; try reflexivity; try (cbn; lia).
  - split; [|exact Inj]. intros x H. rewrite (Ag x); [apply La, H|]. rewrite (La x H). exact H.
  - apply apart_list. exact Ap.
  - exists n. intros host v I R. destruct (K host v I R) as [[F [v' [Re X]]]|X]; [left|right; exact X].
    exists F, v', c2. split; [exact Re|]. split; [exact Se|]. split; [exact Eg|]. intros steps Hst. specialize (X steps Hst).
    pose proof (P_Macro.sim_compile cfg pushpops short host steps fuel false c2 v' 1 (Compound t true) 0 (compile_state (symbols_of c1) g)) as Sim.
    assert (compile cfg fuel 1 (Compound t true) (compile_state (symbols_of c1) g) = Ok (j, st0)) as Ct.
    { rewrite <- Cc. eapply splice_same; [exact Hc|exact Hq|exact Sp|apply source_good, Cw|cbn; lia|]. apply compile_state_ok; assumption. }
    rewrite Ct in Sim. unfold P_Macro.emb, P_Macro.ext in Sim. cbn [repeat app P_Macro.result] in Sim.
    replace (set_scopes c2 (scopes c2)) with c2 in Sim by (destruct c2; reflexivity).
    set (l := [AstIdentifier (word "comptime"); tree e]) in *.
    assert (M_Macro.compile cfg pushpops short host steps (S fuel) 1 (Form l) (M_Macro.compile_state y g gc v) = Ok ((-1, l), M_Macro.MState st0 c2 false v')) as X2.
    { unfold M_Macro.compile_state. rewrite X. change (set_symbols (compile_state y g) (symbols_of c1)) with (compile_state (symbols_of c1) g).
      rewrite (gbind_ok _ _ _ _ _ Sim). reflexivity. }
    assert (max_depth cfg <=? 1 = false) as Md.
    { destruct fuel as [|fuel']; [discriminate Cc|]. cbn [compile] in Cc. destruct (max_depth cfg <=? 1 + 1) eqn:M; [discriminate Cc|]. lia. }
    unfold M_Macro.compileAST.
    rewrite (gbind_ok _ _ _ (locals_length st0 - 1, l) (M_Macro.MState st0 c2 false v')).
    2:{ cbn [at_compile_time]. remember (S fuel) as sf. cbn [M_Macro.compile]. change (0 + 1) with 1. rewrite Md. unfold M_Macro.compile_compound, at_compile_time. fold l.
        rewrite (gbind_ok _ _ _ _ _ X2). reflexivity. }
    assert (Sf : P_Macro.sim false c2 v' 0 0 (fun x => x) finish (let+ n0 := M_Macro.locals in
        (if 1 <? n0 then M_Macro.emit_move (n0 - 2) (n0 - 1) >+> M_Macro.emit_pop 1 else M_Macro.gret tt) >+> M_Macro.emit_exit)).
    { eapply P_Macro.sim_bind; [apply P_Macro.sim_lift|]. intros n0. eapply P_Macro.sim_drop; [|apply P_Macro.sim_lift].
      destruct (1 <? n0); [|apply P_Macro.sim_ret]. eapply P_Macro.sim_drop; apply P_Macro.sim_lift. }
    specialize (Sf st0). rewrite Cfin in Sf. unfold P_Macro.emb, P_Macro.ext in Sf. cbn [repeat app] in Sf.
    replace (set_scopes c2 (scopes c2)) with c2 in Sf by (destruct c2; reflexivity). exact Sf.
Qed.

(** Calls of C functions from programs (C73). *)
From Coq Require Import String ZArith List Bool Lia Arith ZifyBool ZifyNat.
From Verif Require Import M_Base M_Trie M_Heap M_Instr M_VM M_Asm M_Parser M_Symbol M_Scope M_Compile S_Heap S_VM S_Asm S_Symbol S_Scope S_Types S_Stack S_Compile S_Run S_Program S_Callback
  P_Symbol P_Scope P_Globals P_Asm3 P_Asm4 P_Peep P_Bytes P_Abs P_Compile P_Compile2 P_Compile3 P_Compile4 P_Compile5 P_Height P_Sim P_Exact P_Program P_Refine P_Correct P_Correct2 P_Fun5 X_Asm.
Import ListNotations.
Open Scope Z_scope.
Open Scope list_scope.

(** * The compiler *)
Lemma ccall_shape cfg fuel f es y g st :
  callbacks_apart cfg -> consistent y -> names_ok y g -> In f (callbacks cfg) -> nameToValue y f <> -1 -> forallb good es = true ->
  compileAST cfg fuel (ccall f es) (compile_state y g) = Ok (tt, st) ->
  consistent (symbols_of st) /\ later y (symbols_of st) /\
  exists code n', assembly st = code ++ [ACcall (nameToValue y f); AHalt] /\
    forall ids, agrees (symbols_of st) ids -> gcomp_args ids True [] 0 0 es code n' (label_number st).
Proof.
  intros Hcb C [G1 G2] If Nf Gd E. set (st0 := compile_state y g) in *.
  assert (ok st0 []) as O.
  { constructor; try assumption; try reflexivity. apply plains_plain. constructor. }
  destruct fuel as [|fuel]; [discriminate E|].
  assert (does (compile cfg (S fuel) 0 (Compound (ccall f es) true) >>> finish) st0 (fun _ s => exists code n' L' bs',
      since st0 s (code ++ [ACcall (nameToValue y f); AHalt]) 0 L' bs' /\ forall ids, agrees (symbols_of s) ids -> gcomp_args ids True [] 0 0 es code n' L')) as D.
  { unfold finish. apply does_bind. cbn [compile]. destruct (max_depth cfg <=? 0 + 1); [apply does_err|].
    unfold ccall, compile_compound. apply does_bind. destruct fuel as [|fuel]; [intros a s X; discriminate X|].
    cbn [compile]. apply does_bind. unfold compile_expression. apply does_bind, does_cget.
    assert (getFunctionFromName cfg (scopes st0) f = CalleeCallback) as ->.
    { unfold getFunctionFromName. cbn. assert (existsb (name_is f) (callbacks cfg) = true) as ->; [|reflexivity].
      apply existsb_exists. exists f. split; [exact If|]. unfold name_is. destruct (list_eq_dec Z.eq_dec f f); congruence. }
    unfold generator_callback. apply does_bind, does_cget. change (symbols_of st0) with y. destruct (Z.eqb_spec (nameToValue y f) (-1)); [contradiction|].
    pose proof (run_start st0 [] O) as R. st. apply does_bind.
    eapply arguments_does; [exact (proj1 (compile_sub cfg Hcb fuel 1))|exact Gd|exact R|cbn; lia|]. intros s1 c n' L' bs1 RT R1. cbn [app] in R1.
    apply does_bind. unfold emit_ccall. eapply r_emit; [exact R1|]. intros s2 R2. eapply r_locals_to; [exact R2|]. intros s3 R3.
    apply does_ret. eapply r_locals; [exact R3|]. apply does_ret. eapply r_locals; [exact R3|].
    change (1 <? locals_length st0 + 1) with false. cbv iota. apply does_bind, does_ret. unfold emit_exit. eapply r_emit; [exact R3|]. intros s4 R4.
    exists c, n', L', bs1. destruct R4 as [S4 F4]. cbn [app] in S4.
    split; [rewrite <- app_assoc in S4; exact S4|]. intros ids A. apply (F4 ids A). }
  destruct (D _ _ E) as [code [n' [L' [bs' [[[S1 S1'] S2 S3 [O1 O2 O4 O5 O6] S5] F]]]]].
  split; [exact O4|]. split; [exact S5|]. exists code, n'.
  split; [unfold emitted in S1; unfold same_target in S1'; cbn in S1, S1'; destruct (body st); [contradiction|exact S1]|]. rewrite S3. exact F.
Qed.

(** * The assembly *)
Lemma args_no_funcall ids skip vs n L es code n' L' : gcomp_args ids skip vs n L es code n' L' -> forallb good es = true -> no_funcall code.
Proof.
  induction 1 as [|? ? ? ? ? ? ? ? ? ? ? Hc Ha IH]; intros G; [apply no_funcall_nil|]. cbn [forallb] in G. apply andb_true_iff in G as [G1 G2].
  apply no_funcall_app; [apply no_funcall_app; [eapply (proj1 (comp_no_funcall ids skip)); [exact Hc|apply good_sane, G1]|apply no_funcall_down]|apply IH, G2].
Qed.
Lemma args_apart_list ids : forall es n, args_apart ids n es -> apart ids (assigned_args [] n es).
Proof.
  induction es as [|e es IH]; intros n H; [constructor|]. rewrite assigned_args_cons, apart_app. destruct H as [H1 H2].
  split; [apply Forall_forall; intros [x i] I; exact (H1 x i I)|apply IH, H2].
Qed.
Lemma arguments_values f : forall es s, arguments f es s = values f es s.
Proof. induction es as [|e es IH]; intros s; [reflexivity|]. cbn [arguments values]. destruct (eval f e s) as [[v s1]|er| |]; cbn [bind]; try reflexivity. fold (arguments f). rewrite IH. reflexivity. Qed.

Record ccall_program (ids : bytes -> Z) (f : bytes) (es : list exp) (N : Z) (prog code : list ainstr) (n' : Z) : Prop := {
  cp_good : forallb good es = true;
  cp_prog : prog = code ++ [ACcall (ids f); AHalt];
  cp_comp : gcomp_args ids True [] 0 0 es code n' N
}.
Section Program.
  Context {ids : bytes -> Z} {f : bytes} {es : list exp} {N : Z} {prog code : list ainstr} {n' : Z}.
  Variable P : ccall_program ids f es N prog code n'.

  Lemma ccall_labelled : well_labelled (Z.to_nat N) prog.
  Proof.
    pose proof (proj2 (proj2 (proj2 (proj2 (comp_labelled5 ids True)))) _ _ _ _ _ _ _ (cp_comp _ _ _ _ _ _ _ P)) as [W O U].
    assert (defines prog = defines code) as D.
    { rewrite (cp_prog _ _ _ _ _ _ _ P). unfold defines. rewrite flat_map_app. cbn. apply app_nil_r. }
    constructor; rewrite D.
    - exact O.
    - apply Forall_forall. intros l I. apply defines_labels in I. pose proof (proj1 (Forall_forall _ _) W l I) as K. cbn in K. lia.
    - intros a l I Us. rewrite (cp_prog _ _ _ _ _ _ _ P) in I. apply in_app_or in I as [I|I]; [eapply U; eassumption|].
      exfalso. cbn in I. repeat destruct I as [<-|I]; try discriminate; contradiction.
  Qed.
  Lemma ccall_pops : positive_pops prog.
  Proof.
    destruct (proj2 (proj2 (proj2 (proj2 (comp_seg5 ids True)))) _ _ _ _ _ _ _ (cp_comp _ _ _ _ _ _ _ P) (slots_nil 0) ltac:(lia)) as [lh S].
    apply seg_pops in S. rewrite (cp_prog _ _ _ _ _ _ _ P).
    intros k I. apply in_app_or in I as [I|[I|[I|[]]]]; [apply S, I|discriminate..].
  Qed.
  Lemma ccall_no_funcall : no_funcall prog.
  Proof.
    rewrite (cp_prog _ _ _ _ _ _ _ P). apply no_funcall_app; [eapply args_no_funcall; apply P|no_calls].
  Qed.
  Theorem ccall_sim : (forall a b, ids a = ids b -> a = b) -> args_apart ids 0 es ->
    forall fuel G AG, (forall x, AG (ids x) = G x) ->
    match values fuel es (State [] G) with
    | Ok (us, s) => exists AG', csteps no_entries prog (O, [], AG) (length code, rev us, AG') /\ length us = length es /\ forall x, AG' (ids x) = globals_of s x
    | Err er => exists c, asteps prog (O, [], AG) c /\ astep prog c = Err er
    | _ => True
    end.
  Proof.
    intros Inj A fuel G AG HG.
    pose proof (once_defines _ (wl_once _ _ ccall_labelled)) as Once.
    pose proof (sim ids prog Inj Once no_entries (no_functions ids prog) fuel) as [HE HI].
    pose proof (proj2 (proj2 (proj2 (proj2 (exact5 ids)))) _ _ _ _ _ _ _ (cp_comp _ _ _ _ _ _ _ P) (args_apart_list _ _ _ A)) as C.
    pose proof (args_sim ids prog Once no_entries (no_functions ids prog) fuel HE es [] 0 0 code n' N [] [ACcall (ids f); AHalt] [] (State [] G) AG C
      (cp_good _ _ _ _ _ _ _ P) (cp_prog _ _ _ _ _ _ _ P)) as K.
    rewrite arguments_values in K. cbn [app length rev] in K.
    assert (P_Sim.here ids [] 0 [] (State [] G) AG) as H0 by (constructor; cbn; auto; try (constructor; fail); try exact HG; try apply slots_nil).
    specialize (K H0).
    destruct (values fuel es (State [] G)) as [[us s]|er| |]; try exact I.
    - destruct K as [B [AG' [K1 [K2 [_ [K4 K5]]]]]]. exists AG'.
      assert (B = us) as ->.
      { pose proof (args_height _ _ _ _ _ _ _ _ _ (cp_comp _ _ _ _ _ _ _ P)) as [Hn _]. pose proof (h_size _ _ _ _ _ _ K2) as Z1.
        assert (length B = length us) as Lb by (unfold zlength in *; lia).
        apply nth_ext with (d := VNil) (d' := VNil); [exact Lb|]. intros j Hj.
        assert (exists u, nth_error us j = Some u) as [u Hu] by (destruct (nth_error us j) eqn:X; [eauto|apply nth_error_None in X; lia]).
        specialize (K5 j u Hu). unfold get in K5. replace (Z.to_nat (0 + Z.of_nat j)) with j in K5 by lia.
        rewrite (nth_error_nth _ _ _ K5), (nth_error_nth _ _ _ Hu). reflexivity. }
      split; [exact K1|]. split; [exact K4|]. exact (h_globals _ _ _ _ _ _ K2).
    - destruct K as [c [K1 K2]]. exists c. split; [apply csteps_asteps; exact K1|apply crashes_astep; [exact K2|apply ccall_no_funcall]].
  Qed.
End Program.

(** * The machine *)
Record ccall_laid ids es code prog : Prop := {
  cl_lays : exists off addr, laid_out false prog code off addr;
  cl_usual : Forall (usual ids (flat_map targets es)) prog;
  cl_bytes : Forall byte code
}.
Lemma ccall_assembled ids f es pushpops short st code cde n' :
  assembles pushpops short st code -> ccall_program ids f es (label_number st) (assembly st) cde n' ->
  ccall_laid ids es code (if pushpops then peephole (assembly st) else assembly st).
Proof.
  intros [A [R [Cl [Sm Sz]]]] P. set (p := assembly st) in *. set (q := if pushpops then peephole p else p) in *.
  pose proof (ccall_pops P) as Pp. pose proof (ccall_labelled P) as Pl.
  assert (forall Q : ainstr -> Prop, Q AInternalNop -> (forall n, 0 <= n < 2 ^ 31 -> Q (APop n)) -> Forall Q p -> Forall Q q) as K.
  { intros Q Q1 Q2 F. unfold q. destruct pushpops; [|exact F]. apply peephole_keeps; auto. }
  assert (well_labelled (Z.to_nat (label_number st)) q) as Wq by (unfold q; destruct pushpops; [apply peephole_labelled|]; auto).
  assert (Forall in_range q) as Rq by (apply K; [|intros n Hn|exact R]; cbn; auto; unfold S_Asm.word; lia).
  assert (Forall clean q) as Cq by (apply K; [|intros n Hn|exact Cl]; cbn; auto).
  assert (Forall (usual ids (flat_map targets es)) q) as Uq.
  { apply K; [split; exact I|intros n Hn; split; exact I|]. rewrite (cp_prog _ _ _ _ _ _ _ P). apply Forall_app. split.
    - eapply (proj2 (proj2 (proj2 (proj2 (usual_gcomp5 ids (flat_map targets es)))))); [apply P|apply P|apply incl_refl].
    - repeat constructor. }
  assert (assemble false short false (Z.to_nat (label_number st)) q = Ok code) as Aq by (unfold q; destruct pushpops; exact A).
  constructor; [|exact Uq|].
  - destruct short.
    + destruct (assemble_small false _ q Wq Rq Cq Sz) as [c [off [addr [E [L _]]]]]. rewrite Aq in E. injection E as <-. eauto.
    + destruct (assemble_plain_jumps false _ q Wq Rq Cq) as [c [off [addr [E L]]]]. rewrite Aq in E. injection E as <-. eauto.
  - eapply assemble_bytes; [exact Wq| |exact Aq]. eapply Forall_impl; [|exact Uq]. intros a Ha. apply Ha.
Qed.

Lemma ccall_program_of cfg pushpops short f es y' code ids : callbacks_apart cfg -> ccall_built cfg pushpops short f es y' code -> numbering y' ids ->
  exists st cde n', ccall_program ids f es (label_number st) (assembly st) cde n' /\
    ccall_laid ids es code (if pushpops then peephole (assembly st) else assembly st) /\ pops (assembly st) < 2 ^ 31.
Proof.
  intros Hc [y [g [fuel [st [S [If [Nf [G [E [-> A]]]]]]]]]] [Hag Hinj]. destruct (session_ok _ _ _ Hc S) as [C N].
  destruct (ccall_shape cfg fuel f es y g st Hc C N If Nf G E) as [_ [Lt [cde [n' [Ea Cg]]]]].
  exists st, cde, n'.
  assert (nameToValue y f = ids f) as Ef by (symmetry; apply (agrees_later _ _ _ Lt Hag), Nf).
  assert (ccall_program ids f es (label_number st) (assembly st) cde n') as P by (constructor; [exact G|rewrite <- Ef; exact Ea|apply Cg; exact Hag]).
  split; [exact P|]. split; [eapply ccall_assembled; eassumption|apply A].
Qed.

Lemma called host b next k c p v : S_Globals.globals_ok v -> lookup v k = Some (Some p) -> nth_error (objects v) p = Some (OFunction c) ->
  exec host b next (ICcall k) v = match host c v with (Ok _, w) => (Ok (Continue next), w) | (Err er, w) => (Err er, w) | (UB, w) => (UB, w) | (NoFuel, w) => (NoFuel, w) end.
Proof.
  intros G L N. unfold exec, mbind. rewrite (global_get_lookup v k G), L. unfold deref, mlift, mget, mbind, mret. cbn. rewrite N.
  destruct (host c v) as [[[]|er| |] w]; reflexivity.
Qed.

Theorem ccall_passes cfg pushpops short f es y' code ids W fuel us s :
  callbacks_apart cfg -> ccall_built cfg pushpops short f es y' code -> numbering y' ids -> args_apart ids 0 es -> ~ In f (flat_map targets es) ->
  values fuel es (State [] (fun x => W (ids x))) = Ok (us, s) ->
  exists N, forall host v p c, idle v -> (forall x, represents ids v (ids x) (W (ids x))) ->
    global_at v (ids f) (Some p) -> nth_error (objects v) p = Some (OFunction c) ->
    (exists v3, finds ids (unassigned ids es) v us (globals_of s) v3 /\ outcome_of host code v (host c v3) v3) \/
    (runs_out host code v /\ (length (free v) < N)%nat).
Proof.
  intros Hc B Hn Ha Hf E. destruct (ccall_program_of _ _ _ _ _ _ _ _ Hc B Hn) as [st [cde [n' [P [[[off [addr L]] U Bt] Sm]]]]].
  destruct Hn as [Hag Hinj].
  pose proof (ccall_sim P Hinj Ha fuel (fun x => W (ids x)) W (fun x => eq_refl)) as K. rewrite E in K.
  destruct K as [W' [K1 [K2 K3]]].
  assert (nth_error (assembly st) (length cde) = Some (ACcall (ids f))) as At.
  { rewrite (cp_prog _ _ _ _ _ _ _ P), nth_error_app2, Nat.sub_diag by lia. reflexivity. }
  assert (nth_error (assembly st) (S (length cde)) = Some AHalt) as At2.
  { rewrite (cp_prog _ _ _ _ _ _ _ P), nth_error_app2 by lia. replace (S (length cde) - length cde)%nat with 1%nat by lia. reflexivity. }
  set (q := if pushpops then peephole (assembly st) else assembly st) in *.
  assert (asteps q (O, [], W) (length cde, rev us, W') /\ nth_error q (length cde) = Some (ACcall (ids f)) /\ nth_error q (S (length cde)) = Some AHalt) as [Q1 [Q2 Q3]].
  { unfold q. destruct pushpops; [|auto using csteps_asteps].
    pose proof (peephole_csteps_to no_entries (assembly st) [] W _ (ACcall (ids f)) (ccall_pops P) Sm ltac:(discriminate) eq_refl ltac:(discriminate) K1 At) as [A1 A2].
    cbn [fst snd] in A2. split; [apply csteps_asteps, A1|]. split; [exact A2|].
    rewrite (cp_prog _ _ _ _ _ _ _ P). rewrite (peephole_barrier cde (ACcall (ids f)) [AHalt]) by exact I.
    assert (length (peephole cde) = length cde) as Lp by (destruct cde; [reflexivity|apply peephole_from_length]).
    rewrite nth_error_app2; rewrite Lp.
    - replace (S (length cde) - length cde)%nat with 1%nat by lia. reflexivity.
    - lia. }
  assert (Forall (keyed ids (flat_map targets es)) q) as Kq by (eapply Forall_impl; [|exact U]; intros a Hx; apply Hx).
  set (keep := unassigned ids es).
  assert (forall x, In x (flat_map targets es) -> ~ keep (ids x)) as Hk by (intros x Ix Hu; exact (Hu x Ix eq_refl)).
  assert (keep (ids f)) as Kf by (intros x Ix Ex; apply Hinj in Ex; subst; contradiction).
  destruct (asteps_acount _ _ _ Q1) as [n C]. exists (3 * n + 1)%nat. intros host v p c I Rp Gp Np.
  destruct (loaded host code v I Bt (halted q code off addr L Bt _ _ _ Q3 eq_refl)) as [[b [id [v1 [X [El [Nb [Sd [E1 [E2 [E3 [E4 [E5 [E6 [E7 [Fr Hs]]]]]]]]]]]]]]]|[v1 [El Fr]]].
  2: { right. split; [left; eauto|]. rewrite Fr. cbn. lia. }
  pose proof (started ids code keep b id v v1 W I Rp Nb Sd E3 E4 Hs) as R. set (v2 := set_current v1 (Some b)) in *.
  assert (S_Globals.globals_ok v2) as G2 by apply Sd.
  pose proof (lo_start _ _ _ _ _ L) as O0.
  destruct (refine_steps no_function [] [] ids Hinj q code off addr L (flat_map targets es) Kq host b id v2 keep Hk G2 n _ _ C v2 R) as [[l [v3 [S3 [R3 F3]]]]|[Sv F3]].
  2: { right. split; [|unfold v2 in F3; cbn in F3; lia]. right. exists b, id, (Some code), v1. split; [exact El|]. split; [exact Nb|].
       unfold here in Sv. cbn [fst] in Sv. rewrite O0 in Sv. exact Sv. }
  left. unfold here in S3. cbn [fst snd] in S3, R3. rewrite O0 in S3.
  destruct (rl_sound _ _ _ _ _ _ _ _ _ _ _ _ R3) as [T3 [G3 [St3 C3]]].
  assert (forall p, owned keep v p -> nth_error (objects v3) p = nth_error (objects v) p) as Ow.
  { intros j Oj. rewrite (rl_held _ _ _ _ _ _ _ _ _ _ _ _ R3); [|apply (owned_moved keep (Some b) v v1); auto].
    cbn. apply Hs. eapply owned_reach, Oj. }
  exists v3. split.
  - destruct (rl_stack _ _ _ _ _ _ _ _ _ _ _ _ R3) as [objs [Es Fo]]. constructor.
    + split; assumption.
    + exists (rev objs). split; [rewrite rev_involutive, Es; cbn; rewrite E1; reflexivity|].
      clear - Fo. rewrite <- (rev_involutive us). revert Fo. generalize (rev us). intros ws Fo.
      induction Fo; cbn [rev]; [constructor|]. apply Forall2_app; [assumption|]. constructor; [assumption|constructor].
    + rewrite (rl_ustack _ _ _ _ _ _ _ _ _ _ _ _ R3), rev_length. cbn. rewrite E2. reflexivity.
    + intros x. rewrite <- K3. exact (rl_globals _ _ _ _ _ _ _ _ _ _ _ _ R3 x).
    + destruct (rl_calls _ _ _ _ _ _ _ _ _ _ _ _ R3) as [C1 [C2 _]]. cbn in *. rewrite C1, C2. auto.
    + destruct (rl_calls _ _ _ _ _ _ _ _ _ _ _ _ R3) as [_ [_ C4]]. cbn in *. congruence.
    + intros j a Kj. rewrite !global_at_lookup; [|apply I|exact G3]. rewrite (rl_kept _ _ _ _ _ _ _ _ _ _ _ _ R3 j Kj).
      unfold lookup, v2. cbn. rewrite E3, E4. tauto.
    + exact Ow.
  - assert (nth_error (objects v3) p = Some (OFunction c)) as Np3.
    { rewrite Ow; [exact Np|]. destruct Gp as [m [A1 A2]]. eapply owned_global; eassumption. }
    assert (lookup v3 (ids f) = Some (Some p)) as L3.
    { rewrite (rl_kept _ _ _ _ _ _ _ _ _ _ _ _ R3 _ Kf). apply global_at_lookup in Gp; [|apply I]. unfold lookup, v2 in *. cbn. rewrite E3, E4. exact Gp. }
    pose proof (fetched no_function [] [] ids q code off addr L host b id v2 keep _ _ _ _ _ _ R3 Q2 eq_refl) as [_ [St _]].
    rewrite (called host b _ _ c p v3 G3 L3 Np3) in St. unfold here in St.
    assert (forall F', (length l <= F')%nat -> execute_with_ip host F' code 0 v = let (r, w) := M_VM.run host (F' - length l) b (PC (b, id) (off (length cde))) v3 in (r, set_current w None)) as Ex.
    { intros F' Lf. rewrite X. replace F' with (length l + (F' - length l))%nat at 1 by lia. rewrite (steps_run _ _ _ _ _ _ _ S3). reflexivity. }
    unfold outcome_of. destruct (host c v3) as [[[]|er| |] v4]; try exact Logic.I.
    + intros Sm4. specialize (Sm4 b C3). exists (S (S (length l))). intros F' Lf. rewrite Ex by lia.
      replace (F' - length l)%nat with (S (S (F' - length l - 2))) by lia. cbn [M_VM.run]. unfold mbind. rewrite St.
      assert (step host b (PC (b, id) (off (S (length cde)))) v4 = exec host b (PC (b, id) (off (S (S (length cde))))) IHalt v4) as Sh.
      { eapply (laid_out_step); [exact L| |exact Q3|reflexivity]. rewrite Sm4. apply R3. }
      rewrite Sh. reflexivity.
    + exists (S (length l)). intros F' Lf. rewrite Ex by lia.
      replace (F' - length l)%nat with (S (F' - length l - 1)) by lia. cbn [M_VM.run]. unfold mbind. rewrite St. reflexivity.
Qed.

Theorem ccall_error cfg short f es y' code ids W fuel er :
  callbacks_apart cfg -> ccall_built cfg false short f es y' code -> numbering y' ids -> args_apart ids 0 es ->
  values fuel es (State [] (fun x => W (ids x))) = Err er ->
  exists N, forall host v, idle v -> (forall x, represents ids v (ids x) (W (ids x))) ->
    (exists F v', (forall F', (F <= F')%nat -> execute_with_ip host F' code 0 v = (Err er, v')) /\ stops (unassigned ids es) [] [] v v') \/
    (runs_out host code v /\ (length (free v) < N)%nat).
Proof.
  intros Hc B Hn Ha E. destruct (ccall_program_of _ _ _ _ _ _ _ _ Hc B Hn) as [st [cde [n' [P [[[off [addr L]] U Bt] Sm]]]]].
  destruct Hn as [Hag Hinj].
  pose proof (ccall_sim P Hinj Ha fuel (fun x => W (ids x)) W (fun x => eq_refl)) as K. rewrite E in K.
  destruct K as [c [K1 K2]].
  assert (Forall (keyed ids (flat_map targets es)) (assembly st)) as Kq by (eapply Forall_impl; [|exact U]; intros a Hx; apply Hx).
  assert (forall x, In x (flat_map targets es) -> ~ unassigned ids es (ids x)) as Hk by (intros x Ix Hu; exact (Hu x Ix eq_refl)).
  exact (run_error ids Hinj (assembly st) code off addr L (flat_map targets es) Kq Bt (unassigned ids es) Hk W c er K1 K2).
Qed.

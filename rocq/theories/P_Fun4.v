(** Programs with functions on the machine (C71). *)
From Coq Require Import String ZArith List Bool Lia Arith ZifyBool ZifyNat.
From Verif Require Import M_Base M_Trie M_Heap M_Instr M_VM M_Asm M_Parser M_Symbol M_Compile S_Heap S_VM S_Asm S_Symbol S_Types S_Compile S_Run S_Program S_Fun
  P_Globals P_Asm3 P_Asm4 P_Bytes P_Abs P_Compile P_Compile2 P_Compile5 P_Sim P_Exact P_Program P_Refine P_Correct P_Correct2 P_Height P_Fun1 P_Fun2 P_Fun3 P_Fun5.
Import ListNotations.
Open Scope Z_scope.
Open Scope list_scope.

Lemma gdenotes_mono (fn fn' : Z -> object -> Prop) ids os o w : (forall k o, fn k o -> fn' k o) -> gdenotes fn ids os o w -> gdenotes fn' ids os o w.
Proof. intros H D. induction D; econstructor; eauto. Qed.
Lemma grepresents_mono (fn fn' : Z -> object -> Prop) ids v k w : (forall k o, fn k o -> fn' k o) -> grepresents fn ids v k w -> grepresents fn' ids v k w.
Proof. intros H. destruct w as [w|]; [|auto]. intros [o [A D]]. exists o. split; [exact A|]. eapply gdenotes_mono; eassumption. Qed.

Section Run.
  Variables (ids : bytes -> Z) (Hinj : forall a b, ids a = ids b -> a = b).
  Variables (prog : list ainstr) (code : list Z) (off : nat -> Z) (addr : Z -> Z).
  Variables (Hout : laid_out false prog code off addr) (names : list bytes) (Hkey : Forall (keyed ids names) prog).
  Hypothesis Hb : Forall byte code.
  Variable keep : Z -> Prop.
  Hypothesis Hkeep : forall x, In x names -> ~ keep (ids x).
  Variable entry : entries.

  Lemma call_started b id v v1 AG : idle v -> (forall x, represents ids v (ids x) (AG (ids x))) ->
    nth_error (objects v1) b = Some (OBytecode id (Some code)) -> sound b (set_current v1 (Some b)) ->
    globals v1 = globals v -> globals_map v1 = globals_map v ->
    (forall p, reach v p -> nth_error (objects v1) p = nth_error (objects v) p) ->
    rel (closure_of off entry b) [] [] ids code b id (set_current v1 (Some b)) keep [] AG (set_current v1 (Some b)).
  Proof.
    intros I Rp Nb S E1 E2 Hs. constructor; try reflexivity; auto.
    - exists []. split; [reflexivity|constructor].
    - intros x. eapply grepresents_mono; [|eapply (global_kept no_function ids v); [exact Hs|exact E1|exact E2|apply Rp]]. intros k o [].
  Qed.

  Theorem call_value AG k w AG' : csteps entry prog (O, [], AG) (k, [w], AG') -> nth_error prog k = Some AHalt ->
    exists N, forall host v, idle v -> (forall x, represents ids v (ids x) (AG (ids x))) ->
      (exists F v' b id, (forall F', (F <= F')%nat -> execute_with_ip host F' code 0 v = (Ok tt, v')) /\
         nth_error (objects v') b = Some (OBytecode id (Some code)) /\
         fun_returns (closure_of off entry b) ids keep v w (fun x => AG' (ids x)) v') \/
      (runs_out host code v /\ (length (free v) < N)%nat).
  Proof.
    intros A H. destruct (refine_csteps ids Hinj prog code off addr Hout names Hkey entry _ _ A) as [n Rf]. exists (n + 1)%nat. intros host v I Rp.
    destruct (loaded host code v I Hb (halted prog code off addr Hout Hb k AHalt _ H eq_refl)) as [[b [id [v1 [X [E [Nb [Sd [E1 [E2 [E3 [E4 [E5 [E6 [E7 [Fr Hs]]]]]]]]]]]]]]]|[v1 [E Fr]]].
    2: { right. split; [left; eauto|]. rewrite Fr. cbn. lia. }
    pose proof (call_started b id v v1 AG I Rp Nb Sd E3 E4 Hs) as R. set (v2 := set_current v1 (Some b)) in *.
    assert (S_Globals.globals_ok v2) as G2 by apply Sd.
    pose proof (lo_start _ _ _ _ _ Hout) as O0.
    destruct (Rf host b id v2 keep Hkeep G2 [] [] v2 R) as [[l [v3 [S3 [R3 F3]]]]|[Sv F3]].
    - left. unfold here in S3. cbn [fst snd] in S3, R3. rewrite O0 in S3. exists (S (length l)), (set_current v3 None), b, id. split; [|split].
      + intros F' L. rewrite X. replace F' with (length l + S (F' - S (length l)))%nat by lia. rewrite (steps_run _ _ _ _ _ _ _ S3).
        cbn [run]. unfold mbind. pose proof (fetched (closure_of off entry b) [] [] ids prog code off addr Hout host b id v2 keep _ _ _ _ _ _ R3 H eq_refl) as [_ [St _]].
        unfold here in St. rewrite St. reflexivity.
      + cbn. exact (rl_code _ _ _ _ _ _ _ _ _ _ _ _ R3).
      + destruct (rl_stack _ _ _ _ _ _ _ _ _ _ _ _ R3) as [objs [Es Fo]]. inversion Fo as [|o w0 xs ws D Fo']; subst. inversion Fo'; subst.
        pose proof (rl_sound _ _ _ _ _ _ _ _ _ _ _ _ R3) as S3'. destruct S3' as [T3 [G3 [St3 C3]]].
        constructor.
        * split; [|split; [exact G3|exact St3]]. apply (P_Types.typed_roots _ v3); try exact T3; try apply T3; [split; reflexivity|]. cbn. discriminate.
        * exists o. split; [|exact D]. cbn. rewrite Es. cbn. rewrite E1. reflexivity.
        * cbn. rewrite (rl_ustack _ _ _ _ _ _ _ _ _ _ _ _ R3). cbn. rewrite E2. reflexivity.
        * intros x. exact (rl_globals _ _ _ _ _ _ _ _ _ _ _ _ R3 x).
        * destruct (rl_calls _ _ _ _ _ _ _ _ _ _ _ _ R3) as [C1 [C2 _]]. cbn in *. rewrite C1, C2. auto.
        * destruct (rl_calls _ _ _ _ _ _ _ _ _ _ _ _ R3) as [_ [_ C4]]. cbn in *. congruence.
        * intros j p K. rewrite !global_at_lookup; [|apply I|exact G3].
          change (lookup (set_current v3 None) j) with (lookup v3 j). rewrite (rl_kept _ _ _ _ _ _ _ _ _ _ _ _ R3 j K).
          unfold lookup, v2. cbn. rewrite E3, E4. tauto.
        * intros p Ow. cbn. rewrite (rl_held _ _ _ _ _ _ _ _ _ _ _ _ R3); [|apply (owned_moved keep (Some b) v v1); auto].
          cbn. apply Hs. eapply owned_reach, Ow.
    - right. split; [|unfold v2 in F3; cbn in F3; lia]. right. exists b, id, (Some code), v1. split; [exact E|]. split; [exact Nb|].
      unfold here in Sv. cbn [fst] in Sv. rewrite O0 in Sv. exact Sv.
  Qed.

  Theorem call_error AG c er : code <> [] -> csteps entry prog (O, [], AG) c -> crashes entry prog c er ->
    fun_fails ids code AG keep er.
  Proof.
    intros Ne A Er. destruct (refine_csteps ids Hinj prog code off addr Hout names Hkey entry _ _ A) as [n1 Rf].
    destruct (refine_crashes ids Hinj prog code off addr Hout names Hkey entry _ _ Er) as [n2 Rc]. exists (n1 + n2 + 1)%nat. intros host v I Rp.
    destruct (loaded host code v I Hb Ne) as [[b [id [v1 [X [E [Nb [Sd [E1 [E2 [E3 [E4 [E5 [E6 [E7 [Fr Hs]]]]]]]]]]]]]]]|[v1 [E Fr]]].
    2: { right. split; [left; eauto|]. rewrite Fr. cbn. lia. }
    pose proof (call_started b id v v1 AG I Rp Nb Sd E3 E4 Hs) as R. set (v2 := set_current v1 (Some b)) in *.
    assert (S_Globals.globals_ok v2) as G2 by apply Sd.
    pose proof (lo_start _ _ _ _ _ Hout) as O0.
    assert (starves host b (PC (b, id) 0) v2 -> runs_out host code v) as Out.
    { intros Sv. right. exists b, id, (Some code), v1. split; [exact E|]. split; [exact Nb|exact Sv]. }
    destruct (Rf host b id v2 keep Hkeep G2 [] [] v2 R) as [[l [v3 [S3 [R3 F3]]]]|[Sv F3]].
    - unfold here in S3. cbn [fst snd] in S3, R3. rewrite O0 in S3.
      destruct (Rc host b id v2 keep Hkeep G2 [] [] v3 R3) as [[l4 [c4 [v4 [cs4 [us4 [st4 [G4 [S4 [E8 R4]]]]]]]]]|[Sv F4]].
      + left. destruct (steps_join _ _ _ _ _ _ _ S3 _ _ _ S4) as [l5 S5]. exists (S (length l5)), (set_current v4 None), cs4, us4. split; [|eapply (stopped ids code keep _ _ _ b id v v1); eauto].
        intros F' L. rewrite X. replace F' with (length l5 + S (F' - S (length l5)))%nat by lia. rewrite (steps_run _ _ _ _ _ _ _ S5).
        cbn [run]. unfold mbind. rewrite E8. reflexivity.
      + right. split; [|unfold v2 in F3; cbn in F3; lia]. apply Out. eapply steps_after; eauto.
    - right. split; [|unfold v2 in F3; cbn in F3; lia]. apply Out. unfold here in Sv. cbn [fst] in Sv. rewrite O0 in Sv. exact Sv.
  Qed.
End Run.

(** * From the source to the machine *)
Lemma placed_pops ids (Hinj : forall a b : bytes, ids a = ids b -> a = b) p L ds code L' es : placed ids p L ds code L' es -> positive_pops code.
Proof.
  induction 1 as [p L|p L d cb L1 ds code L2 es H P IH]; [intros n []|].
  destruct (params_slots ids Hinj 1 (fun_params d) ltac:(lia)) as [Sl _].
  destruct (proj1 (comp_seg ids True) _ _ _ _ _ _ _ H Sl ltac:(unfold zlength; lia)) as [lh Sg]. apply seg_pops in Sg.
  intros n I. unfold lambda_code in I. rewrite !in_app_iff in I. cbn [In] in I.
  destruct I as [[[I|[I|[]]]|[I|[I|[I|[I|[]]]]]]|[I|[I|I]]]; try discriminate I; [apply Sg, I|injection I as <-; lia|apply IH, I].
Qed.
Lemma fun_pops ids (Hinj : forall a b : bytes, ids a = ids b -> a = b) ds b N prog es c1 c2 L1 : fun_code ids ds b N prog es c1 c2 L1 -> positive_pops prog.
Proof.
  intros [-> Pl C] n I. rewrite !in_app_iff in I. destruct I as [I|[I|[I|[]]]]; [eapply placed_pops; eassumption| |discriminate].
  destruct (proj1 (comp_seg ids True) _ _ _ _ _ _ _ C (slots_nil 0) ltac:(lia)) as [lh Sg]. apply seg_pops in Sg. apply Sg, I.
Qed.
Lemma fun_at_labels ids ds b N prog es c1 c2 L1 : fun_code ids ds b N prog es c1 c2 L1 -> at_labels (entry_of es) prog.
Proof.
  intros [-> Pl C] k pos n E. unfold entry_of in E. destruct (0 <=? k); [|discriminate].
  destruct (nth_error ds (Z.to_nat k)) as [d|] eqn:D.
  - destruct (placed_body _ _ _ _ _ _ _ Pl [] (c2 ++ [AHalt]) eq_refl _ _ D) as [pre [l [cb [post [La [Lb [E1 [E2 _]]]]]]]].
    rewrite E in E1. injection E1 as -> _. exists l. cbn [app] in E2. rewrite E2. rewrite nth_error_app2, Nat.sub_diag by lia. reflexivity.
  - apply nth_error_None in D. rewrite <- (placed_length _ _ _ _ _ _ Pl) in D. apply nth_error_None in D. congruence.
Qed.
Lemma fun_assembled {NU : names_used} ids (Hinj : forall x y : bytes, ids x = ids y -> x = y) ds b pushpops short st code es c1 c2 L1 : assembles pushpops short st code ->
  fun_code ids ds b (label_number st) (assembly st) es c1 c2 L1 -> (forall d, In d ds -> good_fundef d = true) -> forallb good_item b = true ->
  let q := if pushpops then peephole (assembly st) else assembly st in
  (exists off addr, laid_out false q code off addr) /\ Forall (usual ids (fun_targets ds b)) q /\ Forall byte code.
Proof.
  intros [A [R [Cl [Sm Sz]]]] P Gd Gb q. pose proof (fun_labelled P) as Pl. pose proof (fun_usual P Gd Gb) as Up. pose proof (fun_pops _ Hinj _ _ _ _ _ _ _ _ P) as Pp.
  assert (forall Q : ainstr -> Prop, Q AInternalNop -> (forall n, 0 <= n < 2 ^ 31 -> Q (APop n)) -> Forall Q (assembly st) -> Forall Q q) as K.
  { intros Q Q1 Q2 F. unfold q. destruct pushpops; [|exact F]. apply peephole_keeps; auto. }
  assert (well_labelled (Z.to_nat (label_number st)) q) as Wq by (unfold q; destruct pushpops; [apply peephole_labelled|]; auto).
  assert (Forall in_range q) as Rq by (apply K; [|intros n Hn|exact R]; cbn; auto; unfold S_Asm.word; lia).
  assert (Forall clean q) as Cq by (apply K; [|intros n Hn|exact Cl]; cbn; auto).
  assert (Forall (usual ids (fun_targets ds b)) q) as Uq by (apply K; [split; exact I|intros n Hn; split; exact I|exact Up]).
  assert (assemble false short false (Z.to_nat (label_number st)) q = Ok code) as Aq by (unfold q; destruct pushpops; exact A).
  split; [|split; [exact Uq|]].
  - destruct short.
    + destruct (assemble_small false _ q Wq Rq Cq Sz) as [c [off [addr [E [L _]]]]]. rewrite Aq in E. injection E as <-. eauto.
    + destruct (assemble_plain_jumps false _ q Wq Rq Cq) as [c [off [addr [E L]]]]. rewrite Aq in E. injection E as <-. eauto.
  - eapply assemble_bytes; [exact Wq| |exact Aq]. eapply Forall_impl; [|exact Uq]. intros a Ha. apply Ha.
Qed.

Lemma fun_names_self cfg : forall x, usable (names_used := fun_names cfg) x = true \/ callable (names_used := fun_names cfg) x = true -> x <> word "self".
Proof.
  intros x H ->. unfold usable, callable, fun_names in H. destruct (bytes_dec (word "self") (word "self")) as [_|N]; [|contradiction].
  destruct H; discriminate.
Qed.
Lemma fun_names_callees cfg : callees (NU := fun_names cfg) cfg.
Proof.
  intros f H. unfold callable, fun_names in H. rewrite !andb_true_iff in H. destruct H as [[_ H1] H2].
  destruct (in_dec bytes_dec f (callbacks cfg)); [discriminate|]. split; [assumption|]. destruct (find_generator f); [discriminate|reflexivity].
Qed.

Lemma fun_built_code cfg pushpops short ds b y' code ids : callbacks_apart cfg -> ~ In (word "lambda") (callbacks cfg) ->
  fun_built cfg pushpops short ds b y' code -> numbering y' ids -> fun_apart ids ds b ->
  exists st es c1 c2 L1, fun_code ids ds b (label_number st) (assembly st) es c1 c2 L1 /\
    (forall d, In d ds -> good_fundef (N := fun_names cfg) d = true) /\ forallb (good_item (N := fun_names cfg)) b = true /\
    pops (assembly st) < 2 ^ 31 /\
    let q := if pushpops then peephole (assembly st) else assembly st in
    (exists off addr, laid_out false q code off addr) /\ Forall (usual ids (fun_targets ds b)) q /\ Forall byte code.
Proof.
  intros Hc Hl [y [g [fuel [st [Se [Nd [Nb [Gd [Gb [E [-> A]]]]]]]]]]] [Hag Hinj] [_ Hap]. destruct (session_ok _ _ _ Hc Se) as [C [N1 N2]].
  destruct (fun_shape (NU := fun_names cfg) (fun_names_self cfg) cfg Hc Hl (fun_names_callees cfg) fuel ds b y g st C N1 N2 Nd Nb Gd Gb E)
    as [_ [_ [_ [c1 [L1 [c2 [Ea F]]]]]]].
  destruct (F ids Hag) as [Fc Fb].
  destruct (placed_exists _ _ _ _ _ _ Fc) with (p := O) as [es Pl]; [intros d I; apply Hap, I|].
  assert (fun_code ids ds b (label_number st) (assembly st) es c1 c2 L1) as P by (constructor; assumption).
  rewrite forallb_forall in Gd. exists st, es, c1, c2, L1. split; [exact P|]. split; [exact Gd|]. split; [exact Gb|]. split; [apply A|].
  eapply (fun_assembled (NU := fun_names cfg)); eassumption.
Qed.

Definition start_of (off : nat -> Z) (es : list (nat * Z)) (k : Z) : Z := match entry_of es k with Some (pos, _) => off pos | None => 0 end.
Lemma placed_nth ids p L ds code L' es : placed ids p L ds code L' es -> forall i pos n, nth_error es i = Some (pos, n) ->
  exists d, nth_error ds i = Some d /\ n = zlength (fun_params d).
Proof.
  induction 1 as [|p L d cb L1 ds code L2 es H P IH]; intros i pos n E; [destruct i; discriminate|].
  destruct i as [|i]; cbn [nth_error] in *; [injection E as <- <-; eauto|eauto].
Qed.
Lemma closures_are ids ds code L' es off b k o : placed ids 0 0 ds code L' es -> closure_of off (entry_of es) b k o -> fun_object ds (start_of off es) b k o.
Proof.
  intros P [pos [n [u [E ->]]]]. unfold fun_object, start_of. rewrite E. unfold entry_of in E. destruct (0 <=? k) eqn:K; [|discriminate].
  destruct (placed_nth _ _ _ _ _ _ _ P _ _ _ E) as [d [D ->]]. exists d, u. split; [lia|]. split; [exact D|reflexivity].
Qed.

Theorem fun_value cfg pushpops short ds b y' code ids W f w s : callbacks_apart cfg -> ~ In (word "lambda") (callbacks cfg) ->
  fun_built cfg pushpops short ds b y' code -> numbering y' ids -> fun_apart ids ds b ->
  fun_eval f ds b (fun x => W (ids x)) = Ok (w, s) ->
  fun_computes ids ds code W (fun_untouched ids ds b) w (globals_of s).
Proof.
  intros Hc Hl B Hn Ha E. destruct (fun_built_code _ _ _ _ _ _ _ _ Hc Hl B Hn Ha) as [st [es [c1 [c2 [L1 [P [Gd [Gb [Sm [[off [addr L]] [U Bt]]]]]]]]]]].
  destruct Hn as [_ Hinj].
  pose proof (fun_runs (NU := fun_names cfg) P Hinj Gd Gb Ha f (fun x => W (ids x)) W (fun x => eq_refl)) as K. rewrite E in K.
  destruct K as [k [W' [K1 [K2 K3]]]]. set (q := if pushpops then peephole (assembly st) else assembly st) in *.
  assert (csteps (entry_of es) q (O, [], W) (k, [w], W') /\ nth_error q k = Some AHalt) as [Q1 Q2].
  { unfold q. destruct pushpops; [|auto]. exact (peephole_csteps _ _ [] W (k, [w], W') (fun_pops _ Hinj _ _ _ _ _ _ _ _ P) Sm (fun_at_labels _ _ _ _ _ _ _ _ _ P) K1 K2). }
  assert (Forall (keyed ids (fun_targets ds b)) q) as Kq by (eapply Forall_impl; [|exact U]; intros a Hx; apply Hx).
  assert (forall x, In x (fun_targets ds b) -> ~ fun_untouched ids ds b (ids x)) as Hk by (intros x Ix Hu; exact (Hu x Ix eq_refl)).
  destruct (call_value ids Hinj q code off addr L (fun_targets ds b) Kq Bt (fun_untouched ids ds b) Hk (entry_of es) W k w W' Q1 Q2) as [N HN].
  exists (start_of off es), N. intros host v Hi Hr. destruct (HN host v Hi Hr) as [[F [v' [bp [id [X [Nb R]]]]]]|X]; [left|right; exact X].
  exists F, v', bp, id. split; [exact X|]. split; [exact Nb|].
  assert (forall k o, closure_of off (entry_of es) bp k o -> fun_object ds (start_of off es) bp k o) as M by (intros; eapply closures_are; [apply P|assumption]).
  destruct R as [R1 [o [R2 R3]] R4 R5 R6 R7 R8 R9]. constructor; auto.
  - exists o. split; [exact R2|]. eapply gdenotes_mono; eassumption.
  - intros x. rewrite <- K3. eapply grepresents_mono; [exact M|apply R5].
Qed.

Theorem fun_error cfg short ds b y' code ids W f er : callbacks_apart cfg -> ~ In (word "lambda") (callbacks cfg) ->
  fun_built cfg false short ds b y' code -> numbering y' ids -> fun_apart ids ds b ->
  fun_eval f ds b (fun x => W (ids x)) = Err er -> fun_fails ids code W (fun_untouched ids ds b) er.
Proof.
  intros Hc Hl B Hn Ha E. destruct (fun_built_code _ _ _ _ _ _ _ _ Hc Hl B Hn Ha) as [st [es [c1 [c2 [L1 [P [Gd [Gb [Sm [[off [addr L]] [U Bt]]]]]]]]]]].
  destruct Hn as [_ Hinj].
  pose proof (fun_runs (NU := fun_names cfg) P Hinj Gd Gb Ha f (fun x => W (ids x)) W (fun x => eq_refl)) as K. rewrite E in K.
  destruct K as [c [K1 K2]].
  assert (Forall (keyed ids (fun_targets ds b)) (assembly st)) as Kq by (eapply Forall_impl; [|exact U]; intros a Hx; apply Hx).
  assert (forall x, In x (fun_targets ds b) -> ~ fun_untouched ids ds b (ids x)) as Hk by (intros x Ix Hu; exact (Hu x Ix eq_refl)).
  refine (call_error ids Hinj (assembly st) code off addr L (fun_targets ds b) Kq Bt (fun_untouched ids ds b) Hk (entry_of es) W c er _ K1 K2).
  apply (halted (assembly st) code off addr L Bt (length (c1 ++ c2)) AHalt IHalt); [|reflexivity].
  rewrite (fp_prog _ _ _ _ _ _ _ _ _ P), app_assoc, nth_error_app2, Nat.sub_diag by lia. reflexivity.
Qed.

(** Calls of functions: the machine does what the abstract machine does. *)
From Coq Require Import ZArith List Bool Lia Arith ZifyBool ZifyNat.
From Verif Require Import M_Base M_Trie M_Heap M_Instr M_VM M_Asm.
From Verif Require Import S_Heap S_VM S_Num S_Globals S_Types S_Data S_Asm S_Symbol S_Call S_Compile S_Run.
From Verif Require Import P_Num P_Globals P_Exec P_Types P_Safe P_Safe5 P_Safe6 P_Safe7 P_Data P_Data3 P_Call P_Call2 P_Peep P_Abs P_Refine X_Machine X_Types X_Asm.
Import ListNotations.
Open Scope Z_scope.
Open Scope list_scope.

Lemma sound_calls b v cs us : sound b v -> (forall i c p, In (Frame i c (Some p)) cs -> points v is_code p) -> sound b (set_calls v cs us).
Proof.
  intros [T [G [I C]]] H. split; [|split; [exact G|split; [exact I|exact C]]].
  destruct T as [A1 A2 A3 A4 A5 A6 A7 A8 A9]. constructor; try assumption.
Qed.

Lemma closure_itself os a b c n w : resolves os (OClosure a b c n w) (OClosure a b c n w).
Proof. apply resolves_self. intros z. discriminate. Qed.

Section Calls.
  Variables (ids : bytes -> Z) (Hinj : forall a b, ids a = ids b -> a = b).
  Variables (prog : list ainstr) (code : list Z) (off : nat -> Z) (addr : Z -> Z).
  Variables (Hout : laid_out false prog code off addr) (names : list bytes) (Hkey : Forall (keyed ids names) prog).
  Variable entry : entries.
  Variables (host : Z -> M unit) (b : ptr) (bid : nat) (v0 : vm) (keep : Z -> Prop) (Hkeep : forall x, In x names -> ~ keep (ids x)) (G0 : S_Globals.globals_ok v0).

  (** The objects of the functions. *)
  Definition closure_of (k : Z) (o : object) : Prop :=
    exists pos n u, entry k = Some (pos, n) /\ o = OClosure (off pos) (Some b) (Some u) n false.
  Notation rel cs us := (rel closure_of cs us ids code b bid v0 keep).
  Notation here := (here off b bid).

  Lemma callee_of cs us stk G v i k pos n : rel cs us stk G v -> pick stk i = Some (VFun k) -> entry k = Some (pos, n) ->
    exists u id l m, at_pos v i (OClosure (off pos) (Some b) (Some u) n false) /\ nth_error (objects v) u = Some (OUpvalueArray id l m).
  Proof.
    intros R P E. destruct (rel_pick _ _ _ _ Hinj _ names host _ _ _ _ Hkeep _ _ _ _ _ R P) as [o [A D]].
    inversion D as [| | | | | | | |k0 o0 F]; subst. destruct F as [pos' [n' [u [E' ->]]]]. rewrite E in E'. injection E' as <- <-.
    destruct (rl_sound _ _ _ _ _ _ _ _ _ _ _ _ R) as [T _]. destruct (val_in v _ T (at_in _ _ _ A)) as [_ [_ [_ [u' [Eu [_ [xu [Exu Ku]]]]]]]].
    injection Eu as <-. destruct xu; simpl in Ku; try contradiction. exists u, buffer, upvalues, len. split; assumption.
  Qed.

  Lemma rel_calls cs us stk G v cs' us' : rel cs us stk G v -> (forall i c p, In (Frame i c (Some p)) cs' -> In (Frame i c (Some p)) cs \/ p = b) ->
    rel cs' us' stk G (set_calls v (cs' ++ call_stack v0) (us' ++ uacs v0)).
  Proof.
    intros R H. destruct (rl_calls _ _ _ _ _ _ _ _ _ _ _ _ R) as [C1 [C2 C3]]. pose proof (rl_sound _ _ _ _ _ _ _ _ _ _ _ _ R) as S.
    constructor; try (apply R).
    - apply sound_calls; [exact S|]. intros i c p I. destruct S as [T [_ [_ Cu]]]. apply in_app_or in I as [I|I].
      + destruct (H _ _ _ I) as [I' | ->]; [|apply (ty_current _ _ T); exact Cu]. eapply (ty_frames _ _ T). rewrite C1. apply in_or_app. left. exact I'.
      + eapply (ty_frames _ _ T). rewrite C1. apply in_or_app. right. exact I.
    - cbn. auto.
  Qed.

  Lemma enter_step cs us stk G v pc i n k pos : rel cs us stk G v -> nth_error prog pc = Some (AFuncall i n) ->
    pick stk i = Some (VFun k) -> entry k = Some (pos, n) ->
    exists u v1, step host b (here pc) v = (Ok (Continue (here pos)), v1) /\
      rel (Frame (off (S pc)) (b, bid) (Some b) :: cs) (u :: us) stk G v1 /\ length (free v1) = length (free v).
  Proof.
    intros R N P E. destruct (callee_of _ _ _ _ _ _ _ _ _ R P E) as [u [id [l [m [A Eu]]]]].
    destruct (fetched _ _ _ _ _ _ _ _ Hout host b bid v0 _ _ _ _ _ _ _ R N eq_refl) as [_ [St _]]. rewrite St.
    pose proof (rl_code _ _ _ _ _ _ _ _ _ _ _ _ R) as Eb. destruct (rl_calls _ _ _ _ _ _ _ _ _ _ _ _ R) as [C1 [C2 C3]].
    exists (UARef (match l with Some _ => Some (u, id) | None => None end) m).
    exists (set_calls v ((Frame (off (S pc)) (b, bid) (Some b) :: cs) ++ call_stack v0) ((UARef (match l with Some _ => Some (u, id) | None => None end) m :: us) ++ uacs v0)).
    split; [|split].
    - rewrite (funcall_prepare host b _ i n _ _ v A (closure_itself _ _ _ _ _ _)). unfold mbind. rewrite Z.eqb_refl. unfold mret.
      unfold enter, mbind, deref, mbind, mget, mret. rewrite Eu. unfold call_stack_push, mmod. cbn [objects set_calls]. rewrite Eb.
      cbn [app]. rewrite <- C1, <- C2. reflexivity.
    - apply (rel_calls cs us); [exact R|]. intros i0 c p [I|I]; [injection I as _ _ <-; right; reflexivity|left; exact I].
    - reflexivity.
  Qed.

  Lemma refuse_step cs us stk G v pc i n w : rel cs us stk G v -> nth_error prog pc = Some (AFuncall i n) -> pick stk i = Some w ->
    uncallable entry w n -> step host b (here pc) v = (Err invalidValue, v).
  Proof.
    intros R N P U. destruct (fetched _ _ _ _ _ _ _ _ Hout host b bid v0 _ _ _ _ _ _ _ R N eq_refl) as [_ [St _]]. rewrite St.
    destruct (rel_pick _ _ _ _ Hinj _ names host _ _ _ _ Hkeep _ _ _ _ _ R P) as [o [A D]]. destruct w; cbn [uncallable] in U;
      try (inversion D; subst; eapply funcall_refused; [exact A|apply resolves_self; intros c; discriminate|exact I]); [contradiction|].
    destruct U as [pos [m [E Nm]]]. destruct (callee_of _ _ _ _ _ _ _ _ _ R P E) as [u [id [l [q [A' Eu]]]]].
    rewrite (funcall_prepare host b _ i n _ _ v A' (closure_itself _ _ _ _ _ _)). unfold mbind.
    destruct (Z.eqb_spec m n); [contradiction|reflexivity].
  Qed.

  Lemma return_step cs us stk G v pc q w rest rest' f u : rel (f :: cs) (u :: us) stk G v -> stk = w :: rest ->
    nth_error prog pc = Some (AReturn q) -> apop rest q = Some rest' -> exists v1, 
    step host b (here pc) v = (Ok (Continue (PC (fr_code f) (fr_ip f))), v1) /\ rel cs us (w :: rest') G v1 /\ length (free v1) = length (free v).
  Proof.
    intros R -> N P. destruct (rl_stack _ _ _ _ _ _ _ _ _ _ _ _ R) as [objs [Es F]]. inversion F as [|o w' objs' rest'' D F']; subst.
    destruct (rl_calls _ _ _ _ _ _ _ _ _ _ _ _ R) as [C1 [C2 C3]]. pose proof (rl_sound _ _ _ _ _ _ _ _ _ _ _ _ R) as S.
    assert (length objs' = length rest) as L by (clear -F'; induction F'; cbn; congruence).
    unfold apop in P. destruct ((0 <=? q) && (q <=? zlength rest)) eqn:Q; [|discriminate]. injection P as <-. unfold zlength in Q.
    pose proof (rl_ustack _ _ _ _ _ _ _ _ _ _ _ _ R) as Eu. cbn [length repeat app] in Eu.
    destruct (fetched _ _ _ _ _ _ _ _ Hout host b bid v0 _ _ _ _ _ _ _ R N eq_refl) as [_ [St En]].
    assert (exists v1, step host b (here pc) v = (Ok (Continue (PC (fr_code f) (fr_ip f))), v1) /\
      stack v1 = o :: skipn (Z.to_nat q) (objs' ++ stack v0) /\ ustack v1 = None :: skipn (Z.to_nat q) (tl (ustack v)) /\
      call_stack v1 = cs ++ call_stack v0 /\ uacs v1 = us ++ uacs v0 /\ objects v1 = objects v /\ free v1 = free v /\ globals v1 = globals v /\
      globals_map v1 = globals_map v /\ current_bytecode v1 = current_bytecode v /\ next_user_type v1 = next_user_type v) as [v1 [X (X1 & X2 & X3 & X4 & X5 & X6 & X7 & X8 & X9 & X10)]].
    { rewrite St. cbn [app] in Es, C1, C2. destruct (q =? 0) eqn:Q0.
      - assert (q = 0) as -> by lia. cbn [exec]. rewrite (return_op_run _ _ _ _ _ C1 C2). eexists. split; [reflexivity|]. cbn. rewrite Eu, Es. auto 12.
      - destruct (return_spec host b (PC (b, bid) (off (Datatypes.S pc))) q v o (objs' ++ stack v0) f (cs ++ call_stack v0) u (us ++ uacs v0)) as [v1 [X1 X2]]; auto.
        + apply S.
        + unfold zlen. rewrite app_length. lia.
        + exists v1. split; [exact X1|]. exact X2. }
    exists v1. split; [exact X|]. split; [|rewrite X6; reflexivity].
    assert (sound b v1) as S1.
    { rewrite St in X. rewrite (exec_host host no_host) in X by (destruct (q =? 0); reflexivity).
      eapply exec_ok_sound; [exact S|apply no_host_polite|apply no_host_steady|exact En| | |exact X]; destruct (q =? 0); exact I. }
    constructor.
    - exact S1.
    - rewrite X5. apply R.
    - exists (o :: skipn (Z.to_nat q) objs'). split.
      + rewrite X1, skipn_app. replace (Z.to_nat q - length objs')%nat with O by lia. reflexivity.
      + rewrite X5. constructor; [exact D|]. clear -F'. revert objs' rest F'. induction (Z.to_nat q) as [|m IH]; intros os ws F; [exact F|]. destruct F; [constructor|]. cbn. auto.
    - rewrite X2, Eu. cbn [tl length repeat app]. f_equal. rewrite skipn_app, skipn_length, repeat_length. replace (Z.to_nat q - length rest)%nat with O by lia.
      f_equal. assert (Z.to_nat q <= length rest)%nat as Hl by lia. clear -Hl. revert rest Hl.
      induction (Z.to_nat q) as [|m IH]; intros ws Hl; [rewrite Nat.sub_0_r; reflexivity|]. destruct ws; cbn in *; [lia|]. apply IH. lia.
    - intros x. pose proof (rl_globals _ _ _ _ _ _ _ _ _ _ _ _ R x) as Rx. unfold grepresents, global_is in *. rewrite X5, X7, X8. exact Rx.
    - rewrite X3, X4, X10. auto.
    - intros j K. rewrite <- (rl_kept _ _ _ _ _ _ _ _ _ _ _ _ R j K). unfold lookup. rewrite X7, X8. reflexivity.
    - intros p Hp. rewrite X5. apply R. exact Hp.
  Qed.
  Lemma closure_step cs us stk G v pc l n k pos : rel cs us stk G v -> nth_error prog pc = Some (APushClosure false l n []) ->
    target prog l = Ok pos -> entry k = Some (pos, n) ->
    (exists v1, step host b (here pc) v = (Ok (Continue (here (S pc))), v1) /\ rel cs us (VFun k :: stk) G v1 /\ (length (free v) <= 1 + length (free v1))%nat) \/
    (starved host b (here pc) v /\ (length (free v) < 1)%nat).
  Proof.
    intros R N Tl E. destruct (fetched _ _ _ _ _ _ _ _ Hout host b bid v0 _ _ _ _ _ _ _ R N eq_refl) as [_ [St En]].
    pose proof (rl_sound _ _ _ _ _ _ _ _ _ _ _ _ R) as S. pose proof S as [T [Gk [Is Cu]]].
    pose proof (rl_code _ _ _ _ _ _ _ _ _ _ _ _ R) as Eb.
    assert (length (stack v) = length (ustack v)) as Il by exact Is.
    set (arr := OUpvalueArray 0 None 0).
    pose proof (frugal_alloc arr v) as Fr.
    destruct (alloc_typed_total _ arr v T none_dec (fun _ => empty_none v)) as [v1 [[p Ea]|[e [Ea Fe]]]].
    - left. rewrite Ea in Fr. cbn [snd] in Fr.
      destruct (alloc_typed (fun _ => False) (fun x => x = p) arr v p v1 T none_dec) as [T1 Nw];
        [intros _; apply empty_none|intros ? ? ? []|intros ? []|intros ? []|left; reflexivity|exact Ea|].
      pose proof (no_roots _ _ _ _ Nw) as (R1 & R2 & R3 & R4 & R5 & R6 & R7 & R8). pose proof (no_live _ _ _ _ Nw) as L1.
      destruct (no_stored _ _ _ _ Nw) as [m Em]. simpl in Em.
      set (clo := OClosure (off pos) (Some b) (Some p) n false).
      assert (exists v2, step host b (here pc) v = (Ok (Continue (here (Datatypes.S pc))), v2) /\
        stack v2 = clo :: stack v /\ ustack v2 = None :: ustack v /\ globals v2 = globals v /\ globals_map v2 = globals_map v /\ call_stack v2 = call_stack v /\ uacs v2 = uacs v /\
        current_bytecode v2 = current_bytecode v /\ next_user_type v2 = next_user_type v /\ (forall q, q <> p -> nth_error (objects v2) q = nth_error (objects v1) q) /\ free v2 = free v1) as [v2 [X (X1 & X2 & X3 & X4 & X5 & X6 & X7 & X8 & X9 & X10)]].
      { rewrite St. cbn [exec]. unfold push_closure_op. cbn [pc_code P_Refine.here]. unfold mbind at 1 2, mget at 1. rewrite Nat.eqb_refl. unfold mbind at 1, mlift. unfold code_bytes. cbn [fst snd]. rewrite Eb, Nat.eqb_refl.
        unfold mbind at 1. change (zlen []) with 0. fold arr. rewrite Ea. unfold mbind at 1. unfold deref, mbind at 1, mget at 1, mret at 1. rewrite Em.
        unfold mbind at 1. unfold write, mbind at 1, mget at 1. destruct L1 as [L1' _]. destruct (Nat.ltb_spec p (length (objects v1))); [|lia].
        unfold mset at 1. rewrite (jumped _ _ _ _ Hout _ _ Tl). fold clo. unfold mbind, push_stack_only, push_ustack_only, mmod, mret. cbn [capture_op]. unfold mret.
        erewrite set_top by reflexivity. eexists. split; [reflexivity|]. cbn.
        repeat split; try congruence; try (rewrite R1, R2; reflexivity).
        - intros q Nq. clear -Nq. revert p Nq. generalize (objects v1) as os. intros os. revert q. induction os as [|x r IH]; intros [|q] [|p] Nq; cbn; try reflexivity; try congruence. apply IH. congruence. }
      exists v2. split; [exact X|]. split; [|rewrite X10; exact Fr].
      assert (sound b v2) as S2.
      { rewrite St in X. rewrite (exec_host host no_host) in X by reflexivity. eapply exec_ok_sound; [exact S|apply no_host_polite|apply no_host_steady|exact En|exact Logic.I| |exact X].
        cbn. intros [c [[] _]]. }
      eapply rel_push; [exact G0|exact R|exact S2| |].
      + constructor; try eassumption. intros q Rq _. rewrite X9; [apply Nw; exact Rq|]. intros ->. exact (no_new _ _ _ _ Nw Rq).
      + apply d_fun. exists pos, n, p. auto.
    - right. assert (e = outOfMemory) as ->.
      { pose proof Ea as Eb'. apply (alloc_typed_err _ arr v e v1 T none_dec (empty_none v)) in Eb'; [apply Eb'|intros p []]. } split.
      + left. rewrite St. exists v1. cbn [exec]. unfold push_closure_op. cbn [pc_code P_Refine.here]. unfold mbind at 1 2, mget at 1. rewrite Nat.eqb_refl. unfold mbind at 1, mlift. unfold code_bytes. cbn [fst snd]. rewrite Eb, Nat.eqb_refl.
        unfold mbind at 1. change (zlen []) with 0. fold arr. rewrite Ea. reflexivity.
      + unfold alloc, mbind in Ea. destruct (push_object arr v) as [[z|er| |] v2] eqn:Epo; cbn in Ea; try discriminate. injection Ea as -> ->.
        rewrite (push_room _ _ _ Epo). cbn. lia.
  Qed.

  (** Everything together. *)
  Definition reaches (N : nat) (k : nat) (cs : list frame) (us : list uaref) (v : vm) (k' : nat) (stk' : list value) (G' : globs) : Prop :=
    (exists l v', steps host b (here k) v l (here k') v' /\ rel cs us stk' G' v' /\ (length (free v) <= N + length (free v'))%nat) \/
    (starves host b (here k) v /\ (length (free v) < N)%nat).
  Lemma reaches_then N1 N2 k cs us v k' stk' G' k2 stk2 G2 : reaches N1 k cs us v k' stk' G' ->
    (forall v', rel cs us stk' G' v' -> reaches N2 k' cs us v' k2 stk2 G2) -> reaches (N1 + N2) k cs us v k2 stk2 G2.
  Proof.
    intros [[l [v' [S1 [R1 F1]]]]|[S1 F1]] H; [|right; split; [exact S1|lia]].
    destruct (H v' R1) as [[l2 [v2 [S2 [R2 F2]]]]|[S2 F2]].
    - left. destruct (steps_join _ _ _ _ _ _ _ S1 _ _ _ S2) as [l3 S3]. exists l3, v2. split; [exact S3|]. split; [exact R2|lia].
    - right. split; [eapply steps_after; eauto|lia].
  Qed.
  Lemma reaches_of_goes cs us k v k' stk' G' : goes closure_of cs us ids code off host b bid v0 keep k v k' stk' G' -> reaches 3 k cs us v k' stk' G'.
  Proof.
    intros [H|[H F]]; [left; exact H|right; split; [|exact F]]. exists [], (here k), v. split; [apply steps_none|exact H].
  Qed.

End Calls.

Section Together.
  Variables (ids : bytes -> Z) (Hinj : forall a b, ids a = ids b -> a = b).
  Variables (prog : list ainstr) (code : list Z) (off : nat -> Z) (addr : Z -> Z).
  Variables (Hout : laid_out false prog code off addr) (names : list bytes) (Hkey : Forall (keyed ids names) prog).
  Variable entry : entries.
  Notation rel b bid v0 keep cs us := (rel (closure_of off entry b) cs us ids code b bid v0 keep).

  Theorem refine_csteps c c' : csteps entry prog c c' -> exists N, forall host b bid v0 keep, (forall x, In x names -> ~ keep (ids x)) -> S_Globals.globals_ok v0 ->
    forall cs us v, rel b bid v0 keep cs us (snd (fst c)) (snd c) v ->
    reaches ids code off entry host b bid v0 keep N (fst (fst c)) cs us v (fst (fst c')) (snd (fst c')) (snd c').
  Proof.
    induction 1 as [c|c c1 c2 E A [N IH]|pc stk G i n k pos r w rest G1 q rest' c2 H1 H2 H3 H4 [N1 IH1] H5 H6 H7 [N2 IH2]|pc stk G l n k pos c2 H1 H2 H3 H4 [N IH]].
    - exists O. intros host b bid v0 keep Hkeep G0 cs us v R. left. exists [], v. split; [apply steps_none|]. split; [exact R|lia].
    - exists (3 + N)%nat. intros host b bid v0 keep Hkeep G0 cs us v R. destruct c as [[k stk] G]. destruct c1 as [[k1 stk1] G1]. cbn [fst snd] in *.
      eapply (reaches_then ids Hinj code off names entry host b bid v0 keep Hkeep); [|apply IH; assumption]. apply reaches_of_goes. eapply refine_step; eauto.
    - exists (N1 + N2)%nat. intros host b bid v0 keep Hkeep G0 cs us v R. cbn [fst snd] in *.
      destruct (enter_step ids Hinj prog code off addr Hout names entry host b bid v0 keep Hkeep _ _ _ _ _ _ _ _ _ _ R H1 H2 H3) as [u [v1 [S1 [R1 F1]]]].
      destruct (IH1 host b bid v0 keep Hkeep G0 _ _ _ R1) as [[l [v2 [S2 [R2 F2]]]]|[S2 F2]].
      + destruct (return_step ids Hinj prog code off addr Hout names entry host b bid v0 keep Hkeep _ _ _ _ _ _ _ _ _ _ _ _ R2 eq_refl H5 H6) as [v3 [S3 [R3 F3]]].
        assert (exists l', steps host b (here off b bid pc) v l' (here off b bid (S pc)) v3) as [l' S4].
        { destruct (steps_join _ _ _ _ _ _ _ S2 [v3] (here off b bid (S pc)) v3) as [l' S4]; [eapply steps_more; [exact S3|apply steps_none]|].
          eexists. eapply steps_more; [exact S1|exact S4]. }
        destruct (IH2 host b bid v0 keep Hkeep G0 _ _ _ R3) as [[l2 [v4 [S5 [R5 F5]]]]|[S5 F5]].
        * left. destruct (steps_join _ _ _ _ _ _ _ S4 _ _ _ S5) as [l3 S6]. exists l3, v4. split; [exact S6|]. split; [exact R5|lia].
        * right. split; [eapply steps_after; eauto|lia].
      + right. split; [|lia]. eapply (steps_after host b (here off b bid pc) v [v1]); [eapply steps_more; [exact S1|apply steps_none]|exact S2].
    - exists (1 + N)%nat. intros host b bid v0 keep Hkeep G0 cs us v R. cbn [fst snd] in *.
      eapply (reaches_then ids Hinj code off names entry host b bid v0 keep Hkeep 1 N _ _ _ _ (S pc) (VFun k :: stk) G); [|intros v1 R1; exact (IH host b bid v0 keep Hkeep G0 _ _ _ R1)].
      destruct (closure_step ids Hinj prog code off addr Hout names entry host b bid v0 keep Hkeep G0 _ _ _ _ _ _ _ _ _ _ R H1 H2 H3) as [[v1 [S1 [R1 F1]]]|[S1 F1]].
      + left. exists [v1], v1. split; [eapply steps_more; [exact S1|apply steps_none]|]. split; [exact R1|exact F1].
      + right. split; [|exact F1]. exists [], (here off b bid pc), v. split; [apply steps_none|exact S1].
  Qed.

  Theorem refine_crashes c er : crashes entry prog c er -> exists N, forall host b bid v0 keep, (forall x, In x names -> ~ keep (ids x)) -> S_Globals.globals_ok v0 ->
    forall cs us v, rel b bid v0 keep cs us (snd (fst c)) (snd c) v ->
    (exists l c1 v1 cs' us' stk' G', steps host b (here off b bid (fst (fst c))) v l c1 v1 /\ step host b c1 v1 = (Err er, v1) /\ rel b bid v0 keep cs' us' stk' G' v1) \/
    (starves host b (here off b bid (fst (fst c))) v /\ (length (free v) < N)%nat).
  Proof.
    induction 1 as [c er H|pc stk G i n w H1 H2 H3|pc stk G i n k pos c1 er H1 H2 H3 H4 H5 [N2 IH]].
    - exists O. intros host b bid v0 keep Hkeep G0 cs us v R. left. destruct c as [[k stk] G]. cbn [fst snd] in *.
      pose proof (refine_err (closure_of off entry b) cs us ids Hinj prog code off addr Hout names Hkey host b bid v0 keep Hkeep _ _ _ _ _ R H) as K.
      exists [], (here off b bid k), v, cs, us, stk, G. split; [apply steps_none|]. split; [exact K|exact R].
    - exists O. intros host b bid v0 keep Hkeep G0 cs us v R. cbn [fst snd] in *. left. pose proof (refuse_step ids Hinj prog code off addr Hout names entry host b bid v0 keep Hkeep _ _ _ _ _ _ _ _ _ R H1 H2 H3) as K.
      exists [], (here off b bid pc), v, cs, us, stk, G. split; [apply steps_none|]. split; [exact K|exact R].
    - destruct (refine_csteps _ _ H4) as [N1 K]. exists (N1 + N2)%nat. intros host b bid v0 keep Hkeep G0 cs us v R. cbn [fst snd] in *.
      destruct (enter_step ids Hinj prog code off addr Hout names entry host b bid v0 keep Hkeep _ _ _ _ _ _ _ _ _ _ R H1 H2 H3) as [u [v1 [S1 [R1 F1]]]].
      assert (forall l c v', steps host b (here off b bid pos) v1 l c v' -> exists l', steps host b (here off b bid pc) v l' c v') as J by (intros l c v' J; eexists; eapply steps_more; eauto).
      destruct (K host b bid v0 keep Hkeep G0 _ _ _ R1) as [[l [v2 [S2 [R2 F2]]]]|[S2 F2]].
      + destruct (J _ _ _ S2) as [l' S3]. destruct (IH host b bid v0 keep Hkeep G0 _ _ _ R2) as [[l2 [c3 [v3 [cs3 [us3 [st3 [G3 [S4 E4]]]]]]]]|[S4 F4]].
        * left. destruct (steps_join _ _ _ _ _ _ _ S3 _ _ _ S4) as [l3 S5]. exists l3, c3, v3, cs3, us3, st3, G3. auto.
        * right. split; [eapply steps_after; eauto|lia].
      + right. split; [|lia]. eapply (steps_after host b (here off b bid pc) v [v1]); [eapply steps_more; [exact S1|apply steps_none]|exact S2].
  Qed.
End Together.

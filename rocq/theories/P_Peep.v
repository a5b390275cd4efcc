(** The push-pop optimisation (C17). *)
From Coq Require Import ZArith List Bool Lia ZifyBool ZifyNat.
Import ListNotations.
From Verif Require Import M_Base M_Heap M_Instr M_VM M_Asm S_Heap S_VM P_Heap P_VM P_Exec P_Valid S_Asm P_Asm.
Open Scope Z_scope.
Open Scope vm_scope.

(** ** Structure *)
Lemma barrier_first a prog : barrier a -> peephole (a :: prog) = a :: peephole prog.
Proof. destruct a; cbn [barrier]; try easy; intros _; destruct prog as [|[] prog]; reflexivity. Qed.

Lemma barrier_next a b prog : barrier b -> peephole_from a (b :: prog) = a :: peephole (b :: prog).
Proof. destruct b; cbn [barrier]; try easy. Qed.

Lemma peephole_from_barrier x B : barrier x -> forall A a,
  peephole_from a (A ++ x :: B) = peephole_from a A ++ x :: peephole B.
Proof.
  intros Hx. induction A as [|b A IH]; intros a.
  - cbn [app]. rewrite barrier_next, barrier_first by exact Hx. reflexivity.
  - cbn [app peephole_from].
    destruct b; try (cbn [app]; now rewrite IH).
    destruct (is_push a); [cbn [app]; now rewrite IH|].
    destruct a; cbn [app]; now rewrite IH.
Qed.

Theorem peephole_barrier A x B : barrier x ->
  peephole (A ++ x :: B) = peephole A ++ x :: peephole B.
Proof.
  intros Hx. destruct A as [|a A]; [now apply barrier_first|]. now apply peephole_from_barrier.
Qed.

Lemma peephole_from_length : forall prog a, length (peephole_from a prog) = S (length prog).
Proof.
  induction prog as [|b prog IH]; intros a; [reflexivity|]. cbn [peephole_from].
  destruct b; try (cbn [length]; now rewrite IH).
  destruct (is_push a); [cbn [length]; now rewrite IH|].
  destruct a; cbn [length]; now rewrite IH.
Qed.

(** ** Execution *)
Section Blocks.
Variable host : Z -> M unit.
Variable base : ptr.
Variable next : pc.
Variable strip : bool.
Variable addr : Z -> Z.
Notation runs := (block_runs host base next strip addr).

Lemma pure_push_exec a i v v1 : pure_push strip a -> meaning strip addr a = Some i ->
  exec host base next i v = (Ok (Continue next), v1) -> exists o, v1 = pushed o v.
Proof.
  intros P M E.
  assert (SP : forall (o : object) w r w', (stack_push o;;; mret (Continue next)) w = (r, w') -> w' = pushed o w).
  { intros o w r w' H. unfold stack_push, mmod, mbind, mret in H. injection H as _ <-. reflexivity. }
  destruct a; cbn [pure_push] in P; try easy; cbn [meaning] in M; try (rewrite P in M); injection M as <-;
    cbn [exec] in E; try (apply SP in E; eauto; fail).
  - apply mbind_ok in E. destruct E as [u [w [E1 E2]]]. injection E2 as <-.
    apply mbind_ok in E1. destruct E1 as [o [w' [E1 E3]]].
    unfold sget, mget, mbind, mlift in E1. injection E1 as _ <-.
    unfold stack_push, mmod in E3. injection E3 as _ <-. exists o. reflexivity.
  - apply mbind_ok in E. destruct E as [u [w [E1 E2]]]. injection E2 as <-.
    unfold push_upvalue_op in E1. unfold mget, mbind at 1 in E1.
    destruct (uacs v) as [|x xs]; [discriminate|].
    unfold mlift in E1. unfold mbind in E1 at 1. destruct (ua_get _ _ _); try discriminate.
    unfold mbind in E1 at 1. destruct (upvalue_end _ _ _ _) as [[? e]| | |]; try discriminate.
    apply mbind_ok in E1. destruct E1 as [o [w' [E1 E3]]].
    assert (w' = v).
    { destruct e; [now injection E1 as _ <-| |discriminate].
      revert E1. unfold deref, mbind, mget, mlift.
      repeat (match goal with |- context [match ?x with _ => _ end] => destruct x end);
        intros E1; try discriminate; now injection E1. }
    subst w'. unfold stack_push, mmod in E3. injection E3 as _ <-. exists o. reflexivity.
  - apply mbind_ok in E. destruct E as [u [w [E1 E2]]]. injection E2 as <-.
    apply mbind_ok in E1. destruct E1 as [p [w1 [E1 E3]]].
    apply mbind_ok in E3. destruct E3 as [o [w2 [E3 E4]]].
    assert (w1 = v /\ w2 = w1) as [-> ->].
    { split; [revert E1|revert E3]; unfold global_get, pointee, deref, mbind, mget, mlift, mret, merr, mub;
      repeat (match goal with |- context [match ?x with _ => _ end] => destruct x end);
        intros EE; try discriminate; now injection EE. }
    unfold stack_push, mmod in E4. injection E4 as _ <-. exists o. reflexivity.
Qed.

Lemma pop_exec n v v1 : exec host base next (IPop n) v = (Ok (Continue next), v1) <->
  n <= zlen (ustack v) /\ n <= zlen (stack v) /\
  v1 = set_stack (set_ustack v (skipn (Z.to_nat n) (ustack v))) (skipn (Z.to_nat n) (stack v)).
Proof.
  cbn [exec]. unfold stack_pop_multiple, mbind, mget, mset, merr, mret.
  destruct (zlen (ustack v) <? n) eqn:A; [split; [discriminate|lia]|].
  cbn [fst snd]. destruct (zlen (stack v) <? n) eqn:B; [split; [discriminate|lia]|].
  split.
  - intros E. injection E as <-. repeat split; lia.
  - intros [_ [_ ->]]. reflexivity.
Qed.

Lemma skipn_twice {A} (l : list A) : forall a b, skipn b (skipn a l) = skipn (a + b) l.
Proof.
  induction l as [|x l IH]; intros [|a] b; cbn [skipn Nat.add]; auto; try now rewrite !skipn_nil.
Qed.

Lemma two_pops a b v v1 v2 : 0 <= a -> 0 <= b ->
  exec host base next (IPop a) v = (Ok (Continue next), v1) ->
  exec host base next (IPop b) v1 = (Ok (Continue next), v2) ->
  exec host base next (IPop (a + b)) v = (Ok (Continue next), v2).
Proof.
  intros Ha Hb E1 E2. apply pop_exec in E1. destruct E1 as [U1 [S1 ->]].
  apply pop_exec in E2. destruct E2 as [U2 [S2 ->]]. apply pop_exec.
  destruct v as [os fr s u gl gm cs ua cb nt nb ev]. cbn [stack ustack set_stack set_ustack] in *.
  unfold zlen in *. rewrite !skipn_length in *.
  split; [lia|]. split; [lia|].
  cbn. rewrite !skipn_twice. replace (Z.to_nat (a + b)) with (Z.to_nat a + Z.to_nat b)%nat by lia. reflexivity.
Qed.

Lemma push_then_pop n o v v2 : 1 <= n ->
  exec host base next (IPop n) (pushed o v) = (Ok (Continue next), v2) ->
  exec host base next (IPop (n - 1)) v = (Ok (Continue next), v2).
Proof.
  intros Hn E. apply pop_exec in E. destruct E as [U [S ->]]. apply pop_exec.
  destruct v as [os fr s u gl gm cs ua cb nt nb ev]. cbn [stack ustack set_stack set_ustack pushed] in *.
  unfold zlen in *. cbn [length] in *.
  split; [lia|]. split; [lia|].
  replace (Z.to_nat n) with (Datatypes.S (Z.to_nat (n - 1))) by lia. reflexivity.
Qed.

Lemma pop_none v v1 : exec host base next (IPop 0) v = (Ok (Continue next), v1) -> v1 = v.
Proof.
  intros E. apply pop_exec in E. destruct E as [_ [_ ->]]. now destruct v.
Qed.

Lemma runs_cons a prog v v' : runs (a :: prog) v v' <->
  match meaning strip addr a with
  | None => runs prog v v'
  | Some i => exists v1, exec host base next i v = (Ok (Continue next), v1) /\ runs prog v1 v'
  end.
Proof.
  split.
  - intros H. inversion H; subst; match goal with K : meaning _ _ _ = _ |- _ => rewrite K end; eauto.
  - destruct (meaning strip addr a) as [i|] eqn:E.
    + intros [v1 [H1 H2]]. eapply block_instr; eauto.
    + intros H. now apply block_pseudo.
Qed.

Lemma pops_nonneg prog : Forall (push_or_pop strip) prog -> 0 <= pops prog.
Proof.
  induction 1 as [|a prog H _ IH]; cbn; [lia|]. destruct a; cbn in H; try exact IH. fold (pops prog). lia.
Qed.

Lemma to_int_small n : 0 <= n < 2 ^ 31 -> to_int n = n.
Proof. intros H. unfold to_int. rewrite Z.mod_small by lia. lia. Qed.

Lemma push_or_pop_push a : push_or_pop strip a -> is_push a = true -> pure_push strip a.
Proof. destruct a; cbn; easy. Qed.
Lemma push_has_meaning a : is_push a = true -> exists i, meaning strip addr a = Some i.
Proof. destruct a; cbn; try easy; eauto. Qed.

Lemma peephole_from_runs : forall prog a v v',
  Forall (push_or_pop strip) (a :: prog) -> pops (a :: prog) < 2 ^ 31 ->
  runs (a :: prog) v v' -> runs (peephole_from a prog) v v'.
Proof.
  induction prog as [|b prog IH]; intros a v v' F L R; [exact R|].
  inversion F as [|? ? Fa Fb]; subst. inversion Fb as [|? ? Fb1 Fp]; subst.
  assert (KEEP : pops (b :: prog) < 2 ^ 31 -> runs (a :: peephole_from b prog) v v').
  { intros L'. apply runs_cons. apply runs_cons in R. destruct (meaning strip addr a) as [i|].
    - destruct R as [v1 [E R]]. exists v1. split; auto.
    - apply IH; auto. }
  pose proof (pops_nonneg prog Fp) as PN.
  assert (SUM : pops (a :: b :: prog) = (match a with APop m => m | _ => 0 end)
     + (match b with APop m => m | _ => 0 end) + pops prog).
  { unfold pops. cbn [fold_right]. destruct a, b; lia. }
  assert (SUMb : pops (b :: prog) = (match b with APop m => m | _ => 0 end) + pops prog).
  { unfold pops. cbn [fold_right]. destruct b; lia. }
  assert (NA : 0 <= match a with APop m => m | _ => 0 end) by (destruct a; cbn in Fa; lia).
  assert (KEEP' : runs (a :: peephole_from b prog) v v') by (apply KEEP; lia).
  cbn [peephole_from]. destruct b; try exact KEEP'.
  rename n into m. cbn in Fb1.
  destruct (is_push a) eqn:PU.
  - (* push; pop *)
    destruct (push_has_meaning a PU) as [i Mi].
    apply runs_cons in R. rewrite Mi in R. destruct R as [v1 [E1 R]].
    destruct (pure_push_exec a i v v1 (push_or_pop_push a Fa PU) Mi E1) as [o ->].
    apply runs_cons in R. cbn [meaning] in R. destruct R as [v2 [E2 R]].
    apply push_then_pop in E2; [|exact Fb1].
    apply runs_cons. cbn [meaning]. destruct (m - 1 =? 0) eqn:Q.
    + replace (m - 1) with 0 in E2 by lia. apply pop_none in E2. subst v2.
      apply IH.
      * constructor; [exact I|exact Fp].
      * unfold pops. cbn [fold_right]. fold (pops prog). lia.
      * apply runs_cons. exact R.
    + apply IH.
      * constructor; [cbn; lia|exact Fp].
      * unfold pops. cbn [fold_right]. fold (pops prog). lia.
      * apply runs_cons. cbn [meaning]. eauto.
  - destruct a; try exact KEEP'.
    (* pop; pop *)
    apply runs_cons in R. cbn [meaning] in R. destruct R as [v1 [E1 R]].
    apply runs_cons in R. cbn [meaning] in R. destruct R as [v2 [E2 R]]. cbn in Fa.
    pose proof (two_pops n m v v1 v2 ltac:(lia) ltac:(lia) E1 E2) as E3.
    rewrite to_int_small by lia.
    apply runs_cons. cbn [meaning]. apply IH.
    + constructor; [cbn; lia|exact Fp].
    + unfold pops. cbn [fold_right]. fold (pops prog). lia.
    + apply runs_cons. cbn [meaning]. eauto.
Qed.

Theorem peephole_runs prog v v' :
  Forall (push_or_pop strip) prog -> pops prog < 2 ^ 31 -> runs prog v v' -> runs (peephole prog) v v'.
Proof. destruct prog as [|a prog]; [auto|]. apply peephole_from_runs. Qed.

(** Pushing a string or symbol and dropping it again leaves only garbage behind. *)
Lemma alloc_view o v r v1 : valid v -> alloc o v = (r, v1) -> same_view v v1.
Proof.
  intros V E. destruct (alloc_total o v V) as [[q [w E']]|[w [E' [_ [_ [R O]]]]]];
    rewrite E' in E; injection E as <- <-.
  - pose proof (alloc_ok o v q w V E') as A. destruct (ae_roots _ _ _ _ A) as (R1 & R2 & R3 & R4 & R5 & R6 & R7 & R8).
    constructor; try congruence. apply (ae_old _ _ _ _ A).
  - destruct R as (R1 & R2 & R3 & R4 & R5 & R6 & R7 & R8). constructor; try congruence.
Qed.

Theorem dropped_text a n v v' :
  valid v -> 1 <= n ->
  match a with APushString _ | APushSymbol _ _ => True | _ => False end ->
  runs [a; APop n] v v' ->
  exists v2, runs [APop (n - 1)] v v2 /\ same_view v2 v'.
Proof.
  intros V Hn HA R.
  assert (G : exists o w, same_view v w /\ exec host base next (IPop n) (pushed o w) = (Ok (Continue next), v')).
  { apply runs_cons in R.
    assert (NL : forall w x, runs [APop n] w x -> exec host base next (IPop n) w = (Ok (Continue next), x)).
    { intros w x H. apply runs_cons in H. cbn [meaning] in H. destruct H as [y [E H]].
      inversion H; subst; auto. }
    destruct a; try easy; cbn [meaning] in R.
    - destruct R as [v1 [E R]]. apply NL in R. cbn [exec] in E. apply mbind_ok in E.
      destruct E as [u [w [E E']]]. injection E' as <-. unfold push_string_op, new_string, mbind, mret in E.
      destruct (alloc (OInternalString (Some s)) v) as [[p|e| |] w'] eqn:EA; try discriminate;
        unfold stack_push, mmod in E; injection E as _ <-;
        (eexists _, w'; split; [eapply alloc_view; eauto|exact R]).
    - destruct strip.
      + destruct R as [v1 [E R]]. apply NL in R. cbn [exec] in E. unfold stack_push, mmod, mbind, mret in E.
        injection E as <-. exists (OSymbol id None), v. split; [constructor; auto|exact R].
      + destruct R as [v1 [E R]]. apply NL in R. cbn [exec] in E. apply mbind_ok in E.
        destruct E as [u [w [E E']]]. injection E' as <-. apply mbind_ok in E. destruct E as [p [w' [E E']]].
        unfold stack_push, mmod in E'. injection E' as _ <-.
        eexists _, w'. split; [eapply alloc_view; eauto|exact R]. }
  destruct G as [o [w [SV E]]]. apply push_then_pop in E; auto.
  apply pop_exec in E. destruct E as [U [S ->]].
  rewrite (sv_ustack _ _ SV) in U. rewrite (sv_stack _ _ SV) in S.
  exists (set_stack (set_ustack v (skipn (Z.to_nat (n - 1)) (ustack v))) (skipn (Z.to_nat (n - 1)) (stack v))).
  split.
  - apply runs_cons. cbn [meaning]. eexists. split; [apply pop_exec; auto|constructor].
  - destruct SV as [V1 V2 V3 V4 V5 V6 V7 V8 V9].
    constructor; cbn; try congruence.
    intros p Hp. apply V9. clear - Hp.
    assert (RM : forall q, root (set_stack (set_ustack v (skipn (Z.to_nat (n - 1)) (ustack v)))
       (skipn (Z.to_nat (n - 1)) (stack v))) q -> root v q).
    { intros q H. assert (SK : forall A (l : list A) k x, In x (skipn k l) -> In x l).
      { intros A l k x Hx. rewrite <- (firstn_skipn k l). apply in_or_app. now right. }
      destruct H; [eapply root_stack|apply root_ustack|apply root_global|eapply root_frame|apply root_current];
        cbn in *; eauto. }
    induction Hp as [q H|q o q' _ IH H H']; [apply reach_root; auto|].
    eapply reach_step; eauto.
Qed.
End Blocks.

Lemma peephole_block host base next strip addr prog v v' :
  Forall (push_or_pop strip) prog -> pops prog < 2 ^ 31 ->
  block_runs host base next strip addr prog v v' ->
  block_runs host base next strip addr (peephole prog) v v'.
Proof. apply peephole_runs. Qed.

Lemma peephole_text host base next strip addr a n v v' :
  valid v -> 1 <= n ->
  match a with APushString _ | APushSymbol _ _ => True | _ => False end ->
  block_runs host base next strip addr [a; APop n] v v' ->
  exists v2, block_runs host base next strip addr (peephole [a; APop n]) v v2 /\ same_view v2 v'.
Proof.
  intros V Hn A R. destruct (dropped_text host base next strip addr a n v v' V Hn A R) as [v2 [R2 S]].
  exists v2. split; [|exact S].
  assert (P : is_push a = true) by (destruct a; easy).
  cbn [peephole peephole_from]. rewrite P. apply block_pseudo; [reflexivity|].
  destruct (n - 1 =? 0) eqn:E; [|exact R2]. apply block_pseudo; [reflexivity|].
  replace (n - 1) with 0 in R2 by lia.
  apply runs_cons in R2. cbn [meaning] in R2. destruct R2 as [v1 [E1 R2]].
  now rewrite (pop_none host base next addr v v1 E1) in R2.
Qed.

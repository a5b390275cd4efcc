(** Code with functions on the machine: the stack is always as the layout says (C63). *)
From Coq Require Import ZArith List Bool Lia Arith ZifyBool ZifyNat.
From Verif Require Import M_Base M_Heap M_Instr M_VM M_Asm S_Heap S_Asm S_Frame P_Sort P_Heap P_VM S_Dynamic P_Dyn1 P_Dyn2 P_Dyn3.
Import ListNotations.
Open Scope Z_scope.
Open Scope list_scope.

Section Step.
  Variables (strip : bool) (prog : list ainstr) (code : list Z) (off : nat -> Z) (addr : Z -> Z) (y : layout) (last : nat).
  Hypothesis Hout : laid_out strip prog code off addr.
  Hypothesis Hfr : framed prog y.
  Hypothesis Hlast : nth_error prog last = Some AHalt /\ length prog = S last.
  Hypothesis Hlab : forall k l, nth_error prog k = Some (ALabel l) -> 0 <= l.
  Variables (s0 : list object) (calls0 : list frame).
  Let n0 := zlen s0.
  Definition starts (name arity : Z) (variadic : bool) : Prop :=
    0 <= arity /\ exists k, (k < length prog)%nat /\ off k = name /\ height y k = size arity variadic /\ owner y k <> -1.
  Lemma starts_arity t a va : starts t a va -> 0 <= a. Proof. intros [H _]. exact H. Qed.
  Notation okv := (okv code starts s0).
  Notation keeps cs := (keeps code starts s0 cs).
  Notation tidy := (tidy code starts s0).
  Notation waiting := (waiting prog y off calls0 n0).

  Lemma waiting_above calls f below : waiting calls f below -> n0 <= below.
  Proof. induction 1; lia. Qed.

  Lemma next_real : forall n k, (k + n = last)%nat -> exists m a i, (k <= m <= last)%nat /\ off m = off k /\
    height y m = height y k /\ owner y m = owner y k /\ nth_error prog m = Some a /\ meaning strip addr a = Some i.
  Proof.
    destruct Hlast as [Hl Hn]. induction n as [|n IH]; intros k E.
    - exists last, AHalt, IHalt. replace k with last by lia. repeat split; auto; lia.
    - destruct (nth_error prog k) as [a|] eqn:N; [|apply nth_error_None in N; lia].
      destruct (meaning strip addr a) as [i|] eqn:M; [exists k, a, i; repeat split; auto; lia|].
      destruct (IH (S k) ltac:(lia)) as (m & a' & i' & L & O & Hm & Om & N' & M'). exists m, a', i'. split; [lia|].
      rewrite O, Hm, Om, (lo_pseudo _ _ _ _ _ Hout _ _ N M). split; [reflexivity|].
      destruct Hfr as (_ & _ & _ & F). destruct (F k a N) as [_ Hk]. destruct a; try discriminate M; cbn in Hk.
      + destruct Hk as [[d [D [-> ->]]] _]. injection D as <-. split; [lia|auto].
      + destruct Hk as [-> ->]. auto.
  Qed.

  Lemma target_at l h f : target prog y l h f -> exists j, (j < length prog)%nat /\ addr l = off j /\ height y j = h /\ owner y j = f /\ 0 <= l.
  Proof.
    intros (j & J1 & J2 & J3 & _). exists j. split; [apply nth_error_Some; congruence|].
    split; [apply (lo_label _ _ _ _ _ Hout _ _ J1)|]. split; [auto|]. split; [auto|]. eapply Hlab, J1.
  Qed.

  (** The instructions that neither call nor jump nor return. *)
  Definition plain (a : ainstr) : Prop :=
    match a with
    | AHalt | AReturn _ | AJump _ | ALabel _ | ABrnz _ _ | AFuncall _ _ | AApply _ _ | ACcall _ | ACall _ _ => False
    | _ => True
    end.
  Lemma plain_frame k a : plain a -> frame_at prog y k a ->
    (exists d, effect a = Some d /\ height y (S k) = height y k + d /\ owner y (S k) = owner y k) /\
    Forall (fun i => 1 <= i <= height y k) (uses a) /\
    match a with
    | APop n => 1 <= n <= height y k
    | APushClosure variadic l arity cs =>
      0 <= arity /\ Forall (fun c => c <= height y k) cs /\ target prog y l (arity + if variadic then 1 else 0) l
    | _ => True
    end.
  Proof.
    intros P F. destruct a; try contradiction; cbn [frame_at] in F; destruct F as ((d & D1 & D2 & D3) & F2 & F3 & F4);
      (split; [exists d; auto|split; [exact F2|]]); auto. destruct F4 as (A & B & C & _). auto.
  Qed.
  Lemma go_inv (m : M unit) next v c v' : (m ;;; mret (Continue next)) v = (Ok c, v') -> c = Continue next /\ exists r, m v = (Ok r, v').
  Proof.
    unfold mbind. destruct (m v) as [[r| | |] v1] eqn:E; try discriminate. intros H. injection H as <- <-. eauto.
  Qed.
  Lemma plain_step host base next cs k a i h v c v' : plain a -> frame_at prog y k a -> meaning strip addr a = Some i ->
    height y k <= h -> 0 <= h -> okv cs h v -> exec host base next i v = (Ok c, v') ->
    c = Continue next /\ owner y (S k) = owner y k /\ okv cs (h + (height y (S k) - height y k)) v'.
  Proof.
    intros P F M Hh Hp K E. destruct (plain_frame k a P F) as ((d & D1 & D2 & D3) & F2 & F3).
    replace (height y (S k) - height y k) with d by lia.
    assert (forall (m : M_Heap.M unit) Q, keeps cs h m (h + d) Q -> (m ;;; mret (Continue next)) v = (Ok c, v') -> c = Continue next /\ owner y (S k) = owner y k /\ okv cs (h + d) v') as G.
    { intros m Q KM EM. apply go_inv in EM as [-> [r EM]]. split; [reflexivity|]. split; [exact D3|]. apply (KM _ _ _ K EM). }
    assert (forall (m : M_Heap.M object), keeps cs h m h tidy -> keeps cs h (o <~ m ;; stack_push o) (h + 1) (fun _ => True)) as B.
    { intros m Km. eapply k_bind; [exact Km|]. intros x Tx. apply k_push, Tx. }
    assert (forall t (P : t -> Prop) (m : res t), (forall a, m = Ok a -> P a) -> keeps cs h (mlift m) h P) as Lift by (intros; apply k_lift; auto).
    destruct a; try contradiction; cbn in D1; injection D1 as <-; cbn [meaning] in M; try discriminate M; injection M as <-; cbn [exec] in E.
    - injection E as <- <-. rewrite Z.add_0_r. auto.
    - eapply G; [apply k_push_string|exact E].
    - eapply G; [|exact E]. apply k_push; exact I.
    - eapply G; [|exact E]. apply k_push; exact I.
    - eapply G; [|exact E]. apply k_push; exact I.
    - eapply G; [apply B, k_sget|exact E].
    - destruct strip; cbn [exec] in E; (eapply G; [|exact E]).
      + apply k_push. exact I.
      + eapply k_bind; [apply k_alloc; exact I|]. intros p _. apply k_push. exact I.
    - eapply G; [|exact E]. apply k_push; exact I.
    - eapply G; [apply k_push_upvalue|exact E].
    - destruct F3 as (A1 & A2 & A3). apply target_at in A3 as (j & J1 & J2 & J3 & J4 & J5).
      eapply G; [|exact E]. apply k_push_closure; [exact Hp| |].
      + split; [exact A1|]. exists j. rewrite J2. unfold size. repeat split; auto. lia.
      + eapply Forall_impl; [|exact A2]. cbn. intros. lia.
    - eapply G; [|exact E]. eapply k_bind; [apply k_global_get|]. intros p _. apply B, k_pointee.
    - eapply G; [|exact E]. rewrite Z.add_0_r. apply k_set_upvalue.
    - eapply G; [|exact E]. rewrite Z.add_0_r. apply k_get. intros w Kw.
      eapply k_bind; [apply (k_lift _ _ _ _ _ _ tidy); intros o Eo; eapply raw_get_ok; eauto|]. intros o To.
      eapply k_bind; [apply k_alloc, To|]. intros p _. apply k_global_set.
    - eapply G; [|exact E]. rewrite Z.add_0_r. apply k_release. eapply Forall_impl; [|exact F2]. cbn. intros. lia.
    - eapply G; [|exact E]. rewrite Z.add_0_r. eapply k_bind; [apply k_sget|]. intros o To. apply k_get. intros w Kw.
      eapply k_bind; [apply (k_lift _ _ _ _ _ _ (fun s => abs_set (stack w) (zlen (stack w) - j) o = Ok s)); auto|]. intros s Es. apply k_set.
      eapply abs_set_ok; [exact Kw|exact To| |exact Es]. apply Forall_cons_iff in F2 as [_ F2]. apply Forall_cons_iff in F2 as [F2 _].
      rewrite (own_length _ _ _ _ _ _ Kw). lia.
    - eapply G; [|exact E]. eapply k_bind; [apply k_sget|]. intros x Tx. apply k_un.
    - eapply G; [|exact E]. eapply k_bind; [apply k_sget|]. intros x Tx. eapply k_bind; [apply k_sget|]. intros z Tz. apply k_bin; auto.
    - eapply G; [|exact E]. eapply k_bind; [apply k_sget|]. intros x Tx. eapply k_bind; [apply k_sget|]. intros z Tz.
      eapply k_bind; [apply k_sget|]. intros w Tw. apply k_tern; auto.
    - eapply G; [|exact E]. apply k_vector. exact Hp.
    - eapply G; [|exact E]. apply k_get. intros w Kw. eapply k_bind; [apply (k_set code starts s0 cs h h); apply okv_user, Kw|].
      intros _ _. apply k_push. exact I.
    - eapply G; [|exact E]. eapply k_to; [|apply k_pops; lia]. lia.
    - eapply G; [|exact E]. apply k_push; exact I.
  Qed.

  Record inv (c : pc) (v : vm) (k : nat) (below h : Z) : Prop := Inv {
    inv_k : (k < length prog)%nat;
    inv_ip : pc_ip c = off k;
    inv_waiting : waiting (call_stack v) (owner y k) below;
    inv_height : n0 + h = below + height y k;
    inv_ok : okv (call_stack v) h v }.

  Lemma calls_eq cs h v : okv cs h v -> call_stack v = cs. Proof. intros []. auto. Qed.
  Lemma inv_keep cs h v : okv cs h v -> okv (call_stack v) h v.
  Proof. intros K. rewrite (calls_eq _ _ _ K). exact K. Qed.

  Theorem inv_step host base c v k below h r v' : inv c v k below h -> step host base c v = (Ok r, v') ->
    match r with
    | Continue c' => exists k' below' h', inv c' v' k' below' h'
    | Stop => exists k', nth_error prog k' = Some AHalt /\ call_stack v' = calls0 /\ okv calls0 (height y k') v' /\ owner y k' = -1
    end.
  Proof.
    intros [Ik Iip Iw Ih Iok] E. destruct Hfr as (_ & _ & _ & F). destruct Hlast as [Hl Hn].
    destruct (next_real (last - k) k ltac:(lia)) as (m & a & i & Lm & Om & Hm & Ow & N & M).
    unfold step in E. unfold mbind at 1, mget in E. unfold mbind at 1, mlift at 1 in E.
    destruct (code_bytes (objects v) (pc_code c)) as [cb| | |] eqn:CB; try discriminate.
    assert (cb = code) as ->.
    { unfold code_bytes in CB. destruct (nth_error (objects v) (fst (pc_code c))) as [[]|] eqn:No; try discriminate.
      destruct code0 as [s|]; try discriminate. destruct (_ =? _)%nat; try discriminate. injection CB as ->.
      exact (proj1 (Forall_forall _ _) (ok_heap _ _ _ _ _ _ Iok) _ (nth_error_In _ _ No)). }
    rewrite Iip, <- Om in E. unfold mbind at 1, mlift at 1 in E. rewrite (lo_instr _ _ _ _ _ Hout _ _ _ N M) in E.
    set (next := PC (pc_code c) (off (S m))) in E.
    destruct (F m a N) as [Hpos Fa]. pose proof (waiting_above _ _ _ Iw) as Ab.
    rewrite <- Ow in Iw. rewrite <- Hm in Ih. assert (m <= last)%nat as Lm2 by lia. clear Ow Hm Om Iip Ik Lm k.
    assert (forall h1 h2, h2 = h1 -> okv (call_stack v) h1 v' -> okv (call_stack v) h2 v') as Eq by (intros ? ? ->; auto).
    assert (forall j h', (j < length prog)%nat -> owner y j = owner y m -> h' = h + (height y j - height y m) -> okv (call_stack v) h' v' ->
      forall cd, exists k' below' h', inv (PC cd (off j)) v' k' below' h') as Done.
    { intros j h' Lj Oj Hj K cd. exists j, below, h'. pose proof (calls_eq _ _ _ K) as CE. constructor; auto.
      - rewrite CE, Oj. exact Iw.
      - lia.
      - rewrite CE. exact K. }
    assert (a <> AHalt -> (S m < length prog)%nat) as Lt.
    { intros Na. destruct (Nat.eq_dec m last) as [->|]; [congruence|lia]. }
    assert (plain a \/ ~ plain a) as [P|P] by (destruct a; cbn; tauto).
    { destruct (plain_step host base next (call_stack v) m a i h v r v' P Fa M ltac:(lia) ltac:(lia) Iok E) as (-> & O1 & K1).
      eapply (Done (S m)); [|exact O1|reflexivity|exact K1]. apply Lt. intros ->. exact P. }
    destruct a; try (exfalso; apply P; exact I); cbn [frame_at] in Fa; cbn [meaning] in M; try discriminate M; injection M as <-; try (assert (S m < length prog)%nat as Ls by (apply Lt; discriminate)).
    - (* funcall *) destruct Fa as (A1 & A2 & A3 & A4). cbn [exec] in E.
      assert (0 <= args <= h) as Ar by lia.
      destruct (funcall_ok code starts s0 starts_arity _ _ _ _ _ _ _ _ _ _ Iok Ar E) as (name & ar & va & b & id & En & -> & K).
      destruct En as (E1 & j & J1 & J2 & J3 & J4). exists j, (below + (height y (S m) - 1)), (h - args + size ar va).
      pose proof (calls_eq _ _ _ K) as CE. constructor; auto.
      + rewrite CE. apply waiting_call; auto; [rewrite A4; exact Iw|lia].
      + lia.
      + rewrite CE. exact K.
    - (* apply *) destruct Fa as (A1 & A2 & A3 & A4). cbn [exec] in E.
      assert (0 <= args < h) as Ar by lia.
      destruct (apply_ok code starts s0 starts_arity _ _ _ _ _ _ _ _ _ Iok Ar E) as (name & ar & va & b & id & En & -> & K).
      destruct En as (E1 & j & J1 & J2 & J3 & J4). exists j, (below + (height y (S m) - 1)), (h - 1 - args + size ar va).
      pose proof (calls_eq _ _ _ K) as CE. constructor; auto.
      + rewrite CE. apply waiting_call; auto; [rewrite A4; exact Iw|lia].
      + lia.
      + rewrite CE. exact K.
    - destruct Fa.
    - (* ccall *) cbn [exec] in E. unfold mbind at 1 in E. destruct (global_get key v) as [[p| | |] v1] eqn:G1; try discriminate.
      destruct (k_global_get code starts s0 _ h _ _ _ _ Iok G1) as [K1 _]. unfold mbind at 1 in E.
      destruct (deref p v1) as [[o| | |] v2] eqn:G2; try discriminate.
      destruct (k_deref code starts s0 _ h _ _ _ _ K1 G2) as [K2 T]. destruct o; try discriminate. destruct T.
    - (* jump *) cbn [exec] in E. injection E as <- <-. apply target_at in Fa as (j & J1 & J2 & J3 & J4 & _). rewrite J2.
      apply (Done j h); auto. lia.
    - (* brnz *) destruct Fa as (A1 & A2 & A3 & A4 & A5). apply target_at in A3 as (j & J1 & J2 & J3 & J4 & _). cbn [exec] in E.
      unfold mbind at 1 in E. destruct (sget 1 v) as [[o| | |] v1] eqn:G1; try discriminate.
      destruct (k_sget code starts s0 _ h _ _ _ _ Iok G1) as [K1 _]. unfold mbind at 1 in E.
      destruct (stack_pop_multiple pops v1) as [[u| | |] v2] eqn:G2; try discriminate.
      destruct (k_pops code starts s0 _ h pops ltac:(lia) _ _ _ K1 G2) as [K2 _]. unfold mbind at 1, mget in E. unfold mbind at 1, mlift in E.
      destruct (truthy (objects v2) o) as [b| | |]; try discriminate. injection E as <- <-. destruct b.
      + rewrite J2. apply (Done j (h - pops)); auto. lia.
      + apply (Done (S m) (h - pops)); auto. lia.
    - (* return *) destruct Fa as (A1 & A2 & A3). inversion Iw as [Q1 Q2 Q3|k' cd bc calls below' f W L Nf Hk Q1 Q2 Q3]; [congruence|].
      rewrite <- Q1 in Iok. assert (n + 1 <= h) as Ar by lia.
      destruct (return_ok code starts s0 starts_arity host base next _ _ _ _ _ _ _ Iok A1 Ar E) as [-> K]. cbn [fr_code fr_ip].
      exists k', below', (h - n). pose proof (calls_eq _ _ _ K) as CE. constructor; auto.
      + rewrite CE. exact W.
      + lia.
      + rewrite CE. exact K.
    - (* halt *) cbn [exec] in E. injection E as <- <-. exists m. destruct Fa as [A1 A2]. rewrite A2 in Iw.
      inversion Iw as [Q1 Q2 Q3|]; [|congruence]. split; [exact N|]. split; [reflexivity|]. split; [|exact A2].
      replace (height y m) with h by lia. exact Iok.
  Qed.
  Theorem inv_reaches host base c v k below h : inv c v k below h -> forall c' v', reaches host base c v c' v' -> exists k' below' h', inv c' v' k' below' h'.
  Proof.
    intros I0 c' v' R. induction R as [|c1 v1 c2 v2 R IH S]; [eauto|]. destruct IH as (k1 & b1 & h1 & I1).
    exact (inv_step host base _ _ _ _ _ _ _ I1 S).
  Qed.
  Theorem inv_run host base fuel : forall c v k below h v', inv c v k below h -> run host fuel base c v = (Ok tt, v') ->
    exists k', nth_error prog k' = Some AHalt /\ okv calls0 (height y k') v'.
  Proof.
    induction fuel as [|fuel IH]; intros c v k below h v' I0 E; cbn [run] in E; [discriminate|].
    unfold mbind in E. destruct (step host base c v) as [[[c1|]| | |] v1] eqn:S; try discriminate; pose proof (inv_step host base _ _ _ _ _ _ _ I0 S) as T.
    - destruct T as (k1 & b1 & h1 & I1). eapply IH; eauto.
    - destruct T as (k' & T1 & T2 & T3 & _). injection E as <-. eauto.
  Qed.
End Step.

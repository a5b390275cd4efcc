(** Code with functions on the machine: calls and returns (C63). *)
From Coq Require Import ZArith List Bool Lia Arith ZifyBool ZifyNat.
From Verif Require Import M_Base M_Heap M_Instr M_VM S_Heap P_Sort P_Heap P_VM S_Dynamic P_Dyn1 P_Dyn2.
Import ListNotations.
Open Scope Z_scope.
Open Scope list_scope.

Section Calls.
  Variables (code : list Z) (entry : Z -> Z -> bool -> Prop) (s0 : list object).
  Hypothesis entry_arity : forall t a va, entry t a va -> 0 <= a.
  Notation tidy := (tidy code entry s0).
  Notation okv := (okv code entry s0).
  Notation keeps cs := (keeps code entry s0 cs).
  Let any {A} : A -> Prop := fun _ => True.
  Definition size (arity : Z) (variadic : bool) : Z := arity + if variadic then 1 else 0.

  Lemma k_unwrap cs h n : forall o, tidy o -> keeps cs h (unwrap n o) h tidy.
  Proof.
    induction n as [|n IH]; intros o T; destruct o; cbn [unwrap]; try (apply k_ret; exact T).
    - apply (k_lift _ _ _ _ _ _ tidy). discriminate.
    - eapply k_bind; [apply k_composite_get|]. intros [[? ?] g] _. eapply k_bind; [apply k_deref|]. intros o1 To. apply IH, To.
  Qed.
  Lemma k_collect cs n : forall h k last, 2 <= h -> keeps cs h (collect_args n k last) h any.
  Proof.
    induction n as [|n IH]; intros h k last H; cbn [collect_args]; [apply k_ret; exact I|]. apply k_get. intros v K.
    eapply k_bind; [apply (k_lift _ _ _ _ _ _ tidy); intros a E; eapply raw_get_ok; eauto|]. intros o To.
    eapply k_bind; [apply k_alloc, To|]. intros p _. eapply k_bind; [apply k_sset; [exact I|lia]|]. intros _ _.
    eapply k_bind; [apply k_alloc; exact I|]. intros c _. eapply k_bind; [apply k_sset; [exact I|lia]|]. intros _ _. apply IH, H.
  Qed.
  Lemma k_rest cs h n last : 0 <= n <= h -> keeps cs h (rest_list n last) (h - n + 1) any.
  Proof.
    intros N. unfold rest_list. eapply k_bind; [apply k_push; exact I|]. intros _ _. eapply k_bind; [apply k_push; exact I|]. intros _ _.
    eapply k_bind; [apply k_collect; lia|]. intros l _. eapply k_bind; [apply k_pop; lia|]. intros _ _.
    eapply k_bind; [apply k_sset; [exact I|lia]|]. intros _ _. eapply k_to; [|apply k_pops; lia]. lia.
  Qed.
  Lemma prepare_ok cs h f n v a v' : okv cs h v -> tidy f -> 0 <= n <= h -> prepare_for_funcall f n v = (Ok a, v') ->
    exists name b u ar va, a = OClosure name b u ar va /\ entry name ar va /\ okv cs (h - n + size ar va) v'.
  Proof.
    intros K T N E. unfold prepare_for_funcall in E. unfold mbind at 1, mget in E. unfold mbind at 1 in E.
    destruct (unwrap (S (length (objects v))) f v) as [[g| | |] v1] eqn:U; try discriminate.
    destruct (k_unwrap cs h _ f T _ _ _ K U) as [K1 T1]. destruct g; try discriminate; [destruct T1|].
    cbn in T1. pose proof (entry_arity _ _ _ T1) as A. destruct variadic.
    - destruct (Z.ltb_spec n arity); [discriminate|].
      assert (keeps cs h (rest_list (n - arity) None ;;; mret (OClosure name bytecode upvalues arity true)) (h - (n - arity) + 1) (fun o => o = OClosure name bytecode upvalues arity true)) as KR.
      { eapply k_bind; [apply k_rest; lia|]. intros _ _. apply k_ret. reflexivity. }
      destruct (KR _ _ _ K1 E) as [K2 ->]. exists name, bytecode, upvalues, arity, true. split; [reflexivity|]. split; [exact T1|]. unfold size. replace (h - n + (arity + 1)) with (h - (n - arity) + 1) by lia. exact K2.
    - destruct (Z.eqb_spec arity n); [|discriminate]. injection E as <- <-. exists name, bytecode, upvalues, arity, false. split; [reflexivity|]. split; [exact T1|]. unfold size. replace (h - n + (arity + 0)) with h by lia. exact K1.
  Qed.
  Lemma enter_ok cs h base ret name b u ar va v c v' : okv cs h v -> enter base ret (OClosure name b u ar va) v = (Ok c, v') ->
    exists b' id, c = Continue (PC (b', id) name) /\ okv (Frame (pc_ip ret) (pc_code ret) (Some base) :: cs) h v'.
  Proof.
    intros K E. unfold enter in E. unfold mbind at 1 in E. destruct (deref u v) as [[o| | |] v1] eqn:D; try discriminate.
    destruct (k_deref code entry s0 cs h _ _ _ _ K D) as [K1 _]. destruct o; try discriminate.
    unfold mbind, call_stack_push, mmod in E. cbn [snd fst] in E.
    set (w := set_calls v1 _ _) in E.
    assert (okv (Frame (pc_ip ret) (pc_code ret) (Some base) :: cs) h w) as K2.
    { destruct K1 as [C1 C2 C3 C4 C5]. constructor; auto; cbn; [rewrite C1; reflexivity|lia]. }
    destruct (deref b w) as [[o| | |] v2] eqn:D2; try discriminate.
    destruct (k_deref code entry s0 _ h _ _ _ _ K2 D2) as [K3 _]. destruct o; try discriminate. destruct code0; try discriminate. destruct b as [b|]; try discriminate.
    injection E as <- <-. eauto.
  Qed.
  Lemma funcall_ok cs h host base ret i n v c v' : okv cs h v -> 0 <= n <= h -> funcall_op host base ret i n v = (Ok c, v') ->
    exists name ar va b id, entry name ar va /\ c = Continue (PC (b, id) name) /\
      okv (Frame (pc_ip ret) (pc_code ret) (Some base) :: cs) (h - n + size ar va) v'.
  Proof.
    intros K N E. unfold funcall_op in E. unfold mbind at 1 in E. destruct (sget i v) as [[f| | |] v1] eqn:S; try discriminate.
    destruct (k_sget code entry s0 cs h _ _ _ _ K S) as [K1 T]. unfold mbind at 1 in E.
    destruct (prepare_for_funcall f n v1) as [[g| | |] v2] eqn:P; try discriminate.
    destruct (prepare_ok _ _ _ _ _ _ _ K1 T N P) as (name & b & u & ar & va & -> & En & K2).
    destruct (enter_ok _ _ _ _ _ _ _ _ _ _ _ _ K2 E) as (b' & id & -> & K3). exists name, ar, va, b', id. auto.
  Qed.
  Lemma spread_ok cs n : forall rest h v k r v', okv cs h v -> spread n rest v = (Ok (k, r), v') ->
    0 <= k <= Z.of_nat n /\ okv cs (h + k) v'.
  Proof.
    induction n as [|n IH]; intros rest h v k r v' K E; cbn [spread] in E.
    - injection E as <- <- <-. rewrite Z.add_0_r. split; [lia|exact K].
    - destruct rest as [p|]; [|injection E as <- <- <-; rewrite Z.add_0_r; split; [lia|exact K]].
      unfold mbind at 1 in E. destruct (deref (Some p) v) as [[o| | |] v1] eqn:D; try discriminate.
      destruct (k_deref code entry s0 cs h _ _ _ _ K D) as [K1 _]. destruct o; try discriminate.
      unfold mbind at 1 in E. destruct (unbox car v1) as [[o| | |] v2] eqn:U; try discriminate.
      destruct (k_unbox code entry s0 cs h _ _ _ _ K1 U) as [K2 T]. unfold mbind at 1 in E.
      destruct (stack_push o v2) as [[x| | |] v3] eqn:P; try discriminate.
      destruct (k_push code entry s0 cs h o T _ _ _ K2 P) as [K3 _]. unfold mbind at 1 in E.
      destruct (spread n cdr v3) as [[[k1 r1]| | |] v4] eqn:S; try discriminate.
      destruct (IH _ _ _ _ _ _ K3 S) as [B K4]. injection E as <- <- <-. split; [lia|]. replace (h + (k1 + 1)) with (h + 1 + k1) by lia. exact K4.
  Qed.
  Lemma apply_ok cs h base ret i n v c v' : okv cs h v -> 0 <= n < h -> apply_op base ret i n v = (Ok c, v') ->
    exists name ar va b id, entry name ar va /\ c = Continue (PC (b, id) name) /\
      okv (Frame (pc_ip ret) (pc_code ret) (Some base) :: cs) (h - 1 - n + size ar va) v'.
  Proof.
    intros K N E. unfold apply_op in E. unfold mbind at 1 in E. destruct (sget i v) as [[f| | |] v1] eqn:S; try discriminate.
    destruct (k_sget code entry s0 cs h _ _ _ _ K S) as [K1 T]. unfold mbind at 1, mget in E. unfold mbind at 1 in E.
    destruct (unwrap _ f v1) as [[g| | |] v2] eqn:U; try discriminate.
    destruct (k_unwrap cs h _ f T _ _ _ K1 U) as [K2 T2]. destruct g; try discriminate. cbn in T2. pose proof (entry_arity _ _ _ T2) as A.
    unfold mbind at 1 in E. destruct (stack_pop v2) as [[o| | |] v3] eqn:P; try discriminate.
    destruct (k_pop code entry s0 cs h ltac:(lia) _ _ _ K2 P) as [K3 _]. destruct o; try discriminate.
    unfold mbind at 1 in E. destruct (spread _ l v3) as [[[k r]| | |] v4] eqn:Sp; try discriminate.
    destruct (spread_ok _ _ _ _ _ _ _ _ K3 Sp) as [B K4]. unfold mbind at 1 in E.
    match type of E with (match ?m with _ => _ end = _) => destruct m as [[x| | |] v5] eqn:R; try discriminate end.
    assert (okv cs (h - 1 - n + size arity variadic) v5) as K5.
    { destruct variadic.
      - destruct (Z.ltb_spec (n + k) arity); [discriminate|].
        destruct (k_rest cs (h - 1 + k) (n + k - arity) r ltac:(lia) _ _ _ K4 R) as [K5 _]. unfold size.
        replace (h - 1 - n + (arity + 1)) with (h - 1 + k - (n + k - arity) + 1) by lia. exact K5.
      - destruct (Z.eqb_spec arity (n + k)); [|discriminate]. injection R as _ <-. unfold size. replace (h - 1 - n + (arity + 0)) with (h - 1 + k) by lia. exact K4. }
    destruct (enter_ok _ _ _ _ _ _ _ _ _ _ _ _ K5 E) as (b' & id & -> & K6). exists name, arity, variadic, b', id. auto.
  Qed.
  Lemma return_op_ok f cs h v c v' : okv (f :: cs) h v -> return_op v = (Ok c, v') ->
    c = Continue (PC (fr_code f) (fr_ip f)) /\ okv cs h v'.
  Proof.
    intros [C1 C2 C3 C4 C5] E. unfold return_op, call_stack_pop, mbind, mget, mset in E. rewrite C1 in E.
    destruct (uacs v) as [|u us] eqn:U; [cbn in C2; lia|]. cbn in E. injection E as <- <-. split; [reflexivity|].
    constructor; auto. cbn in *. lia.
  Qed.
  Lemma return_ok host base next f cs h n v c v' : okv (f :: cs) h v -> 0 <= n -> n + 1 <= h ->
    exec host base next (if n =? 0 then IReturn0 else IReturn n) v = (Ok c, v') ->
    c = Continue (PC (fr_code f) (fr_ip f)) /\ okv cs (h - n) v'.
  Proof.
    intros K N1 N2 E. destruct (Z.eqb_spec n 0) as [->|N]; cbn [exec] in E.
    - rewrite Z.sub_0_r. eapply return_op_ok; eauto.
    - unfold mbind at 1, mget in E. unfold mbind at 1 in E.
      destruct (stack_pop_multiple n v) as [[x| | |] v1] eqn:P; try discriminate.
      destruct (k_pops code entry s0 (f :: cs) h n ltac:(lia) _ _ _ K P) as [K1 _].
      unfold mbind at 1 in E. cbn [fst snd] in E. unfold mbind at 1 in E.
      match type of E with (match ?m with _ => _ end = _) => destruct m as [[y| | |] v2] eqn:R; try discriminate end.
      assert (okv (f :: cs) (h - n) v2) as K2.
      { destruct (stack v1) as [|o s] eqn:S.
        - pose proof (own_length _ _ _ _ _ _ K1) as L. rewrite S in L. unfold zlen in L. cbn in L. lia.
        - assert (tidy match stack v with o :: _ => o | [] => ONone end) as T.
          { destruct (stack v) eqn:Sv; [exact I|]. pose proof (ok_stack _ _ _ _ _ _ K) as F. rewrite Sv in F. apply Forall_inv in F. exact F. }
          assert (keeps (f :: cs) (h - n) (stack_pop_multiple 1;;; stack_push match stack v with o :: _ => o | [] => ONone end) (h - n) any) as KK.
          { eapply k_bind; [apply k_pops; lia|]. intros _ _. eapply k_to; [|apply k_push, T]. lia. }
          apply (KK _ _ _ K1 R). }
      eapply return_op_ok; eauto.
  Qed.
End Calls.

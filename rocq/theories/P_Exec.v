From Coq Require Import ZArith List Lia Arith Bool ZifyBool ZifyNat.
Import ListNotations.
From Verif Require Import M_Base M_Heap M_Instr M_VM S_Heap S_VM P_Heap P_Sort P_VM.
Open Scope Z_scope.

(** * Instructions that leave the call stack alone *)

Definition control (i : instr) : bool :=
  match i with IFuncall _ _ | IApply _ _ | ICall _ | IReturn0 | IReturn _ => true | _ => false end.

Section ExecCalls.
  Variable host : Z -> M unit.
  Hypothesis Hhost : quiet host.

  Ltac leaf := unfold calls_kept; simpl; tauto.
  Ltac go := repeat first [ solve [eauto with pres] |
    pres_step calls_kept (simple_refl _ calls_simple) (simple_trans _ calls_simple) leaf ].

  Lemma c_host c v : pres_at calls_kept (host c) v.
  Proof. apply Hhost. Qed.
  Hint Resolve c_host : pres.

  Lemma exec_calls_kept base next i v : control i = false -> i <> IMakeType ->
    pres_at calls_kept (exec host base next i) v.
  Proof.
    intros C N. destruct i; try discriminate; try congruence; unfold exec; go.
  Qed.

  Lemma exec_make_type base next v r v' : exec host base next IMakeType v = (r, v') ->
    r = Ok (Continue next) /\ stack v' = OType (next_user_type v) :: stack v /\
    ustack v' = None :: ustack v /\
    next_user_type v' = usz (next_user_type v + 1) /\ call_stack v' = call_stack v /\ uacs v' = uacs v /\
    objects v' = objects v /\ free v' = free v /\ globals v' = globals v /\ globals_map v' = globals_map v.
  Proof. cbn. intros E. injection E as <- <-. cbn. tauto. Qed.

  Lemma exec_user_type base next i v : i <> IMakeType ->
    next_user_type (snd (exec host base next i v)) = next_user_type v.
  Proof.
    intros N. destruct (control i) eqn:C.
    2: { apply (exec_calls_kept base next i v C N). }
    set (R := fun a b => next_user_type b = next_user_type a).
    change (R v (snd (exec host base next i v))).
    assert (forall w w', calls_kept w w' -> R w w') as HR by (unfold calls_kept, R; tauto).
    assert (forall w, R w w) as Rr by (unfold R; auto).
    assert (forall u w x, R u w -> R w x -> R u x) as Rt by (unfold R; intros; congruence).
    assert (forall {A} (m : M A) w, pres_at calls_kept m w -> pres_at R m w) as HP.
    { intros A m w H. apply HR. exact H. }
    assert (forall b f r w, pres_at R (enter b r f) w) as HE.
    { intros b f r w. unfold enter. destruct f; try apply Rr.
      apply (pres_bind R Rt); [apply HP; eauto with pres|]. intros a w' _.
      destruct a; try apply Rr. apply (pres_bind R Rt).
      - apply (pres_mod R). reflexivity.
      - intros _ w2 _. apply (pres_bind R Rt); [apply HP; eauto with pres|].
        intros b' w3 _. destruct b'; try apply Rr. destruct code; try apply Rr.
        destruct bytecode; apply Rr. }
    assert (forall w, pres_at R return_op w) as HRet.
    { intros w. unfold pres_at, return_op, call_stack_pop, mbind, mget, mset, mret, merr.
      destruct (call_stack w) as [|f fs]; simpl; [apply Rr|].
      destruct (uacs w); simpl; unfold R; auto. }
    destruct i; try discriminate; unfold exec.
    - unfold funcall_op. apply (pres_bind R Rt); [apply HP; eauto with pres|]. intros f v1 _.
      apply (pres_bind R Rt); [apply HP; eauto with pres|]. intros g v2 _.
      destruct g; try apply HE. apply (pres_bind R Rt); [apply HP; apply c_host|].
      intros; apply Rr.
    - unfold apply_op. apply (pres_bind R Rt); [apply HP; eauto with pres|]. intros f v1 _.
      apply (pres_get R). apply (pres_bind R Rt); [apply HP; eauto with pres|]. intros g v2 _.
      destruct g; try apply Rr. apply (pres_bind R Rt); [apply HP; eauto with pres|]. intros l v3 _.
      destruct l; try apply Rr. apply (pres_bind R Rt); [apply HP; eauto with pres|]. intros [k r] v4 _.
      apply (pres_bind R Rt); [|intros; apply HE]. apply HP. go.
    - apply (pres_bind R Rt); [apply (pres_mod R); reflexivity|]. intros; apply Rr.
    - apply HRet.
    - apply (pres_get R). apply (pres_bind R Rt); [apply HP; eauto with pres|]. intros _ v1 _.
      apply (pres_get R). apply (pres_bind R Rt); [|intros; apply HRet]. apply HP. go.
  Qed.

  (** C24 *)
  Lemma make_type_fresh n ts v : life host (vm_init n) ts v -> zlen ts < 2 ^ 64 - 20 ->
    next_user_type v = 20 + zlen ts /\ NoDup ts /\ Forall (fun t => 20 <= t < next_user_type v) ts.
  Proof.
    intros H. unfold zlen.
    induction H as [|ts v base next i r v' H IH N E|ts v base next r v' t H IH E S|ts v v' H IH E]; intros L.
    - simpl. repeat split; constructor.
    - pose proof (exec_user_type base next i v N) as K. rewrite E in K. simpl in K. rewrite K. auto.
    - simpl length in *. destruct IH as [A [B C]]; [lia|].
      destruct (exec_make_type _ _ _ _ _ E) as [_ [S' [_ [U _]]]].
      rewrite S in S'. injection S' as ->. rewrite U. unfold usz. rewrite A, Z.mod_small by lia.
      split; [lia|]. split.
      + constructor; auto. intros Hin. rewrite Forall_forall in C. apply C in Hin. lia.
      + rewrite Forall_forall in *. intros t [<-|Ht]; [lia|]. apply C in Ht. lia.
    - rewrite E. auto.
  Qed.
End ExecCalls.

(** * The two stacks in step *)

Definition keeps_step (v v' : vm) : Prop := in_step v -> in_step v'.

Lemma skipn_in_step {A B} (a : list A) (b : list B) n : length a = length b ->
  length (skipn n a) = length (skipn n b).
Proof. intros. rewrite !skipn_length. lia. Qed.

Lemma step_simple : simple keeps_step.
Proof.
  unfold keeps_step, in_step. constructor; simpl; intros; auto; try lia.
  - pose proof (push_object_heap_only o v) as P. unfold heap_only in P.
    destruct P as [-> [-> _]]. auto.
  - revert H. unfold stack_pop, mbind, mget, mset, mret, merr. destruct (stack v) eqn:Es; simpl; [rewrite Es; auto|].
    destruct (ustack v) eqn:Eu; simpl in *; intros; [discriminate|lia].
  - unfold stack_pop_multiple, mbind, mget, mset, merr, zlen. rewrite H.
    destruct (_ <? _); simpl; auto. apply skipn_in_step. auto.
Qed.
#[export] Hint Resolve step_simple : pres.

Definition half_way (i : instr) : bool :=
  match i with IPushClosure _ _ _ _ | IVector _ | IBin BMakeVector _ _ => true | _ => false end.

Section InStep.
  Variable host : Z -> M unit.
  Hypothesis Hhost : forall c v, in_step v -> in_step (snd (host c v)).

  Ltac leaf := unfold keeps_step, in_step; simpl; auto;
    solve [auto | intros H; rewrite H; auto | intros ->; rewrite ?list_set_length; auto | intros <-; eauto using abs_set_length].
  Ltac go := repeat first [ solve [eauto with pres] |
    pres_step keeps_step (simple_refl _ step_simple) (simple_trans _ step_simple) leaf ].

  Lemma i_host c v : pres_at keeps_step (host c) v.
  Proof. intros H. apply Hhost. auto. Qed.
  Hint Resolve i_host : pres.
  Lemma i_enter b f r w : pres_at keeps_step (enter b r f) w.
  Proof. unfold enter, call_stack_push. go. Qed.
  Lemma i_return w : pres_at keeps_step return_op w.
  Proof.
    unfold pres_at, return_op, call_stack_pop, mbind, mget, mset, mret, merr.
    destruct (call_stack w) as [|f fs]; simpl; [unfold keeps_step; auto|].
    destruct (uacs w); simpl; unfold keeps_step; auto.
  Qed.
  Lemma i_global_set p k v : pres_at keeps_step (global_set p k) v.
  Proof. unfold global_set. go. Qed.
  Hint Resolve i_enter i_return i_global_set : pres.

  Lemma exec_in_step base next i v : half_way i = false ->
    pres_at keeps_step (exec host base next i) v.
  Proof.
    intros C. destruct i; try discriminate; unfold exec, funcall_op, apply_op, call_stack_push;
      try solve [go].
    destruct b; try discriminate; go; (apply s_bin; [apply step_simple|discriminate]).
  Qed.
End InStep.

Lemma mbind_ok {A B} (m : M A) (f : A -> M B) v b v' : mbind m f v = (Ok b, v') ->
  exists a v1, m v = (Ok a, v1) /\ f a v1 = (Ok b, v').
Proof. unfold mbind. destruct (m v) as [[a|e| |] v1]; try discriminate. eauto. Qed.

Lemma mbind_eq {A B} (m : M A) (f : A -> M B) v a v1 : m v = (Ok a, v1) -> mbind m f v = f a v1.
Proof. unfold mbind. intros ->. auto. Qed.

Ltac inv_bind H a v E := apply mbind_ok in H; destruct H as [a [v [E H]]].

Definition lens_kept (v v' : vm) : Prop :=
  length (stack v') = length (stack v) /\ length (ustack v') = length (ustack v).

Lemma lens_refl v : lens_kept v v.
Proof. unfold lens_kept; auto. Qed.
Lemma lens_trans u v w : lens_kept u v -> lens_kept v w -> lens_kept u w.
Proof. unfold lens_kept; intuition congruence. Qed.

Section Lens.
  Ltac leaf := unfold lens_kept; simpl; rewrite ?list_set_length; auto.
  Ltac go := repeat first [ solve [auto with lens] | pres_step lens_kept lens_refl lens_trans leaf ].

  Lemma l_push_object o v : pres_at lens_kept (push_object o) v.
  Proof.
    pose proof (push_object_heap_only o v) as P. unfold heap_only in P.
    destruct P as [A [B _]]. split; congruence.
  Qed.
  Hint Resolve l_push_object : lens.
  Lemma l_alloc o v : pres_at lens_kept (alloc o) v.
  Proof. unfold alloc. go. Qed.
  Lemma l_deref p v : pres_at lens_kept (deref p) v.
  Proof. unfold deref. go. Qed.
  Lemma l_write p o v : pres_at lens_kept (write p o) v.
  Proof. unfold write. go. Qed.
  Hint Resolve l_alloc l_deref l_write : lens.
  Lemma l_sset d o v : pres_at lens_kept (sset_raw d o) v.
  Proof.
    unfold sset_raw. go. erewrite raw_set_length; eauto.
  Qed.
  Lemma l_sget i v : pres_at lens_kept (sget i) v.
  Proof. unfold sget. go. Qed.
  Lemma l_vector_set p i q v : pres_at lens_kept (vector_set p i q) v.
  Proof. unfold vector_set. go. Qed.
  Hint Resolve l_sset l_sget l_vector_set : lens.
  Lemma l_vector_fill p is : forall k v, pres_at lens_kept (vector_fill p k is) v.
  Proof. induction is as [|i is IH]; intros k v; simpl; go. Qed.
  Lemma l_vector_initialized p v : pres_at lens_kept (vector_initialized p) v.
  Proof. unfold vector_initialized. go. Qed.
  Lemma l_ua_set p k q v : pres_at lens_kept (upvalue_array_set p k q) v.
  Proof. unfold upvalue_array_set. go. Qed.
End Lens.
#[export] Hint Resolve l_push_object l_alloc l_deref l_write l_sset l_sget l_vector_set l_vector_fill
  l_vector_initialized l_ua_set : lens.

Lemma pres_eq {A} R (m : M A) v r v' : pres_at R m v -> m v = (r, v') -> R v v'.
Proof. unfold pres_at. intros H E. rewrite E in H. auto. Qed.

Ltac lens E := let H := fresh "L" in
  match type of E with ?m ?v = (_, ?v') =>
    assert (lens_kept v v') as H by (eapply pres_eq; [|exact E]; auto with lens) end.

Lemma vector_op_in_step is v r v' : vector_op is v = (Ok r, v') -> in_step v -> in_step v'.
Proof.
  unfold vector_op. intros E H. inv_bind E p v1 E1. lens E1. inv_bind E a v2 E2. injection E2 as <- <-.
  inv_bind E b v3 E3. lens E3. inv_bind E c v4 E4. injection E4 as <- <-.
  inv_bind E d v5 E5. lens E5. lens E. unfold in_step, lens_kept in *. simpl in *. lia.
Qed.

Lemma make_vector_in_step x y v r v' : make_vector_op x y v = (Ok r, v') -> in_step v -> in_step v'.
Proof.
  unfold make_vector_op. intros E H. destruct x; try discriminate. destruct (n <? 0); [discriminate|].
  inv_bind E p v1 E1. lens E1. inv_bind E a v2 E2. injection E2 as <- <-.
  inv_bind E q v3 E3. lens E3. inv_bind E b v4 E4.
  assert (lens_kept v3 v4) as L4.
  { destruct (n =? 0); [injection E4 as <- <-; apply lens_refl|]. eapply pres_eq; [|exact E4]; auto with lens. }
  inv_bind E c v5 E5. injection E5 as <- <-. inv_bind E d v6 E6. lens E6. lens E.
  unfold in_step, lens_kept in *. simpl in *. lia.
Qed.

Lemma capture_in_step p cs : forall k r v r' v', capture_op p k cs r v = (Ok r', v') ->
  length (stack v) = (if r then length (ustack v) else S (length (ustack v))) ->
  length (stack v') = (if r' then length (ustack v') else S (length (ustack v'))).
Proof.
  induction cs as [|c cs IH]; intros k r v r' v' E H; simpl in E.
  - injection E as <- <-. auto.
  - unfold mget in E. unfold mbind in E at 1. cbn iota beta in E.
    set (idx := if c <? 0 then c else zlen (stack v) - 1 - c) in *.
    destruct ((0 <=? c) && _) eqn:Ec; [discriminate|].
    inv_bind E ur v1 E1. destruct ur as [u r1].
    inv_bind E a v2 E2. lens E2. apply IH in E; auto. clear IH.
    destruct L as [L1 L2]. rewrite L1, L2. clear E E2 L1 L2 a.
    destruct (idx =? zlen (ustack v)) eqn:Ei.
    + destruct (alloc (OUpvalue (UpStack idx)) v) as [[q|e| |] w] eqn:Ea; try discriminate.
      lens Ea. cbn in E1. injection E1 as <- <- <-. destruct L as [L1 L2]. simpl. rewrite L1, L2.
      destruct r; [|auto]. exfalso. unfold zlen in *. subst idx. destruct (c <? 0) eqn:Eneg; lia.
    + assert (lens_kept v v1 /\ r1 = r) as [[L1 L2] ->]; [|rewrite L1, L2; auto].
      destruct (idx <? 0).
      * destruct (uacs v) as [|a us]; [discriminate|]. inv_bind E1 q w Hq. injection Hq as Hq <-.
        inv_bind E1 u' w' Eu. lens Eu. cbn in E1. injection E1 as <- <- <-. auto.
      * inv_bind E1 q w Hq. injection Hq as Hq <-. inv_bind E1 u' w' Eu.
        assert (lens_kept v w') as L.
        { destruct q; [injection Eu as <- <-; apply lens_refl|].
          inv_bind Eu u2 w2 Eu2. lens Eu2. inv_bind Eu w3 w4 Eu3. injection Eu3 as <- <-.
          inv_bind Eu us w5 Eu4. injection Eu4 as Eu4 <-. inv_bind Eu x w6 Eu5. injection Eu5 as <- <-.
          injection Eu as <- <-. unfold lens_kept in *. simpl. apply raw_set_length in Eu4. rewrite Eu4. auto. }
        inv_bind E1 x w2 Ex. lens Ex. destruct x; try discriminate. injection E1 as <- <- <-.
        split; auto. eapply lens_trans; eauto.
Qed.

Lemma push_closure_in_step b c va t a cs v r v' : push_closure_op b c va t a cs v = (Ok r, v') ->
  in_step v -> in_step v'.
Proof.
  unfold push_closure_op. intros E H. inv_bind E v0 v1 E1. injection E1 as <- <-.
  destruct (fst c =? b)%nat; [|discriminate].
  inv_bind E x v2 E2. injection E2 as E2 <-. inv_bind E p v3 E3. lens E3.
  inv_bind E o v4 E4. lens E4. destruct o; try discriminate.
  inv_bind E y v5 E5. lens E5. inv_bind E z v6 E6. injection E6 as <- <-.
  inv_bind E r' v7 E7. apply capture_in_step in E7.
  2: { unfold in_step, lens_kept in *. simpl. lia. }
  inv_bind E w v8 E8. lens E. unfold in_step, lens_kept in *.
  destruct r'; injection E8 as <- <-; simpl in *; lia.
Qed.

(** C22 *)
Lemma exec_ok_in_step host base next i v c v' : (forall c v, in_step v -> in_step (snd (host c v))) ->
  exec host base next i v = (Ok c, v') -> in_step v -> in_step v'.
Proof.
  intros Hh E H. destruct (half_way i) eqn:Eh.
  2: { pose proof (exec_in_step host Hh base next i v Eh) as P. unfold pres_at in P. rewrite E in P.
       apply P. auto. }
  destruct i; try discriminate; unfold exec in E.
  - inv_bind E u v1 E1. injection E as <- <-. eapply push_closure_in_step; eauto.
  - destruct b; try discriminate. inv_bind E u v1 E1. injection E as <- <-.
    inv_bind E1 x v2 E2. lens E2. inv_bind E1 y v3 E3. lens E3.
    unfold bin_op in E1. inv_bind E1 z v4 E4. injection E4 as <- <-.
    apply make_vector_in_step in E1; auto. unfold in_step, lens_kept in *. lia.
  - inv_bind E u v1 E1. injection E as <- <-. eapply vector_op_in_step; eauto.
Qed.

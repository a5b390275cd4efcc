(** Host calls keep the stacks in step and the globals consistent; C code that makes proper calls. *)
From Coq Require Import ZArith List Lia Arith Bool ZifyBool ZifyNat.
Import ListNotations.
From Verif Require Import M_Base M_Heap M_Instr M_VM M_Host S_Heap S_VM S_Num S_Cyclic S_Globals S_Types S_Data S_Host P_Heap P_Sort P_VM P_Exec P_Num P_Valid P_Cyclic P_Globals P_Types P_Safe P_Safe2 P_Safe3 P_Safe4 P_Safe5 P_Safe6 P_Safe7 P_Host.
Open Scope Z_scope.

Record hosted (R : vm -> vm -> Prop) : Prop := {
  ho_simple : simple R;
  ho_gc : forall v v', garbage_collect v = Ok v' -> R v v';
  ho_calls : forall v c u, R v (set_calls v c u);
  ho_types : forall v t, R v (set_user_type v t);
  ho_global : forall p k v, pres_at R (global_set p k) v
}.

Section Hosted.
  Variable R : vm -> vm -> Prop.
  Hypothesis H : hosted R.
  Let S := ho_simple R H.
  Let R_refl := simple_refl R S.
  Let R_trans := simple_trans R S.

  Ltac leaf := first [ assumption
                     | apply (simple_push R S)
                     | apply (simple_objects R S); solve [auto using list_set_length]
                     | apply (simple_overwrite R S); solve [eauto using abs_set_length, raw_set_length]
                     | apply (ho_calls R H) | apply (ho_types R H) ].
  Ltac go := repeat first [ solve [auto with pres] | pres_step R R_refl R_trans leaf ].

  Lemma h_stack_get i v : pres_at R (stack_get i) v.
  Proof. unfold stack_get. go. Qed.
  Lemma h_stack_set o i v : pres_at R (stack_set o i) v.
  Proof. unfold stack_set. go. Qed.
  Lemma h_get_top v : pres_at R get_top v.
  Proof. unfold get_top. go. Qed.
  Lemma h_set_top o v : pres_at R (set_top o) v.
  Proof.
    unfold set_top. apply (pres_get R). destruct (stack v) as [|x s] eqn:E; [apply (pres_err R R_refl)|].
    apply (pres_set R). apply (simple_overwrite R S). rewrite E. reflexivity.
  Qed.
  Lemma h_pops n v : pres_at R (stack_pop_multiple n) v.
  Proof. apply (simple_pops R S). Qed.
  Lemma h_gc v : pres_at R host_garbageCollect v.
  Proof.
    unfold pres_at, host_garbageCollect. destruct (garbage_collect v) eqn:E; simpl; auto. apply (ho_gc R H). auto.
  Qed.
  Lemma h_global p k v : pres_at R (global_set p k) v.
  Proof. apply (ho_global R H). Qed.
  Lemma h_vector_get e o i v : pres_at R (vector_get_element e o i) v.
  Proof. unfold vector_get_element. go. Qed.
  Lemma h_vector_set e o i p v : pres_at R (vector_set_element e o i p) v.
  Proof. unfold vector_set_element. go. Qed.
  Lemma h_string_get s i v : pres_at R (string_get_element s i) v.
  Proof. unfold string_get_element. go. Qed.
  Lemma h_upvalue u i v : pres_at R (closure_upvalue u i) v.
  Proof. unfold closure_upvalue. go. Qed.
  Lemma h_pop_all v : pres_at R host_popAll v.
  Proof. unfold host_popAll. apply (pres_get R). apply h_pops. Qed.
  Hint Resolve h_pop_all h_stack_get h_stack_set h_get_top h_set_top h_pops h_gc h_global h_vector_get h_vector_set
    h_string_get h_upvalue : pres.
  Lemma h_closure_get u i v : pres_at R (closure_get u i) v.
  Proof. unfold closure_get. go. Qed.
  Lemma h_closure_set u i p v : pres_at R (closure_set u i p) v.
  Proof. unfold closure_set. go. Qed.
  Lemma h_or m o v : pres_at R m v -> pres_at R (or_garbage m o) v.
  Proof. unfold pres_at, or_garbage. destruct (m v) as [[a|e| |] v']; auto. destruct o; auto. Qed.
  Lemma h_swallow m v : pres_at R m v -> pres_at R (swallow m) v.
  Proof. unfold pres_at, swallow. destruct (m v) as [[a|e| |] v']; auto. Qed.
  Lemma h_set_cons l f v : pres_at R (set_cons l f) v.
  Proof. unfold set_cons. go. Qed.
  Hint Resolve h_closure_get h_closure_set h_or h_set_cons : pres.

  Lemma perform_pres c v : pres_at R (perform c) v.
  Proof.
    destruct c; unfold perform; cbn zeta;
      unfold host_push, host_copyFromTop, host_softReset, host_pushGlobal, host_setGlobal,
        host_linkCFunction, is_thing, host_isCons, host_isNil, host_isEmptyVector, host_isEmpty, host_setBoolean,
        host_copyBoolean, host_setInteger, host_copySignedInteger, host_copyUnsignedInteger, host_setFloat,
        host_copyFloat, host_pushString, host_copyString, host_pushSymbol, host_copySymbolName, host_copySymbolId,
        host_pushNewType, host_copyType, host_pushComposite, host_copyCompositeType, host_pushCompositeField,
        host_setCompositeField, host_pushCons, host_pushVector, host_copyClosureName, host_copyClosureArity,
        host_copyClosureIsVariadic, host_pushClosureBytecode, host_pushFirst, host_pushRest, host_setFirst,
        host_setRest, host_pushElement, host_setElement, host_length; go;
      try (apply h_swallow; go); try (apply h_or; go).
  Qed.

  Lemma run_client_pres fuel : forall p v, pres_at R (run_client fuel p) v.
  Proof.
    induction fuel as [|fuel IH]; intros p v; destruct p as [[e|]|c k]; simpl; try (apply (pres_ret R R_refl)); try apply (pres_err R R_refl);
      try (apply (pres_lift R R_refl)).
    unfold pres_at. pose proof (perform_pres c v) as P. unfold pres_at in P.
    destruct (perform c v) as [[a|e| |] v']; simpl in P |- *; auto; eapply R_trans; eauto; apply IH.
  Qed.
End Hosted.

Lemma hosted_step : hosted keeps_step.
Proof.
  constructor.
  - apply step_simple.
  - intros v v' E. apply gc_heap_only in E. unfold heap_only in E. unfold keeps_step, in_step. destruct E as [-> [-> _]]. auto.
  - intros v c u I. exact I.
  - intros v t I. exact I.
  - intros p k v. unfold pres_at, global_set, mbind, mget, mset, mret, mub, keeps_step, in_step.
    destruct (find_key _ _ _); [destruct (_ <? _)%nat|]; auto.
Qed.

Lemma hosted_fine : hosted fine.
Proof.
  constructor.
  - apply fine_simple.
  - intros v v' E. apply gc_heap_only in E. unfold heap_only in E. unfold fine, globals_ok.
    destruct E as [_ [_ [-> [-> [_ [_ [-> _]]]]]]]. auto.
  - intros v c u. unfold fine, globals_ok. simpl. auto.
  - intros v t. unfold fine, globals_ok. simpl. auto.
  - intros p k v. apply f_global_set.
Qed.

(** C53 *)
Lemma perform_steady c v : let v' := snd (perform c v) in
  (in_step v -> in_step v') /\ (globals_ok v -> globals_ok v') /\ current_bytecode v' = current_bytecode v.
Proof.
  split; [apply (perform_pres _ hosted_step)|]. apply (perform_pres _ hosted_fine).
Qed.

Lemma callbacks_steady fuel program : steady (callbacks fuel program).
Proof.
  intros c v. split; [apply (run_client_pres _ hosted_step)|]. apply (run_client_pres _ hosted_fine).
Qed.

Lemma perform_safe v c : typed v -> globals_ok v -> proper v c ->
  match perform c v with
  | (UB, _) => False
  | (NoFuel, _) => True
  | (_, v') => typed v'
  end.
Proof.
  intros T G P. pose proof (perform_typed v c T G P) as H. unfold ok_call, sem in H.
  destruct (perform c v) as [[a|e| |] v']; auto.
Qed.

Lemma careful_safe fuel : forall p v, typed v -> globals_ok v -> careful v p ->
  match run_client fuel p v with
  | (UB, _) => False
  | (NoFuel, _) => True
  | (_, v') => typed v'
  end.
Proof.
  induction fuel as [|fuel IH]; intros p v T G C; inversion C as [v0 e|v0 c k P HO HE]; subst; simpl.
  1,3: destruct e; simpl; auto.
  - exact I.
  - pose proof (perform_safe v c T G P) as H. pose proof (perform_steady c v) as [_ [G' _]]. cbn zeta in G'. specialize (G' G).
    destruct (perform c v) as [[a|e| |] v'] eqn:E; simpl in G'; auto.
    + apply IH; auto.
    + apply IH; auto.
Qed.

Lemma gentle_careful : forall p v, gentle p -> careful v p.
Proof.
  cofix CO. intros p v [e|c k HC HK].
  - constructor.
  - constructor.
    + destruct c; simpl in *; auto; contradiction.
    + intros a v' _. apply CO. apply HK.
    + intros e v' _. apply CO. apply HK.
Qed.

Lemma callbacks_polite fuel program : (forall c v, typed v -> globals_ok v -> careful v (program c)) ->
  polite (callbacks fuel program).
Proof. intros H c v T G. apply careful_safe; auto. Qed.

(** Byte code that calls such C code. *)
Lemma callbacks_run fuel program base c v c' v' :
  (forall c v, typed v -> globals_ok v -> careful v (program c)) -> sound base v ->
  careful_run (callbacks fuel program) base c v c' v' -> sound base v'.
Proof.
  intros H S R. eapply careful_sound; eauto; [apply callbacks_polite; auto|apply callbacks_steady].
Qed.

Lemma callbacks_gentle fuel program : (forall c, gentle (program c)) ->
  polite (callbacks fuel program) /\ steady (callbacks fuel program).
Proof.
  intros H. split; [|apply callbacks_steady]. apply callbacks_polite. intros c v _ _. apply gentle_careful. auto.
Qed.

(** Whole executions keep the machine well typed. *)
From Coq Require Import ZArith List Lia Arith Bool ZifyBool ZifyNat.
Import ListNotations.
From Verif Require Import M_Base M_Heap M_Instr M_VM S_Heap S_VM S_Num S_Cyclic S_Globals S_Types P_Heap P_Sort P_VM P_Exec P_Num P_Valid P_Cyclic P_Globals P_Types P_Safe P_Safe2 P_Safe3 P_Safe4 P_Safe5 P_Safe6.
Open Scope Z_scope.

(** * Globals and byte code *)

Definition fine (v v' : vm) : Prop := (globals_ok v -> globals_ok v') /\ current_bytecode v' = current_bytecode v.

Lemma fine_simple : simple fine.
Proof.
  assert (forall v v', globals v' = globals v -> globals_map v' = globals_map v -> current_bytecode v' = current_bytecode v -> fine v v') as H.
  { intros v v' A B C. unfold fine, globals_ok. rewrite A, B, C. auto. }
  constructor; simpl; intros.
  - apply H; auto.
  - unfold fine in *. intuition congruence.
  - pose proof (push_object_heap_only o v) as P. unfold heap_only in P. apply H; tauto.
  - apply H; auto.
  - apply H; auto.
  - apply H; auto.
  - apply H; auto.
  - unfold stack_pop, mbind, mget, mset, mret, merr. destruct (stack v); simpl; [apply H; auto|].
    destruct (ustack v); simpl; apply H; auto.
  - unfold stack_pop_multiple, mbind, mget, mset, merr. destruct (_ <? _); simpl; [apply H; auto|].
    destruct (_ <? _); simpl; apply H; auto.
Qed.
#[export] Hint Resolve fine_simple : pres.

Section Fine.
  Variable host : Z -> M unit.
  Hypothesis Hhost : steady host.

  Ltac leaf := unfold fine, globals_ok; simpl; auto.
  Ltac go := repeat first [ solve [eauto with pres] |
    pres_step fine (simple_refl _ fine_simple) (simple_trans _ fine_simple) leaf ].

  Lemma f_host c v : pres_at fine (host c) v.
  Proof. destruct (Hhost c v) as [_ H]. exact H. Qed.
  Hint Resolve f_host : pres.
  Lemma f_push_stack o v : pres_at fine (push_stack_only o) v.
  Proof. unfold push_stack_only. go. Qed.
  Lemma f_push_ustack o v : pres_at fine (push_ustack_only o) v.
  Proof. unfold push_ustack_only. go. Qed.
  Hint Resolve f_push_stack f_push_ustack : pres.
  Lemma f_vector_fill p is : forall k v, pres_at fine (vector_fill p k is) v.
  Proof. induction is as [|i is IH]; intros k v; simpl; go. Qed.
  Lemma f_vector_initialized p v : pres_at fine (vector_initialized p) v.
  Proof. unfold vector_initialized. go. Qed.
  Hint Resolve f_vector_fill f_vector_initialized : pres.
  Lemma f_vector is v : pres_at fine (vector_op is) v.
  Proof. unfold vector_op. go. Qed.
  Lemma f_make_vector x y v : pres_at fine (make_vector_op x y) v.
  Proof. unfold make_vector_op. go. Qed.
  Hint Resolve f_vector f_make_vector : pres.
  Lemma f_bin b x y v : pres_at fine (bin_op b x y) v.
  Proof.
    destruct b; try (apply s_bin; [apply fine_simple|discriminate]). unfold bin_op. go.
  Qed.
  Lemma f_ua_set p k q v : pres_at fine (upvalue_array_set p k q) v.
  Proof. unfold upvalue_array_set. go. Qed.
  Hint Resolve f_bin f_ua_set : pres.
  Lemma f_capture p cs : forall k r v, pres_at fine (capture_op p k cs r) v.
  Proof.
    induction cs as [|c cs IH]; intros k r v; simpl; [go|].
    apply (pres_get fine). destruct (_ && _); [go|].
    apply (pres_bind fine (simple_trans _ fine_simple)).
    2: { intros [u r'] v' _. go. }
    destruct (_ =? zlen _) eqn:E; [|go].
    pose proof (s_alloc fine fine_simple (OUpvalue (UpStack (if c <? 0 then c else zlen (stack v) - 1 - c))) v) as H.
    unfold pres_at in *. destruct (alloc _ v) as [[u|e| |] v'] eqn:Ea; simpl in *; auto.
  Qed.
  Hint Resolve f_capture : pres.
  Lemma f_push_closure b c va t a cs v : pres_at fine (push_closure_op b c va t a cs) v.
  Proof. unfold push_closure_op. go. Qed.
  Lemma f_enter b f r w : pres_at fine (enter b r f) w.
  Proof. unfold enter, call_stack_push. go. Qed.
  Lemma f_return w : pres_at fine return_op w.
  Proof.
    unfold pres_at, return_op, call_stack_pop, mbind, mget, mset, mret, merr.
    destruct (call_stack w) as [|f fs]; simpl; [apply (simple_refl _ fine_simple)|].
    destruct (uacs w); simpl; leaf.
  Qed.
  Lemma f_global_set p k v : pres_at fine (global_set p k) v.
  Proof.
    split.
    - intros G. destruct (global_set_spec v p k G) as [v' [E [G' _]]]. unfold pres_at. rewrite E. auto.
    - unfold global_set, mbind, mget, mset, mret, mub. destruct (find_key _ _ _); [destruct (_ <? _)%nat|]; reflexivity.
  Qed.
  Hint Resolve f_push_closure f_enter f_return f_global_set : pres.

  Lemma exec_fine base next i v : fine v (snd (exec host base next i v)).
  Proof.
    change (pres_at fine (exec host base next i) v).
    destruct i; unfold exec, funcall_op, apply_op, call_stack_push; go.
  Qed.
End Fine.

(** * Operands of decoded instructions *)

Notation octet := S_Types.byte.

Lemma byte_range code ip b ip' : Forall octet code -> M_Instr.byte code ip = Ok (b, ip') -> 0 <= b < 256.
Proof.
  intros F. unfold M_Instr.byte, array_get. destruct (_ <? _); [discriminate|]. destruct (nth_error _ _) eqn:N; [|discriminate].
  cbn [bind]. intros E. injection E as <- _. rewrite Forall_forall in F. apply F. eapply nth_error_In; eauto.
Qed.

Lemma read_be_range code n : Forall octet code -> forall ip acc x ip', read_be code ip n acc = Ok (x, ip') ->
  0 <= acc -> 0 <= x < (acc + 1) * 256 ^ Z.of_nat n.
Proof.
  intros F. induction n as [|n IH]; intros ip acc x ip' E Ha.
  - simpl in E. injection E as <- _. simpl. lia.
  - cbn [read_be] in E. destruct (M_Instr.byte code ip) as [[b ip1]|e| |] eqn:Eb; try discriminate. cbn [bind] in E.
    pose proof (byte_range _ _ _ _ F Eb) as B. apply IH in E; [|nia].
    rewrite Nat2Z.inj_succ, Z.pow_succ_r by lia. nia.
Qed.

Lemma operand_range code w ip x ip' : Forall octet code -> M_Instr.operand code w ip = Ok (x, ip') ->
  0 <= x < 2 ^ (8 * Z.of_nat (wbytes w)) /\ 0 <= x < 2 ^ 32.
Proof.
  intros F E. apply read_be_range in E; auto; [|lia]. destruct w; simpl in *; lia.
Qed.

Lemma read_bytes_spec code n : Forall octet code -> forall ip s ip', read_bytes code ip n = Ok (s, ip') ->
  length s = n /\ Forall octet s.
Proof.
  intros F. induction n as [|n IH]; intros ip s ip' E; cbn [read_bytes] in E.
  - injection E as <- _. auto.
  - destruct (M_Instr.byte code ip) as [[b ip1]|e| |] eqn:Eb; try discriminate. cbn [bind] in E.
    destruct (read_bytes code ip1 n) as [[bs ip2]|e| |] eqn:En; try discriminate. cbn [bind] in E. injection E as <- _.
    apply IH in En as [L B]. split; [simpl; lia|]. constructor; [exact (byte_range _ _ _ _ F Eb)|exact B].
Qed.

Lemma operands_length code w n : forall ip s ip', operands code w ip n = Ok (s, ip') -> length s = n.
Proof.
  induction n as [|n IH]; intros ip s ip' E; cbn [operands] in E.
  - injection E as <- _. auto.
  - destruct (M_Instr.operand code w ip) as [[b ip1]|e| |]; try discriminate. cbn [bind] in E.
    destruct (operands code w ip1 n) as [[bs ip2]|e| |] eqn:En; try discriminate. cbn [bind] in E. injection E as <- _.
    apply IH in En. simpl. lia.
Qed.

Lemma signed_range w x : 0 <= x < 2 ^ (8 * Z.of_nat (wbytes w)) -> - 2 ^ 31 <= signed w x < 2 ^ 31.
Proof.
  intros H. unfold signed. cbn zeta.
  assert (0 <= Z.of_nat (wbytes w) - 1 <= 3) as B by (destruct w; simpl; lia).
  replace (8 * Z.of_nat (wbytes w)) with (8 * (Z.of_nat (wbytes w) - 1) + 7 + 1) in * by lia.
  set (k := 8 * (Z.of_nat (wbytes w) - 1) + 7) in *.
  assert (2 ^ k <= 2 ^ 31) by (apply Z.pow_le_mono_r; lia).
  rewrite Z.pow_add_r, Z.pow_1_r in * by lia. rewrite Z.div_mul by lia.
  destruct (Z.leb_spec (2 ^ k) x); lia.
Qed.

Lemma decode_encodable code ip i ip' : Forall octet code -> decode code ip = Ok (i, ip') -> encodable i.
Proof.
  intros F. unfold decode.
  destruct (M_Instr.byte code ip) as [[op ip0]|e| |] eqn:Eo; try discriminate. cbn [bind].
  destruct (classify op) as [[c w]|]; [|discriminate].
  assert (forall n s, length s = Z.to_nat n -> 0 <= n < 2 ^ 32 -> zlen (A := Z) s < 2 ^ 32) as L by (intros; unfold zlen; lia).
  destruct c; cbn zeta; intros E;
  repeat match type of E with
  | bind (M_Instr.operand code ?w ?p) _ = _ => let B := fresh "B" in
      destruct (M_Instr.operand code w p) as [[? ?]|e| |] eqn:B; try discriminate; apply (operand_range _ _ _ _ _ F) in B; cbn [bind] in E
  | bind (M_Instr.byte code ?p) _ = _ => let B := fresh "B" in
      destruct (M_Instr.byte code p) as [[? ?]|e| |] eqn:B; try discriminate; apply (byte_range _ _ _ _ F) in B; cbn [bind] in E
  | bind (read_bytes code ?p ?n) _ = _ => let B := fresh "B" in
      destruct (read_bytes code p n) as [[? ?]|e| |] eqn:B; try discriminate; apply (read_bytes_spec _ _ F) in B as [? ?]; cbn [bind] in E
  | bind (operands code ?w ?p ?n) _ = _ => let B := fresh "B" in
      destruct (operands code w p n) as [[? ?]|e| |] eqn:B; try discriminate; apply operands_length in B; cbn [bind] in E
  | bind (read_be code ?p ?n ?a) _ = _ => destruct (read_be code p n a) as [[? ?]|e| |]; try discriminate; cbn [bind] in E
  end; try discriminate; try (injection E as <- _); simpl; auto; unfold operand in *; try lia.
  all: try solve [eauto | split; [lia|eauto] | split; [eauto|auto] | apply signed_range; tauto].
  all: try (split; [lia|]; try (split; auto); eapply L; eauto; rewrite ?map_length; lia).
  all: try (destruct b; destruct w; try (injection E as <- _); try exact I;
    repeat (match goal with E : bind (M_Instr.byte ?c ?p) _ = _ |- _ => destruct (M_Instr.byte c p) as [[? ?]|e| |]; try discriminate; cbn [bind] in E end);
    injection E as <- _; exact I).
  all: change (Z.pow_pos 2 32) with (2 ^ 32) in *; unfold zlen; rewrite ?map_length; try split; auto; lia.
Qed.

(** * Executions *)

Lemma step_fetch host base c v r v' : step host base c v = (r, v') -> match r with Ok _ => True | _ => False end ->
  exists i next, fetch v c i next /\ exec host base next i v = (r, v').
Proof.
  unfold step, mbind, mget, mlift, code_bytes. intros E Hr.
  destruct (nth_error (objects v) (fst (pc_code c))) as [o|] eqn:N; [|injection E as <- _; contradiction].
  destruct o; try (injection E as <- _; contradiction).
  destruct code as [s|]; [|injection E as <- _; contradiction].
  destruct (_ =? _)%nat eqn:Ei; [|injection E as <- _; contradiction].
  destruct (decode s (pc_ip c)) as [[i ip]|e| |] eqn:Ed; try (injection E as <- _; contradiction).
  apply Nat.eqb_eq in Ei. exists i, (PC (pc_code c) ip). split; auto. exists s, ip. subst. auto.
Qed.

Lemma fetch_fun v c i n i' n' : fetch v c i n -> fetch v c i' n' -> i = i' /\ n = n'.
Proof. intros [s [ip [A [B C]]]] [s' [ip' [A' [B' C']]]]. assert (s' = s) as -> by congruence. rewrite B in B'. injection B' as <- <-. split; congruence. Qed.

Lemma fetch_encodable base v c i next : sound base v -> live v (fst (pc_code c)) -> fetch v c i next -> encodable i.
Proof.
  intros [T _] L [s [ip [A [B _]]]]. pose proof (ty_objects _ _ T _ _ L (fun x => x) A) as W.
  apply (decode_encodable s (pc_ip c) i ip); auto.
Qed.

Lemma fetch_live base v c i next : sound base v -> fetch v c i next -> live v (fst (pc_code c)).
Proof.
  intros [T _] [s [ip [A _]]]. split; [apply nth_error_Some; congruence|]. intros H.
  apply (ty_released _ _ T _ _ H) in A. exact A.
Qed.

Lemma exec_ok_sound host base next i v c v' : sound base v -> polite host -> steady host -> encodable i ->
  fits_memory v i -> harmless v i -> exec host base next i v = (Ok c, v') -> sound base v'.
Proof.
  intros S P St En F H E. pose proof (sem_exec host base next i v S P En F H) as R. unfold sem in R. rewrite E in R.
  destruct S as [T [G [I C]]]. pose proof (exec_fine host St base next i v) as [G' C']. rewrite E in G', C'. simpl in G', C'.
  split; auto. split; auto. split; [|congruence].
  eapply exec_ok_in_step; eauto. intros k w. apply St.
Qed.

Lemma careful_sound host base c v c' v' : polite host -> steady host -> sound base v ->
  careful_run host base c v c' v' -> sound base v'.
Proof.
  intros P St S R. induction R as [|c v c1 v1 i next c2 v2 R IH Fe Fm Ha E]; auto. specialize (IH S).
  destruct (step_fetch _ _ _ _ _ _ E I) as [i' [next' [Fe' Ex]]]. destruct (fetch_fun _ _ _ _ _ _ Fe Fe') as [<- <-].
  eapply exec_ok_sound; eauto. eapply fetch_encodable; eauto. eapply fetch_live; eauto.
Qed.

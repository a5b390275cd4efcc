(** Proofs about calls from C. *)
From Coq Require Import ZArith List Lia Arith Bool ZifyBool ZifyNat.
Import ListNotations.
From Verif Require Import M_Base M_Heap M_Instr M_VM M_Host M_Reenter S_Heap S_VM S_Num S_Cyclic S_Globals S_Types S_Data S_Call S_Host S_Reenter
  P_Heap P_Sort P_VM P_Exec P_Num P_Valid P_Cyclic P_Globals P_Types P_Safe P_Safe2 P_Safe3 P_Safe4 P_Safe5 P_Safe7 P_Data P_Data2 P_Data3 P_Call P_Call2 P_Refine P_Host P_Host3 X_Machine.
Open Scope Z_scope.

(** * What a step does to the calls, with callbacks that may run code themselves *)

Definition valid_code (v : vm) (c : pc) : Prop := (fst (pc_code c) < length (objects v))%nat.

Lemma no_host_quiet' : quiet no_host.
Proof. intros c v. repeat split. Qed.

Lemma enter_moves base next f v c' v' : enter base next f v = (Ok (Continue c'), v') ->
  length (objects v') = length (objects v) /\ valid_code v' c'.
Proof.
  unfold enter. destruct f; try discriminate. intros E. apply mbind_ok in E as [u [w [E1 E]]].
  assert (w = v) as ->.
  { unfold deref, mbind, mget, mret in E1. destruct upvalues as [q|]; [|discriminate]. destruct (nth_error (objects v) q); [congruence|discriminate]. }
  destruct u; try discriminate. unfold mbind at 1 in E. unfold call_stack_push, mmod in E.
  match type of E with context [set_calls v ?fs ?us] => set (w := set_calls v fs us) in E end.
  apply mbind_ok in E as [x [w' [E2 E]]].
  unfold deref, mbind, mget, mret in E2. destruct bytecode as [q|]; [|discriminate]. destruct (nth_error (objects w) q) eqn:Eq; [|discriminate]. injection E2 as -> <-.
  destruct x; try discriminate. destruct code; try discriminate. injection E as <- <-. split; [reflexivity|].
  unfold valid_code. simpl. apply nth_error_Some. change (objects v) with (objects w). congruence.
Qed.

Definition kept_size (v v' : vm) : Prop := length (objects v') = length (objects v).

Lemma calls_size {A} (m : M A) w r w' : pres_at calls_kept m w -> m w = (r, w') ->
  call_stack w' = call_stack w /\ uacs w' = uacs w /\ length (objects w') = length (objects w).
Proof. intros H E. unfold pres_at in H. rewrite E in H. unfold calls_kept in H. simpl in H. tauto. Qed.

(** The size of the heap and where execution goes on. *)
Lemma exec_moves host base next i v c' v' : balanced_host host -> valid_code v next -> exec host base next i v = (Ok (Continue c'), v') ->
  length (objects v') = length (objects v) /\
  (valid_code v' c' \/ exists f r, call_stack v = f :: call_stack v' /\ uacs v = r :: uacs v' /\ c' = PC (fr_code f) (fr_ip f)).
Proof.
  intros B Hn E.
  assert (forall w, return_op w = (Ok (Continue c'), v') -> length (objects v') = length (objects w) /\
    exists f r, call_stack w = f :: call_stack v' /\ uacs w = r :: uacs v' /\ c' = PC (fr_code f) (fr_ip f)) as HR.
  { intros w. unfold return_op, call_stack_pop, mbind, mget, mset, mret, merr. destruct (call_stack w) as [|f fs] eqn:E1; [discriminate|].
    destruct (uacs w) as [|r us] eqn:E2; [discriminate|]. intros Er. injection Er as <- <-. split; [reflexivity|]. exists f, r. auto. }
  assert (forall c : Z, (host c ;;; mret (Continue next)) = (host c ;;; mret (Continue next))) as _ by auto.
  destruct i.
  all: try (rewrite (exec_host host no_host) in E by reflexivity).
  all: try (match type of E with exec _ _ _ ?i _ = _ =>
    assert (control i = false) as C by reflexivity; assert (i <> IMakeType) as N by discriminate;
    pose proof (calls_size _ _ _ _ (exec_calls_kept no_host no_host_quiet' base next i v C N) E) as [K1 [K2 K3]]; split; [exact K3|]; left;
    cbn [exec] in E end).
  all: try (apply mbind_ok in E as [? [? [? E]]]; injection E as <- <-; unfold valid_code in *; lia).
  all: try (injection E as <- <-; unfold valid_code in *; simpl in *; lia).
  - (* funcall *)
    cbn [exec] in E. unfold funcall_op in E. apply mbind_ok in E as [f [w [E1 E]]]. apply mbind_ok in E as [g [w2 [E2 E]]].
    apply calls_size in E1; [|eauto with pres]. apply calls_size in E2; [|eauto with pres]. destruct E1 as [A1 [A2 A3]], E2 as [B1 [B2 B3]].
    assert (enter base next g w2 = (Ok (Continue c'), v') \/ exists k, (host k ;;; mret (Continue next)) w2 = (Ok (Continue c'), v')) as [He|[k He]].
    { destruct g; auto. right. eauto. }
    + destruct (enter_moves _ _ _ _ _ _ He) as [H1 H2]. split; [lia|auto].
    + apply mbind_ok in He as [[] [w3 [E3 He]]]. injection He as <- <-. destruct (B _ _ _ E3) as [_ [_ H]]. split; [lia|]. left. unfold valid_code in *. lia.
  - (* apply *)
    cbn [exec] in E. unfold apply_op in E. apply mbind_ok in E as [f [w [E1 E]]]. apply mbind_ok in E as [x [w0 [E0 E]]]. injection E0 as <- <-. apply mbind_ok in E as [g [w2 [E2 E]]].
    apply calls_size in E1; [|eauto with pres]. apply calls_size in E2; [|eauto with pres].
    destruct g; try discriminate. apply mbind_ok in E as [rest [w3 [E3 E]]]. apply calls_size in E3; [|eauto with pres]. destruct rest; try discriminate.
    apply mbind_ok in E as [[k r] [w4 [E4 E]]]. apply calls_size in E4; [|eauto with pres].
    apply mbind_ok in E as [u [w5 [E5 E]]].
    assert (length (objects w5) = length (objects w4)) as D.
    { destruct variadic; [destruct (_ <? _); [discriminate|]|destruct (_ =? _); [injection E5 as _ <-; auto|discriminate]]. eapply calls_size; [|exact E5]. eauto with pres. }
    destruct (enter_moves _ _ _ _ _ _ E) as [H1 H2]. split; [|auto]. destruct E1 as [_ [_ ?]], E2 as [_ [_ ?]], E3 as [_ [_ ?]], E4 as [_ [_ ?]]. lia.
  - (* ccall *)
    cbn [exec] in E. apply mbind_ok in E as [p [w [E1 E]]]. apply mbind_ok in E as [o [w2 [E2 E]]].
    apply calls_size in E1; [|eauto with pres]. apply calls_size in E2; [|eauto with pres]. destruct o; try discriminate.
    apply mbind_ok in E as [[] [w3 [E3 E]]]. injection E as <- <-. destruct (B _ _ _ E3) as [_ [_ H]]. destruct E1 as [_ [_ ?]], E2 as [_ [_ ?]].
    split; [lia|]. left. unfold valid_code in *. lia.
  - (* brnz *)
    apply mbind_ok in E as [? [? [? E]]]. apply mbind_ok in E as [? [? [? E]]]. apply mbind_ok in E as [? [? [? E]]]. apply mbind_ok in E as [b [? [? E]]].
    injection E as <- <-. unfold valid_code in *. destruct b; simpl; lia.
  - (* return0 *) cbn [exec] in E. destruct (HR _ E) as [H1 H2]. auto.
  - (* return *)
    cbn [exec] in E. apply mbind_ok in E as [x [w0 [E0 E]]]. injection E0 as <- <-. apply mbind_ok in E as [u [w [E1 E]]]. apply mbind_ok in E as [x [w0 [E0 E]]]. injection E0 as <- <-.
    apply mbind_ok in E as [u2 [w2 [E2 E]]]. apply calls_size in E1; [|eauto with pres]. destruct E1 as [A1 [A2 A3]].
    assert (call_stack w2 = call_stack w /\ uacs w2 = uacs w /\ length (objects w2) = length (objects w)) as [B1 [B2 B3]].
    { destruct (stack w); [injection E2 as _ <-; auto|]. apply mbind_ok in E2 as [y [w3 [E3 E2]]]. apply calls_size in E3; [|eauto with pres]. apply calls_size in E2; [|eauto with pres]. destruct E3 as [? [? ?]], E2 as [? [? ?]]. repeat split; congruence. }
    destruct (HR w2 E) as [H0 [f [r [H1 [H2 H3]]]]]. split; [lia|]. right. exists f, r. repeat split; congruence.
  - (* halt *) discriminate E.
Qed.

Lemma exec_calls_balanced host base next i v c' v' : balanced_host host -> exec host base next i v = (Ok (Continue c'), v') -> calls_step base next v c' v'.
Proof.
  intros B E. destruct (calls_host i) eqn:C.
  2: { rewrite (exec_host host no_host) in E by auto. eapply exec_calls; eauto. apply no_host_quiet'. }
  destruct i; try discriminate C; cbn [exec] in E.
  - unfold funcall_op in E. apply mbind_ok in E as [f [w [E1 E]]]. apply mbind_ok in E as [g [w2 [E2 E]]].
    apply calls_size in E1; [|eauto with pres]. apply calls_size in E2; [|eauto with pres]. destruct E1 as [A1 [A2 _]], E2 as [B1 [B2 _]].
    assert (enter base next g w2 = (Ok (Continue c'), v') \/ exists k, (host k ;;; mret (Continue next)) w2 = (Ok (Continue c'), v')) as [He|[k He]].
    { destruct g; auto. right. eauto. }
    + right. left. destruct (enter_calls _ _ _ _ _ _ He) as [r [-> ->]]. exists r. split; congruence.
    + left. apply mbind_ok in He as [[] [w3 [E3 He]]]. injection He as _ <-. destruct (B _ _ _ E3) as [-> [-> _]]. split; congruence.
  - apply mbind_ok in E as [p [w [E1 E]]]. apply mbind_ok in E as [o [w2 [E2 E]]].
    apply calls_size in E1; [|eauto with pres]. apply calls_size in E2; [|eauto with pres]. destruct o; try discriminate.
    apply mbind_ok in E as [[] [w3 [E3 E]]]. injection E as _ <-. destruct (B _ _ _ E3) as [H1 [H2 _]]. destruct E1 as [? [? _]], E2 as [? [? _]]. left. split; congruence.
Qed.

(** * The function runs and returns *)

Lemma deref_same p v o w : deref p v = (Ok o, w) -> w = v.
Proof. unfold deref, mbind, mget, mret. destruct p as [q|]; [|discriminate]. destruct (nth_error (objects v) q); [congruence|discriminate]. Qed.

Lemma step_balanced host base c v c' v' : balanced_host host -> valid_code v c -> step host base c v = (Ok (Continue c'), v') ->
  length (objects v') = length (objects v) /\
  ((call_stack v' = call_stack v /\ uacs v' = uacs v /\ valid_code v' c') \/
   (exists f r, call_stack v' = f :: call_stack v /\ uacs v' = r :: uacs v /\ fst (fr_code f) = fst (pc_code c) /\ valid_code v' c') \/
   (exists f r, call_stack v = f :: call_stack v' /\ uacs v = r :: uacs v' /\ c' = PC (fr_code f) (fr_ip f))).
Proof.
  intros B Hc E. destruct (step_fetch _ _ _ _ _ _ E I) as [i [next [F Ex]]].
  assert (pc_code next = pc_code c) as En by (destruct F as [code [ip [_ [_ ->]]]]; reflexivity).
  assert (valid_code v next) as Hn by (unfold valid_code; rewrite En; auto).
  destruct (exec_moves _ _ _ _ _ _ _ B Hn Ex) as [L M]. split; auto.
  destruct (exec_calls_balanced _ _ _ _ _ _ _ B Ex) as [[K1 K2]|[[r [K1 K2]]|K]]; auto.
  - left. split; auto. split; auto. destruct M as [M|[f [r [M _]]]]; auto. exfalso. rewrite K1 in M. apply (f_equal (@length _)) in M. simpl in M. lia.
  - right. left. eexists. exists r. split; [exact K1|]. split; [exact K2|]. simpl. rewrite En. split; auto.
    destruct M as [M|[f' [r' [M _]]]]; auto. exfalso. rewrite K1 in M. apply (f_equal (@length _)) in M. simpl in M. lia.
Qed.

(** Running: above the frame of the shim only frames that return into the heap. *)
Record running (n : nat) (fs : list frame) (us : list uaref) (c : pc) (v : vm) : Prop := {
  rn_size : length (objects v) = n;
  rn_code : valid_code v c;
  rn_calls : exists a b f r, call_stack v = a ++ f :: fs /\ uacs v = b ++ r :: us /\ length a = length b /\
    fst (fr_code f) = n /\ Forall (fun g => (fst (fr_code g) < n)%nat) a
}.

Lemma running_step host base n fs us c v c' v' : balanced_host host -> running n fs us c v -> step host base c v = (Ok (Continue c'), v') ->
  running n fs us c' v' \/ (call_stack v' = fs /\ uacs v' = us /\ fst (pc_code c') = n).
Proof.
  intros B [S1 S2 [a [b [f [r [A1 [A2 [A3 [A4 A5]]]]]]]]] E. destruct (step_balanced _ _ _ _ _ _ B S2 E) as [L [[K1 [K2 K3]]|[[g [q [K1 [K2 [K3 K4]]]]]|[g [q [K1 [K2 K3]]]]]]].
  - left. split; [lia|auto|]. exists a, b, f, r. rewrite K1, K2. auto.
  - left. split; [lia|auto|]. exists (g :: a), (q :: b), f, r. rewrite K1, K2, A1, A2. simpl. repeat split; auto. constructor; auto. rewrite K3. unfold valid_code in S2. lia.
  - rewrite A1 in K1. rewrite A2 in K2. destruct a as [|x a], b as [|y b]; try discriminate.
    + simpl in K1, K2. injection K1 as <- <-. injection K2 as <- <-. right. subst c'. auto.
    + simpl in K1, K2. injection K1 as <- K1. injection K2 as <- K2. left. inversion A5; subst. split; [lia| |].
      * unfold valid_code. simpl. lia.
      * exists a, b, f, r. simpl in A3. rewrite <- K1, <- K2. auto.
Qed.

Lemma running_above n fs us c v : running n fs us c v -> (length fs < length (call_stack v))%nat.
Proof. intros [_ _ [a [b [f [r [A1 _]]]]]]. rewrite A1, app_length. simpl. lia. Qed.

Lemma exec_stop host base next i v v' : exec host base next i v = (Ok Stop, v') -> call_stack v <> [] -> uacs v <> [] -> i = IHalt /\ v' = v.
Proof.
  assert (forall w, call_stack w <> [] -> uacs w <> [] -> return_op w <> (Ok Stop, v')) as HR.
  { intros w Hw Hu. unfold return_op, call_stack_pop, mbind, mget, mset, mret, merr. destruct (call_stack w); [contradiction|]. destruct (uacs w); [contradiction|discriminate]. }
  assert (forall b r f w, enter b r f w <> (Ok Stop, v')) as HE.
  { intros b r f w. unfold enter. destruct f; try discriminate. intros E. apply mbind_ok in E as [? [? [? E]]]. destruct x; try discriminate.
    apply mbind_ok in E as [? [? [? E]]]. apply mbind_ok in E as [y [? [? E]]]. destruct y; try discriminate. destruct code; try discriminate. destruct bytecode; discriminate. }
  intros E H Hu. destruct i; cbn [exec] in E; try discriminate; try (apply mbind_ok in E as [? [? [? E]]]; discriminate).
  - unfold funcall_op in E. apply mbind_ok in E as [f [w [E1 E]]]. apply mbind_ok in E as [g [w2 [E2 E]]].
    destruct g; try (exfalso; eapply HE; exact E). apply mbind_ok in E as [? [? [? E]]]. discriminate.
  - unfold apply_op in E. apply mbind_ok in E as [? [? [? E]]]. apply mbind_ok in E as [? [? [? E]]]. apply mbind_ok in E as [g [? [? E]]].
    destruct g; try discriminate. apply mbind_ok in E as [q [? [? E]]]. destruct q; try discriminate. apply mbind_ok in E as [[? ?] [? [? E]]]. apply mbind_ok in E as [? [? [? E]]].
    exfalso. eapply HE. exact E.
  - apply mbind_ok in E as [? [? [? E]]]. apply mbind_ok in E as [o [? [? E]]]. destruct o; try discriminate. apply mbind_ok in E as [? [? [? E]]]. discriminate.
  - apply mbind_ok in E as [? [? [? E]]]. apply mbind_ok in E as [? [? [? E]]]. apply mbind_ok in E as [? [? [? E]]]. apply mbind_ok in E as [? [? [? E]]]. discriminate.
  - exfalso. eapply HR; eauto.
  - exfalso. apply mbind_ok in E as [x [w0 [E0 E]]]. injection E0 as <- <-. apply mbind_ok in E as [u [w [E1 E]]]. apply mbind_ok in E as [x [w0 [E0 E]]]. injection E0 as <- <-.
    apply mbind_ok in E as [u2 [w2 [E2 E]]]. apply calls_size in E1; [|eauto with pres]. destruct E1 as [A1 [A2 _]].
    assert (call_stack w2 = call_stack w /\ uacs w2 = uacs w) as [B1 B2].
    { destruct (stack w); [injection E2 as _ <-; auto|].
      apply mbind_ok in E2 as [y [w3 [E3 E2]]]. apply calls_size in E3; [|eauto with pres]. apply calls_size in E2; [|eauto with pres]. destruct E3 as [? [? _]], E2 as [? [? _]]. split; congruence. }
    eapply HR; [| |exact E]; congruence.
  - injection E as <-. auto.
Qed.

Lemma run_shim_ends host fuel : balanced_host host -> forall n fs us base c v v', running n fs us c v -> run_shim host fuel n base c v = (Ok tt, v') ->
  exists l c2 v2, steps host base c v l c2 v2 /\ Forall (fun w => (length fs < length (call_stack w))%nat) (v :: l) /\
    ((exists c3, step host base c2 v2 = (Ok (Continue c3), v') /\ call_stack v' = fs /\ uacs v' = us) \/
     (exists next, fetch v2 c2 IHalt next /\ v' = v2)).
Proof.
  intros B. induction fuel as [|fuel IH]; intros n fs us base c v v' R E; [discriminate|]. cbn [run_shim] in E.
  destruct (Nat.eqb_spec (fst (pc_code c)) n) as [Ec|Ec]; [exfalso; destruct R as [? H _]; unfold valid_code in H; lia|].
  apply mbind_ok in E as [[c1|] [v1 [E1 E]]].
  - destruct (running_step _ _ _ _ _ _ _ _ _ B R E1) as [R1|[K1 [K2 K3]]].
    + destruct (IH _ _ _ _ _ _ _ R1 E) as [l [c2 [v2 [S1 [F K]]]]]. exists (v1 :: l), c2, v2. split; [econstructor; eauto|]. split; auto.
      constructor; auto. apply running_above in R. auto.
    + assert (v' = v1) as ->. { destruct fuel; [discriminate|]. cbn [run_shim] in E. rewrite K3, Nat.eqb_refl in E. injection E as <-. reflexivity. }
      exists [], c, v. split; [constructor|]. split; [constructor; auto; eapply running_above; eauto|]. left. eauto.
  - injection E as <-. exists [], c, v. split; [constructor|]. split; [constructor; auto; eapply running_above; eauto|]. right.
    destruct (step_fetch _ _ _ _ _ _ E1 I) as [i [next [F Ex]]]. apply exec_stop in Ex as [-> ->]; eauto.
    + intros K. apply running_above in R. rewrite K in R. simpl in R. lia.
    + destruct R as [_ _ [a [b [f [r [_ [-> _]]]]]]]. destruct b; discriminate.
Qed.

Lemma run_shim_reaches host n fs us base c v l c2 v2 : balanced_host host -> running n fs us c v -> steps host base c v l c2 v2 ->
  Forall (fun w => (length fs < length (call_stack w))%nat) (v :: l) ->
  forall c3 v3, step host base c2 v2 = (Ok (Continue c3), v3) -> call_stack v3 = fs ->
  exists k, forall fuel, (k <= fuel)%nat -> run_shim host fuel n base c v = (Ok tt, v3).
Proof.
  intros B R H. revert R. induction H as [c v|c v c1 v1 l c2 v2 E H IH]; intros R F c3 v3 E3 K3.
  - exists 2%nat. intros fuel Hf. destruct fuel as [|[|fuel]]; try lia. cbn [run_shim].
    destruct (Nat.eqb_spec (fst (pc_code c)) n) as [Ec|_]; [exfalso; destruct R as [? H _]; unfold valid_code in H; lia|].
    unfold mbind. rewrite E3. destruct (running_step _ _ _ _ _ _ _ _ _ B R E3) as [R1|[_ [_ ->]]]; [apply running_above in R1; rewrite K3 in R1; lia|].
    rewrite Nat.eqb_refl. reflexivity.
  - inversion F as [|? ? _ F1]; subst. destruct (running_step _ _ _ _ _ _ _ _ _ B R E) as [R1|[K1 _]]; [|exfalso; inversion F1 as [|? ? G _]; rewrite K1 in G; lia].
    destruct (IH R1 F1 c3 v3 E3 eq_refl) as [k Hk]. exists (S k). intros fuel Hf. destruct fuel as [|fuel]; [lia|]. cbn [run_shim].
    destruct (Nat.eqb_spec (fst (pc_code c)) n) as [Ec|_]; [exfalso; destruct R as [? H' _]; unfold valid_code in H'; lia|].
    unfold mbind. rewrite E. apply Hk. lia.
Qed.

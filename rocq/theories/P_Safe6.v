(** Every instruction keeps the machine well typed. *)
From Coq Require Import ZArith List Lia Arith Bool ZifyBool ZifyNat.
Import ListNotations.
From Verif Require Import M_Base M_Heap M_Instr M_VM S_Heap S_VM S_Num S_Cyclic S_Globals S_Types P_Heap P_Sort P_VM P_Exec P_Num P_Valid P_Cyclic P_Globals P_Types P_Safe P_Safe2 P_Safe3 P_Safe4 P_Safe5.
Open Scope Z_scope.

Lemma string_bytes_typed v p offset len : typed v -> val v (OString p offset len) -> len - offset <> 0 ->
  exists b r, string_bytes (objects v) p = Ok b /\ slice b offset (len - offset) = Ok r.
Proof.
  intros T [_ W] H. destruct p as [p|]; [|simpl in W; lia]. destruct W as [A [B P]].
  destruct (object_points v _ p T P) as [x [_ [Ex [K _]]]]. destruct x; simpl in K; try contradiction.
  unfold string_bytes. rewrite Ex. destruct s as [b|]; simpl in K; [|lia].
  exists b. unfold slice. destruct (_ && _) eqn:C; [eauto|]. unfold zlen in *. lia.
Qed.

Lemma equal_typed v x y : typed v -> val v x -> val v y -> equal_op (objects v) x y <> UB.
Proof.
  intros T Vx Vy. unfold equal_op. destruct x; try discriminate. destruct y; try discriminate.
  unfold string_equal. destruct ((_ =? 0) && _) eqn:C1; [discriminate|]. destruct ((_ =? 0) || _) eqn:C2; [discriminate|].
  destruct (string_bytes_typed v _ _ _ T Vx) as [b [r [-> E1]]]; [lia|].
  destruct (string_bytes_typed v _ _ _ T Vy) as [b' [r' [-> E2]]]; [lia|]. cbn [bind].
  destruct (len - offset =? len0 - offset0); [|discriminate]. rewrite E1, E2. discriminate.
Qed.

Lemma arith_typed v (a : arith) b x y : val v x -> val v y ->
  match a with AMul => b = BMul | AAdd => b = BAdd | ASub => b = BSub | ADiv => b = BDiv end ->
  match arith_op a x y with
  | Ok r => val v r
  | UB => exists m n, whole x m /\ whole y n /\
      match b with BDiv => n = 0 \/ ~ machine_integer (Z.quot m n) | _ => exists r, whole_op b m n = Some r /\ ~ machine_integer r end
  | _ => True
  end.
Proof.
  intros Vx Vy Hb.
  assert (forall f, val v (OFloat f)) as Vf by (intros; apply val_simple; exact I).
  assert (forall f, val v (OBool f)) as Vb by (intros; apply val_simple; exact I).
  assert (forall m n, whole x m -> whole y n -> match r <- int_op a m n;; int_res r with
    | Ok r => val v r
    | UB => exists m n, whole x m /\ whole y n /\
      match b with BDiv => n = 0 \/ ~ machine_integer (Z.quot m n) | _ => exists r, whole_op b m n = Some r /\ ~ machine_integer r end
    | _ => True end) as H.
  { intros m n Wm Wn. destruct a; subst b; cbn [int_op bind].
    2: destruct (Z.eqb_spec n 0); [exists m, n; auto|]; cbn [bind].
    all: unfold int_res; destruct (fits _) eqn:F; [apply val_int; apply fits_spec; auto|].
    all: exists m, n; split; [auto|]; split; [auto|].
    2: right; intros M; apply fits_spec in M; congruence.
    all: eexists; split; [reflexivity|]; intros M; apply fits_spec in M; congruence. }
  unfold arith_op. destruct x; auto; destruct y; auto; try (apply H; constructor).
  destruct (int_op a b0 b1) eqn:E; cbn [bind]; auto.
  destruct a; try discriminate. unfold int_op in E. destruct (Z.eqb_spec b1 0); [|discriminate]. subst b.
  exists b0, b1. repeat split; auto; constructor.
Qed.

Lemma less_val v x y r : less_op x y = Ok r -> val v r.
Proof. destruct x; try discriminate; destruct y; try discriminate; intros H; injection H as <-; apply val_simple; exact I. Qed.
Lemma greater_val v x y r : greater_op x y = Ok r -> val v r.
Proof. destruct x; try discriminate; destruct y; try discriminate; intros H; injection H as <-; apply val_simple; exact I. Qed.
Lemma less_ub x y : less_op x y <> UB.
Proof. destruct x; try discriminate; destruct y; discriminate. Qed.
Lemma greater_ub x y : greater_op x y <> UB.
Proof. destruct x; try discriminate; destruct y; discriminate. Qed.

Definition outcome (i : instr) (v' : vm) : Prop := unfinished i = false -> typed v'.

Lemma sem_go v (m : M unit) next (E : vm -> Prop) U : sem v m (fun _ v' => typed v') E U ->
  sem v (m ;;; mret (Continue next)) (fun _ v' => typed v') E U.
Proof. intros H. apply sem_bind. eapply sem_weaken; [exact H|]. intros a v' T. apply sem_ret. auto. Qed.

Lemma sem_lift_push v (r : res object) (E : vm -> Prop) (U : Prop) : typed v -> E v -> (forall o, r = Ok o -> val v o) ->
  (r = UB -> U) -> sem v (o <~ mlift r ;; stack_push o) (fun _ v' => typed v') E U.
Proof.
  intros T He Ho Hu. apply sem_bind. apply sem_lift; auto. intros o Eo. apply sem_push; auto.
Qed.

Lemma sem_then_push v (m : M object) (E : vm -> Prop) (U : Prop) : sem v m (fun r v' => typed v' /\ val v' r) E U ->
  sem v (o <~ m ;; stack_push o) (fun _ v' => typed v') E U.
Proof. intros H. apply sem_bind. eapply sem_weaken; [exact H|]. intros o v' [T V]. apply sem_push; auto. Qed.

Lemma sem_same_push v (m : M object) (E : vm -> Prop) (U : Prop) : typed v -> sem v m (fun r v' => v' = v /\ val v r) E U ->
  sem v (o <~ m ;; stack_push o) (fun _ v' => typed v') E U.
Proof. intros T H. apply sem_then_push. eapply sem_weaken; [exact H|]. intros r v' [-> V]. auto. Qed.

Lemma sem_un v u i x base next : typed v -> at_pos v i x -> val v x ->
  sem v (un_op u x) (fun _ v' => typed v') typed (undefined_case base next v (IUn u i)).
Proof.
  intros T P V. unfold un_op. apply sem_get. destruct u.
  - apply sem_lift_push; auto; [intros; eapply not_typed; eauto|]. intros H. destruct (not_ub _ H).
  - apply sem_same_push; auto. apply sem_car; auto.
  - apply sem_same_push; auto. apply sem_cdr; auto.
  - destruct (nullp_typed v x V T) as [r [-> Vr]]. apply sem_lift_push; auto; [|discriminate]. intros o E. injection E as <-. auto.
  - apply sem_same_push; auto. apply sem_typeof; auto.
  - apply sem_same_push; auto. apply sem_composite; auto.
  - apply sem_same_push; auto. apply sem_composite; auto.
  - destruct (length_typed v x T V) as [[r [-> Vr]]|[e ->]]; apply sem_lift_push; auto; try discriminate.
    intros o E. injection E as <-. auto.
  - pose proof (symbol_string_typed v x T V) as H. apply sem_lift_push; auto.
    + intros o E. rewrite E in H. auto.
    + intros E. rewrite E in H. destruct H as [id ->]. simpl. eauto.
  - apply sem_then_push. destruct x; try (apply sem_err; auto; fail). apply sem_ret. split; auto.
    destruct V as [_ W]. apply val_int. apply W.
  - apply sem_then_push. apply sem_make_string; auto. intros H. simpl. eauto.
Qed.

Lemma sem_bin v b i j x y base next : typed v -> at_pos v i x -> at_pos v j y -> In x (stack v) -> In y (stack v) ->
  fits_memory v (IBin b i j) -> harmless v (IBin b i j) ->
  sem v (bin_op b x y) (fun _ v' => typed v') (outcome (IBin b i j)) (undefined_case base next v (IBin b i j)).
Proof.
  intros T Px Py Hx Hy Hf Hh. pose proof (val_in v x T Hx) as Vx. pose proof (val_in v y T Hy) as Vy.
  assert (forall m, sem v m (fun _ v' => typed v') typed (undefined_case base next v (IBin b i j)) ->
    sem v m (fun (_ : unit) v' => typed v') (outcome (IBin b i j)) (undefined_case base next v (IBin b i j))) as HE.
  { intros m H. eapply sem_weaken_e; [exact H|]. intros v' T' _. auto. }
  unfold bin_op. apply sem_get. destruct b; match goal with |- sem _ (make_vector_op _ _) _ _ _ => idtac | _ => apply HE end.
  - pose proof (arith_typed v AMul BMul x y Vx Vy eq_refl) as H. apply sem_lift_push; auto; intros; rewrite H0 in H; auto.
    destruct H as [m [n [Wm [Wn [r [H H']]]]]]. simpl. eauto 12.
  - pose proof (arith_typed v ADiv BDiv x y Vx Vy eq_refl) as H. apply sem_lift_push; auto; intros; rewrite H0 in H; auto.
    destruct H as [m [n [Wm [Wn H]]]]. simpl. eauto 12.
  - pose proof (arith_typed v AAdd BAdd x y Vx Vy eq_refl) as H. apply sem_lift_push; auto; intros; rewrite H0 in H; auto.
    destruct H as [m [n [Wm [Wn [r [H H']]]]]]. simpl. eauto 12.
  - pose proof (arith_typed v ASub BSub x y Vx Vy eq_refl) as H. apply sem_lift_push; auto; intros; rewrite H0 in H; auto.
    destruct H as [m [n [Wm [Wn [r [H H']]]]]]. simpl. eauto 12.
  - apply sem_bind. apply sem_lift; auto; [|intros H; destruct (equal_typed v x y T Vx Vy H)].
    intros r _. apply sem_push; auto. apply val_simple; exact I.
  - apply sem_lift_push; auto; [intros; eapply greater_val; eauto|intros H; destruct (greater_ub _ _ H)].
  - apply sem_lift_push; auto; [intros; eapply less_val; eauto|intros H; destruct (less_ub _ _ H)].
  - apply sem_cons; auto.
  - apply sem_make_vector; auto. intros v' H; discriminate.
  - apply sem_same_push; auto. apply sem_get_elt; auto. intros n -> B. simpl. eauto.
  - apply sem_then_push. apply sem_set_car; auto. intros p offset cs len ini -> En Hl. simpl. eauto 10.
  - apply sem_then_push. apply sem_set_cdr; auto. intros p offset cs len ini -> En. eapply Hh; eauto.
  - apply sem_then_push. apply sem_set_composite; auto.
  - apply sem_then_push. apply sem_set_composite; auto.
  - apply sem_then_push. apply sem_concat; auto. intros z [-> | ->] H; simpl; eauto.
Qed.

Lemma sem_tern v t i j k x y z base next : typed v -> at_pos v i x -> at_pos v j y -> at_pos v k z ->
  In x (stack v) -> In y (stack v) -> In z (stack v) ->
  sem v (tern_op t x y z) (fun _ v' => typed v') typed (undefined_case base next v (ITern t i j k)).
Proof.
  intros T Px Py Pz Hx Hy Hz. destruct t; cbn [tern_op].
  - apply sem_then_push. apply sem_set_elt; auto. intros n -> B. simpl. eauto.
  - apply sem_make_instance; auto.
  - pose proof (substring_typed v x y z T (val_in _ _ T Hx) (val_in _ _ T Hy) (val_in _ _ T Hz)) as H.
    apply sem_lift_push; auto; intros; rewrite H0 in H; auto.
Qed.

Lemma sem_return v (E : vm -> Prop) U : typed v -> sem v return_op (fun _ v' => typed v') E U.
Proof.
  intros T. unfold sem, return_op, call_stack_pop, mbind, mget, mset, mret, merr.
  destruct (call_stack v) as [|f fs] eqn:Ec; [exact T|].
  assert (forall u, typed (set_calls v fs u)) as Ts.
  { intros u. apply typed_set_calls; auto. intros a c p Hp. eapply (ty_frames _ _ T). rewrite Ec. right; eauto. }
  destruct (uacs v) as [|u us]; apply Ts.
Qed.

Lemma sem_return_n v n (U : Prop) : typed v -> sem v (exec (fun _ => mret tt) 0%nat (PC (0%nat, 0%nat) 0) (IReturn n)) (fun _ v' => typed v') typed U.
Proof.
  intros T. cbn [exec]. apply sem_get. cbn zeta.
  assert (forall v', same_heap v v' -> val v' (match stack v with o :: _ => o | [] => ONone end)) as V.
  { intros v' H. destruct (stack v) as [|o s] eqn:Es; [apply val_simple; exact I|].
    destruct (val_in v o T) as [F W]; [rewrite Es; left; auto|]. split; auto. eapply same_well_typed; eauto. }
  apply sem_bind. eapply sem_weaken; [apply sem_pop_multiple; auto|].
  intros _ v1 [T1 [S1 [H1 _]]]. apply sem_get. apply sem_bind. destruct (stack v1) eqn:E1; [apply sem_ret; apply sem_return; auto|].
  apply sem_bind. eapply sem_weaken; [apply sem_pop_multiple; auto|]. intros _ v2 [T2 [_ [H2 _]]].
  assert (same_heap v v2) as H02 by (destruct H1, H2; split; congruence).
  eapply sem_weaken; [apply sem_push; auto|]. intros a v3 T3. apply sem_return; auto.
Qed.

Lemma sem_exec host base next i v : sound base v -> polite host -> encodable i -> fits_memory v i -> harmless v i ->
  sem v (exec host base next i) (fun _ v' => typed v') (outcome i) (undefined_case base next v i).
Proof.
  intros [T [G [S Cb]]] Hh He Hf Hs.
  assert (forall m, sem v m (fun _ v' => typed v') typed (undefined_case base next v i) ->
    sem v m (fun (_ : unit) v' => typed v') (outcome i) (undefined_case base next v i)) as HE.
  { intros m H. eapply sem_weaken_e; [exact H|]. intros v' T' _. auto. }
  assert (forall m, sem v m (fun _ v' => typed v') typed (undefined_case base next v i) ->
    sem v m (fun (_ : ctl) v' => typed v') (outcome i) (undefined_case base next v i)) as HC.
  { intros m H. eapply sem_weaken_e; [exact H|]. intros v' T' _. auto. }
  assert (outcome i v) as Ho by (intros _; auto).
  destruct i; unfold exec; cbn zeta; simpl in He; try (apply sem_go); try (apply sem_ret; exact T).
  - (* push string *) unfold sem, push_string_op. destruct He as [L B].
    assert (sem v (new_string s) (fun r v' => typed v' /\ val v' r) typed False) as H.
    { apply sem_new_string; auto. unfold max_size. lia. }
    unfold sem in H. destruct (new_string s v) as [[o|e| |] v'].
    + destruct H as [T1 V]. apply (sem_push v' o (fun _ => True) True); auto.
    + apply (sem_push v' ONone (fun _ => True) True); auto. apply val_simple; exact I.
    + contradiction.
    + exact I.
  - apply sem_push; auto. apply val_simple; exact I.
  - apply sem_push; auto. apply val_int. unfold machine_integer. lia.
  - apply sem_push; auto. apply val_simple; exact I.
  - apply sem_bind. apply sem_sget; auto. intros o P H. apply sem_push; auto. apply val_in; auto.
  - (* push symbol *) destruct He as [Hi [L B]]. apply HE. apply sem_bind. eapply sem_weaken.
    { apply sem_alloc; simpl; auto.
      - split; [unfold max_size; lia|]. intros b Eb. injection Eb as <-. auto.
      - intros p R. inversion R. }
    intros r v1 [q [-> [T1 N1]]]. apply sem_push; auto. split; [exact I|]. split.
    + unfold machine_integer, operand in *. lia.
    + intros z Ez. injection Ez as <-. apply (new_points _ _ _ _ _ N1). intros n. apply stored_text. unfold zlen. lia.
  - apply sem_push; auto. split; [exact I|]. split; [unfold machine_integer, operand in *; lia|]. intros z; discriminate.
  - apply HE. apply sem_push_upvalue; auto.
  - apply HE. destruct He as [Ha Hz]. apply sem_push_closure; auto. unfold operand in Ha. lia.
  - (* push global *)
    apply sem_bind. unfold sem. rewrite global_get_lookup by auto. destruct (lookup v key) as [p|] eqn:El; auto.
    apply sem_same_push; auto. apply sem_pointee; auto. intros q ->. apply T.
    unfold lookup in El. destruct (find_key _ _ _); [|discriminate]. eapply nth_error_In; eauto.
  - apply HE. eapply sem_weaken_u; [apply sem_set_upvalue; auto|]. simpl. intros [E|H]; auto.
    left. intros [p [id [cs [len [n [rest [E' _]]]]]]]. congruence.
  - (* set global *)
    apply HE. apply sem_get. apply sem_bind. simpl.
    assert (forall r, raw_get (stack v) (zlen (stack v) - i) = r -> match r with Ok o => In o (stack v) | UB => ~ 1 <= i <= zlen (stack v) | _ => False end) as Hr.
    { intros r <-. unfold raw_get, abs_get. destruct (_ || _) eqn:C; [lia|].
      destruct (nth_error _ _) eqn:N; [eapply nth_error_In; eauto|]. apply nth_error_None in N. unfold zlen in *. lia. }
    apply sem_lift; auto.
    2: { intros H. apply (Hr _ H). }
    intros o Eo. specialize (Hr _ Eo). simpl in Hr.
    apply sem_bind. eapply sem_weaken; [apply sem_alloc_in; auto|]. intros r v1 [p [-> [T1 [N1 Pp]]]].
    pose proof (no_roots _ _ _ _ N1) as (A1 & A2 & A3 & A4 & A5 & A6 & A7 & A8).
    assert (globals_ok v1) as G1 by (unfold globals_ok in *; congruence).
    destruct (global_set_spec v1 (Some p) key G1) as [v2 [E2 [G2 [_ [I2 F2]]]]].
    eapply sem_call; [exact E2|]. rewrite F2. apply typed_set_globals; auto.
    intros q Hq. destruct (I2 _ Hq) as [Eq|Eq]; [injection Eq as <-; auto|]. apply T1; auto.
  - apply HE. apply sem_release; auto.
  - (* funcall *) eapply sem_weaken_e; [apply sem_funcall; auto|]; simpl; auto. intros v' _ H. discriminate.
  - (* apply *) eapply sem_weaken_e; [apply sem_apply; auto|]; simpl; auto. intros v' _ H. discriminate.
  - (* call *) apply typed_set_calls; auto.
    intros a k p [Hp|Hp]; [|eapply T; eauto]. injection Hp as <- <- <-. apply T; auto.
  - (* ccall *)
    apply sem_bind. unfold sem. rewrite global_get_lookup by auto. destruct (lookup v key) as [p|] eqn:El; auto.
    unfold lookup in El. destruct (find_key _ _ _) as [n|] eqn:Ek; [|discriminate].
    apply find_key_spec in Ek as [_ [Ek _]]. rewrite Nat.sub_0_r in Ek.
    apply sem_bind. destruct p as [p|].
    2: { apply sem_ub. simpl. intros [n' [p [c [A [B C]]]]]. destruct G as [_ N].
         assert (n' = n) as -> by (eapply NoDup_nth_error; eauto; [apply nth_error_Some|]; congruence). congruence. }
    assert (points v first_class p) as P by (apply T; eapply nth_error_In; eauto).
    destruct (object_points v _ p T P) as [o [Ed [En [K _]]]]. eapply sem_call; [exact Ed|].
    destruct o; try (apply sem_ub; simpl; intros [n' [p' [c' [A [B C]]]]]; destruct G as [_ N];
      assert (n' = n) as -> by (eapply NoDup_nth_error; eauto; [apply nth_error_Some|]; congruence); congruence).
    apply sem_go. specialize (Hh callback v T G). unfold sem. destruct (host callback v) as [[u|e| |] v2]; auto; [|contradiction].
    intros _. auto.
  - (* brnz *)
    apply HC. apply sem_bind. apply sem_sget; auto. intros o P H. apply sem_bind.
    eapply sem_weaken; [apply sem_pop_multiple; auto|]. intros u v1 [T1 [S1 [H1 _]]]. apply sem_get. apply sem_bind.
    destruct (truthy_typed v o) as [b Eb]; auto; [apply val_in; auto|].
    destruct H1 as [-> _]. rewrite Eb. eapply sem_call; [reflexivity|]. apply sem_ret. auto.
  - (* move *)
    apply HE. apply sem_bind. apply sem_sget; auto. intros o P H. apply sem_get. apply sem_bind.
    unfold abs_set. destruct (_ || _) eqn:C; [apply sem_err; auto|].
    eapply sem_call; [reflexivity|]. eapply sem_call; [reflexivity|]. apply typed_replaced; auto. apply val_in; auto.
  - apply HE. apply sem_bind. apply sem_sget; auto. intros x P H. eapply sem_un; eauto. apply val_in; auto.
  - apply sem_bind. apply sem_sget; auto. intros x P H. apply sem_bind. apply sem_sget; auto. intros y P' H'.
    apply sem_bin; auto.
  - apply HE. apply sem_bind. apply sem_sget; auto. intros x P H. apply sem_bind. apply sem_sget; auto. intros y P' H'.
    apply sem_bind. apply sem_sget; auto. intros z P2 H2. eapply sem_tern; eauto.
  - apply sem_vector; auto; [simpl in Hs; lia|]. intros v' H. discriminate.
  - apply sem_get. apply sem_bind. eapply sem_call; [reflexivity|]. apply sem_push; [apply typed_user_type; auto|apply val_simple; exact I].
  - apply HE. eapply sem_weaken; [apply sem_pop_multiple; auto|]. intros a v' H. apply H.
  - apply sem_return; auto.
  - apply HC. apply (sem_return_n v n); auto.
  - apply sem_push; auto. split; [exact I|]. intros z; discriminate.
Qed.

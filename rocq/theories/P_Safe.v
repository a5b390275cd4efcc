(** Operations on well-typed machines: the machine stays well typed, and where an operation is
    undefined is said by [U]. *)
From Coq Require Import ZArith List Lia Arith Bool ZifyBool ZifyNat.
Import ListNotations.
From Verif Require Import M_Base M_Heap M_Instr M_VM S_Heap S_VM S_Num S_Cyclic S_Globals S_Types P_Heap P_Sort P_VM P_Exec P_Num P_Valid P_Cyclic P_Globals P_Types.
Open Scope Z_scope.

Definition sem {A} (v : vm) (m : M A) (Q : A -> vm -> Prop) (E : vm -> Prop) (U : Prop) : Prop :=
  match m v with
  | (Ok a, v') => Q a v'
  | (Err _, v') => E v'
  | (UB, _) => U
  | (NoFuel, _) => True
  end.

Lemma sem_bind {A B} v (m : M A) (f : A -> M B) Q E U :
  sem v m (fun a v' => sem v' (f a) Q E U) E U -> sem v (mbind m f) Q E U.
Proof. unfold sem, mbind. destruct (m v) as [[a|e| |] v']; auto. Qed.
Lemma sem_weaken {A} v (m : M A) (Q Q' : A -> vm -> Prop) E U :
  sem v m Q E U -> (forall a v', Q a v' -> Q' a v') -> sem v m Q' E U.
Proof. unfold sem. destruct (m v) as [[a|e| |] v']; auto. Qed.
Lemma sem_weaken_u {A} v (m : M A) Q E (U U' : Prop) : sem v m Q E U -> (U -> U') -> sem v m Q E U'.
Proof. unfold sem. destruct (m v) as [[a|e| |] v']; auto. Qed.
Lemma sem_weaken_e {A} v (m : M A) Q (E E' : vm -> Prop) U : sem v m Q E U -> (forall v', E v' -> E' v') -> sem v m Q E' U.
Proof. unfold sem. destruct (m v) as [[a|e| |] v']; auto. Qed.
Lemma sem_ret {A} v (a : A) (Q : A -> vm -> Prop) E U : Q a v -> sem v (mret a) Q E U.
Proof. auto. Qed.
Lemma sem_err {A} v e (Q : A -> vm -> Prop) (E : vm -> Prop) U : E v -> sem v (merr e) Q E U.
Proof. auto. Qed.
Lemma sem_ub {A} v (Q : A -> vm -> Prop) E (U : Prop) : U -> sem v mub Q E U.
Proof. auto. Qed.
Lemma sem_get {A} v (f : vm -> M A) Q E U : sem v (f v) Q E U -> sem v (mbind mget f) Q E U.
Proof. auto. Qed.
Lemma sem_lift {A} v (r : res A) (Q : A -> vm -> Prop) (E : vm -> Prop) (U : Prop) :
  (forall a, r = Ok a -> Q a v) -> (forall e, r = Err e -> E v) -> (r = UB -> U) -> sem v (mlift r) Q E U.
Proof. unfold sem, mlift. destruct r; auto. intros _ H _. eauto. Qed.
Lemma sem_call {A} v (m : M A) a v1 (Q : A -> vm -> Prop) E U : m v = (Ok a, v1) -> Q a v1 -> sem v m Q E U.
Proof. unfold sem. intros ->. auto. Qed.

(** * Values *)

Definition val (v : vm) (o : object) : Prop := first_class o /\ well_typed v o.

Lemma sem_push v o E U : typed v -> val v o -> sem v (stack_push o) (fun _ v' => typed v') E U.
Proof. intros T [F W]. apply (typed_pushed _ v o T F W). Qed.

Lemma sget_inv v i o v' : sget i v = (Ok o, v') -> v' = v /\ at_pos v i o.
Proof.
  unfold sget, mbind, mget, mlift. intros E. injection E as E <-. split; auto. unfold abs_get in E.
  destruct (_ || _) eqn:C; [discriminate|]. destruct (nth_error _ _) eqn:N; [|discriminate]. injection E as <-.
  unfold zlen in *. split; [lia|]. rewrite <- N. f_equal. lia.
Qed.

Lemma sem_sget v i (Q : object -> vm -> Prop) (E : vm -> Prop) U : E v ->
  (forall o, at_pos v i o -> In o (stack v) -> Q o v) -> sem v (sget i) Q E U.
Proof.
  intros He H. unfold sem. destruct (sget i v) as [[o|e| |] v'] eqn:Es.
  - destruct (sget_inv _ _ _ _ Es) as [-> P]. apply H; auto. destruct P as [_ P]. eapply nth_error_In; eauto.
  - unfold sget, mbind, mget, mlift in Es. congruence.
  - exfalso. unfold sget, mbind, mget, mlift, abs_get in Es. destruct (_ || _) eqn:C; [discriminate|].
    destruct (nth_error _ _) eqn:N; [discriminate|]. apply nth_error_None in N. unfold zlen in *. lia.
  - auto.
Qed.

Lemma val_in v o : typed v -> In o (stack v) -> val v o.
Proof. intros T H. apply (ty_stack _ _ T); auto. Qed.

Lemma deref_points v K p : points v K p -> exists o, deref (Some p) v = (Ok o, v) /\ K o /\
  nth_error (objects v) p = Some o /\ live v p.
Proof.
  intros [L [o [E H]]]. exists o. unfold deref, mbind, mget, mret. rewrite E. auto.
Qed.

Lemma val_points v p : typed v -> points v first_class p ->
  exists o, deref (Some p) v = (Ok o, v) /\ val v o.
Proof.
  intros T P. destruct (deref_points _ _ _ P) as [o [E [F [N L]]]]. exists o. split; auto. split; auto.
  eapply (ty_objects _ _ T); eauto.
Qed.

Lemma object_points v K p : typed v -> points v K p ->
  exists o, deref (Some p) v = (Ok o, v) /\ nth_error (objects v) p = Some o /\ K o /\ well_typed v o /\ live v p.
Proof.
  intros T P. destruct (deref_points _ _ _ P) as [o [E [F [N L]]]]. exists o. split; auto. split; auto. split; auto. split; auto.
  eapply (ty_objects _ _ T); eauto.
Qed.

(** * Allocation *)

Lemma empty_none v : empty_ones (fun _ => False) v.
Proof. intros p o []. Qed.

Lemma sem_alloc v o U : typed v -> storable o -> well_typed v o -> (forall p, refers o p -> reach v p) ->
  sem v (alloc o) (fun r v' => exists q, r = Some q /\ typed v' /\ new_object o v q v') typed U.
Proof.
  intros T S W R. unfold sem.
  destruct (alloc_typed_total _ o v T none_dec (fun _ => empty_none v)) as [v' [[q E]|[e [E _]]]]; rewrite E.
  - exists q. split; auto.
    apply (alloc_typed (fun _ => False) (fun _ => False) o v q v' T none_dec); auto;
      try (intros p []; fail); try (intros p o' q' []; fail); try (intros _; apply empty_none; fail).
  - apply (alloc_typed_err _ o v e v' T none_dec (empty_none v)) in E; [apply E|intros p []].
Qed.

(** The new object as a value. *)
Lemma new_points o v q v' (K : object -> Prop) : new_object o v q v' -> (forall n, K (stored n o)) -> points v' K q.
Proof. intros N H. destruct (no_stored _ _ _ _ N) as [n E]. split; [apply N|]. eauto. Qed.

Lemma new_stack o v q v' : new_object o v q v' -> stack v' = stack v.
Proof. intros N. apply (no_roots _ _ _ _ N). Qed.

Lemma reach_in v o p : In o (stack v) -> refers o p -> reach v p.
Proof. intros H R. apply reach_root. eapply root_stack; eauto. Qed.

Lemma sem_alloc_in v o U : typed v -> In o (stack v) ->
  sem v (alloc o) (fun r v' => exists q, r = Some q /\ typed v' /\ new_object o v q v' /\ points v' first_class q) typed U.
Proof.
  intros T H. destruct (val_in v o T H) as [F W].
  eapply sem_weaken; [apply sem_alloc; auto|].
  - destruct o; simpl in *; auto.
  - intros p R. eapply reach_in; eauto.
  - intros r v' [q [-> [T' N]]]. exists q. split; auto. split; auto. split; auto. eapply new_points; eauto.
    intros n. rewrite stored_first_class; auto.
Qed.

Lemma sem_box v o U : typed v -> In o (stack v) ->
  sem v (box o) (fun r v' => typed v' /\ stack v' = stack v /\ opoints v' is_link r /\
    (forall K p, stable K -> reach v p -> points v K p -> points v' K p) /\
    (forall p x, reach v p -> nth_error (objects v) p = Some x -> nth_error (objects v') p = Some x) /\
    ustack v' = ustack v) typed U.
Proof.
  intros T H.
  assert (forall U, sem v (alloc o) (fun r v' => typed v' /\ stack v' = stack v /\ opoints v' is_link r /\
    (forall K p, stable K -> reach v p -> points v K p -> points v' K p) /\
    (forall p x, reach v p -> nth_error (objects v) p = Some x -> nth_error (objects v') p = Some x) /\
    ustack v' = ustack v) typed U) as HA.
  { intros U'. eapply sem_weaken; [apply sem_alloc_in; auto|]. intros r v' [q [-> [T' [N P]]]].
    split; auto. split; [apply (new_stack _ _ _ _ N)|]. split; [|split; [|split]].
    - intros p E. injection E as <-. destruct P as [L [x [E F]]]. split; auto. exists x. split; auto. left; auto.
    - intros K p HK R P'. apply (points_keeps (reach v) v); auto. apply N.
    - intros p x R E. rewrite (no_same _ _ _ _ N); auto.
    - apply (no_roots _ _ _ _ N). }
  unfold box. destruct o; try apply HA.
  apply sem_ret. split; auto. split; auto. split; [|auto]. intros p ->. destruct (val_in v _ T H) as [_ W].
  destruct (W p eq_refl) as [L [x [E C]]]. split; auto. exists x. split; auto. right; auto.
Qed.

Lemma sem_write v p x o (Q : unit -> vm -> Prop) E U : typed v -> nth_error (objects v) p = Some x -> live v p -> like x o ->
  well_typed v o -> Q tt (written v p o) -> sem v (write (Some p) o) Q E U.
Proof.
  intros T Ex L Lk W HQ. unfold sem, write, mbind, mget, mset.
  destruct (Nat.ltb_spec p (length (objects v))); [exact HQ|]. destruct L. lia.
Qed.

Lemma typed_write v p x o : typed v -> nth_error (objects v) p = Some x -> live v p -> like x o ->
  well_typed v o -> typed (written v p o).
Proof. intros T E L Lk W. eapply typed_written; eauto. Qed.

(** * Reading operations *)

Lemma val_simple v o : match o with
  | ONone | OBool _ | OFloat _ | OFunction _ | OType _ | OList None | OVector None 0 | OString None 0 0 => True
  | _ => False end -> val v o.
Proof.
  destruct o; simpl; try contradiction; try (split; simpl; auto; fail).
  - destruct s; [contradiction|]. destruct offset; try contradiction. destruct len; try contradiction. split; simpl; auto.
  - destruct l; [contradiction|]. split; simpl; auto. intros q; discriminate.
  - destruct v0; [contradiction|]. destruct offset; try contradiction. split; simpl; auto.
    unfold max_size. split; [lia|]. intros q; discriminate.
Qed.
#[export] Hint Resolve val_simple : val.

Lemma val_int v n : machine_integer n -> val v (OInteger n).
Proof. intros H. split; simpl; auto. Qed.

Lemma sem_unbox v p (E : vm -> Prop) U : typed v -> opoints v is_link p ->
  sem v (unbox p) (fun o v' => v' = v /\ val v o) E U.
Proof.
  intros T P. unfold unbox. destruct p as [q|]; [|apply sem_ret; auto with val].
  destruct (object_points v _ q T (P q eq_refl)) as [o [Ed [En [K [W L]]]]].
  apply sem_bind. eapply sem_call; [exact Ed|].
  destruct o; try (apply sem_ret; split; auto; split; auto; destruct K as [K|K]; simpl in *; contradiction || auto; fail).
  apply sem_ret. split; auto. split; simpl; auto. intros z Hz. injection Hz as <-.
  split; auto. exists (OCons car cdr). split; auto. exact I.
Qed.

Lemma internal_points v p : typed v -> points v is_elements p -> exists cs len,
  internal_vector (objects v) (Some p) = Ok (cs, len, true) /\
  nth_error (objects v) p = Some (OInternalVector cs len true) /\
  well_typed v (OInternalVector cs len true) /\ live v p /\
  deref (Some p) v = (Ok (OInternalVector cs len true), v).
Proof.
  intros T P. destruct (object_points v _ p T P) as [o [Ed [En [K [W L]]]]].
  destruct o; simpl in K; try contradiction. destruct W as [-> W]. exists values, len.
  unfold internal_vector. rewrite En. split; auto. split; auto. split; [split; auto|]. auto.
Qed.

Lemma usz_small n : 0 <= n <= max_size -> usz n = n.
Proof. intros H. unfold usz, max_size in *. apply Z.mod_small. lia. Qed.

Lemma element_read v cs len i : well_typed v (OInternalVector cs len true) -> 0 <= i < len ->
  exists q, cell_get cs i = Ok (Some q) /\ points v first_class q.
Proof.
  intros [_ [_ W]] H. destruct W as [l [-> W]]; [lia|]. destruct (W (Z.to_nat i)) as [p [E [q [-> P]]]]; [lia|].
  exists q. split; auto. unfold cell_get, array_get. destruct (Z.ltb_spec i 0); [lia|]. rewrite E. reflexivity.
Qed.

Lemma sem_deref_val v p (E : vm -> Prop) U : typed v -> points v first_class p ->
  sem v (deref (Some p)) (fun o v' => v' = v /\ val v o) E U.
Proof. intros T P. destruct (val_points v p T P) as [o [Ed V]]. eapply sem_call; eauto. Qed.

Lemma text_byte v p b i n : typed v -> live v p -> nth_error (objects v) p = Some (OInternalString (Some b)) ->
  array_get b i = Ok n -> machine_integer n.
Proof.
  intros T L E A. pose proof (ty_objects _ _ T p _ L (fun x => x) E) as [_ B].
  specialize (B b eq_refl). unfold array_get in A. destruct (i <? 0); [discriminate|].
  destruct (nth_error b (Z.to_nat i)) eqn:N; [|discriminate]. injection A as <-.
  rewrite Forall_forall in B. apply nth_error_In in N. apply B in N. unfold byte, machine_integer in *. lia.
Qed.

Lemma sem_cdr v o (E : vm -> Prop) U : typed v -> E v -> val v o ->
  sem v (cdr_op o) (fun r v' => v' = v /\ val v r) E U.
Proof.
  intros T He [F W]. unfold cdr_op. destruct o; try (apply sem_err; auto; fail).
  - destruct s as [p|]; [|apply sem_ret; auto with val]. destruct W as [A [B P]].
    destruct (object_points v _ p T P) as [x [Ed [En [K [Wx L]]]]].
    apply sem_bind. eapply sem_call; [exact Ed|]. destruct x; simpl in K; try contradiction.
    destruct (_ || _) eqn:C; apply sem_ret; auto with val. split; auto.
    rewrite usz_small in C by lia. split; simpl; auto. split; [lia|]. split; [lia|]. auto.
  - destruct l as [p|]; [|apply sem_ret; auto with val].
    destruct (object_points v _ p T (W p eq_refl)) as [x [Ed [En [K [Wx L]]]]].
    apply sem_bind. eapply sem_call; [exact Ed|]. destruct x; simpl in K; try contradiction.
    apply sem_unbox; auto. apply Wx.
  - destruct v0 as [p|]; [|apply sem_ret; auto with val]. destruct W as [A P].
    destruct (internal_points v p T (P p eq_refl)) as [cs [len [Ei [En [Wx [L Ed]]]]]].
    apply sem_bind. eapply sem_call; [exact Ed|]. cbn beta iota.
    destruct (_ || _) eqn:C; apply sem_ret; auto with val. split; auto.
    rewrite usz_small in C by lia. destruct Wx as [_ [B _]]. split; simpl; auto. split; [lia|]. auto.
Qed.

Lemma sem_car v o (E : vm -> Prop) U : typed v -> E v -> val v o ->
  sem v (car_op o) (fun r v' => v' = v /\ val v r) E U.
Proof.
  intros T He [F W]. unfold car_op. destruct o; try (apply sem_err; auto; fail).
  - destruct s as [p|]; [|apply sem_ret; auto with val]. destruct W as [A [B P]].
    destruct (object_points v _ p T P) as [x [Ed [En [K [Wx L]]]]].
    apply sem_bind. eapply sem_call; [exact Ed|]. destruct x; simpl in K; try contradiction.
    destruct (_ || _) eqn:C; [apply sem_ret; auto with val|].
    rewrite usz_small in C by lia. unfold text_length in K. destruct s as [b|]; [|lia].
    apply sem_bind. destruct (array_get b offset) as [n|e| |] eqn:Ea.
    + eapply sem_call; [reflexivity|]. apply sem_ret. split; auto. apply val_int. eapply text_byte; eauto.
    + unfold array_get in Ea. destruct (_ <? _); [discriminate|]. destruct (nth_error b _); discriminate.
    + exfalso. unfold array_get in Ea. unfold zlen in *. destruct (Z.ltb_spec offset 0); [lia|].
      destruct (nth_error b _) eqn:N; [discriminate|]. apply nth_error_None in N. lia.
    + exact I.
  - destruct l as [p|]; [|apply sem_ret; auto with val].
    destruct (object_points v _ p T (W p eq_refl)) as [x [Ed [En [K [Wx L]]]]].
    apply sem_bind. eapply sem_call; [exact Ed|]. destruct x; simpl in K; try contradiction.
    apply sem_unbox; auto. apply Wx.
  - destruct v0 as [p|]; [|apply sem_ret; auto with val]. destruct W as [A P].
    destruct (internal_points v p T (P p eq_refl)) as [cs [len [Ei [En [Wx [L Ed]]]]]].
    apply sem_bind. eapply sem_call; [exact Ed|]. cbn beta iota.
    destruct (_ || _) eqn:C; [apply sem_ret; auto with val|].
    rewrite usz_small in C by lia. destruct (element_read v cs len offset Wx) as [q [Ec Pq]]; [lia|].
    apply sem_bind. eapply sem_call; [unfold mlift; rewrite Ec; reflexivity|]. apply sem_deref_val; auto.
Qed.

Lemma truthy_typed v o : val v o -> typed v -> exists b, truthy (objects v) o = Ok b.
Proof.
  intros [F W] T. destruct o; simpl; eauto. destruct v0 as [p|]; eauto. destruct W as [A P].
  destruct (internal_points v p T (P p eq_refl)) as [cs [len [Ei _]]]. rewrite Ei. simpl. eauto.
Qed.

Lemma nullp_typed v o : val v o -> typed v -> exists r, nullp_op (objects v) o = Ok r /\ val v r.
Proof.
  intros [F W] T. assert (forall b, val v (of_bool b)) as HB by (intros b; apply val_simple; exact I).
  destruct o; unfold nullp_op; eauto. destruct s; eauto. destruct v0 as [p|]; eauto. destruct W as [A P].
  destruct (internal_points v p T (P p eq_refl)) as [cs [len [Ei _]]]. rewrite Ei. simpl. eauto.
Qed.

Lemma not_typed v o r : not_op o = Ok r -> val v r.
Proof.
  intros E. destruct o; try discriminate; simpl in E; injection E as <-; try (apply val_simple; exact I).
  apply val_int. unfold machine_integer. destruct (n =? 0); lia.
Qed.
Lemma not_ub o : not_op o <> UB.
Proof. destruct o; discriminate. Qed.

Lemma sem_composite_get v c (E : vm -> Prop) U : typed v -> well_typed v (OComposite c) ->
  sem v (composite_get c) (fun r v' => v' = v /\ exists p, c = Some p /\ live v p /\
    nth_error (objects v) p = Some (OInternalComposite (fst (fst r)) (snd (fst r)) (snd r)) /\
    opoints v first_class (snd (fst r)) /\ opoints v first_class (snd r)) E U.
Proof.
  intros T [p [-> P]]. destruct (object_points v _ p T P) as [x [Ed [En [K [Wx L]]]]].
  unfold composite_get. apply sem_bind. eapply sem_call; [exact Ed|]. destruct x; simpl in K; try contradiction.
  apply sem_ret. split; auto. exists p. simpl. destruct Wx. auto.
Qed.

Lemma sem_typeof v o (E : vm -> Prop) U : typed v -> val v o ->
  sem v (typeof_op o) (fun r v' => v' = v /\ val v r) E U.
Proof.
  intros T [F W]. unfold typeof_op. destruct o; try (apply sem_ret; split; [auto|apply val_simple; exact I]; fail).
  apply sem_bind. eapply sem_weaken; [apply sem_composite_get; auto|]. intros [[t x] f] v' [-> _].
  apply sem_ret. split; auto. apply val_simple; exact I.
Qed.

Lemma sem_pointee v p (E : vm -> Prop) U : typed v -> opoints v first_class p ->
  sem v (pointee p) (fun o v' => v' = v /\ val v o) E U.
Proof.
  intros T P. unfold pointee. destruct p as [q|]; [|apply sem_ret; auto with val].
  apply sem_deref_val; auto.
Qed.

Lemma sem_composite v b o (E : vm -> Prop) U : typed v -> E v -> val v o ->
  sem v (composite_op b o) (fun r v' => v' = v /\ val v r) E U.
Proof.
  intros T He [F W]. unfold composite_op. destruct o; try (apply sem_err; auto; fail).
  apply sem_bind. eapply sem_weaken; [apply sem_composite_get; auto|].
  intros [[t x] f] v' [-> [p [_ [_ [_ [Px Pf]]]]]]. apply sem_pointee; auto. destruct b; auto.
Qed.

Lemma typed_reach_live v p : typed v -> reach v p -> live v p.
Proof. intros T. eapply (live_reach _ v T); [intros ? ? ? _ _ []|exact none_dec]. Qed.

Lemma typed_chain_inside v p : typed v -> live v p -> chain_inside (objects v) p.
Proof.
  intros T L k q C. assert (live v q) as Lq.
  { induction C as [|p k q a r C IH E]; auto. specialize (IH L).
    pose proof (ty_objects _ _ T q _ IH (fun x => x) E) as [_ W]. apply (W r eq_refl). }
  apply Lq.
Qed.

Lemma list_length_bound os : forall fuel p n, list_length fuel os p = Ok n -> 0 <= n <= Z.of_nat fuel.
Proof.
  induction fuel as [|f IH]; intros p n E; simpl in E.
  - destruct p as [q|]; [|injection E as <-; lia]. destruct (nth_error os q) as [[]|]; try discriminate; injection E as <-; lia.
  - destruct p as [q|]; [|injection E as <-; lia].
    destruct (nth_error os q) as [[]|]; try discriminate; try (injection E as <-; lia).
    destruct (list_length f os cdr) eqn:El; try discriminate. injection E as <-. apply IH in El. lia.
Qed.

Lemma length_typed v o : typed v -> val v o ->
  (exists r, length_op (objects v) o = Ok r /\ val v r) \/ (exists e, length_op (objects v) o = Err e).
Proof.
  intros T [F W]. destruct o; try (right; eexists; reflexivity).
  - left. eexists; split; [reflexivity|]. apply val_int. unfold machine_integer, max_size in *.
    simpl in W. destruct s; unfold max_size in *; lia.
  - destruct l as [p|].
    + destruct (W p eq_refl) as [L _]. pose proof (typed_chain_inside v p T L) as CI.
      unfold length_op. destruct (cyclic_spec _ _ CI) as [b [E B]]. rewrite E. simpl.
      destruct b; [right; eexists; reflexivity|].
      assert (~ endless (objects v) p) as NE by (rewrite <- B; discriminate).
      destruct (length_op_list _ _ CI) as [_ HL]. destruct (HL NE) as [n [EL _]].
      unfold length_op in EL. rewrite E in EL. simpl in EL. rewrite EL. left. eexists; split; eauto.
      apply val_int. destruct (list_length (length (objects v)) (objects v) (Some p)) eqn:Ell; try discriminate.
      simpl in EL. injection EL as EL. apply list_length_bound in Ell. pose proof (ty_size _ _ T).
      unfold machine_integer, zlen, max_size in *. lia.
    + left. exists (OInteger 0). split; [|apply val_int; unfold machine_integer; lia].
      unfold length_op, list_is_cyclic. cbn [bind]. destruct (length (objects v)); reflexivity.
  - left. destruct W as [A P]. destruct v0 as [p|].
    + destruct (internal_points v p T (P p eq_refl)) as [cs [len [Ei [_ [[_ [B _]] _]]]]].
      unfold length_op. rewrite Ei. simpl. eexists; split; eauto. apply val_int. unfold machine_integer, max_size in *. lia.
    + eexists; split; [reflexivity|]. apply val_int. unfold machine_integer. lia.
Qed.

Lemma symbol_string_typed v o : typed v -> val v o ->
  match symbol_string_op (objects v) o with
  | Ok r => val v r
  | Err _ => True
  | UB => exists id, o = OSymbol id None
  | NoFuel => False
  end.
Proof.
  intros T [F W]. destruct o; simpl; auto. destruct W as [A P]. destruct s as [p|]; simpl; [|eauto].
  destruct (object_points v _ p T (P p eq_refl)) as [x [Ed [En [K [Wx L]]]]]. rewrite En.
  destruct x; simpl in K; try contradiction. destruct Wx as [B C].
  destruct s as [b|]; simpl in *; split; simpl; auto; unfold zlen in *.
  - split; [lia|]. split; [lia|]. split; auto. exists (OInternalString (Some b)). split; auto. simpl. unfold zlen. lia.
Qed.

(** * Strings *)

Lemma stored_text n s m : m <= zlen s -> is_text m (stored n (OInternalString (Some s))).
Proof. intros H. destruct s; simpl in *; unfold zlen in *; simpl in *; auto. Qed.

Lemma sem_new_string v s U : typed v -> zlen s <= max_size -> Forall byte s ->
  sem v (new_string s) (fun r v' => typed v' /\ val v' r) typed U.
Proof.
  intros T L B. unfold new_string. apply sem_bind. eapply sem_weaken.
  - apply sem_alloc; auto; simpl; auto.
    + split; auto. intros b E. injection E as <-. auto.
    + intros p R. inversion R.
  - intros r v' [q [-> [T' N]]]. apply sem_ret. split; auto. split; simpl; auto.
    unfold zlen in *. split; [lia|]. split; [lia|]. apply (new_points _ _ _ _ _ N). intros n. apply stored_text. unfold zlen. lia.
Qed.

Lemma vector_bytes_length os n : forall cs s, vector_bytes os cs n = Ok s -> length s = n /\ Forall byte s.
Proof.
  induction n as [|n IH]; intros cs s E.
  - destruct cs as [|[|[p|]] cs]; simpl in E; injection E as <-; auto.
  - destruct cs as [|[|[p|]] cs]; simpl in E; try discriminate. destruct (nth_error os p) as [[]|]; try discriminate.
    destruct (vector_bytes os cs n) eqn:Ev; try discriminate. injection E as <-. apply IH in Ev as [A B].
    split; simpl; auto. constructor; auto. unfold byte. apply Z.mod_pos_bound. lia.
Qed.

Lemma list_bytes_length os fuel : forall p acc s, list_bytes fuel os p acc = Ok (Some s) ->
  Forall byte acc -> (length s <= length acc + fuel)%nat /\ Forall byte s.
Proof.
  induction fuel as [|f IH]; intros p acc s E B; simpl in E.
  - destruct p; [discriminate|]. injection E as <-. rewrite rev_length. split; [lia|]. apply Forall_rev; auto.
  - destruct p as [q|].
    + destruct (nth_error os q) as [[]|]; try discriminate.
      * apply IH in E as [A C]; auto. split; auto. lia.
      * destruct car as [a|]; [|discriminate]. destruct (nth_error os a) as [[]|]; try discriminate.
        apply IH in E as [A C]; [|constructor; auto; unfold byte; apply Z.mod_pos_bound; lia]. simpl in A. split; auto. lia.
    + injection E as <-. rewrite rev_length. split; [lia|]. apply Forall_rev; auto.
Qed.

Lemma sem_make_string v o (U : Prop) : typed v -> val v o ->
  (match o with OVector _ _ | OList _ => True | _ => False end -> U) ->
  sem v (make_string_op o) (fun r v' => typed v' /\ val v' r) typed U.
Proof.
  intros T [F W] HU. unfold make_string_op. apply sem_get. destruct o; try (apply sem_err; auto; fail).
  - apply sem_bind. apply sem_lift; [|auto|intros _; apply HU; exact I]. intros s Es.
    pose proof (ty_size _ _ T) as Sz. destruct s as [s|]; [|apply sem_new_string; auto; unfold zlen, max_size; simpl; lia].
    apply list_bytes_length in Es as [A B]; auto. apply sem_new_string; auto. unfold zlen in *. simpl in *. lia.
  - apply sem_bind. destruct W as [A P]. destruct v0 as [p|]; [|apply HU; exact I].
    destruct (internal_points v p T (P p eq_refl)) as [cs [len [Ei [_ [[_ [B _]] _]]]]].
    eapply sem_call; [unfold mlift; rewrite Ei; reflexivity|]. cbn beta iota.
    destruct (len <? offset) eqn:C1; [apply sem_err; auto|].
    destruct (len - offset =? 0) eqn:C2; [apply sem_new_string; auto; unfold zlen, max_size; simpl; lia|].
    destruct cs as [cs|]; [|apply HU; exact I].
    apply sem_bind. apply sem_lift; [|auto|intros _; apply HU; exact I]. intros s Es.
    apply vector_bytes_length in Es as [L Bs]. apply sem_new_string; auto. unfold zlen, max_size in *. lia.
Qed.

Lemma In_skipn_firstn {A} (s : list A) a n x : In x (firstn n (skipn a s)) -> In x s.
Proof.
  intros H. rewrite <- (firstn_skipn a s). apply in_or_app. right.
  rewrite <- (firstn_skipn n (skipn a s)). apply in_or_app. auto.
Qed.

Lemma slice_length s o n r : slice s o n = Ok r -> zlen r = n.
Proof.
  unfold slice. destruct (_ && _) eqn:C; [|discriminate]. intros E. injection E as <-.
  unfold zlen in *. rewrite firstn_length, skipn_length. lia.
Qed.
Lemma slice_byte s o n r : slice s o n = Ok r -> Forall byte s -> Forall byte r.
Proof.
  unfold slice. destruct (_ && _) eqn:C; [|discriminate]. intros E B. injection E as <-.
  rewrite Forall_forall in *. intros x Hx. apply B.
  apply (In_skipn_firstn s (Z.to_nat o) (Z.to_nat n) x Hx).
Qed.

From Coq Require Import ZArith List Lia Arith Bool ZifyBool ZifyNat.
Import ListNotations.
From Verif Require Import M_Base M_Heap M_Instr M_VM S_Heap S_VM S_Globals P_Heap P_Sort P_VM P_Exec P_Num P_Valid.
Open Scope Z_scope.

Lemma find_key_spec m : forall k i j, find_key m k i = Some j ->
  (i <= j)%nat /\ nth_error m (j - i) = Some k /\ (j - i < length m)%nat.
Proof.
  induction m as [|x m IH]; intros k i j H; simpl in H; [discriminate|].
  destruct (Z.eqb_spec x k).
  - injection H as <-. rewrite Nat.sub_diag. subst x. simpl. repeat split; lia.
  - apply IH in H as [A [B C]]. split; [lia|]. replace (j - i)%nat with (S (j - S i)) by lia. simpl.
    split; auto. lia.
Qed.

Lemma find_key_none m : forall k i, find_key m k i = None -> ~ In k m.
Proof.
  induction m as [|x m IH]; intros k i H; simpl in *; auto.
  destruct (Z.eqb_spec x k); [discriminate|]. intros [E|E]; [congruence|]. eapply IH; eauto.
Qed.

Lemma find_key_app m : forall k i a, find_key (m ++ [a]) k i =
  match find_key m k i with
  | Some j => Some j
  | None => if a =? k then Some (i + length m)%nat else None
  end.
Proof.
  induction m as [|x m IH]; intros k i a; simpl.
  - destruct (a =? k); auto; f_equal; lia.
  - destruct (x =? k); auto. rewrite IH. destruct (find_key m k (S i)); auto.
    destruct (a =? k); auto; f_equal; lia.
Qed.

(** The pointer stored for a key. *)
Definition lookup (v : vm) (k : Z) : option optr :=
  match find_key (globals_map v) k 0 with Some i => nth_error (globals v) i | None => None end.

Lemma global_get_lookup v k : globals_ok v -> global_get k v =
  match lookup v k with Some p => (Ok p, v) | None => (Err invalidValue, v) end.
Proof.
  intros [L _]. unfold global_get, lookup, mbind, mget, mret, mub, merr.
  destruct (find_key (globals_map v) k 0) eqn:E; auto.
  apply find_key_spec in E as [_ [_ E]]. rewrite Nat.sub_0_r in E.
  destruct (nth_error (globals v) n) eqn:En; auto. apply nth_error_None in En. lia.
Qed.

Lemma find_key_inj m k j a : find_key m k 0 = Some a -> find_key m j 0 = Some a -> k = j.
Proof.
  intros A B. apply find_key_spec in A as [_ [A _]], B as [_ [B _]]. congruence.
Qed.

Lemma global_set_spec v p k : globals_ok v ->
  exists v', global_set p k v = (Ok tt, v') /\ globals_ok v' /\
    (forall j, lookup v' j = if k =? j then Some p else lookup v j) /\
    (forall q, In q (globals v') -> q = p \/ In q (globals v)) /\
    v' = set_globals v (globals v') (globals_map v').
Proof.
  intros [L N]. unfold global_set, mbind, mget, mret, mub, mset.
  destruct (find_key (globals_map v) k 0) as [i|] eqn:E.
  - pose proof (find_key_spec _ _ _ _ E) as [_ [Hk Hi]]. rewrite Nat.sub_0_r in *.
    destruct (Nat.ltb_spec i (length (globals v))); [|lia].
    eexists; split; [reflexivity|]. split; [|split; [|split]].
    + split; simpl; auto. rewrite list_set_length. auto.
    + intros j. unfold lookup. simpl. destruct (Z.eqb_spec k j) as [<-|Hj].
      * rewrite E, list_set_nth, Nat.eqb_refl. simpl.
        destruct (Nat.ltb_spec i (length (globals v))); [auto|lia].
      * destruct (find_key (globals_map v) j 0) as [a|] eqn:Ea; auto. rewrite list_set_nth.
        destruct (Nat.eqb_spec a i); auto. subst a. exfalso. apply Hj. eapply find_key_inj; eauto.
    + simpl. intros q Hq. apply In_nth_error in Hq as [a Ha]. rewrite list_set_nth in Ha.
      destruct (_ && _); [injection Ha as <-; auto|]. right. eapply nth_error_In; eauto.
    + reflexivity.
  - eexists; split; [reflexivity|]. split; [|split; [|split]].
    + split; simpl. * rewrite !app_length. simpl. lia.
      * assert (NoDup (k :: globals_map v)) as H by (constructor; auto; eapply find_key_none; eauto).
        apply (Permutation.Permutation_NoDup (l := k :: globals_map v)); auto.
        apply Permutation.Permutation_cons_append.
    + intros j. unfold lookup. simpl. rewrite find_key_app.
      destruct (Z.eqb_spec k j) as [<-|Hj].
      * rewrite E. simpl. rewrite <- L, nth_error_app2, Nat.sub_diag by lia. auto.
      * destruct (find_key (globals_map v) j 0) as [a|] eqn:Ea; auto.
        apply find_key_spec in Ea as [_ [_ Ea]]. rewrite nth_error_app1 by lia. auto.
    + simpl. intros q Hq. apply in_app_or in Hq as [Hq|[Hq|[]]]; auto.
    + reflexivity.
Qed.

Lemma assign_all_spec l : forall v, globals_ok v ->
  exists v', assign_all l v = (Ok tt, v') /\ globals_ok v' /\
    forall k, lookup v' k = match last_assigned l k with Some p => Some p | None => lookup v k end.
Proof.
  induction l as [|[j p] l IH]; intros v H; simpl.
  - exists v. split; auto.
  - destruct (global_set_spec v p j H) as [v1 [E [H1 [G _]]]].
    destruct (IH v1 H1) as [v2 [E2 [H2 G2]]]. exists v2. split; [|split; auto].
    + unfold mbind. rewrite E. auto.
    + intros k. rewrite G2, G. destruct (last_assigned l k); auto. destruct (j =? k); auto.
Qed.

(** C13, the map itself. *)
Lemma globals_map_spec n l : exists v, assign_all l (vm_init n) = (Ok tt, v) /\
  forall k, global_get k v =
    match last_assigned l k with Some p => (Ok p, v) | None => (Err invalidValue, v) end.
Proof.
  destruct (assign_all_spec l (vm_init n)) as [v [E [H G]]].
  { split; simpl; auto. constructor. }
  exists v. split; auto. intros k. rewrite global_get_lookup by auto. rewrite G.
  destruct (last_assigned l k); auto.
Qed.

(** * The instructions *)

Lemma push_global_exec host base next k v : globals_ok v ->
  exec host base next (IPushGlobal k) v =
  match lookup v k with
  | None => (Err invalidValue, v)
  | Some None => (Ok (Continue next), pushed ONone v)
  | Some (Some p) =>
    match nth_error (objects v) p with
    | Some o => (Ok (Continue next), pushed o v)
    | None => (UB, v)
    end
  end.
Proof.
  intros H. unfold exec. unfold mbind at 1. unfold mbind at 1. rewrite global_get_lookup by auto.
  destruct (lookup v k) as [[p|]|]; auto. unfold pointee, deref, mbind, mget, mret, mub.
  destruct (nth_error (objects v) p); reflexivity.
Qed.

Lemma raw_get_at v i x : at_pos v i x -> raw_get (stack v) (zlen (stack v) - i) = Ok x.
Proof.
  intros H. pose proof (sget_at v i x H) as E. unfold sget, mbind, mget, mlift in E.
  injection E as E. unfold raw_get. rewrite E. auto.
Qed.

Lemma stored_first_class n o : first_class o -> stored n o = o.
Proof. destruct o; simpl; auto; contradiction. Qed.

Lemma lookup_root v k p : lookup v k = Some (Some p) -> root v p.
Proof.
  unfold lookup. destruct (find_key _ _ _); [|discriminate]. intros E. apply root_global.
  eapply nth_error_In; eauto.
Qed.

Lemma reads_lookup host base next k v o : globals_ok v -> reads host base next k v o <->
  (exists p, lookup v k = Some (Some p) /\ nth_error (objects v) p = Some o) \/
  (lookup v k = Some None /\ o = ONone).
Proof.
  intros H. unfold reads. rewrite push_global_exec by auto. split.
  - intros [v' [E [S O]]]. destruct (lookup v k) as [[p|]|]; try discriminate.
    + left. exists p. destruct (nth_error (objects v) p) eqn:Ep; [|discriminate].
      injection E as <-. simpl in S. injection S as ->. auto.
    + right. injection E as <-. simpl in S. injection S as ->. auto.
  - intros [[p [E F]]|[E ->]]; rewrite E; [rewrite F|]; eexists; split; try reflexivity; auto.
Qed.

Lemma set_global_exec host base next i k x v v1 c : valid v -> globals_ok v -> at_pos v i x ->
  exec host base next (ISetGlobal i k) v = (Ok c, v1) ->
  exists p v0, alloc_effect x v p v0 /\ c = Continue next /\ globals_ok v1 /\
    objects v1 = objects v0 /\ free v1 = free v0 /\ stack v1 = stack v /\
    v1 = set_globals v0 (globals v1) (globals_map v1) /\
    (forall q, In q (globals v1) -> q = Some p \/ In q (globals v)) /\
    (forall j, lookup v1 j = if k =? j then Some (Some p) else lookup v j).
Proof.
  intros V G H E. unfold exec in E. inv_bind E u v' E1. injection E as <- <-.
  inv_bind E1 w v2 E2. injection E2 as <- <-. inv_bind E1 o v2 E2. injection E2 as E2 <-.
  rewrite (raw_get_at v i x H) in E2. injection E2 as <-.
  inv_bind E1 p v3 E3. destruct (alloc_some _ _ _ _ E3) as [q ->].
  pose proof (alloc_ok _ _ _ _ V E3) as A. pose proof (ae_roots _ _ _ _ A) as (R1 & R2 & R3 & R4 & _).
  assert (globals_ok v3) as G3 by (unfold globals_ok in *; rewrite R3, R4; auto).
  destruct (global_set_spec v3 (Some q) k G3) as [w [E4 [G4 [L [I F]]]]]. rewrite E4 in E1. injection E1 as _ <-.
  exists q, v3. split; auto. split; auto. split; auto.
  assert (objects w = objects v3 /\ free w = free v3 /\ stack w = stack v3) as (O & Fr & St).
  { rewrite F. auto. }
  rewrite St, R1. split; auto. split; auto. split; auto. split; auto. split.
  - rewrite <- R3. auto.
  - intros j. rewrite L. unfold lookup. rewrite R3, R4. auto.
Qed.

(** C13 at the level of instructions. *)
Lemma set_global_reads host base next i k x v v1 c : valid v -> globals_ok v -> at_pos v i x ->
  first_class x -> exec host base next (ISetGlobal i k) v = (Ok c, v1) ->
  c = Continue next /\ stack v1 = stack v /\ reads host base next k v1 x /\
  (forall j o, j <> k -> reads host base next j v o -> reads host base next j v1 o) /\
  (forall j, j <> k -> unassigned host base next j v -> unassigned host base next j v1).
Proof.
  intros V G H Hx E.
  destruct (set_global_exec host base next i k x v v1 c V G H E)
    as [p [v0 [A [Hc [G1 [O1 [F1 [S1 [_ [_ L]]]]]]]]]].
  split; auto. split; auto. split; [|split].
  - apply reads_lookup; auto. left. exists p. rewrite L, Z.eqb_refl, O1. split; auto.
    destruct (ae_stored _ _ _ _ A) as [n ->]. rewrite stored_first_class; auto.
  - intros j o Hj. rewrite !reads_lookup by auto. rewrite L, O1. destruct (Z.eqb_spec k j); [congruence|].
    intros [[q [B C]]|B]; auto. left. exists q. split; auto. rewrite (ae_old _ _ _ _ A); auto.
    apply reach_root. eapply lookup_root; eauto.
  - intros j Hj. unfold unassigned. rewrite !push_global_exec by auto. rewrite L.
    destruct (Z.eqb_spec k j); [congruence|]. destruct (lookup v j) as [[q|]|]; auto; try discriminate.
    destruct (nth_error (objects v) q); discriminate.
Qed.

Lemma set_global_valid host base next i k x v v1 c : valid v -> globals_ok v -> at_pos v i x ->
  first_class x -> exec host base next (ISetGlobal i k) v = (Ok c, v1) -> valid v1 /\ globals_ok v1.
Proof.
  intros V G H Hx E.
  destruct (set_global_exec host base next i k x v v1 c V G H E)
    as [p [v0 [A [Hc [G1 [O1 [F1 [S1 [F [I L]]]]]]]]]].
  split; auto. apply inv_valid with (fun q => reach v q \/ q = p). rewrite F.
  assert (In x (stack v)) as Hin by (destruct H as [_ H]; eapply nth_error_In; eauto).
  apply inv_set_globals.
  - apply alloc_inv with x; auto.
    + intros n. rewrite stored_first_class by auto. apply (inv_stack _ _ (valid_inv v V)); auto.
    + intros n r. rewrite stored_first_class by auto. intros R. left. apply reach_root, root_stack with x; auto.
  - intros q Hq. apply I in Hq as [Hq|Hq]; [injection Hq; auto|]. left. apply reach_root, root_global; auto.
Qed.

(** The other instructions leave the globals alone. *)
Definition globals_kept (v v' : vm) : Prop := globals v' = globals v /\ globals_map v' = globals_map v.

Lemma globals_simple : simple globals_kept.
Proof.
  unfold globals_kept. constructor; simpl; try tauto; intros.
  - intuition congruence.
  - pose proof (push_object_heap_only o v) as H. unfold heap_only in H. tauto.
  - unfold stack_pop, mbind, mget, mset, mret, merr. destruct (stack v); simpl; auto.
    destruct (ustack v); simpl; auto.
  - unfold stack_pop_multiple, mbind, mget, mset, merr. destruct (_ <? _); simpl; auto.
    destruct (_ <? _); simpl; auto.
Qed.

#[export] Hint Resolve globals_simple : pres.

Section GlobalsKept.
  Variable host : Z -> M unit.
  Hypothesis Hhost : forall c v, globals_kept v (snd (host c v)).
  Ltac leaf := unfold globals_kept; simpl; tauto.
  Ltac go := repeat first [ solve [eauto with pres] |
    pres_step globals_kept (simple_refl _ globals_simple) (simple_trans _ globals_simple) leaf ].

  Lemma g_host c v : pres_at globals_kept (host c) v.
  Proof. apply Hhost. Qed.
  Lemma g_push_stack o v : pres_at globals_kept (push_stack_only o) v.
  Proof. unfold push_stack_only. go. Qed.
  Lemma g_push_ustack o v : pres_at globals_kept (push_ustack_only o) v.
  Proof. unfold push_ustack_only. go. Qed.
  Hint Resolve g_host g_push_stack g_push_ustack : pres.
  Lemma g_vector_fill p is : forall k v, pres_at globals_kept (vector_fill p k is) v.
  Proof. induction is as [|i is IH]; intros k v; simpl; go. Qed.
  Lemma g_vector_initialized p v : pres_at globals_kept (vector_initialized p) v.
  Proof. unfold vector_initialized. go. Qed.
  Hint Resolve g_vector_fill g_vector_initialized : pres.
  Lemma g_vector is v : pres_at globals_kept (vector_op is) v.
  Proof. unfold vector_op. go. Qed.
  Lemma g_make_vector x y v : pres_at globals_kept (make_vector_op x y) v.
  Proof. unfold make_vector_op. go. Qed.
  Hint Resolve g_vector g_make_vector : pres.
  Lemma g_bin b x y v : pres_at globals_kept (bin_op b x y) v.
  Proof.
    destruct b; try (apply s_bin; [apply globals_simple|discriminate]). unfold bin_op. go.
  Qed.
  Lemma g_ua_set p k q v : pres_at globals_kept (upvalue_array_set p k q) v.
  Proof. unfold upvalue_array_set. go. Qed.
  Hint Resolve g_bin g_ua_set : pres.
  Lemma g_capture p cs : forall k r v, pres_at globals_kept (capture_op p k cs r) v.
  Proof.
    induction cs as [|c cs IH]; intros k r v; simpl; [go|].
    apply (pres_get globals_kept). destruct (_ && _); [go|].
    apply (pres_bind globals_kept (simple_trans _ globals_simple)).
    2: { intros [u r'] v' _. go. }
    destruct (_ =? zlen _) eqn:E; [|go].
    pose proof (s_alloc globals_kept globals_simple (OUpvalue (UpStack (if c <? 0 then c else zlen (stack v) - 1 - c))) v) as H.
    unfold pres_at in *. destruct (alloc _ v) as [[u|e| |] v'] eqn:Ea; simpl in *; auto.
  Qed.
  Hint Resolve g_capture : pres.
  Lemma g_push_closure b c va t a cs v : pres_at globals_kept (push_closure_op b c va t a cs) v.
  Proof. unfold push_closure_op. go. Qed.
  Lemma g_enter b f r v : pres_at globals_kept (enter b r f) v.
  Proof. unfold enter, call_stack_push. go. Qed.
  Lemma g_return v : pres_at globals_kept return_op v.
  Proof.
    unfold pres_at, return_op, call_stack_pop, mbind, mget, mset, mret, merr.
    destruct (call_stack v) as [|f fs]; simpl; [apply (simple_refl _ globals_simple)|].
    destruct (uacs v); simpl; unfold globals_kept; auto.
  Qed.
  Hint Resolve g_push_closure g_enter g_return : pres.

  Lemma exec_globals_kept base next i v : (forall a k, i <> ISetGlobal a k) ->
    globals_kept v (snd (exec host base next i v)).
  Proof.
    intros N. change (pres_at globals_kept (exec host base next i) v).
    destruct i; try (exfalso; eapply N; reflexivity); unfold exec, funcall_op, apply_op, call_stack_push; go.
  Qed.
End GlobalsKept.

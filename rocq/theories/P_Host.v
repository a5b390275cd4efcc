(** Host calls in a well-typed machine. *)
From Coq Require Import ZArith List Lia Arith Bool ZifyBool ZifyNat.
Import ListNotations.
From Verif Require Import M_Base M_Heap M_Instr M_VM M_Host S_Heap S_VM S_Num S_Cyclic S_Globals S_Types S_Data S_Host P_Heap P_Sort P_VM P_Exec P_Num P_Valid P_Cyclic P_Globals P_Types P_Safe P_Safe2 P_Safe3 P_Safe4 P_Safe5 P_Safe6 P_Safe7.
Open Scope Z_scope.

(** * Positions *)

Lemma abs_get_index v i o : abs_get (stack v) (from_bottom (stack v) i) = Ok o -> at_index v i o /\ In o (stack v).
Proof.
  unfold abs_get, from_bottom. intros E.
  assert (In o (stack v)) as HI.
  { destruct (_ || _); [discriminate|]. destruct (nth_error _ _) eqn:N; [|discriminate]. injection E as <-. eapply nth_error_In; eauto. }
  split; auto. destruct (_ || _) eqn:C; [discriminate|].
  destruct (nth_error (stack v) _) as [x|] eqn:N; [|discriminate]. injection E as ->. unfold zlen in *.
  destruct (Z.ltb_spec i 0).
  - right. split; auto. rewrite <- N. f_equal. lia.
  - left. split; auto.
    assert (forall (l : list object) k x, nth_error l k = Some x -> nth_error (rev l) (length l - 1 - k) = Some x) as R.
    { induction l as [|y l IH]; intros [|k] z Hk; simpl in *; try discriminate.
      - injection Hk as ->. rewrite nth_error_app2; rewrite rev_length; [|lia]. replace (_ - _)%nat with 0%nat by lia. reflexivity.
      - assert (k < length l)%nat by (apply nth_error_Some; congruence).
        rewrite nth_error_app1; [|rewrite rev_length; lia]. rewrite <- (IH k z Hk). f_equal. lia. }
    apply R in N. rewrite <- N. f_equal. lia.
Qed.

Lemma sem_stack_get v i (Q : object -> vm -> Prop) (E : vm -> Prop) U : E v ->
  (forall o, at_index v i o -> In o (stack v) -> Q o v) -> sem v (stack_get i) Q E U.
Proof.
  intros He H. unfold stack_get. apply sem_get. apply sem_lift.
  - intros o Ho. apply abs_get_index in Ho as [A B]. auto.
  - auto.
  - unfold abs_get. destruct (_ || _) eqn:C; [discriminate|].
    destruct (nth_error _ _) eqn:N; [discriminate|]. apply nth_error_None in N. unfold zlen in *. lia.
Qed.

Lemma sem_get_top v (Q : object -> vm -> Prop) (E : vm -> Prop) U : E v ->
  (forall o, on_top v o -> In o (stack v) -> Q o v) -> sem v get_top Q E U.
Proof.
  intros He H. unfold get_top. apply sem_get. unfold on_top in H. destruct (stack v) as [|o s] eqn:Es; [apply sem_err; auto|].
  apply sem_ret. apply H; simpl; auto.
Qed.

Lemma sem_set_top v o (E : vm -> Prop) U : typed v -> E v -> val v o -> sem v (set_top o) (fun _ v' => typed v') E U.
Proof.
  intros T He V. unfold set_top. apply sem_get. destruct (stack v) as [|x s] eqn:Es; [apply sem_err; auto|].
  eapply sem_call; [reflexivity|]. pose proof (typed_replaced v 0 o T V) as H. rewrite Es in H. exact H.
Qed.

(** * Allocation *)

Lemma typed_exempt v p : typed_but (fun x => x = p) v -> (forall o, nth_error (objects v) p = Some o -> well_typed v o) -> typed v.
Proof.
  intros T H. constructor; try apply T. intros q o L _ E. destruct (Nat.eq_dec q p) as [->|N]; auto.
  eapply (ty_objects _ _ T); eauto.
Qed.

Lemma sem_alloc_any v o U : typed v ->
  (forall n v', keeps (reach v) v v' -> (free v <> [] -> keeps (live v) v v') -> well_typed v' (stored n o)) ->
  sem v (alloc o) (fun r v' => exists q, r = Some q /\ typed v' /\ new_object o v q v') typed U.
Proof.
  intros T W. unfold sem.
  destruct (alloc_typed_total _ o v T none_dec (fun _ => empty_none v)) as [v' [[q E]|[e [E _]]]]; rewrite E.
  - exists q. split; auto.
    destruct (alloc_typed (fun _ => False) (fun x => x = q) o v q v' T none_dec) as [T' N];
      [intros _; apply empty_none|intros ? ? ? []|intros ? []|intros ? []|left; reflexivity|exact E|].
    split; auto. apply typed_exempt with q; auto. intros x Hx. destruct (no_stored _ _ _ _ N) as [n En].
    rewrite En in Hx. injection Hx as <-. apply W; [apply N|]. intros F. apply (no_room _ _ _ _ N F).
  - apply (alloc_typed_err _ o v e v' T none_dec (empty_none v)) in E; [apply E|intros p []].
Qed.

Lemma gc_typed v : typed v -> exists v', garbage_collect v = Ok v' /\ typed v'.
Proof.
  intros T. pose proof (typed_is_valid v T) as [V1 [V2 V3]].
  destruct (gc_keeps_live v V1 V2) as [v' [E _]]. exists v'. split; auto.
  destruct (gc_live v v' V1 V2 E) as [R [L [N [Hl [G [K Rel]]]]]].
  assert (forall p, reach v p -> live v p) as RL by (intros p; apply typed_reach_live; auto).
  assert (keeps (reach v) v v') as KK.
  { intros p Hp Lp. split; [apply G; auto|]. intros x Hx. rewrite K by auto. eauto using like_refl. }
  pose proof (fun K p => points_keeps (reach v) v v' K p KK) as PK.
  destruct R as (R1 & R2 & R3 & R4 & R5 & R6 & R7 & R8).
  constructor.
  - intros p x Lp _ Hx. apply G in Lp. rewrite K in Hx by auto.
    apply (well_typed_keeps (reach v) v v' x KK).
    + intros q Hq. eapply reach_step; eauto.
    + eapply (ty_objects _ _ T); eauto.
  - rewrite R1. intros x Hx. pose proof (ty_stack _ _ T x Hx) as [F W]. split; auto.
    apply (well_typed_keeps (reach v) v v' x KK); auto. intros q Hq. eapply reach_in; eauto.
  - rewrite R2. intros p Hp. apply PK; auto with stable; [apply reach_root, root_ustack; auto|apply T; auto].
  - rewrite R3. intros p Hp. apply PK; auto with stable; [apply reach_root, root_global; auto|apply T; auto].
  - rewrite R5. intros i c p Hp. apply PK; auto with stable; [eapply reach_root, root_frame; eauto|eapply T; eauto].
  - rewrite R7. intros p Hp. apply PK; auto with stable; [apply reach_root, root_current; auto|apply T; auto].
  - unfold zlen. rewrite L. apply T.
  - rewrite L. auto.
  - auto.
Qed.

(** * Elements *)

Lemma sem_vector_place v p offset i (E : vm -> Prop) : typed v -> E v -> points v is_elements p ->
  0 <= offset <= max_size -> not_shrunk v (OVector (Some p) offset) ->
  exists cs len, nth_error (objects v) p = Some (OInternalVector cs len true) /\ live v p /\
    well_typed v (OInternalVector cs len true) /\
    (vector_place (objects v) (Some p) offset i = Err invalidValue \/
     vector_place (objects v) (Some p) offset i = Ok (cs, len, true) /\ (machine_integer i -> 0 <= offset + i < len)).
Proof.
  intros T He P A H. destruct (internal_points v p T P) as [cs [len [Ei [En [Wx [L Ed]]]]]].
  exists cs, len. split; auto. split; auto. split; auto.
  specialize (H p offset cs len true eq_refl En). unfold vector_place. rewrite Ei. cbn [bind].
  destruct Wx as [_ [B _]]. rewrite usz_small by lia. destruct (Z.leb_spec (len - offset) (usz i)); [left; auto|].
  right. split; auto. intros M. unfold machine_integer, usz, max_size in *.
  destruct (Z.leb_spec 0 i).
  - rewrite Z.mod_small in H0 by lia. lia.
  - rewrite <- (Z_mod_plus_full _ 1), Z.mod_small in H0 by lia. lia.
Qed.

Lemma sem_vector_get v p offset i (E : vm -> Prop) U : typed v -> E v -> well_typed v (OVector p offset) ->
  machine_integer i -> not_shrunk v (OVector p offset) ->
  sem v (vector_get_element p offset i) (fun r v' => v' = v /\ exists q, r = Some q /\ points v first_class q) E U.
Proof.
  intros T He [A P] M H. unfold vector_get_element. apply sem_get. apply sem_bind.
  destruct p as [p|]; [|exact He].
  destruct (sem_vector_place v p offset i E T He (P p eq_refl) A H) as [cs [len [En [L [W [Ep|[Ep R]]]]]]]; rewrite Ep.
  - exact He.
  - eapply sem_call; [reflexivity|]. cbn beta iota.
    destruct (element_read v cs len (offset + i) W (R M)) as [q [Ec Pq]]. rewrite Ec. eapply sem_call; [reflexivity|]. eauto.
Qed.

Lemma sem_vector_set_element v p offset i q (E : vm -> Prop) U : typed v -> E v -> well_typed v (OVector p offset) ->
  machine_integer i -> not_shrunk v (OVector p offset) -> points v first_class q ->
  sem v (vector_set_element p offset i (Some q)) (fun _ v' => typed v') E U.
Proof.
  intros T He [A P] M H Pq. unfold vector_set_element. apply sem_get. apply sem_bind.
  destruct p as [p|]; [|exact He].
  destruct (sem_vector_place v p offset i E T He (P p eq_refl) A H) as [cs [len [En [L [W [Ep|[Ep R]]]]]]]; rewrite Ep.
  - exact He.
  - eapply sem_call; [reflexivity|]. cbn beta iota. destruct W as [_ W].
    destruct (buffer_set _ cs len (offset + i) (Some q) W (R M)) as [cs' [Ec W']]; [eauto|].
    apply sem_bind. rewrite Ec. eapply sem_call; [reflexivity|].
    eapply sem_write; eauto; simpl; auto. eapply typed_write; eauto; simpl; auto.
Qed.

Lemma sem_string_get v p offset len i (E : vm -> Prop) U : typed v -> E v -> well_typed v (OString p offset len) ->
  0 <= i < len -> sem v (string_get_element p i) (fun n v' => v' = v /\ machine_integer n) E U.
Proof.
  intros T He W H. unfold string_get_element. apply sem_get. destruct p as [p|]; [|exact He].
  destruct W as [A [B P]]. destruct (object_points v _ p T P) as [x [Ed [En [K [Wx L]]]]].
  apply sem_bind. eapply sem_call; [exact Ed|]. destruct x; simpl in K; try contradiction.
  destruct s as [b|]; simpl in K; [|lia].
  apply sem_lift.
  - intros n Hn. split; auto. eapply text_byte; eauto.
  - auto.
  - unfold array_get, zlen in *. destruct (Z.ltb_spec i 0); [lia|].
    destruct (nth_error b _) eqn:N; [discriminate|]. apply nth_error_None in N. lia.
Qed.

Lemma sem_closure_upvalue v u i (E : vm -> Prop) U n b a r : typed v -> E v -> well_typed v (OClosure n b u a r) ->
  captures v (OClosure n b u a r) i ->
  sem v (closure_upvalue u i) (fun e v' => v' = v /\
    match e with UpStack _ => True | UpObject p => exists q, p = Some q /\ points v first_class q | UpUpvalue _ => False end) E U.
Proof.
  intros T He [_ [_ [p [-> P]]]] H. unfold closure_upvalue. apply sem_get.
  destruct (object_points v _ p T P) as [x [Ed [En [K [Wx L]]]]].
  apply sem_bind. eapply sem_call; [exact Ed|]. destruct x as [| | | | | | | | | | | | | | |id cs len| | | |]; simpl in K; try contradiction.
  destruct Wx as [[W1 W] Wl]. specialize (H _ _ _ _ _ _ _ _ eq_refl En). destruct W as [l [-> W]]; [lia|].
  destruct (W (Z.to_nat i)) as [q [Eq Pq]]; [lia|].
  assert (cell_get (Some l) i = Ok q) as Ec.
  { unfold cell_get, array_get. destruct (Z.ltb_spec i 0); [lia|]. rewrite Eq. reflexivity. }
  apply sem_bind. eapply sem_call; [unfold mlift; rewrite Ec; reflexivity|].
  pose proof (upvalue_end_typed v T (length (objects v)) true q Pq) as Hu.
  apply sem_bind. destruct (upvalue_end _ true (objects v) q) as [[z u']|e| |]; try exact I; try exact He.
  2: { destruct Hu; discriminate. }
  eapply sem_call; [reflexivity|]. cbn beta iota. destruct Hu as [Lz [Ez Hu]].
  apply sem_ret. auto.
Qed.

Lemma sem_closure_get v u i (E : vm -> Prop) U n b a r : typed v -> E v -> well_typed v (OClosure n b u a r) ->
  captures v (OClosure n b u a r) i -> sem v (closure_get u i) (fun o v' => v' = v /\ val v o) E U.
Proof.
  intros T He W H. unfold closure_get. apply sem_bind.
  eapply sem_weaken; [eapply sem_closure_upvalue; eauto|]. intros e v' [-> He']. apply sem_get.
  destruct e as [k|p|p]; [| |contradiction].
  - apply sem_lift.
    + intros o Ho. split; auto. apply val_in; auto. unfold abs_get in Ho. destruct (_ || _); [discriminate|].
      destruct (nth_error _ _) eqn:N; [|discriminate]. injection Ho as <-. eapply nth_error_In; eauto.
    + auto.
    + unfold abs_get. destruct (_ || _) eqn:C; [discriminate|].
      destruct (nth_error _ _) eqn:N; [discriminate|]. apply nth_error_None in N. unfold zlen in *. lia.
  - destruct He' as [q [-> P]]. apply sem_deref_val; auto.
Qed.

Lemma sem_closure_set v u i q (E : vm -> Prop) U n b a r : typed v -> E v -> well_typed v (OClosure n b u a r) ->
  captures v (OClosure n b u a r) i -> points v first_class q ->
  sem v (closure_set u i (Some q)) (fun _ v' => typed v') E U.
Proof.
  intros T He W H Pq. unfold closure_set. apply sem_bind.
  eapply sem_weaken; [eapply sem_closure_upvalue; eauto|]. intros e v' [-> He'].
  destruct (val_points v q T Pq) as [o [Ed V]]. apply sem_bind. eapply sem_call; [exact Ed|]. apply sem_get.
  destruct e as [k|p|p]; [| |contradiction].
  - unfold abs_set. destruct (_ || _) eqn:C; [exact He|].
    apply sem_bind. eapply sem_call; [reflexivity|]. eapply sem_call; [reflexivity|]. apply typed_replaced; auto.
  - destruct He' as [y [-> P]]. destruct (object_points v _ y T P) as [x [Ed' [Ex [K [Wx Ly]]]]].
    assert (like x o) as Lk.
    { destruct V as [Fo _]. destruct x; simpl in K; try contradiction; destruct o; simpl in Fo; try contradiction; simpl; auto. }
    eapply sem_write; eauto; [apply V|]. eapply typed_write; eauto. apply V.
Qed.

(** * The calls *)

Definition ok_call (v : vm) (m : M answer) : Prop := sem v m (fun _ v' => typed v') typed False.

Lemma ok_go v (m : M unit) : sem v m (fun _ v' => typed v') typed False -> ok_call v (m ;;; mret Nothing).
Proof. intros H. apply sem_bind. eapply sem_weaken; [exact H|]. intros u v' T. apply sem_ret. auto. Qed.

Lemma ok_top v (f : object -> M answer) : typed v -> (forall o, on_top v o -> val v o -> In o (stack v) -> ok_call v (f o)) ->
  ok_call v (mbind get_top f).
Proof. intros T H. apply sem_bind. apply sem_get_top; auto. intros o A B. apply H; auto. apply val_in; auto. Qed.

Lemma sem_top v (f : object -> M unit) : typed v ->
  (forall o, on_top v o -> val v o -> In o (stack v) -> sem v (f o) (fun _ v' => typed v') typed False) ->
  sem v (mbind get_top f) (fun _ v' => typed v') typed False.
Proof. intros T H. apply sem_bind. apply sem_get_top; auto. intros o A B. apply H; auto. apply val_in; auto. Qed.

Lemma sem_new_text v s (f : optr -> object) : typed v -> zlen s <= max_size -> Forall byte s ->
  (forall v' q, points v' (is_text (zlen s)) q -> val v' (f (Some q))) ->
  sem v (p <~ alloc (OInternalString (Some s)) ;; stack_push (f p)) (fun _ v' => typed v') typed False.
Proof.
  intros T L B H. apply sem_bind. eapply sem_weaken; [apply sem_alloc; [exact T| | |]|].
  - exact I.
  - simpl. split; auto. intros b E. injection E as <-. auto.
  - intros p R. inversion R.
  - intros r v' [q [-> [T' N]]]. apply sem_push; auto. apply H. eapply new_points; eauto.
    intros n. destruct s; simpl; [cbn; lia|]. lia.
Qed.

Lemma sem_global_set v p k : typed v -> globals_ok v -> points v first_class p ->
  sem v (global_set (Some p) k) (fun _ v' => typed v') typed False.
Proof.
  intros T G P. destruct (global_set_spec v (Some p) k G) as [v' [E [_ [_ [HI F]]]]]. eapply sem_call; [exact E|].
  rewrite F. apply typed_set_globals; auto. intros q Hq. destruct (HI _ Hq) as [Eq|Eq]; [injection Eq as ->; auto|].
  apply T; auto.
Qed.

Lemma sem_list_length v l : typed v -> opoints v is_cons l ->
  (exists b, list_is_cyclic (objects v) l = Ok b) /\
  (list_is_cyclic (objects v) l = Ok false -> exists n, list_length (length (objects v)) (objects v) l = Ok n).
Proof.
  intros T W. destruct l as [p|].
  - destruct (W p eq_refl) as [L _]. pose proof (typed_chain_inside v p T L) as CI.
    destruct (cyclic_spec _ _ CI) as [b [E B]]. rewrite E. split; eauto. intros H. injection H as ->.
    destruct (list_length_spec _ _ CI) with (fuel := length (objects v)) (k := 0%nat) (q := p) as [n [En _]].
    + rewrite <- B. discriminate.
    + constructor.
    + lia.
    + eauto.
  - split; [eexists; reflexivity|]. intros _. destruct (length (objects v)); eexists; reflexivity.
Qed.

(** Assignments to an element of the value at [i]. *)
Lemma sem_assign v (i : Z) (f : optr -> object -> M unit) : typed v ->
  (forall x s q v', In x (stack v) -> at_index v i s -> typed v' -> new_object x v q v' -> points v' first_class q ->
     val v' s -> In s (stack v') -> (forall p, refers s p -> reach v p) -> sem v' (f (Some q) s) (fun _ v' => typed v') typed False) ->
  sem v (x <~ get_top ;; p <~ alloc x ;; s <~ stack_get i ;; f p s) (fun _ v' => typed v') typed False.
Proof.
  intros T H. apply sem_top; [exact T|]. intros x A V Hx. apply sem_bind.
  eapply sem_weaken; [apply sem_alloc_in; auto|]. intros r v' [q [-> [T' [N Pq]]]].
  apply sem_bind. apply sem_stack_get; auto. intros s As Hs.
  pose proof (new_stack _ _ _ _ N) as ES.
  apply (H x s q v'); auto.
  - unfold at_index in *. rewrite ES in As. auto.
  - apply val_in; auto.
  - intros p R. apply (reach_in v s); auto. congruence.
Qed.

Lemma sem_set_cons v l (f : optr -> optr -> object) : typed v -> well_typed v (OList l) -> l <> None ->
  (forall a d, well_typed v (OCons a d) -> well_typed v (f a d) /\ is_cons (f a d)) ->
  sem v (set_cons l f) (fun _ v' => typed v') typed False.
Proof.
  intros T W N H. destruct l as [l|]; [|congruence]. destruct (object_points v _ l T (W l eq_refl)) as [x [Ed [En [K [Wx L]]]]].
  unfold set_cons. apply sem_bind. eapply sem_call; [exact Ed|]. destruct x; simpl in K; try contradiction.
  destruct (H _ _ Wx) as [Wf Cf]. assert (like (OCons car cdr) (f car cdr)) as Lk by (destruct (f car cdr); simpl in *; auto; contradiction).
  eapply sem_write; eauto. eapply typed_write; eauto.
Qed.

Lemma shrunk_new v s x q v' : new_object x v q v' -> (forall p, refers s p -> reach v p) -> not_shrunk v s -> not_shrunk v' s.
Proof.
  intros N R H p offset cs len ini -> E. rewrite (no_same _ _ _ _ N) in E; [eapply H; eauto|]. apply R. constructor.
Qed.
Lemma captures_new v s x q v' i : new_object x v q v' -> (forall p, refers s p -> reach v p) -> captures v s i -> captures v' s i.
Proof.
  intros N R H n b p a r id cs len -> E. rewrite (no_same _ _ _ _ N) in E; [eapply H; eauto|]. apply R. constructor.
Qed.

(** C53, one call. *)
Lemma perform_typed v c : typed v -> globals_ok v -> proper v c -> ok_call v (perform c).
Proof.
  intros T G P. destruct c; unfold perform; cbn zeta; try (apply ok_go); unfold ok_call; simpl in P.
  - apply sem_get. apply sem_ret. auto.
  - unfold host_push. apply sem_bind. apply sem_stack_get; auto. intros o _ Ho. apply sem_push; auto. apply val_in; auto.
  - apply sem_bind. eapply sem_weaken; [apply sem_pop; auto|]. intros o v' H. apply sem_ret. apply H.
  - eapply sem_weaken; [apply sem_pop_multiple; auto|]. intros o v' H. apply H.
  - unfold host_popAll. apply sem_get. eapply sem_weaken; [apply sem_pop_multiple; auto|]. intros o v' H. apply H.
  - unfold host_copyFromTop. apply sem_top; [exact T|]. intros o _ V _. unfold stack_set. apply sem_get.
    apply sem_bind. unfold abs_set. destruct (_ || _); [exact T|]. eapply sem_call; [reflexivity|].
    eapply sem_call; [reflexivity|]. apply typed_replaced; auto.
  - apply ok_top; [exact T|]. intros. exact T.
  - unfold sem, host_garbageCollect. destruct (gc_typed v T) as [v' [-> T']]. auto.
  - unfold host_softReset, host_popAll. apply sem_bind. apply sem_get. eapply sem_weaken; [apply sem_pop_multiple; auto|].
    intros _ v1 [T1 _]. apply sem_get. destruct (_ <? _); [apply sem_err; auto|]. eapply sem_call; [reflexivity|].
    apply typed_set_calls; auto. intros ? ? ? [].
  - unfold host_pushGlobal. apply sem_bind. unfold sem. rewrite global_get_lookup by auto. destruct (lookup v key) as [p|] eqn:El; auto.
    apply sem_same_push; auto. apply sem_pointee; auto. intros q ->. apply T.
    unfold lookup in El. destruct (find_key _ _ _); [|discriminate]. eapply nth_error_In; eauto.
  - unfold host_setGlobal. apply sem_get. rewrite P. apply sem_err. auto.
  - unfold host_linkCFunction. apply sem_bind. eapply sem_weaken; [apply sem_alloc; [exact T| | |]|].
    + exact I.
    + exact I.
    + intros p R. inversion R.
    + intros r v1 [q [-> [T1 N]]]. apply sem_global_set; auto.
      * pose proof (no_roots _ _ _ _ N) as (A1 & A2 & A3 & A4 & _). unfold globals_ok in *. congruence.
      * eapply new_points; [eassumption|]. intros n. exact I.
  - apply ok_top; [exact T|]. intros. exact T.
  - apply ok_top; [exact T|]. intros. exact T.
  - apply ok_top; [exact T|]. intros. exact T.
  - (* empty vector *) apply ok_top; [exact T|]. intros o _ [_ W] _. apply sem_get. destruct o; try (apply sem_ret; exact T).
    apply sem_bind. unfold empty_vector. destruct v0 as [p|]; [|apply sem_ret; auto].
    destruct W as [A Pp]. destruct (internal_points v p T (Pp p eq_refl)) as [cs [len [-> _]]]. simpl. apply sem_ret. auto.
  - (* empty *) apply ok_top; [exact T|]. intros o _ [_ W] _. apply sem_get. destruct o; try (apply sem_ret; exact T).
    + destruct upvalues as [u|]; [|apply sem_ret; auto]. destruct W as [_ [_ [q [Eq Pq]]]]. injection Eq as <-.
      destruct (object_points v _ u T Pq) as [x [Ed [En [K [Wx L]]]]]. apply sem_bind. eapply sem_call; [exact Ed|].
      destruct x; simpl in K; try contradiction. apply sem_ret. auto.
    + apply sem_bind. unfold empty_vector. destruct v0 as [p|]; [|apply sem_ret; auto].
      destruct W as [A Pp]. destruct (internal_points v p T (Pp p eq_refl)) as [cs [len [-> _]]]. simpl. apply sem_ret. auto.
  - apply sem_push; [exact T|apply val_simple; exact I].
  - unfold host_setBoolean. apply sem_top; [exact T|]. intros o _ V _. destruct o; try (apply sem_err; auto; fail).
    apply sem_set_top; [exact T|exact T|apply val_simple; exact I].
  - apply ok_top; [exact T|]. intros o _ V _. destruct o; try (apply sem_err; auto; fail). apply sem_ret. auto.
  - apply sem_push; auto. apply val_int. unfold machine_integer. lia.
  - unfold host_setInteger. apply sem_top; [exact T|]. intros o _ V _. destruct o; try (apply sem_err; auto; fail).
    apply sem_set_top; auto. apply val_int; auto.
  - apply ok_top; [exact T|]. intros o _ V _. destruct o; try (apply sem_err; auto; fail). apply sem_ret. auto.
  - apply ok_top; [exact T|]. intros o _ V _. destruct o; try (apply sem_err; auto; fail). apply sem_ret. auto.
  - apply sem_push; [exact T|apply val_simple; exact I].
  - unfold host_setFloat. apply sem_top; [exact T|]. intros o _ V _. destruct o; try (apply sem_err; auto; fail).
    apply sem_set_top; [exact T|exact T|apply val_simple; exact I].
  - apply ok_top; [exact T|]. intros o _ V _. destruct o; try (apply sem_err; auto; fail). apply sem_ret. auto.
  - destruct P as [L B]. apply (sem_new_text v s (fun p => OString p 0 (zlen s))); auto.
    intros v' q Pq. split; [exact I|]. split; [unfold zlen; lia|]. split; auto.
  - (* copy string *) apply ok_top; [exact T|]. intros o _ [_ W] _. apply sem_get. destruct o; try (apply sem_err; auto; fail).
    destruct (len =? 0) eqn:Z0; [apply sem_ret; auto|]. destruct s as [p|]; [|apply sem_err; auto].
    destruct W as [A [B Pp]]. destruct (object_points v _ p T Pp) as [x [Ed [En [K [Wx L]]]]]. destruct x; simpl in K; try contradiction.
    destruct s as [b|]; simpl in K; [|lia].
    apply sem_bind. eapply sem_call; [unfold mlift, string_bytes; rewrite En; reflexivity|].
    apply sem_bind. apply sem_lift.
    + intros. exact T.
    + auto.
    + unfold slice, zlen in *. destruct (_ && _) eqn:C; [discriminate|lia].
  - destruct P as [M [L B]]. apply (sem_new_text v name (fun p => OSymbol id p)); auto.
    intros v' q [Lq [x [Eq Kq]]]. split; [exact I|]. split; auto. intros z Ez. injection Ez as <-. split; auto.
    exists x. split; auto. destruct x; simpl in *; auto. unfold zlen in Kq. lia.
  - apply sem_push; auto. split; [exact I|]. split; auto. intros q; discriminate.
  - (* symbol name *) apply ok_top; [exact T|]. intros o _ [_ W] _. apply sem_get. destruct o; try (apply sem_err; auto; fail).
    destruct s as [p|]; [|apply sem_ret; auto]. destruct W as [A Pp].
    destruct (object_points v _ p T (Pp p eq_refl)) as [x [Ed [En [K [Wx L]]]]]. destruct x; simpl in K; try contradiction.
    apply sem_bind. unfold mlift, string_bytes. rewrite En. destruct s; (eapply sem_call; [reflexivity|]; apply sem_ret; auto).
  - apply ok_top; [exact T|]. intros o _ V _. destruct o; try (apply sem_err; auto; fail). apply sem_ret. auto.
  - unfold host_pushNewType. apply sem_get. apply sem_bind. eapply sem_call; [reflexivity|].
    apply sem_push; [apply typed_user_type; auto|apply val_simple; exact I].
  - apply sem_push; [exact T|apply val_simple; exact I].
  - apply ok_top; [exact T|]. intros o _ V _. destruct o; try (apply sem_err; auto; fail). apply sem_ret. auto.
  - (* push composite *) unfold host_pushComposite. apply sem_bind. eapply sem_weaken; [apply sem_alloc; [exact T| | |]|].
    + exact I.
    + intros q; discriminate.
    + intros p R. inversion R.
    + intros r v1 [p [-> [T1 N1]]].
      assert (free v <> []) as F by (intros F; rewrite F in P; simpl in P; lia).
      destruct (no_room _ _ _ _ N1 F) as [Ef _].
      assert (free v1 <> []) as F1 by (intros F1; rewrite Ef, F1 in P; simpl in P; lia).
      assert (points v1 first_class p) as Pp by (eapply new_points; [eassumption|]; intros n; exact I).
      apply sem_bind. eapply sem_weaken; [apply sem_alloc_any; [exact T1|]|].
      * intros n v2 _ K. specialize (K F1). simpl.
        assert (opoints v2 first_class (Some p)) as H.
        { intros z Ez. injection Ez as <-. apply (points_keeps (live v1) v1); auto with stable. apply Pp. }
        auto.
      * intros r v2 [c [-> [T2 N2]]]. apply sem_push; auto. split; [exact I|]. exists c. split; auto.
        eapply new_points; [eassumption|]. intros n. exact I.
  - apply ok_top; [exact T|]. intros o _ [_ W] _. destruct o; try (apply sem_err; auto; fail).
    apply sem_bind. eapply sem_weaken; [apply sem_composite_get; auto|]. intros [[t x] f] v' [-> _]. apply sem_ret. auto.
  - unfold host_pushCompositeField. apply sem_top; [exact T|]. intros o _ [_ W] _. destruct o; try (apply sem_err; auto; fail).
    apply sem_bind. eapply sem_weaken; [apply sem_composite_get; auto|].
    intros [[t x] f] v' [-> [p [_ [_ [_ [Px Pf]]]]]]. apply sem_same_push; auto. apply sem_pointee; auto. destruct function; auto.
  - (* set composite *) unfold host_setCompositeField. apply sem_top; [exact T|]. intros x _ V Hx. apply sem_get.
    assert (forall o, In o (stack v) -> sem v (match o with
      | OComposite c => p <~ alloc x ;; ' (t, a, f) <~ composite_get c ;;
          write c (if function then OInternalComposite t a p else OInternalComposite t p f)
      | _ => merr invalidValue end) (fun _ v' => typed v') typed False) as H.
    { intros o Ho. destruct o; try (apply sem_err; exact T).
      apply sem_bind. eapply sem_weaken; [apply sem_alloc_in; auto|]. intros r v1 [p [-> [T1 [N1 Pp]]]].
      assert (val v1 (OComposite c)) as Vx by (apply val_in; auto; rewrite (new_stack _ _ _ _ N1); auto).
      apply sem_bind. eapply sem_weaken; [apply sem_composite_get; auto; apply Vx|].
      intros [[t a] f] v' [-> [q [-> [L [En [Pa Pf]]]]]]. simpl in *.
      set (o := if function then OInternalComposite t a (Some p) else OInternalComposite t (Some p) f).
      assert (well_typed v1 o /\ like (OInternalComposite t a f) o) as [Wo Lo].
      { unfold o. destruct function; simpl; split; auto; split; auto; intros z E; injection E as <-; auto. }
      eapply sem_write; eauto. eapply typed_write; eauto. }
    apply sem_bind. destruct function.
    + apply sem_lift.
      * intros o Ho. apply H. unfold abs_get in Ho. destruct (_ || _); [discriminate|].
        destruct (nth_error _ _) eqn:Nt; [|discriminate]. injection Ho as <-. eapply nth_error_In; eauto.
      * auto.
      * unfold abs_get. destruct (_ || _) eqn:C; [discriminate|].
        destruct (nth_error _ _) eqn:Nt; [discriminate|]. apply nth_error_None in Nt. unfold zlen in *. lia.
    + apply sem_stack_get; auto.
  - apply sem_push; [exact T|apply val_simple; exact I].
  - unfold host_pushCons. apply sem_bind. eapply sem_weaken; [apply sem_alloc; [exact T| | |]|].
    + exact I.
    + split; intros q; discriminate.
    + intros p R. inversion R.
    + intros r v1 [p [-> [T1 N1]]]. apply sem_push; auto. split; [exact I|]. intros q Eq. injection Eq as <-.
      eapply new_points; [eassumption|]. intros n. exact I.
  - (* push vector *) subst n. unfold host_pushVector.
    assert (sem v (nil <~ alloc (OList None) ;;
           p <~ alloc (OInternalVector (Some (repeat (Cell None) (Z.to_nat 0))) 0 true) ;;
           stack_push (OVector p 0)) (fun _ v' => typed v') typed False) as H.
    { apply sem_bind. eapply sem_weaken; [apply sem_alloc; [exact T| | |]|].
      - exact I.
      - intros q; discriminate.
      - intros p R. inversion R.
      - intros r v1 [p [-> [T1 N1]]]. apply sem_bind. eapply sem_weaken; [apply sem_alloc_any; [exact T1|]|].
        + intros n v2 _ _. simpl. split; auto. split; [unfold max_size; lia|]. intros Hl. lia.
        + intros r v2 [c [-> [T2 N2]]]. apply sem_push; auto. split; [exact I|]. split; [unfold max_size; lia|].
          intros q Eq. injection Eq as <-. eapply new_points; [eassumption|]. intros n. exact I. }
    unfold sem, swallow in *. destruct (mbind _ _ v) as [[a|e| |] v']; auto.
  - apply ok_top; [exact T|]. intros o _ V _. destruct o; try (apply sem_err; auto; fail). apply sem_ret. auto.
  - apply ok_top; [exact T|]. intros o _ V _. destruct o; try (apply sem_err; auto; fail). apply sem_ret. auto.
  - apply ok_top; [exact T|]. intros o _ V _. destruct o; try (apply sem_err; auto; fail). apply sem_ret. auto.
  - unfold host_pushClosureBytecode. apply sem_top; [exact T|]. intros o Ho V _. specialize (P o Ho).
    destruct o; try (apply sem_err; auto; fail). contradiction.
  - (* first *)
    unfold host_pushFirst. apply sem_top; [exact T|]. intros o Ho [F W] _. specialize (P o Ho). apply sem_same_push; auto.
    assert (forall m, sem v m (fun r v' => v' = v /\ val v r) (fun _ => False) False ->
      sem v (or_garbage m None) (fun r v' => v' = v /\ val v r) typed False) as HG.
    { intros m H. unfold sem, or_garbage in *. destruct (m v) as [[a|e| |] v']; auto. }
    destruct o; try contradiction.
    + apply HG. apply sem_bind. destruct s as [p|]; [|destruct W as [_ W]; lia].
      unfold string_get_element. apply sem_get.
      destruct W as [A [B Pp]]. destruct (object_points v _ p T Pp) as [x [Ed [En [K [Wx L]]]]].
      apply sem_bind. eapply sem_call; [exact Ed|]. destruct x; simpl in K; try contradiction.
      destruct s as [b|]; simpl in K; [|lia].
      apply sem_lift.
      * intros n Hn. apply sem_ret. split; auto. apply val_int. eapply text_byte; eauto.
      * intros e H. unfold array_get in H. change (0 <? 0) with false in H. cbn iota in H. destruct (nth_error b _); discriminate.
      * unfold array_get, zlen in *. change (0 <? 0) with false. cbn iota.
        destruct (nth_error b _) eqn:N; [discriminate|]. apply nth_error_None in N. simpl in N. lia.
    + destruct l as [p|]; [|apply sem_ret; auto with val].
      destruct (object_points v _ p T (W p eq_refl)) as [x [Ed [En [K [Wx L]]]]].
      apply sem_bind. eapply sem_call; [exact Ed|]. destruct x; simpl in K; try contradiction.
      apply sem_unbox; auto. apply Wx.
    + apply HG. destruct P as [p [ofs [cs [len [ini [Ep [Enp Hl]]]]]]]. injection Ep as -> ->. destruct W as [A Pp].
      destruct (internal_points v p T (Pp p eq_refl)) as [cs' [len' [Ei [En [Wx [L Ed]]]]]].
      rewrite En in Enp. injection Enp as <- <- <-.
      unfold vector_get_element. apply sem_bind. apply sem_get. apply sem_bind. apply sem_lift.
      * intros [[cs2 len2] ini2] E. unfold vector_place in E. rewrite Ei in E. cbn [bind] in E.
        destruct (_ <=? _); [discriminate|]. injection E as <- <- <-.
        destruct (element_read v cs' len' (ofs + 0) Wx) as [q [Ec Pq]]; [lia|]. rewrite Ec.
        eapply sem_call; [reflexivity|]. apply sem_deref_val; auto.
      * intros e H. unfold vector_place in H. rewrite Ei in H. cbn [bind] in H. destruct Wx as [_ [B _]].
        rewrite usz_small in H by lia. change (usz 0) with 0 in H. destruct (Z.leb_spec (len' - ofs) 0); [lia|discriminate].
      * unfold vector_place. rewrite Ei. cbn [bind]. destruct (_ <=? _); discriminate.
  - (* rest *)
    unfold host_pushRest. apply sem_top; [exact T|]. intros o Ho [F W] Hin. specialize (P o Ho). apply sem_get. apply sem_same_push; auto.
    assert (val v o) as V by (split; auto).
    destruct o; try contradiction.
    + unfold sem, or_garbage. destruct (_ <=? _) eqn:C; cbn; auto. split; auto. split; [exact I|].
      destruct s as [p|]; simpl in *.
      * destruct W as [A [B Pp]]. split; [|auto]. destruct (Z.eq_dec offset max_size) as [->|Ne]; [unfold max_size, usz in *; cbn in C; lia|].
        rewrite usz_small in C by lia. lia.
      * destruct W as [-> ->]. change (usz (0 + 1)) with 1 in C. lia.
    + destruct l as [p|]; [|apply sem_ret; auto with val].
      destruct (object_points v _ p T (W p eq_refl)) as [x [Ed [En [K [Wx L]]]]].
      apply sem_bind. eapply sem_call; [exact Ed|]. destruct x; simpl in K; try contradiction.
      apply sem_unbox; auto. apply Wx.
    + destruct v0 as [p|]; [|contradiction]. destruct W as [A Pp].
      destruct (internal_points v p T (Pp p eq_refl)) as [cs [len [Ei [En [Wx [L Ed]]]]]]. rewrite Ei.
      apply sem_bind. eapply sem_call; [reflexivity|]. cbn beta iota.
      unfold sem, or_garbage. destruct (_ <=? _) eqn:C; cbn; auto. split; auto. split; [exact I|]. simpl. split; auto.
      destruct Wx as [_ [B _]]. destruct (Z.eq_dec offset max_size) as [->|Ne]; [unfold max_size, usz in *; cbn in C; lia|].
      rewrite usz_small in C by lia. lia.
  - (* set first *)
    unfold host_setFirst. apply (sem_assign v i (fun p s => match s with
      | OList None => merr invalidValue
      | OList l => set_cons l (fun _ d => OCons p d)
      | OVector e offset => vector_set_element e offset 0 p
      | OClosure _ _ u _ _ => closure_set u 0 p
      | _ => merr invalidValue end)); auto.
    intros x s q v' Hx As T' N Pq [Fs Ws] Hs R. destruct (P s As) as [NS CA].
    destruct s; try (apply sem_err; exact T').
    + destruct l as [l|]; [|apply sem_err; exact T']. apply sem_set_cons; auto; [discriminate|].
      intros a d [Wa Wd]. split; [|exact I]. split; auto. intros z Ez. injection Ez as <-. destruct Pq as [Lq [y [Ey Fy]]].
      split; auto. exists y. split; auto. left; auto.
    + eapply sem_closure_set; eauto. eapply captures_new; eauto.
    + apply sem_vector_set_element; auto; [unfold machine_integer; lia|]. eapply shrunk_new; eauto.
  - (* set rest *)
    unfold host_setRest. apply (sem_assign v i (fun p s => match s with
      | OList None => merr invalidValue
      | OList l => set_cons l (fun a _ => OCons a p)
      | _ => merr invalidValue end)); auto.
    intros x s q v' Hx As T' N Pq [Fs Ws] Hs R.
    destruct s; try (apply sem_err; exact T').
    destruct l as [l|]; [|apply sem_err; exact T']. apply sem_set_cons; auto; [discriminate|].
    intros a d [Wa Wd]. split; [|exact I]. split; auto. intros z Ez. injection Ez as <-. destruct Pq as [Lq [y [Ey Fy]]].
    split; auto. exists y. split; auto. left; auto.
  - (* push element *)
    destruct P as [M P]. unfold host_pushElement. apply sem_top; [exact T|]. intros o Ho [F W] _. specialize (P o Ho). apply sem_get. apply sem_same_push; auto.
    destruct o; try (apply sem_err; exact T); try contradiction.
    + apply sem_bind. eapply sem_weaken; [eapply sem_string_get; eauto|]. intros n v' [-> Mn]. apply sem_ret. split; auto. apply val_int; auto.
    + eapply sem_closure_get; eauto.
    + apply sem_bind. eapply sem_weaken; [apply sem_vector_get; auto|]. intros r v' [-> [q [-> Pq]]]. apply sem_deref_val; auto.
  - (* set element *)
    destruct P as [M P]. unfold host_setElement. apply (sem_assign v at_ (fun p s => match s with
      | OList None => merr invalidValue
      | OList l => set_cons l (fun _ d => OCons p d)
      | OVector e offset => vector_set_element e offset i p
      | OString _ _ _ => merr invalidValue
      | OClosure _ _ u _ _ => closure_set u i p
      | _ => mret tt end)); auto.
    intros x s q v' Hx As T' N Pq [Fs Ws] Hs R. destruct (P s As) as [NS CA].
    destruct s; try (apply sem_err; exact T'); try (apply sem_ret; exact T').
    + destruct l as [l|]; [|apply sem_err; exact T']. apply sem_set_cons; auto; [discriminate|].
      intros a d [Wa Wd]. split; [|exact I]. split; auto. intros z Ez. injection Ez as <-. destruct Pq as [Lq [y [Ey Fy]]].
      split; auto. exists y. split; auto. left; auto.
    + eapply sem_closure_set; eauto. eapply captures_new; eauto.
    + apply sem_vector_set_element; auto. eapply shrunk_new; eauto.
  - (* length *)
    apply ok_top; [exact T|]. intros o _ [_ W] _. apply sem_get. destruct o; try (apply sem_err; exact T); try (apply sem_ret; exact T).
    + destruct (sem_list_length v l T W) as [[b Eb] H]. apply sem_bind. rewrite Eb. eapply sem_call; [reflexivity|].
      destruct b; [apply sem_err; exact T|]. destruct (H Eb) as [n ->]. apply sem_bind. eapply sem_call; [reflexivity|]. apply sem_ret. auto.
    + destruct upvalues as [u|]; [|apply sem_err; exact T]. destruct W as [_ [_ [q [Eq Pq]]]]. injection Eq as <-.
      destruct (object_points v _ u T Pq) as [x [Ed [En [K [Wx L]]]]]. apply sem_bind. eapply sem_call; [exact Ed|].
      destruct x; simpl in K; try contradiction. apply sem_ret. auto.
    + destruct v0 as [p|]; [|apply sem_ret; exact T]. destruct W as [A Pp].
      destruct (internal_points v p T (Pp p eq_refl)) as [cs [len [Ei _]]]. rewrite Ei.
      apply sem_bind. eapply sem_call; [reflexivity|]. apply sem_ret. auto.
Qed.

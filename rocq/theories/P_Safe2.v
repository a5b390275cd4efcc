(** Operations that change the heap of a well-typed machine. *)
From Coq Require Import ZArith List Lia Arith Bool ZifyBool ZifyNat.
Import ListNotations.
From Verif Require Import M_Base M_Heap M_Instr M_VM S_Heap S_VM S_Num S_Cyclic S_Globals S_Types P_Heap P_Sort P_VM P_Exec P_Num P_Valid P_Cyclic P_Globals P_Types P_Safe.
Open Scope Z_scope.

(** * Strings *)

Lemma concat_bytes_typed v o : typed v -> val v o ->
  match concat_bytes (objects v) o with
  | Ok r => zlen r = text_size (objects v) o /\ Forall byte r
  | Err _ => True
  | UB => match o with OString None _ _ | OSymbol _ None => True | OString _ offset _ => 0 < offset | _ => False end
  | NoFuel => False
  end.
Proof.
  intros T [F W]. destruct o; simpl; auto.
  - destruct s as [p|]; simpl; auto. destruct W as [A [B P]].
    destruct (object_points v _ p T P) as [x [Ed [En [K [Wx L]]]]]. rewrite En.
    destruct x; simpl in K; try contradiction. destruct Wx as [C D].
    destruct s as [b|]; simpl in *.
    + destruct (slice b offset len) eqn:Es; auto.
      * split; [eapply slice_length; eauto|eapply slice_byte; eauto].
      * unfold slice in Es. destruct (_ && _) eqn:Ec; [discriminate|]. lia.
      * unfold slice in Es. destruct (_ && _); discriminate.
    + destruct (slice [] offset len) eqn:Es; auto.
      * split; [eapply slice_length; eauto|eapply slice_byte; eauto].
      * unfold slice in Es. destruct (_ && _) eqn:Ec; [discriminate|]. unfold zlen in Ec. simpl in Ec. lia.
      * unfold slice in Es. destruct (_ && _); discriminate.
  - destruct s as [p|]; simpl; auto. destruct W as [A P].
    destruct (object_points v _ p T (P p eq_refl)) as [x [Ed [En [K [Wx L]]]]]. rewrite En.
    destruct x; simpl in K; try contradiction. destruct Wx as [C D]. destruct s as [b|]; simpl; auto.
Qed.

Lemma sem_concat v x y (U : Prop) : typed v -> val v x -> val v y ->
  text_size (objects v) x + text_size (objects v) y <= max_size ->
  (forall z, z = x \/ z = y -> match z with OString None _ _ | OSymbol _ None => True | OString _ offset _ => 0 < offset | _ => False end -> U) ->
  sem v (concat_op x y) (fun r v' => typed v' /\ val v' r) typed U.
Proof.
  intros T Vx Vy L HU.
  assert (sem v (v <~ mget ;;
    a <~ mlift (concat_bytes (objects v) x) ;;
    b <~ mlift (concat_bytes (objects v) y) ;;
    p <~ alloc (OInternalString (Some a)) ;;
    write p (OInternalString (Some (a ++ b))) ;;;
    mret (OString p 0 (zlen (a ++ b)))) (fun r v' => typed v' /\ val v' r) typed U) as H.
  { apply sem_get. pose proof (concat_bytes_typed v x T Vx) as Hx. pose proof (concat_bytes_typed v y T Vy) as Hy.
    apply sem_bind. destruct (concat_bytes (objects v) x) as [a|e| |] eqn:Ea.
    2: exact T. 2: exact (HU x (or_introl eq_refl) Hx). 2: exact I.
    eapply sem_call; [reflexivity|].
    apply sem_bind. destruct (concat_bytes (objects v) y) as [b|e| |] eqn:Eb.
    2: exact T. 2: exact (HU y (or_intror eq_refl) Hy). 2: exact I.
    eapply sem_call; [reflexivity|]. destruct Hx as [Lx Bx], Hy as [Ly By].
    assert (zlen (a ++ b) = zlen a + zlen b) as Lab by (unfold zlen; rewrite app_length; lia).
    apply sem_bind. eapply sem_weaken; [apply sem_alloc; simpl; auto|].
    - split; [|intros z E; injection E as <-; auto]. unfold zlen in *. lia.
    - intros p R. inversion R.
    - intros r v' [q [-> [T' N]]]. destruct (no_stored _ _ _ _ N) as [n En].
      assert (like (stored n (OInternalString (Some a))) (OInternalString (Some (a ++ b)))) as Hl.
      { destruct a; simpl; unfold zlen; simpl; [lia|]. rewrite app_length. lia. }
      assert (well_typed v' (OInternalString (Some (a ++ b)))) as Wab.
      { simpl. split; [lia|]. intros z E. injection E as <-. apply Forall_app; auto. }
      apply sem_bind. eapply sem_write; eauto; [apply N|].
      apply sem_ret. assert (typed (written v' q (OInternalString (Some (a ++ b))))) as T2.
      { eapply typed_write; eauto. apply N. }
      split; auto. split; simpl; auto. unfold zlen in *. split; [lia|]. split; [lia|]. split; [apply written_live; apply N|].
      exists (OInternalString (Some (a ++ b))). split; [|simpl; unfold zlen; lia].
      rewrite written_nth, Nat.eqb_refl. destruct (no_live _ _ _ _ N) as [Lq _].
      destruct (Nat.ltb_spec q (length (objects v'))); [reflexivity|lia]. }
  unfold concat_op. destruct x; try (apply sem_err; exact T); destruct y; try (apply sem_err; exact T); exact H.
Qed.

Lemma substring_typed v x y z : typed v -> val v x -> val v y -> val v z ->
  match substring_op x y z with Ok r => val v r | Err _ => True | _ => False end.
Proof.
  intros T [F W] _ _. unfold substring_op. destruct x; auto. destruct y as [| |a| | | | | | | | | | | | | | | | |]; auto.
  destruct ((a <? 0) || _) eqn:C1; auto. destruct z as [| |b| | | | | | | | | | | | | | | | |]; auto.
  destruct ((b <? 0) || _) eqn:C2; auto. destruct (b <? a) eqn:C3; auto.
  red. split; [exact I|]. simpl. simpl in W. destruct s as [p|].
  - destruct W as [A [B P]]. rewrite usz_small in C1, C2 by (unfold max_size in *; lia).
    split; [lia|]. split; [lia|]. destruct P as [L [x [E K]]]. split; auto. exists x. split; auto.
    destruct x; simpl in *; try contradiction. lia.
  - destruct W as [-> ->]. change (usz (0 - 0)) with 0 in *. lia.
Qed.

(** * Vectors *)

Lemma sem_get_elt v x y (U : Prop) : typed v -> val v x -> val v y ->
  (forall n, y = OInteger n -> bad_index x n -> U) ->
  sem v (get_elt_op x y) (fun r v' => v' = v /\ val v r) typed U.
Proof.
  intros T [F W] [Fy Wy] HU. unfold get_elt_op. destruct x; try (apply sem_err; exact T); destruct y; try (apply sem_err; exact T).
  - destruct (_ || _) eqn:C; [apply sem_err; exact T|]. apply sem_get. simpl in W.
    destruct s as [p|]; [|destruct W as [-> ->]; change (usz (0 - 0)) with 0 in C; lia].
    destruct W as [A [B P]]. rewrite usz_small in C by (unfold max_size in *; lia).
    destruct (object_points v _ p T P) as [x [Ed [En [K [Wx L]]]]]. destruct x; simpl in K; try contradiction.
    apply sem_bind. destruct s as [b|]; simpl in K; [|lia].
    eapply sem_call; [unfold mlift, string_bytes; rewrite En; reflexivity|].
    apply sem_bind. destruct (array_get b (offset + n)) as [z|e| |] eqn:Ea.
    + eapply sem_call; [reflexivity|]. apply sem_ret. split; auto. apply val_int. eapply text_byte; eauto.
    + unfold array_get in Ea. destruct (offset + n <? 0); [discriminate|]. destruct (nth_error b _); discriminate.
    + exfalso. unfold array_get, zlen in *. destruct (Z.ltb_spec (offset + n) 0); [lia|].
      destruct (nth_error b _) eqn:N; [discriminate|]. apply nth_error_None in N. lia.
    + exact I.
  - destruct (n <? 0) eqn:C; [apply sem_err; exact T|]. destruct W as [A P].
    destruct (negb (fits (n + offset))) eqn:Cf.
    + apply sem_ub. apply (HU n eq_refl). destruct v0; simpl; auto.
      intros H. unfold machine_integer, fits, int_min, int_max in *. lia.
    + apply sem_get. destruct v0 as [p|]; [|apply sem_ub; apply (HU n eq_refl); exact I].
      destruct (internal_points v p T (P p eq_refl)) as [cs [len [Ei [En [Wx [L Ed]]]]]].
      apply sem_bind. eapply sem_call; [unfold mlift; rewrite Ei; reflexivity|]. cbn beta iota.
      assert (0 <= n + offset <= max_size) as R by (unfold fits, int_min, int_max, max_size in *; lia).
      rewrite usz_small by exact R. destruct (len <=? n + offset) eqn:C2; [apply sem_err; exact T|].
      destruct (element_read v cs len (offset + n) Wx) as [q [Ec Pq]]; [lia|].
      apply sem_bind. eapply sem_call; [unfold mlift; rewrite Ec; reflexivity|]. apply sem_deref_val; auto.
Qed.

Lemma buffer_set P cs len i q : buffer P cs len -> 0 <= i < len -> P q ->
  exists cs', cell_set cs i q = Ok cs' /\ buffer P cs' len.
Proof.
  intros [A B] H Hq. destruct B as [l [-> B]]; [lia|].
  assert (Z.to_nat i < length l)%nat as Li.
  { destruct (B (Z.to_nat i)) as [p [E _]]; [lia|]. apply nth_error_Some. congruence. }
  unfold cell_set, array_set. destruct (_ || _) eqn:C; [lia|]. simpl. eexists; split; [reflexivity|].
  split; auto. intros _. eexists; split; [reflexivity|]. intros j Hj. rewrite list_set_nth.
  destruct (_ && _); [eauto|auto].
Qed.

Lemma sem_vector_set v p i q cs len (E : vm -> Prop) U : typed v -> live v p ->
  nth_error (objects v) p = Some (OInternalVector cs len true) -> 0 <= i < len -> points v first_class q ->
  sem v (vector_set (Some p) i (Some q)) (fun _ v' => typed v' /\ exists o, v' = written v p o /\ is_elements o) E U.
Proof.
  intros T L En H Pq. pose proof (ty_objects _ _ T p _ L (fun x => x) En) as [_ W].
  destruct (buffer_set _ cs len i (Some q) W H) as [cs' [Ec W']]; [eauto|].
  unfold vector_set. apply sem_get. apply sem_bind.
  eapply sem_call; [unfold mlift, internal_vector; rewrite En; reflexivity|]. cbn beta iota.
  apply sem_bind. eapply sem_call; [unfold mlift; rewrite Ec; reflexivity|].
  eapply sem_write; eauto; simpl; auto. split.
  - eapply typed_write; eauto; simpl; auto.
  - eexists; split; [reflexivity|exact I].
Qed.

Lemma written_val v p x o y : nth_error (objects v) p = Some x -> like x o -> val v y -> val (written v p o) y.
Proof. intros E L [F W]. split; auto. eapply written_well_typed; eauto. Qed.

Lemma sem_set_elt v x y z (U : Prop) : typed v -> In x (stack v) -> In z (stack v) ->
  (forall n, y = OInteger n -> bad_index x n -> U) ->
  sem v (set_elt_op x y z) (fun r v' => typed v' /\ val v' r) typed U.
Proof.
  intros T Hx Hz HU. destruct (val_in v x T Hx) as [F W]. unfold set_elt_op.
  destruct x; try (apply sem_err; exact T); destruct y; try (apply sem_err; exact T).
  destruct W as [A P]. destruct (negb (fits (n + offset))) eqn:Cf.
  - apply sem_ub. apply (HU n eq_refl). destruct v0; simpl; auto.
    intros H. unfold machine_integer, fits, int_min, int_max in *. lia.
  - apply sem_get. destruct v0 as [p|]; [|apply sem_ub; apply (HU n eq_refl); exact I].
    destruct (internal_points v p T (P p eq_refl)) as [cs [len [Ei [En [Wx [L Ed]]]]]].
    apply sem_bind. eapply sem_call; [unfold mlift; rewrite Ei; reflexivity|]. cbn beta iota.
    assert (- max_size - 1 <= n + offset <= max_size) as R by (unfold fits, int_min, int_max, max_size in *; lia).
    destruct (len <=? usz (n + offset)) eqn:C2; [apply sem_err; exact T|].
    assert (0 <= n + offset < len) as R2.
    { destruct Wx as [_ [B _]]. unfold usz, max_size in *. destruct (Z.leb_spec 0 (n + offset)).
      - rewrite Z.mod_small in C2 by lia. lia.
      - exfalso. rewrite <- (Z_mod_plus_full _ 1), Z.mod_small in C2 by lia. lia. }
    assert (reach v p) as Rp by (apply (reach_in v (OVector (Some p) offset)); [auto|constructor]).
    apply sem_bind. eapply sem_weaken; [apply sem_alloc_in; auto|]. intros r v' [q [-> [T' [N Pq]]]].
    assert (live v' p) as L' by (apply (no_kept _ _ _ _ N); auto).
    assert (nth_error (objects v') p = Some (OInternalVector cs len true)) as En' by (rewrite (no_same _ _ _ _ N); auto).
    apply sem_bind. eapply sem_weaken; [apply (sem_vector_set v' p (offset + n) q cs len); auto; lia|].
    intros _ v2 [T2 [o [-> Ho]]]. apply sem_ret. split; auto.
    apply (written_val _ _ (OInternalVector cs len true)); auto.
    + destruct o; simpl in *; auto; contradiction.
    + apply val_in; auto. rewrite (new_stack _ _ _ _ N). auto.
Qed.

(** * Pairs *)

Lemma pushed_stack o v : stack (pushed o v) = o :: stack v.
Proof. reflexivity. Qed.

Lemma sset_top v o s : stack v = o :: s -> forall x E U (Q : unit -> vm -> Prop), Q tt (set_stack v (x :: s)) -> sem v (sset_raw 0 x) Q E U.
Proof.
  intros Es x E U Q H. unfold sset_raw. apply sem_get. apply sem_bind.
  eapply sem_call.
  - unfold mlift, raw_set, abs_set. rewrite Es. unfold zlen. destruct (_ || _) eqn:C; [exfalso; cbn [length] in C; lia|].
    replace (Z.to_nat _) with 0%nat by lia. simpl. reflexivity.
  - exact H.
Qed.

Lemma sem_cons v x y U : typed v -> In x (stack v) -> In y (stack v) ->
  sem v (cons_op x y) (fun _ v' => typed v') typed U.
Proof.
  intros T Hx Hy. unfold cons_op. apply sem_bind. eapply sem_weaken.
  { apply sem_alloc; simpl; auto.
    - split; intros q; discriminate.
    - intros p R. inversion R. }
  intros r v1 [c [-> [T1 N1]]]. pose proof (new_stack _ _ _ _ N1) as S1.
  assert (points v1 is_cons c) as Pc by (apply (new_points _ _ _ _ _ N1); intros n; exact I).
  apply sem_bind. unfold stack_push. eapply sem_call; [reflexivity|].
  change (sem (pushed (OList (Some c)) v1) (a <~ box x;; write (Some c) (OCons a None);;; (d <~ box y;; write (Some c) (OCons a d);;; sset_raw 0 (OList (Some c)))) (fun _ v' => typed v') typed U).
  set (v2 := pushed (OList (Some c)) v1).
  assert (typed v2) as T2. { apply typed_pushed; simpl; auto. intros q E. injection E as <-. auto. }
  assert (points v2 is_cons c) as P2 by (apply (same_points v1); [split; reflexivity|auto]).
  assert (reach v2 c) as R2 by (eapply reach_in; [left; reflexivity|constructor]).
  apply sem_bind. eapply sem_weaken; [apply sem_box; [auto|right; rewrite S1; auto]|].
  intros a v3 [T3 [S3 [Pa [K3 [O3 U3]]]]].
  assert (points v3 is_cons c) as P3 by (apply K3; auto with stable).
  destruct P3 as [L3 [o3 [E3 C3]]]. destruct o3; simpl in C3; try contradiction.
  assert (well_typed v3 (OCons a None)) as W3 by (split; auto; intros q; discriminate).
  apply sem_bind. eapply sem_write; eauto; simpl; auto.
  set (v4 := written v3 c (OCons a None)).
  assert (typed v4) as T4 by (eapply typed_write; eauto; simpl; auto).
  assert (stack v4 = OList (Some c) :: stack v1) as S4 by (unfold v4; simpl; rewrite S3; reflexivity).
  assert (opoints v4 is_link a) as Pa4.
  { intros q Hq. eapply written_points; eauto with stable. }
  assert (nth_error (objects v4) c = Some (OCons a None)) as E4.
  { unfold v4. rewrite written_nth, Nat.eqb_refl. destruct L3 as [L3 _]. destruct (Nat.ltb_spec c (length (objects v3))); [reflexivity|lia]. }
  assert (live v4 c) as L4 by (apply written_live; auto).
  assert (reach v4 c) as R4 by (apply (reach_in v4 (OList (Some c))); [rewrite S4; left; auto|constructor]).
  apply sem_bind. eapply sem_weaken; [apply sem_box; [auto|rewrite S4; right; rewrite S1; auto]|].
  intros d v5 [T5 [S5 [Pd [K5 [O5 U5]]]]].
  assert (nth_error (objects v5) c = Some (OCons a None)) as E5 by (apply O5; auto).
  assert (points v5 is_cons c) as P5 by (apply K5; auto with stable; split; eauto; exists (OCons a None); split; simpl; auto).
  assert (opoints v5 is_link a) as Pa5.
  { intros q ->. apply K5; auto with stable. apply reach_step with c (OCons (Some q) None); auto. constructor. }
  assert (well_typed v5 (OCons a d)) as W5 by (split; auto).
  apply sem_bind. eapply sem_write; eauto; simpl; auto; [apply P5|].
  set (v6 := written v5 c (OCons a d)).
  assert (typed v6) as T6 by (eapply typed_write; eauto; simpl; auto; apply P5).
  assert (stack v6 = OList (Some c) :: stack v1) as S6 by (unfold v6; simpl; congruence).
  eapply sset_top; [exact S6|]. apply typed_set_stack; auto. rewrite <- S6. apply (ty_stack _ _ T6).
Qed.

Lemma sem_set_pair v (f : optr -> optr -> optr -> object) x l (U : Prop) : typed v -> In x (stack v) -> In (OList (Some l)) (stack v) ->
  (f = (fun n a d => OCons n d) \/ f = (fun n a d => OCons a n)) ->
  sem v (n <~ box x ;; c <~ deref (Some l) ;;
         match c with OCons a d => write (Some l) (f n a d) ;;; mret (OList (Some l)) | _ => mub end)
    (fun r v' => typed v' /\ val v' r) typed U.
Proof.
  intros T Hx Hl Hf. destruct (val_in v _ T Hl) as [F W].
  assert (reach v l) as R by (apply (reach_in v (OList (Some l))); [auto|constructor]).
  apply sem_bind. eapply sem_weaken; [apply sem_box; auto|].
  intros n v1 [T1 [S1 [Pn [K1 [O1 U1]]]]].
  assert (points v1 is_cons l) as P1 by (apply K1; auto with stable).
  destruct (object_points v1 _ l T1 P1) as [o [Ed [En [C [Wo L]]]]]. destruct o; simpl in C; try contradiction.
  destruct Wo as [Wa Wd].
  apply sem_bind. eapply sem_call; [exact Ed|]. cbn beta iota.
  assert (well_typed v1 (f n car cdr) /\ like (OCons car cdr) (f n car cdr)) as [Wf Lf].
  { destruct Hf as [-> | ->]; simpl; auto. }
  apply sem_bind. eapply sem_write; eauto. apply sem_ret. split; [eapply typed_write; eauto|].
  eapply written_val; eauto. split; simpl; auto. intros q E. injection E as <-. auto.
Qed.

Lemma sem_set_car v x y (U : Prop) : typed v -> In x (stack v) -> In y (stack v) ->
  (forall p offset cs len ini, y = OVector (Some p) offset ->
     nth_error (objects v) p = Some (OInternalVector cs len ini) -> len <= offset -> U) ->
  sem v (set_car_op x y) (fun r v' => typed v' /\ val v' r) typed U.
Proof.
  intros T Hx Hy HU. unfold set_car_op. destruct y; try (apply sem_err; exact T).
  - destruct l as [l|]; [|apply sem_err; exact T].
    apply (sem_set_pair v (fun n a d => OCons n d) x l U); auto.
  - destruct v0 as [p|]; [|apply sem_err; exact T]. destruct (val_in v _ T Hy) as [F [A P]].
    destruct (internal_points v p T (P p eq_refl)) as [cs [len [Ei [En [Wx [L Ed]]]]]].
    assert (reach v p) as Rp by (apply (reach_in v (OVector (Some p) offset)); [auto|constructor]).
    apply sem_bind. eapply sem_weaken; [apply sem_alloc_in; auto|]. intros r v' [q [-> [T' [N Pq]]]].
    assert (live v' p) as L' by (apply (no_kept _ _ _ _ N); auto).
    assert (nth_error (objects v') p = Some (OInternalVector cs len true)) as En' by (rewrite (no_same _ _ _ _ N); auto).
    assert (val v' (OVector (Some p) offset)) as Vy.
    { apply val_in; auto. rewrite (new_stack _ _ _ _ N). auto. }
    destruct (Z.leb_spec len offset).
    + (* beyond the length: undefined or, in the slack left by a shortened vector, harmless *)
      apply sem_bind. unfold vector_set. apply sem_get. apply sem_bind.
      eapply sem_call; [unfold mlift, internal_vector; rewrite En'; reflexivity|]. cbn beta iota.
      apply sem_bind. destruct (cell_set cs offset (Some q)) as [cs'|e| |] eqn:Ec.
      * eapply sem_call; [reflexivity|].
        assert (well_typed v' (OInternalVector cs' len true)) as W'.
        { split; auto. pose proof (ty_objects _ _ T' p _ L' (fun x => x) En') as [_ [B W]]. split; auto. intros Hl.
          destruct (W Hl) as [l [-> C]]. unfold cell_set in Ec. unfold array_set in Ec.
          destruct (_ || _); [discriminate|]. injection Ec as <-. eexists; split; [reflexivity|].
          intros i Hi. rewrite list_set_nth. destruct (Nat.eqb_spec i (Z.to_nat offset)); simpl; [lia|auto]. }
        eapply sem_write; eauto; simpl; auto. apply sem_ret. split; [eapply typed_write; eauto; simpl; auto|].
        eapply written_val; eauto.
      * unfold cell_set, array_set in Ec. destruct cs; [|discriminate]. destruct (_ || _); discriminate.
      * eapply HU; eauto.
      * exact I.
    + apply sem_bind. eapply sem_weaken; [apply (sem_vector_set v' p offset q cs len); auto; lia|].
      intros _ v2 [T2 [o [-> Ho]]]. apply sem_ret. split; auto.
      apply (written_val _ _ (OInternalVector cs len true)); auto. destruct o; simpl in *; auto; contradiction.
Qed.

Lemma sem_set_cdr v x y (U : Prop) : typed v -> In x (stack v) -> In y (stack v) ->
  (forall p offset cs len ini, y = OVector (Some p) offset ->
     nth_error (objects v) p = Some (OInternalVector cs len ini) -> offset <= len) ->
  sem v (set_cdr_op x y) (fun r v' => typed v' /\ val v' r) typed U.
Proof.
  intros T Hx Hy HC. unfold set_cdr_op. destruct y; try (apply sem_err; exact T).
  - destruct l as [l|]; [|apply sem_err; exact T].
    apply (sem_set_pair v (fun n a d => OCons a n) x l U); auto.
  - destruct v0 as [p|]; [|apply sem_err; exact T]. destruct (val_in v _ T Hy) as [F [A P]].
    destruct (internal_points v p T (P p eq_refl)) as [cs [len [Ei [En [Wx [L Ed]]]]]].
    specialize (HC p offset cs len true eq_refl En).
    assert (sem v (c <~ deref (Some p) ;;
      match c with
      | OInternalVector cs _ ini => write (Some p) (OInternalVector cs offset ini) ;;; mret (OVector (Some p) offset)
      | _ => mub
      end) (fun r v' => typed v' /\ val v' r) typed U) as H.
    { apply sem_bind. eapply sem_call; [exact Ed|]. cbn beta iota.
      assert (well_typed v (OInternalVector cs offset true)) as W'.
      { destruct Wx as [_ [B W]]. split; auto. split; [lia|]. intros Ho. destruct W as [l [-> C]]; [lia|].
        exists l. split; auto. intros i Hi. apply C. lia. }
      apply sem_bind. eapply sem_write; eauto; simpl; auto. apply sem_ret. split; [eapply typed_write; eauto; simpl; auto|].
      eapply written_val; eauto; simpl; auto. split; simpl; auto. }
    destruct x; try (apply sem_err; exact T).
    + destruct l; [apply sem_err; exact T|exact H].
    + destruct v0; [apply sem_err; exact T|exact H].
Qed.

(** * Composites *)

Lemma sem_make_instance v x y z U : typed v -> In y (stack v) -> In z (stack v) ->
  sem v (make_instance_op x y z) (fun _ v' => typed v') typed U.
Proof.
  intros T Hy Hz. unfold make_instance_op. destruct x; try (apply sem_err; exact T).
  destruct (t <? type_last); [apply sem_err; exact T|].
  apply sem_bind. eapply sem_weaken.
  { apply sem_alloc; simpl; auto.
    - split; intros q; discriminate.
    - intros p R. inversion R. }
  intros r v1 [c [-> [T1 N1]]]. pose proof (new_stack _ _ _ _ N1) as S1.
  assert (points v1 is_instance c) as Pc by (apply (new_points _ _ _ _ _ N1); intros n; exact I).
  apply sem_bind. unfold stack_push. eapply sem_call; [reflexivity|].
  change (sem (pushed (OComposite (Some c)) v1) (p <~ alloc y;; write (Some c) (OInternalComposite t p None);;; (f <~ alloc z;; write (Some c) (OInternalComposite t p f))) (fun _ v' => typed v') typed U).
  set (v2 := pushed (OComposite (Some c)) v1).
  assert (typed v2) as T2 by (apply typed_pushed; simpl; eauto).
  assert (points v2 is_instance c) as P2 by (apply (same_points v1); [split; reflexivity|auto]).
  assert (reach v2 c) as R2 by (eapply reach_in; [left; reflexivity|constructor]).
  apply sem_bind. eapply sem_weaken; [apply sem_alloc_in; [auto|right; rewrite S1; auto]|].
  intros r v3 [p [-> [T3 [N3 Pp]]]]. pose proof (new_stack _ _ _ _ N3) as S3.
  assert (points v3 is_instance c) as P3 by (apply (points_keeps (reach v2) v2); auto with stable; apply N3).
  destruct P3 as [L3 [o3 [E3 C3]]]. destruct o3; simpl in C3; try contradiction.
  assert (well_typed v3 (OInternalComposite t (Some p) None)) as W3.
  { split; intros q E; [injection E as <-; auto|discriminate]. }
  apply sem_bind. eapply sem_write; eauto; simpl; auto.
  set (v4 := written v3 c (OInternalComposite t (Some p) None)).
  assert (typed v4) as T4 by (eapply typed_write; eauto; simpl; auto).
  assert (stack v4 = OComposite (Some c) :: stack v1) as S4 by (unfold v4; simpl; rewrite S3; reflexivity).
  assert (points v4 first_class p) as Pp4 by (eapply written_points; eauto with stable; simpl; auto).
  assert (nth_error (objects v4) c = Some (OInternalComposite t (Some p) None)) as E4.
  { unfold v4. rewrite written_nth, Nat.eqb_refl. destruct L3 as [L3 _]. destruct (Nat.ltb_spec c (length (objects v3))); [reflexivity|lia]. }
  assert (live v4 c) as L4 by (apply written_live; auto).
  assert (reach v4 c) as R4 by (apply (reach_in v4 (OComposite (Some c))); [rewrite S4; left; auto|constructor]).
  apply sem_bind. eapply sem_weaken; [apply sem_alloc_in; [auto|rewrite S4; right; rewrite S1; auto]|].
  intros r v5 [f [-> [T5 [N5 Pf]]]].
  assert (nth_error (objects v5) c = Some (OInternalComposite t (Some p) None)) as E5 by (rewrite (no_same _ _ _ _ N5); auto).
  assert (live v5 c) as L5 by (apply (no_kept _ _ _ _ N5); auto).
  assert (points v5 first_class p) as Pp5.
  { apply (points_keeps (reach v4) v4); auto with stable; [apply N5|].
    apply reach_step with c (OInternalComposite t (Some p) None); auto. constructor. }
  assert (well_typed v5 (OInternalComposite t (Some p) (Some f))) as W5.
  { split; intros q E; injection E as <-; auto. }
  eapply sem_write; eauto; simpl; auto. eapply typed_write; eauto; simpl; auto.
Qed.

Lemma sem_set_composite v b x y U : typed v -> In x (stack v) -> In y (stack v) ->
  sem v (set_composite_op b x y) (fun r v' => typed v' /\ val v' r) typed U.
Proof.
  intros T Hx Hy. unfold set_composite_op. destruct x; try (apply sem_err; exact T).
  apply sem_bind. eapply sem_weaken; [apply sem_alloc_in; auto|]. intros r v1 [p [-> [T1 [N1 Pp]]]].
  assert (val v1 (OComposite c)) as Vx by (apply val_in; auto; rewrite (new_stack _ _ _ _ N1); auto).
  apply sem_bind. eapply sem_weaken; [apply sem_composite_get; auto; apply Vx|].
  intros [[t a] f] v' [-> [q [-> [L [En [Pa Pf]]]]]]. simpl in *.
  set (o := if b then OInternalComposite t a (Some p) else OInternalComposite t (Some p) f).
  assert (well_typed v1 o /\ like (OInternalComposite t a f) o) as [Wo Lo].
  { unfold o. destruct b; simpl; split; auto; split; auto; intros z E; injection E as <-; auto. }
  apply sem_bind. eapply sem_write; eauto. apply sem_ret. split; [eapply typed_write; eauto|].
  eapply written_val; eauto.
Qed.

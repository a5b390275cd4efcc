(** Building vectors, and captured variables, in a well-typed machine. *)
From Coq Require Import ZArith List Lia Arith Bool ZifyBool ZifyNat.
Import ListNotations.
From Verif Require Import M_Base M_Heap M_Instr M_VM S_Heap S_VM S_Num S_Cyclic S_Globals S_Types P_Heap P_Sort P_VM P_Exec P_Num P_Valid P_Cyclic P_Globals P_Types P_Safe P_Safe2.
Open Scope Z_scope.

(** * Vectors *)

(** A vector of [n] elements, [k] of them filled in, on top of the stack. *)
Definition filling (p : ptr) (n k : nat) (v : vm) : Prop :=
  typed_but (fun x => x = p) v /\ live v p /\ ((k <= n)%nat /\ Z.of_nat n <= max_size) /\
  (exists s, stack v = OVector (Some p) 0 :: s) /\
  exists cs, nth_error (objects v) p = Some (OInternalVector cs (Z.of_nat n) false) /\
    ((0 < n)%nat -> exists l, cs = Some l /\
       (forall i, (i < k)%nat -> exists q, nth_error l i = Some (Cell (Some q)) /\ points v first_class q) /\
       (forall i, (k <= i < n)%nat -> nth_error l i = Some Uninit)).

Lemma filling_reach p n k v : filling p n k v -> reach v p.
Proof.
  intros [_ [_ [_ [[s Es] _]]]]. apply (reach_in v (OVector (Some p) 0)); [rewrite Es; left; auto|constructor].
Qed.

Lemma filling_inside p n k v : filling p n k v -> inside (fun x => x = p) v.
Proof.
  intros [T [L [_ [_ [cs [En H]]]]]] x o q -> E R. rewrite En in E. injection E as <-.
  inversion R as [| | | | | | | | |? ? ? ? Hh| | | | | |]; subst. destruct Hh as [l [i [-> [Hi Hl]]]].
  destruct H as [l' [E [A B]]]; [lia|]. injection E as <-.
  destruct (Nat.ltb_spec i k).
  - destruct (A i) as [q' [E P]]; auto. rewrite Hl in E. injection E as <-. apply P.
  - rewrite B in Hl by lia. discriminate.
Qed.

Lemma filling_empty p n v : filling p n 0 v -> empty_ones (fun x => x = p) v.
Proof.
  intros [T [L [_ [_ [cs [En H]]]]]] x o -> E. rewrite En in E. injection E as <-.
  assert (forall q, ~ holds cs (Z.of_nat n) q) as F.
  { intros q [l [i [-> [Hi Hl]]]]. destruct H as [l' [E [A B]]]; [lia|]. injection E as <-.
    rewrite B in Hl by lia. discriminate. }
  split; [split; [exact I|intros [q Hq]; eapply F; eauto]|].
  intros q R. inversion R; subst; eapply F; eauto.
Qed.

(** Allocation while a vector is being filled. *)
Lemma sem_alloc_filling p n k v o (E : vm -> Prop) U : filling p n k v -> In o (stack v) ->
  (free v = [] -> k = 0%nat) -> (forall v', E v') ->
  sem v (alloc o) (fun r v' => exists q, r = Some q /\ filling p n k v' /\ new_object o v q v' /\ points v' first_class q) E U.
Proof.
  intros H Ho Hk HE. pose proof H as [T [L [[Kn Sn] [[s Es] [cs [En Hc]]]]]].
  assert (free v = [] -> empty_ones (fun x => x = p) v) as Em.
  { intros Ef. rewrite (Hk Ef) in H. eapply filling_empty; eauto. }
  destruct (ty_stack _ _ T o Ho) as [F W].
  pose proof (filling_reach _ _ _ _ H) as Rp.
  unfold sem. destruct (alloc_typed_total _ o v T (one_dec p) Em) as [v' [[q Ea]|[e [Ea _]]]]; rewrite Ea; auto.
  exists q. split; auto.
  destruct (alloc_typed (fun x => x = p) (fun x => x = p) o v q v' T (one_dec p) Em) as [T' N]; auto.
  - eapply filling_inside; eauto.
  - intros x ->. auto.
  - right. split; [destruct o; simpl in *; auto|]. split; auto. intros r R. apply (reach_in v o); auto.
  - assert (nth_error (objects v') p = nth_error (objects v) p) as Ep by (apply (no_same _ _ _ _ N); auto).
    split; [|split; [auto|]].
    + split; auto. split; [apply (no_kept _ _ _ _ N); auto|]. split; [auto|]. split; [exists s; rewrite (new_stack _ _ _ _ N); auto|].
      exists cs. split; [congruence|]. intros Hn. destruct (Hc Hn) as [l [-> [A B]]]. exists l. split; auto. split; auto.
      intros i Hi. destruct (A i Hi) as [r [Er Pr]]. exists r. split; auto.
      apply (points_keeps (reach v) v); auto with stable; [apply N|].
      eapply reach_step; [exact Rp|exact En|]. constructor. exists l, i. split; auto. split; auto.
      lia.
    + apply (new_points o v); auto. intros m. rewrite stored_first_class; auto.
Qed.

Lemma cell_set_ok l k q : (k < length l)%nat -> cell_set (Some l) (Z.of_nat k) q = Ok (Some (list_set l k (Cell q))).
Proof.
  intros H. unfold cell_set, array_set, zlen. destruct (_ || _) eqn:C; [lia|]. rewrite Nat2Z.id. reflexivity.
Qed.

Lemma sem_fill p n is : forall k v (E : vm -> Prop) U, filling p n k v -> (k + length is = n)%nat ->
  (length is <= length (free v) \/ k = 0 /\ length is <= 1)%nat -> (forall v', E v') ->
  sem v (vector_fill (Some p) (Z.of_nat k) is) (fun _ v' => filling p n n v' /\ ustack v' = ustack v) E U.
Proof.
  induction is as [|i is IH]; intros k v E U H Hn Hf HE; cbn [vector_fill].
  { apply sem_ret. simpl in Hn. rewrite Nat.add_0_r in Hn. subst k. auto. }
  cbn [length] in *. apply sem_get. cbn zeta. destruct (_ || _) eqn:C; [apply sem_err; auto|].
  apply sem_bind. unfold abs_get. unfold zlen in *. destruct (_ || (_ <=? _)) eqn:C2; [lia|].
  destruct (nth_error (stack v) _) as [o|] eqn:No; [|apply nth_error_None in No; lia].
  eapply sem_call; [reflexivity|]. apply nth_error_In in No.
  apply sem_bind. eapply sem_weaken; [apply (sem_alloc_filling p n k v o E U H No); auto|].
  { intros Ef. rewrite Ef in Hf. simpl in Hf. lia. }
  intros r v1 [q [-> [H1 [N Pq]]]]. pose proof H1 as [T1 [L1 [[Kn Sn] [[s1 Es1] [cs1 [En1 Hc1]]]]]].
  destruct Hc1 as [l [-> [A B]]]; [lia|].
  apply sem_bind. unfold vector_set. apply sem_get. apply sem_bind.
  eapply sem_call; [unfold mlift, internal_vector; rewrite En1; reflexivity|]. cbn beta iota.
  assert (k < length l)%nat as Hl by (apply nth_error_Some; rewrite B by lia; discriminate).
  apply sem_bind. eapply sem_call; [unfold mlift; rewrite cell_set_ok by auto; reflexivity|].
  set (o' := OInternalVector (Some (list_set l k (Cell (Some q)))) (Z.of_nat n) false).
  assert (sem v1 (write (Some p) o') (fun _ v' => v' = written v1 p o') E U) as Hw.
  { unfold sem, write, mbind, mget, mset. destruct L1 as [L1 _].
    destruct (Nat.ltb_spec p (length (objects v1))); [reflexivity|lia]. }
  eapply sem_weaken; [exact Hw|]. intros _ v2 ->.
  assert (keeps (fun _ => True) v1 (written v1 p o')) as KK by (eapply written_keeps; eauto; simpl; auto).
  assert (filling p n (S k) (written v1 p o')) as H2.
  { split; [eapply typed_written; eauto; simpl; auto|]. split; [apply written_live; auto|]. split; [lia|].
    split; [exists s1; auto|]. eexists. split.
    - rewrite written_nth, Nat.eqb_refl. destruct L1 as [L1 _]. destruct (Nat.ltb_spec p (length (objects v1))); [reflexivity|lia].
    - intros _. eexists. split; [reflexivity|]. split.
      + intros j Hj. rewrite list_set_nth. destruct (Nat.eqb_spec j k) as [->|Nj]; simpl.
        * destruct (Nat.ltb_spec k (length l)); [|lia]. exists q. split; auto.
          apply (points_keeps (fun _ => True) v1); auto with stable.
        * destruct (A j) as [r [Er Pr]]; [lia|]. exists r. split; auto.
          apply (points_keeps (fun _ => True) v1); auto with stable.
      + intros j Hj. rewrite list_set_nth. destruct (Nat.eqb_spec j k) as [->|Nj]; simpl; [lia|]. apply B. lia. }
  replace (Z.of_nat k + 1) with (Z.of_nat (S k)) by lia.
  eapply sem_weaken; [apply (IH (S k)); auto; [lia|]|].
  - change (free (written v1 p o')) with (free v1). destruct (free v) as [|f0 fr] eqn:Ef.
    + simpl in Hf. lia.
    + destruct (no_room _ _ _ _ N) as [E1 _]; [rewrite Ef; discriminate|].
      rewrite Ef in E1. injection E1 as _ ->. simpl in Hf. lia.
  - intros _ v3 [H3 U3]. split; auto. rewrite U3. simpl. apply N.
Qed.

Lemma sem_finish v p n (E : vm -> Prop) U : filling p n n v ->
  sem v (push_ustack_only None ;;; vector_initialized (Some p) ;;; sset_raw 0 (OVector (Some p) 0))
    (fun _ v' => typed v') E U.
Proof.
  intros [T [L [[_ Sn] [[s Es] [cs [En H]]]]]].
  apply sem_bind. eapply sem_call; [reflexivity|]. cbn beta.
  set (v1 := set_ustack v (None :: ustack v)).
  assert (typed_but (fun x => x = p) v1) as T1.
  { apply typed_set_ustack; auto. intros x [Hx|Hx]; [discriminate|]. apply T; auto. }
  assert (live v1 p) as L1 by (apply (same_live v); [split; reflexivity|auto]).
  apply sem_bind. unfold vector_initialized. apply sem_get. apply sem_bind.
  eapply sem_call; [unfold mlift, internal_vector; change (objects v1) with (objects v); rewrite En; reflexivity|]. cbn beta iota.
  set (o := OInternalVector cs (Z.of_nat n) true).
  assert (well_typed v1 o) as Wo.
  { split; auto. split; [lia|]. intros Hn. destruct H as [l [-> [A B]]]; [lia|]. exists l. split; auto.
    intros i Hi. destruct (A i) as [q [Eq Pq]]; [lia|]. exists (Some q). split; auto. exists q. split; [reflexivity|].
    apply (same_points v); [split; reflexivity|auto]. }
  eapply sem_call.
  { unfold write, mbind, mget, mset. destruct L1 as [L1' _].
    destruct (Nat.ltb_spec p (length (objects v1))); [reflexivity|lia]. }
  change (sem (written v1 p o) (sset_raw 0 (OVector (Some p) 0)) (fun _ v' => typed v') E U).
  assert (typed (written v1 p o)) as T2.
  { eapply typed_written; eauto; simpl; auto. }
  eapply sset_top; [exact Es|]. apply typed_set_stack; auto. rewrite <- Es. apply (ty_stack _ _ T2).
Qed.

Lemma sem_new_vector v n (E : vm -> Prop) U : typed v -> Z.of_nat n <= max_size -> (forall v', E v') ->
  sem v (alloc (OInternalVector None (Z.of_nat n) false))
    (fun r v' => exists p, r = Some p /\
       filling p n 0 (set_stack v' (OVector (Some p) 0 :: stack v)) /\
       stack v' = stack v /\ ustack v' = ustack v /\
       (free v <> [] -> free v = p :: free v')) E U.
Proof.
  intros T Hn HE. unfold sem.
  destruct (alloc_typed_total _ (OInternalVector None (Z.of_nat n) false) v T none_dec (fun _ => empty_none v))
    as [v' [[p Ea]|[e [Ea _]]]]; rewrite Ea; auto.
  exists p. split; auto.
  destruct (alloc_typed (fun _ => False) (fun x => x = p) (OInternalVector None (Z.of_nat n) false) v p v' T none_dec) as [T' N];
    [intros _; apply empty_none|intros ? ? ? []|intros ? []|intros ? []|left; reflexivity|exact Ea|].
  pose proof (no_roots _ _ _ _ N) as (R1 & R2 & _). pose proof (no_live _ _ _ _ N) as L.
  destruct (no_stored _ _ _ _ N) as [m Es]. simpl in Es.
  split; [|split; [auto|split; [auto|intros F; apply (no_room _ _ _ _ N F)]]].
  split; [|split; [apply (same_live v'); [split; reflexivity|auto]|split; [lia|split; [eexists; reflexivity|]]]].
  - apply typed_set_stack; auto. intros o [<-|Ho].
    + split; simpl; auto. split; [unfold max_size; lia|]. intros q E'. injection E' as <-. split; auto.
      eexists; split; [exact Es|exact I].
    + apply (ty_stack _ _ T'). rewrite R1. auto.
  - eexists. split; [exact Es|]. intros Hp. destruct (Z.ltb_spec 0 (Z.of_nat n)); [|lia].
    eexists. split; [reflexivity|]. split; [intros i Hi; lia|]. intros i Hi.
    rewrite Nat2Z.id. apply nth_error_repeat. lia.
Qed.

Lemma sem_vector v is (E : vm -> Prop) U : typed v -> zlen is < 2 ^ 32 ->
  ~ ((1 < length is)%nat /\ (length (free v) <= length is)%nat) -> (forall v', E v') ->
  sem v (vector_op is) (fun _ v' => typed v') E U.
Proof.
  intros T Hl Hc HE. unfold vector_op. apply sem_bind.
  assert (Z.of_nat (length is) <= max_size) as Hm by (unfold zlen, max_size in *; lia).
  eapply sem_weaken; [apply (sem_new_vector v (length is)); auto|].
  intros r v1 [p [-> [H [S1 [U1 Fr]]]]]. apply sem_bind. eapply sem_call; [reflexivity|].
  rewrite <- S1 in H. apply sem_bind.
  eapply sem_weaken; [apply (sem_fill p (length is) is 0); [exact H|reflexivity| |auto]|].
  - change (free (set_stack _ _)) with (free v1). destruct (free v) as [|f fr] eqn:Ef.
    + simpl in Hc. lia.
    + assert (f :: fr = p :: free v1) as E1 by (apply Fr; discriminate). injection E1 as -> ->. simpl in Hc. lia.
  - intros _ v2 [H2 _]. apply (sem_finish v2 p (length is)); auto.
Qed.

Lemma sem_make_vector v x y (E : vm -> Prop) U : typed v -> In x (stack v) -> In y (stack v) -> (forall v', E v') ->
  sem v (make_vector_op x y) (fun _ v' => typed v') E U.
Proof.
  intros T Hx Hy HE. unfold make_vector_op. destruct x; try (apply sem_err; auto).
  destruct (Z.ltb_spec n 0) as [|Hn0]; [apply sem_err; auto|].
  destruct (val_in v _ T Hx) as [_ Wx]. simpl in Wx.
  assert (Z.of_nat (Z.to_nat n) = n) as En by lia.
  assert (Z.of_nat (Z.to_nat n) <= max_size) as Hm by (unfold machine_integer, int_max, max_size in *; lia).
  pose proof (sem_new_vector v (Z.to_nat n) E U T Hm HE) as HN. rewrite En in HN.
  apply sem_bind. eapply sem_weaken; [exact HN|]. clear HN.
  intros r v1 [p [-> [H [S1 [U1 Fr]]]]]. apply sem_bind. eapply sem_call; [reflexivity|].
  rewrite <- S1 in H.
  apply sem_bind.
  eapply sem_weaken; [apply (sem_alloc_filling p (Z.to_nat n) 0 _ y E U H); auto; right; rewrite S1; auto|].
  intros r v2 [q [-> [H2 [N Pq]]]]. pose proof H2 as [T2 [L2 [_ [[s Es] [cs [Eo Hc]]]]]].
  rewrite En in Eo. destruct (n =? 0) eqn:C.
  - apply sem_bind. apply sem_ret. apply (sem_finish v2 p (Z.to_nat n)).
    replace (Z.to_nat n) with 0%nat in * by lia. exact H2.
  - apply sem_bind. set (o := OInternalVector (Some (repeat (Cell (Some q)) (Z.to_nat n))) n false).
    eapply sem_call.
    { unfold write, mbind, mget, mset. destruct L2 as [L2' _].
      destruct (Nat.ltb_spec p (length (objects v2))); [reflexivity|lia]. }
    change (sem (written v2 p o) (push_ustack_only None;;; (vector_initialized (Some p);;; sset_raw 0 (OVector (Some p) 0)))
      (fun _ v' => typed v') E U).
    assert (keeps (fun _ => True) v2 (written v2 p o)) as KK by (eapply written_keeps; eauto; simpl; auto).
    apply (sem_finish _ p (Z.to_nat n)).
    split; [eapply typed_written; eauto; simpl; auto|]. split; [apply written_live; auto|]. split; [lia|].
    split; [exists s; auto|]. exists (Some (repeat (Cell (Some q)) (Z.to_nat n))). split.
    + rewrite written_nth, Nat.eqb_refl, En. destruct L2 as [L2' _].
      destruct (Nat.ltb_spec p (length (objects v2))); [reflexivity|lia].
    + intros _. eexists; split; [reflexivity|]. split; [|intros i Hi; lia].
      intros i Hi. exists q. split; [apply nth_error_repeat; lia|].
      apply (points_keeps (fun _ => True) v2); auto with stable.
Qed.

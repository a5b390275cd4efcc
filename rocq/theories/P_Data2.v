(** Proofs about vectors. *)
From Coq Require Import ZArith List Lia Arith Bool ZifyBool ZifyNat.
Import ListNotations.
From Verif Require Import M_Base M_Heap M_Instr M_VM S_Heap S_VM S_Num S_Cyclic S_Globals S_Types S_Data P_Heap P_Sort P_VM P_Exec P_Num P_Valid P_Cyclic P_Globals P_Types P_Safe P_Safe2 P_Safe3 P_Safe4 P_Safe5 P_Data.
Open Scope Z_scope.

Lemma tot_alloc_filling (K : Prop) p n k v o : filling p n k v -> In o (stack v) ->
  (free v = [] -> k = 0%nat /\ K) ->
  tot K v (alloc o) (fun r v' => exists q, r = Some q /\ filling p n k v' /\ new_object o v q v' /\
    points v' first_class q /\ nth_error (objects v') q = Some o).
Proof.
  intros H Ho Hk.
  pose proof (sem_alloc_filling p n k v o (fun _ => True) False H Ho (fun F => proj1 (Hk F)) (fun _ => I)) as HS.
  pose proof H as [T _]. pose proof (filling_reach _ _ _ _ H) as Rp.
  assert (free v = [] -> empty_ones (fun x => x = p) v) as Em.
  { intros Ef. rewrite (proj1 (Hk Ef)) in H. eapply filling_empty; eauto. }
  unfold tot, sem in *. destruct (alloc_typed_total _ o v T (one_dec p) Em) as [v' [[q Ea]|[e [Ea F]]]]; rewrite Ea in *.
  - destruct HS as [q' [Eq [H' [N P]]]]. exists q'. split; auto. split; auto. split; auto. split; auto.
    destruct (no_stored _ _ _ _ N) as [m Em']. rewrite stored_first_class in Em'; auto. apply (ty_stack _ _ T o Ho).
  - split; [|apply Hk; auto]. apply (alloc_typed_err _ o v e v' T (one_dec p) (Em F)) in Ea; [apply Ea|]. intros x ->. auto.
Qed.

(** The elements filled in so far. *)
Definition contents (v : vm) (p : ptr) (ys : list object) : Prop :=
  forall i x, nth_error ys i = Some x -> exists l len q,
    nth_error (objects v) p = Some (OInternalVector (Some l) len false) /\ Z.of_nat i < len /\
    nth_error l i = Some (Cell (Some q)) /\ nth_error (objects v) q = Some x /\ q <> p.

Lemma contents_nil v p : contents v p [].
Proof. intros [|i] x E; discriminate. Qed.

Lemma contents_new v p ys o q v' : contents v p ys -> reach v p -> new_object o v q v' -> contents v' p ys.
Proof.
  intros C R N i x E. destruct (C i x E) as [l [len [r [Ep [Hi [Er [Ex Np]]]]]]]. exists l, len, r.
  rewrite !(no_same _ _ _ _ N); auto. eapply reach_step; [exact R|exact Ep|]. constructor. exists l, i. auto.
Qed.

Lemma tot_fill K p n s v0 is : forall xs k ys v,
  Forall2 (fun i x => 1 <= i /\ nth_error s (Z.to_nat (i - 1)) = Some x) is xs ->
  filling p n k v -> (k + length is = n)%nat -> k = length ys -> contents v p ys -> more v0 v -> ~ reach v0 p ->
  stack v = OVector (Some p) 0 :: s ->
  (length is <= length (free v) \/ k = 0 /\ length is <= 1 /\ K)%nat ->
  tot K v (vector_fill (Some p) (Z.of_nat k) is) (fun _ v' => filling p n n v' /\ contents v' p (ys ++ xs) /\
    more v0 v' /\ stack v' = stack v /\ ustack v' = ustack v).
Proof.
  induction is as [|i is IH]; intros xs k ys v HX H Hn Hk C M NR Es Hf; cbn [vector_fill].
  { inversion HX; subst xs. apply tot_ret. rewrite app_nil_r. simpl in Hn. rewrite Nat.add_0_r in Hn. rewrite Hn in H. auto. }
  inversion HX as [|i' x is' xs' [Hi Ex] HX']; subst i' is' xs. cbn [length] in *. apply tot_get. cbn zeta.
  assert (Z.to_nat (i - 1) < length s)%nat as Li by (apply nth_error_Some; congruence).
  rewrite Es. unfold zlen. cbn [length]. destruct (_ || _) eqn:C1; [lia|].
  apply tot_bind. unfold abs_get, zlen. cbn [length]. destruct (_ || (_ <=? _)) eqn:C2; [lia|].
  replace (Z.to_nat _) with (S (Z.to_nat (i - 1))) by lia. cbn [nth_error]. rewrite Ex.
  eapply tot_call; [reflexivity|].
  assert (In x (stack v)) as Hx by (rewrite Es; right; eapply nth_error_In; eauto).
  apply tot_bind. eapply tot_weaken; [apply (tot_alloc_filling K p n k v x H Hx); auto|].
  { intros Ef. rewrite Ef in Hf. simpl in Hf. split; [lia|]. destruct Hf; [lia|tauto]. }
  intros r v1 [q [-> [H1 [N [Pq Eq]]]]]. pose proof H1 as [T1 [L1 [[Kn Sn] [_ [cs1 [En1 Hc1]]]]]].
  destruct Hc1 as [l [-> [A B]]]; [lia|].
  pose proof (filling_reach _ _ _ _ H) as Rp.
  assert (q <> p) as Nqp by (intros ->; apply (no_new _ _ _ _ N); auto).
  assert (contents v1 p ys) as C1' by (eapply contents_new; eauto).
  assert (k < length l)%nat as Hl by (apply nth_error_Some; rewrite B by lia; discriminate).
  apply tot_bind. unfold vector_set. apply tot_get. apply tot_bind.
  eapply tot_call; [unfold mlift, internal_vector; rewrite En1; reflexivity|]. cbn beta iota.
  apply tot_bind. eapply tot_call; [unfold mlift; rewrite cell_set_ok by auto; reflexivity|].
  set (o' := OInternalVector (Some (list_set l k (Cell (Some q)))) (Z.of_nat n) false).
  apply tot_write; auto.
  assert (keeps (fun _ => True) v1 (written v1 p o')) as KK by (eapply written_keeps; eauto; simpl; auto).
  assert (nth_error (objects (written v1 p o')) p = Some o') as Ep.
  { rewrite written_nth, Nat.eqb_refl. destruct L1 as [L1 _]. destruct (Nat.ltb_spec p (length (objects v1))); [reflexivity|lia]. }
  assert (filling p n (S k) (written v1 p o')) as H2.
  { split; [eapply typed_written; eauto; simpl; auto|]. split; [apply written_live; auto|]. split; [lia|].
    split; [exists s; simpl; rewrite (new_stack _ _ _ _ N); auto|]. eexists. split; [exact Ep|].
    intros _. eexists. split; [reflexivity|]. split.
    - intros j Hj. rewrite list_set_nth. destruct (Nat.eqb_spec j k) as [->|Nj]; simpl.
      + destruct (Nat.ltb_spec k (length l)); [|lia]. exists q. split; auto.
        apply (points_keeps (fun _ => True) v1); auto with stable.
      + destruct (A j) as [r [Er Pr]]; [lia|]. exists r. split; auto.
        apply (points_keeps (fun _ => True) v1); auto with stable.
    - intros j Hj. rewrite list_set_nth. destruct (Nat.eqb_spec j k) as [->|Nj]; simpl; [lia|]. apply B. lia. }
  assert (contents (written v1 p o') p (ys ++ [x])) as C2'.
  { intros j y Ej. exists (list_set l k (Cell (Some q))), (Z.of_nat n).
    destruct (Nat.lt_ge_cases j (length ys)) as [Hj|Hj].
    - rewrite nth_error_app1 in Ej by auto. destruct (C1' j y Ej) as [l' [len' [r [Ep' [Hi' [Er [Ey Nr]]]]]]].
      rewrite En1 in Ep'. injection Ep' as <- <-. exists r. split; auto. split; auto. split; [|split; [|auto]].
      + rewrite list_set_nth. destruct (Nat.eqb_spec j k); [lia|]. auto.
      + rewrite written_nth. destruct (Nat.eqb_spec r p); [contradiction|]. auto.
    - rewrite nth_error_app2 in Ej by auto. destruct (j - length ys)%nat as [|m] eqn:Em; [|destruct m; discriminate].
      simpl in Ej. injection Ej as <-. assert (j = k) as -> by lia. exists q. split; auto. split; [lia|]. split; [|split; [|auto]].
      + rewrite list_set_nth, Nat.eqb_refl. destruct (Nat.ltb_spec k (length l)); [reflexivity|lia].
      + rewrite written_nth. destruct (Nat.eqb_spec q p); [contradiction|]. auto. }
  replace (Z.of_nat k + 1) with (Z.of_nat (S k)) by lia.
  assert (more v0 (written v1 p o')) as M2 by (apply more_written; auto; eapply more_new; eauto).
  eapply tot_weaken; [apply (IH xs' (S k) (ys ++ [x]) (written v1 p o')); auto; try lia|].
  - rewrite app_length. simpl. lia.
  - simpl. rewrite (new_stack _ _ _ _ N). auto.
  - change (free (written v1 p o')) with (free v1). left. destruct (free v) as [|f0 fr] eqn:Ef.
    + simpl in Hf. lia.
    + destruct (no_room _ _ _ _ N) as [E1 _]; [rewrite Ef; discriminate|].
      rewrite Ef in E1. injection E1 as _ ->. simpl in Hf. lia.
  - intros _ v3 [H3 [C3 [M3 [S3 U3]]]]. split; auto. rewrite <- app_assoc in C3. split; auto. split; auto.
    split; [rewrite S3; simpl; rewrite (new_stack _ _ _ _ N); auto|]. rewrite U3. simpl. apply (no_roots _ _ _ _ N).
Qed.

Lemma tot_finish K v0 v p n xs : filling p n n v -> contents v p xs -> length xs = n -> more v0 v -> ~ reach v0 p ->
  stack v = OVector (Some p) 0 :: stack v0 -> ustack v = ustack v0 ->
  tot K v (push_ustack_only None ;;; vector_initialized (Some p) ;;; sset_raw 0 (OVector (Some p) 0))
    (fun _ v' => gives nothing (OVector (Some p) 0) v0 v' /\ vector v' p xs).
Proof.
  intros [T [L [[_ Sn] [_ [cs [En H]]]]]] C Hx M NR Es Eu.
  apply tot_bind. eapply tot_call; [reflexivity|]. cbn beta.
  set (v1 := set_ustack v (None :: ustack v)).
  assert (live v1 p) as L1 by (apply (same_live v); [split; reflexivity|auto]).
  apply tot_bind. unfold vector_initialized. apply tot_get. apply tot_bind.
  eapply tot_call; [unfold mlift, internal_vector; change (objects v1) with (objects v); rewrite En; reflexivity|]. cbn beta iota.
  set (o := OInternalVector cs (Z.of_nat n) true). apply tot_write; auto.
  unfold sset_raw. apply tot_get. unfold raw_set, abs_set.
  change (stack (written v1 p o)) with (stack v). rewrite Es. unfold zlen. destruct (_ || _) eqn:C1; [exfalso; cbn [length] in C1; lia|].
  replace (Z.to_nat _) with 0%nat by lia. cbn [list_set].
  eapply tot_call; [reflexivity|].
  assert (more v0 v1) as M1.
  { destruct M as [A B D E]. constructor; auto. constructor; try apply A. intros q Hq. right. rewrite Eu. auto. }
  split.
  - apply more_gives; [|reflexivity|].
    + apply more_set_stack; [|intros z Hz; right; auto]. apply more_written; auto.
    + simpl. rewrite Eu. reflexivity.
  - exists cs. assert (forall r, r <> p -> nth_error (objects (written v1 p o)) r = nth_error (objects v) r) as O.
    { intros r Hr. rewrite written_nth. destruct (Nat.eqb_spec r p); [contradiction|]. reflexivity. }
    split.
    + change (nth_error (objects (written v1 p o)) p = Some (OInternalVector cs (zlen xs) true)).
      rewrite written_nth, Nat.eqb_refl. destruct L1 as [L1 _]. destruct (Nat.ltb_spec p (length (objects v1))); [|lia].
      unfold o, zlen. rewrite Hx. reflexivity.
    + intros Hne. destruct H as [l [-> [A B]]]; [destruct xs; [contradiction|simpl in Hx; lia]|]. exists l. split; auto.
      intros i x Ex. destruct (C i x Ex) as [l' [len [q [Ep [Hi [Eq [Ey Nq]]]]]]]. rewrite En in Ep. injection Ep as <- <-.
      exists q. split; auto. change (nth_error (objects (written v1 p o)) q = Some x). rewrite O; auto.
Qed.

Lemma tot_new_vector (K : Prop) v n : typed v -> Z.of_nat n <= max_size -> (free v = [] -> K) ->
  tot K v (alloc (OInternalVector None (Z.of_nat n) false))
    (fun r v' => exists p, r = Some p /\ ~ reach v p /\ more v v' /\
       filling p n 0 (set_stack v' (OVector (Some p) 0 :: stack v)) /\
       stack v' = stack v /\ ustack v' = ustack v /\
       (free v <> [] -> free v = p :: free v')).
Proof.
  intros T Hn HK. pose proof (sem_new_vector v n (fun _ => True) False T Hn (fun _ => I)) as HS. unfold tot, sem in *.
  destruct (alloc_typed_total _ (OInternalVector None (Z.of_nat n) false) v T none_dec (fun _ => empty_none v))
    as [v' [[p Ea]|[e [Ea F]]]]; rewrite Ea in *.
  - destruct HS as [p' [Ep HS]]. injection Ep as <-. exists p. split; auto.
    destruct (alloc_typed (fun _ => False) (fun x => x = p) (OInternalVector None (Z.of_nat n) false) v p v' T none_dec) as [T' N];
      [intros _; apply empty_none|intros ? ? ? []|intros ? []|intros ? []|left; reflexivity|exact Ea|].
    split; [apply N|]. split; [eapply more_new; [apply more_refl|eauto]|]. exact HS.
  - apply (alloc_typed_err _ _ v e v' T none_dec (empty_none v)) in Ea; [|intros p []]. split; [apply Ea|auto].
Qed.

Lemma tot_vector v is xs : typed v -> zlen is < 2 ^ 32 ->
  Forall2 (at_pos v) is xs ->
  (length is <= 1 \/ length is < length (free v))%nat ->
  tot (length (free v) < 2)%nat v (vector_op is)
    (fun _ v' => exists p, gives nothing (OVector (Some p) 0) v v' /\ vector v' p xs /\ ~ reach v p).
Proof.
  intros T Hl HX Hc. unfold vector_op. apply tot_bind.
  assert (Z.of_nat (length is) <= max_size) as Hm by (unfold zlen, max_size in *; lia).
  eapply tot_weaken; [apply (tot_new_vector _ v (length is)); auto|].
  { intros ->. simpl. lia. }
  intros r v1 [p [-> [NR [M1 [H [S1 [U1 Fr]]]]]]]. apply tot_bind. eapply tot_call; [reflexivity|].
  rewrite <- S1 in H. apply tot_bind.
  eapply tot_weaken; [apply (tot_fill _ p (length is) (stack v) v is xs 0 [] _ HX H); auto|].
  - apply contents_nil.
  - apply more_set_stack; auto. rewrite S1. intros z Hz. right; auto.
  - simpl. rewrite S1. auto.
  - change (free (set_stack _ _)) with (free v1). destruct (free v) as [|f fr] eqn:Ef.
    + simpl in *. right. lia.
    + assert (f :: fr = p :: free v1) as E1 by (apply Fr; discriminate). injection E1 as -> ->. simpl in *. lia.
  - intros _ v2 [H2 [C2 [M2 [S2 U2]]]]. eapply tot_weaken; [apply (tot_finish _ v v2 p (length is) xs)|]; auto.
    + symmetry. clear - HX. induction HX; simpl; congruence.
    + rewrite S2. simpl. rewrite S1. auto.
    + rewrite U2. simpl. auto.
    + intros _ v3 [G V]. exists p. auto.
Qed.

Lemma vector_spec host base next is xs v : typed v -> zlen is < 2 ^ 32 -> Forall2 (at_pos v) is xs ->
  (length is <= 1 \/ length is < length (free v))%nat ->
  gives_result 2 (exec host base next (IVector is) v) next v
    (fun v' => exists p, gives nothing (OVector (Some p) 0) v v' /\ vector v' p xs /\ ~ reach v p).
Proof. intros T Hl HX Hc. exact (tot_result 2 v (vector_op is) next _ (tot_vector v is xs T Hl HX Hc)). Qed.

Lemma tot_make_vector v n y : typed v -> In y (stack v) -> 0 <= n <= max_size ->
  tot (length (free v) < 2)%nat v (make_vector_op (OInteger n) y)
    (fun _ v' => exists p, gives nothing (OVector (Some p) 0) v v' /\ vector v' p (repeat y (Z.to_nat n)) /\ ~ reach v p).
Proof.
  intros T Hy Hn. unfold make_vector_op. destruct (Z.ltb_spec n 0); [lia|].
  assert (Z.of_nat (Z.to_nat n) = n) as En by lia.
  assert (Z.of_nat (Z.to_nat n) <= max_size) as Hm by lia.
  assert (free v = [] -> (length (free v) < 2)%nat) as HK by (intros ->; simpl; lia).
  pose proof (tot_new_vector _ v (Z.to_nat n) T Hm HK) as HN. rewrite En in HN.
  apply tot_bind. eapply tot_weaken; [exact HN|]. clear HN.
  intros r v1 [p [-> [NR [M1 [H1 [S1 [U1 Fr]]]]]]]. apply tot_bind. eapply tot_call; [reflexivity|].
  rewrite <- S1 in H1. apply tot_bind.
  eapply tot_weaken; [apply (tot_alloc_filling _ p (Z.to_nat n) 0 _ y H1); [right; rewrite S1; auto|]|].
  { change (free (set_stack _ _)) with (free v1). intros E. split; auto. destruct (free v) as [|f fr] eqn:Ef; [simpl; lia|].
    assert (f :: fr = p :: free v1) as E1 by (apply Fr; discriminate). rewrite E in E1. injection E1 as _ ->. simpl. lia. }
  intros r v2 [q [-> [H2 [N [Pq Eq]]]]]. pose proof H2 as [T2 [L2 [_ [_ [cs [Eo Hc]]]]]].
  assert (more v v2) as M2.
  { eapply more_new; [|exact N]. apply more_set_stack; auto. rewrite S1. intros z Hz. right; auto. }
  assert (stack v2 = OVector (Some p) 0 :: stack v) as S2 by (rewrite (new_stack _ _ _ _ N); simpl; rewrite S1; auto).
  assert (ustack v2 = ustack v) as U2 by (pose proof (no_roots _ _ _ _ N) as (_ & -> & _); simpl; auto).
  assert (q <> p) as Nqp by (intros ->; apply (no_new _ _ _ _ N); eapply filling_reach; eauto).
  rewrite En in Eo. destruct (n =? 0) eqn:C.
  - apply tot_bind. apply tot_ret. replace (Z.to_nat n) with 0%nat in * by lia.
    eapply tot_weaken; [apply (tot_finish _ v v2 p 0 [] H2); auto|].
    + apply contents_nil.
    + intros _ v3 [G V]. exists p. auto.
  - apply tot_bind. set (o := OInternalVector (Some (repeat (Cell (Some q)) (Z.to_nat n))) n false).
    apply tot_write; auto.
    assert (keeps (fun _ => True) v2 (written v2 p o)) as KK by (eapply written_keeps; eauto; simpl; auto).
    assert (nth_error (objects (written v2 p o)) p = Some o) as Ep.
    { rewrite written_nth, Nat.eqb_refl. destruct L2 as [L2' _]. destruct (Nat.ltb_spec p (length (objects v2))); [reflexivity|lia]. }
    eapply tot_weaken; [apply (tot_finish _ v (written v2 p o) p (Z.to_nat n) (repeat y (Z.to_nat n)))|]; auto.
    + split; [eapply typed_written; eauto; simpl; auto|]. split; [apply written_live; auto|]. split; [lia|].
      split; [exists (stack v); auto|]. exists (Some (repeat (Cell (Some q)) (Z.to_nat n))). split; [rewrite En; exact Ep|].
      intros _. eexists; split; [reflexivity|]. split; [|intros i Hi; lia].
      intros i Hi. exists q. split; [apply nth_error_repeat; lia|].
      apply (points_keeps (fun _ => True) v2); auto with stable.
    + intros i x Ex. exists (repeat (Cell (Some q)) (Z.to_nat n)), n, q.
      assert (i < Z.to_nat n)%nat as Hi by (rewrite <- (repeat_length y (Z.to_nat n)); apply nth_error_Some; congruence).
      rewrite nth_error_repeat in Ex by auto. injection Ex as <-. split; [exact Ep|]. split; [lia|].
      split; [apply nth_error_repeat; auto|]. split; [|auto]. rewrite written_nth.
      destruct (Nat.eqb_spec q p); [contradiction|]. auto.
    + apply repeat_length.
    + apply more_written; auto.
    + intros _ v3 [G V]. exists p. auto.
Qed.

Lemma make_vector_spec host base next i j n y v : typed v -> at_pos v i (OInteger n) -> at_pos v j y -> 0 <= n ->
  gives_result 2 (exec host base next (IBin BMakeVector i j) v) next v
    (fun v' => exists p, gives nothing (OVector (Some p) 0) v v' /\ vector v' p (repeat y (Z.to_nat n)) /\ ~ reach v p).
Proof.
  intros T Hi Hj Hn. rewrite (exec_bin host base next _ i j _ y v Hi Hj).
  assert (n <= max_size) as Hm.
  { destruct (val_in v _ T (at_in _ _ _ Hi)) as [_ W]. simpl in W. unfold machine_integer, max_size in *. lia. }
  exact (tot_result 2 v (bin_op BMakeVector (OInteger n) y) next _ (tot_make_vector v n y T (at_in _ _ _ Hj) (conj Hn Hm))).
Qed.

Lemma make_vector_bad host base next i j x y v : at_pos v i x -> at_pos v j y -> (forall n, x = OInteger n -> n < 0) ->
  exec host base next (IBin BMakeVector i j) v = (Err invalidValue, v).
Proof.
  intros Hi Hj Hx. rewrite (exec_bin host base next _ i j x y v Hi Hj). destruct x; try reflexivity.
  specialize (Hx n eq_refl). unfold bin_op, make_vector_op, mbind, mget. destruct (Z.ltb_spec n 0); [reflexivity|lia].
Qed.

(** * Elements *)

Lemma skipn_nth {A} (l : list A) i j : nth_error (skipn i l) j = nth_error l (i + j).
Proof. revert l. induction i as [|i IH]; intros [|x l]; simpl; auto. destruct j; auto. Qed.

Lemma elements_get os cs xs i x : (xs <> [] -> exists l, cs = Some l /\ elements os l xs) ->
  nth_error xs i = Some x -> exists q, cell_get cs (Z.of_nat i) = Ok (Some q) /\ nth_error os q = Some x.
Proof.
  intros H E. destruct H as [l [-> H]]; [intros ->; destruct i; discriminate|]. destruct (H i x E) as [q [Eq Ex]].
  exists q. split; auto. unfold cell_get, array_get. destruct (Z.ltb_spec (Z.of_nat i) 0); [lia|]. rewrite Nat2Z.id, Eq. reflexivity.
Qed.

Lemma get_elt_spec host base next i j p offset k xs v : typed v -> at_pos v i (OVector (Some p) offset) -> at_pos v j (OInteger k) ->
  vector v p xs -> k + offset < 2 ^ 63 ->
  (0 <= k -> forall x, nth_error (skipn (Z.to_nat offset) xs) (Z.to_nat k) = Some x ->
     exec host base next (IBin BGetVecElt i j) v = (Ok (Continue next), pushed x v)) /\
  (k < 0 \/ zlen (skipn (Z.to_nat offset) xs) <= k ->
     exec host base next (IBin BGetVecElt i j) v = (Err invalidValue, v)).
Proof.
  intros T Hi Hj [cs [E HE]] Hf. destruct (val_in v _ T (at_in _ _ _ Hi)) as [_ [Ho _]].
  destruct (val_in v _ T (at_in _ _ _ Hj)) as [_ Wk]. simpl in Wk. unfold machine_integer in Wk.
  assert (zlen xs <= max_size) as Hx.
  { assert (live v p) as L by (eapply typed_reach_live; eauto; apply (reach_in v (OVector (Some p) offset)); [eapply at_in; exact Hi|constructor]).
    destruct (ty_objects _ _ T p _ L (fun x => x) E) as [_ [W _]]. lia. }
  rewrite !(exec_bin host base next _ i j _ _ v Hi Hj).
  unfold bin_op, get_elt_op, mbind, mget. split.
  - intros Hk x Ex. rewrite skipn_nth in Ex.
    assert (Z.to_nat offset + Z.to_nat k < length xs)%nat as Hl by (apply nth_error_Some; congruence).
    destruct (Z.ltb_spec k 0); [lia|]. assert (fits (k + offset) = true) as -> by (apply fits_spec; unfold machine_integer; lia).
    cbn [negb]. unfold mlift, internal_vector. rewrite E.
    cbn beta iota. rewrite usz_small by (unfold max_size; lia). destruct (Z.leb_spec (zlen xs) (k + offset)); [unfold zlen in *; lia|].
    destruct (elements_get _ _ _ _ _ HE Ex) as [q [Ec Eq]].
    replace (Z.of_nat (Z.to_nat offset + Z.to_nat k)) with (offset + k) in Ec by lia.
    rewrite Ec. unfold deref, mbind, mget, mret. rewrite Eq. reflexivity.
  - intros Hk. destruct (Z.ltb_spec k 0); [reflexivity|].
    assert (fits (k + offset) = true) as -> by (apply fits_spec; unfold machine_integer, max_size in *; lia).
    cbn [negb]. unfold mlift, internal_vector. rewrite E.
    cbn beta iota. rewrite usz_small by (unfold max_size in *; lia).
    destruct (Z.leb_spec (zlen xs) (k + offset)); [reflexivity|]. exfalso. unfold zlen in *. rewrite skipn_length in Hk. lia.
Qed.

Lemma updated_nth {A} n (x : A) l i : nth_error (updated n x l) i = if (i =? n)%nat && (n <? length l)%nat then Some x else nth_error l i.
Proof.
  revert n i. induction l as [|y l IH]; intros n i.
  - simpl. rewrite andb_false_r. destruct n; reflexivity.
  - destruct n as [|n], i as [|i]; simpl; auto. rewrite IH. destruct (i =? n)%nat; reflexivity.
Qed.
Lemma updated_length {A} n (x : A) l : length (updated n x l) = length l.
Proof. revert n. induction l as [|y l IH]; intros [|n]; simpl; auto. Qed.

Lemma tot_set_elt v p offset k z xs : typed v -> In (OVector (Some p) offset) (stack v) -> In z (stack v) ->
  vector v p xs -> - 2 ^ 63 <= k -> 0 <= offset + k < zlen xs ->
  tot (length (free v) < 1)%nat v (set_elt_op (OVector (Some p) offset) (OInteger k) z)
    (fun r v1 => r = z /\ gives (only p) z v (pushed z v1) /\ vector v1 p (updated (Z.to_nat (offset + k)) z xs)).
Proof.
  intros T Hv Hz [cs [E HE]] Hk Hb.
  assert (reach v p) as R by (apply (reach_in v (OVector (Some p) offset)); [auto|constructor]).
  pose proof (typed_reach_live v p T R) as L. pose proof (ty_objects _ _ T p _ L (fun x => x) E) as [_ [Hx HB]].
  unfold set_elt_op. assert (fits (k + offset) = true) as -> by (apply fits_spec; unfold machine_integer, max_size in *; lia).
  cbn [negb]. apply tot_get. apply tot_bind. eapply tot_call; [unfold mlift, internal_vector; rewrite E; reflexivity|]. cbn beta iota.
  rewrite usz_small by (unfold max_size in *; lia). destruct (Z.leb_spec (zlen xs) (k + offset)); [lia|].
  apply tot_bind. eapply tot_weaken; [apply tot_alloc_in; auto|].
  { intros ->. simpl. lia. }
  intros r v1 [n [-> [T1 [N1 [En Pn]]]]].
  assert (more v v1) as M1 by (eapply more_new; [apply more_refl|eauto]).
  assert (nth_error (objects v1) p = Some (OInternalVector cs (zlen xs) true)) as E1 by (rewrite (more_same v); auto).
  assert (live v1 p) as L1 by (eapply typed_reach_live; eauto; eapply more_reach; eauto).
  assert (n <> p) as Nn by (intros ->; apply (no_new _ _ _ _ N1); auto).
  destruct HE as [l [-> HE]]; [intros ->; unfold zlen in *; simpl in *; lia|].
  assert (Z.to_nat (offset + k) < length l)%nat as Hl.
  { destruct (nth_error xs (Z.to_nat (offset + k))) as [x|] eqn:Ex.
    - destruct (HE _ _ Ex) as [q [Eq _]]. apply nth_error_Some. congruence.
    - apply nth_error_None in Ex. unfold zlen in *. lia. }
  apply tot_bind. unfold vector_set. apply tot_get. apply tot_bind.
  eapply tot_call; [unfold mlift, internal_vector; rewrite E1; reflexivity|]. cbn beta iota.
  apply tot_bind. eapply tot_call.
  { unfold mlift, cell_set, array_set. destruct (_ || _) eqn:C; [unfold zlen in *; lia|]. reflexivity. }
  apply tot_write; auto. apply tot_ret. split; auto. split; [apply gives_written; auto; apply N1|].
  exists (Some (list_set l (Z.to_nat (offset + k)) (Cell (Some n)))). split.
  - rewrite written_nth, Nat.eqb_refl. destruct L1 as [L1 _]. destruct (Nat.ltb_spec p (length (objects v1))); [|lia].
    unfold zlen. rewrite updated_length. reflexivity.
  - intros _. eexists. split; [reflexivity|]. intros i x Ex. rewrite updated_nth in Ex. rewrite list_set_nth.
    destruct (Nat.eqb_spec i (Z.to_nat (offset + k))) as [->|Ni]; cbn [andb] in *.
    + destruct (Nat.ltb_spec (Z.to_nat (offset + k)) (length xs)); [|unfold zlen in *; lia]. injection Ex as <-.
      destruct (Nat.ltb_spec (Z.to_nat (offset + k)) (length l)); [|lia]. exists n. split; auto.
      rewrite written_nth. destruct (Nat.eqb_spec n p); [contradiction|]. auto.
    + destruct (HE i x Ex) as [q [Eq Ey]]. exists q. split; auto. rewrite written_nth. destruct (Nat.eqb_spec q p) as [->|_].
      * exfalso. assert (i < length xs)%nat as Hi by (apply nth_error_Some; congruence).
        destruct HB as [l' [El HB]]; [unfold zlen in *; lia|]. injection El as <-.
        destruct (HB i) as [r [Er [q' [-> [_ [o [Eo Fo]]]]]]]; [unfold zlen; lia|].
        rewrite Eq in Er. injection Er as <-. rewrite E in Eo. injection Eo as <-. exact Fo.
      * simpl. rewrite (more_same v v1); auto. eapply reach_step; [exact R|exact E|]. constructor. exists l, i.
        assert (i < length xs)%nat by (apply nth_error_Some; congruence). split; auto. split; [unfold zlen; lia|auto].
Qed.

Lemma set_elt_spec host base next i j k p offset n z xs v : typed v -> at_pos v i (OVector (Some p) offset) ->
  at_pos v j (OInteger n) -> at_pos v k z -> vector v p xs -> 0 <= n ->
  (n < zlen (skipn (Z.to_nat offset) xs) ->
     gives_result 1 (exec host base next (ITern TSetVecElt i j k) v) next v
       (fun v' => gives (only p) z v v' /\ vector v' p (updated (Z.to_nat (offset + n)) z xs))) /\
  (zlen (skipn (Z.to_nat offset) xs) <= n -> n + offset < 2 ^ 63 ->
     exec host base next (ITern TSetVecElt i j k) v = (Err invalidValue, v)).
Proof.
  intros T Hi Hj Hk HV Hn. destruct (val_in v _ T (at_in _ _ _ Hi)) as [_ [Ho _]]. split.
  - intros Hl. assert (0 <= offset + n < zlen xs) as Hb by (unfold zlen in *; rewrite skipn_length in Hl; lia).
    rewrite (exec_tern host base next _ i j k _ _ z v Hi Hj Hk).
    apply (tot_result 1 v (tern_op TSetVecElt (OVector (Some p) offset) (OInteger n) z) next
      (fun _ v' => gives (only p) z v v' /\ vector v' p (updated (Z.to_nat (offset + n)) z xs))).
    unfold tern_op. apply tot_bind. eapply tot_weaken; [apply (tot_set_elt v p offset n z xs); auto; try lia; eapply at_in; eauto|].
    intros r v1 [-> [G P]]. apply tot_push. auto.
  - intros Hl Hf. destruct HV as [cs [E _]]. rewrite (exec_tern host base next _ i j k _ _ z v Hi Hj Hk).
    unfold tern_op, set_elt_op. assert (fits (n + offset) = true) as -> by (apply fits_spec; unfold machine_integer; lia).
    cbn [negb]. unfold mbind, mget, mlift, internal_vector. rewrite E. cbn beta iota.
    rewrite usz_small by (unfold max_size; lia). destruct (Z.leb_spec (zlen xs) (n + offset)); [reflexivity|].
    exfalso. unfold zlen in *. rewrite skipn_length in Hl. lia.
Qed.

Lemma elt_bad host base next i j k x y z v : at_pos v i x -> at_pos v j y -> at_pos v k z ->
  match x, y with OVector _ _, OInteger _ | OString _ _ _, OInteger _ => False | _, _ => True end ->
  exec host base next (IBin BGetVecElt i j) v = (Err invalidValue, v) /\
  exec host base next (ITern TSetVecElt i j k) v = (Err invalidValue, v).
Proof.
  intros Hi Hj Hk H. rewrite (exec_bin host base next _ i j x y v Hi Hj), (exec_tern host base next _ i j k x y z v Hi Hj Hk).
  destruct x, y; try contradiction; auto.
Qed.

Lemma vector_length host base next i p offset xs v : at_pos v i (OVector (Some p) offset) -> vector v p xs ->
  0 <= offset <= zlen xs ->
  exec host base next (IUn ULength i) v = (Ok (Continue next), pushed (OInteger (zlen (skipn (Z.to_nat offset) xs))) v).
Proof.
  intros Hi [cs [E _]] Ho. rewrite (exec_un host base next _ i _ v Hi). unfold un_op, mbind, mget, mlift, length_op, internal_vector.
  rewrite E. cbn [bind]. unfold stack_push, zlen in *. rewrite skipn_length.
  replace (Z.of_nat (length xs - Z.to_nat offset)) with (Z.of_nat (length xs) - offset) by lia. reflexivity.
Qed.

(** Well-typed vector values are vectors. *)
Lemma value_vector v i p offset : typed v -> at_pos v i (OVector (Some p) offset) -> exists xs, vector v p xs.
Proof.
  intros T Hi. destruct (val_in v _ T (at_in _ _ _ Hi)) as [_ [_ P]].
  destruct (internal_points v p T (P p eq_refl)) as [cs [len [_ [E [[_ [Hl W]] _]]]]].
  assert (forall n, Z.of_nat n <= len -> exists xs, length xs = n /\
    ((0 < n)%nat -> exists l, cs = Some l /\ elements (objects v) l xs)) as H.
  { induction n as [|n IH]; intros Hn; [exists []; split; auto; lia|]. destruct IH as [xs [Lx IH]]; [lia|].
    destruct W as [l [-> W]]; [lia|]. destruct (W n) as [r [Er [q [-> [_ [o [Eo _]]]]]]]; [lia|].
    exists (xs ++ [o]). split; [rewrite app_length; simpl; lia|]. intros _. exists l. split; auto.
    intros j x Ej. destruct (Nat.lt_ge_cases j (length xs)) as [Hj|Hj].
    - rewrite nth_error_app1 in Ej by auto. destruct IH as [l' [El IH]]; [lia|]. injection El as <-. auto.
    - rewrite nth_error_app2 in Ej by auto. destruct (j - length xs)%nat as [|m] eqn:Em; [|destruct m; discriminate].
      injection Ej as <-. assert (j = n) as -> by lia. eauto. }
  destruct (H (Z.to_nat len)) as [xs [Lx HX]]; [lia|]. exists xs, cs. unfold zlen. rewrite Lx. split; [rewrite E; do 2 f_equal; lia|].
  intros Hne. apply HX. destruct xs; [contradiction|]. simpl in Lx. lia.
Qed.

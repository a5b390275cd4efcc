(** Proofs about captured variables: making closures. *)
From Coq Require Import ZArith List Lia Arith Bool ZifyBool ZifyNat.
Import ListNotations.
From Verif Require Import M_Base M_Heap M_Instr M_VM S_Heap S_VM S_Num S_Cyclic S_Globals S_Types S_Data S_Call S_Closure P_Heap P_Sort P_VM P_Exec P_Num P_Valid P_Cyclic P_Globals P_Types P_Safe P_Safe2 P_Safe3 P_Safe4 P_Safe5 P_Data P_Data2 P_Data3 P_Call P_Call2 P_Safe6 P_Safe7 P_Closure P_Closure2.
Open Scope Z_scope.

Lemma mark_in v j e : mark v j e -> 0 <= j < zlen (ustack v) /\ In (Some e) (ustack v).
Proof. intros [H E]. destruct (abs_slot _ _ _ H E). split; [lia|]. apply in_rev. eapply nth_error_In; eauto. Qed.

Lemma mark_reach v j e : mark v j e -> reach v e.
Proof. intros M. apply mark_in in M as [_ M]. apply reach_root, root_ustack; auto. Qed.

Lemma mark_push v (x : optr) j e : mark (set_ustack v (x :: ustack v)) j e <-> (j = zlen (ustack v) /\ x = Some e) \/ mark v j e.
Proof.
  unfold mark, zlen. cbn [ustack set_ustack rev]. destruct (Z_le_dec 0 j) as [Hj|Hj]; [|lia].
  destruct (Z.lt_trichotomy j (Z.of_nat (length (ustack v)))) as [H|[H|H]].
  - rewrite nth_error_app1 by (rewrite rev_length; lia). split; [intros [_ A]; auto|]. intros [[A _]|A]; [lia|auto].
  - rewrite nth_error_app2 by (rewrite rev_length; lia). rewrite rev_length. replace (Z.to_nat j - length (ustack v))%nat with 0%nat by lia. cbn [nth_error].
    split; [intros [_ A]; left; split; [auto|congruence]|]. intros [[_ ->]|[_ A]]; [auto|].
    assert (nth_error (rev (ustack v)) (Z.to_nat j) <> None) as B by congruence. apply nth_error_Some in B. rewrite rev_length in B. lia.
  - split; [intros [_ A]|intros [[A _]|[_ A]]; [lia|]].
    + assert (nth_error (rev (ustack v) ++ [x]) (Z.to_nat j) <> None) as B by congruence. apply nth_error_Some in B. rewrite app_length, rev_length in B. simpl in B. lia.
    + assert (nth_error (rev (ustack v)) (Z.to_nat j) <> None) as B by congruence. apply nth_error_Some in B. rewrite rev_length in B. lia.
Qed.

Lemma separate_marked v q v' k us : separate v -> typed v -> new_object (OUpvalue (UpStack k)) v q v' -> survivors v q v' ->
  (forall e, ~ mark v k e) -> (forall j e, mark (set_ustack v us) j e <-> (j = k /\ Some q = Some e) \/ mark v j e) -> separate (set_ustack v' us).
Proof.
  intros SP T N K Nk Mw.
  assert (forall j e, mark (set_ustack v' us) j e <-> (j = k /\ Some q = Some e) \/ mark v j e) as Mw' by exact Mw.
  destruct (no_stored _ _ _ _ N) as [n Eq]. simpl in Eq.
  assert (forall p u, live v' p -> nth_error (objects v') p = Some (OUpvalue u) -> p <> q -> live v p /\ nth_error (objects v) p = Some (OUpvalue u)) as K'.
  { intros p u Lp Ep Np. destruct (K p Lp) as [-> |[A [B C]]]; [contradiction|]. rewrite <- B; auto. }
  constructor.
  - intros e j L E. apply Mw'. destruct (Nat.eq_dec e q) as [->|Ne].
    + left. cbn [objects set_ustack] in E. rewrite Eq in E. injection E as <-. auto.
    + right. destruct (K' e _ L E Ne). apply (sp_slots _ SP); auto.
  - intros e j M. apply Mw' in M as [[-> M]|M].
    + injection M as <-. exact Eq.
    + cbn [objects set_ustack]. rewrite (no_same _ _ _ _ N); [apply (sp_marks _ SP); auto|eapply mark_reach; eauto].
  - intros e e' z L L' E E'. destruct (Nat.eq_dec e q) as [->|Ne]; [cbn [objects set_ustack] in E; rewrite Eq in E; discriminate|].
    destruct (Nat.eq_dec e' q) as [->|Ne']; [cbn [objects set_ustack] in E'; rewrite Eq in E'; discriminate|].
    destruct (K' e _ L E Ne). destruct (K' e' _ L' E' Ne'). eapply (sp_boxes _ SP); eauto.
Qed.

Lemma separate_same v v' : same_heap v v' -> (forall j e, mark v' j e <-> mark v j e) -> separate v -> separate v'.
Proof.
  intros [H1 H2] M SP. unfold live in *. assert (forall p, live v' p -> live v p) as L by (intros p; unfold live; rewrite H1, H2; auto).
  constructor.
  - intros e k Le E. rewrite H1 in E. apply M, (sp_slots _ SP); auto.
  - intros e k Me. rewrite H1. apply (sp_marks _ SP), M; auto.
  - intros e e' q Le Le' E E'. rewrite H1 in E, E'. eapply (sp_boxes _ SP); eauto.
Qed.

Lemma separate_written v p x o : nth_error (objects v) p = Some x -> (forall u, x <> OUpvalue u) -> (forall u, o <> OUpvalue u) -> separate v -> separate (written v p o).
Proof.
  intros Ex Nx No SP.
  assert (forall r u, nth_error (objects (written v p o)) r = Some (OUpvalue u) <-> nth_error (objects v) r = Some (OUpvalue u)) as K.
  { intros r u. rewrite written_nth. destruct (Nat.eqb_spec r p) as [->|Np]; cbn [andb]; [|tauto].
    assert (p < length (objects v))%nat as Hl by (apply nth_error_Some; congruence). destruct (Nat.ltb_spec p (length (objects v))); [|lia].
    split; intros H'; exfalso; [|rewrite Ex in H']; injection H' as H'; [apply (No u)|apply (Nx u)]; auto. }
  constructor.
  - intros e k L E. apply K in E. apply written_live in L. apply (sp_slots _ SP); auto.
  - intros e k M. apply K. apply (sp_marks _ SP); auto.
  - intros e e' q L L' E E'. apply K in E. apply K in E'. apply written_live in L. apply written_live in L'. eapply (sp_boxes _ SP); eauto.
Qed.

(** Where number [c] of a capture list leads. *)
Definition source (v0 : vm) (c : Z) (u : ptr) (v : vm) : Prop :=
  (0 <= c /\ mark v (zlen (stack v0) - c) u) \/
  (c < 0 /\ exists q, captures v0 (- (c + 1)) q /\ nth_error (objects v) u = Some (OUpvalue (UpUpvalue q))).

Record so_far (v0 : vm) (p : ptr) (clo : object) (all : list Z) (k : nat) (v : vm) : Prop := {
  sf_stack : stack v = clo :: stack v0;
  sf_ext : extends v0 v;
  sf_new : ~ reach v0 p;
  sf_sep : separate v;
  sf_marks : forall j e, mark v0 j e -> mark v j e;
  sf_cells : forall j c, (j < k)%nat -> nth_error all j = Some c -> exists id l len u,
    nth_error (objects v) p = Some (OUpvalueArray id (Some l) len) /\ nth_error l j = Some (Cell (Some u)) /\ source v0 c u v
}.

Lemma source_more v0 c u v v' : (forall j e, mark v j e -> mark v' j e) -> (forall x, nth_error (objects v) u = Some (OUpvalue x) -> nth_error (objects v') u = Some (OUpvalue x)) ->
  source v0 c u v -> source v0 c u v'.
Proof. intros M E [[A B]|[A [q [B C]]]]; [left; auto|right; split; auto; exists q; auto]. Qed.

Lemma in_mark v e : In (Some e) (ustack v) -> exists j, mark v j e.
Proof.
  intros H. apply in_rev, In_nth_error in H as [n E]. exists (Z.of_nat n). split; [lia|]. rewrite Nat2Z.id. auto.
Qed.

Lemma cell_reach v0 p n k r clo A v j u id l len : capturing v0 p n k r clo A v -> refers clo p -> (j < n)%nat ->
  nth_error (objects v) p = Some (OUpvalueArray id (Some l) len) -> nth_error l j = Some (Cell (Some u)) -> reach v u.
Proof.
  intros H Rc Hj E Ej. destruct (ca_stack _ _ _ _ _ _ _ _ H) as [s Es]. destruct (ca_array _ _ _ _ _ _ _ _ H) as [id' [cs [E' _]]].
  rewrite E in E'. injection E' as <- <- ->. eapply reach_step; [|exact E|].
  - apply (reach_in v clo); auto. rewrite Es. left; auto.
  - constructor. exists l, j. split; auto. split; [lia|auto].
Qed.

Lemma so_far_step v0 p n k m r clo A all v v' : capturing v0 p n m r clo A v -> refers clo p -> (k <= n)%nat ->
  so_far v0 p clo all k v -> stack v' = stack v -> globals v' = globals v -> call_stack v' = call_stack v -> current_bytecode v' = current_bytecode v ->
  (forall q, reach v q -> nth_error (objects v') q = nth_error (objects v) q) -> (forall j e, mark v j e -> mark v' j e) -> separate v' ->
  so_far v0 p clo all k v'.
Proof.
  intros H Rc Hk S E1 E2 E3 E4 Hs Hm SP. pose proof (sf_ext _ _ _ _ _ _ S) as X.
  destruct (ca_stack _ _ _ _ _ _ _ _ H) as [s Es].
  assert (reach v p) as Rp by (apply (reach_in v clo); auto; rewrite Es; left; auto).
  constructor; auto.
  - rewrite E1. apply S.
  - constructor.
    + rewrite E1. apply X.
    + intros q Hq. apply in_mark in Hq as [j M]. apply (sf_marks _ _ _ _ _ _ S) in M. apply Hm in M. apply mark_in in M. apply M.
    + rewrite E2. apply X.
    + rewrite E3. apply X.
    + rewrite E4. apply X.
    + intros q Rq. rewrite Hs by (eapply extends_reach; eauto). apply X; auto.
  - apply S.
  - intros j e M. apply Hm, (sf_marks _ _ _ _ _ _ S); auto.
  - intros j c Hj Ej. destruct (sf_cells _ _ _ _ _ _ S j c Hj Ej) as [id [l [len [u [A1 [A2 A3]]]]]]. exists id, l, len, u.
    split; [rewrite Hs; auto|]. split; auto. eapply source_more; eauto. intros x Ex. rewrite Hs; auto.
    eapply cell_reach; eauto. lia.
Qed.

Lemma so_far_set v0 p n k r clo A all v u (E : vm -> Prop) U c : capturing v0 p n k r clo A v -> refers clo p -> (k < n)%nat -> so_far v0 p clo all k v ->
  points v is_upvalue u -> nth_error all k = Some c -> source v0 c u v ->
  sem v (upvalue_array_set (Some p) (Z.of_nat k) (Some u)) (fun _ v' => capturing v0 p n (S k) r clo A v' /\ so_far v0 p clo all (S k) v') E U.
Proof.
  intros H Rc Hk S Pu Ec Sc. pose proof (capturing_set v0 p n k r clo A v u E U H Hk Pu) as HC.
  destruct (ca_array _ _ _ _ _ _ _ _ H) as [id [cs [En [L Hl]]]].
  destruct Hl as [l [-> [Ll Hl]]]; [lia|].
  assert (upvalue_array_set (Some p) (Z.of_nat k) (Some u) v = (Ok tt, written v p (OUpvalueArray id (Some (list_set l k (Cell (Some u)))) (Z.of_nat n)))) as Er.
  { unfold upvalue_array_set, mbind at 1. rewrite (deref_run _ _ _ En). unfold mbind, mlift. rewrite cell_set_ok by lia.
    unfold write, mbind, mget, mset. destruct L as [L _]. destruct (Nat.ltb_spec p (length (objects v))); [reflexivity|lia]. }
  unfold sem in *. rewrite Er in *. split; auto. clear HC.
  set (o := OUpvalueArray id (Some (list_set l k (Cell (Some u)))) (Z.of_nat n)).
  assert (forall q, q <> p -> nth_error (objects (written v p o)) q = nth_error (objects v) q) as Hs.
  { intros q Nq. rewrite written_nth. destruct (Nat.eqb_spec q p); [contradiction|]. auto. }
  assert (nth_error (objects (written v p o)) p = Some o) as Hp.
  { rewrite written_nth, Nat.eqb_refl. destruct L as [L _]. destruct (Nat.ltb_spec p (length (objects v))); [reflexivity|lia]. }
  assert (forall q x, nth_error (objects v) q = Some (OUpvalue x) -> nth_error (objects (written v p o)) q = Some (OUpvalue x)) as Hu.
  { intros q x Ex. rewrite Hs; auto. intros ->. congruence. }
  pose proof (sf_ext _ _ _ _ _ _ S) as X. constructor; try apply S.
  - constructor; try apply X. intros q Rq. rewrite Hs; [apply X; auto|]. intros ->. apply (sf_new _ _ _ _ _ _ S); auto.
  - eapply separate_written; eauto; try discriminate. apply S.
  - intros j d Hj Ej. destruct (Nat.eq_dec j k) as [->|Nj].
    + rewrite Ec in Ej. injection Ej as <-. exists id, (list_set l k (Cell (Some u))), (Z.of_nat n), u. split; auto. split.
      * rewrite list_set_nth, Nat.eqb_refl. destruct (Nat.ltb_spec k (length l)); [reflexivity|lia].
      * eapply source_more; [| |exact Sc]; auto.
    + destruct (sf_cells _ _ _ _ _ _ S j d) as [id' [l' [len' [u' [A1 [A2 A3]]]]]]; [lia|auto|].
      rewrite En in A1. injection A1 as <- <- <-. exists id, (list_set l k (Cell (Some u))), (Z.of_nat n), u'. split; auto. split.
      * rewrite list_set_nth. destruct (Nat.eqb_spec j k); [contradiction|]. auto.
      * eapply source_more; [| |exact A3]; auto.
Qed.

Lemma skipn_cons {A} (l : list A) k x r : skipn k l = x :: r -> nth_error l k = Some x.
Proof. revert k. induction l as [|y l IH]; intros [|k]; simpl; intros E; try discriminate; auto. congruence. Qed.

Lemma mark_fun v k e e' : mark v k e -> mark v k e' -> e = e'.
Proof. intros [_ A] [_ B]. congruence. Qed.

Lemma capture_spec v0 p n clo (A : Prop) all : refers clo p -> first_class clo -> forall cs k r v,
  capturing v0 p n k r clo A v -> so_far v0 p clo all k v -> (k + length cs = n)%nat -> ((exists c, In c cs /\ c < 0) -> A) ->
  skipn k all = cs ->
  sem v (capture_op (Some p) (Z.of_nat k) cs r)
    (fun r' v' => capturing v0 p n n r' clo A v' /\ so_far v0 p clo all n v') (fun _ => True) True.
Proof.
  intros Rc Fc. induction cs as [|c cs IH]; intros k r v H S Hn HA Hall; cbn [capture_op].
  { apply sem_ret. simpl in Hn. rewrite Nat.add_0_r in Hn. subst. auto. }
  cbn [length] in Hn. pose proof (ca_typed _ _ _ _ _ _ _ _ H) as T. pose proof (ca_heights _ _ _ _ _ _ _ _ H) as Hh.
  assert (nth_error all k = Some c) as Ec by (eapply skipn_cons; eauto).
  assert (skipn (Datatypes.S k) all = cs) as Hall'.
  { replace (Datatypes.S k) with (1 + k)%nat by lia. rewrite <- skipn_twice, Hall. reflexivity. }
  apply sem_get. cbn zeta. set (idx := if c <? 0 then c else zlen (stack v) - 1 - c).
  destruct (_ && _) eqn:C; [apply sem_err; auto|].
  assert (zlen (stack v) = zlen (stack v0) + 1) as Zv by (rewrite (sf_stack _ _ _ _ _ _ S); unfold zlen; cbn [length]; lia).
  assert (forall u r' v', points v' is_upvalue u -> capturing v0 p n k r' clo A v' -> so_far v0 p clo all k v' -> source v0 c u v' ->
    sem v' (upvalue_array_set (Some p) (Z.of_nat k) (Some u);;; capture_op (Some p) (Z.of_nat k + 1) cs r')
      (fun r' v' => capturing v0 p n n r' clo A v' /\ so_far v0 p clo all n v') (fun _ => True) True) as Hset.
  { intros u r' v' Pu H' S' Sc. apply sem_bind. eapply sem_weaken; [eapply (so_far_set v0 p n k r' clo A all v' u); eauto; lia|].
    intros a v2 [H2 S2]. replace (Z.of_nat k + 1) with (Z.of_nat (Datatypes.S k)) by lia. apply IH; auto; [lia|].
    intros [c' [A1 A2]]. apply HA. exists c'. simpl. auto. }
  assert (forall o : object, storable o -> is_upvalue o -> well_typed v o -> (forall z, refers o z -> reach v z) ->
    sem v (alloc o) (fun u v' => exists q, u = Some q /\ capturing v0 p n k r clo A v' /\ points v' is_upvalue q /\ new_object o v q v' /\ survivors v q v') (fun _ => True) True) as Hal.
  { intros o So Io Wo Ro. eapply sem_weaken; [apply sem_alloc_s; auto|]. intros u v' [q [-> [T' [N K]]]].
    exists q. split; auto. split; [eapply capturing_new; eauto|]. split; [|auto].
    apply (new_points o v); auto. intros m. destruct o; simpl in Io; try contradiction; exact I. }
  assert (forall z, ~ refers (OUpvalue (UpStack idx)) z) as NR by (intros z Rz; inversion Rz).
  apply sem_bind. destruct (idx =? zlen (ustack v)) eqn:C1.
  - (* the closure captures itself *)
    assert (c <? 0 = false) as Cc by (unfold idx in *; destruct (c <? 0) eqn:Cc; [unfold zlen in *; lia|auto]).
    assert (idx = zlen (stack v0) - c) as Ei by (unfold idx; rewrite Cc; lia).
    pose proof (Hal (OUpvalue (UpStack idx)) I I I (fun z Rz => match NR z Rz with end)) as Ha.
    unfold sem in Ha |- *.
    destruct (alloc (OUpvalue (UpStack idx)) v) as [[u|e| |] v1] eqn:Ea; auto.
    destruct Ha as [q [-> [H1 [P1 [N K]]]]]. pose proof (no_roots _ _ _ _ N) as (R1 & R2 & R3 & R4 & R5 & R6 & R7 & R8).
    unfold mbind at 1, push_ustack_only, mmod, mbind, mret.
    assert (forall j e, mark (set_ustack v1 (Some q :: ustack v1)) j e <-> (j = idx /\ Some q = Some e) \/ mark v j e) as Mw.
    { intros j e. rewrite mark_push. unfold mark. rewrite R2. replace (zlen (ustack v)) with idx by lia. tauto. }
    apply (Hset q true); auto.
    + apply (capturing_ustack _ _ _ _ r); auto.
      * intros z [E|Hz]; [injection E as <-; auto|].
        apply (ty_ustack _ _ (ca_typed _ _ _ _ _ _ _ _ H1)); auto.
      * simpl. auto.
      * pose proof (ca_heights _ _ _ _ _ _ _ _ H1) as Hh1. unfold zlen in *. rewrite R1, R2 in *. cbn [length].
        destruct r; [|lia]. exfalso. unfold idx in *. rewrite Cc in *. lia.
    + eapply (so_far_step v0 p n k k r clo A all v); eauto; try lia.
      * intros z Rz. apply (no_same _ _ _ _ N). auto.
      * intros j e M. apply Mw. auto.
      * apply (separate_marked v q v1 idx); auto; [apply S|].
        intros e M. apply mark_in in M. lia.
    + left. split; [lia|]. apply Mw. left. split; [lia|auto].
  - destruct (idx <? 0) eqn:C2.
    + (* a variable captured by the running closure *)
      assert (c < 0) as Hc by (unfold idx in *; destruct (Z.ltb_spec c 0); lia).
      assert (idx = c) as Hi by (unfold idx; destruct (Z.ltb_spec c 0); lia).
      pose proof (ca_running _ _ _ _ _ _ _ _ H) as Hr.
      assert (A) as HA' by (apply HA; exists c; simpl; auto).
      destruct (uacs v) as [|a rest] eqn:Eu; [apply sem_ub; auto|].
      pose proof (ua_get_typed v a rest (- (idx + 1)) T Eu) as Hu.
      apply sem_bind. destruct (ua_get (objects v) a _) as [q|e| |]; [|exact I|exact I|exact I].
      eapply sem_call; [reflexivity|]. destruct Hu as [Pq [pa [id [l [len [A1 [A2 [A3 [A4 A5]]]]]]]]].
      destruct a as [b m]. cbn in A1. subst b.
      destruct (ca_kept _ _ _ _ _ _ _ _ H HA' pa id m rest (eq_sym Hr)) as [B1 [_ B3]].
      apply sem_bind. eapply sem_weaken; [apply (Hal (OUpvalue (UpUpvalue q))); simpl; auto|].
      * intros z Rz. assert (q = Some z) as -> by (inversion Rz; auto).
        eapply reach_step; [exact B1|exact A2|]. constructor. exists l, (Z.to_nat (- (c + 1))). 
        split; [auto|]. split; [lia|]. rewrite Hi in A3. auto.
      * intros u v1 [z [-> [H1 [P1 [N K]]]]]. apply sem_ret. pose proof (no_roots _ _ _ _ N) as (R1 & R2 & R3 & R4 & R5 & R6 & R7 & R8).
        apply Hset; auto.
        -- eapply (so_far_step v0 p n k k r clo A all v); eauto; try lia.
           ++ intros y Ry. apply (no_same _ _ _ _ N). auto.
           ++ intros j e. unfold mark. rewrite R2. auto.
           ++ eapply separate_new; eauto; [apply S|]. intros n' u E. injection E as <-. eauto.
        -- right. split; auto. exists q. split.
           ++ exists pa, id, m, rest, l, len. split; [congruence|]. split; [congruence|]. split; [lia|]. rewrite Hi in A3. auto.
           ++ destruct (no_stored _ _ _ _ N) as [n' Es]. exact Es.
    + (* a local variable *)
      assert (0 <= c) as Hc by (unfold idx in *; destruct (Z.ltb_spec c 0); lia).
      assert (idx = zlen (stack v0) - c) as Ei by (unfold idx; destruct (Z.ltb_spec c 0); lia).
      assert (0 <= idx < zlen (ustack v)) as Hi by lia.
      destruct (raw_get_in (ustack v) idx Hi) as [q [Eq Hq]]. apply raw_abs in Eq. destruct (slot_abs _ _ _ Eq) as [_ Mq].
      apply sem_bind. eapply sem_call; [unfold mlift; rewrite Eq; reflexivity|].
      apply sem_bind. destruct q as [q|].
      * apply sem_ret. pose proof (ty_ustack _ _ T q Hq) as Pq.
        destruct (object_points v _ q T Pq) as [x [Ed [Ex [K _]]]]. apply sem_bind. eapply sem_call; [exact Ed|].
        destruct x; simpl in K; try contradiction. apply sem_ret. apply Hset; auto. left. split; auto. rewrite <- Ei. split; [lia|auto].
      * apply sem_bind. eapply sem_weaken; [apply (Hal (OUpvalue (UpStack idx))); simpl; auto; intros z Rz; destruct (NR z Rz)|].
        intros u v1 [z [-> [H1 [P1 [N K]]]]]. pose proof (no_roots _ _ _ _ N) as (R1 & R2 & R3 & R4 & R5 & R6 & R7 & R8). apply sem_get. rewrite R2.
        apply sem_bind. eapply sem_call; [unfold mlift; rewrite abs_set_in by lia; reflexivity|].
        apply sem_bind. eapply sem_call; [reflexivity|]. apply sem_ret.
        set (us := list_set (ustack v) (Z.to_nat (zlen (ustack v) - 1 - idx)) (Some z)).
        assert (forall e, ~ mark v idx e) as Nm by (intros e [_ M]; congruence).
        assert (forall j e, mark (set_ustack v us) j e <-> (j = idx /\ Some z = Some e) \/ mark v j e) as Mw.
        { intros j e. unfold us. rewrite mark_set by lia. split; [intros [A0|[A0 B]]; auto|]. intros [A0|B]; auto. right. split; auto. intros ->. eapply Nm; eauto. }
        set (v2 := set_ustack v1 us).
        assert (capturing v0 p n k r clo A v2) as H2.
        { apply (capturing_ustack _ _ _ _ r); auto.
          - intros y Hy. apply in_list_set in Hy as [Hy|E]; [|injection E as ->; auto].
            rewrite <- R2 in Hy. apply (ty_ustack _ _ (ca_typed _ _ _ _ _ _ _ _ H1)); auto.
          - intros y Hy. rewrite R2 in Hy. apply in_set_none; auto.
            destruct (abs_slot _ _ _ (proj1 Hi) Mq) as [_ [E' _]]. auto.
          - pose proof (ca_heights _ _ _ _ _ _ _ _ H1) as Hh1. unfold us. unfold zlen in *. rewrite list_set_length, <- R2. auto. }
        assert (points v2 is_upvalue z) as P2 by (apply (same_points v1); [split; reflexivity|auto]).
        destruct (object_points v2 _ z (ca_typed _ _ _ _ _ _ _ _ H2) P2) as [x [Ed [Ex [Kx _]]]].
        apply sem_bind. eapply sem_call; [exact Ed|]. destruct x; simpl in Kx; try contradiction.
        apply sem_ret. apply Hset; auto.
        -- eapply (so_far_step v0 p n k k r clo A all v); eauto; try lia.
           ++ intros y Ry. apply (no_same _ _ _ _ N). auto.
           ++ intros j e M. apply Mw. auto.
           ++ apply (separate_marked v z v1 idx); auto. apply S.
        -- left. split; auto. rewrite <- Ei. apply Mw. auto.
Qed.

Lemma extends_slot v v' clo k x : stack v' = clo :: stack v -> slot v k x -> slot v' k x.
Proof.
  intros E [H S]. split; auto. rewrite E. cbn [rev]. rewrite nth_error_app1; auto. apply nth_error_Some. congruence.
Qed.

Lemma extends_variables v v' clo : stack v' = clo :: stack v -> (forall p, reach v p -> nth_error (objects v') p = nth_error (objects v) p) -> variables_kept v v'.
Proof.
  intros Es Hs. constructor.
  - intros p e R V. induction V as [e u E N|p r e E V IH]; [eapply variable_itself; eauto; rewrite Hs; auto|].
    eapply variable_next; [rewrite Hs; eauto|]. apply IH. eapply reach_step; eauto. constructor.
  - intros e x R [k E S|q E Eq].
    + apply (value_slot _ _ _ k); [rewrite Hs; auto|]. eapply extends_slot; eauto.
    + apply (value_box _ _ _ q); [rewrite Hs; auto|]. rewrite Hs; auto. eapply reach_step; eauto. constructor.
Qed.

Lemma push_closure_run v base cur va t a cs : typed v -> in_step v -> separate v -> current_bytecode v = Some base ->
  0 <= a -> zlen cs < 2 ^ 32 ->
  ((exists c, In c cs /\ c < 0) -> forall p id n rest, uacs v = UARef (Some (p, id)) n :: rest -> reach v p) ->
  sem v (push_closure_op base cur va t a cs) (fun _ v' => exists p, 
      typed v' /\ in_step v' /\ separate v' /\ variables_kept v v' /\ (forall q, reach v q -> nth_error (objects v') q = nth_error (objects v) q) /\
      stack v' = OClosure t (Some base) (Some p) a va :: stack v /\ ~ reach v p /\
      (exists id l, nth_error (objects v') p = Some (OUpvalueArray id l (zlen cs)) /\
        forall j c, nth_error cs j = Some c -> exists l' u, l = Some l' /\ nth_error l' j = Some (Cell (Some u)) /\ source v c u v') /\
      (forall j e, mark v j e -> mark v' j e) /\
      fst cur = base) (fun _ => True) True.
Proof.
  intros T S SP Cb Ha Hz HR. unfold push_closure_op. apply sem_get.
  destruct (Nat.eqb_spec (fst cur) base) as [Ef|Nf]; [|apply sem_ub; auto].
  apply sem_bind. unfold sem, mlift. destruct (code_bytes (objects v) cur); auto.
  match goal with |- context [match ?m v with _ => _ end] => change (sem v m (fun _ v' => exists p, 
      typed v' /\ in_step v' /\ separate v' /\ variables_kept v v' /\ (forall q, reach v q -> nth_error (objects v') q = nth_error (objects v) q) /\
      stack v' = OClosure t (Some base) (Some p) a va :: stack v /\ ~ reach v p /\
      (exists id l, nth_error (objects v') p = Some (OUpvalueArray id l (zlen cs)) /\
        forall j c, nth_error cs j = Some c -> exists l' u, l = Some l' /\ nth_error l' j = Some (Cell (Some u)) /\ source v c u v') /\
      (forall j e, mark v j e -> mark v' j e) /\
      fst cur = base) (fun _ => True) True) end.
  pose proof (ty_current _ _ T base Cb) as Pb.
  assert (reach v base) as Rb by (apply reach_root, root_current; auto).
  apply sem_bind. unfold sem at 1.
  destruct (alloc_typed_total _ (OUpvalueArray 0 None (zlen cs)) v T none_dec (fun _ => empty_none v))
    as [v1 [[p Ea]|[e [Ea _]]]]; rewrite Ea; [|exact I].
  destruct (alloc_typed (fun _ => False) (fun x => x = p) (OUpvalueArray 0 None (zlen cs)) v p v1 T none_dec) as [T1 N];
    [intros _; apply empty_none|intros ? ? ? []|intros ? []|intros ? []|left; reflexivity|exact Ea|].
  pose proof (alloc_survivors _ _ _ _ T Ea) as K.
  pose proof (no_roots _ _ _ _ N) as (R1 & R2 & R3 & R4 & R5 & R6 & R7 & R8). pose proof (no_live _ _ _ _ N) as L1.
  assert (separate v1) as SP1 by (eapply separate_new; eauto; discriminate).
  destruct (no_stored _ _ _ _ N) as [m Em]. simpl in Em.
  apply sem_bind. eapply sem_call; [unfold deref, mbind, mget, mret; rewrite Em; reflexivity|]. cbn beta iota.
  set (n := length cs). assert (zlen cs = Z.of_nat n) as En by reflexivity. rewrite En in *.
  set (arr := OUpvalueArray m (match (if 0 <? Z.of_nat n then Some (repeat Uninit (Z.to_nat (Z.of_nat n))) else None) with
                          | Some b => Some (repeat (Cell None) (length b)) | None => None end) (Z.of_nat n)).
  assert (exists l, arr = OUpvalueArray m l (Z.of_nat n) /\ ((0 < n)%nat -> l = Some (repeat (Cell None) n)) /\ (n = 0%nat -> l = None)) as [l [El [Hl0 Hl1]]].
  { eexists; split; [reflexivity|]. destruct (Z.ltb_spec 0 (Z.of_nat n)).
    - rewrite repeat_length, Nat2Z.id. split; [auto|]. lia.
    - split; auto. lia. }
  clearbody arr. subst arr.
  assert (well_typed v1 (OUpvalueArray m l (Z.of_nat n))) as W1.
  { simpl. split; [split; [unfold max_size; lia|]|].
    - intros Hp. rewrite Hl0 by lia. eexists; split; [reflexivity|]. intros i Hi. exists None.
      split; [apply nth_error_repeat; lia|]. intros q; discriminate.
    - intros l' ->. destruct (Nat.eq_dec n 0) as [E0|N0]; [discriminate (Hl1 E0)|].
      assert (0 < n)%nat as P0 by lia. specialize (Hl0 P0). injection Hl0 as ->.
      unfold zlen. rewrite repeat_length. auto. }
  apply sem_bind. eapply sem_call.
  { unfold write, mbind, mget, mset. destruct L1 as [L1' _].
    destruct (Nat.ltb_spec p (length (objects v1))); [reflexivity|lia]. }
  set (v2 := written v1 p (OUpvalueArray m l (Z.of_nat n))).
  assert (typed v2) as T2 by (eapply typed_written; eauto; simpl; auto).
  assert (separate v2) as SP2 by (eapply separate_written; eauto; discriminate).
  match goal with |- sem _ _ ?Q ?E ?U =>
    change (sem v2 (push_stack_only (OClosure t (Some base) (Some p) a va);;;
     (r <~ capture_op (Some p) 0 cs false;; (if r then mret tt else push_ustack_only None);;; sset_raw 0 (OClosure t (Some base) (Some p) a va)))
     Q E U) end.
  set (clo := OClosure t (Some base) (Some p) a va).
  assert (points v2 is_upvalues p) as Pp.
  { split; [apply written_live; auto|]. exists (OUpvalueArray m l (Z.of_nat n)). split; [|exact I]. unfold v2. rewrite written_nth, Nat.eqb_refl.
    destruct L1 as [L1' _]. destruct (Nat.ltb_spec p (length (objects v1))); [reflexivity|lia]. }
  assert (points v2 is_code base) as Pb2.
  { eapply written_points; eauto with stable; [simpl; auto|].
    apply (points_keeps (reach v) v); auto with stable. apply N. }
  assert (forall w, same_heap v2 w -> val w clo) as Vc.
  { intros w Hw. split; [exact I|]. apply (same_well_typed v2); auto. simpl. split; auto. split; eauto. }
  set (v3 := set_stack v2 (clo :: stack v2)).
  assert (typed v3) as T3.
  { apply typed_set_stack; auto. intros o [<-|Ho]; [apply Vc; split; reflexivity|apply T2; auto]. }
  apply sem_bind. eapply sem_call; [reflexivity|].
  match goal with |- sem _ _ ?Q ?E ?U => change (sem v3 (r <~ capture_op (Some p) 0 cs false;; (if r then mret tt else push_ustack_only None);;; sset_raw 0 clo) Q E U) end.
  assert (capturing v p n 0 false clo (exists c, In c cs /\ c < 0) v3) as H3.
  { constructor; auto.
    - eexists; reflexivity.
    - exists m, l. split; [|split].
      + unfold v3, v2. simpl. rewrite list_set_nth, Nat.eqb_refl. destruct L1 as [L1' _].
        destruct (Nat.ltb_spec p (length (objects v1))); [reflexivity|lia].
      + apply Pp.
      + intros Hn. exists (repeat (Cell None) n). split; auto. split; [apply repeat_length|].
        intros i Hi. apply nth_error_repeat. lia.
    - unfold v3, v2, zlen. simpl. rewrite R1, R2. unfold in_step in S. lia.
    - intros HA pa ida k rest Eu. specialize (HR HA pa ida k rest Eu).
      assert (pa <> p) as Np by (intros ->; apply (no_new _ _ _ _ N); auto).
      split; [|split; auto].
      + apply (reach_more v2 v3).
        * intros q [y z Hy Hq|z Hq|z Hq|? ? z Hq|z Hq].
          -- eapply root_stack; eauto. right; auto.
          -- apply root_ustack; auto.
          -- apply root_global; auto.
          -- eapply root_frame; eauto.
          -- apply root_current; auto.
        * intros q y z Ey Ry. eauto.
        * apply (reach_written v1 p _ _ pa Em).
          -- intros z Rz. exfalso. inversion Rz as [| | | | | | |? ? ? ? Hh| | | | | | | |]; subst.
             destruct Hh as [l' [i [E1 [E2 E3]]]]. destruct (0 <? Z.of_nat n); [|discriminate]. injection E1 as <-.
             apply nth_error_In in E3. apply repeat_spec in E3. discriminate.
          -- eapply reach_new; eauto.
      + unfold v3, v2. simpl. rewrite list_set_nth. destruct (Nat.eqb_spec pa p); [contradiction|]. simpl.
        apply (no_same _ _ _ _ N). auto. }
  assert (so_far v p clo cs 0 v3) as F3.
  { pose proof (no_new _ _ _ _ N) as Np. constructor; auto.
    - unfold v3, v2. cbn [stack set_stack]. change (stack (written v1 p (OUpvalueArray m l (Z.of_nat n)))) with (stack v1). rewrite R1. auto.
    - constructor; unfold v3, v2; cbn; auto.
      + rewrite R1. intros x Hx. right; auto.
      + intros q. rewrite R2. auto.
      + intros q Rq. rewrite list_set_nth. destruct (Nat.eqb_spec q p) as [->|]; [contradiction|]. cbn [andb]. apply (no_same _ _ _ _ N). auto.
    - apply (separate_same v2); auto; [split; reflexivity|]. reflexivity.
    - intros j e. unfold mark, v3, v2. cbn. rewrite R2. auto.
    - lia. }
  apply sem_bind.
  eapply sem_weaken; [apply (capture_spec v p n clo (exists c, In c cs /\ c < 0) cs (refers_upvalues _ _ _ _ _) I cs 0 false v3 H3 F3); auto|].
  intros r v4 [H4 F4]. cbn beta. pose proof (ca_typed _ _ _ _ _ _ _ _ H4) as T4. pose proof (sf_stack _ _ _ _ _ _ F4) as Es4.
  pose proof (ca_heights _ _ _ _ _ _ _ _ H4) as Hh.
  match goal with |- sem _ _ ?Q ?E ?U => assert (forall w, same_heap v4 w -> stack w = clo :: stack v -> typed w -> in_step w -> (forall j e, mark w j e <-> mark v4 j e) ->
    sem w (sset_raw 0 clo) Q E U) as Hlast end.
  { intros w Hw Es Tw Iw Mw. eapply sset_top; [exact Es|].
    assert (set_stack w (clo :: stack v) = w) as Ew by (destruct w; cbn in *; subst; reflexivity). rewrite Ew.
    assert (forall q, reach v q -> nth_error (objects w) q = nth_error (objects v) q) as Hs.
    { intros q Rq. destruct Hw as [-> _]. apply (sf_ext _ _ _ _ _ _ F4); auto. }
    exists p. split; auto. split; auto. split; [apply (separate_same v4); auto; apply F4|]. split; [apply (extends_variables v w clo); auto|].
    split; auto. split; auto. split; [apply F4|]. split; [|split; [|auto]].
    - destruct (ca_array _ _ _ _ _ _ _ _ H4) as [id [l4 [E4 _]]]. exists id, l4. destruct Hw as [Hw1 Hw2]. split; [rewrite Hw1, E4; auto|].
      intros j c Ej. destruct (sf_cells _ _ _ _ _ _ F4 j c) as [id' [l' [len' [u [A1 [A2 A3]]]]]]; auto.
      { apply nth_error_Some. congruence. }
      rewrite E4 in A1. injection A1 as <- -> <-. exists l', u. split; auto. split; auto. eapply source_more; [| |exact A3].
      + intros k e. apply Mw.
      + intros x. rewrite Hw1. auto.
    - intros j e M. apply Mw. apply (sf_marks _ _ _ _ _ _ F4). exact M. }
  apply sem_bind. destruct r.
  - apply sem_ret. apply Hlast; auto; [split; reflexivity| |reflexivity]. unfold in_step, zlen in *. lia.
  - eapply sem_call; [reflexivity|]. apply Hlast; [split; reflexivity|exact Es4| | |].
    + apply typed_set_ustack; auto. intros q [Hq|Hq]; [discriminate|]. apply T4; auto.
    + unfold in_step, zlen in *. cbn [stack ustack set_ustack length]. lia.
    + intros j e. rewrite mark_push. split; [intros [[_ E]|M]; [discriminate|auto]|auto].
Qed.

(** C23: a new closure shares the variables it captures with everything else that has captured them. *)
Lemma push_closure_spec host base next va t a cs v c v' : typed v -> in_step v -> separate v -> current_bytecode v = Some base ->
  0 <= a -> zlen cs < 2 ^ 32 ->
  ((exists c, In c cs /\ c < 0) -> forall p id n rest, uacs v = UARef (Some (p, id)) n :: rest -> reach v p) ->
  exec host base next (IPushClosure va t a cs) v = (Ok c, v') ->
  c = Continue next /\ fst (pc_code next) = base /\ exists p id l, typed v' /\ in_step v' /\ separate v' /\ variables_kept v v' /\
    stack v' = OClosure t (Some base) (Some p) a va :: stack v /\ ~ reach v p /\
    nth_error (objects v') p = Some (OUpvalueArray id l (zlen cs)) /\
    (forall j c, nth_error cs j = Some c -> exists l' u, l = Some l' /\ nth_error l' j = Some (Cell (Some u)) /\
      ((0 <= c /\ mark v' (zlen (stack v) - c) u /\ nth_error (objects v') u = Some (OUpvalue (UpStack (zlen (stack v) - c)))) \/
       (c < 0 /\ exists q, captures v (- (c + 1)) q /\ nth_error (objects v') u = Some (OUpvalue (UpUpvalue q))))) /\
    (forall k e, mark v k e -> mark v' k e).
Proof.
  intros T I SP Cb Ha Hz HR Ex. pose proof (push_closure_run v base (pc_code next) va t a cs T I SP Cb Ha Hz HR) as H. cbn [exec] in Ex. unfold sem in H.
  unfold mbind in Ex. destruct (push_closure_op base _ va t a cs v) as [[u|e| |] w] eqn:Er; try discriminate. unfold mret in Ex. injection Ex as <- <-.
  destruct H as [p [A1 [A2 [A3 [A4 [A5 [A6 [A7 [[id [l [A8 A9]]] [A10 A11]]]]]]]]]]. split; auto. split; auto. exists p, id, l.
  repeat (split; [assumption|]). split; [|auto]. intros j c Ej. destruct (A9 j c Ej) as [l' [u' [B1 [B2 B3]]]]. exists l', u'. split; auto. split; auto.
  destruct B3 as [[B3 B4]|B3]; auto. left. split; auto. split; auto. apply (sp_marks _ A3); auto.
Qed.

(** Two closures made one after the other capture a variable of the enclosing scope as the same
    variable. *)
Lemma closures_share host base next va1 t1 a1 cs1 va2 t2 a2 cs2 v c1 v1 c2 v2 j1 j2 k : typed v -> in_step v -> separate v -> current_bytecode v = Some base ->
  0 <= a1 -> 0 <= a2 -> zlen cs1 < 2 ^ 32 -> zlen cs2 < 2 ^ 32 -> (forall c, In c cs1 \/ In c cs2 -> 0 <= c) ->
  exec host base next (IPushClosure va1 t1 a1 cs1) v = (Ok c1, v1) -> current_bytecode v1 = Some base ->
  exec host base next (IPushClosure va2 t2 a2 cs2) v1 = (Ok c2, v2) ->
  nth_error cs1 j1 = Some (zlen (stack v) - k) -> nth_error cs2 j2 = Some (zlen (stack v1) - k) ->
  exists p1 p2 id1 id2 l1 l2 u, stack v2 = OClosure t2 (Some base) (Some p2) a2 va2 :: OClosure t1 (Some base) (Some p1) a1 va1 :: stack v /\
    nth_error (objects v2) p1 = Some (OUpvalueArray id1 (Some l1) (zlen cs1)) /\ nth_error l1 j1 = Some (Cell (Some u)) /\
    nth_error (objects v2) p2 = Some (OUpvalueArray id2 (Some l2) (zlen cs2)) /\ nth_error l2 j2 = Some (Cell (Some u)) /\
    nth_error (objects v2) u = Some (OUpvalue (UpStack k)) /\ mark v2 k u /\ (forall e, mark v k e -> e = u).
Proof.
  intros T I SP Cb H1 H2 Z1 Z2 Hpos E1 Cb1 E2 J1 J2.
  destruct (push_closure_spec host base next va1 t1 a1 cs1 v c1 v1) as [_ [_ [p1 [id1 [l1 [T1 [I1 [SP1 [K1 [S1 [N1 [A1 [B1 M1]]]]]]]]]]]]]; auto.
  { intros [c [A B]]. specialize (Hpos c (or_introl A)). lia. }
  destruct (push_closure_spec host base next va2 t2 a2 cs2 v1 c2 v2) as [_ [_ [p2 [id2 [l2 [T2 [I2 [SP2 [K2 [S2 [N2 [A2 [B2 M2]]]]]]]]]]]]]; auto.
  { intros [c [A B]]. specialize (Hpos c (or_intror A)). lia. }
  destruct (B1 _ _ J1) as [l1' [u1 [-> [C1 [[_ [D1 _]]|[D1 _]]]]]]; [|specialize (Hpos _ (or_introl (nth_error_In _ _ J1))); lia].
  destruct (B2 _ _ J2) as [l2' [u2 [-> [C2 [[_ [D2 F2]]|[D2 _]]]]]]; [|specialize (Hpos _ (or_intror (nth_error_In _ _ J2))); lia].
  replace (zlen (stack v) - (zlen (stack v) - k)) with k in D1 by lia. replace (zlen (stack v1) - (zlen (stack v1) - k)) with k in D2, F2 by lia.
  assert (u1 = u2) as <- by (eapply mark_fun; [apply M2; exact D1|exact D2]).
  exists p1, p2, id1, id2, l1', l2', u1. split; [rewrite S2, S1; auto|]. split.
  - pose proof (push_closure_run v1 base (pc_code next) va2 t2 a2 cs2 T1 I1 SP1 Cb1 H2 Z2) as H. cbn [exec] in E2. unfold sem in H. unfold mbind in E2.
    destruct (push_closure_op base (pc_code next) va2 t2 a2 cs2 v1) as [[u|e| |] w]; try discriminate. unfold mret in E2. injection E2 as <- <-.
    destruct H as [p [_ [_ [_ [_ [H _]]]]]].
    { intros [c [A B]]. specialize (Hpos c (or_intror A)). lia. }
    rewrite H; auto. apply (reach_in v1 (OClosure t1 (Some base) (Some p1) a1 va1)); [rewrite S1; left; auto|constructor].
  - repeat (split; [assumption|]). intros e M. eapply mark_fun; [apply M2, M1; exact M|exact D2].
Qed.

(** * The running byte code *)

Lemma steps_current host base c v l c' v' : steady host -> steps host base c v l c' v' -> current_bytecode v' = current_bytecode v.
Proof.
  intros H S. induction S as [|c v c1 v1 l c2 v2 E S IH]; auto. rewrite IH.
  destruct (step_fetch _ _ _ _ _ _ E I) as [i [next [_ Ex]]]. pose proof (exec_fine host H base next i v) as F. rewrite Ex in F. apply F.
Qed.

(** C46: the byte code a run was started with stays alive and in place throughout the run. *)
Lemma base_alive host base c v c' v' : polite host -> steady host -> sound base v -> careful_run host base c v c' v' ->
  reach v' base /\ exists id code, nth_error (objects v') base = Some (OBytecode id (Some code)).
Proof.
  intros P St S R. pose proof (careful_sound _ _ _ _ _ _ P St S R) as [T [_ [_ C]]]. split; [apply reach_root, root_current; auto|].
  destruct (ty_current _ _ T base C) as [_ [o [E K]]]. destruct o; simpl in K; try contradiction. destruct code; try contradiction. eauto.
Qed.

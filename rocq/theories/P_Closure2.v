(** Proofs about captured variables: closing variables when their scope ends. *)
From Coq Require Import ZArith List Lia Arith Bool ZifyBool ZifyNat.
Import ListNotations.
From Verif Require Import M_Base M_Heap M_Instr M_VM S_Heap S_VM S_Num S_Cyclic S_Globals S_Types S_Data S_Call S_Closure P_Heap P_Sort P_VM P_Exec P_Num P_Valid P_Cyclic P_Globals P_Types P_Safe P_Safe2 P_Safe3 P_Safe4 P_Safe5 P_Data P_Data2 P_Data3 P_Call P_Call2 P_Closure.
Open Scope Z_scope.

(** What is in use after an allocation was in use before it, and does not refer to the new object. *)
Definition survivors (v : vm) (q : ptr) (v' : vm) : Prop :=
  forall p, live v' p -> p = q \/
    (live v p /\ nth_error (objects v') p = nth_error (objects v) p /\
     forall o z, nth_error (objects v) p = Some o -> refers o z -> z <> q /\ live v' z /\ nth_error (objects v') z = nth_error (objects v) z).

Lemma alloc_survivors o v q v' : typed v -> alloc o v = (Ok (Some q), v') -> survivors v q v'.
Proof.
  intros T E. destruct (alloc_live o v q v') as [S [n [HS [Hq [Hl [HL [Hs _]]]]]]]; auto.
  - intros _. apply typed_is_valid; auto.
  - apply (ty_free _ _ T).
  - intros p Hp x. apply (ty_released _ _ T); auto.
  - intros p Lp. apply HL in Lp as [Sp| ->]; auto. right.
    assert (live v p) as Lp by (destruct HS as [-> | ->]; auto; apply typed_reach_live; auto).
    assert (p <> q) as Np by (intros ->; contradiction).
    split; auto. split; auto. intros x z Ex Rx.
    assert (S z) as Sz.
    { destruct HS as [-> | ->]; [|eapply reach_step; eauto]. eapply well_typed_live; [apply (ty_objects _ _ T p x); auto|auto]. }
    assert (z <> q) as Nz by (intros ->; contradiction). split; auto. split; auto. apply HL. auto.
Qed.

Lemma sem_alloc_s v o (E : vm -> Prop) (U : Prop) : typed v -> storable o -> well_typed v o -> (forall p, refers o p -> reach v p) -> (forall v', E v') ->
  sem v (alloc o) (fun r v' => exists q, r = Some q /\ typed v' /\ new_object o v q v' /\ survivors v q v') E U.
Proof.
  intros T S W R HE. pose proof (sem_alloc v o U T S W R) as H. unfold sem in *. destruct (alloc o v) as [[r|e| |] v1] eqn:Ea; auto.
  destruct H as [q [-> [T1 N]]]. exists q. split; auto. split; auto. split; auto. eapply alloc_survivors; eauto.
Qed.

Lemma separate_new o v q v' : separate v -> new_object o v q v' -> survivors v q v' ->
  (forall n u, stored n o = OUpvalue u -> exists r, u = UpUpvalue r) -> separate v'.
Proof.
  intros SP N K Ho. pose proof (no_roots _ _ _ _ N) as (R1 & R2 & _).
  assert (forall p u, live v' p -> nth_error (objects v') p = Some (OUpvalue u) -> (forall r, u <> UpUpvalue r) ->
    live v p /\ nth_error (objects v) p = Some (OUpvalue u)) as K'.
  { intros p u Lp Ep Nu. destruct (K p Lp) as [-> |[A [B C]]]; [|rewrite <- B; auto]. exfalso. destruct (no_stored _ _ _ _ N) as [n Es].
    rewrite Es in Ep. injection Ep as Ep. destruct (Ho n u Ep) as [r ->]. eapply Nu; reflexivity. }
  constructor.
  - intros e k L E. destruct (K' e _ L E) as [L' E']; [discriminate|]. unfold mark. rewrite R2. apply (sp_slots _ SP); auto.
  - intros e k M. unfold mark in M. rewrite R2 in M. rewrite (no_same _ _ _ _ N); [apply (sp_marks _ SP); auto|].
    apply reach_root, root_ustack. apply in_rev. apply nth_error_In with (Z.to_nat k). apply M.
  - intros e e' z L L' E E'. destruct (K' e _ L E) as [A B]; [discriminate|]. destruct (K' e' _ L' E') as [C D]; [discriminate|].
    eapply (sp_boxes _ SP); eauto.
Qed.

(** * Closing *)

Record closing (ks : list Z) (v v' : vm) : Prop := {
  cl_upvalues : forall e u', live v' e -> nth_error (objects v') e = Some (OUpvalue u') ->
    live v e /\ exists u, nth_error (objects v) e = Some (OUpvalue u) /\
      ((u' = u /\ (forall q, u = UpObject (Some q) -> nth_error (objects v') q = nth_error (objects v) q)) \/
       exists k q x, u = UpStack k /\ In k ks /\ slot v k x /\ u' = UpObject (Some q) /\ nth_error (objects v') q = Some x);
  cl_others : forall p id cs n, live v' p -> nth_error (objects v') p = Some (OUpvalueArray id cs n) -> live v p /\ nth_error (objects v) p = Some (OUpvalueArray id cs n);
  cl_height : length (stack v') = length (stack v);
  cl_slots : forall k x, slot v k x -> (exists e, In k ks /\ mark v k e) /\ slot v' k (OList None) \/ ~ (exists e, In k ks /\ mark v k e) /\ slot v' k x;
  cl_marks : forall k e, mark v' k e <-> mark v k e /\ ~ In k ks;
  cl_uheight : length (ustack v') = length (ustack v)
}.

Lemma mark_dec v k : (exists e, mark v k e) \/ ~ exists e, mark v k e.
Proof.
  unfold mark. destruct (Z_le_dec 0 k); [|right; intros [e [A _]]; lia].
  destruct (nth_error (rev (ustack v)) (Z.to_nat k)) as [[e|]|] eqn:E; [left; eauto| |]; right; intros [e' [_ A]]; congruence.
Qed.

Lemma closing_refl ks v : (forall k e, In k ks -> ~ mark v k e) -> closing ks v v.
Proof.
  intros H. constructor; auto.
  - intros e u' L E. split; auto. exists u'. split; auto.
  - intros k x S. right. split; auto. intros [e [I M]]. eapply H; eauto.
  - intros k e. split; [|tauto]. intros M. split; auto. intros I. eapply H; eauto.
Qed.

Lemma slot_in v k x : slot v k x -> 0 <= k < zlen (stack v).
Proof. intros [H E]. destruct (abs_slot _ _ _ H E). lia. Qed.

Lemma slot_fun v k x y : slot v k x -> slot v k y -> x = y.
Proof. intros [_ A] [_ B]. congruence. Qed.

Lemma closing_trans k ks v w v' : in_step v -> separate w -> typed v' ->
  closing [k] v w -> closing ks w v' -> closing (k :: ks) v v'.
Proof.
  intros I SP T H1 H2. constructor.
  - intros e u' L E. destruct (cl_upvalues _ _ _ H2 e u' L E) as [Lw [u1 [E1 C2]]]. destruct (cl_upvalues _ _ _ H1 e u1 Lw E1) as [Lv [u [Eu C1]]].
    split; auto. exists u. split; auto.
    destruct C2 as [[-> S2]|[j [q [x [-> [Ij [Sj [-> Eq]]]]]]]].
    + destruct C1 as [[-> S1]|[j [q [x [-> [Ij [Sj [-> Eq]]]]]]]].
      * left. split; auto. intros q ->. rewrite S2 by auto. apply S1; auto.
      * right. exists j, q, x. split; auto. split; [simpl in *; tauto|]. split; auto. split; auto. rewrite S2; auto.
    + right. destruct C1 as [[<- S1]|[j' [q' [x' [-> [Ij' [Sj' [E' Eq']]]]]]]]; [|discriminate].
      exists j, q, x. split; auto. split; [right; auto|]. split; auto.
      assert (mark w j e) as Mw by (apply (sp_slots _ SP); auto). apply (cl_marks _ _ _ H1) in Mw as [Mv Nj].
      assert (exists y, slot v j y) as [y Sy].
      { apply slot_in in Sj. unfold slot. destruct (nth_error (rev (stack v)) (Z.to_nat j)) as [y|] eqn:Ey; [exists y; split; [lia|auto]|].
        apply nth_error_None in Ey. rewrite rev_length in Ey. pose proof (cl_height _ _ _ H1). unfold zlen in *. lia. }
      destruct (cl_slots _ _ _ H1 j y Sy) as [[[? [? _]] _]|[_ Sw]]; [contradiction|]. rewrite <- (slot_fun _ _ _ _ Sw Sj). auto.
  - intros p id cs n L E. destruct (cl_others _ _ _ H2 p id cs n L E) as [A B]. apply (cl_others _ _ _ H1 p id cs n A B).
  - rewrite (cl_height _ _ _ H2). apply H1.
  - intros j x S. destruct (cl_slots _ _ _ H1 j x S) as [[[e [Ij M]] Sw]|[N Sw]].
    + left. split; [exists e; split; [simpl in *; tauto|auto]|]. destruct (cl_slots _ _ _ H2 j _ Sw) as [[_ A]|[_ A]]; auto.
    + destruct (cl_slots _ _ _ H2 j _ Sw) as [[[e [Ij M]] A]|[N' A]].
      * left. apply (cl_marks _ _ _ H1) in M as [M Nj]. split; auto. exists e. split; auto. right; auto.
      * right. split; auto. intros [e [[<-|Ij] M]]; [apply N; exists e; split; [left; auto|auto]|].
        apply N'. exists e. split; auto. apply (cl_marks _ _ _ H1). split; auto. intros Hj. apply N. eauto.
  - intros j e. rewrite (cl_marks _ _ _ H2), (cl_marks _ _ _ H1). simpl. tauto.
  - rewrite (cl_uheight _ _ _ H2). apply H1.
Qed.

Lemma abs_set_in {A} (l : list A) i x : 0 <= i < zlen l -> raw_set l i x = Ok (list_set l (Z.to_nat (zlen l - 1 - i)) x).
Proof. intros H. unfold raw_set, abs_set. destruct (_ || (_ <=? _)) eqn:C; [lia|]. reflexivity. Qed.

Lemma mark_set v k (x : optr) j e : 0 <= k < zlen (ustack v) ->
  mark (set_ustack v (list_set (ustack v) (Z.to_nat (zlen (ustack v) - 1 - k)) x)) j e <-> (j = k /\ x = Some e) \/ (j <> k /\ mark v j e).
Proof.
  intros H. unfold mark, zlen in *. cbn [ustack set_ustack]. rewrite rev_list_set by lia. rewrite list_set_nth, rev_length.
  replace (length (ustack v) - 1 - Z.to_nat (Z.of_nat (length (ustack v)) - 1 - k))%nat with (Z.to_nat k) by lia.
  destruct (Nat.eqb_spec (Z.to_nat j) (Z.to_nat k)) as [E|E]; cbn [andb].
  - destruct (Nat.ltb_spec (Z.to_nat k) (length (ustack v))); [|lia]. split.
    + intros [A B]. left. split; [lia|congruence].
    + intros [[-> ->]|[A [B C]]]; [split; [lia|auto]|lia].
  - split; [intros [A B]; right; split; auto; lia|]. intros [[A _]|[A B]]; auto. subst. lia.
Qed.

(** One variable. *)
Lemma closing_one v q v1 k e x : typed v -> in_step v -> separate v -> slot v k x -> mark v k e ->
  typed v1 -> new_object x v q v1 -> survivors v q v1 -> first_class x ->
  let w := written v1 e (OUpvalue (UpObject (Some q))) in
  let w' := set_ustack (set_stack w (list_set (stack v) (Z.to_nat (zlen (stack v) - 1 - k)) (OList None))) (list_set (ustack v) (Z.to_nat (zlen (ustack v) - 1 - k)) None) in
  closing [k] v w' /\ separate w'.
Proof.
  intros T I SP Sk Mk T1 N K Fx w w'. pose proof (no_roots _ _ _ _ N) as (R1 & R2 & _).
  pose proof (sp_marks _ SP e k Mk) as Ee.
  assert (In (Some e) (ustack v)) as He by (apply in_rev; apply nth_error_In with (Z.to_nat k); apply Mk).
  assert (reach v e) as Re by (apply reach_root, root_ustack; auto).
  assert (live v e) as Le by (apply typed_reach_live; auto).
  assert (live v1 e) as Le1 by (apply (no_kept _ _ _ _ N); auto).
  assert (nth_error (objects v1) e = Some (OUpvalue (UpStack k))) as Ee1 by (rewrite (no_same _ _ _ _ N); auto).
  assert (q <> e) as Nqe by (intros ->; apply (no_new _ _ _ _ N); auto).
  destruct (no_stored _ _ _ _ N) as [n Eq]. rewrite stored_first_class in Eq by auto.
  pose proof (slot_in _ _ _ Sk) as Hk. assert (zlen (ustack v) = zlen (stack v)) as Z by (unfold zlen, in_step in *; lia).
  assert (forall p, nth_error (objects w') p = if (p =? e)%nat then Some (OUpvalue (UpObject (Some q))) else nth_error (objects v1) p) as On.
  { intros p. unfold w', w. cbn [objects set_ustack set_stack]. rewrite written_nth. destruct (Nat.eqb_spec p e) as [->|]; cbn [andb]; auto.
    destruct Le1 as [Le1 _]. destruct (Nat.ltb_spec e (length (objects v1))); auto. lia. }
  assert (forall p, live w' p <-> live v1 p) as Lw by (intros p; apply written_live).
  assert (forall j e', mark w' j e' <-> j <> k /\ mark v j e') as Mw.
  { intros j e'. assert (mark w' j e' <-> mark (set_ustack v (list_set (ustack v) (Z.to_nat (zlen (ustack v) - 1 - k)) None)) j e') as -> by reflexivity.
    rewrite mark_set by lia. intuition discriminate. }
  assert (forall p u, live v1 p -> nth_error (objects v1) p = Some (OUpvalue u) -> live v p /\ nth_error (objects v) p = Some (OUpvalue u) /\
    forall z, u = UpObject (Some z) -> z <> q /\ live v1 z /\ nth_error (objects v1) z = nth_error (objects v) z) as Kp.
  { intros p u Lp Ep. destruct (K p Lp) as [-> |[A [B C]]].
    - exfalso. rewrite Eq in Ep. injection Ep as ->. contradiction.
    - rewrite <- B. split; auto. split; auto. intros z ->. apply (C (OUpvalue (UpObject (Some z)))); [congruence|constructor]. }
  split.
  - constructor.
    + intros p u' Lp Ep. apply Lw in Lp. rewrite On in Ep. destruct (Nat.eqb_spec p e) as [->|Np].
      * injection Ep as <-. split; auto. exists (UpStack k). split; auto. right. exists k, q, x. split; auto. split; [left; auto|]. split; auto. split; auto.
        rewrite On. destruct (Nat.eqb_spec q e); [contradiction|]. auto.
      * destruct (Kp p u' Lp Ep) as [A [B C]]. split; auto. exists u'. split; auto. left. split; auto. intros z ->. destruct (C z eq_refl) as [C1 [C2 C3]].
        rewrite On. destruct (Nat.eqb_spec z e) as [->|]; auto. exfalso.
        pose proof (ty_objects _ _ T p _ A (fun x => x) B) as [z [E' [_ [o [Eo Fo]]]]]. injection E' as <-. rewrite Ee in Eo. injection Eo as <-. contradiction.
    + intros p id cs m Lp Ep. apply Lw in Lp. rewrite On in Ep. destruct (Nat.eqb_spec p e); [discriminate|].
      destruct (K p Lp) as [-> |[A [B C]]]; [exfalso; rewrite Eq in Ep; injection Ep as ->; contradiction|]. rewrite <- B. auto.
    + apply list_set_length.
    + intros j y Sj. pose proof (slot_set v k (OList None) j x Sk) as [S'|S']; [|apply slot_in in Sj; lia].
      destruct (Z.eqb_spec j k) as [->|Nj].
      * left. split; [exists e; split; [left|]; auto|]. exact S'.
      * right. split; [intros [e' [[->|[]] _]]; auto|]. destruct Sj as [Sj1 Sj2]. rewrite Sj2 in S'. exact S'.
    + intros j e'. rewrite Mw. simpl. intuition.
    + apply list_set_length.
  - constructor.
    + intros p j Lp Ep. apply Lw in Lp. rewrite On in Ep. destruct (Nat.eqb_spec p e) as [->|Np]; [discriminate|].
      destruct (Kp p _ Lp Ep) as [A [B _]]. pose proof (sp_slots _ SP p j A B) as M. apply Mw. split; auto.
      intros ->. apply Np. destruct M as [_ M], Mk as [_ Mk]. congruence.
    + intros p j M. apply Mw in M as [Nj M]. pose proof (sp_marks _ SP p j M) as Ep. rewrite On. destruct (Nat.eqb_spec p e) as [->|Np]; [congruence|].
      rewrite (no_same _ _ _ _ N); auto. apply reach_root, root_ustack. apply in_rev. apply nth_error_In with (Z.to_nat j). apply M.
    + intros p p' z Lp Lp' Ep Ep'. apply Lw in Lp. apply Lw in Lp'. rewrite On in Ep, Ep'.
      destruct (Nat.eqb_spec p e) as [->|Np]; destruct (Nat.eqb_spec p' e) as [->|Np']; auto.
      * injection Ep as <-. destruct (Kp p' _ Lp' Ep') as [_ [_ C]]. destruct (C q eq_refl). contradiction.
      * injection Ep' as <-. destruct (Kp p _ Lp Ep) as [_ [_ C]]. destruct (C q eq_refl). contradiction.
      * destruct (Kp p _ Lp Ep) as [A [B _]]. destruct (Kp p' _ Lp' Ep') as [A' [B' _]]. eapply (sp_boxes _ SP); eauto.
Qed.

Lemma raw_abs {A} (l : list A) i x : raw_get l i = Ok x -> abs_get l i = Ok x.
Proof. unfold raw_get. destruct (abs_get l i); auto; discriminate. Qed.

Lemma release_run is : forall v, typed v -> in_step v -> separate v ->
  sem v (release_op is) (fun _ v' => typed v' /\ in_step v' /\ separate v' /\ closing (map (fun i => zlen (stack v) - i) is) v v') (fun _ => True) True.
Proof.
  induction is as [|i is IH]; intros v T I SP; cbn [release_op map].
  { apply sem_ret. split; auto. split; auto. split; auto. apply closing_refl. intros k e []. }
  apply sem_get. cbn zeta. set (k := zlen (stack v) - i) in *. destruct (Z.ltb_spec k 0); [apply sem_err; auto|].
  assert (zlen (ustack v) = zlen (stack v)) as Z by (unfold zlen, in_step in *; lia).
  destruct (Z.lt_ge_cases k (zlen (stack v))) as [Hk|Hk].
  2: { apply sem_bind. unfold sem, mlift, raw_get, abs_get. destruct (_ || (_ <=? _)) eqn:C; [auto|lia]. }
  assert (forall w, typed w -> in_step w -> separate w -> closing [k] v w ->
    sem w (release_op is) (fun _ v' => typed v' /\ in_step v' /\ separate v' /\ closing (k :: map (fun i => zlen (stack v) - i) is) v v') (fun _ => True) True) as IH'.
  { intros w Tw Iw SPw Cw. eapply sem_weaken; [apply IH; auto|]. intros _ v' [T' [I' [SP' C']]]. split; auto. split; auto. split; auto.
    assert (zlen (stack w) = zlen (stack v)) as Zw by (unfold zlen; rewrite (cl_height _ _ _ Cw); auto). rewrite Zw in C'.
    apply (closing_trans k _ v w); auto. }
  destruct (raw_get_in (ustack v) k) as [u [Eu Hu]]; [lia|].
  assert (nth_error (rev (ustack v)) (Z.to_nat k) = Some u) as Mu by (apply slot_abs, raw_abs; auto).
  apply sem_bind. eapply sem_call; [unfold mlift; rewrite Eu; reflexivity|].
  destruct u as [u|]. 2: { apply IH'; auto. apply closing_refl. intros j e [<-|[]] [_ M]. congruence. }
  assert (mark v k u) as Mk by (split; auto). pose proof (sp_marks _ SP u k Mk) as Ex.
  apply sem_bind. eapply sem_call; [apply deref_run; exact Ex|].
  destruct (raw_get_in (stack v) k) as [o [Eo Ho]]; [lia|].
  assert (slot v k o) as So by (split; [lia|apply slot_abs, raw_abs; auto]).
  destruct (val_in v o T Ho) as [Fo Wo].
  apply sem_bind. eapply sem_call; [unfold mlift; rewrite Eo; reflexivity|].
  apply sem_bind. eapply sem_weaken; [apply sem_alloc_s; auto; [destruct o; simpl in *; auto|intros p R; apply (reach_in v o); auto]|].
  intros r v1 [q [-> [T1 [N K]]]].
  assert (reach v u) as Ru by (apply reach_root, root_ustack; auto).
  pose proof (no_roots _ _ _ _ N) as (R1 & R2 & _).
  assert (nth_error (objects v1) u = Some (OUpvalue (UpStack k))) as Ex1 by (rewrite (no_same _ _ _ _ N); auto).
  assert (live v u) as L0 by (apply typed_reach_live; auto). assert (live v1 u) as L1 by (apply (no_kept _ _ _ _ N); auto).
  assert (points v1 first_class q) as Pq.
  { apply (new_points o v); auto. intros n. rewrite stored_first_class; auto. }
  assert (well_typed v1 (OUpvalue (UpObject (Some q)))) as W1 by (exists q; auto).
  apply sem_bind. eapply sem_write; eauto; simpl; auto.
  destruct (closing_one v q v1 k u o T I SP So Mk T1 N K Fo) as [C1 SP1].
  set (w := written v1 u (OUpvalue (UpObject (Some q)))) in *.
  assert (typed w) as Tw by (eapply typed_write; eauto; simpl; auto).
  assert (stack w = stack v) as Sw by exact R1. assert (ustack w = ustack v) as Uw by exact R2.
  apply sem_get. rewrite Sw, Uw.
  apply sem_bind. eapply sem_call; [unfold mlift; rewrite abs_set_in by lia; reflexivity|].
  apply sem_bind. eapply sem_call; [unfold mlift; rewrite abs_set_in by lia; reflexivity|].
  apply sem_bind. eapply sem_call; [reflexivity|]. apply IH'; auto.
  - rewrite <- Sw, <- Uw.
    match goal with |- typed (set_ustack (set_stack w ?s) (list_set _ ?k2 None)) =>
      change (typed (set_ustack (set_stack w s) (list_set (ustack (set_stack w s)) k2 None))) end.
    apply typed_ustack_replaced; [|discriminate]. apply typed_replaced; auto. split; simpl; auto. intros z; discriminate.
  - unfold in_step in *. cbn [stack ustack set_stack set_ustack]. rewrite !list_set_length. auto.
Qed.

Lemma closing_value ks v v' e x : separate v' -> closing ks v v' -> live v' e -> (exists u, nth_error (objects v') e = Some (OUpvalue u)) ->
  value_of v e x -> value_of v' e x.
Proof.
  intros SP C L [u' E'] V. destruct (cl_upvalues _ _ _ C e u' L E') as [Lv [u [Eu D]]].
  destruct V as [k E S|q E Eq]; rewrite E in Eu; injection Eu as <-.
  - destruct D as [[-> _]|[j [q [y [Ej [_ [Sj [-> Eq]]]]]]]].
    + apply (value_slot _ _ _ k); auto. destruct (cl_slots _ _ _ C k x S) as [[[e' [Ik Mk]] _]|[_ A]]; auto.
      exfalso. pose proof (sp_slots _ SP e k L E') as M. apply (cl_marks _ _ _ C) in M as [_ M]. contradiction.
    + injection Ej as <-. rewrite (slot_fun _ _ _ _ S Sj). apply (value_box _ _ _ q); auto.
  - destruct D as [[-> A]|[j [q' [y [Ej _]]]]]; [|discriminate]. apply (value_box _ _ _ q); auto. rewrite A; auto.
Qed.

Lemma closing_variable ks v v' p e : typed v' -> closing ks v v' -> live v' p -> (exists u, nth_error (objects v') p = Some (OUpvalue u)) ->
  variable (objects v) p e -> variable (objects v') p e /\ live v' e.
Proof.
  intros T C L U V. revert L U. induction V as [e u E N|p r e E V IH]; intros L [u' E'].
  - split; auto. destruct (cl_upvalues _ _ _ C e u' L E') as [_ [u1 [Eu D]]]. rewrite E in Eu. injection Eu as <-.
    destruct D as [[-> _]|[j [q [y [_ [_ [_ [-> _]]]]]]]]; eapply variable_itself; eauto. discriminate.
  - destruct (cl_upvalues _ _ _ C p u' L E') as [_ [u1 [Eu D]]]. rewrite E in Eu. injection Eu as <-.
    destruct D as [[-> _]|[j [q [y [Ej _]]]]]; [|discriminate].
    pose proof (ty_objects _ _ T p _ L (fun x => x) E') as W. simpl in W. destruct (W r eq_refl) as [Lr [o [Eo Ko]]].
    destruct o; simpl in Ko; try contradiction. destruct (IH Lr (ex_intro _ _ Eo)) as [A B]. split; auto. eapply variable_next; eauto.
Qed.

(** C23: when a scope ends, its captured variables keep their values and closures keep sharing them. *)
Lemma release_spec host base next is v c v' : typed v -> in_step v -> separate v ->
  exec host base next (IReleaseUpvalues is) v = (Ok c, v') ->
  c = Continue next /\ typed v' /\ in_step v' /\ separate v' /\ length (stack v') = length (stack v) /\
  (forall e x, live v' e -> (exists u, nth_error (objects v') e = Some (OUpvalue u)) -> value_of v e x -> value_of v' e x) /\
  (forall p e, live v' p -> (exists u, nth_error (objects v') p = Some (OUpvalue u)) -> variable (objects v) p e -> variable (objects v') p e /\ live v' e) /\
  (forall p id cs n, live v' p -> nth_error (objects v') p = Some (OUpvalueArray id cs n) -> nth_error (objects v) p = Some (OUpvalueArray id cs n)) /\
  (forall i, In i is -> forall e, ~ mark v' (zlen (stack v) - i) e) /\
  (forall e k, live v' e -> nth_error (objects v') e = Some (OUpvalue (UpStack k)) -> ~ In (zlen (stack v) - k) is) /\
  (forall k e, ~ In (zlen (stack v) - k) is -> (mark v' k e <-> mark v k e)) /\
  (forall k x, slot v k x -> ~ (In (zlen (stack v) - k) is /\ exists e, mark v k e) -> slot v' k x).
Proof.
  intros T I SP Ex. pose proof (release_run is v T I SP) as H. cbn [exec] in Ex. unfold sem in H.
  unfold mbind in Ex. destruct (release_op is v) as [[u|e| |] w] eqn:Er; try discriminate. unfold mret in Ex. injection Ex as <- <-.
  destruct H as [T' [I' [SP' C]]].
  assert (forall k, In k (map (fun i => zlen (stack v) - i) is) <-> In (zlen (stack v) - k) is) as Hin.
  { intros k. rewrite in_map_iff. split; [intros [i [<- A]]; replace (zlen (stack v) - (zlen (stack v) - i)) with i by lia; auto|].
    intros A. eexists; split; [|exact A]. lia. }
  split; auto. split; auto. split; auto. split; auto. split; [apply C|].
  split; [intros; eapply closing_value; eauto|]. split; [intros; eapply closing_variable; eauto|].
  split; [intros p id cs n L E; apply (cl_others _ _ _ C p id cs n L E)|].
  split; [intros i Hi e M; apply (cl_marks _ _ _ C) in M as [_ M]; apply M, in_map; auto|].
  split; [intros e k L E; pose proof (sp_slots _ SP' e k L E) as M; apply (cl_marks _ _ _ C) in M as [_ M]; rewrite Hin in M; auto|].
  split; [intros k e N; rewrite (cl_marks _ _ _ C), Hin; tauto|].
  intros k x S N. destruct (cl_slots _ _ _ C k x S) as [[[e [A B]] _]|[_ A]]; auto. exfalso. apply N. rewrite <- Hin. eauto.
Qed.

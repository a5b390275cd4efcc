(** Proofs about captured variables. *)
From Coq Require Import ZArith List Lia Arith Bool ZifyBool ZifyNat.
Import ListNotations.
From Verif Require Import M_Base M_Heap M_Instr M_VM S_Heap S_VM S_Num S_Cyclic S_Globals S_Types S_Data S_Call S_Closure P_Heap P_Sort P_VM P_Exec P_Num P_Valid P_Cyclic P_Globals P_Types P_Safe P_Safe2 P_Safe3 P_Safe4 P_Safe5 P_Data P_Data2 P_Data3 P_Call P_Call2.
Open Scope Z_scope.

(** * Following chains *)

Inductive variable_in (os : list object) : nat -> ptr -> ptr -> Prop :=
| variable_in_itself e u : nth_error os e = Some (OUpvalue u) -> (forall r, u <> UpUpvalue r) -> variable_in os 0 e e
| variable_in_next n p r e : nth_error os p = Some (OUpvalue (UpUpvalue (Some r))) -> variable_in os n r e -> variable_in os (S n) p e.

Lemma variable_depth os p e : variable os p e -> exists n, variable_in os n p e.
Proof. induction 1 as [e u E N|p r e E _ [n IH]]; [exists 0%nat; econstructor; eauto|]. exists (S n). econstructor; eauto. Qed.

Lemma variable_in_fun os n : forall m p e e', variable_in os n p e -> variable_in os m p e' -> n = m /\ e = e'.
Proof.
  induction n as [|n IH]; intros m p e e' H1 H2.
  - inversion H1 as [? u E N|]; subst. inversion H2 as [? u' E' N'|? ? r ? E']; subst; auto. exfalso. rewrite E in E'. injection E' as ->. eapply N; reflexivity.
  - inversion H1 as [|? ? r ? E H]; subst. inversion H2 as [? u' E' N'|? ? r' ? E' H']; subst.
    + exfalso. rewrite E in E'. injection E' as <-. eapply N'; reflexivity.
    + assert (r = r') as <- by congruence. destruct (IH _ _ _ _ H H') as [-> ->]. auto.
Qed.

Lemma variable_fun os p e e' : variable os p e -> variable os p e' -> e = e'.
Proof. intros H1 H2. apply variable_depth in H1 as [n H1]. apply variable_depth in H2 as [m H2]. eapply variable_in_fun; eauto. Qed.

Lemma variable_visited os n : forall p e, variable_in os n p e -> exists l, length l = S n /\ NoDup l /\
  forall c, In c l -> (c < length os)%nat /\ exists m, (m <= n)%nat /\ variable_in os m c e.
Proof.
  induction n as [|n IH]; intros p e H.
  - inversion H as [? u E N|]; subst. exists [e]. split; auto. split; [repeat constructor; auto|]. intros c [<-|[]]. split; [apply nth_error_Some; congruence|eauto].
  - inversion H as [|? ? r ? E H']; subst. destruct (IH _ _ H') as [l [Hl [ND HI]]]. exists (p :: l). split; [simpl; auto|]. split.
    + constructor; auto. intros Hc. apply HI in Hc as [_ [m [Hm Hr]]]. destruct (variable_in_fun _ _ _ _ _ _ H Hr). lia.
    + intros d [<-|Hd]; [split; [apply nth_error_Some; congruence|eauto]|]. apply HI in Hd as [A [m [B C]]]. split; auto. exists m. split; auto.
Qed.

Lemma variable_shallow os n p e : variable_in os n p e -> (n < length os)%nat.
Proof.
  intros H. destruct (variable_visited _ _ _ _ H) as [l [Hl [ND HI]]]. enough (length l <= length os)%nat by lia.
  rewrite <- (seq_length (length os) 0). apply NoDup_incl_length; auto. intros c Hc. apply in_seq. apply HI in Hc as [A _]. lia.
Qed.

Lemma upvalue_end_in os n : forall fuel b p e u, variable_in os n p e -> nth_error os e = Some (OUpvalue u) -> (n <= fuel)%nat ->
  upvalue_end fuel b os (Some p) = Ok (e, u).
Proof.
  induction n as [|n IH]; intros fuel b p e u H E Hn.
  - inversion H as [? u' E' N|]; subst. rewrite E in E'. injection E' as <-. destruct fuel; simpl; rewrite E; destruct u; auto; exfalso; eapply N; reflexivity.
  - inversion H as [|? ? r ? E' H']; subst. destruct fuel as [|f]; [lia|]. simpl. rewrite E'. apply (IH f b r e u); auto. lia.
Qed.

Lemma upvalue_end_var os b p e u : variable os p e -> nth_error os e = Some (OUpvalue u) ->
  upvalue_end (length os) b os (Some p) = Ok (e, u).
Proof. intros H E. apply variable_depth in H as [n H]. eapply upvalue_end_in; eauto. pose proof (variable_shallow _ _ _ _ H). lia. Qed.

Lemma variable_end os p e : variable os p e -> exists u, nth_error os e = Some (OUpvalue u) /\ forall r, u <> UpUpvalue r.
Proof. induction 1; eauto. Qed.

Lemma ua_get_captures v i p : captures v i p -> exists u rest, uacs v = u :: rest /\ ua_get (objects v) u i = Ok p.
Proof.
  intros [a [id [n [rest [cs [len [E1 [E2 [E3 E4]]]]]]]]]. exists (UARef (Some (a, id)) n), rest. split; auto.
  unfold ua_get. cbn [ua_buffer]. rewrite E2, Nat.eqb_refl. unfold cell_get, array_get. destruct (Z.ltb_spec i 0); [lia|]. rewrite E4. reflexivity.
Qed.

Lemma abs_slot {A} (l : list A) k x : 0 <= k -> nth_error (rev l) (Z.to_nat k) = Some x ->
  k < zlen l /\ nth_error l (Z.to_nat (zlen l - 1 - k)) = Some x /\ abs_get l k = Ok x.
Proof.
  intros Hk E. assert (Z.to_nat k < length (rev l))%nat as Hl by (apply nth_error_Some; congruence). rewrite rev_length in Hl. unfold zlen.
  assert (nth_error l (Z.to_nat (Z.of_nat (length l) - 1 - k)) = Some x) as E'.
  { rewrite <- E. rewrite (nth_error_nth' (rev l) x) by (rewrite rev_length; lia). rewrite rev_nth by lia.
    rewrite <- (nth_error_nth' l x) by lia. f_equal. lia. }
  split; [lia|]. split; auto. unfold abs_get, zlen. destruct (_ || (_ <=? _)) eqn:C; [lia|]. rewrite E'. auto.
Qed.

Lemma slot_abs {A} (l : list A) k x : abs_get l k = Ok x -> 0 <= k < zlen l /\ nth_error (rev l) (Z.to_nat k) = Some x.
Proof.
  unfold abs_get. unfold zlen. destruct (_ || (_ <=? _)) eqn:C; [discriminate|]. destruct (nth_error l _) as [y|] eqn:E; [|discriminate].
  intros H. injection H as ->. split; [lia|]. rewrite (nth_error_nth' (rev l) x) by (rewrite rev_length; lia). rewrite rev_nth by lia.
  rewrite <- (nth_error_nth' l x) by lia. rewrite <- E. f_equal. lia.
Qed.

Lemma rev_list_set {A} (l : list A) k x : (k < length l)%nat -> rev (list_set l k x) = list_set (rev l) (length l - 1 - k) x.
Proof.
  revert k. induction l as [|y l IH]; intros k Hk; [simpl in Hk; lia|]. destruct k as [|k]; simpl.
  - replace (length l - 0 - 0)%nat with (length (rev l)) by (rewrite rev_length; lia).
    clear. induction (rev l) as [|z m IH]; simpl; auto. f_equal. auto.
  - rewrite IH by (simpl in Hk; lia). replace (length l - 0 - S k)%nat with (length l - 1 - k)%nat by lia.
    simpl in Hk. assert (length l - 1 - k < length (rev l))%nat as H by (rewrite rev_length; lia).
    clear - H. revert H. generalize (length l - 1 - k)%nat as n. induction (rev l) as [|z m IHm]; intros n H; [simpl in H; lia|].
    destruct n; simpl; auto. f_equal. apply IHm. simpl in H. lia.
Qed.

(** * Reading and assigning *)

(** C23: a captured variable is read where it lives. *)
Lemma push_upvalue_spec host base next i v p e x : captures v i (Some p) -> variable (objects v) p e -> value_of v e x ->
  exec host base next (IPushUpvalue i) v = (Ok (Continue next), pushed x v).
Proof.
  intros C V X. destruct (ua_get_captures _ _ _ C) as [u [rest [Eu Eg]]]. cbn [exec]. unfold push_upvalue_op. unfold mbind, mget, mlift. rewrite Eu, Eg.
  destruct X as [k E S|q E Eq].
  - rewrite (upvalue_end_var _ true p e _ V E). destruct S as [Hk S]. destruct (abs_slot _ _ _ Hk S) as [_ [_ ->]]. reflexivity.
  - rewrite (upvalue_end_var _ true p e _ V E). rewrite (deref_run _ _ _ Eq). reflexivity.
Qed.

Lemma slot_set v k x j y : slot v k y -> slot (set_stack v (list_set (stack v) (Z.to_nat (zlen (stack v) - 1 - k)) x)) j (if j =? k then x else match nth_error (rev (stack v)) (Z.to_nat j) with Some z => z | None => x end) \/ ~ 0 <= j < zlen (stack v).
Proof.
  intros [Hk S]. destruct (abs_slot _ _ _ Hk S) as [Hl _]. destruct (Z.le_gt_cases 0 j) as [H0|H0]; [|right; lia].
  destruct (Z.lt_ge_cases j (zlen (stack v))) as [H1|H1]; [left|right; lia]. unfold zlen in *. split; auto. cbn [stack set_stack].
  rewrite rev_list_set by lia. rewrite list_set_nth, rev_length.
  destruct (Z.eqb_spec j k) as [->|N].
  - replace (length (stack v) - 1 - Z.to_nat (Z.of_nat (length (stack v)) - 1 - k))%nat with (Z.to_nat k) by lia. rewrite Nat.eqb_refl.
    destruct (Nat.ltb_spec (Z.to_nat k) (length (stack v))); [reflexivity|lia].
  - destruct (Nat.eqb_spec (Z.to_nat j) (length (stack v) - 1 - Z.to_nat (Z.of_nat (length (stack v)) - 1 - k))); [lia|]. cbn [andb].
    destruct (nth_error (rev (stack v)) (Z.to_nat j)) eqn:E; auto. apply nth_error_None in E. rewrite rev_length in E. lia.
Qed.

Lemma variable_written os q x y p e : nth_error os q = Some y -> (forall u, y <> OUpvalue u) -> (forall u, x <> OUpvalue u) ->
  variable os p e <-> variable (list_set os q x) p e.
Proof.
  intros Eq Ny Nx. assert (forall r u, nth_error os r = Some (OUpvalue u) <-> nth_error (list_set os q x) r = Some (OUpvalue u)) as K.
  { intros r u. rewrite list_set_nth. destruct (Nat.eqb_spec r q) as [->|N]; cbn [andb]; [|tauto].
    assert (q < length os)%nat as Hl by (apply nth_error_Some; congruence). destruct (Nat.ltb_spec q (length os)); [|lia].
    split; intros H'; exfalso; [rewrite Eq in H'|]; injection H' as H'; [apply (Ny u)|apply (Nx u)]; auto. }
  split; induction 1; [eapply variable_itself|eapply variable_next|eapply variable_itself|eapply variable_next]; eauto; apply K; eauto.
Qed.

(** What an assignment changes: the stack position or the object the variable is at. *)
Definition assigned (v : vm) (e : ptr) (x : object) (v' : vm) : Prop :=
  (exists k y, nth_error (objects v) e = Some (OUpvalue (UpStack k)) /\ slot v k y /\
     v' = set_stack v (list_set (stack v) (Z.to_nat (zlen (stack v) - 1 - k)) x)) \/
  (exists q y, nth_error (objects v) e = Some (OUpvalue (UpObject (Some q))) /\ nth_error (objects v) q = Some y /\ v' = written v q x).

Lemma set_upvalue_run host base next u i v p e x y : captures v u (Some p) -> variable (objects v) p e -> value_of v e y -> at_pos v i x ->
  exists v', exec host base next (ISetUpvalue u i) v = (Ok (Continue next), v') /\ assigned v e x v'.
Proof.
  intros C V Y Hi. destruct (ua_get_captures _ _ _ C) as [a [rest [Eu Eg]]]. cbn [exec]. unfold set_upvalue_op.
  unfold mbind, mget, mlift. rewrite (sget_at v i x Hi). rewrite Eu, Eg.
  destruct Y as [k E S|q E Eq].
  - rewrite (upvalue_end_var _ false p e _ V E). pose proof S as [Hk S']. destruct (abs_slot _ _ _ Hk S') as [Hl _].
    unfold abs_set. destruct (_ || (_ <=? _)) eqn:D; [lia|]. unfold mset, mret. eexists. split; [reflexivity|]. left. exists k, y. auto.
  - rewrite (upvalue_end_var _ false p e _ V E). unfold write, mbind, mget, mset, mret.
    assert (q < length (objects v))%nat as Hl by (apply nth_error_Some; congruence). destruct (Nat.ltb_spec q (length (objects v))); [|lia].
    eexists. split; [reflexivity|]. right. exists q, y. auto.
Qed.

Lemma set_upvalue_spec host base next u i v p e x y : typed v -> separate v ->
  captures v u (Some p) -> live v e -> variable (objects v) p e -> value_of v e y -> at_pos v i x ->
  exists v', exec host base next (ISetUpvalue u i) v = (Ok (Continue next), v') /\
    value_of v' e x /\
    (forall r e', variable (objects v) r e' <-> variable (objects v') r e') /\
    (forall e' z, live v e' -> e' <> e -> value_of v e' z -> value_of v' e' z) /\
    (forall k, mark v k e -> slot v' k x) /\
    (forall k z, ~ mark v k e -> slot v k z -> slot v' k z) /\
    ustack v' = ustack v /\ length (stack v') = length (stack v) /\ separate v'.
Proof.
  intros T SP C Le V Y Hi. destruct (set_upvalue_run host base next u i v p e x y C V Y Hi) as [v' [Ex A]]. exists v'. split; auto.
  assert (forall u, x <> OUpvalue u) as Nx.
  { intros u' ->. destruct (val_in v _ T (at_in _ _ _ Hi)) as [F _]. contradiction. }
  destruct A as [[k [z [E [S ->]]]]|[q [z [E [Eq ->]]]]].
  - (* on the stack *)
    assert (forall j w, j <> k -> slot v j w -> slot (set_stack v (list_set (stack v) (Z.to_nat (zlen (stack v) - 1 - k)) x)) j w) as Sj.
    { intros j w N [Hj Sj]. destruct (slot_set v k x j z S) as [K|K]; [|destruct (abs_slot _ _ _ Hj Sj); lia].
      destruct (Z.eqb_spec j k); [lia|]. rewrite Sj in K. auto. }
    assert (slot (set_stack v (list_set (stack v) (Z.to_nat (zlen (stack v) - 1 - k)) x)) k x) as Sk.
    { destruct (slot_set v k x k z S) as [K|K]; [rewrite Z.eqb_refl in K; auto|]. destruct S as [Hk Sk]. destruct (abs_slot _ _ _ Hk Sk). lia. }
    split; [apply (value_slot _ _ _ k); auto|]. split; [intros; tauto|]. split.
    { intros e' w L' N [j E' S'|q E' Eq]; [|apply (value_box _ _ _ q); auto]. apply (value_slot _ _ _ j); auto. apply Sj; auto.
      intros ->. apply N. destruct (sp_slots _ SP e' k L' E') as [_ M1]. destruct (sp_slots _ SP e k Le E) as [_ M2]. congruence. }
    split. { intros j M. assert (j = k) as ->; auto. pose proof (sp_marks _ SP e j M). congruence. }
    split. { intros j w M. apply Sj. intros ->. apply M. apply (sp_slots _ SP); auto. }
    split; [reflexivity|]. split; [apply list_set_length|]. constructor; apply SP.
  - (* in an object *)
    assert (forall u, z <> OUpvalue u) as Nz.
    { intros u' ->. pose proof (ty_objects _ _ T e _ Le (fun x => x) E) as [q' [Eq' [Lq [o [Eo Fo]]]]]. injection Eq' as <-.
      rewrite Eq in Eo. injection Eo as <-. contradiction. }
    assert (q < length (objects v))%nat as Hl by (apply nth_error_Some; congruence).
    assert (forall r u, nth_error (objects v) r = Some (OUpvalue u) <-> nth_error (objects (written v q x)) r = Some (OUpvalue u)) as K.
    { intros r u'. rewrite written_nth. destruct (Nat.eqb_spec r q) as [->|N]; cbn [andb]; [|tauto]. destruct (Nat.ltb_spec q (length (objects v))); [|lia].
      split; intros H'; exfalso; [rewrite Eq in H'|]; injection H' as H'; [apply (Nz u')|apply (Nx u')]; auto. }
    split. { apply (value_box _ _ _ q); [apply K; auto|]. rewrite written_nth, Nat.eqb_refl. destruct (Nat.ltb_spec q (length (objects v))); [reflexivity|lia]. }
    split; [intros r e'; apply (variable_written (objects v) q x z); auto|]. split.
    { intros e' w L' N [j E' S'|q' E' Eq']; [apply (value_slot _ _ _ j); auto; apply K; auto|].
      apply (value_box _ _ _ q'); [apply K; auto|]. rewrite written_nth. destruct (Nat.eqb_spec q' q) as [->|Nq]; auto. exfalso. apply N.
      eapply (sp_boxes _ SP); eauto. }
    split. { intros j M. exfalso. pose proof (sp_marks _ SP e j M). congruence. }
    split; [auto|]. split; [reflexivity|]. split; [reflexivity|].
    assert (forall r, live (written v q x) r -> live v r) as KL by (intros r; apply written_live).
    constructor.
    + intros e' j L' E'. apply K in E'. apply (sp_slots _ SP e' j); auto.
    + intros e' j M. apply K. apply (sp_marks _ SP); auto.
    + intros e1 e2 q' L1 L2 E1 E2. apply K in E1. apply K in E2. eapply (sp_boxes _ SP); eauto.
Qed.

(** Captured variables in a well-typed machine. *)
From Coq Require Import ZArith List Lia Arith Bool ZifyBool ZifyNat.
Import ListNotations.
From Verif Require Import M_Base M_Heap M_Instr M_VM S_Heap S_VM S_Num S_Cyclic S_Globals S_Types P_Heap P_Sort P_VM P_Exec P_Num P_Valid P_Cyclic P_Globals P_Types P_Safe P_Safe2 P_Safe3.
Open Scope Z_scope.

(** Captured variable [i] of the running closure, if the closure's array is there. *)
Lemma ua_get_typed v u rest i : typed v -> uacs v = u :: rest ->
  match ua_get (objects v) u i with
  | Ok q => opoints v is_upvalue q /\
      exists p id cs len, ua_buffer u = Some (p, id) /\
        nth_error (objects v) p = Some (OUpvalueArray id (Some cs) len) /\ nth_error cs (Z.to_nat i) = Some (Cell q) /\
        0 <= i < len /\ live v p
  | Err _ => True
  | UB => ~ captured v i
  | NoFuel => False
  end.
Proof.
  intros T Eu. unfold ua_get. destruct u as [[[p id]|] n]; cbn [ua_buffer].
  2: { intros [p [id [cs [len [m [r [H _]]]]]]]. congruence. }
  destruct (nth_error (objects v) p) as [o|] eqn:En.
  2: { intros [p' [id' [cs [len [m [r [H [H2 _]]]]]]]]. congruence. }
  destruct o as [| | | | | | | | | | | | | | |id' cs len| | | |]; try (intros [? [? [? [? [? [? [? [? ?]]]]]]]]; congruence).
  destruct (Nat.eqb_spec id id') as [->|Ne]; [|intros [? [? [? [? [? [? [? [? ?]]]]]]]]; congruence].
  destruct cs as [l|]; simpl.
  2: { intros [? [? [? [? [? [? [? [? ?]]]]]]]]. congruence. }
  assert (live v p) as L.
  { split; [apply nth_error_Some; congruence|]. intros F. apply (ty_released _ _ T p _ F En). }
  pose proof (ty_objects _ _ T p _ L (fun x => x) En) as [[W1 W] Z]. specialize (Z l eq_refl).
  unfold array_get. destruct (Z.ltb_spec i 0).
  - simpl. intros [? [? [? [? [? [? [? [? ?]]]]]]]]. lia.
  - destruct (nth_error l (Z.to_nat i)) as [c|] eqn:Ec; simpl.
    + assert (Z.to_nat i < length l)%nat as Hi by (apply nth_error_Some; congruence). unfold zlen in Z.
      destruct W as [l' [E W]]; [lia|]. injection E as <-. destruct (W (Z.to_nat i)) as [q [Eq Pq]]; [lia|].
      rewrite Ec in Eq. injection Eq as ->. split; auto. exists p, id', l, len.
      split; auto. split; auto. split; auto. split; [lia|auto].
    + intros [p' [? [l' [? [? [? [E1 [E2 ?]]]]]]]]. apply nth_error_None in Ec. unfold zlen in Z.
      assert (p' = p) by congruence. subst p'. assert (len = x0) by congruence. lia.
Qed.

(** The end of a chain of captured variables. *)
Lemma upvalue_end_typed v : typed v -> forall fuel b p, opoints v is_upvalue p ->
  match upvalue_end fuel b (objects v) p with
  | Ok (q, u) => live v q /\ nth_error (objects v) q = Some (OUpvalue u) /\
      match u with
      | UpStack _ => True
      | UpObject r => exists z, r = Some z /\ points v first_class z
      | UpUpvalue _ => False
      end
  | Err _ => True
  | UB => b = false /\ dangling (objects v) p
  | NoFuel => True
  end.
Proof.
  intros T. induction fuel as [|f IH]; intros b p P; destruct p as [p|]; simpl.
  - destruct (object_points v _ p T (P p eq_refl)) as [o [_ [En [K [W L]]]]]. rewrite En.
    destruct o; simpl in K; try contradiction. destruct u; simpl in *; auto.
  - destruct b; auto. split; auto. constructor.
  - destruct (object_points v _ p T (P p eq_refl)) as [o [_ [En [K [W L]]]]]. rewrite En.
    destruct o; simpl in K; try contradiction. destruct u; simpl in *; auto.
    specialize (IH b p0 W). destruct (upvalue_end f b (objects v) p0) as [[q u]| | |]; auto.
    destruct IH as [-> D]. split; auto. econstructor; eauto.
  - destruct b; auto. split; auto. constructor.
Qed.

Lemma sem_push_upvalue v i : typed v ->
  sem v (push_upvalue_op i) (fun _ v' => typed v') typed (~ captured v i).
Proof.
  intros T. unfold push_upvalue_op. apply sem_get. destruct (uacs v) as [|u rest] eqn:Eu; [apply sem_err; auto|].
  pose proof (ua_get_typed v u rest i T Eu) as H.
  apply sem_bind. destruct (ua_get (objects v) u i) as [q|e| |]; try exact I; try exact T; try exact H.
  eapply sem_call; [reflexivity|]. destruct H as [Pq _].
  pose proof (upvalue_end_typed v T (length (objects v)) true q Pq) as He.
  apply sem_bind. destruct (upvalue_end _ true (objects v) q) as [[z u']|e| |]; try exact I; try exact T.
  2: { destruct He; discriminate. }
  eapply sem_call; [reflexivity|]. cbn beta iota. destruct He as [L [En He]].
  apply sem_bind. destruct u' as [k|r|r]; [| |contradiction].
  - unfold abs_get. destruct (_ || _) eqn:C; [exact T|].
    destruct (nth_error (stack v) _) as [o|] eqn:No.
    + eapply sem_call; [reflexivity|]. apply sem_push; auto. apply val_in; auto. eapply nth_error_In; eauto.
    + apply nth_error_None in No. unfold zlen in C. unfold zlen in No. lia.
  - destruct He as [y [-> P]]. destruct (val_points v y T P) as [o [Ed V]].
    eapply sem_call; [exact Ed|]. apply sem_push; auto.
Qed.

Lemma in_list_set {A} (l : list A) k x y : In y (list_set l k x) -> In y l \/ y = x.
Proof.
  revert k. induction l as [|z l IH]; intros [|k]; simpl; auto.
  - intros [->|H]; auto.
  - intros [->|H]; auto. destruct (IH k H); auto.
Qed.

Lemma typed_replaced v k o : typed v -> val v o -> typed (set_stack v (list_set (stack v) k o)).
Proof.
  intros T V. apply typed_set_stack; auto. intros x Hx. apply in_list_set in Hx as [Hx| ->]; auto. apply T; auto.
Qed.

Lemma sem_set_upvalue v u i : typed v ->
  sem v (set_upvalue_op u i) (fun _ v' => typed v') typed (uacs v = [] \/ ~ captured v u \/ captured_null v u).
Proof.
  intros T. unfold set_upvalue_op. apply sem_bind. apply sem_sget; auto. intros o _ Ho.
  pose proof (val_in v o T Ho) as V. apply sem_get. destruct (uacs v) as [|a rest] eqn:Ea; [apply sem_ub; auto|].
  pose proof (ua_get_typed v a rest u T Ea) as H.
  apply sem_bind. destruct (ua_get (objects v) a u) as [q|e| |]; try exact I; try exact T; [|right; left; exact H].
  eapply sem_call; [reflexivity|]. destruct H as [Pq [p [id [cs [len [A1 [A2 [A3 [A4 A5]]]]]]]]].
  pose proof (upvalue_end_typed v T (length (objects v)) false q Pq) as He.
  apply sem_bind. destruct (upvalue_end _ false (objects v) q) as [[z u']|e| |]; try exact I; try exact T.
  2: { destruct He as [_ D]. right. right. destruct a as [b n]. cbn in A1. subst b.
       exists p, id, cs, len, n, rest, q. auto. }
  eapply sem_call; [reflexivity|]. cbn beta iota. destruct He as [L [En He]].
  destruct u' as [k|r|r]; [| |contradiction].
  - unfold abs_set. destruct (_ || _) eqn:C; [exact T|].
    apply sem_bind. eapply sem_call; [reflexivity|]. eapply sem_call; [reflexivity|]. apply typed_replaced; auto.
  - destruct He as [y [-> P]]. destruct (object_points v _ y T P) as [x [Ed [Ex [K [W Ly]]]]].
    assert (like x o) as Lk.
    { destruct V as [Fo _]. destruct x; simpl in K; try contradiction; destruct o; simpl in Fo; try contradiction; simpl; auto. }
    eapply sem_write; eauto; [apply V|]. eapply typed_write; eauto. apply V.
Qed.

(** * Releasing *)

Lemma typed_ustack_replaced v k p : typed v -> (forall q, p = Some q -> points v is_upvalue q) ->
  typed (set_ustack v (list_set (ustack v) k p)).
Proof.
  intros T V. apply typed_set_ustack; auto. intros x Hx. apply in_list_set in Hx as [Hx| E]; auto. apply T; auto.
Qed.

Lemma raw_get_in {A} (l : list A) i : 0 <= i < zlen l -> exists x, raw_get l i = Ok x /\ In x l.
Proof.
  intros H. unfold raw_get, abs_get. destruct (_ || _) eqn:C; [lia|].
  destruct (nth_error l _) as [x|] eqn:N; [|apply nth_error_None in N; unfold zlen in *; lia].
  exists x. split; auto. eapply nth_error_In; eauto.
Qed.
Lemma raw_set_in {A} (l : list A) i x : 0 <= i < zlen l -> exists k, raw_set l i x = Ok (list_set l k x).
Proof. intros H. unfold raw_set, abs_set. destruct (_ || _) eqn:C; [lia|]. eauto. Qed.

Lemma sem_release is : forall v, typed v -> in_step v ->
  sem v (release_op is) (fun _ v' => typed v') typed (exists i, In i is /\ i < 1).
Proof.
  induction is as [|i is IH]; intros v T S; cbn [release_op]; [apply sem_ret; auto|].
  apply sem_get. cbn zeta. destruct (Z.ltb_spec (zlen (stack v) - i) 0); [apply sem_err; auto|].
  destruct (Z.ltb_spec i 1) as [Hi|Hi].
  { apply sem_bind. unfold sem, mlift, raw_get, abs_get.
    assert (zlen (ustack v) = zlen (stack v)) as Z by (unfold zlen, in_step in *; lia).
    destruct (_ || _) eqn:C; [exists i; simpl; auto|]. lia. }
  assert (zlen (ustack v) = zlen (stack v)) as Z by (unfold zlen, in_step in *; lia).
  assert (forall w, typed w -> in_step w -> sem w (release_op is) (fun _ v' => typed v') typed (exists j, In j (i :: is) /\ j < 1)) as IH'.
  { intros w Tw Sw. eapply sem_weaken_u; [apply IH; auto|]. intros [j [A B]]. exists j. simpl. auto. }
  destruct (raw_get_in (ustack v) (zlen (stack v) - i)) as [u [Eu Hu]]; [lia|].
  apply sem_bind. eapply sem_call; [unfold mlift; rewrite Eu; reflexivity|].
  destruct u as [u|]; [|apply IH'; auto].
  pose proof (ty_ustack _ _ T u Hu) as Pu. destruct (object_points v _ u T Pu) as [x [Ed [Ex [K [Wx L]]]]].
  apply sem_bind. eapply sem_call; [exact Ed|]. destruct x; simpl in K; try contradiction.
  destruct (raw_get_in (stack v) (zlen (stack v) - i)) as [o [Eo Ho]]; [lia|].
  apply sem_bind. eapply sem_call; [unfold mlift; rewrite Eo; reflexivity|].
  apply sem_bind. eapply sem_weaken; [apply sem_alloc_in; auto|]. intros r v1 [q [-> [T1 [N Pq]]]].
  assert (reach v u) as Ru by (apply reach_root, root_ustack; auto).
  pose proof (no_roots _ _ _ _ N) as (R1 & R2 & _).
  assert (nth_error (objects v1) u = Some (OUpvalue u0)) as Ex1 by (rewrite (no_same _ _ _ _ N); auto).
  assert (live v1 u) as L1 by (apply (no_kept _ _ _ _ N); auto).
  assert (well_typed v1 (OUpvalue (UpObject (Some q)))) as W1 by (exists q; auto).
  apply sem_bind. eapply sem_write; eauto; simpl; auto.
  set (w := written v1 u (OUpvalue (UpObject (Some q)))).
  assert (typed w) as Tw by (eapply typed_write; eauto; simpl; auto).
  assert (stack w = stack v) as Sw by exact R1. assert (ustack w = ustack v) as Uw by exact R2.
  apply sem_get. rewrite Sw, Uw.
  destruct (raw_set_in (stack v) (zlen (stack v) - i) (OList None)) as [k1 Ek1]; [lia|].
  destruct (raw_set_in (ustack v) (zlen (stack v) - i) None) as [k2 Ek2]; [lia|].
  apply sem_bind. eapply sem_call; [unfold mlift; rewrite Ek1; reflexivity|].
  apply sem_bind. eapply sem_call; [unfold mlift; rewrite Ek2; reflexivity|].
  apply sem_bind. eapply sem_call; [reflexivity|]. apply IH'.
  - rewrite <- Sw, <- Uw.
    change (typed (set_ustack (set_stack w (list_set (stack w) k1 (OList None))) (list_set (ustack (set_stack w (list_set (stack w) k1 (OList None)))) k2 None))).
    apply typed_ustack_replaced; [|discriminate]. apply typed_replaced; auto. split; simpl; auto. intros z; discriminate.
  - unfold in_step in *. simpl. rewrite !list_set_length. auto.
Qed.

(** * Capturing *)

Lemma reach_new o v q v' p : new_object o v q v' -> reach v p -> reach v' p.
Proof.
  intros N R. induction R as [p R|p x r R IH E F].
  - apply reach_root. apply (same_roots_root v v'); auto. apply N.
  - eapply reach_step; eauto. rewrite (no_same _ _ _ _ N); auto.
Qed.

Lemma reach_more v v' : (forall p, root v p -> root v' p) ->
  (forall p x r, nth_error (objects v) p = Some x -> refers x r ->
     exists y, nth_error (objects v') p = Some y /\ refers y r) ->
  forall p, reach v p -> reach v' p.
Proof.
  intros A B p R. induction R as [p R|p x r R IH E F].
  - apply reach_root; auto.
  - destruct (B p x r E F) as [y [E' F']]. eapply reach_step; eauto.
Qed.

Lemma reach_written v p x o q : nth_error (objects v) p = Some x -> (forall r, refers x r -> refers o r) ->
  reach v q -> reach (written v p o) q.
Proof.
  intros E H. apply reach_more.
  - intros r [y z Hy Hz|z Hz|z Hz|? ? z Hz|z Hz].
    + eapply root_stack; eauto.
    + apply root_ustack; auto.
    + apply root_global; auto.
    + eapply root_frame; eauto.
    + apply root_current; auto.
  - intros r y z Ey Ry. rewrite written_nth. destruct (Nat.eqb_spec r p) as [->|N]; simpl; [|eauto].
    assert (p < length (objects v))%nat by (apply nth_error_Some; congruence).
    destruct (Nat.ltb_spec p (length (objects v))); [|lia]. exists o. split; auto. apply H. congruence.
Qed.

Lemma reach_set_ustack v u q : (forall r, In (Some r) (ustack v) -> In (Some r) u) ->
  reach v q -> reach (set_ustack v u) q.
Proof.
  intros H. apply reach_more.
  - intros r [y z Hy Hz|z Hz|z Hz|? ? z Hz|z Hz].
    + eapply root_stack; eauto.
    + apply root_ustack; simpl; auto.
    + apply root_global; auto.
    + eapply root_frame; eauto.
    + apply root_current; auto.
  - intros r y z Ey Ry. eauto.
Qed.

Lemma in_set_none {A} (l : list (option A)) k x y : nth_error l k = Some None -> In (Some y) l -> In (Some y) (list_set l k x).
Proof.
  revert k. induction l as [|z l IH]; intros [|k]; simpl; try discriminate.
  - intros E [->|H]; auto. discriminate.
  - intros E [->|H]; auto.
Qed.

(** The state while the variables of a new closure with array [p] are captured: [k] of [n] are
    done; [v0] is the machine before the instruction. *)
Record capturing (v0 : vm) (p : ptr) (n k : nat) (r : bool) (clo : object) (negative : Prop) (v : vm) : Prop := {
  ca_typed : typed v;
  ca_stack : exists s, stack v = clo :: s;
  ca_array : exists id cs, nth_error (objects v) p = Some (OUpvalueArray id cs (Z.of_nat n)) /\ live v p /\
    ((0 < n)%nat -> exists l, cs = Some l /\ length l = n /\ forall i, (k <= i < n)%nat -> nth_error l i = Some (Cell None));
  ca_heights : zlen (stack v) = zlen (ustack v) + (if r then 0 else 1);
  ca_running : uacs v = uacs v0;
  ca_kept : negative -> forall pa id m rest, uacs v0 = UARef (Some (pa, id)) m :: rest ->
    reach v pa /\ pa <> p /\ nth_error (objects v) pa = nth_error (objects v0) pa
}.

Lemma capturing_set v0 p n k r clo (A : Prop) v u (E : vm -> Prop) U :
  capturing v0 p n k r clo A v -> (k < n)%nat -> points v is_upvalue u ->
  sem v (upvalue_array_set (Some p) (Z.of_nat k) (Some u)) (fun _ v' => capturing v0 p n (S k) r clo A v') E U.
Proof.
  intros H Hk Pu. destruct (ca_array _ _ _ _ _ _ _ _ H) as [id [cs [En [L Hl]]]].
  destruct Hl as [l [-> [Ll Hl]]]; [lia|]. pose proof (ca_typed _ _ _ _ _ _ _ _ H) as T.
  unfold upvalue_array_set. apply sem_bind.
  eapply sem_call; [unfold deref, mbind, mget, mret; rewrite En; reflexivity|]. cbn beta iota.
  apply sem_bind. eapply sem_call; [unfold mlift; rewrite cell_set_ok by lia; reflexivity|].
  set (o := OUpvalueArray id (Some (list_set l k (Cell (Some u)))) (Z.of_nat n)).
  assert (well_typed v o) as Wo.
  { pose proof (ty_objects _ _ T p _ L (fun x => x) En) as [[B W] Z]. simpl. split.
    - split; auto. intros _. eexists; split; [reflexivity|]. intros i Hi. rewrite list_set_nth.
      destruct W as [l' [E' W]]; [lia|]. injection E' as <-.
      destruct (Nat.eqb_spec i k) as [->|Ni]; simpl; [|apply W; auto].
      destruct (Nat.ltb_spec k (length l)); [|lia]. exists (Some u). split; auto. intros q E'. injection E' as <-. auto.
    - intros l' E'. injection E' as <-. unfold zlen. rewrite list_set_length. lia. }
  eapply sem_write; eauto; simpl; auto.
  constructor.
  - eapply typed_write; eauto; simpl; auto.
  - apply (ca_stack _ _ _ _ _ _ _ _ H).
  - exists id, (Some (list_set l k (Cell (Some u)))). split; [|split].
    + rewrite written_nth, Nat.eqb_refl. destruct L as [L _]. destruct (Nat.ltb_spec p (length (objects v))); [reflexivity|lia].
    + apply written_live; auto.
    + intros _. eexists; split; [reflexivity|]. rewrite list_set_length. split; auto. intros i Hi.
      rewrite list_set_nth. destruct (Nat.eqb_spec i k) as [->|Ni]; simpl; [lia|]. apply Hl. lia.
  - apply (ca_heights _ _ _ _ _ _ _ _ H).
  - apply (ca_running _ _ _ _ _ _ _ _ H).
  - intros HA pa id' m rest Eu. destruct (ca_kept _ _ _ _ _ _ _ _ H HA pa id' m rest Eu) as [R1 [R2 R3]].
    split; [|split; auto].
    + eapply reach_written; eauto. intros z Rz. inversion Rz as [| | | | | | |? ? ? ? Hz| | | | | | | |]; subst.
      constructor. destruct Hz as [l' [i [E' [Hi Ei]]]]. injection E' as <-. eexists _, i. split; [reflexivity|]. split; auto.
      rewrite list_set_nth. destruct (Nat.eqb_spec i k) as [->|Ni]; simpl; auto.
      rewrite Hl in Ei by lia. discriminate.
    + rewrite written_nth. destruct (Nat.eqb_spec pa p); [contradiction|]. auto.
Qed.

(** The same state after an allocation. *)
Lemma capturing_new v0 p n k r clo A v o q v' : capturing v0 p n k r clo A v -> refers clo p ->
  typed v' -> new_object o v q v' -> capturing v0 p n k r clo A v'.
Proof.
  intros H Rc T N. pose proof (no_roots _ _ _ _ N) as (R1 & R2 & R3 & R4 & R5 & R6 & R7 & R8).
  destruct (ca_stack _ _ _ _ _ _ _ _ H) as [s Es].
  assert (reach v p) as Rp by (apply (reach_in v clo); auto; rewrite Es; left; auto).
  constructor; auto.
  - exists s. congruence.
  - destruct (ca_array _ _ _ _ _ _ _ _ H) as [id [cs [En [L Hl]]]]. exists id, cs.
    split; [rewrite (no_same _ _ _ _ N); auto|]. split; auto. apply (no_kept _ _ _ _ N); auto.
  - rewrite R1, R2. apply (ca_heights _ _ _ _ _ _ _ _ H).
  - rewrite R6. apply (ca_running _ _ _ _ _ _ _ _ H).
  - intros HA pa id m rest Eu. destruct (ca_kept _ _ _ _ _ _ _ _ H HA pa id m rest Eu) as [A1 [A2 A3]].
    split; [eapply reach_new; eauto|]. split; auto. rewrite (no_same _ _ _ _ N); auto.
Qed.

Lemma capturing_ustack v0 p n k r (r' : bool) clo (A : Prop) v u : capturing v0 p n k r clo A v ->
  (forall q, In (Some q) u -> points v is_upvalue q) -> (forall q, In (Some q) (ustack v) -> In (Some q) u) ->
  zlen (stack v) = zlen u + (if r' then 0 else 1) ->
  capturing v0 p n k r' clo A (set_ustack v u).
Proof.
  intros H Hu Hi Hz. constructor; auto; try apply H.
  - apply typed_set_ustack; auto. apply H.
  - intros HA pa id m rest Eu. destruct (ca_kept _ _ _ _ _ _ _ _ H HA pa id m rest Eu) as [A1 [A2 A3]].
    split; [apply reach_set_ustack; auto|]. split; auto.
Qed.

Lemma sem_capture v0 p n clo (A : Prop) : refers clo p -> first_class clo -> forall cs k r v,
  capturing v0 p n k r clo A v -> (k + length cs = n)%nat -> ((exists c, In c cs /\ c < 0) -> A) ->
  sem v (capture_op (Some p) (Z.of_nat k) cs r)
    (fun r' v' => capturing v0 p n n r' clo A v') typed
    (exists c, In c cs /\ c < 0 /\ ~ captured v0 (- (c + 1))).
Proof.
  intros Rc Fc. induction cs as [|c cs IH]; intros k r v H Hn HA; cbn [capture_op].
  { apply sem_ret. simpl in Hn. rewrite Nat.add_0_r in Hn. subst. auto. }
  cbn [length] in Hn. pose proof (ca_typed _ _ _ _ _ _ _ _ H) as T. pose proof (ca_heights _ _ _ _ _ _ _ _ H) as Hh.
  apply sem_get. cbn zeta. set (idx := if c <? 0 then c else zlen (stack v) - 1 - c).
  destruct (_ && _) eqn:C; [apply sem_err; auto|].
  set (U := exists c', In c' (c :: cs) /\ c' < 0 /\ ~ captured v0 (- (c' + 1))).
  assert (forall k r v, capturing v0 p n k r clo A v -> (k + length cs)%nat = n ->
    sem v (capture_op (Some p) (Z.of_nat k) cs r) (fun r' v' => capturing v0 p n n r' clo A v') typed U) as IH'.
  { intros k' r' v' H' Hk'. eapply sem_weaken_u; [apply IH; auto|].
    - intros [c' [A1 A2]]. apply HA. exists c'. simpl. auto.
    - intros [c' [A1 A2]]. exists c'. simpl. auto. }
  assert (forall u r' v', points v' is_upvalue u -> capturing v0 p n k r' clo A v' ->
    sem v' (upvalue_array_set (Some p) (Z.of_nat k) (Some u);;; capture_op (Some p) (Z.of_nat k + 1) cs r')
      (fun r' v' => capturing v0 p n n r' clo A v') typed U) as Hset.
  { intros u r' v' Pu H'. apply sem_bind. eapply sem_weaken; [apply (capturing_set v0 p n k r' clo A v' u); auto; lia|].
    intros a v2 H2. replace (Z.of_nat k + 1) with (Z.of_nat (S k)) by lia. apply IH'; auto. lia. }
  assert (forall o : object, storable o -> is_upvalue o -> well_typed v o -> (forall z, refers o z -> reach v z) ->
    sem v (alloc o) (fun u v' => exists q, u = Some q /\ capturing v0 p n k r clo A v' /\ points v' is_upvalue q /\ ustack v' = ustack v) typed U) as Hal.
  { intros o So Io Wo Ro. eapply sem_weaken; [apply sem_alloc; auto|]. intros u v' [q [-> [T' N]]].
    exists q. split; auto. split; [eapply capturing_new; eauto|]. split; [|apply N].
    apply (new_points o v); auto. intros m. destruct o; simpl in Io; try contradiction; exact I. }
  assert (forall z, ~ refers (OUpvalue (UpStack idx)) z) as NR by (intros z Rz; inversion Rz).
  apply sem_bind. destruct (idx =? zlen (ustack v)) eqn:C1.
  - (* the closure captures itself *)
    pose proof (Hal (OUpvalue (UpStack idx)) I I I (fun z Rz => match NR z Rz with end)) as Ha.
    unfold sem in Ha |- *.
    destruct (alloc (OUpvalue (UpStack idx)) v) as [[u|e| |] v1] eqn:Ea; auto.
    destruct Ha as [q [-> [H1 [P1 U1]]]].
    unfold mbind at 1, push_ustack_only, mmod, mbind, mret.
    apply (Hset q true); auto.
    apply (capturing_ustack _ _ _ _ r); auto.
    + rewrite U1. intros z [E|Hz]; [injection E as <-; auto|]. rewrite <- U1 in Hz.
      apply (ty_ustack _ _ (ca_typed _ _ _ _ _ _ _ _ H1)); auto.
    + simpl. auto.
    + pose proof (ca_heights _ _ _ _ _ _ _ _ H1) as Hh1. unfold zlen in *. rewrite U1 in *. simpl length. 
      unfold idx in *. destruct (c <? 0) eqn:Cc; [lia|].
      destruct (ca_stack _ _ _ _ _ _ _ _ H1) as [s1 E1]. destruct (ca_stack _ _ _ _ _ _ _ _ H) as [s E].
      destruct r; [|lia]. exfalso. lia.
  - destruct (idx <? 0) eqn:C2.
    + (* a variable captured by the running closure *)
      assert (c < 0) as Hc by (unfold idx in *; destruct (Z.ltb_spec c 0); lia).
      assert (idx = c) as Hi by (unfold idx; destruct (Z.ltb_spec c 0); lia).
      pose proof (ca_running _ _ _ _ _ _ _ _ H) as Hr.
      assert (A) as HA' by (apply HA; exists c; simpl; auto).
      destruct (uacs v) as [|a rest] eqn:Eu.
      { apply sem_ub. exists c. split; [left; auto|]. split; auto. intros [? [? [? [? [? [? [E _]]]]]]]. congruence. }
      pose proof (ua_get_typed v a rest (- (idx + 1)) T Eu) as Hu.
      apply sem_bind. destruct (ua_get (objects v) a _) as [q|e| |].
      * eapply sem_call; [reflexivity|]. destruct Hu as [Pq [pa [id [l [len [A1 [A2 [A3 [A4 A5]]]]]]]]].
        apply sem_bind. eapply sem_weaken; [apply (Hal (OUpvalue (UpUpvalue q))); simpl; auto|].
        -- intros z Rz. assert (q = Some z) as -> by (inversion Rz; auto). destruct a as [b m]. cbn in A1. subst b.
           destruct (ca_kept _ _ _ _ _ _ _ _ H HA' pa id m rest (eq_sym Hr)) as [B1 _].
           eapply reach_step; [exact B1|exact A2|]. constructor. exists l, (Z.to_nat (- (c + 1))). 
           split; [auto|]. split; [lia|]. rewrite Hi in A3. auto.
        -- intros u v1 [z [-> [H1 [P1 _]]]]. apply sem_ret. apply Hset; auto.
      * exact T.
      * exists c. split; [left; auto|]. split; auto. intros Hcap. apply Hu. rewrite Hi.
        destruct Hcap as [pa [id [l [len [m [rs [B1 [B2 B3]]]]]]]]. exists pa, id, l, len, m, rs.
        rewrite Eu, Hr. split; auto. split; auto.
        destruct (ca_kept _ _ _ _ _ _ _ _ H HA' pa id m rs B1) as [_ [_ ->]]. auto.
      * contradiction.
    + (* a local variable *)
      assert (0 <= c) as Hc by (unfold idx in *; destruct (Z.ltb_spec c 0); lia).
      assert (0 <= idx < zlen (ustack v)) as Hi by lia.
      destruct (raw_get_in (ustack v) idx Hi) as [q [Eq Hq]].
      assert (nth_error (ustack v) (Z.to_nat (zlen (ustack v) - 1 - idx)) = Some q /\ abs_get (ustack v) idx = Ok q) as [Nq Aq].
      { unfold raw_get, abs_get in *. destruct (_ || (_ <=? _)); [discriminate|].
        destruct (nth_error (ustack v) _); [|discriminate]. injection Eq as ->. auto. }
      apply sem_bind. eapply sem_call; [unfold mlift; rewrite Aq; reflexivity|].
      apply sem_bind. destruct q as [q|].
      * apply sem_ret. pose proof (ty_ustack _ _ T q Hq) as Pq.
        destruct (object_points v _ q T Pq) as [x [Ed [Ex [K _]]]]. apply sem_bind. eapply sem_call; [exact Ed|].
        destruct x; simpl in K; try contradiction. apply sem_ret. apply Hset; auto.
      * apply sem_bind. eapply sem_weaken; [apply (Hal (OUpvalue (UpStack idx))); simpl; auto; intros z Rz; destruct (NR z Rz)|].
        intros u v1 [z [-> [H1 [P1 U1]]]]. apply sem_get.
        assert (raw_set (ustack v1) idx (Some z) = Ok (list_set (ustack v) (Z.to_nat (zlen (ustack v) - 1 - idx)) (Some z))) as Es.
        { rewrite U1. unfold raw_set, abs_set. destruct (_ || (_ <=? _)) eqn:C3; [lia|]. reflexivity. }
        apply sem_bind. eapply sem_call; [unfold mlift; rewrite Es; reflexivity|].
        apply sem_bind. eapply sem_call; [reflexivity|]. apply sem_ret.
        set (v2 := set_ustack v1 _).
        assert (capturing v0 p n k r clo A v2) as H2.
        { apply (capturing_ustack _ _ _ _ r); auto.
          - intros y Hy. apply in_list_set in Hy as [Hy|E]; [|injection E as ->; auto].
            rewrite <- U1 in Hy. apply (ty_ustack _ _ (ca_typed _ _ _ _ _ _ _ _ H1)); auto.
          - intros y Hy. rewrite U1 in Hy. apply in_set_none; auto.
          - pose proof (ca_heights _ _ _ _ _ _ _ _ H1) as Hh1. unfold zlen in *. rewrite list_set_length, <- U1. auto. }
        assert (points v2 is_upvalue z) as P2 by (apply (same_points v1); [split; reflexivity|auto]).
        destruct (object_points v2 _ z (ca_typed _ _ _ _ _ _ _ _ H2) P2) as [x [Ed [Ex [K _]]]].
        apply sem_bind. eapply sem_call; [exact Ed|]. destruct x; simpl in K; try contradiction.
        apply sem_ret. apply Hset; auto.
Qed.

Lemma sem_push_closure v base cur va t a cs : typed v -> in_step v -> current_bytecode v = Some base ->
  0 <= a -> zlen cs < 2 ^ 32 ->
  ((exists c, In c cs /\ c < 0) -> forall p id n rest, uacs v = UARef (Some (p, id)) n :: rest -> reach v p) ->
  sem v (push_closure_op base cur va t a cs) (fun _ v' => typed v') typed
    (~ (exists s, fst cur = base /\ nth_error (objects v) base = Some (OBytecode (snd cur) (Some s))) \/
     (exists c, In c cs /\ c < 0 /\ ~ captured v (- (c + 1)))).
Proof.
  intros T S Cb Ha Hz HR. unfold push_closure_op. apply sem_get.
  destruct (Nat.eqb_spec (fst cur) base) as [Ef|Nf].
  2: { apply sem_ub. left. intros [s [E _]]. contradiction. }
  apply sem_bind. unfold code_bytes. rewrite Ef.
  destruct (nth_error (objects v) base) as [ob|] eqn:Eb.
  2: { left. intros [s [_ E]]. congruence. }
  destruct ob as [| | | | | | | | | | | | | | | | |id b| |]; try (left; intros [? [_ E]]; congruence).
  destruct b as [s|]; [|left; intros [? [_ E]]; congruence].
  destruct (Nat.eqb_spec id (snd cur)) as [Ei|Ni]; [|left; intros [? [_ E]]; congruence].
  eapply sem_call; [reflexivity|]. clear Ef Ei.
  pose proof (ty_current _ _ T base Cb) as Pb.
  assert (reach v base) as Rb by (apply reach_root, root_current; auto).
  apply sem_bind. unfold sem at 1.
  destruct (alloc_typed_total _ (OUpvalueArray 0 None (zlen cs)) v T none_dec (fun _ => empty_none v))
    as [v1 [[p Ea]|[e [Ea _]]]]; rewrite Ea.
  2: { apply (alloc_typed_err _ _ v e v1 T none_dec (empty_none v)) in Ea; [apply Ea|intros ? []]. }
  destruct (alloc_typed (fun _ => False) (fun x => x = p) (OUpvalueArray 0 None (zlen cs)) v p v1 T none_dec) as [T1 N];
    [intros _; apply empty_none|intros ? ? ? []|intros ? []|intros ? []|left; reflexivity|exact Ea|].
  pose proof (no_roots _ _ _ _ N) as (R1 & R2 & R3 & R4 & R5 & R6 & R7 & R8). pose proof (no_live _ _ _ _ N) as L1.
  destruct (no_stored _ _ _ _ N) as [m Em]. simpl in Em.
  apply sem_bind. eapply sem_call; [unfold deref, mbind, mget, mret; rewrite Em; reflexivity|]. cbn beta iota.
  set (n := length cs). assert (zlen cs = Z.of_nat n) as En by reflexivity. rewrite En in *.
  set (arr := OUpvalueArray m (match (if 0 <? Z.of_nat n then Some (repeat Uninit (Z.to_nat (Z.of_nat n))) else None) with
                          | Some b => Some (repeat (Cell None) (length b)) | None => None end) (Z.of_nat n)).
  assert (exists l, arr = OUpvalueArray m l (Z.of_nat n) /\ ((0 < n)%nat -> l = Some (repeat (Cell None) n)) /\ (n = 0%nat -> l = None)) as [l [El [Hl0 Hl1]]].
  { eexists; split; [reflexivity|]. destruct (Z.ltb_spec 0 (Z.of_nat n)).
    - rewrite repeat_length, Nat2Z.id. split; [auto|]. lia.
    - split; auto. lia. }
  clearbody arr. subst arr.
  assert (well_typed v1 (OUpvalueArray m l (Z.of_nat n))) as W1.
  { simpl. split; [split; [unfold max_size; lia|]|].
    - intros Hp. rewrite Hl0 by lia. eexists; split; [reflexivity|]. intros i Hi. exists None.
      split; [apply nth_error_repeat; lia|]. intros q; discriminate.
    - intros l' ->. destruct (Nat.eq_dec n 0) as [E0|N0]; [discriminate (Hl1 E0)|].
      assert (0 < n)%nat as P0 by lia. specialize (Hl0 P0). injection Hl0 as ->.
      unfold zlen. rewrite repeat_length. auto. }
  apply sem_bind. eapply sem_call.
  { unfold write, mbind, mget, mset. destruct L1 as [L1' _].
    destruct (Nat.ltb_spec p (length (objects v1))); [reflexivity|lia]. }
  set (v2 := written v1 p (OUpvalueArray m l (Z.of_nat n))).
  assert (typed v2) as T2 by (eapply typed_written; eauto; simpl; auto).
  match goal with |- sem _ _ _ _ ?U =>
    change (sem v2 (push_stack_only (OClosure t (Some base) (Some p) a va);;;
     (r <~ capture_op (Some p) 0 cs false;; (if r then mret tt else push_ustack_only None);;; sset_raw 0 (OClosure t (Some base) (Some p) a va)))
     (fun _ v' => typed v') typed U) end.
  set (clo := OClosure t (Some base) (Some p) a va).
  assert (points v2 is_upvalues p) as Pp.
  { split; [apply written_live; auto|]. exists (OUpvalueArray m l (Z.of_nat n)). split; [|exact I]. unfold v2. rewrite written_nth, Nat.eqb_refl.
    destruct L1 as [L1' _]. destruct (Nat.ltb_spec p (length (objects v1))); [reflexivity|lia]. }
  assert (points v2 is_code base) as Pb2.
  { eapply written_points; eauto with stable; [simpl; auto|].
    apply (points_keeps (reach v) v); auto with stable. apply N. }
  assert (forall w, same_heap v2 w -> val w clo) as Vc.
  { intros w Hw. split; [exact I|]. apply (same_well_typed v2); auto. simpl. split; auto. split; eauto. }
  set (v3 := set_stack v2 (clo :: stack v2)).
  assert (typed v3) as T3.
  { apply typed_set_stack; auto. intros o [<-|Ho]; [apply Vc; split; reflexivity|apply T2; auto]. }
  apply sem_bind. eapply sem_call; [reflexivity|].
  match goal with |- sem _ _ _ _ ?U => change (sem v3 (r <~ capture_op (Some p) 0 cs false;; (if r then mret tt else push_ustack_only None);;; sset_raw 0 clo) (fun _ v' => typed v') typed U) end.
  assert (capturing v p n 0 false clo (exists c, In c cs /\ c < 0) v3) as H3.
  { constructor; auto.
    - eexists; reflexivity.
    - exists m, l. split; [|split].
      + unfold v3, v2. simpl. rewrite list_set_nth, Nat.eqb_refl. destruct L1 as [L1' _].
        destruct (Nat.ltb_spec p (length (objects v1))); [reflexivity|lia].
      + apply Pp.
      + intros Hn. exists (repeat (Cell None) n). split; auto. split; [apply repeat_length|].
        intros i Hi. apply nth_error_repeat. lia.
    - unfold v3, v2, zlen. simpl. rewrite R1, R2. unfold in_step in S. lia.
    - intros HA pa ida k rest Eu. specialize (HR HA pa ida k rest Eu).
      assert (pa <> p) as Np by (intros ->; apply (no_new _ _ _ _ N); auto).
      split; [|split; auto].
      + apply (reach_more v2 v3).
        * intros q [y z Hy Hq|z Hq|z Hq|? ? z Hq|z Hq].
          -- eapply root_stack; eauto. right; auto.
          -- apply root_ustack; auto.
          -- apply root_global; auto.
          -- eapply root_frame; eauto.
          -- apply root_current; auto.
        * intros q y z Ey Ry. eauto.
        * apply (reach_written v1 p _ _ pa Em).
          -- intros z Rz. exfalso. inversion Rz as [| | | | | | |? ? ? ? Hh| | | | | | | |]; subst.
             destruct Hh as [l' [i [E1 [E2 E3]]]]. destruct (0 <? Z.of_nat n); [|discriminate]. injection E1 as <-.
             apply nth_error_In in E3. apply repeat_spec in E3. discriminate.
          -- eapply reach_new; eauto.
      + unfold v3, v2. simpl. rewrite list_set_nth. destruct (Nat.eqb_spec pa p); [contradiction|]. simpl.
        apply (no_same _ _ _ _ N). auto. }
  apply sem_bind. eapply sem_weaken_u.
  2: { intros HU. right. exact HU. }
  eapply sem_weaken; [apply (sem_capture v p n clo _ (refers_upvalues _ _ _ _ _) I cs 0 false v3 H3); auto|].
  intros r v4 H4. cbn beta. pose proof (ca_typed _ _ _ _ _ _ _ _ H4) as T4. destruct (ca_stack _ _ _ _ _ _ _ _ H4) as [s4 Es4].
  assert (forall (U : Prop) w, same_heap v4 w -> stack w = clo :: s4 -> typed w ->
    sem w (sset_raw 0 clo) (fun _ v' => typed v') typed U) as Hlast.
  { intros U w Hw Es Tw. eapply sset_top; [exact Es|]. apply typed_set_stack; auto. rewrite <- Es. apply Tw. }
  apply sem_bind. destruct r.
  - apply sem_ret. apply Hlast; auto. split; reflexivity.
  - eapply sem_call; [reflexivity|]. apply Hlast; [split; reflexivity|exact Es4|].
    apply typed_set_ustack; auto. intros q [Hq|Hq]; [discriminate|]. apply T4; auto.
Qed.

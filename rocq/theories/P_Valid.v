(** Invariants of the heap between instructions: a closed set of objects that contains the roots
    and is disjoint from the free list. *)
From Coq Require Import ZArith List Lia Arith Bool ZifyBool ZifyNat.
Import ListNotations.
From Verif Require Import M_Base M_Heap M_Instr M_VM S_Heap S_VM P_Heap P_Sort P_VM P_Exec.
Open Scope Z_scope.

Definition good (o : object) : Prop := intact o /\ ~ half_built o.

(** [Inv v P]: [P] contains every root, is closed under following pointers, holds good objects only
    and no free one. *)
Record Inv (v : vm) (P : ptr -> Prop) : Prop := {
  inv_root : forall p, root v p -> P p;
  inv_closed : forall p o q, P p -> nth_error (objects v) p = Some o -> refers o q -> P q;
  inv_good : forall p, P p -> exists o, nth_error (objects v) p = Some o /\ good o;
  inv_stack : forall o, In o (stack v) -> good o;
  inv_free : NoDup (free v) /\ forall p, In p (free v) -> (p < length (objects v))%nat /\ ~ P p
}.

Lemma inv_reach v P : Inv v P -> forall p, reach v p -> P p.
Proof.
  intros I p H. induction H as [p H|p o q H IH Ho Hr].
  - apply (inv_root _ _ I); auto.
  - apply (inv_closed _ _ I) with p o; auto.
Qed.

Lemma inv_valid v P : Inv v P -> valid v.
Proof.
  intros I. pose proof (inv_reach v P I) as R. split; [|split].
  - split.
    + intros o Ho. apply (inv_stack _ _ I); auto.
    + intros p Hp. destruct (inv_good _ _ I p (R p Hp)) as [o [E [G _]]]. eauto.
  - split.
    + intros o Ho. apply (inv_stack _ _ I); auto.
    + intros p o Hp Ho. destruct (inv_good _ _ I p (R p Hp)) as [o' [E [_ G]]]. congruence.
  - split; [apply (inv_free _ _ I)|]. intros p Hp. apply (inv_free _ _ I) in Hp as [A B]. auto.
Qed.

Lemma valid_inv v : valid v -> Inv v (reach v).
Proof.
  intros [[H1 H2] [[H3 H4] [H5 H6]]]. constructor.
  - intros. apply reach_root; auto.
  - intros. eapply reach_step; eauto.
  - intros p Hp. destruct (H2 p Hp) as [o [E G]]. exists o. split; auto. split; eauto.
  - intros o Ho. split; auto.
  - auto.
Qed.

Lemma inv_ext v (P Q : ptr -> Prop) : (forall p, P p <-> Q p) -> Inv v P -> Inv v Q.
Proof.
  intros E I. constructor.
  - intros p H. apply E, (inv_root _ _ I); auto.
  - intros p o q Hp Ho Hr. apply E. apply (inv_closed _ _ I) with p o; auto. apply E; auto.
  - intros p Hp. apply (inv_good _ _ I). apply E; auto.
  - apply (inv_stack _ _ I).
  - destruct (inv_free _ _ I) as [A B]. split; auto. intros p Hp. apply B in Hp as [C D]. split; auto.
    rewrite <- E. auto.
Qed.

(** Changing the roots within [P]. *)
Lemma inv_roots v v' P : Inv v P -> objects v' = objects v -> free v' = free v ->
  (forall p, root v' p -> P p) -> (forall o, In o (stack v') -> good o) -> Inv v' P.
Proof.
  intros I Eo Ef Hr Hs. constructor; auto.
  - rewrite Eo. apply (inv_closed _ _ I).
  - rewrite Eo. apply (inv_good _ _ I).
  - rewrite Ef, Eo. apply (inv_free _ _ I).
Qed.

Lemma inv_set_stack v P s : Inv v P -> (forall o, In o s -> good o) ->
  (forall o q, In o s -> refers o q -> P q) -> Inv (set_stack v s) P.
Proof.
  intros I G R. apply (inv_roots v); auto. intros p Hp. destruct Hp; simpl in *; eauto.
  - apply (inv_root _ _ I), root_ustack; auto.
  - apply (inv_root _ _ I), root_global; auto.
  - apply (inv_root _ _ I), root_frame with ip c; auto.
  - apply (inv_root _ _ I), root_current; auto.
Qed.

Lemma inv_set_ustack v P u : Inv v P -> (forall q, In (Some q) u -> P q) -> Inv (set_ustack v u) P.
Proof.
  intros I R. apply (inv_roots v); auto.
  - intros p Hp. destruct Hp; simpl in *; eauto.
    + apply (inv_root _ _ I), root_stack with o; auto.
    + apply (inv_root _ _ I), root_global; auto.
    + apply (inv_root _ _ I), root_frame with ip c; auto.
    + apply (inv_root _ _ I), root_current; auto.
  - apply (inv_stack _ _ I).
Qed.

Lemma inv_set_globals v P g m : Inv v P -> (forall q, In (Some q) g -> P q) -> Inv (set_globals v g m) P.
Proof.
  intros I R. apply (inv_roots v); auto.
  - intros p Hp. destruct Hp; simpl in *; eauto.
    + apply (inv_root _ _ I), root_stack with o; auto.
    + apply (inv_root _ _ I), root_ustack; auto.
    + apply (inv_root _ _ I), root_frame with ip c; auto.
    + apply (inv_root _ _ I), root_current; auto.
  - apply (inv_stack _ _ I).
Qed.

Lemma inv_set_calls v P c u : Inv v P -> (forall i k q, In (Frame i k (Some q)) c -> P q) ->
  Inv (set_calls v c u) P.
Proof.
  intros I R. apply (inv_roots v); auto.
  - intros p Hp. destruct Hp; simpl in *; eauto.
    + apply (inv_root _ _ I), root_stack with o; auto.
    + apply (inv_root _ _ I), root_ustack; auto.
    + apply (inv_root _ _ I), root_global; auto.
    + apply (inv_root _ _ I), root_current; auto.
  - apply (inv_stack _ _ I).
Qed.

Lemma inv_user_type v P t : Inv v P -> Inv (set_user_type v t) P.
Proof.
  intros I. apply (inv_roots v); auto; [|apply (inv_stack _ _ I)].
  intros p Hp. apply (inv_root _ _ I). destruct Hp; simpl in *;
    [apply root_stack with o|apply root_ustack|apply root_global|apply root_frame with ip c|apply root_current]; auto.
Qed.

Lemma inv_current v P b : Inv v P -> (forall q, b = Some q -> P q) -> Inv (set_current v b) P.
Proof.
  intros I R. apply (inv_roots v); auto; [|apply (inv_stack _ _ I)].
  intros p Hp. destruct Hp; simpl in *; auto; apply (inv_root _ _ I);
    [apply root_stack with o|apply root_ustack|apply root_global|apply root_frame with ip c]; auto.
Qed.

(** Overwriting an object. *)
Lemma inv_write v P p o : Inv v P -> good o -> (forall q, refers o q -> P q) ->
  Inv (set_objects v (list_set (objects v) p o)) P.
Proof.
  intros I G R. constructor; simpl.
  - intros q Hq. apply (inv_root _ _ I). destruct Hq; simpl in *;
      [apply root_stack with o0|apply root_ustack|apply root_global|apply root_frame with ip c|apply root_current]; auto.
  - intros q x r Hq Hx Hr. rewrite list_set_nth in Hx.
    destruct (_ && _); [injection Hx as <-; auto|eapply (inv_closed _ _ I); eauto].
  - intros q Hq. destruct (inv_good _ _ I q Hq) as [x [E X]]. rewrite list_set_nth.
    destruct (_ && _); eauto.
  - apply (inv_stack _ _ I).
  - rewrite list_set_length. apply (inv_free _ _ I).
Qed.

(** Overwriting with a vector not yet finished needs more care: it must not be reachable for a
    collection, so nothing is said here. *)

(** * Allocation *)

Lemma stored_good n o : good o -> (forall cs len b, o <> OInternalVector cs len b) ->
  (forall i cs len, o <> OUpvalueArray i cs len) -> good (stored n o).
Proof.
  intros G V U. destruct o; try exact G.
  - exfalso. eapply U; eauto.
  - exfalso. eapply V; eauto.
  - destruct code as [[|]|]; split; simpl; auto.
  - destruct s as [[|]|]; split; simpl; auto.
Qed.

Lemma stored_refers n o q : (forall cs len b, o <> OInternalVector cs len b) ->
  (forall i cs len, o <> OUpvalueArray i cs len) -> refers (stored n o) q -> refers o q.
Proof.
  intros V U R. destruct o; try exact R.
  - exfalso. eapply U; eauto.
  - exfalso. eapply V; eauto.
  - destruct code as [[|]|]; inversion R.
  - destruct s as [[|]|]; inversion R.
Qed.

Lemma alloc_push o v r v' : alloc o v = (r, v') ->
  match r with
  | Ok p => exists q, p = Some q /\ push_object o v = (Ok q, v')
  | Err e => push_object o v = (Err e, v')
  | UB => push_object o v = (UB, v')
  | NoFuel => push_object o v = (NoFuel, v')
  end.
Proof.
  unfold alloc, mbind, mret. destruct (push_object o v) as [[q|e| |] w]; intros E; injection E as <- <-; eauto.
Qed.

(** What an allocation does to a machine between instructions. *)
Record alloc_effect (o : object) (v : vm) (q : ptr) (v' : vm) : Prop := {
  ae_new : ~ reach v q;
  ae_range : (q < length (objects v))%nat;
  ae_stored : exists n, nth_error (objects v') q = Some (stored n o);
  ae_length : length (objects v') = length (objects v);
  ae_roots : same_roots v v';
  ae_old : forall p, reach v p -> nth_error (objects v') p = nth_error (objects v) p;
  ae_reach : forall p, reach v p <-> reach v' p;
  ae_valid : valid v';
  ae_unfree : ~ In q (free v')
}.

Lemma alloc_ok o v q v' : valid v -> alloc o v = (Ok (Some q), v') -> alloc_effect o v q v'.
Proof.
  intros [H1 [H2 H3]] E. apply alloc_push in E. destruct E as [q' [Eq E]]. injection Eq as <-.
  destruct (push_object_ok o v q v' H1 H2 H3 E)
    as [A [B [C [D [L [R1 [R2 [R3 [R4 [R5 [R6 [R7 [R8 [K [RR V]]]]]]]]]]]]]]].
  constructor; auto. unfold same_roots. tauto.
Qed.

Lemma alloc_total o v : valid v ->
  (exists q v', alloc o v = (Ok (Some q), v')) \/
  (exists v', alloc o v = (Err outOfMemory, v') /\ free v = [] /\
     (forall p, (p < length (objects v))%nat -> reach v p) /\
     same_roots v v' /\ objects v' = objects v).
Proof.
  intros [H1 [H2 H3]]. unfold alloc, mbind, mret.
  destruct (push_object_total o v H1 H2 H3) as [[p [v' E]]|[v' [E K]]]; rewrite E; eauto.

Qed.

Lemma same_roots_root v v' p : same_roots v v' -> root v p <-> root v' p.
Proof.
  intros (A & B & C & D & E & F & G & _). split; intros H; destruct H;
    [apply root_stack with o|apply root_ustack|apply root_global|apply root_frame with ip c|apply root_current
    |apply root_stack with o|apply root_ustack|apply root_global|apply root_frame with ip c|apply root_current]; congruence.
Qed.

(** After an allocation the new object may be added to the closed set. *)
Lemma alloc_inv o v q v' : alloc_effect o v q v' -> (forall n, good (stored n o)) ->
  (forall n r, refers (stored n o) r -> reach v r \/ r = q) ->
  Inv v' (fun p => reach v p \/ p = q).
Proof.
  intros A G R. pose proof (valid_inv v' (ae_valid _ _ _ _ A)) as I.
  destruct (ae_stored _ _ _ _ A) as [n S].
  constructor.
  - intros p Hp. left. apply (ae_reach _ _ _ _ A). apply reach_root; auto.
  - intros p x r [Hp| ->] Hx Hr.
    + left. apply (ae_reach _ _ _ _ A). apply reach_step with p x; auto. apply (ae_reach _ _ _ _ A); auto.
    + rewrite S in Hx. injection Hx as <-. eauto.
  - intros p [Hp| ->].
    + apply (inv_good _ _ I). apply (ae_reach _ _ _ _ A); auto.
    + eauto.
  - apply (inv_stack _ _ I).
  - destruct (inv_free _ _ I) as [N F]. split; auto. intros p Hp. split; [apply F; auto|].
    intros [H|H].
    + apply (F p Hp). apply (ae_reach _ _ _ _ A); auto.
    + subst p. apply (ae_unfree _ _ _ _ A); auto.
Qed.

Lemma alloc_err o v e v' : valid v -> alloc o v = (Err e, v') ->
  valid v' /\ same_roots v v' /\ objects v' = objects v /\ e = outOfMemory.
Proof.
  intros V E. destruct (alloc_total o v V) as [[q [w E']]|[w [E' [_ [_ [R O]]]]]]; [congruence|].
  rewrite E' in E. injection E as <- <-. split; [|auto].
  apply alloc_push in E'. simpl in E'.
  unfold push_object in E'. destruct V as [V1 [V2 V3]].
  destruct (free v) as [|p fr] eqn:Ef; [|rewrite Ef in E'; discriminate].
  destruct (garbage_collect v) as [v1| | |] eqn:Eg; try discriminate.
  - destruct (free v1) eqn:Ef1; [|discriminate]. injection E' as <-.
    destruct (gc_free_ok v v1 V1 V2 Eg) as [_ [A [B [C _]]]]. unfold valid. auto.
  - injection E' as _ <-. unfold valid. auto.
Qed.

Lemma alloc_not_bad o v v' : valid v -> alloc o v <> (UB, v') /\ alloc o v <> (NoFuel, v').
Proof.
  intros V. destruct (alloc_total o v V) as [[q [w E]]|[w [E _]]]; rewrite E; split; discriminate.
Qed.

Lemma alloc_some o v p v' : alloc o v = (Ok p, v') -> exists q, p = Some q.
Proof. intros E. apply alloc_push in E. destruct E as [q [-> _]]. eauto. Qed.

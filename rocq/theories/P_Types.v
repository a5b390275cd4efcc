From Coq Require Import ZArith List Lia Arith Bool ZifyBool ZifyNat.
Import ListNotations.
From Verif Require Import M_Base M_Heap M_Instr M_VM S_Heap S_VM S_Num S_Types P_Heap P_Sort P_VM P_Exec P_Valid.
Open Scope Z_scope.

(** * Changes that keep kinds *)

(** [y] may replace [x]. *)
Definition like (x y : object) : Prop :=
  match x, y with
  | OCons _ _, OCons _ _ | OUpvalue _, OUpvalue _ | OUpvalueArray _ _ _, OUpvalueArray _ _ _
  | OInternalVector _ _ _, OInternalVector _ _ _ | OInternalComposite _ _ _, OInternalComposite _ _ _ => True
  | OBytecode _ _, OBytecode _ _ => x = y
  | OInternalString a, OInternalString b => text_length a <= text_length b
  | _, _ => first_class x /\ first_class y
  end.

Lemma like_refl x : like x x.
Proof. destruct x; simpl; auto; lia. Qed.

Definition stable (K : object -> Prop) : Prop := forall x y, K x -> like x y -> K y.

Lemma stable_cons : stable is_cons.
Proof. intros x y. destruct x, y; simpl; tauto. Qed.
Lemma stable_value : stable first_class.
Proof. intros x y. destruct x, y; simpl; tauto. Qed.
Lemma stable_link : stable is_link.
Proof. intros x y [H|H] L; [left; eapply stable_value; eauto|right; eapply stable_cons; eauto]. Qed.
Lemma stable_upvalue : stable is_upvalue.
Proof. intros x y. destruct x, y; simpl; tauto. Qed.
Lemma stable_upvalues : stable is_upvalues.
Proof. intros x y. destruct x, y; simpl; tauto. Qed.
Lemma stable_elements : stable is_elements.
Proof. intros x y. destruct x, y; simpl; tauto. Qed.
Lemma stable_instance : stable is_instance.
Proof. intros x y. destruct x, y; simpl; tauto. Qed.
Lemma stable_code : stable is_code.
Proof. intros x y. destruct x, y; simpl; try tauto. intros H E. injection E as <- <-. auto. Qed.
Lemma stable_text n : stable (is_text n).
Proof. intros x y. destruct x, y; simpl; try tauto. lia. Qed.
Lemma stable_anything : stable anything.
Proof. intros x y. unfold anything. auto. Qed.
#[export] Hint Resolve stable_cons stable_value stable_link stable_upvalue stable_upvalues
  stable_elements stable_instance stable_code stable_text stable_anything : stable.

(** The pointers in [S] keep their kind from [v] to [v']. *)
Definition keeps (S : ptr -> Prop) (v v' : vm) : Prop := forall p, S p -> live v p ->
  live v' p /\ forall x, nth_error (objects v) p = Some x ->
  exists y, nth_error (objects v') p = Some y /\ like x y.

Lemma points_keeps (S : ptr -> Prop) v v' K p : keeps S v v' -> stable K -> S p -> points v K p -> points v' K p.
Proof.
  intros H HK Hs [L [x [E Kx]]]. destruct (H p Hs L) as [L' A]. destruct (A x E) as [y [E' Ly]].
  split; auto. eauto.
Qed.

Lemma well_typed_keeps (S : ptr -> Prop) v v' o : keeps S v v' -> (forall p, refers o p -> S p) ->
  well_typed v o -> well_typed v' o.
Proof.
  intros H HS W. pose proof (fun K p => points_keeps S v v' K p H) as PK.
  destruct o; simpl in *; auto.
  - destruct s as [p|]; auto. destruct W as [A [B C]]. split; [lia|]. split; [lia|]. apply PK; auto with stable.
    apply HS. constructor.
  - intros q ->. apply PK; auto with stable. apply HS. constructor.
  - destruct W as [A W]. split; auto. intros q ->. apply PK; auto with stable. apply HS. constructor.
  - destruct W as [A [[p [-> B]] [q [-> C]]]]. split; auto. split; eexists; split; eauto.
    + apply PK; auto with stable. apply HS. constructor.
    + apply PK; auto with stable. apply HS. constructor.
  - destruct W as [A W]. split; auto. intros q ->. apply PK; auto with stable. apply HS. constructor.
  - destruct W as [p [-> B]]. eexists; split; eauto. apply PK; auto with stable. apply HS. constructor.
  - intros p Hp. apply PK; auto with stable. apply HS. constructor; auto.
  - destruct W as [A B]. split; intros q ->; apply PK; auto with stable; apply HS; constructor.
  - destruct u; auto.
    + destruct W as [q [-> B]]. eexists; split; eauto. apply PK; auto with stable. apply HS. constructor.
    + intros q ->. apply PK; auto with stable. apply HS. constructor.
  - destruct W as [[A W] Z]. split; auto. split; auto. intros L. destruct (W L) as [l [-> B]]. exists l. split; auto.
    intros i Hi. destruct (B i Hi) as [p [E P]]. exists p. split; auto. intros q ->.
    apply PK; auto with stable. apply HS. constructor. exists l, i. auto.
  - destruct W as [I [A W]]. split; auto. split; auto. intros L. destruct (W L) as [l [-> B]]. exists l. split; auto.
    intros i Hi. destruct (B i Hi) as [p [E [q [-> P]]]]. eexists. split; eauto. eexists; split; eauto.
    apply PK; auto with stable. apply HS. constructor. exists l, i. auto.
  - destruct W as [A B]. split; intros q ->; apply PK; auto with stable; apply HS; constructor.
Qed.

Lemma well_typed_all v v' o : keeps (fun _ => True) v v' -> well_typed v o -> well_typed v' o.
Proof. intros H. apply (well_typed_keeps (fun _ => True)); auto. Qed.

(** What a well-typed object refers to is in use. *)
Lemma well_typed_live v o q : well_typed v o -> refers o q -> live v q.
Proof.
  intros W R. destruct R; simpl in W.
  - apply W; auto.
  - apply (proj1 W); auto.
  - apply (proj2 W); auto.
  - destruct W as [_ [[z [E [L _]]] _]]. congruence.
  - destruct W as [_ [_ [z [E [L _]]]]]. congruence.
  - destruct W as [z [E [L _]]]. congruence.
  - apply W; auto.
  - destruct H as [l [j [-> [Hj E]]]]. destruct W as [[_ W] _]. destruct W as [l' [E' W]]; [lia|].
    injection E' as <-. destruct (W j Hj) as [r [E' P]]. rewrite E in E'. injection E' as <-. apply P; auto.
  - apply (proj2 W); auto.
  - destruct H as [l [j [-> [Hj E]]]]. destruct W as [_ [_ W]]. destruct W as [l' [E' W]]; [lia|].
    injection E' as <-. destruct (W j Hj) as [r [E' [r' [-> P]]]]. rewrite E in E'. injection E' as <-. apply P.
  - destruct W as [_ [_ [L _]]]. auto.
  - apply (proj2 W); auto.
  - destruct W as [z [E [L _]]]. congruence.
  - apply (proj1 W); auto.
  - apply (proj2 W); auto.
  - apply W; auto.
Qed.

Lemma buffer_readable P cs len : buffer P cs len -> readable cs len.
Proof.
  intros [_ B] H. destruct (B H) as [l [-> C]]. exists l. split; auto. intros i Hi.
  destruct (C i Hi) as [p [E _]]. eauto.
Qed.

Lemma well_typed_good v o : well_typed v o -> good o.
Proof.
  intros W. destruct o; split; simpl in *; auto.
  - eapply buffer_readable; apply W.
  - destruct W as [-> W]. eapply buffer_readable; eauto.
  - destruct W as [-> _]. auto.
Qed.

(** Objects being built that hold no pointer yet. *)
Definition empty_ones (X : ptr -> Prop) (v : vm) : Prop :=
  forall p o, X p -> nth_error (objects v) p = Some o -> good o /\ forall q, ~ refers o q.

Lemma typed_inv X v : typed_but X v -> empty_ones X v -> (forall p, {X p} + {~ X p}) -> Inv v (live v).
Proof.
  intros T E D. constructor.
  - intros p R. destruct R.
    + apply (ty_stack _ _ T) in H as [_ H]. eapply well_typed_live; eauto.
    + apply (ty_ustack _ _ T) in H. apply H.
    + apply (ty_globals _ _ T) in H. apply H.
    + apply (ty_frames _ _ T) in H. apply H.
    + apply (ty_current _ _ T) in H. apply H.
  - intros p o q L N R. destruct (D p).
    + destruct (E p o x N) as [_ F]. destruct (F q R).
    + eapply well_typed_live; eauto. eapply (ty_objects _ _ T); eauto.
  - intros p L. destruct (nth_error (objects v) p) as [o|] eqn:N.
    + exists o. split; auto. destruct (D p); [eapply E; eauto|].
      eapply well_typed_good, (ty_objects _ _ T); eauto.
    + apply nth_error_None in N. destruct L. lia.
  - intros o H. eapply well_typed_good, (ty_stack _ _ T); eauto.
  - destruct (ty_free _ _ T) as [N F]. split; auto. intros p Hp. split; auto. intros [_ A]. auto.
Qed.

Lemma typed_valid X v : typed_but X v -> empty_ones X v -> (forall p, {X p} + {~ X p}) -> valid v.
Proof. intros T E D. eapply inv_valid, typed_inv; eauto. Qed.

Lemma none_dec : forall p : nat, {False} + {~ False}.
Proof. auto. Qed.
Lemma one_dec (q : nat) : forall p, {p = q} + {p <> q}.
Proof. intros p. apply Nat.eq_dec. Qed.

Lemma typed_is_valid v : typed v -> valid v.
Proof. intros T. eapply (typed_valid _ v T); [intros p o []|exact none_dec]. Qed.

(** * Changes of the roots *)

(** States that differ in their roots only. *)
Definition same_heap (v v' : vm) : Prop := objects v' = objects v /\ free v' = free v.

Lemma same_live v v' p : same_heap v v' -> live v' p <-> live v p.
Proof. intros [A B]. unfold live. rewrite A, B. tauto. Qed.
Lemma same_points v v' K p : same_heap v v' -> points v' K p <-> points v K p.
Proof. intros H. unfold points. rewrite (same_live v v' p H). destruct H as [-> _]. tauto. Qed.
Lemma same_keeps v v' : same_heap v v' -> keeps (fun _ => True) v v'.
Proof.
  intros H p _ L. split; [apply (same_live v v' p H); auto|]. intros x. destruct H as [-> _]. eauto using like_refl.
Qed.
Lemma same_well_typed v v' o : same_heap v v' -> well_typed v o -> well_typed v' o.
Proof. intros H. apply well_typed_all, same_keeps; auto. Qed.

Lemma typed_roots X v v' : typed_but X v -> same_heap v v' ->
  (forall o, In o (stack v') -> first_class o /\ well_typed v o) ->
  (forall p, In (Some p) (ustack v') -> points v is_upvalue p) ->
  (forall p, In (Some p) (globals v') -> points v first_class p) ->
  (forall i c p, In (Frame i c (Some p)) (call_stack v') -> points v is_code p) ->
  (forall p, current_bytecode v' = Some p -> points v is_code p) -> typed_but X v'.
Proof.
  intros T H A B C D E. pose proof H as [Ho Hf]. constructor.
  - intros p o L N. rewrite Ho. intros I. apply (same_live v v' p H) in L.
    eapply same_well_typed, (ty_objects _ _ T); eauto.
  - intros o I. apply A in I as [F W]. split; auto. eapply same_well_typed; eauto.
  - intros p I. apply (same_points v v' _ _ H). auto.
  - intros p I. apply (same_points v v' _ _ H). auto.
  - intros i c p I. apply (same_points v v' _ _ H). eauto.
  - intros p I. apply (same_points v v' _ _ H). auto.
  - rewrite Ho. apply (ty_size _ _ T).
  - rewrite Hf, Ho. apply (ty_free _ _ T).
  - rewrite Hf, Ho. apply (ty_released _ _ T).
Qed.

Lemma typed_set_stack X v s : typed_but X v ->
  (forall o, In o s -> first_class o /\ well_typed v o) -> typed_but X (set_stack v s).
Proof.
  intros T H. apply (typed_roots X v); try exact T; try apply T; auto. split; reflexivity.
Qed.
Lemma typed_set_ustack X v u : typed_but X v ->
  (forall p, In (Some p) u -> points v is_upvalue p) -> typed_but X (set_ustack v u).
Proof.
  intros T H. apply (typed_roots X v); try exact T; try apply T; auto. split; reflexivity.
Qed.
Lemma typed_set_globals X v g m : typed_but X v ->
  (forall p, In (Some p) g -> points v first_class p) -> typed_but X (set_globals v g m).
Proof.
  intros T H. apply (typed_roots X v); try exact T; try apply T; auto. split; reflexivity.
Qed.
Lemma typed_set_calls X v c u : typed_but X v ->
  (forall i k p, In (Frame i k (Some p)) c -> points v is_code p) -> typed_but X (set_calls v c u).
Proof.
  intros T H. apply (typed_roots X v); try exact T; try apply T; auto. split; reflexivity.
Qed.
Lemma typed_user_type X v t : typed_but X v -> typed_but X (set_user_type v t).
Proof.
  intros T. apply (typed_roots X v); try exact T; try apply T; auto. split; reflexivity.
Qed.

Lemma typed_pushed X v o : typed_but X v -> first_class o -> well_typed v o -> typed_but X (pushed o v).
Proof.
  intros T F W. unfold pushed. apply typed_set_ustack.
  - apply typed_set_stack; auto. intros x [<-|H]; auto. apply T; auto.
  - intros p [H|H]; [discriminate|]. apply (same_points v); [split; reflexivity|]. apply T; auto.
Qed.

(** * Writing an object *)

Definition written (v : vm) (p : ptr) (o : object) : vm := set_objects v (list_set (objects v) p o).

Lemma written_live v p o q : live (written v p o) q <-> live v q.
Proof. unfold live. simpl. rewrite list_set_length. tauto. Qed.

Lemma written_nth v p o q : nth_error (objects (written v p o)) q =
  if (q =? p)%nat && (p <? length (objects v))%nat then Some o else nth_error (objects v) q.
Proof. simpl. apply list_set_nth. Qed.

Lemma written_keeps v p o x : nth_error (objects v) p = Some x -> like x o ->
  keeps (fun _ => True) v (written v p o).
Proof.
  intros E L q _ Hq. split; [apply written_live; auto|]. intros y Ey. rewrite written_nth.
  destruct (Nat.eqb_spec q p); simpl; [|eauto using like_refl].
  subst q. destruct (_ <? _)%nat eqn:En; [|eauto using like_refl]. rewrite E in Ey. injection Ey as <-. eauto.
Qed.

Lemma written_well_typed v p o x y : nth_error (objects v) p = Some x -> like x o ->
  well_typed v y -> well_typed (written v p o) y.
Proof. intros E L. eapply well_typed_all, written_keeps; eauto. Qed.
Lemma written_points v p o x K q : nth_error (objects v) p = Some x -> like x o -> stable K ->
  points v K q -> points (written v p o) K q.
Proof. intros E L HK. eapply points_keeps with (S := fun _ => True); eauto using written_keeps. Qed.

Lemma typed_written (X Y : ptr -> Prop) v p o x : typed_but X v -> nth_error (objects v) p = Some x ->
  live v p -> like x o -> (Y p \/ well_typed v o) -> (forall q, X q -> Y q \/ q = p) ->
  typed_but Y (written v p o).
Proof.
  intros T E Lp L W XY.
  pose proof (fun K q => written_points v p o x K q E L) as PK.
  constructor.
  - intros q y Lq NY Ey. apply written_live in Lq. rewrite written_nth in Ey.
    destruct (Nat.eqb_spec q p) as [->|N]; simpl in Ey.
    + destruct (_ <? _)%nat eqn:En.
      * injection Ey as <-. destruct W as [W|W]; [contradiction|]. eapply written_well_typed; eauto.
      * exfalso. assert (nth_error (objects v) p <> None) as H by congruence. apply nth_error_Some in H. lia.
    + eapply written_well_typed; eauto. eapply (ty_objects _ _ T); eauto. intros Xq.
      destruct (XY q Xq); auto.
  - intros y Hy. apply (ty_stack _ _ T) in Hy as [F Wy]. split; auto. eapply written_well_typed; eauto.
  - intros q Hq. apply PK; auto with stable. apply (ty_ustack _ _ T); auto.
  - intros q Hq. apply PK; auto with stable. apply (ty_globals _ _ T); auto.
  - intros i c q Hq. apply PK; auto with stable. eapply (ty_frames _ _ T); eauto.
  - intros q Hq. apply PK; auto with stable. apply (ty_current _ _ T); auto.
  - simpl. unfold zlen. rewrite list_set_length. apply (ty_size _ _ T).
  - simpl. rewrite list_set_length. apply (ty_free _ _ T).
  - simpl. intros q y Hq Ey. rewrite list_set_nth in Ey. destruct (Nat.eqb_spec q p) as [->|N]; simpl in Ey.
    + destruct Lp as [_ Lp]. contradiction.
    + eapply (ty_released _ _ T); eauto.
Qed.

(** * Allocation *)


Lemma gc_live v v' : heap_sound v -> no_half_built v -> garbage_collect v = Ok v' ->
  same_roots v v' /\ length (objects v') = length (objects v) /\ NoDup (free v') /\
  (forall p, In p (free v') -> (p < length (objects v))%nat) /\
  (forall p, live v' p <-> reach v p) /\
  (forall p, reach v p -> nth_error (objects v') p = nth_error (objects v) p) /\
  (forall p o, In p (free v') -> nth_error (objects v') p = Some o -> released o).
Proof.
  intros H Hh E. destruct (gc_keeps_live v H Hh) as [v1 [E1 [R A]]].
  assert (v1 = v') as -> by congruence. clear E1.
  destruct (gc_spec v H) as [v1 [used [E1 [_ [L [S1 [S2 [L' [B [N [F _]]]]]]]]]]].
  assert (v1 = v') as -> by congruence. clear E1.
  split; auto. split; auto. split; auto.
  assert (forall p, In p (free v') -> (p < length (objects v))%nat) as Hlt.
  { intros p Hp. apply F in Hp. rewrite <- L. apply nth_error_Some. congruence. }
  split; auto. split; [|split].
  - intros p. split.
    + intros [Hp Hf]. apply S2. unfold marked. destruct (nth_error used p) as [[|]|] eqn:Eu; auto.
      * destruct Hf. apply F. auto.
      * apply nth_error_None in Eu. lia.
    + intros Hr. destruct (A p Hr) as [Ea Ef]. split; auto. rewrite L'.
      destruct H as [_ H]. destruct (H p Hr) as [o [Ho _]]. apply nth_error_Some. congruence.
  - intros p Hp. apply A; auto.
  - intros p o Hp Ho. pose proof (Hlt p Hp) as Hl. apply F in Hp.
    destruct (nth_error (objects v) p) as [x|] eqn:Ex; [|apply nth_error_None in Ex; lia].
    rewrite (B p x Ex) in Ho. rewrite (nth_error_nth _ _ _ Hp) in Ho. injection Ho as <-.
    destruct x; simpl; auto.
    + destruct destructor; simpl; auto.
    + destruct upvalues; simpl; auto.
    + destruct values, initialized; simpl; auto.
    + destruct code; simpl; auto.
    + destruct s; simpl; auto.
Qed.

(** Every allocation, with or without a collection: the objects in use afterwards are those of a
    set [S] between the reachable ones and those in use before, and the new one. *)
Lemma alloc_live o v q v' : (free v = [] -> valid v) ->
  (NoDup (free v) /\ forall p, In p (free v) -> (p < length (objects v))%nat) ->
  alloc o v = (Ok (Some q), v') ->
  (forall p, In p (free v) -> forall x, nth_error (objects v) p = Some x -> released x) ->
  exists (S : ptr -> Prop) n, (S = live v \/ S = reach v) /\
    ~ S q /\ (q < length (objects v))%nat /\
    (forall p, live v' p <-> S p \/ p = q) /\
    (forall p, p <> q -> S p -> nth_error (objects v') p = nth_error (objects v) p) /\
    nth_error (objects v') q = Some (stored n o) /\
    length (objects v') = length (objects v) /\ same_roots v v' /\
    NoDup (free v') /\ (forall p, In p (free v') -> (p < length (objects v))%nat) /\
    (forall p x, In p (free v') -> nth_error (objects v') p = Some x -> released x) /\
    (free v <> [] -> S = live v /\ free v = q :: free v').
Proof.
  intros V [N0 F0] E FR. apply alloc_push in E. destruct E as [q' [Eq E]]. injection Eq as <-.
  unfold push_object in E. destruct (free v) as [|p0 fr0] eqn:Ef.
  - destruct V as [V1 [V2 V3]]; auto. destruct (garbage_collect v) as [v1| | |] eqn:Eg; try discriminate.
    destruct (gc_live v v1 V1 V2 Eg) as [R [L [N [Hl [G [K Rel]]]]]].
    destruct (free v1) as [|p1 fr1] eqn:Ef1; [discriminate|]. injection E as <- <-.
    inversion N as [|? ? N1 N2]; subst.
    assert (~ reach v p1) as Hq.
    { intros Hr. apply G in Hr as [_ Hr]. apply Hr. rewrite Ef1. left; auto. }
    exists (reach v), (next_buffer v1). split; [auto|]. split; auto.
    split; [apply Hl; left; auto|]. simpl.
    assert (p1 < length (objects v1))%nat as Hp1 by (rewrite L; apply Hl; left; auto).
    split; [|split; [|split; [|split; [|split; [|split; [|split; [|split]]]]]]]; auto.
    + intros p. unfold live. simpl. rewrite list_set_length. rewrite <- G. unfold live. rewrite Ef1. simpl. split.
      * intros [A B]. destruct (Nat.eq_dec p p1); auto. left. split; auto. intros [C|C]; auto.
      * intros [[A B]| ->]; split; auto.
    + intros p Np Hp. rewrite list_set_nth. destruct (Nat.eqb_spec p p1); [contradiction|]. simpl. apply K; auto.
    + rewrite list_set_nth, Nat.eqb_refl. destruct (Nat.ltb_spec p1 (length (objects v1))); [reflexivity|lia].
    + rewrite list_set_length. auto.
    + intros p Hp. apply Hl. right; auto.
    + intros p x Hp Hx. rewrite list_set_nth in Hx. destruct (Nat.eqb_spec p p1); [subst; contradiction|].
      simpl in Hx. eapply Rel; eauto. right; auto.
    + congruence.
  - rewrite Ef in E. injection E as <- <-. inversion N0 as [|? ? N1 N2]; subst.
    exists (live v), (next_buffer v). split; auto. simpl.
    pose proof (F0 p0 (or_introl eq_refl)) as Hp0.
    split; [intros [_ A]; apply A; rewrite Ef; left; auto|]. split; auto.
    split; [|split; [|split; [|split; [|split; [|split; [|split; [|split]]]]]]]; auto.
    + intros p. unfold live. simpl. rewrite list_set_length, Ef. simpl. split.
      * intros [A B]. destruct (Nat.eq_dec p p0); auto. left. split; auto. intros [C|C]; auto.
      * intros [[A B]| ->]; split; auto.
    + intros p Np Hp. rewrite list_set_nth. destruct (Nat.eqb_spec p p0); [contradiction|]. reflexivity.
    + rewrite list_set_nth, Nat.eqb_refl. destruct (Nat.ltb_spec p0 (length (objects v))); [reflexivity|lia].
    + rewrite list_set_length. auto.
    + unfold same_roots. simpl. tauto.
    + intros p Hp. apply F0. right; auto.
    + intros p x Hp Hx. rewrite list_set_nth in Hx. destruct (Nat.eqb_spec p p0); [subst; contradiction|].
      simpl in Hx. eapply FR; eauto. right; auto.
Qed.

(** A new object in a well-typed machine. *)
Record new_object (o : object) (v : vm) (q : ptr) (v' : vm) : Prop := {
  no_live : live v' q;
  no_new : ~ reach v q;
  no_stored : exists n, nth_error (objects v') q = Some (stored n o);
  no_roots : same_roots v v';
  no_length : length (objects v') = length (objects v);
  no_same : forall p, reach v p -> nth_error (objects v') p = nth_error (objects v) p;
  no_kept : keeps (reach v) v v';
  no_room : free v <> [] -> free v = q :: free v' /\ keeps (live v) v v' /\
    forall p, live v p -> nth_error (objects v') p = nth_error (objects v) p
}.

Definition storable (o : object) : Prop :=
  match o with OUpvalueArray _ _ _ | OInternalVector _ _ _ => False | _ => True end.

Lemma stored_well_typed v n o : storable o -> well_typed v o -> well_typed v (stored n o).
Proof.
  intros S W. destruct o; simpl in *; try contradiction; auto.
  - destruct code as [[|]|]; simpl; auto. discriminate.
  - destruct s as [[|]|]; simpl in *; auto. unfold max_size; split; [lia|discriminate].
Qed.

Lemma live_reach X v : typed_but X v -> (forall p o q, live v p -> nth_error (objects v) p = Some o -> X p -> refers o q -> live v q) ->
  (forall p, {X p} + {~ X p}) -> forall p, reach v p -> live v p.
Proof.
  intros T H D p R. induction R as [p R|p o q R IH N F].
  - destruct R.
    + apply (ty_stack _ _ T) in H0 as [_ W]. eapply well_typed_live; eauto.
    + apply (ty_ustack _ _ T) in H0. apply H0.
    + apply (ty_globals _ _ T) in H0. apply H0.
    + apply (ty_frames _ _ T) in H0. apply H0.
    + apply (ty_current _ _ T) in H0. apply H0.
  - destruct (D p).
    + eapply H; eauto.
    + eapply well_typed_live; eauto. eapply (ty_objects _ _ T); eauto.
Qed.

(** Objects under construction hold pointers to objects in use only. *)
Definition inside (X : ptr -> Prop) (v : vm) : Prop :=
  forall p o q, X p -> nth_error (objects v) p = Some o -> refers o q -> live v q.

Lemma empty_inside X v : empty_ones X v -> inside X v.
Proof. intros H p o q Hp E R. destruct (H p o Hp E) as [_ F]. destruct (F q R). Qed.

Lemma alloc_typed (X Y : ptr -> Prop) o v q v' : typed_but X v -> (forall p, {X p} + {~ X p}) ->
  (free v = [] -> empty_ones X v) -> inside X v -> (forall p, X p -> reach v p) ->
  (forall p, X p -> Y p) ->
  (Y q \/ storable o /\ well_typed v o /\ forall p, refers o p -> reach v p) ->
  alloc o v = (Ok (Some q), v') -> typed_but Y v' /\ new_object o v q v'.
Proof.
  intros T D HE HI XR XY HO E.
  assert (forall p, reach v p -> live v p) as RL.
  { apply (live_reach X v T); auto. intros p o' r _ N Xp R. eapply HI; eauto. }
  assert (free v = [] -> valid v) as HV by (intros F; apply (typed_valid X); auto).
  destruct (alloc_live o v q v' HV (ty_free _ _ T) E (fun p H x => ty_released _ _ T p x H))
    as [S [n [HS [Sq [Hq [G [K [Eq [L [R [N [Fl [Rel Room]]]]]]]]]]]]].
  assert (forall p, S p -> live v p) as SL by (destruct HS as [-> | ->]; auto).
  assert (forall p, reach v p -> S p) as RS by (destruct HS as [-> | ->]; auto).
  assert (forall p, S p -> nth_error (objects v') p = nth_error (objects v) p) as KS.
  { intros p Hp. apply K; auto. intros ->. contradiction. }
  assert (keeps S v v') as KK.
  { intros p Hp Lp. split; [apply G; auto|]. intros x Hx. rewrite KS by auto. eauto using like_refl. }
  assert (forall p o r, S p -> nth_error (objects v) p = Some o -> refers o r -> S r) as SC.
  { intros p x r Hp Hx Hr. destruct HS as [-> | ->].
    - destruct (D p); [eapply HI; eauto|]. eapply well_typed_live; eauto. eapply (ty_objects _ _ T); eauto.
    - eapply reach_step; eauto. }
  assert (keeps (reach v) v v') as KR by (intros p Hp; apply KK; auto).
  assert (forall p, root v p -> S p) as RootS by (intros p Hp; apply RS, reach_root; auto).
  pose proof R as (R1 & R2 & R3 & R4 & R5 & R6 & R7 & R8).
  pose proof (fun K p => points_keeps S v v' K p KK) as PK.
  split.
  - constructor.
    + intros p x Lp Yp Hx. apply G in Lp as [Sp| ->].
      * rewrite KS in Hx by auto. apply (well_typed_keeps S v v' x KK).
        -- intros r Hr. eapply SC; eauto.
        -- eapply (ty_objects _ _ T); eauto.
      * rewrite Eq in Hx. injection Hx as <-. destruct HO as [HO|[HO1 [HO2 HO3]]]; [contradiction|].
        apply stored_well_typed; auto. apply (well_typed_keeps S v v' o KK); auto.
    + rewrite R1. intros x Hx. pose proof (ty_stack _ _ T x Hx) as [F W]. split; auto.
      apply (well_typed_keeps S v v' x KK); auto. intros r Hr. apply RootS. eapply root_stack; eauto.
    + rewrite R2. intros p Hp. apply PK; auto with stable; [apply RootS, root_ustack; auto|apply T; auto].
    + rewrite R3. intros p Hp. apply PK; auto with stable; [apply RootS, root_global; auto|apply T; auto].
    + rewrite R5. intros i c p Hp. apply PK; auto with stable; [eapply RootS, root_frame; eauto|eapply T; eauto].
    + rewrite R7. intros p Hp. apply PK; auto with stable; [apply RootS, root_current; auto|apply T; auto].
    + unfold zlen. rewrite L. apply T.
    + rewrite L. auto.
    + auto.
  - constructor; auto.
    + apply G. auto.
    + eauto.
    + intros F. destruct (Room F) as [-> Ef]. auto.
Qed.

Lemma alloc_typed_err X o v e v' : typed_but X v -> (forall p, {X p} + {~ X p}) -> empty_ones X v ->
  (forall p, X p -> reach v p) -> alloc o v = (Err e, v') ->
  typed_but X v' /\ same_roots v v' /\ e = outOfMemory.
Proof.
  intros T D HE XR E. assert (valid v) as V by (apply (typed_valid X); auto). pose proof V as [V1 [V2 V3]].
  destruct (alloc_err o v e v' V E) as [V' [R [O ->]]]. split; auto.
  apply alloc_push in E. simpl in E. unfold push_object in E.
  destruct (free v) eqn:Ef; [|rewrite Ef in E; discriminate].
  destruct (garbage_collect v) as [v1| | |] eqn:Eg; try discriminate.
  - destruct (free v1) eqn:Ef1; [|discriminate]. injection E as <-.
    destruct (gc_live v v1 V1 V2 Eg) as [_ [L [N [Hl [G [K Rel]]]]]].
    assert (forall p, live v p -> live v1 p) as LL.
    { intros p [A B]. split; [lia|]. rewrite Ef1. auto. }
    assert (keeps (fun _ => True) v v1) as KK.
    { intros p _ Lp. split; auto. intros x Hx. rewrite O. eauto using like_refl. }
    pose proof (fun K p => points_keeps (fun _ => True) v v1 K p KK) as PK.
    destruct R as (R1 & R2 & R3 & R4 & R5 & R6 & R7 & R8).
    constructor.
    + intros p x Lp Xp Hx. rewrite O in Hx. apply (well_typed_all v); auto.
      eapply (ty_objects _ _ T); eauto. destruct Lp as [A B]. split; [lia|]. rewrite Ef. auto.
    + rewrite R1. intros x Hx. pose proof (ty_stack _ _ T x Hx) as [F W]. split; auto. apply (well_typed_all v); auto.
    + rewrite R2. intros p Hp. apply PK; auto with stable. apply T; auto.
    + rewrite R3. intros p Hp. apply PK; auto with stable. apply T; auto.
    + rewrite R5. intros i c p Hp. apply PK; auto with stable. eapply T; eauto.
    + rewrite R7. intros p Hp. apply PK; auto with stable. apply T; auto.
    + rewrite O. apply T.
    + rewrite O, Ef1, <- Ef. apply T.
    + rewrite Ef1. contradiction.
  - injection E as _ <-. auto.
Qed.

Lemma alloc_typed_total X o v : typed_but X v -> (forall p, {X p} + {~ X p}) -> (free v = [] -> empty_ones X v) ->
  exists v', (exists q, alloc o v = (Ok (Some q), v')) \/ (exists e, alloc o v = (Err e, v') /\ free v = []).
Proof.
  intros T D HE. destruct (free v) eqn:Ef.
  - destruct (alloc_total o v) as [[q [w E]]|[w [E _]]]; [apply (typed_valid X); auto|eauto|eauto].
  - unfold alloc, mbind, push_object, mret. rewrite !Ef. eauto.
Qed.

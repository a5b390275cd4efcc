(** Reasoning about the machine's computations. *)
From Coq Require Import ZArith List Lia Arith Bool ZifyBool ZifyNat.
Import ListNotations.
From Verif Require Import M_Base M_Heap M_Instr M_VM S_Heap P_Heap P_Sort.
Open Scope Z_scope.

(** * A relation kept by a computation, whatever its outcome *)

Definition pres_at {A} (R : vm -> vm -> Prop) (m : M A) (v : vm) : Prop := R v (snd (m v)).

Section Pres.
  Variable R : vm -> vm -> Prop.
  Hypothesis R_refl : forall v, R v v.
  Hypothesis R_trans : forall u v w, R u v -> R v w -> R u w.

  Lemma pres_ret {A} (a : A) v : pres_at R (mret a) v.
  Proof. apply R_refl. Qed.
  Lemma pres_err {A} e v : pres_at R (@merr A e) v.
  Proof. apply R_refl. Qed.
  Lemma pres_ub {A} v : pres_at R (@mub A) v.
  Proof. apply R_refl. Qed.
  Lemma pres_lift {A} (r : res A) v : pres_at R (mlift r) v.
  Proof. apply R_refl. Qed.
  Lemma pres_get {A} (f : vm -> M A) v : pres_at R (f v) v -> pres_at R (mbind mget f) v.
  Proof. auto. Qed.
  Lemma pres_set w v : R v w -> pres_at R (mset w) v.
  Proof. auto. Qed.
  Lemma pres_mod f v : R v (f v) -> pres_at R (mmod f) v.
  Proof. auto. Qed.
  Lemma pres_bind {A B} (m : M A) (f : A -> M B) v : pres_at R m v ->
    (forall a v', m v = (Ok a, v') -> pres_at R (f a) v') -> pres_at R (mbind m f) v.
  Proof.
    unfold pres_at, mbind. intros H K. destruct (m v) as [[a|e| |] v'] eqn:E; simpl in *; auto.
    eapply R_trans; eauto.
  Qed.
  Lemma pres_lift_bind {A B} (r : res A) (f : A -> M B) v :
    (forall a, r = Ok a -> pres_at R (f a) v) -> pres_at R (mbind (mlift r) f) v.
  Proof.
    intros H. unfold pres_at, mbind, mlift. destruct r; try apply R_refl. apply H. auto.
  Qed.
End Pres.

(** Everything an allocation leaves alone, whatever its outcome. *)
Definition heap_only (v v' : vm) : Prop :=
  stack v' = stack v /\ ustack v' = ustack v /\ globals v' = globals v /\
  globals_map v' = globals_map v /\ call_stack v' = call_stack v /\ uacs v' = uacs v /\
  current_bytecode v' = current_bytecode v /\ next_user_type v' = next_user_type v /\
  length (objects v') = length (objects v).

Lemma heap_only_refl v : heap_only v v.
Proof. unfold heap_only; tauto. Qed.

Lemma sweep_length os : forall used i fr ev,
  length (fst (fst (sweep i os used fr ev))) = length os.
Proof.
  induction os as [|o os IH]; intros used i fr ev; auto. destruct used as [|u used]; auto. simpl.
  destruct u.
  - specialize (IH used (S i) fr ev). destruct (sweep (S i) os used fr ev) as [[? ?] ?]. simpl in *. auto.
  - specialize (IH used (S i) (i :: fr) (dispose_event i o ++ ev)).
    destruct (sweep (S i) os used (i :: fr) _) as [[? ?] ?]. simpl in *. auto.
Qed.

Lemma gc_heap_only v v' : garbage_collect v = Ok v' -> heap_only v v'.
Proof.
  unfold garbage_collect. destruct (mark_all v) as [used| | |]; simpl; try discriminate.
  pose proof (sweep_length (objects v) used 0%nat [] (events v)) as L.
  destruct (sweep _ _ _ _ _) as [[os fr] ev]. simpl in L. intros E. injection E as <-.
  unfold heap_only; simpl; tauto.
Qed.

Lemma push_object_heap_only o v : heap_only v (snd (push_object o v)).
Proof.
  unfold push_object.
  assert (forall v1, (match free v with [] => garbage_collect v | _ => Ok v end) = Ok v1 -> heap_only v v1) as H.
  { destruct (free v); intros v1 E; [apply gc_heap_only; auto|]. injection E as <-. apply heap_only_refl. }
  destruct (match free v with [] => garbage_collect v | _ => Ok v end) as [v1|e| |];
    try apply heap_only_refl.
  specialize (H v1 eq_refl). destruct (free v1) as [|p fr]; simpl; auto.
  unfold heap_only in *. simpl. rewrite list_set_length. tauto.
Qed.

Lemma alloc_heap_only o v : heap_only v (snd (alloc o v)).
Proof.
  pose proof (push_object_heap_only o v) as H. unfold alloc, mbind.
  destruct (push_object o v) as [[p|e| |] v'] eqn:E; auto.
Qed.

(** One step of the structural search; [leaf] closes the goals about single primitives. *)
Ltac pres_step R refl trans leaf :=
  match goal with
  | |- pres_at _ (mbind mget _) _ => apply (pres_get R)
  | |- pres_at _ (mbind (mlift _) _) _ => apply (pres_lift_bind R refl); intros
  | |- pres_at _ (mbind _ _) _ => apply (pres_bind R trans); [|intros]
  | |- pres_at _ (mret _) _ => apply (pres_ret R refl)
  | |- pres_at _ (merr _) _ => apply (pres_err R refl)
  | |- pres_at _ mub _ => apply (pres_ub R refl)
  | |- pres_at _ (mlift _) _ => apply (pres_lift R refl)
  | |- pres_at _ (mset _) _ => apply (pres_set R); leaf
  | |- pres_at _ (mmod _) _ => apply (pres_mod R); leaf
  | |- pres_at _ (match ?x with _ => _ end) _ => destruct x eqn:?
  | |- pres_at _ (let (_, _) := ?x in _) _ => destruct x eqn:?
  end.

Lemma abs_set_length {A} (l : list A) i x l' : abs_set l i x = Ok l' -> length l' = length l.
Proof.
  unfold abs_set. destruct (_ || _); [discriminate|]. intros E. injection E as <-. apply list_set_length.
Qed.
Lemma raw_set_length {A} (l : list A) i x l' : raw_set l i x = Ok l' -> length l' = length l.
Proof.
  unfold raw_set. destruct (abs_set l i x) eqn:E; try discriminate. intros E'. injection E' as <-.
  eapply abs_set_length; eauto.
Qed.

(** What a relation between states must allow to be kept by the instructions that touch the
    stack only by push, pop and overwrite. *)
Record simple (R : vm -> vm -> Prop) : Prop := Simple {
  simple_refl : forall v, R v v;
  simple_trans : forall u v w, R u v -> R v w -> R u w;
  simple_alloc : forall o v, R v (snd (push_object o v));
  simple_objects : forall v os, length os = length (objects v) -> R v (set_objects v os);
  simple_push : forall v o, R v (set_ustack (set_stack v (o :: stack v)) (None :: ustack v));
  simple_overwrite : forall v s, length s = length (stack v) -> R v (set_stack v s);
  simple_overwrite_u : forall v s u, length s = length (stack v) -> length u = length (ustack v) ->
    R v (set_ustack (set_stack v s) u);
  simple_pop : forall v, R v (snd (stack_pop v));
  simple_pops : forall n v, R v (snd (stack_pop_multiple n v))
}.

Section Simple.
  Variable R : vm -> vm -> Prop.
  Hypothesis S : simple R.
  Let R_refl := simple_refl R S.
  Let R_trans := simple_trans R S.
  Let R_alloc := simple_alloc R S.
  Let R_objects := simple_objects R S.
  Let R_push := simple_push R S.
  Let R_overwrite := simple_overwrite R S.
  Let R_overwrite_u := simple_overwrite_u R S.
  Let R_pop := simple_pop R S.
  Let R_pops := simple_pops R S.

  Ltac leaf := first [ assumption
                     | apply R_push
                     | apply R_objects; solve [auto using list_set_length]
                     | apply R_overwrite; solve [eauto using abs_set_length, raw_set_length]
                     | apply R_overwrite_u; solve [eauto using abs_set_length, raw_set_length] ].
  Ltac go := repeat first [ solve [auto with pres] | pres_step R R_refl R_trans leaf ].

  Lemma s_push_object o v : pres_at R (push_object o) v.
  Proof. apply R_alloc. Qed.
  Hint Resolve s_push_object : pres.
  Lemma s_alloc o v : pres_at R (alloc o) v.
  Proof. unfold alloc. go. Qed.
  Hint Resolve s_alloc : pres.
  Lemma s_stack_push o v : pres_at R (stack_push o) v.
  Proof. unfold stack_push. go. Qed.
  Hint Resolve s_stack_push : pres.
  Lemma s_stack_pop v : pres_at R stack_pop v.
  Proof. apply R_pop. Qed.
  Hint Resolve s_stack_pop : pres.
  Lemma s_pops n v : pres_at R (stack_pop_multiple n) v.
  Proof. apply R_pops. Qed.
  Hint Resolve s_pops : pres.
  Lemma s_deref p v : pres_at R (deref p) v.
  Proof. unfold deref. go. Qed.
  Hint Resolve s_deref : pres.
  Lemma s_write p o v : pres_at R (write p o) v.
  Proof. unfold write. go. Qed.
  Hint Resolve s_write : pres.
  Lemma s_sget i v : pres_at R (sget i) v.
  Proof. unfold sget. go. Qed.
  Hint Resolve s_sget : pres.
  Lemma s_sset d o v : pres_at R (sset_raw d o) v.
  Proof. unfold sset_raw. go. Qed.
  Hint Resolve s_sset : pres.
  Lemma s_box o v : pres_at R (box o) v.
  Proof. unfold box. go. Qed.
  Lemma s_unbox p v : pres_at R (unbox p) v.
  Proof. unfold unbox. go. Qed.
  Lemma s_pointee p v : pres_at R (pointee p) v.
  Proof. unfold pointee. go. Qed.
  Lemma s_composite_get p v : pres_at R (composite_get p) v.
  Proof. unfold composite_get. go. Qed.
  Hint Resolve s_box s_unbox s_pointee s_composite_get : pres.
  Lemma s_car o v : pres_at R (car_op o) v.
  Proof. unfold car_op. go. Qed.
  Lemma s_cdr o v : pres_at R (cdr_op o) v.
  Proof. unfold cdr_op. go. Qed.
  Lemma s_typeof o v : pres_at R (typeof_op o) v.
  Proof. unfold typeof_op. go. Qed.
  Lemma s_new_string s v : pres_at R (new_string s) v.
  Proof. unfold new_string. go. Qed.
  Hint Resolve s_car s_cdr s_typeof s_new_string : pres.
  Lemma s_make_string o v : pres_at R (make_string_op o) v.
  Proof. unfold make_string_op. go. Qed.
  Lemma s_concat x y v : pres_at R (concat_op x y) v.
  Proof. unfold concat_op. go. Qed.
  Lemma s_get_elt x y v : pres_at R (get_elt_op x y) v.
  Proof. unfold get_elt_op. go. Qed.
  Lemma s_vector_set p i q v : pres_at R (vector_set p i q) v.
  Proof. unfold vector_set. go. Qed.
  Hint Resolve s_make_string s_concat s_get_elt s_vector_set : pres.
  Lemma s_set_elt x y z v : pres_at R (set_elt_op x y z) v.
  Proof. unfold set_elt_op. go. Qed.
  Lemma s_cons x y v : pres_at R (cons_op x y) v.
  Proof. unfold cons_op. go. Qed.
  Lemma s_set_car x y v : pres_at R (set_car_op x y) v.
  Proof. unfold set_car_op. go. Qed.
  Lemma s_set_cdr x y v : pres_at R (set_cdr_op x y) v.
  Proof. unfold set_cdr_op. go. Qed.
  Lemma s_make_instance x y z v : pres_at R (make_instance_op x y z) v.
  Proof. unfold make_instance_op. go. Qed.
  Lemma s_composite f x v : pres_at R (composite_op f x) v.
  Proof. unfold composite_op. go. Qed.
  Lemma s_set_composite f x y v : pres_at R (set_composite_op f x y) v.
  Proof. unfold set_composite_op. go. Qed.
  Hint Resolve s_set_elt s_cons s_set_car s_set_cdr s_make_instance s_composite s_set_composite : pres.
  Lemma s_un u x v : pres_at R (un_op u x) v.
  Proof. unfold un_op. go. Qed.
  Lemma s_bin b x y v : b <> BMakeVector -> pres_at R (bin_op b x y) v.
  Proof. intros H. unfold bin_op. go. congruence. Qed.
  Lemma s_tern t x y z v : pres_at R (tern_op t x y z) v.
  Proof. unfold tern_op. go. Qed.
  Hint Resolve s_un s_bin s_tern : pres.
  Lemma s_push_upvalue i v : pres_at R (push_upvalue_op i) v.
  Proof. unfold push_upvalue_op. go. Qed.
  Lemma s_set_upvalue u i v : pres_at R (set_upvalue_op u i) v.
  Proof. unfold set_upvalue_op. go. Qed.
  Lemma s_release is : forall v, pres_at R (release_op is) v.
  Proof. induction is as [|i is IH]; intros v; simpl; go. Qed.
  Lemma s_unwrap fuel : forall o v, pres_at R (unwrap fuel o) v.
  Proof. induction fuel as [|fuel IH]; intros o v; simpl; go. Qed.
  Hint Resolve s_push_upvalue s_set_upvalue s_release s_unwrap : pres.
  Lemma s_collect n : forall k l v, pres_at R (collect_args n k l) v.
  Proof. induction n as [|n IH]; intros k l v; simpl; unfold set_slot_list; go. Qed.
  Hint Resolve s_collect : pres.
  Lemma s_rest_list n l v : pres_at R (rest_list n l) v.
  Proof. unfold rest_list. go. Qed.
  Hint Resolve s_rest_list : pres.
  Lemma s_prepare f n v : pres_at R (prepare_for_funcall f n) v.
  Proof. unfold prepare_for_funcall. go. Qed.
  Lemma s_spread n : forall r v, pres_at R (spread n r) v.
  Proof. induction n as [|n IH]; intros r v; destruct r; simpl; go. Qed.
  Lemma s_push_string s v : pres_at R (push_string_op s) v.
  Proof.
    pose proof (s_new_string s v) as H. unfold pres_at, push_string_op in *.
    destruct (new_string s v) as [[o|e| |] v']; simpl in H; auto; eapply R_trans; eauto; apply R_push.
  Qed.
  Lemma s_global_get k v : pres_at R (global_get k) v.
  Proof. unfold global_get. go. Qed.
End Simple.

#[export] Hint Resolve s_push_object s_alloc s_stack_push s_stack_pop s_pops s_deref s_write s_sget s_sset
  s_box s_unbox s_pointee s_composite_get s_car s_cdr s_typeof s_new_string s_make_string s_concat
  s_get_elt s_vector_set s_set_elt s_cons s_set_car s_set_cdr s_make_instance s_composite
  s_set_composite s_un s_bin s_tern s_push_upvalue s_set_upvalue s_release s_unwrap s_collect
  s_rest_list s_prepare s_spread s_push_string s_global_get : pres.

(** * The call stack and the type counter are left alone by all but a few instructions *)

Definition calls_kept (v v' : vm) : Prop :=
  call_stack v' = call_stack v /\ uacs v' = uacs v /\ next_user_type v' = next_user_type v /\ current_bytecode v' = current_bytecode v /\ length (objects v') = length (objects v).

Lemma calls_simple : simple calls_kept.
Proof.
  unfold calls_kept. constructor; simpl; try tauto; intros.
  - intuition congruence.
  - pose proof (push_object_heap_only o v) as H. unfold heap_only in H. tauto.
  - unfold stack_pop, mbind, mget, mset, mret, merr. destruct (stack v); simpl; auto.
    destruct (ustack v); simpl; auto.
  - unfold stack_pop_multiple, mbind, mget, mset, merr. destruct (_ <? _); simpl; auto.
    destruct (_ <? _); simpl; auto.
Qed.
#[export] Hint Resolve calls_simple : pres.

Section Calls.
  Ltac leaf := unfold calls_kept; simpl; tauto.
  Ltac go := repeat first [ solve [eauto with pres] |
    pres_step calls_kept (simple_refl _ calls_simple) (simple_trans _ calls_simple) leaf ].

  Lemma c_push_stack o v : pres_at calls_kept (push_stack_only o) v.
  Proof. unfold push_stack_only. go. Qed.
  Lemma c_push_ustack o v : pres_at calls_kept (push_ustack_only o) v.
  Proof. unfold push_ustack_only. go. Qed.
  Hint Resolve c_push_stack c_push_ustack : pres.
  Lemma c_vector_fill p is : forall k v, pres_at calls_kept (vector_fill p k is) v.
  Proof. induction is as [|i is IH]; intros k v; simpl; go. Qed.
  Lemma c_vector_initialized p v : pres_at calls_kept (vector_initialized p) v.
  Proof. unfold vector_initialized. go. Qed.
  Hint Resolve c_vector_fill c_vector_initialized : pres.
  Lemma c_vector is v : pres_at calls_kept (vector_op is) v.
  Proof. unfold vector_op. go. Qed.
  Lemma c_make_vector x y v : pres_at calls_kept (make_vector_op x y) v.
  Proof. unfold make_vector_op. go. Qed.
  Hint Resolve c_vector c_make_vector : pres.
  Lemma c_bin b x y v : pres_at calls_kept (bin_op b x y) v.
  Proof.
    destruct b; try (apply s_bin; [apply calls_simple|discriminate]). unfold bin_op. go.
  Qed.
  Lemma c_ua_set p k q v : pres_at calls_kept (upvalue_array_set p k q) v.
  Proof. unfold upvalue_array_set. go. Qed.
  Hint Resolve c_bin c_ua_set : pres.
  Lemma c_capture p cs : forall k r v, pres_at calls_kept (capture_op p k cs r) v.
  Proof.
    induction cs as [|c cs IH]; intros k r v; simpl; [go|].
    apply (pres_get calls_kept). destruct (_ && _); [go|].
    apply (pres_bind calls_kept (simple_trans _ calls_simple)).
    2: { intros [u r'] v' _. go. }
    destruct (_ =? zlen _) eqn:E; [|go].
    pose proof (s_alloc calls_kept calls_simple (OUpvalue (UpStack (if c <? 0 then c else zlen (stack v) - 1 - c))) v) as H.
    unfold pres_at in *. destruct (alloc _ v) as [[u|e| |] v'] eqn:Ea; simpl in *; auto.
  Qed.
  Hint Resolve c_capture : pres.
  Lemma c_push_closure b c va t a cs v : pres_at calls_kept (push_closure_op b c va t a cs) v.
  Proof. unfold push_closure_op. go. Qed.
  Lemma c_global_set p k v : pres_at calls_kept (global_set p k) v.
  Proof. unfold global_set. go. Qed.
End Calls.
#[export] Hint Resolve c_push_stack c_push_ustack c_vector_fill c_vector_initialized c_vector
  c_make_vector c_bin c_ua_set c_capture c_push_closure c_global_set : pres.

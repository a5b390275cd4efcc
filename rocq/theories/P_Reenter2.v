(** Proofs about calls from C: how they start, what they need and what they leave. *)
From Coq Require Import ZArith List Lia Arith Bool ZifyBool ZifyNat.
Import ListNotations.
From Verif Require Import M_Base M_Heap M_Instr M_VM M_Host M_Reenter S_Heap S_VM S_Num S_Cyclic S_Globals S_Types S_Data S_Call S_Host S_Reenter
  P_Heap P_Sort P_VM P_Exec P_Num P_Valid P_Cyclic P_Globals P_Types P_Safe P_Safe2 P_Safe3 P_Safe4 P_Safe5 P_Safe7 P_Data P_Data2 P_Data3 P_Call P_Call2 P_Refine P_Host P_Host3 X_Machine P_Reenter.
Open Scope Z_scope.

(** The rest of a call, once the function is known. *)
Definition go_on (host : Z -> M unit) (fuel : nat) (f : object) : M unit :=
  match f with
  | OFunction c => host c
  | OClosure name bytecode upvalues _ _ =>
    b <~ deref bytecode ;;
    u <~ deref upvalues ;;
    match b, u with
    | OBytecode _ (Some code), OUpvalueArray id cs len =>
      v <~ mget ;;
      call_stack_push (shim_frame (length (objects v)))
        (UARef (match cs, upvalues with
                | Some _, Some p => Some (p, id)
                | _, _ => None
                end) len) ;;;
      execute_shim host fuel (length (objects v)) code name
    | _, _ => mub
    end
  | _ => merr invalidValue
  end.

Lemma call_prepare host fuel i n f g v : at_index v i f -> resolves (objects v) f g ->
  host_call host fuel i n v =
  (' x <~ (match g with
    | OFunction _ => mret g
    | OClosure _ _ _ arity true => if n <? arity then merr invalidValue else rest_list (n - arity) None ;;; mret g
    | OClosure _ _ _ arity false => if arity =? n then mret g else merr invalidValue
    | _ => merr invalidValue
    end) ;; go_on host fuel x) v.
Proof.
  intros Hi H. unfold host_call. unfold mbind at 1. unfold stack_get. unfold mbind at 1, mget at 1, mlift at 1.
  apply index_abs in Hi. rewrite Hi. unfold mbind at 1. unfold prepare_for_funcall.
  unfold mbind at 1 2. unfold mget at 1. rewrite (unwrap_resolves v f g H). reflexivity.
Qed.

(** * C functions and refusals *)

Lemma call_callback host fuel i n f k v : at_index v i f -> resolves (objects v) f (OFunction k) -> host_call host fuel i n v = host k v.
Proof. intros Hi H. rewrite (call_prepare _ _ _ _ _ _ _ Hi H). reflexivity. Qed.

Lemma call_refused host fuel i n v :
  (forall f, ~ at_index v i f) \/
  (exists f g, at_index v i f /\ resolves (objects v) f g /\
    match g with
    | OFunction _ => False
    | OClosure _ _ _ arity true => n < arity
    | OClosure _ _ _ arity false => n <> arity
    | _ => True
    end) ->
  host_call host fuel i n v = (Err invalidValue, v).
Proof.
  intros [H|[f [g [Hi [H K]]]]].
  - unfold host_call. unfold mbind at 1. unfold stack_get. unfold mbind at 1, mget at 1, mlift at 1. rewrite (no_index v i H). reflexivity.
  - rewrite (call_prepare _ _ _ _ _ _ _ Hi H). unfold mbind. destruct g; try contradiction; try reflexivity.
    destruct variadic; [destruct (Z.ltb_spec n arity); [reflexivity|lia]|]. destruct (Z.eqb_spec arity n); [congruence|reflexivity].
Qed.

(** * Closures *)

Definition upvalues_of (u : ptr) (uid : nat) (cs : option (list cell)) (len : Z) : uaref :=
  UARef (match cs with Some _ => Some (u, uid) | None => None end) len.

Lemma go_on_closure host name b u arity va w id code uid cs len base fr :
  nth_error (objects w) b = Some (OBytecode id (Some code)) -> nth_error (objects w) u = Some (OUpvalueArray uid cs len) ->
  0 <= name < zlen code -> free w = base :: fr -> (base < length (objects w))%nat ->
  exists v1 id1, launched w v1 base id1 code (shim_frame (length (objects w))) (upvalues_of u uid cs len) /\
    length (objects v1) = length (objects w) /\
    forall fuel, go_on host fuel (OClosure name (Some b) (Some u) arity va) w =
    (let (r, w') := run_shim host fuel (length (objects w)) base (PC (base, id1) name) v1 in (r, set_current w' None)).
Proof.
  intros Eb Eu Hn Ef Hb. set (w0 := set_calls w (shim_frame (length (objects w)) :: call_stack w) (upvalues_of u uid cs len :: uacs w)).
  set (o1 := list_set (objects w) base (OBytecode (next_buffer w) (Some code))).
  set (v1 := set_current (set_next_buffer (set_free (set_objects w0 o1) fr) (S (next_buffer w))) (Some base)).
  assert (code <> []) as Hne by (intros ->; unfold zlen in Hn; simpl in Hn; lia).
  assert (stored (next_buffer w) (OBytecode 0 (Some code)) = OBytecode (next_buffer w) (Some code)) as Est.
  { cbn. destruct code; [congruence|reflexivity]. }
  assert (nth_error o1 base = Some (OBytecode (next_buffer w) (Some code))) as E1.
  { unfold o1. rewrite list_set_nth, Nat.eqb_refl. destruct (Nat.ltb_spec base (length (objects w))); [auto|lia]. }
  exists v1, (next_buffer w). split; [|split].
  - constructor; try reflexivity.
    + exact E1.
    + rewrite Ef. left. auto.
    + split; reflexivity.
    + intros p Hp. change (objects v1) with o1. unfold o1. rewrite list_set_nth. destruct (Nat.eqb_spec p base); [contradiction|auto].
  - change (objects v1) with o1. unfold o1. apply list_set_length.
  - intros fuel. unfold go_on. unfold mbind at 1. rewrite (deref_run _ _ _ Eb). unfold mbind at 1. rewrite (deref_run _ _ _ Eu). unfold mbind at 1, mget at 1.
    unfold mbind at 1, call_stack_push, mmod. fold (upvalues_of u uid cs len).
    fold w0.
    unfold execute_shim. destruct (Z.ltb_spec name 0); [lia|]. destruct (Z.leb_spec (zlen code) name); [lia|]. cbn [orb].
    unfold mbind at 1. unfold push_object. change (free w0) with (free w). rewrite Ef. cbn iota beta. change (free w0) with (free w). rewrite Ef.
    change (next_buffer w0) with (next_buffer w). change (objects w0) with (objects w). rewrite Est. fold o1.
    unfold mbind at 1, mget at 1. cbn [objects set_next_buffer set_free set_objects]. rewrite E1. reflexivity.
Qed.

Lemma launched_running w v1 base id1 code u uid cs len name : launched w v1 base id1 code (shim_frame (length (objects w))) (upvalues_of u uid cs len) ->
  length (objects v1) = length (objects w) -> (base < length (objects w))%nat ->
  running (length (objects w)) (call_stack w) (uacs w) (PC (base, id1) name) v1.
Proof.
  intros L E Hb. constructor; auto.
  - unfold valid_code. simpl. lia.
  - exists [], [], (shim_frame (length (objects w))), (upvalues_of u uid cs len). rewrite (la_calls _ _ _ _ _ _ _ L), (la_uacs _ _ _ _ _ _ _ L). auto 8.
Qed.

Lemma go_on_ends host name b u arity va w id code uid cs len base fr : balanced_host host ->
  nth_error (objects w) b = Some (OBytecode id (Some code)) -> nth_error (objects w) u = Some (OUpvalueArray uid cs len) ->
  0 <= name < zlen code -> free w = base :: fr -> (base < length (objects w))%nat ->
  exists v1 id1, launched w v1 base id1 code (shim_frame (length (objects w))) (upvalues_of u uid cs len) /\
    (forall fuel v', go_on host fuel (OClosure name (Some b) (Some u) arity va) w = (Ok tt, v') ->
      returned host base (PC (base, id1) name) w v1 v' \/ halted host base (PC (base, id1) name) w v1 v') /\
    (forall v', returned host base (PC (base, id1) name) w v1 v' ->
      exists k, forall fuel, (k <= fuel)%nat -> go_on host fuel (OClosure name (Some b) (Some u) arity va) w = (Ok tt, v')).
Proof.
  intros B Eb Eu Hn Ef Hb.
  destruct (go_on_closure host name b u arity va w id code uid cs len base fr Eb Eu Hn Ef Hb) as [v1 [id1 [L [SZ G]]]].
  pose proof (launched_running w v1 base id1 code u uid cs len name L SZ Hb) as R.
  exists v1, id1. split; auto. split.
  - intros fuel v' E. rewrite G in E. destruct (run_shim host fuel (length (objects w)) base (PC (base, id1) name) v1) as [r w'] eqn:Er. injection E as -> <-.
    destruct (run_shim_ends host fuel B _ _ _ _ _ _ _ R Er) as [l [c2 [v2 [S1 [F [[c3 [E3 [K1 K2]]]|[next [Fe ->]]]]]]]].
    + left. exists l, c2, v2, c3, w'. auto 8.
    + right. exists l, c2, v2, next. auto.
  - intros v' [l [c2 [v2 [c3 [v3 [S1 [F [E3 [K1 [K2 ->]]]]]]]]]].
    destruct (run_shim_reaches host _ _ _ _ _ _ _ _ _ B R S1 F c3 v3 E3 K1) as [k Hk]. exists k. intros fuel Hf. rewrite G, (Hk fuel Hf). reflexivity.
Qed.

(** A closure with a fixed number of parameters. *)
Lemma call_fixed host i f name b u arity v id code uid cs len base fr : balanced_host host -> at_index v i f ->
  resolves (objects v) f (OClosure name (Some b) (Some u) arity false) ->
  nth_error (objects v) b = Some (OBytecode id (Some code)) -> nth_error (objects v) u = Some (OUpvalueArray uid cs len) ->
  0 <= name < zlen code -> free v = base :: fr -> (base < length (objects v))%nat ->
  exists v1 id1 g, launched v v1 base id1 code g (UARef (match cs with Some _ => Some (u, uid) | None => None end) len) /\
    (forall fuel v', host_call host fuel i arity v = (Ok tt, v') ->
      returned host base (PC (base, id1) name) v v1 v' \/ halted host base (PC (base, id1) name) v v1 v') /\
    (forall v', returned host base (PC (base, id1) name) v v1 v' ->
      exists k, forall fuel, (k <= fuel)%nat -> host_call host fuel i arity v = (Ok tt, v')).
Proof.
  intros B Hi H Eb Eu Hn Ef Hb. destruct (go_on_ends host name b u arity false v id code uid cs len base fr B Eb Eu Hn Ef Hb) as [v1 [id1 [L [G1 G2]]]].
  assert (forall fuel, host_call host fuel i arity v = go_on host fuel (OClosure name (Some b) (Some u) arity false) v) as G.
  { intros fuel. rewrite (call_prepare _ _ _ _ _ _ _ Hi H). unfold mbind at 1. rewrite Z.eqb_refl. reflexivity. }
  exists v1, id1, (shim_frame (length (objects v))). split; [exact L|]. split.
  - intros fuel v'. rewrite G. apply G1.
  - intros v' Hr. destruct (G2 v' Hr) as [k Hk]. exists k. intros fuel Hf. rewrite G. auto.
Qed.

(** A closure with a rest list. *)
Lemma call_variadic host i n f name b u arity v id code uid cs len : balanced_host host -> typed v -> in_step v -> at_index v i f ->
  resolves (objects v) f (OClosure name (Some b) (Some u) arity true) -> arity <= n -> n - arity <= zlen (stack v) ->
  nth_error (objects v) b = Some (OBytecode id (Some code)) -> nth_error (objects v) u = Some (OUpvalueArray uid cs len) ->
  0 <= name < zlen code ->
  let k := Z.to_nat (n - arity) in
  (2 * k <= length (free v))%nat ->
  exists w l, stack w = OList l :: skipn k (stack v) /\ ustack w = skipn k (None :: ustack v) /\
    list_value (objects w) l (rev (firstn k (stack v))) /\ call_stack w = call_stack v /\ uacs w = uacs v /\
    (forall p, reach v p -> nth_error (objects w) p = nth_error (objects v) p) /\
    forall base fr, free w = base :: fr -> (base < length (objects w))%nat ->
    exists v1 id1 g, launched w v1 base id1 code g (UARef (match cs with Some _ => Some (u, uid) | None => None end) len) /\
    (forall fuel v', host_call host fuel i n v = (Ok tt, v') ->
      returned host base (PC (base, id1) name) w v1 v' \/ halted host base (PC (base, id1) name) w v1 v') /\
    (forall v', returned host base (PC (base, id1) name) w v1 v' ->
      exists k, forall fuel, (k <= fuel)%nat -> host_call host fuel i n v = (Ok tt, v')).
Proof.
  intros B T Hs Hi H Hn Hk Eb Eu Hr k Hfree.
  assert (In f (stack v)) as Hin.
  { unfold at_index in Hi. destruct Hi as [[_ Hi]|[_ Hi]]; apply nth_error_In in Hi; auto. apply in_rev; auto. }
  destruct (resolves_typed v f _ T H Hin) as [W R].
  assert (opoints v is_cons None) as P0 by discriminate.
  pose proof (tot_rest False v (n - arity) None [] T P0 (list_nil _) (conj (proj2 (Z.le_0_sub _ _) Hn) Hk) Hs (or_intror Hfree)) as HR.
  unfold tot in HR. destruct (rest_list (n - arity) None v) as [r w] eqn:E.
  destruct r as [[]|e| |]; unfold mret in *; try contradiction; [|destruct HR; contradiction].
  destruct HR as [l [S1 [U1 [L1 [G1 [G2 [G3 [G4 [G5 [G6 G7]]]]]]]]]]. fold k in S1, U1, L1. rewrite app_nil_r in L1.
  assert (forall p, reach v p -> nth_error (objects w) p = nth_error (objects v) p) as Gk.
  { intros p Rp. apply G7. eapply more_reach; [apply more_pushed, more_refl|auto]. }
  exists w, l. do 6 (split; [auto; fail|]). intros base fr Ef Hb.
  assert (nth_error (objects w) b = Some (OBytecode id (Some code))) as Eb' by (rewrite Gk; auto; apply R; constructor).
  assert (nth_error (objects w) u = Some (OUpvalueArray uid cs len)) as Eu' by (rewrite Gk; auto; apply R; constructor).
  destruct (go_on_ends host name b u arity true w id code uid cs len base fr B Eb' Eu' Hr Ef Hb) as [v1 [id1 [L [K1 K2]]]].
  assert (forall fuel, host_call host fuel i n v = go_on host fuel (OClosure name (Some b) (Some u) arity true) w) as G.
  { intros fuel. rewrite (call_prepare _ _ _ _ _ _ _ Hi H). destruct (Z.ltb_spec n arity); [lia|]. unfold mbind at 1 2. rewrite E. reflexivity. }
  exists v1, id1, (shim_frame (length (objects w))). split; [exact L|]. split.
  - intros fuel v'. rewrite G. apply K1.
  - intros v' Hq. destruct (K2 v' Hq) as [q Hk']. exists q. intros fuel Hf. rewrite G. auto.
Qed.

(** * The collector meets the frame *)

Lemma children_no_err o e : children o <> Err e.
Proof.
  assert (forall n cs, read_cells cs n <> Err e) as K.
  { induction n as [|n IH]; intros cs; [destruct cs; discriminate|]. destruct cs as [|[|p] cs]; simpl; try discriminate.
    unfold bind. specialize (IH cs). destruct (read_cells cs n); congruence. }
  assert (forall b n, read_buffer b n <> Err e) as K2.
  { intros b n. unfold read_buffer. destruct (_ <=? _); [discriminate|]. destruct b; [apply K|discriminate]. }
  destruct o; cbn [children]; try discriminate; repeat match goal with |- context [match ?x with _ => _ end] => destruct x end; try discriminate; apply K2.
Qed.

Lemma mark_loop_no_err fuel e : forall os used todo, mark_loop fuel os used todo <> Err e.
Proof.
  induction fuel as [|fuel IH]; intros os used todo; destruct todo as [|[p|] todo]; simpl; try discriminate; auto.
  destruct (nth_error used p) as [[|]|]; try discriminate; destruct (nth_error os p) as [o|]; try discriminate; auto.
  pose proof (children_no_err o e). unfold bind. destruct (children o); try congruence; apply IH.
Qed.

Lemma foldM_no_err {A B} (f : A -> B -> res A) e : (forall a b, f a b <> Err e) -> forall l a, foldM f l a <> Err e.
Proof. intros K l. induction l as [|x l IH]; intros a; simpl; [discriminate|]. specialize (K a x). unfold bind. destruct (f a x); try congruence; auto. Qed.

Lemma foldM_ok_in {A B} (f : A -> B -> res A) l : forall a r x, foldM f l a = Ok r -> In x l -> exists a1 a2, f a1 x = Ok a2.
Proof.
  induction l as [|y l IH]; intros a r x E H; [contradiction|]. simpl in E. unfold bind in E. destruct (f a y) as [a'|?| |] eqn:Ef; try discriminate.
  destruct H as [->|H]; eauto.
Qed.

Lemma outside_marks v f : In f (call_stack v) -> outside v f -> mark_all v = UB.
Proof.
  intros Hi [p [Ep Hp]]. destruct (mark_all v) as [r|e| |] eqn:E; auto; exfalso.
  - unfold mark_all in E. unfold bind in E.
    destruct (foldM _ (rev (stack v)) _); try discriminate. destruct (foldM _ (rev (ustack v)) _); try discriminate.
    destruct (foldM _ (globals v) _); try discriminate. destruct (foldM _ (map fr_bytecode (rev (call_stack v))) _) eqn:E4; try discriminate.
    apply (foldM_ok_in _ _ _ _ (Some p)) in E4 as [b1 [b2 E5]].
    + unfold mark_object in E5. cbn [mark_loop] in E5. apply nth_error_None in Hp. rewrite Hp in E5. destruct (nth_error b1 p) as [[|]|]; discriminate.
    + rewrite <- Ep. apply in_map. apply -> in_rev. auto.
  - assert (forall os a b, mark_stack_object os a b <> Err e) as K1.
    { intros os a b. unfold mark_stack_object. pose proof (children_no_err b e). unfold bind. destruct (children b); try congruence. apply mark_loop_no_err. }
    assert (forall os a b, mark_object os a b <> Err e) as K2 by (intros; apply mark_loop_no_err).
    revert E. unfold mark_all, bind.
    pose proof (foldM_no_err _ e (K1 (objects v)) (rev (stack v)) (repeat false (length (objects v)))). destruct (foldM _ (rev (stack v)) _) as [u1|?| |]; try congruence.
    pose proof (foldM_no_err _ e (K2 (objects v)) (rev (ustack v)) u1). destruct (foldM _ (rev (ustack v)) _) as [u2|?| |]; try congruence.
    pose proof (foldM_no_err _ e (K2 (objects v)) (globals v) u2). destruct (foldM _ (globals v) _) as [u3|?| |]; try congruence.
    pose proof (foldM_no_err _ e (K2 (objects v)) (map fr_bytecode (rev (call_stack v))) u3). destruct (foldM _ (map _ _) _) as [u4|?| |]; try congruence.
  - exact (mark_all_fuel v E).
Qed.

Lemma outside_collects v f : In f (call_stack v) -> outside v f ->
  garbage_collect v = UB /\ forall o, free v = [] -> push_object o v = (UB, v).
Proof.
  intros Hi Ho. assert (garbage_collect v = UB) as E by (unfold garbage_collect; rewrite (outside_marks v f Hi Ho); reflexivity).
  split; auto. intros o Ef. unfold push_object. rewrite Ef, E. reflexivity.
Qed.

(** With no object left, a call of a closure is undefined, however much garbage there is. *)
Lemma call_full host fuel i f name b u arity v id code uid cs len : at_index v i f ->
  resolves (objects v) f (OClosure name (Some b) (Some u) arity false) ->
  nth_error (objects v) b = Some (OBytecode id (Some code)) -> nth_error (objects v) u = Some (OUpvalueArray uid cs len) ->
  0 <= name < zlen code -> free v = [] -> fst (host_call host fuel i arity v) = UB.
Proof.
  intros Hi H Eb Eu Hn Ef. rewrite (call_prepare _ _ _ _ _ _ _ Hi H). unfold mbind at 1. rewrite Z.eqb_refl. unfold mret at 1.
  unfold go_on. unfold mbind at 1. rewrite (deref_run _ _ _ Eb). unfold mbind at 1. rewrite (deref_run _ _ _ Eu). unfold mbind at 1, mget at 1.
  unfold mbind at 1, call_stack_push, mmod. set (w0 := set_calls _ _ _).
  unfold execute_shim. destruct (Z.ltb_spec name 0); [lia|]. destruct (Z.leb_spec (zlen code) name); [lia|]. cbn [orb].
  destruct (outside_collects w0 (shim_frame (length (objects v)))) as [_ K].
  - left. reflexivity.
  - exists (length (objects v)). split; [reflexivity|]. change (objects w0) with (objects v). lia.
  - unfold mbind at 1. rewrite K; [reflexivity|exact Ef].
Qed.

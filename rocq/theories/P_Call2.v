(** Proofs about apply and returns. *)
From Coq Require Import ZArith List Lia Arith Bool ZifyBool ZifyNat.
Import ListNotations.
From Verif Require Import M_Base M_Heap M_Instr M_VM S_Heap S_VM S_Num S_Cyclic S_Globals S_Types S_Data S_Call P_Heap P_Sort P_VM P_Exec P_Num P_Valid P_Cyclic P_Globals P_Types P_Safe P_Safe2 P_Safe3 P_Safe4 P_Safe5 P_Safe7 P_Data P_Data2 P_Data3 P_Call.
Open Scope Z_scope.

(** * Spreading a list over the stack *)

Definition with_values (xs : list object) (v : vm) : vm :=
  set_ustack (set_stack v (rev xs ++ stack v)) (repeat None (length xs) ++ ustack v).

Lemma with_values_cons x xs v : with_values xs (pushed x v) = with_values (x :: xs) v.
Proof.
  unfold with_values, pushed. cbn [stack ustack set_stack set_ustack rev length repeat]. rewrite <- app_assoc. cbn [app].
  assert (repeat None (length xs) ++ None :: ustack v = (None :: repeat None (length xs)) ++ ustack v) as ->; [|reflexivity].
  rewrite repeat_cons, <- app_assoc. reflexivity.
Qed.

Lemma spread_run n : forall os l xs v, list_value os l xs -> objects v = os ->
  exists r, spread n l v = (Ok (Z.of_nat (length (firstn n xs)), r), with_values (firstn n xs) v) /\ list_value os r (skipn n xs).
Proof.
  induction n as [|n IH]; intros os l xs v H E.
  { exists l. split; [|exact H]. destruct v; destruct l; reflexivity. }
  destruct H as [|p a d x xs En Hs HL].
  { exists None. split; [|constructor]. destruct v. reflexivity. }
  destruct (IH os d xs (pushed x v) HL E) as [r [Er Hr]]. exists r. split; [|exact Hr].
  cbn [spread]. subst os. unfold mbind at 1. rewrite (deref_run _ _ _ En). unfold mbind at 1. rewrite (unbox_shows v a x Hs).
  unfold mbind at 1. change (stack_push x v) with (@Ok unit tt, pushed x v).
  unfold mbind. rewrite Er. unfold mret. cbn [firstn length]. rewrite with_values_cons. f_equal. f_equal. f_equal. lia.
Qed.

Lemma typed_values v l xs n : typed v -> list_value (objects v) l xs -> opoints v is_cons l ->
  typed (with_values (firstn n xs) v).
Proof.
  intros T H. revert n. assert (forall xs l w, list_value (objects v) l xs -> typed w -> same_heap v w -> opoints w is_cons l ->
    forall n, typed (with_values (firstn n xs) w)) as K.
  { clear xs l H. induction xs as [|x xs IH]; intros l w H Tw Hw P n.
    - rewrite firstn_nil. destruct w; auto.
    - destruct n as [|n]; [destruct w; auto|]. inversion H as [|p a d x' xs' En Hs HL]; subst. cbn [firstn]. rewrite <- with_values_cons.
      assert (nth_error (objects w) p = Some (OCons a d)) as En' by (destruct Hw as [-> _]; auto).
      assert (well_typed w (OCons a d)) as [Wa Wd].
      { destruct (P p eq_refl) as [L [o [Eo Ko]]]. rewrite En' in Eo. injection Eo as <-. apply (ty_objects _ _ Tw p _ L (fun x => x) En'). }
      assert (unbox a w = (Ok x, w)) as Eu by (apply unbox_shows; destruct Hw as [-> _]; auto).
      pose proof (sem_unbox w a (fun _ => True) True Tw Wa) as Su. unfold sem in Su. rewrite Eu in Su. destruct Su as [_ Vx].
      apply (IH d); auto.
      + apply typed_pushed; auto; apply Vx.
      + intros q ->. apply (same_points w); [split; reflexivity|]. destruct (Wd q eq_refl) as [L [o [Eo _]]]. split; auto. exists o. split; auto.
        inversion HL; subst. rewrite (proj1 Hw) in Eo. match goal with E : nth_error (objects v) q = Some (OCons _ _) |- _ => rewrite E in Eo end. injection Eo as <-. exact I. }
  intros n P. apply (K xs l); auto. split; reflexivity.
Qed.

Definition popped (v : vm) : vm := set_ustack (set_stack v (tl (stack v))) (tl (ustack v)).

Lemma apply_start host base next i n f g v l s xs arity va name b u : in_step v -> at_pos v i f ->
  g = OClosure name b u arity va -> resolves (objects v) f g -> stack v = OList l :: s -> list_value (objects v) l xs ->
  let m := Z.to_nat (arity - n) in
  let k := Z.of_nat (length (firstn m xs)) in
  exists r, list_value (objects v) r (skipn m xs) /\ (m = 0%nat -> r = l) /\
  exec host base next (IApply i n) v =
  ((if va then if n + k <? arity then merr invalidValue else rest_list (n + k - arity) r
    else if arity =? n + k then mret tt else merr invalidValue) ;;; enter base next g) (with_values (firstn m xs) (popped v)).
Proof.
  intros Hstep Hi -> H Es HL m k.
  destruct (spread_run m (objects v) l xs (popped v) HL eq_refl) as [r [Er Hr]]. exists r. split; [exact Hr|]. split.
  { intros Em. rewrite Em in Er. destruct l; injection Er; auto. }
  cbn [exec]. unfold apply_op. unfold mbind at 1. rewrite (sget_at v i f Hi). unfold mbind at 1 2. unfold mget at 1.
  rewrite (unwrap_resolves v f _ H).
  assert (stack_pop v = (Ok (OList l), popped v)) as Ep.
  { unfold in_step in Hstep. unfold stack_pop, popped, mbind, mget, mret, mset. rewrite Es in *. destruct (ustack v) as [|x us] eqn:Eu; [discriminate|]. reflexivity. }
  unfold mbind at 1. rewrite Ep. unfold mbind at 1. fold m. rewrite Er. reflexivity.
Qed.

Lemma with_values_nil v : with_values [] v = v.
Proof. destruct v; reflexivity. Qed.

Lemma popped_step v : in_step v -> in_step (popped v).
Proof. unfold in_step, popped. simpl. destruct (stack v), (ustack v); simpl; intros; congruence. Qed.
Lemma with_values_step xs v : in_step v -> in_step (with_values xs v).
Proof. unfold in_step, with_values. simpl. rewrite !app_length, rev_length, repeat_length. lia. Qed.

Lemma typed_popped v : typed v -> typed (popped v).
Proof.
  intros T. unfold popped. apply typed_set_ustack; [apply typed_set_stack; auto|].
  - intros x Hx. apply (ty_stack _ _ T). destruct (stack v); [contradiction|right; auto].
  - intros q Hq. apply (same_points v); [split; reflexivity|]. apply (ty_ustack _ _ T). destruct (ustack v); [contradiction|right; auto].
Qed.

Lemma uncaptured_pushed v l s : in_step v -> stack v = OList l :: s -> pushed (OList l) (popped v) = uncaptured v.
Proof. intros H Es. unfold pushed, popped, uncaptured. cbn [stack ustack set_stack set_ustack]. rewrite Es. destruct v; simpl in *; subst. reflexivity. Qed.

Lemma typed_uncaptured v l s : typed v -> in_step v -> stack v = OList l :: s -> typed (uncaptured v).
Proof.
  intros T H Es. rewrite <- (uncaptured_pushed v l s H Es). apply typed_pushed; [apply typed_popped; auto|exact I|].
  apply (same_well_typed v); [split; reflexivity|]. apply (ty_stack _ _ T). rewrite Es. left; auto.
Qed.

Lemma set_top x y s v : stack v = y :: s -> sset_raw 0 x v = (Ok tt, set_stack v (x :: s)).
Proof.
  intros E. unfold sset_raw, mbind, mget, mlift, raw_set, abs_set, zlen. rewrite E. cbn [length].
  destruct (_ || _) eqn:C; [lia|]. replace (Z.to_nat _) with 0%nat by lia. reflexivity.
Qed.
Lemma pop_none v : stack_pop_multiple 0 v = (Ok tt, v).
Proof.
  unfold stack_pop_multiple, mbind, mget, mset, zlen. destruct (Z.ltb_spec (Z.of_nat (length (ustack v))) 0); [lia|].
  destruct (Z.ltb_spec (Z.of_nat (length (stack v))) 0); [lia|]. destruct v; reflexivity.
Qed.

Lemma rest_none r v : rest_list 0 r v = (Ok tt, pushed (OList r) v).
Proof.
  unfold rest_list. unfold mbind at 1. change (stack_push (OList r) v) with (@Ok unit tt, pushed (OList r) v).
  set (w := pushed (OList r) v). unfold mbind at 1. change (stack_push (OList None) w) with (@Ok unit tt, pushed (OList None) w).
  unfold mbind at 1. cbn [collect_args Z.to_nat]. unfold mret at 1. unfold mbind at 1.
  assert (stack_pop (pushed (OList None) w) = (Ok (OList None), w)) as -> by (destruct v; reflexivity).
  unfold mbind. rewrite (set_top (OList r) (OList r) (stack v) w eq_refl). rewrite pop_none. destruct v; reflexivity.
Qed.

Lemma list_value_points v l xs : typed v -> list_value (objects v) l xs -> (forall p, l = Some p -> reach v p) -> opoints v is_cons l.
Proof.
  intros T H R p ->. split; [apply typed_reach_live; auto|]. inversion H; subst. eexists. split; [eassumption|exact I].
Qed.

Lemma apply_fixed host base next i n f name b u arity v l s xs : typed v -> in_step v -> at_pos v i f ->
  resolves (objects v) f (OClosure name (Some b) (Some u) arity false) -> stack v = OList l :: s -> list_value (objects v) l xs ->
  (n + zlen xs = arity -> exists c v', exec host base next (IApply i n) v = (Ok (Continue c), v') /\
     enters base next name b u c (uncaptured v) v' /\ stack v' = rev xs ++ s /\
     ustack v' = repeat None (length xs) ++ tl (ustack v)) /\
  (n + zlen xs < arity \/ arity < n -> exists v', exec host base next (IApply i n) v = (Err invalidValue, v')).
Proof.
  intros T Hs Hi H Es HL. pose proof (typed_uncaptured v l s T Hs Es) as Tu.
  destruct (apply_start host base next i n f _ v l s xs arity false name (Some b) (Some u) Hs Hi eq_refl H Es HL) as [r [Hr [Hl ->]]].
  set (m := Z.to_nat (arity - n)). unfold zlen. rewrite firstn_length. split.
  - intros E. assert (Nat.min m (length xs) = length xs) as -> by lia. rewrite firstn_all2 by lia.
    destruct (Z.eqb_spec arity (n + Z.of_nat (length xs))); [|lia]. unfold mbind, mret.
    destruct (resolves_typed (uncaptured v) f _ Tu H (at_in _ _ _ Hi)) as [W R].
    destruct (enter_spec base next name b u arity false (uncaptured v) (with_values xs (popped v))) as [c [v' [Ee [N [S1 [U1 _]]]]]]; auto.
    + repeat (split; [reflexivity|]). reflexivity.
    + intros z [-> | ->]; apply R; constructor.
    + exists c, v'. split; auto. split; auto. rewrite S1, U1. unfold with_values, popped. simpl. rewrite Es. auto.
  - intros E. unfold mbind. destruct (Z.eqb_spec arity (n + Z.of_nat (Nat.min m (length xs)))); [lia|]. eexists. reflexivity.
Qed.

Lemma apply_refused host base next i n f g v : at_pos v i f -> resolves (objects v) f g ->
  match g with OClosure _ _ _ _ _ => match stack v with OList _ :: _ => False | _ => True end | _ => True end ->
  in_step v -> exists v', exec host base next (IApply i n) v = (Err invalidValue, v').
Proof.
  intros Hi H K Hs. cbn [exec]. unfold apply_op. unfold mbind at 1. rewrite (sget_at v i f Hi). unfold mbind at 1 2. unfold mget at 1.
  rewrite (unwrap_resolves v f _ H). destruct g; try (eexists; reflexivity).
  unfold in_step in Hs. destruct Hi as [_ Hi]. unfold stack_pop, mbind, mget, mret, mset. destruct (stack v) as [|x xs]; [destruct (Z.to_nat (i - 1)); discriminate|].
  destruct (ustack v) as [|y ys]; [discriminate|]. destruct x; try (eexists; reflexivity). contradiction.
Qed.

Lemma apply_variadic host base next i n f name b u arity v l s xs : typed v -> in_step v -> at_pos v i f ->
  resolves (objects v) f (OClosure name (Some b) (Some u) arity true) -> stack v = OList l :: s -> list_value (objects v) l xs ->
  0 <= n <= zlen s -> 0 <= arity ->
  let zs := rev (firstn (Z.to_nat n) s) ++ xs in
  (zlen zs < arity -> exists v', exec host base next (IApply i n) v = (Err invalidValue, v')) /\
  (arity <= zlen zs -> call_result (2 * Z.to_nat (n - arity)) (exec host base next (IApply i n) v) v (fun c v' =>
    enters base next name b u c (uncaptured v) v' /\
    exists l', stack v' = OList l' :: rev (firstn (Z.to_nat arity) zs) ++ skipn (Z.to_nat n) s /\
      ustack v' = skipn (Z.to_nat (n - arity)) (None :: repeat None (Z.to_nat (arity - n)) ++ tl (ustack v)) /\
      list_value (objects v') l' (skipn (Z.to_nat arity) zs))).
Proof.
  intros T Hs Hi H Es HL Hn Ha zs. pose proof (typed_uncaptured v l s T Hs Es) as Tu.
  destruct (apply_start host base next i n f _ v l s xs arity true name (Some b) (Some u) Hs Hi eq_refl H Es HL) as [r [Hr [Hl ->]]].
  set (m := Z.to_nat (arity - n)) in *. unfold zlen, zs in *. rewrite app_length, rev_length, !firstn_length. unfold call_result. split.
  - intros E. unfold mbind. destruct (Z.ltb_spec (n + Z.of_nat (Nat.min m (length xs))) arity); [eexists; reflexivity|lia].
  - intros E. unfold mbind. destruct (Z.ltb_spec (n + Z.of_nat (Nat.min m (length xs))) arity); [lia|].
    destruct (resolves_typed (uncaptured v) f _ Tu H (at_in _ _ _ Hi)) as [W R].
    destruct (Z.le_gt_cases n arity) as [C|C].
    + left. replace (n + Z.of_nat (Nat.min m (length xs)) - arity) with 0 by lia. rewrite rest_none.
      destruct (enter_spec base next name b u arity true (uncaptured v) (pushed (OList r) (with_values (firstn m xs) (popped v)))) as [c [v' [Ee [N [S1 [U1 O1]]]]]]; auto.
      { repeat (split; [reflexivity|]). reflexivity. }
      { intros z [-> | ->]; apply R; constructor. }
      exists c, v'. split; auto. split; auto. exists r. rewrite S1, U1, O1. unfold pushed, with_values, popped. cbn [stack ustack set_stack set_ustack objects tl]. rewrite Es.
      cbn [tl]. replace (Z.to_nat (n - arity)) with 0%nat by lia. cbn [skipn]. rewrite firstn_length.
      assert (length (rev (firstn (Z.to_nat n) s)) = Z.to_nat n) as Ez by (rewrite rev_length, firstn_length; lia).
      replace (Z.to_nat arity) with (Z.to_nat n + m)%nat by lia.
      replace (firstn (Z.to_nat n + m) (rev (firstn (Z.to_nat n) s) ++ xs)) with (rev (firstn (Z.to_nat n) s) ++ firstn m xs).
      2: { rewrite <- Ez at 2. rewrite firstn_app_2. reflexivity. }
      replace (skipn (Z.to_nat n + m) (rev (firstn (Z.to_nat n) s) ++ xs)) with (skipn m xs).
      2: { rewrite skipn_app, (skipn_all2 (rev (firstn (Z.to_nat n) s))), Ez by lia. replace (Z.to_nat n + m - Z.to_nat n)%nat with m by lia. reflexivity. }
      rewrite rev_app_distr, rev_involutive, <- app_assoc, firstn_skipn. replace (Nat.min m (length xs)) with m by lia. auto.
    + assert (m = 0%nat) as Em by lia. rewrite Em in *. cbn [firstn Nat.min] in *. rewrite with_values_nil.
      cbn [skipn] in Hr. replace (n + Z.of_nat 0 - arity) with (n - arity) by lia. set (k := Z.to_nat (n - arity)).
      assert (r = l) as -> by auto.
      pose proof (uncaptured_pushed v l s Hs Es) as Epu.
      assert (opoints (popped v) is_cons l) as Pl.
      { intros p Ep. apply (same_points v); [split; reflexivity|]. apply (list_value_points v l xs); auto. intros q ->. apply (reach_in v (OList (Some q))); [rewrite Es; left; auto|constructor]. }
      pose proof (tot_rest (length (free v) < 2 * k)%nat (popped v) (n - arity) l xs (typed_popped v T) Pl HL
        ltac:(unfold zlen, popped; simpl; rewrite Es; simpl; lia) (popped_step v Hs) ltac:(fold k; unfold popped; simpl; lia)) as HR.
      unfold tot in HR. destruct (rest_list (n - arity) l (popped v)) as [r1 v1] eqn:Er.
      destruct r1 as [[]|e| |]; try contradiction.
      2: { right. destruct HR as [-> HK]. eauto. }
      left. destruct HR as [l1 [S1 [U1 [L1 [G1 [G2 [G3 [G4 [G5 [G6 G7]]]]]]]]]]. rewrite Epu in G7.
      destruct (enter_spec base next name b u arity true (uncaptured v) v1) as [c [v' [Ee [N [S2 [U2 O2]]]]]]; auto 10.
      { intros z [-> | ->]; apply R; constructor. }
      exists c, v'. split; auto. split; auto. exists l1. rewrite S2, U2, O2, S1, U1. fold k in L1 |- *. cbn [popped stack ustack set_stack set_ustack] in *.
      unfold popped in L1. cbn [stack set_stack set_ustack] in L1. rewrite Es in *. cbn [tl] in *.
      assert (firstn (Z.to_nat n) s = firstn k s ++ firstn (Z.to_nat arity) (skipn k s)) as Ef.
      { replace (Z.to_nat n) with (k + Z.to_nat arity)%nat by lia. rewrite <- (firstn_skipn k s) at 1.
        rewrite firstn_app. rewrite firstn_firstn, firstn_length. rewrite !Nat.min_r by lia. f_equal. f_equal. lia. }
      rewrite Ef, rev_app_distr, <- app_assoc.
      assert (length (rev (firstn (Z.to_nat arity) (skipn k s))) = Z.to_nat arity) as Ez by (rewrite rev_length, firstn_length, skipn_length; lia).
      set (x1 := rev (firstn (Z.to_nat arity) (skipn k s))) in *. set (x2 := rev (firstn k s) ++ xs) in *.
      replace (firstn (Z.to_nat arity) (x1 ++ x2)) with x1.
      2: { rewrite firstn_app, Ez, Nat.sub_diag, (firstn_all2 x1), app_nil_r by lia. reflexivity. }
      replace (skipn (Z.to_nat arity) (x1 ++ x2)) with x2.
      2: { rewrite skipn_app, Ez, Nat.sub_diag, (skipn_all2 x1) by lia. reflexivity. }
      unfold x1. rewrite rev_involutive. cbn [repeat app]. replace (Z.to_nat n) with (Z.to_nat arity + k)%nat by lia.
      rewrite <- skipn_twice, firstn_skipn. auto.
Qed.

(** * Returns *)

Definition replaced (n : Z) (o : object) (v : vm) : vm :=
  set_ustack (set_stack v (o :: skipn (S (Z.to_nat n)) (stack v))) (None :: skipn (S (Z.to_nat n)) (ustack v)).

Lemma pop_run n v : n <= zlen (stack v) -> in_step v ->
  stack_pop_multiple n v = (Ok tt, set_stack (set_ustack v (skipn (Z.to_nat n) (ustack v))) (skipn (Z.to_nat n) (stack v))).
Proof.
  intros H Hs. unfold in_step in Hs. unfold stack_pop_multiple, mbind, mget, mset, zlen in *. rewrite <- Hs.
  destruct (Z.ltb_spec (Z.of_nat (length (stack v))) n); [lia|]. reflexivity.
Qed.

Lemma return_replaces host base next n v top s : in_step v -> stack v = top :: s -> 0 <= n <= zlen s ->
  exec host base next (IReturn n) v = return_op (replaced n top v).
Proof.
  intros Hs Es Hn. cbn [exec]. assert (n <= zlen (stack v)) as Hn' by (rewrite Es; unfold zlen in *; cbn [length]; lia).
  unfold mbind, mget. rewrite (pop_run n v Hn' Hs). cbn [stack set_stack].
  pose proof (skipn_length (Z.to_nat n) (stack v)) as Lx. pose proof (skipn_length (Z.to_nat n) (ustack v)) as Ly. unfold in_step in Hs.
  assert (length (stack v) = S (length s)) as El by (rewrite Es; reflexivity). unfold zlen in *.
  destruct (skipn (Z.to_nat n) (stack v)) as [|x xs] eqn:Ex; [simpl in Lx; lia|].
  destruct (skipn (Z.to_nat n) (ustack v)) as [|y ys] eqn:Ey; [simpl in Ly; lia|].
  rewrite pop_run; [|unfold zlen; cbn [stack set_stack length]; lia|unfold in_step; cbn [stack ustack set_stack set_ustack length] in *; lia]. change (Z.to_nat 1) with 1%nat.
  unfold stack_push, mmod. cbn [stack ustack set_stack set_ustack skipn].
  unfold replaced. change (S (Z.to_nat n)) with (1 + Z.to_nat n)%nat. rewrite <- !skipn_twice, Ex, Ey. rewrite Es. reflexivity.
Qed.

Lemma return_op_run v f fs r us : call_stack v = f :: fs -> uacs v = r :: us ->
  return_op v = (Ok (Continue (PC (fr_code f) (fr_ip f))), set_calls v fs us).
Proof. intros E1 E2. unfold return_op, call_stack_pop, mbind, mget, mset, mret. rewrite E1, E2. reflexivity. Qed.

Lemma return_op_stop v : call_stack v = [] -> return_op v = (Ok Stop, v).
Proof. intros E1. unfold return_op, call_stack_pop, mbind, mget, merr. rewrite E1. reflexivity. Qed.

Lemma return_spec host base next n v top s f fs r us : in_step v -> stack v = top :: s -> 0 <= n <= zlen s ->
  call_stack v = f :: fs -> uacs v = r :: us ->
  exists v', exec host base next (IReturn n) v = (Ok (Continue (PC (fr_code f) (fr_ip f))), v') /\
    stack v' = top :: skipn (Z.to_nat n) s /\ ustack v' = None :: skipn (Z.to_nat n) (tl (ustack v)) /\
    call_stack v' = fs /\ uacs v' = us /\ objects v' = objects v /\ free v' = free v /\ globals v' = globals v /\
    globals_map v' = globals_map v /\ current_bytecode v' = current_bytecode v /\ next_user_type v' = next_user_type v.
Proof.
  intros Hs Es Hn E1 E2. rewrite (return_replaces host base next n v top s Hs Es Hn). rewrite (return_op_run _ f fs r us); auto.
  eexists. split; [reflexivity|]. unfold replaced. cbn. rewrite Es. unfold in_step in Hs. rewrite Es in Hs. destruct (ustack v); [discriminate|]. auto 12.
Qed.

Lemma return_halts host base next n v top s : in_step v -> stack v = top :: s -> 0 <= n <= zlen s -> call_stack v = [] ->
  exists v', exec host base next (IReturn n) v = (Ok Stop, v') /\ stack v' = top :: skipn (Z.to_nat n) s.
Proof.
  intros Hs Es Hn E1. rewrite (return_replaces host base next n v top s Hs Es Hn). rewrite return_op_stop; auto.
  eexists. split; [reflexivity|]. unfold replaced. cbn. rewrite Es. auto.
Qed.

(** What a step does to the stack of calls. *)
Definition calls_step (base : ptr) (next : pc) (v : vm) (c' : pc) (v' : vm) : Prop :=
  (call_stack v' = call_stack v /\ uacs v' = uacs v) \/
  (exists r, call_stack v' = Frame (pc_ip next) (pc_code next) (Some base) :: call_stack v /\ uacs v' = r :: uacs v) \/
  (exists f r, call_stack v = f :: call_stack v' /\ uacs v = r :: uacs v' /\ c' = PC (fr_code f) (fr_ip f)).

Lemma enter_calls base next f v c' v' : enter base next f v = (Ok (Continue c'), v') ->
  exists r, call_stack v' = Frame (pc_ip next) (pc_code next) (Some base) :: call_stack v /\ uacs v' = r :: uacs v.
Proof.
  unfold enter. destruct f; try discriminate. intros E. apply mbind_ok in E as [u [w [E1 E]]].
  assert (w = v) as ->.
  { unfold deref, mbind, mget, mret in E1. destruct upvalues as [q|]; [|discriminate]. destruct (nth_error (objects v) q); [congruence|discriminate]. }
  destruct u; try discriminate. unfold mbind at 1 in E. unfold call_stack_push, mmod in E.
  match type of E with context [set_calls v ?fs ?us] => set (w := set_calls v fs us) in E end.
  apply mbind_ok in E as [x [w' [E2 E]]]. assert (w' = w) as ->.
  { unfold deref, mbind, mget, mret in E2. destruct bytecode as [q|]; [|discriminate]. destruct (nth_error (objects w) q); [congruence|discriminate]. }
  destruct x; try discriminate. destruct code; try discriminate. destruct bytecode; try discriminate. injection E as _ <-.
  eexists. split; reflexivity.
Qed.

Lemma exec_calls host base next i v c' v' : quiet host -> exec host base next i v = (Ok (Continue c'), v') -> calls_step base next v c' v'.
Proof.
  intros Q E.
  assert (forall {A} (m : M A) w r w', pres_at calls_kept m w -> m w = (r, w') -> call_stack w' = call_stack w /\ uacs w' = uacs w) as K.
  { intros A m w r w' H Em. unfold pres_at in H. rewrite Em in H. unfold calls_kept in H. simpl in H. tauto. }
  assert (forall w, return_op w = (Ok (Continue c'), v') -> exists f r, call_stack w = f :: call_stack v' /\ uacs w = r :: uacs v' /\ c' = PC (fr_code f) (fr_ip f)) as HR.
  { intros w. unfold return_op, call_stack_pop, mbind, mget, mset, mret, merr. destruct (call_stack w) as [|f fs] eqn:E1; [discriminate|].
    destruct (uacs w) as [|r us] eqn:E2; [discriminate|]. intros Er. injection Er as <- <-. exists f, r. auto. }
  destruct (control i) eqn:C.
  2: { left. destruct i; try discriminate C; try (eapply K; [|exact E]; apply exec_calls_kept; auto; discriminate).
       cbn in E. injection E as _ <-. split; reflexivity. }
  destruct i; try discriminate C; cbn [exec] in E.
  - unfold funcall_op in E. apply mbind_ok in E as [f [w [E1 E]]]. apply mbind_ok in E as [g [w2 [E2 E]]].
    apply K in E1; [|eauto with pres]. apply K in E2; [|eauto with pres]. destruct E1 as [A1 A2], E2 as [B1 B2].
    assert (enter base next g w2 = (Ok (Continue c'), v') \/ exists k, (host k ;;; mret (Continue next)) w2 = (Ok (Continue c'), v')) as [He|[k He]].
    { destruct g; auto. right. eauto. }
    + right. left. destruct (enter_calls _ _ _ _ _ _ He) as [r [-> ->]]. exists r. split; congruence.
    + left. apply mbind_ok in He as [u [w3 [E3 He]]]. injection He as _ <-. pose proof (Q k w2) as Hq. rewrite E3 in Hq. simpl in Hq. split; [destruct Hq as [-> _]|destruct Hq as [_ [-> _]]]; congruence.
  - unfold apply_op in E. apply mbind_ok in E as [f [w [E1 E]]]. apply mbind_ok in E as [x [w0 [E0 E]]]. injection E0 as <- <-. apply mbind_ok in E as [g [w2 [E2 E]]].
    apply K in E1; [|eauto with pres]. apply K in E2; [|eauto with pres]. destruct E1 as [A1 A2], E2 as [B1 B2].
    destruct g; try discriminate. apply mbind_ok in E as [rest [w3 [E3 E]]]. apply K in E3; [|eauto with pres]. destruct rest; try discriminate.
    apply mbind_ok in E as [[k r] [w4 [E4 E]]]. apply K in E4; [|eauto with pres].
    apply mbind_ok in E as [u [w5 [E5 E]]].
    assert (call_stack w5 = call_stack w4 /\ uacs w5 = uacs w4) as [D1 D2].
    { destruct variadic; [destruct (_ <? _); [discriminate|]|destruct (_ =? _); [injection E5 as _ <-; auto|discriminate]]. eapply K; [|exact E5]. eauto with pres. }
    right. left. destruct (enter_calls _ _ _ _ _ _ E) as [rr [-> ->]]. exists rr. destruct E3, E4. split; congruence.
  - right. left. unfold mbind, call_stack_push, mmod, mret in E. injection E as _ <-. eexists. split; reflexivity.
  - right. right. apply HR; auto.
  - right. right. apply mbind_ok in E as [x [w0 [E0 E]]]. injection E0 as <- <-. apply mbind_ok in E as [u [w [E1 E]]]. apply mbind_ok in E as [x [w0 [E0 E]]]. injection E0 as <- <-.
    apply mbind_ok in E as [u2 [w2 [E2 E]]]. apply K in E1; [|eauto with pres]. destruct E1 as [A1 A2].
    assert (call_stack w2 = call_stack w /\ uacs w2 = uacs w) as [B1 B2].
    { destruct (stack w); [injection E2 as _ <-; auto|]. apply mbind_ok in E2 as [y [w3 [E3 E2]]]. apply K in E3; [|eauto with pres]. apply K in E2; [|eauto with pres]. destruct E3, E2. split; congruence. }
    destruct (HR w2 E) as [f [r [H1 [H2 H3]]]]. exists f, r. split; [congruence|]. split; [congruence|auto].
Qed.

Lemma step_calls host base c v c' v' : quiet host -> step host base c v = (Ok (Continue c'), v') ->
  exists i next, fetch v c i next /\ calls_step base next v c' v'.
Proof.
  intros Q E. destruct (step_fetch _ _ _ _ _ _ E I) as [i [next [F Ex]]]. exists i, next. split; auto. eapply exec_calls; eauto.
Qed.

Lemma running_calls host base c1 v1 l c2 v2 : quiet host -> steps host base c1 v1 l c2 v2 -> forall fs us k,
  Forall (fun w => (k <= length (call_stack w))%nat) (v1 :: l) -> length fs = k -> length us = k ->
  (exists a b, call_stack v1 = a ++ fs /\ uacs v1 = b ++ us /\ length a = length b) ->
  exists a b, call_stack v2 = a ++ fs /\ uacs v2 = b ++ us /\ length a = length b.
Proof.
  intros Q H. induction H as [c v|c v c1 v1 l c2 v2 E H IH]; intros fs us k F Hf Hu [a [b [Ea [Eb Hab]]]]; [eauto|].
  apply (IH fs us k); auto; [inversion F; auto|].
  assert (k <= length (call_stack v1))%nat as Hk by (inversion F as [|? ? _ F']; inversion F'; auto).
  destruct (step_calls _ _ _ _ _ _ Q E) as [i [next [_ [[E1 E2]|[[r [E1 E2]]|[f [r [E1 [E2 _]]]]]]]]].
  - exists a, b. rewrite E1, E2. auto.
  - exists (Frame (pc_ip next) (pc_code next) (Some base) :: a), (r :: b). rewrite E1, E2, Ea, Eb. simpl. auto.
  - rewrite Ea in E1. rewrite Eb in E2. destruct a as [|x a].
    + assert (length fs = S (length (call_stack v1))) by (simpl in E1; rewrite E1; reflexivity). lia.
    + destruct b as [|y b]; [discriminate|]. simpl in E1, E2. injection E1 as _ E1. injection E2 as _ E2. exists a, b. simpl in Hab. split; auto.
Qed.

(** A called function returns to the instruction after its call. *)
Lemma call_returns host base c v c1 v1 l c2 v2 c3 v3 : quiet host -> length (uacs v) = length (call_stack v) ->
  step host base c v = (Ok (Continue c1), v1) -> calls v v1 -> steps host base c1 v1 l c2 v2 -> still_running v l ->
  step host base c2 v2 = (Ok (Continue c3), v3) -> length (call_stack v3) = length (call_stack v) ->
  (exists i, fetch v c i c3) /\ call_stack v3 = call_stack v /\ uacs v3 = uacs v.
Proof.
  intros Q Hu E1 Hc H Hr E3 H3. unfold calls in Hc. unfold still_running in Hr.
  destruct (step_calls _ _ _ _ _ _ Q E1) as [i [next [F [[A1 _]|[[r [A1 A2]]|[f [r [A1 _]]]]]]]].
  1: { rewrite A1 in Hc. lia. }
  2: { rewrite A1 in Hc. simpl in Hc. lia. }
  set (fr := Frame (pc_ip next) (pc_code next) (Some base)) in *.
  destruct (running_calls host base c1 v1 l c2 v2 Q H (fr :: call_stack v) (r :: uacs v) (S (length (call_stack v)))) as [a [b [Ba [Bb Bab]]]].
  - constructor; [rewrite A1; simpl; auto|]. auto.
  - reflexivity.
  - simpl. auto.
  - exists [], []. auto.
  - destruct (step_calls _ _ _ _ _ _ Q E3) as [i3 [next3 [_ [[C1 _]|[[r3 [C1 C2]]|[f [r3 [C1 [C2 C3]]]]]]]]].
    + rewrite C1, Ba, app_length in H3. simpl in H3. lia.
    + rewrite C1, Ba in H3. cbn [length] in H3. rewrite app_length in H3. simpl in H3. lia.
    + destruct a as [|x a].
      * destruct b as [|y b]; [|discriminate]. rewrite Ba in C1. rewrite Bb in C2. simpl in C1, C2. injection C1 as C1 C1'. injection C2 as C2 C2'.
        split; [|auto]. exists i. subst f c3. unfold fr. simpl. destruct F as [code [ip [F1 [F2 ->]]]]. exists code, ip. auto.
      * rewrite Ba in C1. simpl in C1. injection C1 as _ C1. rewrite <- C1, app_length in H3. simpl in H3. lia.
Qed.

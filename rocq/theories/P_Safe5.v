(** Calls in a well-typed machine. *)
From Coq Require Import ZArith List Lia Arith Bool ZifyBool ZifyNat.
Import ListNotations.
From Verif Require Import M_Base M_Heap M_Instr M_VM S_Heap S_VM S_Num S_Cyclic S_Globals S_Types P_Heap P_Sort P_VM P_Exec P_Num P_Valid P_Cyclic P_Globals P_Types P_Safe P_Safe2 P_Safe3 P_Safe4.
Open Scope Z_scope.

Lemma sem_pop_multiple v n U : typed v ->
  sem v (stack_pop_multiple n) (fun _ v' => typed v' /\ stack v' = skipn (Z.to_nat n) (stack v) /\ same_heap v v' /\
    call_stack v' = call_stack v /\ uacs v' = uacs v /\ current_bytecode v' = current_bytecode v) typed U.
Proof.
  intros T. unfold stack_pop_multiple. apply sem_get. destruct (_ <? n); [apply sem_err; auto|].
  assert (forall A (l : list A) k x, In x (skipn k l) -> In x l) as SK.
  { intros A l k x H. rewrite <- (firstn_skipn k l). apply in_or_app. auto. }
  apply sem_bind. eapply sem_call; [reflexivity|].
  assert (typed (set_ustack v (skipn (Z.to_nat n) (ustack v)))) as T1.
  { apply typed_set_ustack; auto. intros p Hp. apply T. eapply SK; eauto. }
  destruct (_ <? n); [apply sem_err; auto|]. eapply sem_call; [reflexivity|].
  split; [|split; [reflexivity|]].
  - apply typed_set_stack; auto. intros o Ho. apply T1. eapply SK; eauto.
  - split; [split; reflexivity|]. auto.
Qed.

Lemma sem_pop v (E : vm -> Prop) U : typed v -> (forall v', typed v' -> E v') ->
  sem v stack_pop (fun o v' => typed v' /\ stack v = o :: stack v' /\ same_heap v v' /\
    call_stack v' = call_stack v /\ uacs v' = uacs v /\ current_bytecode v' = current_bytecode v) E U.
Proof.
  intros T HE. unfold stack_pop. apply sem_get. destruct (stack v) as [|o s] eqn:Es; [apply sem_err; auto|].
  apply sem_bind. eapply sem_call; [reflexivity|].
  assert (typed (set_stack v s)) as T1.
  { apply typed_set_stack; auto. intros x Hx. apply T. rewrite Es. right; auto. }
  destruct (ustack v) as [|u us] eqn:Eu; [apply sem_err; auto|].
  apply sem_bind. eapply sem_call; [reflexivity|]. apply sem_ret.
  split; [|split; [auto|split; [split; reflexivity|auto]]].
  apply typed_set_ustack; auto. intros p Hp. apply (ty_ustack _ _ T1). simpl. rewrite Eu. right; auto.
Qed.

(** * Composites as functions *)

Definition closed_in (v : vm) (S : ptr -> Prop) : Prop :=
  forall p x q, S p -> nth_error (objects v) p = Some x -> refers x q -> S q.

Lemma reach_closed v v' : same_heap v v' -> closed_in v (reach v').
Proof. intros [H _] p x q Rp Ex Rq. eapply reach_step; [exact Rp| |exact Rq]. congruence. Qed.

Lemma sem_unwrap fuel : forall v o, typed v -> val v o ->
  sem v (unwrap fuel o) (fun r v' => v' = v /\ val v r /\ (forall S, closed_in v S ->
    (forall p, refers o p -> S p) -> forall p, refers r p -> S p) /\ (r <> o -> exists c, o = OComposite c)) typed (exists c, o = OComposite c).
Proof.
  induction fuel as [|f IH]; intros v o T V; destruct o; try (apply sem_ret; split; [auto|]; split; [auto|]; split; [auto|intros H; congruence]); cbn [unwrap].
  - exact I.
  - apply sem_bind. eapply sem_weaken; [apply sem_composite_get; auto; apply V|].
    intros [[t x] g] v' [-> [p [-> [L [En [Px Pg]]]]]]. cbn [fst snd] in *.
    apply sem_bind. destruct g as [g|].
    + destruct (Pg g eq_refl) as [Lg [o [Eg Fg]]].
      assert (val v o) as Vo by (split; auto; eapply (ty_objects _ _ T); eauto).
      eapply sem_call; [unfold deref, mbind, mget, mret; rewrite Eg; reflexivity|].
      eapply sem_weaken_u; [eapply sem_weaken; [apply IH; auto|]|eauto].
      intros r v' [-> [Vr [Hr _]]]. split; auto. split; auto. split; [|eauto]. intros S CS HS. apply Hr; auto.
      intros q Rq. eapply CS; [|exact Eg|exact Rq]. eapply CS; [apply HS; constructor|exact En|constructor].
    + apply sem_ub. eauto.
Qed.

(** * Growing machines *)

(** [w] has all the roots of [v], and what [v] reaches is the same in both. *)
Record extends (v w : vm) : Prop := {
  ex_stack : incl (stack v) (stack w);
  ex_ustack : forall q, In (Some q) (ustack v) -> In (Some q) (ustack w);
  ex_globals : globals w = globals v;
  ex_calls : call_stack w = call_stack v;
  ex_current : current_bytecode w = current_bytecode v;
  ex_same : forall p, reach v p -> nth_error (objects w) p = nth_error (objects v) p
}.

Lemma extends_refl v : extends v v.
Proof. constructor; auto. intros x; auto. Qed.

Lemma extends_reach v w p : extends v w -> reach v p -> reach w p.
Proof.
  intros H R. induction R as [p R|p x r R IH E F].
  - apply reach_root. destruct R.
    + eapply root_stack; eauto. apply (ex_stack _ _ H); auto.
    + apply root_ustack. apply (ex_ustack _ _ H); auto.
    + apply root_global. rewrite (ex_globals _ _ H); auto.
    + eapply root_frame. rewrite (ex_calls _ _ H); eauto.
    + apply root_current. rewrite (ex_current _ _ H); auto.
  - eapply reach_step; eauto. rewrite (ex_same _ _ H); auto.
Qed.

Lemma extends_new v w o q w' : extends v w -> new_object o w q w' -> extends v w'.
Proof.
  intros H N. pose proof (no_roots _ _ _ _ N) as (A1 & A2 & A3 & A4 & A5 & A6 & A7 & A8).
  constructor; rewrite ?A1, ?A2, ?A3, ?A5, ?A7; try apply H.
  intros p R. rewrite (no_same _ _ _ _ N); [apply H; auto|]. eapply extends_reach; eauto.
Qed.

Lemma extends_set_stack v w s : extends v w -> incl (stack v) s -> extends v (set_stack w s).
Proof. intros H Hs. constructor; auto; apply H. Qed.

Lemma extends_keeps v w : typed w -> extends v w -> keeps (reach v) v w.
Proof.
  intros T H p R L. split; [eapply typed_reach_live; eauto; eapply extends_reach; eauto|].
  intros x Ex. rewrite (ex_same _ _ H); eauto using like_refl.
Qed.

Lemma extends_well_typed v w o : typed w -> extends v w -> (forall p, refers o p -> reach v p) ->
  well_typed v o -> well_typed w o.
Proof. intros T H R W. eapply well_typed_keeps; eauto. apply extends_keeps; auto. Qed.

(** * Collecting arguments *)

(** Two stack objects with the same pointers are the same to the collector. *)
Lemma mark_all_swap v x y s : children x = children y ->
  mark_all (set_stack v (x :: s)) = mark_all (set_stack v (y :: s)).
Proof.
  intros H. unfold mark_all. cbn [stack set_stack objects ustack globals call_stack current_bytecode].
  assert (forall u, foldM (mark_stack_object (objects v)) (rev (x :: s)) u = foldM (mark_stack_object (objects v)) (rev (y :: s)) u) as E.
  { intros u. simpl rev. generalize (rev s) as l. intros l. revert u. induction l as [|z l IH]; intros u; simpl.
    - unfold mark_stack_object. rewrite H. reflexivity.
    - destruct (mark_stack_object (objects v) u z); simpl; auto. }
  rewrite E. reflexivity.
Qed.

Lemma alloc_swap v o x y s : children x = children y ->
  alloc o (set_stack v (y :: s)) =
  let (r, w) := alloc o (set_stack v (x :: s)) in (r, set_stack w (y :: s)).
Proof.
  intros H. unfold alloc, mbind, push_object, garbage_collect. cbn [free set_stack].
  destruct (free v) as [|f fr] eqn:Ef.
  - rewrite (mark_all_swap v x y s H). destruct (mark_all _) as [used|e| |]; simpl; auto.
    destruct (sweep _ _ _ _ _) as [[os fr'] ev]. cbn. destruct fr'; reflexivity.
  - cbn. rewrite Ef. reflexivity.
Qed.

(** The machine while arguments are collected: the top of the stack is [OList p], where [p] is no
    list but must be kept; [w] is the same machine with a harmless object there. *)
Definition collecting (v0 : vm) (s : list object) (last : optr) (v : vm) : Prop :=
  exists p w, extends v0 w /\ typed w /\ stack w = OUser 0 false [p] :: OList last :: s /\
    v = set_stack w (OList p :: OList last :: s) /\ opoints w is_cons last.

Lemma set_stack_same w s : stack w = s -> set_stack w s = w.
Proof. intros <-. destruct w; reflexivity. Qed.

Lemma collecting_alloc s last v o (E : vm -> Prop) (U : Prop) p w :
  typed w -> stack w = OUser 0 false [p] :: OList last :: s -> v = set_stack w (OList p :: OList last :: s) ->
  storable o -> well_typed w o -> (forall q, refers o q -> reach w q) -> (forall v', E v') ->
  sem v (alloc o) (fun r v' => exists q w', r = Some q /\ typed w' /\ stack w' = stack w /\
    v' = set_stack w' (OList p :: OList last :: s) /\ new_object o w q w') E U.
Proof.
  intros T Es -> So Wo Ro HE.
  pose proof (sem_alloc w o U T So Wo Ro) as H. unfold sem in *.
  rewrite (alloc_swap w o (OUser 0 false [p]) (OList p) (OList last :: s)) by reflexivity.
  rewrite <- Es, (set_stack_same w _ eq_refl).
  destruct (alloc o w) as [[r|e| |] w']; auto. destruct H as [q [-> [T' N]]].
  exists q, w'. split; auto. split; auto. split; [apply (new_stack _ _ _ _ N)|]. auto.
Qed.

Lemma sset_slot v d x l l' (Q : unit -> vm -> Prop) (E : vm -> Prop) U : stack v = l -> list_set l d x = l' -> (d < length l)%nat ->
  Q tt (set_stack v l') -> sem v (sset_raw (Z.of_nat d) x) Q E U.
Proof.
  intros <- <- H HQ. unfold sset_raw. apply sem_get. unfold raw_set, abs_set, zlen. destruct (_ || _) eqn:C; [lia|].
  apply sem_bind. eapply sem_call; [reflexivity|]. eapply sem_call; [reflexivity|].
  replace (Z.to_nat _) with d by lia. auto.
Qed.

Lemma sem_collect v0 s n : incl (stack v0) s -> forall k last v (E : vm -> Prop) (U : Prop), collecting v0 s last v -> (k <= length s)%nat ->
  ((length s < k + n)%nat -> U) -> (forall v', E v') ->
  sem v (collect_args n (Z.of_nat k) last) (fun r v' => collecting v0 s r v' /\ (k + n <= length s)%nat /\ call_stack v' = call_stack v /\
    current_bytecode v' = current_bytecode v) E U.
Proof.
  intros Hi. induction n as [|n IH]; intros k last v E U H Hn HU HE; cbn [collect_args].
  { apply sem_ret. split; auto. split; [lia|auto]. }
  destruct H as [p [w [Hx [T [Es [-> Pl]]]]]]. apply sem_get. cbn [stack set_stack].
  apply sem_bind. destruct (Nat.eq_dec k (length s)) as [Hk|Hk].
  { unfold sem, mlift, raw_get, abs_get, zlen. cbn [length]. destruct (_ || _) eqn:C; [apply HU; lia|lia]. }
  assert (exists o, raw_get (OList p :: OList last :: s) (zlen (OList p :: OList last :: s) - 3 - Z.of_nat k) = Ok o /\ In o s) as [o [Eo Ho]].
  { unfold raw_get, abs_get, zlen. cbn [length]. destruct (_ || _) eqn:C; [lia|].
    replace (Z.to_nat _) with (S (S k)) by lia. cbn [nth_error].
    destruct (nth_error s k) as [o|] eqn:No; [|apply nth_error_None in No; lia]. exists o. split; auto. eapply nth_error_In; eauto. }
  eapply sem_call; [unfold mlift; rewrite Eo; reflexivity|].
  assert (In o (stack w)) as How by (rewrite Es; right; right; auto).
  destruct (val_in w o T How) as [Fo Wo].
  apply sem_bind. eapply sem_weaken; [apply (collecting_alloc s last _ o E U p w); auto|].
  { destruct o; simpl in *; auto. }
  { intros q Rq. eapply reach_in; eauto. }
  intros r v1 [q [w1 [-> [T1 [Es1 [-> N1]]]]]].
  pose proof (no_roots _ _ _ _ N1) as (A1 & A2 & A3 & A4 & A5 & A6 & A7 & A8).
  assert (points w1 first_class q) as Pq by (apply (new_points o w); auto; intros m; rewrite stored_first_class; auto).
  assert (opoints w1 is_cons last) as Pl1.
  { intros z ->. apply (points_keeps (reach w) w); auto with stable; [apply N1|].
    apply (reach_in w (OList (Some z))); [rewrite Es; right; left; auto|constructor]. }
  apply sem_bind. apply (sset_slot _ 0 (OList (Some q)) _ (OList (Some q) :: OList last :: s) _ _ _ eq_refl); [reflexivity|simpl; lia|].
  set (w2 := set_stack w1 (OUser 0 false [Some q] :: OList last :: s)).
  assert (typed w2) as T2.
  { apply typed_set_stack; auto. rewrite Es1, Es in *. intros x [<-|Hx'].
    - split; [exact I|]. simpl. intros z [Hz|[]]. injection Hz as <-. destruct Pq as [L [y [Ey _]]]. split; auto. exists y. split; auto. exact I.
    - apply (ty_stack _ _ T1). rewrite Es1. right; auto. }
  change (set_stack (set_stack w1 (OList p :: OList last :: s)) (OList (Some q) :: OList last :: s))
    with (set_stack w2 (OList (Some q) :: OList last :: s)).
  assert (well_typed w2 (OCons (Some q) last)) as Wc.
  { split.
    - intros z Ez. injection Ez as <-. apply (same_points w1); [split; reflexivity|]. destruct Pq as [L [y [Ey Ky]]].
      split; auto. exists y. split; auto. left; auto.
    - intros z Ez. apply (same_points w1); [split; reflexivity|]. destruct (Pl1 z Ez) as [L [y [Ey Ky]]].
      split; auto. exists y. split; auto. right; auto. }
  apply sem_bind. eapply sem_weaken; [apply (collecting_alloc s last _ (OCons (Some q) last) E U (Some q) w2); simpl; auto|].
  { intros z Rz. inversion Rz; subst.
    - apply (reach_in w2 (OUser 0 false [Some z])); [left; auto|constructor; left; auto].
    - apply (reach_in w2 (OList (Some z))); [right; left; auto|constructor]. }
  intros r v3 [c [w3 [-> [T3 [Es3 [-> N3]]]]]].
  pose proof (no_roots _ _ _ _ N3) as (B1 & B2 & B3 & B4 & B5 & B6 & B7 & B8).
  assert (points w3 is_cons c) as Pc by (apply (new_points (OCons (Some q) last) w2); auto; intros m; exact I).
  apply sem_bind. apply (sset_slot _ 1 (OList (Some c)) _ (OList (Some q) :: OList (Some c) :: s) _ _ _ eq_refl); [reflexivity|simpl; lia|].
  replace (Z.of_nat k + 1) with (Z.of_nat (S k)) by lia.
  eapply sem_weaken; [apply (IH (S k)); auto; [|lia|intros Hlt; apply HU; lia]|].
  - exists (Some q), (set_stack w3 (OUser 0 false [Some q] :: OList (Some c) :: s)). split; [|split; [|split; [reflexivity|split; [reflexivity|]]]].
    + apply extends_set_stack; [|intros x Hx'; right; right; apply Hi; auto]. eapply extends_new; [|exact N3].
      apply extends_set_stack; [|intros x Hx'; right; right; apply Hi; auto]. eapply extends_new; eauto.
    + apply typed_set_stack; auto. intros x [<-|[<-|Hx']].
      * apply (ty_stack _ _ T3). rewrite Es3. left; auto.
      * split; [exact I|]. simpl. intros z Ez. injection Ez as <-. auto.
      * apply (ty_stack _ _ T3). rewrite Es3. right; right; auto.
    + intros z Ez. injection Ez as <-. auto.
  - intros r v4 [H4 [C0 [C1 C2]]]. split; auto. split; [lia|]. split.
    + rewrite C1. simpl. simpl in B5. congruence.
    + rewrite C2. simpl. simpl in B7. congruence.
Qed.

Lemma sem_rest v n last (E : vm -> Prop) (U : Prop) : typed v -> opoints v is_cons last -> 0 <= n ->
  (zlen (stack v) < n -> U) -> (forall v', E v') ->
  sem v (rest_list n last) (fun _ v' => typed v' /\ call_stack v' = call_stack v /\
    current_bytecode v' = current_bytecode v /\
    forall o, (forall p, refers o p -> reach v p) -> well_typed v o -> well_typed v' o) E U.
Proof.
  intros T Pl Hn HU HE. unfold rest_list. apply sem_bind. eapply sem_call; [reflexivity|].
  apply sem_bind. eapply sem_call; [reflexivity|].
  set (v1 := pushed (OList last) v). change (sem (pushed (OList None) v1) (l <~ collect_args (Z.to_nat n) 0 last;; (stack_pop;;; (sset_raw n (OList l);;; stack_pop_multiple n)))
    (fun _ v' => typed v' /\ call_stack v' = call_stack v /\ current_bytecode v' = current_bytecode v /\
    forall o, (forall p, refers o p -> reach v p) -> well_typed v o -> well_typed v' o) E U).
  assert (typed v1) as T1 by (apply typed_pushed; auto; exact I).
  apply sem_bind. change 0 with (Z.of_nat 0).
  eapply sem_weaken; [apply (sem_collect v (stack v) (Z.to_nat n) (fun x h => h) 0 last); auto|].
  - exists None, (pushed (OUser 0 false [None]) v1). split; [|split; [|split; [reflexivity|split; [reflexivity|]]]].
    + constructor; auto; [intros x Hx; right; right; auto|intros q Hq; right; right; auto].
    + apply typed_pushed; auto; [exact I|]. simpl. intros p [Hp|[]]. discriminate.
    + intros z Ez. apply (same_points v); [split; reflexivity|auto].
  - lia.
  - intros Hlt. apply HU. unfold zlen. lia.
  - intros l v2 [[p [w [Hx [T2 [Es [-> P2]]]]]] [C0 [C1 C2]]]. simpl in C1, C2.
    apply sem_bind. unfold stack_pop. apply sem_get. cbn [stack set_stack ustack].
    apply sem_bind. eapply sem_call; [reflexivity|].
    destruct (ustack w) as [|u us] eqn:Eu; [apply sem_err; auto|].
    apply sem_bind. eapply sem_call; [reflexivity|]. apply sem_ret.
    set (v3 := set_ustack (set_stack w (OList l :: stack v)) us).
    assert (typed v3) as T3.
    { apply typed_set_ustack.
      - apply typed_set_stack; auto. intros x Hx'. apply (ty_stack _ _ T2). rewrite Es. right; auto.
      - intros z Hz. apply (same_points w); [split; reflexivity|]. apply (ty_ustack _ _ T2). rewrite Eu. right; auto. }
    change (sem v3 (sset_raw n (OList l);;; stack_pop_multiple n)
      (fun _ v' => typed v' /\ call_stack v' = call_stack v /\ current_bytecode v' = current_bytecode v /\
    forall o, (forall p, refers o p -> reach v p) -> well_typed v o -> well_typed v' o) E U).
    apply sem_bind. replace n with (Z.of_nat (Z.to_nat n)) at 1 by lia.
    apply (sset_slot v3 (Z.to_nat n) (OList l) (OList l :: stack v) _ _ _ _ eq_refl eq_refl); [simpl; lia|].
    assert (val v3 (OList l)) as Vl by (apply val_in; auto; left; auto).
    assert (typed (set_stack v3 (list_set (stack v3) (Z.to_nat n) (OList l)))) as T4 by (apply typed_replaced; auto).
    eapply sem_weaken_e; [eapply sem_weaken; [apply (sem_pop_multiple _ n U T4)|]|auto].
    intros r v5 [T5 [_ [Hh [D1 [_ D2]]]]]. split; auto. simpl in D1, D2. split; [congruence|]. split; [congruence|].
    intros o Ro Wo. apply (same_well_typed w); [destruct Hh as [Hh1 Hh2]; split; simpl in *; congruence|]. eapply extends_well_typed; eauto.
Qed.

(** * Entering a closure *)

Lemma sem_enter v base ret f (E : vm -> Prop) U : typed v -> current_bytecode v = Some base -> val v f ->
  match f with OClosure _ _ _ _ _ => True | _ => False end ->
  sem v (enter base ret f) (fun _ v' => typed v') E U.
Proof.
  intros T Cb [_ W] Hf. destruct f; try contradiction. destruct W as [Wa [[b [-> Pb]] [u [-> Pu]]]].
  unfold enter. destruct (object_points v _ u T Pu) as [x [Ed [Ex [K _]]]].
  apply sem_bind. eapply sem_call; [exact Ed|]. destruct x; simpl in K; try contradiction.
  apply sem_bind. eapply sem_call; [reflexivity|]. cbn beta.
  match goal with |- sem ?w _ _ _ _ => set (v1 := w) end.
  assert (typed v1) as T1.
  { apply typed_set_calls; auto. intros i k p [Hp|Hp]; [|eapply T; eauto]. injection Hp as <- <- <-. apply T; auto. }
  assert (points v1 is_code b) as P1 by (apply (same_points v); [split; reflexivity|auto]).
  destruct (object_points v1 _ b T1 P1) as [y [Ed1 [Ey [Ky _]]]].
  apply sem_bind. eapply sem_call; [exact Ed1|]. destruct y as [| | | | | | | | | | | | | | | | |i c| |]; simpl in Ky; try contradiction.
  destruct c; [|contradiction]. apply sem_ret. auto.
Qed.

Lemma sem_prepare v f args (U : Prop) : typed v -> In f (stack v) -> operand args ->
  ((exists c, f = OComposite c) -> U) -> (zlen (stack v) < args -> U) ->
  sem v (prepare_for_funcall f args) (fun g v' => typed v' /\ val v' g /\ current_bytecode v' = current_bytecode v /\
    match g with OFunction _ | OClosure _ _ _ _ _ => True | _ => False end) (fun _ => True) U.
Proof.
  intros T Hf Ha HU1 HU2. pose proof (val_in v f T Hf) as V. unfold prepare_for_funcall. apply sem_get. apply sem_bind.
  eapply sem_weaken_e; [eapply sem_weaken_u; [eapply sem_weaken; [apply sem_unwrap; auto|]|exact HU1]|auto].
  intros g v' [-> [Vg [Rg' _]]].
  assert (forall p, refers g p -> reach v p) as Rg.
  { apply Rg'; [apply reach_closed; split; reflexivity|]. intros p Rp. eapply reach_in; eauto. } destruct g; try (apply sem_err; auto; fail).
  - apply sem_ret. auto.
  - destruct variadic.
    + destruct (Z.ltb_spec args arity) as [Hlt|Hge]; [apply sem_err; auto|].
      destruct Vg as [Fg Wg]. pose proof Wg as [Wa _].
      apply sem_bind. eapply sem_weaken; [apply sem_rest; auto; [intros z; discriminate|lia|intros; apply HU2; lia]|].
      intros r v1 [T1 [C1 [C2 C3]]]. apply sem_ret. split; auto. split; [|auto]. split; auto.
    + destruct (arity =? args); [apply sem_ret; auto|apply sem_err; auto].
Qed.

Definition keeps_globals (v v' : vm) : Prop := globals_ok v -> globals_ok v'.
Lemma globals_simple : simple keeps_globals.
Proof.
  assert (forall v v', globals v' = globals v -> globals_map v' = globals_map v -> keeps_globals v v') as H.
  { intros v v' A B. unfold keeps_globals, globals_ok. rewrite A, B. auto. }
  constructor; simpl; intros; try (apply H; auto; fail).
  - unfold keeps_globals in *. auto.
  - pose proof (push_object_heap_only o v) as P. unfold heap_only in P. apply H; tauto.
  - unfold stack_pop, mbind, mget, mset, mret, merr. destruct (stack v); simpl; [apply H; auto|].
    destruct (ustack v); simpl; apply H; auto.
  - unfold stack_pop_multiple, mbind, mget, mset, merr. destruct (_ <? _); simpl; [apply H; auto|].
    destruct (_ <? _); simpl; apply H; auto.
Qed.
Lemma sem_pres {A} v (m : M A) Q E U (R : vm -> vm -> Prop) : sem v m Q E U -> pres_at R m v ->
  sem v m (fun a v' => Q a v' /\ R v v') E U.
Proof. unfold sem, pres_at. destruct (m v) as [[a|e| |] v']; auto. Qed.

Lemma sem_funcall v host base ret i args (U : Prop) : typed v -> globals_ok v -> polite host -> current_bytecode v = Some base -> operand args ->
  ((exists c, at_pos v i (OComposite c)) -> U) -> (zlen (stack v) < args -> U) ->
  sem v (funcall_op host base ret i args) (fun _ v' => typed v') (fun _ => True) U.
Proof.
  intros T G Hh Cb Ha HU1 HU2. unfold funcall_op. apply sem_bind. apply sem_sget; auto. intros f Pf Hf.
  apply sem_bind. eapply sem_weaken.
  { apply sem_pres; [apply sem_prepare; auto|apply (s_prepare _ globals_simple)]. intros [c ->]. apply HU1. eauto. }
  intros g v1 [[T1 [V1 [C1 K]]] G1]. specialize (G1 G). destruct g; try contradiction.
  - apply sem_bind. specialize (Hh callback v1 T1 G1). unfold sem. destruct (host callback v1) as [[u|e| |] v2]; auto. contradiction.
  - apply sem_enter; auto. congruence.
Qed.

(** * Apply *)

Lemma chain_next os l k q a r : chain os l k q -> nth_error os q = Some (OCons a (Some r)) -> chain os l (S k) r.
Proof. intros. econstructor; eauto. Qed.

Lemma sem_spread l0 n : forall v rest k (E : vm -> Prop) U, typed v -> (forall v', E v') ->
  (rest <> None -> forall k q x, chain (objects v) l0 k q -> nth_error (objects v) q = Some x -> is_cons x) ->
  (forall q, rest = Some q -> chain (objects v) l0 k q /\ points v is_cons q) ->
  sem v (spread n rest) (fun r v' => typed v' /\ opoints v' is_cons (snd r) /\ same_heap v v' /\ 0 <= fst r <= Z.of_nat n /\
    zlen (stack v') = zlen (stack v) + fst r /\ (exists s, stack v' = s ++ stack v) /\
    (forall q, In (Some q) (ustack v) -> In (Some q) (ustack v')) /\
    globals v' = globals v /\ call_stack v' = call_stack v /\ current_bytecode v' = current_bytecode v) E U.
Proof.
  induction n as [|n IH]; intros v rest k E U T HE HC HR; cbn [spread].
  { assert (opoints v is_cons rest) by (intros q Hq; apply HR; auto).
    destruct rest; apply sem_ret; cbn [fst snd]; (split; [auto|]); (split; [auto|]); (split; [split; reflexivity|]); (split; [lia|]);
      (split; [lia|]); (split; [exists []; reflexivity|]); auto. }
  destruct rest as [l|].
  2: { apply sem_ret. cbn [fst snd]. split; auto. split; [intros q; discriminate|]. split; [split; reflexivity|]. split; [lia|].
       split; [lia|]. split; [exists []; reflexivity|]. auto. }
  destruct (HR l eq_refl) as [Cl Pl]. destruct (object_points v _ l T Pl) as [x [Ed [Ex [K [W L]]]]].
  apply sem_bind. eapply sem_call; [exact Ed|]. destruct x; simpl in K; try contradiction. destruct W as [Wa Wd].
  apply sem_bind. eapply sem_weaken; [apply sem_unbox; auto|]. intros o v' [-> Vo].
  apply sem_bind. eapply sem_call; [reflexivity|]. cbn beta.
  set (v1 := pushed o v). change (sem v1 (' (k0, r) <~ spread n cdr;; mret (k0 + 1, r)) (fun r v' => typed v' /\ opoints v' is_cons (snd r) /\ same_heap v v' /\ 0 <= fst r <= Z.of_nat (S n) /\
    zlen (stack v') = zlen (stack v) + fst r /\ (exists s, stack v' = s ++ stack v) /\
    (forall q, In (Some q) (ustack v) -> In (Some q) (ustack v')) /\
    globals v' = globals v /\ call_stack v' = call_stack v /\ current_bytecode v' = current_bytecode v) E U).
  assert (typed v1) as T1 by (apply typed_pushed; auto; apply Vo).
  apply sem_bind. eapply sem_weaken; [apply (IH v1 cdr (S k)); auto|].
  - intros _. apply HC. discriminate.
  - intros q ->. pose proof (chain_next _ _ _ _ _ _ Cl Ex) as Cq. split; auto.
    destruct (Wd q eq_refl) as [Lq [y [Ey _]]]. split; [auto|]. exists y. split; auto. eapply HC; eauto. discriminate.
  - intros [m r] v2 [T2 [P2 [H2 [B2 [Z2 [[s S2] [U2 [G2 [C2 D2]]]]]]]]]. apply sem_ret. cbn [fst snd] in *.
    split; auto. split; auto. split; [destruct H2; split; auto|]. split; [lia|].
    assert (zlen (stack v1) = zlen (stack v) + 1) as Zs by (unfold zlen, v1; simpl; lia).
    split; [lia|]. split; [exists (s ++ [o]); rewrite S2, <- app_assoc; reflexivity|].
    split; auto. intros q Hq. apply U2. right; auto.
Qed.

Lemma sem_apply v base ret i args (U : Prop) : typed v -> current_bytecode v = Some base -> operand args ->
  (forall l k q x, hd_error (stack v) = Some (OList (Some l)) -> chain (objects v) l k q ->
     nth_error (objects v) q = Some x -> is_cons x) ->
  ((exists c, at_pos v i (OComposite c)) -> U) -> (zlen (stack v) - 1 < args -> U) ->
  sem v (apply_op base ret i args) (fun _ v' => typed v') (fun _ => True) U.
Proof.
  intros T Cb Ha HC HU1 HU2. unfold apply_op. apply sem_bind. apply sem_sget; auto. intros f Pf Hf.
  apply sem_get. apply sem_bind.
  eapply sem_weaken_e; [eapply sem_weaken_u; [eapply sem_weaken; [apply sem_unwrap; auto; apply val_in; auto|]|]|auto].
  2: { intros [c ->]. apply HU1. eauto. }
  intros g v' [-> [Vg [Rg Hg]]]. destruct g as [| | | | | | | |nm bc uv arity variadic| | | | | | | | | | |]; try (apply sem_err; auto; fail).
  set (g := OClosure nm bc uv arity variadic) in *.
  apply sem_bind. eapply sem_weaken; [apply sem_pop; auto|]. intros rest v1 [T1 [S1 [H1 [C1 [_ D1]]]]].
  destruct rest as [| | | | |l| | | | | | | | | | | | | |]; try (apply sem_err; auto; fail).
  assert (val v (OList l)) as [_ Vl] by (apply val_in; auto; rewrite S1; left; auto). simpl in Vl.
  pose proof Vg as [Fg Wg]. pose proof Wg as [Wa _].
  assert (In f (stack v1)) as Hf1.
  { rewrite S1 in Hf. destruct Hf as [<-|Hf]; auto. destruct Hg as [c Hc]; discriminate. }
  apply sem_bind. eapply sem_weaken.
  { apply (sem_spread (match l with Some l => l | None => 0%nat end) _ v1 l 0); auto.
    - intros Hl. destruct l as [l|]; [|congruence]. destruct H1 as [-> _]. intros k q x Cq Eq. eapply HC; eauto. rewrite S1. reflexivity.
    - intros q ->. split; [constructor|]. apply (same_points v); auto. }
  intros [k r] v2 [T2 [P2 [H2 [B2 [Z2 [[s S2] [U2 [G2 [C2 D2]]]]]]]]]. cbn [fst snd] in *.
  assert (same_heap v v2) as H02 by (destruct H1, H2; split; congruence).
  assert (forall p, refers g p -> reach v2 p) as Rg2.
  { apply Rg; [apply reach_closed; auto|]. intros p Rp. apply (reach_in v2 f); auto. rewrite S2. apply in_or_app; auto. }
  assert (well_typed v2 g) as W2 by (apply (same_well_typed v); auto).
  assert (zlen (stack v) = zlen (stack v1) + 1) as Zs by (rewrite S1; unfold zlen; simpl; lia).
  apply sem_bind. destruct variadic.
  - destruct (Z.ltb_spec (args + k) arity) as [Hlt|Hge]; [apply sem_err; auto|].
    eapply sem_weaken; [apply sem_rest; auto; [lia|intros; apply HU2; lia]|].
    intros u v3 [T3 [C3 [D3 K3]]]. apply sem_enter; auto; [congruence|]. split; auto.
  - destruct (arity =? args + k); [apply sem_ret|apply sem_err; auto].
    apply sem_enter; auto; [congruence|split; auto].
Qed.

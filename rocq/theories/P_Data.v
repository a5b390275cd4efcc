(** Proofs about pairs and composites. *)
From Coq Require Import ZArith List Lia Arith Bool ZifyBool ZifyNat.
Import ListNotations.
From Verif Require Import M_Base M_Heap M_Instr M_VM S_Heap S_VM S_Num S_Cyclic S_Globals S_Types S_Data P_Heap P_Sort P_VM P_Exec P_Num P_Valid P_Cyclic P_Globals P_Types P_Safe P_Safe2 P_Safe3 P_Safe4 P_Safe5.
Open Scope Z_scope.

(** * Total correctness up to running out of memory, which implies [K] *)

Definition tot {A} (K : Prop) (v : vm) (m : M A) (Q : A -> vm -> Prop) : Prop :=
  match m v with
  | (Ok a, v') => Q a v'
  | (Err e, _) => e = outOfMemory /\ K
  | _ => False
  end.

Lemma tot_bind {A B} K v (m : M A) (f : A -> M B) Q :
  tot K v m (fun a v' => tot K v' (f a) Q) -> tot K v (mbind m f) Q.
Proof. unfold tot, mbind. destruct (m v) as [[a|e| |] v']; auto. Qed.
Lemma tot_weaken {A} K v (m : M A) (Q Q' : A -> vm -> Prop) :
  tot K v m Q -> (forall a v', Q a v' -> Q' a v') -> tot K v m Q'.
Proof. unfold tot. destruct (m v) as [[a|e| |] v']; auto. Qed.
Lemma tot_ret {A} K v (a : A) (Q : A -> vm -> Prop) : Q a v -> tot K v (mret a) Q.
Proof. auto. Qed.
Lemma tot_get {A} K v (f : vm -> M A) Q : tot K v (f v) Q -> tot K v (mbind mget f) Q.
Proof. auto. Qed.
Lemma tot_call {A} K v (m : M A) a v1 (Q : A -> vm -> Prop) : m v = (Ok a, v1) -> Q a v1 -> tot K v m Q.
Proof. unfold tot. intros ->. auto. Qed.
Lemma tot_write K v p o (Q : unit -> vm -> Prop) : live v p -> Q tt (written v p o) -> tot K v (write (Some p) o) Q.
Proof.
  intros [L _] HQ. unfold tot, write, mbind, mget, mset. destruct (Nat.ltb_spec p (length (objects v))); [exact HQ|lia].
Qed.

Lemma tot_alloc (K : Prop) v o : typed v -> storable o -> well_typed v o -> (forall p, refers o p -> reach v p) ->
  (free v = [] -> K) ->
  tot K v (alloc o) (fun r v' => exists q, r = Some q /\ typed v' /\ new_object o v q v').
Proof.
  intros T S W R HK. unfold tot.
  destruct (alloc_typed_total _ o v T none_dec (fun _ => empty_none v)) as [v' [[q E]|[e [E F]]]]; rewrite E.
  - exists q. split; auto.
    apply (alloc_typed (fun _ => False) (fun _ => False) o v q v' T none_dec); auto;
      try (intros p []; fail); try (intros p o' q' []; fail); try (intros _; apply empty_none; fail).
  - apply (alloc_typed_err _ o v e v' T none_dec (empty_none v)) in E; [|intros p []]. split; [apply E|auto].
Qed.

Lemma tot_alloc_in (K : Prop) v o : typed v -> In o (stack v) -> (free v = [] -> K) ->
  tot K v (alloc o) (fun r v' => exists q, r = Some q /\ typed v' /\ new_object o v q v' /\
    nth_error (objects v') q = Some o /\ points v' first_class q).
Proof.
  intros T H HK. destruct (val_in v o T H) as [F W].
  eapply tot_weaken; [apply tot_alloc; auto|].
  - destruct o; simpl in *; auto.
  - intros p R. eapply reach_in; eauto.
  - intros r v' [q [-> [T' N]]]. exists q. split; auto. split; auto. split; auto.
    destruct (no_stored _ _ _ _ N) as [n En]. rewrite stored_first_class in En by auto. split; auto.
    eapply new_points; eauto. intros m. rewrite stored_first_class; auto.
Qed.

(** Free objects after an allocation. *)
Lemma new_free o v q v' k : new_object o v q v' -> (free v' = [] -> (length (free v) < S (S k))%nat) /\
  ((length (free v') < k)%nat -> (length (free v) < S k)%nat).
Proof.
  intros N. destruct (free v) as [|f fr] eqn:E; [simpl; split; lia|].
  destruct (no_room _ _ _ _ N) as [H _]; [congruence|]. rewrite E in H. injection H as _ ->.
  split; [intros ->; simpl; lia|simpl; lia].
Qed.

(** * Machines that differ in their stacks and in new objects *)

Record more (v w : vm) : Prop := {
  mo_extends : extends v w;
  mo_map : globals_map w = globals_map v;
  mo_uacs : uacs w = uacs v;
  mo_types : next_user_type w = next_user_type v
}.

Lemma more_refl v : more v v.
Proof. constructor; auto. apply extends_refl. Qed.
Lemma more_new v w o q w' : more v w -> new_object o w q w' -> more v w'.
Proof.
  intros [A B C D] N. pose proof (no_roots _ _ _ _ N) as (A1 & A2 & A3 & A4 & A5 & A6 & A7 & A8).
  constructor; try congruence. eapply extends_new; eauto.
Qed.
Lemma more_pushed v w o : more v w -> more v (pushed o w).
Proof.
  intros [A B C D]. constructor; auto. constructor; simpl; try apply A.
  - intros x Hx. right. apply A; auto.
  - intros q Hq. right. apply A; auto.
Qed.
Lemma more_set_stack v w s : more v w -> incl (stack v) s -> more v (set_stack w s).
Proof. intros [A B C D] H. constructor; auto. apply extends_set_stack; auto. Qed.
Lemma more_written v w p o : more v w -> ~ reach v p -> more v (written w p o).
Proof.
  intros [A B C D] H. constructor; auto. constructor; try apply A. intros q R. rewrite written_nth.
  destruct (Nat.eqb_spec q p) as [->|_]; [contradiction|]. simpl. apply A; auto.
Qed.
Lemma more_reach v w p : more v w -> reach v p -> reach w p.
Proof. intros [A _ _ _]. apply extends_reach; auto. Qed.
Lemma more_same v w p : more v w -> reach v p -> nth_error (objects w) p = nth_error (objects v) p.
Proof. intros [A _ _ _]. apply A. Qed.

Lemma more_trans v w u : more v w -> more w u -> more v u.
Proof.
  intros [A B C D] [A' B' C' D']. constructor; try congruence. constructor.
  - intros z Hz. apply (ex_stack _ _ A'), (ex_stack _ _ A); auto.
  - intros q Hq. apply (ex_ustack _ _ A'), (ex_ustack _ _ A); auto.
  - rewrite (ex_globals _ _ A'). apply A.
  - rewrite (ex_calls _ _ A'). apply A.
  - rewrite (ex_current _ _ A'). apply A.
  - intros p R. rewrite (ex_same _ _ A'), (ex_same _ _ A); auto. eapply extends_reach; eauto.
Qed.

Lemma more_gives v w S o : more v w -> stack w = o :: stack v -> ustack w = None :: ustack v -> gives S o v w.
Proof. intros [A B C D] Hs Hu. constructor; auto; try apply A. intros p R _. apply A; auto. Qed.

(** * Pairs *)

Lemma shows_same os os' p x : shows os p x -> (forall q, p = Some q -> nth_error os' q = nth_error os q) -> shows os' p x.
Proof.
  intros H E. destruct H as [|q a d N|q o N C].
  - constructor.
  - apply (shows_pair _ q a d). rewrite E; auto.
  - apply (shows_value _ q o); auto. rewrite E; auto.
Qed.

Lemma shows_list v l : typed v -> In (OList l) (stack v) -> shows (objects v) l (OList l).
Proof.
  intros T H. destruct l as [l|]; [|constructor]. destruct (val_in v _ T H) as [_ W].
  destruct (W l eq_refl) as [L [o [E C]]]. destruct o; simpl in C; try contradiction. econstructor; eauto.
Qed.

Lemma tot_box (K : Prop) v x : typed v -> In x (stack v) -> (free v = [] -> K) ->
  tot K v (box x) (fun r v' => typed v' /\ more v v' /\ stack v' = stack v /\ ustack v' = ustack v /\
    opoints v' is_link r /\ shows (objects v') r x /\
    (forall q, r = Some q -> reach v q \/ nth_error (objects v') q = Some x) /\
    ((length (free v') < 1)%nat -> (length (free v) < 2)%nat) /\
    (forall o q, nth_error (objects v) q = Some o -> reach v q -> nth_error (objects v') q = Some o)).
Proof.
  intros T H HK.
  assert (match x with OList _ => False | _ => True end ->
    tot K v (alloc x) (fun r v' => typed v' /\ more v v' /\ stack v' = stack v /\ ustack v' = ustack v /\
    opoints v' is_link r /\ shows (objects v') r x /\
    (forall q, r = Some q -> reach v q \/ nth_error (objects v') q = Some x) /\
    ((length (free v') < 1)%nat -> (length (free v) < 2)%nat) /\
    (forall o q, nth_error (objects v) q = Some o -> reach v q -> nth_error (objects v') q = Some o))) as HA.
  { intros Hx. eapply tot_weaken; [apply tot_alloc_in; auto|]. intros r v' [q [-> [T' [N [E P]]]]].
    destruct (val_in v x T H) as [F _].
    split; auto. split; [eapply more_new; [apply more_refl|eauto]|]. split; [apply N|]. split; [apply N|].
    split; [|split; [|split; [|split]]].
    - intros p Ep. injection Ep as <-. destruct P as [L [y [Ey Fy]]]. split; auto. exists y. split; auto. left; auto.
    - apply (shows_value _ q x); auto. destruct x; simpl in *; auto; contradiction.
    - intros p Ep. injection Ep as <-. auto.
    - apply (new_free _ _ _ _ 1 N).
    - intros o p Eo R. rewrite (no_same _ _ _ _ N); auto. }
  unfold box. destruct x; try (apply HA; exact I).
  apply tot_ret. split; auto. split; [apply more_refl|]. split; auto. split; auto. split; [|split; [|split; [|split]]]; auto; try lia.
  - intros p ->. destruct (val_in v _ T H) as [_ W]. destruct (W p eq_refl) as [L [y [Ey C]]]. split; auto. exists y.
    split; auto. right; auto.
  - apply shows_list; auto.
  - intros q ->. left. apply (reach_in v (OList (Some q))); auto. constructor.
Qed.

Lemma tot_cons v x y : typed v -> In x (stack v) -> In y (stack v) ->
  tot (length (free v) < 3)%nat v (cons_op x y)
    (fun _ v' => exists l, gives nothing (OList (Some l)) v v' /\ pair v' l x y /\ ~ reach v l).
Proof.
  intros T Hx Hy. unfold cons_op. apply tot_bind. eapply tot_weaken.
  { apply tot_alloc; simpl; auto.
    - split; intros q; discriminate.
    - intros p R. inversion R.
    - intros ->. simpl. lia. }
  intros r v1 [c [-> [T1 N1]]]. pose proof (new_stack _ _ _ _ N1) as S1.
  pose proof (no_new _ _ _ _ N1) as Nc.
  assert (ustack v1 = ustack v) as U1 by apply N1.
  assert (more v v1) as M1 by (eapply more_new; [apply more_refl|eauto]).
  assert (points v1 is_cons c) as Pc by (apply (new_points _ _ _ _ _ N1); intros n; exact I).
  apply tot_bind. unfold stack_push. eapply tot_call; [reflexivity|].
  change (tot (length (free v) < 3)%nat (pushed (OList (Some c)) v1) (a <~ box x;; write (Some c) (OCons a None);;; (d <~ box y;; write (Some c) (OCons a d);;; sset_raw 0 (OList (Some c)))) (fun _ v' => exists l, gives nothing (OList (Some l)) v v' /\ pair v' l x y /\ ~ reach v l)).
  set (v2 := pushed (OList (Some c)) v1).
  assert (typed v2) as T2. { apply typed_pushed; simpl; auto. intros q E. injection E as <-. auto. }
  assert (more v v2) as M2 by (apply more_pushed; auto).
  assert (points v2 is_cons c) as P2 by (apply (same_points v1); [split; reflexivity|auto]).
  assert (reach v2 c) as R2 by (apply (reach_in v2 (OList (Some c))); [left; reflexivity|constructor]).
  apply tot_bind. eapply tot_weaken; [apply tot_box; [auto|right; rewrite S1; auto|]|].
  { change (free v2) with (free v1). intros E. apply (new_free _ _ _ _ 2 N1). rewrite E. simpl. lia. }
  intros a v3 [T3 [M23 [S3 [U3 [Pa [Sh [Ra [F3 O3]]]]]]]].
  assert (more v v3) as M3 by (eapply more_trans; eauto).
  destruct P2 as [L2 [o2 [E2 C2]]]. destruct o2; simpl in C2; try contradiction.
  assert (nth_error (objects v3) c = Some (OCons car cdr)) as E3 by (apply O3; auto).
  assert (live v3 c) as L3 by (apply (extends_keeps v2 v3); auto; apply M23).
  assert (well_typed v3 (OCons a None)) as W3 by (split; auto; intros q; discriminate).
  apply tot_bind. apply tot_write; auto.
  set (v4 := written v3 c (OCons a None)).
  assert (typed v4) as T4 by (eapply typed_write; eauto; simpl; auto).
  assert (more v v4) as M4 by (apply more_written; auto).
  assert (stack v4 = OList (Some c) :: stack v1) as S4 by (unfold v4; simpl; rewrite S3; reflexivity).
  assert (nth_error (objects v4) c = Some (OCons a None)) as E4.
  { unfold v4. rewrite written_nth, Nat.eqb_refl. destruct L3 as [L3 _]. destruct (Nat.ltb_spec c (length (objects v3))); [reflexivity|lia]. }
  assert (forall p, p <> c -> nth_error (objects v4) p = nth_error (objects v3) p) as O4.
  { intros p Hp. unfold v4. rewrite written_nth. destruct (Nat.eqb_spec p c); [contradiction|reflexivity]. }
  assert (forall q, a = Some q -> q <> c) as Nac.
  { intros q -> ->. destruct x; inversion Sh; subst; try congruence.
    (* a list through itself: the new cons is not on the old stack *)
    apply Nc. apply (reach_in v (OList (Some c))); [|constructor]. auto. }
  assert (shows (objects v4) a x) as Sh4 by (eapply shows_same; [exact Sh|]; intros q Hq; apply O4; eauto).
  assert (reach v4 c) as R4 by (apply (reach_in v4 (OList (Some c))); [rewrite S4; left; auto|constructor]).
  apply tot_bind. eapply tot_weaken; [apply tot_box; [auto|rewrite S4; right; rewrite S1; auto|]|].
  { change (free v4) with (free v3). intros E.
    apply (new_free _ _ _ _ 2 N1). apply F3. rewrite E. simpl. lia. }
  intros d v5 [T5 [M45 [S5 [U5 [Pd [Shd [Rd [F5 O5]]]]]]]].
  assert (more v v5) as M5 by (eapply more_trans; eauto).
  assert (nth_error (objects v5) c = Some (OCons a None)) as E5 by (apply O5; auto).
  assert (live v5 c) as L5 by (apply (extends_keeps v4 v5); auto; [apply M45|apply written_live; auto]).
  apply tot_bind. apply tot_write; auto.
  set (v6 := written v5 c (OCons a d)).
  assert (more v v6) as M6 by (apply more_written; auto).
  assert (stack v6 = OList (Some c) :: stack v) as S6 by (unfold v6; simpl; congruence).
  assert (ustack v6 = None :: ustack v) as U6.
  { unfold v6; simpl. rewrite U5. unfold v4. simpl. rewrite U3. simpl. congruence. }
  assert (forall p, p <> c -> nth_error (objects v6) p = nth_error (objects v5) p) as O6.
  { intros p Hp. unfold v6. rewrite written_nth. destruct (Nat.eqb_spec p c); [contradiction|reflexivity]. }
  assert (forall q, d = Some q -> q <> c) as Ndc.
  { intros q -> ->. destruct y; inversion Shd; subst; try congruence.
    apply Nc. apply (reach_in v (OList (Some c))); [|constructor]. auto. }
  unfold sset_raw. apply tot_get. unfold raw_set, abs_set. rewrite S6. unfold zlen. destruct (_ || _) eqn:C; [exfalso; cbn [length] in C; lia|].
  replace (Z.to_nat _) with 0%nat by lia. cbn [list_set].
  eapply tot_call; [reflexivity|]. exists c. split; [|split; auto].
  - apply more_gives; auto. apply more_set_stack; auto. intros z Hz. right; auto.
  - exists a, d. split; [|split].
    + change (nth_error (objects v6) c = Some (OCons a d)). unfold v6. rewrite written_nth, Nat.eqb_refl.
      destruct L5 as [L5 _]. destruct (Nat.ltb_spec c (length (objects v5))); [reflexivity|lia].
    + change (shows (objects v6) a x). eapply shows_same; [exact Sh4|]. intros q ->. rewrite O6 by eauto.
      apply (more_same v4 v5); auto. apply reach_step with c (OCons (Some q) None); auto. constructor.
    + change (shows (objects v6) d y). eapply shows_same; [exact Shd|]. intros q ->. apply O6; eauto.
Qed.

(** From operations to instructions. *)
Lemma tot_result k v (m : M unit) next (Q : unit -> vm -> Prop) : tot (length (free v) < k)%nat v m Q ->
  gives_result k ((m ;;; mret (Continue next)) v) next v (Q tt).
Proof.
  unfold tot, gives_result, mbind, mret. destruct (m v) as [[[]|e| |] v']; try contradiction.
  - intros H. left. eauto.
  - intros [-> H]. right. eauto.
Qed.

Lemma at_in v i x : at_pos v i x -> In x (stack v).
Proof. intros [_ H]. eapply nth_error_In; eauto. Qed.

Lemma cons_spec host base next i j x y v : typed v -> at_pos v i x -> at_pos v j y ->
  gives_result 3 (exec host base next (IBin BCons i j) v) next v
    (fun v' => exists l, gives nothing (OList (Some l)) v v' /\ pair v' l x y /\ ~ reach v l).
Proof.
  intros T Hi Hj. rewrite (exec_bin host base next BCons i j x y v Hi Hj).
  exact (tot_result 3 v (bin_op BCons x y) next _ (tot_cons v x y T (at_in _ _ _ Hi) (at_in _ _ _ Hj))).
Qed.

Lemma unbox_shows v p x : shows (objects v) p x -> unbox p v = (Ok x, v).
Proof.
  intros H. destruct H as [|q a d E|q o E C]; [reflexivity| |]; unfold unbox, deref, mbind, mget, mret; rewrite E; [reflexivity|].
  destruct o; reflexivity || contradiction.
Qed.

Lemma pair_read host base next i l x y v : at_pos v i (OList (Some l)) -> pair v l x y ->
  exec host base next (IUn UCar i) v = (Ok (Continue next), pushed x v) /\
  exec host base next (IUn UCdr i) v = (Ok (Continue next), pushed y v).
Proof.
  intros Hi [a [d [E [Sa Sd]]]]. rewrite !(exec_un host base next _ i _ v Hi).
  unfold un_op, car_op, cdr_op, mbind, mget. unfold deref, mbind, mget, mret. rewrite E.
  rewrite (unbox_shows v a x), (unbox_shows v d y) by auto. auto.
Qed.

Lemma nil_read host base next i v : at_pos v i (OList None) ->
  exec host base next (IUn UCar i) v = (Ok (Continue next), pushed (OList None) v) /\
  exec host base next (IUn UCdr i) v = (Ok (Continue next), pushed (OList None) v).
Proof. intros Hi. rewrite !(exec_un host base next _ i _ v Hi). auto. Qed.

Lemma tot_push (K : Prop) v o (Q : unit -> vm -> Prop) : Q tt (pushed o v) -> tot K v (stack_push o) Q.
Proof. auto. Qed.

Lemma gives_written v w l o : more v w -> stack w = stack v -> ustack w = ustack v ->
  forall r, gives (only l) r v (pushed r (written w l o)).
Proof.
  intros [A B C D] Hs Hu r. constructor; simpl; try congruence; try apply A.
  intros p R N. change (nth_error (objects (written w l o)) p = nth_error (objects v) p). rewrite written_nth.
  destruct (Nat.eqb_spec p l) as [->|_]; [destruct N; reflexivity|]. simpl. apply A; auto.
Qed.

Lemma shows_kept v w l a d o p x : typed v -> reach v l -> nth_error (objects v) l = Some (OCons a d) -> more v w ->
  p = a \/ p = d -> shows (objects v) p x -> is_cons o -> (l < length (objects w))%nat ->
  shows (objects (written w l o)) p x.
Proof.
  intros T R E M H Sh Co Hl.
  assert (forall q, p = Some q -> reach v q) as Rq.
  { intros q ->. destruct H as [H|H]; subst; eapply reach_step; eauto; constructor. }
  destruct o; simpl in Co; try contradiction. destruct Sh as [|q a' d' Eq|q z Eq C].
  - constructor.
  - destruct (Nat.eq_dec q l) as [->|Nq].
    + econstructor. rewrite written_nth, Nat.eqb_refl. destruct (Nat.ltb_spec l (length (objects w))); [reflexivity|lia].
    + econstructor. rewrite written_nth. destruct (Nat.eqb_spec q l); [contradiction|]. simpl. rewrite (more_same v w); eauto.
  - apply shows_value; auto. rewrite written_nth. destruct (Nat.eqb_spec q l) as [->|_].
    + rewrite E in Eq. injection Eq as <-. contradiction.
    + simpl. rewrite (more_same v w); eauto.
Qed.

Lemma tot_set_pair (cdr : bool) v x l a d : typed v -> In x (stack v) -> In (OList (Some l)) (stack v) -> pair v l a d ->
  tot (length (free v) < 1)%nat v
    (n <~ box x ;; c <~ deref (Some l) ;;
     match c with OCons a d => write (Some l) (if cdr then OCons a n else OCons n d) ;;; mret (OList (Some l)) | _ => mub end)
    (fun r v1 => r = OList (Some l) /\ gives (only l) r v (pushed r v1) /\
       (if cdr then pair v1 l a x else pair v1 l x d)).
Proof.
  intros T Hx Hl [pa [pd [E [Sa Sd]]]].
  assert (reach v l) as R by (apply (reach_in v (OList (Some l))); [auto|constructor]).
  apply tot_bind. eapply tot_weaken; [apply tot_box; auto|].
  { intros ->. simpl. lia. }
  intros n v1 [T1 [M1 [S1 [U1 [Pn [Shn [Rn [F1 O1]]]]]]]].
  assert (nth_error (objects v1) l = Some (OCons pa pd)) as E1 by (apply O1; auto).
  assert (live v1 l) as L1 by (eapply typed_reach_live; eauto; eapply more_reach; eauto).
  apply tot_bind. eapply tot_call; [unfold deref, mbind, mget, mret; rewrite E1; reflexivity|]. cbn beta iota.
  apply tot_bind. apply tot_write; auto. apply tot_ret. split; auto. split; [apply gives_written; auto|].
  pose proof L1 as [L1' _].
  assert (forall o, is_cons o -> shows (objects (written v1 l o)) n x) as Kn.
  { intros o Co. destruct o; simpl in Co; try contradiction. inversion Shn as [|q a' d' Eq|q z Eq C]; subst.
    - constructor.
    - destruct (Nat.eq_dec q l) as [->|Nq].
      + econstructor. rewrite written_nth, Nat.eqb_refl. destruct (Nat.ltb_spec l (length (objects v1))); [reflexivity|lia].
      + econstructor. rewrite written_nth. destruct (Nat.eqb_spec q l); [contradiction|]. simpl. eauto.
    - apply shows_value; auto. rewrite written_nth. destruct (Nat.eqb_spec q l) as [->|_]; [|simpl; auto].
      rewrite E1 in Eq. injection Eq as <-. contradiction. }
  destruct cdr.
  - exists pa, n. split; [|split; [|apply Kn; exact I]].
    + rewrite written_nth, Nat.eqb_refl. destruct (Nat.ltb_spec l (length (objects v1))); [reflexivity|lia].
    + eapply (shows_kept v v1); eauto. exact I.
  - exists n, pd. split; [|split; [apply Kn; exact I|]].
    + rewrite written_nth, Nat.eqb_refl. destruct (Nat.ltb_spec l (length (objects v1))); [reflexivity|lia].
    + eapply (shows_kept v v1); eauto. exact I.
Qed.

Lemma set_pair_spec host base next (b : bool) i j x l a d v : typed v -> at_pos v i x -> at_pos v j (OList (Some l)) -> pair v l a d ->
  gives_result 1 (exec host base next (IBin (if b then BSetCdr else BSetCar) i j) v) next v
    (fun v' => gives (only l) (OList (Some l)) v v' /\ (if b then pair v' l a x else pair v' l x d)).
Proof.
  intros T Hi Hj HP. rewrite (exec_bin host base next _ i j x _ v Hi Hj).
  apply (tot_result 1 v (bin_op (if b then BSetCdr else BSetCar) x (OList (Some l))) next
    (fun _ v' => gives (only l) (OList (Some l)) v v' /\ (if b then pair v' l a x else pair v' l x d))).
  pose proof (tot_set_pair b v x l a d T (at_in _ _ _ Hi) (at_in _ _ _ Hj) HP) as H.
  destruct b; unfold bin_op, set_cdr_op, set_car_op; apply tot_get; apply tot_bind;
    (eapply tot_weaken; [exact H|]); intros r v1 [-> [G P]]; apply tot_push; split; auto.
Qed.

Lemma not_pair host base next i v x : at_pos v i x -> match x with OList _ | OVector _ _ | OString _ _ _ => False | _ => True end ->
  exec host base next (IUn UCar i) v = (Err invalidValue, v) /\ exec host base next (IUn UCdr i) v = (Err invalidValue, v) /\
  forall k y, at_pos v k y -> exec host base next (IBin BSetCar k i) v = (Err invalidValue, v) /\
    exec host base next (IBin BSetCdr k i) v = (Err invalidValue, v).
Proof.
  intros Hi Hx. rewrite !(exec_un host base next _ i _ v Hi). split; [|split].
  - destruct x; try contradiction; reflexivity.
  - destruct x; try contradiction; reflexivity.
  - intros k y Hk. rewrite !(exec_bin host base next _ k i y x v Hk Hi). destruct x; try contradiction; auto.
Qed.

(** * Composites *)

Lemma tot_make_instance v t y z : typed v -> In y (stack v) -> In z (stack v) -> type_last <= t ->
  tot (length (free v) < 3)%nat v (make_instance_op (OType t) y z)
    (fun _ v' => exists c, gives nothing (OComposite (Some c)) v v' /\ instance v' c t y z /\ ~ reach v c).
Proof.
  intros T Hy Hz Ht. unfold make_instance_op. destruct (Z.ltb_spec t type_last); [lia|].
  apply tot_bind. eapply tot_weaken.
  { apply tot_alloc; simpl; auto.
    - split; intros q; discriminate.
    - intros p R. inversion R.
    - intros ->. simpl. lia. }
  intros r v1 [c [-> [T1 N1]]]. pose proof (new_stack _ _ _ _ N1) as S1.
  pose proof (no_new _ _ _ _ N1) as Nc.
  assert (ustack v1 = ustack v) as U1 by apply N1.
  assert (more v v1) as M1 by (eapply more_new; [apply more_refl|eauto]).
  assert (points v1 is_instance c) as Pc by (apply (new_points _ _ _ _ _ N1); intros n; exact I).
  apply tot_bind. unfold stack_push. eapply tot_call; [reflexivity|].
  change (tot (length (free v) < 3)%nat (pushed (OComposite (Some c)) v1) (p <~ alloc y;; write (Some c) (OInternalComposite t p None);;; (f <~ alloc z;; write (Some c) (OInternalComposite t p f)))
    (fun _ v' => exists c, gives nothing (OComposite (Some c)) v v' /\ instance v' c t y z /\ ~ reach v c)).
  set (v2 := pushed (OComposite (Some c)) v1).
  assert (typed v2) as T2 by (apply typed_pushed; simpl; eauto).
  assert (more v v2) as M2 by (apply more_pushed; auto).
  assert (points v2 is_instance c) as P2 by (apply (same_points v1); [split; reflexivity|auto]).
  assert (reach v2 c) as R2 by (apply (reach_in v2 (OComposite (Some c))); [left; reflexivity|constructor]).
  apply tot_bind. eapply tot_weaken; [apply tot_alloc_in; [auto|right; rewrite S1; auto|]|].
  { change (free v2) with (free v1). intros E. apply (new_free _ _ _ _ 2 N1). rewrite E. simpl. lia. }
  intros r v3 [p [-> [T3 [N3 [Ep Pp]]]]]. pose proof (new_stack _ _ _ _ N3) as S3.
  assert (more v v3) as M3 by (eapply more_new; eauto).
  assert (points v3 is_instance c) as P3 by (apply (points_keeps (reach v2) v2); auto with stable; apply N3).
  destruct P3 as [L3 [o3 [E3 C3]]]. destruct o3; simpl in C3; try contradiction.
  assert (well_typed v3 (OInternalComposite t (Some p) None)) as W3.
  { split; intros q E; [injection E as <-; auto|discriminate]. }
  assert (p <> c) as Npc by (intros ->; apply (no_new _ _ _ _ N3); auto).
  apply tot_bind. apply tot_write; auto.
  set (v4 := written v3 c (OInternalComposite t (Some p) None)).
  assert (typed v4) as T4 by (eapply typed_write; eauto; simpl; auto).
  assert (more v v4) as M4 by (apply more_written; auto).
  assert (stack v4 = OComposite (Some c) :: stack v1) as S4 by (unfold v4; simpl; rewrite S3; reflexivity).
  assert (nth_error (objects v4) c = Some (OInternalComposite t (Some p) None)) as E4.
  { unfold v4. rewrite written_nth, Nat.eqb_refl. destruct L3 as [L3 _]. destruct (Nat.ltb_spec c (length (objects v3))); [reflexivity|lia]. }
  assert (nth_error (objects v4) p = Some y) as Ep4.
  { unfold v4. rewrite written_nth. destruct (Nat.eqb_spec p c); [contradiction|]. auto. }
  assert (live v4 c) as L4 by (apply written_live; auto).
  assert (reach v4 c) as R4 by (apply (reach_in v4 (OComposite (Some c))); [rewrite S4; left; auto|constructor]).
  assert (reach v4 p) as Rp4 by (eapply reach_step; [exact R4|exact E4|constructor]).
  apply tot_bind. eapply tot_weaken; [apply tot_alloc_in; [auto|rewrite S4; right; rewrite S1; auto|]|].
  { change (free v4) with (free v3). intros E. apply (new_free _ _ _ _ 2 N1). change (free v1) with (free v2).
    apply (new_free _ _ _ _ 1 N3). rewrite E. simpl. lia. }
  intros r v5 [f [-> [T5 [N5 [Ef Pf]]]]].
  assert (more v v5) as M5 by (eapply more_new; eauto).
  assert (live v5 c) as L5 by (apply (no_kept _ _ _ _ N5); auto).
  assert (f <> c) as Nfc by (intros ->; apply (no_new _ _ _ _ N5); auto).
  apply tot_write; auto. exists c. split; [|split; auto].
  - apply more_gives; [apply more_written; auto| |].
    + simpl. rewrite (new_stack _ _ _ _ N5), S4, S1. reflexivity.
    + simpl. pose proof (no_roots _ _ _ _ N5) as (_ & -> & _). unfold v4. simpl.
      pose proof (no_roots _ _ _ _ N3) as (_ & -> & _). simpl. rewrite U1. reflexivity.
  - exists (Some p), (Some f). split; [|split].
    + rewrite written_nth, Nat.eqb_refl. destruct L5 as [L5 _]. destruct (Nat.ltb_spec c (length (objects v5))); [reflexivity|lia].
    + simpl. change (nth_error (objects (written v5 c (OInternalComposite t (Some p) (Some f)))) p = Some y). rewrite written_nth.
      destruct (Nat.eqb_spec p c); [contradiction|]. simpl. rewrite (no_same _ _ _ _ N5); auto.
    + simpl. change (nth_error (objects (written v5 c (OInternalComposite t (Some p) (Some f)))) f = Some z). rewrite written_nth.
      destruct (Nat.eqb_spec f c); [contradiction|]. auto.
Qed.

Lemma make_instance_spec host base next i j k t y z v : typed v -> at_pos v i (OType t) -> at_pos v j y -> at_pos v k z ->
  20 <= t ->
  gives_result 3 (exec host base next (ITern TMakeInstance i j k) v) next v
    (fun v' => exists c, gives nothing (OComposite (Some c)) v v' /\ instance v' c t y z /\ ~ reach v c).
Proof.
  intros T Hi Hj Hk Ht. rewrite (exec_tern host base next _ i j k _ y z v Hi Hj Hk).
  exact (tot_result 3 v (tern_op TMakeInstance (OType t) y z) next _ (tot_make_instance v t y z T (at_in _ _ _ Hj) (at_in _ _ _ Hk) Ht)).
Qed.

Lemma make_instance_bad host base next i j k x y z v : at_pos v i x -> at_pos v j y -> at_pos v k z ->
  (forall t, x = OType t -> t < 20) -> exec host base next (ITern TMakeInstance i j k) v = (Err invalidValue, v).
Proof.
  intros Hi Hj Hk Ht. rewrite (exec_tern host base next _ i j k x y z v Hi Hj Hk).
  destruct x; try reflexivity. unfold tern_op, make_instance_op, type_last. specialize (Ht t eq_refl).
  destruct (Z.ltb_spec t 20); [reflexivity|lia].
Qed.

Lemma stands_pointee v p x : stands_for (objects v) p x -> pointee p v = (Ok x, v).
Proof.
  destruct p as [q|]; simpl; [|intros ->; reflexivity]. unfold deref, mbind, mget, mret. intros ->. reflexivity.
Qed.

Lemma instance_read host base next i c t x f v : at_pos v i (OComposite (Some c)) -> instance v c t x f ->
  exec host base next (IUn UCompositeValue i) v = (Ok (Continue next), pushed x v) /\
  exec host base next (IUn UCompositeFunction i) v = (Ok (Continue next), pushed f v) /\
  exec host base next (IUn UTypeof i) v = (Ok (Continue next), pushed (OType t) v).
Proof.
  intros Hi [p [q [E [Sp Sq]]]]. rewrite !(exec_un host base next _ i _ v Hi).
  unfold un_op, composite_op, typeof_op, composite_get, deref, mbind, mget, mret. rewrite E. cbn beta iota.
  cbn [fst snd]. rewrite (stands_pointee v p x Sp), (stands_pointee v q f Sq). auto.
Qed.

Lemma tot_set_composite (b : bool) v c t y x f : typed v -> In (OComposite (Some c)) (stack v) -> In y (stack v) -> instance v c t x f ->
  tot (length (free v) < 1)%nat v (set_composite_op b (OComposite (Some c)) y)
    (fun r v1 => r = OComposite (Some c) /\ gives (only c) r v (pushed r v1) /\
       (if b then instance v1 c t x y else instance v1 c t y f)).
Proof.
  intros T Hc Hy [p [q [E [Sp Sq]]]].
  assert (reach v c) as R by (apply (reach_in v (OComposite (Some c))); [auto|constructor]).
  unfold set_composite_op. apply tot_bind. eapply tot_weaken; [apply tot_alloc_in; auto|].
  { intros ->. simpl. lia. }
  intros r v1 [n [-> [T1 [N1 [En Pn]]]]].
  assert (more v v1) as M1 by (eapply more_new; [apply more_refl|eauto]).
  assert (nth_error (objects v1) c = Some (OInternalComposite t p q)) as E1 by (rewrite (more_same v); auto).
  assert (live v1 c) as L1 by (eapply typed_reach_live; eauto; eapply more_reach; eauto).
  assert (n <> c) as Nn by (intros ->; apply (no_new _ _ _ _ N1); auto).
  apply tot_bind. eapply tot_call; [unfold composite_get, deref, mbind, mget, mret; rewrite E1; reflexivity|]. cbn beta iota.
  apply tot_bind. apply tot_write; auto. apply tot_ret. split; auto.
  split; [apply gives_written; auto; apply N1|]. pose proof L1 as [L1' _].
  assert (forall o r z, r = p \/ r = q -> stands_for (objects v) r z -> stands_for (objects (written v1 c o)) r z) as K.
  { intros o r z Hr Sz. destruct r as [r|]; [|exact Sz].
    change (nth_error (objects (written v1 c o)) r = Some z). change (nth_error (objects v) r = Some z) in Sz. rewrite written_nth.
    destruct (Nat.eqb_spec r c) as [->|Nr].
    - (* fields hold values, not instances *)
      exfalso. rewrite E in Sz. injection Sz as <-.
      pose proof (typed_reach_live v c T R) as L. destruct (ty_objects _ _ T c _ L (fun x => x) E) as [W1 W2].
      destruct Hr as [<-|<-]; [destruct (W1 c eq_refl) as [_ [o' [Eo Fo]]]|destruct (W2 c eq_refl) as [_ [o' [Eo Fo]]]];
        rewrite E in Eo; injection Eo as <-; exact Fo.
    - simpl. rewrite (more_same v v1); auto. destruct Hr as [<-|<-]; (eapply reach_step; [exact R|exact E|constructor]). }
  assert (forall o, nth_error (objects (written v1 c o)) n = Some y) as Kn.
  { intros o. rewrite written_nth. destruct (Nat.eqb_spec n c); [contradiction|]. auto. }
  assert (forall o, nth_error (objects (written v1 c o)) c = Some o) as Kc.
  { intros o. rewrite written_nth, Nat.eqb_refl. destruct (Nat.ltb_spec c (length (objects v1))); [reflexivity|lia]. }
  destruct b.
  - exists p, (Some n). split; [apply Kc|]. split; [apply K; auto|apply Kn].
  - exists (Some n), q. split; [apply Kc|]. split; [apply Kn|apply K; auto].
Qed.

Lemma set_composite_spec host base next (b : bool) i j y c t x f v : typed v -> at_pos v i (OComposite (Some c)) -> at_pos v j y ->
  instance v c t x f ->
  gives_result 1 (exec host base next (IBin (if b then BSetCompositeFunction else BSetCompositeValue) i j) v) next v
    (fun v' => gives (only c) (OComposite (Some c)) v v' /\ (if b then instance v' c t x y else instance v' c t y f)).
Proof.
  intros T Hi Hj HP. rewrite (exec_bin host base next _ i j _ y v Hi Hj).
  apply (tot_result 1 v (bin_op (if b then BSetCompositeFunction else BSetCompositeValue) (OComposite (Some c)) y) next
    (fun _ v' => gives (only c) (OComposite (Some c)) v v' /\ (if b then instance v' c t x y else instance v' c t y f))).
  pose proof (tot_set_composite b v c t y x f T (at_in _ _ _ Hi) (at_in _ _ _ Hj) HP) as H.
  destruct b; unfold bin_op; apply tot_get; apply tot_bind;
    (eapply tot_weaken; [exact H|]); intros r v1 [-> [G P]]; apply tot_push; split; auto.
Qed.

Lemma not_composite host base next i v x : at_pos v i x -> (forall c, x <> OComposite c) ->
  exec host base next (IUn UCompositeValue i) v = (Err invalidValue, v) /\
  exec host base next (IUn UCompositeFunction i) v = (Err invalidValue, v) /\
  forall k y, at_pos v k y -> exec host base next (IBin BSetCompositeValue i k) v = (Err invalidValue, v) /\
    exec host base next (IBin BSetCompositeFunction i k) v = (Err invalidValue, v).
Proof.
  intros Hi Hx. rewrite !(exec_un host base next _ i _ v Hi).
  assert (match x with OComposite _ => False | _ => True end) as C by (destruct x; auto; eapply Hx; eauto).
  split; [|split].
  - destruct x; try contradiction; reflexivity.
  - destruct x; try contradiction; reflexivity.
  - intros k y Hk. rewrite !(exec_bin host base next _ i k x y v Hi Hk). destruct x; try contradiction; auto.
Qed.

(** The instance is what it is made of: well-typed composites always are instances. *)
Lemma composite_instance v i c : typed v -> at_pos v i (OComposite c) -> exists p t x f, c = Some p /\ instance v p t x f.
Proof.
  intros T Hi. destruct (val_in v _ T (at_in _ _ _ Hi)) as [_ [p [-> [L [o [E C]]]]]].
  destruct o; simpl in C; try contradiction. destruct (ty_objects _ _ T p _ L (fun x => x) E) as [W1 W2].
  assert (forall r, opoints v first_class r -> exists z, stands_for (objects v) r z) as H.
  { intros [r|] W; [|exists ONone; reflexivity]. destruct (W r eq_refl) as [_ [z [Ez _]]]. exists z. exact Ez. }
  destruct (H _ W1) as [x Sx], (H _ W2) as [f Sf]. exists p. eexists _, x, f. split; auto. eexists _, _. split; [exact E|]. auto.
Qed.

Lemma list_pair v i l : typed v -> at_pos v i (OList (Some l)) -> exists x y, pair v l x y.
Proof.
  intros T Hi. destruct (val_in v _ T (at_in _ _ _ Hi)) as [_ W]. destruct (W l eq_refl) as [L [o [E C]]].
  destruct o; simpl in C; try contradiction. destruct (ty_objects _ _ T l _ L (fun x => x) E) as [W1 W2].
  assert (forall r, opoints v is_link r -> exists z, shows (objects v) r z) as H.
  { intros [r|] Wr; [|eexists; constructor]. destruct (Wr r eq_refl) as [_ [z [Ez [K|K]]]].
    - exists z. apply shows_value; auto. destruct z; simpl in *; auto.
    - destruct z; simpl in K; try contradiction. eexists. econstructor; eauto. }
  destruct (H _ W1) as [x Sx], (H _ W2) as [f Sf]. exists x, f. eexists _, _. split; [exact E|]. auto.
Qed.

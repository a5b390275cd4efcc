(** Proofs about calls. *)
From Coq Require Import ZArith List Lia Arith Bool ZifyBool ZifyNat.
Import ListNotations.
From Verif Require Import M_Base M_Heap M_Instr M_VM S_Heap S_VM S_Num S_Cyclic S_Globals S_Types S_Data S_Call P_Heap P_Sort P_VM P_Exec P_Num P_Valid P_Cyclic P_Globals P_Types P_Safe P_Safe2 P_Safe3 P_Safe4 P_Safe5 P_Data P_Data2 P_Data3.
Open Scope Z_scope.

(** * Composites as functions *)

Inductive resolves_in (os : list object) : nat -> object -> object -> Prop :=
| resolves_in_self f : (forall c, f <> OComposite c) -> resolves_in os 0 f f
| resolves_in_inside n c t x q g f : nth_error os c = Some (OInternalComposite t x (Some q)) -> nth_error os q = Some g ->
    resolves_in os n g f -> resolves_in os (S n) (OComposite (Some c)) f.

Lemma resolves_depth os f g : resolves os f g -> exists n, resolves_in os n f g.
Proof. induction 1 as [f H|c t x q g f E1 E2 _ [n IH]]; [exists 0%nat; constructor; auto|]. exists (S n). econstructor; eauto. Qed.

Lemma resolves_in_fun os n : forall m f g h, resolves_in os n f g -> resolves_in os m f h -> n = m.
Proof.
  induction n as [|n IH]; intros m f g h H1 H2.
  - destruct H2 as [f N|n c t x q g' f E1 E2 H]; auto. inversion H1 as [f' N|]; subst. exfalso. eapply N; reflexivity.
  - inversion H1 as [|n' c t x q g' f' E1 E2 H]; subst. inversion H2 as [f' N|m' c' t' x' q' g'' f' E3 E4 H']; subst.
    + exfalso. eapply N; reflexivity.
    + f_equal. assert (g' = g'') as -> by congruence. eapply IH; eauto.
Qed.

Lemma resolves_visited os n : forall f g, resolves_in os n f g -> exists l, length l = n /\ NoDup l /\
  forall c, In c l -> (c < length os)%nat /\ exists m, (m <= n)%nat /\ resolves_in os m (OComposite (Some c)) g.
Proof.
  induction n as [|n IH]; intros f g H; inversion H; subst.
  - exists []. split; auto. split; [constructor|intros c []].
  - destruct (IH _ _ H3) as [l [Hl [ND HI]]]. exists (c :: l). split; [simpl; auto|]. split.
    + constructor; auto. intros Hc. apply HI in Hc as [_ [m [Hm Hr]]]. pose proof (resolves_in_fun _ _ _ _ _ _ H Hr). lia.
    + intros d [<-|Hd]; [split; [apply nth_error_Some; congruence|eauto]|]. apply HI in Hd as [A [m [B C]]]. split; auto. exists m. split; auto.
Qed.

Lemma resolves_shallow os n f g : resolves_in os n f g -> (n <= length os)%nat.
Proof.
  intros H. destruct (resolves_visited _ _ _ _ H) as [l [<- [ND HI]]].
  rewrite <- (seq_length (length os) 0). apply NoDup_incl_length; auto. intros c Hc. apply in_seq. apply HI in Hc as [A _]. lia.
Qed.

Lemma unwrap_in n : forall v f g fuel, resolves_in (objects v) n f g -> (n <= fuel)%nat -> unwrap fuel f v = (Ok g, v).
Proof.
  induction n as [|n IH]; intros v f g fuel H Hn; inversion H; subst.
  - destruct fuel, g; try reflexivity; exfalso; eapply H0; eauto.
  - destruct fuel as [|fuel]; [lia|]. cbn [unwrap]. unfold mbind, composite_get. unfold mbind. rewrite (deref_run _ _ _ H1).
    unfold mret. rewrite (deref_run _ _ _ H2). apply IH; auto. lia.
Qed.

Lemma unwrap_resolves v f g : resolves (objects v) f g -> unwrap (S (length (objects v))) f v = (Ok g, v).
Proof. intros H. apply resolves_depth in H as [n H]. eapply unwrap_in; eauto. pose proof (resolves_shallow _ _ _ _ H). lia. Qed.

Lemma resolves_not os f g : resolves os f g -> forall c, g <> OComposite c.
Proof. induction 1; auto. Qed.

(** * Growing machines *)

(** [w] still has everything [v] could reach. *)
Record grown (v w : vm) : Prop := {
  gr_root : forall p, root v p -> reach w p;
  gr_globals : globals w = globals v;
  gr_map : globals_map w = globals_map v;
  gr_calls : call_stack w = call_stack v;
  gr_uacs : uacs w = uacs v;
  gr_current : current_bytecode w = current_bytecode v;
  gr_types : next_user_type w = next_user_type v;
  gr_same : forall p, reach v p -> nth_error (objects w) p = nth_error (objects v) p
}.

Lemma grown_reach v w p : grown v w -> reach v p -> reach w p.
Proof. intros G R. induction R as [p R|p o q R IH E F]; [apply G; auto|]. eapply reach_step; [exact IH| |exact F]. rewrite (gr_same _ _ G); auto. Qed.
Lemma grown_trans u v w : grown u v -> grown v w -> grown u w.
Proof.
  intros A B. constructor; [|destruct A, B; congruence..|].
  - intros p R. apply (grown_reach v); auto. apply A; auto.
  - intros p R. rewrite (gr_same _ _ B), (gr_same _ _ A); auto. apply (grown_reach u); auto.
Qed.
Lemma more_grown v w : more v w -> grown v w.
Proof. intros M. pose proof M as [A B C D]. constructor; auto; try apply A. intros p R. eapply more_reach; [exact M|apply reach_root; auto]. Qed.

(** * Entering *)

Lemma resolves_typed v f g : typed v -> resolves (objects v) f g -> In f (stack v) ->
  well_typed v g /\ (forall p, refers g p -> reach v p).
Proof.
  intros T H. enough (forall f, resolves (objects v) f g -> val v f -> (forall p, refers f p -> reach v p) -> well_typed v g /\ (forall p, refers g p -> reach v p)) as K.
  { intros Hi. apply (K f); auto; [apply val_in; auto|]. intros p R. eapply reach_in; eauto. }
  clear f H. induction 1 as [f N|c t x q g f E1 E2 H IH]; intros V R; [split; auto; apply V|].
  assert (reach v c) as Rc by (apply R; constructor). assert (reach v q) as Rq by (eapply reach_step; [exact Rc|exact E1|constructor]).
  apply IH.
  - pose proof (ty_objects _ _ T c _ (typed_reach_live v c T Rc) (fun x => x) E1) as [_ P].
    destruct (P q eq_refl) as [L [o [Eo Fo]]]. rewrite E2 in Eo. injection Eo as <-. split; auto. apply (ty_objects _ _ T q _ L (fun x => x) E2).
  - intros p Rp. eapply reach_step; [exact Rq|exact E2|auto].
Qed.

Lemma enter_spec base ret name b u arity va v0 v :
  (globals v = globals v0 /\ globals_map v = globals_map v0 /\ call_stack v = call_stack v0 /\ uacs v = uacs v0 /\
    current_bytecode v = current_bytecode v0 /\ next_user_type v = next_user_type v0 /\
    forall p, reach v0 p -> nth_error (objects v) p = nth_error (objects v0) p) ->
  (forall p, p = b \/ p = u -> reach v0 p) -> well_typed v0 (OClosure name (Some b) (Some u) arity va) ->
  exists c v', enter base ret (OClosure name (Some b) (Some u) arity va) v = (Ok (Continue c), v') /\
    enters base ret name b u c v0 v' /\ stack v' = stack v /\ ustack v' = ustack v /\ objects v' = objects v.
Proof.
  intros [G1 [G2 [G3 [G4 [G5 [G6 G7]]]]]] R [_ [[b' [Eb [_ [xb [Exb Kb]]]]] [u' [Eu [_ [xu [Exu Ku]]]]]]]. injection Eb as <-. injection Eu as <-.
  destruct xb as [| | | | | | | | | | | | | | | | |id code| |]; simpl in Kb; try contradiction. destruct code as [code|]; [|contradiction].
  destruct xu as [| | | | | | | | | | | | | | |uid cs len| | | |]; simpl in Ku; try contradiction.
  assert (nth_error (objects v) b = Some (OBytecode id (Some code))) as Eb by (rewrite G7; auto).
  assert (nth_error (objects v) u = Some (OUpvalueArray uid cs len)) as Eu by (rewrite G7; auto).
  eexists. eexists. split.
  - unfold enter. unfold mbind. rewrite (deref_run _ _ _ Eu). unfold call_stack_push, mmod.
    erewrite deref_run; [|exact Eb]. unfold mret. reflexivity.
  - split; [|auto]. constructor; simpl; auto.
    + rewrite G3; auto.
    + exists uid, cs, len. split; auto. destruct cs; rewrite G4; auto.
    + exists id, code. auto.
Qed.

(** * Fixed arity *)

Lemma funcall_prepare host base next i n f g v : at_pos v i f -> resolves (objects v) f g ->
  exec host base next (IFuncall i n) v =
  (' x <~ (match g with
    | OFunction _ => mret g
    | OClosure _ _ _ arity true => if n <? arity then merr invalidValue else rest_list (n - arity) None ;;; mret g
    | OClosure _ _ _ arity false => if arity =? n then mret g else merr invalidValue
    | _ => merr invalidValue
    end) ;; match x with OFunction c => host c ;;; mret (Continue next) | _ => enter base next x end) v.
Proof.
  intros Hi H. cbn [exec]. unfold funcall_op. unfold mbind at 1. rewrite (sget_at v i f Hi). unfold mbind at 1. unfold prepare_for_funcall.
  unfold mbind at 1 2. unfold mget. rewrite (unwrap_resolves v f g H). reflexivity.
Qed.

Lemma funcall_fixed host base next i n f name b u arity v : typed v -> at_pos v i f ->
  resolves (objects v) f (OClosure name (Some b) (Some u) arity false) ->
  (n = arity -> exists c v', exec host base next (IFuncall i n) v = (Ok (Continue c), v') /\
     enters base next name b u c v v' /\ stack v' = stack v /\ ustack v' = ustack v) /\
  (n <> arity -> exec host base next (IFuncall i n) v = (Err invalidValue, v)).
Proof.
  intros T Hi H. rewrite (funcall_prepare host base next i n f _ v Hi H). split.
  - intros ->. unfold mbind. rewrite Z.eqb_refl. unfold mret.
    destruct (resolves_typed v f _ T H (at_in _ _ _ Hi)) as [W R].
    destruct (enter_spec base next name b u arity false v v) as [c [v' [E [N [S1 [U1 _]]]]]]; auto 10; [|exists c, v'; auto].
    intros z [-> | ->]; apply R; constructor.
  - intros N. unfold mbind. destruct (Z.eqb_spec arity n); [congruence|]. reflexivity.
Qed.

Lemma funcall_refused host base next i n f g v : at_pos v i f -> resolves (objects v) f g ->
  match g with OFunction _ => False | OClosure _ _ _ arity true => n < arity | OClosure _ _ _ _ false => False | _ => True end ->
  exec host base next (IFuncall i n) v = (Err invalidValue, v).
Proof.
  intros Hi H K. rewrite (funcall_prepare host base next i n f _ v Hi H). destruct g; try contradiction; try reflexivity.
  destruct variadic; [|contradiction]. unfold mbind. destruct (Z.ltb_spec n arity); [reflexivity|lia].
Qed.

Lemma funcall_host host base next i n f k v : at_pos v i f -> resolves (objects v) f (OFunction k) ->
  exec host base next (IFuncall i n) v = (host k ;;; mret (Continue next)) v.
Proof. intros Hi H. rewrite (funcall_prepare host base next i n f _ v Hi H). reflexivity. Qed.

(** * Collecting arguments *)

Lemma list_value_same v v' l xs : list_value (objects v) l xs -> (forall p, l = Some p -> reach v p) ->
  (forall p, reach v p -> nth_error (objects v') p = nth_error (objects v) p) -> list_value (objects v') l xs.
Proof.
  intros H. induction H as [|p a d x xs E Hs HL IH]; intros R HR; [constructor|].
  assert (reach v p) as Rp by auto. econstructor; [rewrite HR; eauto| |].
  - eapply shows_same; eauto. intros q ->. apply HR. eapply reach_step; [exact Rp|exact E|constructor].
  - apply IH; auto. intros q ->. eapply reach_step; [exact Rp|exact E|constructor].
Qed.

(** As [collecting], with the list built so far. *)
Definition collected (v0 : vm) (us : list optr) (s : list object) (last : optr) (xs : list object) (v : vm) : Prop :=
  exists p w, grown v0 (set_stack w (OList last :: s)) /\ typed w /\ stack w = OUser 0 false [p] :: OList last :: s /\ ustack w = us /\
    v = set_stack w (OList p :: OList last :: s) /\ opoints w is_cons last /\ list_value (objects w) last xs.

Lemma tot_collecting_alloc (K : Prop) s last v o p w :
  typed w -> stack w = OUser 0 false [p] :: OList last :: s -> v = set_stack w (OList p :: OList last :: s) ->
  storable o -> well_typed w o -> (forall q, refers o q -> reach w q) -> (free v = [] -> K) ->
  tot K v (alloc o) (fun r v' => exists q w', r = Some q /\ typed w' /\ stack w' = stack w /\
    v' = set_stack w' (OList p :: OList last :: s) /\ new_object o w q w').
Proof.
  intros T Es -> So Wo Ro HK. cbn [free set_stack] in HK.
  pose proof (tot_alloc K w o T So Wo Ro HK) as H. unfold tot in *.
  rewrite (alloc_swap w o (OUser 0 false [p]) (OList p) (OList last :: s)) by reflexivity.
  rewrite <- Es, (set_stack_same w _ eq_refl).
  destruct (alloc o w) as [[r|e| |] w']; auto. destruct H as [q [-> [T' N]]].
  exists q, w'. split; auto. split; auto. split; [apply (new_stack _ _ _ _ N)|]. auto.
Qed.

Lemma tot_slot (K : Prop) v d x l l' (Q : unit -> vm -> Prop) : stack v = l -> list_set l d x = l' -> (d < length l)%nat ->
  Q tt (set_stack v l') -> tot K v (sset_raw (Z.of_nat d) x) Q.
Proof.
  intros <- <- H HQ. unfold sset_raw. apply tot_get. unfold raw_set, abs_set, zlen. destruct (_ || _) eqn:C; [lia|].
  apply tot_bind. eapply tot_call; [reflexivity|]. eapply tot_call; [reflexivity|].
  replace (Z.to_nat _) with d by lia. auto.
Qed.

Lemma new_room o v q v' : new_object o v q v' -> forall k, (S k <= length (free v))%nat -> (k <= length (free v'))%nat.
Proof.
  intros N k H. destruct (free v) as [|f fr] eqn:Ef; [simpl in H; lia|].
  destruct (no_room _ _ _ _ N) as [E _]; [rewrite Ef; discriminate|]. rewrite Ef in E. injection E as _ ->. simpl in H. lia.
Qed.

Lemma grown_new o w q w' l : new_object o w q w' -> incl l (stack w) -> grown (set_stack w l) (set_stack w' l).
Proof.
  intros N Hl. pose proof (no_roots _ _ _ _ N) as (A1 & A2 & A3 & A4 & A5 & A6 & A7 & A8).
  assert (forall p, reach (set_stack w l) p -> reach w p) as R.
  { intros p. induction 1 as [p R|p x r R IH E F].
    - apply reach_root. inversion R; subst; simpl in *; [eapply root_stack|eapply root_ustack|eapply root_global|eapply root_frame|eapply root_current]; eauto.
    - eapply reach_step; eauto. }
  constructor; simpl; auto.
  - intros p H. apply reach_root. inversion H; subst; simpl in *; [eapply root_stack|eapply root_ustack|eapply root_global|eapply root_frame|eapply root_current]; simpl; rewrite ?A2, ?A3, ?A5, ?A7; eauto.
  - intros p H. apply N. auto.
Qed.

Lemma grown_swap w x y l l' : (forall z, In z l -> In z (y :: l')) -> (forall p, refers x p -> reach (set_stack w (y :: l')) p) ->
  grown (set_stack w (x :: l)) (set_stack w (y :: l')).
Proof.
  intros Hl Hx. constructor; auto. intros p R. inversion R as [z q Hz Fz| | | |]; subst; simpl in *.
  - destruct Hz as [<-|Hz]; auto. apply (reach_in _ z); auto. simpl. apply Hl; auto.
  - apply reach_root, root_ustack; auto.
  - apply reach_root, root_global; auto.
  - eapply reach_root, root_frame; eauto.
  - apply reach_root, root_current; auto.
Qed.

Lemma tot_collect (K : Prop) v0 us s n : forall k last xs v, collected v0 us s last xs v -> (k + n <= length s)%nat ->
  (K \/ 2 * n <= length (free v))%nat ->
  tot K v (collect_args n (Z.of_nat k) last)
    (fun r v' => collected v0 us s r (rev (firstn n (skipn k s)) ++ xs) v').
Proof.
  induction n as [|n IH]; intros k last xs v H Hn HK; cbn [collect_args].
  { apply tot_ret. auto. }
  destruct H as [p [w [Hx [T [Es [Eu [-> [Pl HL]]]]]]]]. apply tot_get. cbn [stack set_stack].
  destruct (nth_error s k) as [o|] eqn:No; [|apply nth_error_None in No; lia].
  assert (raw_get (OList p :: OList last :: s) (zlen (OList p :: OList last :: s) - 3 - Z.of_nat k) = Ok o) as Eo.
  { unfold raw_get, abs_get, zlen. cbn [length]. destruct (_ || _) eqn:C; [lia|].
    replace (Z.to_nat _) with (S (S k)) by lia. cbn [nth_error]. rewrite No. reflexivity. }
  apply tot_bind. eapply tot_call; [unfold mlift; rewrite Eo; reflexivity|].
  assert (In o s) as Ho by (eapply nth_error_In; eauto).
  assert (In o (stack w)) as How by (rewrite Es; right; right; auto).
  destruct (val_in w o T How) as [Fo Wo].
  apply tot_bind. eapply tot_weaken; [apply (tot_collecting_alloc K s last _ o p w); auto|].
  { destruct o; simpl in *; auto. }
  { intros q Rq. eapply reach_in; eauto. }
  { intros E. cbn [free set_stack] in *. rewrite E in HK. simpl in HK. destruct HK; [auto|lia]. }
  intros r v1 [q [w1 [-> [T1 [Es1 [-> N1]]]]]].
  pose proof (no_roots _ _ _ _ N1) as (A1 & A2 & A3 & A4 & A5 & A6 & A7 & A8).
  assert (points w1 first_class q) as Pq by (apply (new_points o w); auto; intros m; rewrite stored_first_class; auto).
  assert (nth_error (objects w1) q = Some o) as Eq by (destruct (no_stored _ _ _ _ N1) as [m ->]; rewrite stored_first_class; auto).
  assert (forall z, last = Some z -> reach w z) as Rl.
  { intros z ->. apply (reach_in w (OList (Some z))); [rewrite Es; right; left; auto|constructor]. }
  assert (opoints w1 is_cons last) as Pl1.
  { intros z Ez. apply (points_keeps (reach w) w); auto with stable; apply N1. }
  assert (list_value (objects w1) last xs) as HL1 by (apply (list_value_same w); auto; apply N1).
  apply tot_bind. apply (tot_slot K _ 0 (OList (Some q)) _ (OList (Some q) :: OList last :: s) _ eq_refl); [reflexivity|simpl; lia|].
  set (w2 := set_stack w1 (OUser 0 false [Some q] :: OList last :: s)).
  assert (typed w2) as T2.
  { apply typed_set_stack; auto. rewrite Es1, Es in *. intros x [<-|Hx'].
    - split; [exact I|]. simpl. intros z [Hz|[]]. injection Hz as <-. destruct Pq as [L [y [Ey _]]]. split; auto. exists y. split; auto. exact I.
    - apply (ty_stack _ _ T1). rewrite Es1. right; auto. }
  change (set_stack (set_stack w1 (OList p :: OList last :: s)) (OList (Some q) :: OList last :: s))
    with (set_stack w2 (OList (Some q) :: OList last :: s)).
  assert (well_typed w2 (OCons (Some q) last)) as Wc.
  { split.
    - intros z Ez. injection Ez as <-. apply (same_points w1); [split; reflexivity|]. destruct Pq as [L [y [Ey Ky]]].
      split; auto. exists y. split; auto. left; auto.
    - intros z Ez. apply (same_points w1); [split; reflexivity|]. destruct (Pl1 z Ez) as [L [y [Ey Ky]]].
      split; auto. exists y. split; auto. right; auto. }
  assert (reach w2 q) as Rq2 by (apply (reach_in w2 (OUser 0 false [Some q])); [left; auto|constructor; left; auto]).
  assert (forall z, last = Some z -> reach w2 z) as Rl2.
  { intros z ->. apply (reach_in w2 (OList (Some z))); [right; left; auto|constructor]. }
  apply tot_bind. eapply tot_weaken; [apply (tot_collecting_alloc K s last _ (OCons (Some q) last) (Some q) w2); simpl; auto|].
  { intros z Rz. inversion Rz; subst; auto. }
  { intros E. destruct HK as [HK|HK]; auto. cbn [free set_stack] in HK.
    assert (S (2 * n) <= length (free w1))%nat as HK1 by (apply (new_room _ _ _ _ N1); lia).
    cbn [free set_stack w2] in E. rewrite E in HK1. simpl in HK1. lia. }
  intros r v3 [c [w3 [-> [T3 [Es3 [-> N3]]]]]].
  pose proof (no_roots _ _ _ _ N3) as (B1 & B2 & B3 & B4 & B5 & B6 & B7 & B8).
  assert (points w3 is_cons c) as Pc by (apply (new_points (OCons (Some q) last) w2); auto; intros m; exact I).
  assert (nth_error (objects w3) c = Some (OCons (Some q) last)) as Ec by (destruct (no_stored _ _ _ _ N3) as [m ->]; reflexivity).
  assert (list_value (objects w3) (Some c) (o :: xs)) as HL3.
  { eapply list_cons; [exact Ec| |].
    - apply shows_value; [|destruct o; auto; contradiction]. rewrite (no_same _ _ _ _ N3 q Rq2). auto.
    - apply (list_value_same w2); auto. apply N3. }
  apply tot_bind. apply (tot_slot K _ 1 (OList (Some c)) _ (OList (Some q) :: OList (Some c) :: s) _ eq_refl); [reflexivity|simpl; lia|].
  replace (Z.of_nat k + 1) with (Z.of_nat (S k)) by lia.
  eapply tot_weaken; [apply (IH (S k) (Some c) (o :: xs)); [|lia|]|].
  - exists (Some q), (set_stack w3 (OUser 0 false [Some q] :: OList (Some c) :: s)). split; [|split; [|split; [reflexivity|split; [|split; [reflexivity|split; [|exact HL3]]]]]].
    + apply (grown_trans v0 _ _ Hx). apply (grown_trans _ (set_stack w1 (OList last :: s))).
      { apply (grown_new o w q); auto. intros x Hx'. rewrite Es. right; auto. }
      apply (grown_trans _ (set_stack w3 (OList last :: s))).
      { change (set_stack w1 (OList last :: s)) with (set_stack w2 (OList last :: s)).
        apply (grown_new (OCons (Some q) last) w2 c); auto. intros x Hx'. right; auto. }
      change (grown (set_stack w3 (OList last :: s)) (set_stack w3 (OList (Some c) :: s))).
      apply grown_swap; [intros z Hz; right; auto|intros z R].
      inversion R; subst. eapply reach_step; [apply (reach_in _ (OList (Some c))); [left; reflexivity|constructor]|exact Ec|constructor].
    + apply typed_set_stack; auto. intros x [<-|[<-|Hx']].
      * apply (ty_stack _ _ T3). rewrite Es3. left; auto.
      * split; [exact I|]. simpl. intros z Ez. injection Ez as <-. auto.
      * apply (ty_stack _ _ T3). rewrite Es3. right; right; auto.
    + simpl. simpl in B2. congruence.
    + intros z Ez. injection Ez as <-. auto.
  - destruct HK as [HK|HK]; [auto|right]. cbn [free set_stack] in *.
    assert (S (2 * n) <= length (free w1))%nat as HK1 by (apply (new_room _ _ _ _ N1); lia).
    exact (new_room _ _ _ _ N3 _ HK1).
  - intros r v4 H4. assert (firstn (S n) (skipn k s) = o :: firstn n (skipn (S k) s)) as ->.
    { clear - No. revert s No. induction k as [|k IHk]; intros [|y s] No; try discriminate; [simpl in *; congruence|].
      cbn [skipn]. cbn [nth_error] in No. apply IHk in No. exact No. }
    cbn [rev]. rewrite <- app_assoc. exact H4.
Qed.

Lemma skipn_list_set {A} (l : list A) n x : (n < length l)%nat -> skipn n (list_set l n x) = x :: skipn (S n) l.
Proof. revert n. induction l as [|y l IH]; intros [|n] H; simpl in *; try lia; auto. rewrite IH by lia. destruct l; reflexivity. Qed.

Lemma tot_rest (K : Prop) v n last xs : typed v -> opoints v is_cons last -> list_value (objects v) last xs ->
  0 <= n <= zlen (stack v) -> in_step v -> (K \/ 2 * Z.to_nat n <= length (free v))%nat ->
  tot K v (rest_list n last) (fun _ v' => exists l, stack v' = OList l :: skipn (Z.to_nat n) (stack v) /\
    ustack v' = skipn (Z.to_nat n) (None :: ustack v) /\ list_value (objects v') l (rev (firstn (Z.to_nat n) (stack v)) ++ xs) /\
    globals v' = globals v /\ globals_map v' = globals_map v /\ call_stack v' = call_stack v /\ uacs v' = uacs v /\
    current_bytecode v' = current_bytecode v /\ next_user_type v' = next_user_type v /\
    forall p, reach (pushed (OList last) v) p -> nth_error (objects v') p = nth_error (objects v) p).
Proof.
  intros T Pl HL Hn Hstep HK. unfold rest_list. apply tot_bind. eapply tot_call; [reflexivity|].
  apply tot_bind. eapply tot_call; [reflexivity|].
  set (v1 := pushed (OList last) v). set (v2 := pushed (OList None) v1). fold v2.
  change (set_ustack (set_stack v1 (OList None :: stack v1)) (None :: ustack v1)) with v2.
  assert (typed v1) as T1 by (apply typed_pushed; auto; exact I).
  apply tot_bind. change 0 with (Z.of_nat 0).
  eapply tot_weaken; [apply (tot_collect K v1 (None :: None :: ustack v) (stack v) (Z.to_nat n) 0 last xs)|].
  - exists None, (pushed (OUser 0 false [None]) v1). split; [|split; [|split; [reflexivity|split; [reflexivity|split; [reflexivity|split; [|exact HL]]]]]].
    + constructor; auto. intros p R. apply reach_root.
      inversion R; subst; simpl in *; [eapply root_stack|eapply root_ustack|eapply root_global|eapply root_frame|eapply root_current]; simpl; eauto.
    + apply typed_pushed; auto; [exact I|]. simpl. intros p [Hp|[]]. discriminate.
    + intros z Ez. apply (same_points v); [split; reflexivity|auto].
  - unfold zlen in *. lia.
  - auto.
  - intros l v3 [p [w [Hx [T2 [Es [Eu [-> [P2 HL2]]]]]]]].
    apply tot_bind. unfold stack_pop. apply tot_get. cbn [stack set_stack ustack].
    apply tot_bind. eapply tot_call; [reflexivity|]. rewrite Eu.
    apply tot_bind. eapply tot_call; [reflexivity|]. apply tot_ret.
    set (v4 := set_ustack (set_stack w (OList l :: stack v)) (None :: ustack v)).
    change (tot K v4 (sset_raw n (OList l);;; stack_pop_multiple n) (fun _ v' => exists l, stack v' = OList l :: skipn (Z.to_nat n) (stack v) /\
      ustack v' = skipn (Z.to_nat n) (None :: ustack v) /\ list_value (objects v') l (rev (firstn (Z.to_nat n) (stack v)) ++ xs) /\
      globals v' = globals v /\ globals_map v' = globals_map v /\ call_stack v' = call_stack v /\ uacs v' = uacs v /\
      current_bytecode v' = current_bytecode v /\ next_user_type v' = next_user_type v /\
      forall p, reach (pushed (OList last) v) p -> nth_error (objects v') p = nth_error (objects v) p)).
    apply tot_bind. replace n with (Z.of_nat (Z.to_nat n)) at 1 by lia.
    apply (tot_slot K v4 (Z.to_nat n) (OList l) (OList l :: stack v) _ _ eq_refl eq_refl); [unfold zlen in *; simpl; lia|].
    unfold stack_pop_multiple. apply tot_get. cbn [ustack stack set_stack v4 set_ustack].
    unfold in_step in Hstep. unfold zlen in *. destruct (Z.ltb_spec (Z.of_nat (length (None :: ustack v))) n); [simpl in *; lia|].
    apply tot_bind. eapply tot_call; [reflexivity|]. rewrite list_set_length.
    destruct (Z.ltb_spec (Z.of_nat (length (OList l :: stack v))) n); [simpl in *; lia|].
    eapply tot_call; [reflexivity|]. exists l. cbn [ustack stack set_stack set_ustack objects globals globals_map call_stack uacs current_bytecode next_user_type].
    rewrite skipn_list_set by (simpl; lia). destruct Hx as [_ A B C D F G I].
    split; [reflexivity|]. split; [reflexivity|]. split; [exact HL2|]. auto 10.
Qed.

Lemma funcall_variadic host base next i n f name b u arity v : typed v -> in_step v -> at_pos v i f ->
  resolves (objects v) f (OClosure name (Some b) (Some u) arity true) -> arity <= n -> n - arity <= zlen (stack v) ->
  let k := Z.to_nat (n - arity) in
  call_result (2 * k) (exec host base next (IFuncall i n) v) v (fun c v' =>
    enters base next name b u c v v' /\
    exists l, stack v' = OList l :: skipn k (stack v) /\ ustack v' = skipn k (None :: ustack v) /\
      list_value (objects v') l (rev (firstn k (stack v)))).
Proof.
  intros T Hs Hi H Hn Hk k. rewrite (funcall_prepare host base next i n f _ v Hi H).
  destruct (resolves_typed v f _ T H (at_in _ _ _ Hi)) as [W R].
  destruct (Z.ltb_spec n arity); [lia|]. unfold call_result, mbind.
  assert (opoints v is_cons None) as P0 by discriminate.
  pose proof (tot_rest (length (free v) < 2 * k)%nat v (n - arity) None [] T P0 (list_nil _) (conj (proj2 (Z.le_0_sub _ _) Hn) Hk) Hs
    ltac:(fold k; lia)) as HR.
  unfold tot in HR. destruct (rest_list (n - arity) None v) as [r v1] eqn:E.
  destruct r as [[]|e| |]; unfold mret in *; try contradiction.
  2: { right. destruct HR as [-> HK]. eauto. }
  left. destruct HR as [l [S1 [U1 [L1 [G1 [G2 [G3 [G4 [G5 [G6 G7]]]]]]]]]].
  fold k in S1, U1, L1. rewrite app_nil_r in L1.
  destruct (enter_spec base next name b u arity true v v1) as [c [v' [Ee [N [S2 [U2 O2]]]]]].
  - repeat (split; [auto; fail|]). intros p Rp. apply G7. eapply more_reach; [apply more_pushed, more_refl|auto].
  - intros p [-> | ->]; apply R; constructor.
  - auto.
  - exists c, v'. split; auto. split; auto. exists l. rewrite S2, U2, O2. auto.
Qed.

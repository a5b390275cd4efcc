(** Parenthesis inference: it ends, with a reading or with an error, on programs without declarations. *)
From Coq Require Import ZArith List Bool Lia ZifyBool ZifyNat.
From Verif Require Import S_Map M_Base M_Trie M_String M_Parser P_Trie M_Infer S_Infer P_Infer P_Infer3 P_Infer2 P_Infer4 P_Infer5.
Import ListNotations.
Open Scope Z_scope.

(** * Sizes *)

Definition weight (l : list ast) : nat := list_sum (map size l).
Lemma size_pos a : (1 <= size a)%nat.
Proof. destruct a; cbn; lia. Qed.
Lemma weight_app l1 l2 : weight (l1 ++ l2) = (weight l1 + weight l2)%nat.
Proof. unfold weight. rewrite map_app, list_sum_app. auto. Qed.
Lemma weight_cons a l : weight (a :: l) = (size a + weight l)%nat.
Proof. reflexivity. Qed.
Lemma weight_length l : (length l <= weight l)%nat.
Proof. induction l as [|a l IH]; [cbn; lia|]. rewrite weight_cons. pose proof (size_pos a). cbn. lia. Qed.

(** No identifier is declared with a nested type for its rest arguments. *)
Definition plain (E : list Z -> option sig) : Prop :=
  forall f positional count p r, E f <> Some (SigExpression positional (Some (count, SigExpression p r))).

Definition good {A} (r : res A) : Prop := r <> NoFuel /\ r <> UB.
Lemma good_bind {A B} (m : IM A) (k : A -> IM B) s :
  good (m s) -> (forall a s', m s = Ok (a, s') -> good (k a s')) -> good (ibind m k s).
Proof. unfold good, ibind. intros [G1 G2] H. destruct (m s) as [[a s']|e| |]; auto; try (split; discriminate); contradiction. Qed.
Lemma good_ok {A} (a : A) : good (Ok a).
Proof. split; discriminate. Qed.
Lemma good_err {A} e : good (@Err A e).
Proof. split; discriminate. Qed.
#[local] Hint Resolve good_ok good_err : core.

Section Ends.
Variable cs : ast -> res script.
Variable E : list Z -> option sig.
Hypothesis E_plain : plain E.
Variable bad : list Z -> bool.
Hypothesis bad_declares : forall f, declares f = true -> bad f = true.
Notation env := (env E bad).
Notation quiet := (hush bad).

Lemma quiet_spec fuel :
  arg_spec (infer_argument cs fuel) env (fun s s' => s' = s) (fun _ D' => forall f t, D E f t -> D' f t) bad /\
  par_spec (infer_argument cs fuel) env (fun s s' => s' = s) (fun _ D' => forall f t, D E f t -> D' f t) bad /\
  comp_spec (infer_compound cs fuel) env (fun s s' => s' = s) (fun _ D' => forall f t, D E f t -> D' f t) bad.
Proof.
  apply infer_ok.
  - auto.
  - intros; congruence.
  - auto.
  - auto.
  - intros f s0 t s1 V0 B F. unfold find_declaration in F. rewrite V0 in F by exact B. cbn in F. destruct (E f) eqn:EF; inversion F; subst.
    split; [reflexivity|]. split; [intros D' HD; apply HD; exact EF|]. intros sc. discriminate.
  - intros x s0 u s1 V0 QX I. rewrite (interpret_quiet cs bad) in I by auto. inversion I; subst. auto.
  - apply env_push.
  - intros s0 s2 u s3 V0 V2 -> I. unfold pop_scope, pushed in I. cbn in I. inversion I; subst. destruct s0; auto.
Qed.

Lemma arg_step n l i infer s l' i' s' :
  env s -> quiet l -> infer_argument cs n l i false infer s = Ok ((l', i'), s') ->
  s' = s /\ i' = S i /\ quiet l' /\ (S i <= length l')%nat /\
  (exists x, nth_error l' i = Some x /\ quiet [x]) /\
  exists c, c <> [] /\ skipn i l = c ++ skipn (S i) l'.
Proof.
  intros V Q R. destruct (quiet_spec n) as (A & _ & _).
  destruct (A _ _ _ _ _ _ _ V Q R) as (_ & -> & -> & pre & c & x & r & -> & <- & -> & T).
  specialize (T (D E) (fun _ _ H => H)).
  pose proof (taken_spelled _ _ _ _ T) as SX.
  assert (Ql' : quiet (pre ++ x :: r)).
  { eapply hush_same; [|exact Q]. rewrite !flat_map_app. cbn [flat_map]. rewrite SX. auto. }
  split; auto. split; auto. split; auto. split; [rewrite app_length; cbn; lia|]. split.
  - exists x. rewrite nth_cut. split; auto. apply hush_app in Ql' as [_ Q']. apply hush_cons in Q'. tauto.
  - exists c. split.
    + destruct infer; cbn in T; [eapply operand_nonempty; eauto|]. destruct T as (a & -> & _). discriminate.
    + rewrite skipn_cut. f_equal. replace (pre ++ x :: r) with ((pre ++ [x]) ++ r) by (rewrite <- app_assoc; auto).
      replace (S (length pre)) with (length (pre ++ [x])) by (rewrite app_length; cbn; lia). rewrite skipn_cut. auto.
Qed.

(** What is left to read at position [i]. *)
Definition left (w : nat) (l : list ast) (i : nat) : Prop :=
  (weight (skipn i l) <= w)%nat /\ forallb named (skipn i l) = true.

Section Step.
Variable n : nat.
Notation argument := (infer_argument cs n).
Notation compound := (infer_compound cs n).
Hypothesis A : forall l i par infer s,
  env s -> quiet l -> forallb named (skipn i l) = true -> (2 * weight (skipn i l) + 1 <= n)%nat ->
  (par = true -> i = 0%nat) -> good (argument l i par infer s).
Hypothesis C : forall a infer s, env s -> quiet [a] -> named a = true -> (2 * size a <= n)%nat -> good (compound a infer s).

Lemma step_left n' l i infer s l' i' s' w :
  env s -> quiet l -> left w l i -> infer_argument cs n' l i false infer s = Ok ((l', i'), s') ->
  s' = s /\ i' = S i /\ quiet l' /\ (S i <= length l')%nat /\
  (exists x, nth_error l' i = Some x /\ quiet [x]) /\ (1 <= w)%nat /\ left (w - 1) l' (S i).
Proof.
  intros V Q [W NM] R. destruct (arg_step _ _ _ _ _ _ _ _ V Q R) as (-> & -> & Q' & L & X & c & NE & SK).
  split; auto. split; auto. split; auto. split; auto. split; auto.
  rewrite SK in *. rewrite weight_app in W. rewrite forallb_app in NM. apply andb_true_iff in NM as [_ NM].
  assert (1 <= weight c)%nat. { destruct c; [contradiction|]. rewrite weight_cons. pose proof (size_pos a). lia. }
  split; [lia|]. split; auto. lia.
Qed.

Definition fit (w : nat) (p : progress) : Prop :=
  let '(ti, l, i, new) := p in quiet l /\ quiet new /\ (i <= length l)%nat /\ left w l i.

Lemma fit_less w w' p : (w <= w')%nat -> fit w p -> fit w' p.
Proof. destruct p as [[[ti l] i] new]. cbn. intros L (Q & QN & IL & W & NM). repeat split; auto. lia. Qed.

Lemma hush_both l1 l2 : quiet l1 -> quiet l2 -> quiet (l1 ++ l2).
Proof. intros Q1 Q2 m B. rewrite flat_map_app, in_app_iff. intros [I|I]; [eapply Q1|eapply Q2]; eauto. Qed.

Lemma one_good t l i new par infer s w ti :
  env s -> fit w (ti, l, i, new) -> (2 * w + 1 <= n)%nat ->
  good (one_argument argument t l i new par infer s) /\
  forall l' i' new' s', one_argument argument t l i new par infer s = Ok ((l', i', new'), s') ->
    s' = s /\ i' = S i /\ (1 <= w)%nat /\ fit (w - 1) (ti, l', i', new').
Proof.
  intros V (Q & QN & IL & W & NM) L. unfold one_argument.
  assert (G : forall b, good (argument l i false b s)) by (intros b; apply A; auto; [lia|discriminate]).
  split.
  - apply good_bind; auto. intros [l1 i1] s1 R.
    destruct (step_left _ _ _ _ _ _ _ _ w V Q (conj W NM) R) as (-> & -> & Q' & L' & (x & X & QX) & W1 & LF).
    destruct par; [apply good_ok|]. unfold ibind, element, ilift. rewrite X. apply good_ok.
  - intros l' i' new' s' R. ib R p s1 R1. destruct p as [l1 i1].
    destruct (step_left _ _ _ _ _ _ _ _ w V Q (conj W NM) R1) as (-> & -> & Q' & L' & (x & X & QX) & W1 & LF).
    destruct par.
    + apply iret_ok in R as [[= -> -> ->] ->]. repeat split; auto; apply LF.
    + ib R a s2 R2. apply element_ok in R2 as [R2 ->]. apply iret_ok in R as [[= -> -> ->] ->].
      rewrite X in R2. inversion R2; subst a. repeat split; auto; try apply LF. apply hush_both; auto.
Qed.

Lemma rest_good count t par infer ti : forall m w k l i new s,
  (forall p r, t <> SigExpression p r) -> env s -> fit w (ti, l, i, new) -> (2 * w + 1 <= n)%nat -> (w + 1 <= m)%nat ->
  good (rest_arguments argument m count t k l i new par infer false s) /\
  forall l' i' new' s', rest_arguments argument m count t k l i new par infer false s = Ok ((l', i', new'), s') ->
    s' = s /\ fit w (ti, l', i', new') /\ (i <= i')%nat.
Proof.
  induction m as [|m IH]; intros w k l i new s T V F L M; [lia|]. cbn [rest_arguments].
  destruct (if par then _ else _).
  - destruct (one_good t l i new par infer s w ti V F L) as [G1 G2].
    assert (EQ : match t with
      | SigExpression _ _ => rest_arguments argument m count t (k + 1) l i new par infer true
      | _ => '(l', i', new') <! one_argument argument t l i new par infer;;
             rest_arguments argument m count t (k + 1) l' i' new' par infer false
      end = ('(l', i', new') <! one_argument argument t l i new par infer;;
             rest_arguments argument m count t (k + 1) l' i' new' par infer false)).
    { destruct t; auto. exfalso. eapply T; eauto. }
    rewrite EQ. clear EQ. split.
    + apply good_bind; auto. intros [[l1 i1] new1] s1 R. destruct (G2 _ _ _ _ R) as (-> & -> & W1 & F1).
      apply (IH (w - 1)%nat); auto; lia.
    + intros l' i' new' s' R. ib R p s1 R1. destruct p as [[l1 i1] new1]. destruct (G2 _ _ _ _ R1) as (-> & -> & W1 & F1).
      destruct (IH (w - 1)%nat (k + 1) l1 (S i) new1 s T V F1 ltac:(lia) ltac:(lia)) as [_ K].
      destruct (K _ _ _ _ R) as (-> & F2 & I2). split; auto. split; [eapply fit_less; [|exact F2]; lia|lia].
  - split; [apply good_ok|]. intros l' i' new' s' R. apply iret_ok in R as [[= -> -> ->] ->]. auto.
Qed.

Definition at_ (p : progress) : nat := let '(_, _, i, _) := p in i.
Lemma incrementally_good positional rest par infer p s w :
  (forall c p r, rest <> Some (c, SigExpression p r)) -> env s -> fit w p -> (2 * w + 1 <= n)%nat ->
  good (incrementally argument n positional rest p par infer s) /\
  forall p' s', incrementally argument n positional rest p par infer s = Ok (p', s') ->
    s' = s /\ fit w p' /\ (at_ p <= at_ p')%nat.
Proof.
  destruct p as [[[ti l] i] new]. intros R V F L. cbn [incrementally].
  destruct (nth_error positional ti) as [t|].
  - destruct (length l <=? i)%nat; [split; [apply good_err|discriminate]|].
    destruct (one_good t l i new par infer s w ti V F L) as [G1 G2].
    assert (X : good (('(l', i', new') <! one_argument argument t l i new par infer;; iret (S ti, l', i', new')) s) /\
      forall p' s', ('(l', i', new') <! one_argument argument t l i new par infer;; iret (S ti, l', i', new')) s = Ok (p', s') ->
      s' = s /\ fit w p' /\ (i <= at_ p')%nat).
    { split.
      - apply good_bind; auto. intros [[l1 i1] new1] s1 R1. apply good_ok.
      - intros p' s' R1. ib R1 q s1 R2. destruct q as [[l1 i1] new1]. destruct (G2 _ _ _ _ R2) as (-> & -> & W1 & F1).
        apply iret_ok in R1 as [-> ->]. split; auto. split; [|cbn; lia].
        apply (fit_less (w - 1) w (ti, l1, S i, new1)); auto. lia. }
    destruct t; auto; try (split; [apply good_err|discriminate]).
  - destruct (ti <=? length positional)%nat; [|split; [apply good_err|discriminate]].
    destruct rest as [[count t]|].
    + destruct (negb par && (count <? 0)); [split; [apply good_err|discriminate]|].
      destruct (rest_good count t par infer ti n w 0 l i new s) as [G1 G2]; auto; try lia.
      { intros p r ->. eapply R; eauto. }
      split.
      * apply good_bind; auto. intros [[l1 i1] new1] s1 R1. apply good_ok.
      * intros p' s' R1. ib R1 q s1 R2. destruct q as [[l1 i1] new1]. destruct (G2 _ _ _ _ R2) as (-> & F1 & I1).
        apply iret_ok in R1 as [-> ->]. auto.
    + split; [apply good_ok|]. intros p' s' R1. apply iret_ok in R1 as [-> ->]. split; auto.
Qed.

Lemma remaining_good positional rest par infer w m : forall p s,
  (forall c p r, rest <> Some (c, SigExpression p r)) -> env s -> fit w p -> (2 * w + 1 <= n)%nat ->
  good (remaining argument n m positional rest p par infer s) /\
  forall p' s', remaining argument n m positional rest p par infer s = Ok (p', s') ->
    s' = s /\ fit w p' /\ (at_ p <= at_ p')%nat.
Proof.
  induction m as [|m IH]; intros p s R V F L; cbn [remaining].
  - split; [apply good_ok|]. intros p' s' R1. apply iret_ok in R1 as [-> ->]. auto.
  - destruct (incrementally_good positional rest par infer p s w R V F L) as [G1 G2]. split.
    + apply good_bind; auto. intros p1 s1 R1. destruct (G2 _ _ R1) as (-> & F1 & _). apply IH; auto.
    + intros p' s' R1. ib R1 p1 s1 R2. destruct (G2 _ _ R2) as (-> & F1 & I1).
      destruct (IH p1 s R V F1 L) as [_ K]. destruct (K _ _ R1) as (-> & F2 & I2). split; auto. split; auto. lia.
Qed.

Lemma arguments_good m : forall w l i infer s,
  env s -> quiet l -> left w l i -> (2 * w + 1 <= n)%nat -> (w + 1 <= m)%nat ->
  good (arguments cs argument m l i infer s).
Proof.
  induction m as [|m IH]; intros w l i infer s V Q LF L M; [lia|]. cbn [arguments].
  destruct (Nat.ltb_spec i (length l)); [|apply good_ok].
  apply good_bind. { destruct LF as [W NM]. apply A; auto; [lia|discriminate]. }
  intros [l1 i1] s1 R. destruct (step_left _ _ _ _ _ _ _ _ w V Q LF R) as (-> & -> & Q' & L' & (x & X & QX) & W1 & LF').
  unfold ibind at 1, element, ilift. rewrite X. cbn [bind]. unfold ibind. rewrite (interpret_quiet cs bad) by auto.
  apply (IH (w - 1)%nat); auto; lia.
Qed.

Lemma call_good positional rest f l i par infer s w :
  (forall c p r, rest <> Some (c, SigExpression p r)) -> env s -> quiet l -> nth_error l i = Some (AstIdentifier f) ->
  left w l (S i) -> (2 * w + 1 <= n)%nat ->
  good (call_arguments cs argument n {| it_sig := SigExpression positional rest; it_script := None |}
          positional rest (AstIdentifier f) l i par infer s).
Proof.
  intros R V Q N LF L. unfold call_arguments. cbn [it_script].
  assert (IL : (i < length l)%nat) by (apply nth_error_Some; congruence).
  set (p0 := (0%nat, l, S i, if par then [] else [AstIdentifier f])).
  assert (F0 : fit w p0).
  { unfold p0, fit. split; auto. split; [|split; [lia|auto]]. destruct par; [intros m B []|].
    apply nth_error_cut in N as (pre & r & -> & _). apply hush_app in Q as [_ Q]. apply hush_cons in Q. tauto. }
  unfold ibind at 1, iret at 1. unfold p0 at 1.
  destruct (remaining_good positional rest par infer w (S (length positional) - 0) p0 s R V F0 L) as [G1 G2].
  apply good_bind; auto. intros [[[ti1 l1] i1] new1] s1 R1. destruct (G2 _ _ R1) as (-> & (Q1 & QN1 & L1 & _) & I1).
  cbn in I1.
  set (m := if par then _ else _).
  assert (K : good (m s) /\ forall l2 i2 s2, m s = Ok ((l2, i2), s2) -> s2 = s /\ exists x, nth_error l2 i = Some x /\ quiet [x]).
  { unfold m. destruct par.
    - destruct (i1 =? length l1)%nat; [|split; [apply good_err|discriminate]]. split; [apply good_ok|].
      intros l2 i2 s2 E2. apply iret_ok in E2 as [[= -> ->] ->]. split; auto.
      destruct (nth_error l1 i) as [x|] eqn:X; [|apply nth_error_None in X; lia].
      exists x. split; auto. apply nth_error_cut in X as (pre & r & -> & _). apply hush_app in Q1 as [_ Q1].
      apply hush_cons in Q1. tauto.
    - split; [apply good_ok|]. intros l2 i2 s2 E2. apply iret_ok in E2 as [[= -> ->] ->]. split; auto.
      exists (AstExpression new1). split.
      + assert (LL : length (firstn i l1) = i) by (rewrite firstn_length; lia).
        rewrite nth_error_app2, LL, Nat.sub_diag by lia. reflexivity.
      + intros k B. cbn. rewrite app_nil_r. apply QN1; auto. }
  destruct K as [K1 K2]. apply good_bind; auto. intros [l2 i2] s2 R2. destruct (K2 _ _ _ R2) as (-> & x & X & QX).
  unfold ibind at 1, element, ilift. rewrite X. cbn [bind]. unfold ibind. rewrite (interpret_quiet cs bad) by auto. apply good_ok.
Qed.

Lemma argument_good l i par infer s :
  env s -> quiet l -> forallb named (skipn i l) = true -> (2 * weight (skipn i l) <= n)%nat ->
  (par = true -> i = 0%nat) -> good (argument_body cs argument compound n l i par infer s).
Proof.
  intros V Q NM L P0. unfold argument_body. destruct (nth_error l i) as [a|] eqn:N; [|apply good_err].
  assert (SK : skipn i l = a :: skipn (S i) l).
  { pose proof N as N'. apply nth_error_cut in N' as (pre & r & -> & <-). rewrite skipn_cut.
    replace (pre ++ a :: r) with ((pre ++ [a]) ++ r) by (rewrite <- app_assoc; auto).
    replace (S (length pre)) with (length (pre ++ [a])) by (rewrite app_length; cbn; lia). rewrite skipn_cut. auto. }
  rewrite SK in NM, L. cbn [forallb] in NM. apply andb_true_iff in NM as [NA NM]. rewrite weight_cons in L.
  assert (QA : quiet [a]).
  { pose proof N as N'. apply nth_error_cut in N' as (pre & r & -> & _). apply hush_app in Q as [_ Q]. apply hush_cons in Q. tauto. }
  assert (GC : good (compound a infer s)) by (apply C; auto; lia).
  assert (K : good ((a' <! compound a infer ;; _ <! interpret_declare cs a' ;; iret (list_set l i a', S i)) s)).
  { apply good_bind; auto. intros a' s' R. destruct (quiet_spec n) as (_ & _ & CS).
    destruct (CS _ _ _ _ _ V QA R) as (_ & -> & F). specialize (F (D E) (fun _ _ H => H)).
    assert (QA' : quiet [a']).
    { eapply hush_one; [|exact QA]. destruct infer; [eapply form_spelled; eauto|apply shut_spelled; auto]. }
    unfold ibind. rewrite (interpret_quiet cs bad) by auto. apply good_ok. }
  destruct a; auto. clear K.
  unfold ibind at 1, find_declaration. rewrite V by (eapply hush_head; exact QA). cbn [bind].
  assert (K1 : good ((a <! compound (AstIdentifier s0) infer;; iret (list_set l i a, S i)) s)).
  { apply good_bind; auto. intros; apply good_ok. }
  assert (K2 : good ((a <! compound (AstIdentifier s0) infer;;
     (if infer then ierr invalidValue else iret (list_set l i a, S i))) s)).
  { apply good_bind; auto. intros a s1 _. destruct infer; [apply good_err|apply good_ok]. }
  pose proof (size_pos (AstIdentifier s0)) as SP.
  destruct (E s0) as [t|] eqn:EF; [|exact K2]. destruct infer; [|exact K1]. cbn [it_sig].
  destruct t as [| |positional rest].
  - destruct par; [|apply good_ok]. specialize (P0 eq_refl). subst i. change (skipn 0 l) with l in SK. clear SK.
    apply good_bind; [|intros; apply good_ok]. apply (arguments_good n (weight (skipn 1 l))); auto; try lia. split; auto.
  - destruct par; [apply good_err|apply good_ok].
  - eapply (call_good positional rest s0 l i par true s (weight (skipn (S i) l))); auto.
    + intros c p r ->. eapply E_plain; eauto.
    + split; auto.
    + lia.
Qed.

Lemma compound_good a infer s :
  env s -> quiet [a] -> named a = true -> (2 * size a <= S n)%nat -> good (compound_body cs argument n a infer s).
Proof.
  intros V Q NM L. destruct a; cbn [compound_body]; try apply good_ok.
  - (* expression *)
    destruct infer; [|apply good_ok]. apply hush_inside in Q. cbn [named] in NM. cbn [size] in L. fold (weight l) in L.
    destruct l as [|h l]; [apply good_ok|].
    pose proof NM as NM0. cbn [forallb] in NM. apply andb_true_iff in NM as [NH NM].
    pose proof (weight_cons h l) as WC. pose proof (size_pos h) as SP.
    assert (K : good ((_ <! push_scope;; l'' <! arguments cs argument n (h :: l) 0 true;; _ <! pop_scope;; iret (AstExpression l'')) s)).
    { unfold ibind at 1, push_scope. apply good_bind.
      - apply (arguments_good n (weight (h :: l))); auto; try lia; [apply env_push; auto|split; auto].
      - intros l'' s' R. unfold ibind, pop_scope. destruct (scope_stack s'); [apply good_err|apply good_ok]. }
    unfold expression_body. destruct h; auto; clear K.
    + unfold ibind at 1, find_declaration. rewrite V by (eapply hush_head; exact Q). cbn [bind]. destruct (E s0) eqn:EF.
      * apply good_bind; [|intros [? ?] ? ?; apply good_ok]. apply A; auto. cbn [skipn]. lia.
      * apply good_bind; [|intros; apply good_err].
        apply (arguments_good n (weight l)); auto; try lia. split; auto.
    + apply good_bind; [|intros; apply good_ok].
      assert (QI : quiet (AstIdentifier s0 :: l)) by (eapply hush_same; [|exact Q]; reflexivity).
      apply (arguments_good n (weight l)); auto; try lia. split; auto.
  - destruct infer; [|apply good_ok]. apply hush_literal in Q. cbn [named] in NM. cbn [size] in L. fold (weight l) in L.
    destruct l as [|h l]; [apply good_ok|]. apply andb_true_iff in NM as [NH NM]. cbn [forallb] in NM.
    apply andb_true_iff in NM as [_ NM]. pose proof (weight_cons h l) as WC. pose proof (size_pos h) as SP.
    unfold literal_body.
    assert (exists f, infer_callback h = Ok (AstIdentifier f) /\ spelled h = [AstIdentifier f]) as (f & F & SP')
      by (destruct h; try discriminate; eexists; split; reflexivity).
    unfold ibind at 1, ilift. rewrite F. cbn [bind].
    apply good_bind; [|intros; apply good_ok].
    assert (QI : quiet (AstIdentifier f :: l))
      by (eapply hush_same; [|exact Q]; cbn [flat_map]; rewrite SP'; reflexivity).
    apply (arguments_good n (weight l)); auto; try lia. split; auto.
Qed.
End Step.

Lemma infer_good n :
  (forall l i par infer s,
    env s -> quiet l -> forallb named (skipn i l) = true -> (2 * weight (skipn i l) + 1 <= n)%nat ->
    (par = true -> i = 0%nat) -> good (infer_argument cs n l i par infer s)) /\
  (forall a infer s, env s -> quiet [a] -> named a = true -> (2 * size a <= n)%nat -> good (infer_compound cs n a infer s)).
Proof.
  induction n as [|n [A C]].
  - split; intros; [lia|]. pose proof (size_pos a). lia.
  - split; intros.
    + rewrite infer_argument_S. apply argument_good; auto. lia.
    + rewrite infer_compound_S. apply compound_good; auto.
Qed.

(** Twice the size of the form is enough fuel. *)
Theorem infer_ends a s n :
  env s -> quiet [a] -> named a = true -> (2 * size a <= n)%nat ->
  (exists a', form (D E) a a' /\ infer_compound cs n a true s = Ok (a', s)) \/
  (exists e, infer_compound cs n a true s = Err e).
Proof.
  intros V Q NM L. destruct (proj2 (infer_good n) a true s V Q NM L) as [G1 G2].
  destruct (infer_compound cs n a true s) as [[a' s']|e| |] eqn:R; [left|right; eauto|contradiction|contradiction].
  destruct (infer_quiet _ _ _ _ _ _ _ _ bad_declares V Q R) as [-> F]. eauto.
Qed.
End Ends.

(** * Where it does not end *)

Section Stuck.
Variable cs : ast -> res script.

Lemma rest_stuck (argument : list ast -> nat -> bool -> bool -> IM (list ast * nat)) count p r l i new infer m : forall k failed s,
  (i < length l)%nat ->
  rest_arguments argument m count (SigExpression p r) k l i new true infer failed s = NoFuel.
Proof.
  induction m as [|m IH]; intros k failed s L; [reflexivity|]. cbn [rest_arguments].
  destruct (Nat.ltb_spec i (length l)); [|lia]. apply IH. auto.
Qed.

(** A parenthesised call of an identifier whose rest arguments have a nested type is never done. *)
Theorem infer_stuck E bad s f count p r x l n :
  env E bad s -> bad f = false -> E f = Some (SigExpression [] (Some (count, SigExpression p r))) ->
  infer_compound cs n (AstExpression (AstIdentifier f :: x :: l)) true s = NoFuel.
Proof.
  intros V B EF. destruct n as [|n]; [reflexivity|]. rewrite infer_compound_S. cbn [compound_body expression_body].
  unfold ibind at 1, find_declaration. rewrite V, EF by exact B. cbn [bind].
  destruct n as [|n]; [reflexivity|]. rewrite infer_argument_S. unfold argument_body. cbn [nth_error].
  unfold ibind at 1 2, find_declaration. rewrite V, EF by exact B. cbn [bind it_sig].
  assert (K : remaining (infer_argument cs n) n 1 [] (Some (count, SigExpression p r))
                (0%nat, AstIdentifier f :: x :: l, 1%nat, []) true true s = NoFuel).
  { rewrite remaining_S. unfold ibind at 1. cbn [incrementally nth_error negb andb length Nat.leb]. unfold ibind at 1.
    rewrite rest_stuck by (cbn; lia). reflexivity. }
  unfold call_arguments. cbn [it_script length Nat.sub]. unfold iret at 1. unfold ibind at 1 2.
  rewrite K. reflexivity.
Qed.
End Stuck.

(** Parenthesis inference finds one of the readings the declared types allow: the functions. *)
From Coq Require Import ZArith List Bool Lia.
From Verif Require Import M_Base M_Trie M_Parser P_Trie M_Infer S_Infer P_Infer P_Infer3.
Import ListNotations.
Open Scope Z_scope.

Section Step.
Variable cs : ast -> res script.
Variable argument : list ast -> nat -> bool -> bool -> IM (list ast * nat).
Variable compound : ast -> bool -> IM ast.
Variable fuel : nat.

(** What is known of the states: an invariant, how states are related in time, and which sets of
    declarations a state allows. *)
Variable inv : istate -> Prop.
Variable rel : istate -> istate -> Prop.
Variable okD : istate -> (list Z -> sig -> Prop) -> Prop.
Variable bad : list Z -> bool.
Notation quiet := (hush bad).
Definition carried {A} (m : IM A) : Prop := forall s a s', inv s -> m s = Ok (a, s') -> inv s' /\ rel s s'.
Definition requests_carried (sc : script) : Prop :=
  (forall e, carried (note e)) /\
  (forall h name type, sc h = AskDeclare name type -> carried (add_declaration name type None)) /\
  (forall h, sc h = AskPushScope -> carried push_scope) /\
  (forall h, sc h = AskPopScope -> carried pop_scope).
Definition scripted (t : itype) : Prop := forall sc, it_script t = Some sc -> requests_carried sc.
Definition pushed (s : istate) : istate := {| scope_stack := new_scope :: scope_stack s; history := history s |}.

Definition arg_spec : Prop := forall l i infer s l' i' s',
  inv s -> quiet l -> argument l i false infer s = Ok ((l', i'), s') ->
  inv s' /\ rel s s' /\ i' = S i /\
  exists pre c x r, l = pre ++ c ++ r /\ length pre = i /\ l' = pre ++ x :: r /\
    forall D, okD s' D -> taken D (if infer then SigI else SigL) c x.
Definition par_spec : Prop := forall f l s l' i' s',
  inv s -> quiet (AstIdentifier f :: l) -> argument (AstIdentifier f :: l) 0 true true s = Ok ((l', i'), s') ->
  inv s' /\ rel s s' /\
  exists l1, l' = AstIdentifier f :: l1 /\
    forall D, okD s' D -> form D (AstExpression (AstIdentifier f :: l)) (AstExpression l').
Definition comp_spec : Prop := forall a infer s a' s',
  inv s -> quiet [a] -> compound a infer s = Ok (a', s') ->
  inv s' /\ rel s s' /\
  forall D, okD s' D -> if infer then form D a a' else shut a a'.

Hypothesis rel_refl : forall s, rel s s.
Hypothesis rel_trans : forall a b c, rel a b -> rel b c -> rel a c.
Hypothesis okD_rel : forall s s' D, rel s s' -> okD s' D -> okD s D.
Hypothesis okD_all : forall s, okD s (fun _ _ => True).
Hypothesis found : forall f s t s', inv s -> bad f = false -> find_declaration f s = Ok (Some t, s') ->
  s' = s /\ (forall D, okD s D -> D f (it_sig t)) /\
  scripted t.
Hypothesis declare_carried : forall a s u s', inv s -> quiet [a] -> interpret_declare cs a s = Ok (u, s') ->
  inv s' /\ rel s s'.
Hypothesis pushed_inv : forall s, inv s -> inv (pushed s).
Hypothesis popped : forall s s2 u s3, inv s -> inv s2 -> rel (pushed s) s2 -> pop_scope s2 = Ok (u, s3) ->
  inv s3 /\ rel s s3 /\ forall D, okD s3 D -> okD s2 D.

Hypothesis A : arg_spec.
Hypothesis P : par_spec.
Hypothesis C : comp_spec.

(** ** The arguments of a call *)

Section Call.
Variables (positional : list sig) (rest : option (Z * sig)) (par : bool) (h : ast) (l0 : list ast) (start : nat).
Hypothesis QL : quiet l0.

(** [args s Q l i new]: the arguments read so far, of which [Q] holds. *)
Definition args (s : istate) (Q : (list Z -> sig -> Prop) -> list ast -> list ast -> Prop)
           (l : list ast) (i : nat) (new : list ast) : Prop :=
  exists pre c done r,
    l0 = pre ++ h :: c ++ r /\ length pre = start /\ l = pre ++ h :: done ++ r /\
    i = (S start + length done)%nat /\ new = (if par then [] else h :: done) /\
    flat_map spelled done = flat_map spelled c /\
    forall D, okD s D -> Q D c done.
Definition filled (ti : nat) (D : list Z -> sig -> Prop) (c done : list ast) : Prop :=
  if (ti <=? length positional)%nat then fills D (firstn ti positional) c done
  else exists n, fills D (types positional rest n) c done /\ (par = false -> default rest n).
Definition going (s : istate) (p : progress) : Prop :=
  let '(ti, l, i, new) := p in args s (filled ti) l i new.

Lemma args_impl s s' (Q Q' : (list Z -> sig -> Prop) -> list ast -> list ast -> Prop) l i new :
  rel s s' -> (forall D c d, okD s' D -> Q D c d -> Q' D c d) -> args s Q l i new -> args s' Q' l i new.
Proof.
  intros G I (pre & c & d & r & E1 & E2 & E3 & E4 & E5 & ES & H). exists pre, c, d, r. repeat split; auto.
  intros D V. apply I; auto. apply H. eapply okD_rel; eauto.
Qed.

Lemma one_ok s (Q Q' : (list Z -> sig -> Prop) -> list ast -> list ast -> Prop) t l i new l' i' new' s' :
  (forall D c d seg x, Q D c d -> taken D t seg x -> Q' D (c ++ seg) (d ++ [x])) ->
  (forall p r, t <> SigExpression p r) ->
  inv s -> args s Q l i new ->
  one_argument argument t l i new par true s = Ok ((l', i', new'), s') ->
  inv s' /\ rel s s' /\ args s' Q' l' i' new'.
Proof.
  intros QQ T O (pre & c & d & r & E1 & E2 & E3 & E4 & E5 & ES & H) E.
  assert (Ql : quiet l).
  { rewrite E3. eapply hush_same; [|exact QL]. rewrite E1.
    rewrite !flat_map_app. cbn [flat_map]. rewrite !flat_map_app. congruence. }
  unfold one_argument in E. ib E a s1 Ea. destruct a as [l1 i1].
  destruct (A _ _ _ _ _ _ _ O Ql Ea) as (O1 & G & -> & pre1 & seg & x & r1 & F1 & F2 & F3 & F4).
  assert (EQ : pre1 = pre ++ h :: d /\ seg ++ r1 = r).
  { rewrite E3 in F1. replace (pre ++ h :: d ++ r) with ((pre ++ h :: d) ++ r) in F1 by (rewrite <- app_assoc; auto).
    apply app_eq_app in F1. destruct F1 as (m & [[K1 K2]|[K1 K2]]).
    - apply (f_equal (@length _)) in K1 as K3. rewrite !app_length in K3. cbn in K3.
      assert (length m = 0%nat) by lia. destruct m; [|discriminate]. rewrite app_nil_r in K1. auto.
    - apply (f_equal (@length _)) in K1 as K3. rewrite !app_length in K3. cbn in K3.
      assert (length m = 0%nat) by lia. destruct m; [|discriminate]. rewrite app_nil_r in K1. auto. }
  destruct EQ as [-> <-].
  assert (new' = (if par then [] else h :: d ++ [x]) /\ l' = l1 /\ i' = S i /\ s' = s1) as (-> & -> & -> & ->).
  { destruct par.
    - apply iret_ok in E as [[= -> -> ->] ->]. auto.
    - ib E a s2 Ee. apply element_ok in Ee as [N ->]. apply iret_ok in E as [[= -> -> ->] ->].
      rewrite F3 in N. rewrite <- F2, nth_cut in N. inversion N; subst a. rewrite E5. auto. }
  split; auto. split; auto.
  exists pre, (c ++ seg), (d ++ [x]), r1. repeat split; auto.
  - rewrite E1, <- app_assoc. auto.
  - rewrite F3, <- app_assoc. cbn. rewrite <- app_assoc. auto.
  - rewrite app_length. cbn. lia.
  - rewrite !flat_map_app. cbn. rewrite app_nil_r. f_equal; auto. eapply taken_spelled. apply (F4 _ (okD_all _)).
  - intros D V. apply QQ.
    + apply H. eapply okD_rel; eauto.
    + pose proof (F4 D V) as K. destruct t; cbn in *; auto. exfalso. eapply T; eauto.
Qed.

Definition rested (t : sig) (k : Z) (D : list Z -> sig -> Prop) (c d : list ast) : Prop :=
  fills D (positional ++ repeat t (Z.to_nat k)) c d.

Lemma rest_ok count t n : forall k l i new failed s l' i' new' s',
  0 <= k -> (par = false -> k <= count) -> inv s -> args s (rested t k) l i new ->
  rest_arguments argument n count t k l i new par true failed s = Ok ((l', i', new'), s') ->
  inv s' /\ rel s s' /\
  exists k', 0 <= k' /\ (par = false -> k' = count) /\ args s' (rested t k') l' i' new'.
Proof.
  induction n as [|n IH]; intros k l i new failed s l' i' new' s' K KC O R E; cbn [rest_arguments] in E; [discriminate|].
  destruct (if par then (i <? length l)%nat else k <? count) eqn:B.
  - assert (KC' : par = false -> k + 1 <= count) by (intros ->; lia).
    assert (NN : (exists p r, t = SigExpression p r) \/ forall p r, t <> SigExpression p r).
    { destruct t; [right; discriminate|right; discriminate|left; eauto]. }
    destruct NN as [(p & r & ->)|NN].
    + exfalso. clear - E.
      assert (X : forall n k l i new s, rest_arguments argument n count (SigExpression p r) k l i new par true true s
                                    <> Ok ((l', i', new'), s')).
      { clear. induction n as [|n IH]; intros; cbn [rest_arguments]; [discriminate|].
        destruct (if par then _ else _); [apply IH|discriminate]. }
      eapply X, E.
    + assert (E' : ('(l1, i1, new1) <! one_argument argument t l i new par true;;
                    rest_arguments argument n count t (k + 1) l1 i1 new1 par true failed) s
                   = Ok ((l', i', new'), s')) by (destruct t; auto; exfalso; eapply NN; eauto).
      clear E. ib E' a s1 E1. destruct a as [[l1 i1] new1].
      destruct (one_ok s (rested t k) (rested t (k + 1)) t l i new l1 i1 new1 s1) as (O1 & G1 & R1); auto.
      { unfold rested. intros D c d seg x F T.
        replace (Z.to_nat (k + 1)) with (Z.to_nat k + 1)%nat by lia.
        rewrite repeat_app, app_assoc. cbn. apply fills_snoc; auto. }
      destruct (IH (k + 1) _ _ _ _ _ _ _ _ _ ltac:(lia) KC' O1 R1 E') as (O2 & G2 & k' & K').
      split; auto. split; [eapply rel_trans; eauto|]. eauto.
  - destruct failed; [discriminate|]. apply iret_ok in E as [[= -> -> ->] ->].
    split; auto. split; [apply rel_refl|]. exists k. repeat split; auto. intros ->. specialize (KC eq_refl). lia.
Qed.

Lemma incrementally_ok s p p' s' :
  inv s -> going s p -> incrementally argument fuel positional rest p par true s = Ok (p', s') ->
  inv s' /\ rel s s' /\ going s' p' /\ (fst (fst (fst p')) = S (fst (fst (fst p))))%nat /\
  (fst (fst (fst p)) <= length positional)%nat.
Proof.
  destruct p as [[[ti l] i] new]. intros O G E. cbn [going] in G. cbn [incrementally fst] in *.
  destruct (nth_error positional ti) as [t|] eqn:N.
  - assert (L : (ti < length positional)%nat) by (apply nth_error_Some; congruence).
    destruct (length l <=? i)%nat; [discriminate|].
    assert (NN : forall p r, t <> SigExpression p r) by (intros p r ->; discriminate).
    assert (E' : ('(l1, i1, new1) <! one_argument argument t l i new par true;;
                  iret (S ti, l1, i1, new1)) s = Ok (p', s')) by (destruct t; auto; exfalso; eapply NN; eauto).
    clear E. ib E' a s1 E1. destruct a as [[l1 i1] new1]. apply iret_ok in E' as [-> ->].
    destruct (one_ok s (filled ti) (filled (S ti)) t l i new l1 i1 new1 s1) as (O1 & G1 & R1); auto.
    { unfold filled. intros D c d seg x F T.
      destruct (Nat.leb_spec ti (length positional)); [|lia].
      destruct (Nat.leb_spec (S ti) (length positional)); [|lia].
      apply nth_error_split in N as (p1 & p2 & -> & <-).
      rewrite firstn_cut in F. replace (S (length p1)) with (length (p1 ++ [t])) by (rewrite app_length; cbn; lia).
      replace (p1 ++ t :: p2) with ((p1 ++ [t]) ++ p2) by (rewrite <- app_assoc; auto).
      rewrite firstn_cut. apply fills_snoc; auto. }
    cbn. repeat split; auto. lia.
  - apply nth_error_None in N. destruct (Nat.leb_spec ti (length positional)) as [L|]; [|discriminate].
    assert (ti = length positional) by lia. subst ti.
    assert (G0 : forall D c d, filled (length positional) D c d -> fills D positional c d).
    { unfold filled. intros D c d. rewrite Nat.leb_refl, firstn_all. auto. }
    destruct rest as [[count t]|] eqn:RR.
    + destruct (negb par && (count <? 0)) eqn:B; [discriminate|].
      ib E a s1 E1. destruct a as [[l1 i1] new1]. apply iret_ok in E as [-> ->].
      destruct (rest_ok count t fuel 0 l i new false s l1 i1 new1 s1) as (O1 & G1 & k & K1 & K2 & K3); auto.
      * lia.
      * intros ->. cbn in B. lia.
      * eapply args_impl; [apply rel_refl| |exact G]. intros D c d V F. apply G0 in F.
        unfold rested. cbn. rewrite app_nil_r. auto.
      * cbn. repeat split; auto. eapply args_impl; [apply rel_refl| |exact K3].
        unfold rested, filled. intros D c d V F.
        destruct (Nat.leb_spec (S (length positional)) (length positional)); [lia|].
        rewrite RR. exists (Z.to_nat k). split; [exact F|]. cbn [default]. intros PF. specialize (K2 PF). lia.
    + apply iret_ok in E as [-> ->]. split; auto. split; [apply rel_refl|]. cbn. repeat split; auto.
      eapply args_impl; [apply rel_refl| |exact G]. unfold filled at 2. intros D c d V F.
      destruct (Nat.leb_spec (S (length positional)) (length positional)); [lia|].
      rewrite RR. exists 0%nat. unfold types. rewrite app_nil_r. split; [apply G0; auto|reflexivity].
Qed.

Lemma going_rel s s' p : rel s s' -> going s p -> going s' p.
Proof. destruct p as [[[ti l] i] new]. intros G H. eapply args_impl; [exact G| |exact H]. auto. Qed.

Lemma remaining_ok n : forall s p p' s',
  inv s -> going s p -> (n = S (length positional) - fst (fst (fst p)))%nat ->
  (fst (fst (fst p)) <= S (length positional))%nat ->
  remaining argument fuel n positional rest p par true s = Ok (p', s') ->
  inv s' /\ rel s s' /\ going s' p' /\ (fst (fst (fst p')) = S (length positional))%nat.
Proof.
  induction n as [|n IH]; intros s p p' s' O G N L E; cbn [remaining] in E.
  - apply iret_ok in E as [-> ->]. repeat split; auto using rel_refl. lia.
  - ib E p1 s1 E1. destruct (incrementally_ok _ _ _ _ O G E1) as (O1 & G1 & R1 & T1 & T2).
    destruct (IH _ _ _ _ O1 R1 ltac:(lia) ltac:(lia) E) as (O2 & G2 & R2 & T3).
    repeat split; auto. eapply rel_trans; eauto.
Qed.

Lemma run_script_ok sc n : 
  requests_carried sc ->
  forall s p p' s', inv s -> going s p -> (fst (fst (fst p)) <= S (length positional))%nat ->
  run_script argument fuel n sc positional rest p par true s = Ok (p', s') ->
  inv s' /\ rel s s' /\ going s' p' /\ (fst (fst (fst p')) <= S (length positional))%nat.
Proof.
  intros (keeps_note & keeps_add & keeps_push & keeps_pop).
  induction n as [|n IH]; intros s p p' s' O G L E; cbn [run_script] in E; [discriminate|].
  assert (K : forall (m : IM unit), carried m ->
            (_ <! m ;; _ <! note Completed ;; run_script argument fuel n sc positional rest p par true) s = Ok (p', s') ->
            inv s' /\ rel s s' /\ going s' p' /\ (fst (fst (fst p')) <= S (length positional))%nat).
  { intros m M H. ib H u s1 E1. ib H u2 s2 E2. destruct (M _ _ _ O E1) as [O1 G1].
    destruct (keeps_note _ _ _ _ O1 E2) as [O2 G2].
    assert (G12 : rel s s2) by (eapply rel_trans; eauto).
    destruct (IH _ _ _ _ O2 (going_rel _ _ _ G12 G) L H) as (O3 & G3 & R3 & T3).
    repeat split; auto. eapply rel_trans; eauto. }
  destruct (sc (history s)) eqn:RQ.
  - eapply K; [|exact E]. eapply keeps_add; eauto.
  - ib E p1 s1 E1. ib E a s2 E2. ib E u s3 E3.
    destruct (incrementally_ok _ _ _ _ O G E1) as (O1 & G1 & R1 & T1 & T2).
    assert (s2 = s1) as ->.
    { unfold answer in E2. destruct p as [[[? ?] ?] ?], p1 as [[[? ?] ?] ?].
      destruct rest as [[? ?]|]; [destruct (_ =? _)%nat|].
      - apply iret_ok in E2. tauto.
      - apply element_ok in E2. tauto.
      - apply element_ok in E2. tauto. }
    destruct (keeps_note _ _ _ _ O1 E3) as [O3 G3].
    destruct (IH _ _ _ _ O3 (going_rel _ _ _ G3 R1) ltac:(lia) E) as (O4 & G4 & R4 & T4).
    repeat split; auto. eapply rel_trans; [|eapply rel_trans]; eauto.
  - eapply K; [|exact E]. eapply keeps_push; eauto.
  - eapply K; [|exact E]. eapply keeps_pop; eauto.
  - inversion E; subst. repeat split; auto using rel_refl.
  - discriminate.
Qed.
End Call.

Lemma call_ok t positional rest f pre r par s l' i' s' :
  inv s -> scripted t -> quiet (pre ++ AstIdentifier f :: r) -> (par = true -> pre = []) ->
  call_arguments cs argument fuel t positional rest (AstIdentifier f) (pre ++ AstIdentifier f :: r) (length pre) par true s
    = Ok ((l', i'), s') ->
  inv s' /\ rel s s' /\
  exists c d r', r = c ++ r' /\
    (if par then r' = [] /\ l' = AstIdentifier f :: d
     else l' = pre ++ AstExpression (AstIdentifier f :: d) :: r' /\ i' = S (length pre)) /\
    forall D, okD s' D -> exists n, fills D (types positional rest n) c d /\ (par = false -> default rest n).
Proof.
  intros O SC QL PP E. unfold call_arguments in E.
  set (p0 := (0%nat, pre ++ AstIdentifier f :: r, S (length pre), if par then [] else [AstIdentifier f])) in *.
  ib E p1 s1 E1.
  assert (G0 : going positional rest par (AstIdentifier f) (pre ++ AstIdentifier f :: r) (length pre) s p0).
  { cbn. exists pre, [], [], r. repeat split; auto. cbn. intros D V. constructor. }
  assert (H1 : inv s1 /\ rel s s1 /\
    going positional rest par (AstIdentifier f) (pre ++ AstIdentifier f :: r) (length pre) s1 p1 /\
    (fst (fst (fst p1)) <= S (length positional))%nat).
  { destruct (it_script t) as [sc|] eqn:TS.
    - pose proof (SC _ TS) as RC. destruct RC as (keeps_note & RC).
      ib E1 u s2 E2. destruct (keeps_note _ _ _ _ O E2) as [O2 G2].
      destruct (run_script_ok positional rest par (AstIdentifier f) (pre ++ AstIdentifier f :: r) (length pre) QL sc fuel
                  (SC _ TS) s2 p0 p1 s1) as (O3 & G3 & R3 & T3); auto.
      + eapply going_rel; eauto.
      + cbn. lia.
      + repeat split; auto. eapply rel_trans; eauto.
    - apply iret_ok in E1 as [-> ->]. repeat split; auto using rel_refl. cbn. lia. }
  destruct H1 as (O1 & G1 & R1 & T1).
  destruct p1 as [[[ti l1] i1] new1]. ib E p2 s2 E2. destruct p2 as [[[ti2 l2] i2] new2].
  destruct (remaining_ok positional rest par (AstIdentifier f) (pre ++ AstIdentifier f :: r) (length pre) QL
              _ _ _ _ _ O1 R1 eq_refl T1 E2) as (O2 & G2 & R2 & T2).
  cbn [fst] in T2. subst ti2. cbn [going] in R2.
  destruct R2 as (pre' & c & d & r' & K1 & K2 & K3 & K4 & K5 & KS & K6).
  assert (pre' = pre /\ r = c ++ r') as [-> ->].
  { apply app_eq_app in K1. destruct K1 as (m & [[J1 J2]|[J1 J2]]);
      apply (f_equal (@length _)) in J1 as J3; rewrite !app_length in J3;
      assert (length m = 0%nat) by lia; destruct m; try discriminate; cbn in J2; rewrite app_nil_r in J1;
      inversion J2; auto. }
  ib E p3 s3 E3. destruct p3 as [l3 i3]. ib E a s4 E4. apply element_ok in E4 as [N ->]. ib E u s5 E5.
  apply iret_ok in E as [[= -> ->] ->].
  assert (s3 = s2) as ->.
  { destruct par; [destruct (_ =? _)%nat; [|discriminate]|]; apply iret_ok in E3; tauto. }
  assert (QA : quiet [a]).
  { apply hush_app in QL as [_ QL]. destruct par.
    - destruct (Nat.eqb_spec i2 (length l2)) as [Q|]; [|discriminate]. apply iret_ok in E3 as [[= -> ->] _].
      subst l2. rewrite nth_cut in N. inversion N; subst. apply hush_cons in QL. tauto.
    - apply iret_ok in E3 as [[= -> ->] _]. subst l2 new2. rewrite firstn_cut, nth_cut in N. inversion N; subst.
      replace (AstIdentifier f :: c ++ r') with ((AstIdentifier f :: c) ++ r') in QL by auto.
      apply hush_app in QL as [QL _]. eapply hush_same; [|exact QL]. cbn. rewrite app_nil_r. congruence. }
  destruct (declare_carried _ _ _ _ O2 QA E5) as [O5 G5].
  assert (G15 : rel s s5) by (eapply rel_trans; [|eapply rel_trans]; eauto).
  split; auto. split; auto.
  exists c, d, r'. split; auto. split.
  - destruct par.
    + destruct (Nat.eqb_spec i2 (length l2)) as [Q|]; [|discriminate]. apply iret_ok in E3 as [[= -> ->] _].
      rewrite (PP eq_refl) in *. subst l2 i2. cbn in Q. rewrite app_length in Q.
      assert (length r' = 0%nat) by lia. destruct r'; [|discriminate]. cbn. rewrite app_nil_r. auto.
    + apply iret_ok in E3 as [[= -> ->] _]. subst l2 new2. split; auto.
      rewrite firstn_cut. f_equal. f_equal.
      replace (length pre + (length (AstIdentifier f :: d) - 1) + 1)%nat with (length (pre ++ AstIdentifier f :: d))
        by (rewrite app_length; cbn; lia).
      replace (pre ++ AstIdentifier f :: d ++ r') with ((pre ++ AstIdentifier f :: d) ++ r')
        by (rewrite <- app_assoc; auto).
      apply skipn_cut.
  - intros D V. specialize (K6 D (okD_rel _ _ _ G5 V)). unfold filled in K6.
    destruct (Nat.leb_spec (S (length positional)) (length positional)); [lia|]. auto.
Qed.

(** ** The other functions *)

Lemma arguments_ok n : forall l i infer s l' s',
  inv s -> quiet l -> (i <= length l)%nat -> arguments cs argument n l i infer s = Ok (l', s') ->
  inv s' /\ rel s s' /\
  exists c d, l = firstn i l ++ c /\ l' = firstn i l ++ d /\
    forall D, okD s' D -> if infer then operands D c d else Forall2 shut c d.
Proof.
  induction n as [|n IH]; intros l i infer s l' s' O Ql L E; cbn [arguments] in E; [discriminate|].
  destruct (Nat.ltb_spec i (length l)) as [B|B].
  - ib E a s1 E1. destruct a as [l1 i1]. ib E a s2 E2. apply element_ok in E2 as [N ->]. ib E u s3 E3.
    destruct (A _ _ _ _ _ _ _ O Ql E1) as (O1 & G1 & -> & pre & seg & x & r & F1 & F2 & F3 & F4).
    pose proof (taken_spelled _ _ _ _ (F4 _ (okD_all _))) as SX.
    assert (QA : quiet [a]).
    { rewrite F3, <- F2, nth_cut in N. inversion N; subst a. rewrite F1 in Ql.
      apply hush_app in Ql as [_ Ql]. apply hush_app in Ql as [Ql _].
      eapply hush_same; [|exact Ql]. cbn. rewrite app_nil_r. auto. }
    destruct (declare_carried _ _ _ _ O1 QA E3) as [O3 G3].
    assert (Q1 : quiet l1).
    { rewrite F3. eapply hush_same; [|exact Ql]. rewrite F1, !flat_map_app. cbn [flat_map]. rewrite SX. auto. }
    assert (L1 : (S i <= length l1)%nat) by (rewrite F3, app_length; cbn; lia).
    destruct (IH _ _ _ _ _ _ O3 Q1 L1 E) as (O4 & G4 & c & d & H1 & H2 & H3).
    split; auto. split; [eapply rel_trans; [|eapply rel_trans]; eauto|].
    assert (X : firstn (S i) l1 = pre ++ [x]).
    { rewrite F3. replace (pre ++ x :: r) with ((pre ++ [x]) ++ r) by (rewrite <- app_assoc; auto).
      replace (S i) with (length (pre ++ [x])) by (rewrite app_length; cbn; lia). apply firstn_cut. }
    rewrite X in *. assert (c = r) as ->.
    { rewrite F3 in H1. replace (pre ++ x :: r) with ((pre ++ [x]) ++ r) in H1 by (rewrite <- app_assoc; auto).
      apply app_inv_head in H1. auto. }
    exists (seg ++ r), (x :: d).
    replace (firstn i l) with pre by (rewrite F1, <- F2, firstn_cut; auto).
    split; auto. split; [rewrite H2, <- app_assoc; auto|].
    intros D V. specialize (H3 D V).
    assert (V1 : okD s1 D) by (eapply okD_rel; [|exact V]; eapply rel_trans; eauto).
    specialize (F4 D V1). destruct infer; cbn in F4.
    + constructor; auto.
    + destruct F4 as (a1 & -> & F4). constructor; auto.
  - apply iret_ok in E as [-> ->]. split; auto. split; [apply rel_refl|].
    exists [], []. assert (i = length l) by lia. subst i. rewrite firstn_all, app_nil_r. repeat split; auto.
    intros D V. destruct infer; constructor.
Qed.

Lemma list_cut (l : list ast) i a : nth_error l i = Some a -> exists pre r, l = pre ++ a :: r /\ length pre = i.
Proof. apply nth_error_cut. Qed.

Lemma argument_body_ok l i infer s l' i' s' :
  inv s -> quiet l -> argument_body cs argument compound fuel l i false infer s = Ok ((l', i'), s') ->
  inv s' /\ rel s s' /\ i' = S i /\
  exists pre c x r, l = pre ++ c ++ r /\ length pre = i /\ l' = pre ++ x :: r /\
    forall D, okD s' D -> taken D (if infer then SigI else SigL) c x.
Proof.
  intros O Ql E. unfold argument_body in E. destruct (nth_error l i) as [a|] eqn:N; [|discriminate].
  apply nth_error_cut in N as (pre & r & -> & <-).
  assert (QA : quiet [a]) by (apply hush_app in Ql as [_ Q0]; apply hush_cons in Q0; tauto).
  assert (K : (forall f, a <> AstIdentifier f) ->
     (a' <! compound a infer ;; _ <! interpret_declare cs a' ;; iret (list_set (pre ++ a :: r) (length pre) a', S (length pre))) s
       = Ok ((l', i'), s') ->
     inv s' /\ rel s s' /\ i' = S (length pre) /\
     exists pre0 c x r0, pre ++ a :: r = pre0 ++ c ++ r0 /\ length pre0 = length pre /\ l' = pre0 ++ x :: r0 /\
       forall D, okD s' D -> taken D (if infer then SigI else SigL) c x).
  { intros NI H. ib H a' s1 E1. ib H u s2 E2. apply iret_ok in H as [[= -> ->] ->].
    destruct (C _ _ _ _ _ O QA E1) as (O1 & G1 & F1).
    assert (QA' : quiet [a']).
    { specialize (F1 _ (okD_all _)). eapply hush_one; [|exact QA].
      destruct infer; [eapply form_spelled; eauto|apply shut_spelled; auto]. }
    destruct (declare_carried _ _ _ _ O1 QA' E2) as [O2 G2].
    split; auto. split; [eapply rel_trans; eauto|]. split; auto.
    exists pre, [a], a', r. repeat split; auto. { apply list_set_cut. }
    intros D V. specialize (F1 D (okD_rel _ _ _ G2 V)). destruct infer; cbn; eauto.
    constructor; auto. }
  destruct a; try (apply K; [discriminate|exact E]). clear K.
  ib E t s1 E1.
  assert (U : forall b, (a <! compound (AstIdentifier s0) infer;; (if b : bool then ierr invalidValue else
                 iret (list_set (pre ++ AstIdentifier s0 :: r) (length pre) a, S (length pre)))) s1 = Ok (l', i', s') ->
              infer = false -> s1 = s ->
     inv s' /\ rel s s' /\ i' = S (length pre) /\
     exists pre0 c x r0, pre ++ AstIdentifier s0 :: r = pre0 ++ c ++ r0 /\ length pre0 = length pre /\ l' = pre0 ++ x :: r0 /\
       forall D, okD s' D -> taken D (if infer then SigI else SigL) c x).
  { intros b H -> ->. ib H a' s2 E2. destruct b; [discriminate|]. apply iret_ok in H as [[= -> ->] ->].
    destruct (C _ _ _ _ _ O QA E2) as (O1 & G1 & F1). split; auto. split; auto. split; auto.
    exists pre, [AstIdentifier s0], a', r. repeat split; auto. { apply list_set_cut. }
    intros D V. cbn. eauto. }
  destruct t as [t|].
  - destruct (found _ _ _ _ O (hush_head _ _ _ QA) E1) as (-> & I & SC').
    destruct infer.
    + destruct (it_sig t) as [| |positional rest] eqn:T.
      * apply iret_ok in E as [[= -> ->] ->]. split; auto. split; [apply rel_refl|]. split; auto.
        exists pre, [AstIdentifier s0], (AstIdentifier s0), r. repeat split; auto.
        intros D V. cbn. eapply operand_variable; [apply (I D V)|auto].
      * apply iret_ok in E as [[= -> ->] ->]. split; auto. split; [apply rel_refl|]. split; auto.
        exists pre, [AstIdentifier s0], (AstIdentifier s0), r. repeat split; auto.
        intros D V. cbn. eapply operand_variable; [apply (I D V)|auto].
      * destruct (call_ok t positional rest s0 pre r false s l' i' s' O SC' Ql ltac:(discriminate) E)
          as (O1 & G1 & c & d & r' & -> & (-> & ->) & F).
        split; auto. split; auto. split; auto.
        exists pre, (AstIdentifier s0 :: c), (AstExpression (AstIdentifier s0 :: d)), r'. repeat split; auto.
        intros D V. cbn. destruct (F D V) as (n & F1 & F2).
        eapply operand_call; [apply (I D); eapply okD_rel; eauto|apply F2; auto|exact F1].
    + apply (U false); auto.
  - assert (s1 = s) as ->.
    { unfold find_declaration, bind in E1. destruct (find_in _ _); inversion E1; auto. }
    destruct infer.
    + exfalso. ib E a' s2 E2. discriminate.
    + apply (U false); auto.
Qed.

Lemma argument_par_ok f l s l' i' s' :
  inv s -> quiet (AstIdentifier f :: l) -> argument_body cs argument compound fuel (AstIdentifier f :: l) 0 true true s = Ok ((l', i'), s') ->
  inv s' /\ rel s s' /\
  exists l1, l' = AstIdentifier f :: l1 /\
    forall D, okD s' D -> form D (AstExpression (AstIdentifier f :: l)) (AstExpression l').
Proof.
  intros O Ql E. unfold argument_body in E. cbn [nth_error] in E. ib E t s1 E1.
  destruct t as [t|].
  - destruct (found _ _ _ _ O (hush_head _ _ _ Ql) E1) as (-> & I & SC').
    destruct (it_sig t) as [| |positional rest] eqn:T.
    + ib E l1 s2 E2. apply iret_ok in E as [[= -> ->] ->].
      destruct (arguments_ok _ (AstIdentifier f :: l) 1 true _ _ _ O Ql ltac:(cbn; lia) E2) as (O2 & G2 & c & d & H1 & H2 & H3).
      split; auto. split; auto. cbn [firstn] in *. cbn in H1, H2. inversion H1; subst c. exists d. split; auto.
      intros D V. subst l1. apply form_named; [apply (I D); eapply okD_rel; eauto|apply (H3 D V)].
    + discriminate.
    + destruct (call_ok t positional rest f [] l true s l' i' s' O SC' Ql ltac:(auto) E)
        as (O1 & G1 & c & d & r' & -> & (-> & ->) & F).
      split; auto. split; auto. exists d. split; auto. intros D V. destruct (F D V) as (n & F1 & _).
      rewrite app_nil_r. eapply form_call; [apply (I D); eapply okD_rel; eauto|exact F1].
  - exfalso. ib E a' s2 E2. discriminate.
Qed.

Lemma compound_body_ok a infer s a' s' :
  inv s -> quiet [a] -> compound_body cs argument fuel a infer s = Ok (a', s') ->
  inv s' /\ rel s s' /\ forall D, okD s' D -> if infer then form D a a' else shut a a'.
Proof.
  intros O QA E.
  assert (AT : forall b, atom b -> iret b s = Ok (a', s') ->
            inv s' /\ rel s s' /\ forall D, okD s' D -> if infer then form D b a' else shut b a').
  { intros b B H. apply iret_ok in H as [-> ->]. split; auto. split; [apply rel_refl|]. intros D V.
    destruct infer; [constructor; auto|]. constructor. intros x ->. exact B. }
  destruct a; try (apply AT; [exact Logic.I|exact E]); clear AT; cbn [compound_body] in E.
  - apply ilift_ok in E as [E ->]. cbn in E. inversion E; subst. split; auto. split; [apply rel_refl|].
    intros D V. destruct infer; constructor.
  - destruct infer.
    2: { apply iret_ok in E as [-> ->]. split; auto. split; [apply rel_refl|]. intros D V. constructor. discriminate. }
    apply hush_inside in QA. unfold expression_body in E.
    assert (SC : forall x l0, l = x :: l0 -> (forall s, x <> AstIdentifier s /\ x <> AstCallback s) ->
      (_ <! push_scope ;; l'' <! arguments cs argument fuel l 0 true ;; _ <! pop_scope ;; iret (AstExpression l'')) s
        = Ok (a', s') ->
      inv s' /\ rel s s' /\ forall D, okD s' D -> form D (AstExpression l) a').
    { intros x l0 -> NX H. ib H u1 s1 E1. ib H l1 s2 E2. ib H u3 s3 E3. apply iret_ok in H as [-> ->].
      unfold push_scope in E1. inversion E1; subst s1. change (arguments cs argument fuel (x :: l0) 0 true (pushed s) = Ok (l1, s2)) in E2.
      destruct (arguments_ok _ _ _ _ _ _ _ (pushed_inv _ O) QA (Nat.le_0_l _) E2) as (O2 & G2 & c & d & H1 & H2 & H3).
      destruct (popped _ _ _ _ O O2 G2 E3) as (O3 & G3 & D3).
      split; auto. split; auto.
      intros D V. cbn in H1, H2. subst c l1. apply form_scope; [exact NX|]. apply (H3 D). auto. }
    destruct l as [|x l0].
    + apply iret_ok in E as [-> ->]. split; auto. split; [apply rel_refl|]. intros; apply form_nil.
    + destruct x; try (apply (SC _ _ eq_refl); [split; discriminate|exact E]); clear SC.
      * ib E t s1 E1. destruct t as [t|].
        -- destruct (found _ _ _ _ O (hush_head _ _ _ QA) E1) as (-> & _ & _). ib E p s2 E2. destruct p as [l1 i1].
           apply iret_ok in E as [-> ->].
           destruct (P _ _ _ _ _ _ O QA E2) as (O2 & G2 & l2 & -> & F). split; auto.
        -- exfalso. ib E p s2 E2. discriminate.
      * ib E l1 s1 E1. apply iret_ok in E as [-> ->].
        destruct (arguments_ok _ (AstIdentifier s0 :: l0) 1 true _ _ _ O QA ltac:(cbn; lia) E1) as (O2 & G2 & c & d & H1 & H2 & H3).
        split; auto. split; auto. cbn in H1, H2. inversion H1; subst c l1. intros D V. apply form_untyped.
        apply (H3 D V).
  - destruct infer.
    2: { apply iret_ok in E as [-> ->]. split; auto. split; [apply rel_refl|]. intros D V. constructor. discriminate. }
    apply hush_literal in QA. unfold literal_body in E. destruct l as [|x l0].
    + apply iret_ok in E as [-> ->]. split; auto. split; [apply rel_refl|]. intros; apply form_literal_nil.
    + ib E h s1 E1. apply ilift_ok in E1 as [HC ->]. ib E l1 s2 E2. apply iret_ok in E as [-> ->].
      assert (QH : quiet (h :: l0)).
      { eapply hush_same; [|exact QA]. cbn. f_equal. destruct x; cbn in HC; inversion HC; auto. }
      destruct (arguments_ok _ (h :: l0) 1 false _ _ _ O QH ltac:(cbn; lia) E2) as (O2 & G2 & c & d & H1 & H2 & H3).
      split; auto. split; auto. cbn in H1, H2. inversion H1; subst c l1. intros D V.
      assert (exists f, h = AstIdentifier f /\ (x = AstIdentifier f \/ x = AstCallback f)) as (f & -> & Q).
      { destruct x; cbn in HC; inversion HC; eauto. }
      apply form_literal; auto. apply (H3 D V).
Qed.
End Step.

Section All.
Variable cs : ast -> res script.
Variable inv : istate -> Prop.
Variable rel : istate -> istate -> Prop.
Variable okD : istate -> (list Z -> sig -> Prop) -> Prop.
Variable bad : list Z -> bool.
Hypothesis rel_refl : forall s, rel s s.
Hypothesis rel_trans : forall a b c, rel a b -> rel b c -> rel a c.
Hypothesis okD_rel : forall s s' D, rel s s' -> okD s' D -> okD s D.
Hypothesis okD_all : forall s, okD s (fun _ _ => True).
Hypothesis found : forall f s t s', inv s -> bad f = false -> find_declaration f s = Ok (Some t, s') ->
  s' = s /\ (forall D, okD s D -> D f (it_sig t)) /\ scripted inv rel t.
Hypothesis declare_carried : forall a s u s', inv s -> hush bad [a] -> interpret_declare cs a s = Ok (u, s') ->
  inv s' /\ rel s s'.
Hypothesis pushed_inv : forall s, inv s -> inv (pushed s).
Hypothesis popped : forall s s2 u s3, inv s -> inv s2 -> rel (pushed s) s2 -> pop_scope s2 = Ok (u, s3) ->
  inv s3 /\ rel s s3 /\ forall D, okD s3 D -> okD s2 D.

Theorem infer_ok fuel :
  arg_spec (infer_argument cs fuel) inv rel okD bad /\
  par_spec (infer_argument cs fuel) inv rel okD bad /\ comp_spec (infer_compound cs fuel) inv rel okD bad.
Proof.
  induction fuel as [|n (A & P & C)].
  - repeat split; intros; discriminate.
  - split; [|split]; red; intros.
    + change (infer_argument cs (S n) l i false infer) with
        (argument_body cs (infer_argument cs n) (infer_compound cs n) n l i false infer) in *.
      eapply argument_body_ok; eauto.
    + change (infer_argument cs (S n) (AstIdentifier f :: l) 0 true true) with
        (argument_body cs (infer_argument cs n) (infer_compound cs n) n (AstIdentifier f :: l) 0 true true) in *.
      eapply argument_par_ok; eauto.
    + change (infer_compound cs (S n) a infer) with (compound_body cs (infer_argument cs n) n a infer) in *.
      eapply compound_body_ok; eauto.
Qed.
End All.

(** ** Any program, under everything declared during the pass *)

Lemma hush_none l : hush (fun _ => false) l.
Proof. red. discriminate. Qed.
Theorem infer_any cs fuel :
  comp_spec (infer_compound cs fuel) state_ok grows covers (fun _ => false).
Proof.
  apply infer_ok.
  - apply grows_refl.
  - apply grows_trans.
  - apply covers_grows.
  - red. auto.
  - intros f s t s' O _ E. destruct (find_declared _ _ _ _ O E) as [I ->]. split; auto. split; [intros D V; apply V, I|].
    intros sc _. split; [intros e; apply keeps_note|]. split; [intros; apply keeps_add|].
    split; intros; [apply keeps_push|apply keeps_pop].
  - intros a s u s' O _ E. eapply keeps_declare; eauto.
  - intros s O. eapply (keeps_push s tt); eauto.
  - intros s s2 u s3 O O2 G E. destruct (keeps_pop _ _ _ O2 E) as [O3 G3]. split; auto. split.
    + eapply grows_trans; eauto.
    + unfold pop_scope in E. destruct (scope_stack s2); inversion E; subst. auto.
Qed.

Lemma declare_all_keeps cs l : keeps (declare_all cs l).
Proof.
  induction l as [|[[name type] sc] l IH]; cbn; [apply keeps_ret|].
  apply keeps_bind; auto using keeps_compile.
Qed.

(** The result of the pass is a reading of its input under the declarations made during the pass. *)
Theorem infer_reading cs fuel external a a' s :
  infer_parentheses cs fuel external a = Ok (a', s) ->
  form (fun f t => In (Declared f t) (history s)) a a'.
Proof.
  unfold infer_parentheses. intros E. ib E u s1 E1. ib E u2 s2 E2.
  assert (O0 : state_ok {| scope_stack := []; history := [] |}) by constructor.
  destruct (keeps_push _ _ _ O0 E1) as [O1 _]. destruct (declare_all_keeps _ _ _ _ _ O1 E2) as [O2 _].
  destruct (infer_any cs fuel _ _ _ _ _ O2 (hush_none _) E) as (_ & _ & F).
  apply F. red. auto.
Qed.

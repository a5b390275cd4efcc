(** When the order of reading operands does not matter (C43). *)
From Coq Require Import ZArith List Bool Lia Arith.
From Verif Require Import M_Base M_Trie M_Instr S_Symbol S_Compile S_Order.
Import ListNotations.
Open Scope Z_scope.
Open Scope list_scope.

Lemma bind_ok {A B} (m : res A) (f : A -> res B) b : bind m f = Ok b -> exists a, m = Ok a /\ f a = Ok b.
Proof. destruct m; try discriminate. eauto. Qed.

Definition same_for (x : bytes) (E E' : list (bytes * value)) : Prop :=
  Forall2 (fun p q => fst p = fst q /\ (fst p = x -> snd p = snd q)) E E'.
Lemma same_refl x E : same_for x E E.
Proof. induction E; constructor; auto. Qed.
Lemma same_trans x E E' E'' : same_for x E E' -> same_for x E' E'' -> same_for x E E''.
Proof.
  intros A. revert E''. induction A as [|p q E E' [P1 P2] A IH]; intros E'' B; inversion B as [|q' r E2 E3 [Q1 Q2] B']; subst; constructor.
  - split; [congruence|]. intros K. rewrite P2 by exact K. apply Q2. congruence.
  - apply IH. assumption.
Qed.
Lemma same_length x E E' : same_for x E E' -> List.length E = List.length E'.
Proof. intros F. induction F; cbn; congruence. Qed.
Lemma same_variable x E E' : same_for x E E' -> variable E' x = variable E x.
Proof.
  induction 1 as [|[a v] [b w] E E' [P1 P2] F IH]; [reflexivity|]. cbn in *. subst b.
  destruct (bytes_dec a x) as [->|N]; [rewrite P2; reflexivity|exact IH].
Qed.
Lemma same_app x E E' : forall new, same_for x E E' -> forall u, u = new ++ E' -> skipn (List.length u - List.length E) u = E'.
Proof.
  intros new F u ->. rewrite (same_length _ _ _ F), app_length.
  replace (List.length new + List.length E' - List.length E')%nat with (List.length new) by lia. clear. induction new; [reflexivity|assumption].
Qed.
Lemma same_assign x y v E : x <> y -> same_for x E (assign E y v).
Proof.
  intros N. induction E as [|[a w] E IH]; cbn [assign]; [constructor|]. destruct (bytes_dec a y) as [->|Na].
  - constructor; [split; [reflexivity|]; cbn; congruence|apply same_refl].
  - constructor; [auto|exact IH].
Qed.
Lemma same_write x y v s : x <> y -> same_for x (env s) (env (write_name s y v)).
Proof. intros N. unfold write_name. destruct (variable (env s) y); cbn [env]; [apply same_assign, N|apply same_refl]. Qed.

Definition grown x E E'' := exists new E', E'' = new ++ E' /\ same_for x E E'.
Lemma grown_trans x E E' E'' : grown x E E' -> grown x E' E'' -> grown x E E''.
Proof.
  intros [n1 [E1 [-> S1]]] [n2 [E2 [-> S2]]]. apply Forall2_app_inv_l in S2 as [a [b [Sa [Sb ->]]]].
  exists (n2 ++ a), b. split; [apply app_assoc|]. eapply same_trans; eassumption.
Qed.
Lemma grown_same x E E' : same_for x E E' -> grown x E E'.
Proof. intros H. exists [], E'. auto. Qed.
Lemma grown_left x n s s' : n = List.length (env s) -> grown x (env s) (env s') -> same_for x (env s) (env (leave n s')).
Proof. intros -> [new [E' [E S]]]. cbn [leave env]. rewrite (same_app _ _ _ new S _ E). exact S. Qed.

Section Keep.
  Variable x : bytes.
  Definition E_keep f := forall e s v s', eval f e s = Ok (v, s') -> ~ In x (changed e) -> same_for x (env s) (env s').
  Definition I_keep f := forall b s v s', eval_items f b s = Ok (v, s') -> ~ In x (flat_map changed_item b) -> grown x (env s) (env s').
  Lemma keep_operand f e s o s' : E_keep f -> ~ In x (changed e) ->
    match e with
    | EVar y => match variable (env s) y with Some _ => Ok (Later y, s) | None => ' (v, s) <- eval f e s ;; Ok (Now v, s) end
    | _ => ' (v, s) <- eval f e s ;; Ok (Now v, s)
    end = Ok (o, s') -> same_for x (env s) (env s').
  Proof.
    intros K N H. assert ((' (v, s) <- eval f e s ;; Ok (Now v, s)) = Ok (o, s') -> same_for x (env s) (env s')) as G.
    { intros G. apply bind_ok in G as [[v s1] [G1 G2]]. injection G2 as _ <-. eapply K; eassumption. }
    destruct e; auto. destruct (variable (env s) x0); [injection H as _ <-; apply same_refl|]. apply G, H.
  Qed.
  Lemma keeps f : E_keep f /\ I_keep f.
  Proof.
    induction f as [|f [IE II]]; [split; intros ? ? ? ?; discriminate|]. split.
    - intros e s v s' H N. destruct e; cbn [eval] in H; cbn [changed] in N.
      + injection H as _ <-. apply same_refl.
      + injection H as _ <-. apply same_refl.
      + apply bind_ok in H as [w [_ H]]. injection H as _ <-. apply same_refl.
      + injection H as _ <-. apply same_refl.
      + apply bind_ok in H as [[o s1] [H1 H]]. apply (keep_operand f) in H1; [|exact IE|exact N].
        apply bind_ok in H as [w [_ H]]. apply bind_ok in H as [r [_ H]]. injection H as _ <-. exact H1.
      + apply bind_ok in H as [[o s1] [H1 H]]. apply (keep_operand f) in H1; [|exact IE|rewrite in_app_iff in N; tauto].
        apply bind_ok in H as [[o2 s2] [H2 H]]. apply (keep_operand f) in H2; [|exact IE|rewrite in_app_iff in N; tauto].
        apply bind_ok in H as [w [_ H]]. apply bind_ok in H as [w2 [_ H]]. apply bind_ok in H as [r [_ H]]. injection H as _ <-. eapply same_trans; eassumption.
      + revert v s' H. induction es as [|e es IHs]; intros v s' H; cbn [fold_right] in H; [injection H as _ <-; apply same_refl|].
        cbn [flat_map] in N. rewrite in_app_iff in N. apply bind_ok in H as [[w s1] [H1 H]]. apply bind_ok in H as [[u s2] [H2 H]]. injection H as _ <-.
        eapply same_trans; [eapply IHs; [tauto|exact H1]|eapply IE; [exact H2|tauto]].
      + apply bind_ok in H as [[w s1] [H1 H]]. apply bind_ok in H as [t [_ H]]. rewrite !in_app_iff in N.
        eapply same_trans; [eapply IE; [exact H1|tauto]|]. eapply IE; [exact H|destruct t; tauto].
      + apply bind_ok in H as [[w s1] [H1 H]]. apply bind_ok in H as [t [_ H]]. rewrite !in_app_iff in N.
        eapply same_trans; [eapply IE; [exact H1|tauto]|]. destruct (Bool.eqb t positive).
        * eapply IE; [exact H|]. cbn [changed]. tauto.
        * injection H as _ <-. apply same_refl.
      + apply bind_ok in H as [[w s1] [H1 H]]. apply bind_ok in H as [t [_ H]]. pose proof N as N0. rewrite !in_app_iff in N.
        eapply same_trans; [eapply IE; [exact H1|tauto]|]. destruct t.
        * apply bind_ok in H as [[u s2] [H2 H]]. eapply same_trans; [eapply IE; [exact H2|cbn [changed]; tauto]|]. eapply IE; [exact H|exact N0].
        * injection H as _ <-. apply same_refl.
      + apply bind_ok in H as [[w s1] [H1 H]]. injection H as _ <-. cbn in N. eapply same_trans; [eapply IE; [exact H1|tauto]|].
        apply same_write. intros ->. tauto.
      + apply bind_ok in H as [[w s1] [H1 H]]. injection H as _ <-. cbn. eapply IE; [exact H1|exact N].
      + apply bind_ok in H as [[w s1] [H1 H]]. injection H as _ <-. eapply grown_left; [reflexivity|]. eapply II; eassumption.
      + destruct (globals_of s f0) as [g|]; [|discriminate]. apply bind_ok in H as [[vs s1] [_ H]]. destruct g; discriminate H.
      + apply bind_ok in H as [[o s1] [_ H]]. apply bind_ok in H as [[vs s2] [_ H]]. apply bind_ok in H as [g [_ H]]. destruct g; discriminate H.
    - intros b s v s' H N. cbn [eval_items] in H.
      assert (forall i s v s', match i with
         | Do e => eval f e s
         | Def y e => ' (v, s) <- eval f e s ;; Ok (v, declare_name s y v)
         | Splice b => eval_items f b s
         end = Ok (v, s') -> ~ In x (changed_item i) -> grown x (env s) (env s')) as One.
      { intros i s0 v0 s0' H0 N0. destruct i; cbn [changed_item] in N0.
        - apply grown_same. eapply IE; eassumption.
        - apply bind_ok in H0 as [[w s1] [H1 H0]]. injection H0 as _ <-. exists [(x0, w)], (env s1). split; [reflexivity|]. eapply IE; eassumption.
        - eapply II; eassumption. }
      destruct b as [|i [|j r]].
      + injection H as _ <-. apply grown_same, same_refl.
      + eapply One; [exact H|]. cbn in N. rewrite app_nil_r in N. exact N.
      + apply bind_ok in H as [[w s1] [H1 H]]. cbn [flat_map] in N. rewrite in_app_iff in N.
        eapply grown_trans; [eapply One; [exact H1|tauto]|]. eapply II; [exact H|cbn [flat_map]; tauto].
  Qed.
End Keep.

Lemma still_same f : (forall e s v s', still e = true -> eval f e s = Ok (v, s') -> s' = s) /\
  (forall b s v s', forallb still_item b = true -> eval_items f b s = Ok (v, s') -> globals_of s' = globals_of s /\ exists new, env s' = new ++ env s).
Proof.
  induction f as [|f [IE II]]; [split; discriminate|].
  assert (forall e s o s', still e = true -> match e with
    | EVar y => match variable (env s) y with Some _ => Ok (Later y, s) | None => ' (v, s) <- eval f e s ;; Ok (Now v, s) end
    | _ => ' (v, s) <- eval f e s ;; Ok (Now v, s)
    end = Ok (o, s') -> s' = s) as Op.
  { intros e s o s' T H. assert ((' (v, s) <- eval f e s ;; Ok (Now v, s)) = Ok (o, s') -> s' = s) as G.
    { intros G. apply bind_ok in G as [[v s1] [G1 G2]]. injection G2 as _ <-. eapply IE; eassumption. }
    destruct e; auto. destruct (variable (env s) x); [injection H as _ <-; reflexivity|]. apply G, H. }
  split.
  - intros e s v s' T H. destruct e; cbn [eval] in H; cbn [still] in T; try discriminate.
    + injection H as _ <-. reflexivity.
    + injection H as _ <-. reflexivity.
    + apply bind_ok in H as [w [_ H]]. injection H as _ <-. reflexivity.
    + injection H as _ <-. reflexivity.
    + apply bind_ok in H as [[o s1] [H1 H]]. apply Op in H1; [|exact T]. apply bind_ok in H as [w [_ H]]. apply bind_ok in H as [r [_ H]].
      injection H as _ <-. exact H1.
    + apply andb_prop in T as [T1 T2]. apply bind_ok in H as [[o s1] [H1 H]]. apply Op in H1; [|exact T1]. apply bind_ok in H as [[o2 s2] [H2 H]].
      apply Op in H2; [|exact T2]. apply bind_ok in H as [w [_ H]]. apply bind_ok in H as [w2 [_ H]]. apply bind_ok in H as [r [_ H]].
      injection H as _ <-. congruence.
    + revert v s' H. induction es as [|e es IHs]; intros v s' H; cbn [fold_right] in H; [injection H as _ <-; reflexivity|].
      cbn [forallb] in T. apply andb_prop in T as [T1 T2]. apply bind_ok in H as [[w s1] [H1 H]]. apply bind_ok in H as [[u s2] [H2 H]]. injection H as _ <-.
      apply (IHs T2) in H1. apply IE in H2; [|exact T1]. congruence.
    + apply andb_prop in T as [T T3]. apply andb_prop in T as [T1 T2].
      apply bind_ok in H as [[w s1] [H1 H]]. apply bind_ok in H as [t [_ H]]. apply IE in H1; [|exact T1]. apply IE in H; [congruence|destruct t; assumption].
    + apply andb_prop in T as [T1 T2]. apply bind_ok in H as [[w s1] [H1 H]]. apply bind_ok in H as [t [_ H]]. apply IE in H1; [|exact T1].
      destruct (Bool.eqb t positive); [|congruence]. apply IE in H; [congruence|exact T2].
    + pose proof T as T0. apply andb_prop in T as [T1 T2]. apply bind_ok in H as [[w s1] [H1 H]]. apply bind_ok in H as [t [_ H]]. apply IE in H1; [|exact T1].
      destruct t; [|congruence]. apply bind_ok in H as [[u s2] [H2 H]]. apply IE in H2; [|exact T2]. apply IE in H; [congruence|exact T0].
    + apply bind_ok in H as [[w s1] [H1 H]]. injection H as _ <-. apply II in H1 as [G [new E]]; [|exact T].
      unfold leave. rewrite E, app_length, G. replace (List.length new + List.length (env s) - List.length (env s))%nat with (List.length new) by lia.
      replace (skipn (List.length new) (new ++ env s)) with (env s) by (clear; induction new; [reflexivity|assumption]). destruct s; reflexivity.
  - intros b s v s' T H. cbn [eval_items] in H.
    assert (forall i s v s', match i with
       | Do e => eval f e s
       | Def y e => ' (v, s) <- eval f e s ;; Ok (v, declare_name s y v)
       | Splice b => eval_items f b s
       end = Ok (v, s') -> still_item i = true -> globals_of s' = globals_of s /\ exists new, env s' = new ++ env s) as One.
    { intros i s0 v0 s0' H0 N0. destruct i; cbn [still_item] in N0.
      - apply IE in H0; [|exact N0]. subst. split; [reflexivity|]. exists []. reflexivity.
      - apply bind_ok in H0 as [[w s1] [H1 H0]]. injection H0 as _ <-. apply IE in H1; [|exact N0]. subst. split; [reflexivity|]. exists [(x, w)]. reflexivity.
      - eapply II; eassumption. }
    destruct b as [|i [|j r]].
    + injection H as _ <-. split; [reflexivity|]. exists []. reflexivity.
    + eapply One; [exact H|]. cbn in T. rewrite andb_true_r in T. exact T.
    + apply bind_ok in H as [[w s1] [H1 H]]. cbn [forallb] in T. apply andb_prop in T as [T1 T2]. apply One in H1 as [G1 [n1 E1]]; [|exact T1].
      apply II in H as [G2 [n2 E2]]; [|exact T2]. split; [congruence|]. exists (n2 ++ n1). rewrite E2, E1. apply app_assoc.
Qed.

(** Two computations with the same results. *)
Definition agree {A} (m m' : res A) : Prop := forall a, m = Ok a <-> m' = Ok a.
Lemma agree_refl {A} (m : res A) : agree m m.
Proof. split; auto. Qed.
Lemma agree_bind {A B} (m m' : res A) (f f' : A -> res B) : agree m m' -> (forall a, m = Ok a -> agree (f a) (f' a)) -> agree (bind m f) (bind m' f').
Proof.
  intros P Q b. split; intros H; apply bind_ok in H as [a [H1 H2]].
  - pose proof (proj1 (P a) H1) as H1'. rewrite H1'. cbn [bind]. apply (Q a H1), H2.
  - pose proof (proj2 (P a) H1) as H1'. rewrite H1'. cbn [bind]. apply (Q a H1'), H2.
Qed.

Definition late f e s : res (operand * state) :=
  match e with
  | EVar x => match variable (env s) x with Some _ => Ok (Later x, s) | None => ' (v, s) <- eval f e s ;; Ok (Now v, s) end
  | _ => ' (v, s) <- eval f e s ;; Ok (Now v, s)
  end.
Definition early f e s : res (value * state) :=
  match e with
  | EVar x => match variable (env s) x with Some v => Ok (v, s) | None => strict f e s end
  | _ => strict f e s
  end.
Lemma operand_now f e s : (forall s, agree (eval f e s) (strict f e s)) ->
  (exists x v, e = EVar x /\ variable (env s) x = Some v /\ late f e s = Ok (Later x, s) /\ early f e s = Ok (v, s)) \/
  (late f e s = (' (v, s) <- eval f e s ;; Ok (Now v, s)) /\ agree (eval f e s) (early f e s)).
Proof.
  intros K. destruct e; try (right; split; [reflexivity|apply K]). cbn [late early]. destruct (variable (env s) x) eqn:V; [left; eauto 6|right].
  split; [reflexivity|]. apply K.
Qed.
Lemma settled_later s x v : variable (env s) x = Some v -> settled s (Later x) = Ok v.
Proof. intros V. cbn. unfold read_name. rewrite V. reflexivity. Qed.

Definition elements f : list exp -> state -> res (value * state) :=
  fix elements es s :=
    match es with
    | [] => Ok (VNil, s)
    | e :: es =>
      ' (v, s) <- strict f e s ;;
      ' (w, s) <- elements es s ;;
      Ok (VPair v w, s)
    end.
Definition backwards f (es : list exp) (s : state) : res (value * state) :=
  fold_right (fun e r => ' (w, s) <- r ;; ' (v, s) <- eval f e s ;; Ok (VPair v w, s)) (Ok (VNil, s)) es.
Lemma elements_agree f es s : (forall e s, orderly e = true -> agree (eval f e s) (strict f e s)) ->
  calm es = true -> forallb orderly es = true -> agree (backwards f es s) (elements f es s).
Proof.
  intros IE C O. assert (forallb still es = true -> agree (backwards f es s) (elements f es s) /\ forall w s', backwards f es s = Ok (w, s') -> s' = s) as G.
  { clear C. revert O. induction es as [|e es IHs]; intros O T; [split; [apply agree_refl|]; intros w s' H; injection H as _ <-; reflexivity|].
    cbn [forallb] in O, T. apply andb_prop in O as [O1 O2]. apply andb_prop in T as [T1 T2]. destruct (IHs O2 T2) as [A B].
    pose proof (proj1 (still_same f)) as K. split.
    - change (elements f (e :: es) s) with (' (v, s) <- strict f e s ;; ' (w, s) <- elements f es s ;; Ok (VPair v w, s)).
      change (backwards f (e :: es) s) with (' (w, s) <- backwards f es s ;; ' (v, s) <- eval f e s ;; Ok (VPair v w, s)).
      intros r. split; intros H; apply bind_ok in H as [[a s1] [H1 H]]; apply bind_ok in H as [[b s2] [H2 H]]; injection H as <-.
      + pose proof (B _ _ H1). subst s1. pose proof (K _ _ _ _ T1 H2). subst s2. apply (IE e s O1) in H2. rewrite H2. cbn [bind].
        apply A in H1. rewrite H1. reflexivity.
      + apply (IE e s O1) in H1. pose proof (K _ _ _ _ T1 H1). subst s1. apply A in H2. pose proof (B _ _ H2). subst s2.
        rewrite H2. cbn [bind]. rewrite H1. reflexivity.
    - intros w s' H. change (backwards f (e :: es) s) with (' (w, s) <- backwards f es s ;; ' (v, s) <- eval f e s ;; Ok (VPair v w, s)) in H.
      apply bind_ok in H as [[a s1] [H1 H]]. apply bind_ok in H as [[b s2] [H2 H]]. injection H as _ <-. pose proof (B _ _ H1). subst s1.
      eapply K; eassumption. }
  destruct es as [|e [|e' es]]; [apply agree_refl| |apply G, C].
  cbn [forallb] in O. rewrite andb_true_r in O. unfold backwards, elements. cbn [fold_right bind]. apply agree_bind; [apply IE, O|]. intros [v s1] _. apply agree_refl.
Qed.

Theorem strict_same f : (forall e s, orderly e = true -> agree (eval f e s) (strict f e s)) /\
  (forall b s, forallb orderly_item b = true -> agree (eval_items f b s) (strict_items f b s)).
Proof.
  induction f as [|f [IE II]]; [split; intros; apply agree_refl|]. split.
  - intros e s O. destruct e; cbn [orderly] in O; try discriminate O; try apply agree_refl.
    + change (eval (S f) (EUn u e) s) with (' (o, s) <- late f e s ;; v <- settled s o ;; r <- apply1 u v ;; Ok (r, s)).
      change (strict (S f) (EUn u e) s) with (' (v, s) <- early f e s ;; r <- apply1 u v ;; Ok (r, s)).
      destruct (operand_now f e s (fun s => IE e s O)) as [[x [v [-> [V [-> ->]]]]]|[-> G]].
      * unfold bind at 1 2 4. rewrite (settled_later _ _ _ V). apply agree_refl.
      * assert ((' (o, s0) <- (' (v, s0) <- eval f e s ;; Ok (Now v, s0)) ;; v <- settled s0 o ;; r <- apply1 u v ;; Ok (r, s0)) =
          (' (v, s) <- eval f e s ;; r <- apply1 u v ;; Ok (r, s))) as -> by (destruct (eval f e s) as [[v s1]|er| |]; reflexivity).
        apply agree_bind; [exact G|]. intros [v s1] _. apply agree_refl.
    + apply andb_prop in O as [O O2]. apply andb_prop in O as [U O1].
      change (eval (S f) (EBin b e1 e2) s) with (' (o1, s) <- late f e1 s ;; ' (o2, s) <- late f e2 s ;;
        v1 <- settled s o1 ;; v2 <- settled s o2 ;; r <- apply2 b v1 v2 ;; Ok (r, s)).
      change (strict (S f) (EBin b e1 e2) s) with (' (v1, s) <- early f e1 s ;; ' (v2, s) <- early f e2 s ;; r <- apply2 b v1 v2 ;; Ok (r, s)).
      assert (forall s1 o1 v1, (forall o2 s2, late f e2 s1 = Ok (o2, s2) -> settled s2 o1 = Ok v1) -> agree
        (' (o2, s) <- late f e2 s1 ;; v1 <- settled s o1 ;; v2 <- settled s o2 ;; r <- apply2 b v1 v2 ;; Ok (r, s))
        (' (v2, s) <- early f e2 s1 ;; r <- apply2 b v1 v2 ;; Ok (r, s))) as Second.
      { intros s1 o1 v1 K. destruct (operand_now f e2 s1 (fun s => IE e2 s O2)) as [[x [v [-> [V [L ->]]]]]|[L G]]; rewrite L in *.
        - unfold bind. rewrite (K _ _ eq_refl), (settled_later _ _ _ V). apply agree_refl.
        - assert ((' (o2, s) <- (' (v, s) <- eval f e2 s1 ;; Ok (Now v, s)) ;; v1 <- settled s o1 ;; v2 <- settled s o2 ;; r <- apply2 b v1 v2 ;; Ok (r, s)) =
            (' (v2, s) <- eval f e2 s1 ;; r <- apply2 b v1 v2 ;; Ok (r, s))) as ->.
          { destruct (eval f e2 s1) as [[v s2]|er| |]; try reflexivity. unfold bind. cbn in K. rewrite (K _ _ eq_refl). reflexivity. }
          apply agree_bind; [exact G|]. intros [v s2] _. apply agree_refl. }
      destruct (operand_now f e1 s (fun s => IE e1 s O1)) as [[x [v [-> [V [-> ->]]]]]|[-> G]].
      * unfold bind at 1 5. apply Second. intros o2 s2 L. cbn [untouched_by] in U.
        destruct (in_dec bytes_dec x (changed e2)) as [|N]; [discriminate|].
        apply settled_later. rewrite <- V. apply same_variable. eapply (keep_operand x f); [apply keeps|exact N|exact L].
      * match goal with |- agree ?m _ => assert (m = (' (v1, s) <- eval f e1 s ;; ' (o2, s0) <- late f e2 s ;;
          v1 <- settled s0 (Now v1) ;; v2 <- settled s0 o2 ;; r <- apply2 b v1 v2 ;; Ok (r, s0))) as -> end.
        { destruct (eval f e1 s) as [[v s2]|er| |]; reflexivity. }
        apply agree_bind; [exact G|]. intros [v1 s1] _. apply Second. reflexivity.
    + apply andb_prop in O as [C O]. exact (elements_agree f es s IE C O).
    + cbn [eval strict]. apply andb_prop in O as [O O3]. apply andb_prop in O as [O1 O2]. apply agree_bind; [apply IE, O1|]. intros [v s1] _.
      apply agree_bind; [apply agree_refl|]. intros t _. apply IE. destruct t; assumption.
    + cbn [eval strict]. apply andb_prop in O as [O1 O2]. apply agree_bind; [apply IE, O1|]. intros [v s1] _.
      apply agree_bind; [apply agree_refl|]. intros t _. destruct (Bool.eqb t positive); [|apply agree_refl]. apply IE. exact O2.
    + cbn [eval strict]. pose proof O as O0. apply andb_prop in O as [O1 O2]. apply agree_bind; [apply IE, O1|]. intros [v s1] _.
      apply agree_bind; [apply agree_refl|]. intros t _. destruct t; [|apply agree_refl]. apply agree_bind; [apply (IE (EScope b) _ O2)|]. intros [w s2] _. apply IE. exact O0.
    + cbn [eval strict]. apply agree_bind; [apply IE, O|]. intros [v s1] _. apply agree_refl.
    + cbn [eval strict]. apply agree_bind; [apply IE, O|]. intros [v s1] _. apply agree_refl.
    + cbn [eval strict]. apply agree_bind; [apply II, O|]. intros [v s1] _. apply agree_refl.
  - intros b s O. cbn [eval_items strict_items].
    assert (forall i s, orderly_item i = true -> agree (match i with
         | Do e => eval f e s
         | Def y e => ' (v, s) <- eval f e s ;; Ok (v, declare_name s y v)
         | Splice b => eval_items f b s
         end) (match i with
         | Do e => strict f e s
         | Def y e => ' (v, s) <- strict f e s ;; Ok (v, declare_name s y v)
         | Splice b => strict_items f b s
         end)) as One.
    { intros i s0 O0. destruct i; cbn [orderly_item] in O0; [apply IE, O0| |apply II, O0].
      apply agree_bind; [apply IE, O0|]. intros [v s1] _. apply agree_refl. }
    destruct b as [|i [|j r]]; [apply agree_refl| |]; cbn [forallb] in O; apply andb_prop in O as [O1 O2].
    + apply One, O1.
    + apply agree_bind; [apply One, O1|]. intros [w s1] _. apply II. exact O2.
Qed.

(** Code with functions on the machine: what every operation keeps (C63). *)
From Coq Require Import ZArith List Bool Lia Arith ZifyBool ZifyNat.
From Verif Require Import M_Base M_Heap M_Instr M_VM S_Heap P_Sort P_Heap P_VM S_Dynamic.
Import ListNotations.
Open Scope Z_scope.
Open Scope list_scope.

Section Keeps.
  Variables (code : list Z) (entry : Z -> Z -> bool -> Prop) (s0 : list object) (cs : list frame).

  (** Objects that lead to the program's own code and to no position below the program's part of the
      stack only. *)
  Definition tidy (o : object) : Prop :=
    match o with
    | OFunction _ => False
    | OClosure name _ _ arity variadic => entry name arity variadic
    | OBytecode _ (Some c) => c = code
    | OUpvalue (UpStack i) => zlen s0 <= i
    | _ => True
    end.
  Record okv (h : Z) (v : vm) : Prop := Okv {
    ok_calls : call_stack v = cs;
    ok_uacs : (length cs < length (uacs v))%nat;
    ok_own : exists t, stack v = t ++ s0 /\ zlen t = h;
    ok_stack : Forall tidy (stack v);
    ok_heap : Forall tidy (objects v) }.
  Definition keeps {A} (h : Z) (m : M A) (h' : Z) (Q : A -> Prop) : Prop :=
    forall v a v', okv h v -> m v = (Ok a, v') -> okv h' v' /\ Q a.

  Lemma k_ret {A} h (a : A) (Q : A -> Prop) : Q a -> keeps h (mret a) h Q.
  Proof. intros q v b v' K E. injection E as <- <-. auto. Qed.
  Lemma k_err {A} h h' e (Q : A -> Prop) : keeps h (merr e) h' Q.
  Proof. intros v b v' K E. discriminate. Qed.
  Lemma k_ub {A} h h' (Q : A -> Prop) : keeps h mub h' Q.
  Proof. intros v b v' K E. discriminate. Qed.
  Lemma k_lift {A} h (r : res A) (Q : A -> Prop) : (forall a, r = Ok a -> Q a) -> keeps h (mlift r) h Q.
  Proof. intros q v b v' K E. injection E as E <-. auto. Qed.
  Lemma k_get {A} h h' (f : vm -> M A) Q : (forall v, okv h v -> keeps h (f v) h' Q) -> keeps h (mbind mget f) h' Q.
  Proof. intros q v b v' K E. exact (q v K v b v' K E). Qed.
  Lemma k_set h h' w : okv h' w -> keeps h (mset w) h' (fun _ => True).
  Proof. intros q v b v' K E. injection E as _ <-. auto. Qed.
  Lemma k_mod h h' f : (forall v, okv h v -> okv h' (f v)) -> keeps h (mmod f) h' (fun _ => True).
  Proof. intros q v b v' K E. injection E as _ <-. auto. Qed.
  Lemma k_bind {A B} h h1 h' (m : M A) (f : A -> M B) P Q :
    keeps h m h1 P -> (forall a, P a -> keeps h1 (f a) h' Q) -> keeps h (mbind m f) h' Q.
  Proof.
    intros K1 K2 v b v' K E. unfold mbind in E. destruct (m v) as [[a| | |] v1] eqn:E1; try discriminate.
    destruct (K1 _ _ _ K E1) as [K' P']. exact (K2 a P' _ _ _ K' E).
  Qed.
  Lemma k_weaken {A} h h' (m : M A) (P Q : A -> Prop) : keeps h m h' P -> (forall a, P a -> Q a) -> keeps h m h' Q.
  Proof. intros K W v a v' O E. destruct (K _ _ _ O E). auto. Qed.
  Lemma k_to {A} h h1 h2 (m : M A) Q : h1 = h2 -> keeps h m h1 Q -> keeps h m h2 Q.
  Proof. intros <-. auto. Qed.

  (** ** The heap *)
  Lemma tidy_dispose o : tidy o -> tidy (dispose o).
  Proof. destruct o; cbn; auto; try (destruct upvalues); try (destruct values; try destruct initialized); try (destruct code0); try (destruct s); try destruct destructor; cbn; auto. Qed.
  Lemma tidy_stored n o : tidy o -> tidy (stored n o).
  Proof. destruct o; cbn; auto; try (destruct code0 as [[|]|]); try (destruct s as [[|]|]); cbn; auto. Qed.
  Lemma tidy_sweep os : forall i used fr ev, Forall tidy os -> Forall tidy (fst (fst (sweep i os used fr ev))).
  Proof.
    induction os as [|o os IH]; intros i used fr ev F; [exact F|]. apply Forall_cons_iff in F as [F1 F2].
    destruct used as [|u used]; [constructor; auto|]. cbn [sweep]. destruct u.
    - specialize (IH (S i) used fr ev F2). destruct (sweep _ _ _ _ _) as [[? ?] ?]. constructor; auto.
    - specialize (IH (S i) used (i :: fr) (dispose_event i o ++ ev) F2). destruct (sweep _ _ _ _ _) as [[? ?] ?].
      constructor; auto. apply tidy_dispose, F1.
  Qed.
  Lemma forall_list_set {A} (P : A -> Prop) l : forall n x, Forall P l -> P x -> Forall P (list_set l n x).
  Proof.
    induction l as [|a l IH]; intros n x F X; [destruct n; exact F|]. apply Forall_cons_iff in F as [F1 F2].
    destruct n; cbn; constructor; auto.
  Qed.
  Lemma push_object_ok h o v : tidy o -> okv h v -> okv h (snd (push_object o v)).
  Proof.
    intros T K. unfold push_object.
    assert (forall v1, match free v with [] => garbage_collect v | _ => Ok v end = Ok v1 -> okv h v1) as G.
    { destruct (free v); intros v1 E; [|injection E as <-; exact K]. unfold garbage_collect in E.
      destruct (mark_all v) as [used| | |]; try discriminate. cbn [bind] in E.
      pose proof (tidy_sweep (objects v) 0%nat used [] (events v) (ok_heap _ _ K)) as F.
      destruct (sweep _ _ _ _ _) as [[os fr] ev]. injection E as <-. destruct K. constructor; auto. }
    destruct (match free v with [] => garbage_collect v | _ => Ok v end) as [v1|e| |]; auto.
    specialize (G v1 eq_refl). destruct (free v1); [exact G|]. destruct G. constructor; auto.
    cbn. apply forall_list_set; auto. apply tidy_stored, T.
  Qed.
  Lemma k_push_object h o : tidy o -> keeps h (push_object o) h (fun _ => True).
  Proof. intros T v a v' K E. pose proof (push_object_ok h o v T K) as P. rewrite E in P. auto. Qed.
  Lemma k_alloc h o : tidy o -> keeps h (alloc o) h (fun _ => True).
  Proof. intros T. eapply k_bind; [apply k_push_object, T|]. intros a _. apply k_ret. exact I. Qed.
  Lemma k_deref h p : keeps h (deref p) h tidy.
  Proof.
    apply k_get. intros v K. destruct p as [p|]; [|apply k_ub]. destruct (nth_error (objects v) p) as [o|] eqn:E; [|apply k_ub].
    apply k_ret. exact (proj1 (Forall_forall _ _) (ok_heap _ _ K) _ (nth_error_In _ _ E)).
  Qed.
  Lemma k_write h p o : tidy o -> keeps h (write p o) h (fun _ => True).
  Proof.
    intros T. apply k_get. intros v K. destruct p as [p|]; [|apply k_ub]. destruct (Nat.ltb _ _); [|apply k_ub].
    apply k_set. destruct K. constructor; auto. cbn. apply forall_list_set; auto.
  Qed.

  (** ** The stack *)
  Lemma k_push h o : tidy o -> keeps h (stack_push o) (h + 1) (fun _ => True).
  Proof.
    intros T. apply k_mod. intros v K. destruct K as [K1 Ku [t [K2 K3]] K4 K5]. constructor; auto.
    - exists (o :: t). cbn. rewrite K2. split; [reflexivity|]. unfold zlen in *. cbn. lia.
    - cbn. constructor; auto.
  Qed.
  Lemma k_push_only h o : tidy o -> keeps h (push_stack_only o) (h + 1) (fun _ => True).
  Proof.
    intros T. apply k_mod. intros v K. destruct K as [K1 Ku [t [K2 K3]] K4 K5]. constructor; auto.
    - exists (o :: t). cbn. rewrite K2. split; [reflexivity|]. unfold zlen in *. cbn. lia.
    - cbn. constructor; auto.
  Qed.
  Lemma k_pushu_only h p : keeps h (push_ustack_only p) h (fun _ => True).
  Proof. apply k_mod. intros v K. destruct K. constructor; auto. Qed.
  Lemma k_pops h n : 0 <= n <= h -> keeps h (stack_pop_multiple n) (h - n) (fun _ => True).
  Proof.
    intros N v a v' K E. unfold stack_pop_multiple, mbind, mget, mset in E.
    destruct (_ <? n); [discriminate|]. cbn in E. destruct (_ <? n) eqn:L; [discriminate|]. injection E as _ <-. split; [|exact I].
    destruct K as [K1 Ku [t [K2 K3]] K4 K5]. constructor; auto; cbn.
    - exists (skipn (Z.to_nat n) t). rewrite K2, skipn_app. unfold zlen in *.
      replace (Z.to_nat n - length t)%nat with 0%nat by lia. cbn. split; [reflexivity|]. rewrite skipn_length. lia.
    - apply Forall_forall. intros x I. eapply Forall_forall; [exact K4|]. rewrite <- (firstn_skipn (Z.to_nat n)). apply in_or_app. auto.
  Qed.
  Lemma k_pop h : 1 <= h -> keeps h stack_pop (h - 1) tidy.
  Proof.
    intros N v a v' K E. unfold stack_pop, mbind, mget, mset in E.
    destruct (stack v) as [|o s] eqn:S; [discriminate|]. destruct (ustack v) as [|u us]; [discriminate|]. cbn in E. injection E as <- <-.
    destruct K as [K1 Ku [t [K2 K3]] K4 K5]. rewrite S in K2, K4. apply Forall_cons_iff in K4 as [K6 K4]. split; [|exact K6]. constructor; auto; cbn.
    destruct t as [|x t]; [unfold zlen in K3; cbn in K3; lia|]. injection K2 as -> ->. exists t. split; [reflexivity|]. unfold zlen in *. cbn in K3. lia.
  Qed.
  Lemma abs_get_ok h v i o : okv h v -> abs_get (stack v) i = Ok o -> tidy o.
  Proof.
    intros K E. unfold abs_get in E. destruct (_ || _); [discriminate|]. destruct (nth_error _ _) as [x|] eqn:N; [|discriminate].
    injection E as <-. exact (proj1 (Forall_forall _ _) (ok_stack _ _ K) _ (nth_error_In _ _ N)).
  Qed.
  Lemma raw_get_ok h v i o : okv h v -> raw_get (stack v) i = Ok o -> tidy o.
  Proof. intros K E. unfold raw_get in E. destruct (abs_get _ _) eqn:A; try discriminate. injection E as <-. eapply abs_get_ok; eauto. Qed.
  Lemma list_set_app {A} (t s : list A) : forall n x, (n < length t)%nat -> list_set (t ++ s) n x = list_set t n x ++ s.
  Proof. induction t as [|a t IH]; intros n x L; [cbn in L; lia|]. destruct n; cbn; [reflexivity|]. rewrite IH; [reflexivity|cbn in L; lia]. Qed.
  Lemma own_set t i o s : zlen s0 <= i -> abs_set (t ++ s0) i o = Ok s -> exists t', s = t' ++ s0 /\ length t' = length t.
  Proof.
    intros I E. unfold abs_set in E. destruct (_ || _) eqn:B; [discriminate|]. injection E as <-.
    exists (list_set t (Z.to_nat (zlen (t ++ s0) - 1 - i)) o). rewrite list_set_app, list_set_length; [auto|].
    unfold zlen in *. rewrite app_length in *. lia.
  Qed.
  Lemma abs_set_ok h v i o s : okv h v -> tidy o -> zlen s0 <= i -> abs_set (stack v) i o = Ok s -> okv h (set_stack v s).
  Proof.
    intros [K1 Ku [t [K2 K3]] K4 K5] T N E. rewrite K2 in E. destruct (own_set _ _ _ _ N E) as [t' [E1 E2]]. constructor; auto; cbn.
    - exists t'. unfold zlen in *. split; [exact E1|lia].
    - unfold abs_set in E. destruct (_ || _); [discriminate|]. injection E as <-. apply forall_list_set; [|exact T]. rewrite <- K2. exact K4.
  Qed.
  Lemma raw_set_ok h v i o s : okv h v -> tidy o -> zlen s0 <= i -> raw_set (stack v) i o = Ok s -> okv h (set_stack v s).
  Proof. intros K T N E. unfold raw_set in E. destruct (abs_set _ _ _) eqn:A; try discriminate. injection E as <-. eapply abs_set_ok; eauto. Qed.
  Lemma own_length h v : okv h v -> zlen (stack v) = h + zlen s0.
  Proof. intros [_ _ [t [-> H]] _ _]. unfold zlen in *. rewrite app_length. lia. Qed.
  Lemma k_sget h i : keeps h (sget i) h tidy.
  Proof. apply k_get. intros v K. apply k_lift. intros a E. eapply abs_get_ok; eauto. Qed.
  Lemma k_sset h d o : tidy o -> 0 <= d < h -> keeps h (sset_raw d o) h (fun _ => True).
  Proof.
    intros T D. apply k_get. intros v K. intros w a w' Kw E. unfold mbind, mlift in E.
    destruct (raw_set _ _ _) as [s| | |] eqn:R; try discriminate. injection E as _ <-. split; [|exact I].
    eapply raw_set_ok; eauto. rewrite (own_length _ _ K). lia.
  Qed.
  Lemma okv_user h v n : okv h v -> okv h (set_user_type v n). Proof. intros []. constructor; auto. Qed.
  Lemma okv_globals h v g m : okv h v -> okv h (set_globals v g m). Proof. intros []. constructor; auto. Qed.
  Lemma okv_ustack h v u : okv h v -> okv h (set_ustack v u). Proof. intros []. constructor; auto. Qed.
  Lemma okv_current h v u : okv h v -> okv h (set_current v u). Proof. intros []. constructor; auto. Qed.
End Keeps.

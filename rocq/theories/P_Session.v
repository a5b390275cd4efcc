(** Sessions: several programs on one machine (C39). *)
From Coq Require Import ZArith List Bool Lia Arith ZifyBool ZifyNat.
From Verif Require Import M_Base M_Trie M_Heap M_Instr M_VM M_Asm M_Symbol M_Compile S_Heap S_VM S_Asm S_Symbol S_Types S_Compile S_Run S_Program
  P_Exec P_Order P_Compile2 P_Correct2.
Import ListNotations.
Open Scope Z_scope.
Open Scope list_scope.

Lemma numbering_before y y' ids : later y y' -> numbering y' ids -> numbering y ids.
Proof. intros L [A I]. split; [|exact I]. exact (agrees_later _ _ _ L A). Qed.
Lemma builds_session cfg pp short y g progs y' g' : session cfg y g -> builds cfg pp short y g progs y' g' -> session cfg y' g'.
Proof. intros S B. induction B as [|progs y1 g1 fuel e st code B IH G E A]; [exact S|]. eapply ses_compile; eassumption. Qed.

Lemma evals_app f : forall es e G ws G', evals f (es ++ [e]) G = Ok (ws, G') ->
  exists ws1 G1 w s, evals f es G = Ok (ws1, G1) /\ eval f e (State [] G1) = Ok (w, s) /\ ws = ws1 ++ [w] /\ G' = globals_of s.
Proof.
  induction es as [|a es IH]; intros e G ws G' H; cbn [evals app] in H.
  - apply bind_ok in H as [[w s] [H1 H]]. cbn [bind] in H. injection H as <- <-. exists [], G, w, s. auto.
  - apply bind_ok in H as [[w s] [H1 H]]. apply bind_ok in H as [[ws1 G1] [H2 H]]. injection H as <- <-.
    destruct (IH _ _ _ _ H2) as [ws2 [G2 [w2 [s2 [A [B [-> ->]]]]]]]. exists (w :: ws2), G2, w2, s2. cbn [evals]. rewrite H1. cbn [bind]. rewrite A. auto.
Qed.
Lemma execute_all_app host F : forall codes code v, execute_all host F (codes ++ [code]) v =
  (execute_all host F codes ;;; execute_with_ip host F code 0) v.
Proof.
  induction codes as [|c r IH]; intros code v; cbn [execute_all app].
  - unfold mbind, mret. destruct (execute_with_ip host F code 0 v) as [[[]|e| |] v1]; reflexivity.
  - unfold mbind in *. destruct (execute_with_ip host F c 0 v) as [[[]|e| |] v1]; try reflexivity. apply IH.
Qed.

(** [eval] looks at the globals pointwise. *)
Definition alike (s t : state) : Prop := env s = env t /\ forall x, globals_of s x = globals_of t x.
Definition agree (r r' : res (value * state)) : Prop :=
  match r, r' with
  | Ok (v, s), Ok (w, t) => v = w /\ alike s t
  | Err e, Err e' => e = e'
  | UB, UB | NoFuel, NoFuel => True
  | _, _ => False
  end.
Lemma alike_read s t x : alike s t -> read_name s x = read_name t x.
Proof. intros [E G]. unfold read_name. rewrite E, G. reflexivity. Qed.
Lemma alike_write s t x v : alike s t -> alike (write_name s x v) (write_name t x v).
Proof.
  intros [E G]. unfold write_name. rewrite E. destruct (variable (env t) x); split; cbn; auto; try congruence.
  intros y. unfold assign_global. destruct (bytes_dec x y); auto.
Qed.
Lemma agree_bind r r' (f g : value * state -> res (value * state)) : agree r r' -> (forall v s t, alike s t -> agree (f (v, s)) (g (v, t))) -> agree (bind r f) (bind r' g).
Proof. destruct r as [[v s]|e| |], r' as [[w t]|e'| |]; cbn; try contradiction; auto. intros [-> A] H. apply H, A. Qed.
Lemma agree_fst {A} (m : res A) f g : (forall a, agree (f a) (g a)) -> agree (bind m f) (bind m g).
Proof. destruct m; cbn; auto. Qed.
Definition agree_o (r r' : res (operand * state)) : Prop :=
  match r, r' with
  | Ok (v, s), Ok (w, t) => v = w /\ alike s t
  | Err e, Err e' => e = e'
  | UB, UB | NoFuel, NoFuel => True
  | _, _ => False
  end.
Lemma agree_obind r r' (f g : operand * state -> res (value * state)) : agree_o r r' -> (forall v s t, alike s t -> agree (f (v, s)) (g (v, t))) -> agree (bind r f) (bind r' g).
Proof. destruct r as [[v s]|e| |], r' as [[w t]|e'| |]; cbn; try contradiction; auto. intros [-> A] H. apply H, A. Qed.

Definition many (f : nat) : list exp -> state -> res (list value * state) :=
  fix many es s :=
    match es with
    | [] => Ok ([], s)
    | e :: r => ' (v, s) <- eval f e s ;; ' (vs, s) <- many r s ;; Ok (v :: vs, s)
    end.
Lemma bind_assoc {A B C} (m : res A) (f : A -> res B) (g : B -> res C) : bind (bind m f) g = bind m (fun a => bind (f a) g).
Proof. destruct m; reflexivity. Qed.
Theorem eval_alike f : (forall e s t, alike s t -> agree (eval f e s) (eval f e t)) /\
  (forall b s t, alike s t -> agree (eval_items f b s) (eval_items f b t)).
Proof.
  induction f as [|f [IE II]]; [split; intros; exact Logic.I|].
  assert (forall e s t, alike s t -> agree_o (late f e s) (late f e t)) as Late.
  { intros e s t A. assert (agree_o (' (v, s) <- eval f e s ;; Ok (Now v, s)) (' (v, s) <- eval f e t ;; Ok (Now v, s))) as G.
    { pose proof (IE e s t A) as K. destruct (eval f e s) as [[v s1]|er| |], (eval f e t) as [[w t1]|er'| |]; cbn in *; try contradiction; auto.
      destruct K as [-> K]. auto. }
    destruct e; try exact G. cbn [late]. rewrite (proj1 A). destruct (variable (env t) x); [cbn; auto|exact G]. }
  assert (forall o s t, alike s t -> settled s o = settled t o) as Settled by (intros [v|x] s t A; cbn; [reflexivity|apply alike_read, A]).
  assert (forall es s t (h k : list value * state -> res (value * state)), alike s t -> (forall vs s t, alike s t -> agree (h (vs, s)) (k (vs, t))) ->
    agree (bind (many f es s) h) (bind (many f es t) k)) as Args.
  { induction es as [|e es IHs]; intros s t h k A H; cbn [many]; [apply H, A|]. rewrite !bind_assoc. apply agree_bind; [apply IE, A|]. intros v s1 t1 A1. rewrite !bind_assoc.
    apply IHs; [exact A1|]. intros vs s2 t2 A2. apply H, A2. }
  split.
  - intros e s t A. destruct e; cbn [eval]; try (cbn; auto; fail).
    + rewrite (alike_read _ _ _ A). apply agree_fst. cbn. auto.
    + apply agree_obind; [apply Late, A|]. intros o s1 t1 A1. rewrite (Settled _ _ _ A1). apply agree_fst. intros v. apply agree_fst. cbn. auto.
    + apply agree_obind; [apply Late, A|]. intros o s1 t1 A1. apply agree_obind; [apply Late, A1|]. intros o2 s2 t2 A2.
      rewrite !(Settled _ _ _ A2). apply agree_fst. intros v. apply agree_fst. intros w. apply agree_fst. cbn. auto.
    + induction es as [|e es IHs]; cbn [fold_right]; [cbn; auto|]. apply agree_bind; [exact IHs|]. intros w s1 t1 A1.
      apply agree_bind; [apply IE, A1|]. cbn. auto.
    + apply agree_bind; [apply IE, A|]. intros v s1 t1 A1. apply agree_fst. intros b. apply IE, A1.
    + apply agree_bind; [apply IE, A|]. intros v s1 t1 A1. apply agree_fst. intros b0. destruct (Bool.eqb b0 positive); [apply IE, A1|cbn; auto].
    + apply agree_bind; [apply IE, A|]. intros v s1 t1 A1. apply agree_fst. intros b0. destruct b0; [|cbn; auto].
      apply agree_bind; [apply IE, A1|]. intros w s2 t2 A2. apply IE, A2.
    + apply agree_bind; [apply IE, A|]. intros v s1 t1 A1. cbn. split; [reflexivity|]. apply alike_write, A1.
    + apply agree_bind; [apply IE, A|]. intros v s1 t1 [A1 A2]. cbn. split; [reflexivity|]. split; [exact A1|]. cbn. intros y.
      unfold assign_global. destruct (bytes_dec x y); auto.
    + rewrite (proj1 A). apply agree_bind; [apply II, A|]. intros v s1 t1 [A1 A2]. cbn. split; [reflexivity|]. split; cbn; [rewrite A1; reflexivity|exact A2].
    + rewrite (proj2 A). destruct (globals_of t f0) as [g|]; [|reflexivity]. refine (Args es s t _ _ A _). intros vs s1 t1 A1. destruct g; reflexivity.
    + apply agree_obind; [apply Late, A|]. intros o s1 t1 A1. refine (Args es s1 t1 _ _ A1 _). intros vs s2 t2 A2. rewrite (Settled _ _ _ A2).
      apply agree_fst. intros g. destruct g; reflexivity.
  - intros b s t A.
    assert (forall i s t, alike s t -> agree (match i with
         | Do e => eval f e s
         | Def y e => ' (v, s) <- eval f e s ;; Ok (v, declare_name s y v)
         | Splice b => eval_items f b s
         end) (match i with
         | Do e => eval f e t
         | Def y e => ' (v, s) <- eval f e t ;; Ok (v, declare_name s y v)
         | Splice b => eval_items f b t
         end)) as One.
    { intros i s0 t0 A0. destruct i; [apply IE, A0| |apply II, A0]. apply agree_bind; [apply IE, A0|]. intros v s1 t1 [A1 A2]. cbn. split; [reflexivity|].
      split; cbn; [rewrite A1; reflexivity|exact A2]. }
    cbn [eval_items]. destruct b as [|i [|j r]]; [cbn; auto|apply One, A|]. apply agree_bind; [apply One, A|]. intros v s1 t1 A1. apply II, A1.
Qed.
Theorem session_values cfg pushpops short y g progs y' g' ids f : callbacks_apart cfg -> session cfg y g ->
  builds cfg pushpops short y g progs y' g' -> numbering y' ids -> Forall (assignments_apart ids) (map fst progs) ->
  forall W ws G', evals f (map fst progs) (fun x => W (ids x)) = Ok (ws, G') ->
  exists W', (forall x, W' (ids x) = G' x) /\
  forall host v, idle v -> (forall x, represents ids v (ids x) (W (ids x))) ->
    (exists F v', (forall F', (F <= F')%nat -> execute_all host F' (map snd progs) v = (Ok tt, v')) /\
       leaves ids v (map fst progs) ws v' /\ idle v' /\ forall x, represents ids v' (ids x) (G' x)) \/
    (exists before e code after F v1, progs = before ++ (e, code) :: after /\
       (forall F', (F <= F')%nat -> execute_all host F' (map snd before) v = (Ok tt, v1)) /\ runs_out host code v1).
Proof.
  intros Hc S B. revert ids. induction B as [|progs y1 g1 fuel e st code B IH G E A]; intros ids Hn Ha W ws G' K.
  - injection K as <- <-. exists W. split; [reflexivity|]. intros host v I R. left. exists O, v. split; [reflexivity|]. split; [constructor|auto].
  - rewrite map_app in K, Ha. cbn [map fst] in K, Ha. apply Forall_app in Ha as [Ha Ha2]. apply Forall_inv in Ha2.
    destruct (evals_app _ _ _ _ _ _ K) as [ws1 [G1 [w [s [K1 [K2 [-> ->]]]]]]].
    pose proof (builds_session _ _ _ _ _ _ _ _ S B) as S1.
    pose proof (session_later _ _ _ _ _ _ Hc S1 G E) as Lt.
    destruct (IH ids (numbering_before _ _ _ Lt Hn) Ha W ws1 G1 K1) as [W1 [E1 H1]].
    assert (exists s', eval f e (State [] (fun x => W1 (ids x))) = Ok (w, s') /\ forall x, globals_of s x = globals_of s' x) as [s' [K3 Es]].
    { pose proof (proj1 (eval_alike f) e (State [] G1) (State [] (fun x => W1 (ids x))) (conj eq_refl (fun x => eq_sym (E1 x)))) as Al. rewrite K2 in Al.
      destruct (eval f e (State [] (fun x => W1 (ids x)))) as [[w' s']|er| |]; try contradiction. destruct Al as [<- [_ Al]]. eauto. }
    assert (built cfg pushpops short e (symbols_of st) code) as Bt by (exists y1, g1, fuel, st; auto).
    destruct (compiled_value _ _ _ _ _ _ _ _ _ _ _ Hc Bt Hn Ha2 K3) as [W2 [E2 [N HN]]].
    exists W2. split; [intros x; rewrite E2; symmetry; apply Es|]. intros host v I R.
    destruct (H1 host v I R) as [[F [v1 [X [Lv [I1 R1]]]]]|[before [e0 [c0 [after [F [v1 [-> [X Ro]]]]]]]]].
    + destruct (HN host v1 I1) as [[F2 [v2 [X2 Rt]]]|[Ro _]].
      * intros x. rewrite E1. apply R1.
      * left. exists (Nat.max F F2), v2. split; [|split; [|split]].
        -- intros F' L. rewrite map_app. cbn [map snd]. rewrite execute_all_app. unfold mbind. rewrite X by lia. apply X2. lia.
        -- rewrite map_app. econstructor; eassumption.
        -- apply Rt.
        -- intros x. rewrite Es. apply Rt.
      * right. exists progs, e, code, [], F, v1. auto.
    + right. exists before, e0, c0, (after ++ [(e, code)]), F, v1. split; [rewrite <- app_assoc; reflexivity|]. auto.
Qed.

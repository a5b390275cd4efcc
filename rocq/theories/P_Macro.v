(** Programs without macros: the compiler with two sub-compilers makes what M_Compile makes (C68). *)
From Coq Require Import String ZArith List Bool Lia ZifyBool ZifyNat.
From Verif Require Import M_Base M_Trie M_Instr M_Asm M_Parser M_Symbol M_Scope M_Heap M_VM M_Convert M_Compile M_Load.
From Verif Require M_Macro.
Import ListNotations.
Open Scope Z_scope.
Open Scope list_scope.
Import (notations) M_Macro.

Definition ext (k : nat) (c : cstate) : cstate := set_scopes c (repeat (scope_init false) k ++ scopes c).
(** The state with [c] for the current sub-compiler [b] and [k] scopes more in the other one. *)
Definition emb (b : bool) (base : cstate) (v : vm) (k : nat) (c : cstate) : M_Macro.mstate :=
  if b then M_Macro.MState (set_symbols (ext k base) (symbols_of c)) c true v else M_Macro.MState c (ext k base) false v.

Definition sim {A B} (b : bool) (base : cstate) (v : vm) (j k : nat) (h : A -> B) (m : CM A) (m' : M_Macro.GM B) : Prop :=
  forall c, match m c with
            | Ok (x, c') => m' (emb b base v j c) = Ok (h x, emb b base v k c')
            | Err e => e = bufferUnderflow \/ m' (emb b base v j c) = Err e
            | _ => True
            end.

Section Sim.
  Variable b : bool.
  Variable base : cstate.
  Variable v : vm.
  Notation sim := (sim b base v).

  Lemma emb_current k c : M_Macro.current (emb b base v k c) = c.
  Proof. unfold emb, M_Macro.current. destruct b; cbn; [|reflexivity]. destruct c; reflexivity. Qed.
  Lemma emb_put k c c' : M_Macro.put (emb b base v k c) c' = emb b base v k c'.
  Proof. unfold emb, M_Macro.put. destruct b; reflexivity. Qed.
  Lemma emb_compiling k c : M_Macro.compiling (emb b base v k c) = b.
  Proof. unfold emb. destruct b; reflexivity. Qed.

  Lemma sim_lift {A} k (m : CM A) : sim k k (fun x => x) m (M_Macro.lift m).
  Proof.
    intros c. unfold M_Macro.lift. rewrite emb_current. destruct (m c) as [[x c']|e| |]; auto. now rewrite emb_put.
  Qed.
  Lemma sim_ret {A} k (x : A) : sim k k (fun x => x) (cret x) (M_Macro.gret x).
  Proof. intros c. reflexivity. Qed.
  Lemma sim_err {A} j k (e : error) : sim j k (fun x : A => x) (cerr e) (M_Macro.gerr e).
  Proof. intros c. right. reflexivity. Qed.
  Lemma sim_ub {A B} j k (h : A -> B) m' : sim j k h cub m'.
  Proof. intros c. exact I. Qed.
  Lemma sim_bind {A A' B B'} i j k (h : A -> A') (h' : B -> B') m m' f f' : sim i j h m m' -> (forall x, sim j k h' (f x) (f' (h x))) ->
    sim i k h' (cbind m f) (M_Macro.gbind m' f').
  Proof.
    intros H K c. unfold cbind, M_Macro.gbind. specialize (H c). destruct (m c) as [[x c']|e| |]; auto.
    - rewrite H. apply K.
    - destruct H as [-> | ->]; auto.
  Qed.
  (** The results need not be the same when they are not used. *)
  Lemma sim_push k f : sim k (S k) (fun x => x) (push_scope f) (M_Macro.push_scope f).
  Proof.
    intros c. unfold push_scope, cmod, M_Macro.push_scope, M_Macro.gmod, emb. destruct b; cbn; repeat f_equal; rewrite ?andb_true_r, ?andb_false_r; reflexivity.
  Qed.
  Lemma sim_pop k : sim (S k) k (fun x => x) pop_scope M_Macro.pop_scope.
  Proof.
    intros c. unfold pop_scope, M_Macro.pop_scope, emb. destruct b; cbn.
    - destruct (scopes c) as [|t r]; cbn; [left; reflexivity|]. repeat f_equal.
    - destruct (scopes c) as [|t r]; cbn; [left; reflexivity|]. repeat f_equal.
  Qed.

  Definition result (t : task) : Z -> Z * list ast :=
    match t with
    | Compound e _ => fun i => (i, form_of e)
    | Form l => fun _ => (-1, l)
    | _ => fun _ => (0, [])
    end.

  Section Generators.
    Variable cfg : config.
    Variable pushpops short : bool.
    Variable host : Z -> M unit.
    Variable steps : nat.
    Variable rec : task -> CM Z.
    Variable rec2 : task -> M_Macro.GM (Z * list ast).
    Hypothesis R : forall t k, sim k k (result t) (rec t) (rec2 t).

    Lemma sim_rec t k : sim k k (fun x => fst (result t x)) (rec t) (M_Macro.rec rec2 t).
    Proof.
      intros c. unfold M_Macro.rec, M_Macro.gbind, M_Macro.gret. specialize (R t k c). destruct (rec t c) as [[x c']|e| |]; auto.
      - rewrite R. reflexivity.
      - destruct R as [-> | ->]; auto.
    Qed.
    Lemma sim_compound e p k : sim k k (fun x => x) (rec (Compound e p)) (M_Macro.rec rec2 (Compound e p)).
    Proof. exact (sim_rec (Compound e p) k). Qed.
    Lemma sim_drop {A A' B B'} i j k (h : A -> A') (h' : B -> B') m m' f f' : sim i j h m m' -> sim j k h' f f' ->
      sim i k h' (cbind m (fun _ => f)) (M_Macro.gbind m' (fun _ => f')).
    Proof. intros H K. eapply sim_bind; [exact H|]. intros _. exact K. Qed.

    Ltac one :=
      first [ apply sim_compound | apply sim_push | apply sim_pop | apply sim_ret | apply sim_err | apply sim_ub | apply sim_lift | apply sim_rec ].
    Ltac go :=
      repeat first
        [ one
        | match goal with
          | |- P_Macro.sim _ _ _ _ _ _ (cbind (rec _) (fun _ => ?f)) (M_Macro.gbind (M_Macro.rec _ _) (fun _ => ?g)) => eapply sim_drop; [first [apply sim_compound | apply sim_rec]|]
          | |- P_Macro.sim _ _ _ _ _ _ (cbind _ _) (M_Macro.gbind _ _) => eapply sim_bind; [|intros]
          | |- P_Macro.sim _ _ _ _ _ _ (match ?x with _ => _ end) _ => destruct x
          end ].

    Lemma sim_settle start k : sim k k (fun x => x) (settle start) (M_Macro.settle start).
    Proof. unfold settle, M_Macro.settle. go. Qed.
    Lemma sim_arguments : forall l k, sim k k (fun x => x) (arguments rec l) (M_Macro.arguments rec2 l).
    Proof.
      induction l as [|x l IH]; intros k; [apply sim_ret|]. cbn [arguments M_Macro.arguments].
      eapply sim_bind; [apply sim_lift|]. intros n. eapply sim_drop; [apply sim_compound|]. eapply sim_drop; [apply sim_settle|apply IH].
    Qed.
    Ltac go2 := repeat first [ apply sim_settle | apply sim_arguments | progress go ].
    Lemma sim_funcall l k : sim k k (fun x => x) (generator_funcall rec l) (M_Macro.generator_funcall rec2 l).
    Proof. unfold generator_funcall, M_Macro.generator_funcall. go2. Qed.
    Lemma sim_funcall2 l k : sim k k (fun x => x) (generator_funcall2 rec l) (M_Macro.generator_funcall2 rec2 l).
    Proof. unfold generator_funcall2, M_Macro.generator_funcall2. go2. Qed.
    Lemma sim_apply l k : sim k k (fun x => x) (generator_apply rec l) (M_Macro.generator_apply rec2 l).
    Proof. unfold generator_apply, M_Macro.generator_apply. go2. Qed.
    Lemma sim_callback l k : sim k k (fun x => x) (generator_callback rec l) (M_Macro.generator_callback rec2 l).
    Proof. unfold generator_callback, M_Macro.generator_callback. go2. Qed.
    Lemma sim_unary u l k : sim k k (fun x => x) (generator_unary rec u l) (M_Macro.generator_unary rec2 u l).
    Proof. unfold generator_unary, M_Macro.generator_unary. go2. Qed.
    Lemma sim_binary o w l k : sim k k (fun x => x) (generator_binary rec o w l) (M_Macro.generator_binary rec2 o w l).
    Proof. unfold generator_binary, M_Macro.generator_binary. go2. Qed.
    Lemma sim_ternary o l k : sim k k (fun x => x) (generator_ternary rec o l) (M_Macro.generator_ternary rec2 o l).
    Proof. unfold generator_ternary, M_Macro.generator_ternary. go2. Qed.
    Lemma sim_list_loop : forall l k, sim k k (fun x => x) (list_loop rec l) (M_Macro.list_loop rec2 l).
    Proof. induction l as [|x l IH]; intros k; cbn [list_loop M_Macro.list_loop]; [go2|]. eapply sim_bind; [apply IH|]. intros i. go2. Qed.
    Lemma sim_list l k : sim k k (fun x => x) (generator_list rec l) (M_Macro.generator_list rec2 l).
    Proof. unfold generator_list, M_Macro.generator_list. eapply sim_drop; [apply sim_list_loop|apply sim_ret]. Qed.
    Lemma sim_vector_loop : forall l k, sim k k (fun x => x) (vector_loop rec l) (M_Macro.vector_loop rec2 l).
    Proof. induction l as [|x l IH]; intros k; cbn [vector_loop M_Macro.vector_loop]; [go2|]. eapply sim_bind; [apply IH|]. intros i. go2. Qed.
    Lemma sim_vector l k : sim k k (fun x => x) (generator_vector rec l) (M_Macro.generator_vector rec2 l).
    Proof. unfold generator_vector, M_Macro.generator_vector. eapply sim_drop; [apply sim_lift|]. eapply sim_bind; [apply sim_vector_loop|]. intros i. go2. Qed.
    Lemma sim_quote l k : sim k k (fun x => x) (generator_quote l) (M_Macro.generator_quote l).
    Proof. unfold generator_quote, M_Macro.generator_quote. go2. Qed.
    Lemma sim_createVar l k : sim k k (fun x => x) (createVar rec l) (M_Macro.createVar rec2 l).
    Proof. unfold createVar, M_Macro.createVar. go2. Qed.
    Lemma sim_global l k : sim k k (fun x => x) (generator_global cfg rec l) (M_Macro.generator_global cfg rec2 l).
    Proof. unfold generator_global, M_Macro.generator_global. go2. Qed.
    Lemma sim_setq l k : sim k k (fun x => x) (generator_setq cfg rec l) (M_Macro.generator_setq cfg rec2 l).
    Proof. unfold generator_setq, M_Macro.generator_setq. go2. Qed.
    Lemma sim_parameters : forall l k, sim k k (fun x => x) (parameters l) (M_Macro.parameters l).
    Proof.
      induction l as [|x l IH]; intros k; cbn [parameters M_Macro.parameters]; [go2|].
      destruct x; try apply sim_err. destruct (name_is s (str "&rest"%string)).
      - destruct l as [|y [|z l]]; try apply sim_err. eapply sim_drop; [apply IH|apply sim_ret].
      - eapply sim_bind; [apply sim_lift|]. intros n. eapply sim_drop; [apply sim_lift|]. eapply sim_drop; [apply sim_lift|apply IH].
    Qed.
    Lemma sim_lambda l k : sim k k (fun x => x) (generator_lambda rec l) (M_Macro.generator_lambda rec2 l).
    Proof.
      unfold generator_lambda, M_Macro.generator_lambda. eapply sim_drop; [apply sim_lift|].
      destruct l as [|h [|[] l]]; try apply sim_err. repeat first [apply sim_parameters | one | eapply sim_bind; [|intros] ].
      match goal with |- P_Macro.sim _ _ _ _ _ _ (match scopes ?s with _ => _ end) _ => destruct (scopes s) as [|a [|a' r]]; try apply sim_ub end.
      eapply sim_drop; [|eapply sim_drop; apply sim_pop]. go2.
    Qed.
    Lemma sim_defun l k : sim k k (fun x => x) (generator_defun rec l) (M_Macro.generator_defun rec2 l).
    Proof.
      unfold generator_defun, M_Macro.generator_defun. eapply sim_drop; [apply sim_lift|].
      destruct l as [|h [|[] l]]; try apply sim_err. eapply sim_drop; [apply sim_createVar|]. go2.
    Qed.
    Lemma sim_progn l k : sim k k (fun x => x) (rec (Progn l) >>> cret tt) (M_Macro.rec rec2 (Progn l) >+> M_Macro.gret tt).
    Proof. eapply sim_drop; [apply sim_rec|apply sim_ret]. Qed.
    Ltac go3 := repeat first [ apply sim_progn | progress go2 ].
    Lemma sim_conditional w l k : sim k k (fun x => x) (generator_conditional rec w l) (M_Macro.generator_conditional rec2 w l).
    Proof. unfold generator_conditional, M_Macro.generator_conditional. go3. Qed.
    Lemma sim_branch n e k : sim k k (fun x => x) (branch rec n e) (M_Macro.branch rec2 n e).
    Proof. unfold branch, M_Macro.branch. go3. Qed.
    Lemma sim_if l k : sim k k (fun x => x) (generator_if rec l) (M_Macro.generator_if rec2 l).
    Proof. unfold generator_if, M_Macro.generator_if. repeat first [ apply sim_branch | progress go3 ]. Qed.
    Lemma sim_loop_body l k : sim k k (fun x => x) (loop_body rec l) (M_Macro.loop_body rec2 l).
    Proof. unfold loop_body, M_Macro.loop_body. go3. Qed.
    Lemma sim_while l k : sim k k (fun x => x) (generator_while rec l) (M_Macro.generator_while rec2 l).
    Proof. unfold generator_while, M_Macro.generator_while. repeat first [ apply sim_loop_body | progress go3 ]. Qed.
    Lemma sim_repeat : forall n k, sim k k (fun x => x) (repeat_push n) (M_Macro.repeat_push n).
    Proof. induction n as [|n IH]; intros k; cbn [repeat_push M_Macro.repeat_push]; [apply sim_ret|]. repeat first [apply IH | progress go3]. Qed.
    Lemma sim_noscope_loop : forall l k, sim k k (fun x => x) (noscope_loop rec l) (M_Macro.noscope_loop rec2 l).
    Proof.
      induction l as [|e l IH]; intros k; cbn [noscope_loop M_Macro.noscope_loop]; [apply sim_ret|].
      eapply sim_bind; [apply sim_lift|]. intros start. eapply sim_bind; [apply (R (Compound e true))|]. intros i. cbn [result fst snd].
      assert (match e with AstExpression _ => AstExpression (form_of e) | _ => e end = e) as -> by (destruct e; reflexivity).
      eapply sim_drop; [|apply IH]. destruct (binder e) as [g|].
      - eapply sim_drop; [|go3]. destruct g; try apply sim_createVar; try apply sim_defun; (eapply sim_drop; [apply sim_rec|apply sim_ret]).
      - repeat first [apply sim_repeat | progress go3].
    Qed.
    Lemma sim_noscope l k : sim k k (fun x => x) (generator_noscope rec l) (M_Macro.generator_noscope rec2 l).
    Proof. unfold generator_noscope, M_Macro.generator_noscope. eapply sim_drop; [apply sim_noscope_loop|]. go3. Qed.
    Lemma sim_expression l k : sim k k (fun x => x) (generator_expression rec l) (M_Macro.generator_expression rec2 l).
    Proof. unfold generator_expression, M_Macro.generator_expression. go3. Qed.
    Lemma sim_generate g l k : sim k k (fun x => x) (generate cfg rec g l) (M_Macro.generate cfg rec2 g l).
    Proof.
      destruct g; cbn [generate M_Macro.generate];
        first [ apply sim_funcall2 | apply sim_apply | apply sim_global | apply sim_setq | apply sim_unary | apply sim_binary | apply sim_ternary
              | apply sim_while | apply sim_if | apply sim_conditional | apply sim_lambda | apply sim_quote | apply sim_list | apply sim_vector | go3 ].
    Qed.
    Lemma sim_ext {A B} j k (m n : CM A) (h : A -> B) m' : (forall c, n c = m c) -> sim j k h m m' -> sim j k h n m'.
    Proof. intros E H c. rewrite E. apply H. Qed.
    Lemma sim_done (m : CM unit) m' l k : sim k k (fun x => x) m m' ->
      sim k k (result (Form l)) (m >>> cret 0) (M_Macro.gbind m' (fun _ => M_Macro.gret (-1, l))).
    Proof. intros H. eapply sim_drop; [exact H|]. intros c. reflexivity. Qed.
    Lemma sim_form l k : sim k k (result (Form l)) (compile_expression cfg rec l >>> cret 0) (M_Macro.compile_expression cfg pushpops short host steps rec2 l).
    Proof.
      unfold compile_expression, M_Macro.compile_expression. destruct l as [|h l]; [apply sim_done; apply sim_lift|].
      destruct h; try (apply sim_done; apply sim_progn); try (apply sim_done; apply sim_ret).
      set (l' := AstIdentifier s :: l).
      apply (sim_ext k k (cbind cget (fun st => cbind (match getFunctionFromName cfg (scopes st) s with
                 | CalleeFuncall => generator_funcall rec l' | CalleeCallback => generator_callback rec l' | CalleeGenerator g => generate cfg rec g l' end)
                 (fun _ => cret 0)))); [reflexivity|].
      eapply sim_bind; [apply sim_lift|]. intros st. destruct (getFunctionFromName cfg (scopes st) s) as [| |g].
      - apply sim_done, sim_funcall.
      - apply sim_done, sim_callback.
      - destruct g; try (apply sim_done, sim_generate). intros c. exact I.
    Qed.
    Lemma sim_value (m : CM Z) m' e p k : (form_of e = []) -> sim k k (fun x => x) m m' ->
      sim k k (result (Compound e p)) m (M_Macro.gbind m' (fun i => M_Macro.gret (i, []))).
    Proof.
      intros E H c. specialize (H c). unfold M_Macro.gbind. destruct (m c) as [[x c']|er| |]; auto.
      - rewrite H. cbn [result]. rewrite E. reflexivity.
      - destruct H as [-> | ->]; auto.
    Qed.
    Lemma sim_switch e p k : sim k k (result (Compound e p)) (compile_compound rec e p) (M_Macro.compile_compound rec2 e p).
    Proof.
      unfold compile_compound, M_Macro.compile_compound. destruct e as [bb|ff|nn|ss|nm|cb|es|lt]; try (apply sim_value; [reflexivity|]; go3; fail).
      eapply sim_bind; [apply (R (Form es))|]. intros x. cbn [result fst snd form_of].
      change (-1 =? -1) with true. cbv iota. intros c. unfold M_Macro.gbind, cbind, M_Macro.locals, M_Macro.lift. rewrite emb_current. cbn. rewrite emb_put. reflexivity.
    Qed.
  End Generators.
End Sim.

Theorem sim_compile cfg pushpops short host steps : forall fuel b base v depth t k,
  sim b base v k k (result t) (compile cfg fuel depth t) (M_Macro.compile cfg pushpops short host steps fuel depth t).
Proof.
  induction fuel as [|fuel IH]; intros b base v depth t k; [intros c; exact I|]. cbn [compile M_Macro.compile].
  destruct t as [e p|l|l|l].
  - destruct (max_depth cfg <=? depth + 1); [intros c; right; reflexivity|]. apply sim_switch. intros t j. apply IH.
  - apply sim_form. intros t j. apply IH.
  - eapply sim_drop; [apply sim_noscope; intros t j; apply IH|]. intros c. reflexivity.
  - eapply sim_drop; [apply sim_expression; intros t j; apply IH|]. intros c. reflexivity.
Qed.

(** Whole programs. *)
Theorem program_same cfg pushpops short host steps fuel e y g gc v :
  match compileAST cfg fuel e (compile_state y g) with
  | Ok (_, st) => M_Macro.compileAST cfg pushpops short host steps fuel e (M_Macro.compile_state y g gc v) =
      Ok (tt, M_Macro.MState st (compile_state y gc) false v)
  | Err er => er = bufferUnderflow \/ M_Macro.compileAST cfg pushpops short host steps fuel e (M_Macro.compile_state y g gc v) = Err er
  | _ => True
  end.
Proof.
  set (base := compile_state y gc).
  assert (M_Macro.compile_state y g gc v = emb false base v 0 (compile_state y g)) as -> by reflexivity.
  assert (S : sim false base v 0 0 (fun x => x) (compileAST cfg fuel e) (M_Macro.compileAST cfg pushpops short host steps fuel e)).
  { unfold compileAST, M_Macro.compileAST. eapply sim_drop; [apply sim_compile|]. eapply sim_bind; [apply sim_lift|]. intros n.
    eapply sim_drop; [|apply sim_lift]. destruct (1 <? n); [|apply sim_ret]. eapply sim_drop; apply sim_lift. }
  specialize (S (compile_state y g)). destruct (compileAST cfg fuel e (compile_state y g)) as [[[] st]|er| |]; auto.
Qed.
Theorem load_same cfg pushpops short strip host steps fuel max source behind y g gc v l :
  load_string cfg pushpops short strip fuel max source behind y g = Ok l ->
  M_Macro.load_string cfg pushpops short strip host steps fuel max source behind y g gc v =
    Ok (M_Macro.MLoaded (code_of l) (known_symbols l) (known_globals l) gc v).
Proof.
  unfold load_string, M_Macro.load_string. destruct (of_read _) as [[a j]|?| |]; try discriminate. cbn [bind].
  pose proof (program_same cfg pushpops short host steps fuel a y g gc v) as P.
  destruct (compileAST cfg fuel a (compile_state y g)) as [[[] st]|?| |]; try discriminate. cbn [bind]. rewrite P. cbn [bind M_Macro.runtime M_Macro.comptime M_Macro.machine].
  destruct (assemble _ _ _ _ _) as [code|?| |]; try discriminate. cbn [bind]. intros [= <-]. reflexivity.
Qed.

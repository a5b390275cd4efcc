(** The compiler accepts well formed programs: the generators (C65). *)
From Coq Require Import String Ascii ZArith List Bool Lia.
From Coq Require Import ZifyBool ZifyNat.
From Verif Require Import M_Base M_Trie M_Instr M_Asm M_Parser M_Symbol M_Scope M_Compile S_Symbol S_Scope S_Compile S_Reader P_Symbol P_Scope S_Frame S_Accept P_Frame6 P_Accept.
Import ListNotations.
Open Scope Z_scope.
Open Scope list_scope.

Definition runs {A} (m : CM A) : Prop := forall n b s, inv n b s -> wp m s (fun _ s' => inv n b s' /\ locals_length s <= locals_length s').

Ltac step := match goal with
  | |- wp (cbind _ _) _ _ => apply wp_bind
  | |- wp (cret _) _ _ => apply wp_ret
  | |- wp locals _ _ => apply wp_locals
  | |- wp cget _ _ => apply wp_cget
  | I : inv ?n ?b ?s |- wp (emit _ _) ?s _ => apply (wp_emit n b _ _ s _ I); intros
  | I : inv ?n ?b ?s |- wp (emit_move _ _) ?s _ => apply (wp_move n b _ _ s _ I); intros
  | I : inv ?n ?b ?s |- wp (emit_pop _) ?s _ => apply (wp_pop n b _ s _ I); intros
  | I : inv ?n ?b ?s |- wp (emit_setStatic _ _ _) ?s _ => apply (wp_static _ n b _ _ s _ I); intros
  | I : inv ?n ?b ?s |- wp (emit_releaseUpvalues _) ?s _ => apply (wp_release n b _ s _ I); intros
  | I : inv ?n ?b ?s |- wp (emit_brnz _ _) ?s _ => apply (wp_brnz n b _ _ s _ I); [lia|intros]
  | I : inv ?n ?b ?s |- wp (locals_to _) ?s _ => apply (wp_locals_to n b _ s _ I); intros
  | I : inv ?n ?b ?s |- wp (symbol _) ?s _ => apply (wp_symbol n b _ s _ I); intros
  | I : inv ?n ?b ?s |- wp (global_key _) ?s _ => apply (wp_global_key n b _ s _ I); intros
  | I : inv ?n ?b ?s |- wp (addGlobal _) ?s _ => apply (wp_addGlobal n b _ s _ I); intros
  | I : inv ?n ?b ?s |- wp new_label ?s _ => apply (wp_label n b s _ I); intros
  | I : inv ?n ?b ?s |- wp (look _ _) ?s _ => apply (wp_look n b _ _ s _ I); intros
  | I : inv ?n ?b ?s |- wp top_scope ?s _ => apply (wp_top n b s _ I); intros
  | I : inv ?n ?b ?s |- wp (add_object _ _) ?s _ => apply (wp_object n b _ _ s _ I); intros
  | I : inv ?n ?b ?s, H : runs ?m |- wp ?m ?s _ => eapply wp_more; [exact (H n b s I)|]; intros ? ? [? ?]
  | |- wp (if ?c then _ else _) _ _ => destruct c eqn:?
  | |- inv _ _ _ /\ _ => split; [assumption|lia]
  end.
Ltac unf := unfold emit_nil, emit_makeType, emit_nop, emit_un, emit_bin, emit_tern, emit_vector, emit_return, emit_exit, emit_pushGlobal, emit_pushBoolean,
  emit_pushInteger, emit_pushString, emit_pushSymbol, emit_pushClosure, emit_ccall, emit_pushIndex, emit_pushUpvalue, emit_setUpvalue, emit_funcall, emit_apply, emit_jump, emit_label, settle in *.
Ltac go := unf; repeat step.
Ltac start := let n := fresh "n" in let b := fresh "b" in let s := fresh "s" in let I := fresh "I" in intros n b s I.

Lemma quote_runs : forall e, plain_data e = true -> runs (quote_helper e).
Proof.
  fix IH 1. intros e P. destruct e; cbn [plain_data] in P; try discriminate; cbn [quote_helper]; unfold runs; start; try (go; fail).
  - destruct f; [|discriminate]. unfold emit_pushDoubleFloat. go.
  - unf. step. step. step. step.
    assert (L : forall last, runs ((fix elements (l : list ast) : CM Z :=
       match l with
       | [] => cret (last - 1)
       | x :: r =>
         let* last_temp_index := elements r in
         quote_helper x >>>
         let* n := locals in
         (let* n0 := locals in emit (ABin BCons (n0 - (n - 1)) (n0 - last_temp_index)) 1) >>>
         let* n := locals in cret (n - 1)
       end) l)).
    { clear - IH P. intros last. induction l as [|x r IHr]; [start; go|]. cbn [forallb] in P. apply andb_true_iff in P. destruct P as [Px Pr].
      specialize (IHr Pr). pose proof (IH x Px) as HX. start. go. }
    specialize (L (locals_length s')). go.
Qed.

Lemma wp_end_body n b outer s (Q : unit -> cstate -> Prop) : inv n false s -> match outer with None => b = true | Some _ => b = false end ->
  (forall s', inv n b s' -> locals_length s' = locals_length s -> Q tt s') -> wp (end_body outer) s Q.
Proof.
  intros [T D B] O H. unfold wp, end_body. destruct (body s); [|discriminate]. eexists; eexists; split; [reflexivity|]. apply H; [|reflexivity]. split; cbn; auto.
Qed.

Section Generators.
  Variable cfg : config.
  Variable rec : task -> CM Z.

  Definition fine (l : list ast) : Prop := forall e, In e l -> forall p, runs (rec (Compound e p)).
  Lemma fine_cons e l : fine (e :: l) -> (forall p, runs (rec (Compound e p))) /\ fine l.
  Proof. intros F. split; [apply F; left; reflexivity|intros x H; apply F; right; exact H]. Qed.

  Lemma arguments_run l : fine l -> runs (arguments rec l).
  Proof.
    induction l as [|x r IH]; intros F; cbn [arguments]; start; [go|]. apply fine_cons in F. destruct F as [X F]. specialize (IH F). specialize (X true). go.
  Qed.
  Lemma funcall_runs name args : fine args -> runs (generator_funcall rec (AstIdentifier name :: args)).
  Proof. intros F. pose proof (arguments_run args F) as A. start. unfold generator_funcall. unf. do 2 step. step. destruct k; go. Qed.
  Lemma funcall2_runs h f args : fine (f :: args) -> runs (generator_funcall2 rec (h :: f :: args)).
  Proof. intros F. apply fine_cons in F. destruct F as [X F]. specialize (X true). pose proof (arguments_run args F) as A. start. unfold generator_funcall2. go. Qed.
  Lemma checked {A} l k v (m : CM A) : (if v : bool then (k <=? length l)%nat else (length l =? k)%nat) = true -> runs m -> runs (checkArgs l k v >>> m).
  Proof. intros E R. start. apply wp_bind. unfold checkArgs. rewrite E. apply wp_ret. apply R. exact I. Qed.
  Lemma apply_runs h f args : (1 <= length args)%nat -> fine (f :: args) -> runs (generator_apply rec (h :: f :: args)).
  Proof.
    intros L F. apply fine_cons in F. destruct F as [X F]. specialize (X true). pose proof (arguments_run args F) as A. apply checked; [cbn [length]; lia|]. start. go.
  Qed.
  Lemma callback_runs name args : fine args -> runs (generator_callback rec (AstIdentifier name :: args)).
  Proof. intros F. pose proof (arguments_run args F) as A. start. unfold generator_callback. go. Qed.
  Lemma unary_runs u h x : fine [x] -> runs (generator_unary rec u [h; x]).
  Proof. intros F. apply fine_cons in F. destruct F as [X F]. specialize (X false). apply checked; [reflexivity|]. start. go. Qed.
  Lemma binary_runs u sw h x y : fine [x; y] -> runs (generator_binary rec u sw [h; x; y]).
  Proof. intros F. apply fine_cons in F. destruct F as [X F]. apply fine_cons in F. destruct F as [Y F]. specialize (X false). specialize (Y false). apply checked; [reflexivity|]. start. go. Qed.
  Lemma ternary_runs u h x y z : fine [x; y; z] -> runs (generator_ternary rec u [h; x; y; z]).
  Proof.
    intros F. apply fine_cons in F. destruct F as [X F]. apply fine_cons in F. destruct F as [Y F]. apply fine_cons in F. destruct F as [Z0 F].
    specialize (X false). specialize (Y false). specialize (Z0 false). apply checked; [reflexivity|]. start. go.
  Qed.
  Lemma list_loop_runs l : fine l -> runs (list_loop rec l).
  Proof. induction l as [|x r IH]; intros F; cbn [list_loop]; start; [go|]. apply fine_cons in F. destruct F as [X F]. specialize (IH F). specialize (X false). go. Qed.
  Lemma list_runs h l : fine l -> runs (generator_list rec (h :: l)).
  Proof. intros F. pose proof (list_loop_runs l F). start. unfold generator_list. cbn [tl]. go. Qed.
  Lemma vector_loop_runs l : fine l -> runs (vector_loop rec l).
  Proof. induction l as [|x r IH]; intros F; cbn [vector_loop]; start; [go|]. apply fine_cons in F. destruct F as [X F]. specialize (IH F). specialize (X false). go. Qed.
  Lemma vector_runs h l : fine l -> runs (generator_vector rec (h :: l)).
  Proof. intros F. pose proof (vector_loop_runs l F). start. unfold generator_vector. cbn [tl]. go. Qed.
  Lemma quote_generator_runs h e : plain_data e = true -> runs (generator_quote [h; e]).
  Proof. intros P. apply checked; [reflexivity|]. apply quote_runs, P. Qed.

  Lemma createVar_runs h name v : fine [v] -> forall n b s, inv n b s -> wp (createVar rec [h; AstIdentifier name; v]) s (fun _ s' => inv n b s' /\ locals_length s + 1 <= locals_length s').
  Proof. intros F. apply fine_cons in F. destruct F as [X F]. specialize (X true). start. unfold createVar, checkArgs. cbn [length Nat.eqb]. go. Qed.
  Lemma global_runs h name v : fine [v] -> runs (generator_global cfg rec [h; AstIdentifier name; v]).
  Proof. intros F. apply fine_cons in F. destruct F as [X F]. specialize (X true). apply checked; [reflexivity|]. start. go. Qed.
  Lemma setq_runs h name v : fine [v] -> runs (generator_setq cfg rec [h; AstIdentifier name; v]).
  Proof.
    intros F. apply fine_cons in F. destruct F as [X F]. specialize (X true). apply checked; [reflexivity|]. start. unf.
    step. step. step. step. step. step. destruct k; go.
  Qed.
  Lemma parameters_run l : parameter_list l = true -> runs (parameters l).
  Proof.
    induction l as [|x r IH]; intros P; cbn [parameter_list parameters] in *; [start; go|]. destruct x; try discriminate.
    rewrite word_eq_is in P. change (word "&rest") with (str "&rest") in P. destruct (name_is s (str "&rest")) eqn:E.
    - destruct r as [|[ | | | |y| | | ] [|]]; try discriminate. cbn [parameters] in *. rewrite word_eq_is in P. apply negb_true_iff in P.
      change (word "&rest") with (str "&rest") in P. rewrite P. start. go.
    - specialize (IH P). start. go.
  Qed.
  Lemma self_plain : plain_name (str "self") = true.
  Proof. reflexivity. Qed.
  Lemma lambda_runs h ps forms : parameter_list ps = true -> (1 <= length forms)%nat -> runs (rec (Progn forms)) -> runs (generator_lambda rec (h :: AstExpression ps :: forms)).
  Proof.
    intros P L R. apply checked; [cbn [length]; lia|]. pose proof (parameters_run ps P) as PR. start. unf.
    step. apply (wp_push n b _ s _ I). intros k1 s1 K1 I1 L1. step. step. step. step. step.
    apply (wp_function _ _ _ _ _ _ H self_plain). intros s3 I3 L3. step. step. step.
    apply (wp_push _ _ _ _ _ H1). intros k2 s4 K2 I4 L4. assert (k2 = S k1) by lia. subst k2. clear K2.
    step. unfold begin_body. eexists; eexists; split; [reflexivity|].
    match goal with |- wp _ ?st _ => set (s5 := st) end.
    assert (I5 : inv (S (S k1)) false s5) by (destruct I4 as [T D B]; split; cbn; auto).
    assert (L5 : locals_length s5 = locals_length s4) by reflexivity. clearbody s5.
    assert (BB : match body s4 with None => b = true | Some _ => b = false end) by (destruct I4; assumption).
    repeat step.
    match goal with J : inv (S (S k1)) false ?st |- wp (end_body _) ?st _ => apply (wp_end_body _ b _ _ _ J BB) end. intros s6 I6 L6.
    do 10 step. clear BB. 
    match goal with |- wp (match scopes ?st with _ => _ end) _ _ => set (s7 := st) in * end.
    match goal with J : inv (S (S k1)) b s7 |- _ => rename J into I7 end.
    destruct (scopes s7) as [|sc1 [|self rest]] eqn:E7; [destruct I7 as [_ D _]; rewrite E7 in D; cbn in D; lia..|].
    apply wp_bind. assert (M : wp (match scope_uvs self with
         | [] => cret tt
         | us => let* n := locals in (let* n1 := locals in emit (APushIndex (n1 - (n - 1))) 1) >>> emit_releaseUpvalues us >>> emit_move (n - 1) n >>> emit_pop 1
         end) s7 (fun _ s' => inv (S (S k1)) b s' /\ locals_length s7 <= locals_length s')) by (destruct (scope_uvs self); repeat step).
    eapply wp_more; [exact M|]. clear M. intros _ s8 [I8 L8].
    apply wp_bind. apply (wp_popScope (S k1) b (S k1) _ _ I8); [left; reflexivity|]. intros s9 I9 L9.
    apply (wp_popScope n b k1 _ _ I9 K1). intros s10 I10 L10. split; [exact I10|lia].
  Qed.

  Lemma defun_runs h name ps forms : (1 <= length forms)%nat -> plain_name name = true -> fine [AstExpression (AstIdentifier defun_lambda :: AstExpression ps :: forms)] ->
    forall n b s, inv n b s -> wp (generator_defun rec (h :: AstIdentifier name :: AstExpression ps :: forms)) s (fun _ s' => inv n b s' /\ locals_length s + 1 <= locals_length s').
  Proof.
    intros L P F. start. unfold generator_defun, checkArgs. cbn [length Nat.leb]. destruct (length forms); [lia|]. cbn [Nat.leb].
    step. step. step. eapply wp_more; [exact (createVar_runs (AstIdentifier []) name _ F n b s I)|]. intros _ s1 [I1 L1]. step. step.
    apply (wp_function _ _ _ _ _ _ I1 P). intros s2 I2 L2. split; [exact I2|lia].
  Qed.

  Lemma progn_unit l : runs (rec (Progn l)) -> runs (rec (Progn l) >>> cret tt).
  Proof. intros R. start. go. Qed.
  Lemma conditional_runs w h c forms : (1 <= length forms)%nat -> fine [c] -> runs (rec (Progn forms)) -> runs (generator_conditional rec w (h :: c :: forms)).
  Proof.
    intros L F R. apply fine_cons in F. destruct F as [X F]. specialize (X true). apply checked; [cbn [length]; lia|]. start.
    destruct (literal_condition c) as [t|]; [destruct (Bool.eqb t w); go|].
    destruct c; try (go; fail); destruct w; go.
  Qed.
  Lemma branch_runs e : fine [e] -> forall n b s k, inv n b s -> k = locals_length s -> wp (branch rec k e) s (fun _ s' => inv n b s' /\ locals_length s <= locals_length s').
  Proof. intros F. apply fine_cons in F. destruct F as [X F]. specialize (X true). intros n b s k I ->. unfold branch. go. Qed.
  Ltac side B := match goal with I : inv ?n ?b ?s |- wp (branch _ ?k _) ?s _ => eapply wp_more; [apply (B n b s k I); lia|]; intros ? ? [? ?] end.
  Lemma if_runs h c x y : fine [c; x; y] -> (forall l, c = AstExpression l -> runs (rec (Form l))) -> runs (generator_if rec [h; c; x; y]).
  Proof.
    intros F FL. apply fine_cons in F. destruct F as [C F]. specialize (C true).
    assert (BX := branch_runs x). assert (BY := branch_runs y).
    apply fine_cons in F. destruct F as [X F]. apply fine_cons in F. destruct F as [Y F].
    specialize (BX ltac:(intros z [<-|[]] p; apply X)). specialize (BY ltac:(intros z [<-|[]] p; apply Y)). specialize (X true). specialize (Y true).
    apply checked; [reflexivity|]. start. destruct (literal_condition c) as [t|]; [destruct t; go|].
    destruct c; try (go; fail).
    - go. side BY. go. side BX. go.
    - pose proof (FL l eq_refl) as RF. go. side BY. go. side BX. go.
  Qed.
  Lemma loop_body_runs forms : runs (rec (Progn forms)) -> runs (loop_body rec forms).
  Proof.
    intros R. start. unfold loop_body. step. apply (wp_push n b _ s _ I). intros k s1 K I1 L1. go;
      match goal with J : inv (S k) b ?st |- wp pop_scope ?st _ => apply (wp_popScope n b k _ _ J K) end; intros; (split; [assumption|lia]).
  Qed.
  Lemma while_runs h c forms : (1 <= length forms)%nat -> fine [c] -> runs (rec (Progn forms)) -> runs (generator_while rec (h :: c :: forms)).
  Proof.
    intros L F R. apply fine_cons in F. destruct F as [X F]. specialize (X true). apply checked; [cbn [length]; lia|]. pose proof (loop_body_runs forms R) as LB. start.
    destruct c; try (go; fail); destruct (literal_condition _) as [[|]|]; go.
  Qed.
End Generators.

(** Parenthesis inference: more fuel changes nothing; the statements about whole programs. *)
From Coq Require Import String ZArith List Bool Lia ZifyBool ZifyNat.
From Verif Require Import S_Map M_Base M_Trie M_String M_Parser P_Trie M_Infer S_Infer P_Infer P_Infer3 P_Infer2 P_Infer4 P_Infer5 P_Infer6.
From Verif Require M_Compile.
Import ListNotations.
Open Scope list_scope.
Open Scope Z_scope.

(** * More fuel *)

Definition below_ {A} (m1 m2 : IM A) : Prop := forall s, m1 s <> NoFuel -> m2 s = m1 s.
Lemma le_refl {A} (m : IM A) : below_ m m.
Proof. red. auto. Qed.
Lemma le_bind {A B} (m1 m2 : IM A) (k1 k2 : A -> IM B) :
  below_ m1 m2 -> (forall a, below_ (k1 a) (k2 a)) -> below_ (ibind m1 k1) (ibind m2 k2).
Proof.
  intros M K s H. unfold ibind in *. destruct (m1 s) as [[a s']| | |] eqn:R.
  - rewrite M, R by congruence. apply K. auto.
  - rewrite M, R by congruence. auto.
  - rewrite M, R by congruence. auto.
  - contradiction.
Qed.
Lemma le_nofuel {A} (m : IM A) : below_ inofuel m.
Proof. intros s H. exfalso. apply H. reflexivity. Qed.
#[local] Hint Resolve le_refl le_bind le_nofuel : core.

Section Mono.
Variable cs : ast -> res script.
Variables (arg1 arg2 : list ast -> nat -> bool -> bool -> IM (list ast * nat)).
Variables (comp1 comp2 : ast -> bool -> IM ast).
Variables (n1 n2 : nat).
Hypothesis L : (n1 <= n2)%nat.
Hypothesis A : forall l i par infer, below_ (arg1 l i par infer) (arg2 l i par infer).
Hypothesis C : forall a infer, below_ (comp1 a infer) (comp2 a infer).

Lemma le_one t l i new par infer : below_ (one_argument arg1 t l i new par infer) (one_argument arg2 t l i new par infer).
Proof. unfold one_argument. apply le_bind; auto. Qed.
Hint Resolve le_one : core.
Lemma le_rest m1 : forall m2 count t k l i new par infer failed, (m1 <= m2)%nat ->
  below_ (rest_arguments arg1 m1 count t k l i new par infer failed) (rest_arguments arg2 m2 count t k l i new par infer failed).
Proof.
  induction m1 as [|m1 IH]; intros m2 count t k l i new par infer failed M; [apply le_nofuel|].
  destruct m2 as [|m2]; [lia|]. cbn [rest_arguments]. destruct (if par then _ else _); auto.
  destruct t; try (apply le_bind; auto; intros [[? ?] ?]; apply IH; lia). apply IH; lia.
Qed.
Lemma le_incrementally positional rest p par infer :
  below_ (incrementally arg1 n1 positional rest p par infer) (incrementally arg2 n2 positional rest p par infer).
Proof.
  destruct p as [[[ti l] i] new]. cbn [incrementally]. destruct (nth_error positional ti) as [[]|].
  - destruct (length l <=? i)%nat; auto.
  - destruct (length l <=? i)%nat; auto.
  - destruct (length l <=? i)%nat; auto.
  - destruct (ti <=? length positional)%nat; auto. destruct rest as [[count t]|]; auto.
    destruct (negb par && (count <? 0)); auto. apply le_bind; auto. apply le_rest; auto.
Qed.
Hint Resolve le_incrementally : core.
Lemma le_remaining m : forall positional rest p par infer,
  below_ (remaining arg1 n1 m positional rest p par infer) (remaining arg2 n2 m positional rest p par infer).
Proof. induction m as [|m IH]; intros; cbn [remaining]; auto. Qed.
Lemma le_script m1 : forall m2 sc positional rest p par infer, (m1 <= m2)%nat ->
  below_ (run_script arg1 n1 m1 sc positional rest p par infer) (run_script arg2 n2 m2 sc positional rest p par infer).
Proof.
  induction m1 as [|m1 IH]; intros m2 sc positional rest p par infer M; [apply le_nofuel|].
  destruct m2 as [|m2]; [lia|]. intros s. cbn [run_script].
  assert (K : forall p', below_ (run_script arg1 n1 m1 sc positional rest p' par infer) (run_script arg2 n2 m2 sc positional rest p' par infer))
    by (intros; apply IH; lia).
  destruct (sc (history s)); auto.
  - apply (le_bind (add_declaration name type None)); auto.
  - apply (le_bind (incrementally arg1 n1 positional rest p par infer)); auto.
  - apply (le_bind push_scope); auto.
  - apply (le_bind pop_scope); auto.
Qed.
Lemma le_arguments m1 : forall m2 l i infer, (m1 <= m2)%nat ->
  below_ (arguments cs arg1 m1 l i infer) (arguments cs arg2 m2 l i infer).
Proof.
  induction m1 as [|m1 IH]; intros m2 l i infer M; [apply le_nofuel|].
  destruct m2 as [|m2]; [lia|]. cbn [arguments]. destruct (i <? length l)%nat; auto.
  apply le_bind; auto. intros [l' i']. apply le_bind; auto. intros a. apply le_bind; auto. intros u. apply IH. lia.
Qed.
Lemma le_call t positional rest h l i par infer :
  below_ (call_arguments cs arg1 n1 t positional rest h l i par infer) (call_arguments cs arg2 n2 t positional rest h l i par infer).
Proof.
  unfold call_arguments. apply le_bind.
  - destruct (it_script t); auto. apply le_bind; auto. intros u. apply le_script. auto.
  - intros [[[ti l1] i1] new1]. apply le_bind; auto. apply le_remaining.
Qed.
Lemma le_argument l i par infer :
  below_ (argument_body cs arg1 comp1 n1 l i par infer) (argument_body cs arg2 comp2 n2 l i par infer).
Proof.
  unfold argument_body. destruct (nth_error l i) as [[]|]; auto.
  apply le_bind; auto. intros [t|]; auto. destruct infer; auto. destruct (it_sig t); auto.
  - destruct par; auto. apply le_bind; auto. apply le_arguments. auto.
  - apply le_call.
Qed.
Lemma le_compound a infer : below_ (compound_body cs arg1 n1 a infer) (compound_body cs arg2 n2 a infer).
Proof.
  unfold compound_body. destruct a; auto; destruct infer; auto.
  - unfold expression_body.
    assert (K : below_ (_ <! push_scope;; l'' <! arguments cs arg1 n1 l 0 true;; _ <! pop_scope;; iret (AstExpression l''))
      (_ <! push_scope;; l'' <! arguments cs arg2 n2 l 0 true;; _ <! pop_scope;; iret (AstExpression l''))).
    { apply le_bind; auto. intros u. apply le_bind; auto. apply le_arguments. auto. }
    destruct l as [|[] l]; auto.
    + apply le_bind; auto. intros [t|]; auto. apply le_bind; auto. apply le_arguments. auto.
    + apply le_bind; auto. apply le_arguments. auto.
  - unfold literal_body. destruct l; auto. apply le_bind; auto. intros h. apply le_bind; auto. apply le_arguments. auto.
Qed.
End Mono.

Lemma infer_mono cs n1 : forall n2, (n1 <= n2)%nat ->
  (forall l i par infer, below_ (infer_argument cs n1 l i par infer) (infer_argument cs n2 l i par infer)) /\
  (forall a infer, below_ (infer_compound cs n1 a infer) (infer_compound cs n2 a infer)).
Proof.
  induction n1 as [|n1 IH]; intros n2 L.
  - split; intros; apply le_nofuel.
  - destruct n2 as [|n2]; [lia|]. destruct (IH n2 ltac:(lia)) as [A C]. split; intros.
    + rewrite !infer_argument_S. apply le_argument; auto. lia.
    + rewrite !infer_compound_S. apply (le_compound cs _ _ (infer_compound cs n1) (infer_compound cs n2)); auto. lia.
Qed.

(** An answer does not depend on the fuel. *)
Theorem infer_steady cs n1 n2 external a :
  (n1 <= n2)%nat -> infer_parentheses cs n1 external a <> NoFuel ->
  infer_parentheses cs n2 external a = infer_parentheses cs n1 external a.
Proof.
  intros L. unfold infer_parentheses. apply le_bind; auto. intros u. apply le_bind; auto. intros u'.
  apply infer_mono. auto.
Qed.

(** * Whole programs *)

(** Only parentheses and marks change. *)
Theorem infer_spelled cs fuel external a a' s :
  infer_parentheses cs fuel external a = Ok (a', s) -> spelled a' = spelled a.
Proof. intros H. eapply form_spelled. eapply infer_reading; eauto. Qed.

(** There is at most one reading when every identifier has one type. *)
Theorem one_reading (E : list Z -> option sig) a a1 a2 :
  form (fun f t => E f = Some t) a a1 -> form (fun f t => E f = Some t) a a2 -> a1 = a2.
Proof. apply form_unique. intros f t1 t2. congruence. Qed.

(** A program that declares nothing and names nothing declared with a script: twice its size is enough fuel. *)
Theorem program_ends cs external a n :
  Forall (declarable cs) external ->
  hush (declaring_words external) [a] -> named a = true ->
  (forall f positional count p r,
    declared_in (built_in ++ external) f <> Some (SigExpression positional (Some (count, SigExpression p r)))) ->
  (2 * size a <= n)%nat ->
  (exists a' s, form (fun f t => declared_in (built_in ++ external) f = Some t) a a' /\
     infer_parentheses cs n external a = Ok (a', s)) \/
  (exists e, infer_parentheses cs n external a = Err e) /\
    forall a', ~ form (fun f t => declared_in (built_in ++ external) f = Some t) a a'.
Proof.
  intros F Q NM PL L.
  destruct (program_env cs external F) as (s1 & V1 & K).
  destruct (infer_ends cs _ PL _ (declares_bad external) a s1 n V1 Q NM L) as [(a' & R & H)|[e H]].
  - left. exists a', s1. split; [exact R|]. unfold infer_parentheses. rewrite K. exact H.
  - right. assert (HP : infer_parentheses cs n external a = Err e) by (unfold infer_parentheses; rewrite K; exact H).
    split; [eauto|]. intros a' R.
    apply (infer_program cs external a a' F Q) in R as (m & s & R).
    assert (R' : infer_parentheses cs (n + m) external a = Ok (a', s))
      by (rewrite (infer_steady cs m) by (try lia; congruence); exact R).
    rewrite (infer_steady cs n) in R' by (try lia; congruence). congruence.
Qed.

(** * Declarations *)

(** A declaring form gives its name the written type, and changes nothing else. *)
Theorem declare_effect cs keyword name type s u s' :
  state_ok s -> In keyword [M_Compile.str "declare"%string; M_Compile.str "__declare"%string] ->
  interpret_declare cs (AstExpression [AstIdentifier keyword; AstIdentifier name; type]) s = Ok (u, s') ->
  exists t, from_ast type = Ok t /\
    forall q, find_in (scope_stack s') q =
              if bytes_eqb name q then Ok (Some {| it_sig := t; it_script := None |}) else find_in (scope_stack s) q.
Proof.
  intros O DK'. assert (DK : declares keyword = true) by (destruct DK' as [<-|[<-|[]]]; vm_compute; reflexivity).
  cbn [interpret_declare]. rewrite DK. cbn [compile_and_add]. destruct u. apply find_add. auto.
Qed.

Fixpoint depth (t : sig) : nat :=
  match t with
  | SigExpression positional rest =>
    S (list_max (map depth positional) + match rest with Some (_, r) => depth r | None => 0 end)
  | _ => 0%nat
  end.

(** Types are read as they are written. *)
Theorem written_read t : from_ast (written t) = Ok t.
Proof.
  assert (K : forall n t, (depth t < n)%nat -> from_ast (written t) = Ok t); [|apply (K (S (depth t))); lia].
  clear t. induction n as [|n IH]; intros t L; [lia|]. destruct t as [| |positional rest].
  - vm_compute. reflexivity.
  - vm_compute. reflexivity.
  - cbn [written from_ast]. cbn [depth] in L.
    assert (M : Forall (fun t => (depth t < n)%nat) positional).
    { assert (list_max (map depth positional) < n)%nat as X by lia.
      destruct positional; [constructor|]. apply list_max_lt in X; [|discriminate]. apply Forall_map in X. exact X. }
    set (go := fix elements (l : list ast) (sub : sig) (positional : list sig) {struct l} : res sig := _).
    assert (NR : forall x, is_rest (written x) = false) by (intros []; vm_compute; reflexivity).
    assert (G : forall ps sub acc tail, Forall (fun t => (depth t < n)%nat) ps ->
              exists sub', go (map written ps ++ tail) sub acc = go tail sub' (acc ++ ps)).
    { induction ps as [|x ps IHp]; intros sub acc tail FP.
      - exists sub. rewrite app_nil_r. reflexivity.
      - inversion FP; subst. cbn [map app]. destruct (IHp x (acc ++ [x]) tail) as [sub' E]; auto.
        exists sub'. rewrite <- app_assoc in E. cbn [app] in E. rewrite <- E.
        unfold go at 1. fold go. rewrite NR, IH by auto. reflexivity. }
    destruct (G positional SigL [] (match rest with
      | Some (count, r) => [AstIdentifier (M_Compile.str "&rest"%string); AstInt count; written r]
      | None => [] end) M) as [sub' E]. rewrite E. cbn [app].
    destruct rest as [[count r]|]; [|reflexivity].
    unfold go. replace (is_rest (AstIdentifier (M_Compile.str "&rest"%string))) with true by (vm_compute; reflexivity).
    rewrite IH by lia. reflexivity.
Qed.

(** The calls in the result have as many arguments as the declared type says. *)
Theorem call_arity cs (E : list Z -> option sig) bad fuel f l s a' s' :
  (forall f, declares f = true -> bad f = true) ->
  env E bad s -> hush bad [AstExpression (AstIdentifier f :: l)] ->
  infer_compound cs fuel (AstExpression (AstIdentifier f :: l)) true s = Ok (a', s') ->
  exists t args, a' = AstExpression (AstIdentifier f :: args) /\ E f = Some t /\ arity t true (length args).
Proof. intros B V Q H. destruct (infer_quiet _ _ _ _ _ _ _ _ B V Q H) as [_ F]. apply form_arity in F. exact F. Qed.

(** The same without parentheses: an identifier starts an argument that ends up with as many arguments
    as its type says. *)
Theorem operand_arity_all cs (E : list Z -> option sig) bad fuel l i f s l' i' s' :
  (forall f, declares f = true -> bad f = true) ->
  env E bad s -> hush bad l -> nth_error l i = Some (AstIdentifier f) ->
  infer_argument cs fuel l i false true s = Ok ((l', i'), s') ->
  s' = s /\ i' = S i /\ firstn i l' = firstn i l /\
  exists x, nth_error l' i = Some x /\
   (x = AstIdentifier f /\ (E f = Some SigL \/ E f = Some SigI) \/
    exists t args, x = AstExpression (AstIdentifier f :: args) /\ E f = Some t /\ arity t false (length args)).
Proof.
  intros B V Q N R. destruct (quiet_spec cs E bad B fuel) as (A & _ & _).
  destruct (A _ _ _ _ _ _ _ V Q R) as (_ & -> & -> & pre & c & x & r & -> & <- & -> & T).
  specialize (T (D E) (fun _ _ H => H)). cbn in T.
  assert (NE := operand_nonempty _ _ _ T). destruct c as [|h c]; [contradiction|].
  cbn [app] in N. rewrite nth_cut in N. inversion N; subst h.
  repeat split; auto; [rewrite !firstn_cut; auto|].
  exists x. rewrite nth_cut. split; auto. apply operand_arity in T as [(_ & -> & H)|(p & rs & args & -> & H1 & H2)]; auto.
  right. exists (SigExpression p rs), args. auto.
Qed.

(** Whatever a form declares, it declares in the innermost scope. *)
Theorem infer_innermost (cs : ast -> res script) fuel a infer s a' s' :
  (forall a sc, cs a = Ok sc -> tame sc) -> tame_state s -> infer_compound cs fuel a infer s = Ok (a', s') ->
  tame_state s' /\ tl (scope_stack s') = tl (scope_stack s).
Proof. intros CT. apply infer_below. exact CT. Qed.

(** A scope forgets what is declared in it. *)
Theorem scope_forgets (cs : ast -> res script) fuel a l s a' s' :
  (forall a sc, cs a = Ok sc -> tame sc) -> tame_state s -> (forall f, a <> AstIdentifier f /\ a <> AstCallback f) ->
  infer_compound cs fuel (AstExpression (a :: l)) true s = Ok (a', s') ->
  scope_stack s' = scope_stack s.
Proof. intros CT T N. eapply infer_scope; eauto. Qed.

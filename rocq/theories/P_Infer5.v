(** Parenthesis inference: exactness for programs without declarations, scopes, arities. *)
From Coq Require Import ZArith List Bool Lia.
From Verif Require Import S_Map M_Base M_Trie M_String M_Parser P_Trie M_Infer S_Infer P_Infer P_Infer3 P_Infer2 P_Infer4.
Import ListNotations.
Open Scope Z_scope.

(** * Lookups *)

Lemma find_add s name type sc s' :
  state_ok s -> add_declaration name type sc s = Ok (tt, s') ->
  exists t, from_ast type = Ok t /\
  forall q, find_in (scope_stack s') q =
            if bytes_eqb name q then Ok (Some {| it_sig := t; it_script := sc |}) else find_in (scope_stack s) q.
Proof.
  unfold add_declaration, state_ok. intros O. destruct (scope_stack s) as [|scope rest] eqn:Q; [discriminate|].
  inversion O as [|? ? [W F] R]; subst.
  unfold bind. destruct (from_ast type) as [t| | |]; try discriminate. intros E. exists t. split; auto.
  assert (s' = {| scope_stack :=
                   {| is_trie := trie_insert (is_trie scope) name (Z.of_nat (length (is_types scope)));
                      is_types := is_types scope ++ [{| it_sig := t; it_script := sc |}] |} :: rest;
                 history := Declared name t :: history s |}) as ->.
  { destruct t, sc; inversion E; reflexivity. }
  clear E. intros q. cbn [scope_stack find_in is_trie is_types].
  destruct (trie_insert_ok (is_trie scope) name (Z.of_nat (length (is_types scope))) W) as [_ F']. rewrite F'.
  rewrite app_length. cbn [length]. destruct (bytes_eqb name q).
  - destruct (Z.eqb_spec (Z.of_nat (length (is_types scope))) (-1)); [lia|].
    destruct (Z.ltb_spec (Z.of_nat (length (is_types scope))) 0); [lia|].
    destruct (Z.leb_spec (Z.of_nat (length (is_types scope) + 1)) (Z.of_nat (length (is_types scope)))); [lia|].
    cbn [orb]. rewrite Nat2Z.id, nth_error_app2, Nat.sub_diag by lia. reflexivity.
  - destruct (F q) as [->|[G _]]; [reflexivity|].
    destruct (Z.eqb_spec (trie_find (is_trie scope) q) (-1)); [lia|].
    destruct (Z.ltb_spec (trie_find (is_trie scope) q) 0); [lia|].
    destruct (Z.leb_spec (Z.of_nat (length (is_types scope) + 1)) (trie_find (is_trie scope) q)); [lia|].
    destruct (Z.leb_spec (Z.of_nat (length (is_types scope))) (trie_find (is_trie scope) q)); [lia|].
    cbn [orb]. rewrite nth_error_app1 by lia. reflexivity.
Qed.

(** * Programs that declare nothing *)

Lemma infer_quiet cs E bad fuel s a a' s' :
  (forall f, declares f = true -> bad f = true) ->
  env E bad s -> hush bad [a] -> infer_compound cs fuel a true s = Ok (a', s') -> s' = s /\ form (D E) a a'.
Proof.
  intros BD V Q H.
  assert (K : comp_spec (infer_compound cs fuel) (env E bad) (fun s s' => s' = s)
                (fun _ D' => forall f t, D E f t -> D' f t) bad).
  { apply infer_ok.
    - auto.
    - intros; congruence.
    - auto.
    - auto.
    - intros f s0 t s1 V0 B F. unfold find_declaration in F. rewrite V0 in F by exact B. cbn in F.
      destruct (E f) eqn:EF; inversion F; subst.
      split; [reflexivity|]. split; [intros D' HD; apply HD; exact EF|]. intros sc. discriminate.
    - intros x s0 u s1 V0 QX I. rewrite (interpret_quiet cs bad) in I by auto. inversion I; subst. auto.
    - apply env_push.
    - intros s0 s2 u s3 V0 V2 -> I. unfold pop_scope, pushed in I. cbn in I. inversion I; subst. destruct s0; auto. }
  destruct (K _ _ _ _ _ V Q H) as (_ & -> & F). split; auto.
Qed.

Theorem infer_exact cs E bad s a a' :
  (forall f, declares f = true -> bad f = true) ->
  env E bad s -> hush bad [a] ->
  (form (D E) a a' <-> exists n, infer_compound cs n a true s = Ok (a', s)).
Proof.
  intros BD V Q. split.
  - intros F. destruct (infer_complete cs E bad s a a' BD V Q F) as [N H]. exists N. auto.
  - intros [n H]. eapply infer_quiet; eauto.
Qed.

(** The type a list of declarations gives to an identifier: the last one counts. *)
Definition signature (type : ast) : option sig := match from_ast type with Ok t => Some t | _ => None end.
Definition declared_in (ds : list (list Z * ast * option ast)) (f : list Z) : option sig :=
  last_assigned bytes_eqb None (map (fun d => (fst (fst d), signature (snd (fst d)))) ds) f.

(** The identifiers declared with a script, and the words that declare. *)
Definition has_script (ds : list (list Z * ast * option ast)) (f : list Z) : bool :=
  existsb (fun d => bytes_eqb (fst (fst d)) f && match snd d with Some _ => true | None => false end) ds.
Definition declaring_words (ds : list (list Z * ast * option ast)) (f : list Z) : bool := declares f || has_script ds f.

(** A declaration whose type can be read, and if it has a script, the script compiles and the type is
    one of a form with arguments. *)
Definition declarable (cs : ast -> res script) (d : list Z * ast * option ast) : Prop :=
  (exists t, from_ast (snd (fst d)) = Ok t) /\
  (forall a, snd d = Some a -> (exists sc, cs a = Ok sc) /\
     exists positional rest, from_ast (snd (fst d)) = Ok (SigExpression positional rest)).

Lemma declare_all_env cs bad ds : forall E s,
  state_ok s -> scope_stack s <> [] -> env E bad s -> Forall (declarable cs) ds ->
  (forall f, has_script ds f = true -> bad f = true) ->
  exists s', declare_all cs ds s = Ok (tt, s') /\
    env (fun f => last_assigned bytes_eqb (E f) (map (fun d => (fst (fst d), signature (snd (fst d)))) ds) f) bad s'.
Proof.
  induction ds as [|[[name type] sc] ds IH]; intros E s O NE V F B; cbn [declare_all].
  - exists s. split; [reflexivity|exact V].
  - inversion F as [|? ? [[t H2] H1] F']; subst. cbn in H1, H2.
    assert (exists x s1, compile_and_add cs name type sc s = add_declaration name type x s /\
              (sc = None -> x = None) /\ add_declaration name type x s = Ok (tt, s1) /\ scope_stack s1 <> [])
      as (x & s1 & C1 & X & A1 & NE1).
    { assert (K : forall x, (x <> None -> sc <> None) -> exists s1, add_declaration name type x s = Ok (tt, s1) /\ scope_stack s1 <> []).
      { intros x NX. unfold add_declaration. destruct (scope_stack s); [contradiction|]. rewrite H2. cbn [bind].
        destruct t, x; try (eexists; (split; [reflexivity|discriminate])); exfalso;
          (destruct sc as [a|]; [|apply NX; congruence]); destruct (H1 a eq_refl) as (_ & p & r & Y); congruence. }
      destruct sc as [a|].
      - destruct (H1 a eq_refl) as ([x CX] & _). destruct (K (Some x) ltac:(discriminate)) as (s1 & K1 & K2). exists (Some x), s1.
        split; [|split; [discriminate|split; auto]]. cbn [compile_and_add]. unfold ibind, ilift. rewrite CX. reflexivity.
      - destruct (K None ltac:(auto)) as (s1 & K1 & K2). exists None, s1. repeat split; auto. }
    destruct (keeps_add _ _ _ _ _ _ O A1) as [O1 _].
    destruct (find_add _ _ _ _ _ O A1) as (t' & T' & FA). rewrite H2 in T'. inversion T'; subst t'.
    destruct (IH (fun f => if bytes_eqb name f then Some t else E f) s1 O1 NE1) as (s' & D' & V'); auto.
    { intros f BF. rewrite FA. destruct (bytes_eqb name f) eqn:BN; [|apply V, BF].
      destruct sc as [a|]; [|rewrite X; reflexivity].
      rewrite B in BF; [discriminate|]. unfold has_script. cbn [existsb fst snd]. rewrite BN. reflexivity. }
    { intros f HF. apply B. unfold has_script in *. cbn [existsb]. rewrite HF. apply orb_true_r. }
    exists s'. split.
    + unfold ibind. rewrite C1, A1. exact D'.
    + intros f BF. rewrite V' by exact BF. cbn [map fst snd last_assigned]. unfold signature at 2. rewrite H2. reflexivity.
Qed.

Lemma built_in_fine cs : Forall (declarable cs) built_in.
Proof.
  unfold built_in.
  repeat (apply Forall_cons; [split; [eexists; vm_compute; reflexivity|intros a; discriminate]|]). apply Forall_nil.
Qed.
Lemma built_in_scripts f : has_script built_in f = false.
Proof. unfold has_script, built_in. cbn [existsb fst snd]. rewrite !andb_false_r. reflexivity. Qed.

Lemma program_env cs external :
  Forall (declarable cs) external ->
  exists s1, env (declared_in (built_in ++ external)) (declaring_words external) s1 /\
    forall n a, (_ <! push_scope;; _ <! declare_all cs (built_in ++ external);; infer_compound cs n a true)
                     {| scope_stack := []; history := [] |} = infer_compound cs n a true s1.
Proof.
  intros F.
  set (s0 := {| scope_stack := [new_scope]; history := [] |}).
  assert (O0 : state_ok s0). { apply (keeps_push {| scope_stack := []; history := [] |} tt s0); [constructor|reflexivity]. }
  assert (V0 : env (fun _ => None) (declaring_words external) s0). { intros f _. cbn. destruct f; reflexivity. }
  destruct (declare_all_env cs (declaring_words external) (built_in ++ external) (fun _ => None) s0 O0 ltac:(discriminate) V0)
    as (s1 & E1 & V1).
  { apply Forall_app. split; auto using built_in_fine. }
  { intros f. unfold has_script, declaring_words. rewrite existsb_app. intros H. apply orb_true_iff in H as [H|H].
    - pose proof (built_in_scripts f). unfold has_script in *. congruence.
    - unfold has_script. rewrite H. apply orb_true_r. }
  exists s1. split; [exact V1|].
  intros n a. unfold ibind. unfold s0 in E1. unfold push_scope. cbn [scope_stack history]. rewrite E1. reflexivity.
Qed.

Lemma declares_bad ds f : declares f = true -> declaring_words ds f = true.
Proof. unfold declaring_words. intros ->. reflexivity. Qed.

(** For a program that declares nothing itself and names nothing declared with a script, the pass
    succeeds exactly when there is a reading under the built-in and external declarations, and then
    yields it. *)
Theorem infer_program cs external a a' :
  Forall (declarable cs) external ->
  hush (declaring_words external) [a] ->
  (form (fun f t => declared_in (built_in ++ external) f = Some t) a a' <->
   exists n s, infer_parentheses cs n external a = Ok (a', s)).
Proof.
  intros F Q. unfold infer_parentheses. destruct (program_env cs external F) as (s1 & V1 & K).
  split.
  - intros H. apply (infer_exact cs _ _ s1 a a' (declares_bad external) V1 Q) in H as [n H]. exists n, s1. rewrite K. auto.
  - intros (n & s & H). rewrite K in H. destruct (infer_quiet _ _ _ _ _ _ _ _ (declares_bad external) V1 Q H) as [-> R]. exact R.
Qed.

(** * Scopes *)

Definition below (s s' : istate) : Prop := tl (scope_stack s') = tl (scope_stack s).

Lemma add_below name type sc s s' :
  (forall x, sc = Some x -> tame x) -> tame_state s -> add_declaration name type sc s = Ok (tt, s') ->
  tame_state s' /\ below s s'.
Proof.
  intros T [F NE]. unfold add_declaration. destruct (scope_stack s) as [|scope rest] eqn:Q; [discriminate|].
  unfold bind. destruct (from_ast type) as [t| | |]; try discriminate. intros E.
  assert (s' = {| scope_stack :=
                   {| is_trie := trie_insert (is_trie scope) name (Z.of_nat (length (is_types scope)));
                      is_types := is_types scope ++ [{| it_sig := t; it_script := sc |}] |} :: rest;
                 history := Declared name t :: history s |}) as ->.
  { destruct t, sc; inversion E; reflexivity. }
  inversion F; subst. split; [split; [|discriminate]|unfold below; rewrite Q; reflexivity].
  constructor; auto. unfold tame_scope. cbn. apply Forall_app. split; auto.
Qed.

Lemma find_tame s f t : Forall tame_scope s -> find_in s f = Ok (Some t) -> forall x, it_script t = Some x -> tame x.
Proof.
  induction 1 as [|sc l H F IH]; cbn; [discriminate|]. destruct (_ =? _); auto. destruct (_ || _); [discriminate|].
  intros [= E]. apply nth_error_In in E. unfold tame_scope in H. rewrite Forall_forall in H. apply H; auto.
Qed.

Section Scopes.
Variable cs : ast -> res script.
Hypothesis cs_tame : forall a sc, cs a = Ok sc -> tame sc.

Lemma declare_below a s u s' : tame_state s -> interpret_declare cs a s = Ok (u, s') -> tame_state s' /\ below s s'.
Proof.
  intros T. assert (K : iret tt s = Ok (u, s') -> tame_state s' /\ below s s').
  { intros E. apply iret_ok in E as [_ ->]. split; auto. reflexivity. }
  assert (C : forall name type sca, compile_and_add cs name type sca s = Ok (u, s') -> tame_state s' /\ below s s').
  { intros name type [sca|] E; cbn in E.
    - ib E sc s1 E1. apply ilift_ok in E1 as [E1 ->]. destruct u. eapply add_below; eauto. intros x [= <-]. eauto.
    - destruct u. eapply add_below; eauto. discriminate. }
  destruct u. destruct a; try apply K. cbn [interpret_declare]. destruct l as [|[] l]; try apply K.
  destruct l as [|[] l]; try apply K. destruct l as [|? [|? [|]]]; try apply K; destruct (declares _); try apply K; apply C.
Qed.

Lemma below_all fuel :
  comp_spec (infer_compound cs fuel) tame_state below (fun _ D => forall f t, D f t) (fun _ => false) /\
  arg_spec (infer_argument cs fuel) tame_state below (fun _ D => forall f t, D f t) (fun _ => false).
Proof.
  refine ((fun K => conj (proj2 (proj2 K)) (proj1 K)) (infer_ok cs tame_state below _ _ _ _ _ _ _ _ _ _ fuel)).
  - reflexivity.
  - unfold below. congruence.
  - auto.
  - auto.
  - intros f s t s' T _ E. unfold find_declaration in E.
    destruct (find_in (scope_stack s) f) as [o| | |] eqn:F; cbn in E; inversion E; subst.
    split; auto. split; auto. intros sc SC.
    assert (TM : tame sc) by (eapply find_tame; [apply T|exact F|exact SC]).
    split; [|split; [|split]].
    + intros e s1 u s2 T1 N. unfold note in N. inversion N; subst. split; [exact T1|reflexivity].
    + intros h name type _ s1 u s2 T1 N. destruct u. eapply add_below; eauto. discriminate.
    + intros h N. exfalso. apply (proj1 (TM h)); auto.
    + intros h N. exfalso. apply (proj2 (TM h)); auto.
  - intros a s u s' T _ E. eapply declare_below; eauto.
  - intros s [T NE]. split; [|discriminate]. cbn. constructor; auto. constructor.
  - intros s s2 u s3 [T NE] [T2 NE2] B E. unfold below, pushed in B. cbn in B. unfold pop_scope in E.
    destruct (scope_stack s2) eqn:Q; [contradiction|]. inversion E; subst. cbn in B. subst l.
    split; [split; [exact T|exact NE]|]. split; auto. reflexivity.
Qed.

(** Whatever a form declares, it declares in the innermost scope. *)
Theorem infer_below fuel a infer s a' s' :
  tame_state s -> infer_compound cs fuel a infer s = Ok (a', s') ->
  tame_state s' /\ tl (scope_stack s') = tl (scope_stack s).
Proof.
  intros T E. destruct (below_all fuel) as [C _]. destruct (C _ _ _ _ _ T (hush_none _) E) as (T' & B & _). auto.
Qed.

(** A scope forgets what is declared in it. *)
Theorem infer_scope fuel a l s a' s' :
  (forall f, a <> AstIdentifier f /\ a <> AstCallback f) -> tame_state s ->
  infer_compound cs fuel (AstExpression (a :: l)) true s = Ok (a', s') ->
  scope_stack s' = scope_stack s.
Proof.
  intros NN T E. destruct fuel as [|n]; [discriminate|]. rewrite infer_compound_S in E. cbn [compound_body] in E.
  assert (E' : (_ <! push_scope;; l'' <! arguments cs (infer_argument cs n) n (a :: l) 0 true;;
                _ <! pop_scope;; iret (AstExpression l'')) s = Ok (a', s')).
  { unfold expression_body in E.
    destruct a; auto; exfalso; [apply (proj1 (NN _) eq_refl)|apply (proj2 (NN _) eq_refl)]. }
  clear E. ib E' u s1 E1. ib E' l'' s2 E2. ib E' u2 s3 E3. apply iret_ok in E' as [_ ->].
  unfold push_scope in E1. inversion E1; subst u s1. clear E1. destruct (below_all n) as [_ A].
  assert (T1 : tame_state (pushed s)). { destruct T as [T NE]. split; [|discriminate]. cbn. constructor; auto. constructor. }
  assert (B : tame_state s2 /\ below (pushed s) s2).
  { destruct (arguments_ok cs (infer_argument cs n) tame_state below (fun _ D => forall f t, D f t) (fun _ => false)) with
      (n := n) (l := a :: l) (i := 0%nat) (infer := true) (s := pushed s) (l' := l'') (s' := s2) as (T2 & B & _); auto.
    - reflexivity.
    - unfold below. congruence.
    - intros; eapply declare_below; eauto.
    - apply hush_none.
    - lia. }
  destruct B as [T2 B]. unfold below, pushed in B. cbn in B. unfold pop_scope in E3.
  destruct (scope_stack s2); [discriminate|]. inversion E3; subst. auto.
Qed.
End Scopes.

(** * Arities *)

Lemma form_arity E f l l' :
  form (D E) (AstExpression (AstIdentifier f :: l)) l' ->
  exists t args, l' = AstExpression (AstIdentifier f :: args) /\ E f = Some t /\ arity t true (length args).
Proof.
  intros F. inversion F; subst.
  - contradiction.
  - match goal with H : D E f ?t |- _ => exists t, l'0; split; [reflexivity|]; split; [exact H|] end.
    match goal with H : fills _ _ _ _ |- _ => apply fills_length in H; rewrite types_length in H; cbn; rename H into G end.
    destruct rest as [[? ?]|]; lia.
  - exists SigL, l'0. repeat split; auto.
  - match goal with H : forall _, _ |- _ => exfalso; apply (proj1 (H _) eq_refl) end.
Qed.

Lemma operand_arity E f c x :
  operand (D E) (AstIdentifier f :: c) x ->
  c = [] /\ x = AstIdentifier f /\ (E f = Some SigL \/ E f = Some SigI) \/
  exists positional rest args, x = AstExpression (AstIdentifier f :: args) /\
    E f = Some (SigExpression positional rest) /\ arity (SigExpression positional rest) false (length args).
Proof.
  intros F. inversion F; subst.
  - match goal with H : forall _, _ |- _ => exfalso; apply (H _ eq_refl) end.
  - left. repeat split; auto. unfold D in *. match goal with H : _ = SigL \/ _ |- _ => destruct H; subst; auto end.
  - right. exists positional, rest, l'. split; [reflexivity|]. split; [assumption|].
    match goal with H : fills _ _ _ _ |- _ => apply fills_length in H; rewrite types_length in H; cbn; rename H into G end.
    destruct rest as [[? ?]|]; cbn in *; lia.
Qed.

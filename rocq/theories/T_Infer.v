(** C59-C62: parenthesis inference. *)
From Coq Require Import String ZArith List.
From Verif Require Import S_Map M_Base M_Trie M_Parser P_Trie M_Infer S_Infer P_Infer P_Infer2 P_Infer3 P_Infer4 P_Infer5 P_Infer6 P_Infer7 P_Infer8 X_Infer.
Import ListNotations.
Open Scope Z_scope.

(** C59.  Whatever the program, the external declarations and the scripts: the result of the inference is a reading of the program under the types declared during the inference. *)
Theorem C59_reading cs fuel external a a' s :
  infer_parentheses cs fuel external a = Ok (a', s) ->
  form (fun f t => In (Declared f t) (history s)) a a'.
Proof. exact (infer_reading cs fuel external a a' s). Qed.
Print Assumptions C59_reading.

Example C59_reading_case : (exists s, infer_parentheses i_scripts 60 i_external i_program = Ok (i_result, s)) /\
  read (infer_parentheses i_scripts 60 [] k_program) = Some k_result /\
  read (infer_parentheses v_scripts 60 v_external v_program) = Some v_result.
Proof. exact (conj i_infers_state (conj k_infers v_infers)). Qed.

(** C59.  Inference only moves parentheses and removes marks: the atoms of the program and their order stay the same. *)
Theorem C59_spelled cs fuel external a a' s :
  infer_parentheses cs fuel external a = Ok (a', s) -> spelled a' = spelled a.
Proof. exact (infer_spelled cs fuel external a a' s). Qed.
Print Assumptions C59_spelled.

Example C59_spelled_case : spelled i_result = spelled i_program /\ i_result <> i_program.
Proof. split; [reflexivity|discriminate]. Qed.

(** C60.  For a program that declares nothing itself, and names nothing that is declared with a script, the inference yields exactly the readings of the program under the built-in and external declarations, whichever of these have scripts.  Missing: programs with declarations of their own or forms with scripts, for which C59 gives one direction. *)
Theorem C60_exact_partial cs external a a' :
  Forall (declarable cs) external ->
  hush (declaring_words external) [a] ->
  (form (fun f t => declared_in (built_in ++ external) f = Some t) a a' <->
   exists n s, infer_parentheses cs n external a = Ok (a', s)).
Proof. exact (infer_program cs external a a'). Qed.
Print Assumptions C60_exact_partial.

Example C60_exact_case : Forall (declarable v_scripts) w_external /\ has_script w_external (wd "var") = true /\
  hush (declaring_words w_external) [i_program] /\ form (fun f t => declared_in (built_in ++ w_external) f = Some t) i_program i_result.
Proof.
  split; [exact w_external_fine|]. split; [reflexivity|]. split; [exact w_silent|].
  apply (infer_program v_scripts w_external i_program i_result w_external_fine w_silent).
  destruct w_infers_state as [s H]. exists 60%nat, s. exact H.
Qed.

(** C60.  When every identifier has at most one type, no form has two readings. *)
Theorem C60_unique (E : list Z -> option sig) a a1 a2 :
  form (fun f t => E f = Some t) a a1 -> form (fun f t => E f = Some t) a a2 -> a1 = a2.
Proof. exact (one_reading E a a1 a2). Qed.
Print Assumptions C60_unique.

Example C60_unique_case : forall a, form (fun f t => declared_in (built_in ++ i_external) f = Some t) i_program a -> a = i_result.
Proof.
  intros a H. apply (one_reading (declared_in (built_in ++ i_external)) i_program); [exact H|].
  apply (infer_program i_scripts i_external i_program i_result (i_external_fine i_scripts) i_silent).
  destruct i_infers_state as [s E]. exists 60%nat, s. exact E.
Qed.

(** C60.  For a program that declares nothing itself and names nothing that is declared with a script, whose literal expressions start with a name, under declarations without nested types for rest arguments: within twice as many nested calls and rounds as the program has nodes the inference ends, with a reading, or with an error and then there is none.  Missing: programs with declarations or forms with scripts; without the other conditions the claim is false (C62). *)
Theorem C60_ends_partial cs external a n :
  Forall (declarable cs) external ->
  hush (declaring_words external) [a] -> named a = true ->
  (forall f positional count p r,
    declared_in (built_in ++ external) f <> Some (SigExpression positional (Some (count, SigExpression p r)))) ->
  (2 * size a <= n)%nat ->
  (exists a' s, form (fun f t => declared_in (built_in ++ external) f = Some t) a a' /\
     infer_parentheses cs n external a = Ok (a', s)) \/
  (exists e, infer_parentheses cs n external a = Err e) /\
    forall a', ~ form (fun f t => declared_in (built_in ++ external) f = Some t) a a'.
Proof. exact (program_ends cs external a n). Qed.
Print Assumptions C60_ends_partial.

Example C60_ends_case : named i_program = true /\ (2 * size i_program <= 60)%nat /\
  (forall f positional count p r,
    declared_in (built_in ++ w_external) f <> Some (SigExpression positional (Some (count, SigExpression p r)))).
Proof. exact (conj i_named (conj i_size w_plain)). Qed.

(** C60.  With more fuel the answer, once there is one, stays the same, for every program and script. *)
Theorem C60_steady cs n1 n2 external a :
  (n1 <= n2)%nat -> infer_parentheses cs n1 external a <> NoFuel ->
  infer_parentheses cs n2 external a = infer_parentheses cs n1 external a.
Proof. exact (infer_steady cs n1 n2 external a). Qed.
Print Assumptions C60_steady.

Example C60_steady_case : infer_parentheses i_scripts 60 i_external i_program <> NoFuel.
Proof. destruct i_infers_state as [s H]. rewrite H. discriminate. Qed.

(** C60.  What inference makes of a program without marks (callbacks and literal expressions) it accepts again and leaves as it is.  Missing: programs with declarations or forms with scripts; with marks the claim is false (C62). *)
Theorem C60_again_partial cs external a a' n s :
  Forall (declarable cs) external -> hush (declaring_words external) [a] -> unmarked a = true ->
  infer_parentheses cs n external a = Ok (a', s) ->
  exists m, forall k, (m <= k)%nat -> exists s', infer_parentheses cs k external a' = Ok (a', s').
Proof. exact (infer_again cs external a a' n s). Qed.
Print Assumptions C60_again_partial.

Example C60_again_case : hush (declaring_words w_external) [twice_program] /\ unmarked twice_program = true /\
  read (infer_parentheses v_scripts 60 w_external twice_program) = Some twice_result /\
  read (infer_parentheses v_scripts 60 w_external twice_result) = Some twice_result.
Proof. exact twice_infers. Qed.

(** C61.  A declaring form gives its name the type it is written with and leaves what every other name means. *)
Theorem C61_declare cs keyword name type s u s' :
  state_ok s -> In keyword [M_Compile.str "declare"%string; M_Compile.str "__declare"%string] ->
  interpret_declare cs (AstExpression [AstIdentifier keyword; AstIdentifier name; type]) s = Ok (u, s') ->
  exists t, from_ast type = Ok t /\
    forall q, find_in (scope_stack s') q =
              if bytes_eqb name q then Ok (Some {| it_sig := t; it_script := None |}) else find_in (scope_stack s) q.
Proof. exact (declare_effect cs keyword name type s u s'). Qed.
Print Assumptions C61_declare.

Example C61_declare_case : exists s', interpret_declare i_scripts (par [nam "declare"; nam "k"; k_type 2]) {| scope_stack := [new_scope]; history := [] |} = Ok (tt, s') /\
  find_in (scope_stack s') (wd "k") = Ok (Some {| it_sig := SigExpression [SigI; SigI] None; it_script := None |}).
Proof. eexists. split; vm_compute; reflexivity. Qed.

(** C61.  Every type, of any depth, is read as it is written. *)
Theorem C61_types t :
  from_ast (written t) = Ok t.
Proof. exact (written_read t). Qed.
Print Assumptions C61_types.

Example C61_types_case : from_ast (par [nam "L"; par [nam "I"]; nam "&rest"; AstInt 2; nam "I"]) = Ok (SigExpression [SigL; SigExpression [SigI] None] (Some (2, SigI))).
Proof. vm_compute. reflexivity. Qed.

(** C61.  Whatever a form declares, directly or through scripts, it declares in the innermost scope: the scopes around stay as they are.  Missing: scripts that open or close scopes themselves, as they can without balance. *)
Theorem C61_innermost_partial (cs : ast -> res script) fuel a infer s a' s' :
  (forall a sc, cs a = Ok sc -> tame sc) -> tame_state s -> infer_compound cs fuel a infer s = Ok (a', s') ->
  tame_state s' /\ tl (scope_stack s') = tl (scope_stack s).
Proof. exact (infer_innermost cs fuel a infer s a' s'). Qed.
Print Assumptions C61_innermost_partial.

Example C61_innermost_case : (forall a sc, v_scripts a = Ok sc -> tame sc) /\ tame_state v_state /\
  exists s, infer_compound v_scripts 60 v_program true v_state = Ok (v_result, s).
Proof. exact (conj v_tame (conj v_state_tame v_scoped_state)). Qed.

(** C61.  After a scope every name means what it meant before.  Missing: scripts that open or close scopes themselves. *)
Theorem C61_scope_partial (cs : ast -> res script) fuel a l s a' s' :
  (forall a sc, cs a = Ok sc -> tame sc) -> tame_state s -> (forall f, a <> AstIdentifier f /\ a <> AstCallback f) ->
  infer_compound cs fuel (AstExpression (a :: l)) true s = Ok (a', s') ->
  scope_stack s' = scope_stack s.
Proof. exact (scope_forgets cs fuel a l s a' s'). Qed.
Print Assumptions C61_scope_partial.

Example C61_scope_case : exists a l, v_program = AstExpression (a :: l) /\ forall f, a <> AstIdentifier f /\ a <> AstCallback f.
Proof. do 2 eexists. split; [reflexivity|]. intros f. split; discriminate. Qed.

(** C61.  A parenthesised call ends up with as many arguments as the type of the called name says.  Missing: forms that contain declarations or names declared with scripts. *)
Theorem C61_call_arity_partial cs (E : list Z -> option sig) bad fuel f l s a' s' :
  (forall f, declares f = true -> bad f = true) ->
  env E bad s -> hush bad [AstExpression (AstIdentifier f :: l)] ->
  infer_compound cs fuel (AstExpression (AstIdentifier f :: l)) true s = Ok (a', s') ->
  exists t args, a' = AstExpression (AstIdentifier f :: args) /\ E f = Some t /\ arity t true (length args).
Proof. exact (call_arity cs E bad fuel f l s a' s'). Qed.
Print Assumptions C61_call_arity_partial.

Example C61_call_arity_case : exists s E bad, (forall f, declares f = true -> bad f = true) /\ env E bad s /\
  hush bad [par [nam "plus"; nam "m"; nam "a"; AstInt 1; AstInt 2]] /\
  read (infer_compound v_scripts 20 (par [nam "plus"; nam "m"; nam "a"; AstInt 1; AstInt 2]) true s) =
  Some (par [nam "plus"; par [nam "m"; nam "a"; AstInt 1]; AstInt 2]).
Proof. exact i_call. Qed.

(** C61.  Without parentheses an identifier takes exactly the arguments of its type, with the default number of rest arguments, and what stands before it stays.  Missing: forms that contain declarations or names declared with scripts. *)
Theorem C61_operand_arity_partial cs (E : list Z -> option sig) bad fuel l i f s l' i' s' :
  (forall f, declares f = true -> bad f = true) ->
  env E bad s -> hush bad l -> nth_error l i = Some (AstIdentifier f) ->
  infer_argument cs fuel l i false true s = Ok ((l', i'), s') ->
  s' = s /\ i' = S i /\ firstn i l' = firstn i l /\
  exists x, nth_error l' i = Some x /\
   (x = AstIdentifier f /\ (E f = Some SigL \/ E f = Some SigI) \/
    exists t args, x = AstExpression (AstIdentifier f :: args) /\ E f = Some t /\ arity t false (length args)).
Proof. exact (operand_arity_all cs E bad fuel l i f s l' i' s'). Qed.
Print Assumptions C61_operand_arity_partial.

Example C61_operand_arity_case : exists s E bad, (forall f, declares f = true -> bad f = true) /\ env E bad s /\
  hush bad [nam "v"; nam "plus"; AstInt 1; AstInt 2; AstInt 3] /\
  match infer_argument v_scripts 20 [nam "v"; nam "plus"; AstInt 1; AstInt 2; AstInt 3] 1 false true s with
  | Ok (r, _) => r = ([nam "v"; par [nam "plus"; AstInt 1; AstInt 2]; AstInt 3], 2%nat)
  | _ => False
  end.
Proof. exact i_operand. Qed.

(** C62.  A literal expression whose head is no name, like #(5 a), makes the inference read a name from a union that holds something else. *)
Theorem C62_literal_refuted cs n external :
  Forall (declarable cs) external ->
  infer_parentheses cs (S n) external (AstLiteral [AstInt 5; nam "a"]) = UB.
Proof. exact (literal_ub cs n external). Qed.
Print Assumptions C62_literal_refuted.

(** C62.  The declaration (declare f ((I I) 5)) makes the inference read through a null pointer. *)
Theorem C62_type_refuted :
  from_ast (par [par [nam "I"; nam "I"]; AstInt 5]) = UB /\
  infer_parentheses i_scripts 20 [] (par [par []; par [nam "declare"; nam "f"; par [par [nam "I"; nam "I"]; AstInt 5]]]) = UB.
Proof. exact (type_ub). Qed.
Print Assumptions C62_type_refuted.

(** C62.  When f is declared with (&rest 1 (I)), the inference of (f 1) never ends. *)
Theorem C62_stuck_refuted cs n :
  infer_parentheses cs n stuck_external stuck_program = NoFuel.
Proof. exact (stuck_forever cs n). Qed.
Print Assumptions C62_stuck_refuted.

(** C62.  The result of an inference may still contain a mark, and inferring it again may fail. *)
Theorem C62_again_refuted :
  read (infer_parentheses i_scripts 20 [] again_program) = Some again_result /\
  forall n s, infer_parentheses i_scripts n [] again_result <> Ok (again_result, s).
Proof. exact (again_fails). Qed.
Print Assumptions C62_again_refuted.

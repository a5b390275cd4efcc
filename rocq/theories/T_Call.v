(** C19-C21: calls, apply and returns. *)
From Coq Require Import ZArith List Lia Arith.
Import ListNotations.
From Verif Require Import M_Base M_Heap M_Instr M_VM S_Heap S_VM S_Num S_Types S_Data S_Call P_Call P_Call2 X_Machine X_Types X_Data X_Call.
Open Scope Z_scope.

(** C19.  A closure of [arity] arguments called with that many starts running, the stack being unchanged; called with any other number, the call is an error and nothing at all changes. *)
Theorem C19_fixed host base next i n f name b u arity v :
  typed v -> at_pos v i f ->
  resolves (objects v) f (OClosure name (Some b) (Some u) arity false) ->
  (n = arity -> exists c v', exec host base next (IFuncall i n) v = (Ok (Continue c), v') /\
     enters base next name b u c v v' /\ stack v' = stack v /\ ustack v' = ustack v) /\
  (n <> arity -> exec host base next (IFuncall i n) v = (Err invalidValue, v)).
Proof. exact (funcall_fixed host base next i n f name b u arity v). Qed.
Print Assumptions C19_fixed.

Example C19_fixed_case : typed ex_calls /\ at_pos ex_calls 4 (ex_clo 2 false) /\ resolves (objects ex_calls) (ex_clo 2 false) (ex_clo 2 false).
Proof. split; [exact ex_calls_typed|]. split; [split; [lia|reflexivity]|apply ex_resolves_self]. Qed.

(** C19.  A variadic closure called with at least its required arguments: the extra ones, in order, become its rest list, in one stack slot; the required ones and everything below stay, and so does every object reachable before.  It fails only when memory runs out. *)
Theorem C19_variadic host base next i n f name b u arity v :
  typed v -> in_step v -> at_pos v i f ->
  resolves (objects v) f (OClosure name (Some b) (Some u) arity true) -> arity <= n -> n - arity <= zlen (stack v) ->
  let k := Z.to_nat (n - arity) in
  call_result (2 * k) (exec host base next (IFuncall i n) v) v (fun c v' =>
    enters base next name b u c v v' /\
    exists l, stack v' = OList l :: skipn k (stack v) /\ ustack v' = skipn k (None :: ustack v) /\
      list_value (objects v') l (rev (firstn k (stack v)))).
Proof. exact (funcall_variadic host base next i n f name b u arity v). Qed.
Print Assumptions C19_variadic.

Example C19_variadic_case : typed ex_calls /\ in_step ex_calls /\ at_pos ex_calls 6 (OComposite (Some 9%nat)) /\
  resolves (objects ex_calls) (OComposite (Some 9%nat)) (ex_clo 1 true) /\ 1 <= 3 /\ 3 - 1 <= zlen (stack ex_calls) /\
  (2 * Z.to_nat (3 - 1) <= length (free ex_calls))%nat.
Proof. split; [exact ex_calls_typed|]. split; [reflexivity|]. split; [split; [lia|reflexivity]|]. split; [exact ex_resolves|]. unfold zlen. simpl. lia. Qed.

(** C19.  A variadic closure called with fewer than its required arguments, and anything that is no function, is an error, and nothing at all changes. *)
Theorem C19_refused host base next i n f g v :
  at_pos v i f -> resolves (objects v) f g ->
  match g with OFunction _ => False | OClosure _ _ _ arity true => n < arity | OClosure _ _ _ _ false => False | _ => True end ->
  exec host base next (IFuncall i n) v = (Err invalidValue, v).
Proof. exact (funcall_refused host base next i n f g v). Qed.
Print Assumptions C19_refused.

Example C19_refused_case : at_pos ex_calls 6 (OComposite (Some 9%nat)) /\ resolves (objects ex_calls) (OComposite (Some 9%nat)) (ex_clo 1 true) /\ 0 < 1.
Proof. split; [split; [lia|reflexivity]|]. split; [exact ex_resolves|lia]. Qed.

(** C19.  Calling a C function runs it and goes on after the call.  (C functions have no declared arity.) *)
Theorem C19_host host base next i n f k v :
  at_pos v i f -> resolves (objects v) f (OFunction k) ->
  exec host base next (IFuncall i n) v = (host k ;;; mret (Continue next)) v.
Proof. exact (funcall_host host base next i n f k v). Qed.
Print Assumptions C19_host.

Example C19_host_case : at_pos (pushed (OFunction 3) ex_calls) 1 (OFunction 3) /\ resolves (objects ex_calls) (OFunction 3) (OFunction 3).
Proof. split; [split; [lia|reflexivity]|constructor; discriminate]. Qed.

(** C20.  apply to [n] leading arguments and a proper list calls a closure of fixed arity with the leading arguments followed by the elements of the list; too few arguments, or more leading arguments than parameters, are an error.  Missing for the full claim: too many elements in the list are no error (see C20_too_many_refuted). *)
Theorem C20_fixed_partial host base next i n f name b u arity v l s xs :
  typed v -> in_step v -> at_pos v i f ->
  resolves (objects v) f (OClosure name (Some b) (Some u) arity false) -> stack v = OList l :: s -> list_value (objects v) l xs ->
  (n + zlen xs = arity -> exists c v', exec host base next (IApply i n) v = (Ok (Continue c), v') /\
     enters base next name b u c (uncaptured v) v' /\ stack v' = rev xs ++ s /\
     ustack v' = repeat None (length xs) ++ tl (ustack v)) /\
  (n + zlen xs < arity \/ arity < n -> exists v', exec host base next (IApply i n) v = (Err invalidValue, v')).
Proof. exact (apply_fixed host base next i n f name b u arity v l s xs). Qed.
Print Assumptions C20_fixed_partial.

Example C20_fixed_case : typed ex_calls /\ in_step ex_calls /\ at_pos ex_calls 4 (ex_clo 2 false) /\ list_value (objects ex_calls) (Some 3%nat) [OInteger 5; OInteger 6] /\
  0 + zlen [OInteger 5; OInteger 6] = 2.
Proof. split; [exact ex_calls_typed|]. split; [reflexivity|]. split; [split; [lia|reflexivity]|]. split; [exact ex_calls_list|reflexivity]. Qed.

(** C20.  apply to [n] leading arguments and a proper list calls a variadic closure with the leading arguments followed by the elements of the list: as many as it requires each in its stack slot, the others in its rest list.  It fails only when memory runs out, or when there are too few. *)
Theorem C20_variadic host base next i n f name b u arity v l s xs :
  typed v -> in_step v -> at_pos v i f ->
  resolves (objects v) f (OClosure name (Some b) (Some u) arity true) -> stack v = OList l :: s -> list_value (objects v) l xs ->
  0 <= n <= zlen s -> 0 <= arity ->
  let zs := rev (firstn (Z.to_nat n) s) ++ xs in
  (zlen zs < arity -> exists v', exec host base next (IApply i n) v = (Err invalidValue, v')) /\
  (arity <= zlen zs -> call_result (2 * Z.to_nat (n - arity)) (exec host base next (IApply i n) v) v (fun c v' =>
    enters base next name b u c (uncaptured v) v' /\
    exists l', stack v' = OList l' :: rev (firstn (Z.to_nat arity) zs) ++ skipn (Z.to_nat n) s /\
      ustack v' = skipn (Z.to_nat (n - arity)) (None :: repeat None (Z.to_nat (arity - n)) ++ tl (ustack v)) /\
      list_value (objects v') l' (skipn (Z.to_nat arity) zs))).
Proof. exact (apply_variadic host base next i n f name b u arity v l s xs). Qed.
Print Assumptions C20_variadic.

Example C20_variadic_case : typed ex_calls /\ in_step ex_calls /\ at_pos ex_calls 5 (OComposite (Some 7%nat)) /\
  resolves (objects ex_calls) (OComposite (Some 7%nat)) (ex_clo 1 true) /\ list_value (objects ex_calls) (Some 3%nat) [OInteger 5; OInteger 6] /\
  0 <= 2 <= zlen (tl (stack ex_calls)) /\ (2 * Z.to_nat (2 - 1) <= length (free ex_calls))%nat.
Proof.
  split; [exact ex_calls_typed|]. split; [reflexivity|]. split; [split; [lia|reflexivity]|].
  split; [eapply resolves_inside; [reflexivity|reflexivity|constructor; discriminate]|]. split; [exact ex_calls_list|]. unfold zlen. simpl. lia.
Qed.

(** C20.  apply of anything but a closure, or to anything but a list, is an error. *)
Theorem C20_refused host base next i n f g v :
  at_pos v i f -> resolves (objects v) f g ->
  match g with OClosure _ _ _ _ _ => match stack v with OList _ :: _ => False | _ => True end | _ => True end ->
  in_step v -> exists v', exec host base next (IApply i n) v = (Err invalidValue, v').
Proof. exact (apply_refused host base next i n f g v). Qed.
Print Assumptions C20_refused.

Example C20_refused_case : at_pos ex_calls 2 (OInteger 8) /\ resolves (objects ex_calls) (OInteger 8) (OInteger 8) /\ in_step ex_calls.
Proof. split; [split; [lia|reflexivity]|]. split; [constructor; discriminate|reflexivity]. Qed.

(** C20.  Elements for which a closure of fixed arity has no parameter are dropped, and the call goes ahead: here, three arguments for two parameters. *)
Theorem C20_too_many_refuted :
  exists v l xs name b u arity c v', typed v /\ in_step v /\ stack v = OList l :: tl (stack v) /\
  list_value (objects v) l xs /\ at_pos v 4 (OClosure name (Some b) (Some u) arity false) /\ 1 + zlen xs <> arity /\
  exec no_host 0%nat (PC (0%nat, 1%nat) 3) (IApply 4 1) v = (Ok (Continue c), v') /\ pc_ip c = name.
Proof. exact (apply_drops). Qed.
Print Assumptions C20_too_many_refuted.

(** C21.  return replaces the top [n] + 1 values by the topmost of them, leaves everything below, and resumes the caller recorded in the innermost frame. *)
Theorem C21_return host base next n v top s f fs r us :
  in_step v -> stack v = top :: s -> 0 <= n <= zlen s ->
  call_stack v = f :: fs -> uacs v = r :: us ->
  exists v', exec host base next (IReturn n) v = (Ok (Continue (PC (fr_code f) (fr_ip f))), v') /\
    stack v' = top :: skipn (Z.to_nat n) s /\ ustack v' = None :: skipn (Z.to_nat n) (tl (ustack v)) /\
    call_stack v' = fs /\ uacs v' = us /\ objects v' = objects v /\ free v' = free v /\ globals v' = globals v /\
    globals_map v' = globals_map v /\ current_bytecode v' = current_bytecode v /\ next_user_type v' = next_user_type v.
Proof. exact (return_spec host base next n v top s f fs r us). Qed.
Print Assumptions C21_return.

Example C21_return_case : exists v, in_step v /\ stack v = OList None :: [ex_clo 0 false; OInteger 3] /\ 0 <= 1 <= zlen [ex_clo 0 false; OInteger 3] /\
  call_stack v = [Frame 3 (0%nat, 1%nat) (Some 0%nat)] /\ uacs v = [UARef None 0].
Proof.
  exists (set_calls (pushed (OList None) ex_return) [Frame 3 (0%nat, 1%nat) (Some 0%nat)] [UARef None 0]). repeat split; unfold zlen; simpl; lia.
Qed.

(** C21.  return from the outermost code stops the machine. *)
Theorem C21_return_halts host base next n v top s :
  in_step v -> stack v = top :: s -> 0 <= n <= zlen s -> call_stack v = [] ->
  exists v', exec host base next (IReturn n) v = (Ok Stop, v') /\ stack v' = top :: skipn (Z.to_nat n) s.
Proof. exact (return_halts host base next n v top s). Qed.
Print Assumptions C21_return_halts.

Example C21_return_halts_case : in_step ex_calls /\ stack ex_calls = OList (Some 3%nat) :: tl (stack ex_calls) /\ 0 <= 2 <= zlen (tl (stack ex_calls)) /\ call_stack ex_calls = [].
Proof. repeat split; unfold zlen; simpl; lia. Qed.

(** C21.  A call returns to its caller: whatever the called function does and calls, when it returns, execution goes on at the instruction after the call, with the calls (and the captured variables in use) as they were before. *)
Theorem C21_resumes host base c v c1 v1 l c2 v2 c3 v3 :
  quiet host -> length (uacs v) = length (call_stack v) ->
  step host base c v = (Ok (Continue c1), v1) -> calls v v1 -> steps host base c1 v1 l c2 v2 -> still_running v l ->
  step host base c2 v2 = (Ok (Continue c3), v3) -> length (call_stack v3) = length (call_stack v) ->
  (exists i, fetch v c i c3) /\ call_stack v3 = call_stack v /\ uacs v3 = uacs v.
Proof. exact (call_returns host base c v c1 v1 l c2 v2 c3 v3). Qed.
Print Assumptions C21_resumes.

Example C21_resumes_case : exists c1 v1 l c2 v2 v3, quiet no_host /\ length (uacs ex_return) = length (call_stack ex_return) /\
  step no_host 0 (PC (0%nat, 1%nat) 0) ex_return = (Ok (Continue c1), v1) /\ calls ex_return v1 /\
  steps no_host 0 c1 v1 l c2 v2 /\ still_running ex_return l /\
  step no_host 0 c2 v2 = (Ok (Continue (PC (0%nat, 1%nat) 3)), v3) /\ length (call_stack v3) = length (call_stack ex_return).
Proof.
  destruct ex_return_run as [c1 [v1 [l [c2 [v2 [v3 [A [B [C [_ [D [E [F _]]]]]]]]]]]]]. exists c1, v1, l, c2, v2, v3.
  split; [exact no_host_quiet|]. split; [reflexivity|]. auto 8.
Qed.

(** C67: calls from C. *)
From Coq Require Import ZArith List Lia.
From Verif Require Import M_Base M_Heap M_Instr M_VM M_Host M_Reenter S_Heap S_VM S_Num S_Cyclic S_Globals S_Types S_Data S_Call S_Host S_Reenter X_Machine X_Call P_Reenter P_Reenter2 X_Reenter.
Import ListNotations.
Open Scope Z_scope.

(** C67.  Calling a C function runs it, with the machine as it is. *)
Theorem C67_callback host fuel i n f k v :
  at_index v i f -> resolves (objects v) f (OFunction k) -> host_call host fuel i n v = host k v.
Proof. exact (call_callback host fuel i n f k v). Qed.
Print Assumptions C67_callback.

Example C67_callback_case : at_index (pushed (OFunction 3) ex_calls) (-1) (OFunction 3) /\ resolves (objects ex_calls) (OFunction 3) (OFunction 3).
Proof. split; [right; split; [lia|reflexivity]|constructor; discriminate]. Qed.

(** C67.  A position outside the stack, a value that is no function and a wrong number of arguments are refused, and nothing changes. *)
Theorem C67_refused host fuel i n v :
  (forall f, ~ at_index v i f) \/
  (exists f g, at_index v i f /\ resolves (objects v) f g /\
    match g with
    | OFunction _ => False
    | OClosure _ _ _ arity true => n < arity
    | OClosure _ _ _ arity false => n <> arity
    | _ => True
    end) ->
  host_call host fuel i n v = (Err invalidValue, v).
Proof. exact (call_refused host fuel i n v). Qed.
Print Assumptions C67_refused.

Example C67_refused_case : (forall f, ~ at_index ex_calls 6 f) /\ at_index ex_calls (-6) (OComposite (Some 9%nat)) /\ resolves (objects ex_calls) (OComposite (Some 9%nat)) (ex_clo 1 true) /\ 0 < 1.
Proof.
  split; [intros f [[_ H]|[H _]]; [discriminate|lia]|]. split; [right; split; [lia|reflexivity]|]. split; [exact ex_resolves|lia].
Qed.

(** C67.  Calling a closure with a fixed number of parameters while an object is free: the machine starts, as a program of its own, on a copy of the code of the closure at its entry, with the stack as it was and the captured variables of the closure in use.  If the call succeeds then this code ran until a return found the calls in progress as they were before (or some halt instruction stopped the machine); and when it comes to such a return, then the call succeeds in that state.  The callbacks may be any that leave the calls in progress alone.  Missing: collections during the call, errors, and the program that was running before (refuted below). *)
Theorem C67_fixed_partial host i f name b u arity v id code uid cs len base fr :
  balanced_host host -> at_index v i f ->
  resolves (objects v) f (OClosure name (Some b) (Some u) arity false) ->
  nth_error (objects v) b = Some (OBytecode id (Some code)) -> nth_error (objects v) u = Some (OUpvalueArray uid cs len) ->
  0 <= name < zlen code -> free v = base :: fr -> (base < length (objects v))%nat ->
  exists v1 id1 g, launched v v1 base id1 code g (UARef (match cs with Some _ => Some (u, uid) | None => None end) len) /\
    (forall fuel v', host_call host fuel i arity v = (Ok tt, v') ->
      returned host base (PC (base, id1) name) v v1 v' \/ halted host base (PC (base, id1) name) v v1 v') /\
    (forall v', returned host base (PC (base, id1) name) v v1 v' ->
      exists k, forall fuel, (k <= fuel)%nat -> host_call host fuel i arity v = (Ok tt, v')).
Proof. exact (call_fixed host i f name b u arity v id code uid cs len base fr). Qed.
Print Assumptions C67_fixed_partial.

Example C67_fixed_case : balanced_host no_host /\ at_index (re_machine re_body [3; 4; 5; 6]%nat) 1 (ex_clo 0 false) /\
  resolves (objects (re_machine re_body [3; 4; 5; 6]%nat)) (ex_clo 0 false) (OClosure 4 (Some 0%nat) (Some 1%nat) 0 false) /\ 0 <= 4 < zlen re_body /\
  launched (re_machine re_body [3; 4; 5; 6]%nat) re_started 3 3 re_body (shim_frame 7) (UARef None 0) /\
  (exists v, returned no_host 3 (PC (3%nat, 3%nat) 4) (re_machine re_body [3; 4; 5; 6]%nat) re_started v) /\
  (exists v, host_call no_host 10 1 0 (re_machine re_body [3; 4; 5; 6]%nat) = (Ok tt, v) /\ stack v = [OList None; OInteger 3] /\ call_stack v = [] /\ current_bytecode v = None).
Proof.
  split; [exact no_host_balanced|]. split; [left; split; [lia|reflexivity]|]. split; [constructor; discriminate|]. split; [unfold zlen; simpl; lia|].
  split; [exact re_launched|]. split; [exact re_returns|exact re_call].
Qed.

(** C67.  The same for a closure with a rest parameter: the arguments beyond the required ones are first made into a list in one slot of the stack, and everything reachable before stays as it is.  Missing: as for C67_fixed_partial. *)
Theorem C67_variadic_partial host i n f name b u arity v id code uid cs len :
  balanced_host host -> typed v -> in_step v -> at_index v i f ->
  resolves (objects v) f (OClosure name (Some b) (Some u) arity true) -> arity <= n -> n - arity <= zlen (stack v) ->
  nth_error (objects v) b = Some (OBytecode id (Some code)) -> nth_error (objects v) u = Some (OUpvalueArray uid cs len) ->
  0 <= name < zlen code ->
  let k := Z.to_nat (n - arity) in
  (2 * k <= length (free v))%nat ->
  exists w l, stack w = OList l :: skipn k (stack v) /\ ustack w = skipn k (None :: ustack v) /\
    list_value (objects w) l (rev (firstn k (stack v))) /\ call_stack w = call_stack v /\ uacs w = uacs v /\
    (forall p, reach v p -> nth_error (objects w) p = nth_error (objects v) p) /\
    forall base fr, free w = base :: fr -> (base < length (objects w))%nat ->
    exists v1 id1 g, launched w v1 base id1 code g (UARef (match cs with Some _ => Some (u, uid) | None => None end) len) /\
    (forall fuel v', host_call host fuel i n v = (Ok tt, v') ->
      returned host base (PC (base, id1) name) w v1 v' \/ halted host base (PC (base, id1) name) w v1 v') /\
    (forall v', returned host base (PC (base, id1) name) w v1 v' ->
      exists k, forall fuel, (k <= fuel)%nat -> host_call host fuel i n v = (Ok tt, v')).
Proof. exact (call_variadic host i n f name b u arity v id code uid cs len). Qed.
Print Assumptions C67_variadic_partial.

Example C67_variadic_case : typed ex_calls /\ in_step ex_calls /\ at_index ex_calls (-6) (OComposite (Some 9%nat)) /\
  resolves (objects ex_calls) (OComposite (Some 9%nat)) (OClosure 4 (Some 0%nat) (Some 1%nat) 1 true) /\ 3 - 1 <= zlen (stack ex_calls) /\ (2 * 2 <= length (free ex_calls))%nat.
Proof.
  split; [exact ex_calls_typed|]. split; [reflexivity|]. split; [right; split; [lia|reflexivity]|]. split; [exact ex_resolves|]. split; [unfold zlen; simpl; lia|simpl; lia].
Qed.

(** C67.  While a call from C is in progress, the call stack holds a frame whose byte code object is not in the heap; with such a frame every collection, and so every allocation when no object is free, is undefined. *)
Theorem C67_collection_refuted v f :
  In f (call_stack v) -> outside v f ->
  garbage_collect v = UB /\ forall o, free v = [] -> push_object o v = (UB, v).
Proof. exact (outside_collects v f). Qed.
Print Assumptions C67_collection_refuted.

Example C67_collection_case : In (shim_frame 7) (call_stack re_started) /\ outside re_started (shim_frame 7).
Proof. split; [left; reflexivity|]. exists 7%nat. split; [reflexivity|simpl; lia]. Qed.

(** C67.  In a machine in good order whose heap is full of garbage, the call of a closure is undefined, although a collection would free most of it. *)
Theorem C67_full_refuted :
  exists v f arity, typed v /\ in_step v /\ globals_ok v /\ call_stack v = [] /\ at_index v 1 f /\
  resolves (objects v) f (OClosure 4 (Some 0%nat) (Some 1%nat) arity false) /\
  (exists v', garbage_collect v = Ok v' /\ length (free v') = 4%nat) /\
  fst (host_call no_host 10 1 arity v) = UB.
Proof. exact (full_fails). Qed.
Print Assumptions C67_full_refuted.

(** C67.  An error in the called function leaves the frame behind; the next collection is undefined. *)
Theorem C67_error_refuted :
  exists v v', typed v /\ in_step v /\ globals_ok v /\ call_stack v = [] /\
  host_call no_host 10 1 0 v = (Err bufferUnderflow, v') /\ stack v' = stack v /\ (exists f, In f (call_stack v') /\ outside v' f) /\
  garbage_collect v' = UB.
Proof. exact (error_dangles). Qed.
Print Assumptions C67_error_refuted.

(** C67.  A program calls a C function, which calls a function of the language.  Without that inner call the program ends; with it the code of the program is collected while the program runs, which is undefined. *)
Theorem C67_program_refuted :
  exists v program, typed v /\ in_step v /\ globals_ok v /\ call_stack v = [] /\
  fst (execute_with_ip (fun _ => mret tt) 20 program 0 v) = Ok tt /\
  fst (execute_with_ip re_callback 20 program 0 v) = UB.
Proof. exact (program_lost). Qed.
Print Assumptions C67_program_refuted.

(** C23 and C46: captured variables, and the byte code of running functions. *)
From Coq Require Import ZArith List Lia Arith.
Import ListNotations.
From Verif Require Import M_Base M_Heap M_Instr M_VM S_Heap S_VM S_Types S_Data S_Closure P_Safe P_Closure P_Closure2 P_Closure3 X_Machine X_Types X_Closure.
Open Scope Z_scope.

(** C23.  A captured variable is read where it lives: at its stack position, or, once its scope ended, in its object. *)
Theorem C23_read host base next i v p e x :
  captures v i (Some p) -> variable (objects v) p e -> value_of v e x ->
  exec host base next (IPushUpvalue i) v = (Ok (Continue next), pushed x v).
Proof. exact (push_upvalue_spec host base next i v p e x). Qed.
Print Assumptions C23_read.

Example C23_read_case : captures ex_rich 0 (Some 8%nat) /\ variable (objects ex_rich) 8 8 /\ value_of ex_rich 8 (OList (Some 1%nat)).
Proof. split; [exact ex_captures|]. split; [exact ex_variable|exact ex_value]. Qed.

(** C23.  Assigning to a captured variable changes that variable for everyone, the enclosing scope included (the stack position it is at), and no other variable or stack position.  Who captured what stays. *)
Theorem C23_assign host base next u i v p e x y :
  typed v -> separate v ->
  captures v u (Some p) -> live v e -> variable (objects v) p e -> value_of v e y -> at_pos v i x ->
  exists v', exec host base next (ISetUpvalue u i) v = (Ok (Continue next), v') /\
    value_of v' e x /\
    (forall r e', variable (objects v) r e' <-> variable (objects v') r e') /\
    (forall e' z, live v e' -> e' <> e -> value_of v e' z -> value_of v' e' z) /\
    (forall k, mark v k e -> slot v' k x) /\
    (forall k z, ~ mark v k e -> slot v k z -> slot v' k z) /\
    ustack v' = ustack v /\ length (stack v') = length (stack v) /\ separate v'.
Proof. exact (set_upvalue_spec host base next u i v p e x y). Qed.
Print Assumptions C23_assign.

Example C23_assign_case : typed ex_rich /\ separate ex_rich /\ captures ex_rich 0 (Some 8%nat) /\ live ex_rich 8 /\ variable (objects ex_rich) 8 8 /\
  value_of ex_rich 8 (OList (Some 1%nat)) /\ at_pos ex_rich 1 (OInteger 3) /\ mark ex_rich 0 8.
Proof.
  split; [apply ex_rich_sound|]. split; [exact ex_rich_separate|]. split; [exact ex_captures|]. split; [apply liveb_ok; reflexivity|].
  split; [exact ex_variable|]. split; [exact ex_value|]. split; split; (lia || reflexivity).
Qed.

(** C23.  A new closure captures variables: number [c] >= 0 of its list is the variable at that distance down the stack, which is the one already there if it was captured before, and number [c] < 0 leads to the variable of the running closure.  All variables and values that could be reached are kept.  (Also C46: the closure belongs to the byte code that is running.) *)
Theorem C23_capture host base next va t a cs v c v' :
  typed v -> in_step v -> separate v -> current_bytecode v = Some base ->
  0 <= a -> zlen cs < 2 ^ 32 ->
  ((exists c, In c cs /\ c < 0) -> forall p id n rest, uacs v = UARef (Some (p, id)) n :: rest -> reach v p) ->
  exec host base next (IPushClosure va t a cs) v = (Ok c, v') ->
  c = Continue next /\ fst (pc_code next) = base /\ exists p id l, typed v' /\ in_step v' /\ separate v' /\ variables_kept v v' /\
    stack v' = OClosure t (Some base) (Some p) a va :: stack v /\ ~ reach v p /\
    nth_error (objects v') p = Some (OUpvalueArray id l (zlen cs)) /\
    (forall j c, nth_error cs j = Some c -> exists l' u, l = Some l' /\ nth_error l' j = Some (Cell (Some u)) /\
      ((0 <= c /\ mark v' (zlen (stack v) - c) u /\ nth_error (objects v') u = Some (OUpvalue (UpStack (zlen (stack v) - c)))) \/
       (c < 0 /\ exists q, captures v (- (c + 1)) q /\ nth_error (objects v') u = Some (OUpvalue (UpUpvalue q))))) /\
    (forall k e, mark v k e -> mark v' k e).
Proof. exact (push_closure_spec host base next va t a cs v c v'). Qed.
Print Assumptions C23_capture.

Example C23_capture_case : typed ex_rich /\ in_step ex_rich /\ separate ex_rich /\ current_bytecode ex_rich = Some 0%nat /\
  (forall p id n rest, uacs ex_rich = UARef (Some (p, id)) n :: rest -> reach ex_rich p) /\
  exists v', exec no_host 0%nat ex_next (IPushClosure false 1 1 [-1; 0; 1; 5]) ex_rich = (Ok (Continue ex_next), v').
Proof. split; [apply ex_rich_sound|]. split; [reflexivity|]. split; [exact ex_rich_separate|exact ex_capture_run]. Qed.

(** C23.  Closures made one after the other that capture the same local variable share it, whatever else each captures. *)
Theorem C23_shared host base next va1 t1 a1 cs1 va2 t2 a2 cs2 v c1 v1 c2 v2 j1 j2 k :
  typed v -> in_step v -> separate v -> current_bytecode v = Some base ->
  0 <= a1 -> 0 <= a2 -> zlen cs1 < 2 ^ 32 -> zlen cs2 < 2 ^ 32 -> (forall c, In c cs1 \/ In c cs2 -> 0 <= c) ->
  exec host base next (IPushClosure va1 t1 a1 cs1) v = (Ok c1, v1) -> current_bytecode v1 = Some base ->
  exec host base next (IPushClosure va2 t2 a2 cs2) v1 = (Ok c2, v2) ->
  nth_error cs1 j1 = Some (zlen (stack v) - k) -> nth_error cs2 j2 = Some (zlen (stack v1) - k) ->
  exists p1 p2 id1 id2 l1 l2 u, stack v2 = OClosure t2 (Some base) (Some p2) a2 va2 :: OClosure t1 (Some base) (Some p1) a1 va1 :: stack v /\
    nth_error (objects v2) p1 = Some (OUpvalueArray id1 (Some l1) (zlen cs1)) /\ nth_error l1 j1 = Some (Cell (Some u)) /\
    nth_error (objects v2) p2 = Some (OUpvalueArray id2 (Some l2) (zlen cs2)) /\ nth_error l2 j2 = Some (Cell (Some u)) /\
    nth_error (objects v2) u = Some (OUpvalue (UpStack k)) /\ mark v2 k u /\ (forall e, mark v k e -> e = u).
Proof. exact (closures_share host base next va1 t1 a1 cs1 va2 t2 a2 cs2 v c1 v1 c2 v2 j1 j2 k). Qed.
Print Assumptions C23_shared.

Example C23_shared_case : typed ex_rich /\ separate ex_rich /\ nth_error [2; 5] 1 = Some (zlen (stack ex_rich) - 0) /\
  exists v1 v2, exec no_host 0%nat ex_next (IPushClosure false 1 1 [2; 5]) ex_rich = (Ok (Continue ex_next), v1) /\ current_bytecode v1 = Some 0%nat /\
    exec no_host 0%nat ex_next (IPushClosure true 2 3 [6]) v1 = (Ok (Continue ex_next), v2).
Proof. split; [apply ex_rich_sound|]. split; [exact ex_rich_separate|]. split; [reflexivity|exact ex_share_run]. Qed.

(** C23.  When scopes end, the captured variables that are still in use keep their values, and closures stand for the same variables as before.  The named stack positions are no longer variables; all others are as before. *)
Theorem C23_release host base next is v c v' :
  typed v -> in_step v -> separate v ->
  exec host base next (IReleaseUpvalues is) v = (Ok c, v') ->
  c = Continue next /\ typed v' /\ in_step v' /\ separate v' /\ length (stack v') = length (stack v) /\
  (forall e x, live v' e -> (exists u, nth_error (objects v') e = Some (OUpvalue u)) -> value_of v e x -> value_of v' e x) /\
  (forall p e, live v' p -> (exists u, nth_error (objects v') p = Some (OUpvalue u)) -> variable (objects v) p e -> variable (objects v') p e /\ live v' e) /\
  (forall p id cs n, live v' p -> nth_error (objects v') p = Some (OUpvalueArray id cs n) -> nth_error (objects v) p = Some (OUpvalueArray id cs n)) /\
  (forall i, In i is -> forall e, ~ mark v' (zlen (stack v) - i) e) /\
  (forall e k, live v' e -> nth_error (objects v') e = Some (OUpvalue (UpStack k)) -> ~ In (zlen (stack v) - k) is) /\
  (forall k e, ~ In (zlen (stack v) - k) is -> (mark v' k e <-> mark v k e)) /\
  (forall k x, slot v k x -> ~ (In (zlen (stack v) - k) is /\ exists e, mark v k e) -> slot v' k x).
Proof. exact (release_spec host base next is v c v'). Qed.
Print Assumptions C23_release.

Example C23_release_case : typed ex_rich /\ in_step ex_rich /\ separate ex_rich /\ exists v', exec no_host 0%nat ex_next (IReleaseUpvalues [5; 2]) ex_rich = (Ok (Continue ex_next), v') /\
  live v' 8 /\ exists u, nth_error (objects v') 8 = Some (OUpvalue u).
Proof. split; [apply ex_rich_sound|]. split; [reflexivity|]. split; [exact ex_rich_separate|exact ex_release_run]. Qed.

(** C23.  The machine does not close variables by itself: popping one that a closure captured leaves the closure with whatever is pushed there next.  The compiler has to release first. *)
Theorem C23_pop_refuted :
  exists v1 v2 x y, typed ex_rich /\ separate ex_rich /\ captures ex_rich 0 (Some 8%nat) /\ value_of ex_rich 8 x /\
  exec no_host 0%nat ex_next (IPop 5) ex_rich = (Ok (Continue ex_next), v1) /\
  exec no_host 0%nat ex_next (IPushInteger 77) v1 = (Ok (Continue ex_next), v2) /\ value_of v2 8 y /\ y <> x.
Proof. exact (pop_shares). Qed.
Print Assumptions C23_pop_refuted.

(** C46.  The byte code a run was started with is a root and stays alive throughout the run.  Missing for the full claim: the byte code of functions from earlier runs (see the two refutations). *)
Theorem C46_started_partial host base c v c' v' :
  polite host -> steady host -> sound base v -> careful_run host base c v c' v' ->
  reach v' base /\ exists id code, nth_error (objects v') base = Some (OBytecode id (Some code)).
Proof. exact (base_alive host base c v c' v'). Qed.
Print Assumptions C46_started_partial.

Example C46_started_case : sound 0 ex_prog /\ exists v', careful_run no_host 0 (PC (0%nat, 1%nat) 0) ex_prog (PC (0%nat, 1%nat) 5) v'.
Proof. destruct ex_prog_run as [A [v' [B _]]]. split; [exact A|]. exists v'. exact B. Qed.

(** C46.  No instruction changes which byte code is the root of the run. *)
Theorem C46_current_partial host base c v l c' v' :
  steady host -> steps host base c v l c' v' -> current_bytecode v' = current_bytecode v.
Proof. exact (steps_current host base c v l c' v'). Qed.
Print Assumptions C46_current_partial.

Example C46_current_case : steady no_host /\ exists c v, step no_host 0 (PC (0%nat, 1%nat) 0) ex_prog = (Ok (Continue c), v).
Proof. split; [exact no_host_steady|]. eexists; eexists. vm_compute. reflexivity. Qed.

(** C46.  A function from an earlier run that makes a closure does so with respect to the byte code that called it: undefined behaviour. *)
Theorem C46_closure_refuted :
  exists v1 v2, execute_with_ip no_host 100 ex_maker 0 (vm_init 20) = (Ok tt, v1) /\
  execute_with_ip no_host 100 ex_call_global 0 v1 = (UB, v2).
Proof. exact (closure_elsewhere). Qed.
Print Assumptions C46_closure_refuted.

(** C46.  The byte code of a running function from an earlier run is no root: a collection while it runs can free it.  (With one more object in the pool there is no collection, and the same program runs.) *)
Theorem C46_collected_refuted :
  (exists v1 v2, execute_with_ip no_host 100 ex_forgetful 0 (vm_init 7) = (Ok tt, v1) /\ execute_with_ip no_host 100 ex_call_global 0 v1 = (Ok tt, v2)) /\
  (exists v1 v2, execute_with_ip no_host 100 ex_forgetful 0 (vm_init 6) = (Ok tt, v1) /\ execute_with_ip no_host 100 ex_call_global 0 v1 = (UB, v2)).
Proof. exact (code_collected). Qed.
Print Assumptions C46_collected_refuted.

(** C73: calls of C functions from programs. *)
From Coq Require Import String ZArith List.
From Verif Require Import M_Base M_Trie M_Heap M_Instr M_VM M_Asm M_Parser M_Symbol M_Compile S_VM S_Asm S_Symbol S_Types S_Compile S_Run S_Program S_Callback.
From Verif Require Import P_Callback X_Compile X_Callback.
Import ListNotations.
Open Scope Z_scope.

(** C73.  The program (f e1 ... en), where f is a C function the compiler knows and the arguments are core programs: with enough memory the function linked under this name is called with the values of the arguments on the stack, in order and above what was there, with the globals the arguments left and with nothing else changed.  When it returns, the program is over and has changed nothing more; its error is the error of the program.  Missing: calls of C functions inside other forms, and arguments that assign to f (refuted below) or fall to the defect of C41. *)
Theorem C73_call_partial cfg pushpops short f es y' code ids W fuel us s :
  callbacks_apart cfg -> ccall_built cfg pushpops short f es y' code -> numbering y' ids -> args_apart ids 0 es -> ~ In f (flat_map targets es) ->
  values fuel es (State [] (fun x => W (ids x))) = Ok (us, s) ->
  exists N, forall host v p c, idle v -> (forall x, represents ids v (ids x) (W (ids x))) ->
    global_at v (ids f) (Some p) -> nth_error (objects v) p = Some (OFunction c) ->
    (exists v3, finds ids (unassigned ids es) v us (globals_of s) v3 /\ outcome_of host code v (host c v3) v3) \/
    (runs_out host code v /\ (length (free v) < N)%nat).
Proof. exact (ccall_passes cfg pushpops short f es y' code ids W fuel us s). Qed.
Print Assumptions C73_call_partial.

Example C73_call_case : callbacks_apart cc_cfg /\
  (let st := cc_compile (ccall (word "f") cc_args) in
   (forall pushpops, ccall_built cc_cfg pushpops true (word "f") cc_args (symbols_of st) (cc_code pushpops cc_args)) /\
   exists ids, numbering (symbols_of st) ids /\ args_apart ids 0 cc_args /\ ids (word "f") = nameToValue ex_names (word "f") /\
     (forall x, represents ids cc_machine (ids x) (cc_globals (ids x))) /\
     exists s, values 10 cc_args (State [] (fun x => cc_globals (ids x))) = Ok ([VInt 3; VInt 4; VPair (VSymbol (word "a")) (VPair (VString (word "s")) VNil)], s)) /\
  ~ In (word "f") (flat_map targets cc_args) /\ idle cc_machine /\
  global_at cc_machine (nameToValue ex_names (word "f")) (Some 99%nat) /\ nth_error (objects cc_machine) 99 = Some (OFunction 0) /\
  (forall pushpops, let r := execute_with_ip cc_host 100 (cc_code pushpops cc_args) 0 cc_machine in fst r = Ok tt /\ stack (snd r) = [OInteger 7]).
Proof.
  split; [exact cc_apart|]. split; [|split; [vm_compute; intros [E|[]]; discriminate E|split; [exact cc_idle|split; [apply cc_linked|split; [apply cc_linked|exact cc_args_run]]]]].
  destruct cc_args_meets as [B [ids [N [A [E R]]]]]. split; [exact B|]. exists ids. split; [exact N|]. split; [exact A|]. split; [exact E|]. split; [exact R|].
  destruct (cc_args_values ids (proj2 N) E) as [s [V _]]. exists s. exact V.
Qed.

(** C73.  When an argument ends in an error the program ends in the same error and the function is not called; what the machine had is as it was, apart from globals the arguments assign.  Missing: the push-pop optimisation, which may remove the error (C71_dropped_refuted). *)
Theorem C73_error_partial cfg short f es y' code ids W fuel er :
  callbacks_apart cfg -> ccall_built cfg false short f es y' code -> numbering y' ids -> args_apart ids 0 es ->
  values fuel es (State [] (fun x => W (ids x))) = Err er ->
  exists N, forall host v, idle v -> (forall x, represents ids v (ids x) (W (ids x))) ->
    (exists F v', (forall F', (F <= F')%nat -> execute_with_ip host F' code 0 v = (Err er, v')) /\ stops (unassigned ids es) [] [] v v') \/
    (runs_out host code v /\ (length (free v) < N)%nat).
Proof. exact (ccall_error cfg short f es y' code ids W fuel er). Qed.
Print Assumptions C73_error_partial.

Example C73_error_case : callbacks_apart cc_cfg /\
  (let st := cc_compile (ccall (word "f") cc_bad) in
   ccall_built cc_cfg false true (word "f") cc_bad (symbols_of st) (cc_code false cc_bad) /\
   exists ids, numbering (symbols_of st) ids /\ args_apart ids 0 cc_bad /\ (forall x, represents ids cc_machine (ids x) (cc_globals (ids x))) /\
     values 10 cc_bad (State [] (fun x => cc_globals (ids x))) = Err invalidValue) /\ idle cc_machine.
Proof.
  split; [exact cc_apart|]. split; [|exact cc_idle]. destruct cc_bad_meets as [B [ids [N [A [E R]]]]]. split; [apply B|]. exists ids.
  split; [exact N|]. split; [exact A|]. split; [exact R|]. reflexivity.
Qed.

(** C73.  A program can assign to the name of a C function; the call then takes the new value for a function, here the integer 1, and the behaviour is undefined: (f (global f 1)). *)
Theorem C73_name_refuted :
  exists y' code ids W v p, ccall_built cc_cfg true true (word "f") cc_over y' code /\ numbering y' ids /\ args_apart ids 0 cc_over /\
  (exists s, values 10 cc_over (State [] (fun x => W (ids x))) = Ok ([VInt 1], s)) /\
  idle v /\ (forall x, represents ids v (ids x) (W (ids x))) /\ global_at v (ids (word "f")) (Some p) /\ nth_error (objects v) p = Some (OFunction 0) /\
  (forall F, (50 <= F)%nat -> exists v', execute_with_ip cc_host F code 0 v = (UB, v')).
Proof. exact (name_taken). Qed.
Print Assumptions C73_name_refuted.

(** C73.  Neither compiler nor machine know how many arguments a C function takes: the program (f) calls a function of three arguments, which takes three values of somebody else from the stack. *)
Theorem C73_count_refuted :
  exists y' code v, ccall_built cc_cfg true true (word "f") [] y' code /\ idle v /\
  global_at v (nameToValue y' (word "f")) (Some 99%nat) /\ nth_error (objects v) 99 = Some (OFunction 0) /\
  stack v = [OInteger 3; OInteger 2; OInteger 1] /\
  (forall F, (50 <= F)%nat -> exists v', execute_with_ip cc_host F code 0 v = (Ok tt, v') /\ stack v' = [OInteger 3]).
Proof. exact (count_unknown). Qed.
Print Assumptions C73_count_refuted.

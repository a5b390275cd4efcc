(** C63: the stack and the calls of a running program with functions. *)
From Coq Require Import String ZArith List.
From Verif Require Import M_Base M_Trie M_Heap M_Instr M_VM M_Asm M_Parser M_Symbol M_Scope M_Compile S_Asm S_Symbol S_Program S_Compile P_Symbol S_Frame S_Dynamic P_Dyn6 X_Frame X_Dynamic.
Import ListNotations.
Open Scope Z_scope.

(** C63.  Whatever program with functions is compiled and assembled, and however many calls are under way: every state of the run stands at an instruction of the program with exactly the values on the stack that the layout says, the values that lay on the stack before the run are unchanged, and every entry of the call stack is a call of the program that goes on behind its call instruction with all its values; when the run ends, the call stack is what it was and the stack has grown by the values the compiler counted.  Missing: machines that already hold functions or callbacks of the host (functionless), the programs C58 leaves out, and runs that stop with an error. *)
Theorem C63_running_partial cfg pushpops short e y g fuel st code :
  (forall n, In n (callbacks cfg) -> kind_of n = KPlain) -> consistent y -> incl (callbacks cfg) (sym_array y) ->
  regular false e = true -> compileAST cfg fuel e (compile_state y g) = Ok (tt, st) -> assembles pushpops short st code ->
  let prog := if pushpops then peephole (assembly st) else assembly st in
  exists f off addr, laid_out false prog code off addr /\ framed prog f /\
    forall host v, functionless v -> (length (call_stack v) < length (uacs v))%nat ->
      (forall c v', visits host code v c v' -> stands prog f off v c v') /\
      (forall n v', execute_with_ip host n code 0 v = (Ok tt, v') ->
         call_stack v' = call_stack v /\ exists t, stack v' = t ++ stack v /\ zlen t = locals_length st + 1).
Proof. exact (compiled_runs cfg pushpops short e y g fuel st code). Qed.
Print Assumptions C63_running_partial.

Example C63_running_case : regular false d_program = true /\ compileAST f_cfg 200 d_program (compile_state f_names (trie_init (-1))) = Ok (tt, d_state) /\
  assembles true true d_state d_code /\ functionless d_vm /\ (length (call_stack d_vm) < length (uacs d_vm))%nat /\
  (exists c v', visits d_host d_code d_vm c v' /\ (map fr_ip (call_stack v'), length (stack v')) = ([30; 30; 30; 79], 18%nat)) /\
  (exists v', execute_with_ip d_host 300 d_code 0 d_vm = (Ok tt, v') /\ stack v' = [OInteger 10] /\ locals_length d_state = 0).
Proof. exact d_meets. Qed.

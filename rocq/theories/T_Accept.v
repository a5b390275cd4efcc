(** C65: the compiler accepts well formed programs. *)
From Coq Require Import String ZArith List.
From Verif Require Import M_Base M_Trie M_Heap M_Instr M_VM M_Asm M_Parser M_Symbol M_Compile S_Reader S_Compile X_Machine S_Accept S_Frame X_Frame X_Dynamic X_Accept.
Import ListNotations.
Open Scope Z_scope.

(** C65.  Every well formed program, whatever its size and with functions in it, is compiled without an error and without undefined behaviour, provided it is nested less deeply than the limit of the compiler and no C function has the name of a form.  Missing: programs with macros or comptime. *)
Theorem C65_accepted_partial cfg fuel e y g :
  (forall x, In x (callbacks cfg) -> plain_name x = true) -> formed e = true ->
  Z.of_nat (nesting e) < max_depth cfg -> (4 * nesting e <= fuel)%nat ->
  exists st, compileAST cfg fuel e (compile_state y g) = Ok (tt, st).
Proof. exact (compiler_accepts cfg fuel e y g). Qed.
Print Assumptions C65_accepted_partial.

Example C65_accepted_case : (forall x, In x (callbacks f_cfg) -> plain_name x = true) /\ formed f_program = true /\
  Z.of_nat (nesting f_program) < max_depth f_cfg /\ (4 * nesting f_program <= 100)%nat /\ formed d_program = true.
Proof. exact a_meets. Qed.

(** C65.  The converse fails: a program that is not well formed, (() (var 3 4) 5), is accepted, and its code takes a value from the stack that is not there. *)
Theorem C65_malformed_refuted :
  exists e st code, formed e = false /\
  compileAST f_cfg 100 e (compile_state f_names (trie_init (-1))) = Ok (tt, st) /\
  assemble true true false (Z.to_nat (label_number st)) (assembly st) = Ok code /\
  exists v, execute_with_ip no_host 100 code 0 (vm_init 100) = (Err bufferUnderflow, v).
Proof. exact (malformed_accepted). Qed.
Print Assumptions C65_malformed_refuted.

(** C65.  The limit is needed: a well formed program of 100 nested levels is rejected when the limit is 100. *)
Theorem C65_depth_refuted :
  formed (a_deep 99) = true /\ Z.of_nat (nesting (a_deep 99)) = max_depth f_cfg /\
  compileAST f_cfg 1000 (a_deep 99) (compile_state f_names (trie_init (-1))) = Err bufferOverflow.
Proof. exact (deep_rejected). Qed.
Print Assumptions C65_depth_refuted.

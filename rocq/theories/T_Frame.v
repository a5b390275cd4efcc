(** C58: functions keep to their own part of the stack. *)
From Coq Require Import String ZArith List.
From Verif Require Import M_Base M_Trie M_Instr M_Asm M_Parser M_Symbol M_Scope M_Compile S_Symbol S_Compile S_Frame P_Symbol P_Frame11 X_Frame.
Import ListNotations.
Open Scope Z_scope.

(** C58.  Whatever program with functions is compiled, the stack of every function has one known height at every instruction, on every path: it starts with the parameters, every operand lies inside the function own part of the stack and every captured variable among those the closure was made with, every jump goes to a place of the same function with the same height, and every return leaves exactly the value above the parameters.  Missing: programs with nop, with endless loops, with declarations where a value is expected, and with calls of more than 255 arguments (two of them false, below); what the assembler does to the code. *)
Theorem C58_frames_partial cfg fuel e y g r s' :
  (forall n, In n (callbacks cfg) -> kind_of n = KPlain) -> consistent y -> incl (callbacks cfg) (sym_array y) ->
  regular false e = true -> compileAST cfg fuel e (compile_state y g) = Ok (r, s') ->
  exists f, framed (assembly s') f.
Proof. exact (program_framed cfg fuel e y g r s'). Qed.
Print Assumptions C58_frames_partial.

Example C58_frames_case : (forall n, In n (callbacks f_cfg) -> kind_of n = KPlain) /\ consistent f_names /\ incl (callbacks f_cfg) (sym_array f_names) /\
  regular false f_program = true /\ compileAST f_cfg 200 f_program (compile_state f_names (trie_init (-1))) = Ok (tt, f_compile f_program) /\
  nth_error (assembly (f_compile f_program)) 25 = Some (APushClosure true 1 1 [1]) /\
  nth_error (assembly (f_compile f_program)) 21 = Some (APushClosure false 3 1 [-1; 2; 1]).
Proof. exact f_meets. Qed.

(** C58.  The program (nop) ends with an empty stack: there is no value to return. *)
Theorem C58_nop_refuted :
  compileAST f_cfg 200 nop_program (compile_state f_names (trie_init (-1))) = Ok (tt, f_compile nop_program) /\
  forall y, ~ framed (assembly (f_compile nop_program)) y.
Proof. exact (nop_unframed). Qed.
Print Assumptions C58_nop_refuted.

(** C58.  A function that calls another one with 256 arguments returns with 256 values too many: the number of arguments is kept modulo 256. *)
Theorem C58_many_refuted :
  compileAST f_cfg 200 many_program (compile_state f_names (trie_init (-1))) = Ok (tt, f_compile many_program) /\
  forall y, ~ framed (assembly (f_compile many_program)) y.
Proof. exact (many_unframed). Qed.
Print Assumptions C58_many_refuted.

(** C66: disassembly. *)
From Coq Require Import String ZArith List.
From Verif Require Import M_Base M_Trie M_Heap M_Instr M_VM M_Asm M_Parser M_Symbol M_Compile M_Disasm S_Asm P_Disasm X_Frame X_Dynamic X_Disasm S_Disasm.
Import ListNotations.
Open Scope Z_scope.

(** C66.  The disassembly of any code that consists of instructions has one line for every instruction in order, with its name, its size and its operands in hexadecimal, and nothing outside the code is read.  Missing: the instructions that legible leaves out, which go wrong (refuted below); the value of floating point constants is not shown. *)
Theorem C66_code_partial code is :
  Forall octet code -> reads code 0 is -> Forall (fun x => legible (fst (fst x)) (snd (fst x)) = true) is ->
  disassemble code = Ok (listing is).
Proof. exact (code_shown code is). Qed.
Print Assumptions C66_code_partial.

Example C66_code_case : Forall octet d_code /\ reads d_code 0 x_is /\ Forall (fun x => legible (fst (fst x)) (snd (fst x)) = true) x_is /\
  firstn 77 (listing x_is) = text "DISASSEMBLY START" ++ [10] ++ text "integer.8 04" ++ [10] ++ text "jump.8 29" ++ [10] ++
    text "index.8 02" ++ [10] ++ text "brnz.8 05 00" ++ [10] ++ text "upvalue.8 00".
Proof. exact x_meets. Qed.

(** C66.  The lines of the disassembly of assembled code are the instructions of the program that was assembled (C18 gives laid_out).  Missing: as for C66_code_partial. *)
Theorem C66_assembled_partial strip prog code off addr :
  laid_out strip prog code off addr -> Forall octet code ->
  exists is, reads code 0 is /\
    map (fun x => snd (fst x)) is = flat_map (fun a => match meaning strip addr a with Some i => [i] | None => [] end) prog /\
    (Forall (fun x => legible (fst (fst x)) (snd (fst x)) = true) is -> disassemble code = Ok (listing is)).
Proof. exact (assembled_shown strip prog code off addr). Qed.
Print Assumptions C66_assembled_partial.

Example C66_assembled_case : (exists off addr, laid_out false (peephole (assembly d_state)) d_code off addr) /\ Forall octet d_code /\
  map (fun x => snd (fst x)) x_is <> [].
Proof. exact x_assembled. Qed.

(** C66.  Bytes that begin no instruction may stand between the instructions: each has a line of its own that names it, and the instructions behind it are still found.  Missing: as for C66_code_partial. *)
Theorem C66_bytes_partial code out :
  Forall octet code -> scans code 0 out ->
  disassemble code = Ok (text "DISASSEMBLY START" ++ [10] ++ out ++ text "DISASSEMBLY END" ++ [10; 0]).
Proof. exact (bytes_shown code out). Qed.
Print Assumptions C66_bytes_partial.

Example C66_bytes_case : Forall octet [6; 4; 175; 165] /\ scans [6; 4; 175; 165] 0 (text "integer.8 04" ++ [10] ++ text "Illegal opcode 'AF'" ++ [10] ++ text "halt" ++ [10]).
Proof. exact x_illegal. Qed.

(** C66.  Disassembling the code of (vector 1 2 3) reads outside the code. *)
Theorem C66_vector_refuted :
  exists st code, compileAST f_cfg 100 x_vector (compile_state f_names (trie_init (-1))) = Ok (tt, st) /\
  assemble true true false (Z.to_nat (label_number st)) (assembly st) = Ok code /\ disassemble code = UB.
Proof. exact (vector_outside). Qed.
Print Assumptions C66_vector_refuted.

(** C66.  Disassembling code without symbol names takes instructions for names and reads outside the code. *)
Theorem C66_stripped_refuted :
  exists code is, assemble false true true 0 [APushSymbol 7 (text "abc"); APushInteger 1; AHalt] = Ok code /\
  reads code 0 is /\ map (fun x => snd (fst x)) is = [IPushStrippedSymbol 7; IPushInteger 1; IHalt] /\ disassemble code = UB.
Proof. exact (stripped_lost). Qed.
Print Assumptions C66_stripped_refuted.

(** C66.  Code with a call is rejected by the disassembler. *)
Theorem C66_call_refuted :
  exists code is, assemble false true false 1 [ALabel 0; ACall 0 3; AHalt] = Ok code /\
  reads code 0 is /\ map (fun x => snd (fst x)) is = [ICall 0; IHalt] /\ disassemble code = Err invalidValue.
Proof. exact (call_rejected). Qed.
Print Assumptions C66_call_refuted.

(** C66.  The larger forms of global are shown with the size of the smallest. *)
Theorem C66_global_refuted :
  exists code is, assemble false true false 0 [APushGlobal 300; AHalt] = Ok code /\
  reads code 0 is /\ disassemble code <> Ok (listing is) /\
  disassemble code = Ok (text "DISASSEMBLY START" ++ [10] ++ text "global.8 012C" ++ [10] ++ text "halt" ++ [10] ++ text "DISASSEMBLY END" ++ [10; 0]).
Proof. exact (global_size). Qed.
Print Assumptions C66_global_refuted.

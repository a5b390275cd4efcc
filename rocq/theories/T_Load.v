(** C64: from the text of a program to its value. *)
From Coq Require Import String ZArith List Floats.SpecFloat.
From Verif Require Import M_Base M_Trie M_Heap M_Instr M_VM M_Asm M_Parser M_Symbol M_Compile M_Load S_Reader S_Asm S_Symbol S_Compile S_Run S_Program S_Load.
From Verif Require Import P_Symbol P_Load X_Compile X_Load S_Accept S_Frame X_Frame X_Dynamic X_Accept.
Import ListNotations.
Open Scope Z_scope.

(** C64.  A text that is written for a well formed core program, with any white space, comments and spelling, is read, compiled and assembled, provided only that the operands fit into their fields; the code that is loaded pushes the value of the program on any machine between programs, or memory runs out; and the next text can be loaded on what is then known.  The text may have float literals, whose values C57 bounds.  Missing: code longer than 127 bytes when the assembler optimises jumps (C18), and assignments that meet the defect of C41. *)
Theorem C64_text_partial cfg pushpops fuel max behind text e y g :
  callbacks_apart cfg -> (forall x, In x (callbacks cfg) -> plain_name x = true) -> session cfg y g ->
  good e = true -> formed (tree e) = true -> Z.of_nat (nesting (tree e)) < max_depth cfg -> (nesting (tree e) < max)%nat ->
  (4 * nesting (tree e) <= fuel)%nat -> (length text + 2 <= fuel)%nat -> written behind (tree e) text ->
  exists st, compileAST cfg fuel (tree e) (compile_state y g) = Ok (tt, st) /\
    (fits pushpops true (assembly st) ->
     exists code, load_string cfg pushpops true false fuel max text behind y g = Ok (Loaded code (symbols_of st) (globals_trie st)) /\
       session cfg (symbols_of st) (globals_trie st) /\
       forall ids W f w s, numbering (symbols_of st) ids -> assignments_apart ids e ->
         eval f e (State [] (fun x => W (ids x))) = Ok (w, s) ->
         computes ids code W (untouched ids e) w (globals_of s) (Z.to_nat (width [] e - 2))).
Proof. exact (text_runs cfg pushpops fuel max behind text e y g). Qed.
Print Assumptions C64_text_partial.

Example C64_text_case : callbacks_apart ex_cfg /\ (forall x, In x (callbacks ex_cfg) -> plain_name x = true) /\ session ex_cfg ex_names (trie_init (-1)) /\
  good ex_program = true /\ formed (tree ex_program) = true /\ Z.of_nat (nesting (tree ex_program)) < max_depth ex_cfg /\
  (nesting (tree ex_program) < 100)%nat /\ (4 * nesting (tree ex_program) <= 500)%nat /\ (length l_text + 2 <= 500)%nat /\
  written 0 (tree ex_program) l_text /\
  compileAST ex_cfg 500 (tree ex_program) (compile_state ex_names (trie_init (-1))) = Ok (tt, l_state) /\
  fits true true (assembly l_state) /\
  (exists ids, numbering (symbols_of l_state) ids /\ assignments_apart ids ex_program) /\
  exists s, eval 20 ex_program (State [] (fun _ => None)) = Ok (VInt 45, s).
Proof. exact l_meets. Qed.
Example C64_text_float_case : good l_float = true /\ written 0 (tree l_float) (word "(* 1.5 2)") /\
  exists s, eval 20 l_float (State [] (fun _ => None)) = Ok (VFloat (SpecFloat.S754_finite false 6755399441055744 (-51)), s).
Proof. exact l_float_meets. Qed.

(** C64.  Several texts, loaded one after the other and run on one machine: every one leaves the value of its program, computed with the globals the one before has left, or memory runs out on the way.  Missing: as for C64_text_partial. *)
Theorem C64_texts_partial cfg pushpops short fuel max y g sources progs y' g' ids f :
  callbacks_apart cfg -> session cfg y g -> compile_all cfg pushpops short fuel y g progs y' g' ->
  Forall2 (text_of fuel max) sources progs -> numbering y' ids -> Forall (assignments_apart ids) (map fst progs) ->
  forall W ws G', evals f (map fst progs) (fun x => W (ids x)) = Ok (ws, G') ->
  exists codes, load_strings cfg pushpops short false fuel max sources y g = Ok (codes, y', g') /\
  forall host v, idle v -> (forall x, represents ids v (ids x) (W (ids x))) ->
    (exists F v', (forall F', (F <= F')%nat -> execute_all host F' codes v = (Ok tt, v')) /\
       leaves ids v (map fst progs) ws v' /\ idle v' /\ forall x, represents ids v' (ids x) (G' x)) \/
    (exists before code after F v1, codes = before ++ code :: after /\
       (forall F', (F <= F')%nat -> execute_all host F' before v = (Ok tt, v1)) /\ runs_out host code v1).
Proof. exact (texts_values cfg pushpops short fuel max y g sources progs y' g' ids f). Qed.
Print Assumptions C64_texts_partial.

Example C64_texts_case : callbacks_apart ex_cfg /\ session ex_cfg ex_names (trie_init (-1)) /\
  compile_all ex_cfg true true 100 ex_names (trie_init (-1)) l_progs (symbols_of l_c2) (globals_trie l_c2) /\
  Forall2 (text_of 100 100) l_sources l_progs /\
  (exists ids, numbering (symbols_of l_c2) ids /\ Forall (assignments_apart ids) (map fst l_progs)) /\
  exists G, evals 10 (map fst l_progs) (fun _ => None) = Ok ([VInt 40; VInt 42], G) /\ G (word "h") = Some (VInt 42).
Proof. exact l_texts_meet. Qed.

(** C64.  A text that is written for a well formed program with functions loads, and what is loaded is the assembled code of the program (so C63 says how it runs).  Missing: the value such a program computes. *)
Theorem C64_functions_partial cfg pushpops short fuel max behind text a y g :
  (forall x, In x (callbacks cfg) -> plain_name x = true) -> consistent y -> incl (callbacks cfg) (sym_array y) ->
  regular false a = true -> formed a = true -> Z.of_nat (nesting a) < max_depth cfg -> (nesting a < max)%nat ->
  (4 * nesting a <= fuel)%nat -> (length text + 2 <= fuel)%nat -> written behind a text ->
  exists st, compileAST cfg fuel a (compile_state y g) = Ok (tt, st) /\
    (fits pushpops short (assembly st) ->
     exists code, load_string cfg pushpops short false fuel max text behind y g = Ok (Loaded code (symbols_of st) (globals_trie st)) /\
       assemble pushpops short false (Z.to_nat (label_number st)) (assembly st) = Ok code).
Proof. exact (text_ready cfg pushpops short fuel max behind text a y g). Qed.
Print Assumptions C64_functions_partial.

Example C64_functions_case : (forall x, In x (callbacks f_cfg) -> plain_name x = true) /\ consistent f_names /\ incl (callbacks f_cfg) (sym_array f_names) /\
  regular false d_program = true /\ formed d_program = true /\ Z.of_nat (nesting d_program) < max_depth f_cfg /\
  (nesting d_program < 100)%nat /\ (4 * nesting d_program <= 200)%nat /\ (length a_text + 2 <= 200)%nat /\ written 0 d_program a_text /\
  compileAST f_cfg 200 d_program (compile_state f_names (trie_init (-1))) = Ok (tt, d_state) /\ fits true true (assembly d_state).
Proof. exact a_ready. Qed.

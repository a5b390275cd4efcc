(** C71: programs with functions. *)
From Coq Require Import String ZArith List.
From Verif Require Import M_Base M_Trie M_Heap M_Instr M_VM M_Asm M_Parser M_Symbol M_Compile M_Load.
From Verif Require Import S_Reader S_Symbol S_Asm S_Compile S_Run S_Program S_Load S_Accept S_Fun.
From Verif Require Import P_Fun4 P_Fun6 X_Machine X_Compile X_Fun X_Fun2.
Import ListNotations.
Open Scope Z_scope.

(** C71.  A program that defines functions as globals, each of which may call itself and all others by name or as values, and then uses them: if the interpreter of the core language computes w, the byte code, with or without the push-pop optimisation, pushes w, whatever the machine held before, and leaves the globals the interpreter leaves, functions as closures of the right number of parameters that lead into the byte code; the callers, the values below and the other globals are as before; otherwise memory has run out, of which there was less than n.  Missing: lambda elsewhere than in definitions, captured variables, parameters that collect the rest, the name self, and assignments that meet the defect of C41. *)
Theorem C71_value_partial cfg pushpops short ds b y' code ids W f w s :
  callbacks_apart cfg -> ~ In (word "lambda") (callbacks cfg) ->
  fun_built cfg pushpops short ds b y' code -> numbering y' ids -> fun_apart ids ds b ->
  fun_eval f ds b (fun x => W (ids x)) = Ok (w, s) ->
  fun_computes ids ds code W (fun_untouched ids ds b) w (globals_of s).
Proof. exact (fun_value cfg pushpops short ds b y' code ids W f w s). Qed.
Print Assumptions C71_value_partial.

Example C71_value_case : fx_meets false fx_defs fx_forms /\ fx_meets true fx_defs fx_forms /\
  exists s, fun_eval 60 fx_defs fx_forms (fun _ => None) = Ok (VInt 114, s) /\ globals_of s (word "calls") = Some (VInt 2) /\
    globals_of s (word "fact") = Some (VFun 0).
Proof. exact fx_program. Qed.
Example C71_value_run pushpops : let v := snd (execute_with_ip no_host 400 (fx_code pushpops (ex_compile ex_names (fun_program fx_defs fx_forms))) 0 (vm_init 100)) in
  fst (execute_with_ip no_host 400 (fx_code pushpops (ex_compile ex_names (fun_program fx_defs fx_forms))) 0 (vm_init 100)) = Ok tt /\ stack v = [OInteger 114].
Proof. exact (fx_run pushpops). Qed.

(** C71.  And if the interpreter fails, in a function or outside, the byte code fails with the same error: so a call with the wrong number of arguments, or of what is no function, is refused.  The machine is then ready for the next program: its types, the values it had and the globals the program does not assign are what they were, with values and unfinished calls of the program on top (C71_frames_refuted).  Missing: as for C71_value_partial, and the push-pop optimisation, with which it is false (C71_dropped_refuted). *)
Theorem C71_error_partial cfg short ds b y' code ids W f er :
  callbacks_apart cfg -> ~ In (word "lambda") (callbacks cfg) ->
  fun_built cfg false short ds b y' code -> numbering y' ids -> fun_apart ids ds b ->
  fun_eval f ds b (fun x => W (ids x)) = Err er -> fun_fails ids code W (fun_untouched ids ds b) er.
Proof. exact (fun_error cfg short ds b y' code ids W f er). Qed.
Print Assumptions C71_error_partial.

Example C71_error_case : fx_meets false fx_defs [Do (ECall (word "count") [ELit (LInt 1)])] /\
  fun_eval 60 fx_defs [Do (ECall (word "count") [ELit (LInt 1)])] (fun _ => None) = Err invalidValue.
Proof. exact fx_arity. Qed.
Example C71_error_inside : fx_meets false fx_defs [Do (ECall (word "count") [ELit (LInt 1); ELit (LInt 2)])] /\
  fun_eval 60 fx_defs [Do (ECall (word "count") [ELit (LInt 1); ELit (LInt 2)])] (fun _ => None) = Err invalidValue.
Proof. exact fx_inside. Qed.

(** C71.  From the text to the value: a text that spells such a program, with any spacing and comments before it, is compiled, and if its instructions fit into their fields, duckLisp_loadString gives the byte code of this program, which computes what the interpreter computes.  Missing: as for C71_value_partial. *)
Theorem C71_text_partial cfg pushpops short fuel max behind text ds b y g :
  callbacks_apart cfg -> (forall x, In x (callbacks cfg) -> plain_name x = true) -> session cfg y g -> ds <> [] -> b <> [] ->
  forallb (good_fundef (N := fun_names cfg)) ds = true -> forallb (good_item (N := fun_names cfg)) b = true ->
  formed (fun_program ds b) = true -> Z.of_nat (nesting (fun_program ds b)) < max_depth cfg -> (nesting (fun_program ds b) < max)%nat ->
  (4 * nesting (fun_program ds b) <= fuel)%nat -> (length text + 2 <= fuel)%nat -> written behind (fun_program ds b) text ->
  exists st, compileAST cfg fuel (fun_program ds b) (compile_state y g) = Ok (tt, st) /\
    forall ids, numbering (symbols_of st) ids -> fun_apart ids ds b -> fits pushpops short (assembly st) ->
    exists code, load_string cfg pushpops short false fuel max text behind y g = Ok (Loaded code (symbols_of st) (globals_trie st)) /\
      forall W f w s, short = true \/ zlength code < 2 ^ 31 -> fun_eval f ds b (fun x => W (ids x)) = Ok (w, s) ->
        fun_computes ids ds code W (fun_untouched ids ds b) w (globals_of s).
Proof. exact (fun_text cfg pushpops short fuel max behind text ds b y g). Qed.
Print Assumptions C71_text_partial.

Example C71_text_case pushpops : callbacks_apart ex_cfg /\ (forall x, In x (callbacks ex_cfg) -> plain_name x = true) /\ session ex_cfg ex_names (trie_init (-1)) /\
  forallb (good_fundef (N := fun_names ex_cfg)) fx_defs = true /\ forallb (good_item (N := fun_names ex_cfg)) fx_forms = true /\
  formed (fun_program fx_defs fx_forms) = true /\ Z.of_nat (nesting (fun_program fx_defs fx_forms)) < max_depth ex_cfg /\
  (nesting (fun_program fx_defs fx_forms) < 100)%nat /\ (4 * nesting (fun_program fx_defs fx_forms) <= 500)%nat /\ (length fx_text + 2 <= 500)%nat /\
  written 0 (fun_program fx_defs fx_forms) fx_text /\
  compileAST ex_cfg 500 (fun_program fx_defs fx_forms) (compile_state ex_names (trie_init (-1))) = Ok (tt, fx_state) /\
  (exists ids, numbering (symbols_of fx_state) ids /\ fun_apart ids fx_defs fx_forms) /\
  fits pushpops false (assembly fx_state) /\ zlength (fx_code pushpops fx_state) < 2 ^ 31 /\
  exists s, fun_eval 60 fx_defs fx_forms (fun _ => None) = Ok (VInt 114, s).
Proof. exact (fx_text_meets pushpops). Qed.

(** C71.  In full the property is false: the function defined by the first form of a new session is lost, because its name has the number of its position on the stack. *)
Theorem C71_first_refuted :
  exists y' code v, fun_built ex_cfg false true [first_def] first_forms y' code /\
  (exists s, fun_eval 10 [first_def] first_forms (fun _ => None) = Ok (VInt 3, s)) /\
  (forall F, (50 <= F)%nat -> exists v', execute_with_ip no_host F code 0 v = (Err invalidValue, v')) /\ idle v /\ globals_map v = [] /\ (50 < length (free v))%nat.
Proof. exact (first_lost). Qed.
Print Assumptions C71_first_refuted.

(** C71.  An error in a function is not cleaned up: the call and the values on the stack stay on the machine when duckVM_execute has returned the error. *)
Theorem C71_frames_refuted :
  exists ds b y' code v v' er, fun_built ex_cfg false false ds b y' code /\ fun_eval 60 ds b (fun _ => None) = Err er /\
  idle v /\ globals_map v = [] /\ call_stack v = [] /\ stack v = [] /\
  (forall F, (100 <= F)%nat -> execute_with_ip no_host F code 0 v = (Err er, v')) /\ length (call_stack v') = 1%nat /\ stack v' <> [].
Proof. exact (frames_left). Qed.
Print Assumptions C71_frames_refuted.

(** C71.  The push-pop optimisation can lose an error: a form that reads an unknown global and whose value is not used is removed, and the program computes a value where the interpreter fails. *)
Theorem C71_dropped_refuted :
  fx_meets true [fact_def] missing_forms /\
  fun_eval 60 [fact_def] missing_forms (fun _ => None) = Err invalidValue /\
  let code := fx_code true (ex_compile ex_names (fun_program [fact_def] missing_forms)) in
  fst (execute_with_ip no_host 400 code 0 (vm_init 100)) = Ok tt /\ stack (snd (execute_with_ip no_host 400 code 0 (vm_init 100))) = [OInteger 6] /\
  idle (vm_init 100) /\ globals_map (vm_init 100) = [].
Proof. exact (missing_dropped). Qed.
Print Assumptions C71_dropped_refuted.

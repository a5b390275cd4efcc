(** C68-C70: the compiler with its second sub-compiler: programs without macros, comptime, macros. *)
From Coq Require Import String ZArith List.
From Verif Require Import M_Base M_Trie M_Heap M_Instr M_VM M_Asm M_Parser M_Symbol M_Scope M_Convert M_Compile M_Load.
From Verif Require Import S_Symbol S_Scope S_Asm S_Compile S_Reader S_Heap S_VM S_Types S_Run S_Program S_Load S_Convert S_Accept S_Macro.
From Verif Require Import P_Compile2 P_Exact P_Program P_Load P_Comptime3 P_Macro P_Macro2 P_Macro3 X_Machine X_Compile X_Load X_Macro.
From Verif Require M_Macro.
Import (notations) M_Macro.
Import ListNotations.
Open Scope Z_scope.

(** C68.  The complete compiler does with every program what the compiler without macros and comptime does with it: it gives the same code and leaves the second sub-compiler and the machine as they are; and it fails with the same error.  The exception, bufferUnderflow, is an error of popScope that only the second sub-compiler reports.  Programs with macros or comptime are undefined in the smaller compiler, and nothing is claimed of them here. *)
Theorem C68_program cfg pushpops short host steps fuel e y g gc v :
  match compileAST cfg fuel e (compile_state y g) with
  | Ok (_, st) => M_Macro.compileAST cfg pushpops short host steps fuel e (M_Macro.compile_state y g gc v) =
      Ok (tt, M_Macro.MState st (compile_state y gc) false v)
  | Err er => er = bufferUnderflow \/ M_Macro.compileAST cfg pushpops short host steps fuel e (M_Macro.compile_state y g gc v) = Err er
  | _ => True
  end.
Proof. exact (program_same cfg pushpops short host steps fuel e y g gc v). Qed.
Print Assumptions C68_program.

Example C68_program_case : compileAST ex_cfg 100 (tree ex_program) (compile_state ex_names (trie_init (-1))) = Ok (tt, ex_compile ex_names (tree ex_program)).
Proof. exact ex_compiles. Qed.

(** C68.  The same for the loading of texts. *)
Theorem C68_load cfg pushpops short strip host steps fuel max source behind y g gc v l :
  load_string cfg pushpops short strip fuel max source behind y g = Ok l ->
  M_Macro.load_string cfg pushpops short strip host steps fuel max source behind y g gc v =
    Ok (M_Macro.MLoaded (code_of l) (known_symbols l) (known_globals l) gc v).
Proof. exact (load_same cfg pushpops short strip host steps fuel max source behind y g gc v l). Qed.
Print Assumptions C68_load.

Example C68_load_case : exists l, load_string ex_cfg true true false 500 100 l_text 0 ex_names (trie_init (-1)) = Ok l.
Proof. exact k_loads. Qed.

(** C68.  So a text that is written for a well formed core program is loaded by the complete compiler, whatever macros and values it has been given before, and the code computes the value of the program.  Missing: as for C64_text_partial. *)
Theorem C68_text_partial cfg pushpops fuel max behind text e y g :
  callbacks_apart cfg -> (forall x, In x (callbacks cfg) -> plain_name x = true) -> session cfg y g ->
  good e = true -> formed (tree e) = true -> Z.of_nat (nesting (tree e)) < max_depth cfg -> (nesting (tree e) < max)%nat ->
  (4 * nesting (tree e) <= fuel)%nat -> (length text + 2 <= fuel)%nat -> written behind (tree e) text ->
  exists st, compileAST cfg fuel (tree e) (compile_state y g) = Ok (tt, st) /\
    (fits pushpops true (assembly st) ->
     exists code, (forall host steps gc v, M_Macro.load_string cfg pushpops true false host steps fuel max text behind y g gc v =
         Ok (M_Macro.MLoaded code (symbols_of st) (globals_trie st) gc v)) /\
       forall ids W f w s, numbering (symbols_of st) ids -> assignments_apart ids e ->
         eval f e (State [] (fun x => W (ids x))) = Ok (w, s) ->
         computes ids code W (untouched ids e) w (globals_of s) (Z.to_nat (width [] e - 2))).
Proof. exact (text_complete cfg pushpops fuel max behind text e y g). Qed.
Print Assumptions C68_text_partial.

Example C68_text_case : callbacks_apart ex_cfg /\ (forall x, In x (callbacks ex_cfg) -> plain_name x = true) /\ session ex_cfg ex_names (trie_init (-1)) /\
  good ex_program = true /\ formed (tree ex_program) = true /\ Z.of_nat (nesting (tree ex_program)) < max_depth ex_cfg /\
  (nesting (tree ex_program) < 100)%nat /\ (4 * nesting (tree ex_program) <= 500)%nat /\ (length l_text + 2 <= 500)%nat /\
  written 0 (tree ex_program) l_text /\
  compileAST ex_cfg 500 (tree ex_program) (compile_state ex_names (trie_init (-1))) = Ok (tt, l_state) /\
  fits true true (assembly l_state) /\
  (exists ids, numbering (symbols_of l_state) ids /\ assignments_apart ids ex_program) /\
  exists s, eval 20 ex_program (State [] (fun _ => None)) = Ok (VInt 45, s).
Proof. exact l_meets. Qed.

(** C69.  The form (comptime e), anywhere in a program, whatever has been compiled of the program so far: the expression is compiled by the second sub-compiler, the machine of the compiler computes its value, and the compiler goes on exactly as if the constant were written in its place.  Afterwards the stacks of the machine and of the second sub-compiler are as high as before, nothing is left to execute, and the globals of the machine are those e leaves; otherwise memory has run out, of which there was less than n.  Missing: values with symbols (C50 refutes them), expressions outside the core language, variables that other forms have left on the stack of the second sub-compiler, and assignments that meet the defect of C41. *)
Theorem C69_form_partial cfg pushpops short fuel depth e r c bs c1 bytes ids W f w s :
  callbacks_apart cfg -> ~ In (word "comptime") (callbacks cfg) -> getScopeFunction (scopes r) (word "comptime") = -1 ->
  body c = None -> assembly c = [] -> 0 <= locals_length c -> 0 <= label_number c -> ok (opened c (symbols_of r)) bs ->
  good e = true -> second_code cfg pushpops short fuel depth e c (symbols_of r) c1 bytes ->
  numbering (symbols_of c1) ids -> (forall x, In x (mentioned e) -> find_name (fv bs) x = None) ->
  apart ids (assigned (map fst (fv bs)) (locals_length c) e) ->
  eval f e (State [] (fun x => W (ids x))) = Ok (w, s) -> constant_value w ->
  exists c2 bs2 t n, settled c c2 /\ ok c2 bs2 /\ rooted bs bs2 /\ label_number c2 = label_number c1 /\ symbols_of c2 = symbols_of c1 /\ globals_trie c2 = globals_trie c1 /\
    later (symbols_of r) (symbols_of c1) /\ spliced w = Some t /\
    forall host v, idle v -> (forall x, represents ids v (ids x) (W (ids x))) ->
      (exists F v', resumes ids (untouched ids e) v (globals_of s) v' /\
         forall steps, (F <= steps)%nat ->
           M_Macro.compile cfg pushpops short host steps (S fuel) depth (Form [AstIdentifier (word "comptime"); tree e]) (M_Macro.MState r c false v) =
           (let+ _ := M_Macro.compile cfg pushpops short host steps fuel depth (Compound t true) in
            M_Macro.gret (-1, [AstIdentifier (word "comptime"); tree e])) (M_Macro.MState (set_symbols r (symbols_of c1)) c2 false v')) \/
      (runs_out host (bytes ++ [165]) v /\ (length (free v) < n)%nat).
Proof. exact (comptime_form cfg pushpops short fuel depth e r c bs c1 bytes ids W f w s). Qed.
Print Assumptions C69_form_partial.

Example C69_form_case : second_code ex_cfg true true 48 1 k_exp (compile_state ex_names (trie_init (-1))) ex_names k_c1 k_bytes /\
  good k_exp = true /\ constant_value k_value /\ (exists ids, numbering (symbols_of k_c1) ids /\ assignments_apart ids k_exp) /\
  (exists s, eval 20 k_exp (State [] (fun _ => None)) = Ok (k_value, s)) /\
  getScopeFunction (scopes (compile_state ex_names (trie_init (-1)))) (word "comptime") = -1 /\ ok (opened (compile_state ex_names (trie_init (-1))) ex_names) [].
Proof. exact k_form. Qed.

(** C69.  A text that is (comptime e) is loaded: the code computes the value of e, as it was while compiling, whatever the globals are when it runs; the machine of the compiler has the globals e has left, and the next text can be loaded.  Missing: as for C69_form_partial. *)
Theorem C69_text_partial cfg pushpops short fuel max behind text e y g gc c1 bytes ids W f w s st code :
  callbacks_apart cfg -> ~ In (word "comptime") (callbacks cfg) -> ~ In (word "__cons") (callbacks cfg) -> sessions cfg y g gc ->
  written behind (at_compile_time (tree e)) text -> (length text + 2 <= S (S fuel))%nat -> (nesting (at_compile_time (tree e)) < max)%nat ->
  good e = true -> second_code cfg pushpops short fuel 1 e (compile_state y gc) y c1 bytes ->
  (compile cfg fuel 1 (Compound (tree (source w)) true) >>> finish) (compile_state (symbols_of c1) g) = Ok (tt, st) ->
  assembles pushpops short st code -> numbering (symbols_of st) ids -> assignments_apart ids e ->
  eval f e (State [] (fun x => W (ids x))) = Ok (w, s) -> constant_value w ->
  sessions cfg (symbols_of st) (globals_trie st) (globals_trie c1) /\
  (forall W', exists extra, computes ids code W' (fun _ => True) w (fun x => W' (ids x)) extra) /\
  exists n, forall host v, idle v -> (forall x, represents ids v (ids x) (W (ids x))) ->
    (exists F v', resumes ids (untouched ids e) v (globals_of s) v' /\
       forall steps, (F <= steps)%nat ->
         M_Macro.load_string cfg pushpops short false host steps (S (S fuel)) max text behind y g gc v =
         Ok (M_Macro.MLoaded code (symbols_of st) (globals_trie st) (globals_trie c1) v')) \/
    (runs_out host (bytes ++ [165]) v /\ (length (free v) < n)%nat).
Proof. exact (comptime_text cfg pushpops short fuel max behind text e y g gc c1 bytes ids W f w s st code). Qed.
Print Assumptions C69_text_partial.

Example C69_text_case : callbacks_apart ex_cfg /\ ~ In (word "comptime") (callbacks ex_cfg) /\ ~ In (word "__cons") (callbacks ex_cfg) /\
  sessions ex_cfg ex_names (trie_init (-1)) (trie_init (-1)) /\
  written 0 (at_compile_time (tree k_exp)) k_text /\ (length k_text + 2 <= 50)%nat /\ (nesting (at_compile_time (tree k_exp)) < 100)%nat /\
  good k_exp = true /\ second_code ex_cfg true true 48 1 k_exp (compile_state ex_names (trie_init (-1))) ex_names k_c1 k_bytes /\
  (compile ex_cfg 48 1 (Compound (tree (source k_value)) true) >>> finish) (compile_state (symbols_of k_c1) (trie_init (-1))) = Ok (tt, k_st) /\
  assembles true true k_st k_code /\ (exists ids, numbering (symbols_of k_st) ids /\ assignments_apart ids k_exp) /\
  (exists s, eval 20 k_exp (State [] (fun _ => None)) = Ok (k_value, s) /\ globals_of s (word "g") = Some k_value) /\ constant_value k_value /\
  idle (vm_init 100) /\ forall ids x, represents ids (vm_init 100) (ids x) None.
Proof. exact k_meets. Qed.

(** C69.  Inside comptime, and wherever else the compiler computes, a further comptime is only what it contains: the forms are compiled to be computed with the rest.  The hypothesis on s says that both sub-compilers have the same names, as they do between any two steps. *)
Theorem C69_nested cfg pushpops short host steps fuel depth forms s :
  M_Macro.compiling s = true -> M_Macro.put s (M_Macro.current s) = s -> getFunctionFromName cfg (scopes (M_Macro.current s)) (word "comptime") = CalleeGenerator GOther ->
  getScopeFunction (scopes (M_Macro.current s)) (word "comptime") <> functionType_macro ->
  M_Macro.compile cfg pushpops short host steps (S fuel) depth (Form (AstIdentifier (word "comptime") :: forms)) s =
  (let+ _ := M_Macro.compile cfg pushpops short host steps fuel depth (Noscope forms) in M_Macro.gret (-1, AstIdentifier (word "comptime") :: forms)) s.
Proof. exact (comptime_nested cfg pushpops short host steps fuel depth forms s). Qed.
Print Assumptions C69_nested.

Example C69_nested_case : exists l, k_first "(comptime (+ 1 (comptime (+ 2 3))))" = Ok l /\ k_gives l (OInteger 6).
Proof. exact comptime_nested_works. Qed.

(** C69 asks that an error while compiling is reported.  A global without a value, on an empty stack, is undefined behaviour: the value on top of the stack is looked at before the error. *)
Theorem C69_error_refuted :
  k_first "(comptime zz)" = UB.
Proof. exact (comptime_undefined). Qed.
Print Assumptions C69_error_refuted.

(** C70.  The use of a macro m with arguments that are written data, anywhere in a program, for every state of the compiler: the names the compiler knows stay; the machine of the compiler reaches the call of the object that stands where the second sub-compiler says m is, with exactly the written arguments, unevaluated and in their order, as values on top of its stack, and nothing else changed, or memory has run out, of which there was less than need; when the macro gives an object that is a tree t, the compiler goes on exactly as if t stood in the place of the use, with its own stacks, heights and scopes as before; and an error of the macro is the error of the compilation.  The place of a macro whose tree is an identifier is what the other theorems refute.  Missing: that the place the second sub-compiler has noted is that of the macro is assumed (C70_second_text_refuted shows where it fails), and what the body of the macro computes is left to C71. *)
Theorem C70_call_partial cfg pushpops short host steps fuel depth m ds (r c : cstate) (b : bool) v y bytes us :
  let here := if b then c else r in let args := map datum_tree ds in let p := M_Macro.getMacroFromName (scopes c) m in
  getFunctionFromName cfg (scopes here) m = CalleeGenerator GOther -> getScopeFunction (scopes here) m = functionType_macro ->
  getFunctionFromName cfg (scopes c) (word "__quote") = CalleeGenerator GQuote -> symbols_of r = symbols_after us ->
  forallb good_datum ds = true -> (length ds < 256)%nat -> 0 <= p < zlength (stack v) ->
  call_code cfg pushpops short host steps fuel depth m args r c v y bytes ->
  later (symbols_of r) y /\
  (forall v1 o rest v2 t, execute_with_ip host steps (bytes ++ [165]) 0 v = (Ok tt, v1) -> stack v1 = o :: rest ->
     object_to_ast steps (objects v1) true o = Ok t -> stack_pop v1 = (Ok o, v2) ->
     M_Macro.compile cfg pushpops short host steps (S fuel) depth (Form (AstIdentifier m :: args)) (M_Macro.MState r c b v) =
     (let+ q := M_Macro.compile cfg pushpops short host steps fuel depth (Compound t false) in
      M_Macro.gret (fst q, match t with AstExpression _ => snd q | _ => AstIdentifier m :: args end))
       (M_Macro.MState (set_symbols r y) (set_symbols c y) b v2)) /\
  (forall er v1, execute_with_ip host steps (bytes ++ [165]) 0 v = (Err er, v1) ->
     M_Macro.compile cfg pushpops short host steps (S fuel) depth (Form (AstIdentifier m :: args)) (M_Macro.MState r c b v) = Err er) /\
  forall ids W, numbering y ids -> exists need, forall f, idle v -> (forall x, represents ids v (ids x) (W (ids x))) ->
    nth_error (rev (stack v)) (Z.to_nat p) = Some f ->
    gets_to_call host ids (bytes ++ [165]) W v f (map datum_value ds) \/
    (runs_out host (bytes ++ [165]) v /\ (length (free v) < need)%nat).
Proof. exact (macro_call cfg pushpops short host steps fuel depth m ds r c b v y bytes us). Qed.
Print Assumptions C70_call_partial.

Example C70_call_case : let r := M_Macro.runtime k_defined in let c := M_Macro.comptime k_defined in let v := M_Macro.machine k_defined in let m := word "sub" in
  let p := M_Macro.getMacroFromName (scopes c) m in
  M_Macro.compiling k_defined = false /\
  getFunctionFromName ex_cfg (scopes r) m = CalleeGenerator GOther /\ getScopeFunction (scopes r) m = functionType_macro /\
  getFunctionFromName ex_cfg (scopes c) (word "__quote") = CalleeGenerator GQuote /\ (exists us, symbols_of r = symbols_after us) /\
  forallb good_datum k_arguments = true /\ (length k_arguments < 256)%nat /\ 0 <= p < zlength (stack v) /\
  call_code ex_cfg true true no_host 2000 299 1 m (map datum_tree k_arguments) r c v (symbols_of (M_Macro.runtime k_called)) k_called_bytes /\
  idle v /\ (exists f, nth_error (rev (stack v)) (Z.to_nat p) = Some f) /\
  exists v1 o rest v2 t, execute_with_ip no_host 2000 (k_called_bytes ++ [165]) 0 v = (Ok tt, v1) /\ stack v1 = o :: rest /\
    M_Convert.object_to_ast 2000 (objects v1) true o = Ok t /\ t = tree (EBin BSub (EBin BAdd (ELit (LInt 40)) (ELit (LInt 3))) (ELit (LInt 1))) /\
    stack_pop v1 = (Ok o, v2).
Proof. exact k_use. Qed.
Example C70_texts : (exists l, k_first "(() (defmacro f () 1))" = Ok l /\ k_gives l (OList None)) /\
  (exists l, k_first "(() (defmacro f () 1) (f) (defmacro g () 2) (g))" = Ok l /\ k_gives l (OInteger 2)) /\
  (exists l, k_first "(() (defmacro sub (x y) (list (quote -) y x)) (sub 1 43))" = Ok l /\ k_gives l (OInteger 42)) /\
  exists l, k_first "(() (defmacro same (x) x) (var a 5) (var b 6) (+ (same a) 1))" = Ok l /\ k_gives l (OInteger 6).
Proof. exact macro_gives. Qed.

(** C70.  A macro cannot be defined while the compiler computes: the definition is an error, with any name, parameters and body. *)
Theorem C70_not_nested cfg pushpops short host steps fuel depth rest s :
  M_Macro.compiling s = true -> getFunctionFromName cfg (scopes (M_Macro.current s)) (word "defmacro") = CalleeGenerator GOther ->
  getScopeFunction (scopes (M_Macro.current s)) (word "defmacro") <> functionType_macro ->
  exists er, M_Macro.compile cfg pushpops short host steps (S fuel) depth (Form (AstIdentifier (word "defmacro") :: rest)) s = Err er.
Proof. exact (macro_not_nested cfg pushpops short host steps fuel depth rest s). Qed.
Print Assumptions C70_not_nested.

Example C70_not_nested_case : k_first "(comptime (defmacro f () 1))" = Err invalidValue.
Proof. exact macro_nested_refused. Qed.

(** C70 asks that the use of a macro means its expansion.  A macro that expands to a variable pushes nothing, and the value is whatever lies on top: (same a) is 6 where a is 5. *)
Theorem C70_variable_refuted :
  exists l1 l2,
  k_first "(() (defmacro same (x) x) (var a 5) (var b 6) (same a))" = Ok l1 /\ k_gives l1 (OInteger 6) /\
  k_first "(() (defmacro same (x) x) (var a 5) (var b 6) a)" = Ok l2 /\ k_gives l2 (OInteger 5).
Proof. exact (macro_variable). Qed.
Print Assumptions C70_variable_refuted.

(** C70.  As the value of a variable the same expansion gives a program that stops with an error. *)
Theorem C70_operand_refuted :
  exists l0 l,
  k_first "(() (defmacro same (x) x) (var a 5) (var b (same a)) b)" = Ok l0 /\ fst (execute_with_ip no_host 2000 (M_Macro.mcode l0) 0 (vm_init 100)) = Err invalidValue /\
  k_first "(() (defmacro same (x) x) (var a 5) (var b a) b)" = Ok l /\ k_gives l (OInteger 5).
Proof. exact (macro_refused). Qed.
Print Assumptions C70_operand_refuted.

(** C70.  The macros of a second text: the sub-compiler starts with an empty stack, the machine still has the macros of the first text on it, and the macro g of the second text calls the macro f of the first. *)
Theorem C70_second_text_refuted :
  exists l1 l2,
  k_first "(() (defmacro f () 1) (f))" = Ok l1 /\ k_gives l1 (OInteger 1) /\
  k_next "(() (defmacro g () 2) (g))" l1 = Ok l2 /\ k_gives l2 (OInteger 1).
Proof. exact (macro_second). Qed.
Print Assumptions C70_second_text_refuted.

Example C70_works : exists l, k_first "(() (defmacro twice (x) (list (quote +) x x)) (twice 21))" = Ok l /\ k_gives l (OInteger 42).
Proof. exact macro_works. Qed.

(** C78: the forms of the language and the names they are registered under. *)
From Coq Require Import String ZArith List Bool.
From Verif Require Import M_Base M_Trie M_Heap M_Symbol M_Parser M_Scope M_Compile M_Infer M_Link S_Infer P_Infer5 M_Init S_Symbol S_Compile S_Run S_Link S_Accept S_Init.
From Verif Require Import P_Init P_Init2 X_Link X_Init.
From Verif Require X_Infer.
Import ListNotations.
Open Scope Z_scope.

(** C78.  Whatever forms have been registered in a new compiler, in any order and with any names: every name leads to the form registered last under it, and other names lead to none. *)
Theorem C78_found {F} (es : list (entry_of F)) x :
  find_registered (fst (addGenerators es (none_registered, []))) x = Ok (latest (functions es) x).
Proof. exact (@forms_found F es x). Qed.
Print Assumptions C78_found.

Example C78_found_case : latest (functions in_entries) (word "when") = Some 3 /\ latest (functions in_entries) (word "whenever") = Some 2 /\
  latest (functions in_entries) (word "whe") = None /\ declarations in_entries = [Prototype (word "when") (word "(I)") []].
Proof. exact in_latest. Qed.

(** C78.  Registering forms declares those with a type to the parenthesis inferrer, in order, and leaves what was declared before. *)
Theorem C78_declared {F} (es : list (entry_of F)) r ps :
  snd (addGenerators es (r, ps)) = ps ++ declarations es.
Proof. exact (@declarations_kept F es r ps). Qed.
Print Assumptions C78_declared.

Example C78_declared_case : snd (addGenerators in_entries (none_registered, [])) = [Prototype (word "when") (word "(I)") []].
Proof. reflexivity. Qed.

(** C78.  The reader finds for a tree the action registered last under the name at its head, and none for other trees. *)
Theorem C78_actions {F} (fs : list (bytes * F)) a :
  find_action (all_registered fs) a = Ok (match head_name a with Some x => latest fs x | None => None end).
Proof. exact (@actions_found F fs a). Qed.
Print Assumptions C78_actions.

Example C78_actions_case : find_action (all_registered (functions in_entries)) (AstExpression [AstIdentifier (word "when"); AstInt 1]) = Ok (Some 3) /\
  find_action (all_registered (functions in_entries)) (AstString (word "when")) = Ok None.
Proof. split; vm_compute; reflexivity. Qed.

(** C78.  In a new compiler every name, known or not, leads to the form the compiler proofs take it for (find_generator of M_Compile, and comptime and defmacro of M_Macro), through the trie and the array that duckLisp_init fills.  The exception is the name only defmacro uses, which is a lambda. *)
Theorem C78_table x :
  exists f, find_registered (fst init_generators) x = Ok f /\
  (x <> defmacro_lambda -> option_map as_generator f = find_generator x) /\
  (x = defmacro_lambda -> f = Some (Form GLambda)) /\
  (f = Some Comptime <-> x = str "comptime" \/ x = str "__comptime") /\
  (f = Some Defmacro <-> x = str "defmacro" \/ x = str "__defmacro").
Proof. exact (table_forms x). Qed.
Print Assumptions C78_table.

Example C78_table_case : find_registered (fst init_generators) (str "__while") = Ok (Some (Form GWhile)) /\
  find_registered (fst init_generators) (str "error") = Ok None /\ find_registered (fst init_generators) (str "defmacro") = Ok (Some Defmacro).
Proof. exact in_table. Qed.

(** C78.  In a compiler in which functions have been linked, the three tables a name is looked up in give the callee that the compiler proofs work with; C functions come with the number of their name.  Missing: scopes with functions of the kinds that nothing adds, and the name only defmacro uses. *)
Theorem C78_names_partial cfg us v fs s sc x :
  idle v -> link_compiler true fs (Compiler (symbols_after us) (trie_init (-1)) v) = (Ok tt, s) -> callbacks cfg = names fs ->
  x <> defmacro_lambda -> In (getScopeFunction sc x) [-1; functionType_c; functionType_ducklisp; functionType_macro] ->
  exists t, function_of_name (getScopeFunction sc x) s (fst init_generators) x = Ok t /\ agree t (getFunctionFromName cfg sc x) /\
    (getScopeFunction sc x = -1 -> forall k, t = ToCallback k -> k = nameToValue (c_symbols s) x /\ 0 <= k).
Proof. exact (names_resolved cfg us v fs s sc x). Qed.
Print Assumptions C78_names_partial.

Example C78_names_case : link_compiler true ln_functions (Compiler (symbols_after []) (trie_init (-1)) (vm_init 20)) = (Ok tt, ln_compiler) /\
  idle (vm_init 20) /\ callbacks ln_cfg = names ln_functions /\ word "g" <> defmacro_lambda /\
  In (getScopeFunction [] (word "g")) [-1; functionType_c; functionType_ducklisp; functionType_macro] /\
  function_of_name (-1) ln_compiler (fst init_generators) (word "g") = Ok (ToCallback (nameToValue (c_symbols ln_compiler) (word "g"))) /\
  function_of_name (-1) ln_compiler (fst init_generators) (word "cons") = Ok (ToGenerator (Form (GBin M_Instr.BCons false))).
Proof. exact in_names. Qed.

(** C78.  The texts that declare the forms to the parenthesis inferrer can be read, are types, and give each form written without parentheses a number of arguments that the compiler accepts (C65); the scripts are read as well formed programs that take arguments and declare names.  Missing: defmacro, comptime and __error, which C65 leaves out. *)
Theorem C78_arguments_partial p :
  In p (snd init_generators) ->
  exists t u s n, read_prototype 2000 1000 p = POk (p_name p, t, u) /\ from_ast t = Ok s /\ default_arguments s = Some n /\
    (operands_of (p_name p) = Refused \/ enough (p_name p) n = true) /\ declaring (p_script p) u.
Proof. exact (declarations_fit p). Qed.
Print Assumptions C78_arguments_partial.

Example C78_arguments_case : In (Prototype (str "while") (str "(I &rest 1 I)") []) (snd init_generators) /\ operands_of (str "while") = AtLeast 2.
Proof. exact in_declared. Qed.

(** C78.  In a new compiler in which C functions with readable types have been linked, the declarations of the table and of the functions can be read, and the parenthesis inference of every program that uses no declaring form ends, within twice as many steps as the program has nodes: with the reading of the program under these declarations, or with an error and then there is none.  Missing: programs that use declaring forms.  Assumed: the scripts of the declaring forms compile. *)
Theorem C78_inference_partial functions linked :
  Forall2 (fun f d => read_prototype 2000 1000 (Prototype (fst f) (snd f) []) = POk d) functions linked -> Forall simple linked ->
  exists external, read_prototypes 2000 1000 (link_prototypes functions (snd init_generators)) = POk external /\
  forall cs a n, (forall d u, In d external -> snd d = Some u -> exists sc, cs u = Ok sc) ->
  (forall x, In x declaring_forms -> ~ In (AstIdentifier x) (spelled a)) ->
  named a = true -> (2 * size a <= n)%nat ->
  (exists a' s, S_Infer.form (fun f t => declared_in (built_in ++ external) f = Some t) a a' /\
     infer_parentheses cs n external a = Ok (a', s)) \/
  (exists e, infer_parentheses cs n external a = Err e) /\
    forall a', ~ S_Infer.form (fun f t => declared_in (built_in ++ external) f = Some t) a a'.
Proof. exact (inference_of_init functions linked). Qed.
Print Assumptions C78_inference_partial.

Example C78_inference_case : (Forall2 (fun f d => read_prototype 2000 1000 (Prototype (fst f) (snd f) []) = POk d) in_functions in_linked /\ Forall simple in_linked) /\
  existsb (spells in_program) declaring_forms = false /\ S_Infer.named in_program = true /\ (2 * S_Infer.size in_program <= 60)%nat /\
  match read_prototypes 2000 1000 (link_prototypes in_functions (snd init_generators)) with
  | POk external => X_Infer.read (infer_parentheses X_Infer.v_scripts 60 external in_program)
  | _ => None
  end = Some in_result.
Proof. exact (conj in_reads in_infers). Qed.

(** C78.  After a C function has been linked with an empty type, the declarations cannot be read any more, and so the inference of every program fails, whatever the program is. *)
Theorem C78_untyped_refuted functions ps name fuel max :
  In (name, []) functions -> forall external, read_prototypes fuel max (link_prototypes functions ps) <> POk external.
Proof. exact (untyped_function functions ps name fuel max). Qed.
Print Assumptions C78_untyped_refuted.

Example C78_untyped_case : read_prototypes 2000 1000 (link_prototypes [(str "g", [])] (snd init_generators)) = PErr invalidValue.
Proof. vm_compute. reflexivity. Qed.

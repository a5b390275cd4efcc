(** C74: C functions linked by the host. *)
From Coq Require Import String ZArith List.
From Verif Require Import M_Base M_Trie M_Heap M_Instr M_VM M_Asm M_Parser M_Symbol M_Compile M_Host M_Link S_VM S_Asm S_Symbol S_Types S_Compile S_Run S_Program S_Callback S_Link.
From Verif Require Import P_Link X_Compile X_Link.
Import ListNotations.
Open Scope Z_scope.

(** C74.  Linking functions in a compiler, in any state of its symbols and callbacks and with any idle machine of its own: the names get numbers of their own, which are the keys under which callbacks_trie and the machine of the compiler have them; numbers and callbacks of other names, and the rest of the machine, are what they were.  The only failure is a machine with fewer free objects than functions. *)
Theorem C74_compiler us h v fs :
  idle v -> let s := Compiler (symbols_after us) (trie_run (-1) h) v in
  (exists s', link_compiler true fs s = (Ok tt, s') /\ compiler_links fs s s') \/
  (exists s', link_compiler true fs s = (Err outOfMemory, s') /\ (length (free v) < length fs)%nat).
Proof. exact (compiler_after us h v fs). Qed.
Print Assumptions C74_compiler.

Example C74_compiler_case : idle (vm_init 20) /\ link_compiler true ln_functions (Compiler (symbols_after []) (trie_run (-1) []) (vm_init 20)) = (Ok tt, ln_compiler) /\
  names ln_functions = [word "f"; word "g"; word "f"] /\ given ln_functions (word "f") = Some 2.
Proof. split; [exact init_idle|]. split; [exact ln_links|]. split; reflexivity. Qed.

(** C74.  Linking functions in a machine under the numbers of their names: each name is a global with the function linked last under it, and nothing else changes.  The only failure is a machine with fewer free objects than functions. *)
Theorem C74_machine us fs v :
  (forall f, In f (names fs) -> nameToValue (symbols_after us) f <> -1) -> idle v ->
  (exists v', link_machine (symbols_after us) fs v = (Ok tt, v') /\ links (nameToValue (symbols_after us)) fs v v') \/
  (exists v', link_machine (symbols_after us) fs v = (Err outOfMemory, v') /\ (length (free v) < length fs)%nat).
Proof. exact (machine_after us fs v). Qed.
Print Assumptions C74_machine.

Example C74_machine_case : let us := [Intern (word "f"); Intern (word "g")] in
  (forall f, In f (names ln_functions) -> nameToValue (symbols_after us) f <> -1) /\ idle (vm_init 20).
Proof. split; [intros f [<-|[<-|[<-|[]]]]; vm_compute; discriminate|exact init_idle]. Qed.

(** C74.  From linking to the call: a host links its functions in a compiler, has the program (f e1 ... en) compiled and assembled, links the functions in a machine under the numbers the compiler then has for the names, and runs the program.  With enough memory the function linked last under the name f is called as C73 says.  Missing: what is missing in C73, and functions with the names of forms (refuted below). *)
Theorem C74_call_partial cfg fs s1 fuel f c es st pushpops short code ids W fuel' us s :
  compiler_of cfg fs s1 -> callbacks_apart cfg -> given fs f = Some c ->
  compileAST cfg fuel (ccall f es) (compile_state (c_symbols s1) (trie_init (-1))) = Ok (tt, st) -> assembles pushpops short st code ->
  forallb good es = true -> numbering (symbols_of st) ids -> args_apart ids 0 es -> ~ In f (flat_map targets es) ->
  values fuel' es (State [] (fun x => with_functions ids fs W (ids x))) = Ok (us, s) ->
  exists N, forall host v, idle v -> (forall x, represents ids v (ids x) (W (ids x))) ->
    (exists v' v3, link_machine (symbols_of st) fs v = (Ok tt, v') /\ links ids fs v v' /\
       finds ids (unassigned ids es) v' us (globals_of s) v3 /\ outcome_of host code v' (host c v3) v3) \/
    ((length (free v) < N)%nat /\
       ((exists v', link_machine (symbols_of st) fs v = (Err outOfMemory, v')) \/
        (exists v', link_machine (symbols_of st) fs v = (Ok tt, v') /\ runs_out host code v'))).
Proof. exact (linked_call cfg fs s1 fuel f c es st pushpops short code ids W fuel' us s). Qed.
Print Assumptions C74_call_partial.

Example C74_call_case : compiler_of ln_cfg ln_functions ln_compiler /\ callbacks_apart ln_cfg /\ given ln_functions (word "f") = Some 2 /\
  compileAST ln_cfg 100 (ccall (word "f") ln_args) (compile_state (c_symbols ln_compiler) (trie_init (-1))) = Ok (tt, ln_state) /\
  assembles true true ln_state ln_code /\ forallb good ln_args = true /\
  (exists ids, numbering (symbols_of ln_state) ids /\ args_apart ids 0 ln_args /\ forall n x, represents ids (vm_init n) (ids x) None) /\
  ~ In (word "f") (flat_map targets ln_args) /\ (forall g, values 10 ln_args (State [] g) = Ok ([VInt 3; VInt 4], State [] g)) /\ idle (vm_init 20) /\
  link_machine (symbols_of ln_state) ln_functions (vm_init 20) = (Ok tt, ln_machine) /\
  (let r := execute_with_ip ln_host 100 ln_code 0 ln_machine in fst r = Ok tt /\ stack (snd r) = [OInteger 12]).
Proof.
  split; [exact ln_compiler_of|]. split; [exact ln_apart|]. split; [reflexivity|]. split; [exact ln_compiles|]. split; [exact ln_assembles|]. split; [reflexivity|].
  split; [exact ln_numbering|]. split; [vm_compute; intros []|]. split; [exact ln_values|]. split; [exact init_idle|]. exact ln_run.
Qed.

(** C74.  A name the compiler does not know is refused with an error; the functions before it in the list are linked, and nothing else changes. *)
Theorem C74_unknown us fs f c gs v :
  (forall g, In g (names fs) -> nameToValue (symbols_after us) g <> -1) -> nameToValue (symbols_after us) f = -1 -> idle v ->
  (exists v', link_machine (symbols_after us) (fs ++ (f, c) :: gs) v = (Err invalidValue, v') /\ links (nameToValue (symbols_after us)) fs v v') \/
  (exists v', link_machine (symbols_after us) (fs ++ (f, c) :: gs) v = (Err outOfMemory, v') /\ (length (free v) < length fs)%nat).
Proof. exact (unknown_name us fs f c gs v). Qed.
Print Assumptions C74_unknown.

Example C74_unknown_case : let us := [Intern (word "f"); Intern (word "g")] in
  (forall f, In f (names ln_functions) -> nameToValue (symbols_after us) f <> -1) /\ nameToValue (symbols_after us) (word "h") = -1 /\ idle (vm_init 20).
Proof. split; [intros f [<-|[<-|[<-|[]]]]; vm_compute; discriminate|]. split; [reflexivity|exact init_idle]. Qed.

(** C74.  When there is no memory for a new name, linking reports it, and neither the callbacks of the compiler nor its machine have changed. *)
Theorem C74_memory us t v f c :
  let s := Compiler (symbols_after us) t v in nameToValue (symbols_after us) f = -1 ->
  exists s', duckLisp_linkCFunction false f c s = (Err outOfMemory, s') /\ c_callbacks s' = t /\ c_vm s' = v /\
  sym_array (c_symbols s') = sym_array (symbols_after us).
Proof. exact (no_memory us t v f c). Qed.
Print Assumptions C74_memory.

Example C74_memory_case : nameToValue (symbols_after [Intern (word "f"); Intern (word "g")]) (word "h") = -1.
Proof. reflexivity. Qed.

(** C74.  Linking a function under the name of a form takes the form away: after linking a function under the name if, the program (if true 1 2), whose value is 1, calls the function. *)
Theorem C74_form_refuted :
  exists cfg fs s1 e st code v v', compiler_of cfg fs s1 /\ good e = true /\
  compileAST cfg 100 (tree e) (compile_state (c_symbols s1) (trie_init (-1))) = Ok (tt, st) /\ assembles true true st code /\
  (forall s, eval 10 e s = Ok (VInt 1, s)) /\ idle v /\ link_machine (symbols_of st) fs v = (Ok tt, v') /\
  forall F, (50 <= F)%nat -> exists w, execute_with_ip sh_host F code 0 v' = (Err cantHappen, w).
Proof. exact (form_taken). Qed.
Print Assumptions C74_form_refuted.

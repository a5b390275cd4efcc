(** C39 to C43 and C49: compiled core programs. *)
From Coq Require Import String ZArith List Bool.
From Verif Require Import M_Base M_Trie M_Parser M_Heap M_Instr M_VM M_Symbol M_Asm M_Compile S_Heap S_VM S_Num S_Data S_Globals S_Types S_Asm S_Symbol S_Compile S_Run S_Program S_Order S_Stack.
From Verif Require Import P_Asm3 P_Effect P_Heights P_Order P_Correct P_Correct2 P_Session P_Final X_Machine X_Types X_Compile.
Import ListNotations.
Open Scope Z_scope.
Open Scope list_scope.

(** C39.  A core program whose value is [w] (by the interpreter of S_Compile) and that the compiler and the assembler have turned into byte code: executing the byte code on a machine between programs pushes an object that stands for [w], leaves the globals as the interpreter does, and changes nothing else: not the stack below, not the callers, not what can be reached from there.  [N] objects of memory are enough.  Below the result there may be leftovers, as many as [width] says (for most programs none).  Missing for the full claim: functions, closures, macros and the forms not in the core language; operands and addresses that do not fit (see C15, C18); assignments to globals the compiler drops (see C41). *)
Theorem C39_value_partial cfg pushpops short e y' code ids W f w s :
  callbacks_apart cfg -> built cfg pushpops short e y' code -> numbering y' ids -> assignments_apart ids e ->
  eval f e (State [] (fun x => W (ids x))) = Ok (w, s) ->
  exists W', (forall x, W' (ids x) = globals_of s x) /\
  exists N, forall host v, idle v -> (forall x, represents ids v (ids x) (W (ids x))) ->
    (exists F v', (forall F', (F <= F')%nat -> execute_with_ip host F' code 0 v = (Ok tt, v')) /\
       returns ids (untouched ids e) v w (globals_of s) (Z.to_nat (width [] e - 2)) v') \/
    (runs_out host code v /\ (length (free v) < N)%nat).
Proof. exact (compiled_value cfg pushpops short e y' code ids W f w s). Qed.
Print Assumptions C39_value_partial.

Example C39_value_case pushpops : callbacks_apart ex_cfg /\
  (exists y' code ids, built ex_cfg pushpops true ex_program y' code /\ numbering y' ids /\ assignments_apart ids ex_program /\
     (forall x, represents ids (vm_init 100) (ids x) None)) /\
  idle (vm_init 100) /\ exists s, eval 20 ex_program (State [] (fun _ => None)) = Ok (VInt 45, s).
Proof.
  split; [exact cfg_apart|]. split.
  - destruct ex_numbering as [ids [N A]]. eexists; eexists; exists ids. split; [apply ex_built|]. split; [exact N|]. split; [exact A|]. intros x. apply ex_none.
  - split; [exact ex_idle|]. destruct ex_eval as [s [E _]]. exists s. exact E.
Qed.

(** C39.  A core program that fails by the interpreter fails with the same error on the machine, if the peephole optimiser is off.  The machine is then ready for the next program: the values it had and the globals the program does not assign are what they were, with values of the program on top of the stack. *)
Theorem C39_error_partial cfg short e y' code ids W f er :
  callbacks_apart cfg -> built cfg false short e y' code -> numbering y' ids -> assignments_apart ids e ->
  eval f e (State [] (fun x => W (ids x))) = Err er ->
  exists N, forall host v, idle v -> (forall x, represents ids v (ids x) (W (ids x))) ->
    (exists F v', (forall F', (F <= F')%nat -> execute_with_ip host F' code 0 v = (Err er, v')) /\ stops (untouched ids e) [] [] v v') \/
    (runs_out host code v /\ (length (free v) < N)%nat).
Proof. exact (compiled_error cfg short e y' code ids W f er). Qed.
Print Assumptions C39_error_partial.

Example C39_error_case : callbacks_apart ex_cfg /\
  (exists y' code ids, built ex_cfg false true ex_lost y' code /\ numbering y' ids /\ assignments_apart ids ex_lost) /\
  eval 10 ex_lost (State [] (fun _ => None)) = Err invalidValue.
Proof.
  split; [exact cfg_apart|]. split; [|reflexivity]. destruct ex_lost_case as [B [ids [N A]]]. eexists; eexists; exists ids. split; [exact (B false)|]. auto.
Qed.

(** C39.  Whatever programs have left, the globals of a machine between programs are values, so that C39_value_partial and C39_error_partial apply to the next program. *)
Theorem C39_next ids v :
  idle v -> exists W : Z -> option value, forall x, represents ids v (ids x) (W (ids x)).
Proof. exact (some_globals ids v). Qed.
Print Assumptions C39_next.

Example C39_next_case : exists v er, fst (execute_with_ip no_host 200 (ex_code false (ex_compile ex_names (tree ex_halts))) 0 (vm_init 100)) = Err er /\
  snd (execute_with_ip no_host 200 (ex_code false (ex_compile ex_names (tree ex_halts))) 0 (vm_init 100)) = v /\ idle v /\ stack v <> [] /\ length (globals_map v) = 1%nat.
Proof. exact ex_halted. Qed.

(** C39.  Several programs compiled one after the other in one session and executed on one machine: each finds the globals its predecessors left, and the results are on the stack in order, unless memory runs out in one of them. *)
Theorem C39_session_partial cfg pushpops short y g progs y' g' ids f :
  callbacks_apart cfg -> session cfg y g ->
  builds cfg pushpops short y g progs y' g' -> numbering y' ids -> Forall (assignments_apart ids) (map fst progs) ->
  forall W ws G', evals f (map fst progs) (fun x => W (ids x)) = Ok (ws, G') ->
  exists W', (forall x, W' (ids x) = G' x) /\
  forall host v, idle v -> (forall x, represents ids v (ids x) (W (ids x))) ->
    (exists F v', (forall F', (F <= F')%nat -> execute_all host F' (map snd progs) v = (Ok tt, v')) /\
       leaves ids v (map fst progs) ws v' /\ idle v' /\ forall x, represents ids v' (ids x) (G' x)) \/
    (exists before e code after F v1, progs = before ++ (e, code) :: after /\
       (forall F', (F <= F')%nat -> execute_all host F' (map snd before) v = (Ok tt, v1)) /\ runs_out host code v1).
Proof. exact (session_values cfg pushpops short y g progs y' g' ids f). Qed.
Print Assumptions C39_session_partial.

Example C39_session_case : callbacks_apart ex_cfg /\ session ex_cfg ex_names (trie_init (-1)) /\
  (exists code y' g' ids, builds ex_cfg true true ex_names (trie_init (-1)) [(ex_program, code)] y' g' /\ numbering y' ids /\
     Forall (assignments_apart ids) (map fst [(ex_program, code)])) /\
  exists ws G', evals 20 [ex_program] (fun _ => None) = Ok (ws, G').
Proof.
  split; [exact cfg_apart|]. split; [exact names_session|]. split.
  - destruct ex_numbering as [ids [N A]]. eexists; eexists; eexists; exists ids. split.
    + apply (builds_more ex_cfg true true ex_names (trie_init (-1)) [] ex_names (trie_init (-1)) 100);
        [apply builds_none|reflexivity|exact ex_compiles|apply ex_assembles].
    + split; [exact N|]. constructor; [exact A|constructor].
  - destruct ex_eval as [s [E _]]. eexists; eexists. cbn [evals]. rewrite E. reflexivity.
Qed.

(** C39.  With the peephole optimiser on, an error can be lost: a global that has no value is read and the value not used. *)
Theorem C39_optimised_error_refuted :
  case ex_lost /\ eval 10 ex_lost (State [] (fun _ => None)) = Err invalidValue /\
  (exists v', execute_with_ip no_host 200 (ex_code false (ex_compile ex_names (tree ex_lost))) 0 (vm_init 100) = (Err invalidValue, v')) /\
  exists v', execute_with_ip no_host 200 (ex_code true (ex_compile ex_names (tree ex_lost))) 0 (vm_init 100) = (Ok tt, v') /\ stack v' = [OInteger 1].
Proof. exact (peephole_loses_error). Qed.
Print Assumptions C39_optimised_error_refuted.

(** C40.  Every position of the code of a core program has a height: whenever the machine gets there, the stack is that much higher than at the start (the optimised code included).  The heights agree with the effects of the instructions and with all jumps, all operands are on the stack, and at the end the height is what the compiler has counted.  Missing: functions, and the forms below. *)
Theorem C40_heights_partial cfg pushpops short e y g fuel st code :
  callbacks_apart cfg -> session cfg y g -> good e = true ->
  compileAST cfg fuel (tree e) (compile_state y g) = Ok (tt, st) -> assembles pushpops short st code ->
  let prog := if pushpops then peephole (assembly st) else assembly st in
  exists off addr H, laid_out false prog code off addr /\ balanced prog H /\ H O = 0 /\
    (forall k, nth_error prog k = Some AHalt -> H k = locals_length st + 1) /\
    forall host base cur v ip v', flows host base cur code 0 v ip v' ->
      exists k, (k < length prog)%nat /\ ip = off k /\ zlen (stack v') = zlen (stack v) + H k.
Proof. exact (program_heights cfg pushpops short e y g fuel st code). Qed.
Print Assumptions C40_heights_partial.

Example C40_heights_case pushpops : callbacks_apart ex_cfg /\ session ex_cfg ex_names (trie_init (-1)) /\ good ex_program = true /\
  compileAST ex_cfg 100 (tree ex_program) (compile_state ex_names (trie_init (-1))) = Ok (tt, ex_compile ex_names (tree ex_program)) /\
  assembles pushpops true (ex_compile ex_names (tree ex_program)) (ex_code pushpops (ex_compile ex_names (tree ex_program))).
Proof. split; [exact cfg_apart|]. split; [exact names_session|]. split; [reflexivity|]. split; [exact ex_compiles|apply ex_assembles]. Qed.

(** C40.  The compiler counts a value for nop that is never pushed, and pops it. *)
Theorem C40_nop_refuted :
  exists code v', makes false (form [form []; form [id "nop"]; int 5]) code /\
  execute_with_ip no_host 200 code 0 (vm_init 100) = (Err bufferUnderflow, v').
Proof. exact (nop_unbalanced). Qed.
Print Assumptions C40_nop_refuted.

(** C40.  A declaration as an operand emits nothing, and the operator takes another value instead. *)
Theorem C40_declaration_refuted :
  exists code v', makes false (form [id "+"; int 3; form [id "var"; id "x"; int 5]]) code /\
  execute_with_ip no_host 200 code 0 (vm_init 100) = (Ok tt, v') /\ stack v' = [OInteger 6].
Proof. exact (var_unbalanced). Qed.
Print Assumptions C40_declaration_refuted.

(** C40.  An endless loop in one branch of a conditional makes the compiler count the value of the other branch wrongly. *)
Theorem C40_loop_refuted :
  exists code v', makes false (form [id "+"; int 2; form [id "if"; form []; form [id "while"; AstBool true; int 1]; int 5]]) code /\
  execute_with_ip no_host 200 code 0 (vm_init 100) = (Ok tt, v') /\ stack v' = [OInteger 10; OInteger 2].
Proof. exact (loop_unbalanced). Qed.
Print Assumptions C40_loop_refuted.

(** C41.  After an assignment to a global the global has the assigned value, which is also the value of the form; other globals are what evaluating the operand made them.  Missing: assignments whose value is at the stack position with the number of the name. *)
Theorem C41_stores_partial cfg pushpops short x e form y' code ids W f w s :
  form = EGlobal x e \/ form = ESet x e ->
  callbacks_apart cfg -> built cfg pushpops short form y' code -> numbering y' ids -> assignments_apart ids form ->
  eval f e (State [] (fun x => W (ids x))) = Ok (w, s) -> env s = [] ->
  computes ids code W (untouched ids form) w (fun z => if bytes_dec x z then Some w else globals_of s z) (Z.to_nat (width [] form - 2)).
Proof. exact (assigned_value cfg pushpops short x e form y' code ids W f w s). Qed.
Print Assumptions C41_stores_partial.

Example C41_stores_case : callbacks_apart ex_cfg /\
  (exists y' code ids, (forall pushpops, built ex_cfg pushpops true ex_setq y' (code pushpops)) /\ numbering y' ids /\ assignments_apart ids ex_setq) /\
  exists s, eval 10 (EBin BMul (ELit (LInt 6)) (ELit (LInt 7))) (State [] (fun _ => None)) = Ok (VInt 42, s) /\ env s = [].
Proof.
  split; [exact cfg_apart|]. split; [destruct ex_setq_case as [B [ids [N A]]]; eexists; eexists; exists ids; split; [exact B|]; auto|].
  eexists. split; reflexivity.
Qed.

(** C41.  The very first program of a session, (global x 5), stores nothing. *)
Theorem C41_dropped_refuted :
  exists y' code ids v', built ex_cfg false true ex_dropped y' code /\ numbering y' ids /\
  (exists s, eval 10 ex_dropped (State [] (fun _ => None)) = Ok (VInt 5, s) /\ globals_of s (word "x") = Some (VInt 5)) /\
  execute_with_ip no_host 200 code 0 (vm_init 100) = (Ok tt, v') /\ stack v' = [OInteger 5] /\
  ~ In (ids (word "x")) (globals_map v').
Proof. exact (assignment_dropped). Qed.
Print Assumptions C41_dropped_refuted.

(** C42.  Every literal but the empty string is folded to what the machine takes it for: with the literal on the stack, the branch instruction goes where the compiler goes. *)
Theorem C42_literal l ids host base next t v o :
  l <> LString [] -> in_step v -> at_pos v 1 o -> denotes ids (objects v) o (literal_value l) ->
  exists b v', literal_condition (literal_tree l) = Some b /\
    exec host base next (IBrnz t 1) v = (Ok (Continue (if b then PC (pc_code next) t else next)), v') /\ stack v' = tl (stack v).
Proof. exact (literal_folds l ids host base next t v o). Qed.
Print Assumptions C42_literal.

Example C42_literal_case : let v := set_ustack (set_stack (vm_init 3) [OFloat SpecFloat.S754_nan]) [None] in
  LFloat SpecFloat.S754_nan <> LString [] /\ in_step v /\ at_pos v 1 (OFloat SpecFloat.S754_nan) /\
  denotes (fun _ => 0) (objects v) (OFloat SpecFloat.S754_nan) (literal_value (LFloat SpecFloat.S754_nan)).
Proof. split; [discriminate|]. split; [reflexivity|]. split; [split; [discriminate|reflexivity]|constructor]. Qed.

(** C42.  A program that is an if with a constant condition computes the branch the condition asks for.  Missing: the empty string. *)
Theorem C42_if_partial cfg pushpops short l x z y' code ids W f w s :
  callbacks_apart cfg -> built cfg pushpops short (EIf (ELit l) x z) y' code -> numbering y' ids -> assignments_apart ids (EIf (ELit l) x z) ->
  (forall b, truth (literal_value l) = Ok b -> eval f (if b then x else z) (State [] (fun x => W (ids x))) = Ok (w, s)) ->
  computes ids code W (untouched ids (EIf (ELit l) x z)) w (globals_of s) (Z.to_nat (width [] (EIf (ELit l) x z) - 2)).
Proof. exact (constant_if cfg pushpops short l x z y' code ids W f w s). Qed.
Print Assumptions C42_if_partial.

Example C42_if_case : callbacks_apart ex_cfg /\
  (exists y' code ids, (forall pushpops, built ex_cfg pushpops true ex_if y' (code pushpops)) /\ numbering y' ids /\ assignments_apart ids ex_if) /\
  exists w s, forall b, truth (literal_value (LFloat SpecFloat.S754_nan)) = Ok b ->
    eval 10 (if b then EGlobal (word "g") (ELit (LInt 3)) else ENil) (State [] (fun _ => None)) = Ok (w, s).
Proof.
  split; [exact cfg_apart|]. split; [destruct ex_if_case as [B [ids [N A]]]; eexists; eexists; exists ids; split; [exact B|]; auto|].
  eexists; eexists. intros b H. injection H as <-. reflexivity.
Qed.

(** C42.  The same for when and unless. *)
Theorem C42_when_partial cfg pushpops short p l b y' code ids W f w s :
  callbacks_apart cfg -> built cfg pushpops short (EWhen p (ELit l) b) y' code -> numbering y' ids -> assignments_apart ids (EWhen p (ELit l) b) ->
  (forall t, truth (literal_value l) = Ok t ->
     if Bool.eqb t p then eval f (EScope b) (State [] (fun x => W (ids x))) = Ok (w, s) else w = VNil /\ s = State [] (fun x => W (ids x))) ->
  computes ids code W (untouched ids (EWhen p (ELit l) b)) w (globals_of s) (Z.to_nat (width [] (EWhen p (ELit l) b) - 2)).
Proof. exact (constant_when cfg pushpops short p l b y' code ids W f w s). Qed.
Print Assumptions C42_when_partial.

Example C42_when_case : callbacks_apart ex_cfg /\
  (exists y' code ids, (forall pushpops, built ex_cfg pushpops true ex_unless y' (code pushpops)) /\ numbering y' ids /\ assignments_apart ids ex_unless) /\
  exists w s, forall t, truth (literal_value (LInt 0)) = Ok t ->
    if Bool.eqb t false then eval 10 (EScope [Def (word "x") (ELit (LInt 3)); Do (ESet (word "h") (EVar (word "x")))]) (State [] (fun _ => None)) = Ok (w, s)
    else w = VNil /\ s = State [] (fun _ => None).
Proof.
  split; [exact cfg_apart|]. split; [destruct ex_unless_case as [B [ids [N A]]]; eexists; eexists; exists ids; split; [exact B|]; auto|].
  eexists; eexists. intros b H. injection H as <-. reflexivity.
Qed.

(** C42.  The empty string counts as false when it is written in the condition and as true when it is in a variable. *)
Theorem C42_empty_refuted :
  exists c1 c2 v1 v2, makes false (form [id "if"; AstString []; int 1; int 2]) c1 /\
  makes false (form [form []; form [id "var"; id "s"; AstString []]; form [id "if"; id "s"; int 1; int 2]]) c2 /\
  execute_with_ip no_host 200 c1 0 (vm_init 100) = (Ok tt, v1) /\ stack v1 = [OInteger 2] /\
  execute_with_ip no_host 200 c2 0 (vm_init 100) = (Ok tt, v2) /\ stack v2 = [OInteger 1].
Proof. exact (empty_folds). Qed.
Print Assumptions C42_empty_refuted.

(** C42.  In a loop the empty string counts as true: the loop never ends. *)
Theorem C42_while_refuted :
  makes false (form [id "while"; AstString []; int 1]) loop_code /\
  forall fuel, fst (execute_with_ip no_host fuel loop_code 0 (vm_init 2)) = NoFuel.
Proof. exact (empty_loops). Qed.
Print Assumptions C42_while_refuted.

(** C43.  Programs without an operand that changes an earlier one, and without assignments in the elements of lists, compute what strict evaluation from left to right says.  Missing: the other programs. *)
Theorem C43_order_partial cfg pushpops short e y' code ids W f w s :
  callbacks_apart cfg -> built cfg pushpops short e y' code -> numbering y' ids -> assignments_apart ids e -> orderly e = true ->
  strict f e (State [] (fun x => W (ids x))) = Ok (w, s) ->
  computes ids code W (untouched ids e) w (globals_of s) (Z.to_nat (width [] e - 2)).
Proof. exact (in_order cfg pushpops short e y' code ids W f w s). Qed.
Print Assumptions C43_order_partial.

Example C43_order_case : callbacks_apart ex_cfg /\
  (exists y' code ids, (forall pushpops, built ex_cfg pushpops true ex_order y' (code pushpops)) /\ numbering y' ids /\ assignments_apart ids ex_order) /\
  orderly ex_order = true /\ exists s, strict 10 ex_order (State [] (fun _ => None)) = Ok (VPair (VInt 10) (VPair (VInt 11) VNil), s).
Proof.
  split; [exact cfg_apart|]. split; [destruct ex_order_case as [B [ids [N A]]]; eexists; eexists; exists ids; split; [exact B|]; auto|].
  split; [reflexivity|]. eexists. reflexivity.
Qed.

(** C43.  For such programs the two ways of evaluating have the same results, in every state. *)
Theorem C43_semantics_partial f e s r :
  orderly e = true -> eval f e s = Ok r <-> strict f e s = Ok r.
Proof. exact (orderly_results f e s r). Qed.
Print Assumptions C43_semantics_partial.

Example C43_semantics_case : orderly ex_order = true /\ orderly ex_program = true.
Proof. split; reflexivity. Qed.

(** C43.  A variable as first operand is read after the second operand has been evaluated. *)
Theorem C43_late_refuted :
  case ex_late /\ (exists s, strict 10 ex_late (State [] (fun _ => None)) = Ok (VInt 6, s)) /\
  exists v', execute_with_ip no_host 200 (ex_code false (ex_compile ex_names (tree ex_late))) 0 (vm_init 100) = (Ok tt, v') /\ stack v' = [OInteger 10].
Proof. exact (operand_late). Qed.
Print Assumptions C43_late_refuted.

(** C43.  The elements of a list are evaluated from the last to the first. *)
Theorem C43_list_refuted :
  case ex_back /\ (exists s, strict 10 ex_back (State [] (fun _ => None)) = Ok (VInt 1, s)) /\
  exists v', execute_with_ip no_host 200 (ex_code false (ex_compile ex_names (tree ex_back))) 0 (vm_init 100) = (Ok tt, v') /\ hd_error (stack v') = Some (OInteger 5).
Proof. exact (elements_backwards). Qed.
Print Assumptions C43_list_refuted.

(** C49.  A quoted tree becomes an object with that structure: lists of cons cells, with the literals and the symbols of the tree at the leaves.  No global changes and nothing that was there before.  Missing: memory (the program may run out), operands that do not fit. *)
Theorem C49_quote_partial cfg pushpops short d y' code ids W :
  callbacks_apart cfg -> built cfg pushpops short (EQuote d) y' code -> numbering y' ids ->
  computes ids code W (fun _ => True) (datum_value d) (fun x => W (ids x)) (Z.to_nat (width [] (EQuote d) - 2)).
Proof. exact (quoted_tree cfg pushpops short d y' code ids W). Qed.
Print Assumptions C49_quote_partial.

Example C49_quote_case : callbacks_apart ex_cfg /\
  exists y' code ids, (forall pushpops, built ex_cfg pushpops true (EQuote ex_datum) y' (code pushpops)) /\ numbering y' ids.
Proof. split; [exact cfg_apart|]. destruct ex_quote_case as [B [ids [N A]]]. eexists; eexists; exists ids. split; [exact B|exact N]. Qed.

(** C49.  The same tree written with list. *)
Theorem C49_list_partial cfg pushpops short d y' code ids W :
  callbacks_apart cfg -> built cfg pushpops short (listing d) y' code -> numbering y' ids ->
  computes ids code W (fun _ => True) (datum_value d) (fun x => W (ids x)) (Z.to_nat (width [] (listing d) - 2)).
Proof. exact (listed_tree cfg pushpops short d y' code ids W). Qed.
Print Assumptions C49_list_partial.

Example C49_list_case : callbacks_apart ex_cfg /\
  exists y' code ids, (forall pushpops, built ex_cfg pushpops true (listing ex_datum) y' (code pushpops)) /\ numbering y' ids.
Proof. split; [exact cfg_apart|]. destruct ex_list_case as [B [ids [N A]]]. eexists; eexists; exists ids. split; [exact B|exact N]. Qed.

(** C50, C55, C56: trees as objects and back, and the callbacks of the compiler. *)
From Coq Require Import String ZArith List Bool Lia.
From Verif Require Import M_Base M_Trie M_Parser M_Heap M_Instr M_VM M_Host S_Host M_Symbol M_Asm M_Compile M_Convert S_Heap S_VM S_Num S_Data S_Types S_Asm S_Symbol S_Compile S_Run S_Program S_Convert.
From Verif Require Import P_Convert2 P_Convert3 P_Convert4 P_Convert5 P_Convert6 X_Machine X_Types X_Compile X_Convert.
Import ListNotations.
Open Scope Z_scope.
Open Scope list_scope.

(** C50.  A tree of literals, names and lists, marked with quotes and callbacks or not, becomes an object with its structure, with all its names interned in the order of the conversion; nothing that was in use changes, and converting the object back gives the tree.  Missing: machines without room for the tree (false, below). *)
Theorem C50_there_and_back_partial us t d v :
  postprocess t = datum_tree d -> typed v -> storable_datum d ->
  (objects_for d <= length (free v))%nat -> Z.of_nat (length (sym_array (symbols_after us)) + length (names_in d)) <= max_size ->
  exists o v', ast_to_object (symbols_after us) t v = (Ok (o, symbols_after (us ++ map Intern (rev (names_in d)))), v') /\
    typed (pushed o v') /\ grown v v' /\
    (forall ids, numbering_of (symbols_after (us ++ map Intern (rev (names_in d)))) (names_in d) ids -> denotes ids (objects v') o (datum_value d)) /\
    exists F, forall f, (F <= f)%nat -> object_to_ast f (objects v') true o = Ok (postprocess t).
Proof. exact (there_and_back us t d v). Qed.
Print Assumptions C50_there_and_back_partial.

Example C50_there_and_back_case : postprocess (datum_tree ex_datum) = datum_tree ex_datum /\ typed (vm_init 100) /\ storable_datum ex_datum /\
  (objects_for ex_datum <= length (free (vm_init 100)))%nat /\
  Z.of_nat (length (sym_array (symbols_after [Gensym])) + length (names_in ex_datum)) <= max_size.
Proof. exact ex_tree. Qed.
Example C50_there_and_back_run : let r := ast_to_object (symbols_after [Gensym]) (datum_tree ex_datum) (vm_init 100) in
  match fst r with Ok (o, _) => object_to_ast 100 (objects (snd r)) true o | _ => NoFuel end = Ok (datum_tree ex_datum).
Proof. exact ex_tree_run. Qed.

(** C50.  Without room for the tree the collector takes the part already made: the tree (1 2) becomes an endless list of ones, without an error, and converting it back does not end. *)
Theorem C50_short_memory_refuted :
  exists v', typed (vm_init 2) /\
  ast_to_object fresh (form [int 1; int 2]) (vm_init 2) = (Ok (OList (Some 0%nat), fresh), v') /\
  pair v' 0 (OInteger 1) (OList (Some 0%nat)) /\
  forall f, object_to_ast f (objects v') true (OList (Some 0%nat)) = NoFuel.
Proof. exact (tree_corrupted). Qed.
Print Assumptions C50_short_memory_refuted.

(** C50.  A float the reader has left without a value, as it does for the text 1., is copied all the same. *)
Theorem C50_float_refuted y v :
  (exists j, read 20 (word "1.") 10 0 = POk (AstFloat None, j)) /\ ast_to_object y (AstFloat None) v = (UB, v).
Proof. exact (float_missing y v). Qed.
Print Assumptions C50_float_refuted.

(** C50.  Converting a value on the stack of a well-typed machine never goes outside the heap or the tree; it fails only if there is a function, vector or the like inside.  Missing: symbols without names, and dotted lists where expressions are made, for which it is false; that it ends (it does not for cyclic lists). *)
Theorem C50_back_defined_partial v use o f :
  typed v -> In o (stack v) -> named_symbols (objects v) o -> (use = true -> proper_lists (objects v) o) ->
  defined_for (objects v) o (object_to_ast f (objects v) use o).
Proof. exact (conversion_defined v use o f). Qed.
Print Assumptions C50_back_defined_partial.

Example C50_back_defined_case : typed ex_pair /\ In (OList (Some 3%nat)) (stack ex_pair) /\
  named_symbols (objects ex_pair) (OList (Some 3%nat)) /\ proper_lists (objects ex_pair) (OList (Some 3%nat)).
Proof. split; [apply ex_pair_idle|]. split; [left; reflexivity|]. exact ex_pair_good. Qed.

(** C50.  For the expansion (1 . 2) of a macro the compiler writes beyond the end of the tree. *)
Theorem C50_dotted_refuted :
  idle ex_dotted /\ on_top ex_dotted (OList (Some 2%nat)) /\ pair ex_dotted 2 (OInteger 1) (OInteger 2) /\
  forall f, (4 <= f)%nat -> object_to_ast f (objects ex_dotted) true (OList (Some 2%nat)) = UB.
Proof. exact (dotted_overflow). Qed.
Print Assumptions C50_dotted_refuted.

(** C50.  A symbol without a name, as duckVM_pushCompressedSymbol and byte code without names make it, is read through a null pointer. *)
Theorem C50_nameless_refuted os id use f :
  object_to_ast (S f) os use (OSymbol id None) = UB.
Proof. exact (nameless os id use f). Qed.
Print Assumptions C50_nameless_refuted.

(** C50.  Functions, closures, vectors and the like have no tree: an error is reported. *)
Theorem C50_unprintable os use o f :
  ~ printable o -> object_to_ast (S f) os use o = Err invalidValue.
Proof. exact (unprintable os use o f). Qed.
Print Assumptions C50_unprintable.

Example C50_unprintable_case : ~ printable (OVector None 0).
Proof. intros []. Qed.

(** C50.  The value of a form evaluated while compiling, made of numbers, booleans, texts and pairs, becomes a tree, and the code compiled from that tree computes that value.  Missing: symbols and booleans other than 0 and 1 (false, below); the execution of the form itself by the compiler, for which see C39. *)
Theorem C50_comptime_partial cfg ids os o w :
  callbacks_apart cfg -> ~ In (word "__cons") (callbacks cfg) -> denotes ids os o w -> constant_value w ->
  exists t F, (forall f, (F <= f)%nat -> object_to_ast f os false o = Ok t) /\
    forall pushpops short ids' y g fuel st code W, session cfg y g ->
      compileAST cfg fuel t (compile_state y g) = Ok (tt, st) -> assembles pushpops short st code -> numbering (symbols_of st) ids' ->
      exists extra, computes ids' code W (fun _ => True) w (fun x => W (ids' x)) extra.
Proof. exact (comptime_value cfg ids os o w). Qed.
Print Assumptions C50_comptime_partial.

Example C50_comptime_case : callbacks_apart ex_cfg /\ ~ In (word "__cons") (callbacks ex_cfg) /\
  (forall ids, denotes ids (objects ex_pair) (OList (Some 3%nat)) ex_pair_value) /\ constant_value ex_pair_value /\
  session ex_cfg ex_names (trie_init (-1)) /\
  (exists F, forall f, (F <= f)%nat -> object_to_ast f (objects ex_pair) false (OList (Some 3%nat)) = Ok ex_spliced) /\
  compileAST ex_cfg 100 ex_spliced (compile_state ex_names (trie_init (-1))) = Ok (tt, ex_compile ex_names ex_spliced) /\
  assembles true true (ex_compile ex_names ex_spliced) (ex_code true (ex_compile ex_names ex_spliced)).
Proof.
  split; [exact cfg_apart|]. split; [intros []|]. split; [exact ex_pair_denotes|]. split; [exact ex_pair_constant|]. split; [exact names_session|].
  destruct ex_splice as [A [B [C _]]]. auto.
Qed.

(** C50.  A symbol computed while compiling is taken for a variable: the program stops with an error. *)
Theorem C50_comptime_symbol_refuted :
  idle ex_symbol /\ named ex_symbol (OSymbol 0 (Some 0%nat)) 0 (word "a") /\
  object_to_ast 1 (objects ex_symbol) false (OSymbol 0 (Some 0%nat)) = Ok (id "a") /\
  exists code, makes false (id "a") code /\ fst (execute_with_ip no_host 200 code 0 (vm_init 100)) = Err invalidValue.
Proof. exact (symbol_spliced). Qed.
Print Assumptions C50_comptime_symbol_refuted.

(** C50.  (+ true true) is the boolean 2, and (comptime (+ true true)) the boolean 1. *)
Theorem C50_comptime_boolean_refuted :
  exists code code', makes false (form [id "+"; AstBool true; AstBool true]) code /\
  hd_error (stack (ex_run code (vm_init 100))) = Some (OBool 2) /\
  object_to_ast 1 (objects (ex_run code (vm_init 100))) false (OBool 2) = Ok (AstBool true) /\
  makes false (AstBool true) code' /\ stack (ex_run code' (vm_init 100)) = [OBool 1].
Proof. exact (boolean_spliced). Qed.
Print Assumptions C50_comptime_boolean_refuted.

(** C50.  What a macro is given is its argument as it was written: the code that the compiler makes for the argument leaves an object that converts back to the argument.  Missing: memory (the machine may run out), operands that do not fit. *)
Theorem C50_macro_argument_partial cfg pushpops short d y g fuel st code ids W :
  callbacks_apart cfg -> ~ In (word "__quote") (callbacks cfg) -> session cfg y g -> good (EQuote d) = true ->
  compileAST cfg fuel (AstExpression [AstIdentifier (word "__quote"); datum_tree d]) (compile_state y g) = Ok (tt, st) ->
  assembles pushpops short st code -> numbering (symbols_of st) ids ->
  exists N : nat, forall host v, idle v -> (forall x, represents ids v (ids x) (W (ids x))) ->
    (exists F v' o, (forall F', (F <= F')%nat -> execute_with_ip host F' code 0 v = (Ok tt, v')) /\ idle v' /\ on_top v' o /\
       exists f0, forall f, (f0 <= f)%nat -> object_to_ast f (objects v') true o = Ok (datum_tree d)) \/
    (runs_out host code v /\ (length (free v) < N)%nat).
Proof. exact (macro_argument cfg pushpops short d y g fuel st code ids W). Qed.
Print Assumptions C50_macro_argument_partial.

Example C50_macro_argument_case : callbacks_apart ex_cfg /\ ~ In (word "__quote") (callbacks ex_cfg) /\ session ex_cfg ex_names (trie_init (-1)) /\
  good (EQuote ex_datum) = true /\
  compileAST ex_cfg 100 (AstExpression [AstIdentifier (word "__quote"); datum_tree ex_datum]) (compile_state ex_names (trie_init (-1))) = Ok (tt, ex_compile ex_names ex_argument) /\
  assembles true true (ex_compile ex_names ex_argument) (ex_code true (ex_compile ex_names ex_argument)) /\ idle (vm_init 100).
Proof.
  split; [exact cfg_apart|]. split; [intros []|]. split; [exact names_session|]. destruct ex_argument_code as [A [B C]].
  split; [exact A|]. split; [exact B|]. split; [exact C|exact ex_idle].
Qed.

(** C55.  (gensym) pushes a symbol with the new name and its number, and the compiler knows the name from now on; or there is no memory, which is reported. *)
Theorem C55_gensym us v :
  typed v ->
  let y := symbols_after us in
  let y' := symbols_after (us ++ [Gensym]) in
  let name := snd (gensym y) in
  (exists o v', callback_gensym y v = (Ok y', v') /\ gives nothing o v v' /\ named v' o (nameToValue y' name) name) \/
  (exists v', callback_gensym y v = (Err outOfMemory, v') /\ (length (free v) < 1)%nat).
Proof. exact (gensym_pushes us v). Qed.
Print Assumptions C55_gensym.

Example C55_gensym_case : typed (vm_init 10) /\ exists v', callback_gensym (symbols_after [Gensym]) (vm_init 10) = (Ok (symbols_after [Gensym; Gensym]), v') /\
  stack v' = [OSymbol 1 (Some 9%nat)].
Proof. split; [apply typedb_ok; vm_compute; reflexivity|]. eexists. split; [vm_compute; reflexivity|reflexivity]. Qed.

(** C55.  (intern s) replaces a text by the symbol with that name and its number.  Missing: the empty text, and machines without memory, where nothing is pushed and no error reported (both false, below). *)
Theorem C55_intern_partial us v o b :
  typed v -> in_step v -> on_top v o -> string_value (objects v) o b -> b <> [] ->
  zlen b <= max_size -> Forall byte b ->
  let y := symbols_after us in
  let y' := symbols_after (us ++ [Intern b]) in
  (exists x v', callback_intern y v = (Ok y', v') /\ gives nothing x (lowered 1 v) v' /\ named v' x (nameToValue y' b) b) \/
  (exists v', callback_intern y v = (Ok y', v') /\ stack v' = tl (stack v) /\ (length (free v) < 1)%nat).
Proof. exact (intern_pushes us v o b). Qed.
Print Assumptions C55_intern_partial.

Example C55_intern_case : typed (ex_text 10 "new" []) /\ in_step (ex_text 10 "new" []) /\ on_top (ex_text 10 "new" []) (OString (Some 9%nat) 0 3) /\
  string_value (objects (ex_text 10 "new" [])) (OString (Some 9%nat) 0 3) (word "new").
Proof. exact ex_intern. Qed.

(** C55.  Without memory (intern s) removes its argument, pushes nothing and reports no error. *)
Theorem C55_intern_memory_refuted :
  typed ex_no_memory /\ string_value (objects ex_no_memory) (OString (Some 0%nat) 0 3) (word "new") /\
  exists v', callback_intern fresh ex_no_memory = (Ok (symbols_after [Intern (word "new")]), v') /\
    stack v' = [OString (Some 0%nat) 0 3].
Proof. exact (intern_swallows). Qed.
Print Assumptions C55_intern_memory_refuted.

(** C55.  The name of the empty text is interned, and an error is reported. *)
Theorem C55_intern_empty_refuted :
  exists v', callback_intern fresh (holding [] (OString None 0 0)) = (Err nullPointer, v').
Proof. exact (intern_empty). Qed.
Print Assumptions C55_intern_empty_refuted.

(** C56.  (read text false) gives the pair of an object with the structure of the first expression in the text, and 0; the rest of the machine is as before.  Missing: machines without room for the tree and the answer (false, below); the empty text; the parenthesis inference. *)
Theorem C56_read_partial fuel max us v o rest b t j d :
  typed v -> in_step v -> stack v = OBool 0 :: o :: rest -> string_value (objects v) o b -> b <> [] ->
  read fuel b max 0 = POk (t, j) -> postprocess t = datum_tree d -> storable_datum d ->
  (objects_for d + 3 <= length (free v))%nat -> Z.of_nat (length (sym_array (symbols_after us)) + length (names_in d)) <= max_size ->
  let y' := symbols_after (us ++ map Intern (rev (names_in d))) in
  exists q x v', callback_read fuel max (symbols_after us) v = (Ok y', v') /\ typed v' /\
    gives nothing (OList (Some q)) (lowered 2 v) v' /\ pair v' q x (OInteger 0) /\
    forall ids, numbering_of y' (names_in d) ids -> denotes ids (objects v') x (datum_value d).
Proof. exact (read_gives fuel max us v o rest b t j d). Qed.
Print Assumptions C56_read_partial.

Example C56_read_case : typed (ex_read 20 "(1 a) ") /\ in_step (ex_read 20 "(1 a) ") /\
  stack (ex_read 20 "(1 a) ") = [OBool 0; OString (Some 19%nat) 0 6] /\
  string_value (objects (ex_read 20 "(1 a) ")) (OString (Some 19%nat) 0 6) (word "(1 a) ") /\ word "(1 a) " <> [] /\
  (exists t j, read 20 (word "(1 a) ") 10 0 = POk (t, j) /\ postprocess t = datum_tree ex_list) /\
  (objects_for ex_list + 3 <= length (free (ex_read 20 "(1 a) ")))%nat /\ storable_datum ex_list.
Proof. exact ex_reads. Qed.

(** C56.  For a text the reader refuses, (read text false) gives the pair of the empty list and the number of the error, which is not 0. *)
Theorem C56_error fuel max us v o rest b e :
  typed v -> in_step v -> stack v = OBool 0 :: o :: rest -> string_value (objects v) o b -> b <> [] ->
  read fuel b max 0 = PErr e -> (3 <= length (free v))%nat ->
  exists q v', callback_read fuel max (symbols_after us) v = (Ok (symbols_after us), v') /\ typed v' /\
    gives nothing (OList (Some q)) (lowered 2 v) v' /\ pair v' q (OList None) (OInteger (error_number e)) /\ 0 < error_number e.
Proof. exact (read_fails fuel max us v o rest b e). Qed.
Print Assumptions C56_error.

Example C56_error_case : typed (ex_read 20 ")") /\ in_step (ex_read 20 ")") /\
  stack (ex_read 20 ")") = [OBool 0; OString (Some 19%nat) 0 1] /\
  string_value (objects (ex_read 20 ")")) (OString (Some 19%nat) 0 1) (word ")") /\ word ")" <> [] /\
  (exists e, read 20 (word ")") 10 0 = PErr e) /\ (3 <= length (free (ex_read 20 ")")))%nat.
Proof. exact ex_read_wrong. Qed.

(** C56.  With room for the tree but not for the pair of the answer the collector takes the tree: the answer points into free memory, and no error is reported. *)
Theorem C56_memory_refuted :
  typed (ex_read 6 "(1 2) ") /\ in_step (ex_read 6 "(1 2) ") /\
  length (free (ex_read 6 "(1 2) ")) = 5%nat /\
  exists v', callback_read 20 10 fresh (ex_read 6 "(1 2) ") = (Ok fresh, v') /\ ~ typed v'.
Proof. exact (read_corrupts). Qed.
Print Assumptions C56_memory_refuted.

(** The compiler with its second sub-compiler: generators.c 1201-1428 (comptime and defmacro) and
    3543-3742 (macro), duckLisp.c 267-353, 356-388, 902-1182, 2094-2131, 2184-2187 and 2294-2318.
    M_Compile treats the programs that use neither; here the same generators work on the state of
    both sub-compilers and on the machine of the compiler.
    Simplifications, besides those of M_Compile.  After an error nothing is said of the state.  C
    functions called while compiling do not change the compiler's names (M_Convert treats those that
    do).  Disassemblies are not recorded. *)
From Coq Require Import String Ascii ZArith List Bool Floats.SpecFloat.
From Verif Require Import M_Base M_Trie M_Instr M_Asm M_Parser M_Symbol M_Scope M_Heap M_VM M_Convert M_Compile M_Load.
Import ListNotations.
Open Scope Z_scope.
Open Scope list_scope.

(** * State *)

(** duckLisp.h 127-141 duckLisp_compileState_t: the two sub-compilers and which is the current one;
    duckLisp.h 156-207: the machine [vm] of duckLisp_t.  The names known to the compiler are those of
    [runtime]; [globals_trie] of [comptime] is comptimeGlobals_trie. *)
Record mstate := MState { runtime : cstate; comptime : cstate; compiling : bool; machine : vm }.

(** compileState->currentCompileState (duckLisp.h 139). *)
Definition current (s : mstate) : cstate :=
  if compiling s then set_symbols (comptime s) (symbols_of (runtime s)) else runtime s.
(** Assignments through currentCompileState (duckLisp.h 139) and to the names in duckLisp_t. *)
Definition put (s : mstate) (c : cstate) : mstate :=
  if compiling s then MState (set_symbols (runtime s) (symbols_of c)) c true (machine s)
  else MState c (comptime s) false (machine s).
(** Assignments to currentCompileState and to the machine (generators.c 1225, 1264). *)
Definition switch (b : bool) (s : mstate) : mstate := MState (runtime s) (comptime s) b (machine s).
Definition set_machine (s : mstate) (v : vm) : mstate := MState (runtime s) (comptime s) (compiling s) v.

(** Functions returning dl_error_t that work on all this (e.g. generators.c 1201-1312). *)
Definition GM (A : Type) := mstate -> res (A * mstate).
Definition gret {A} (x : A) : GM A := fun s => Ok (x, s).
Definition gbind {A B} (m : GM A) (f : A -> GM B) : GM B := fun s =>
  match m s with
  | Ok (x, s') => f x s'
  | Err e => Err e
  | UB => UB
  | NoFuel => NoFuel
  end.
Definition gerr {A} (e : error) : GM A := fun _ => Err e.
Definition gub {A} : GM A := fun _ => UB.
Definition gget : GM mstate := fun s => Ok (s, s).
Definition gmod (f : mstate -> mstate) : GM unit := fun s => Ok (tt, f s).
Definition of_res {A} (r : res A) : GM A := fun s =>
  match r with Ok a => Ok (a, s) | Err e => Err e | UB => UB | NoFuel => NoFuel end.
Notation "'let+' x ':=' m 'in' f" := (gbind m (fun x => f)) (at level 200, x name, right associativity).
Notation "m '>+>' f" := (gbind m (fun _ => f)) (at level 61, right associativity).

(** What only concerns the current sub-compiler is as in M_Compile (e.g. emitters.c 51-79). *)
Definition lift {A} (m : CM A) : GM A := fun s =>
  match m (current s) with
  | Ok (x, c) => Ok (x, put s c)
  | Err e => Err e
  | UB => UB
  | NoFuel => NoFuel
  end.

(** emitters.c 27-1637 and duckLisp.c 58-130, 191-222, 302-317, 389-586, 647-738, 2217-2285, with the
    names of M_Compile. *)
Definition cget : GM cstate := lift M_Compile.cget.
Definition locals : GM Z := lift M_Compile.locals.
Definition locals_to (n : Z) : GM unit := lift (M_Compile.locals_to n).
Definition emit_nil : GM unit := lift M_Compile.emit_nil.
Definition emit_makeType : GM unit := lift M_Compile.emit_makeType.
Definition emit_nop : GM unit := lift M_Compile.emit_nop.
Definition emit_un (u : unop) (i : Z) : GM unit := lift (M_Compile.emit_un u i).
Definition emit_bin (b : binop) (i j : Z) : GM unit := lift (M_Compile.emit_bin b i j).
Definition emit_tern (t : ternop) (i j k : Z) : GM unit := lift (M_Compile.emit_tern t i j k).
Definition emit_vector (is : list Z) : GM unit := lift (M_Compile.emit_vector is).
Definition emit_return (count : Z) : GM unit := lift (M_Compile.emit_return count).
Definition emit_exit : GM unit := lift M_Compile.emit_exit.
Definition emit_pop (count : Z) : GM unit := lift (M_Compile.emit_pop count).
Definition emit_setStatic (cfg : config) (key src : Z) : GM unit := lift (M_Compile.emit_setStatic cfg key src).
Definition emit_pushGlobal (key : Z) : GM unit := lift (M_Compile.emit_pushGlobal key).
Definition emit_move (dest src : Z) : GM unit := lift (M_Compile.emit_move dest src).
Definition emit_pushBoolean (b : bool) : GM unit := lift (M_Compile.emit_pushBoolean b).
Definition emit_pushInteger (n : Z) : GM unit := lift (M_Compile.emit_pushInteger n).
Definition emit_pushDoubleFloat (f : option spec_float) : GM unit := lift (M_Compile.emit_pushDoubleFloat f).
Definition emit_pushString (s : bytes) : GM unit := lift (M_Compile.emit_pushString s).
Definition emit_pushClosure (variadic : bool) (label arity : Z) (captures : list Z) : GM unit := lift (M_Compile.emit_pushClosure variadic label arity captures).
Definition emit_releaseUpvalues (us : list Z) : GM unit := lift (M_Compile.emit_releaseUpvalues us).
Definition emit_ccall (key : Z) : GM unit := lift (M_Compile.emit_ccall key).
Definition emit_pushIndex (i : Z) : GM unit := lift (M_Compile.emit_pushIndex i).
Definition emit_pushUpvalue (u : Z) : GM unit := lift (M_Compile.emit_pushUpvalue u).
Definition emit_setUpvalue (u i : Z) : GM unit := lift (M_Compile.emit_setUpvalue u i).
Definition emit_funcall (i args : Z) : GM unit := lift (M_Compile.emit_funcall i args).
Definition emit_apply (i args : Z) : GM unit := lift (M_Compile.emit_apply i args).
Definition emit_brnz (label pops : Z) : GM unit := lift (M_Compile.emit_brnz label pops).
Definition emit_jump (label : Z) : GM unit := lift (M_Compile.emit_jump label).
Definition emit_label (label : Z) : GM unit := lift (M_Compile.emit_label label).
Definition new_label : GM Z := lift M_Compile.new_label.
Definition symbol (name : bytes) : GM Z := lift (M_Compile.symbol name).
Definition addGlobal (name : bytes) : GM Z := lift (M_Compile.addGlobal name).
Definition global_key (name : bytes) : GM Z := lift (M_Compile.global_key name).
Definition add_object (name : bytes) (slot : Z) : GM unit := lift (M_Compile.add_object name slot).
Definition add_function (name : bytes) (slot : Z) : GM unit := lift (M_Compile.add_function name slot).
Definition top_scope : GM scope := lift M_Compile.top_scope.
Definition look (name : bytes) (functionsOnly : bool) : GM place := lift (M_Compile.look name functionsOnly).
Definition checkArgs (l : list ast) (n : nat) (variadic : bool) : GM unit := lift (M_Compile.checkArgs l n variadic).
Definition quote_helper (t : ast) : GM unit := lift (M_Compile.quote_helper t).
Definition begin_body : GM (option (list ainstr)) := lift M_Compile.begin_body.
Definition end_body (outer : option (list ainstr)) : GM unit := lift (M_Compile.end_body outer).

(** duckLisp.c 267-300 duckLisp_pushScope: in both; only that of the current sub-compiler is the scope of
    a function. *)
Definition push_scope (f : bool) : GM unit :=
  gmod (fun s => MState (set_scopes (runtime s) (pushScope (scopes (runtime s)) (f && negb (compiling s))))
                        (set_scopes (comptime s) (pushScope (scopes (comptime s)) (f && compiling s)))
                        (compiling s) (machine s)).
(** duckLisp.c 323-353 duckLisp_popScope: from both; an error at the first is forgotten. *)
Definition pop_scope : GM unit := fun s =>
  match popScope (scopes (comptime s)) with
  | Ok sc =>
    Ok (tt, MState (set_scopes (runtime s) (match popScope (scopes (runtime s)) with Ok sc' => sc' | _ => scopes (runtime s) end))
                   (set_scopes (comptime s) sc) (compiling s) (machine s))
  | Err e => Err e
  | UB => UB
  | NoFuel => NoFuel
  end.

(** duckLisp.c 360-388 duckLisp_scope_getMacroFromName. *)
Fixpoint getMacroFromName (st : list scope) (name : bytes) : Z :=
  match st with
  | [] => -1
  | s :: r =>
    let index := trie_find (functionLocals_trie s) name in
    if negb (index =? -1) then index else getMacroFromName r name
  end.

(** duckLisp.c 2300-2309: the part of duckLisp_addInterpretedGenerator for one sub-compiler. *)
Definition add_generator (name : bytes) (c : cstate) : cstate :=
  let (t, sc) := getTop (scopes c) in
  set_scopes c (setTop sc (set_functions t (functionLocals_trie t) (trie_insert (functions_trie t) name functionType_macro))).
(** duckLisp.c 2287-2318 duckLisp_addInterpretedGenerator. *)
Definition addInterpretedGenerator (name : bytes) : GM unit :=
  gmod (fun s => MState (if compiling s then runtime s else add_generator name (runtime s)) (add_generator name (comptime s))
                        (compiling s) (machine s)).

(** The end of argumentAssembly (generators.c 3562-3567, 3656): it is not appended anywhere. *)
Definition take_body (outer : option (list ainstr)) : GM (list ainstr) := fun s =>
  match body (current s) with
  | Some b => Ok (b, put s (set_code (current s) outer (assembly (current s))))
  | None => UB
  end.
(** duckLisp_assembly_quit and duckLisp_assembly_init on the assembly of the current sub-compiler
    (generators.c 1249-1251, 1372-1374). *)
Definition take_assembly : GM (list ainstr) := fun s =>
  Ok (assembly (current s), put s (set_code (current s) (body (current s)) [])).

Section Generators.
  Variable cfg : config.
  (** Whether the assembler optimises (see M_Asm), the C functions linked with the machine of the
      compiler, and bounds for its execution and for the conversion of objects. *)
  Variable pushpops short : bool.
  Variable host : Z -> M unit.
  Variable steps : nat.
  (** The recursive calls: the stack index of the value for [Compound]; for [Form] the index a macro has
      passed on, or -1; and the expression that has taken the place of the one compiled (generators.c
      3719-3725). *)
  Variable rec2 : task -> GM (Z * list ast).
  Definition rec (t : task) : GM Z := let+ p := rec2 t in gret (fst p).

  (** Bring the value on top of the stack down to slot [start] (generators.c 3284-3299). *)
  Definition settle (start : Z) : GM unit :=
    let+ n := locals in
    emit_move start (n - 1) >+>
    let+ n := locals in
    if 0 <? n - start - 1 then emit_pop (n - start - 1) else gret tt.

  (** generators.c 3276-3299: an argument of a function call. *)
  Fixpoint arguments (l : list ast) : GM unit :=
    match l with
    | [] => gret tt
    | x :: r =>
      let+ start := locals in
      rec (Compound x true) >+>
      settle start >+>
      arguments r
    end.

  (** generators.c 3215-3322 generator_funcall. *)
  Definition generator_funcall (l : list ast) : GM unit :=
    match l with
    | AstIdentifier name :: args =>
      let+ p := look name true in
      let+ index :=
        (match p with
         | Stack slot => emit_pushIndex slot >+> gret slot
         | Upvalue u => emit_pushUpvalue u >+> let+ n := locals in gret (n - 1)
         | NotLexical =>
           let+ key := symbol name in
           emit_pushGlobal key >+> let+ n := locals in gret (n - 1)
         end) in
      let+ start := locals in
      arguments args >+>
      emit_funcall index (Z.of_nat (length args)) >+>
      locals_to (start + 1)
    | _ => gub
    end.

  (** generators.c 3324-3395 generator_funcall2: no check of the number of arguments. *)
  Definition generator_funcall2 (l : list ast) : GM unit :=
    match l with
    | _ :: f :: args =>
      let+ index := rec (Compound f true) in
      let+ start := locals in
      arguments args >+>
      emit_funcall index (Z.of_nat (length args)) >+>
      locals_to (start + 1)
    | _ => gub
    end.

  (** generators.c 3397-3473 generator_apply. *)
  Definition generator_apply (l : list ast) : GM unit :=
    checkArgs l 3 true >+>
    match l with
    | _ :: f :: args =>
      let+ index := rec (Compound f true) in
      let+ start := locals in
      arguments args >+>
      emit_apply index (Z.of_nat (length args) - 1) >+>
      locals_to (start + 1)
    | _ => gub
    end.

  (** generators.c 3475-3540 generator_callback. *)
  Definition generator_callback (l : list ast) : GM unit :=
    match l with
    | AstIdentifier name :: args =>
      let+ s := cget in
      let key := nameToValue (symbols_of s) name in
      if key =? -1 then gret tt
      else
        let+ start := locals in
        arguments args >+>
        emit_ccall key >+>
        locals_to (start + 1)
    | _ => gub
    end.

  (** generators.c 57-95, 97-146 and 148-215: the operators; 227-434, 534-612 and 2007-2093: one line
      each that calls one of them; emitters.c 81-151 and 214-754: one line each that emits the
      instruction.  emitters.c 396-424: set-car and set-cdr swap their operands. *)
  Definition generator_unary (u : unop) (l : list ast) : GM unit :=
    checkArgs l 2 false >+>
    match l with
    | [_; x] => let+ i := rec (Compound x false) in emit_un u i
    | _ => gub
    end.
  Definition generator_binary (b : binop) (swapped : bool) (l : list ast) : GM unit :=
    checkArgs l 3 false >+>
    match l with
    | [_; x; y] =>
      let+ i := rec (Compound x false) in
      let+ j := rec (Compound y false) in
      if swapped then emit_bin b j i else emit_bin b i j
    | _ => gub
    end.
  Definition generator_ternary (t : ternop) (l : list ast) : GM unit :=
    checkArgs l 4 false >+>
    match l with
    | [_; x; y; z] =>
      let+ i := rec (Compound x false) in
      let+ j := rec (Compound y false) in
      let+ k := rec (Compound z false) in
      emit_tern t i j k
    | _ => gub
    end.

  (** generators.c 436-475 generator_list: the arguments are compiled from the last to the first. *)
  Fixpoint list_loop (l : list ast) : GM Z :=
    match l with
    | [] => emit_nil >+> let+ n := locals in gret (n - 1)
    | x :: r =>
      let+ cons_index := list_loop r in
      let+ i := rec (Compound x false) in
      emit_bin BCons i cons_index >+>
      let+ n := locals in gret (n - 1)
    end.
  Definition generator_list (l : list ast) : GM unit := list_loop (tl l) >+> gret tt.

  (** generators.c 477-527 generator_vector: the same order, and a nil below. *)
  Fixpoint vector_loop (l : list ast) : GM (list Z) :=
    match l with
    | [] => gret []
    | x :: r =>
      let+ is := vector_loop r in
      let+ i := rec (Compound x false) in
      gret (i :: is)
    end.
  Definition generator_vector (l : list ast) : GM unit :=
    emit_nil >+>
    let+ is := vector_loop (tl l) in
    emit_vector is.

  (** generators.c 740-866 generator_quote. *)
  Definition generator_quote (l : list ast) : GM unit :=
    checkArgs l 2 false >+>
    match l with [_; t] => quote_helper t | _ => gub end.

  (** generators.c 1719-1782 generator_createVar_raw.  A name that is not an identifier makes no error. *)
  Definition createVar (l : list ast) : GM unit :=
    checkArgs l 3 false >+>
    match l with
    | [_; AstIdentifier name; value] =>
      let+ start := locals in
      rec (Compound value true) >+>
      add_object name start >+>
      let+ n := locals in
      emit_move start (n - 1) >+>
      (if start + 1 <? n then emit_pop (n - start - 1) else gret tt) >+>
      emit_pushIndex start
    | _ => gret tt
    end.

  (** generators.c 1809-1866 generator_global. *)
  Definition generator_global (l : list ast) : GM unit :=
    checkArgs l 3 false >+>
    match l with
    | [_; AstIdentifier name; value] =>
      rec (Compound value true) >+>
      let+ key := addGlobal name in
      let+ n := locals in
      emit_setStatic cfg key (n - 1)
    | _ => gret tt
    end.

  (** generators.c 2920-3020 generator_setq. *)
  Definition generator_setq (l : list ast) : GM unit :=
    checkArgs l 3 false >+>
    match l with
    | [_; AstIdentifier name; value] =>
      rec (Compound value true) >+>
      let+ p := look name false in
      let+ n := locals in
      match p with
      | Stack slot => emit_move slot (n - 1)
      | Upvalue u => emit_setUpvalue u (n - 1)
      | NotLexical => let+ key := global_key name in emit_setStatic cfg key (n - 1)
      end
    | _ => gerr invalidValue
    end.

  (** generators.c 1554-1594: the parameters of a function; tells whether there is a &rest. *)
  Fixpoint parameters (l : list ast) : GM bool :=
    match l with
    | [] => gret false
    | AstIdentifier name :: r =>
      if name_is name (str "&rest") then
        match r with
        | [_] => parameters r >+> gret true
        | _ => gerr invalidValue
        end
      else
        let+ n := locals in
        add_object name n >+>
        locals_to (n + 1) >+>
        parameters r
    | _ => gerr invalidValue
    end.

  (** generators.c 1430-1709 generator_lambda_raw. *)
  Definition generator_lambda (l : list ast) : GM unit :=
    checkArgs l 3 true >+>
    match l with
    | _ :: AstExpression params :: forms =>
      push_scope false >+>
      let+ n := locals in
      add_object (str "self") n >+>
      add_function (str "self") n >+>
      locals_to (n + 1) >+>
      push_scope true >+>
      let+ outer := begin_body in
      let+ skip := new_label in
      emit_jump skip >+>
      let+ function := new_label in
      emit_label function >+>
      let+ start := locals in
      let+ variadic := parameters params in
      rec (Progn forms) >+>
      let+ sc := top_scope in
      emit_releaseUpvalues (scope_uvs sc) >+>
      let+ n := locals in
      emit_return (n - start - 1) >+>
      locals_to start >+>
      emit_label skip >+>
      end_body outer >+>
      let+ sc := top_scope in
      locals_to (start - 1) >+>
      emit_pushClosure variadic function
        (if variadic then Z.of_nat (length params) - 2 else Z.of_nat (length params))
        (function_uvs sc) >+>
      let+ s := cget in
      match scopes s with
      | _ :: self :: _ =>
        (match scope_uvs self with
         | [] => gret tt
         | us =>
           let+ n := locals in
           emit_pushIndex (n - 1) >+>
           emit_releaseUpvalues us >+>
           emit_move (n - 1) n >+>
           emit_pop 1
         end) >+>
        pop_scope >+> pop_scope
      | _ => gub
      end
    | _ => gerr invalidValue
    end.

  (** generators.c 1868-1954 generator_defun: a variable that holds a lambda, also declared as a
      function. *)
  Definition generator_defun (l : list ast) : GM unit :=
    checkArgs l 4 true >+>
    match l with
    | _ :: AstIdentifier name :: rest =>
      createVar [AstIdentifier []; AstIdentifier name;
                 AstExpression (AstIdentifier defun_lambda :: rest)] >+>
      let+ n := locals in
      add_function name (n - 2)
    | _ => gerr invalidValue
    end.

  (** generators.c 2344-2528 generator_unless and 2530-2713 generator_when. *)
  Definition generator_conditional (when : bool) (l : list ast) : GM unit :=
    checkArgs l 3 true >+>
    match l with
    | _ :: c :: forms =>
      match literal_condition c with
      | Some b => if Bool.eqb b when then rec (Progn forms) >+> gret tt else emit_nil
      | None =>
        match c with
        | AstIdentifier _ | AstExpression _ =>
          let+ start := locals in
          rec (Compound c true) >+>
          let+ n := locals in
          let pops := match c with AstIdentifier _ => 0 | _ => n - start end in
          let+ then_ := new_label in
          let+ end_ := new_label in
          emit_brnz then_ pops >+>
          let+ start := locals in
          (if when then emit_nil else rec (Progn forms) >+> gret tt) >+>
          locals_to start >+>
          emit_jump end_ >+>
          emit_label then_ >+>
          (if when then rec (Progn forms) >+> gret tt else emit_nil) >+>
          emit_label end_
        | _ => gret tt
        end
      end
    | _ => gub
    end.

  (** generators.c 2715-2918 generator_if. *)
  Definition branch (start : Z) (e : ast) : GM unit :=
    rec (Compound e true) >+>
    let+ n := locals in
    if n - start - 1 <? 0 then gret tt else settle start.
  Definition generator_if (l : list ast) : GM unit :=
    checkArgs l 4 false >+>
    match l with
    | [_; c; x; y] =>
      match literal_condition c with
      | Some b => rec (Compound (if b then x else y) true) >+> gret tt
      | None =>
        match c with
        | AstIdentifier _ | AstExpression _ =>
          let+ start := locals in
          let+ pops :=
            (match c with
             | AstExpression f => rec (Form f) >+> let+ n := locals in gret (n - start)
             | _ => rec (Compound c true) >+> gret 0
             end) in
          let+ then_ := new_label in
          let+ end_ := new_label in
          emit_brnz then_ pops >+>
          let+ start := locals in
          branch start y >+>
          emit_jump end_ >+>
          emit_label then_ >+>
          locals_to start >+>
          branch start x >+>
          emit_label end_
        | _ => gret tt
        end
      end
    | _ => gub
    end.

  (** generators.c 2095-2340 generator_while. *)
  Definition loop_body (forms : list ast) : GM unit :=
    push_scope false >+>
    let+ start := locals in
    rec (Progn forms) >+>
    let+ n := locals in
    (if start <? n then emit_pop (n - start) else gret tt) >+>
    pop_scope.
  Definition generator_while (l : list ast) : GM unit :=
    checkArgs l 3 true >+>
    match l with
    | _ :: c :: forms =>
      match c with
      | AstCallback _ | AstLiteral _ => gret tt
      | _ =>
        match literal_condition c with
        | Some true =>
          let+ start := new_label in
          emit_label start >+>
          loop_body forms >+>
          emit_jump start
        | _ =>
          let+ start := new_label in
          let+ loop := new_label in
          emit_jump start >+>
          emit_label loop >+>
          loop_body forms >+>
          emit_label start >+>
          let+ height := locals in
          rec (Compound c true) >+>
          let+ n := locals in
          emit_brnz loop (n - height) >+>
          emit_nil
        end
      end
    | _ => gub
    end.

  Fixpoint repeat_push (k : nat) : GM unit :=
    match k with
    | O => gret tt
    | S k => let+ n := locals in emit_pushIndex (n - 1) >+> repeat_push k
    end.

  (** generators.c 884-1011: the loop of generator_noscope; 1013-1042 generator_noscope2.  The form is
      looked at after it has been compiled, when the expansion of a macro has taken its place. *)
  Fixpoint noscope_loop (l : list ast) : GM unit :=
    match l with
    | [] => gret tt
    | e :: r =>
      let last := match r with [] => true | _ => false end in
      let+ start := locals in
      let+ p := rec2 (Compound e true) in
      let e := match e with AstExpression _ => AstExpression (snd p) | _ => e end in
      (match binder e with
       | Some g =>
         (match g with
          | GVar => createVar (form_of e)
          | GDefun => generator_defun (form_of e)
          | _ => rec (Noscope (tl (form_of e))) >+> gret tt
          end) >+>
         (if last then gret tt else emit_pop 1)
       | None =>
         let+ n := locals in
         let pops := n - start - (if last then 1 else 0) in
         if 0 <? pops then
           (if last then emit_move (n - 1 - pops) (n - 1) else gret tt) >+> emit_pop pops
         else repeat_push (Z.to_nat (- pops))
       end) >+>
      noscope_loop r
    end.
  Definition generator_noscope (l : list ast) : GM unit :=
    noscope_loop l >+>
    match l with [] => emit_nil | _ => gret tt end.

  (** generators.c 3744-3790 generator_expression. *)
  Definition generator_expression (l : list ast) : GM unit :=
    push_scope false >+>
    let+ start := locals in
    rec (Noscope l) >+>
    let+ sc := top_scope in
    emit_releaseUpvalues (scope_uvs sc) >+>
    let+ n := locals in
    (if start <? n - 1 then emit_move start (n - 1) else gret tt) >+>
    let+ n := locals in
    (if 0 <? n - (start + 1) then emit_pop (n - (start + 1)) else gret tt) >+>
    pop_scope.

  Definition generate (g : generator) (l : list ast) : GM unit :=
    match g with
    | GDeclare => emit_nil
    | GNop => emit_nop
    | GFuncall => generator_funcall2 l
    | GApply => generator_apply l
    | GVar | GDefun | GNoscope => gret tt
    | GGlobal => generator_global l
    | GSetq => generator_setq l
    | GUn u => generator_unary u l
    | GBin b swapped => generator_binary b swapped l
    | GTern t => generator_ternary t l
    | GWhile => generator_while l
    | GIf => generator_if l
    | GWhen => generator_conditional true l
    | GUnless => generator_conditional false l
    | GLambda => generator_lambda l
    | GQuote => generator_quote l
    | GList => generator_list l
    | GVector => generator_vector l
    | GMakeType => checkArgs l 1 false >+> emit_makeType
    | GError => gerr invalidValue
    | GOther => gub
    end.

  (** * Execution while compiling *)

  (** Assemble, append an instruction halt and execute (generators.c 1239-1264, 1361-1389, 3655-3677). *)
  Definition execute_now (prog : list ainstr) : GM (res unit) :=
    let+ c := cget in
    let+ code := of_res (assemble pushpops short false (Z.to_nat (label_number c)) prog) in
    fun s => let (r, v) := execute_with_ip host steps (code ++ [opcode CHalt W8]) 0 (machine s) in Ok (r, set_machine s v).
  (** DL_ARRAY_GETTOPADDRESS(duckLisp->vm.stack, duckVM_object_t) (generators.c 1265, 3685). *)
  Definition machine_top : GM object := fun s =>
    match stack (machine s) with o :: _ => Ok (o, s) | [] => UB end.
  (** duckVM_pop (generators.c 1277, 3692). *)
  Definition machine_pop : GM unit := fun s =>
    match stack_pop (machine s) with
    | (Ok _, v) => Ok (tt, set_machine s v)
    | (Err e, _) => Err e
    | (UB, _) => UB
    | (NoFuel, _) => NoFuel
    end.
  (** duckLisp_objectToAST (generators.c 1274, 3689). *)
  Definition to_tree (use_exprs : bool) (o : object) : GM ast := fun s =>
    of_res (object_to_ast steps (objects (machine s)) use_exprs o) s.

  (** generators.c 1201-1312 generator_comptime.  The top of the stack is read before the error is
      looked at. *)
  Definition generator_comptime (l : list ast) : GM unit :=
    let+ s := gget in
    if compiling s then rec (Noscope (tl l)) >+> gret tt
    else
      gmod (switch true) >+>
      let+ outer := begin_body in
      rec (Noscope (tl l)) >+>
      end_body outer >+>
      let+ prog := take_assembly in
      let+ r := execute_now prog in
      let+ o := machine_top in
      of_res r >+>
      let+ t := to_tree false o in
      machine_pop >+>
      let+ n := locals in
      locals_to (n - 1) >+>
      gmod (switch false) >+>
      rec (Compound t true) >+> gret tt.

  (** generators.c 1314-1428 generator_defmacro. *)
  Definition generator_defmacro (l : list ast) : GM unit :=
    checkArgs l 4 true >+>
    match l with
    | _ :: AstIdentifier name :: AstExpression _ :: _ =>
      let+ s := gget in
      if compiling s then gerr invalidValue
      else
        gmod (switch true) >+>
        generator_defun l >+>
        let+ prog := take_assembly in
        let+ r := execute_now prog in
        of_res r >+>
        addInterpretedGenerator name >+>
        gmod (switch false) >+>
        emit_nil >+>
        addInterpretedGenerator name
    | _ => gerr invalidValue
    end.

  (** generators.c 3587-3628: the arguments of a macro. *)
  Fixpoint quoted_arguments (l : list ast) : GM unit :=
    match l with
    | [] => gret tt
    | x :: r =>
      let+ start := locals in
      rec (Compound (AstExpression [AstIdentifier (str "__quote"); x]) true) >+>
      settle start >+>
      quoted_arguments r
    end.

  (** generators.c 3543-3742 generator_macro.  The code is not appended to that of the sub-compiler, and
      the height of the stack is that of the machine.  The result is the index of the value of the
      expansion and the expansion, if it is an expression. *)
  Definition generator_macro (l : list ast) : GM (Z * list ast) :=
    match l with
    | AstIdentifier name :: args =>
      let+ s := gget in
      gmod (switch true) >+>
      let+ last := locals in
      locals_to (zlen (stack (machine s))) >+>
      let+ c := cget in
      let+ outer := begin_body in
      let+ start := locals in
      quoted_arguments args >+>
      emit_funcall (getMacroFromName (scopes c) name) (Z.of_nat (length args)) >+>
      locals_to (start + 1) >+>
      let+ prog := take_body outer in
      let+ r := execute_now prog in
      of_res r >+>
      let+ o := machine_top in
      let+ t := to_tree true o in
      machine_pop >+>
      locals_to last >+>
      gmod (switch (compiling s)) >+>
      let+ p := rec2 (Compound t false) in
      gret (fst p, match t with AstExpression _ => snd p | _ => l end)
    | _ => gub
    end.

  (** duckLisp.c 1080-1182 compile_expression.  The generators that M_Compile leaves out are comptime and
      defmacro (duckLisp.c 1718-1724, 1753-1754). *)
  Definition compile_expression (l : list ast) : GM (Z * list ast) :=
    let done (m : GM unit) : GM (Z * list ast) := m >+> gret (-1, l) in
    match l with
    | [] => done emit_nil
    | AstIdentifier name :: _ =>
      let+ s := cget in
      match getFunctionFromName cfg (scopes s) name with
      | CalleeFuncall => done (generator_funcall l)
      | CalleeCallback => done (generator_callback l)
      | CalleeGenerator GOther =>
        if getScopeFunction (scopes s) name =? functionType_macro then generator_macro l
        else if name_is name (str "comptime") || name_is name (str "__comptime") then done (generator_comptime l)
        else done (generator_defmacro l)
      | CalleeGenerator g => done (generate g l)
      end
    | AstCallback _ :: _ | AstLiteral _ :: _ => done (gret tt)
    | _ => done (rec (Progn l) >+> gret tt)
    end.

  (** duckLisp.c 925-1060: the switch of compile_compoundExpression.  A macro may pass on the index of the
      value (1041-1052). *)
  Definition compile_compound (e : ast) (pushReference : bool) : GM (Z * list ast) :=
    let value (m : GM Z) : GM (Z * list ast) := let+ i := m in gret (i, []) in
    let top := let+ n := locals in gret (n - 1) in
    match e with
    | AstBool b => value (emit_pushBoolean b >+> top)
    | AstInt n => value (emit_pushInteger n >+> top)
    | AstFloat f => value (emit_pushDoubleFloat f >+> top)
    | AstString s => value (emit_pushString s >+> top)
    | AstIdentifier name =>
      value (let+ p := look name false in
             match p with
             | Stack slot => if pushReference then emit_pushIndex slot >+> gret slot else gret slot
             | Upvalue u => emit_pushUpvalue u >+> top
             | NotLexical => let+ key := global_key name in emit_pushGlobal key >+> top
             end)
    | AstExpression l =>
      let+ p := rec2 (Form l) in
      let+ i := (if fst p =? -1 then top else gret (fst p)) in
      gret (i, snd p)
    | AstCallback _ | AstLiteral _ => value (if pushReference then gret (-1) else gub)
    end.
End Generators.

(** The recursion of the compiler.  [fuel] bounds it; [depth] is generators_recursion_depth, which
    compile_compoundExpression checks (duckLisp.c 918-924). *)
Fixpoint compile (cfg : config) (pushpops short : bool) (host : Z -> M unit) (steps fuel : nat) (depth : Z) (t : task) : GM (Z * list ast) :=
  match fuel with
  | O => fun _ => NoFuel
  | S f =>
    let again := compile cfg pushpops short host steps f in
    match t with
    | Compound e pushReference =>
      if max_depth cfg <=? depth + 1 then gerr bufferOverflow
      else compile_compound (again (depth + 1)) e pushReference
    | Form l => compile_expression cfg pushpops short host steps (again depth) l
    | Noscope l => generator_noscope (again depth) l >+> gret (0, [])
    | Progn l => generator_expression (again depth) l >+> gret (0, [])
    end
  end.

(** duckLisp.c 2094-2122: new sub-compilers; the names, the globals of both and the machine are those
    of duckLisp_t. *)
Definition compile_state (y : symbols) (g gc : trie) (v : vm) : mstate :=
  MState (M_Compile.compile_state y g) (M_Compile.compile_state y gc) false v.
(** duckLisp.c 1208-1266: the first stage of compileAST. *)
Definition compileAST (cfg : config) (pushpops short : bool) (host : Z -> M unit) (steps fuel : nat) (e : ast) : GM unit :=
  compile cfg pushpops short host steps fuel 0 (Compound e true) >+>
  let+ n := locals in
  (if 1 <? n then emit_move (n - 2) (n - 1) >+> emit_pop 1 else gret tt) >+>
  emit_exit.

(** What is left of loading a text: byte code, and what duckLisp_t knows from now on, with the globals
    of the second sub-compiler and the machine (duckLisp.h 156-207). *)
Record mloaded := MLoaded { mcode : list Z; msymbols : symbols; mglobals : trie; mcomptime_globals : trie; mmachine : vm }.
(** duckLisp.c 2137-2215 duckLisp_loadString, as in M_Load. *)
Definition load_string (cfg : config) (pushpops short strip : bool) (host : Z -> M unit) (steps fuel max : nat) (source : list Z) (behind : Z)
    (y : symbols) (g gc : trie) (v : vm) : res mloaded :=
  ' (a, _) <- of_read (read fuel (load_source source behind) max 0) ;;
  ' (_, s) <- compileAST cfg pushpops short host steps fuel a (compile_state y g gc v) ;;
  code <- assemble pushpops short strip (Z.to_nat (label_number (runtime s))) (assembly (runtime s)) ;;
  Ok (MLoaded code (symbols_of (runtime s)) (globals_trie (runtime s)) (globals_trie (comptime s)) (machine s)).

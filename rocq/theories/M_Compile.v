(** The compiler from syntax trees to assembly: emitters.c, duckLisp.c 902-1266 and the generators of
    generators.c.
    Simplifications.  The allocator never fails.  Stack heights and indices are unbounded integers.
    Error messages are left out.  Labels are the numbers duckLisp_register_label gives them; the C
    code looks a label up by its generated name, which is unique (C34), in the scope it was declared
    in.  Macros, defmacro and comptime give [UB] here; M_Macro has them, with the second sub-compiler
    they use.  The parenthesis inference is in M_Infer. *)
From Coq Require Import String Ascii ZArith List Bool Floats.SpecFloat.
From Verif Require Import M_Base M_Trie M_Instr M_Asm M_Parser M_Symbol M_Scope.
Import ListNotations.
Open Scope Z_scope.
Open Scope list_scope.

(** The bytes of a name in the C source (e.g. duckLisp.c 1624). *)
Definition str (s : String.string) : bytes :=
  map (fun c => Z.of_nat (Ascii.nat_of_ascii c)) (String.list_ascii_of_string s).

(** * Compile state *)

(** duckLisp.h duckLisp_subCompileState_t with the fields symbols_trie, symbols_array, gensym_number
    and runtimeGlobals_trie of duckLisp_t.  [body] is the body of the function being compiled
    (bodyAssembly, generators.c 1442); outside functions instructions go to [assembly]. *)
Record cstate := CState {
  body : option (list ainstr);
  assembly : list ainstr;
  scopes : list scope;
  locals_length : Z;
  label_number : Z;
  symbols_of : symbols;
  globals_trie : trie;
}.

(** Assignment to a field of duckLisp_subCompileState_t (duckLisp.h 127-133). *)
Definition set_code (s : cstate) b a :=
  CState b a (scopes s) (locals_length s) (label_number s) (symbols_of s) (globals_trie s).
(** Assignment to a field of duckLisp_subCompileState_t (duckLisp.h 127-133). *)
Definition set_scopes (s : cstate) sc :=
  CState (body s) (assembly s) sc (locals_length s) (label_number s) (symbols_of s) (globals_trie s).
(** Assignment to a field of duckLisp_subCompileState_t (duckLisp.h 127-133). *)
Definition set_locals_length (s : cstate) n :=
  CState (body s) (assembly s) (scopes s) n (label_number s) (symbols_of s) (globals_trie s).
(** Assignment to a field of duckLisp_t (duckLisp.h 156-207). *)
Definition set_symbols (s : cstate) y :=
  CState (body s) (assembly s) (scopes s) (locals_length s) (label_number s) y (globals_trie s).
(** Assignment to a field of duckLisp_t (duckLisp.h 156-207). *)
Definition set_globals_trie (s : cstate) t :=
  CState (body s) (assembly s) (scopes s) (locals_length s) (label_number s) (symbols_of s) t.

(** What does not change during compilation: the names of the linked C functions (callbacks_trie),
    generators_max_recursion_depth, and whether duckLisp_emit_setStatic has the test of emitters.c
    772, which it has.  The variant without the test serves to state what the test does (C41). *)
Record config := Config { callbacks : list bytes; max_depth : Z; static_test : bool }.

(** Functions returning dl_error_t that work on the compile state (e.g. duckLisp.c 902-1075). *)
Definition CM (A : Type) := cstate -> res (A * cstate).
Definition cret {A} (x : A) : CM A := fun s => Ok (x, s).
Definition cbind {A B} (m : CM A) (f : A -> CM B) : CM B := fun s =>
  match m s with
  | Ok (x, s') => f x s'
  | Err e => Err e
  | UB => UB
  | NoFuel => NoFuel
  end.
Definition cerr {A} (e : error) : CM A := fun _ => Err e.
Definition cub {A} : CM A := fun _ => UB.
Definition cget : CM cstate := fun s => Ok (s, s).
Definition cmod (f : cstate -> cstate) : CM unit := fun s => Ok (tt, f s).
Notation "'let*' x ':=' m 'in' f" := (cbind m (fun x => f)) (at level 200, x name, right associativity).
Notation "m '>>>' f" := (cbind m (fun _ => f)) (at level 61, right associativity).

(** * Emitters *)

(** dl_array_pushElement(assembly, &instruction) in every emitter (e.g. emitters.c 51-79). *)
Definition add_code (a : ainstr) (s : cstate) : cstate :=
  match body s with
  | Some b => set_code s (Some (b ++ [a])) (assembly s)
  | None => set_code s None (assembly s ++ [a])
  end.
(** duckLisp_localsLength_get and assignments to locals_length (duckLisp.c 685-695). *)
Definition locals : CM Z := fun s => Ok (locals_length s, s).
Definition locals_to (n : Z) : CM unit := cmod (fun s => set_locals_length s n).

(** Push an instruction and add [d] to locals_length (e.g. emitters.c 51-79). *)
Definition emit (a : ainstr) (d : Z) : CM unit :=
  cmod (fun s => set_locals_length (add_code a s) (locals_length s + d)).

(** emitters.c 27-49 nullaryOperator, as used by emit_nil 214 and emit_makeType 301. *)
Definition emit_nil : CM unit := emit ANil 1.
Definition emit_makeType : CM unit := emit AMakeType 1.
(** emitters.c 756-759 emit_nop: the decrement after the return is never reached. *)
Definition emit_nop : CM unit := emit ANop 1.

(** emitters.c 153-166 unaryStackOperator; 168-186 binaryStackOperator; 188-211 ternaryStackOperator. *)
Definition emit_un (u : unop) (i : Z) : CM unit :=
  let* n := locals in emit (AUn u (n - i)) 1.
Definition emit_bin (b : binop) (i j : Z) : CM unit :=
  let* n := locals in emit (ABin b (n - i) (n - j)) 1.
Definition emit_tern (t : ternop) (i j k : Z) : CM unit :=
  let* n := locals in emit (ATern t (n - i) (n - j) (n - k)) 1.
(** emitters.c 461-502 emit_vector. *)
Definition emit_vector (is : list Z) : CM unit :=
  let* n := locals in emit (AVector (map (fun i => n - i) is)) 1.
(** emitters.c 565-594 emit_return; 596-617 emit_exit; 619-656 emit_pop. *)
Definition emit_return (count : Z) : CM unit := emit (AReturn count) (- count).
Definition emit_exit : CM unit := emit AHalt (-1).
Definition emit_pop (count : Z) : CM unit :=
  if count =? 0 then cret tt else emit (APop count) (- count).
(** emitters.c 761-786 emit_setStatic. *)
Definition emit_setStatic (cfg : config) (key src : Z) : CM unit :=
  if static_test cfg && (key =? src) then cret tt
  else let* n := locals in emit (ASetGlobal (n - src) key) 0.
(** emitters.c 788-800 emit_pushGlobal; 802-822 emit_move. *)
Definition emit_pushGlobal (key : Z) : CM unit := emit (APushGlobal key) 1.
Definition emit_move (dest src : Z) : CM unit :=
  if dest =? src then cret tt
  else let* n := locals in emit (AMove (n - src) (n - dest)) 0.
(** emitters.c 824-887: emit_pushBoolean, emit_pushInteger, emit_pushDoubleFloat. *)
Definition emit_pushBoolean (b : bool) : CM unit := emit (APushBoolean (if b then 1 else 0)) 1.
Definition emit_pushInteger (n : Z) : CM unit := emit (APushInteger n) 1.
(** The bits of an IEEE 754 double (the value an operand is copied from, emitters.c 866-887). *)
Definition bits_of_float (f : spec_float) : Z :=
  let sign (s : bool) := if s then 2 ^ 63 else 0 in
  match f with
  | S754_zero s => sign s
  | S754_infinity s => sign s + 2047 * 2 ^ 52
  | S754_nan => 2047 * 2 ^ 52 + 2 ^ 51
  | S754_finite s m e =>
    if Zpos m <? 2 ^ 52 then sign s + Zpos m
    else sign s + (e + 1075) * 2 ^ 52 + (Zpos m - 2 ^ 52)
  end.
(** emitters.c 866-887 emit_pushDoubleFloat. *)
Definition emit_pushDoubleFloat (f : option spec_float) : CM unit :=
  match f with Some f => emit (APushFloat (bits_of_float f)) 1 | None => cub end.
(** emitters.c 889-949 emit_pushString and 951-1014 emit_pushSymbol: long strings are cut. *)
Definition cut (s : bytes) : bytes :=
  if Z.of_nat (length s) <=? 65535 then s else firstn (Z.to_nat 65535) s.
Definition emit_pushString (s : bytes) : CM unit := emit (APushString (cut s)) 1.
Definition emit_pushSymbol (id : Z) (s : bytes) : CM unit := emit (APushSymbol id (cut s)) 1.
(** emitters.c 1016-1081 emit_pushClosure: captured slots become relative, inherited upvalues stay. *)
Definition emit_pushClosure (variadic : bool) (label arity : Z) (captures : list Z) : CM unit :=
  let* n := locals in
  emit (APushClosure variadic label arity (map (fun c => if 0 <=? c then n - c else c) captures)) 1.
(** emitters.c 1083-1131 emit_releaseUpvalues. *)
Definition emit_releaseUpvalues (us : list Z) : CM unit :=
  let us := filter (fun u => 0 <=? u) us in
  match us with
  | [] => cret tt
  | _ => let* n := locals in emit (AReleaseUpvalues (map (fun u => n - u) us)) 0
  end.
(** emitters.c 1133-1141 emit_ccall; 1143-1152 emit_pushIndex; 1154-1166 emit_pushUpvalue;
    1168-1194 emit_setUpvalue. *)
Definition emit_ccall (key : Z) : CM unit := emit (ACcall key) 1.
Definition emit_pushIndex (i : Z) : CM unit := let* n := locals in emit (APushIndex (n - i)) 1.
Definition emit_pushUpvalue (u : Z) : CM unit := emit (APushUpvalue u) 1.
Definition emit_setUpvalue (u i : Z) : CM unit := let* n := locals in emit (ASetUpvalue u (n - i)) 0.
(** emitters.c 1196-1236 emit_funcall and emit_apply: the number of arguments is a dl_uint8_t. *)
Definition emit_funcall (i args : Z) : CM unit :=
  let* n := locals in emit (AFuncall (n - i) (args mod 256)) 1.
Definition emit_apply (i args : Z) : CM unit :=
  let* n := locals in emit (AApply (n - i) (args mod 256)) 1.
(** emitters.c 1409-1487 emit_brnz; 1489-1552 emit_jump; 1554-1637 emit_label. *)
Definition emit_brnz (label pops : Z) : CM unit :=
  if pops <? 0 then cerr invalidValue else emit (ABrnz label pops) (- pops).
Definition emit_jump (label : Z) : CM unit := emit (AJump label) 0.
Definition emit_label (label : Z) : CM unit := emit (ALabel label) 0.

(** * Names, labels and scopes *)

(** duckLisp.c 698-738: duckLisp_gensym and duckLisp_register_label; the top scope is created if there
    is none (duckLisp_scope_getTop). *)
Definition new_label : CM Z := fun s =>
  Ok (label_number s,
      CState (body s) (assembly s) (snd (getTop (scopes s))) (locals_length s) (label_number s + 1)
        (fst (gensym (symbols_of s))) (globals_trie s)).

(** duckLisp.c 201-222 duckLisp_symbol_create followed by 191-198 duckLisp_symbol_nameToValue. *)
Definition symbol (name : bytes) : CM Z := fun s =>
  let (y, r) := symbol_create true (symbols_of s) name in
  match r with
  | Ok _ => Ok (nameToValue y name, set_symbols s y)
  | Err e => Err e
  | UB => UB
  | NoFuel => NoFuel
  end.

(** duckLisp.c 2240-2258 duckLisp_addGlobal. *)
Definition addGlobal (name : bytes) : CM Z :=
  let* key := symbol name in
  cmod (fun s => set_globals_trie s (trie_insert (globals_trie s) name key)) >>> cret key.

(** duckLisp.c 267-354 duckLisp_pushScope and duckLisp_popScope, 2217-2285 duckLisp_scope_addObject and duckLisp_addInterpretedFunction. *)
Definition push_scope (f : bool) : CM unit := cmod (fun s => set_scopes s (pushScope (scopes s) f)).
Definition pop_scope : CM unit := fun s =>
  match popScope (scopes s) with
  | Ok sc => Ok (tt, set_scopes s sc)
  | Err e => Err e
  | UB => UB
  | NoFuel => NoFuel
  end.
Definition add_object (name : bytes) (slot : Z) : CM unit :=
  cmod (fun s => set_scopes s (addObject (scopes s) name slot)).
Definition add_function (name : bytes) (slot : Z) : CM unit :=
  cmod (fun s => set_scopes s (addInterpretedFunction (scopes s) name slot)).
(** duckLisp_scope_getTop (duckLisp.c 302-317). *)
Definition top_scope : CM scope := fun s =>
  let (t, sc) := getTop (scopes s) in Ok (t, set_scopes s sc).
Definition look (name : bytes) (functionsOnly : bool) : CM place := fun s =>
  let (sc, p) := look_up (scopes s) name functionsOnly in Ok (p, set_scopes s sc).

(** duckLisp.c 647-654 duckLisp_scope_getGlobalFromName, or a new symbol if it finds none
    (duckLisp.c 986-1018, generators.c 2982-3026). *)
Definition global_key (name : bytes) : CM Z := fun s =>
  let k := trie_find (globals_trie s) name in
  if k =? -1 then symbol name s else Ok (k, s).

(** * Generators *)

(** duckLisp.c 1623-1860: the generators by name.  Every name is also defined with two leading
    underscores. *)
Inductive generator :=
| GDeclare | GNop | GFuncall | GApply | GVar | GGlobal | GSetq
| GUn (u : unop) | GBin (b : binop) (swapped : bool) | GTern (t : ternop)
| GWhile | GIf | GWhen | GUnless | GDefun | GLambda | GNoscope | GQuote | GList | GVector | GMakeType
| GError | GOther.

(** duckLisp.c 1622-1907: the table of duckLisp_init. *)
Definition generator_table : list (bytes * generator) :=
  [ (str "declare", GDeclare); (str "nop", GNop); (str "funcall", GFuncall); (str "apply", GApply);
    (str "var", GVar); (str "global", GGlobal); (str "setq", GSetq); (str "not", GUn UNot);
    (str "*", GBin BMul false); (str "/", GBin BDiv false); (str "+", GBin BAdd false);
    (str "-", GBin BSub false); (str "while", GWhile); (str "if", GIf); (str "when", GWhen);
    (str "unless", GUnless); (str "=", GBin BEqual false); (str "<", GBin BLess false);
    (str ">", GBin BGreater false); (str "defun", GDefun); (str "lambda", GLambda);
    (str "defmacro", GOther); (str "noscope", GNoscope); (str "comptime", GOther);
    (str "quote", GQuote); (str "list", GList); (str "vector", GVector);
    (str "make-vector", GBin BMakeVector false); (str "get-vector-element", GBin BGetVecElt false);
    (str "set-vector-element", GTern TSetVecElt); (str "cons", GBin BCons false);
    (str "car", GUn UCar); (str "cdr", GUn UCdr);
    (str "set-car", GBin BSetCar true); (str "set-cdr", GBin BSetCdr true);
    (str "null?", GUn UNullp); (str "type-of", GUn UTypeof); (str "make-type", GMakeType);
    (str "make-instance", GTern TMakeInstance); (str "composite-value", GUn UCompositeValue);
    (str "composite-function", GUn UCompositeFunction);
    (str "set-composite-value", GBin BSetCompositeValue false);
    (str "set-composite-function", GBin BSetCompositeFunction false);
    (str "make-string", GUn UMakeString); (str "concatenate", GBin BConcatenate false);
    (str "substring", GTern TSubstring); (str "length", GUn ULength);
    (str "symbol-string", GUn USymbolString); (str "symbol-id", GUn USymbolId);
    (str "error", GError) ].

(** Comparing and finding names (DuckLib/trie.c 272-327 on this table). *)
Definition name_is (a b : bytes) : bool := if list_eq_dec Z.eq_dec a b then true else false.
Fixpoint assoc_name {A} (l : list (bytes * A)) (name : bytes) : option A :=
  match l with
  | [] => None
  | (n, x) :: r => if name_is n name then Some x else assoc_name r name
  end.
(** The generator error has no name without underscores.  generators.c 1893: defun compiles to a
    generator whose name starts with a null character. *)
Definition defun_lambda : bytes := 0 :: str "defun:lambda".
Definition find_generator (name : bytes) : option generator :=
  if name_is name defun_lambda then Some GLambda
  else
    match name with
    | 95 :: 95 :: r => match assoc_name generator_table r with Some g => Some g | None => assoc_name generator_table name end
    | _ => match assoc_name generator_table name with Some GError => None | g => g end
    end.

(** duckLisp.c 587-645 duckLisp_scope_getFunctionFromName and the choice made of its result in
    compile_expression (duckLisp.c 1120-1160). *)
Inductive callee := CalleeFuncall | CalleeCallback | CalleeGenerator (g : generator).
Definition getFunctionFromName (cfg : config) (st : list scope) (name : bytes) : callee :=
  let t := getScopeFunction st name in
  if t =? -1 then
    if existsb (name_is name) (callbacks cfg) then CalleeCallback
    else match find_generator name with Some g => CalleeGenerator g | None => CalleeFuncall end
  else if t =? functionType_c then CalleeCallback
  else if t =? functionType_macro then CalleeGenerator GOther
  else CalleeFuncall.

(** duckLisp.c 58-130 duckLisp_checkArgsAndReportError; the count includes the head of the form. *)
Definition checkArgs (l : list ast) (n : nat) (variadic : bool) : CM unit :=
  if if variadic then (n <=? length l)%nat else (length l =? n)%nat then cret tt
  else cerr invalidValue.

(** generators.c 614-738 quote_helper; the part of 740-866 quote that builds the tree is the same. *)
Fixpoint quote_helper (t : ast) : CM unit :=
  match t with
  | AstBool b => emit_pushBoolean b
  | AstInt n => emit_pushInteger n
  | AstFloat f => emit_pushDoubleFloat f
  | AstString s => emit_pushString s
  | AstIdentifier s => let* id := symbol s in emit_pushSymbol id s
  | AstExpression l =>
    emit_nil >>>
    let* last := locals in
    (fix elements (l : list ast) : CM Z :=
       match l with
       | [] => cret (last - 1)
       | x :: r =>
         let* last_temp_index := elements r in
         quote_helper x >>>
         let* n := locals in
         emit_bin BCons (n - 1) last_temp_index >>>
         let* n := locals in cret (n - 1)
       end) l >>> cret tt
  | AstCallback _ | AstLiteral _ => cret tt
  end.

(** The loops over literal conditions (generators.c 2126-2146, 2372-2388, 2743-2759). *)
Definition literal_condition (c : ast) : option bool :=
  match c with
  | AstBool b => Some b
  | AstInt n => Some (negb (n =? 0))
  | AstFloat (Some (S754_zero _)) => Some false
  | AstFloat _ => Some true
  | AstString s => Some (0 <? Z.of_nat (length s))
  | _ => None
  end.

(** What the compiler is asked to do: compile_compoundExpression with its argument pushReference,
    compile_expression, generator_noscope and generator_expression
    (duckLisp.c 902-1182, generators.c 869-1002 and 3744-3792). *)
Inductive task :=
| Compound (e : ast) (pushReference : bool)
| Form (l : list ast)
| Noscope (l : list ast)
| Progn (l : list ast).

Section Generators.
  Variable cfg : config.
  (** The recursive calls; [Compound] gives the stack index of the value. *)
  Variable rec : task -> CM Z.

  (** Bring the value on top of the stack down to slot [start] (generators.c 3284-3299). *)
  Definition settle (start : Z) : CM unit :=
    let* n := locals in
    emit_move start (n - 1) >>>
    let* n := locals in
    if 0 <? n - start - 1 then emit_pop (n - start - 1) else cret tt.

  (** generators.c 3276-3299: an argument of a function call. *)
  Fixpoint arguments (l : list ast) : CM unit :=
    match l with
    | [] => cret tt
    | x :: r =>
      let* start := locals in
      rec (Compound x true) >>>
      settle start >>>
      arguments r
    end.

  (** generators.c 3215-3322 generator_funcall. *)
  Definition generator_funcall (l : list ast) : CM unit :=
    match l with
    | AstIdentifier name :: args =>
      let* p := look name true in
      let* index :=
        (match p with
         | Stack slot => emit_pushIndex slot >>> cret slot
         | Upvalue u => emit_pushUpvalue u >>> let* n := locals in cret (n - 1)
         | NotLexical =>
           let* key := symbol name in
           emit_pushGlobal key >>> let* n := locals in cret (n - 1)
         end) in
      let* start := locals in
      arguments args >>>
      emit_funcall index (Z.of_nat (length args)) >>>
      locals_to (start + 1)
    | _ => cub
    end.

  (** generators.c 3324-3395 generator_funcall2: no check of the number of arguments. *)
  Definition generator_funcall2 (l : list ast) : CM unit :=
    match l with
    | _ :: f :: args =>
      let* index := rec (Compound f true) in
      let* start := locals in
      arguments args >>>
      emit_funcall index (Z.of_nat (length args)) >>>
      locals_to (start + 1)
    | _ => cub
    end.

  (** generators.c 3397-3473 generator_apply. *)
  Definition generator_apply (l : list ast) : CM unit :=
    checkArgs l 3 true >>>
    match l with
    | _ :: f :: args =>
      let* index := rec (Compound f true) in
      let* start := locals in
      arguments args >>>
      emit_apply index (Z.of_nat (length args) - 1) >>>
      locals_to (start + 1)
    | _ => cub
    end.

  (** generators.c 3475-3540 generator_callback. *)
  Definition generator_callback (l : list ast) : CM unit :=
    match l with
    | AstIdentifier name :: args =>
      let* s := cget in
      let key := nameToValue (symbols_of s) name in
      if key =? -1 then cret tt
      else
        let* start := locals in
        arguments args >>>
        emit_ccall key >>>
        locals_to (start + 1)
    | _ => cub
    end.

  (** generators.c 57-95, 97-146 and 148-215: the operators; 227-434, 534-612 and 2007-2093: one line
      each that calls one of them; emitters.c 81-151 and 214-754: one line each that emits the
      instruction.  emitters.c 396-424: set-car and set-cdr swap their operands. *)
  Definition generator_unary (u : unop) (l : list ast) : CM unit :=
    checkArgs l 2 false >>>
    match l with
    | [_; x] => let* i := rec (Compound x false) in emit_un u i
    | _ => cub
    end.
  Definition generator_binary (b : binop) (swapped : bool) (l : list ast) : CM unit :=
    checkArgs l 3 false >>>
    match l with
    | [_; x; y] =>
      let* i := rec (Compound x false) in
      let* j := rec (Compound y false) in
      if swapped then emit_bin b j i else emit_bin b i j
    | _ => cub
    end.
  Definition generator_ternary (t : ternop) (l : list ast) : CM unit :=
    checkArgs l 4 false >>>
    match l with
    | [_; x; y; z] =>
      let* i := rec (Compound x false) in
      let* j := rec (Compound y false) in
      let* k := rec (Compound z false) in
      emit_tern t i j k
    | _ => cub
    end.

  (** generators.c 436-475 generator_list: the arguments are compiled from the last to the first. *)
  Fixpoint list_loop (l : list ast) : CM Z :=
    match l with
    | [] => emit_nil >>> let* n := locals in cret (n - 1)
    | x :: r =>
      let* cons_index := list_loop r in
      let* i := rec (Compound x false) in
      emit_bin BCons i cons_index >>>
      let* n := locals in cret (n - 1)
    end.
  Definition generator_list (l : list ast) : CM unit := list_loop (tl l) >>> cret tt.

  (** generators.c 477-527 generator_vector: the same order, and a nil below. *)
  Fixpoint vector_loop (l : list ast) : CM (list Z) :=
    match l with
    | [] => cret []
    | x :: r =>
      let* is := vector_loop r in
      let* i := rec (Compound x false) in
      cret (i :: is)
    end.
  Definition generator_vector (l : list ast) : CM unit :=
    emit_nil >>>
    let* is := vector_loop (tl l) in
    emit_vector is.

  (** generators.c 740-866 generator_quote. *)
  Definition generator_quote (l : list ast) : CM unit :=
    checkArgs l 2 false >>>
    match l with [_; t] => quote_helper t | _ => cub end.

  (** generators.c 1719-1782 generator_createVar_raw.  A name that is not an identifier makes no error. *)
  Definition createVar (l : list ast) : CM unit :=
    checkArgs l 3 false >>>
    match l with
    | [_; AstIdentifier name; value] =>
      let* start := locals in
      rec (Compound value true) >>>
      add_object name start >>>
      let* n := locals in
      emit_move start (n - 1) >>>
      (if start + 1 <? n then emit_pop (n - start - 1) else cret tt) >>>
      emit_pushIndex start
    | _ => cret tt
    end.

  (** generators.c 1809-1866 generator_global. *)
  Definition generator_global (l : list ast) : CM unit :=
    checkArgs l 3 false >>>
    match l with
    | [_; AstIdentifier name; value] =>
      rec (Compound value true) >>>
      let* key := addGlobal name in
      let* n := locals in
      emit_setStatic cfg key (n - 1)
    | _ => cret tt
    end.

  (** generators.c 2920-3020 generator_setq. *)
  Definition generator_setq (l : list ast) : CM unit :=
    checkArgs l 3 false >>>
    match l with
    | [_; AstIdentifier name; value] =>
      rec (Compound value true) >>>
      let* p := look name false in
      let* n := locals in
      match p with
      | Stack slot => emit_move slot (n - 1)
      | Upvalue u => emit_setUpvalue u (n - 1)
      | NotLexical => let* key := global_key name in emit_setStatic cfg key (n - 1)
      end
    | _ => cerr invalidValue
    end.

  (** generators.c 1554-1594: the parameters of a function; tells whether there is a &rest. *)
  Fixpoint parameters (l : list ast) : CM bool :=
    match l with
    | [] => cret false
    | AstIdentifier name :: r =>
      if name_is name (str "&rest") then
        match r with
        | [_] => parameters r >>> cret true
        | _ => cerr invalidValue
        end
      else
        let* n := locals in
        add_object name n >>>
        locals_to (n + 1) >>>
        parameters r
    | _ => cerr invalidValue
    end.

  (** bodyAssembly (generators.c 1442) becomes the target of the emitters. *)
  Definition begin_body : CM (option (list ainstr)) := fun s =>
    Ok (body s, set_code s (Some []) (assembly s)).
  (** generators.c 1649-1652: the function is appended to the main assembly, and the emitters go back
      to the assembly they were given. *)
  Definition end_body (outer : option (list ainstr)) : CM unit := fun s =>
    match body s with
    | Some b => Ok (tt, set_code s outer (assembly s ++ b))
    | None => UB
    end.

  (** generators.c 1430-1709 generator_lambda_raw. *)
  Definition generator_lambda (l : list ast) : CM unit :=
    checkArgs l 3 true >>>
    match l with
    | _ :: AstExpression params :: forms =>
      push_scope false >>>
      let* n := locals in
      add_object (str "self") n >>>
      add_function (str "self") n >>>
      locals_to (n + 1) >>>
      push_scope true >>>
      let* outer := begin_body in
      let* skip := new_label in
      emit_jump skip >>>
      let* function := new_label in
      emit_label function >>>
      let* start := locals in
      let* variadic := parameters params in
      rec (Progn forms) >>>
      let* sc := top_scope in
      emit_releaseUpvalues (scope_uvs sc) >>>
      let* n := locals in
      emit_return (n - start - 1) >>>
      locals_to start >>>
      emit_label skip >>>
      end_body outer >>>
      let* sc := top_scope in
      locals_to (start - 1) >>>
      emit_pushClosure variadic function
        (if variadic then Z.of_nat (length params) - 2 else Z.of_nat (length params))
        (function_uvs sc) >>>
      let* s := cget in
      match scopes s with
      | _ :: self :: _ =>
        (match scope_uvs self with
         | [] => cret tt
         | us =>
           let* n := locals in
           emit_pushIndex (n - 1) >>>
           emit_releaseUpvalues us >>>
           emit_move (n - 1) n >>>
           emit_pop 1
         end) >>>
        pop_scope >>> pop_scope
      | _ => cub
      end
    | _ => cerr invalidValue
    end.

  (** generators.c 1868-1954 generator_defun: a variable that holds a lambda, also declared as a
      function. *)
  Definition generator_defun (l : list ast) : CM unit :=
    checkArgs l 4 true >>>
    match l with
    | _ :: AstIdentifier name :: rest =>
      createVar [AstIdentifier []; AstIdentifier name;
                 AstExpression (AstIdentifier defun_lambda :: rest)] >>>
      let* n := locals in
      add_function name (n - 2)
    | _ => cerr invalidValue
    end.

  (** generators.c 2344-2528 generator_unless and 2530-2713 generator_when. *)
  Definition generator_conditional (when : bool) (l : list ast) : CM unit :=
    checkArgs l 3 true >>>
    match l with
    | _ :: c :: forms =>
      match literal_condition c with
      | Some b => if Bool.eqb b when then rec (Progn forms) >>> cret tt else emit_nil
      | None =>
        match c with
        | AstIdentifier _ | AstExpression _ =>
          let* start := locals in
          rec (Compound c true) >>>
          let* n := locals in
          let pops := match c with AstIdentifier _ => 0 | _ => n - start end in
          let* then_ := new_label in
          let* end_ := new_label in
          emit_brnz then_ pops >>>
          let* start := locals in
          (if when then emit_nil else rec (Progn forms) >>> cret tt) >>>
          locals_to start >>>
          emit_jump end_ >>>
          emit_label then_ >>>
          (if when then rec (Progn forms) >>> cret tt else emit_nil) >>>
          emit_label end_
        | _ => cret tt
        end
      end
    | _ => cub
    end.

  (** generators.c 2715-2918 generator_if. *)
  Definition branch (start : Z) (e : ast) : CM unit :=
    rec (Compound e true) >>>
    let* n := locals in
    if n - start - 1 <? 0 then cret tt else settle start.
  Definition generator_if (l : list ast) : CM unit :=
    checkArgs l 4 false >>>
    match l with
    | [_; c; x; y] =>
      match literal_condition c with
      | Some b => rec (Compound (if b then x else y) true) >>> cret tt
      | None =>
        match c with
        | AstIdentifier _ | AstExpression _ =>
          let* start := locals in
          let* pops :=
            (match c with
             | AstExpression f => rec (Form f) >>> let* n := locals in cret (n - start)
             | _ => rec (Compound c true) >>> cret 0
             end) in
          let* then_ := new_label in
          let* end_ := new_label in
          emit_brnz then_ pops >>>
          let* start := locals in
          branch start y >>>
          emit_jump end_ >>>
          emit_label then_ >>>
          locals_to start >>>
          branch start x >>>
          emit_label end_
        | _ => cret tt
        end
      end
    | _ => cub
    end.

  (** generators.c 2095-2340 generator_while. *)
  Definition loop_body (forms : list ast) : CM unit :=
    push_scope false >>>
    let* start := locals in
    rec (Progn forms) >>>
    let* n := locals in
    (if start <? n then emit_pop (n - start) else cret tt) >>>
    pop_scope.
  Definition generator_while (l : list ast) : CM unit :=
    checkArgs l 3 true >>>
    match l with
    | _ :: c :: forms =>
      match c with
      | AstCallback _ | AstLiteral _ => cret tt
      | _ =>
        match literal_condition c with
        | Some true =>
          let* start := new_label in
          emit_label start >>>
          loop_body forms >>>
          emit_jump start
        | _ =>
          let* start := new_label in
          let* loop := new_label in
          emit_jump start >>>
          emit_label loop >>>
          loop_body forms >>>
          emit_label start >>>
          let* height := locals in
          rec (Compound c true) >>>
          let* n := locals in
          emit_brnz loop (n - height) >>>
          emit_nil
        end
      end
    | _ => cub
    end.

  Fixpoint repeat_push (k : nat) : CM unit :=
    match k with
    | O => cret tt
    | S k => let* n := locals in emit_pushIndex (n - 1) >>> repeat_push k
    end.

  (** What generator_noscope looks for at the head of a form (generators.c 900-957). *)
  Definition binder (e : ast) : option generator :=
    match e with
    | AstExpression (AstIdentifier name :: _) =>
      if name_is name (str "var") || name_is name (str "__var") then Some GVar
      else if name_is name (str "defun") || name_is name (str "__defun") then Some GDefun
      else if name_is name (str "noscope") || name_is name (str "__noscope") then Some GNoscope
      else None
    | _ => None
    end.
  Definition form_of (e : ast) : list ast := match e with AstExpression l => l | _ => [] end.

  (** generators.c 884-1011: the loop of generator_noscope; 1013-1042 generator_noscope2. *)
  Fixpoint noscope_loop (l : list ast) : CM unit :=
    match l with
    | [] => cret tt
    | e :: r =>
      let last := match r with [] => true | _ => false end in
      let* start := locals in
      rec (Compound e true) >>>
      (match binder e with
       | Some g =>
         (match g with
          | GVar => createVar (form_of e)
          | GDefun => generator_defun (form_of e)
          | _ => rec (Noscope (tl (form_of e))) >>> cret tt
          end) >>>
         (if last then cret tt else emit_pop 1)
       | None =>
         let* n := locals in
         let pops := n - start - (if last then 1 else 0) in
         if 0 <? pops then
           (if last then emit_move (n - 1 - pops) (n - 1) else cret tt) >>> emit_pop pops
         else repeat_push (Z.to_nat (- pops))
       end) >>>
      noscope_loop r
    end.
  Definition generator_noscope (l : list ast) : CM unit :=
    noscope_loop l >>>
    match l with [] => emit_nil | _ => cret tt end.

  (** generators.c 3744-3790 generator_expression. *)
  Definition generator_expression (l : list ast) : CM unit :=
    push_scope false >>>
    let* start := locals in
    rec (Noscope l) >>>
    let* sc := top_scope in
    emit_releaseUpvalues (scope_uvs sc) >>>
    let* n := locals in
    (if start <? n - 1 then emit_move start (n - 1) else cret tt) >>>
    let* n := locals in
    (if 0 <? n - (start + 1) then emit_pop (n - (start + 1)) else cret tt) >>>
    pop_scope.

  Definition generate (g : generator) (l : list ast) : CM unit :=
    match g with
    | GDeclare => emit_nil
    | GNop => emit_nop
    | GFuncall => generator_funcall2 l
    | GApply => generator_apply l
    | GVar | GDefun | GNoscope => cret tt
    | GGlobal => generator_global l
    | GSetq => generator_setq l
    | GUn u => generator_unary u l
    | GBin b swapped => generator_binary b swapped l
    | GTern t => generator_ternary t l
    | GWhile => generator_while l
    | GIf => generator_if l
    | GWhen => generator_conditional true l
    | GUnless => generator_conditional false l
    | GLambda => generator_lambda l
    | GQuote => generator_quote l
    | GList => generator_list l
    | GVector => generator_vector l
    | GMakeType => checkArgs l 1 false >>> emit_makeType
    | GError => cerr invalidValue
    | GOther => cub
    end.

  (** duckLisp.c 1080-1182 compile_expression. *)
  Definition compile_expression (l : list ast) : CM unit :=
    match l with
    | [] => emit_nil
    | AstIdentifier name :: _ =>
      let* s := cget in
      match getFunctionFromName cfg (scopes s) name with
      | CalleeFuncall => generator_funcall l
      | CalleeCallback => generator_callback l
      | CalleeGenerator g => generate g l
      end
    | AstCallback _ :: _ | AstLiteral _ :: _ => cret tt
    | _ => rec (Progn l) >>> cret tt
    end.

  (** duckLisp.c 925-1060: the switch of compile_compoundExpression. *)
  Definition compile_compound (e : ast) (pushReference : bool) : CM Z :=
    let top := let* n := locals in cret (n - 1) in
    match e with
    | AstBool b => emit_pushBoolean b >>> top
    | AstInt n => emit_pushInteger n >>> top
    | AstFloat f => emit_pushDoubleFloat f >>> top
    | AstString s => emit_pushString s >>> top
    | AstIdentifier name =>
      let* p := look name false in
      match p with
      | Stack slot => if pushReference then emit_pushIndex slot >>> cret slot else cret slot
      | Upvalue u => emit_pushUpvalue u >>> top
      | NotLexical => let* key := global_key name in emit_pushGlobal key >>> top
      end
    | AstExpression l => rec (Form l) >>> top
    | AstCallback _ | AstLiteral _ => if pushReference then cret (-1) else cub
    end.
End Generators.

(** The recursion of the compiler.  [fuel] bounds it; [depth] is generators_recursion_depth, which
    compile_compoundExpression checks (duckLisp.c 918-924). *)
Fixpoint compile (cfg : config) (fuel : nat) (depth : Z) (t : task) : CM Z :=
  match fuel with
  | O => fun _ => NoFuel
  | S f =>
    match t with
    | Compound e pushReference =>
      if max_depth cfg <=? depth + 1 then cerr bufferOverflow
      else compile_compound (compile cfg f (depth + 1)) e pushReference
    | Form l => compile_expression cfg (compile cfg f depth) l >>> cret 0
    | Noscope l => generator_noscope (compile cfg f depth) l >>> cret 0
    | Progn l => generator_expression (compile cfg f depth) l >>> cret 0
    end
  end.

(** duckLisp.c 1208-1266: the first stage of compileAST, with generators_recursion_depth 0.  The
    state before: no code, no scopes, an empty stack, label 0. *)
Definition compile_state (y : symbols) (g : trie) : cstate := CState None [] [] 0 0 y g.
Definition compileAST (cfg : config) (fuel : nat) (e : ast) : CM unit :=
  compile cfg fuel 0 (Compound e true) >>>
  let* n := locals in
  (if 1 <? n then emit_move (n - 2) (n - 1) >>> emit_pop 1 else cret tt) >>>
  emit_exit.

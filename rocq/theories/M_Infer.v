(** Model of parenthesis-inferrer.c: the pass that inserts the parentheses a programmer left out,
    from the declared types of identifiers.
    Simplifications: the log and the texts of error messages are not modelled; memory is never
    exhausted; the trees are values (the C code edits arrays in place).  The scripts that may be
    attached to a declaration run on a virtual machine of their own.  Here such a script is any
    function from everything that happened so far to its next request, so that what is proved
    holds for whatever the scripts compute. *)
From Coq Require Import String ZArith List Bool.
From Verif Require Import M_Base M_Trie M_String M_Parser.
From Verif Require M_Compile.
Import ListNotations.
Open Scope list_scope.
Open Scope Z_scope.

(** * Types *)

(** parenthesis-inferrer.c 175-226 inferrerTypeSymbol_t, inferrerTypeSignature_t: the symbols [L]
    and [I], or a list of positional types with, if variadic, the default number of further
    arguments and their type. *)
Inductive sig :=
| SigL
| SigI
| SigExpression (positional : list sig) (rest : option (Z * sig)).

(** parenthesis-inferrer.c 753-760: the identifier [&rest]. *)
Definition is_rest (a : ast) : bool :=
  match a with
  | AstIdentifier s | AstCallback s => string_compare (M_Compile.str "&rest"%string) s
  | _ => false
  end.

(** parenthesis-inferrer.c 621-651 inferrerTypeSignature_quit, called twice on the same signature.
    The first call clears the pointer to the positional types but not their number, so the second
    reads through the null pointer when there are two or more (with one, the address is null and
    the function returns at 624).
    Simplification: the error code may also turn into nullPointer here. *)
Definition quit_twice_ok (s : sig) : bool :=
  match s with
  | SigExpression positional _ => (length positional <=? 1)%nat
  | _ => true
  end.

(** A recursive call of inferrerTypeSignature_fromAst into the variable [sub], which still holds the
    type read before: on failure both the callee (835-838) and the caller (813-818) quit [sub]
    (parenthesis-inferrer.c 742-743, 790-791, 813-838). *)
Definition child (sub : sig) (r : res sig) : res sig :=
  match r with
  | Err e => if quit_twice_ok sub then Err e else UB
  | _ => r
  end.

(** parenthesis-inferrer.c 698-840 inferrerTypeSignature_fromAst.  A second [&rest] is never seen by
    the test at 763: the two forms after the first are consumed before it. *)
Fixpoint from_ast (a : ast) : res sig :=
  match a with
  | AstIdentifier s | AstCallback s =>
    if string_compare (M_Compile.str "L"%string) s then Ok SigL
    else if string_compare (M_Compile.str "I"%string) s then Ok SigI
    else Err invalidValue
  | AstExpression l =>
    (fix elements (l : list ast) (sub : sig) (positional : list sig) {struct l} : res sig :=
       match l with
       | [] => Ok (SigExpression positional None)
       | x :: l' =>
         if is_rest x then
           match l' with
           | [n; r] =>
             match n with
             | AstInt k => s <- child sub (from_ast r) ;; Ok (SigExpression positional (Some (k, s)))
             | _ => Err invalidValue
             end
           | _ => Err invalidValue
           end
         else s <- child sub (from_ast x) ;; elements l' s (positional ++ [s])
       end) l SigL []
  | AstBool _ | AstInt _ | AstFloat _ | AstString _ => Err invalidValue
  | AstLiteral _ => Err cantHappen
  end.

(** * State *)

(** What a script can ask for: the callbacks of the scripts' virtual machine, the end of the
    script, or a failure of its own (parenthesis-inferrer.c 1680-1870, 1950-1962). *)
Inductive request :=
| AskDeclare (name : bytes) (type : ast)
| AskArgument
| AskPushScope
| AskPopScope
| Finish
| Fail (e : error).

(** What happened during one inference, as far as scripts or later passes can tell: a script was
    started, was given an argument, had a request carried out; an identifier was declared
    (parenthesis-inferrer.c 1118-1156, 1680-1870, 980-1019). *)
Inductive event :=
| Started
| Received (a : ast)
| Completed
| Declared (name : bytes) (type : sig).

(** A compiled script: its next request after what happened, the latest event first
    (parenthesis-inferrer.c 278-282 bytecode). *)
Definition script := list event -> request.

(** parenthesis-inferrer.c 278-282 inferrerType_t, 304-307 inferrerScope_t. *)
Record itype := { it_sig : sig; it_script : option script }.
Record iscope := { is_trie : trie; is_types : list itype }.

(** parenthesis-inferrer.c 344-353 inferrerState_t: the stack of scopes, innermost first, and what
    happened so far. *)
Record istate := { scope_stack : list iscope; history : list event }.

(** parenthesis-inferrer.c 855-858 inferrerScope_init. *)
Definition new_scope : iscope := {| is_trie := trie_init (-1); is_types := [] |}.

(** A function that works on the inferrer's state and may fail (the idiom
    [e = f(state, ...); if (e) goto cleanup;], e.g. parenthesis-inferrer.c 1021-1057). *)
Definition IM (A : Type) := istate -> res (A * istate).
Definition iret {A} (a : A) : IM A := fun s => Ok (a, s).
Definition ibind {A B} (m : IM A) (f : A -> IM B) : IM B := fun s =>
  match m s with
  | Ok (a, s') => f a s'
  | Err e => Err e
  | UB => UB
  | NoFuel => NoFuel
  end.
Definition ierr {A} (e : error) : IM A := fun _ => Err e.
Definition inofuel {A} : IM A := fun _ => NoFuel.
Definition ilift {A} (r : res A) : IM A := fun s => a <- r ;; Ok (a, s).
Declare Scope infer_scope.
Notation "x <! m ;; f" := (ibind m (fun x => f))
  (at level 61, m at next level, right associativity) : infer_scope.
Notation "' p <! m ;; f" := (ibind m (fun p => f))
  (at level 61, p pattern, m at next level, right associativity) : infer_scope.
Open Scope infer_scope.

(** The history grows by one event (parenthesis-inferrer.c 1118-1156). *)
Definition note (e : event) : IM unit := fun s =>
  Ok (tt, {| scope_stack := scope_stack s; history := e :: history s |}).

(** [expression->compoundExpressions[i]] (e.g. parenthesis-inferrer.c 1469). *)
Definition element (l : list ast) (i : nat) : IM ast :=
  ilift match nth_error l i with Some a => Ok a | None => UB end.

(** parenthesis-inferrer.c 936-938 pushDeclarationScope, with a new scope. *)
Definition push_scope : IM unit := fun s =>
  Ok (tt, {| scope_stack := new_scope :: scope_stack s; history := history s |}).

(** parenthesis-inferrer.c 940-952 popDeclarationScope. *)
Definition pop_scope : IM unit := fun s =>
  match scope_stack s with
  | [] => Err bufferUnderflow
  | _ :: rest => Ok (tt, {| scope_stack := rest; history := history s |})
  end.

(** parenthesis-inferrer.c 954-978 findDeclaration, on the stack of scopes. *)
Fixpoint find_in (stack : list iscope) (name : bytes) : res (option itype) :=
  match stack with
  | [] => Ok None
  | sc :: stack' =>
    let index := trie_find (is_trie sc) name in
    if index =? -1 then find_in stack' name
    else if (index <? 0) || (Z.of_nat (length (is_types sc)) <=? index) then Err invalidValue
    else Ok (nth_error (is_types sc) (Z.to_nat index))
  end.
Definition find_declaration (name : bytes) : IM (option itype) := fun s =>
  t <- find_in (scope_stack s) name ;; Ok (t, s).

(** parenthesis-inferrer.c 980-1019 addDeclaration. *)
Definition add_declaration (name : bytes) (type : ast) (sc : option script) : IM unit := fun s =>
  match scope_stack s with
  | [] => Err bufferUnderflow
  | scope :: rest =>
    t <- from_ast type ;;
    match t, sc with
    | SigL, Some _ | SigI, Some _ => Err invalidValue
    | _, _ =>
      Ok (tt, {| scope_stack :=
                   {| is_trie := trie_insert (is_trie scope) name (Z.of_nat (length (is_types scope)));
                      is_types := is_types scope ++ [{| it_sig := t; it_script := sc |}] |} :: rest;
                 history := Declared name t :: history s |})
    end
  end.

Section Inferrer.
(** duckLisp_compileAST in the inferrer's own compiler (parenthesis-inferrer.c 1036-1047). *)
Variable compile_script : ast -> res script.

(** parenthesis-inferrer.c 1021-1057 compileAndAddDeclaration. *)
Definition compile_and_add (name : bytes) (type : ast) (scriptAst : option ast) : IM unit :=
  match scriptAst with
  | None => add_declaration name type None
  | Some a => sc <! ilift (compile_script a) ;; add_declaration name type (Some sc)
  end.

(** parenthesis-inferrer.c 1280-1289: the names of the declaring form. *)
Definition declares (keyword : bytes) : bool :=
  string_compare (M_Compile.str "__declare"%string) keyword || string_compare (M_Compile.str "declare"%string) keyword.

(** parenthesis-inferrer.c 1263-1308 interpretDeclare. *)
Definition interpret_declare (a : ast) : IM unit :=
  match a with
  | AstExpression [AstIdentifier keyword; AstIdentifier name; type] =>
    if declares keyword then compile_and_add name type None else iret tt
  | AstExpression [AstIdentifier keyword; AstIdentifier name; type; sc] =>
    if declares keyword then compile_and_add name type (Some sc) else iret tt
  | _ => iret tt
  end.

(** parenthesis-inferrer.c 1104-1111 infer_callback: the node is called an identifier whatever it was.
    For any other kind of node the name is then read from a union that holds something else. *)
Definition infer_callback (a : ast) : res ast :=
  match a with
  | AstCallback s | AstIdentifier s => Ok (AstIdentifier s)
  | _ => UB
  end.

Section Step.
(** inferArgument and infer_compoundExpression, with less fuel (parenthesis-inferrer.c 1311-1501,
    1635-1677). *)
Variable argument : list ast -> nat -> bool -> bool -> IM (list ast * nat).
Variable compound : ast -> bool -> IM ast.
Variable fuel : nat.

(** The arguments of the call being inferred: the index into its types, the expression, the index
    into the expression, and the new expression (parenthesis-inferrer.c 1118-1126). *)
Definition progress := (nat * list ast * nat * list ast)%type.

(** Infer one argument of a symbol type and, without parentheses, move it to the new expression
    (parenthesis-inferrer.c 1182-1198, 1222-1240). *)
Definition one_argument (s : sig) (l : list ast) (i : nat) (new : list ast) (parenthesized infer : bool)
  : IM (list ast * nat * list ast) :=
  '(l', i') <! argument l i false (match s with SigI => infer | _ => false end) ;;
  if parenthesized then iret (l', i', new)
  else a <! element l' i ;; iret (l', i', new ++ [a]).

(** parenthesis-inferrer.c 1218-1249: the loop over the rest arguments.  With a nested type the error
    is noted but the loop goes on, without advancing. *)
Fixpoint rest_arguments (n : nat) (count : Z) (s : sig) (k : Z) (l : list ast) (i : nat) (new : list ast)
         (parenthesized infer failed : bool) : IM (list ast * nat * list ast) :=
  match n with
  | O => inofuel
  | S n =>
    if (if parenthesized then (i <? length l)%nat else k <? count) then
      match s with
      | SigExpression _ _ => rest_arguments n count s (k + 1) l i new parenthesized infer true
      | _ =>
        '(l', i', new') <! one_argument s l i new parenthesized infer ;;
        rest_arguments n count s (k + 1) l' i' new' parenthesized infer failed
      end
    else if failed then ierr invalidValue else iret (l, i, new)
  end.

(** parenthesis-inferrer.c 1158-1260 inferIncrementally. *)
Definition incrementally (positional : list sig) (rest : option (Z * sig)) (p : progress)
           (parenthesized infer : bool) : IM progress :=
  let '(ti, l, i, new) := p in
  match nth_error positional ti with
  | Some s =>
    if (length l <=? i)%nat then ierr invalidValue
    else
      match s with
      | SigExpression _ _ => ierr invalidValue
      | _ =>
        '(l', i', new') <! one_argument s l i new parenthesized infer ;;
        iret (S ti, l', i', new')
      end
  | None =>
    if (ti <=? length positional)%nat then
      match rest with
      | Some (count, s) =>
        if negb parenthesized && (count <? 0) then ierr invalidValue
        else
          '(l', i', new') <! rest_arguments fuel count s 0 l i new parenthesized infer false ;;
          iret (S ti, l', i', new')
      | None => iret (S ti, l, i, new)
      end
    else ierr invalidValue
  end.

(** What infer-and-get-next-argument hands to the script (parenthesis-inferrer.c 1795-1827). *)
Definition answer (positional : list sig) (rest : option (Z * sig)) (before after : progress) : IM ast :=
  let '(ti, _, i, _) := before in
  let '(_, l', i', _) := after in
  match rest with
  | Some _ =>
    if (ti =? length positional)%nat then iret (AstExpression (firstn (i' - i) (skipn i l')))
    else element l' (i' - 1)
  | None => element l' (i' - 1)
  end.

(** parenthesis-inferrer.c 1118-1156 runVm; the callbacks 1680-1870.
    Simplification: the script's own state and its virtual machine are folded into the history. *)
Fixpoint run_script (n : nat) (sc : script) (positional : list sig) (rest : option (Z * sig)) (p : progress)
         (parenthesized infer : bool) : IM progress :=
  match n with
  | O => inofuel
  | S n => fun s =>
    match sc (history s) with
    | AskDeclare name type =>
      (_ <! add_declaration name type None ;; _ <! note Completed ;;
       run_script n sc positional rest p parenthesized infer) s
    | AskArgument =>
      (p' <! incrementally positional rest p parenthesized infer ;;
       a <! answer positional rest p p' ;; _ <! note (Received a) ;;
       run_script n sc positional rest p' parenthesized infer) s
    | AskPushScope =>
      (_ <! push_scope ;; _ <! note Completed ;; run_script n sc positional rest p parenthesized infer) s
    | AskPopScope =>
      (_ <! pop_scope ;; _ <! note Completed ;; run_script n sc positional rest p parenthesized infer) s
    | Finish => Ok (p, s)
    | Fail e => Err e
    end
  end.

(** The loop over the types the script left, [n] of them (parenthesis-inferrer.c 1420-1433). *)
Fixpoint remaining (n : nat) (positional : list sig) (rest : option (Z * sig)) (p : progress)
         (parenthesized infer : bool) : IM progress :=
  match n with
  | O => iret p
  | S n =>
    p' <! incrementally positional rest p parenthesized infer ;;
    remaining n positional rest p' parenthesized infer
  end.

(** parenthesis-inferrer.c 1504-1523 inferArguments. *)
Fixpoint arguments (n : nat) (l : list ast) (i : nat) (infer : bool) : IM (list ast) :=
  match n with
  | O => inofuel
  | S n =>
    if (i <? length l)%nat then
      '(l', i') <! argument l i false infer ;;
      a <! element l' i ;;
      _ <! interpret_declare a ;;
      arguments n l' i' infer
    else iret l
  end.

(** A call of an identifier with an expression type (parenthesis-inferrer.c 1384-1476).  newLength is
    the length of the new expression without its head. *)
Definition call_arguments (t : itype) (positional : list sig) (rest : option (Z * sig)) (head : ast)
           (l : list ast) (start : nat) (parenthesized infer : bool) : IM (list ast * nat) :=
  let p := (O, l, S start, if parenthesized then [] else [head]) in
  p <! match it_script t with
       | Some sc => _ <! note Started ;; run_script fuel sc positional rest p parenthesized infer
       | None => iret p
       end ;;
  let '(ti, _, _, _) := p in
  '(_, l, i, new) <! remaining (S (length positional) - ti) positional rest p parenthesized infer ;;
  '(l, i) <!
    (if parenthesized then if (i =? length l)%nat then iret (l, i) else ierr invalidValue
     else iret (firstn start l ++ AstExpression new :: skipn (start + (length new - 1) + 1) l, S start)) ;;
  a <! element l start ;;
  _ <! interpret_declare a ;;
  iret (l, i).

(** parenthesis-inferrer.c 1311-1501 inferArgument. *)
Definition argument_body (l : list ast) (start : nat) (parenthesized infer : bool) : IM (list ast * nat) :=
  match nth_error l start with
  | None => ierr invalidValue
  | Some (AstIdentifier name as head) =>
    t <! find_declaration name ;;
    match t, infer with
    | Some t, true =>
      match it_sig t with
      | SigExpression positional rest => call_arguments t positional rest head l start parenthesized infer
      | SigL =>
        if parenthesized then l' <! arguments fuel l 1 infer ;; iret (l', S start)
        else iret (l, S start)
      | SigI => if parenthesized then ierr invalidValue else iret (l, S start)
      end
    | Some _, false => a <! compound head infer ;; iret (list_set l start a, S start)
    | None, _ =>
      a <! compound head infer ;;
      if infer then ierr invalidValue else iret (list_set l start a, S start)
    end
  | Some a =>
    a' <! compound a infer ;;
    _ <! interpret_declare a' ;;
    iret (list_set l start a', S start)
  end.

(** parenthesis-inferrer.c 1525-1633 infer_expression, for an expression ... *)
Definition expression_body (l : list ast) : IM ast :=
  match l with
  | [] => iret (AstExpression [])
  | AstCallback s :: l' =>
    l'' <! arguments fuel (AstIdentifier s :: l') 1 true ;; iret (AstExpression l'')
  | AstIdentifier name :: l' =>
    t <! find_declaration name ;;
    match t with
    | Some _ => '(l'', _) <! argument l 0 true true ;; iret (AstExpression l'')
    | None => _ <! arguments fuel l 1 true ;; ierr invalidValue
    end
  | _ =>
    _ <! push_scope ;;
    l'' <! arguments fuel l 0 true ;;
    _ <! pop_scope ;;
    iret (AstExpression l'')
  end.
(** ... and for a literal expression (parenthesis-inferrer.c 1559-1574). *)
Definition literal_body (l : list ast) : IM ast :=
  match l with
  | [] => iret (AstLiteral [])
  | head :: l' =>
    head' <! ilift (infer_callback head) ;;
    l'' <! arguments fuel (head' :: l') 1 false ;;
    iret (AstExpression l'')
  end.

(** parenthesis-inferrer.c 1635-1677 infer_compoundExpression. *)
Definition compound_body (a : ast) (infer : bool) : IM ast :=
  match a with
  | AstCallback _ => ilift (infer_callback a)
  | AstExpression l => if infer then expression_body l else iret a
  | AstLiteral l => if infer then literal_body l else iret a
  | _ => iret a
  end.
End Step.

(** The recursion, with fuel (parenthesis-inferrer.c 1311-1677). *)
Fixpoint infer_argument (fuel : nat) (l : list ast) (i : nat) (parenthesized infer : bool) {struct fuel}
  : IM (list ast * nat) :=
  match fuel with
  | O => inofuel
  | S n => argument_body (infer_argument n) (infer_compound n) n l i parenthesized infer
  end
with infer_compound (fuel : nat) (a : ast) (infer : bool) {struct fuel} : IM ast :=
  match fuel with
  | O => inofuel
  | S n => compound_body (infer_argument n) n a infer
  end.

(** parenthesis-inferrer.c 1993-2002: the declarations of the inferrer itself, as read from their
    texts. *)
Definition built_in : list (bytes * ast * option ast) :=
  let I := AstIdentifier (M_Compile.str "I"%string) in
  let L := AstIdentifier (M_Compile.str "L"%string) in
  let rest := AstIdentifier (M_Compile.str "&rest"%string) in
  [ (M_Compile.str "__declare"%string, AstExpression [L; L; rest; AstInt 0; I], None);
    (M_Compile.str "declare"%string, AstExpression [L; L; rest; AstInt 0; I], None);
    (M_Compile.str "__infer-and-get-next-argument"%string, AstExpression [], None);
    (M_Compile.str "infer-and-get-next-argument"%string, AstExpression [], None);
    (M_Compile.str "__declare-identifier"%string, AstExpression [I; I], None);
    (M_Compile.str "declare-identifier"%string, AstExpression [I; I], None);
    (M_Compile.str "__declaration-scope"%string, AstExpression [rest; AstInt 1; I], None);
    (M_Compile.str "declaration-scope"%string, AstExpression [rest; AstInt 1; I], None) ].

(** The loops over the built-in and the external declarations (parenthesis-inferrer.c 2003-2106). *)
Fixpoint declare_all (l : list (bytes * ast * option ast)) : IM unit :=
  match l with
  | [] => iret tt
  | (name, type, sc) :: l' => _ <! compile_and_add name type sc ;; declare_all l'
  end.

(** parenthesis-inferrer.c 1932-2128 duckLisp_inferParentheses.
    Simplification: the texts of the external declarations are already read. *)
Definition infer_parentheses (fuel : nat) (external : list (bytes * ast * option ast)) (a : ast)
  : res (ast * istate) :=
  (_ <! push_scope ;; _ <! declare_all (built_in ++ external) ;; infer_compound fuel a true)
    {| scope_stack := []; history := [] |}.
End Inferrer.

(** Model of the compiler's scope stack (duckLisp.c 225-360, 389-645, 2217-2290).
    Simplifications: the stack is a list with the innermost scope first (the C array has it last,
    and scope indices count down); only the scope stack of one sub-compiler is modelled (pushScope
    and popScope treat that of the other one the same way except for the function flag); the
    allocator never fails; the labels of a scope are left out (see M_Compile). *)
From Coq Require Import ZArith List Bool.
From Verif Require Import M_Base M_Trie.
Import ListNotations.
Open Scope Z_scope.

(** duckLisp.h duckLisp_scope_t (duckLisp.h 107-125). *)
Record scope := Scope {
  locals_trie : trie;
  functionLocals_trie : trie;
  functions_trie : trie;
  function_scope : bool;
  scope_uvs : list Z;
  function_uvs : list Z;
}.

(** duckLisp.c 230-241 scope_init. *)
Definition scope_init (is_function : bool) : scope :=
  Scope (trie_init (-1)) (trie_init (-1)) (trie_init (-1)) is_function [] [].

(** Assignments to the fields of a scope (duckLisp.h 107-125). *)
Definition set_locals (s : scope) (t : trie) : scope :=
  Scope t (functionLocals_trie s) (functions_trie s) (function_scope s) (scope_uvs s) (function_uvs s).
Definition set_functions (s : scope) (l f : trie) : scope :=
  Scope (locals_trie s) l f (function_scope s) (scope_uvs s) (function_uvs s).
Definition set_scope_uvs (s : scope) (us : list Z) : scope :=
  Scope (locals_trie s) (functionLocals_trie s) (functions_trie s) (function_scope s) us (function_uvs s).
Definition set_function_uvs (s : scope) (us : list Z) : scope :=
  Scope (locals_trie s) (functionLocals_trie s) (functions_trie s) (function_scope s) (scope_uvs s) us.

(** duckLisp.c 267-300 duckLisp_pushScope with a null scope. *)
Definition pushScope (st : list scope) (is_function : bool) : list scope := scope_init is_function :: st.

(** duckLisp.c 302-317 duckLisp_scope_getTop: the top scope, and the stack with a first function
    scope if there was none. *)
Definition getTop (st : list scope) : scope * list scope :=
  match st with
  | [] => (scope_init true, [scope_init true])
  | s :: _ => (s, st)
  end.

(** duckLisp.c 319-321 scope_setTop. *)
Definition setTop (st : list scope) (s : scope) : list scope :=
  match st with [] => [] | _ :: r => s :: r end.

(** duckLisp.c 323-353 duckLisp_popScope. *)
Definition popScope (st : list scope) : res (list scope) :=
  match st with [] => Err bufferUnderflow | _ :: r => Ok r end.

(** duckLisp.c 2217-2238 duckLisp_scope_addObject: the name stands for the next stack slot. *)
Definition addObject (st : list scope) (name : bytes) (locals_length : Z) : list scope :=
  let (s, st) := getTop st in
  setTop st (set_locals s (trie_insert (locals_trie s) name locals_length)).

(** duckLisp.h 99-105 duckLisp_functionType_t. *)
Definition functionType_none : Z := 0.
Definition functionType_c : Z := 1.
Definition functionType_ducklisp : Z := 2.
Definition functionType_generator : Z := 3.
Definition functionType_macro : Z := 4.

(** duckLisp.c 2264-2292 duckLisp_addInterpretedFunction. *)
Definition addInterpretedFunction (st : list scope) (name : bytes) (locals_length : Z) : list scope :=
  let (s, st) := getTop st in
  setTop st (set_functions s (trie_insert (functionLocals_trie s) name locals_length)
                             (trie_insert (functions_trie s) name functionType_ducklisp)).

(** The trie a lookup of a variable uses (duckLisp.c 413-418, 464). *)
Definition variables (functionsOnly : bool) (s : scope) : trie :=
  if functionsOnly then functionLocals_trie s else locals_trie s.

(** duckLisp.c 393-428 duckLisp_scope_getLocalIndexFromName. *)
Fixpoint getLocalIndexFromName (st : list scope) (name : bytes) (functionsOnly : bool) : Z :=
  match st with
  | [] => -1
  | s :: r =>
    let local_index := trie_find (variables functionsOnly s) name in
    if negb (local_index =? -1) then local_index
    else if function_scope s then -1 else getLocalIndexFromName r name functionsOnly
  end.

(** The position of a number in an array (the loops at duckLisp.c 487-493 and 516-521). *)
Fixpoint position (us : list Z) (x : Z) (i : Z) : option Z :=
  match us with
  | [] => None
  | u :: r => if u =? x then Some i else position r x (i + 1)
  end.

(** duckLisp.c 484-511: the number of an upvalue of a function, which is registered if needed. *)
Definition register_function_uv (us : list Z) (x : Z) : list Z * Z :=
  match position us x 0 with
  | Some i => (us, i)
  | None => (us ++ [x], Z.of_nat (length us))
  end.

(** duckLisp.c 513-540: register the upvalue in the scope in which it was found. *)
Definition register_scope_uv (s : scope) (x : Z) : scope :=
  match position (scope_uvs s) x 0 with
  | Some _ => s
  | None => set_scope_uvs s (scope_uvs s ++ [x])
  end.

(** duckLisp.c 430-548 duckLisp_scope_getFreeLocalIndexFromName_helper.  [outer] are the scopes
    around the function whose upvalues are [us].  [None] is [*found == dl_false]; otherwise the
    scopes and upvalues after registration and the number of the upvalue.  The loop at 459-470
    and the recursive call for the enclosing function at 473-485 are one recursion here. *)
Fixpoint getFree_helper (outer : list scope) (us : list Z) (name : bytes) (functionsOnly : bool)
  : option (list scope * list Z * Z) :=
  match outer with
  | [] => None
  | s :: r =>
    let index := trie_find (variables functionsOnly s) name in
    if negb (index =? -1) then
      let (us', i) := register_function_uv us index in
      Some (register_scope_uv s index :: r, us', i)
    else if function_scope s then
      match getFree_helper r (function_uvs s) name functionsOnly with
      | None => None
      | Some (r', sus, j) =>
        let index := if 0 <=? j then - (j + 1) else j in
        let (us', i) := register_function_uv us index in
        Some (register_scope_uv (set_function_uvs s sus) index :: r', us', i)
      end
    else
      match getFree_helper r us name functionsOnly with
      | None => None
      | Some (r', us', i) => Some (s :: r', us', i)
      end
  end.

(** duckLisp.c 550-586 duckLisp_scope_getFreeLocalIndexFromName: skip the current function. *)
Fixpoint getFreeLocalIndexFromName (st : list scope) (name : bytes) (functionsOnly : bool)
  : option (list scope * Z) :=
  match st with
  | [] => None
  | s :: r =>
    if function_scope s then
      match getFree_helper r (function_uvs s) name functionsOnly with
      | None => None
      | Some (r', us, i) => Some (set_function_uvs s us :: r', i)
      end
    else
      match getFreeLocalIndexFromName r name functionsOnly with
      | None => None
      | Some (r', i) => Some (s :: r', i)
      end
  end.

(** duckLisp.c 606-622: the kind of function a name stands for in the nearest scope, over all
    scopes; -1 if none. *)
Fixpoint getScopeFunction (st : list scope) (name : bytes) : Z :=
  match st with
  | [] => -1
  | s :: r =>
    let t := trie_find (functions_trie s) name in
    if negb (t =? -1) then t else getScopeFunction r name
  end.

(** What the compiler does with scopes: open and close one, declare a variable or a function, and
    look a variable up, first inside and then outside the current function (duckLisp.c 936-975,
    generators.c 2955-2980, 3233-3252). *)
Inductive scope_op :=
| OpenScope (is_function : bool)
| CloseScope
| DeclareVariable (name : bytes) (slot : Z)
| DeclareFunction (name : bytes) (slot : Z)
| UseVariable (functionsOnly : bool) (name : bytes).

(** What a name stands for (duckLisp.c 902-1075). *)
Inductive place := Stack (slot : Z) | Upvalue (number : Z) | NotLexical.

(** duckLisp.c 963-1039: first the variables of the function, then those around it. *)
Definition look_up (st : list scope) (name : bytes) (functionsOnly : bool) : list scope * place :=
  let i := getLocalIndexFromName st name functionsOnly in
  if negb (i =? -1) then (st, Stack i)
  else
    match getFreeLocalIndexFromName st name functionsOnly with
    | Some (st', u) => (st', Upvalue u)
    | None => (st, NotLexical)
    end.

(** One use of the scope stack (duckLisp.c 225-645). *)
Definition scope_step (st : list scope) (o : scope_op) : list scope :=
  match o with
  | OpenScope f => pushScope st f
  | CloseScope => match popScope st with Ok st' => st' | _ => st end
  | DeclareVariable name slot => addObject st name slot
  | DeclareFunction name slot => addInterpretedFunction st name slot
  | UseVariable f name => fst (look_up st name f)
  end.

(** A sequence of them (duckLisp.c 225-645). *)
Definition scopes_after (os : list scope_op) : list scope := fold_left scope_step os [].

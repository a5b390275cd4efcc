(** The printers for debugging: duckVM_object_prettyPrint and the functions it calls (duckVM.c
    7116-7816), duckLisp_ast_compoundExpression_prettyPrint and the functions it calls (duckLisp.c
    2447-2629).  A printer appends to an array of bytes (C02); the model returns what is appended.
    Memory of the host is assumed to suffice.  Fuel bounds the depth of the recursion: [NoFuel] for
    every fuel means that the C stack overflows. *)
From Coq Require Import ZArith List Bool String.
From Verif Require Import M_Base M_String M_Heap M_Instr M_VM M_Parser M_Disasm.
Import ListNotations.
Open Scope Z_scope.
Open Scope list_scope.

(** Where a printed object is: it was given to the printer, it is on the heap, or on the stack.  The
    field inUse of the objects is written by no function of duckVM.c, so its value is a parameter of
    the printer (duckVM.c 7708-7722). *)
Inductive place := Given | InHeap (p : ptr) | OnStack (i : Z).

(** Numbers as the C types of the fields hold them: dl_size_t, dl_ptrdiff_t, dl_uint8_t
    (DuckLib/core.h 30-60, duckVM.h 75-216). *)
Definition as_size (n : Z) : Z := n mod 2 ^ 64.
Definition as_ptrdiff (n : Z) : Z := (n + 2 ^ 63) mod 2 ^ 64 - 2 ^ 63.
Definition as_uint8 (n : Z) : Z := n mod 2 ^ 8.

(** DuckLib/string.c 61-245, appended to what is there. *)
Definition digits (t : option (list Z)) : res (list Z) := match t with Some s => Ok s | None => NoFuel end.
Definition print_size (n : Z) : res (list Z) := digits (fromSize (as_size n)).
Definition print_ptrdiff (n : Z) : res (list Z) := digits (fromPtrdiff (as_ptrdiff n)).
Definition print_uint8 (n : Z) : res (list Z) := digits (fromUint8 (as_uint8 n)).

(** The bytes of an internal string: value and value_length (duckVM.h 98-101). *)
Definition bytes_in (s : option (list Z)) : list Z := match s with Some b => b | None => [] end.

(** duckVM.c 7116-7137 duckVM_internalString_prettyPrint. *)
Definition print_internalString (s : option (list Z)) : res (list Z) :=
  n <- print_size (zlen (bytes_in s)) ;;
  Ok (dl_str "(duckVM_internalString_t) {" ++ dl_str "value[" ++ n ++ dl_str "] = """ ++ bytes_in s ++ dl_str """" ++ dl_str "}").

(** [p->value.internalString] (e.g. duckVM.c 7152): undefined if the object is of another kind. *)
Definition internalString_at (os : list object) (p : ptr) : res (option (list Z)) :=
  match nth_error os p with Some (OInternalString s) => Ok s | _ => UB end.

(** duckVM.c 7139-7170 duckVM_string_prettyPrint. *)
Definition print_string (os : list object) (s : optr) (offset len : Z) : res (list Z) :=
  match s with
  | None => Ok (dl_str "(duckVM_string_t) {" ++ dl_str "NULL" ++ dl_str "}")
  | Some p =>
    b <- internalString_at os p ;;
    t <- print_internalString b ;;
    i <- print_ptrdiff offset ;;
    n <- print_size len ;;
    Ok (dl_str "(duckVM_string_t) {" ++ dl_str """" ++ t ++ dl_str """[" ++ i ++ dl_str ":" ++ n ++ dl_str "]" ++ dl_str "}")
  end.

(** duckVM.c 7172-7203 duckVM_symbol_prettyPrint. *)
Definition print_symbol (os : list object) (id : Z) (s : optr) : res (list Z) :=
  name <- match s with
          | None => Ok (dl_str "NULL")
          | Some p => b <- internalString_at os p ;; t <- print_internalString b ;; Ok (dl_str """" ++ t ++ dl_str """")
          end ;;
  n <- print_size id ;;
  Ok (dl_str "(duckVM_symbol_t) {" ++ name ++ dl_str ", " ++ dl_str "id = " ++ n ++ dl_str "}").

(** duckVM.c 7205-7224 duckVM_function_prettyPrint.  Simplified: the callbacks of the model are
    numbers that stand for functions, none is null. *)
Definition print_function : list Z := dl_str "(duckVM_function_t) {" ++ dl_str "..." ++ dl_str "}".

(** The loops over pointers (duckVM.c 7280-7290, 7434-7443, 7467-7476): null and uninitialised
    pointers are followed, which is undefined. *)
Fixpoint print_cells (print : ptr -> res (list Z)) (l : list cell) (n : nat) {struct n} : res (list Z) :=
  match n with
  | O => Ok []
  | S m =>
    match l with
    | Cell (Some p) :: r =>
      t <- print p ;;
      ts <- print_cells print r m ;;
      Ok (t ++ (if (m =? 0)%nat then [] else dl_str ", ") ++ ts)
    | _ => UB
    end
  end.

(** duckVM.c 7376-7386: the chain of upvalues that lead to upvalues; how many arrows are printed, and
    the upvalue at the end. *)
Fixpoint chase (fuel : nat) (os : list object) (u : upvalue) : res (nat * upvalue) :=
  match fuel with
  | O => NoFuel
  | S f =>
    match u with
    | UpUpvalue None => Ok (1%nat, u)
    | UpUpvalue (Some p) =>
      match nth_error os p with
      | Some (OUpvalue w) => ' (n, e) <- chase f os w ;; Ok (S n, e)
      | _ => UB
      end
    | _ => Ok (O, u)
    end
  end.
Fixpoint arrows (n : nat) : list Z := match n with O => [] | S m => dl_str "-> " ++ arrows m end.

(** duckVM.c 6827-6838 duckVM_upvalue_type_prettyPrint. *)
Definition print_upvalue_type (u : upvalue) : list Z :=
  match u with
  | UpStack _ => dl_str "duckVM_upvalue_type_stack_index"
  | UpObject _ => dl_str "duckVM_upvalue_type_heap_object"
  | UpUpvalue _ => dl_str "duckVM_upvalue_type_heap_upvalue"
  end.

(** duckVM.c 7614-7657 duckVM_user_prettyPrint.  Simplified: the model does not tell a missing marker
    from one that marks nothing. *)
Definition null_or_dots (null : bool) : list Z := if null then dl_str "NULL" else dl_str "...".
Definition print_user (data : Z) (destructor : bool) (marks : list optr) : list Z :=
  dl_str "(duckVM_user_t) {" ++ dl_str "data = " ++ null_or_dots (data =? 0) ++
  dl_str "destructor = " ++ null_or_dots (negb destructor) ++
  dl_str "marker = " ++ null_or_dots (match marks with [] => true | _ => false end) ++ dl_str "}".

(** In the following [rec] prints an object at a place (duckVM.c 7708-7816).  [*p] with a pointer that
    leads nowhere is undefined. *)
Section Parts.
Context (rec : place -> object -> res (list Z)) (v : vm).
Definition print_at (p : ptr) : res (list Z) :=
  match nth_error (objects v) p with Some x => rec (InHeap p) x | None => UB end.
Definition print_or_null (p : optr) : res (list Z) := match p with None => Ok (dl_str "NULL") | Some q => print_at q end.
Definition print_buffer (cs : option (list cell)) (len : Z) : res (list Z) :=
  match cs with
  | Some l => print_cells print_at l (Z.to_nat (as_size len))
  | None => if as_size len =? 0 then Ok [] else UB
  end.

(** duckVM.c 7453-7488 duckVM_internalVector_prettyPrint. *)
Definition print_internalVector (cs : option (list cell)) (len : Z) (ini : bool) : res (list Z) :=
  t <- (if ini
        then n <- print_size len ;; ts <- print_buffer cs len ;; Ok (dl_str "values[" ++ n ++ dl_str "] = {" ++ ts ++ dl_str "}")
        else Ok (dl_str "values = UNINITIALIZED")) ;;
  Ok (dl_str "(duckVM_internalVector_t) {" ++ t ++ dl_str "}").

(** duckVM.c 7546-7591 duckVM_internalComposite_prettyPrint. *)
Definition print_internalComposite (ty : Z) (x g : optr) : res (list Z) :=
  n <- print_size ty ;;
  a <- print_or_null x ;;
  b <- print_or_null g ;;
  Ok (dl_str "(duckVM_internalComposite_t) {" ++ dl_str "type = " ++ n ++ dl_str ", " ++ dl_str "value = " ++ a ++ dl_str ", " ++
      dl_str "function = " ++ b ++ dl_str "}").

(** duckVM.c 7226-7313 duckVM_closure_prettyPrint: its byte code, its upvalues, and the rest. *)
Definition null_code (c : option (list Z)) : list Z := match c with None => dl_str "NULL" | Some _ => dl_str "..." end.
Definition print_closure_code (b : optr) : res (list Z) :=
  match b with
  | None => Ok (dl_str "bytecode = NULL")
  | Some p =>
    match nth_error (objects v) p with
    | Some (OBytecode _ c) => k <- print_size (zlen (bytes_in c)) ;; Ok (dl_str "bytecode[" ++ k ++ dl_str "] = " ++ null_code c)
    | _ => UB
    end
  end.
Definition print_closure_upvalues (u : optr) : res (list Z) :=
  match u with
  | None => Ok (dl_str "upvalue_array = NULL")
  | Some p =>
    match nth_error (objects v) p with
    | Some (OUpvalueArray _ cs len) =>
      k <- print_size len ;;
      ts <- match cs with None => Ok (dl_str "NULL") | Some l => print_cells print_at l (Z.to_nat (as_size len)) end ;;
      Ok (dl_str "upvalue_array[" ++ k ++ dl_str "] = " ++ ts)
    | _ => UB
    end
  end.
Definition print_closure (name : Z) (b u : optr) (arity : Z) (variadic : bool) : res (list Z) :=
  n <- print_ptrdiff name ;;
  code <- print_closure_code b ;;
  ups <- print_closure_upvalues u ;;
  a <- print_uint8 arity ;;
  Ok (dl_str "(duckVM_closure_t) {" ++ dl_str "name = " ++ n ++ dl_str ", " ++ code ++ dl_str ", " ++ ups ++ dl_str ", " ++
      dl_str "arity = " ++ a ++ dl_str ", " ++ dl_str "variadic = " ++ fromBool variadic ++ dl_str "}").

(** duckVM.c 7315-7334 duckVM_list_prettyPrint, 7336-7367 duckVM_cons_prettyPrint. *)
Definition print_list (l : optr) : res (list Z) := t <- print_or_null l ;; Ok (dl_str "(duckVM_list_t) {" ++ t ++ dl_str "}").
Definition print_cons (a d : optr) : res (list Z) :=
  t <- print_or_null a ;; s <- print_or_null d ;; Ok (dl_str "(duckVM_cons_t) {" ++ t ++ dl_str "." ++ s ++ dl_str "}").

(** duckVM.c 7369-7420 duckVM_upvalue_prettyPrint. *)
Definition print_captured (u : upvalue) : res (list Z) :=
  match u with
  | UpStack i => x <- raw_get (stack v) i ;; rec (OnStack i) x
  | UpObject (Some p) => print_at p
  | UpObject None => UB
  | UpUpvalue _ => Ok (dl_str "NULL")
  end.
Definition print_upvalue (fuel : nat) (u : upvalue) : res (list Z) :=
  ' (n, e) <- chase fuel (objects v) u ;;
  t <- print_captured e ;;
  Ok (dl_str "(duckVM_upvalue_t) {" ++ dl_str "value = " ++ arrows n ++ t ++ dl_str ", " ++ dl_str "type = " ++ print_upvalue_type e ++ dl_str "}").

(** duckVM.c 7422-7451 duckVM_upvalueArray_prettyPrint. *)
Definition print_upvalueArray (cs : option (list cell)) (len : Z) : res (list Z) :=
  n <- print_size len ;;
  ts <- print_buffer cs len ;;
  Ok (dl_str "(duckVM_upvalueArray_t) {" ++ dl_str "upvalues[" ++ n ++ dl_str "] = {" ++ ts ++ dl_str "}" ++ dl_str "}").

(** duckVM.c 7490-7515 duckVM_vector_prettyPrint, 7593-7612 duckVM_composite_prettyPrint. *)
Definition print_vector (e : optr) (offset : Z) : res (list Z) :=
  match e with
  | None => Ok (dl_str "(duckVM_vector_t) {" ++ dl_str "NULL" ++ dl_str "}")
  | Some p =>
    match nth_error (objects v) p with
    | Some (OInternalVector cs len ini) =>
      t <- print_internalVector cs len ini ;;
      i <- print_ptrdiff offset ;;
      Ok (dl_str "(duckVM_vector_t) {" ++ t ++ dl_str "[" ++ i ++ dl_str ":]" ++ dl_str "}")
    | _ => UB
    end
  end.
Definition print_composite (c : optr) : res (list Z) :=
  match c with
  | None => Ok (dl_str "(duckVM_composite_t) {" ++ dl_str "NULL" ++ dl_str "}")
  | Some p =>
    match nth_error (objects v) p with
    | Some (OInternalComposite ty x g) => t <- print_internalComposite ty x g ;; Ok (dl_str "(duckVM_composite_t) {" ++ t ++ dl_str "}")
    | _ => UB
    end
  end.

(** duckVM.c 7517-7544 duckVM_bytecode_prettyPrint. *)
Definition print_bytecode (c : option (list Z)) : res (list Z) :=
  n <- print_size (zlen (bytes_in c)) ;;
  Ok (dl_str "(duckVM_bytecode_t) {" ++ dl_str "bytecode[" ++ n ++ dl_str "] = {" ++ null_code c ++ dl_str "}" ++ dl_str "}").

(** duckVM.c 7724-7809: the switch over the kinds of objects. *)
Definition print_kind (fuel : nat) (o : object) : res (list Z) :=
  match o with
  | OBool b => Ok (dl_str "bool: (dl_bool_t) " ++ fromBool (negb (b =? 0)))
  | OInteger n => t <- print_ptrdiff n ;; Ok (dl_str "integer: (dl_ptrdiff_t) " ++ t)
  | OFloat _ => Ok (dl_str "float: (double) ...")
  | OInternalString s => print_internalString s
  | OString s offset len => print_string (objects v) s offset len
  | OSymbol id s => print_symbol (objects v) id s
  | OFunction _ => Ok print_function
  | OClosure name b u arity variadic => print_closure name b u arity variadic
  | OList l => print_list l
  | OCons a d => print_cons a d
  | OUpvalue u => print_upvalue fuel u
  | OUpvalueArray _ cs len => print_upvalueArray cs len
  | OInternalVector cs len ini => print_internalVector cs len ini
  | OVector e offset => print_vector e offset
  | OBytecode _ c => print_bytecode c
  | OType t => n <- print_size t ;; Ok (dl_str "type: (dl_size_t) " ++ n)
  | OInternalComposite ty x g => print_internalComposite ty x g
  | OComposite c => print_composite c
  | OUser data destructor marks => Ok (print_user data destructor marks)
  | ONone => Ok (dl_str "INVALID")
  end.
End Parts.

(** duckVM.c 7708-7816 duckVM_object_prettyPrint. *)
Fixpoint print_object (fuel : nat) (used : place -> bool) (v : vm) (pl : place) (o : object) : res (list Z) :=
  match fuel with
  | O => NoFuel
  | S f =>
    body <- print_kind (print_object f used v) v f o ;;
    Ok (dl_str "(duckVM_object_t) {" ++ dl_str "inUse = " ++ fromBool (used pl) ++ body ++ dl_str "}")
  end.

(** duckLisp.c 2507-2547 duckLisp_ast_string_prettyPrint, duckLisp_ast_identifier_prettyPrint. *)
Definition print_ast_string (s : list Z) : list Z :=
  dl_str "(duckLisp_ast_string_t) {" ++ dl_str """" ++ s ++ dl_str """" ++ dl_str "}".
Definition print_ast_identifier (s : list Z) : list Z :=
  dl_str "(duckLisp_ast_identifier_t) {" ++ dl_str """" ++ s ++ dl_str """" ++ dl_str "}".

(** duckLisp.c 2447-2470 duckLisp_ast_type_prettyPrint. *)
Definition print_ast_type (a : ast) : list Z :=
  match a with
  | AstExpression _ => dl_str "duckLisp_ast_type_expression"
  | AstLiteral _ => dl_str "duckLisp_ast_type_literalExpression"
  | AstIdentifier _ => dl_str "duckLisp_ast_type_identifier"
  | AstCallback _ => dl_str "duckLisp_ast_type_callback"
  | AstString _ => dl_str "duckLisp_ast_type_string"
  | AstFloat _ => dl_str "duckLisp_ast_type_float"
  | AstInt _ => dl_str "duckLisp_ast_type_int"
  | AstBool _ => dl_str "duckLisp_ast_type_bool"
  end.

(** duckLisp.c 2549-2629 duckLisp_ast_expression_prettyPrint and
    duckLisp_ast_compoundExpression_prettyPrint, with the printers of booleans, integers and floats
    (2472-2505).  The tree is finite, so there is no fuel. *)
Fixpoint print_ast (a : ast) : res (list Z) :=
  let each := fix each (l : list ast) : res (list Z) :=
    match l with
    | [] => Ok []
    | [x] => print_ast x
    | x :: r => t <- print_ast x ;; ts <- each r ;; Ok (t ++ dl_str ", " ++ ts)
    end in
  t <- match a with
       | AstExpression l | AstLiteral l => ts <- each l ;; Ok (dl_str "(duckLisp_ast_expression_t) {" ++ ts ++ dl_str "}")
       | AstIdentifier s | AstCallback s => Ok (print_ast_identifier s)
       | AstString s => Ok (print_ast_string s)
       | AstFloat _ => Ok (dl_str "(duckLisp_ast_float_t) {...}")
       | AstInt n => t <- print_ptrdiff n ;; Ok (dl_str "(duckLisp_ast_integer_t) {" ++ t ++ dl_str "}")
       | AstBool b => Ok (dl_str "(duckLisp_ast_bool_t) {" ++ fromBool b ++ dl_str "}")
       end ;;
  Ok (dl_str "(duckLisp_ast_compoundExpression_t) {" ++ dl_str "type = " ++ print_ast_type a ++ dl_str ", " ++ dl_str "value = " ++ t ++ dl_str "}").

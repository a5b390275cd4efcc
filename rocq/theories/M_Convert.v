(** Syntax trees as objects of the machine, and back: duckLisp.c and generators.c; and the callbacks
    of the compiler that make symbols and read text. *)
From Coq Require Import String ZArith List Bool.
From Verif Require Import M_Base M_Trie M_Parser M_Symbol M_Heap M_VM M_Host M_Compile.
Import ListNotations.
Open Scope Z_scope.
Open Scope list_scope.

(** * Trees to objects *)

(** duckLisp.c 201-222 duckLisp_symbol_create followed by 191-198 duckLisp_symbol_nameToValue, as in
    [M_Compile.symbol].  Simplification: the compiler's own memory does not run out. *)
Definition intern_name (y : symbols) (name : bytes) : Z * symbols :=
  let y' := fst (symbol_create true y name) in (nameToValue y' name, y').

(** duckLisp.c 833-853: the elements of a list, converted by [convert] from the last to the first;
    every pointer made is kept in C variables only, where the collector does not see it. *)
Definition list_to_pairs (convert : symbols -> ast -> M (object * symbols)) (y : symbols) : list ast -> M (optr * symbols) :=
  fix pairs (l : list ast) : M (optr * symbols) :=
    match l with
    | [] => mret (None, y)
    | t :: l =>
        r <~ pairs l ;;
        h <~ convert (snd r) t ;;
        head <~ alloc (fst h) ;;
        tail <~ alloc (OCons head (fst r)) ;;
        mret (tail, snd h)
    end.

(** duckLisp.c 824-899 duckLisp_astToObject.  A float that the reader has left uninitialised
    ([None]) is copied, which is undefined. *)
Fixpoint ast_to_object (y : symbols) (t : ast) {struct t} : M (object * symbols) :=
  match t with
  | AstExpression l | AstLiteral l =>
      r <~ list_to_pairs ast_to_object y l ;;
      mret (OList (fst r), snd r)
  | AstIdentifier s | AstCallback s =>
      let i := intern_name y s in
      p <~ alloc (OInternalString (Some s)) ;;
      mret (OSymbol (fst i) p, snd i)
  | AstString s =>
      p <~ alloc (OInternalString (Some s)) ;;
      mret (OString p 0 (zlen s), y)
  | AstFloat (Some f) => mret (OFloat f, y)
  | AstFloat None => mub
  | AstInt n => mret (OInteger n, y)
  | AstBool b => mret (OBool (if b then 1 else 0), y)
  end.

(** * Objects to trees *)

(** [p->type] and the object itself (e.g. duckLisp.c 746-822). *)
Definition at_pointer (os : list object) (p : ptr) : res object :=
  match nth_error os p with Some o => Ok o | None => UB end.

(** generators.c 1050-1071 duckLisp_consList_length: a pair with a tail that is no list does not
    count. *)
Fixpoint consList_length (fuel : nat) (os : list object) (cons : optr) : res nat :=
  match fuel with
  | O => NoFuel
  | S fuel =>
      match cons with
      | None => Ok 0%nat
      | Some c =>
          o <- at_pointer os c ;;
          match o with
          | OCons _ None => Ok 1%nat
          | OCons _ (Some d) =>
              t <- at_pointer os d ;;
              match t with
              | OList l => n <- consList_length fuel os l ;; Ok (S n)
              | OCons _ _ => n <- consList_length fuel os (Some d) ;; Ok (S n)
              | _ => Ok 0%nat
              end
          | _ => UB
          end
      end
  end.

(** duckLisp.c 746-822 duckLisp_objectToAST.  Simplifications: the compiler's memory does not run
    out; a boolean is its truth value; a string whose offset lies beyond its end is undefined (the C
    code asks for a huge buffer). *)
Fixpoint object_to_ast (fuel : nat) (os : list object) (use_exprs : bool) (o : object) : res ast :=
  match fuel with
  | O => NoFuel
  | S fuel =>
      match o with
      | OBool b => Ok (AstBool (negb (b =? 0)))
      | OInteger n => Ok (AstInt n)
      | OFloat f => Ok (AstFloat (Some f))
      | OString s offset len =>
          if len - offset =? 0 then Ok (AstString [])
          else b <- string_bytes os s ;; x <- slice b offset (len - offset) ;; Ok (AstString x)
      | OList l => if use_exprs then cons_to_expr fuel os l else cons_to_cons fuel os l
      | OSymbol _ s => b <- string_bytes os s ;; Ok (AstIdentifier b)
      | OType t => Ok (AstInt t)
      | _ => Err invalidValue
      end
  end
(** generators.c 1072-1138 duckLisp_consToExprAST; writing beyond the allocated elements is
    undefined. *)
with cons_to_expr (fuel : nat) (os : list object) (cons : optr) : res ast :=
  match fuel with
  | O => NoFuel
  | S fuel =>
      match cons with
      | None => Ok (AstExpression [])
      | _ => n <- consList_length fuel os cons ;; l <- expr_elements fuel os n cons ;; Ok (AstExpression l)
      end
  end
(** The loop of generators.c 1086-1128; [room] elements are left. *)
with expr_elements (fuel : nat) (os : list object) (room : nat) (cons : optr) : res (list ast) :=
  match fuel with
  | O => NoFuel
  | S fuel =>
      match cons with
      | None => match room with O => Ok [] | _ => UB end
      | Some c =>
          o <- at_pointer os c ;;
          match o with
          | OCons a d =>
              match room with
              | O => UB
              | S room =>
                  x <- match a with
                       | None => cons_to_expr fuel os None
                       | Some a =>
                           h <- at_pointer os a ;;
                           match h with
                           | OCons _ _ => cons_to_expr fuel os (Some a)
                           | _ => object_to_ast fuel os true h
                           end
                       end ;;
                  rest <- match d with
                          | None => expr_elements fuel os room None
                          | Some d =>
                              t <- at_pointer os d ;;
                              match t with
                              | OCons _ _ => expr_elements fuel os room (Some d)
                              | OList l => expr_elements fuel os room l
                              | _ => Err invalidValue
                              end
                          end ;;
                  Ok (x :: rest)
              end
          | _ => UB
          end
      end
  end
(** generators.c 1140-1200 duckLisp_consToConsAST. *)
with cons_to_cons (fuel : nat) (os : list object) (cons : optr) : res ast :=
  match fuel with
  | O => NoFuel
  | S fuel =>
      match cons with
      | None => Ok (AstExpression [])
      | Some c =>
          o <- at_pointer os c ;;
          match o with
          | OCons a d =>
              x <- half_to_ast fuel os a ;;
              y <- half_to_ast fuel os d ;;
              Ok (AstExpression [AstIdentifier (str "__cons"); x; y])
          | _ => UB
          end
      end
  end
(** The two equal halves of it: generators.c 1168-1179 and 1180-1191. *)
with half_to_ast (fuel : nat) (os : list object) (p : optr) : res ast :=
  match fuel with
  | O => NoFuel
  | S fuel =>
      match p with
      | None => cons_to_cons fuel os None
      | Some a =>
          h <- at_pointer os a ;;
          match h with
          | OCons _ _ => cons_to_cons fuel os (Some a)
          | _ => object_to_ast fuel os false h
          end
      end
  end.

(** * Callbacks *)

(** duckLisp.c 1406-1430 duckLisp_callback_gensym. *)
Definition callback_gensym (y : symbols) : M symbols :=
  let g := gensym y in
  let i := intern_name (fst g) (snd g) in
  host_pushSymbol (fst i) (snd g) ;;; mret (snd i).

(** The result of copyString as bytes (duckVM.c 5809-5827). *)
Definition copied_bytes (a : answer) : list Z := match a with Text (Some s) _ => s | _ => [] end.

(** duckLisp.c 1432-1470 duckLisp_callback_intern: at [cleanupString] the error code is overwritten
    by that of DL_FREE, so that a failure to make the symbol is not reported.  Simplification: the
    copy of the string can be freed; the copy of an empty string is null, and freeing it is an
    error. *)
Definition callback_intern (y : symbols) : M symbols :=
  o <~ get_top ;;
  match o with
  | OString _ _ _ =>
      a <~ host_copyString ;;
      let s := copied_bytes a in
      stack_pop ;;;
      let i := intern_name y s in
      swallow (host_pushSymbol (fst i) s) ;;;
      match a with Text (Some _) _ => mret (snd i) | _ => merr nullPointer end
  | _ => merr invalidValue
  end.

(** DuckLib/core.h 58-68. *)
Definition error_number (e : error) : Z :=
  match e with
  | invalidValue => 1 | bufferUnderflow => 2 | bufferOverflow => 3 | nullPointer => 4
  | danglingPointer => 5 | outOfMemory => 6 | shouldntHappen => 7 | cantHappen => 8
  end.

(** duckLisp.c 1471-1605 duckLisp_callback_read from the check of the first argument on, without the
    parenthesis inference: [fuel] and [max] are those of the reader.  Undefined behaviour of the
    reader is that of the callback.  Simplification: the copy of the text can be freed (the copy of
    an empty text is null, and freeing it is an error). *)
Definition callback_read (fuel max : nat) (y : symbols) : M symbols :=
  b <~ get_top ;;
  match b with
  | OBool _ =>
      b <~ host_copyBoolean ;;
      stack_pop ;;;
      match b with
      | Number 0 =>
          o <~ get_top ;;
          match o with
          | OString _ _ _ =>
              a <~ host_copyString ;;
              stack_pop ;;;
              r <~ match read fuel (copied_bytes a) max 0 with
                   | POk (t, _) => r <~ ast_to_object y t ;; mret (0, fst r, snd r)
                   | PErr e => mret (error_number e, OList None, y)
                   | POutside | POverflow => mub
                   | PNoFuel => mlift NoFuel
                   end ;;
              let '(status, object, y') := r in
              host_pushCons ;;;
              stack_push (OInteger 0) ;;;
              host_setInteger status ;;;
              host_setRest (-2) ;;;
              stack_pop ;;;
              stack_push object ;;;
              host_setFirst (-2) ;;;
              stack_pop ;;;
              match a with Text (Some _) _ => mret y' | _ => merr nullPointer end
          | _ => merr invalidValue
          end
      | _ => merr invalidValue
      end
  | _ => merr invalidValue
  end.

(** The functions a host program calls on the machine (duckVM.c 519-548, 4677-6822).

    Values the C functions write through pointers are returned as an [answer].  As in M_VM an
    error keeps the changes made before it, error messages are not modelled and malloc is assumed
    to succeed.  Reading a local variable that has not been set is undefined. *)
From Coq Require Import ZArith List Bool Floats.SpecFloat.
Import ListNotations.
From Verif Require Import M_Base M_Heap M_Instr M_VM.
Open Scope Z_scope.

(** What a call gives back besides its error code.  A text is a buffer ([None]: the null pointer)
    and its length ([None]: the caller's variable is not written)
    (the pointer parameters of duckVM.h 232-440). *)
Inductive answer :=
| Nothing
| Number (n : Z)
| Real (f : spec_float)
| Text (bytes : option (list Z)) (len : option Z).

(** duckVM.c 536-541 stack_get and 543-548 stack_set: negative positions count from the top. *)
Definition from_bottom {A} (l : list A) (i : Z) : Z := if i <? 0 then zlen l + i else i.
Definition stack_get (i : Z) : M object :=
  v <~ mget ;; mlift (abs_get (stack v) (from_bottom (stack v) i)).
Definition stack_set (o : object) (i : Z) : M unit :=
  v <~ mget ;;
  s <~ mlift (abs_set (stack v) (from_bottom (stack v) i) o) ;; mset (set_stack v s).

(** dl_array_getTop and dl_array_setTop on the stack (DuckLib/array.c 168-200). *)
Definition get_top : M object :=
  v <~ mget ;; match stack v with [] => merr bufferUnderflow | o :: _ => mret o end.
Definition set_top (o : object) : M unit :=
  v <~ mget ;; match stack v with [] => merr bufferUnderflow | _ :: s => mset (set_stack v (o :: s)) end.

(** * General operations *)

(** duckVM.c 5514-5519 duckVM_push; 5532-5543 duckVM_copyFromTop. *)
Definition host_push (i : Z) : M unit := o <~ stack_get i ;; stack_push o.
Definition host_copyFromTop (i : Z) : M unit := o <~ get_top ;; stack_set o i.

(** duckVM.c 4724-4726 duckVM_popAll. *)
Definition host_popAll : M unit := v <~ mget ;; stack_pop_multiple (zlen (stack v)).

(** duckVM.c 4702-4704 duckVM_garbageCollect. *)
Definition host_garbageCollect : M unit := fun v =>
  match garbage_collect v with
  | Ok v' => (Ok tt, v')
  | Err e => (Err e, v)
  | UB => (UB, v)
  | NoFuel => (NoFuel, v)
  end.

(** duckVM.c 4736-4751 duckVM_softReset. *)
Definition host_softReset : M unit :=
  host_popAll ;;;
  v <~ mget ;;
  if zlen (uacs v) <? zlen (call_stack v) then merr bufferUnderflow
  else mset (set_calls v [] (skipn (length (call_stack v)) (uacs v))).

(** duckVM.c 4753-4759 duckVM_pushGlobal. *)
Definition host_pushGlobal (key : Z) : M unit := p <~ global_get key ;; o <~ pointee p ;; stack_push o.

(** duckVM.c 4761-4767 duckVM_setGlobal: the top of the stack is copied to a null pointer. *)
Definition host_setGlobal (key : Z) : M unit :=
  v <~ mget ;; match stack v with [] => merr bufferUnderflow | _ => mub end.

(** duckVM.c 4677-4695 duckVM_linkCFunction. *)
Definition host_linkCFunction (key callback : Z) : M unit := p <~ alloc (OFunction callback) ;; global_set p key.

(** * Predicates (duckVM.c 5345-5505) *)

(** A boolean answer (duckVM.c 5345-5352). *)
Definition number_of (b : bool) : answer := Number (if b then 1 else 0).
(** duckVM.c 5345-5352 templateForIsThing. *)
Definition is_thing (t : Z) : M answer := o <~ get_top ;; mret (number_of (type_number o =? t)).
(** duckVM.c 5387-5395 duckVM_isCons and 5409-5417 duckVM_isNil. *)
Definition host_isCons : M answer :=
  o <~ get_top ;; mret (number_of (match o with OList (Some _) => true | _ => false end)).
Definition host_isNil : M answer :=
  o <~ get_top ;; mret (number_of (match o with OList None => true | _ => false end)).
(** duckVM.c 5419-5437 duckVM_isEmptyVector: the offset is not looked at. *)
Definition empty_vector (os : list object) (e : optr) : res bool :=
  match e with None => Ok true | _ => ' (_, len, _) <- internal_vector os e ;; Ok (len =? 0) end.
Definition host_isEmptyVector : M answer :=
  o <~ get_top ;;
  v <~ mget ;;
  match o with
  | OVector e _ => b <~ mlift (empty_vector (objects v) e) ;; mret (number_of b)
  | _ => mret (number_of false)
  end.
(** duckVM.c 5467-5505 duckVM_isEmpty. *)
Definition host_isEmpty : M answer :=
  o <~ get_top ;;
  v <~ mget ;;
  match o with
  | OList l => mret (number_of (match l with None => true | _ => false end))
  | OVector e _ => b <~ mlift (empty_vector (objects v) e) ;; mret (number_of b)
  | OString _ offset len => mret (number_of (usz (len - offset) =? 0))
  | OClosure _ _ u _ _ =>
    match u with
    | None => mret (number_of true)
    | _ => a <~ deref u ;;
           match a with OUpvalueArray _ _ len => mret (number_of (len =? 0)) | _ => mub end
    end
  | _ => mret (number_of false)
  end.

(** * Booleans, integers and floats (duckVM.c 5617-5789) *)

(** duckVM.c 5625-5664, 5678-5737, 5750-5789. *)
Definition host_setBoolean (b : Z) : M unit :=
  o <~ get_top ;; match o with OBool _ => set_top (OBool b) | _ => merr invalidValue end.
Definition host_copyBoolean : M answer :=
  o <~ get_top ;; match o with OBool b => mret (Number b) | _ => merr invalidValue end.
Definition host_setInteger (n : Z) : M unit :=
  o <~ get_top ;; match o with OInteger _ => set_top (OInteger n) | _ => merr invalidValue end.
Definition host_copySignedInteger : M answer :=
  o <~ get_top ;; match o with OInteger n => mret (Number n) | _ => merr invalidValue end.
Definition host_copyUnsignedInteger : M answer :=
  o <~ get_top ;; match o with OInteger n => mret (Number (usz n)) | _ => merr invalidValue end.
Definition host_setFloat (f : spec_float) : M unit :=
  o <~ get_top ;; match o with OFloat _ => set_top (OFloat f) | _ => merr invalidValue end.
Definition host_copyFloat : M answer :=
  o <~ get_top ;; match o with OFloat f => mret (Real f) | _ => merr invalidValue end.

(** * Strings and symbols *)

(** duckVM.c 4798-4816 duckVM_object_makeString and 5795-5805 duckVM_pushString. *)
Definition host_pushString (s : list Z) : M unit :=
  p <~ alloc (OInternalString (Some s)) ;; stack_push (OString p 0 (zlen s)).
(** duckVM.c 4987-5017 duckVM_object_getString and 5809-5827 duckVM_copyString. *)
Definition host_copyString : M answer :=
  o <~ get_top ;;
  v <~ mget ;;
  match o with
  | OString s offset len =>
    if len =? 0 then mret (Text None (Some (usz (len - offset))))
    else
      match s with
      | None => merr nullPointer
      | _ =>
        b <~ mlift (string_bytes (objects v) s) ;;
        x <~ mlift (slice b offset (len - offset)) ;;
        mret (Text (Some x) (Some (usz (len - offset))))
      end
  | _ => merr invalidValue
  end.
(** duckVM.c 4825-4842 duckVM_object_makeSymbol and 5833-5843 duckVM_pushSymbol. *)
Definition host_pushSymbol (id : Z) (name : list Z) : M unit :=
  p <~ alloc (OInternalString (Some name)) ;; stack_push (OSymbol id p).
(** duckVM.c 5858-5888 duckVM_copySymbolName: without a name the length is not written
    ([name_length = 0] sets the pointer). *)
Definition host_copySymbolName : M answer :=
  o <~ get_top ;;
  v <~ mget ;;
  match o with
  | OSymbol _ None => mret (Text None None)
  | OSymbol _ s => b <~ mlift (string_bytes (objects v) s) ;; mret (Text (Some b) (Some (zlen b)))
  | _ => merr invalidValue
  end.
(** duckVM.c 5891-5909 duckVM_copySymbolId. *)
Definition host_copySymbolId : M answer :=
  o <~ get_top ;; match o with OSymbol id _ => mret (Number id) | _ => merr invalidValue end.

(** * Types and composites *)

(** duckVM.c 5914-5924 duckVM_pushNewType; 5940-5958 duckVM_copyType. *)
Definition host_pushNewType : M unit :=
  v <~ mget ;;
  mset (set_user_type v (usz (next_user_type v + 1))) ;;;
  stack_push (OType (next_user_type v)).
Definition host_copyType : M answer :=
  o <~ get_top ;; match o with OType t => mret (Number t) | _ => merr invalidValue end.
(** duckVM.c 5964-5981 duckVM_pushComposite: both slots get the same nil object. *)
Definition host_pushComposite (t : Z) : M unit :=
  nil <~ alloc (OList None) ;;
  c <~ alloc (OInternalComposite t nil nil) ;;
  stack_push (OComposite c).
(** duckVM.c 5983-6001 duckVM_copyCompositeType; 6003-6043 duckVM_pushCompositeValue and
    duckVM_pushCompositeFunction. *)
Definition host_copyCompositeType : M answer :=
  o <~ get_top ;;
  match o with
  | OComposite c => ' (t, _, _) <~ composite_get c ;; mret (Number t)
  | _ => merr invalidValue
  end.
Definition host_pushCompositeField (function : bool) : M unit :=
  o <~ get_top ;;
  match o with
  | OComposite c => ' (_, x, f) <~ composite_get c ;; y <~ pointee (if function then f else x) ;; stack_push y
  | _ => merr invalidValue
  end.
(** duckVM.c 6046-6069 duckVM_setCompositeValue; 6072-6095 duckVM_setCompositeFunction, which does
    not accept negative positions. *)
Definition host_setCompositeField (function : bool) (i : Z) : M unit :=
  x <~ get_top ;;
  v <~ mget ;;
  o <~ (if function then mlift (abs_get (stack v) i) else stack_get i) ;;
  match o with
  | OComposite c =>
    p <~ alloc x ;;
    ' (t, a, f) <~ composite_get c ;;
    write c (if function then OInternalComposite t a p else OInternalComposite t p f)
  | _ => merr invalidValue
  end.

(** * Pairs, vectors and closures *)

(** duckVM.c 6109-6123 duckVM_pushCons. *)
Definition host_pushCons : M unit := p <~ alloc (OCons None None) ;; stack_push (OList p).
(** duckVM.c 6129-6152 duckVM_pushVector: the elements are null pointers, the nil made for them is
    not used, and the release of the temporary array overwrites the error code. *)
Definition swallow (m : M unit) : M unit := fun v =>
  match m v with (Err _, v') => (Ok tt, v') | r => r end.
Definition host_pushVector (n : Z) : M unit :=
  swallow (nil <~ alloc (OList None) ;;
           p <~ alloc (OInternalVector (Some (repeat (Cell None) (Z.to_nat n))) n true) ;;
           stack_push (OVector p 0)).
(** duckVM.c 6159-6240: duckVM_copyClosureName, duckVM_copyClosureArity,
    duckVM_copyClosureIsVariadic and duckVM_pushClosureBytecode. *)
Definition host_copyClosureName : M answer :=
  o <~ get_top ;; match o with OClosure n _ _ _ _ => mret (Number n) | _ => merr invalidValue end.
Definition host_copyClosureArity : M answer :=
  o <~ get_top ;; match o with OClosure _ _ _ a _ => mret (Number a) | _ => merr invalidValue end.
Definition host_copyClosureIsVariadic : M answer :=
  o <~ get_top ;; match o with OClosure _ _ _ _ b => mret (number_of b) | _ => merr invalidValue end.
Definition host_pushClosureBytecode : M unit :=
  o <~ get_top ;;
  match o with OClosure _ b _ _ _ => c <~ pointee b ;; stack_push c | _ => merr invalidValue end.

(** * Sequences *)

(** duckVM.c 5245-5251 duckVM_vector_getLength, 5253-5272 duckVM_vector_getElement and 5274-5293
    duckVM_vector_setElement. *)
Definition vector_place (os : list object) (e : optr) (offset i : Z) : res (option (list cell) * Z * bool) :=
  match e with
  | None => Err nullPointer
  | _ =>
    ' (cs, len, ini) <- internal_vector os e ;;
    if usz (len - offset) <=? usz i then Err invalidValue else Ok (cs, len, ini)
  end.
Definition vector_get_element (e : optr) (offset i : Z) : M optr :=
  v <~ mget ;;
  ' (cs, _, _) <~ mlift (vector_place (objects v) e offset i) ;;
  mlift (cell_get cs (offset + i)).
Definition vector_set_element (e : optr) (offset i : Z) (p : optr) : M unit :=
  v <~ mget ;;
  ' (cs, len, ini) <~ mlift (vector_place (objects v) e offset i) ;;
  cs' <~ mlift (cell_set cs (offset + i) p) ;;
  write e (OInternalVector cs' len ini).

(** duckVM.c 5072-5078 duckVM_string_getElement: neither the offset nor the length is looked at. *)
Definition string_get_element (s : optr) (i : Z) : M Z :=
  v <~ mget ;;
  match s with
  | None => merr nullPointer
  | _ =>
    o <~ deref s ;;
    match o with
    | OInternalString (Some b) => mlift (array_get b i)
    | _ => mub
    end
  end.

(** duckVM.c 5111-5143 duckVM_closure_getUpvalue and duckVM_closure_setUpvalue: element [i] of the
    captured variables, without a bounds check. *)
Definition closure_upvalue (u : optr) (i : Z) : M upvalue :=
  v <~ mget ;;
  match u with
  | None => merr nullPointer
  | _ =>
    a <~ deref u ;;
    match a with
    | OUpvalueArray _ cs _ =>
      p <~ mlift (cell_get cs i) ;;
      ' (_, e) <~ mlift (upvalue_end (length (objects v)) true (objects v) p) ;; mret e
    | _ => merr invalidValue
    end
  end.
(** duckVM.c 5154-5188 duckVM_upvalueArray_getUpvalue; 5190-5224 duckVM_upvalueArray_setUpvalue. *)
Definition closure_get (u : optr) (i : Z) : M object :=
  e <~ closure_upvalue u i ;;
  v <~ mget ;;
  match e with
  | UpStack k => mlift (abs_get (stack v) k)
  | UpObject p => deref p
  | UpUpvalue _ => mub
  end.
Definition closure_set (u : optr) (i : Z) (p : optr) : M unit :=
  e <~ closure_upvalue u i ;;
  o <~ deref p ;;
  v <~ mget ;;
  match e with
  | UpStack k => s <~ mlift (abs_set (stack v) k o) ;; mset (set_stack v s)
  | UpObject q => write q o
  | UpUpvalue _ => mub
  end.

(** The error code of the switch is overwritten by that of the following push, which then pushes
    [o], the variable as it was left by the failing case ([None]: not set) (duckVM.c 6249-6426). *)
Definition or_garbage (m : M object) (o : option object) : M object := fun v =>
  match m v with
  | (Err e, v') => match o with Some o => (Ok o, v') | None => (UB, v') end
  | r => r
  end.

(** duckVM.c 6249-6321 duckVM_pushFirst. *)
Definition host_pushFirst : M unit :=
  s <~ get_top ;;
  o <~ (match s with
        | OList None => mret (OList None)
        | OList l => c <~ deref l ;; match c with OCons a _ => unbox a | _ => mub end
        | OCons a _ => mret (OList a)
        | OVector e offset => or_garbage (p <~ vector_get_element e offset 0 ;; deref p) None
        | OString t _ _ => or_garbage (b <~ string_get_element t 0 ;; mret (OInteger b)) None
        | OClosure _ _ u _ _ => or_garbage (closure_get u 0) None
        | _ => or_garbage (merr invalidValue) None
        end) ;;
  stack_push o.

(** duckVM.c 6346-6418 duckVM_pushRest.  After the error for an empty rest the sequence itself is
    pushed. *)
Definition host_pushRest : M unit :=
  s <~ get_top ;;
  v <~ mget ;;
  o <~ (match s with
        | OList None => mret (OList None)
        | OList l => c <~ deref l ;; match c with OCons _ d => unbox d | _ => mub end
        | OVector e offset =>
          ' (_, len, _) <~ mlift (internal_vector (objects v) e) ;;
          or_garbage (if len <=? usz (offset + 1) then merr invalidValue else mret (OVector e (offset + 1)))
                     (Some s)
        | OString t offset len =>
          or_garbage (if len <=? usz (offset + 1) then merr invalidValue else mret (OString t (offset + 1) len))
                     (Some s)
        | _ => or_garbage (merr invalidValue) None
        end) ;;
  stack_push o.

(** Assignment through a list pointer (duckVM.c 6438-6572). *)
Definition set_cons (l : optr) (f : optr -> optr -> object) : M unit :=
  c <~ deref l ;; match c with OCons a d => write l (f a d) | _ => mub end.

(** duckVM.c 6438-6499 duckVM_setFirst. *)
Definition host_setFirst (i : Z) : M unit :=
  x <~ get_top ;;
  p <~ alloc x ;;
  s <~ stack_get i ;;
  match s with
  | OList None => merr invalidValue
  | OList l => set_cons l (fun _ d => OCons p d)
  | OVector e offset => vector_set_element e offset 0 p
  | OClosure _ _ u _ _ => closure_set u 0 p
  | _ => merr invalidValue
  end.

(** duckVM.c 6509-6572 duckVM_setRest. *)
Definition host_setRest (i : Z) : M unit :=
  x <~ get_top ;;
  p <~ alloc x ;;
  s <~ stack_get i ;;
  match s with
  | OList None => merr invalidValue
  | OList l => set_cons l (fun a _ => OCons a p)
  | _ => merr invalidValue
  end.

(** duckVM.c 6591-6609: the loop over the pairs of a list. *)
Fixpoint nth_cdr (os : list object) (k : nat) (p : optr) : res optr :=
  match k, p with
  | O, _ => Ok p
  | S _, None => Ok None
  | S k', Some q =>
    match nth_error os q with
    | Some (OCons _ d) => nth_cdr os k' d
    | Some _ => Err invalidValue
    | None => UB
    end
  end.

(** duckVM.c 6579-6647 duckVM_pushElement: for a list the pair itself is pushed. *)
Definition host_pushElement (i : Z) : M unit :=
  s <~ get_top ;;
  v <~ mget ;;
  o <~ (match s with
        | OList l => p <~ mlift (nth_cdr (objects v) (Z.to_nat i) l) ;; deref p
        | OVector e offset => p <~ vector_get_element e offset i ;; deref p
        | OString t _ _ => b <~ string_get_element t i ;; mret (OInteger b)
        | OClosure _ _ u _ _ => closure_get u i
        | _ => merr invalidValue
        end) ;;
  stack_push o.

(** duckVM.c 6655-6758 duckVM_setElement.  The code for lists that looks at the index is not
    reached, and an unsupported type makes no error. *)
Definition host_setElement (i at_ : Z) : M unit :=
  x <~ get_top ;;
  p <~ alloc x ;;
  s <~ stack_get at_ ;;
  match s with
  | OList None => merr invalidValue
  | OList l => set_cons l (fun _ d => OCons p d)
  | OVector e offset => vector_set_element e offset i p
  | OString _ _ _ => merr invalidValue
  | OClosure _ _ u _ _ => closure_set u i p
  | _ => mret tt
  end.

(** duckVM.c 6761-6822 duckVM_length. *)
Definition host_length : M answer :=
  s <~ get_top ;;
  v <~ mget ;;
  match s with
  | OList l =>
    c <~ mlift (list_is_cyclic (objects v) l) ;;
    if c then merr invalidValue
    else n <~ mlift (list_length (length (objects v)) (objects v) l) ;; mret (Number n)
  | OVector None _ => mret (Number 0)
  | OVector e offset => ' (_, len, _) <~ mlift (internal_vector (objects v) e) ;; mret (Number (usz (len - offset)))
  | OString _ offset len => mret (Number (usz (len - offset)))
  | OClosure _ _ u _ _ =>
    match u with
    | None => merr nullPointer
    | _ => a <~ deref u ;; match a with OUpvalueArray _ _ len => mret (Number len) | _ => mub end
    end
  | _ => merr invalidValue
  end.

(** * All of them *)

(** The functions of duckVM.h 232-440. *)
Inductive call :=
| HStackLength | HPush (i : Z) | HPop | HPopSeveral (n : Z) | HPopAll | HCopyFromTop (i : Z) | HTypeOf
| HGarbageCollect | HSoftReset | HPushGlobal (key : Z) | HSetGlobal (key : Z)
| HLinkCFunction (key callback : Z)
| HIs (type : Z) | HIsCons | HIsNil | HIsEmptyVector | HIsEmpty
| HPushBoolean | HSetBoolean (b : Z) | HCopyBoolean
| HPushInteger | HSetInteger (n : Z) | HCopySignedInteger | HCopyUnsignedInteger
| HPushFloat | HSetFloat (f : spec_float) | HCopyFloat
| HPushString (s : list Z) | HCopyString
| HPushSymbol (id : Z) (name : list Z) | HPushCompressedSymbol (id : Z) | HCopySymbolName | HCopySymbolId
| HPushNewType | HPushExistingType (t : Z) | HCopyType
| HPushComposite (t : Z) | HCopyCompositeType | HPushCompositeField (function : bool)
| HSetCompositeField (function : bool) (i : Z)
| HPushNil | HPushCons | HPushVector (n : Z)
| HCopyClosureName | HCopyClosureArity | HCopyClosureIsVariadic | HPushClosureBytecode
| HPushFirst | HPushRest | HSetFirst (i : Z) | HSetRest (i : Z)
| HPushElement (i : Z) | HSetElement (i at_ : Z) | HLength.

(** The functions of duckVM.h 232-440. *)
Definition perform (c : call) : M answer :=
  let go (m : M unit) := m ;;; mret Nothing in
  match c with
  | HStackLength => v <~ mget ;; mret (Number (zlen (stack v)))
  | HPush i => go (host_push i)
  | HPop => stack_pop ;;; mret Nothing
  | HPopSeveral n => go (stack_pop_multiple n)
  | HPopAll => go host_popAll
  | HCopyFromTop i => go (host_copyFromTop i)
  | HTypeOf => o <~ get_top ;; mret (Number (type_number o))
  | HGarbageCollect => go host_garbageCollect
  | HSoftReset => go host_softReset
  | HPushGlobal k => go (host_pushGlobal k)
  | HSetGlobal k => go (host_setGlobal k)
  | HLinkCFunction k c => go (host_linkCFunction k c)
  | HIs t => is_thing t
  | HIsCons => host_isCons
  | HIsNil => host_isNil
  | HIsEmptyVector => host_isEmptyVector
  | HIsEmpty => host_isEmpty
  | HPushBoolean => go (stack_push (OBool 0))
  | HSetBoolean b => go (host_setBoolean b)
  | HCopyBoolean => host_copyBoolean
  | HPushInteger => go (stack_push (OInteger 0))
  | HSetInteger n => go (host_setInteger n)
  | HCopySignedInteger => host_copySignedInteger
  | HCopyUnsignedInteger => host_copyUnsignedInteger
  | HPushFloat => go (stack_push (OFloat (S754_zero false)))
  | HSetFloat f => go (host_setFloat f)
  | HCopyFloat => host_copyFloat
  | HPushString s => go (host_pushString s)
  | HCopyString => host_copyString
  | HPushSymbol id s => go (host_pushSymbol id s)
  | HPushCompressedSymbol id => go (stack_push (OSymbol id None))
  | HCopySymbolName => host_copySymbolName
  | HCopySymbolId => host_copySymbolId
  | HPushNewType => go host_pushNewType
  | HPushExistingType t => go (stack_push (OType t))
  | HCopyType => host_copyType
  | HPushComposite t => go (host_pushComposite t)
  | HCopyCompositeType => host_copyCompositeType
  | HPushCompositeField f => go (host_pushCompositeField f)
  | HSetCompositeField f i => go (host_setCompositeField f i)
  | HPushNil => go (stack_push (OList None))
  | HPushCons => go host_pushCons
  | HPushVector n => go (host_pushVector n)
  | HCopyClosureName => host_copyClosureName
  | HCopyClosureArity => host_copyClosureArity
  | HCopyClosureIsVariadic => host_copyClosureIsVariadic
  | HPushClosureBytecode => go host_pushClosureBytecode
  | HPushFirst => go host_pushFirst
  | HPushRest => go host_pushRest
  | HSetFirst i => go (host_setFirst i)
  | HSetRest i => go (host_setRest i)
  | HPushElement i => go (host_pushElement i)
  | HSetElement i j => go (host_setElement i j)
  | HLength => host_length
  end.

(** C code that uses the machine only through these functions: at each point it is finished, with
    an error code, or makes a call and goes on according to the error code and the answer. *)
CoInductive client := Return (e : option error) | Call (c : call) (k : error + answer -> client).

(** Running such code for at most [fuel] calls (a callback, duckVM.c 1380-1417). *)
Fixpoint run_client (fuel : nat) (p : client) : M unit :=
  match p with
  | Return None => mret tt
  | Return (Some e) => merr e
  | Call c k =>
    match fuel with
    | O => mlift NoFuel
    | S f => fun v =>
      match perform c v with
      | (Ok a, v') => run_client f (k (inr a)) v'
      | (Err e, v') => run_client f (k (inl e)) v'
      | (UB, v') => (UB, v')
      | (NoFuel, v') => (NoFuel, v')
      end
    end
  end.

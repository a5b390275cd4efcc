(** The virtual machine's state, its heap and its garbage collector (duckVM.c 48-433).

    Heap objects live in one array (gclist.objects); a pointer to an object is modelled by the
    object's index and the null pointer by [None].  Buffers owned by an object (string bytes,
    byte code, vector and upvalue pointers) are stored inside the object; [None] is the null
    buffer pointer.  malloc is assumed to succeed. *)
From Coq Require Import ZArith List Bool Floats.SpecFloat.
Import ListNotations.
From Verif Require Import M_Base.
Open Scope Z_scope.

Notation ptr := nat (only parsing).
Notation optr := (option nat) (only parsing).

(** One element of a malloc'ed pointer buffer: malloc leaves it uninitialised, and reading it
    before it is written is undefined (duckVM.h 126-130 and 144-150). *)
Inductive cell := Uninit | Cell (p : optr).

(** duckVM.h 78-160: duckVM_upvalue_t. *)
Inductive upvalue :=
| UpStack (i : Z)        (* duckVM_upvalue_type_stack_index *)
| UpObject (p : optr)    (* duckVM_upvalue_type_heap_object *)
| UpUpvalue (p : optr).  (* duckVM_upvalue_type_heap_upvalue *)

(** duckVM.h 75-216: duckVM_object_t with its union.  [OUpvalueArray] and [OBytecode]
    carry the identity of their malloc'ed buffer, because upvalue_array_call_stack and the
    instruction pointer keep copies of the buffer address.  The
    user type's data is a number standing for the pointer, [destructor] says whether a destructor
    is set, and the marker callback is represented by the pointers it pushes.  Floats are IEEE
    doubles (SpecFloat, precision 53, emax 1024). *)
Inductive object :=
| ONone
| OBool (b : Z)
| OInteger (n : Z)
| OFloat (f : spec_float)
| OString (s : optr) (offset : Z) (len : Z)
| OList (l : optr)
| OSymbol (id : Z) (s : optr)
| OFunction (callback : Z)
| OClosure (name : Z) (bytecode : optr) (upvalues : optr) (arity : Z) (variadic : bool)
| OVector (v : optr) (offset : Z)
| OType (t : Z)
| OComposite (c : optr)
| OUser (data : Z) (destructor : bool) (marks : list optr)
| OCons (car cdr : optr)
| OUpvalue (u : upvalue)
| OUpvalueArray (buffer : nat) (upvalues : option (list cell)) (len : Z)
| OInternalVector (values : option (list cell)) (len : Z) (initialized : bool)
| OBytecode (buffer : nat) (code : option (list Z))
| OInternalComposite (t : Z) (value function : optr)
| OInternalString (s : option (list Z)).

(** duckVM.h duckVM_callFrame_t: the return address and the byte code object the frame keeps.  The
    address points into the buffer of some byte code object ([fr_code]: object and buffer identity,
    [fr_ip]: offset), which need not be the object kept in the frame (duckVM.h 49-52). *)
Record frame := Frame { fr_ip : Z; fr_code : ptr * nat; fr_bytecode : optr }.

(** An entry of upvalue_array_call_stack: a copy of a duckVM_upvalueArray_t, i.e. the address of a
    buffer and its length.  The address is modelled by the object holding the buffer together with
    the identity of the buffer; [None] is the null buffer (duckVM.h 62). *)
Record uaref := UARef { ua_buffer : option (ptr * nat); ua_length : Z }.

(** What the host can observe of destructors (duckVM.h 223). *)
Inductive event := Destroyed (p : ptr) (data : Z).

(** duckVM.h duckVM_t.  All stacks have their top at the head of the list, and [free] is
    freeObjects with its last element at the head (duckVM.h 54-73). *)
Record vm := VM {
  objects : list object;
  free : list ptr;
  stack : list object;
  ustack : list optr;
  globals : list optr;
  globals_map : list Z;
  call_stack : list frame;
  uacs : list uaref;
  current_bytecode : optr;
  next_user_type : Z;
  next_buffer : nat;
  events : list event
}.

(** An assignment to a field of the record (duckVM.h 54-73). *)
Definition set_objects v o := VM o (free v) (stack v) (ustack v) (globals v) (globals_map v)
  (call_stack v) (uacs v) (current_bytecode v) (next_user_type v) (next_buffer v) (events v).
(** An assignment to a field of the record (duckVM.h 54-73). *)
Definition set_free v f := VM (objects v) f (stack v) (ustack v) (globals v) (globals_map v)
  (call_stack v) (uacs v) (current_bytecode v) (next_user_type v) (next_buffer v) (events v).
(** An assignment to a field of the record (duckVM.h 54-73). *)
Definition set_stack v s := VM (objects v) (free v) s (ustack v) (globals v) (globals_map v)
  (call_stack v) (uacs v) (current_bytecode v) (next_user_type v) (next_buffer v) (events v).
(** An assignment to a field of the record (duckVM.h 54-73). *)
Definition set_ustack v u := VM (objects v) (free v) (stack v) u (globals v) (globals_map v)
  (call_stack v) (uacs v) (current_bytecode v) (next_user_type v) (next_buffer v) (events v).
(** An assignment to a field of the record (duckVM.h 54-73). *)
Definition set_globals v g m := VM (objects v) (free v) (stack v) (ustack v) g m
  (call_stack v) (uacs v) (current_bytecode v) (next_user_type v) (next_buffer v) (events v).
(** An assignment to a field of the record (duckVM.h 54-73). *)
Definition set_calls v c u := VM (objects v) (free v) (stack v) (ustack v) (globals v)
  (globals_map v) c u (current_bytecode v) (next_user_type v) (next_buffer v) (events v).
(** An assignment to a field of the record (duckVM.h 54-73). *)
Definition set_current v b := VM (objects v) (free v) (stack v) (ustack v) (globals v)
  (globals_map v) (call_stack v) (uacs v) b (next_user_type v) (next_buffer v) (events v).
(** An assignment to a field of the record (duckVM.h 54-73). *)
Definition set_user_type v t := VM (objects v) (free v) (stack v) (ustack v) (globals v)
  (globals_map v) (call_stack v) (uacs v) (current_bytecode v) t (next_buffer v) (events v).
(** An assignment to a field of the record (duckVM.h 54-73). *)
Definition set_next_buffer v n := VM (objects v) (free v) (stack v) (ustack v) (globals v)
  (globals_map v) (call_stack v) (uacs v) (current_bytecode v) (next_user_type v) n (events v).
(** An assignment to a field of the record (duckVM.h 54-73). *)
Definition set_events v e := VM (objects v) (free v) (stack v) (ustack v) (globals v)
  (globals_map v) (call_stack v) (uacs v) (current_bytecode v) (next_user_type v)
  (next_buffer v) e.

(** duckVM.c 48-87 duckVM_gclist_init and 436-473 duckVM_init.  The first element of
    upvalue_array_call_stack is pushed from a null pointer, i.e. zeroed. *)
Definition vm_init (max_objects : nat) : vm :=
  VM (repeat ONone max_objects) (rev (seq 0 max_objects)) [] [] [] [] []
     [UARef None 0] None 20 0 [].

(** The values of the first [n] elements of a pointer buffer (as in duckVM.c 150-195). *)
Fixpoint read_cells (cs : list cell) (n : nat) : res (list optr) :=
  match n, cs with
  | O, _ => Ok []
  | S n', Cell p :: cs' => ps <- read_cells cs' n' ;; Ok (p :: ps)
  | S _, _ => UB
  end.

(** The same for a buffer that may be null (duckVM.c 150-195). *)
Definition read_buffer (b : option (list cell)) (len : Z) : res (list optr) :=
  if len <=? 0 then Ok []
  else match b with None => UB | Some cs => read_cells cs (Z.to_nat len) end.

(** duckVM.c 117-191 duckVM_gclist_markObject: the pointers pushed on the dispatch stack for one
    object, in the order they are pushed. *)
Definition children (o : object) : res (list optr) :=
  match o with
  | OList l => Ok [l]
  | OCons a d => Ok [a; d]
  | OClosure _ b u _ _ => Ok [u; b]
  | OUpvalue (UpObject p) => Ok [p]
  | OUpvalue (UpUpvalue p) => Ok [p]
  | OUpvalue (UpStack _) => Ok []
  | OUpvalueArray _ cs len => read_buffer cs len
  | OVector v _ => Ok [v]
  | OInternalVector cs len initialized => if initialized then read_buffer cs len else Ok []
  | OString (Some s) _ _ => Ok [Some s]
  | OSymbol _ (Some s) => Ok [Some s]
  | OComposite c => Ok [c]
  | OInternalComposite _ x f => Ok [x; f]
  | OUser _ _ marks => Ok marks
  | _ => Ok []
  end.

(** duckVM.c 115-203: the loop of duckVM_gclist_markObject once the first object has been
    handled.  [todo] is the dispatch stack, top first; [used] is objectInUse. *)
Fixpoint mark_loop (fuel : nat) (os : list object) (used : list bool) (todo : list optr)
  : res (list bool) :=
  match todo with
  | [] => Ok used
  | None :: todo' =>
    match fuel with O => NoFuel | S f => mark_loop f os used todo' end
  | Some p :: todo' =>
    match fuel with
    | O => NoFuel
    | S f =>
      match nth_error used p, nth_error os p with
      | Some true, Some _ => mark_loop f os used todo'
      | Some false, Some o =>
        cs <- children o ;;
        mark_loop f os (list_set used p true) (rev cs ++ todo')
      | _, _ => UB
      end
    end
  end.

(** The number of pointers held by an object and by all objects: a bound on the marking work
    (for duckVM.c 108-211). *)
Definition weight (o : object) : nat :=
  match children o with Ok cs => length cs | _ => 0%nat end.
Definition heap_weight (os : list object) : nat := fold_right (fun o n => (weight o + n)%nat) 0%nat os.

(** duckVM.c 108-211 duckVM_gclist_markObject with stack = false. *)
Definition mark_object (os : list object) (used : list bool) (p : optr) : res (list bool) :=
  mark_loop (S (heap_weight os)) os used [p].

(** duckVM.c 108-211 duckVM_gclist_markObject with stack = true: the object lies on the stack and
    is not marked itself. *)
Definition mark_stack_object (os : list object) (used : list bool) (o : object) : res (list bool) :=
  cs <- children o ;; mark_loop (length cs + heap_weight os) os used (rev cs).

(** A loop that stops at the first error (e.g. duckVM.c 230-268). *)
Fixpoint foldM {A B} (f : A -> B -> res A) (l : list B) (a : A) : res A :=
  match l with
  | [] => Ok a
  | x :: l' => a' <- f a x ;; foldM f l' a'
  end.

(** duckVM.c 224-268: the marking half of duckVM_gclist_garbageCollect.  The stacks are visited
    from the bottom. *)
Definition mark_all (v : vm) : res (list bool) :=
  let os := objects v in
  let used0 := repeat false (length os) in
  used1 <- foldM (mark_stack_object os) (rev (stack v)) used0 ;;
  used2 <- foldM (mark_object os) (rev (ustack v)) used1 ;;
  used3 <- foldM (mark_object os) (globals v) used2 ;;
  used4 <- foldM (mark_object os) (map fr_bytecode (rev (call_stack v))) used3 ;;
  mark_object os used4 (current_bytecode v).

(** duckVM.c 276-307: what the sweep does to one dead object: release its buffer or call its
    destructor.  The destructor is host code; it is assumed to succeed and to leave the machine
    alone.  The buffer of an uninitialised vector is not released. *)
Definition dispose (o : object) : object :=
  match o with
  | OUpvalueArray i (Some _) len => OUpvalueArray i None len
  | OInternalVector (Some _) len true => OInternalVector None len true
  | OBytecode i (Some _) => OBytecode i None
  | OInternalString (Some _) => OInternalString None
  | OUser d true m => OUser d false m
  | _ => o
  end.

(** The call of the destructor of a user object (duckVM.c 270-307). *)
Definition dispose_event (i : ptr) (o : object) : list event :=
  match o with OUser d true _ => [Destroyed i d] | _ => [] end.

(** duckVM.c 270-307: the sweep from index [i] on: new objects, free list (last element at the
    head) and destructor calls (latest first). *)
Fixpoint sweep (i : ptr) (os : list object) (used : list bool) (fr : list ptr) (ev : list event)
  : list object * list ptr * list event :=
  match os, used with
  | o :: os', u :: used' =>
    if u then
      let '(os'', fr', ev') := sweep (S i) os' used' fr ev in (o :: os'', fr', ev')
    else
      let '(os'', fr', ev') := sweep (S i) os' used' (i :: fr) (dispose_event i o ++ ev) in
      (dispose o :: os'', fr', ev')
  | _, _ => (os, fr, ev)
  end.

(** duckVM.c 213-312 duckVM_gclist_garbageCollect. *)
Definition garbage_collect (v : vm) : res vm :=
  used <- mark_all v ;;
  let '(os, fr, ev) := sweep 0%nat (objects v) used [] (events v) in
  Ok (set_events (set_free (set_objects v os) fr) ev).

(** A computation of the machine: the state is kept when an error is returned (e.g. duckVM.c 492-503). *)
Definition M (A : Type) := vm -> res A * vm.
Definition mret {A} (a : A) : M A := fun v => (Ok a, v).
Definition merr {A} (e : error) : M A := fun v => (Err e, v).
Definition mub {A} : M A := fun v => (UB, v).
Definition mbind {A B} (m : M A) (f : A -> M B) : M B := fun v =>
  match m v with
  | (Ok a, v') => f a v'
  | (Err e, v') => (Err e, v')
  | (UB, v') => (UB, v')
  | (NoFuel, v') => (NoFuel, v')
  end.
Definition mget : M vm := fun v => (Ok v, v).
Definition mset (v : vm) : M unit := fun _ => (Ok tt, v).
Definition mlift {A} (r : res A) : M A := fun v => (r, v).
Definition mmod (f : vm -> vm) : M unit := fun v => (Ok tt, f v).

Declare Scope vm_scope.
Notation "x <~ m ;; f" := (mbind m (fun x => f))
  (at level 61, m at next level, right associativity) : vm_scope.
Notation "' p <~ m ;; f" := (mbind m (fun p => f))
  (at level 61, p pattern, m at next level, right associativity) : vm_scope.
Notation "m ;;; f" := (mbind m (fun _ => f))
  (at level 61, right associativity) : vm_scope.
Open Scope vm_scope.

(** duckVM.c 342-427: the object stored for a request.  Upvalue arrays get a fresh uninitialised
    buffer, internal vectors a copy of their contents if they are initialised and an
    uninitialised buffer otherwise; byte code and strings are copied.  A zero length gives the
    null buffer.  The copy itself is dl_memcopy_noOverlap (M_Core). *)
Definition stored (fresh : nat) (o : object) : object :=
  match o with
  | OUpvalueArray _ _ len =>
    OUpvalueArray fresh (if 0 <? len then Some (repeat Uninit (Z.to_nat len)) else None) len
  | OInternalVector cs len initialized =>
    OInternalVector
      (if 0 <? len then
         if initialized then cs else Some (repeat Uninit (Z.to_nat len))
       else None) len initialized
  | OBytecode _ (Some []) => OBytecode fresh None
  | OBytecode _ b => OBytecode fresh b
  | OInternalString (Some []) => OInternalString None
  | _ => o
  end.

(** duckVM.c 314-433 duckVM_gclist_pushObject. *)
Definition push_object (o : object) : M ptr := fun v =>
  let collected :=
    match free v with
    | [] => garbage_collect v
    | _ => Ok v
    end in
  match collected with
  | Ok v1 =>
    match free v1 with
    | [] => (Err outOfMemory, v1)
    | p :: fr =>
      (Ok p, set_next_buffer
               (set_free (set_objects v1 (list_set (objects v1) p (stored (next_buffer v1) o))) fr)
               (S (next_buffer v1)))
    end
  | Err e => (Err e, v)
  | UB => (UB, v)
  | NoFuel => (NoFuel, v)
  end.

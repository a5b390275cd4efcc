(** The virtual machine's instructions (duckVM.c 475-4671).

    The state is [M_Heap.vm].  A computation that returns an error keeps the changes made before
    the error, as the C code does.  Accesses the C code does not check (array elements, null
    pointers, the wrong member of a union), signed overflow and division by zero give [UB].
    Error messages (duckVM_error_pushRuntime) are not modelled, and pushing on a dl_array is
    assumed to succeed (malloc does not fail). *)
From Coq Require Import ZArith List Bool Floats.SpecFloat.
Import ListNotations.
From Verif Require Import M_Base M_Heap M_Instr.
Open Scope Z_scope.

(** * Stacks (duckVM.c 488-584) *)

(** elements_length (DuckLib/array.h 12-19). *)
Definition zlen {A} (l : list A) : Z := Z.of_nat (length l).

(** DuckLib/array.c dl_array_get and dl_array_set at an absolute position of a stack whose top is at
    the head of the list (M_Array models them on the bare array): out of range is invalidValue
    (DuckLib/array.c 202-222). *)
Definition abs_get {A} (l : list A) (i : Z) : res A :=
  if (i <? 0) || (zlen l <=? i) then Err invalidValue
  else match nth_error l (Z.to_nat (zlen l - 1 - i)) with Some x => Ok x | None => UB end.
Definition abs_set {A} (l : list A) (i : Z) (x : A) : res (list A) :=
  if (i <? 0) || (zlen l <=? i) then Err invalidValue
  else Ok (list_set l (Z.to_nat (zlen l - 1 - i)) x).

(** DL_ARRAY_GETADDRESS: unchecked access at an absolute position (DuckLib/array.h 34). *)
Definition raw_get {A} (l : list A) (i : Z) : res A :=
  match abs_get l i with Err _ => UB | r => r end.
Definition raw_set {A} (l : list A) (i : Z) (x : A) : res (list A) :=
  match abs_set l i x with Err _ => UB | r => r end.

(** duckVM.c 492-504 stack_push. *)
Definition stack_push (o : object) : M unit :=
  mmod (fun v => set_ustack (set_stack v (o :: stack v)) (None :: ustack v)).

(** duckVM.c 506-517 stack_pop. *)
Definition stack_pop : M object :=
  v <~ mget ;;
  match stack v with
  | [] => merr bufferUnderflow
  | o :: s =>
    mset (set_stack v s) ;;;
    match ustack v with
    | [] => merr bufferUnderflow
    | _ :: u => mset (set_ustack (set_stack v s) u) ;;; mret o
    end
  end.

(** duckVM.c 519-530 stack_pop_multiple. *)
Definition stack_pop_multiple (n : Z) : M unit :=
  v <~ mget ;;
  if zlen (ustack v) <? n then merr bufferUnderflow
  else
    let u := skipn (Z.to_nat n) (ustack v) in
    mset (set_ustack v u) ;;;
    if zlen (stack v) <? n then merr bufferUnderflow
    else mset (set_stack (set_ustack v u) (skipn (Z.to_nat n) (stack v))).

(** dl_array_get(&duckVM->stack, &object, duckVM->stack.elements_length - i) (e.g. duckVM.c 3110-3130). *)
Definition sget (i : Z) : M object :=
  v <~ mget ;; mlift (abs_get (stack v) (zlen (stack v) - i)).

(** Unchecked write at a distance from the top ([0] is the top) (e.g. duckVM.c 690-719). *)
Definition sset_raw (d : Z) (o : object) : M unit :=
  v <~ mget ;; s <~ mlift (raw_set (stack v) (zlen (stack v) - 1 - d) o) ;; mset (set_stack v s).

(** duckVM.c 550-568 call_stack_push. *)
Definition call_stack_push (f : frame) (u : uaref) : M unit :=
  mmod (fun v => set_calls v (f :: call_stack v) (u :: uacs v)).

(** duckVM.c 570-584 call_stack_pop. *)
Definition call_stack_pop : M frame :=
  v <~ mget ;;
  match call_stack v with
  | [] => merr bufferUnderflow
  | f :: fs =>
    mset (set_calls v fs (uacs v)) ;;;
    match uacs v with
    | [] => merr bufferUnderflow
    | _ :: us => mset (set_calls v fs us) ;;; mret f
    end
  end.

(** * Heap access *)

(** Dereferencing an object pointer (the [->] of duckVM.c 745-4635). *)
Definition deref (p : optr) : M object :=
  v <~ mget ;;
  match p with
  | None => mub
  | Some p => match nth_error (objects v) p with Some o => mret o | None => mub end
  end.
(** Assigning through an object pointer (the [->] of duckVM.c 745-4635). *)
Definition write (p : optr) (o : object) : M unit :=
  v <~ mget ;;
  match p with
  | None => mub
  | Some p =>
    if (p <? length (objects v))%nat then mset (set_objects v (list_set (objects v) p o)) else mub
  end.

(** Reading an initialised element of a pointer buffer (e.g. duckVM.c 3260-3400). *)
Definition cell_get (b : option (list cell)) (i : Z) : res optr :=
  match b with
  | None => UB
  | Some cs => c <- array_get cs i ;; match c with Uninit => UB | Cell p => Ok p end
  end.
Definition cell_set (b : option (list cell)) (i : Z) (p : optr) : res (option (list cell)) :=
  match b with
  | None => UB
  | Some cs => cs' <- array_set cs i (Cell p) ;; Ok (Some cs')
  end.

(** Copy an object to the heap (duckVM.c 314-433). *)
Definition alloc (o : object) : M optr := p <~ push_object o ;; mret (Some p).

(** A list pointer is stored in a cons as it is, any other object as a heap copy
    (duckVM.c 3108-3140, 3712-3722, 3768-3778). *)
Definition box (o : object) : M optr :=
  match o with OList l => mret l | _ => alloc o end.

(** What a car or cdr pointer is pushed as (duckVM.c 3512-3530, 3620-3640). *)
Definition unbox (p : optr) : M object :=
  match p with
  | None => mret (OList None)
  | Some q =>
    o <~ deref p ;;
    match o with OCons _ _ => mret (OList p) | _ => mret o end
  end.

(** * Globals (duckVM.c 586-618) *)

(** The loop of duckVM_global_get (duckVM.c 586-595). *)
Fixpoint find_key (m : list Z) (k : Z) (i : nat) : option nat :=
  match m with
  | [] => None
  | x :: m' => if x =? k then Some i else find_key m' k (S i)
  end.

(** duckVM.c 586-595 duckVM_global_get. *)
Definition global_get (key : Z) : M optr :=
  v <~ mget ;;
  match find_key (globals_map v) key 0 with
  | Some i => match nth_error (globals v) i with Some p => mret p | None => mub end
  | None => merr invalidValue
  end.

(** duckVM.c 597-618 duckVM_global_set. *)
Definition global_set (p : optr) (key : Z) : M unit :=
  v <~ mget ;;
  match find_key (globals_map v) key 0 with
  | Some i =>
    if (i <? length (globals v))%nat
    then mset (set_globals v (list_set (globals v) i p) (globals_map v)) else mub
  | None => mset (set_globals v (globals v ++ [p]) (globals_map v ++ [key]))
  end.

(** * Cyclic lists (duckVM.c 620-638) *)

(** The loop of listIsCyclic: Brent's algorithm.  Simplification: the int counters do not wrap
    (duckVM.c 620-638). *)
Fixpoint cyclic_loop (fuel : nat) (os : list object) (slow fast : ptr) (taken limit : Z)
  : res bool :=
  match nth_error os fast with
  | Some (OCons _ (Some next)) =>
    match fuel with
    | O => NoFuel
    | S f =>
      if (next =? slow)%nat then Ok true
      else if taken + 1 =? limit then cyclic_loop f os next next 0 (limit * 2)
      else cyclic_loop f os slow next (taken + 1) limit
    end
  | Some _ => Ok false
  | None => UB
  end.
Definition list_is_cyclic (os : list object) (root : optr) : res bool :=
  match root with
  | None => Ok false
  | Some r => cyclic_loop (4 * length os + 4) os r r 0 2
  end.

(** * Numbers *)

(** dl_ptrdiff_t is a 64-bit two's complement integer; overflow is undefined (DuckLib/core.h 26-30). *)
Definition int_min : Z := - 2 ^ 63.
Definition int_max : Z := 2 ^ 63 - 1.
Definition fits (n : Z) : bool := (int_min <=? n) && (n <=? int_max).
Definition int_res (n : Z) : res object := if fits n then Ok (OInteger n) else UB.

(** Conversion of an integer or boolean to double (e.g. duckVM.c 1950-2160). *)
Definition to_float (n : Z) : spec_float := binary_normalize 53 1024 n 0 false.

(** Conversion to dl_size_t (DuckLib/core.h 26-30). *)
Definition usz (n : Z) : Z := n mod 2 ^ 64.

(** The four arithmetic instructions on doubles and on integers (duckVM.c 1950-2560). *)
Inductive arith := AMul | ADiv | AAdd | ASub.
Definition float_op (a : arith) : spec_float -> spec_float -> spec_float :=
  match a with
  | AMul => SFmul 53 1024 | ADiv => SFdiv 53 1024 | AAdd => SFadd 53 1024 | ASub => SFsub 53 1024
  end.
Definition int_op (a : arith) (x y : Z) : res Z :=
  match a with
  | AMul => Ok (x * y)
  | ADiv => if y =? 0 then UB else Ok (Z.quot x y)
  | AAdd => Ok (x + y)
  | ASub => Ok (x - y)
  end.

(** duckVM.c 1803-2560: mul, div, add, sub.  A boolean is an unsigned char, so boolean results are
    reduced modulo 256. *)
Definition arith_op (a : arith) (x y : object) : res object :=
  match x, y with
  | OFloat f, OFloat g => Ok (OFloat (float_op a f g))
  | OFloat f, OInteger n | OFloat f, OBool n => Ok (OFloat (float_op a f (to_float n)))
  | OInteger m, OFloat g | OBool m, OFloat g => Ok (OFloat (float_op a (to_float m) g))
  | OInteger m, OInteger n | OInteger m, OBool n | OBool m, OInteger n =>
    r <- int_op a m n ;; int_res r
  | OBool m, OBool n => r <- int_op a m n ;; Ok (OBool (r mod 256))
  | _, _ => Err invalidValue
  end.

(** A boolean result (e.g. duckVM.c 1770-1830). *)
Definition of_bool (b : bool) : object := OBool (if b then 1 else 0).

(** duckVM.c 2562-2760 greater ([swap]) and 2890-3088 less. *)
Definition less_op (x y : object) : res object :=
  match x, y with
  | OFloat f, OFloat g => Ok (of_bool (SFltb f g))
  | OFloat f, OInteger n | OFloat f, OBool n => Ok (of_bool (SFltb f (to_float n)))
  | OInteger m, OFloat g | OBool m, OFloat g => Ok (of_bool (SFltb (to_float m) g))
  | OInteger m, OInteger n | OInteger m, OBool n | OBool m, OInteger n | OBool m, OBool n =>
    Ok (of_bool (m <? n))
  | _, _ => Err invalidValue
  end.
Definition greater_op (x y : object) : res object :=
  match x, y with
  | OFloat f, OFloat g => Ok (of_bool (SFltb g f))
  | OFloat f, OInteger n | OFloat f, OBool n => Ok (of_bool (SFltb (to_float n) f))
  | OInteger m, OFloat g | OBool m, OFloat g => Ok (of_bool (SFltb g (to_float m)))
  | OInteger m, OInteger n | OInteger m, OBool n | OBool m, OInteger n | OBool m, OBool n =>
    Ok (of_bool (n <? m))
  | _, _ => Err invalidValue
  end.

(** The bytes [offset, offset+n) of an internal string (e.g. duckVM.c 4445-4560). *)
Definition slice (s : list Z) (offset n : Z) : res (list Z) :=
  if (0 <=? offset) && (0 <=? n) && (offset + n <=? zlen s)
  then Ok (firstn (Z.to_nat n) (skipn (Z.to_nat offset) s)) else UB.

(** The buffer of an internal string (duckVM.h 75-80). *)
Definition string_bytes (os : list object) (p : optr) : res (list Z) :=
  match p with
  | None => UB
  | Some p => match nth_error os p with
              | Some (OInternalString (Some s)) => Ok s
              | Some (OInternalString None) => Ok []
              | _ => UB
              end
  end.

(** Comparison of pointers (duckVM.c 2781-2885). *)
Definition optr_eqb (p q : optr) : bool :=
  match p, q with
  | None, None => true
  | Some p, Some q => Nat.eqb p q
  | _, _ => false
  end.

(** Comparison of texts (duckVM.c 2781-2885; DuckLib/string.c 425-440). *)
Fixpoint bytes_eqb (a b : list Z) : bool :=
  match a, b with
  | [], [] => true
  | x :: a', y :: b' => (x =? y) && bytes_eqb a' b'
  | _, _ => false
  end.

(** duckVM.c 2810-2829: the string case of equal (dl_string_compare is DuckLib/string.c 424-439). *)
Definition string_equal (os : list object) (s1 : optr) (o1 l1 : Z) (s2 : optr) (o2 l2 : Z)
  : res bool :=
  if (l1 - o1 =? 0) && (l2 - o2 =? 0) then Ok true
  else if (l1 - o1 =? 0) || (l2 - o2 =? 0) then Ok false
  else
    b1 <- string_bytes os s1 ;; b2 <- string_bytes os s2 ;;
    if l1 - o1 =? l2 - o2 then
      x <- slice b1 o1 (l1 - o1) ;; y <- slice b2 o2 (l2 - o2) ;; Ok (bytes_eqb x y)
    else Ok false.

(** duckVM.c 2786-2887 equal: the type of the first operand decides. *)
Definition equal_op (os : list object) (x y : object) : res bool :=
  match x with
  | OList a => Ok (match y with OList b => optr_eqb a b | _ => false end)
  | OSymbol a _ => Ok (match y with OSymbol b _ => a =? b | _ => false end)
  | OString s1 o1 l1 =>
    match y with OString s2 o2 l2 => string_equal os s1 o1 l1 s2 o2 l2 | _ => Ok false end
  | OFloat f => Ok (match y with OFloat g => SFeqb f g | _ => false end)
  | OInteger m => Ok (match y with OInteger n => m =? n | _ => false end)
  | OBool m => Ok (match y with OBool n => m =? n | _ => false end)
  | OVector a i => Ok (match y with OVector b j => optr_eqb a b && (i =? j) | _ => false end)
  | OType a => Ok (match y with OType b => a =? b | _ => false end)
  | _ => Err invalidValue
  end.

(** An internal vector's buffer, length and flag; any other object there is undefined (duckVM.h 144-150). *)
Definition internal_vector (os : list object) (p : optr) : res (option (list cell) * Z * bool) :=
  match p with
  | None => UB
  | Some p => match nth_error os p with
              | Some (OInternalVector cs len i) => Ok (cs, len, i)
              | _ => UB
              end
  end.

(** duckVM.c 1663-1694: what brnz takes for true. *)
Definition truthy (os : list object) (o : object) : res bool :=
  match o with
  | OBool b => Ok (negb (b =? 0))
  | OInteger n => Ok (negb (n =? 0))
  | OFloat f => Ok (negb (SFeqb f (S754_zero false)))
  | OSymbol _ _ | OClosure _ _ _ _ _ | OFunction _ | OString _ _ _ => Ok true
  | OList l => Ok (match l with None => false | _ => true end)
  | OVector None _ => Ok false
  | OVector v offset => ' (_, len, _) <- internal_vector os v ;; Ok (usz offset <? len)
  | _ => Ok false
  end.

(** duckVM.c 1775-1800 not. *)
Definition not_op (o : object) : res object :=
  match o with
  | OVector v _ => Ok (of_bool (match v with None => true | _ => false end))
  | OList l => Ok (of_bool (match l with None => true | _ => false end))
  | OInteger n => Ok (OInteger (if n =? 0 then 1 else 0))
  | OFloat f => Ok (OFloat (to_float (if SFeqb f (S754_zero false) then 1 else 0)))
  | OBool b => Ok (of_bool (b =? 0))
  | _ => Err invalidValue
  end.

(** duckVM.c 3822-3838 nullp. *)
Definition nullp_op (os : list object) (o : object) : res object :=
  match o with
  | OList l => Ok (of_bool (match l with None => true | _ => false end))
  | OVector None _ => Ok (of_bool true)
  | OVector v offset => ' (_, len, _) <- internal_vector os v ;; Ok (of_bool (len <=? usz offset))
  | OString None _ _ => Ok (of_bool true)
  | OString _ offset len => Ok (of_bool (len <=? usz offset))
  | _ => Ok (of_bool false)
  end.

(** duckVM.h 29-50 duckVM_object_type_t. *)
Definition type_number (o : object) : Z :=
  match o with
  | ONone => 0 | OBool _ => 1 | OInteger _ => 2 | OFloat _ => 3 | OString _ _ _ => 4 | OList _ => 5
  | OSymbol _ _ => 6 | OFunction _ => 7 | OClosure _ _ _ _ _ => 8 | OVector _ _ => 9 | OType _ => 10
  | OComposite _ => 11 | OUser _ _ _ => 12 | OCons _ _ => 13 | OUpvalue _ => 14
  | OUpvalueArray _ _ _ => 15 | OInternalVector _ _ _ => 16 | OBytecode _ _ => 17
  | OInternalComposite _ _ _ => 18 | OInternalString _ => 19
  end.
Definition type_last : Z := 20.

(** The internal composite a composite points to (duckVM.c 5304-5315). *)
Definition composite_get (p : optr) : M (Z * optr * optr) :=
  o <~ deref p ;;
  match o with OInternalComposite t x f => mret (t, x, f) | _ => mub end.

(** duckVM.c 3841-3858 typeof. *)
Definition typeof_op (o : object) : M object :=
  match o with
  | OComposite c => t <~ composite_get c ;; mret (OType (fst (fst t)))
  | _ => mret (OType (type_number o))
  end.

(** Pushing through a pointer: dl_array_pushElement of a null pointer pushes a zeroed object
    (DuckLib/array.c 38-76). *)
Definition pointee (p : optr) : M object :=
  match p with None => mret ONone | _ => deref p end.

(** duckVM.c 3501-3598 cdr. *)
Definition cdr_op (o : object) : M object :=
  match o with
  | OList None => mret (OList None)
  | OList l =>
    c <~ deref l ;; match c with OCons _ d => unbox d | _ => merr shouldntHappen end
  | OVector None _ => mret (OVector None 0)
  | OVector v offset =>
    c <~ deref v ;;
    match c with
    | OInternalVector _ len _ =>
      if (len =? 0) || (len - 1 <=? usz offset) then mret (OVector None 0)
      else mret (OVector v (offset + 1))
    | _ => merr invalidValue
    end
  | OString None _ _ => mret (OString None 0 0)
  | OString s offset len =>
    c <~ deref s ;;
    match c with
    | OInternalString _ =>
      if (len =? 0) || (len - 1 <=? usz offset) then mret (OString None 0 0)
      else mret (OString s (offset + 1) len)
    | _ => merr invalidValue
    end
  | _ => merr invalidValue
  end.

(** duckVM.c 3611-3696 car. *)
Definition car_op (o : object) : M object :=
  match o with
  | OList None => mret (OList None)
  | OList l =>
    c <~ deref l ;; match c with OCons a _ => unbox a | _ => merr shouldntHappen end
  | OVector None _ => mret (OVector None 0)
  | OVector v offset =>
    c <~ deref v ;;
    match c with
    | OInternalVector cs len _ =>
      if (len =? 0) || (len <=? usz offset) then mret (OVector None 0)
      else p <~ mlift (cell_get cs offset) ;; deref p
    | _ => merr invalidValue
    end
  | OString None _ _ => mret (OString None 0 0)
  | OString s offset len =>
    c <~ deref s ;;
    match c with
    | OInternalString b =>
      if (len =? 0) || (len <=? usz offset) then mret (OString None 0 0)
      else match b with
           | Some b => n <~ mlift (array_get b offset) ;; mret (OInteger n)
           | None => mub
           end
    | _ => merr invalidValue
    end
  | _ => merr invalidValue
  end.

(** duckVM.c 4130-4136: the counting loop of length. *)
Fixpoint list_length (fuel : nat) (os : list object) (p : optr) : res Z :=
  match p with
  | None => Ok 0
  | Some q =>
    match nth_error os q with
    | Some (OCons _ d) =>
      match fuel with O => NoFuel | S f => n <- list_length f os d ;; Ok (n + 1) end
    | Some _ => Ok 0
    | None => UB
    end
  end.

(** duckVM.c 4120-4160 length. *)
Definition length_op (os : list object) (o : object) : res object :=
  match o with
  | OList l =>
    c <- list_is_cyclic os l ;;
    if c then Err invalidValue
    else n <- list_length (length os) os l ;; Ok (OInteger n)
  | OVector None _ => Ok (OInteger 0)
  | OVector v offset => ' (_, len, _) <- internal_vector os v ;; Ok (OInteger (len - offset))
  | OString _ offset len => Ok (OInteger (len - offset))
  | _ => Err invalidValue
  end.

(** duckVM.c 4165-4190 symbol-string. *)
Definition symbol_string_op (os : list object) (o : object) : res object :=
  match o with
  | OSymbol _ s => b <- string_bytes os s ;; Ok (OString s 0 (zlen b))
  | _ => Err invalidValue
  end.

(** duckVM.c 4232-4249: make-string from a vector.  An element that is not an integer frees the
    buffer and leaves the loop, but not the case, so the freed (null) buffer is copied. *)
Fixpoint vector_bytes (os : list object) (cs : list cell) (n : nat) : res (list Z) :=
  match n, cs with
  | O, _ => Ok []
  | S n', Cell (Some p) :: cs' =>
    match nth_error os p with
    | Some (OInteger b) => bs <- vector_bytes os cs' n' ;; Ok (b mod 256 :: bs)
    | _ => UB
    end
  | S _, _ => UB
  end.

(** duckVM.c 4250-4292: make-string from a list.  An error leaves only the loop and is forgotten,
    with the bytes collected so far thrown away ([None]). *)
Fixpoint list_bytes (fuel : nat) (os : list object) (p : optr) (acc : list Z)
  : res (option (list Z)) :=
  match p with
  | None => Ok (Some (rev acc))
  | Some q =>
    match fuel with
    | O => NoFuel
    | S f =>
      match nth_error os q with
      | Some (OList l) => list_bytes f os l acc
      | Some (OCons a d) =>
        match a with
        | None => UB
        | Some a =>
          match nth_error os a with
          | Some (OInteger n) => list_bytes f os d (n mod 256 :: acc)
          | Some _ => Ok None
          | None => UB
          end
        end
      | Some _ => Ok None
      | None => UB
      end
    end
  end.

(** A new string holding [s] (duckVM.c 4301-4318). *)
Definition new_string (s : list Z) : M object :=
  p <~ alloc (OInternalString (Some s)) ;; mret (OString p 0 (zlen s)).

(** duckVM.c 4217-4320 make-string. *)
Definition make_string_op (o : object) : M object :=
  v <~ mget ;;
  match o with
  | OVector w offset =>
    ' (cs, len, _) <~ mlift (internal_vector (objects v) w) ;;
    if len <? offset then merr outOfMemory
    else
      if len - offset =? 0 then new_string []
      else match cs with
           | None => mub
           | Some cs =>
             s <~ mlift (vector_bytes (objects v) (skipn (Z.to_nat offset) cs)
                                      (Z.to_nat (len - offset))) ;;
             new_string s
           end
  | OList l =>
    s <~ mlift (list_bytes (S (length (objects v))) (objects v) l []) ;;
    new_string (match s with Some s => s | None => [] end)
  | _ => merr invalidValue
  end.

(** duckVM.c 4389-4407: the bytes an operand of concatenate contributes: of a string, [length]
    bytes from [offset] on. *)
Definition concat_bytes (os : list object) (o : object) : res (list Z) :=
  match o with
  | OString s offset len => b <- string_bytes os s ;; slice b offset len
  | OSymbol _ s => string_bytes os s
  | _ => Err invalidValue
  end.

(** duckVM.c 4322-4436 concatenate.  The first part is copied into a new object, whose buffer is
    then enlarged. *)
Definition concat_op (x y : object) : M object :=
  match x, y with
  | (OString _ _ _ | OSymbol _ _), (OString _ _ _ | OSymbol _ _) =>
    v <~ mget ;;
    a <~ mlift (concat_bytes (objects v) x) ;;
    b <~ mlift (concat_bytes (objects v) y) ;;
    p <~ alloc (OInternalString (Some a)) ;;
    write p (OInternalString (Some (a ++ b))) ;;;
    mret (OString p 0 (zlen (a ++ b)))
  | _, _ => merr invalidValue
  end.

(** duckVM.c 4482-4561 substring. *)
Definition substring_op (x y z : object) : res object :=
  match x with
  | OString s offset len =>
    match y with
    | OInteger a =>
      if (a <? 0) || (usz (len - offset) <? a) then Err invalidValue
      else match z with
           | OInteger b =>
             if (b <? 0) || (usz (len - offset) <? b) then Err invalidValue
             else if b <? a then Err invalidValue
             else Ok (OString s (offset + a) (offset + b))
           | _ => Err invalidValue
           end
    | _ => Err invalidValue
    end
  | _ => Err invalidValue
  end.

(** duckVM.c 3298-3395 get-vector-element. *)
Definition get_elt_op (x y : object) : M object :=
  match x, y with
  | OVector v offset, OInteger i =>
    if i <? 0 then merr invalidValue
    else if negb (fits (i + offset)) then mub
    else
      st <~ mget ;;
      ' (cs, len, _) <~ mlift (internal_vector (objects st) v) ;;
      if len <=? usz (i + offset) then merr invalidValue
      else p <~ mlift (cell_get cs (offset + i)) ;; deref p
  | OString s offset len, OInteger i =>
    if (i <? 0) || (usz (len - offset) <=? i) then merr invalidValue
    else
      st <~ mget ;;
      b <~ mlift (string_bytes (objects st) s) ;;
      n <~ mlift (array_get b (offset + i)) ;; mret (OInteger n)
  | _, _ => merr invalidValue
  end.

(** Overwrite one element of an internal vector (duckVM.c 3404-3500). *)
Definition vector_set (p : optr) (i : Z) (q : optr) : M unit :=
  v <~ mget ;;
  ' (cs, len, ini) <~ mlift (internal_vector (objects v) p) ;;
  cs' <~ mlift (cell_set cs i q) ;; write p (OInternalVector cs' len ini).

(** duckVM.c 3397-3490 set-vector-element. *)
Definition set_elt_op (x y z : object) : M object :=
  match x, y with
  | OVector v offset, OInteger i =>
    if negb (fits (i + offset)) then mub
    else
      st <~ mget ;;
      ' (_, len, _) <~ mlift (internal_vector (objects st) v) ;;
      if len <=? usz (i + offset) then merr invalidValue
      else p <~ alloc z ;; vector_set v (offset + i) p ;;; mret z
  | _, _ => merr invalidValue
  end.

(** duckVM.c 3090-3146 cons: the cons is made first, so that the collector sees it. *)
Definition cons_op (x y : object) : M unit :=
  c <~ alloc (OCons None None) ;;
  stack_push (OList c) ;;;
  a <~ box x ;;
  write c (OCons a None) ;;;
  d <~ box y ;;
  write c (OCons a d) ;;;
  sset_raw 0 (OList c).

(** duckVM.c 3697-3751 set-car and 3753-3808 set-cdr. *)
Definition set_car_op (x y : object) : M object :=
  match y with
  | OList (Some l) =>
    a <~ box x ;;
    c <~ deref (Some l) ;;
    match c with OCons _ d => write (Some l) (OCons a d) ;;; mret y | _ => mub end
  | OVector (Some v) offset =>
    p <~ alloc x ;; vector_set (Some v) offset p ;;; mret y
  | _ => merr invalidValue
  end.
Definition set_cdr_op (x y : object) : M object :=
  match y with
  | OList (Some l) =>
    d <~ box x ;;
    c <~ deref (Some l) ;;
    match c with OCons a _ => write (Some l) (OCons a d) ;;; mret y | _ => mub end
  | OVector (Some v) offset =>
    match x with
    | OVector None _ | OList None =>
      c <~ deref (Some v) ;;
      match c with
      | OInternalVector cs _ ini => write (Some v) (OInternalVector cs offset ini) ;;; mret y
      | _ => mub
      end
    | _ => merr invalidValue
    end
  | _ => merr invalidValue
  end.

(** duckVM.c 3867-3981 make-instance. *)
Definition make_instance_op (x y z : object) : M unit :=
  match x with
  | OType t =>
    if t <? type_last then merr invalidValue
    else
      c <~ alloc (OInternalComposite t None None) ;;
      stack_push (OComposite c) ;;;
      p <~ alloc y ;;
      write c (OInternalComposite t p None) ;;;
      f <~ alloc z ;;
      write c (OInternalComposite t p f)
  | _ => merr invalidValue
  end.

(** duckVM.c 3983-4025 composite-value and composite-function. *)
Definition composite_op (function : bool) (o : object) : M object :=
  match o with
  | OComposite c =>
    ' (_, x, f) <~ composite_get c ;; pointee (if function then f else x)
  | _ => merr invalidValue
  end.

(** duckVM.c 4027-4111 set-composite-value and set-composite-function. *)
Definition set_composite_op (function : bool) (x y : object) : M object :=
  match x with
  | OComposite c =>
    p <~ alloc y ;;
    ' (t, a, f) <~ composite_get c ;;
    write c (if function then OInternalComposite t a p else OInternalComposite t p f) ;;;
    mret x
  | _ => merr invalidValue
  end.

(** duckVM.c 3148-3212 vector: the elements are copied while the vector counts as uninitialised. *)
Fixpoint vector_fill (p : optr) (k : Z) (is : list Z) : M unit :=
  match is with
  | [] => mret tt
  | i :: is' =>
    v <~ mget ;;
    let idx := zlen (stack v) - 1 - i in
    if (idx <? 0) || (zlen (stack v) - 1 <? idx) then merr invalidValue
    else
      o <~ mlift (abs_get (stack v) idx) ;;
      q <~ alloc o ;; vector_set p k q ;;; vector_fill p (k + 1) is'
  end.

(** Pushes on one of the two stacks only, and the flag [initialized], in duckVM.c 3155-3260. *)
Definition push_stack_only (o : object) : M unit := mmod (fun v => set_stack v (o :: stack v)).
Definition push_ustack_only (p : optr) : M unit := mmod (fun v => set_ustack v (p :: ustack v)).

(** duckVM.c 3155-3260: the flag [initialized] is set. *)
Definition vector_initialized (p : optr) : M unit :=
  v <~ mget ;;
  ' (cs, len, _) <~ mlift (internal_vector (objects v) p) ;; write p (OInternalVector cs len true).

(** duckVM.c 3155-3260 vector. *)
Definition vector_op (is : list Z) : M unit :=
  p <~ alloc (OInternalVector None (zlen is) false) ;;
  push_stack_only (OVector p 0) ;;;
  vector_fill p 0 is ;;;
  push_ustack_only None ;;;
  vector_initialized p ;;;
  sset_raw 0 (OVector p 0).

(** duckVM.c 3214-3296 make-vector.  Simplification: a length no malloc can satisfy is not
    refused. *)
Definition make_vector_op (x y : object) : M unit :=
  match x with
  | OInteger n =>
    if n <? 0 then merr invalidValue
    else
      p <~ alloc (OInternalVector None n false) ;;
      push_stack_only (OVector p 0) ;;;
      q <~ alloc y ;;
      (if n =? 0 then mret tt
       else write p (OInternalVector (Some (repeat (Cell q) (Z.to_nat n))) n false)) ;;;
      push_ustack_only None ;;;
      vector_initialized p ;;;
      sset_raw 0 (OVector p 0)
  | _ => merr invalidValue
  end.

(** * Captured variables *)

(** Element [i] of a buffer in upvalue_array_call_stack: undefined if the buffer is gone
    (duckVM.c 964-1024). *)
Definition ua_get (os : list object) (u : uaref) (i : Z) : res optr :=
  match ua_buffer u with
  | None => UB
  | Some (p, id) =>
    match nth_error os p with
    | Some (OUpvalueArray id' cs _) => if (id =? id')%nat then cell_get cs i else UB
    | _ => UB
    end
  end.

(** duckVM.c 5154-5188: following the chain of upvalues.  [checked] is the reading version, which
    checks for null and the object type; the writing version (1311-1334) does not. *)
Fixpoint upvalue_end (fuel : nat) (checked : bool) (os : list object) (p : optr)
  : res (ptr * upvalue) :=
  match p with
  | None => if checked then Err nullPointer else UB
  | Some q =>
    match nth_error os q with
    | Some (OUpvalue (UpUpvalue r)) =>
      match fuel with O => NoFuel | S f => upvalue_end f checked os r end
    | Some (OUpvalue u) => Ok (q, u)
    | Some _ => if checked then Err invalidValue else UB
    | None => UB
    end
  end.

(** duckVM.c 957-997 push-upvalue. *)
Definition push_upvalue_op (i : Z) : M unit :=
  v <~ mget ;;
  match uacs v with
  | [] => merr bufferUnderflow
  | u :: _ =>
    p <~ mlift (ua_get (objects v) u i) ;;
    ' (_, e) <~ mlift (upvalue_end (length (objects v)) true (objects v) p) ;;
    o <~ (match e with
          | UpStack k => mlift (abs_get (stack v) k)
          | UpObject p => deref p
          | UpUpvalue _ => mub
          end) ;;
    stack_push o
  end.

(** duckVM.c 1284-1336 set-upvalue. *)
Definition set_upvalue_op (u i : Z) : M unit :=
  o <~ sget i ;;
  v <~ mget ;;
  match uacs v with
  | [] => mub
  | a :: _ =>
    p <~ mlift (ua_get (objects v) a u) ;;
    ' (_, e) <~ mlift (upvalue_end (length (objects v)) false (objects v) p) ;;
    match e with
    | UpStack k => s <~ mlift (abs_set (stack v) k o) ;; mset (set_stack v s)
    | UpObject p => write p o
    | UpUpvalue _ => mub
    end
  end.

(** duckVM.c 1238-1282 release-upvalues.  Simplification: an object on the upvalue stack that is
    not an upvalue (the code then stops without an error, in the middle of the operands) is
    undefined here. *)
Fixpoint release_op (is : list Z) : M unit :=
  match is with
  | [] => mret tt
  | i :: is' =>
    v <~ mget ;;
    let idx := zlen (stack v) - i in
    if idx <? 0 then merr invalidValue
    else
      u <~ mlift (raw_get (ustack v) idx) ;;
      match u with
      | None => release_op is'
      | Some u =>
        x <~ deref (Some u) ;;
        match x with
        | OUpvalue _ =>
          o <~ mlift (raw_get (stack v) idx) ;;
          p <~ alloc o ;;
          write (Some u) (OUpvalue (UpObject p)) ;;;
          w <~ mget ;;
          s <~ mlift (raw_set (stack w) idx (OList None)) ;;
          us <~ mlift (raw_set (ustack w) idx None) ;;
          mset (set_ustack (set_stack w s) us) ;;;
          release_op is'
        | _ => mub
        end
      end
  end.

(** Write element [k] of the upvalue array just made (duckVM.c 1025-1299). *)
Definition upvalue_array_set (p : optr) (k : Z) (q : optr) : M unit :=
  o <~ deref p ;;
  match o with
  | OUpvalueArray id cs len =>
    cs' <~ mlift (cell_set cs k q) ;; write p (OUpvalueArray id cs' len)
  | _ => mub
  end.

(** duckVM.c 1072-1183: capturing the variables of a new closure.  Returns whether the closure
    captured itself. *)
Fixpoint capture_op (p : optr) (k : Z) (cs : list Z) (recursive : bool) : M bool :=
  match cs with
  | [] => mret recursive
  | c :: cs' =>
    v <~ mget ;;
    let idx := if c <? 0 then c else zlen (stack v) - 1 - c in
    if (0 <=? c) && ((idx <? 0) || (zlen (ustack v) <? idx)) then merr invalidValue
    else
      ' (u, r) <~
        (if idx =? zlen (ustack v) then
           (fun w => match alloc (OUpvalue (UpStack idx)) w with
                     | (Err _, w') => (Err shouldntHappen, w')
                     | r => (u <~ (fun _ => r) ;; push_ustack_only u ;;; mret (u, true)) w
                     end)
         else if idx <? 0 then
           match uacs v with
           | [] => mub
           | a :: _ =>
             q <~ mlift (ua_get (objects v) a (- (idx + 1))) ;;
             u <~ alloc (OUpvalue (UpUpvalue q)) ;; mret (u, recursive)
           end
         else
           q <~ mlift (abs_get (ustack v) idx) ;;
           u <~ (match q with
                 | None =>
                   u <~ alloc (OUpvalue (UpStack idx)) ;;
                   w <~ mget ;;
                   us <~ mlift (raw_set (ustack w) idx u) ;;
                   mset (set_ustack w us) ;;; mret u
                 | Some _ => mret q
                 end) ;;
           x <~ deref u ;;
           match x with OUpvalue _ => mret (u, recursive) | _ => merr shouldntHappen end) ;;
      upvalue_array_set p k u ;;;
      capture_op p (k + 1) cs' r
  end.

(** The byte code being executed: a heap object and the identity of its buffer (duckVM.c 4637-4671). *)
Record pc := PC { pc_code : ptr * nat; pc_ip : Z }.
Inductive ctl := Continue (c : pc) | Stop.

(** The bytes of a byte code buffer: undefined if it is gone (duckVM.c 4637-4671). *)
Definition code_bytes (os : list object) (c : ptr * nat) : res (list Z) :=
  match nth_error os (fst c) with
  | Some (OBytecode id (Some s)) => if (id =? snd c)%nat then Ok s else UB
  | _ => UB
  end.

(** duckVM.c 999-1198 push-closure.  The address is stored relative to the byte code object
    [base] the executor was started with; the subtraction is undefined if the running code lies in
    another buffer. *)
Definition push_closure_op (base : ptr) (cur : ptr * nat) (variadic : bool) (target arity : Z)
  (cs : list Z) : M unit :=
  v <~ mget ;;
  if (fst cur =? base)%nat then
    _ <~ mlift (code_bytes (objects v) cur) ;;
    p <~ alloc (OUpvalueArray 0 None (zlen cs)) ;;
    o <~ deref p ;;
    match o with
    | OUpvalueArray id b len =>
      write p (OUpvalueArray id (match b with
                                 | Some b => Some (repeat (Cell None) (length b))
                                 | None => None
                                 end) len) ;;;
      push_stack_only (OClosure target (Some base) p arity variadic) ;;;
      r <~ capture_op p 0 cs false ;;
      (if r then mret tt else push_ustack_only None) ;;;
      sset_raw 0 (OClosure target (Some base) p arity variadic)
    | _ => mub
    end
  else mub.

(** * Calls *)

(** Unwrapping composites to the function inside (duckVM.c 649-651, 1425-1427). *)
Fixpoint unwrap (fuel : nat) (o : object) : M object :=
  match o with
  | OComposite c =>
    match fuel with
    | O => mlift NoFuel
    | S f => ' (_, _, g) <~ composite_get c ;; g' <~ deref g ;; unwrap f g'
    end
  | _ => mret o
  end.

(** The value.list member of a stack object, written without looking at its type: on the stack
    slots below it always is a list (duckVM.c 690-719). *)
Definition set_slot_list (d : Z) (p : optr) : M unit := sset_raw d (OList p).

(** duckVM.c 690-719 and 1486-1515: collecting the last [n] arguments into a list ending in
    [last], with two extra objects on top of the stack that make them visible to the collector. *)
Fixpoint collect_args (n : nat) (k : Z) (last : optr) : M optr :=
  match n with
  | O => mret last
  | S n' =>
    v <~ mget ;;
    o <~ mlift (raw_get (stack v) (zlen (stack v) - 3 - k)) ;;
    p <~ alloc o ;;
    set_slot_list 0 p ;;;
    c <~ alloc (OCons p last) ;;
    set_slot_list 1 c ;;;
    collect_args n' (k + 1) c
  end.

(** duckVM.c 676-730 and 1473-1525: replace the last [n] arguments by one list. *)
Definition rest_list (n : Z) (last : optr) : M unit :=
  stack_push (OList last) ;;;
  stack_push (OList None) ;;;
  l <~ collect_args (Z.to_nat n) 0 last ;;
  stack_pop ;;;
  sset_raw n (OList l) ;;;
  stack_pop_multiple n.

(** duckVM.c 641-742 duckVM_instruction_prepareForFuncall. *)
Definition prepare_for_funcall (f : object) (args : Z) : M object :=
  v <~ mget ;;
  f <~ unwrap (S (length (objects v))) f ;;
  match f with
  | OFunction _ => mret f
  | OClosure _ _ _ arity true =>
    if args <? arity then merr invalidValue
    else rest_list (args - arity) None ;;; mret f
  | OClosure _ _ _ arity false => if arity =? args then mret f else merr invalidValue
  | _ => merr invalidValue
  end.

(** duckVM.c 1404-1408: entering a closure: save the return address and the (unchanged) byte code
    parameter, and go to the closure's code. *)
Definition enter (base : ptr) (ret : pc) (f : object) : M ctl :=
  match f with
  | OClosure name bytecode upvalues _ _ =>
    u <~ deref upvalues ;;
    match u with
    | OUpvalueArray id cs len =>
      call_stack_push (Frame (pc_ip ret) (pc_code ret) (Some base))
        (UARef (match cs, upvalues with
                | Some _, Some p => Some (p, id)
                | _, _ => None
                end) len) ;;;
      b <~ deref bytecode ;;
      match b, bytecode with
      | OBytecode id (Some _), Some b => mret (Continue (PC (b, id) name))
      | _, _ => mub
      end
    | _ => mub
    end
  | _ => mub
  end.

(** duckVM.c 1440-1466: apply pushes elements of the list while the function wants more. *)
Fixpoint spread (n : nat) (rest : optr) : M (Z * optr) :=
  match n, rest with
  | O, _ => mret (0, rest)
  | _, None => mret (0, rest)
  | S n', Some _ =>
    c <~ deref rest ;;
    match c with
    | OCons a d =>
      o <~ unbox a ;;
      stack_push o ;;;
      ' (k, r) <~ spread n' d ;; mret (k + 1, r)
    | _ => merr invalidValue
    end
  end.

(** duckVM.c 1411-1540 apply. *)
Definition apply_op (base : ptr) (ret : pc) (i args : Z) : M ctl :=
  f <~ sget i ;;
  v <~ mget ;;
  f <~ unwrap (S (length (objects v))) f ;;
  match f with
  | OClosure _ _ _ arity variadic =>
    rest <~ stack_pop ;;
    match rest with
    | OList l =>
      ' (k, r) <~ spread (Z.to_nat (arity - args)) l ;;
      (if variadic then
         if args + k <? arity then merr invalidValue
         else rest_list (args + k - arity) r
       else if arity =? args + k then mret tt else merr invalidValue) ;;;
      enter base ret f
    | _ => merr invalidValue
    end
  | _ => merr invalidValue
  end.

(** duckVM.c 1373-1409 funcall.  [host] runs a C callback. *)
Definition funcall_op (host : Z -> M unit) (base : ptr) (ret : pc) (i args : Z) : M ctl :=
  f <~ sget i ;;
  f <~ prepare_for_funcall f args ;;
  match f with
  | OFunction c => host c ;;; mret (Continue ret)
  | _ => enter base ret f
  end.

(** duckVM.c 4602-4613: popping the call stack; an empty call stack stops the machine. *)
Definition return_op : M ctl := fun v =>
  match call_stack_pop v with
  | (Ok f, v') => (Ok (Continue (PC (fr_code f) (fr_ip f))), v')
  | (Err bufferUnderflow, v') => (Ok Stop, v')
  | (Err e, v') => (Err e, v')
  | (UB, v') => (UB, v')
  | (NoFuel, v') => (NoFuel, v')
  end.

(** duckVM.c 838-864 push-string: an allocation error is overwritten by the result of stack_push,
    which pushes the zeroed object. *)
Definition push_string_op (s : list Z) : M unit := fun v =>
  match new_string s v with
  | (Ok o, v') => stack_push o v'
  | (Err _, v') => stack_push ONone v'
  | (UB, v') => (UB, v')
  | (NoFuel, v') => (NoFuel, v')
  end.

(** IEEE 754 double from its bits (duckVM.c 916-963). *)
Definition float_of_bits (b : Z) : spec_float :=
  let m := b mod 2 ^ 52 in
  let e := (b / 2 ^ 52) mod 2 ^ 11 in
  let s := negb (b / 2 ^ 63 =? 0) in
  if e =? 0 then
    match m with Zpos p => S754_finite s p (-1074) | _ => S754_zero s end
  else if e =? 2047 then
    if m =? 0 then S754_infinity s else S754_nan
  else
    match m + 2 ^ 52 with Zpos p => S754_finite s p (e - 1075) | _ => S754_nan end.

(** The instructions of one operand (duckVM.c 1770-4170). *)
Definition un_op (u : unop) (x : object) : M unit :=
  v <~ mget ;;
  o <~ (match u with
        | UNot => mlift (not_op x)
        | UCar => car_op x
        | UCdr => cdr_op x
        | UNullp => mlift (nullp_op (objects v) x)
        | UTypeof => typeof_op x
        | UCompositeValue => composite_op false x
        | UCompositeFunction => composite_op true x
        | ULength => mlift (length_op (objects v) x)
        | USymbolString => mlift (symbol_string_op (objects v) x)
        | USymbolId => match x with OSymbol id _ => mret (OInteger id) | _ => merr invalidValue end
        | UMakeString => make_string_op x
        end) ;;
  stack_push o.

(** The instructions of two operands (duckVM.c 1950-4440). *)
Definition bin_op (b : binop) (x y : object) : M unit :=
  v <~ mget ;;
  match b with
  | BMul => o <~ mlift (arith_op AMul x y) ;; stack_push o
  | BDiv => o <~ mlift (arith_op ADiv x y) ;; stack_push o
  | BAdd => o <~ mlift (arith_op AAdd x y) ;; stack_push o
  | BSub => o <~ mlift (arith_op ASub x y) ;; stack_push o
  | BEqual => r <~ mlift (equal_op (objects v) x y) ;; stack_push (of_bool r)
  | BGreater => o <~ mlift (greater_op x y) ;; stack_push o
  | BLess => o <~ mlift (less_op x y) ;; stack_push o
  | BCons => cons_op x y
  | BMakeVector => make_vector_op x y
  | BGetVecElt => o <~ get_elt_op x y ;; stack_push o
  | BSetCar => o <~ set_car_op x y ;; stack_push o
  | BSetCdr => o <~ set_cdr_op x y ;; stack_push o
  | BSetCompositeValue => o <~ set_composite_op false x y ;; stack_push o
  | BSetCompositeFunction => o <~ set_composite_op true x y ;; stack_push o
  | BConcatenate => o <~ concat_op x y ;; stack_push o
  end.

(** The instructions of three operands (duckVM.c 3404-4560). *)
Definition tern_op (t : ternop) (x y z : object) : M unit :=
  match t with
  | TSetVecElt => o <~ set_elt_op x y z ;; stack_push o
  | TMakeInstance => make_instance_op x y z
  | TSubstring => o <~ mlift (substring_op x y z) ;; stack_push o
  end.

(** duckVM.c 745-4635 duckVM_executeInstruction after decoding.  [next] is the address after the
    instruction, [base] the byte code object the executor was started with.
    Simplification: operands of two- and three-operand instructions are all fetched before their
    types are checked; both give invalidValue and change nothing. *)
Definition exec (host : Z -> M unit) (base : ptr) (next : pc) (i : instr) : M ctl :=
  let cur := pc_code next in
  let go (m : M unit) := m ;;; mret (Continue next) in
  match i with
  | INop => mret (Continue next)
  | IPushString s => go (push_string_op s)
  | IPushBoolean b => go (stack_push (of_bool b))
  | IPushInteger n => go (stack_push (OInteger n))
  | IPushFloat b => go (stack_push (OFloat (float_of_bits b)))
  | IPushIndex i => go (o <~ sget i ;; stack_push o)
  | IPushSymbol id s =>
    go (p <~ alloc (OInternalString (Some s)) ;; stack_push (OSymbol id p))
  | IPushStrippedSymbol id => go (stack_push (OSymbol id None))
  | IPushUpvalue i => go (push_upvalue_op i)
  | IPushClosure va t a cs => go (push_closure_op base cur va t a cs)
  | IPushGlobal k => go (p <~ global_get k ;; o <~ pointee p ;; stack_push o)
  | ISetUpvalue u i => go (set_upvalue_op u i)
  | ISetGlobal i k =>
    go (v <~ mget ;;
        o <~ mlift (raw_get (stack v) (zlen (stack v) - i)) ;;
        p <~ alloc o ;; global_set p k)
  | IReleaseUpvalues is => go (release_op is)
  | IFuncall i n => funcall_op host base next i n
  | IApply i n => apply_op base next i n
  | ICall t =>
    call_stack_push (Frame (pc_ip next) cur (Some base)) (UARef None 0) ;;;
    mret (Continue (PC cur t))
  | ICcall k =>
    p <~ global_get k ;; o <~ deref p ;;
    match o with OFunction c => go (host c) | _ => mub end
  | IJump t => mret (Continue (PC cur t))
  | IBrnz t n =>
    o <~ sget 1 ;;
    stack_pop_multiple n ;;;
    v <~ mget ;;
    b <~ mlift (truthy (objects v) o) ;;
    mret (Continue (if b then PC cur t else next))
  | IMove i j =>
    go (o <~ sget i ;;
        v <~ mget ;;
        s <~ mlift (abs_set (stack v) (zlen (stack v) - j) o) ;; mset (set_stack v s))
  | IUn u i => go (x <~ sget i ;; un_op u x)
  | IBin b i j => go (x <~ sget i ;; y <~ sget j ;; bin_op b x y)
  | ITern t i j k => go (x <~ sget i ;; y <~ sget j ;; z <~ sget k ;; tern_op t x y z)
  | IVector is => go (vector_op is)
  | IMakeType =>
    go (v <~ mget ;;
        mset (set_user_type v (usz (next_user_type v + 1))) ;;;
        stack_push (OType (next_user_type v)))
  | IPop n => go (stack_pop_multiple n)
  | IReturn0 => return_op
  | IReturn n =>
    v <~ mget ;;
    let top := match stack v with o :: _ => o | [] => ONone end in
    stack_pop_multiple n ;;;
    w <~ mget ;;
    (match stack w with
     | [] => mret tt
     | _ => stack_pop_multiple 1 ;;; stack_push top
     end) ;;;
    return_op
  | IHalt => mret Stop
  | INil => go (stack_push (OList None))
  end.

(** One turn of the loop in duckVM_executeWithIp (duckVM.c 4661-4663). *)
Definition step (host : Z -> M unit) (base : ptr) (c : pc) : M ctl :=
  v <~ mget ;;
  code <~ mlift (code_bytes (objects v) (pc_code c)) ;;
  ' (i, ip) <~ mlift (decode code (pc_ip c)) ;;
  exec host base (PC (pc_code c) ip) i.

(** duckVM.c 4659-4665: the loop. *)
Fixpoint run (host : Z -> M unit) (fuel : nat) (base : ptr) (c : pc) : M unit :=
  match fuel with
  | O => mlift NoFuel
  | S f =>
    r <~ step host base c ;;
    match r with Continue c' => run host f base c' | Stop => mret tt end
  end.

(** duckVM.c 4637-4671 duckVM_executeWithIp.  currentBytecode is cleared even after an error. *)
Definition execute_with_ip (host : Z -> M unit) (fuel : nat) (code : list Z) (ip : Z) : M unit :=
  if (ip <? 0) || (zlen code <=? ip) then merr invalidValue
  else
    base <~ push_object (OBytecode 0 (Some code)) ;;
    v <~ mget ;;
    match nth_error (objects v) base with
    | Some (OBytecode id _) =>
      mset (set_current v (Some base)) ;;;
      (fun w => let (r, w') := run host fuel base (PC (base, id) ip) w in (r, set_current w' None))
    | _ => mub
    end.

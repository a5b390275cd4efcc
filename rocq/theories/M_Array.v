(** Model of DuckLib/array.c (dynamic arrays), down to the bytes of the element buffer.
    Simplifications: byte sizes do not wrap around 2^64; the allocator argument is dropped
    and the host allocator (DuckLib/memory.c:930-951, the build without USE_DUCKLIB_MALLOC)
    is an oracle: [mem = false] means that this call's realloc fails. *)
From Coq Require Import ZArith List Bool.
From Verif Require Import M_Base.
Import ListNotations.
Open Scope nat_scope.

(** A byte of memory; [None] is an indeterminate byte of fresh memory
    (the bytes behind [elements], DuckLib/array.h 13). *)
Definition byte := option Z.
Definition zero_byte : byte := Some 0%Z.

(** DuckLib/array.h 7-10 dl_array_strategy_t. *)
Inductive strategy := Fit | Double.

(** DuckLib/array.h:12-19 dl_array_t.  [elements = None] is the null pointer, otherwise the
    bytes of the allocated block. *)
Record arr := {
  elements : option (list byte);
  element_size : nat;
  elements_length : nat;
  elements_memorySize : nat;
  strat : strategy
}.

(** Assignment to a field of dl_array_t, DuckLib/array.h 12-19. *)
Definition set_elements (a : arr) (e : option (list byte)) : arr :=
  {| elements := e; element_size := element_size a; elements_length := elements_length a;
     elements_memorySize := elements_memorySize a; strat := strat a |}.
(** Assignment to a field of dl_array_t, DuckLib/array.h 12-19. *)
Definition set_length (a : arr) (n : nat) : arr :=
  {| elements := elements a; element_size := element_size a; elements_length := n;
     elements_memorySize := elements_memorySize a; strat := strat a |}.
(** Assignment to a field of dl_array_t, DuckLib/array.h 12-19. *)
Definition set_memorySize (a : arr) (n : nat) : arr :=
  {| elements := elements a; element_size := element_size a; elements_length := elements_length a;
     elements_memorySize := n; strat := strat a |}.

(** A call returns the new array and dl_error_ok / an error, or is undefined
    (DuckLib/core.h 57-67 dl_error_t). *)
Inductive outcome (R : Type) := Ret (a : arr) (r : R) | Fail (a : arr) (e : error) | Undef.
Arguments Ret {R}. Arguments Fail {R}. Arguments Undef {R}.

(** DuckLib/array.c:4-16 dl_array_init. *)
Definition array_init (sz : nat) (s : strategy) : arr :=
  {| elements := None; element_size := sz; elements_length := 0; elements_memorySize := 0; strat := s |}.

(** DuckLib/memory.c:945-951 dl_realloc (new pointer and success).  On failure the pointer is
    overwritten with null.  A size of 0 is taken as glibc does: the block is freed and the
    null pointer returned. *)
Definition realloc (mem : bool) (m : option (list byte)) (size : nat) : option (list byte) * bool :=
  if negb mem || Nat.eqb size 0 then (None, false)
  else
    let old := match m with Some b => b | None => [] end in
    (Some (firstn size old ++ repeat None (size - length old)), true).

(** dl_memcopy / dl_memclear into the buffer at [off]; outside the block is undefined
    (DuckLib/core.c 21-60). *)
Definition mem_write (m : option (list byte)) (off : nat) (bs : list byte) : option (option (list byte)) :=
  match m with
  | None => match bs with [] => Some None | _ => None end
  | Some b =>
      if Nat.leb (off + length bs) (length b)
      then Some (Some (firstn off b ++ bs ++ skipn (off + length bs) b))
      else None
  end.

(** dl_memcopy out of the buffer (DuckLib/core.c 21-40). *)
Definition mem_read (m : option (list byte)) (off n : nat) : option (list byte) :=
  match m with
  | None => if Nat.eqb n 0 then Some [] else None
  | Some b => if Nat.leb (off + n) (length b) then Some (firstn n (skipn off b)) else None
  end.

(** DuckLib/array.c:38-76 dl_array_pushElement; [element = None] is the null pointer. *)
Definition pushElement (mem : bool) (a : arr) (element : option (list byte)) : outcome unit :=
  let newLengthSize := (elements_length a + 1) * element_size a in
  let fill a' :=
    let bs := match element with Some e => e | None => repeat zero_byte (element_size a') end in
    match mem_write (elements a') (element_size a' * elements_length a') bs with
    | Some m => Ret (set_length (set_elements a' m) (S (elements_length a'))) tt
    | None => Undef
    end in
  match strat a with
  | Fit =>
      match realloc mem (elements a) newLengthSize with
      | (m, false) => Fail (set_elements a m) outOfMemory
      | (m, true) => fill (set_memorySize (set_elements a m) newLengthSize)
      end
  | Double =>
      if Nat.ltb (elements_memorySize a) newLengthSize then
        match realloc mem (elements a) (2 * newLengthSize) with
        | (m, false) => Fail (set_elements a m) outOfMemory
        | (m, true) => fill (set_memorySize (set_elements a m) (2 * newLengthSize))
        end
      else fill a
  end.

(** The space-making part shared by DuckLib/array.c:85-104 (pushElements) and 253-269
    (append).  The [while] loop runs at most once: after it the size is twice the bound. *)
Definition make_space (mem : bool) (a : arr) (n : nat) : arr * bool :=
  let size := (elements_length a + n) * element_size a in
  match strat a with
  | Fit =>
      let '(m, ok) := realloc mem (elements a) size in
      if ok then (set_memorySize (set_elements a m) size, true) else (set_elements a m, false)
  | Double =>
      if Nat.ltb (elements_memorySize a) size then
        let '(m, ok) := realloc mem (elements a) (2 * size) in
        if ok then (set_memorySize (set_elements a m) (2 * size), true) else (set_elements a m, false)
      else (a, true)
  end.

(** DuckLib/array.c:78-118 dl_array_pushElements; [None] pushes zeroed elements. *)
Definition pushElements (mem : bool) (a : arr) (es : option (list byte)) (n : nat) : outcome unit :=
  if Nat.eqb n 0 then Ret a tt
  else
    match make_space mem a n with
    | (a', false) => Fail a' outOfMemory
    | (a', true) =>
        let bs := match es with Some e => e | None => repeat zero_byte (n * element_size a') end in
        match mem_write (elements a') (element_size a' * elements_length a') bs with
        | Some m => Ret (set_length (set_elements a' m) (elements_length a' + n)) tt
        | None => Undef
        end
    end.

(** DuckLib/array.c:130-143 dl_array_popElement (returning the element's bytes). *)
Definition popElement (a : arr) : outcome (list byte) :=
  if Nat.ltb 0 (elements_length a) then
    match mem_read (elements a) ((elements_length a - 1) * element_size a) (element_size a) with
    | Some e => Ret (set_length a (elements_length a - 1)) e
    | None => Undef
    end
  else Fail a bufferUnderflow.

(** DuckLib/array.c:145-162 dl_array_popElements. *)
Definition popElements (a : arr) (count : nat) : outcome (list byte) :=
  if Nat.ltb 0 count then
    if Nat.leb count (elements_length a) then
      match mem_read (elements a) ((elements_length a - count) * element_size a)
                     (count * element_size a) with
      | Some e => Ret (set_length a (elements_length a - count)) e
      | None => Undef
      end
    else Fail a bufferUnderflow
  else Ret a [].

(** DuckLib/array.c:168-180 dl_array_getTop. *)
Definition getTop (a : arr) : outcome (list byte) :=
  if Nat.ltb 0 (elements_length a) then
    match mem_read (elements a) ((elements_length a - 1) * element_size a) (element_size a) with
    | Some e => Ret a e
    | None => Undef
    end
  else Fail a bufferUnderflow.

(** DuckLib/array.c:186-200 dl_array_setTop. *)
Definition setTop (a : arr) (element : list byte) : outcome unit :=
  if Nat.ltb 0 (elements_length a) then
    match mem_write (elements a) ((elements_length a - 1) * element_size a) element with
    | Some m => Ret (set_elements a m) tt
    | None => Undef
    end
  else Fail a bufferUnderflow.

(** DuckLib/array.c:202-210 dl_array_get; the index is signed. *)
Definition get (a : arr) (index : Z) : outcome (list byte) :=
  if ((0 <=? index) && (index <? Z.of_nat (elements_length a)))%Z then
    match mem_read (elements a) (Z.to_nat index * element_size a) (element_size a) with
    | Some e => Ret a e
    | None => Undef
    end
  else Fail a invalidValue.

(** DuckLib/array.c:212-220 dl_array_set. *)
Definition set (a : arr) (element : list byte) (index : Z) : outcome unit :=
  if ((0 <=? index) && (index <? Z.of_nat (elements_length a)))%Z then
    match mem_write (elements a) (Z.to_nat index * element_size a) element with
    | Some m => Ret (set_elements a m) tt
    | None => Undef
    end
  else Fail a invalidValue.

(** DuckLib/array.c:249-280 dl_array_append (source and destination different arrays with
    the same element size). *)
Definition append (mem : bool) (a src : arr) : outcome unit :=
  match make_space mem a (elements_length src) with
  | (a', false) => Fail a' outOfMemory
  | (a', true) =>
      match mem_read (elements src) 0 (elements_length src * element_size a') with
      | None => Undef
      | Some bs =>
          match mem_write (elements a') (element_size a' * elements_length a') bs with
          | Some m => Ret (set_length (set_elements a' m) (elements_length a' + elements_length src)) tt
          | None => Undef
          end
      end
  end.

(** DuckLib/array.c:282-299 dl_array_clear. *)
Definition clear (a : arr) : outcome unit :=
  if Nat.eqb (elements_length a) 0 then Ret a tt
  else Ret (set_elements (set_memorySize (set_length a 0) 0) None) tt.

(** The calls a client can make on its two arrays; [Append] appends the other array
    (DuckLib/array.h 20-30). *)
Inductive op :=
| Push (e : list byte)
| PushNull
| PushN (es : list (list byte))
| PushNullN (n : nat)
| Pop
| PopN (n : nat)
| GetTop
| SetTop (e : list byte)
| Get (i : Z)
| Set_ (e : list byte) (i : Z)
| Append
| Clear.

(** A call without a result (DuckLib/array.h 20-30). *)
Definition ret_unit (o : outcome unit) : outcome (list byte) :=
  match o with Ret a _ => Ret a [] | Fail a e => Fail a e | Undef => Undef end.

(** One call (DuckLib/array.h 20-30). *)
Definition step (mem : bool) (a other : arr) (o : op) : outcome (list byte) :=
  match o with
  | Push e => ret_unit (pushElement mem a (Some e))
  | PushNull => ret_unit (pushElement mem a None)
  | PushN es => ret_unit (pushElements mem a (Some (concat es)) (length es))
  | PushNullN n => ret_unit (pushElements mem a None n)
  | Pop => popElement a
  | PopN n => popElements a n
  | GetTop => getTop a
  | SetTop e => ret_unit (setTop a e)
  | Get i => get a i
  | Set_ e i => ret_unit (set a e i)
  | Append => ret_unit (append mem a other)
  | Clear => ret_unit (clear a)
  end.

(** A client's history on two arrays; the flag says which one a call is made on.
    [None]: undefined behaviour (DuckLib/array.h 20-30). *)
Inductive result := ROk (bs : list byte) | RErr (e : error).

(** A sequence of calls (DuckLib/array.h 20-30). *)
Fixpoint run (mem : bool) (a b : arr) (ops : list (bool * op)) : option (arr * arr * list result) :=
  match ops with
  | [] => Some (a, b, [])
  | (first, o) :: ops' =>
      let k x r :=
        let '(a', b') := if first : bool then (x, b) else (a, x) in
        match run mem a' b' ops' with Some (a2, b2, rs) => Some (a2, b2, r :: rs) | None => None end in
      match (if first : bool then step mem a b o else step mem b a o) with
      | Ret x r => k x (ROk r)
      | Fail x e => k x (RErr e)
      | Undef => None
      end
  end.

(** ** dl_array_copy with explicit buffers
    DuckLib/array.c:225-246.  A store maps block numbers to their bytes. *)
Record handle := { h_block : nat; h_size : nat; h_length : nat; h_memorySize : nat; h_alloc : nat }.
Definition store := list (option (list byte)).

(** Writes through a handle at element [i] (DuckLib/array.c:212-220 on the shared store). *)
Definition h_set (s : store) (h : handle) (i : nat) (e : list byte) : option store :=
  match nth_error s (h_block h) with
  | Some (Some b) =>
      match mem_write (Some b) (i * h_size h) e with
      | Some m => Some (list_set s (h_block h) m)
      | None => None
      end
  | _ => None
  end.
Definition h_get (s : store) (h : handle) (i : nat) : option (list byte) :=
  match nth_error s (h_block h) with
  | Some (Some b) => mem_read (Some b) (i * h_size h) (h_size h)
  | _ => None
  end.

(** Frees the destination's block, allocates a new one (appended to the store), copies the
    bytes into it, then overwrites the whole destination struct with the source struct
    (DuckLib/array.c 225-246). *)
Definition array_copy (s : store) (dst src : handle) : option (store * handle) :=
  match nth_error s (h_block src) with
  | Some (Some b) =>
      let s1 := list_set s (h_block dst) None in
      let new_block := firstn (h_length src * h_size src) b
                       ++ repeat None (h_memorySize src - h_length src * h_size src) in
      let s2 := s1 ++ [Some new_block] in
      Some (s2, src)
  | _ => None
  end.

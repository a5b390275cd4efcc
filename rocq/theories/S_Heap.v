(** Specification of the heap: which objects a program can still reach.  Nothing here mentions the
    collector's own functions. *)
From Coq Require Import ZArith List.
Import ListNotations.
From Verif Require Import M_Base M_Heap.
Open Scope Z_scope.

(** The pointer held in element [i] of a buffer of [len] pointers. *)
Definition holds (cs : option (list cell)) (len : Z) (p : ptr) : Prop :=
  exists l i, cs = Some l /\ Z.of_nat i < len /\ nth_error l i = Some (Cell (Some p)).

(** [refers o p]: object [o] holds a pointer to heap object [p].  A vector holds the pointers
    stored in it whether or not the machine has finished building it. *)
Inductive refers : object -> ptr -> Prop :=
| refers_list p : refers (OList (Some p)) p
| refers_car p d : refers (OCons (Some p) d) p
| refers_cdr a p : refers (OCons a (Some p)) p
| refers_bytecode n p u a x : refers (OClosure n (Some p) u a x) p
| refers_upvalues n b p a x : refers (OClosure n b (Some p) a x) p
| refers_captured p : refers (OUpvalue (UpObject (Some p))) p
| refers_outer p : refers (OUpvalue (UpUpvalue (Some p))) p
| refers_upvalue i cs len p : holds cs len p -> refers (OUpvalueArray i cs len) p
| refers_vector p off : refers (OVector (Some p) off) p
| refers_element cs len init p : holds cs len p -> refers (OInternalVector cs len init) p
| refers_string p off len : refers (OString (Some p) off len) p
| refers_symbol i p : refers (OSymbol i (Some p)) p
| refers_composite p : refers (OComposite (Some p)) p
| refers_value t p f : refers (OInternalComposite t (Some p) f) p
| refers_function t x p : refers (OInternalComposite t x (Some p)) p
| refers_user d b m p : In (Some p) m -> refers (OUser d b m) p.

(** What a program can name directly: values on the stack, captured variables, globals, the byte
    code of callers and of the running function. *)
Inductive root (v : vm) : ptr -> Prop :=
| root_stack o p : In o (stack v) -> refers o p -> root v p
| root_ustack p : In (Some p) (ustack v) -> root v p
| root_global p : In (Some p) (globals v) -> root v p
| root_frame ip c p : In (Frame ip c (Some p)) (call_stack v) -> root v p
| root_current p : current_bytecode v = Some p -> root v p.

Inductive reach (v : vm) : ptr -> Prop :=
| reach_root p : root v p -> reach v p
| reach_step p o q : reach v p -> nth_error (objects v) p = Some o -> refers o q -> reach v q.

(** A pointer buffer that can be read: its pointers have all been written. *)
Definition readable (cs : option (list cell)) (len : Z) : Prop :=
  0 < len -> exists l, cs = Some l /\
    forall i, Z.of_nat i < len -> exists p, nth_error l i = Some (Cell p).

Definition intact (o : object) : Prop :=
  match o with
  | OUpvalueArray _ cs len => readable cs len
  | OInternalVector cs len true => readable cs len
  | _ => True
  end.

(** No pointer the program can follow leads outside the heap or through a released or unwritten
    buffer. *)
Definition heap_sound (v : vm) : Prop :=
  (forall o, In o (stack v) -> intact o) /\
  (forall p, reach v p -> exists o, nth_error (objects v) p = Some o /\ intact o).

(** A vector the machine has not marked as finished and that already holds elements. *)
Definition half_built (o : object) : Prop :=
  match o with
  | OInternalVector cs len false => exists p, holds cs len p
  | _ => False
  end.

Definition no_half_built (v : vm) : Prop :=
  (forall o, In o (stack v) -> ~ half_built o) /\
  (forall p o, reach v p -> nth_error (objects v) p = Some o -> ~ half_built o).

(** Everything but the heap and the destructor log is the same. *)
Definition same_roots (v v' : vm) : Prop :=
  stack v' = stack v /\ ustack v' = ustack v /\ globals v' = globals v /\
  globals_map v' = globals_map v /\ call_stack v' = call_stack v /\ uacs v' = uacs v /\
  current_bytecode v' = current_bytecode v /\ next_user_type v' = next_user_type v.

(** The free list holds unreachable objects of the heap, once each. *)
Definition free_ok (v : vm) : Prop :=
  NoDup (free v) /\ forall p, In p (free v) -> (p < length (objects v))%nat /\ ~ reach v p.

(** ** Interleavings of allocation, collection and program steps *)

(** What a program may do between two calls of the memory manager: rearrange the pointers it can
    reach, including the one to the object it has just allocated, without touching the free list
    and without losing the soundness of the heap. *)
Definition program_step (fresh : optr) (v v' : vm) : Prop :=
  free v' = free v /\ length (objects v') = length (objects v) /\
  heap_sound v' /\ no_half_built v' /\
  forall q, reach v' q -> reach v q \/ fresh = Some q.

Inductive mm_steps : vm -> vm -> Prop :=
| mm_refl v : mm_steps v v
| mm_collect v v1 v2 : mm_steps v v1 -> garbage_collect v1 = Ok v2 -> mm_steps v v2
| mm_alloc v v1 o p v2 v3 : mm_steps v v1 -> push_object o v1 = (Ok p, v2) ->
    program_step (Some p) v2 v3 -> mm_steps v v3
| mm_alloc_fails v v1 o v2 : mm_steps v v1 -> push_object o v1 = (Err outOfMemory, v2) ->
    mm_steps v v2
| mm_program v v1 v2 : mm_steps v v1 -> program_step None v1 v2 -> mm_steps v v2.

(** C08-C12: the garbage collector. *)
From Coq Require Import ZArith List Lia.
Import ListNotations.
From Verif Require Import M_Base M_Heap S_Heap P_Heap X_Heap.
Open Scope nat_scope.

(** C08.  A collection keeps every object the program can reach, with its contents, and changes
    nothing else the program can see.  Missing for the full claim: vectors that are being filled
    while the collection runs (see [C08_gc_keeps_live_refuted]). *)
Theorem C08_gc_keeps_live_partial v : heap_sound v -> no_half_built v ->
  exists v', garbage_collect v = Ok v' /\ same_roots v v' /\
    forall p, reach v p ->
      nth_error (objects v') p = nth_error (objects v) p /\ ~ In p (free v').
Proof. exact (gc_keeps_live v). Qed.
Print Assumptions C08_gc_keeps_live_partial.

(** A heap of five objects with a cyclic list, a captured variable and a dead cons. *)
Example C08_case : heap_sound ex_heap /\ no_half_built ex_heap /\ reach ex_heap 1 /\ ~ reach ex_heap 4.
Proof. exact ex_heap_ok. Qed.

(** Without that restriction an element already stored in a vector under construction is freed
    although the vector on the stack holds it. *)
Theorem C08_gc_keeps_live_refuted : exists v v' p, heap_sound v /\ reach v p /\
  nth_error (objects v) p = Some (OInteger 7) /\ garbage_collect v = Ok v' /\ In p (free v').
Proof. exact gc_loses_element. Qed.
Print Assumptions C08_gc_keeps_live_refuted.

(** C09.  After a collection the free list holds each unreachable object exactly once and no
    reachable one. *)
Theorem C09_gc_reclaims_dead v : heap_sound v -> no_half_built v ->
  exists v', garbage_collect v = Ok v' /\ NoDup (free v') /\
    forall p, In p (free v') <-> p < length (objects v) /\ ~ reach v p.
Proof. exact (gc_reclaims_dead v). Qed.
Print Assumptions C09_gc_reclaims_dead.

Example C09_case : heap_sound ex_heap /\ no_half_built ex_heap /\ ~ reach ex_heap 4 /\ 4 < length (objects ex_heap).
Proof. exact ex_heap_dead. Qed.

(** C09.  Allocation fails exactly when no free object is left and every object is reachable. *)
Theorem C09_out_of_memory_exact n v o : mm_steps (vm_init n) v ->
  (exists v', push_object o v = (Err outOfMemory, v')) <->
  (free v = [] /\ forall p, p < length (objects v) -> reach v p).
Proof. exact (oom_exact n v o). Qed.
Print Assumptions C09_out_of_memory_exact.

Example C09_oom_case : exists v, mm_steps (vm_init 1) v /\ free v = [] /\ reach v 0.
Proof. exact ex_full. Qed.

(** C10.  After any interleaving of allocations, collections and program steps, an allocation
    returns an object the program cannot reach and that is no longer free, stores the request in
    it and leaves every reachable object as it was. *)
Theorem C10_allocation_fresh n v o p v' : mm_steps (vm_init n) v -> push_object o v = (Ok p, v') ->
  ~ reach v p /\ ~ In p (free v') /\
  (exists k, nth_error (objects v') p = Some (stored k o)) /\
  (forall q, reach v q -> q <> p /\ nth_error (objects v') q = nth_error (objects v) q).
Proof. exact (alloc_fresh n v o p v'). Qed.
Print Assumptions C10_allocation_fresh.

(** A second allocation that has to collect a dead object first. *)
Example C10_case : exists v p v', mm_steps (vm_init 2) v /\ free v = [] /\ reach v 1 /\
  push_object (OInteger 3) v = (Ok p, v') /\ p = 0.
Proof. exact ex_realloc. Qed.

(** C11, for each heap object of user type: a collection calls the destructor exactly for the
    unreachable ones that still have it, once, and removes it, so that it is never called again.
    Missing for the full claim: user values are copied from the stack to the heap with their
    destructor (see the refutations). *)
Theorem C11_destructor_once_partial v : heap_sound v -> no_half_built v ->
  exists v' l, garbage_collect v = Ok v' /\ events v' = l ++ events v /\ NoDup l /\
    (forall p d, In (Destroyed p d) l <->
       ~ reach v p /\ exists m, nth_error (objects v) p = Some (OUser d true m)) /\
    (forall p d m, ~ reach v p -> nth_error (objects v) p = Some (OUser d true m) ->
       nth_error (objects v') p = Some (OUser d false m)).
Proof. exact (gc_destructors v). Qed.
Print Assumptions C11_destructor_once_partial.

Example C11_case : heap_sound ex_user /\ no_half_built ex_user /\
  nth_error (objects ex_user) 0 = Some (OUser 5 true []) /\ ~ reach ex_user 0.
Proof. exact ex_user_ok. Qed.

(** The destructor runs although the user value is still on the stack, when a heap copy of the
    value dies. *)
Theorem C11_destructor_live_refuted : exists v p v1 v2 d,
  In (OUser d true []) (stack v) /\ push_object (OUser d true []) v = (Ok p, v1) /\
  garbage_collect v1 = Ok v2 /\ In (OUser d true []) (stack v2) /\ In (Destroyed p d) (events v2).
Proof. exact destructor_live. Qed.
Print Assumptions C11_destructor_live_refuted.

(** Two heap copies of one user value have its destructor called twice. *)
Theorem C11_destructor_twice_refuted : exists v p v1 q v2 v3 d,
  mm_steps (vm_init 2) v /\
  push_object (OUser d true []) v = (Ok p, v1) /\ push_object (OUser d true []) v1 = (Ok q, v2) /\
  garbage_collect v2 = Ok v3 /\ p <> q /\ In (Destroyed p d) (events v3) /\ In (Destroyed q d) (events v3).
Proof. exact destructor_twice. Qed.
Print Assumptions C11_destructor_twice_refuted.

(** C12.  A collection ends for every heap whatever its pointers, cyclic ones included. *)
Theorem C12_gc_terminates v : garbage_collect v <> NoFuel.
Proof. exact (gc_fuel v). Qed.
Print Assumptions C12_gc_terminates.

(** C12.  The number of iterations of all the marking loops of a collection together is at most
    the number of root pointers plus the number of pointers stored in the heap. *)
Theorem C12_marking_linear v used : mark_all v = Ok used ->
  exists ts n, Forall2 (fun o t => children o = Ok (rev t)) (rev (stack v)) ts /\
    marking_roots (objects v) (repeat false (length (objects v)))
      (ts ++ map (fun p => [p]) (rev (ustack v) ++ globals v ++ map fr_bytecode (rev (call_stack v))
                                 ++ [current_bytecode v])) used n /\
    n <= total ts + (length (ustack v) + length (globals v) + length (call_stack v) + 1)
         + heap_weight (objects v).
Proof. exact (mark_all_cost v used). Qed.
Print Assumptions C12_marking_linear.

Example C12_case : mark_all ex_heap = Ok [true; true; true; true; false].
Proof. reflexivity. Qed.

(** Specifications of calls from C.  Nothing here mentions duckVM_call's model. *)
From Coq Require Import ZArith List.
Import ListNotations.
From Verif Require Import M_Base M_Heap M_Instr M_VM S_Heap S_VM S_Types.
Open Scope Z_scope.

(** C callbacks that, when they succeed, leave the calls in progress and the size of the heap alone.
    (They may run code of the language themselves.) *)
Definition balanced_host (host : Z -> M unit) : Prop := forall c v v', host c v = (Ok tt, v') ->
  call_stack v' = call_stack v /\ uacs v' = uacs v /\ length (objects v') = length (objects v).

(** A byte code object that is not in the heap. *)
Definition outside (v : vm) (f : frame) : Prop := exists p, fr_bytecode f = Some p /\ (length (objects v) <= p)%nat.

(** [v1] is [v] about to run, as the program [base], a copy of [code], with one more call in progress,
    [f] with the captured variables [r]. *)
Record launched (v v1 : vm) (base : ptr) (id : nat) (code : list Z) (f : frame) (r : uaref) : Prop := {
  la_code : nth_error (objects v1) base = Some (OBytecode id (Some code));
  la_new : In base (free v);
  la_calls : call_stack v1 = f :: call_stack v;
  la_uacs : uacs v1 = r :: uacs v;
  la_current : current_bytecode v1 = Some base;
  la_stack : stack v1 = stack v;
  la_ustack : ustack v1 = ustack v;
  la_globals : globals v1 = globals v /\ globals_map v1 = globals_map v;
  la_others : forall p, p <> base -> nth_error (objects v1) p = nth_error (objects v) p
}.

(** What became of a function that was started in [v1] and ended in [v']: it was left by a return that
    found the calls as they were in [v], or some code run meanwhile stopped the machine. *)
Definition returned (host : Z -> M unit) (base : ptr) (c : pc) (v v1 v' : vm) : Prop :=
  exists l c2 v2 c3 v3, steps host base c v1 l c2 v2 /\
    Forall (fun w => (length (call_stack v) < length (call_stack w))%nat) (v1 :: l) /\
    step host base c2 v2 = (Ok (Continue c3), v3) /\ call_stack v3 = call_stack v /\ uacs v3 = uacs v /\
    v' = set_current v3 None.
Definition halted (host : Z -> M unit) (base : ptr) (c : pc) (v v1 v' : vm) : Prop :=
  exists l c2 v2 next, steps host base c v1 l c2 v2 /\
    Forall (fun w => (length (call_stack v) < length (call_stack w))%nat) (v1 :: l) /\
    fetch v2 c2 IHalt next /\ v' = set_current v2 None.

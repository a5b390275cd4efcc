(** Calling a function of the language from C (duckVM.c 5557-5609 duckVM_call). *)
From Coq Require Import ZArith List Bool Arith.
Import ListNotations.
From Verif Require Import M_Base M_Heap M_Instr M_VM M_Host.
Open Scope Z_scope.

(** The loop of duckVM_executeWithIp (duckVM.c 4659-4665) while the byte code made by duckVM_call (a
    local array holding one halt instruction, duckVM.c 5589-5592) is the return address of a frame.  That
    array is no heap object: it is modelled by an address [shim] outside the heap, and arriving there
    executes halt. *)
Fixpoint run_shim (host : Z -> M unit) (fuel : nat) (shim base : ptr) (c : pc) : M unit :=
  match fuel with
  | O => mlift NoFuel
  | S f =>
    if (fst (pc_code c) =? shim)%nat then mret tt
    else
      r <~ step host base c ;;
      match r with Continue c' => run_shim host f shim base c' | Stop => mret tt end
  end.

(** duckVM.c 4637-4671 duckVM_executeWithIp, called by duckVM_call. *)
Definition execute_shim (host : Z -> M unit) (fuel : nat) (shim : ptr) (code : list Z) (ip : Z) : M unit :=
  if (ip <? 0) || (zlen code <=? ip) then merr invalidValue
  else
    base <~ push_object (OBytecode 0 (Some code)) ;;
    v <~ mget ;;
    match nth_error (objects v) base with
    | Some (OBytecode id _) =>
      mset (set_current v (Some base)) ;;;
      (fun w => let (r, w') := run_shim host fuel shim base (PC (base, id) ip) w in (r, set_current w' None))
    | _ => mub
    end.

(** The frame duckVM_call pushes: it returns to the halt instruction, and its byte code object is a
    local variable (duckVM.c 5590-5599).  The heap never grows or moves, so the first address after it
    stands for one outside. *)
Definition shim_frame (shim : ptr) : frame := Frame 0 (shim, 0%nat) (Some shim).

(** duckVM.c 5557-5609 duckVM_call.  [host] runs a C callback; the number of arguments is a dl_uint8_t.
    The byte code handed to duckVM_executeWithIp is the closure's own, of which it makes a copy. *)
Definition host_call (host : Z -> M unit) (fuel : nat) (i args : Z) : M unit :=
  f <~ stack_get i ;;
  f <~ prepare_for_funcall f args ;;
  match f with
  | OFunction c => host c
  | OClosure name bytecode upvalues _ _ =>
    b <~ deref bytecode ;;
    u <~ deref upvalues ;;
    match b, u with
    | OBytecode _ (Some code), OUpvalueArray id cs len =>
      v <~ mget ;;
      call_stack_push (shim_frame (length (objects v)))
        (UARef (match cs, upvalues with
                | Some _, Some p => Some (p, id)
                | _, _ => None
                end) len) ;;;
      execute_shim host fuel (length (objects v)) code name
    | _, _ => mub
    end
  | _ => merr invalidValue
  end.

(** What running code with functions does to the stack and the call stack, stated without reference
    to the compiler (C63). *)
From Coq Require Import ZArith List Bool.
From Verif Require Import M_Base M_Heap M_Instr M_VM M_Asm S_Asm S_Frame.
Import ListNotations.
Open Scope Z_scope.

(** The states the machine goes through. *)
Inductive reaches (host : Z -> M unit) (base : ptr) (c : pc) (v : vm) : pc -> vm -> Prop :=
| reach_start : reaches host base c v c v
| reach_step c1 v1 c2 v2 : reaches host base c v c1 v1 -> step host base c1 v1 = (Ok (Continue c2), v2) ->
    reaches host base c v c2 v2.

(** An object that leads to no code and to no position of the stack. *)
Definition inert (o : object) : Prop :=
  match o with
  | OFunction _ | OClosure _ _ _ _ _ | OBytecode _ (Some _) | OUpvalue (UpStack _) => False
  | _ => True
  end.
(** A machine without functions: no callback, no closure, no byte code, no variable of the stack that
    is captured. *)
Definition functionless (v : vm) : Prop := Forall inert (stack v) /\ Forall inert (objects v).

(** The calls under way: [waiting prog y off calls0 n0 calls f below] says that a function (or main program)
    [f] runs with [below] values below its own, and that every entry of the call stack above [calls0] is a call
    made by code of the program which goes on at a position [k], where it will have all the values it
    had and the result. *)
Inductive waiting (prog : list ainstr) (y : layout) (off : nat -> Z) (calls0 : list frame) (n0 : Z)
  : list frame -> Z -> Z -> Prop :=
| waiting_main : waiting prog y off calls0 n0 calls0 (-1) n0
| waiting_call k code bytecode calls below f :
    waiting prog y off calls0 n0 calls (owner y k) below -> (k < length prog)%nat -> f <> -1 -> 1 <= height y k ->
    waiting prog y off calls0 n0 (Frame (off k) code bytecode :: calls) f (below + (height y k - 1)).

(** The machine stands at position [k] of the program, with exactly the values on the stack that the layout
    says: those that were there at the start, unchanged; those of the calls under way; and its own. *)
Definition stands (prog : list ainstr) (y : layout) (off : nat -> Z) (v0 : vm) (c : pc) (v : vm) : Prop :=
  exists k below, (k < length prog)%nat /\ pc_ip c = off k /\
    waiting prog y off (call_stack v0) (zlen (stack v0)) (call_stack v) (owner y k) below /\
    exists t, stack v = t ++ stack v0 /\ zlen (stack v) = below + height y k.

(** The states duckVM_execute goes through when it runs [code] on machine [v]. *)
Definition visits (host : Z -> M unit) (code : list Z) (v : vm) (c' : pc) (v' : vm) : Prop :=
  exists base id v1, push_object (OBytecode 0 (Some code)) v = (Ok base, v1) /\
    (exists s, nth_error (objects v1) base = Some (OBytecode id s)) /\
    reaches host base (PC (base, id) 0) (set_current v1 (Some base)) c' v'.

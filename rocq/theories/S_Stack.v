(** Stack heights of assembly programs, stated without reference to the compiler. *)
From Coq Require Import ZArith List Bool.
From Verif Require Import M_Base M_Instr M_Asm.
Import ListNotations.
Open Scope Z_scope.

(** What an instruction without a label adds to the height of the stack, and the positions (from
    the top, 1 being the top) it reads; [None] for instructions the core language does not use.
    A call takes the arguments away and adds the result; the function stays. *)
Definition net (a : ainstr) : option Z :=
  match a with
  | AInternalNop => Some 0
  | APushString _ | APushBoolean _ | APushInteger _ | APushFloat _ | APushIndex _ | APushSymbol _ _
  | APushGlobal _ | AUn _ _ | ABin _ _ _ | ANil => Some 1
  | ASetGlobal _ _ | AMove _ _ => Some 0
  | APop n => Some (- n)
  | AFuncall _ n => Some (1 - n)
  | _ => None
  end.
Definition operands (a : ainstr) : list Z :=
  match a with
  | APushIndex i | AUn _ i | ASetGlobal i _ => [i]
  | AMove i j | ABin _ i j => [i; j]
  | APop n => [n]
  | AFuncall i n => [i; n + 1]
  | _ => []
  end.

(** [H] gives every position of the program a height: consistent with every instruction and every
    jump, with all operands on the stack. *)
Definition height_at (prog : list ainstr) (H : nat -> Z) (k : nat) (a : ainstr) : Prop :=
  match a with
  | AHalt => 1 <= H k
  | ALabel _ => H (S k) = H k
  | AJump l => forall j, nth_error prog j = Some (ALabel l) -> H j = H k
  | ABrnz l p => 1 <= H k /\ 0 <= p <= H k /\ H (S k) = H k - p /\
      forall j, nth_error prog j = Some (ALabel l) -> H j = H k - p
  | _ => exists d, net a = Some d /\ H (S k) = H k + d /\ Forall (fun i => 1 <= i <= H k) (operands a)
  end.
Definition balanced (prog : list ainstr) (H : nat -> Z) : Prop :=
  forall k a, nth_error prog k = Some a -> 0 <= H k /\ height_at prog H k a.

(** Executing the instructions of [code], as the machine does with the byte code object [cur]. *)
From Verif Require Import M_Heap M_VM.
Inductive flows (host : Z -> M unit) (base : ptr) (cur : ptr * nat) (code : list Z) (ip : Z) (v : vm) : Z -> vm -> Prop :=
| flows_start : flows host base cur code ip v ip v
| flows_step ip1 v1 i next ip2 v2 : flows host base cur code ip v ip1 v1 ->
    decode code ip1 = Ok (i, next) -> exec host base (PC cur next) i v1 = (Ok (Continue (PC cur ip2)), v2) ->
    flows host base cur code ip v ip2 v2.

(** Specifications of calls and returns.  Nothing here mentions the machine's functions. *)
From Coq Require Import ZArith List.
Import ListNotations.
From Verif Require Import M_Base M_Heap M_Instr M_VM S_Heap S_VM S_Data.
Open Scope Z_scope.

(** The function a value stands for: the value itself, or, of a composite, what its function part
    stands for. *)
Inductive resolves (os : list object) : object -> object -> Prop :=
| resolves_self f : (forall c, f <> OComposite c) -> resolves os f f
| resolves_inside c t x q g f : nth_error os c = Some (OInternalComposite t x (Some q)) -> nth_error os q = Some g ->
    resolves os g f -> resolves os (OComposite (Some c)) f.

(** [v'] is about to run, at [c], the closure with entry [name], byte code [b] and captured variables
    [u]; it will return to [ret].  Apart from the stacks and new objects it is the same machine as [v]. *)
Record enters (base : ptr) (ret : pc) (name : Z) (b u : ptr) (c : pc) (v v' : vm) : Prop := {
  en_calls : call_stack v' = Frame (pc_ip ret) (pc_code ret) (Some base) :: call_stack v;
  en_uacs : exists id cs len, nth_error (objects v) u = Some (OUpvalueArray id cs len) /\
    uacs v' = UARef (match cs with Some _ => Some (u, id) | None => None end) len :: uacs v;
  en_code : exists id code, nth_error (objects v) b = Some (OBytecode id (Some code)) /\ c = PC (b, id) name;
  en_globals : globals v' = globals v;
  en_globals_map : globals_map v' = globals_map v;
  en_current : current_bytecode v' = current_bytecode v;
  en_types : next_user_type v' = next_user_type v;
  en_heap : forall p, reach v p -> nth_error (objects v') p = nth_error (objects v) p
}.

(** The machine [v], where the topmost stack slot no longer is a variable of some closure.  (The
    compiler only passes temporaries to apply, which are no closure's variables.) *)
Definition uncaptured (v : vm) : vm := set_ustack v (None :: tl (ustack v)).

(** A call either enters the closure in a state satisfying [P], or runs out of memory, and that only
    if fewer than [k] objects were free. *)
Definition call_result (k : nat) (r : res ctl * vm) (v : vm) (P : pc -> vm -> Prop) : Prop :=
  (exists c v', r = (Ok (Continue c), v') /\ P c v') \/
  (exists v', r = (Err outOfMemory, v') /\ (length (free v) < k)%nat).

(** * Returns *)

(** The call made by the step from [v] to [v'] is still running in every one of the states [l]. *)
Definition still_running (v : vm) (l : list vm) : Prop :=
  Forall (fun w => (length (call_stack v) < length (call_stack w))%nat) l.

(** The step from [v] to [v'] is a call. *)
Definition calls (v v' : vm) : Prop := length (call_stack v') = S (length (call_stack v)).

(** The step from [v] to [v'] is a return. *)
Definition returns (v v' : vm) : Prop := length (call_stack v) = S (length (call_stack v')).

(** Specifications for the machine's instructions. *)
From Coq Require Import ZArith List.
Import ListNotations.
From Verif Require Import M_Base M_Heap M_Instr M_VM S_Heap.
Open Scope Z_scope.

(** The value and captured-variable stacks have the same height. *)
Definition in_step (v : vm) : Prop := length (stack v) = length (ustack v).

(** C callbacks that leave the call stack, the current byte code and the type counter alone. *)
Definition quiet (host : Z -> M unit) : Prop := forall c v,
  let v' := snd (host c v) in
  call_stack v' = call_stack v /\ uacs v' = uacs v /\ next_user_type v' = next_user_type v /\
  current_bytecode v' = current_bytecode v /\ length (objects v') = length (objects v).

(** Everything that can happen to a machine: any instructions in any order, in any of several
    executions, successful or not, and anything else that leaves the type counter alone.  [ts]
    collects the types returned by make-type. *)
Inductive life (host : Z -> M unit) (v0 : vm) : list Z -> vm -> Prop :=
| life_start : life host v0 [] v0
| life_other ts v base next i r v' : life host v0 ts v -> i <> IMakeType ->
    exec host base next i v = (r, v') -> life host v0 ts v'
| life_make_type ts v base next r v' t : life host v0 ts v ->
    exec host base next IMakeType v = (r, v') -> stack v' = OType t :: stack v ->
    life host v0 (t :: ts) v'
| life_api ts v v' : life host v0 ts v -> next_user_type v' = next_user_type v ->
    life host v0 ts v'.

(** Executions: [steps host base c v l c' v'], where [l] lists the states passed, the last one
    included. *)
Inductive steps (host : Z -> M unit) (base : ptr) : pc -> vm -> list vm -> pc -> vm -> Prop :=
| steps_none c v : steps host base c v [] c v
| steps_more c v c1 v1 l c2 v2 : step host base c v = (Ok (Continue c1), v1) ->
    steps host base c1 v1 l c2 v2 -> steps host base c v (v1 :: l) c2 v2.

(** [at_pos v i x]: the machine's stack holds [x] at distance [i] from the top, 1 being the top. *)
Definition at_pos (v : vm) (i : Z) (x : object) : Prop :=
  1 <= i /\ nth_error (stack v) (Z.to_nat (i - 1)) = Some x.

(** [v] with one more value on its stack. *)
Definition pushed (o : object) (v : vm) : vm :=
  set_ustack (set_stack v (o :: stack v)) (None :: ustack v).

(** The bytes a string value stands for: those from [offset] up to [len] in its buffer. *)
Inductive string_value (os : list object) : object -> list Z -> Prop :=
| string_empty s o : string_value os (OString s o o) []
| string_bytes_of p b o l : nth_error os p = Some (OInternalString (Some b)) ->
    0 <= o -> o < l -> l <= Z.of_nat (length b) ->
    string_value os (OString (Some p) o l) (firstn (Z.to_nat (l - o)) (skipn (Z.to_nat o) b)).

(** * The heap between two instructions *)

Definition valid (v : vm) : Prop := heap_sound v /\ no_half_built v /\ free_ok v.

(** Objects a program can hold: everything but the machine's internal buffers and pairs. *)
Definition first_class (o : object) : Prop :=
  match o with
  | OCons _ _ | OUpvalue _ | OUpvalueArray _ _ _ | OInternalVector _ _ _ | OBytecode _ _
  | OInternalComposite _ _ _ | OInternalString _ => False
  | _ => True
  end.

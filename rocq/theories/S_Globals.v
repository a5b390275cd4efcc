(** Specification of global variables. *)
From Coq Require Import ZArith List.
Import ListNotations.
From Verif Require Import M_Base M_Heap M_Instr M_VM.
Open Scope Z_scope.

(** The value given by the last assignment to [k] in a chronological list of assignments. *)
Fixpoint last_assigned (l : list (Z * optr)) (k : Z) : option optr :=
  match l with
  | [] => None
  | (j, p) :: l' =>
    match last_assigned l' k with
    | Some q => Some q
    | None => if j =? k then Some p else None
    end
  end.

(** Performing the assignments one after the other. *)
Fixpoint assign_all (l : list (Z * optr)) : M unit :=
  match l with
  | [] => mret tt
  | (k, p) :: l' => global_set p k ;;; assign_all l'
  end.

(** The two arrays of globals belong together. *)
Definition globals_ok (v : vm) : Prop :=
  length (globals v) = length (globals_map v) /\ NoDup (globals_map v).

(** Reading global [k] pushes [o]. *)
Definition reads host base next k (v : vm) (o : object) : Prop :=
  exists v', exec host base next (IPushGlobal k) v = (Ok (Continue next), v') /\
    stack v' = o :: stack v /\ objects v' = objects v.

(** Reading global [k] is an error. *)
Definition unassigned host base next k (v : vm) : Prop :=
  exec host base next (IPushGlobal k) v = (Err invalidValue, v).

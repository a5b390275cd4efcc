(** Specifications of captured variables.  Nothing here mentions the machine's functions. *)
From Coq Require Import ZArith List.
Import ListNotations.
From Verif Require Import M_Base M_Heap M_Instr M_VM S_Heap S_VM S_Types S_Data.
Open Scope Z_scope.

(** A variable is an upvalue object that holds a stack position or an object.  What a closure has
    captured stands for a variable, directly or through the closures it was captured from. *)
Inductive variable (os : list object) : ptr -> ptr -> Prop :=
| variable_itself e u : nth_error os e = Some (OUpvalue u) -> (forall r, u <> UpUpvalue r) -> variable os e e
| variable_next p r e : nth_error os p = Some (OUpvalue (UpUpvalue (Some r))) -> variable os r e -> variable os p e.

(** Stack position [k], counted from the bottom. *)
Definition slot (v : vm) (k : Z) (x : object) : Prop := 0 <= k /\ nth_error (rev (stack v)) (Z.to_nat k) = Some x.

(** The variable that stack position [k] is, if a closure captured it. *)
Definition mark (v : vm) (k : Z) (e : ptr) : Prop := 0 <= k /\ nth_error (rev (ustack v)) (Z.to_nat k) = Some (Some e).

(** The value of a variable. *)
Inductive value_of (v : vm) (e : ptr) (x : object) : Prop :=
| value_slot k : nth_error (objects v) e = Some (OUpvalue (UpStack k)) -> slot v k x -> value_of v e x
| value_box q : nth_error (objects v) e = Some (OUpvalue (UpObject (Some q))) -> nth_error (objects v) q = Some x -> value_of v e x.

(** Number [i] of what the running closure captured. *)
Definition captures (v : vm) (i : Z) (p : optr) : Prop :=
  exists a id n rest cs len, uacs v = UARef (Some (a, id)) n :: rest /\
    nth_error (objects v) a = Some (OUpvalueArray id (Some cs) len) /\
    0 <= i /\ nth_error cs (Z.to_nat i) = Some (Cell p).

(** Variables are distinct: no two are at the same stack position or in the same object, and those at
    a stack position are the ones recorded for it. *)
Record separate (v : vm) : Prop := {
  sp_slots : forall e k, live v e -> nth_error (objects v) e = Some (OUpvalue (UpStack k)) -> mark v k e;
  sp_marks : forall e k, mark v k e -> nth_error (objects v) e = Some (OUpvalue (UpStack k));
  sp_boxes : forall e e' q, live v e -> live v e' -> nth_error (objects v) e = Some (OUpvalue (UpObject (Some q))) ->
    nth_error (objects v) e' = Some (OUpvalue (UpObject (Some q))) -> e = e'
}.

(** Everything the program can reach of the variables of [v] is there in [v'], with the same values. *)
Record variables_kept (v v' : vm) : Prop := {
  vk_same : forall p e, reach v p -> variable (objects v) p e -> variable (objects v') p e;
  vk_values : forall e x, reach v e -> value_of v e x -> value_of v' e x
}.

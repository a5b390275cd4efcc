(** What a host sees of sequences, closures and other values (C72). *)
From Coq Require Import ZArith List.
Import ListNotations.
From Verif Require Import M_Base M_Heap M_Instr M_VM M_Host S_Heap S_VM S_Types S_Data S_Closure S_Host.
Open Scope Z_scope.

(** The part of a value that a call copies. *)
Definition part (v : vm) (c : call) (o : object) (a : answer) : Prop :=
  match c, o with
  | HCopyBoolean, OBool b => a = Number b
  | HCopySignedInteger, OInteger n => a = Number n
  | HCopyFloat, OFloat f => a = Real f
  | HCopySymbolId, OSymbol id _ => a = Number id
  | HCopyType, OType t => a = Number t
  | HCopyCompositeType, OComposite (Some p) =>
    exists t x f, nth_error (objects v) p = Some (OInternalComposite t x f) /\ a = Number t
  | HCopyClosureName, OClosure n _ _ _ _ => a = Number n
  | HCopyClosureArity, OClosure _ _ _ n _ => a = Number n
  | HCopyClosureIsVariadic, OClosure _ _ _ _ r => a = Number (if r then 1 else 0)
  | _, _ => False
  end.
Definition copies_part (c : call) : Prop :=
  match c with
  | HCopyBoolean | HCopySignedInteger | HCopyFloat | HCopySymbolId | HCopyType | HCopyCompositeType
  | HCopyClosureName | HCopyClosureArity | HCopyClosureIsVariadic => True
  | _ => False
  end.

(** The sequence a value stands for. *)
Inductive sequence (v : vm) : object -> list object -> Prop :=
| sequence_list l xs : list_value (objects v) l xs -> sequence v (OList l) xs
| sequence_vector e offset xs : vector_value v (OVector e offset) xs -> not_shrunk v (OVector e offset) -> sequence v (OVector e offset) xs
| sequence_string s offset len b : string_value (objects v) (OString s offset len) b -> sequence v (OString s offset len) (map OInteger b).

(** The string or vector begins at the start of its buffer. *)
Definition from_start (o : object) : Prop := match o with OString _ offset _ => offset = 0 | _ => True end.
Definition whole_vector (o : object) : Prop := match o with OVector (Some _) offset => offset = 0 | _ => True end.
Definition is_list (o : object) : Prop := match o with OList _ => True | _ => False end.
Definition is_vector (o : object) : Prop := match o with OVector _ _ => True | _ => False end.

(** A closure captured [k] variables, and number [i] of them is what [p] stands for. *)
Definition captured_number (v : vm) (o : object) (k : Z) : Prop :=
  exists n b u a r id cs, o = OClosure n b (Some u) a r /\ nth_error (objects v) u = Some (OUpvalueArray id cs k).
Definition captured_at (v : vm) (o : object) (i : Z) (p : ptr) : Prop :=
  exists n b u a r id cs len, o = OClosure n b (Some u) a r /\
    nth_error (objects v) u = Some (OUpvalueArray id (Some cs) len) /\
    0 <= i < len /\ nth_error cs (Z.to_nat i) = Some (Cell (Some p)).

(** [v'] is [v] without the topmost [n] values. *)
Definition popped (n : Z) (v v' : vm) : Prop :=
  exists xs us, stack v = xs ++ stack v' /\ ustack v = us ++ ustack v' /\ zlen xs = n /\ zlen us = n /\
    v' = set_stack (set_ustack v (ustack v')) (stack v').

(** [v'] is [v] after the assignment of [x] to the variable [e]: what the program can reach of the other
    variables has its value, and so have the stack positions that are not this variable. *)
Record only_assigned (v : vm) (e : ptr) (x : object) (v' : vm) : Prop := {
  oa_value : value_of v' e x;
  oa_others : forall e' z, reach v e' -> e' <> e -> value_of v e' z -> value_of v' e' z;
  oa_slot : forall k, mark v k e -> slot v' k x;
  oa_slots : forall k z, ~ mark v k e -> slot v k z -> slot v' k z;
  oa_marks : ustack v' = ustack v;
  oa_height : length (stack v') = length (stack v)
}.

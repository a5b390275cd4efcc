(** What a host program may rely on when it calls the machine. *)
From Coq Require Import ZArith List Floats.SpecFloat.
Import ListNotations.
From Verif Require Import M_Base M_Heap M_Instr M_VM M_Host S_Heap S_VM S_Num S_Globals S_Types S_Data.
Open Scope Z_scope.

(** Positions on the stack as the host counts them: from the bottom, or with negative numbers from
    the top, -1 being the top. *)
Definition at_index (v : vm) (i : Z) (o : object) : Prop :=
  0 <= i /\ nth_error (rev (stack v)) (Z.to_nat i) = Some o \/
  i < 0 /\ nth_error (stack v) (Z.to_nat (- i - 1)) = Some o.
Definition on_top (v : vm) (o : object) : Prop := hd_error (stack v) = Some o.

(** A sequence of calls, all of them successful, with what they give back. *)
Inductive all_ok : list call -> vm -> list answer -> vm -> Prop :=
| all_none v : all_ok [] v [] v
| all_more c l v a v1 r v2 : perform c v = (Ok a, v1) -> all_ok l v1 r v2 -> all_ok (c :: l) v (a :: r) v2.

(** [v] with [o] instead of the top of the stack. *)
Definition with_top (o : object) (v : vm) : vm := set_stack v (o :: tl (stack v)).

(** * Calls that cannot do harm *)

(** The sizes of the vector and of the closure behind a value. *)
Definition not_shrunk (v : vm) (o : object) : Prop :=
  forall p offset cs len ini, o = OVector (Some p) offset ->
    nth_error (objects v) p = Some (OInternalVector cs len ini) -> offset <= len.
Definition not_empty (v : vm) (o : object) : Prop :=
  exists p offset cs len ini, o = OVector (Some p) offset /\
    nth_error (objects v) p = Some (OInternalVector cs len ini) /\ offset < len.
Definition captures (v : vm) (o : object) (i : Z) : Prop :=
  forall n b p a r id cs len, o = OClosure n b (Some p) a r ->
    nth_error (objects v) p = Some (OUpvalueArray id cs len) -> 0 <= i < len.

Definition proper (v : vm) (c : call) : Prop :=
  match c with
  (* undefined unless the stack is empty *)
  | HSetGlobal _ => stack v = []
  | HSetInteger n => machine_integer n
  | HPushString s => zlen s <= max_size /\ Forall byte s
  | HPushSymbol id s => machine_integer id /\ zlen s <= max_size /\ Forall byte s
  | HPushCompressedSymbol id => machine_integer id
  (* the collector does not see the first of the two objects made *)
  | HPushComposite _ => (2 <= length (free v))%nat
  (* the elements are null pointers *)
  | HPushVector n => n = 0
  (* byte code is not a value *)
  | HPushClosureBytecode => forall o, on_top v o -> match o with OClosure _ _ _ _ _ => False | _ => True end
  (* errors make them push a variable that has not been set *)
  | HPushFirst => forall o, on_top v o ->
      match o with
      | OList _ => True
      | OVector _ _ => not_empty v o
      | OString _ _ len => 0 < len
      | _ => False
      end
  | HPushRest => forall o, on_top v o ->
      match o with OList _ | OVector (Some _) _ | OString _ _ _ => True | _ => False end
  (* a pair is not a value; indices into strings and closures are not checked *)
  | HPushElement i => machine_integer i /\ forall o, on_top v o ->
      match o with
      | OList _ => False
      | OVector _ _ => not_shrunk v o
      | OString _ _ len => 0 <= i < len
      | OClosure _ _ _ _ _ => captures v o i
      | _ => True
      end
  | HSetFirst i => forall o, at_index v i o -> not_shrunk v o /\ captures v o 0
  | HSetElement i j => machine_integer i /\ forall o, at_index v j o -> not_shrunk v o /\ captures v o i
  | _ => True
  end.

(** Calls that are proper in every state. *)
Definition harmless_call (c : call) : Prop :=
  match c with
  | HSetGlobal _ | HPushComposite _ | HPushClosureBytecode | HPushFirst | HPushRest | HPushElement _
  | HSetFirst _ | HSetElement _ _ => False
  | HSetInteger n => machine_integer n
  | HPushString s => zlen s <= max_size /\ Forall byte s
  | HPushSymbol id s => machine_integer id /\ zlen s <= max_size /\ Forall byte s
  | HPushCompressedSymbol id => machine_integer id
  | HPushVector n => n = 0
  | _ => True
  end.

(** C code whose calls are proper when it makes them. *)
CoInductive careful : vm -> client -> Prop :=
| careful_return v e : careful v (Return e)
| careful_call v c k : proper v c ->
    (forall a v', perform c v = (Ok a, v') -> careful v' (k (inr a))) ->
    (forall e v', perform c v = (Err e, v') -> careful v' (k (inl e))) ->
    careful v (Call c k).

(** C code that only makes harmless calls. *)
CoInductive gentle : client -> Prop :=
| gentle_return e : gentle (Return e)
| gentle_call c k : harmless_call c -> (forall r, gentle (k r)) -> gentle (Call c k).

(** C callbacks made of such code. *)
Definition callbacks (fuel : nat) (program : Z -> client) : Z -> M unit := fun c => run_client fuel (program c).

(** * What calls give *)

(** A call without an answer either leads to a state satisfying [P] or runs out of memory, and that
    only if fewer than [k] objects were free. *)
Definition host_result (k : nat) (r : res answer * vm) (v : vm) (P : vm -> Prop) : Prop :=
  (exists v', r = (Ok Nothing, v') /\ P v') \/
  (exists v', r = (Err outOfMemory, v') /\ (length (free v) < k)%nat).

(** [v'] is [v], where of the objects the program could reach only those in [S] have changed. *)
Record altered (S : ptr -> Prop) (v v' : vm) : Prop := {
  al_stack : stack v' = stack v;
  al_ustack : ustack v' = ustack v;
  al_globals : globals v' = globals v;
  al_globals_map : globals_map v' = globals_map v;
  al_calls : call_stack v' = call_stack v;
  al_uacs : uacs v' = uacs v;
  al_current : current_bytecode v' = current_bytecode v;
  al_types : next_user_type v' = next_user_type v;
  al_heap : forall p, reach v p -> ~ S p -> nth_error (objects v') p = nth_error (objects v) p
}.

(** The bytes a host is given: a null pointer is allowed when there are none. *)
Definition gives_text (b : list Z) (a : answer) : Prop :=
  exists x, a = Text x (Some (zlen b)) /\ match x with Some y => y = b | None => b = [] end.

(** The name of a symbol. *)
Definition named (v : vm) (o : object) (id : Z) (name : list Z) : Prop :=
  exists p t, o = OSymbol id (Some p) /\ nth_error (objects v) p = Some (OInternalString t) /\
    match t with Some b => b = name | None => name = [] end.

(** Calls that only ask. *)
Definition asks (c : call) : Prop :=
  match c with
  | HStackLength | HTypeOf | HIs _ | HIsCons | HIsNil | HIsEmptyVector | HIsEmpty
  | HCopyBoolean | HCopySignedInteger | HCopyUnsignedInteger | HCopyFloat | HCopyString
  | HCopySymbolName | HCopySymbolId | HCopyType | HCopyCompositeType
  | HCopyClosureName | HCopyClosureArity | HCopyClosureIsVariadic | HLength => True
  | _ => False
  end.

(** The setters of plain values: the value they store, and the values they may overwrite. *)
Definition stores (c : call) (old new : object) : Prop :=
  match c, old with
  | HSetBoolean b, OBool _ => new = OBool b
  | HSetInteger n, OInteger _ => new = OInteger n
  | HSetFloat f, OFloat _ => new = OFloat f
  | _, _ => False
  end.
Definition setter (c : call) : Prop :=
  match c with HSetBoolean _ | HSetInteger _ | HSetFloat _ => True | _ => False end.

(** [l'] is [l] with [x] at the position the host calls [i]. *)
Definition replaced (l : list object) (i : Z) (x : object) (l' : list object) : Prop :=
  0 <= i /\ rev l' = updated (Z.to_nat i) x (rev l) \/ i < 0 /\ l' = updated (Z.to_nat (- i - 1)) x l.

(** An answer to a question. *)
Definition tells (r : res answer * vm) (v : vm) (P : Prop) : Prop :=
  exists n, r = (Ok (Number n), v) /\ (n = 1 /\ P \/ n = 0 /\ ~ P).

(** The types handed out in the life of a machine: to programs by make-type, to C code by
    duckVM_pushNewType, with anything else between that leaves the type counter alone. *)
Inductive handed_out (host : Z -> M unit) (v0 : vm) : list Z -> vm -> Prop :=
| handed_none : handed_out host v0 [] v0
| handed_instruction ts v base next i r v' : handed_out host v0 ts v -> i <> IMakeType ->
    exec host base next i v = (r, v') -> handed_out host v0 ts v'
| handed_make_type ts v base next r v' t : handed_out host v0 ts v ->
    exec host base next IMakeType v = (r, v') -> stack v' = OType t :: stack v -> handed_out host v0 (t :: ts) v'
| handed_new_type ts v r v' t : handed_out host v0 ts v ->
    perform HPushNewType v = (r, v') -> stack v' = OType t :: stack v -> handed_out host v0 (t :: ts) v'
| handed_other ts v v' : handed_out host v0 ts v -> next_user_type v' = next_user_type v -> handed_out host v0 ts v'.

(** What a reset leaves: the heap and the globals as they are, nothing on the stacks, and of the
    upvalue arrays those that belong to no dropped call. *)
Record cleared (v v' : vm) : Prop := {
  cl_stack : stack v' = [];
  cl_ustack : ustack v' = [];
  cl_calls : call_stack v' = [];
  cl_uacs : exists dropped, uacs v = dropped ++ uacs v' /\ length dropped = length (call_stack v);
  cl_objects : objects v' = objects v;
  cl_free : free v' = free v;
  cl_globals : globals v' = globals v;
  cl_globals_map : globals_map v' = globals_map v;
  cl_current : current_bytecode v' = current_bytecode v;
  cl_types : next_user_type v' = next_user_type v
}.
